(** The expander turns well-formed trees into well-formed trees. *)
From Verif Require Import Base AstLib UtilsModel UtilsProofs FixLocModel ExpanderModel ExpanderSpec ExpanderProofs ExpanderProofs2 ExpandSpec.

Definition el_ok (x : ltree) : Prop := is_list x = false /\ wf x = true.
Lemma wf1_field f v r : wf (Nd noloc "" ((f, v) :: r)) = true <-> well_formed v /\ wf (Nd noloc "" r) = true.
Proof.
  cbn [wf forallb]. rewrite andb_true_iff. split; intros [H1 H2]; (split; [|exact H2]); destruct v as [m k fs|l|a]; try exact H1.
  - cbn [well_formed]. rewrite forallb_forall in H1. apply Forall_forall. intros x Hx. specialize (H1 x Hx). apply andb_true_iff in H1. destruct H1 as [Ha Hb]. apply negb_true_iff in Ha. auto.
  - cbn [well_formed] in H1. rewrite Forall_forall in H1. apply forallb_forall. intros x Hx. destruct (H1 x Hx) as [Ha Hb]. rewrite Ha, Hb. reflexivity.
Qed.
Lemma wf1_node m k fs : well_formed (Nd m k fs) <-> wf (Nd noloc "" fs) = true.
Proof. reflexivity. Qed.
Lemma wf1_wf t : well_formed t -> wf t = true.
Proof. destruct t as [m k fs|l|a]; auto. cbn. intros H. rewrite forallb_forall. rewrite Forall_forall in H. intros x Hx. apply (H x Hx). Qed.
Lemma flatten_el_ok l : Forall (fun x : ltree => well_formed x) l -> Forall el_ok (flatten l).
Proof.
  intros H. apply Forall_forall. intros x Hx. pose proof (flatten_flat l) as HF. rewrite Forall_forall in HF. destruct (HF x Hx) as [H1 H2]. split; [exact H1|].
  rewrite flatten_print in Hx. clear HF H1 H2.
  assert (G : forall t : ltree, wf t = true -> forall y, In y (UtilsSpec.erase_brackets (UtilsSpec.print t)) -> wf y = true).
  { clear. induction t as [m k fs _|sub IH|a] using tree_ind'; intros Ht y Hy.
    - destruct Hy as [Hy|[]]; subst; exact Ht.
    - simpl in Hy. rewrite erase_app in Hy. simpl in Hy. rewrite app_nil_r in Hy. cbn [wf] in Ht. rewrite forallb_forall in Ht. rewrite Forall_forall in IH.
      induction sub as [|z sub IHs]; [destruct Hy|]. simpl in Hy. rewrite erase_app in Hy. apply in_app_or in Hy. destruct Hy as [Hy|Hy].
      + apply (IH z); [left; reflexivity|apply Ht; left; reflexivity|exact Hy].
      + apply IHs; [intros w Hw; apply IH; right; exact Hw|intros w Hw; apply Ht; right; exact Hw|exact Hy].
    - destruct a; cbn in Hy; repeat match type of Hy with _ \/ _ => destruct Hy as [Hy|Hy] | False => destruct Hy end; subst; reflexivity. }
  induction H as [|z l Hz _ IHl]; [destruct Hx|]. simpl in Hx. rewrite erase_app in Hx. apply in_app_or in Hx. destruct Hx as [Hx|Hx]; [exact (G z (wf1_wf _ Hz) x Hx)|]. exact (IHl Hx).
Qed.

Section Wf.
  Context {U : Type}.
  Variable E : env U.
  Hypothesis Hfix : forall v tg v', well_formed v -> x_fix E v tg = Ok v' -> well_formed v'.

  (** What macros have returned so far is well-formed. *)
  Definition returned_ok (d : list event) : Prop := forall v, In (ERet (XOk v)) d -> well_formed v.
  Definition wstep (s s' : st U) (P : Prop) : Prop := incl (s_log s) (s_log s') /\ (returned_ok (s_log s') -> P).
  Definition wvisit (n : nat) : Prop := forall t s t' s', visit E n t s = Some (XOk t', s') -> well_formed t -> wstep s s' (well_formed t').

  Lemma incl_log n t s r s' : visit E n t s = Some (r, s') -> incl (s_log s) (s_log s').
  Proof. intros H. destruct (visit_mode E _ _ _ _ _ H) as [_ [d [L _]]]. rewrite L. apply incl_appl, incl_refl. Qed.
  Lemma ok_incl a b : incl a b -> returned_ok b -> returned_ok a.
  Proof. intros H Hb v Hv. apply Hb, H, Hv. Qed.

  Lemma w_list n : wvisit n -> forall l s l' s', xgv_list (visit E n) l s = Some (XOk l', s') -> Forall el_ok l -> wstep s s' (Forall el_ok l').
  Proof.
    intros HV. induction l as [|x l IH]; intros s l' s' H HF; cbn [xgv_list] in H.
    { inversion H; subst. split; [apply incl_refl|auto]. }
    inversion HF as [|? ? Hx HF']; subst.
    destruct x as [m k fs|sub|a]; [|destruct Hx; discriminate|].
    - unfold bnd at 1 in H. destruct (visit E n (Nd m k fs) s) as [[[x'|e] s1]|] eqn:E1; try discriminate.
      destruct (HV _ _ _ _ E1 (proj2 Hx)) as [I1 W1]. destruct x' as [m' k' fs'|sub|a].
      + unfold bnd in H. destruct (xgv_list (visit E n) l s1) as [[[r'|e] s2]|] eqn:E2; try discriminate. inversion H; subst. destruct (IH _ _ _ E2 HF') as [I2 W2].
        split; [eapply incl_tran; eassumption|]. intros Hok. constructor; [split; [reflexivity|exact (W1 (ok_incl _ _ I2 Hok))]|exact (W2 Hok)].
      + unfold bnd in H. destruct (xgv_list (visit E n) l s1) as [[[r'|e] s2]|] eqn:E2; try discriminate. inversion H; subst. destruct (IH _ _ _ E2 HF') as [I2 W2].
        split; [eapply incl_tran; eassumption|]. intros Hok. apply Forall_app. split; [exact (W1 (ok_incl _ _ I2 Hok))|exact (W2 Hok)].
      + destruct a; try discriminate. destruct (IH _ _ _ H HF') as [I2 W2]. split; [eapply incl_tran; eassumption|exact W2].
    - unfold bnd in H. destruct (xgv_list (visit E n) l s) as [[[r'|e] s2]|] eqn:E2; try discriminate. inversion H; subst. destruct (IH _ _ _ E2 HF') as [I2 W2].
      split; [exact I2|]. intros Hok. constructor; [split; reflexivity|exact (W2 Hok)].
  Qed.
  Lemma w_fields n : wvisit n -> forall fs s fs' s', xgv_fields (visit E n) fs s = Some (XOk fs', s') -> wf (Nd noloc "" fs) = true -> wstep s s' (wf (Nd noloc "" fs') = true).
  Proof.
    intros HV. induction fs as [|[f x] fs IH]; intros s fs' s' H Hw; cbn [xgv_fields] in H.
    { inversion H; subst. split; [apply incl_refl|auto]. }
    apply wf1_field in Hw. destruct Hw as [Hx Hw]. destruct x as [m k fx|l|a].
    - unfold bnd at 1 in H. destruct (visit E n (Nd m k fx) s) as [[[x'|e] s1]|] eqn:E1; try discriminate. destruct (HV _ _ _ _ E1 Hx) as [I1 W1].
      assert (Go : forall r' s2, xgv_fields (visit E n) fs s1 = Some (XOk r', s2) -> s2 = s' -> (fs' = r' \/ fs' = (f, x') :: r') -> wstep s s' (wf (Nd noloc "" fs') = true)).
      { intros r' s2 E2 -> Hs. destruct (IH _ _ _ E2 Hw) as [I2 W2]. split; [eapply incl_tran; eassumption|]. intros Hok. destruct Hs as [->| ->]; [exact (W2 Hok)|]. apply wf1_field. split; [exact (W1 (ok_incl _ _ I2 Hok))|exact (W2 Hok)]. }
      destruct (is_none x') eqn:Hnone.
      + destruct x' as [| |[]]; try discriminate. eapply Go; eauto.
      + assert (H' : bnd (xgv_fields (visit E n) fs) (fun r' => ret ((f, x') :: r')) s1 = Some (XOk fs', s')) by (destruct x' as [| |[]]; try discriminate; exact H).
        unfold bnd in H'. destruct (xgv_fields (visit E n) fs s1) as [[[r'|e] s2]|] eqn:E2; try discriminate. inversion H'; subst. eapply Go; eauto.
    - unfold bnd in H. destruct (xgv_list (visit E n) l s) as [[[l'|e] s1]|] eqn:E1; try discriminate. destruct (xgv_fields (visit E n) fs s1) as [[[r'|e] s2]|] eqn:E2; try discriminate. inversion H; subst.
      destruct (w_list n HV _ _ _ _ E1 Hx) as [I1 W1]. destruct (IH _ _ _ E2 Hw) as [I2 W2]. split; [eapply incl_tran; eassumption|]. intros Hok. apply wf1_field. split; [exact (W1 (ok_incl _ _ I2 Hok))|exact (W2 Hok)].
    - unfold bnd in H. destruct (xgv_fields (visit E n) fs s) as [[[r'|e] s2]|] eqn:E2; try discriminate. inversion H; subst. destruct (IH _ _ _ E2 Hw) as [I2 W2]. split; [exact I2|]. intros Hok. apply wf1_field. split; [reflexivity|exact (W2 Hok)].
  Qed.
  Lemma w_generic n : wvisit n -> forall m k fs s t' s', xgeneric_visit (visit E n) (Nd m k fs) s = Some (XOk t', s') -> well_formed (Nd m k fs) -> wstep s s' (well_formed t').
  Proof.
    intros HV m k fs s t' s' H Hw. unfold xgeneric_visit, bnd in H. destruct (xgv_fields (visit E n) fs s) as [[[fs'|e] s1]|] eqn:E1; try discriminate. inversion H; subst.
    destruct (w_fields n HV _ _ _ _ E1 Hw) as [I W]. split; [exact I|]. intros Hok. exact (W Hok).
  Qed.
  Lemma w_elts n : wvisit n -> forall l s l' s', xvisit_elts (visit E n) l s = Some (XOk l', s') -> Forall (fun x : ltree => well_formed x) l -> wstep s s' (Forall (fun x : ltree => well_formed x) l').
  Proof.
    intros HV. induction l as [|x l IH]; intros s l' s' H HF; cbn [xvisit_elts] in H.
    { inversion H; subst. split; [apply incl_refl|auto]. }
    inversion HF as [|? ? Hx HF']; subst. unfold bnd in H. destruct (visit E n x s) as [[[x'|e] s1]|] eqn:E1; try discriminate. destruct (xvisit_elts (visit E n) l s1) as [[[r'|e] s2]|] eqn:E2; try discriminate. inversion H; subst.
    destruct (HV _ _ _ _ E1 Hx) as [I1 W1]. destruct (IH _ _ _ E2 HF') as [I2 W2]. split; [eapply incl_tran; eassumption|]. intros Hok. constructor; [exact (W1 (ok_incl _ _ I2 Hok))|exact (W2 Hok)].
  Qed.
  Lemma w_typecheck v v' : well_formed v -> typecheck v = Some v' -> well_formed v'.
  Proof.
    destruct v as [m k fs|l|a]; cbn [typecheck]; intros Hw H.
    - inversion H; subst. exact Hw.
    - destruct (forallb is_node l); [|discriminate]. inversion H; subst. exact Hw.
    - destruct a; try discriminate; try (inversion H; subst; exact Hw); destruct s; try discriminate; inversion H; subst; constructor.
  Qed.
  Lemma w_expansion n : wvisit n -> forall v tg s t' s', visit_expansion E (visit E n) v tg s = Some (XOk t', s') -> well_formed v -> wstep s s' (well_formed t').
  Proof.
    intros HV v tg s t' s' H Hw. unfold visit_expansion in H. destruct (is_none v) eqn:Hn.
    - destruct v as [| |[]]; try discriminate. inversion H; subst. split; [apply incl_refl|intros _; reflexivity].
    - assert (H' : bnd (of_res (lift (x_fix E v tg))) (fun t => fun s => if s_rec s then visit E n t s else Some (XOk t, s)) s = Some (XOk t', s')) by (destruct v as [| |[]]; try discriminate; exact H).
      unfold bnd, of_res in H'. destruct (x_fix E v tg) as [v'|e] eqn:Ex; cbn [lift] in H'; [|discriminate]. pose proof (Hfix _ _ _ Hw Ex) as Hv.
      destruct (s_rec s); [exact (HV _ _ _ _ H' Hv)|]. inversion H'; subst. split; [apply incl_refl|auto].
  Qed.
  Lemma w_expand n : wvisit n -> forall k x i s t' s', expand E k (visit E n) x i s = Some (XOk t', s') -> wstep s s' (well_formed t').
  Proof.
    intros HV k x i s t' s' H. unfold expand in H. destruct (isbound (s_b s) x) as [j|]; [|discriminate].
    destruct (apply_macro E k (visit E n) j x i s) as [[[v|e] s1]|] eqn:Ea; try discriminate.
    destruct (typecheck v) as [v'|] eqn:Et; [|discriminate]. unfold bnd in H. destruct (visit_expansion E (visit E n) v' (in_target i) s1) as [[[t1|e] s2]|] eqn:Ev; try discriminate.
    cbn [emit] in H. inversion H; subst. clear H. unfold apply_macro in Ea. destruct (run (visit E n) k _ _) as [[r0 s0]|] eqn:Er; [|discriminate]. inversion Ea; subst. clear Ea.
    destruct (run_mode E _ _ _ _ _ _ Er) as [_ [d [L _]]]. cbn [logged s_log] in L.
    assert (Hv : wstep (logged (ERet (XOk v)) s0) s2 True).
    { destruct (expansion_mode E _ _ _ _ _ _ Ev) as [_ [d2 [L2 _]]]. split; [rewrite L2; apply incl_appl, incl_refl|auto]. }
    destruct Hv as [I2 _]. split.
    - cbn [logged s_log]. apply incl_appl. eapply incl_tran; [|exact I2]. cbn [logged s_log]. rewrite L, <- !app_assoc. apply incl_appl, incl_refl.
    - intros Hok. assert (Hok2 : returned_ok (s_log s2)) by (eapply ok_incl; [|exact Hok]; cbn [logged s_log]; apply incl_appl, incl_refl).
      assert (Hvw : well_formed v) by (apply Hok2, I2; cbn [logged s_log]; apply in_app_iff; right; left; reflexivity).
      exact (proj2 (w_expansion n HV _ _ _ _ _ Ev (w_typecheck _ _ Hvw Et)) Hok2).
  Qed.
  Lemma w_insert text m t t' : insert_dummy text m t = XOk t' -> well_formed t -> well_formed t'.
  Proof.
    unfold insert_dummy. destruct (ln m); [|destruct (co m); [discriminate|intros H; inversion H; subst; auto]].
    intros H Hw. inversion H; subst. cbn [well_formed]. constructor; [split; reflexivity|]. destruct t as [m' k fs|l|a].
    - constructor; [|constructor]. split; [reflexivity|exact Hw].
    - exact Hw.
    - destruct a; constructor; try constructor; split; reflexivity.
  Qed.

  Lemma w_visit n : wvisit n.
  Proof.
    induction n as [|n IH]; intros t s t' s' H Hw; [discriminate|]. cbn [visit] in H. unfold visit_body in H.
    destruct (match s_b s with [] => true | _ => false end || is_kind "Done" t); [inversion H; subst; split; [apply incl_refl|auto]|].
    destruct t as [m k fs|l|a].
    - destruct (String.eqb k "Subscript") eqn:K1.
      { apply String.eqb_eq in K1. subst k. unfold visit_Subscript in H. destruct (attr "value" fs) as [c|e]; [|discriminate]. destruct (destructure false c) as [d|e]; [|discriminate].
        destruct (match d with Some (x, args) => ismacrocall E (s_b s) x args "expr" | None => false end); [|exact (w_generic n IH _ _ _ _ _ _ H Hw)].
        destruct (destructure true c) as [[[x args]|]|e]; try discriminate; [|inversion H; subst; split; [apply incl_refl|auto]].
        destruct (attr "slice" fs) as [sl|e]; [|discriminate]. unfold bnd in H. destruct (expand E n (visit E n) x _ s) as [[[r|e] s1]|] eqn:Ee; try discriminate. inversion H; subst.
        destruct (w_expand n IH _ _ _ _ _ _ Ee) as [I W]. split; [exact I|]. intros Hok. destruct (is_none r); [reflexivity|exact (W Hok)]. }
      destruct (String.eqb k "With") eqn:K2.
      { apply String.eqb_eq in K2. subst k. unfold visit_With in H. destruct (attr "items" fs) as [items|e]; [|discriminate]. destruct (detect E (s_b s) true (elements items)) as [flags|e]; [|discriminate].
        destruct (first_true flags) as [i|]; [|exact (w_generic n IH _ _ _ _ _ _ H Hw)].
        destruct (nth_error (elements items) i) as [[mi ki ifs| |]|]; try (inversion H; subst; split; [apply incl_refl|auto]; fail).
        destruct (attr "context_expr" ifs) as [c|e]; [|discriminate].
        destruct (destructure true c) as [[[x args]|]|e]; destruct (attr "optional_vars" ifs) as [ov|e']; destruct (attr "body" fs) as [body|e'']; try discriminate; try (inversion H; subst; split; [apply incl_refl|auto]; fail).
        unfold bnd in H. destruct (expand E n (visit E n) x _ s) as [[[r|e] s1]|] eqn:Ee; try discriminate. destruct (w_expand n IH _ _ _ _ _ _ Ee) as [I W].
        unfold of_res in H. inversion H; subst. split; [exact I|]. intros Hok. eapply w_insert; [eassumption|exact (W Hok)]. }
      destruct (String.eqb k "ClassDef" || String.eqb k "FunctionDef") eqn:K3.
      { unfold visit_Decorated in H. destruct (attr "decorator_list" fs) as [ds|e]; [|discriminate]. destruct (detect E (s_b s) false (elements ds)) as [flags|e]; [|discriminate].
        destruct (last_true flags) as [i|]; [|exact (w_generic n IH _ _ _ _ _ _ H Hw)].
        destruct (nth_error (elements ds) i) as [c|]; [|inversion H; subst; split; [apply incl_refl|auto]].
        destruct (destructure true c) as [[[x args]|]|e]; try discriminate; [|inversion H; subst; split; [apply incl_refl|auto]].
        unfold bnd in H. destruct (expand E n (visit E n) x _ s) as [[[r|e] s1]|] eqn:Ee; try discriminate. destruct (w_expand n IH _ _ _ _ _ _ Ee) as [I W].
        unfold of_res in H. inversion H; subst. split; [exact I|]. intros Hok. eapply w_insert; [eassumption|exact (W Hok)]. }
      destruct (String.eqb k "Name") eqn:K4; [|exact (w_generic n IH _ _ _ _ _ _ H Hw)].
      apply String.eqb_eq in K4. subst k. unfold visit_Name in H. destruct (str_attr "id" fs) as [x|e]; [|discriminate].
      destruct (ismacrocall E (s_b s) x [] "name"); [|inversion H; subst; split; [apply incl_refl|auto]].
      unfold bnd, with_mode in H. destruct (expand E n (visit E n) x _ _) as [[[r|e] s1]|] eqn:Ee; try discriminate. destruct (w_expand n IH _ _ _ _ _ _ Ee) as [I W]. cbn [s_log] in I.
      set (s2 := mkSt (s_b s1) (s_rec s) (s_u s1) (s_log s1 ++ [EModeEnd])) in *.
      assert (I2 : incl (s_log s) (s_log s2)).
      { cbn. apply incl_appl. eapply incl_tran; [|exact I]. apply incl_appl, incl_refl. }
      assert (I3 : incl (s_log s1) (s_log s2)) by (cbn; apply incl_appl, incl_refl).
      assert (Go : forall u, (well_formed r -> well_formed u) -> Some (XOk u, s2) = Some (XOk t', s') -> wstep s s' (well_formed t')).
      { intros u Hu Heq. inversion Heq; subst. split; [exact I2|]. intros Hok. apply Hu, W. exact (ok_incl _ _ I3 Hok). }
      assert (Go2 : (if s_rec s2 then visit E n r s2 else Some (XOk r, s2)) = Some (XOk t', s') -> wstep s s' (well_formed t')).
      { destruct (s_rec s2); [|apply Go; auto]. intros Hv. assert (Il := incl_log _ _ _ _ _ Hv). split; [eapply incl_tran; eassumption|]. intros Hok.
        apply (proj2 (IH _ _ _ _ Hv (W (ok_incl _ _ (incl_tran I3 Il) Hok))) Hok). }
      destruct r as [m' k' fs'|l'|a'].
      + destruct (String.eqb k' "Name" && _); [|exact (Go2 H)]. eapply Go; [|exact H]. intros Hr. cbn [well_formed]. apply wf1_field. split; [exact Hr|reflexivity].
      + exact (Go2 H).
      + destruct a'; try exact (Go2 H). eapply Go; [|exact H]. reflexivity.
    - unfold bnd in H. destruct (xvisit_elts (visit E n) l s) as [[[l'|e] s1]|] eqn:E1; try discriminate.
      assert (HF : Forall (fun x : ltree => well_formed x) l).
      { cbn [well_formed] in Hw. eapply Forall_impl; [|exact Hw]. intros x [Ha Hb]. destruct x; try discriminate; exact Hb. }
      destruct (w_elts n IH _ _ _ _ E1 HF) as [I W]. destruct (flatten l') as [|y r] eqn:Ef; inversion H; subst; (split; [exact I|]); intros Hok; [reflexivity|]. cbn [well_formed]. rewrite <- Ef. exact (flatten_el_ok _ (W Hok)).
    - destruct a; try discriminate. inversion H; subst. split; [apply incl_refl|auto].
  Qed.
End Wf.
