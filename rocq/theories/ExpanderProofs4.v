(** Outcomes of macro applications, one layer of expansion, error reports. *)
From Verif Require Import Base AstLib UtilsModel FixLocModel ExpanderModel ExpanderSpec ExpanderProofs ExpanderProofs2 ExpanderProofs3.

(** ** Texts *)
Lemma join_split s : join_nl (split_nl s) = s.
Proof.
  induction s as [|c s IH]; [reflexivity|]. cbn [split_nl]. destruct (Ascii.eqb_spec c (ascii_of_nat 10)) as [->|Hc].
  - destruct (split_nl s) as [|y l] eqn:Es.
    + destruct s as [|c' s']; [discriminate|]. cbn in Es. destruct (Ascii.eqb c' _); [discriminate|]. destruct (split_nl s'); discriminate.
    + cbn [join_nl] in *. rewrite IH. reflexivity.
  - destruct (split_nl s) as [|y l] eqn:Es.
    + cbn in IH. subst s. reflexivity.
    + destruct l as [|z l]; cbn [join_nl] in *; rewrite <- IH; reflexivity.
Qed.
Lemma split_line a s : (forall c, In c (list_ascii_of_string a) -> c <> ascii_of_nat 10) -> split_nl (a ++ nl ++ s) = a :: split_nl s.
Proof.
  induction a as [|c a IH]; intros H; [reflexivity|]. cbn [append split_nl]. destruct (Ascii.eqb_spec c (ascii_of_nat 10)) as [->|Hc].
  - exfalso. apply (H (ascii_of_nat 10)); [left; reflexivity|reflexivity].
  - rewrite IH; [reflexivity|]. intros c' Hc'. apply H. right. exact Hc'.
Qed.
Lemma split_hint s : split_nl (hint ++ nl ++ s) = hint_lines ++ split_nl s.
Proof. vm_compute. reflexivity. Qed.
Lemma join_cons a l : l <> [] -> join_nl (a :: l) = (a ++ nl ++ join_nl l)%string.
Proof. destruct l; [contradiction|reflexivity]. Qed.
Lemma join_hint l : l <> [] -> join_nl (hint_lines ++ l) = (hint ++ nl ++ join_nl l)%string.
Proof. intros H. cbn [hint_lines app]. rewrite join_cons by discriminate. rewrite join_cons by discriminate. rewrite join_cons by exact H. vm_compute. reflexivity. Qed.

Section Outcomes.
  Context {U : Type}.
  Variable E : env U.

  Lemma typecheck_iff v v1 : typecheck v = Some v1 <-> accepted v v1.
  Proof.
    split.
    - destruct v as [m k fs|l|a]; cbn [typecheck]; intros H.
      + inversion H. constructor.
      + destruct (forallb is_node l) eqn:El; inversion H. constructor. apply Forall_forall. rewrite forallb_forall in El. exact El.
      + destruct a; try discriminate; try (inversion H; constructor); match goal with |- accepted (At (_ ?y)) _ => destruct y; [inversion H; constructor|discriminate] end.
    - intros H. destruct H; cbn [typecheck]; try reflexivity. rewrite (proj2 (forallb_forall _ _)); [reflexivity|]. rewrite Forall_forall in H. exact H.
  Qed.

  (** [expand], given what the macro function does. *)
  Definition expanded (n : nat) (x : string) (i : minput) (r : xres ltree) (s1 : st U) : option (xres ltree * st U) :=
    let s2 := logged (ERet r) s1 in
    let msg := site E i x in
    match r with
    | XRaise e => Some (XRaise (report E msg e), s2)
    | XOk v =>
        match typecheck v with
        | None => Some (XRaise (report E msg (plain (mkExn mae ["unexpected return value"%string]))), s2)
        | Some v1 => bnd (visit_expansion E (visit E n) v1 (in_target i)) (fun t => bnd (emit (EOut x (in_syntax i) t)) (fun _ => ret t)) s2
        end
    end.
  Lemma expand_outcome n x i s j r s1 : isbound (s_b s) x = Some j ->
    run (visit E n) n (m_run (x_macro E j) i) (logged (ECall x i (s_rec s)) s) = Some (r, s1) ->
    expand E n (visit E n) x i s = expanded n x i r s1.
  Proof. intros Hb Hr. unfold expand. rewrite Hb. unfold apply_macro. rewrite Hr. destruct r; reflexivity. Qed.

  Lemma called_rec n x i s r s1 : macro_outcome E n s x i r s1 -> s_rec s1 = if String.eqb (in_syntax i) "name" then false else s_rec s.
  Proof. intros [j [_ H]]. apply run_mode in H. destruct H as [H _]. rewrite H. unfold called_in. destruct (String.eqb _ _); reflexivity. Qed.

  (** The visit of an invocation, given what the macro function does. *)
  Lemma visit_outcome n s t c x i r s1 : shaped t -> next_call E (s_b s) t c x i -> ~ bad_call c -> macro_outcome E n s x i r s1 ->
    visit E (S n) t s =
      if String.eqb (in_syntax i) "name" then
        match expanded n x i r s1 with
        | None => None
        | Some (XRaise e, s2) => Some (XRaise e, mkSt (s_b s2) (s_rec s) (s_u s2) (s_log s2 ++ [EModeEnd]))
        | Some (XOk r2, s2) =>
            let s3 := mkSt (s_b s2) (s_rec s) (s_u s2) (s_log s2 ++ [EModeEnd]) in
            if is_none r2 then Some (XOk (dummy_expr (loc_of t)), s3)
            else if same_name x r2 then Some (XOk (done r2), s3)
            else if s_rec s then visit E n r2 s3 else Some (XOk r2, s3)
        end
      else match expanded n x i r s1 with
        | None => None
        | Some (XRaise e, s2) => Some (XRaise e, s2)
        | Some (XOk r2, s2) =>
            if String.eqb (in_syntax i) "expr" then Some (XOk (if is_none r2 then dummy_expr (loc_of t) else r2), s2)
            else let m := if String.eqb (in_syntax i) "block" then loc_of t else loc_of c in
                 Some (insert_dummy (x_text E m x) m r2, s2)
        end.
  Proof.
    intros Hs Hn Hbad Ho. destruct (visit_next E n s t c x i Hs Hn) as [_ V]. rewrite (V Hbad). clear V.
    destruct (next_kind E _ _ _ _ _ Hn) as [_ [_ Ht]]. destruct Ho as [j [Hb Hr]]. apply isbound_iff in Hb. unfold after. rewrite Ht. unfold called_in in Hr.
    assert (Hsyn : in_syntax i = "expr"%string \/ in_syntax i = "block"%string \/ in_syntax i = "decorator"%string \/ in_syntax i = "name"%string).
    { inversion Hn; subst; cbn; tauto. }
    destruct Hsyn as [Hy|[Hy|[Hy|Hy]]]; rewrite Hy in *; cbn [String.eqb Ascii.eqb Bool.eqb] in *.
    - unfold bnd. rewrite (expand_outcome n x i s j r s1 Hb Hr). destruct (expanded n x i r s1) as [[[r2|e] s2]|]; reflexivity.
    - unfold bnd. rewrite (expand_outcome n x i s j r s1 Hb Hr). destruct (expanded n x i r s1) as [[[r2|e] s2]|]; reflexivity.
    - unfold bnd. rewrite (expand_outcome n x i s j r s1 Hb Hr). destruct (expanded n x i r s1) as [[[r2|e] s2]|]; reflexivity.
    - unfold bnd, with_mode. rewrite (expand_outcome n x i (mkSt (s_b s) false (s_u s) (s_log s ++ [EMode false])) j r s1 Hb).
      + destruct (expanded n x i r s1) as [[[r2|e] s2]|]; try reflexivity. cbv zeta. destruct (is_none r2); [reflexivity|]. destruct (same_name x r2); reflexivity.
      + unfold logged. cbn [s_b s_rec s_u s_log]. rewrite <- app_assoc. exact Hr.
  Qed.
  (** Every visit of an invocation that ends, ends with an outcome of the macro function. *)
  Lemma visit_has_outcome n s t c x i r' s' : shaped t -> next_call E (s_b s) t c x i -> ~ bad_call c -> visit E (S n) t s = Some (r', s') ->
    exists r s1, macro_outcome E n s x i r s1.
  Proof.
    intros Hs Hn Hbad H. destruct (visit_next E n s t c x i Hs Hn) as [_ V]. rewrite (V Hbad) in H. clear V.
    destruct (next_bound E _ _ _ _ _ Hn) as [_ [j Hb]].
    assert (G : forall s0, isbound (s_b s0) x = Some j -> expand E n (visit E n) x i s0 <> None -> exists r s1, run (visit E n) n (m_run (x_macro E j) i) (logged (ECall x i (s_rec s0)) s0) = Some (r, s1)).
    { intros s0 Hb0 Hx. unfold expand in Hx. rewrite Hb0 in Hx. unfold apply_macro in Hx. destruct (run _ _ _ _) as [[r s1]|]; [eauto|contradiction]. }
    assert (Hsyn : in_syntax i = "expr"%string \/ in_syntax i = "block"%string \/ in_syntax i = "decorator"%string \/ in_syntax i = "name"%string).
    { inversion Hn; subst; cbn; tauto. }
    unfold macro_outcome, called_in. pose proof (proj1 (isbound_iff _ _ _) Hb) as Hb'.
    unfold after in H. destruct Hsyn as [Hy|[Hy|[Hy|Hy]]]; rewrite Hy in *; cbn [String.eqb Ascii.eqb Bool.eqb] in *.
    1-3: destruct (G s Hb) as [r [s1 Hr]]; [unfold bnd in H; intros Hx; rewrite Hx in H; discriminate|]; exists r, s1, j; split; [exact Hb'|exact Hr].
    destruct (G (mkSt (s_b s) false (s_u s) (s_log s ++ [EMode false])) Hb) as [r [s1 Hr]]; [unfold bnd, with_mode in H; intros Hx; rewrite Hx in H; discriminate|].
    exists r, s1, j. split; [exact Hb'|]. unfold logged in Hr. cbn [s_b s_rec s_u s_log] in Hr. rewrite <- app_assoc in Hr. exact Hr.
  Qed.
  Lemma same_name_iff x r : same_name x r = true <-> exists m fs, r = Nd m "Name" fs /\ getf "id" fs = Some (At (AStr x)).
  Proof.
    unfold same_name. split.
    - destruct r as [m k fs| |]; try discriminate. intros H. apply andb_true_iff in H. destruct H as [H1 H2]. apply String.eqb_eq in H1. subst.
      destruct (str_attr "id" fs) as [y|] eqn:Ea; [|discriminate]. apply String.eqb_eq in H2. subst. exists m, fs. split; [reflexivity|]. apply str_attr_inv. exact Ea.
    - intros [m [fs [-> H]]]. rewrite (str_attr_ok _ _ _ H). cbn. apply String.eqb_refl.
  Qed.

  (** ** No outcome is lost *)
  Definition okcalls (L : list mcall) : Prop := Forall (fun c => exists v, snd c = XOk v) L.
  Definition ok_rel (s s' : st U) : Prop := exists d L, s_log s' = s_log s ++ d /\ tops d L /\ okcalls L.
  Lemma tops_app d1 L1 d2 L2 : tops d1 L1 -> tops d2 L2 -> tops (d1 ++ d2) (L1 ++ L2).
  Proof.
    intros H H2. induction H; cbn [app]; rewrite <- ?app_assoc; cbn [app].
    - exact H2.
    - constructor; assumption.
    - constructor; assumption.
    - constructor; assumption.
  Qed.
  Lemma ok_refl s : ok_rel s s.
  Proof. exists [], []. rewrite app_nil_r. split; [reflexivity|]. split; [constructor|constructor]. Qed.
  Lemma ok_trans a b c : ok_rel a b -> ok_rel b c -> ok_rel a c.
  Proof.
    intros [d1 [L1 [H1 [T1 O1]]]] [d2 [L2 [H2 [T2 O2]]]]. exists (d1 ++ d2), (L1 ++ L2). split; [rewrite H2, H1, app_assoc; reflexivity|].
    split; [apply tops_app; assumption|apply Forall_app; auto].
  Qed.
  Definition okk {A} (c : @comp U A) : Prop := forall s a s', c s = Some (XOk a, s') -> ok_rel s s'.
  Lemma okk_ret {A} (a : A) : okk (ret a).
  Proof. intros s x s' H. inversion H; subst. apply ok_refl. Qed.
  Lemma okk_raise {A} e : okk (@raise U A e).
  Proof. intros s x s' H. discriminate. Qed.
  Lemma okk_bnd {A B} (c : comp A) (f : A -> comp B) : okk c -> (forall a, okk (f a)) -> okk (bnd c f).
  Proof. intros Hc Hf s a s' H. unfold bnd in H. destruct (c s) as [[[x|e] s1]|] eqn:E1; try discriminate. eapply ok_trans; [eapply Hc; exact E1|eapply Hf; exact H]. Qed.
  Lemma okk_list v l : (forall t, okk (v t)) -> okk (xgv_list v l).
  Proof.
    intros Hv. induction l as [|x l IH]; cbn [xgv_list]; [apply okk_ret|]. destruct x as [m k fs|l'|a]; try (apply okk_bnd; [exact IH|intros; apply okk_ret]).
    apply okk_bnd; [apply Hv|]. intros [m' k' fs'|l'|[]]; try (apply okk_bnd; [exact IH|intros; apply okk_ret]); try apply okk_raise. exact IH.
  Qed.
  Lemma okk_fields v fs : (forall t, okk (v t)) -> okk (xgv_fields v fs).
  Proof.
    intros Hv. induction fs as [|[f x] fs IH]; cbn [xgv_fields]; [apply okk_ret|]. destruct x as [m k fs'|l'|a]; try (apply okk_bnd; [exact IH|intros; apply okk_ret]).
    - apply okk_bnd; [apply Hv|]. intros [m' k' fs''|l'|[]]; try (apply okk_bnd; [exact IH|intros; apply okk_ret]). exact IH.
    - apply okk_bnd; [apply okk_list; exact Hv|]. intros l2. apply okk_bnd; [exact IH|intros; apply okk_ret].
  Qed.
  Lemma okk_generic v t : (forall t, okk (v t)) -> okk (xgeneric_visit v t).
  Proof. intros Hv. destruct t; cbn [xgeneric_visit]; try apply okk_raise. apply okk_bnd; [apply okk_fields; exact Hv|intros; apply okk_ret]. Qed.
  Lemma okk_elts v l : (forall t, okk (v t)) -> okk (xvisit_elts v l).
  Proof. intros Hv. induction l as [|x l IH]; cbn [xvisit_elts]; [apply okk_ret|]. apply okk_bnd; [apply Hv|]. intros a. apply okk_bnd; [exact IH|intros; apply okk_ret]. Qed.
  Lemma okk_expand n x i : (forall t, okk (visit E n t)) -> okk (expand E n (visit E n) x i).
  Proof.
    intros Hv s a s' H. unfold expand in H. destruct (isbound (s_b s) x) as [j|]; [|discriminate].
    destruct (apply_macro E n (visit E n) j x i s) as [[[v|e] s1]|] eqn:E1; try discriminate.
    assert (H1 : ok_rel s s1).
    { unfold apply_macro in E1. destruct (run _ _ _ _) as [[z s2]|] eqn:E2 in E1; [|discriminate]. inversion E1; subst.
      destruct (run_mode E _ _ _ _ _ _ E2) as [_ [d [L D]]]. cbn in L, D. exists (ECall x i (s_rec s) :: d ++ [ERet (XOk v)]), [(x, i, XOk v)]. cbn. rewrite L, <- !app_assoc.
      split; [reflexivity|]. split; [eapply tp_call; [exact D|constructor]|]. constructor; [exists v; reflexivity|constructor]. }
    destruct (typecheck v) as [v1|]; [|discriminate]. eapply ok_trans; [exact H1|]. revert s1 a s' E1 H H1.
    assert (G : okk (bnd (visit_expansion E (visit E n) v1 (in_target i)) (fun t => bnd (emit (EOut x (in_syntax i) t)) (fun _ => ret t)))).
    { apply okk_bnd.
      - unfold visit_expansion.
        assert (G' : okk (bnd (of_res (lift (x_fix E v1 (in_target i)))) (fun t s0 => if s_rec s0 then visit E n t s0 else Some (XOk t, s0)))).
        { apply okk_bnd; [intros s0 a s0' H0; unfold of_res in H0; inversion H0; subst; apply ok_refl|].
          intros t s0 a s0' H0. destruct (s_rec s0); [eapply Hv; exact H0|inversion H0; subst; apply ok_refl]. }
        destruct v1 as [| |[]]; try exact G'. apply okk_ret.
      - intros t. apply okk_bnd; [|intros; apply okk_ret]. intros s0 a s0' H0. inversion H0; subst. exists [EOut x (in_syntax i) t], []. split; [reflexivity|]. split; repeat constructor. }
    intros s1 a s' _ H _. exact (G s1 a s' H).
  Qed.
  Lemma okk_mode {A} b (c : comp A) : okk c -> okk (with_mode b c).
  Proof.
    intros Hc s a s' H. unfold with_mode in H. destruct (c _) as [[y s1]|] eqn:E1; [|discriminate]. inversion H; subst. destruct (Hc _ _ _ E1) as [d [L [H1 [T O]]]]. cbn in H1.
    exists (EMode b :: d ++ [EModeEnd]), (L ++ []). cbn. rewrite H1, <- !app_assoc. split; [reflexivity|]. split; [apply tp_mode; [exact T|constructor]|]. rewrite app_nil_r. exact O.
  Qed.
  Lemma okk_of {A} (r : xres A) : okk (of_res r).
  Proof. intros s a s' H. inversion H; subst. apply ok_refl. Qed.
  Lemma okk_here {A} (r : xres A) : @okk A (fun s => Some (r, s)).
  Proof. apply okk_of. Qed.
  Lemma visit_ok n : forall t, okk (visit E n t).
  Proof.
    induction n as [|n IH]; intros t; [intros s a s' H; discriminate|]. cbn [visit]. unfold visit_body. intros s a s' H.
    destruct (_ || _); [inversion H; subst; apply ok_refl|]. destruct t as [m k fs|l|at0].
    - destruct (String.eqb k "Subscript").
      { unfold visit_Subscript in H. destruct (attr "value" fs) as [c|]; [|discriminate]. destruct (destructure false c) as [d|]; [|discriminate].
        destruct (match d with Some _ => _ | None => _ end); [|exact (okk_generic (visit E n) _ IH _ _ _ H)].
        destruct (destructure true c) as [[[x args]|]|]; try discriminate; [|inversion H; subst; apply ok_refl]. destruct (attr "slice" fs) as [sl|]; [|discriminate].
        eapply (okk_bnd _ _ (okk_expand n x _ IH)); [|exact H]. intros; apply okk_ret. }
      destruct (String.eqb k "With").
      { unfold visit_With in H. destruct (attr "items" fs) as [items|]; [|discriminate]. destruct (detect _ _ _ _) as [fl|]; [|discriminate].
        destruct (first_true fl) as [j|]; [|exact (okk_generic (visit E n) _ IH _ _ _ H)].
        destruct (nth_error _ j) as [[mi ki fi| |]|]; try (inversion H; subst; apply ok_refl). destruct (attr "context_expr" fi) as [c|]; [|discriminate].
        destruct (destructure true c) as [[[x args]|]|]; try discriminate; destruct (attr "optional_vars" fi) as [ov|]; try discriminate; destruct (attr "body" fs) as [bd|]; try discriminate; [|inversion H; subst; apply ok_refl].
        cbv zeta in H. eapply (okk_bnd _ _ (okk_expand n x _ IH)); [|exact H]. intros; apply okk_of. }
      destruct (_ || _).
      { unfold visit_Decorated in H. destruct (attr "decorator_list" fs) as [items|]; [|discriminate]. destruct (detect _ _ _ _) as [fl|]; [|discriminate].
        destruct (last_true fl) as [j|]; [|exact (okk_generic (visit E n) _ IH _ _ _ H)].
        destruct (nth_error _ j) as [c|]; try (inversion H; subst; apply ok_refl).
        destruct (destructure true c) as [[[x args]|]|]; try discriminate; [|inversion H; subst; apply ok_refl].
        cbv zeta in H. eapply (okk_bnd _ _ (okk_expand n x _ IH)); [|exact H]. intros; apply okk_of. }
      destruct (String.eqb k "Name"); [|exact (okk_generic (visit E n) _ IH _ _ _ H)].
      unfold visit_Name in H. destruct (str_attr "id" fs) as [x|]; [|discriminate]. destruct (ismacrocall _ _ _ _ _); [|inversion H; subst; apply ok_refl].
      eapply (okk_bnd _ _ (okk_mode false _ (okk_expand n x _ IH))); [|exact H]. intros r.
      assert (G : forall r : ltree, okk (fun s' => if s_rec s' then visit E n r s' else Some (XOk r, s'))).
      { intros r0 s0 a0 s0' H0. destruct (s_rec s0); [eapply IH; exact H0|inversion H0; subst; apply ok_refl]. }
      destruct r as [m' k' fs'|l'|[]]; try apply G; try apply okk_ret. destruct (_ && _); [apply okk_ret|apply G].
    - refine (okk_bnd _ _ (okk_elts _ l IH) _ s a s' H). intros l'. destruct (flatten l'); apply okk_ret.
    - destruct at0; try discriminate. inversion H; subst; apply ok_refl.
  Qed.

  (** ** One layer *)
  Definition on_rel (t : ltree) (t' : ltree) (s s' : st U) : Prop :=
    s_rec s = false -> exists L d, once E (s_b s) t L t' (s_b s') /\ s_log s' = s_log s ++ d /\ tops d L /\ s_rec s' = false.
  Definition one_layer (n : nat) (t : ltree) : Prop := forall s t' s', visit E n t s = Some (XOk t', s') -> on_rel t t' s s'.

  Lemma layer_list n l : Forall (fun t => is_node t = true -> one_layer n t) l -> forall s l' s', xgv_list (visit E n) l s = Some (XOk l', s') -> s_rec s = false ->
    exists L d, once_list E (s_b s) l L l' (s_b s') /\ s_log s' = s_log s ++ d /\ tops d L /\ s_rec s' = false.
  Proof.
    induction 1 as [|x l Hx _ IH]; intros s l' s' H Hr; cbn [xgv_list] in H.
    { inversion H; subst. exists [], []. rewrite app_nil_r. repeat split; try constructor; auto. }
    assert (Other : is_node x = false -> bnd (xgv_list (visit E n) l) (fun r' => ret (x :: r')) s = Some (XOk l', s') ->
      exists L d, once_list E (s_b s) (x :: l) L l' (s_b s') /\ s_log s' = s_log s ++ d /\ tops d L /\ s_rec s' = false).
    { intros Hnn H0. unfold bnd in H0. destruct (xgv_list (visit E n) l s) as [[[r'|e] s1]|] eqn:E1; try discriminate. inversion H0; subst.
      destruct (IH _ _ _ E1 Hr) as [L [d [H1 [H2 [H3 H4]]]]]. exists L, d. repeat split; auto. apply ol_other; assumption. }
    destruct x as [m k fs|lx|a]; try (apply Other; [reflexivity|exact H]). clear Other.
    unfold bnd at 1 in H. destruct (visit E n (Nd m k fs) s) as [[[t'|e] s1]|] eqn:E1; try discriminate.
    destruct (Hx eq_refl _ _ _ E1 Hr) as [L1 [d1 [O1 [G1 [T1 R1]]]]].
    assert (Rest : forall r' s2, xgv_list (visit E n) l s1 = Some (XOk r', s2) ->
      exists L2 d2, once_list E (s_b s1) l L2 r' (s_b s2) /\ s_log s2 = s_log s ++ (d1 ++ d2) /\ tops (d1 ++ d2) (L1 ++ L2) /\ s_rec s2 = false).
    { intros r' s2 E2. destruct (IH _ _ _ E2 R1) as [L2 [d2 [O2 [G2 [T2 R2]]]]]. exists L2, d2. split; [exact O2|]. split; [rewrite G2, G1, app_assoc; reflexivity|]. split; [apply tops_app; assumption|exact R2]. }
    destruct t' as [m' k' fs'|lt|a].
    - unfold bnd in H. destruct (xgv_list (visit E n) l s1) as [[[r'|e] s2]|] eqn:E2; try discriminate. inversion H; subst.
      destruct (Rest _ _ eq_refl) as [L2 [d2 [O2 [G2 [T2 R2]]]]]. exists (L1 ++ L2), (d1 ++ d2). repeat split; auto. eapply ol_node; eauto.
    - unfold bnd in H. destruct (xgv_list (visit E n) l s1) as [[[r'|e] s2]|] eqn:E2; try discriminate. inversion H; subst.
      destruct (Rest _ _ eq_refl) as [L2 [d2 [O2 [G2 [T2 R2]]]]]. exists (L1 ++ L2), (d1 ++ d2). repeat split; auto. eapply ol_splice; eauto.
    - destruct a; try discriminate. destruct (Rest _ _ H) as [L2 [d2 [O2 [G2 [T2 R2]]]]]. exists (L1 ++ L2), (d1 ++ d2). repeat split; auto. eapply ol_gone; eauto.
  Qed.
  Lemma layer_fields n fs :
    Forall (fun p => (is_node (snd p) = true -> one_layer n (snd p)) /\ match snd p with Ls l => Forall (fun t => is_node t = true -> one_layer n t) l | _ => True end) fs ->
    forall s fs' s', xgv_fields (visit E n) fs s = Some (XOk fs', s') -> s_rec s = false ->
    exists L d, once_fields E (s_b s) fs L fs' (s_b s') /\ s_log s' = s_log s ++ d /\ tops d L /\ s_rec s' = false.
  Proof.
    induction 1 as [|[f x] fs [Hx Hl] _ IH]; intros s fs' s' H Hr; cbn [xgv_fields] in H.
    { inversion H; subst. exists [], []. rewrite app_nil_r. repeat split; try constructor; auto. }
    cbn [snd] in Hx, Hl. destruct x as [m k fx|lx|a].
    - unfold bnd at 1 in H. destruct (visit E n (Nd m k fx) s) as [[[t'|e] s1]|] eqn:E1; try discriminate.
      destruct (Hx eq_refl _ _ _ E1 Hr) as [L1 [d1 [O1 [G1 [T1 R1]]]]].
      assert (Rest : forall r' s2, xgv_fields (visit E n) fs s1 = Some (XOk r', s2) ->
        exists L2 d2, once_fields E (s_b s1) fs L2 r' (s_b s2) /\ s_log s2 = s_log s ++ (d1 ++ d2) /\ tops (d1 ++ d2) (L1 ++ L2) /\ s_rec s2 = false).
      { intros r' s2 E2. destruct (IH _ _ _ E2 R1) as [L2 [d2 [O2 [G2 [T2 R2]]]]]. exists L2, d2. split; [exact O2|]. split; [rewrite G2, G1, app_assoc; reflexivity|]. split; [apply tops_app; assumption|exact R2]. }
      destruct (is_none t') eqn:Et.
      + destruct t' as [| |[]]; try discriminate. destruct (Rest _ _ H) as [L2 [d2 [O2 [G2 [T2 R2]]]]]. exists (L1 ++ L2), (d1 ++ d2). repeat split; auto. eapply of_gone; eauto.
      + assert (H' : bnd (xgv_fields (visit E n) fs) (fun r' => ret ((f, t') :: r')) s1 = Some (XOk fs', s')) by (destruct t' as [| |[]]; try discriminate; exact H). clear H.
        unfold bnd in H'. destruct (xgv_fields (visit E n) fs s1) as [[[r'|e] s2]|] eqn:E2; try discriminate. inversion H'; subst.
        destruct (Rest _ _ eq_refl) as [L2 [d2 [O2 [G2 [T2 R2]]]]]. exists (L1 ++ L2), (d1 ++ d2). repeat split; auto. eapply of_node; eauto.
    - unfold bnd in H. destruct (xgv_list (visit E n) lx s) as [[[l'|e] s1]|] eqn:E1; try discriminate. destruct (layer_list n lx Hl _ _ _ E1 Hr) as [L1 [d1 [O1 [G1 [T1 R1]]]]].
      destruct (xgv_fields (visit E n) fs s1) as [[[r'|e] s2]|] eqn:E2; try discriminate. inversion H; subst. destruct (IH _ _ _ E2 R1) as [L2 [d2 [O2 [G2 [T2 R2]]]]].
      exists (L1 ++ L2), (d1 ++ d2). split; [eapply of_list; eauto|]. split; [rewrite G2, G1, app_assoc; reflexivity|]. split; [apply tops_app; assumption|exact R2].
    - unfold bnd in H. destruct (xgv_fields (visit E n) fs s) as [[[r'|e] s1]|] eqn:E1; try discriminate. inversion H; subst. destruct (IH _ _ _ E1 Hr) as [L2 [d2 [O2 [G2 [T2 R2]]]]].
      exists L2, d2. repeat split; auto. apply of_atom. exact O2.
  Qed.

  Lemma insert_dummy_lands c x i r t' m : (in_syntax i = "block"%string /\ m = loc_of (in_target i)) \/ (in_syntax i = "decorator"%string /\ m = loc_of c) ->
    insert_dummy (x_text E m x) m r = XOk t' -> lands E c x i r t'.
  Proof.
    intros Hm H. unfold insert_dummy in H. destruct (ln m) as [l|] eqn:El.
    - inversion H; subst. eapply ld_stmt; eauto.
    - destruct (co m) eqn:Ec; [discriminate|]. inversion H; subst. eapply ld_stmt_noloc; eauto.
  Qed.

  Lemma one_layer_all n : forall t, shaped t -> is_node t = true -> one_layer n t.
  Proof.
    induction n as [|n IH]; intros t Hs Hn s t' s' H; [discriminate|]. intros Hr. destruct t as [m k fs| |]; try discriminate.
    destruct (String.eqb_spec k "Done") as [->|Hd].
    { cbn [visit] in H. unfold visit_body in H. cbn [is_kind] in H. rewrite String.eqb_refl, orb_true_r in H. inversion H; subst. exists [], []. rewrite app_nil_r. repeat split; auto; constructor. }
    destruct (s_b s) as [|b0 b1] eqn:Eb.
    { cbn [visit] in H. unfold visit_body in H. rewrite Eb in H. cbn in H. inversion H; subst. exists [], []. rewrite app_nil_r, Eb. repeat split; auto; constructor. }
    assert (Hne : s_b s <> []) by (rewrite Eb; discriminate). rewrite <- Eb in *. clear Eb b0 b1.
    destruct (next_dec E (s_b s) m k fs Hs Hd) as [[c [x [i Hc]]]|Hno].
    - destruct (visit_next E n s _ c x i Hs Hc) as [V1 V2].
      assert (Hbad : ~ bad_call c) by (intros Hb; rewrite (V1 Hb) in H; discriminate). clear V1 V2.
      destruct (visit_has_outcome n s _ c x i _ _ Hs Hc Hbad H) as [r [s1 Ho]]. rewrite (visit_outcome n s _ c x i r s1 Hs Hc Hbad Ho) in H.
      pose proof (called_rec _ _ _ _ _ _ Ho) as Hrec.
      assert (Hrec1 : s_rec s1 = false) by (rewrite Hrec, Hr; destruct (String.eqb _ _); reflexivity). clear Hrec. rewrite Hr in H.
      destruct (next_kind E _ _ _ _ _ Hc) as [_ [_ Ht]].
      (* what expand does *)
      assert (X : forall r2 s2, expanded n x i r s1 = Some (XOk r2, s2) -> exists v v1, r = XOk v /\ accepted v v1 /\
        (v1 = NoneT /\ r2 = NoneT \/ v1 <> NoneT /\ x_fix E v1 (Nd m k fs) = Ok r2) /\ s2 = logged (EOut x (in_syntax i) r2) (logged (ERet r) s1)).
      { intros r2 s2 Hx. unfold expanded in Hx. destruct r as [v|e]; [|discriminate]. destruct (typecheck v) as [v1|] eqn:Ev; [|discriminate]. apply typecheck_iff in Ev.
        exists v, v1. split; [reflexivity|]. split; [exact Ev|]. rewrite Ht in Hx. unfold bnd in Hx.
        destruct (is_none v1) eqn:En.
        - destruct v1 as [| |[]]; try discriminate. cbn in Hx. inversion Hx; subst. split; [left; auto|reflexivity].
        - assert (Hx' : match x_fix E v1 (Nd m k fs) with Ok u => Some (XOk u, logged (EOut x (in_syntax i) u) (logged (ERet (XOk v)) s1)) | Err _ => None end = Some (XOk r2, s2)).
          { assert (Hnn : v1 <> NoneT) by (intros ->; discriminate). unfold visit_expansion in Hx.
            destruct v1 as [| |[]]; try discriminate; try (exfalso; apply Hnn; reflexivity); unfold bnd, of_res, lift in Hx; destruct (x_fix E _ (Nd m k fs)); try discriminate; cbn [logged s_rec] in Hx; rewrite Hrec1 in Hx; cbn in Hx; exact Hx. }
          destruct (x_fix E v1 (Nd m k fs)) as [u|]; [|discriminate]. inversion Hx'; subst. split; [|reflexivity]. right. split; [intros ->; discriminate|reflexivity]. }
      destruct Ho as [j [Hbj Hrun]]. destruct (run_mode E _ _ _ _ _ _ Hrun) as [_ [d [Ld Dd]]].
      destruct (String.eqb_spec (in_syntax i) "name") as [Hy|Hy].
      + destruct (expanded n x i r s1) as [[[r2|e] s2]|] eqn:Ex; try discriminate. destruct (X _ _ eq_refl) as [v [v1 [-> [Ha [Hf ->]]]]]. cbv zeta in H.
        unfold called_in in Ld, Dd. rewrite Hy in Ld, Dd. cbn [String.eqb Ascii.eqb Bool.eqb s_log s_rec] in Ld, Dd.
        assert (Hl : lands E c x i r2 t' /\ s' = mkSt (s_b s1) false (s_u s1) (s_log (logged (EOut x (in_syntax i) r2) (logged (ERet (XOk v)) s1)) ++ [EModeEnd])).
        { destruct (is_none r2) eqn:En.
          - inversion H; subst. split; [|reflexivity]. destruct r2 as [| |[]]; try discriminate. assert (L0 : loc_of (Nd m k fs) = loc_of (in_target i)) by (rewrite Ht; reflexivity). cbn [loc_of] in L0. cbn [loc_of]. rewrite L0. apply ld_expr_none. auto.
          - destruct (same_name x r2) eqn:Es.
            + inversion H; subst. split; [|reflexivity]. apply same_name_iff in Es. destruct Es as [m' [fs' [-> Hid]]]. apply ld_self; auto.
            + inversion H; subst. split; [|reflexivity]. apply ld_name; auto. intros m' fs' -> Hid. assert (same_name x (Nd m' "Name" fs') = true); [apply same_name_iff; eauto|congruence]. }
        destruct Hl as [Hl ->]. exists [(x, i, XOk v)], (EMode false :: (ECall x i false :: d ++ [ERet (XOk v); EOut x (in_syntax i) r2]) ++ [EModeEnd]).
        split; [eapply on_call; eauto|]. split; [cbn; rewrite Ld; repeat (cbn; rewrite <- ?app_assoc); reflexivity|]. split; [|reflexivity].
        change [(x, i, XOk v)] with ([(x, i, XOk v)] ++ []). apply tp_mode; [|constructor]. cbn. eapply tp_call; [exact Dd|]. apply tp_out. constructor.
      + destruct (expanded n x i r s1) as [[[r2|e] s2]|] eqn:Ex; try discriminate. destruct (X _ _ eq_refl) as [v [v1 [-> [Ha [Hf ->]]]]].
        unfold called_in in Ld, Dd. destruct (String.eqb_spec (in_syntax i) "name"); [contradiction|]. cbn [s_log s_rec] in Ld, Dd.
        assert (Hl : lands E c x i r2 t' /\ s' = logged (EOut x (in_syntax i) r2) (logged (ERet (XOk v)) s1)).
        { destruct (String.eqb_spec (in_syntax i) "expr") as [He|He].
          - inversion H; subst. split; [|reflexivity]. destruct (is_none r2) eqn:En.
            + destruct r2 as [| |[]]; try discriminate. assert (L0 : loc_of (Nd m k fs) = loc_of (in_target i)) by (rewrite Ht; reflexivity). cbn [loc_of] in L0. cbn [loc_of]. rewrite L0. apply ld_expr_none. auto.
            + apply ld_expr; auto.
          - cbv zeta in H. inversion H; subst. split; [|reflexivity]. destruct (String.eqb_spec (in_syntax i) "block") as [Hk|Hk].
            + eapply insert_dummy_lands; [left; split; [exact Hk|rewrite Ht; reflexivity]|eassumption].
            + eapply insert_dummy_lands; [right; split; [|reflexivity]|eassumption]. inversion Hc; subst; cbn in *; congruence. }
        destruct Hl as [Hl ->]. exists [(x, i, XOk v)], (ECall x i (s_rec s) :: d ++ [ERet (XOk v); EOut x (in_syntax i) r2]).
        split; [eapply on_call; eauto|]. split; [cbn; rewrite Ld; repeat (cbn; rewrite <- ?app_assoc); reflexivity|]. split; [|cbn; exact Hrec1].
        cbn. eapply tp_call; [exact Dd|]. apply tp_out. constructor.
    - rewrite (visit_generic E n s m k fs Hs Hd Hne Hno) in H.
      assert (Hno' : forall x syn, ~ invokes E (s_b s) (Nd m k fs) x syn).
      { intros x syn Hi. destruct (proj2 (invokes_next E (s_b s) m k fs Hs Hd)) as [c [y [i Hc]]]; [eauto|]. exact (Hno _ _ _ Hc). }
      destruct (String.eqb_spec k "Name") as [->|Hk].
      { inversion H; subst. exists [], []. rewrite app_nil_r. repeat split; auto; try constructor. exact Hno'. }
      cbn [xgeneric_visit] in H. unfold bnd in H. destruct (xgv_fields (visit E n) fs s) as [[[fs'|e] s1]|] eqn:E1; try discriminate. inversion H; subst.
      destruct (layer_fields n fs) with (s := s) (fs' := fs') (s' := s') as [L [d [O [G [T R]]]]]; [|exact E1|exact Hr|].
      { apply Forall_forall. intros [f x] Hin. cbn [snd]. split.
        - intros Hxn. apply IH; [|exact Hxn]. apply (shaped_part _ _ Hs). eapply pt_field; [exact Hd|exact Hin|constructor].
        - destruct x as [|l|]; auto. apply Forall_forall. intros y Hy Hyn. apply IH; [|exact Hyn]. apply (shaped_part _ _ Hs). eapply pt_field; [exact Hd|exact Hin|]. eapply pt_elem; [exact Hy|constructor]. }
      exists L, d. repeat split; auto. apply on_node; auto.
  Qed.
End Outcomes.
