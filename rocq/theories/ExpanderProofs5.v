(** Complete expansion in recursive mode. *)
From Verif Require Import Base AstLib UtilsModel UtilsProofs FixLocModel ExpanderModel ExpanderSpec ExpanderProofs ExpanderProofs2 ExpanderProofs3 ExpanderProofs4.

Section Binds.
  Context {U : Type}.
  Variable E : env U.
  Hypothesis Hmac : forall j i, keeps_binds (m_run (x_macro E j) i).
  Lemma visit_binds n t s r s' : visit E n t s = Some (r, s') -> s_b s' = s_b s.
  Proof.
    apply (visit_keeps E (fun s s' => s_b s' = s_b s) keeps_binds); try (intros; reflexivity); try (intros; cbn in *; congruence); try exact Hmac.
    all: intros; match goal with H : keeps_binds _ |- _ => inversion H; subst end; auto.
  Qed.
  Lemma run_binds n k p s r s' : keeps_binds p -> run (visit E n) k p s = Some (r, s') -> s_b s' = s_b s.
  Proof.
    intros Hp H. eapply (keeps_run (fun s s' => s_b s' = s_b s) keeps_binds) with (v := visit E n); try exact H; try exact Hp; try (intros; reflexivity); try (intros; cbn in *; congruence).
    all: try (intros; match goal with H : keeps_binds _ |- _ => inversion H; subst end; auto; fail).
    intros u a b0 c Hv. exact (visit_binds n u a b0 c Hv).
  Qed.
End Binds.

Lemma tidy_part t u : tidy t -> part t u -> tidy u.
Proof. intros H Hp v Hv. apply H. eapply part_trans; eassumption. Qed.
Lemma tidy_shaped t : tidy t -> shaped t.
Proof. intros H u Hu. exact (proj1 (H u Hu)). Qed.
Lemma getf_nodup {M} f v (fs : list (string * tree M)) : NoDup (map fst fs) -> In (f, v) fs -> getf f fs = Some v.
Proof.
  induction fs as [|[g w] fs IH]; intros Hd Hin; [destruct Hin|]. cbn in *. inversion Hd; subst. destruct Hin as [Heq|Hin].
  - inversion Heq; subst. rewrite String.eqb_refl. reflexivity.
  - destruct (String.eqb_spec f g) as [<-|]; [|apply IH; assumption]. exfalso. match goal with H : ~ In f _ |- _ => apply H end. apply (in_map fst) in Hin. exact Hin.
Qed.
Definition res_ok (t : ltree) : Prop := t = NoneT \/ is_node t = true \/ exists l, t = Ls l /\ Forall (fun v => is_node v = true) l.
Lemma flatten_members l : Forall res_ok l -> flatten l = flat_map members l.
Proof.
  intros H. unfold flatten. enough (G : forall acc, fold_left flatten_acc l acc = acc ++ flat_map members l) by (rewrite G; reflexivity).
  induction H as [|x l Hx _ IH]; intros acc; [cbn; rewrite app_nil_r; reflexivity|]. cbn [fold_left flat_map]. rewrite IH, app_assoc. f_equal.
  destruct Hx as [->|[Hx|[lx [-> Hlx]]]].
  - cbn. rewrite app_nil_r. reflexivity.
  - destruct x; try discriminate. reflexivity.
  - cbn [flatten_acc members]. f_equal. change (fold_left flatten_acc lx []) with (flatten lx). apply flatten_fixed. eapply Forall_impl; [|exact Hlx]. intros a Ha. destruct a; try discriminate. split; reflexivity.
Qed.

Section Complete.
  Context {U : Type}.
  Variable E : env U.
  Variable b : binds.
  Hypothesis Hmac : forall j i, keeps_binds (m_run (x_macro E j) i).
  Hypothesis Hb : b <> [].

  (** What is assumed about the trace. *)
  Definition fine (d : list event) : Prop :=
    (forall x syn r v, In (EOut x syn r) d -> In v (members r) -> ~ mention b v) /\
    (forall v v1 t v2, In (ERet (XOk v)) d -> accepted v v1 -> x_fix E v1 t = Ok v2 -> tidy v2).
  Lemma fine_app d1 d2 : fine (d1 ++ d2) -> fine d1 /\ fine d2.
  Proof.
    intros [H1 H2]. split; split; intros.
    - eapply H1; [apply in_app_iff; left; eassumption|assumption].
    - eapply H2; [apply in_app_iff; left; eassumption| |]; eassumption.
    - eapply H1; [apply in_app_iff; right; eassumption|assumption].
    - eapply H2; [apply in_app_iff; right; eassumption| |]; eassumption.
  Qed.
  Definition clean (t : ltree) : Prop := forall u, part t u -> ~ expandable E b u.
  Definition named (t : ltree) (x : string) : Prop := exists args, names_macro E b t x args.

  Definition Q (t t' : ltree) : Prop :=
    res_ok t' /\
    (forall e, In e (members t') -> clean e) /\
    (forall e x args, In e (members t') -> names_macro E b e x args -> ~ bad_call e -> exists v, In v (members t) /\ kind_of v = kind_of e /\ named v x) /\
    (kind_of t = "keyword"%string -> is_node t' = true) /\
    (forall m fs, t = Nd m "withitem" fs -> exists fs', t' = Nd m "withitem" fs' /\
       forall c x args, getf "context_expr" fs' = Some c -> names_macro E b c x args -> ~ bad_call c -> exists c0, getf "context_expr" fs = Some c0 /\ named c0 x).
  Definition step (s : st U) (s' : st U) (C : Prop) : Prop :=
    s_rec s = true -> s_b s = b -> s_rec s' = true /\ s_b s' = b /\ exists d, s_log s' = s_log s ++ d /\ (fine d -> C).
  Lemma step_of s s' (C : Prop) : mode_rel s s' -> s_b s' = s_b s -> (s_rec s = true -> s_b s = b -> forall d, s_log s' = s_log s ++ d -> fine d -> C) -> step s s' C.
  Proof. intros [H1 [d [L _]]] H2 H3 Hr Hbb. split; [congruence|]. split; [congruence|]. exists d. split; [exact L|]. intros Hf. exact (H3 Hr Hbb d L Hf). Qed.

  (** A clean member is not of the form [x[...]] with [x] bound. *)
  Lemma clean_not_sub e x args : clean e -> names_macro E b e x args -> kind_of e <> "Subscript"%string.
  Proof.
    intros Hc [Hd [Hx [i [Hbi _]]]] Hk. inversion Hd; subst; cbn in Hk; try discriminate.
    - eapply (Hc _ (pt_refl _)). eapply ex_expr; [eassumption| |].
      + split; [apply dn_name; eassumption|]. split; [exact Hx|]. exists i. split; [exact Hbi|left; reflexivity].
      + intros [? [? [? [X _]]]]. discriminate.
    - eapply (Hc _ (pt_refl _)). eapply ex_expr; [eassumption| |].
      + split; [apply dn_name; eassumption|]. split; [exact Hx|]. exists i. split; [exact Hbi|left; reflexivity].
      + intros [? [? [? [X _]]]]. discriminate.
  Qed.
  Lemma no_mention_no_name e x args : clean e -> ~ mention b e -> ~ names_macro E b e x args.
  Proof. intros Hc Hm Hn. pose proof (clean_not_sub _ _ _ Hc Hn) as Hk. destruct Hn as [Hd [_ [i [Hbi _]]]]. apply Hm. exists x, args, i. auto. Qed.

  (** Relation of a visited field. *)
  Definition LR (l l' : list ltree) : Prop :=
    (forall e, In e l' -> (is_node e = false /\ In e l) \/ exists v w, In v l /\ is_node v = true /\ Q v w /\ In e (members w)) /\
    (Forall (fun w => kind_of w = "keyword"%string) l -> l' = [] -> l = []).
  Definition FR (v v' : ltree) : Prop :=
    match v with
    | At _ => v' = v
    | Ls l => exists l', v' = Ls l' /\ LR l l'
    | Nd _ _ _ => Q v v'
    end.
  Definition steps (n : nat) (t : ltree) : Prop := forall s t' s', visit E n t s = Some (XOk t', s') -> step s s' (Q t t').

  Lemma complete_list n l : (forall t, In t l -> is_node t = true -> steps n t) -> forall s l' s', xgv_list (visit E n) l s = Some (XOk l', s') -> step s s' (LR l l').
  Proof.
    induction l as [|x l IH]; intros HF s l' s' H Hr Hbb; cbn [xgv_list] in H.
    { inversion H; subst. split; [exact Hr|]. split; [exact Hbb|]. exists []. rewrite app_nil_r. split; [reflexivity|]. intros _. split; [intros e []|auto]. }
    assert (IH' := IH (fun t Ht => HF t (or_intror Ht))). clear IH.
    destruct (is_node x) eqn:Hnx.
    - destruct x as [m k fs| |]; try discriminate. unfold bnd at 1 in H. destruct (visit E n (Nd m k fs) s) as [[[t'|e] s1]|] eqn:E1; try discriminate.
      destruct (HF _ (or_introl eq_refl) Hnx _ _ _ E1 Hr Hbb) as [R1 [B1 [d1 [L1 G1]]]].
      assert (Rest : forall r' s2, xgv_list (visit E n) l s1 = Some (XOk r', s2) -> s2 = s' -> l' = members t' ++ r' ->
        s_rec s' = true /\ s_b s' = b /\ exists d, s_log s' = s_log s ++ d /\ (fine d -> LR (Nd m k fs :: l) l')).
      { intros r' s2 E2 -> ->. destruct (IH' _ _ _ E2 R1 B1) as [R2 [B2 [d2 [L2 G2]]]]. split; [exact R2|]. split; [exact B2|]. exists (d1 ++ d2). split; [rewrite L2, L1, app_assoc; reflexivity|].
        intros Hf. apply fine_app in Hf. destruct Hf as [Hf1 Hf2]. specialize (G1 Hf1). specialize (G2 Hf2). split.
        - intros e Hin. apply in_app_iff in Hin. destruct Hin as [Hin|Hin].
          + right. exists (Nd m k fs), t'. split; [left; reflexivity|]. split; [reflexivity|]. split; assumption.
          + destruct (proj1 G2 e Hin) as [[Hx Hy]|[v [w [Hx [Hy [Hz Hw]]]]]]; [left; split; [exact Hx|right; exact Hy]|]. right. exists v, w. split; [right; exact Hx|]. auto.
        - intros Hall Hnil. exfalso. inversion Hall; subst. destruct G1 as [_ [_ [_ [Hk _]]]]. specialize (Hk ltac:(assumption)). destruct t'; try discriminate. }
      destruct t' as [m' k' fs'|lt|a].
      + unfold bnd in H. destruct (xgv_list (visit E n) l s1) as [[[r'|e] s2]|] eqn:E2; try discriminate. inversion H; subst. eapply Rest; reflexivity.
      + unfold bnd in H. destruct (xgv_list (visit E n) l s1) as [[[r'|e] s2]|] eqn:E2; try discriminate. inversion H; subst. eapply Rest; reflexivity.
      + destruct a; try discriminate. eapply Rest; [exact H|reflexivity|reflexivity].
    - assert (H' : bnd (xgv_list (visit E n) l) (fun r' => ret (x :: r')) s = Some (XOk l', s')) by (destruct x; try discriminate; exact H). clear H.
      unfold bnd in H'. destruct (xgv_list (visit E n) l s) as [[[r'|e] s1]|] eqn:E1; try discriminate. inversion H'; subst.
      destruct (IH' _ _ _ E1 Hr Hbb) as [R2 [B2 [d2 [L2 G2]]]]. split; [exact R2|]. split; [exact B2|]. exists d2. split; [exact L2|]. intros Hf. specialize (G2 Hf). split.
      + intros e [<-|Hin]; [left; split; [exact Hnx|left; reflexivity]|]. destruct (proj1 G2 e Hin) as [[Hx Hy]|[v [w [Hx [Hy [Hz Hw]]]]]]; [left; split; [exact Hx|right; exact Hy]|]. right. exists v, w. split; [right; exact Hx|]. auto.
      + intros _ Hnil. discriminate.
  Qed.
  Definition FsR (fs fs' : list (string * ltree)) : Prop := forall f v', In (f, v') fs' -> exists v, In (f, v) fs /\ FR v v'.
  Lemma complete_fields n fs : (forall f t, In (f, t) fs -> is_node t = true -> steps n t) -> (forall f l t, In (f, Ls l) fs -> In t l -> is_node t = true -> steps n t) ->
    forall s fs' s', xgv_fields (visit E n) fs s = Some (XOk fs', s') -> step s s' (FsR fs fs').
  Proof.
    induction fs as [|[f x] fs IH]; intros H1 H2 s fs' s' H Hr Hbb; cbn [xgv_fields] in H.
    { inversion H; subst. split; [exact Hr|]. split; [exact Hbb|]. exists []. rewrite app_nil_r. split; [reflexivity|]. intros _ g v []. }
    assert (IH' := IH (fun g t Ht => H1 g t (or_intror Ht)) (fun g l t Hl => H2 g l t (or_intror Hl))). clear IH.
    assert (Join : forall s1 d1 (r' : list (string * ltree)) s2 ofs, s_rec s1 = true -> s_b s1 = b -> s_log s1 = s_log s ++ d1 -> xgv_fields (visit E n) fs s1 = Some (XOk r', s2) ->
       (fine d1 -> forall g v', In (g, v') ofs -> exists v, In (g, v) ((f, x) :: fs) /\ FR v v') -> fs' = ofs ++ r' -> s' = s2 ->
       s_rec s' = true /\ s_b s' = b /\ exists d, s_log s' = s_log s ++ d /\ (fine d -> FsR ((f, x) :: fs) fs')).
    { intros s1 d1 r' s2 ofs R1 B1 L1 E2 G1 -> ->. destruct (IH' _ _ _ E2 R1 B1) as [R2 [B2 [d2 [L2 G2]]]]. split; [exact R2|]. split; [exact B2|]. exists (d1 ++ d2). split; [rewrite L2, L1, app_assoc; reflexivity|].
      intros Hf. apply fine_app in Hf. destruct Hf as [Hf1 Hf2]. intros g v' Hin. apply in_app_iff in Hin. destruct Hin as [Hin|Hin]; [exact (G1 Hf1 _ _ Hin)|]. destruct (G2 Hf2 _ _ Hin) as [v [Hv HR]]. exists v. split; [right; exact Hv|exact HR]. }
    destruct x as [m k fx|lx|a].
    - unfold bnd at 1 in H. destruct (visit E n (Nd m k fx) s) as [[[t'|e] s1]|] eqn:E1; try discriminate. destruct (H1 f _ (or_introl eq_refl) eq_refl _ _ _ E1 Hr Hbb) as [R1 [B1 [d1 [L1 G1]]]].
      destruct (is_none t') eqn:Et.
      + destruct t' as [| |[]]; try discriminate. eapply (Join s1 d1 _ _ []); eauto. intros _ g v' [].
      + assert (H' : bnd (xgv_fields (visit E n) fs) (fun r' => ret ((f, t') :: r')) s1 = Some (XOk fs', s')) by (destruct t' as [| |[]]; try discriminate; exact H). clear H.
        unfold bnd in H'. destruct (xgv_fields (visit E n) fs s1) as [[[r'|e] s2]|] eqn:E2; try discriminate. inversion H'; subst.
        eapply (Join s1 d1 r' s' [(f, t')]); eauto. intros Hf g v' [Heq|[]]. inversion Heq; subst. eexists. split; [left; reflexivity|]. exact (G1 Hf).
    - unfold bnd in H. destruct (xgv_list (visit E n) lx s) as [[[l'|e] s1]|] eqn:E1; try discriminate. destruct (xgv_fields (visit E n) fs s1) as [[[r'|e] s2]|] eqn:E2; try discriminate. inversion H; subst.
      destruct (complete_list n lx (fun t => H2 f lx t (or_introl eq_refl)) _ _ _ E1 Hr Hbb) as [R1 [B1 [d1 [L1 G1]]]].
      eapply (Join s1 d1 r' s' [(f, Ls l')]); eauto. intros Hf g v' [Heq|[]]. inversion Heq; subst. eexists. split; [left; reflexivity|]. cbn. eexists. split; [reflexivity|exact (G1 Hf)].
    - unfold bnd in H. destruct (xgv_fields (visit E n) fs s) as [[[r'|e] s2]|] eqn:E2; try discriminate. inversion H; subst.
      eapply (Join s [] r' s' [(f, At a)]); eauto; [rewrite app_nil_r; reflexivity|]. intros Hf g v' [Heq|[]]. inversion Heq; subst. eexists. split; [left; reflexivity|]. reflexivity.
  Qed.
  Lemma complete_elts n l : (forall t, In t l -> steps n t) -> forall s l' s', xvisit_elts (visit E n) l s = Some (XOk l', s') -> step s s' (Forall2 Q l l').
  Proof.
    induction l as [|x l IH]; intros HF s l' s' H Hr Hbb; cbn [xvisit_elts] in H.
    { inversion H; subst. split; [exact Hr|]. split; [exact Hbb|]. exists []. rewrite app_nil_r. split; [reflexivity|]. constructor. }
    unfold bnd in H. destruct (visit E n x s) as [[[t'|e] s1]|] eqn:E1; try discriminate. destruct (xvisit_elts (visit E n) l s1) as [[[r'|e] s2]|] eqn:E2; try discriminate. inversion H; subst.
    destruct (HF _ (or_introl eq_refl) _ _ _ E1 Hr Hbb) as [R1 [B1 [d1 [L1 G1]]]]. destruct (IH (fun t Ht => HF t (or_intror Ht)) _ _ _ E2 R1 B1) as [R2 [B2 [d2 [L2 G2]]]].
    split; [exact R2|]. split; [exact B2|]. exists (d1 ++ d2). split; [rewrite L2, L1, app_assoc; reflexivity|]. intros Hf. apply fine_app in Hf. destruct Hf. constructor; auto.
  Qed.

  (** The visited field of a node. *)
  Lemma FsR_get m k fs fs' f v' : tidy (Nd m k fs) -> FsR fs fs' -> getf f fs' = Some v' -> exists v, getf f fs = Some v /\ FR v v'.
  Proof.
    intros Ht HR Hg. destruct (HR f v' (getf_In _ _ _ Hg)) as [v [Hin HF]]. exists v. split; [|exact HF]. apply getf_nodup; [|exact Hin]. exact (proj1 (proj2 (Ht _ (pt_refl _)))).
  Qed.
  Lemma denotes_node {M} (c : tree M) x args : denotes c x args -> is_node c = true.
  Proof. intros H. destruct H; reflexivity. Qed.
  Lemma FR_names c c' x args : FR c c' -> names_macro E b c' x args -> ~ bad_call c' -> kind_of c = kind_of c' /\ named c x.
  Proof.
    intros HR Hn Hbad. pose proof (denotes_node _ _ _ (proj1 Hn)) as Hnode. destruct c' as [m' k' fs'| |]; try discriminate. destruct c as [m k fs|l|a]; cbn [FR] in HR.
    - destruct HR as [_ [_ [H _]]]. destruct (H _ _ _ (or_introl eq_refl) Hn Hbad) as [v [[<-|[]] [Hk Hv]]]. auto.
    - destruct HR as [l' [Hx _]]. discriminate.
    - discriminate.
  Qed.
  Lemma not_bad_name {M} m (fs : list (string * tree M)) : ~ bad_call (Nd m "Name" fs).
  Proof. intros [? [? [? [X _]]]]. discriminate. Qed.

  (** A node that was not an invocation, with its fields visited. *)
  Lemma complete_node m k fs fs' : tidy (Nd m k fs) -> k <> "Done"%string -> k <> "Name"%string -> (forall c x i, ~ next_call E b (Nd m k fs) c x i) -> FsR fs fs' -> Q (Nd m k fs) (Nd m k fs').
  Proof.
    intros Ht Hd Hkn Hno HR. pose proof (tidy_shaped _ Ht) as Hs.
    assert (Hinv : forall x syn, ~ invokes E b (Nd m k fs) x syn).
    { intros x syn Hi. destruct (proj2 (invokes_next E b m k fs Hs Hd)) as [c [y [i Hc]]]; [eauto|]. exact (Hno _ _ _ Hc). }
    assert (Hctx : forall c x args, k = "withitem"%string -> getf "context_expr" fs' = Some c -> names_macro E b c x args -> ~ bad_call c -> exists c0, getf "context_expr" fs = Some c0 /\ named c0 x).
    { intros c x args _ Hc Hn Hbad. destruct (FsR_get _ _ _ _ _ _ Ht HR Hc) as [c0 [Hc0 HF]]. exists c0. split; [exact Hc0|]. exact (proj2 (FR_names _ _ _ _ HF Hn Hbad)). }
    assert (Hself : ~ expandable E b (Nd m k fs')).
    { intros Hx. inversion Hx; subst.
      - match goal with Hc : getf "value" fs' = Some c |- _ => destruct (FsR_get _ _ _ _ _ _ Ht HR Hc) as [c0 [Hc0 HF]] end.
        match goal with Hn : names_macro E b c x args, Hbad : ~ bad_call c |- _ => destruct (proj2 (FR_names _ _ _ _ HF Hn Hbad)) as [args0 Hn0] end. eapply Hinv. eapply inv_expr; eassumption.
      - match goal with Hc : getf "items" fs' = Some _ |- _ => destruct (FsR_get _ _ _ _ _ _ Ht HR Hc) as [it0 [Hit0 HF]] end.
        destruct (shaped_field _ _ _ "items" FList Hs ltac:(gram)) as [items0 Hi0]. cbn [fst] in Hi0. rewrite Hi0 in Hit0. inversion Hit0; subst it0. cbn [FR] in HF. destruct HF as [l' [Heq [HL _]]]. inversion Heq; subst l'.
        pose proof (shaped_items _ _ _ Hs Hi0) as HI. rewrite Forall_forall in HI.
        match goal with Hin : In (Nd mi ki fi) items |- _ => destruct (HL _ Hin) as [[Hx1 _]|[v [w [Hv [_ [Hq Hw]]]]]] end; [discriminate|].
        destruct (HI v Hv) as [mi' [fi' [c' [ov' [-> [Hc' _]]]]]]. destruct Hq as [_ [_ [_ [_ Hwi]]]]. destruct (Hwi _ _ eq_refl) as [fs2 [-> Hnm]]. cbn [members] in Hw. destruct Hw as [Hw|[]]. inversion Hw; subst.
        match goal with Hc : getf "context_expr" fi = Some c, Hn : names_macro E b c x args, Hbad : ~ bad_call c |- _ => destruct (Hnm _ _ _ Hc Hn Hbad) as [c0 [Hc0 [args0 Hn0]]] end.
        eapply Hinv. eapply inv_block; eassumption.
      - match goal with Hc : getf "decorator_list" fs' = Some _ |- _ => destruct (FsR_get _ _ _ _ _ _ Ht HR Hc) as [it0 [Hit0 HF]] end.
        assert (exists ds0, getf "decorator_list" fs = Some (Ls ds0)) as [ds0 Hds0].
        { match goal with Hk : _ \/ _ |- _ => destruct Hk as [->| ->] end; destruct (shaped_field _ _ _ "decorator_list" FList Hs ltac:(gram)) as [ds' Hds']; eauto. }
        rewrite Hds0 in Hit0. inversion Hit0; subst it0. cbn [FR] in HF. destruct HF as [l' [Heq [HL _]]]. inversion Heq; subst l'.
        match goal with Hin : In c ds, Hn : names_macro E b c x args, Hbad : ~ bad_call c |- _ =>
          pose proof (denotes_node _ _ _ (proj1 Hn)) as Hnc; destruct (HL _ Hin) as [[Hx1 _]|[v [w [Hv [Hvn [Hq Hw]]]]]]; [congruence|];
          destruct Hq as [_ [_ [Hq _]]]; destruct (Hq _ _ _ Hw Hn Hbad) as [v0 [Hv0 [_ [args0 Hn0]]]] end.
        destruct v as [mv kv fv| |]; try discriminate. destruct Hv0 as [<-|[]]. eapply Hinv. eapply inv_dec; eassumption.
      - contradiction. }
    split; [right; left; reflexivity|]. split; [|split; [|split]].
    - intros e [<-|[]] u Hu. inversion Hu; subst; [exact Hself|].
      match goal with Hin : In (f, v) fs', Hp : part v u |- _ => destruct (HR _ _ Hin) as [v0 [Hin0 HF]]; rename Hp into Hpu end.
      assert (Hmem : (forall e, In e (members v) -> clean e) -> (is_node v = true \/ exists l, v = Ls l) -> ~ expandable E b u).
      { intros Hm Hvn. destruct v as [mv kv fv|lv|av].
        - apply (Hm _ (or_introl eq_refl) u Hpu).
        - inversion Hpu; subst; [intros Hx; inversion Hx|]. eapply Hm; eassumption.
        - destruct Hvn as [|[? ?]]; discriminate. }
      destruct v0 as [m0 k0 f0|l0|a0]; cbn [FR] in HF.
      + destruct HF as [Hok [Hcl _]]. destruct Hok as [->|[Hok|[l [-> _]]]]; [|apply Hmem; auto|apply Hmem; eauto]. inversion Hpu; subst. intros Hx. inversion Hx.
      + destruct HF as [l' [-> [HL _]]]. inversion Hpu; subst; [intros Hx; inversion Hx|].
        match goal with Hin' : In ?e0 l', Hp' : part ?e0 u |- _ => destruct (HL _ Hin') as [[Hx1 Hx2]|[v1 [w [Hv1 [_ [Hq Hw]]]]]]; [|destruct Hq as [_ [Hcl _]]; exact (Hcl _ Hw u Hp')]; assert (Hfl : is_list e0 = false) end.
        { pose proof (proj2 (Ht (Ls l0) ltac:(eapply pt_field; [exact Hd|exact Hin0|constructor]))) as Hfl. cbn in Hfl. rewrite Forall_forall in Hfl. exact (Hfl _ Hx2). }
        match goal with Hp' : part ?e0 u |- _ => destruct e0 as [| |a]; try discriminate; inversion Hp'; subst; intros Hx; inversion Hx end.
      + subst v. inversion Hpu; subst. intros Hx. inversion Hx.
    - intros e x args [<-|[]] Hn Hbad. exists (Nd m k fs). split; [left; reflexivity|]. split; [reflexivity|]. destruct Hn as [Hdn [Hx [i [Hbi Hpar]]]].
      inversion Hdn; subst; [contradiction| | |].
      + exfalso. apply Hself. eapply ex_expr; [eassumption| |apply not_bad_name]. split; [apply dn_name; eassumption|]. split; [exact Hx|]. exists i. split; [exact Hbi|left; reflexivity].
      + exfalso. apply Hself. eapply ex_expr; [eassumption| |apply not_bad_name]. split; [apply dn_name; eassumption|]. split; [exact Hx|]. exists i. split; [exact Hbi|left; reflexivity].
      + match goal with Hf : getf "func" fs' = Some (Nd ?mf "Name" ?ff), Hid : getf "id" ?ff = _, Hkw : getf "keywords" fs' = _, Ha : getf "args" fs' = _ |- _ =>
          destruct (FsR_get _ _ _ _ _ _ Ht HR Hf) as [f0 [Hf0 HFf]]; destruct (FsR_get _ _ _ _ _ _ Ht HR Hkw) as [k0 [Hk0 HFk]];
          assert (Hnf : names_macro E b (Nd mf "Name" ff) x []) by (split; [apply dn_name; exact Hid|]; split; [exact Hx|]; exists i; split; [exact Hbi|left; reflexivity]) end.
        destruct (FR_names _ _ _ _ HFf Hnf (not_bad_name _ _)) as [Hkf [argsf Hnf0]].
        destruct (shaped_field _ _ _ "args" FList Hs ltac:(gram)) as [al Hal]. destruct (shaped_field _ _ _ "keywords" FList Hs ltac:(gram)) as [kl Hkl]. cbn [fst] in Hal, Hkl.
        rewrite Hkl in Hk0. inversion Hk0; subst k0. cbn [FR] in HFk. destruct HFk as [l' [Heq [_ Hke]]]. inversion Heq; subst l'.
        assert (kl = []) by (apply Hke; [exact (proj2 (proj2 (proj2 (Ht _ (pt_refl _)))) eq_refl kl Hkl)|reflexivity]). subst kl.
        destruct Hnf0 as [Hdf _]. inversion Hdf; subst; cbn in Hkf; try discriminate.
        exists al. split; [eapply dn_call; eassumption|]. split; [exact Hx|]. exists i. split; [exact Hbi|]. right. destruct Hpar as [->|Hpar]; [|exact Hpar]. exfalso. apply Hbad. eexists. eexists. exists []. split; [reflexivity|]. split; [eassumption|left; reflexivity].
    - intros _. reflexivity.
    - intros m1 fs1 Heq. inversion Heq; subst. exists fs'. split; [reflexivity|]. intros c x args Hc Hn Hbad. exact (Hctx c x args eq_refl Hc Hn Hbad).
  Qed.

  Lemma clean_done t : clean (done t).
  Proof. intros u Hu. inversion Hu; subst; [intros Hx; inversion Hx; subst; match goal with H : _ \/ _ |- _ => destruct H; discriminate end|contradiction]. Qed.
  Lemma clean_Done m fs : clean (Nd m "Done" fs).
  Proof. intros u Hu. inversion Hu; subst; [intros Hx; inversion Hx; subst; match goal with H : _ \/ _ |- _ => destruct H; discriminate end|contradiction]. Qed.
  Lemma denotes_kind {M} (c : tree M) x args : denotes c x args -> kind_of c <> "Done"%string.
  Proof. intros H. destruct H; discriminate. Qed.

  (** What took the place of an invocation. *)
  Lemma landed_Q t c x i r t' : lands E c x i r t' -> (exists m k fs, t = Nd m k fs /\ k <> "keyword"%string /\ k <> "withitem"%string) -> res_ok r ->
    (forall e, In e (members r) -> clean e) -> (forall e, In e (members r) -> ~ mention b e) -> Q t t'.
  Proof.
    intros Hl [m [k [fs [-> [Hk1 Hk2]]]]] Hok Hcl Hme.
    assert (Hm : forall e, In e (members t') -> is_kind "Done" e = true \/ In e (members r)).
    { inversion Hl; subst; cbn [members]; intros e He; auto; try (left; destruct He as [<-|[]]; reflexivity). destruct He as [<-|He]; [left; reflexivity|right]. destruct r as [| |[]]; auto; destruct He as [<-|[]]; destruct Hok as [Hz|[Hz|[? [Hz _]]]]; discriminate. }
    assert (Hd : forall e : ltree, is_kind "Done" e = true -> exists m' fs', e = Nd m' "Done" fs').
    { intros e He. destruct e as [m' k' fs'| |]; try discriminate. cbn in He. apply String.eqb_eq in He. subst. eauto. }
    split; [|split; [|split; [|split]]].
    - inversion Hl; subst; try exact Hok; try (right; left; reflexivity). right; right. eexists. split; [reflexivity|]. constructor; [reflexivity|]. destruct Hok as [->|[Hok|[l0 [-> Hl0]]]]; [constructor| |exact Hl0]. destruct r; try discriminate. repeat constructor.
    - intros e He. destruct (Hm e He) as [Hx|Hx]; [|exact (Hcl e Hx)]. destruct (Hd e Hx) as [m' [fs' ->]]. apply clean_Done.
    - intros e y args He Hn _. exfalso. destruct (Hm e He) as [Hx|Hx].
      + destruct (Hd e Hx) as [m' [fs' ->]]. exact (denotes_kind _ _ _ (proj1 Hn) eq_refl).
      + exact (no_mention_no_name e y args (Hcl e Hx) (Hme e Hx) Hn).
    - intros Hx. cbn in Hx. contradiction.
    - intros m0 fs0 Hx. inversion Hx; subst. contradiction.
  Qed.
  Lemma next_kinds m k fs c x i : next_call E b (Nd m k fs) c x i -> k <> "keyword"%string /\ k <> "withitem"%string.
  Proof. intros H. inversion H; subst; try (split; discriminate). match goal with Hk : _ \/ _ |- _ => destruct Hk; subst; split; discriminate end. Qed.

  Theorem complete n : forall t, tidy t -> steps n t.
  Proof.
    induction n as [|n IH]; intros t Ht s t' s' H; [discriminate|].
    apply step_of; [exact (visit_mode E _ _ _ _ _ H)|exact (visit_binds E Hmac _ _ _ _ _ H)|]. intros Hr Hbb d Hlog Hfine.
    destruct t as [m k fs|l|a].
    - destruct (String.eqb_spec k "Done") as [->|Hd].
      { cbn [visit] in H. unfold visit_body in H. cbn [is_kind] in H. rewrite String.eqb_refl, orb_true_r in H. inversion H; subst t' s'.
        split; [right; left; reflexivity|]. split; [intros e [<-|[]]; apply clean_Done|]. split; [|split; [intros _; reflexivity|intros m0 fs0 Hx; inversion Hx]].
        intros e x args [<-|[]] Hn _. exfalso. exact (denotes_kind _ _ _ (proj1 Hn) eq_refl). }
      pose proof (tidy_shaped _ Ht) as Hs.
      destruct (next_dec E b m k fs Hs Hd) as [[c [x [i Hc]]]|Hno].
      + pose proof Hc as Hc'. rewrite <- Hbb in Hc. destruct (visit_next E n s _ c x i Hs Hc) as [V1 _].
        assert (Hbad : ~ bad_call c) by (intros Hx; rewrite (V1 Hx) in H; discriminate). clear V1.
        destruct (visit_has_outcome E n s _ c x i _ _ Hs Hc Hbad H) as [r [s1 Ho]]. rewrite (visit_outcome E n s _ c x i r s1 Hs Hc Hbad Ho) in H.
        pose proof (called_rec E _ _ _ _ _ _ Ho) as Hrec. destruct (next_kind E _ _ _ _ _ Hc) as [_ [_ Htg]].
        destruct (next_kinds _ _ _ _ _ _ Hc') as [Hk1 Hk2].
        destruct Ho as [j [Hbj Hrun]]. destruct (run_mode E _ _ _ _ _ _ Hrun) as [_ [d0 [Ld0 _]]].
        assert (B1 : s_b s1 = b).
        { rewrite (run_binds E Hmac _ _ _ _ _ _ (Hmac j i) Hrun). unfold called_in. destruct (String.eqb _ _); exact Hbb. }
        destruct (String.eqb_spec (in_syntax i) "name") as [Hy|Hy].
        * (* name macro *)
          destruct (expanded E n x i r s1) as [[[r2|e] s2]|] eqn:Ex; try discriminate. unfold expanded in Ex. destruct r as [v|e]; [|discriminate]. destruct (typecheck v) as [v1|] eqn:Ev; [|discriminate]. apply typecheck_iff in Ev.
          rewrite Htg in Ex.
          assert (X : s2 = logged (EOut x (in_syntax i) r2) (logged (ERet (XOk v)) s1) /\ (r2 = NoneT \/ x_fix E v1 (Nd m k fs) = Ok r2)).
          { unfold bnd in Ex. destruct (is_none v1) eqn:En.
            - destruct v1 as [| |[]]; try discriminate. cbn in Ex. inversion Ex; subst. auto.
            - assert (Hnn : v1 <> NoneT) by (intros ->; discriminate). unfold visit_expansion in Ex.
              destruct v1 as [| |[]]; try discriminate; try (exfalso; apply Hnn; reflexivity); unfold bnd, of_res, lift in Ex; destruct (x_fix E _ (Nd m k fs)); try discriminate; cbn [logged s_rec] in Ex; rewrite Hrec in Ex; cbn in Ex; inversion Ex; subst; auto. }
          destruct X as [-> Hfix]. cbv zeta in H. unfold called_in in Ld0. rewrite Hy in Ld0. cbn [String.eqb Ascii.eqb Bool.eqb s_log] in Ld0.
          assert (Dn : forall tx, t' = done tx -> Q (Nd m k fs) t').
          { intros tx ->. split; [right; left; reflexivity|]. split; [intros e [<-|[]]; apply clean_done|]. split; [|split; [intros Hx; cbn in Hx; contradiction|intros m0 fs0 Hx; inversion Hx; subst; contradiction]].
            intros e y args [<-|[]] Hn _. exfalso. exact (denotes_kind _ _ _ (proj1 Hn) eq_refl). }
          destruct (is_none r2) eqn:En; [inversion H; subst t'; eapply Dn; reflexivity|]. destruct (same_name x r2); [inversion H; subst t'; eapply Dn; reflexivity|].
          rewrite Hr in H. destruct Hfix as [->|Hfix]; [discriminate|].
          assert (Hd' : exists d2, s_log s' = s_log s ++ (([EMode false; ECall x i false] ++ d0) ++ [ERet (XOk v); EOut x (in_syntax i) r2; EModeEnd]) ++ d2 /\
                   s_log s' = (s_log s1 ++ [ERet (XOk v); EOut x (in_syntax i) r2; EModeEnd]) ++ d2).
          { destruct (visit_mode E _ _ _ _ _ H) as [_ [d2 [L2 _]]]. cbn in L2. exists d2. rewrite L2, Ld0. split; repeat (cbn; rewrite <- ?app_assoc); reflexivity. }
          destruct Hd' as [d2 [L2 L2']]. rewrite L2 in Hlog. apply app_inv_head in Hlog. rewrite <- Hlog in Hfine. destruct (fine_app _ _ Hfine) as [Hf1 Hf2]. destruct (fine_app _ _ Hf1) as [_ Hf3].
          assert (Htv : tidy r2) by (eapply (proj2 Hf3); [left; reflexivity|exact Ev|exact Hfix]).
          destruct (IH r2 Htv _ _ _ H eq_refl B1) as [_ [_ [d3 [L3 G3]]]]. cbn in L3. rewrite L2' in L3. rewrite <- !app_assoc in L3. cbn in L3. apply app_inv_head in L3. inversion L3; subst d3. specialize (G3 Hf2).
          destruct G3 as [Hok [Hcl [Hnm _]]]. split; [exact Hok|]. split; [exact Hcl|]. split; [|split; [intros Hx; cbn in Hx; contradiction|intros m0 fs0 Hx; inversion Hx; subst; contradiction]].
          intros e y args He Hn Hbe. exfalso. destruct (Hnm e y args He Hn Hbe) as [w [Hw [Hkw [argsw Hnw]]]]. apply (proj1 Hf3 x (in_syntax i) r2 w); [right; left; reflexivity|exact Hw|].
          destruct Hnw as [Hdw [_ [iw [Hbw _]]]]. exists y, argsw, iw. split; [exact Hdw|]. split; [exact Hbw|]. rewrite Hkw. exact (clean_not_sub e y args (Hcl e He) Hn).
        * destruct (expanded E n x i r s1) as [[[r2|e] s2]|] eqn:Ex; try discriminate. unfold expanded in Ex. destruct r as [v|e]; [|discriminate]. destruct (typecheck v) as [v1|] eqn:Ev; [|discriminate]. apply typecheck_iff in Ev.
          rewrite Htg in Ex. rewrite Hr in Hrec.
          (* the log up to the end *)
          assert (Hland : lands E c x i r2 t' /\ s' = s2).
          { destruct (String.eqb_spec (in_syntax i) "expr") as [He|He].
            - inversion H; subst. split; [|reflexivity]. destruct (is_none r2) eqn:En.
              + destruct r2 as [| |[]]; try discriminate. assert (L0 : loc_of (Nd m k fs) = loc_of (in_target i)) by (rewrite Htg; reflexivity). cbn [loc_of] in L0. cbn [loc_of]. rewrite L0. apply ld_expr_none. auto.
              + apply ld_expr; auto.
            - cbv zeta in H. inversion H; subst. split; [|reflexivity]. destruct (String.eqb_spec (in_syntax i) "block") as [Hk|Hk].
              + eapply insert_dummy_lands; [left; split; [exact Hk|rewrite Htg; reflexivity]|eassumption].
              + eapply insert_dummy_lands; [right; split; [|reflexivity]|eassumption]. inversion Hc'; subst; cbn in *; congruence. }
          destruct Hland as [Hland ->]. clear H. unfold called_in in Ld0. destruct (String.eqb_spec (in_syntax i) "name"); [contradiction|]. cbn [s_log] in Ld0.
          assert (X : exists d2 s3, s2 = logged (EOut x (in_syntax i) r2) s3 /\ s_log s3 = s_log (logged (ERet (XOk v)) s1) ++ d2 /\
                     (r2 = NoneT \/ exists v2, x_fix E v1 (Nd m k fs) = Ok v2 /\ visit E n v2 (logged (ERet (XOk v)) s1) = Some (XOk r2, s3))).
          { unfold bnd in Ex. destruct (is_none v1) eqn:En.
            - destruct v1 as [| |[]]; try discriminate. cbn in Ex. inversion Ex; subst. eexists []. eexists. split; [reflexivity|]. split; [rewrite app_nil_r; reflexivity|]. left. reflexivity.
            - assert (Hnn : v1 <> NoneT) by (intros ->; discriminate). unfold visit_expansion in Ex.
              assert (Ex' : match x_fix E v1 (Nd m k fs) with Ok v2 => match visit E n v2 (logged (ERet (XOk v)) s1) with Some (XOk u, s3) => Some (XOk u, logged (EOut x (in_syntax i) u) s3) | Some (XRaise e, s3) => Some (XRaise e, s3) | None => None end | Err e => Some (XRaise (plain e), logged (ERet (XOk v)) s1) end = Some (XOk r2, s2)).
              { destruct v1 as [| |[]]; try discriminate; try (exfalso; apply Hnn; reflexivity); unfold bnd, of_res, lift in Ex; destruct (x_fix E _ (Nd m k fs)); try discriminate; cbn [logged s_rec] in Ex; rewrite Hrec in Ex; exact Ex. }
              clear Ex. destruct (x_fix E v1 (Nd m k fs)) as [v2|]; [|discriminate]. destruct (visit E n v2 _) as [[[u|e] s3]|] eqn:E3; try discriminate. inversion Ex'; subst.
              destruct (visit_mode E _ _ _ _ _ E3) as [_ [d2 [L2 _]]]. exists d2, s3. split; [reflexivity|]. split; [exact L2|]. right. eauto. }
          destruct X as [d2 [s3 [-> [L2 Hv2]]]].
          assert (Ld : d = ([ECall x i (s_rec s)] ++ d0) ++ [ERet (XOk v)] ++ d2 ++ [EOut x (in_syntax i) r2]).
          { cbn in Hlog, L2. rewrite L2, Ld0 in Hlog. repeat rewrite <- app_assoc in Hlog. apply app_inv_head in Hlog. rewrite <- Hlog. repeat (cbn; rewrite <- ?app_assoc). reflexivity. }
          rewrite Ld in Hfine. apply fine_app in Hfine. destruct Hfine as [_ Hfine]. destruct (fine_app _ _ Hfine) as [Hfr Hfine2]. destruct (fine_app _ _ Hfine2) as [Hf2 Hfo].
          assert (Hmen : forall e, In e (members r2) -> ~ mention b e) by (intros e He; eapply (proj1 Hfo); [left; reflexivity|exact He]).
          assert (HQ : res_ok r2 /\ forall e, In e (members r2) -> clean e).
          { destruct Hv2 as [->|[v2 [Hfx Hv2]]]; [split; [left; reflexivity|intros e []]|].
            assert (Htv : tidy v2) by (eapply (proj2 Hfr); [left; reflexivity|exact Ev|exact Hfx]).
            destruct (IH v2 Htv _ _ _ Hv2 Hrec B1) as [_ [_ [d3 [L3 G3]]]]. rewrite L2 in L3. apply app_inv_head in L3. subst d3. destruct (G3 Hf2) as [H1 [H2 _]]. auto. }
          destruct HQ as [HQ1 HQ2]. refine (landed_Q _ c x i r2 t' Hland _ HQ1 HQ2 Hmen). exists m, k, fs. auto.
      + pose proof Hno as Hno'. rewrite <- Hbb in Hno'. rewrite (visit_generic E n s m k fs Hs Hd ltac:(rewrite Hbb; exact Hb) Hno') in H. destruct (String.eqb_spec k "Name") as [->|Hkn].
        * inversion H; subst t' s'.
          split; [right; left; reflexivity|]. split; [|split; [|split; [intros _; reflexivity|intros m0 fs0 Hx; inversion Hx]]].
          -- intros e [<-|[]] u Hu. inversion Hu; subst.
             ++ intros Hx. inversion Hx; subst; [match goal with Hk : _ \/ _ |- _ => destruct Hk; discriminate end|]. eapply Hno. eapply nc_name; eassumption.
             ++ match goal with Hin : In (f, v) fs |- _ => pose proof (proj1 (proj2 (proj2 (Ht _ (pt_refl _)))) eq_refl f v Hin) as Hv end. destruct v as [mv kv [|]| |av]; try contradiction.
                ** match goal with Hp : part _ u |- _ => inversion Hp; subst end; [|match goal with Hin : In _ [] |- _ => destruct Hin end]. intros Hx. inversion Hx; subst; discriminate.
                ** match goal with Hp : part _ u |- _ => inversion Hp; subst end. intros Hx. inversion Hx.
          -- intros e x args [<-|[]] Hn _. eexists. split; [left; reflexivity|]. split; [reflexivity|]. exists args. exact Hn.
        * cbn [xgeneric_visit] in H. unfold bnd in H. destruct (xgv_fields (visit E n) fs s) as [[[fs'|e] s1]|] eqn:E1; try discriminate. inversion H; subst t' s'.
          destruct (complete_fields n fs) with (s := s) (fs' := fs') (s' := s1) as [_ [_ [d1 [L1 G1]]]]; [| |exact E1|exact Hr|exact Hbb|].
          -- intros f t Hin Hn. apply IH. apply (tidy_part _ _ Ht). eapply pt_field; [exact Hd|exact Hin|constructor].
          -- intros f l t Hin Hin2 Hn. apply IH. apply (tidy_part _ _ Ht). eapply pt_field; [exact Hd|exact Hin|]. eapply pt_elem; [exact Hin2|constructor].
          -- rewrite L1 in Hlog. apply app_inv_head in Hlog. subst d1. apply complete_node; auto.
    - (* a list *)
      cbn [visit] in H. unfold visit_body in H. cbn [is_kind] in H. rewrite orb_false_r in H. destruct (s_b s) as [|b0 b1] eqn:Eb; [congruence|]. rewrite <- Eb in *. clear Eb b0 b1.
      unfold bnd in H. destruct (xvisit_elts (visit E n) l s) as [[[l'|e] s1]|] eqn:E1; try discriminate.
      destruct (complete_elts n l) with (s := s) (l' := l') (s' := s1) as [_ [_ [d1 [L1 G1]]]]; [|exact E1|exact Hr|exact Hbb|].
      { intros t Hin. apply IH. apply (tidy_part _ _ Ht). eapply pt_elem; [exact Hin|constructor]. }
      assert (Hs1 : s' = s1) by (destruct (flatten l'); inversion H; reflexivity). subst s1. rewrite L1 in Hlog. apply app_inv_head in Hlog. subst d1. specialize (G1 Hfine).
      assert (Hok : Forall res_ok l') by (clear - G1; induction G1 as [|x y l l' [Hxy _] _ IH]; constructor; assumption).
      rewrite (flatten_members l' Hok) in H.
      assert (Hm : forall e, In e (members t') -> exists v w, In v l /\ Q v w /\ In e (members w)).
      { intros e He. assert (Hin : In e (flat_map members l')) by (destruct (flat_map members l'); inversion H; subst t'; [destruct He|exact He]).
        apply in_flat_map in Hin. destruct Hin as [w [Hw Hew]]. clear - G1 Hw Hew. induction G1 as [|x y l l' Hxy _ IH]; [destruct Hw|]. destruct Hw as [<-|Hw]; [exists x, y; split; [left; reflexivity|auto]|]. destruct (IH Hw) as [v0 [w0 [H1 H2]]]. exists v0, w0. split; [right; exact H1|exact H2]. }
      assert (Hnodes : Forall (fun v => is_node v = true) (flat_map members l')).
      { clear - Hok. induction Hok as [|x l Hx _ IH]; [constructor|]. cbn. apply Forall_app. split; [|exact IH]. destruct Hx as [->|[Hx|[lx [-> Hlx]]]]; [constructor| |exact Hlx]. destruct x; try discriminate. repeat constructor. }
      split; [|split; [|split; [|split]]].
      + destruct (flat_map members l'); inversion H; subst t'; [left; reflexivity|]. right; right. eauto.
      + intros e He. destruct (Hm e He) as [v [w [_ [Hq Hw]]]]. exact (proj1 (proj2 Hq) e Hw).
      + intros e x args He Hn Hbe. destruct (Hm e He) as [v [w [Hv [Hq Hw]]]]. destruct (proj1 (proj2 (proj2 Hq)) e x args Hw Hn Hbe) as [v0 [Hv0 Hrest]].
        pose proof (proj2 (Ht _ (pt_refl _))) as Hfl. cbn in Hfl. rewrite Forall_forall in Hfl. specialize (Hfl v Hv). destruct v as [mv kv fv| |]; try discriminate; [|destruct Hv0]. destruct Hv0 as [<-|[]]. exists (Nd mv kv fv). split; [exact Hv|exact Hrest].
      + intros Hx. discriminate.
      + intros m0 fs0 Hx. discriminate.
    - cbn [visit] in H. unfold visit_body in H. cbn [is_kind] in H. rewrite orb_false_r in H. destruct (s_b s) as [|b0 b1] eqn:Eb; [congruence|]. destruct a; try discriminate. inversion H; subst t' s'.
      split; [left; reflexivity|]. split; [intros e []|]. split; [intros e x args []|]. split; [intros Hx; discriminate|intros m0 fs0 Hx; discriminate].
  Qed.
End Complete.
