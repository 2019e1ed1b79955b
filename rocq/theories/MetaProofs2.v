(** expands and its relatives. *)
From Verif Require Import Base AstLib UtilsModel FixLocModel MarkersModel QuoteModel ExpanderModel ExpanderSpec ExpanderProofs ExpanderProofs2 ExpanderProofs3 QuoteSpec QuoteSpec2 QuoteProofs QuoteProofs2 QuoteProofs3 NestModel NestSpec NestProofs NestProofs2 NestProofs4 NestProofs10 NestProps MetaModel MetaProofs.

Section Block.
  Variables (user_marker : string -> bool) (has_attr : string -> string -> bool).
  Variables (filename : string) (unparse : ltree -> string) (idx : op -> nat) (others : nat -> mdef nat).
  Variables (unique : string -> string) (pickled : nat -> string).
  Variables (loc_text : ltree -> string) (cov_text : loc -> string -> string) (isexc : exn -> bool).
  Notation E := (nest_env user_marker has_attr filename unparse idx others unique pickled loc_text cov_text isexc).
  Notation q := (q_prog user_marker has_attr filename idx unique pickled).
  Notation expands := (expands_prog user_marker has_attr filename idx unique pickled).
  Notation expandsq := (expandsq_prog user_marker has_attr filename idx unique pickled).

  Lemma q_level i : pkeepsu (q i).
  Proof.
    intros k v s r s' _ H. exact (proj1 (C55_level_restored user_marker has_attr filename unparse idx others unique pickled v Oq i k s r s' H)).
  Qed.
  Ltac up H := match type of H with run ?v ?k ?p ?s = Some ?x => let H' := fresh in assert (H' : run v (20 + k) p s = Some x) by (eapply below_run; [intros ? ? ? Hx; exact Hx|apply Nat.le_add_l|exact H]); clear H; rename H' into H end.
  Lemma expands_level once i : pkeepsu (expands once i).
  Proof.
    intros k v s r s' Hv H. up H. unfold expands_prog in H. cbn [Nat.add] in H.
    destruct (negb _); [rewrite run_raise in H; inversion H; subst; reflexivity|]. destruct (_ && _); [rewrite run_raise in H; inversion H; subst; reflexivity|].
    rewrite run_call in H. destruct (call_expander v HOnce _ _) as [[r0 s0]|] eqn:E0; [|discriminate]. pose proof (ku_call v Hv _ _ _ _ _ E0) as K0. cbn in K0. rewrite <- K0. clear E0 K0 s.
    destruct r0 as [d|e]; [|rewrite run_raise in H; inversion H; subst; reflexivity].
    destruct (body_of d) as [u|e]; [|rewrite run_raise in H; inversion H; subst; reflexivity].
    destruct (unastify _ _) as [x|e]; [|rewrite run_raise in H; inversion H; subst; reflexivity].
    rewrite run_call in H. destruct (call_expander v _ _ _) as [[r1 s1]|] eqn:E1; [|discriminate]. pose proof (ku_call v Hv _ _ _ _ _ E1) as K1. cbn in K1. rewrite <- K1. clear E1 K1 s0.
    destruct r1 as [t|e]; [|rewrite run_raise in H; inversion H; subst; reflexivity].
    destruct (if once then body_of t else XOk t) as [t'|e]; [|rewrite run_raise in H; inversion H; subst; reflexivity].
    exact (q_level _ _ _ _ _ _ Hv H).
  Qed.
  Lemma expandsq_level once i : pkeepsu (expandsq once i).
  Proof.
    intros k v s r s' Hv H. unfold expandsq_prog in H. destruct (negb _); [destruct k; [discriminate|]; rewrite run_raise in H; inversion H; subst; reflexivity|].
    apply run_bindp_inv in H. destruct H as (r1 & s1 & H1 & H2). rewrite <- (q_level _ _ _ _ _ _ Hv H1). destruct r1 as [t|e].
    - exact (expands_level _ _ _ _ _ _ _ Hv H2).
    - destruct k; [discriminate|]. rewrite run_raise in H2. inversion H2; subst. reflexivity.
  Qed.

  Lemma q_block_raises i v k s r s' : (forall t, keepsu (v t)) -> in_syntax i = "block"%string -> has_asname i = false -> s_u s = 0 ->
    run v k (q i) s = Some (r, s') -> exists e, r = XRaise e.
  Proof.
    intros Hv Hs Ha Hu H. up H. rewrite run_q in H by (cbn; lia). rewrite Hs in H. cbn in H. unfold q_outcome in H.
    destruct (call_expander v HRec _ _) as [[r0 s0]|] eqn:E0; [|discriminate]. pose proof (ku_call v Hv _ _ _ _ _ E0) as K0. cbn in K0. rewrite Hu in K0.
    destruct r0 as [t|e]; [|inversion H; subst; eauto]. rewrite K0 in H. change (Nat.ltb 1 1) with false in H. cbv iota in H. rewrite Hs in H.
    inversion H. subst r. unfold compile. destruct (delete_markers _ _) as [t1|]; [|eauto]. destruct (QuoteModel.q _ _ _ _ _) as [c|]; [|eauto].
    cbn. unfold has_asname in Ha. destruct (in_vars i) as [[|  |[]]|]; try discriminate; eauto.
  Qed.
  Hypothesis private : forall i inp, pkeepsu (m_run (others i) inp).
  Lemma env_level i inp : pkeepsu (m_run (x_macro E i) inp).
  Proof.
    cbn [x_macro nest_env]. destruct (op_of idx i) as [o|]; [|apply private]. intros k v s r s' _ H. exact (proj1 (C55_level_restored user_marker has_attr filename unparse idx others unique pickled v o inp k s r s' H)).
  Qed.
  Lemma expands_block once i n k s r s' : in_syntax i = "block"%string -> s_u s = 0 -> run (visit E n) k (expands once i) s = Some (r, s') -> exists e, r = XRaise e.
  Proof.
    pose proof (visit_keepsu E env_level n) as Hv. set (v := visit E n) in *. clearbody v. intros Hs Hu H. up H. unfold expands_prog in H. cbn [Nat.add] in H. rewrite Hs in H. cbn [String.eqb Ascii.eqb Bool.eqb negb orb andb] in H.
    destruct (has_asname i) eqn:Ha; [rewrite run_raise in H; inversion H; subst; eauto|].
    rewrite run_call in H. destruct (call_expander v HOnce _ _) as [[r0 s0]|] eqn:E0; [|discriminate]. pose proof (ku_call v Hv _ _ _ _ _ E0) as K0. cbn in K0. clear E0.
    destruct r0 as [d|e]; [|rewrite run_raise in H; inversion H; subst; eauto].
    destruct (body_of d) as [u|e]; [|rewrite run_raise in H; inversion H; subst; eauto].
    destruct (unastify _ _) as [x|e]; [|rewrite run_raise in H; inversion H; subst; eauto].
    rewrite run_call in H. destruct (call_expander v _ _ _) as [[r1 s1]|] eqn:E1; [|discriminate]. pose proof (ku_call v Hv _ _ _ _ _ E1) as K1. cbn in K1.
    destruct r1 as [t|e]; [|rewrite run_raise in H; inversion H; subst; eauto].
    destruct (if once then body_of t else XOk t) as [t'|e]; [|rewrite run_raise in H; inversion H; subst; eauto].
    refine (q_block_raises _ _ _ _ _ _ Hv _ _ _ H); [reflexivity|exact Ha|]. rewrite K1, K0. exact Hu.
  Qed.
  Lemma expandsq_block once i n k s r s' : in_syntax i = "block"%string -> s_u s = 0 -> run (visit E n) k (expandsq once i) s = Some (r, s') -> exists e, r = XRaise e.
  Proof.
    intros Hs Hu H. unfold expandsq_prog in H. rewrite Hs in H. cbn [String.eqb Ascii.eqb Bool.eqb negb orb andb] in H. apply run_bindp_inv in H. destruct H as (r1 & s1 & H1 & H2).
    pose proof (q_level _ _ _ _ _ _ (visit_keepsu E env_level n) H1) as K. destruct r1 as [t|e].
    - eapply expands_block; [|  |exact H2]; [reflexivity|]. rewrite K. exact Hu.
    - destruct k; [discriminate|]. rewrite run_raise in H2. inversion H2; subst. eauto.
  Qed.
End Block.
