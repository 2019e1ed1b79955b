(** Proofs for C42: what a quasiquote gives. *)
From Verif Require Import Base AstLib FixLocModel QuoteModel QuoteSpec QuoteSpec2 QuoteProofs QuoteProofs2.

Lemma doit_id t : forall t', doit t = Ok t' -> no_splice t -> t' = t.
Proof.
  induction t as [a|l IH|l IH|l IH|l IH|m k fs IH] using pv_ind2; intros t' E H; try discriminate.
  - rewrite doit_list in E. destruct (doit_items l) as [l'|] eqn:El; [|discriminate]. injection E as <-. f_equal. apply no_splice_list in H. revert l' El.
    induction l as [|x l IHl]; intros l' El; [injection El as <-; reflexivity|]. rewrite doit_cons in El. inversion IH as [|? ? IHx IHr]; subst. inversion H as [|? ? Hx Hr]; subst.
    destruct (doit x) as [x'|] eqn:Ex; [|discriminate]. destruct (doit_items l) as [r'|] eqn:Er; [|discriminate]. injection El as <-. rewrite (IHx x' eq_refl Hx), (IHl IHr Hr r' eq_refl). apply spliced_cons_other.
    destruct x; try exact I. apply no_splice_node in Hx. exact (proj1 Hx).
  - rewrite doit_node in E. destruct (is_glob k); [injection E as <-; reflexivity|]. destruct (doit_fields fs) as [fs'|] eqn:Ef; [|discriminate]. injection E as <-. f_equal. apply no_splice_node in H. destruct H as [_ H]. revert fs' Ef.
    induction fs as [|[f v] fs IHl]; intros fs' Ef; [injection Ef as <-; reflexivity|]. cbn [doit_fields] in Ef. fold doit_fields in Ef. inversion IH as [|? ? IHx IHr]; subst. inversion H as [|? ? Hx Hr]; subst. cbn [snd] in *.
    destruct (match v with PL _ => doit v | _ => Ok v end) as [v'|] eqn:Ev; [|discriminate]. destruct (doit_fields fs) as [r'|] eqn:Er; [|discriminate]. injection Ef as <-. rewrite (IHl IHr Hr r' eq_refl). do 2 f_equal.
    destruct v; try (injection Ev as <-; reflexivity). exact (IHx v' Ev Hx).
Qed.
Lemma inert_doit t : inert true t -> doit t = Ok t.
Proof. intros (_ & Hn & Hp). destruct (proj1 placed_doit t (Hp eq_refl)) as (t' & E & _). rewrite (doit_id t t' E Hn) in E. exact E. Qed.
Lemma inert_items ts : Forall (inert true) ts -> doit_items ts = Ok ts.
Proof.
  induction 1 as [|t ts H Hl IH]; [reflexivity|]. rewrite doit_cons, (inert_doit t H), IH. f_equal. apply spliced_cons_other. destruct H as (Hn & Hs & _). destruct t; try exact I. apply no_splice_node in Hs. exact (proj1 Hs).
Qed.
Lemma inert_no_splice r ts : Forall (inert r) ts -> Forall no_splice ts.
Proof. intros H. eapply Forall_impl; [|exact H]. intros t (_ & Hn & _). exact Hn. Qed.
Lemma nodes_flat x : forall ts, nodes_of x ts -> flat x = ts.
Proof.
  induction x as [a|l IH|l IH|l IH|l IH|m k fs IH] using pv_ind2; intros ts H; inversion H as [|l' lss H2]; subst; [|reflexivity]. cbn [flat]. clear H. revert lss H2.
  induction l as [|x l IHl]; intros lss H2; inversion H2 as [|? ls ? lss' H3 H4]; subst; [reflexivity|]. inversion IH as [|? ? I1 I2]; subst. cbn [flat_map concat]. rewrite (I1 _ H3), (IHl I2 _ H4). reflexivity.
Qed.
Lemma nodes_flat_list l ts : nodes_of (PL l) ts -> flat_map flat l = ts.
Proof. intros H. exact (nodes_flat (PL l) ts H). Qed.

Section Q.
  Variables (is_expr is_stmt user_marker : string -> bool) (has_attr : string -> string -> bool).
  Variable parse_expr : string -> res pv.
  Variable ext : pv -> res pv.
  Notation is_marker := (is_marker user_marker).
  Notation astify := (astify user_marker has_attr).
  Notation eval := (eval is_expr is_stmt user_marker has_attr parse_expr ext).
  Notation runtime := (runtime is_expr is_stmt user_marker has_attr parse_expr).
  Notation astify_fields := (astify_fields user_marker has_attr).
  Notation eval_kws := (eval_kws is_expr is_stmt user_marker has_attr parse_expr ext).
  Notation subst := (subst is_expr is_stmt user_marker has_attr parse_expr eval).
  Notation subst_items := (subst_items is_expr is_stmt user_marker has_attr parse_expr eval).
  Notation subst_fields := (subst_fields is_expr is_stmt user_marker has_attr parse_expr eval).

  (** The code for a value can be put anywhere. *)
  Lemma kws_placed (cs : list (string * pv)) : Forall (fun p => inert true (snd p)) cs -> placed_items (map (fun p => p_kw (fst p) (snd p)) cs) /\ Forall no_splice (map (fun p => p_kw (fst p) (snd p)) cs).
  Proof.
    induction 1 as [|[f c] cs (H1 & H2 & H3) Hl (IH1 & IH2)]; [split; constructor|]. cbn [map fst snd] in *.
    assert (N : no_splice (p_kw f c)). { apply no_splice_node. split; [discriminate|]. repeat constructor; [intros Ho; inversion Ho|exact H2]. }
    split; constructor; auto; [exact I|]. apply pl_node; [reflexivity|discriminate|]. apply pf_other; [exact I|intros Ho; inversion Ho|]. apply pf_other; [destruct c; try destruct H1; exact I|exact H2|constructor].
  Qed.
  Lemma mk_list_placed k f cs : k <> "SpliceNodes"%string -> is_glob k = false -> Forall (inert true) cs -> inert true (nd k [(f, PL cs)]).
  Proof.
    intros Hk Hg H. assert (P : placed_items cs). { clear - H. induction H as [|c cs (H1 & H2 & H3) Hl IH]; [constructor|]. apply pi_item; [destruct c; try destruct H1; exact I|exact (H3 eq_refl)|exact IH]. }
    split; [exact I|]. split.
    - apply no_splice_node. split; [exact Hk|]. constructor; [|constructor]. apply no_splice_list. exact (inert_no_splice _ _ H).
    - intros _. apply pl_node; [exact Hg|exact Hk|]. apply pf_list; [constructor; exact P|constructor].
  Qed.
  Lemma attr_no_splice : forall a, no_splice (quotes_attr a).
  Proof. intros a. repeat (apply no_splice_node; split; [discriminate|]; repeat constructor; try (intros Ho; inversion Ho; fail)). Qed.
  Lemma call_inert m fn (cs : list (string * pv)) : no_splice fn -> nonlist fn -> Forall (fun p => inert true (snd p)) cs ->
    inert true (PN m "Call" [("func"%string, fn); ("args"%string, PL []); ("keywords"%string, PL (map (fun p => p_kw (fst p) (snd p)) cs))]).
  Proof.
    intros Hf Hn H. destruct (kws_placed cs H) as [P N]. split; [exact I|]. split.
    - apply no_splice_node. split; [discriminate|]. constructor; [exact Hf|]. constructor; [apply no_splice_list; constructor|]. constructor; [|constructor]. apply no_splice_list. exact N.
    - intros _. apply pl_node; [reflexivity|discriminate|]. apply pf_other; [exact Hn|exact Hf|]. apply pf_list; [repeat constructor|]. apply pf_list; [constructor; exact P|constructor].
  Qed.
  Lemma mapr_inert cm l : Forall (fun x => forall c, astify cm x = Ok c -> inert true c) l -> forall cs, mapr (astify cm) l = Ok cs -> Forall (inert true) cs.
  Proof.
    induction 1 as [|x l Hx Hl IH]; intros cs E; cbn [mapr] in E; [injection E as <-; constructor|]. destruct (astify cm x) as [c|]; [|discriminate]. destruct (mapr (astify cm) l) as [cs'|]; [|discriminate]. injection E as <-. constructor; auto.
  Qed.
  Lemma astify_inert cm x : quotable user_marker x -> forall c, astify cm x = Ok c -> inert true c.
  Proof.
    induction x as [a|l IH|l IH|l IH|l IH|m k fs IH] using pv_ind2; intros H c Hc; inversion H as [a' H1 H2|l' H1|l' H1|l' H1|l' H1|m' k' fs' H1 H2]; subst.
    - cbn [QuoteModel.astify] in Hc. destruct (liftable a); [|discriminate]. injection Hc as <-. split; [exact I|]. split; [apply no_splice_node; split; [discriminate|]; repeat constructor; intros Ho; inversion Ho|].
      intros _. apply pl_node; [reflexivity|discriminate|]. apply pf_other; [exact I|intros Ho; inversion Ho|constructor].
    - cbn [QuoteModel.astify] in Hc. destruct (mapr (astify cm) l) as [cs|] eqn:E; [|discriminate]. injection Hc as <-. apply mk_list_placed; [discriminate|reflexivity|]. eapply mapr_inert; [|exact E]. rewrite Forall_forall in *. intros x Hx. exact (IH x Hx (H1 x Hx)).
    - cbn [QuoteModel.astify] in Hc. destruct (mapr (astify cm) l) as [cs|] eqn:E; [|discriminate]. injection Hc as <-. apply mk_list_placed; [discriminate|reflexivity|]. eapply mapr_inert; [|exact E]. rewrite Forall_forall in *. intros x Hx. exact (IH x Hx (H1 x Hx)).
    - cbn [QuoteModel.astify] in Hc. destruct (mapr (astify cm) l) as [cs|] eqn:E; [|discriminate]. injection Hc as <-. apply mk_list_placed; [discriminate|reflexivity|]. eapply mapr_inert; [|exact E]. rewrite Forall_forall in *. intros x Hx. exact (IH x Hx (H1 x Hx)).
    - cbn [QuoteModel.astify] in Hc.
      assert (K1 : mapr (fun kv : pv * pv => let (k, _) := kv in astify cm k) l = mapr (astify cm) (map fst l)).
      { clear. induction l as [|[k v] l IH]; [reflexivity|]. cbn [mapr map fst]. rewrite IH. reflexivity. }
      assert (K2 : mapr (fun kv : pv * pv => let (_, v) := kv in astify cm v) l = mapr (astify cm) (map snd l)).
      { clear. induction l as [|[k v] l IH]; [reflexivity|]. cbn [mapr map snd]. rewrite IH. reflexivity. }
      rewrite K1, K2 in Hc. destruct (mapr (astify cm) (map fst l)) as [ks|] eqn:E1; [|discriminate]. destruct (mapr (astify cm) (map snd l)) as [vs|] eqn:E2; [|discriminate]. injection Hc as <-.
      assert (I1 : Forall (inert true) ks). { eapply mapr_inert; [|exact E1]. apply Forall_map. rewrite Forall_forall in *. intros x Hx. exact (proj1 (IH x Hx) (proj1 (H1 x Hx))). }
      assert (I2 : Forall (inert true) vs). { eapply mapr_inert; [|exact E2]. apply Forall_map. rewrite Forall_forall in *. intros x Hx. exact (proj2 (IH x Hx) (proj2 (H1 x Hx))). }
      pose proof (mk_list_placed "Dict" "keys" ks ltac:(discriminate) eq_refl I1) as (_ & A1 & A2). pose proof (mk_list_placed "Dict" "values" vs ltac:(discriminate) eq_refl I2) as (_ & B1 & B2).
      specialize (A2 eq_refl). specialize (B2 eq_refl). apply no_splice_node in A1. apply no_splice_node in B1. destruct A1 as [_ A1]. destruct B1 as [_ B1]. inversion A1; inversion B1; subst.
      inversion A2 as [| |? ? ? ? ? A3]; inversion B2 as [| |? ? ? ? ? B3]; subst; try discriminate. inversion A3 as [|? ? ? A4 A5|? ? ? A4]; subst; [|contradiction]. inversion B3 as [|? ? ? B4 B5|? ? ? B4]; subst; [|contradiction].
      split; [exact I|]. split; [apply no_splice_node; split; [discriminate|]; constructor; [assumption|constructor; [assumption|constructor]]|]. intros _. apply pl_node; [reflexivity|discriminate|]. apply pf_list; [assumption|]. apply pf_list; [assumption|constructor].
    - assert (G : forall cs, astify_fields cm fs = Ok cs -> exists cs', cs = map (fun p => p_kw (fst p) (snd p)) cs' /\ Forall (fun p => inert true (snd p)) cs').
      { clear - IH H2. induction fs as [|[f v] fs IHl]; intros cs E; cbn [QuoteProofs.astify_fields] in E; [injection E as <-; exists []; split; [reflexivity|constructor]|]. fold (astify_fields cm) in E. inversion IH as [|? ? I1 I2]; subst. inversion H2 as [|? ? J1 J2]; subst. cbn [snd] in *.
        destruct (astify cm v) as [c|]; [|discriminate]. destruct (astify_fields cm fs) as [cs0|]; [|discriminate]. injection E as <-. destruct (IHl I2 J2 cs0 eq_refl) as (cs' & -> & F). exists ((f, c) :: cs'). split; [reflexivity|]. constructor; [exact (I1 J1 c eq_refl)|exact F]. }
      destruct H1 as [Hk| ->].
      + rewrite (astify_node is_expr is_stmt user_marker has_attr parse_expr cm m k fs Hk) in Hc. destruct (astify_fields cm fs) as [cs|] eqn:E; [|discriminate]. injection Hc as <-. destruct (G cs eq_refl) as (cs' & -> & F). apply call_inert; [|exact I|exact F].
        apply no_splice_node. split; [discriminate|]. constructor; [apply attr_no_splice|]. constructor; [intros Ho; inversion Ho|constructor].
      + rewrite (astify_done user_marker has_attr cm m fs) in Hc. destruct (astify_fields cm fs) as [cs|] eqn:E; [|discriminate]. injection Hc as <-. destruct (G cs eq_refl) as (cs' & -> & F). apply call_inert; [apply attr_no_splice|exact I|exact F].
  Qed.

  Definition code (c : pv) : Prop := (match c with PN _ _ _ => True | _ => False end) /\ has_marker is_quasi c = false.
  Definition after (r : bool) (y z : pv) : Prop := if r then doit y = Ok z else y = z.
  Lemma unmarked_code b : unmarked b -> code b.
  Proof.
    intros [H1 H2]. split; [exact H1|]. destruct (has_marker is_quasi b) eqn:E; [|reflexivity]. destruct (has_marker_occurs _ _ E) as (k & Hk & Ho). apply smem_In in Hk. destruct (H2 k Hk Ho).
  Qed.
  Lemma call1_code d b : code b -> code (p_call (quotes_attr d) [b] []).
  Proof. intros [H1 H2]. split; [exact I|]. unfold p_call, nd. cbn [has_marker existsb quotes_attr p_attr p_name nd str]. destruct b; try destruct H1. rewrite H2. reflexivity. Qed.
  Lemma call2_code d b v : code b -> code (p_call (quotes_attr d) [b; p_const (str v)] []).
  Proof. intros [H1 H2]. split; [exact I|]. unfold p_call, nd. cbn [has_marker existsb quotes_attr p_attr p_name p_const nd str]. destruct b; try destruct H1. rewrite H2. reflexivity. Qed.
  Lemma inert_after r t : inert r t -> after r t t.
  Proof. unfold after. destruct r; [apply inert_doit|reflexivity]. Qed.
  Lemma class_check iscls t : of_class user_marker iscls t -> typecheck user_marker iscls t = true.
  Proof. destruct t as [| | | | |m k fs]; try contradiction. intros [H1 H2]. cbn [typecheck]. rewrite H1. exact H2. Qed.
  Lemma classes_check iscls ts : Forall (of_class user_marker iscls) ts -> forallb (typecheck user_marker iscls) ts = true.
  Proof. intros H. apply forallb_forall. rewrite Forall_forall in H. intros t Ht. exact (class_check _ _ (H t Ht)). Qed.
  Lemma fat_ok iscls v l ts : v = PL l \/ v = PT l -> nodes_of (PL l) ts -> Forall (of_class user_marker iscls) ts -> flatten_and_typecheck user_marker iscls v = Ok ts.
  Proof. intros Hv Hn Hc. unfold flatten_and_typecheck. destruct Hv as [-> | ->]; cbn [aslist]; rewrite (nodes_flat_list _ _ Hn), (classes_check _ _ Hc); reflexivity. Qed.

  Lemma cons_no_splice z r' : no_splice z -> spliced_cons z r' = z :: r'.
  Proof. intros Hn. apply spliced_cons_other. destruct z; try exact I. apply no_splice_node in Hn. exact (proj1 Hn). Qed.

  Lemma subst_run cm :
    (forall r x z, subst r x z -> exists c y, astify cm x = Ok c /\ code c /\ eval c = Ok y /\ after r y z /\ no_splice z /\ (nonlist x -> nonlist y)) /\
    (forall r l zs, subst_items r l zs -> exists cs ys, mapr (astify cm) l = Ok cs /\ existsb (fun x => match x with PN _ _ _ => has_marker is_quasi x | _ => false end) cs = false /\
        mapr eval cs = Ok ys /\ (if r then doit_items ys = Ok zs else ys = zs) /\ Forall no_splice zs) /\
    (forall r fs zs, subst_fields r fs zs -> exists cs ys, astify_fields cm fs = Ok cs /\ existsb (fun x => match x with PN _ _ _ => has_marker is_quasi x | _ => false end) cs = false /\
        eval_kws cs = Some (Ok ys) /\ (if r then doit_fields ys = Ok zs else ys = zs) /\ Forall (fun p => no_splice (snd p)) zs).
  Proof.
    apply (subst_mutind is_expr is_stmt user_marker has_attr parse_expr eval).
    - (* atom *) intros a H1 H2. exists (p_const (PA a)), (PA a). cbn [QuoteModel.astify]. rewrite (liftable_ok a H1 H2). split; [reflexivity|]. split; [split; [exact I|reflexivity]|]. split; [reflexivity|]. split; [reflexivity|]. split; [intros Ho; inversion Ho|auto].
    - (* list *) intros r l l' _ (cs & ys & E1 & E2 & E3 & E4 & E5). exists (nd "List" [("elts"%string, PL cs)]), (PL ys). cbn [QuoteModel.astify]. rewrite E1. split; [reflexivity|]. split; [split; [exact I|]; cbn [has_marker existsb nd]; rewrite E2; reflexivity|].
      split; [cbn [QuoteModel.eval nd String.eqb Ascii.eqb Bool.eqb andb]; rewrite E3; reflexivity|]. split; [destruct r; cbn [after]; [rewrite doit_list, E4; reflexivity|rewrite E4; reflexivity]|]. split; [apply no_splice_list; exact E5|intros []].
    - (* node *) intros r m k fs fs' Hk _ (cs & ys & E1 & E2 & E3 & E4 & E5).
      assert (Hks : k <> "SpliceNodes"%string) by (destruct Hk as [Hk| ->]; [intros ->; discriminate Hk|discriminate]).
      assert (A : after r (nd k ys) (PN noloc k fs')).
      { unfold after. destruct r; cbn [andb] in E4; [|rewrite E4; reflexivity]. unfold nd. rewrite doit_node. destruct (is_glob k); cbn [negb] in E4; [rewrite E4; reflexivity|]. rewrite E4. reflexivity. }
      assert (N : no_splice (PN noloc k fs')) by (apply no_splice_node; auto).
      destruct Hk as [Hk| ->].
      + eexists. exists (nd k ys). rewrite (astify_node is_expr is_stmt user_marker has_attr parse_expr cm m k fs Hk), E1. split; [reflexivity|]. split; [split; [exact I|]; cbn [has_marker existsb p_attr quotes_attr p_name nd str]; rewrite E2; reflexivity|].
        split; [rewrite eval_node, E3; reflexivity|]. split; [exact A|]. split; [exact N|intros _; exact I].
      + eexists. exists (nd "Done" ys). rewrite (astify_done user_marker has_attr cm m fs), E1. split; [reflexivity|]. split; [split; [exact I|]; unfold p_call, nd; cbn [has_marker existsb p_attr quotes_attr p_name nd str]; rewrite E2; reflexivity|].
        split; [unfold p_call, nd; rewrite eval_done, E3; reflexivity|]. split; [exact A|]. split; [exact N|intros _; exact I].
    - (* u *) intros r body v c Hb Hv Hq Hc. exists (p_call (quotes_attr "astify") [body] []), c. split; [reflexivity|]. split; [apply call1_code, unmarked_code; exact Hb|].
      pose proof (astify_inert _ v Hq c Hc) as Hi. split; [cbn [QuoteModel.eval p_call nd]; cbn; rewrite Hv; exact Hc|]. split; [apply inert_after; destruct Hi as (A & B & C); split; [exact A|split; [exact B|intros _; exact (C eq_refl)]]|].
      destruct Hi as (A & B & C). split; [exact B|]. intros _. destruct c; try destruct A; exact I.
    - (* n *) intros r body fn s t Hb Hv Hp Hi. exists (p_call (quotes_attr "lift_sourcecode") [body; p_const (str fn)] []), t. split; [reflexivity|]. split; [apply call2_code, unmarked_code; exact Hb|].
      split; [cbn; rewrite Hv; exact Hp|]. split; [apply inert_after; exact Hi|]. destruct Hi as (A & B & C). split; [exact B|]. intros _. destruct t; try destruct A; exact I.
    - (* a *) intros r body t Hb Hv Hc Hi. exists (p_call (quotes_attr "ast_literal") [body; p_const (str "expr")] []), t. split; [reflexivity|]. split; [apply call2_code, unmarked_code; exact Hb|].
      split; [cbn; rewrite Hv; cbn; pose proof (class_check _ _ Hc) as Ht; destruct t; try contradiction; rewrite Ht; reflexivity|]. split; [apply inert_after; exact Hi|]. destruct Hi as (A & B & C). split; [exact B|]. intros _. destruct t; try destruct A; exact I.
    - (* s *) intros r body l ts Hb Hv Hn Hc Hi. exists (p_call (quotes_attr "ast_list") [body] []), (nd "List" [("elts"%string, PL ts)]). split; [reflexivity|]. split; [apply call1_code, unmarked_code; exact Hb|].
      split. { destruct Hv as [Hv|Hv]; cbn; rewrite Hv; unfold QuoteModel.runtime; cbn; unfold ast_list; [rewrite (fat_ok is_expr (PL l) l ts (or_introl eq_refl) Hn Hc)|rewrite (fat_ok is_expr (PT l) l ts (or_intror eq_refl) Hn Hc)]; reflexivity. }
      split. { unfold after. destruct r; [|reflexivity]. unfold nd. rewrite doit_node. cbn [is_glob String.eqb Ascii.eqb Bool.eqb orb doit_fields]. rewrite doit_list, (inert_items ts Hi). reflexivity. }
      split; [|intros _; exact I]. apply no_splice_node. split; [discriminate|]. constructor; [|constructor]. apply no_splice_list. exact (inert_no_splice _ _ Hi).
    - (* t *) intros r body l ts Hb Hv Hn Hc Hi. exists (p_call (quotes_attr "ast_tuple") [body] []), (nd "Tuple" [("elts"%string, PL ts)]). split; [reflexivity|]. split; [apply call1_code, unmarked_code; exact Hb|].
      split. { destruct Hv as [Hv|Hv]; cbn; rewrite Hv; unfold QuoteModel.runtime; cbn; unfold ast_tuple; [rewrite (fat_ok is_expr (PL l) l ts (or_introl eq_refl) Hn Hc)|rewrite (fat_ok is_expr (PT l) l ts (or_intror eq_refl) Hn Hc)]; reflexivity. }
      split. { unfold after. destruct r; [|reflexivity]. unfold nd. rewrite doit_node. cbn [is_glob String.eqb Ascii.eqb Bool.eqb orb doit_fields]. rewrite doit_list, (inert_items ts Hi). reflexivity. }
      split; [|intros _; exact I]. apply no_splice_node. split; [discriminate|]. constructor; [|constructor]. apply no_splice_list. exact (inert_no_splice _ _ Hi).
    - intros r. exists [], []. repeat split; [destruct r; reflexivity|constructor].
    - (* item *) intros r x x' l l' Hx _ (c & y & E1 & (C1 & C2) & E3 & E4 & E5 & _) _ (cs & ys & F1 & F2 & F3 & F4 & F5). exists (c :: cs), (y :: ys). cbn [mapr existsb]. rewrite E1, F1, E3, F2, F3. split; [reflexivity|]. split; [destruct c; try destruct C1; rewrite C2; reflexivity|]. split; [reflexivity|].
      split; [|constructor; assumption]. unfold after in E4. destruct r; [rewrite doit_cons, E4, F4, (cons_no_splice _ _ E5); reflexivity|rewrite E4, F4; reflexivity].
    - (* splice *) intros body syn l ts rest rest' Hb Hs Hv Hn Hc Hi _ (cs & ys & F1 & F2 & F3 & F4 & F5). exists (p_call (quotes_attr "ast_literal") [body; p_const (str syn)] [] :: cs), (splice_nodes ts :: ys).
      assert (E1 : astify cm (nd "ASTLiteral" [("body"%string, body); ("syntax"%string, str syn)]) = Ok (p_call (quotes_attr "ast_literal") [body; p_const (str syn)] [])) by reflexivity.
      destruct (call2_code "ast_literal" body syn (unmarked_code _ Hb)) as [C1 C2].
      assert (E3 : eval (p_call (quotes_attr "ast_literal") [body; p_const (str syn)] []) = Ok (splice_nodes ts)).
      { cbn -[QuoteModel.flatten_and_typecheck]. rewrite Hv. cbn -[QuoteModel.flatten_and_typecheck]. destruct Hs as [-> | ->]; cbn -[QuoteModel.flatten_and_typecheck]; unfold class_of in Hc; cbn in Hc; rewrite (fat_ok _ _ l ts (or_introl eq_refl) Hn Hc); reflexivity. }
      cbn [mapr]. rewrite E1, F1, E3, F3. split; [reflexivity|]. split; [cbn [existsb]; rewrite F2, orb_false_r; exact C2|]. split; [reflexivity|]. split; [|apply Forall_app; split; [exact (inert_no_splice _ _ Hi)|exact F5]].
      rewrite doit_cons. unfold splice_nodes, nd. rewrite doit_node. cbn [is_glob String.eqb Ascii.eqb Bool.eqb orb doit_fields]. rewrite doit_list, (inert_items ts Hi), F4. reflexivity.
    - intros r. exists [], []. repeat split; [destruct r; reflexivity|constructor].
    - (* list field *) intros r f l v' fs fs' _ (c & y & E1 & (C1 & C2) & E3 & E4 & E5 & _) _ (cs & ys & F1 & F2 & F3 & F4 & F5). exists (p_kw f c :: cs), ((f, y) :: ys). cbn [QuoteProofs.astify_fields existsb]. fold (astify_fields cm). rewrite E1, F1, F2. split; [reflexivity|].
      split; [unfold p_kw, nd, str; cbn [has_marker existsb]; destruct c; try destruct C1; rewrite C2; reflexivity|].
      split; [unfold p_kw, nd, str; cbn [QuoteProofs.eval_kws]; fold eval_kws; cbn [String.eqb Ascii.eqb Bool.eqb andb]; rewrite F3, E3; reflexivity|].
      split; [|constructor; assumption]. unfold after in E4. destruct r; [|rewrite E4, F4; reflexivity]. cbn [doit_fields]. fold doit_fields. rewrite F4.
      destruct y as [a|ly|l0|l0|l0|my ky fy]; try discriminate E4.
      + rewrite E4. reflexivity.
      + (* the code of a list gives a list *) exfalso. clear - E1 E3. cbn [QuoteModel.astify] in E1. destruct (mapr (astify cm) l) as [cs'|]; [|discriminate]. injection E1 as <-. cbn [QuoteModel.eval nd String.eqb Ascii.eqb Bool.eqb andb] in E3. destruct (mapr eval cs'); discriminate.
    - (* other field *) intros r f v v' fs fs' Hv _ (c & y & E1 & (C1 & C2) & E3 & E4 & E5 & E6) _ (cs & ys & F1 & F2 & F3 & F4 & F5). exists (p_kw f c :: cs), ((f, y) :: ys). cbn [QuoteProofs.astify_fields existsb]. fold (astify_fields cm). rewrite E1, F1, F2. split; [reflexivity|].
      split; [unfold p_kw, nd, str; cbn [has_marker existsb]; destruct c; try destruct C1; rewrite C2; reflexivity|].
      split; [unfold p_kw, nd, str; cbn [QuoteProofs.eval_kws]; fold eval_kws; cbn [String.eqb Ascii.eqb Bool.eqb andb]; rewrite F3, E3; reflexivity|].
      split; [|constructor; assumption]. unfold after in E4. subst y. destruct r; [|rewrite F4; reflexivity]. cbn [doit_fields]. fold doit_fields. rewrite F4.
      assert (Hnl : nonlist v') by (apply E6; destruct v; try exact I; exact Hv). destruct v'; try reflexivity. destruct Hnl.
  Qed.

  Lemma q_run cm fn x z : subst true x z -> exists c, q user_marker has_attr cm fn x = Ok c /\ eval c = Ok z.
  Proof.
    intros H. destruct (proj1 (subst_run cm) true x z H) as (c & y & E1 & (C1 & C2) & E3 & E4 & E5 & _). unfold q. rewrite E1.
    assert (T : has_marker_top is_quasi c = false) by (destruct c; try destruct C1; exact C2). rewrite T. eexists. split; [reflexivity|].
    cbn. rewrite E3. cbn. unfold splice_ast_literals. cbn [after] in E4. rewrite E4, (no_splice_top z E5). reflexivity.
  Qed.
End Q.
