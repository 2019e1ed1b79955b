(** General facts about the expander model: more steps give the same result; an induction principle for relations
    between the states before and after. *)
From Verif Require Import Base AstLib UtilsModel FixLocModel ExpanderModel.

Ltac break_match_hyp H :=
  match type of H with
  | context [match ?x with _ => _ end] => destruct x eqn:?
  end.
Ltac break_match :=
  match goal with
  | |- context [match ?x with _ => _ end] => destruct x eqn:?
  end.

Section Mono.
  Context {U : Type}.
  Variable E : env U.

  (** [c'] returns whatever [c] returns. *)
  Definition below {A} (c c' : @comp U A) : Prop := forall s r, c s = Some r -> c' s = Some r.

  Lemma below_refl {A} (c : @comp U A) : below c c.
  Proof. intros s r H. exact H. Qed.
  Lemma below_bnd {A B} (c c' : @comp U A) (f f' : A -> @comp U B) :
    below c c' -> (forall a, below (f a) (f' a)) -> below (bnd c f) (bnd c' f').
  Proof.
    intros Hc Hf s r H. unfold bnd in *. destruct (c s) as [[x s1]|] eqn:E1; [|discriminate].
    rewrite (Hc _ _ E1). destruct x; [apply Hf; exact H|exact H].
  Qed.
  Lemma below_mode {A} b (c c' : @comp U A) : below c c' -> below (with_mode b c) (with_mode b c').
  Proof.
    intros Hc s r H. unfold with_mode in *. destruct (c _) as [[x s1]|] eqn:E1 in H; [|discriminate].
    rewrite (Hc _ _ E1). exact H.
  Qed.

  Section Two.
    Variables (v v' : ltree -> @comp U ltree).
    Hypothesis Hv : forall t, below (v t) (v' t).

    Lemma below_list l : below (xgv_list v l) (xgv_list v' l).
    Proof.
      induction l as [|x l IH]; [apply below_refl|]. cbn [xgv_list]. destruct x.
      - apply below_bnd; [apply Hv|]. intros a. destruct a as [| |[]]; try apply below_refl; try exact IH;
          (apply below_bnd; [exact IH|intros; apply below_refl]).
      - apply below_bnd; [exact IH|intros; apply below_refl].
      - apply below_bnd; [exact IH|intros; apply below_refl].
    Qed.
    Lemma below_fields fs : below (xgv_fields v fs) (xgv_fields v' fs).
    Proof.
      induction fs as [|[f x] fs IH]; [apply below_refl|]. cbn [xgv_fields]. destruct x.
      - apply below_bnd; [apply Hv|]. intros a. destruct a as [| |[]]; try exact IH;
          (apply below_bnd; [exact IH|intros; apply below_refl]).
      - apply below_bnd; [apply below_list|]. intros. apply below_bnd; [exact IH|intros; apply below_refl].
      - apply below_bnd; [exact IH|intros; apply below_refl].
    Qed.
    Lemma below_generic t : below (xgeneric_visit v t) (xgeneric_visit v' t).
    Proof. destruct t; [|apply below_refl..]. apply below_bnd; [apply below_fields|intros; apply below_refl]. Qed.
    Lemma below_elts l : below (xvisit_elts v l) (xvisit_elts v' l).
    Proof.
      induction l as [|x l IH]; [apply below_refl|]. cbn [xvisit_elts]. apply below_bnd; [apply Hv|]. intros.
      apply below_bnd; [exact IH|intros; apply below_refl].
    Qed.
    Lemma below_call h t : below (call_expander v h t) (call_expander v' h t).
    Proof.
      destruct h; cbn [call_expander].
      - apply Hv.
      - apply below_mode. apply below_bnd; [apply Hv|intros; apply below_refl].
      - apply below_mode. apply Hv.
      - apply below_generic.
    Qed.
    Lemma below_run k : forall k' p s r, k <= k' -> run v k p s = Some r -> run v' k' p s = Some r.
    Proof.
      induction k as [|k IH]; intros k' p s r Hk H; [discriminate|]. destruct k' as [|k']; [lia|].
      assert (Hk' : k <= k') by lia. cbn [run] in *. destruct p; try exact H; try (eapply IH; [exact Hk'|exact H]).
      destruct (call_expander v h t (logged (EUse h) s)) as [[x s1]|] eqn:E1; [|discriminate].
      rewrite (below_call h t _ _ E1). eapply IH; [exact Hk'|exact H].
    Qed.
    Variables (n n' : nat).
    Hypothesis Hn : n <= n'.
    Lemma below_apply i name inp : below (apply_macro E n v i name inp) (apply_macro E n' v' i name inp).
    Proof.
      intros s r H. unfold apply_macro in *. destruct (run v n _ _) as [[x s1]|] eqn:E1 in H; [|discriminate].
      rewrite (below_run _ _ _ _ _ Hn E1). exact H.
    Qed.
    Lemma below_expansion t u : below (visit_expansion E v t u) (visit_expansion E v' t u).
    Proof.
      assert (G : below (bnd (of_res (lift (x_fix E t u))) (fun t s => if s_rec s then v t s else Some (XOk t, s)))
                        (bnd (of_res (lift (x_fix E t u))) (fun t s => if s_rec s then v' t s else Some (XOk t, s)))).
      { apply below_bnd; [apply below_refl|]. intros a s r. destruct (s_rec s); [apply Hv|auto]. }
      unfold visit_expansion. destruct t as [| |[]]; try exact G. apply below_refl.
    Qed.
    Lemma below_expand name inp : below (expand E n v name inp) (expand E n' v' name inp).
    Proof.
      intros s r H. unfold expand in *. destruct (isbound (s_b s) name) as [i|]; [|exact H].
      destruct (apply_macro E n v i name inp s) as [[x s1]|] eqn:E1; [|discriminate].
      rewrite (below_apply _ _ _ _ _ E1). destruct x as [a|]; [|exact H]. destruct (typecheck a) as [v0|]; [|exact H].
      revert H. apply below_bnd; [apply below_expansion|intros; apply below_refl].
    Qed.
    Ltac bel := repeat first [apply below_refl | apply below_generic | apply below_expand | apply below_bnd; [|intros]].
    Lemma below_body t : below (visit_body E n v t) (visit_body E n' v' t).
    Proof.
      intros s r. unfold visit_body.
      destruct (_ || _); [auto|]. destruct t as [m k fs|l|a]; [|apply below_bnd; [apply below_elts|intros; apply below_refl]|auto].
      destruct (String.eqb k "Subscript").
      { unfold visit_Subscript. destruct (attr "value" fs) as [c|]; [|auto]. destruct (destructure false c) as [d|]; [|auto].
        destruct (match d with Some (x, args) => _ | None => false end); [|apply below_generic].
        destruct (destructure true c) as [[[x args]|]|]; auto. destruct (attr "slice" fs); [|auto].
        apply below_bnd; [apply below_expand|intros; apply below_refl]. }
      destruct (String.eqb k "With").
      { unfold visit_With. destruct (attr "items" fs) as [it|]; [|auto]. destruct (detect E (s_b s) true (elements it)) as [fl|]; [|auto].
        destruct (first_true fl) as [i|]; [|apply below_generic]. destruct (nth_error (elements it) i) as [[mi ki fi| |]|]; auto.
        destruct (attr "context_expr" fi) as [c|]; [|auto].
        destruct (destructure true c) as [[[x args]|]|], (attr "optional_vars" fi), (attr "body" fs); auto.
        cbv zeta. apply below_bnd; [apply below_expand|intros; apply below_refl]. }
      destruct (String.eqb k "ClassDef" || String.eqb k "FunctionDef").
      { unfold visit_Decorated. destruct (attr "decorator_list" fs) as [it|]; [|auto]. destruct (detect E (s_b s) false (elements it)) as [fl|]; [|auto].
        destruct (last_true fl) as [i|]; [|apply below_generic]. destruct (nth_error (elements it) i) as [c|]; auto.
        destruct (destructure true c) as [[[x args]|]|]; auto.
        cbv zeta. apply below_bnd; [apply below_expand|intros; apply below_refl]. }
      destruct (String.eqb k "Name").
      { unfold visit_Name. destruct (str_attr "id" fs) as [x|]; [|auto]. destruct (ismacrocall E (s_b s) x [] "name"); [|auto].
        apply below_bnd; [apply below_mode; apply below_expand|].
        intros a. destruct a as [m' k' fs'| |[]]; try apply below_refl;
          try (destruct (_ && _); [apply below_refl|]); intros sx rx; destruct (s_rec sx); try apply Hv; auto. }
      apply below_generic.
    Qed.
  End Two.

  Lemma visit_mono_le n : forall n' t, n <= n' -> below (visit E n t) (visit E n' t).
  Proof.
    induction n as [|n IH]; intros n' t Hn; [intros s r H; discriminate|].
    destruct n' as [|n']; [lia|]. cbn [visit]. apply below_body; [|lia]. intros u. apply IH. lia.
  Qed.
  Lemma visit_det n n' t s r r' : visit E n t s = Some r -> visit E n' t s = Some r' -> r = r'.
  Proof.
    intros H H'. apply (visit_mono_le n (Nat.max n n') t ltac:(lia)) in H. apply (visit_mono_le n' (Nat.max n n') t ltac:(lia)) in H'. congruence.
  Qed.
End Mono.

(** ** Relations between the states before and after a call *)
Section Inv.
  Context {U : Type}.
  Variable E : env U.
  Variable R : st U -> st U -> Prop.
  Variable P : prog U -> Prop.
  Definition in_mode (b : bool) (s : st U) : st U := mkSt (s_b s) b (s_u s) (s_log s).
  Definition left_mode (s s' : st U) : st U := logged EModeEnd (in_mode (s_rec s) s').
  Definition with_b (b : binds) (s : st U) : st U := mkSt b (s_rec s) (s_u s) (s_log s).
  Definition with_u (u : U) (s : st U) : st U := mkSt (s_b s) (s_rec s) u (s_log s).
  Hypothesis Rrefl : forall s, R s s.
  Hypothesis Rtrans : forall a b c, R a b -> R b c -> R a c.
  Hypothesis Ronce : forall s s', R (logged (EMode false) (in_mode false (logged (EUse HOnce) s))) s' -> R s (left_mode s s').
  Hypothesis Rrec : forall s s', R (logged (EMode true) (in_mode true (logged (EUse HRec) s))) s' -> R s (left_mode s s').
  Hypothesis Rvisit : forall s, R s (logged (EUse HVisit) s).
  Hypothesis Rgen : forall s, R s (logged (EUse HGen) s).
  Hypothesis Rsee : forall s, R s (logged (ESee (s_rec s)) s).
  Hypothesis Rname : forall s name inp s1 s2 x, isbound (s_b s) name <> None -> in_syntax inp = "name"%string ->
    R (logged (ECall name inp false) (logged (EMode false) (in_mode false s))) s1 -> R (logged (ERet x) s1) s2 -> R s (left_mode s s2).
  Hypothesis Rcall : forall s name inp s' x, isbound (s_b s) name <> None -> R (logged (ECall name inp (s_rec s)) s) s' -> R s (logged (ERet x) s').
  Hypothesis Rout : forall s name syn t, R s (logged (EOut name syn t) s).
  Hypothesis Pcall : forall h t k r, P (CallX h t k) -> P (k r).
  Hypothesis Pmode : forall k b, P (GetMode k) -> P (k b).
  Hypothesis Pgetb : forall k b, P (GetB k) -> P (k b).
  Hypothesis Psetb : forall k b, P (SetB b k) -> P k /\ forall s, R s (with_b b s).
  Hypothesis Pgetu : forall k u, P (GetU k) -> P (k u).
  Hypothesis Psetu : forall k u, P (SetU u k) -> P k /\ forall s, R s (with_u u s).
  Hypothesis Pall : forall i inp, P (m_run (x_macro E i) inp).

  Definition keeps {A} (c : @comp U A) : Prop := forall s r s', c s = Some (r, s') -> R s s'.

  Lemma keeps_ret {A} (a : A) : keeps (ret a).
  Proof. intros s r s' H. inversion H; subst. apply Rrefl. Qed.
  Lemma keeps_of {A} (a : xres A) : keeps (of_res a).
  Proof. intros s r s' H. inversion H; subst. apply Rrefl. Qed.
  Lemma keeps_raise {A} e : keeps (@raise U A e).
  Proof. intros s r s' H. inversion H; subst. apply Rrefl. Qed.
  Lemma keeps_bnd {A B} (c : @comp U A) (f : A -> @comp U B) : keeps c -> (forall a, keeps (f a)) -> keeps (bnd c f).
  Proof.
    intros Hc Hf s r s' H. unfold bnd in H. destruct (c s) as [[[a|e] s1]|] eqn:E1; [| |discriminate].
    - eapply Rtrans; [exact (Hc _ _ _ E1)|exact (Hf _ _ _ _ H)].
    - inversion H; subst. exact (Hc _ _ _ E1).
  Qed.

  Section OneV.
    Variable n : nat.
    Variable v : ltree -> @comp U ltree.
    Hypothesis Hv : forall t, keeps (v t).
    Lemma keeps_list l : keeps (xgv_list v l).
    Proof.
      induction l as [|x l IH]; [apply keeps_ret|]. cbn [xgv_list]. destruct x.
      - apply keeps_bnd; [apply Hv|]. intros a. destruct a as [| |[]]; try exact IH; try apply keeps_raise;
          (apply keeps_bnd; [exact IH|intros; apply keeps_ret]).
      - apply keeps_bnd; [exact IH|intros; apply keeps_ret].
      - apply keeps_bnd; [exact IH|intros; apply keeps_ret].
    Qed.
    Lemma keeps_fields fs : keeps (xgv_fields v fs).
    Proof.
      induction fs as [|[f x] fs IH]; [apply keeps_ret|]. cbn [xgv_fields]. destruct x.
      - apply keeps_bnd; [apply Hv|]. intros a. destruct a as [| |[]]; try exact IH;
          (apply keeps_bnd; [exact IH|intros; apply keeps_ret]).
      - apply keeps_bnd; [apply keeps_list|]. intros. apply keeps_bnd; [exact IH|intros; apply keeps_ret].
      - apply keeps_bnd; [exact IH|intros; apply keeps_ret].
    Qed.
    Lemma keeps_generic t : keeps (xgeneric_visit v t).
    Proof. destruct t; [|apply keeps_raise..]. apply keeps_bnd; [apply keeps_fields|intros; apply keeps_ret]. Qed.
    Lemma keeps_elts l : keeps (xvisit_elts v l).
    Proof.
      induction l as [|x l IH]; [apply keeps_ret|]. cbn [xvisit_elts]. apply keeps_bnd; [apply Hv|]. intros.
      apply keeps_bnd; [exact IH|intros; apply keeps_ret].
    Qed.
    Lemma keeps_use h t s r s' : call_expander v h t (logged (EUse h) s) = Some (r, s') -> R s s'.
    Proof.
      destruct h; cbn [call_expander]; intros H.
      - eapply Rtrans; [apply Rvisit|exact (Hv _ _ _ _ H)].
      - unfold with_mode in H. destruct (bnd _ _ _) as [[x s1]|] eqn:E1 in H; [|discriminate]. inversion H; subst. apply (Ronce s s1).
        eapply (keeps_bnd (v t)); [apply Hv| |exact E1]. intros; apply keeps_ret.
      - unfold with_mode in H. destruct (v t _) as [[x s1]|] eqn:E1 in H; [|discriminate]. inversion H; subst. apply (Rrec s s1).
        exact (Hv _ _ _ _ E1).
      - eapply Rtrans; [apply Rgen|exact (keeps_generic _ _ _ _ H)].
    Qed.
    Lemma keeps_run k : forall p s r s', P p -> run v k p s = Some (r, s') -> R s s'.
    Proof.
      induction k as [|k IH]; intros p s r s' Hp H; [discriminate|]. cbn [run] in H. destruct p.
      - inversion H; subst; apply Rrefl.
      - inversion H; subst; apply Rrefl.
      - destruct (call_expander v h t (logged (EUse h) s)) as [[x s1]|] eqn:E1; [|discriminate].
        eapply Rtrans; [exact (keeps_use _ _ _ _ _ E1)|]. eapply IH; [|exact H]. eapply Pcall; exact Hp.
      - eapply Rtrans; [apply Rsee|]. eapply IH; [|exact H]. apply Pmode. exact Hp.
      - eapply IH; [|exact H]. apply Pgetb. exact Hp.
      - destruct (Psetb _ _ Hp) as [H1 H2]. eapply Rtrans; [apply H2|]. eapply IH; [|exact H]. exact H1.
      - eapply IH; [|exact H]. apply Pgetu. exact Hp.
      - destruct (Psetu _ _ Hp) as [H1 H2]. eapply Rtrans; [apply H2|]. eapply IH; [|exact H]. exact H1.
    Qed.
    Lemma keeps_apply i name inp s r s' : apply_macro E n v i name inp s = Some (r, s') ->
      exists s1, s' = logged (ERet r) s1 /\ R (logged (ECall name inp (s_rec s)) s) s1.
    Proof.
      unfold apply_macro. destruct (run v n _ _) as [[x s1]|] eqn:E1; [|discriminate]. intros H. inversion H; subst. exists s1. split; [reflexivity|].
      eapply keeps_run; [apply Pall|exact E1].
    Qed.
    Lemma keeps_expansion t u : keeps (visit_expansion E v t u).
    Proof.
      assert (G : keeps (bnd (of_res (lift (x_fix E t u))) (fun t s => if s_rec s then v t s else Some (XOk t, s)))).
      { apply keeps_bnd; [apply keeps_of|]. intros a s r s' H. destruct (s_rec s); [exact (Hv _ _ _ _ H)|inversion H; subst; apply Rrefl]. }
      unfold visit_expansion. destruct t as [| |[]]; try exact G. apply keeps_ret.
    Qed.
    (** [expand]: a call that does not happen, or a call and the rest. *)
    Lemma expand_shape name inp s r s' : expand E n v name inp s = Some (r, s') ->
      (s' = s /\ isbound (s_b s) name = None) \/
      isbound (s_b s) name <> None /\ exists s1 x, R (logged (ECall name inp (s_rec s)) s) s1 /\ R (logged (ERet x) s1) s'.
    Proof.
      unfold expand. destruct (isbound (s_b s) name) as [i|]; [|intros H; inversion H; subst; auto].
      destruct (apply_macro E n v i name inp s) as [[x s0]|] eqn:E1; [|discriminate]. intros H. right. split; [discriminate|].
      destruct (keeps_apply _ _ _ _ _ _ E1) as [s1 [-> H1]]. exists s1, x. split; [exact H1|].
      destruct x as [a|]; [|inversion H; subst; apply Rrefl]. destruct (typecheck a); [|inversion H; subst; apply Rrefl].
      revert H. apply keeps_bnd; [apply keeps_expansion|]. intros b. apply keeps_bnd; [|intros; apply keeps_ret].
      intros s2 r2 s3 H. inversion H; subst. apply Rout.
    Qed.
    Lemma keeps_expand name inp : keeps (expand E n v name inp).
    Proof.
      intros s r s' H. destruct (expand_shape _ _ _ _ _ H) as [[-> _]|[Hb [s1 [x [H1 H2]]]]]; [apply Rrefl|].
      eapply Rtrans; [eapply Rcall; [exact Hb|exact H1]|exact H2].
    Qed.
    Lemma keeps_body t : keeps (visit_body E n v t).
    Proof.
      intros s r s'. unfold visit_body.
      assert (Rr : forall (x y : xres ltree), Some (x, s) = Some (y, s') -> R s s') by (intros x y H; inversion H; subst; apply Rrefl).
      destruct (_ || _); [apply Rr|]. destruct t as [m k fs|l|a].
      2: { apply keeps_bnd; [apply keeps_elts|]. intros. destruct (flatten a); apply keeps_ret. }
      2: { destruct a; apply Rr. }
      destruct (String.eqb k "Subscript").
      { unfold visit_Subscript. destruct (attr "value" fs) as [c|]; [|apply Rr]. destruct (destructure false c) as [d|]; [|apply Rr].
        destruct (match d with Some (x, args) => _ | None => false end); [|apply keeps_generic].
        destruct (destructure true c) as [[[x args]|]|]; try apply Rr. destruct (attr "slice" fs); [|apply Rr].
        apply keeps_bnd; [apply keeps_expand|intros; apply keeps_ret]. }
      destruct (String.eqb k "With").
      { unfold visit_With. destruct (attr "items" fs) as [it|]; [|apply Rr]. destruct (detect E (s_b s) true (elements it)) as [fl|]; [|apply Rr].
        destruct (first_true fl) as [i|]; [|apply keeps_generic]. destruct (nth_error (elements it) i) as [[mi ki fi| |]|]; try apply Rr.
        destruct (attr "context_expr" fi) as [c|]; [|apply Rr].
        destruct (destructure true c) as [[[x args]|]|], (attr "optional_vars" fi), (attr "body" fs); try apply Rr.
        cbv zeta. apply keeps_bnd; [apply keeps_expand|intros; apply keeps_of]. }
      destruct (String.eqb k "ClassDef" || String.eqb k "FunctionDef").
      { unfold visit_Decorated. destruct (attr "decorator_list" fs) as [it|]; [|apply Rr]. destruct (detect E (s_b s) false (elements it)) as [fl|]; [|apply Rr].
        destruct (last_true fl) as [i|]; [|apply keeps_generic]. destruct (nth_error (elements it) i) as [c|]; try apply Rr.
        destruct (destructure true c) as [[[x args]|]|]; try apply Rr.
        cbv zeta. apply keeps_bnd; [apply keeps_expand|intros; apply keeps_of]. }
      destruct (String.eqb k "Name").
      { unfold visit_Name. destruct (str_attr "id" fs) as [x|]; [|apply Rr]. destruct (ismacrocall E (s_b s) x [] "name") eqn:Em; [|apply Rr].
        intros H. unfold bnd in H. destruct (with_mode false _ s) as [[y s1]|] eqn:E1; [|discriminate].
        assert (H1 : R s s1).
        { unfold with_mode in E1. destruct (expand _ _ _ _ _ _) as [[z s2]|] eqn:E2 in E1; [|discriminate]. inversion E1; subst.
          destruct (expand_shape _ _ _ _ _ E2) as [[-> Hb]|[Hb [s3 [w [H1 H2]]]]].
          - exfalso. unfold ismacrocall in Em. cbn [s_b] in Hb. destruct x; [discriminate|]. rewrite Hb in Em. discriminate.
          - change (R s (left_mode s s2)). eapply Rname; [exact Hb| |exact H1|exact H2]. reflexivity. }
        destruct y as [a|]; [|inversion H; subst; exact H1]. eapply Rtrans; [exact H1|].
        assert (G : forall c : @comp U ltree, keeps c -> c s1 = Some (r, s') -> R s1 s') by (intros c Hc Hcc; exact (Hc _ _ _ Hcc)).
        destruct a as [m' k' fs'| |[]]; try (revert H; apply (keeps_ret _ _)); revert H;
          try (destruct (_ && _); [apply (keeps_ret _ _)|]); cbv beta iota; destruct (s_rec s1); try apply Hv; intros H; inversion H; subst; apply Rrefl. }
      apply keeps_generic.
    Qed.
  End OneV.
  Theorem visit_keeps n t : keeps (visit E n t).
  Proof.
    revert t. induction n as [|n IH]; intros t; [intros s r s' H; discriminate|]. cbn [visit]. apply keeps_body. exact IH.
  Qed.
End Inv.
