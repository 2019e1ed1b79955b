(** The quote level belongs to the quasiquote operators; block mode of expands and its relatives. *)
From Verif Require Import Base AstLib UtilsModel FixLocModel MarkersModel QuoteModel ExpanderModel ExpanderSpec ExpanderProofs NestModel NestProofs4 NestProps MetaModel.

Section Level.
  Context {U : Type}.
  Variable E : env U.
  (** Whatever happens, the shared state is the same afterwards. *)
  Definition keepsu {A} (c : @comp U A) : Prop := forall s r s', c s = Some (r, s') -> s_u s' = s_u s.
  Definition pkeepsu (p : prog U) : Prop := forall k v s r s', (forall t, keepsu (v t)) -> run v k p s = Some (r, s') -> s_u s' = s_u s.
  Hypothesis Hrun : forall i inp, pkeepsu (m_run (x_macro E i) inp).

  Lemma ku_ret {A} (a : A) : keepsu (ret a).
  Proof. intros s r s' H. inversion H; subst. reflexivity. Qed.
  Lemma ku_of {A} (a : xres A) : keepsu (of_res a).
  Proof. intros s r s' H. inversion H; subst. reflexivity. Qed.
  Lemma ku_raise {A} e : keepsu (@raise U A e).
  Proof. intros s r s' H. inversion H; subst. reflexivity. Qed.
  Lemma ku_bnd {A B} (c : @comp U A) (f : A -> @comp U B) : keepsu c -> (forall a, keepsu (f a)) -> keepsu (bnd c f).
  Proof.
    intros Hc Hf s r s' H. unfold bnd in H. destruct (c s) as [[[a|e] s1]|] eqn:E1; [| |discriminate].
    - rewrite (Hf _ _ _ _ H). exact (Hc _ _ _ E1).
    - inversion H; subst. exact (Hc _ _ _ E1).
  Qed.
  Section OneV.
    Variable n : nat.
    Variable v : ltree -> @comp U ltree.
    Hypothesis Hv : forall t, keepsu (v t).
    Lemma ku_list l : keepsu (xgv_list v l).
    Proof.
      induction l as [|x l IH]; [apply ku_ret|]. cbn [xgv_list]. destruct x.
      - apply ku_bnd; [apply Hv|]. intros a. destruct a as [| |[]]; try exact IH; try apply ku_raise; (apply ku_bnd; [exact IH|intros; apply ku_ret]).
      - apply ku_bnd; [exact IH|intros; apply ku_ret].
      - apply ku_bnd; [exact IH|intros; apply ku_ret].
    Qed.
    Lemma ku_fields fs : keepsu (xgv_fields v fs).
    Proof.
      induction fs as [|[f x] fs IH]; [apply ku_ret|]. cbn [xgv_fields]. destruct x.
      - apply ku_bnd; [apply Hv|]. intros a. destruct a as [| |[]]; try exact IH; (apply ku_bnd; [exact IH|intros; apply ku_ret]).
      - apply ku_bnd; [apply ku_list|]. intros. apply ku_bnd; [exact IH|intros; apply ku_ret].
      - apply ku_bnd; [exact IH|intros; apply ku_ret].
    Qed.
    Lemma ku_generic t : keepsu (xgeneric_visit v t).
    Proof. destruct t; [|apply ku_raise..]. apply ku_bnd; [apply ku_fields|intros; apply ku_ret]. Qed.
    Lemma ku_elts l : keepsu (xvisit_elts v l).
    Proof.
      induction l as [|x l IH]; [apply ku_ret|]. cbn [xvisit_elts]. apply ku_bnd; [apply Hv|]. intros. apply ku_bnd; [exact IH|intros; apply ku_ret].
    Qed.
    Lemma ku_mode {A} m (c : @comp U A) : keepsu c -> keepsu (with_mode m c).
    Proof. intros Hc s r s' H. unfold with_mode in H. destruct (c _) as [[x s1]|] eqn:E1 in H; [|discriminate]. inversion H; subst. cbn. exact (Hc _ _ _ E1). Qed.
    Lemma ku_call h t : keepsu (call_expander v h t).
    Proof.
      destruct h; cbn [call_expander]; [apply Hv| | |apply ku_generic].
      - apply ku_mode. apply ku_bnd; [apply Hv|intros; apply ku_ret].
      - apply ku_mode. apply Hv.
    Qed.
    Lemma ku_expansion t u : keepsu (visit_expansion E v t u).
    Proof.
      assert (G : keepsu (bnd (of_res (lift (x_fix E t u))) (fun t s => if s_rec s then v t s else Some (XOk t, s)))).
      { apply ku_bnd; [apply ku_of|]. intros a s r s' H. destruct (s_rec s); [exact (Hv _ _ _ _ H)|inversion H; subst; reflexivity]. }
      unfold visit_expansion. destruct t as [| |[]]; try exact G. apply ku_ret.
    Qed.
    Lemma ku_expand name inp : keepsu (expand E n v name inp).
    Proof.
      intros s r s'. unfold expand. destruct (isbound (s_b s) name) as [i|]; [|intros H; inversion H; subst; reflexivity].
      unfold apply_macro. destruct (run v n _ _) as [[x s1]|] eqn:E1; [|discriminate]. pose proof (Hrun i inp n v _ _ _ Hv E1) as H1. cbn in H1. intros H. rewrite <- H1.
      destruct x as [a|]; [|inversion H; subst; reflexivity]. destruct (typecheck a); [|inversion H; subst; reflexivity]. cbv beta zeta iota in H.
      change (s_u s1) with (s_u (logged (ERet (XOk a)) s1)). revert H. apply ku_bnd; [apply ku_expansion|]. intros b. apply ku_bnd; [|intros; apply ku_ret].
      intros s2 r2 s3 H. inversion H; subst. reflexivity.
    Qed.
    Lemma ku_body t : keepsu (visit_body E n v t).
    Proof.
      intros s r s'. unfold visit_body.
      assert (Rr : forall (x y : xres ltree), Some (x, s) = Some (y, s') -> s_u s' = s_u s) by (intros x y H; inversion H; subst; reflexivity).
      destruct (_ || _); [apply Rr|]. destruct t as [m k fs|l|a].
      2: { apply ku_bnd; [apply ku_elts|]. intros. destruct (flatten a); apply ku_ret. }
      2: { destruct a; apply Rr. }
      destruct (String.eqb k "Subscript").
      { unfold visit_Subscript. destruct (attr "value" fs) as [c|]; [|apply Rr]. destruct (destructure false c) as [d|]; [|apply Rr].
        destruct (match d with Some (x, args) => _ | None => false end); [|apply ku_generic].
        destruct (destructure true c) as [[[x args]|]|]; try apply Rr. destruct (attr "slice" fs); [|apply Rr].
        apply ku_bnd; [apply ku_expand|intros; apply ku_ret]. }
      destruct (String.eqb k "With").
      { unfold visit_With. destruct (attr "items" fs) as [it|]; [|apply Rr]. destruct (detect E (s_b s) true (elements it)) as [fl|]; [|apply Rr].
        destruct (first_true fl) as [i|]; [|apply ku_generic]. destruct (nth_error (elements it) i) as [[mi ki fi| |]|]; try apply Rr.
        destruct (attr "context_expr" fi) as [c|]; [|apply Rr].
        destruct (destructure true c) as [[[x args]|]|], (attr "optional_vars" fi), (attr "body" fs); try apply Rr.
        cbv zeta. apply ku_bnd; [apply ku_expand|intros; apply ku_of]. }
      destruct (String.eqb k "ClassDef" || String.eqb k "FunctionDef").
      { unfold visit_Decorated. destruct (attr "decorator_list" fs) as [it|]; [|apply Rr]. destruct (detect E (s_b s) false (elements it)) as [fl|]; [|apply Rr].
        destruct (last_true fl) as [i|]; [|apply ku_generic]. destruct (nth_error (elements it) i) as [c|]; try apply Rr.
        destruct (destructure true c) as [[[x args]|]|]; try apply Rr.
        cbv zeta. apply ku_bnd; [apply ku_expand|intros; apply ku_of]. }
      destruct (String.eqb k "Name").
      { unfold visit_Name. destruct (str_attr "id" fs) as [x|]; [|apply Rr]. destruct (ismacrocall E (s_b s) x [] "name") eqn:Em; [|apply Rr].
        apply ku_bnd; [apply ku_mode; apply ku_expand|]. intros a s1 r1 s2 H.
        destruct a as [m' k' fs'| |[]]; try (revert H; apply (ku_ret _ _)); revert H; try (destruct (_ && _); [apply (ku_ret _ _)|]); cbv beta iota; destruct (s_rec s1); try apply Hv; intros H; inversion H; subst; reflexivity. }
      apply ku_generic.
    Qed.
  End OneV.
  Theorem visit_keepsu n t : keepsu (visit E n t).
  Proof. revert t. induction n as [|n IH]; intros t; [intros s r s' H; discriminate|]. cbn [visit]. apply ku_body. exact IH. Qed.
End Level.

(** ** Calls of macro functions from macro functions *)
Section Bindp.
  Context {U : Type}.
  Variable v : ltree -> @comp U ltree.
  Lemma run_bindp_inv k : forall p g s r s', run v k (bindp p g) s = Some (r, s') -> exists r1 s1, run v k p s = Some (r1, s1) /\ run v k (g r1) s1 = Some (r, s').
  Proof.
    induction k as [|k IH]; intros p g s r s' H; [discriminate|].
    assert (up : forall p0 s0 x, run v k p0 s0 = Some x -> run v (S k) p0 s0 = Some x).
    { intros p0 s0 x H0. eapply below_run; [|apply Nat.le_succ_diag_r|exact H0]. intros t a b Hx. exact Hx. }
    destruct p; cbn [run bindp] in H.
    - exists (XOk v0), s. split; [reflexivity|exact H].
    - exists (XRaise e), s. split; [reflexivity|exact H].
    - cbn [run]. destruct (call_expander v h t (logged (EUse h) s)) as [[x s1]|]; [|discriminate]. destruct (IH _ _ _ _ _ H) as (r1 & s2 & H1 & H2). eauto.
    - destruct (IH _ _ _ _ _ H) as (r1 & s2 & H1 & H2). cbn [run]. eauto.
    - destruct (IH _ _ _ _ _ H) as (r1 & s2 & H1 & H2). cbn [run]. eauto.
    - destruct (IH _ _ _ _ _ H) as (r1 & s2 & H1 & H2). cbn [run]. eauto.
    - destruct (IH _ _ _ _ _ H) as (r1 & s2 & H1 & H2). cbn [run]. eauto.
    - destruct (IH _ _ _ _ _ H) as (r1 & s2 & H1 & H2). cbn [run]. eauto.
  Qed.
  Lemma run_bindp k : forall k2 p g s r1 s1 r s', run v k p s = Some (r1, s1) -> run v k2 (g r1) s1 = Some (r, s') -> run v (k + k2) (bindp p g) s = Some (r, s').
  Proof.
    induction k as [|k IH]; intros k2 p g s r1 s1 r s' H1 H2; [discriminate|].
    assert (up : forall p0 s0 x, run v k2 p0 s0 = Some x -> run v (S (k + k2)) p0 s0 = Some x).
    { intros p0 s0 x H0. eapply below_run; [| |exact H0]; [intros t a b Hx; exact Hx|lia]. }
    destruct p; cbn [run] in H1.
    - inversion H1; subst. exact (up _ _ _ H2).
    - inversion H1; subst. exact (up _ _ _ H2).
    - cbn [Nat.add run bindp]. destruct (call_expander v h t (logged (EUse h) s)) as [[x s2]|]; [|discriminate]. exact (IH _ _ _ _ _ _ _ _ H1 H2).
    - cbn [Nat.add run bindp]. exact (IH _ _ _ _ _ _ _ _ H1 H2).
    - cbn [Nat.add run bindp]. exact (IH _ _ _ _ _ _ _ _ H1 H2).
    - cbn [Nat.add run bindp]. exact (IH _ _ _ _ _ _ _ _ H1 H2).
    - cbn [Nat.add run bindp]. exact (IH _ _ _ _ _ _ _ _ H1 H2).
    - cbn [Nat.add run bindp]. exact (IH _ _ _ _ _ _ _ _ H1 H2).
  Qed.
End Bindp.
