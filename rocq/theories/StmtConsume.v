(** What the grammar of expressions reads is a part of a line: it reads no NEWLINE, INDENT, DEDENT. So the line of a simple statement that begins
    with the name match is not taken for the head of a match statement. *)
From Verif Require Import Base UnparseModel PyGrammar PyStmt UnparseSpec StmtSpec UnparseLex UnparseToks StmtToks StmtLayout.
Open Scope string_scope.
Open Scope list_scope.

(** [r] is what is left of [ts] after some tokens of a line. *)
Definition suf (ts r : list tok) : Prop := exists pre, ts = pre ++ r /\ pl pre = true.
Lemma suf_refl ts : suf ts ts.
Proof. exists []. split; reflexivity. Qed.
Lemma suf_trans a b c : suf a b -> suf b c -> suf a c.
Proof. intros (x & -> & Hx) (y & -> & Hy). exists (x ++ y). split; [now rewrite app_assoc|]. now rewrite pl_app, Hx. Qed.
Lemma suf_one t r : plain t = true -> suf (t :: r) r.
Proof. intros H. exists [t]. split; [reflexivity|]. cbn. now rewrite H. Qed.
Lemma opq_suf x ts r : opq x ts = Some r -> suf ts r.
Proof. destruct ts as [|[] ts]; try discriminate. cbn [opq]. destruct (String.eqb _ _); [|discriminate]. intros H. inversion H; subst. now apply suf_one. Qed.
Lemma kwq_suf x ts r : kwq x ts = Some r -> suf ts r.
Proof. destruct ts as [|[] ts]; try discriminate. cbn [kwq]. destruct (String.eqb _ _); [|discriminate]. intros H. inversion H; subst. now apply suf_one. Qed.
Lemma idq_suf ts x r : idq ts = Some (x, r) -> suf ts r.
Proof. destruct ts as [|[] ts]; try discriminate. cbn [idq]. intros H. inversion H; subst. now apply suf_one. Qed.
Ltac flat H :=
  repeat match type of H with
  | context[match ?x with _ => _ end] => lazymatch x with context[match _ with _ => _ end] => fail | _ => destruct x eqn:?; try discriminate H end
  end.
Lemma binq_suf L ts o r : binq L ts = Some (o, r) -> suf ts r.
Proof. destruct ts as [|[] ts]; try discriminate. cbn [binq]. intros H. flat H. inversion H; subst. now apply suf_one. Qed.
Lemma unq_suf ts o r : unq ts = Some (o, r) -> suf ts r.
Proof. destruct ts as [|[] ts]; try discriminate. cbn [unq]. intros H. flat H; inversion H; subst; now apply suf_one. Qed.
Lemma cmpq_suf ts o r : cmpq ts = Some (o, r) -> suf ts r.
Proof.
  unfold cmpq. intros H. flat H; inversion H; subst; repeat match goal with K : kwq _ _ = Some _ |- _ => apply kwq_suf in K end;
    first [assumption | now apply suf_one | eapply suf_trans; eassumption].
Qed.

Ltac suf := first [ apply suf_refl | assumption | match goal with H : suf ?a _ |- suf ?a _ => apply (suf_trans _ _ _ H); clear H; suf end ].
Definition reads_line (n : nat) : Prop :=
  (forall L ts e r, p n L ts = Some (e, r) -> suf ts r) /\ (forall kw L ts l r, p_ops n kw L ts = (l, r) -> suf ts r) /\
  (forall ts l r, p_cmps n ts = (l, r) -> suf ts r) /\ (forall L a ts e r, p_binl n L a ts = (e, r) -> suf ts r) /\
  (forall a ts e r, p_trail n a ts = (e, r) -> suf ts r) /\ (forall a ts e r, p_trailer n a ts = Some (e, r) -> suf ts r) /\
  (forall ts e r, p_atom n ts = Some (e, r) -> suf ts r) /\ (forall ts e r, p_yield n ts = Some (e, r) -> suf ts r) /\
  (forall ts l r, p_comps n ts = (l, r) -> suf ts r) /\ (forall k ts l b r, p_list n k ts = (l, b, r) -> suf ts r) /\
  (forall k ts i r, p_item n k ts = Some (i, r) -> suf ts r) /\ (forall x y ts a r, p_arg n x y ts = Some (a, r) -> suf ts r) /\
  (forall ts o r, p_opt n ts = (o, r) -> suf ts r).
Ltac know :=
  repeat match goal with
  | H : opq _ _ = Some _ |- _ => apply opq_suf in H
  | H : kwq _ _ = Some _ |- _ => apply kwq_suf in H
  | H : idq _ = Some _ |- _ => apply idq_suf in H
  | H : binq _ _ = Some _ |- _ => apply binq_suf in H
  | H : unq _ = Some _ |- _ => apply unq_suf in H
  | H : cmpq _ = Some _ |- _ => apply cmpq_suf in H
  | H : p _ _ _ = Some _, I : forall L ts e r, p _ L ts = Some (e, r) -> suf ts r |- _ => apply I in H
  | H : p_ops _ _ _ _ = _, I : forall kw L ts l r, p_ops _ kw L ts = (l, r) -> suf ts r |- _ => apply I in H
  | H : p_cmps _ _ = _, I : forall ts l r, p_cmps _ ts = (l, r) -> suf ts r |- _ => apply I in H
  | H : p_binl _ _ _ _ = _, I : forall L a ts e r, p_binl _ L a ts = (e, r) -> suf ts r |- _ => apply I in H
  | H : p_trail _ _ _ = _, I : forall a ts e r, p_trail _ a ts = (e, r) -> suf ts r |- _ => apply I in H
  | H : p_trailer _ _ _ = Some _, I : forall a ts e r, p_trailer _ a ts = Some (e, r) -> suf ts r |- _ => apply I in H
  | H : p_atom _ _ = Some _, I : forall ts e r, p_atom _ ts = Some (e, r) -> suf ts r |- _ => apply I in H
  | H : p_yield _ _ = Some _, I : forall ts e r, p_yield _ ts = Some (e, r) -> suf ts r |- _ => apply I in H
  | H : p_comps _ _ = _, I : forall ts l r, p_comps _ ts = (l, r) -> suf ts r |- _ => apply I in H
  | H : p_list _ _ _ = _, I : forall k ts l b r, p_list _ k ts = (l, b, r) -> suf ts r |- _ => apply I in H
  | H : p_item _ _ _ = Some _, I : forall k ts i r, p_item _ k ts = Some (i, r) -> suf ts r |- _ => apply I in H
  | H : p_arg _ _ _ _ = Some _, I : forall x y ts a r, p_arg _ x y ts = Some (a, r) -> suf ts r |- _ => apply I in H
  | H : p_opt _ _ = _, I : forall ts o r, p_opt _ ts = (o, r) -> suf ts r |- _ => apply I in H
  end.
Ltac done H := flat H; try (inversion H; subst; clear H); know; try suf.
Lemma consumes n : reads_line n.
Proof.
  induction n as [|n IH].
  - repeat split; try discriminate; cbn; intros; match goal with H : _ = _ |- _ => inversion H; subst; apply suf_refl end.
  - destruct IH as (I1 & I2 & I3 & I4 & I5 & I6 & I7 & I8 & I9 & I10 & I11 & I12 & I13). unfold reads_line. repeat apply conj.
    + intros L ts e r H. destruct L; cbn [p] in H; done H.
    + intros kw L ts l r H. cbn [p_ops] in H. done H.
    + intros ts l r H. cbn [p_cmps] in H. done H.
    + intros L a ts e r H. cbn [p_binl] in H. done H.
    + intros a ts e r H. cbn [p_trail] in H. done H.
    + intros a ts e r H. cbn [p_trailer] in H. done H.
    + intros ts e r H. cbn [p_atom] in H. destruct ts as [|t ts]; [discriminate|].
      assert (S : plain t = true -> suf (t :: ts) ts) by apply suf_one. destruct t; try discriminate; specialize (S eq_refl).
      all: done H.
    + intros ts e r H. cbn [p_yield] in H. done H.
    + intros ts l r H. cbn [p_comps] in H. done H.
    + intros k ts l b r H. cbn [p_list] in H. done H.
    + intros k ts i r H. cbn [p_item] in H. done H.
    + intros x y ts a r H. cbn [p_arg] in H. done H.
    + intros ts o r H. cbn [p_opt] in H. done H.
Qed.
(** After the name match, no cases come: the line ends, and what follows is not indented. *)
Lemma no_match n line rest : pl line = true -> indentq rest = None -> p_match n (line ++ TNewline :: rest) = None.
Proof.
  intros Hl Hr. destruct n as [|n]; [reflexivity|]. cbn [p_match]. replace (p_subject n (line ++ TNewline :: rest)) with (@None (expr * list tok)); [reflexivity|].
  symmetry. unfold p_subject. destruct (p_list n KStarNamed (line ++ TNewline :: rest)) as [[its b] r] eqn:E.
  assert (S : suf (line ++ TNewline :: rest) r). { destruct (consumes n) as (_ & _ & _ & _ & _ & _ & _ & _ & _ & I & _). eapply I; eassumption. }
  destruct (exprs_of its) as [l|]; [|reflexivity]. destruct (tuple_or_single l b) as [e|]; [|reflexivity]. destruct (is_starred e); [reflexivity|].
  destruct (opq ":" r) as [r1|] eqn:E1; [|reflexivity]. destruct (nlq r1) as [r2|] eqn:E2; [|reflexivity].
  replace (indentq r2) with (@None (list tok)); [reflexivity|]. symmetry. clear - Hl Hr S E1 E2.
  assert (exists q, r = q ++ TNewline :: rest /\ pl q = true) as (q & -> & Hq).
  { destruct S as (pre & Epre & Hpre). revert line Hl Epre. induction pre as [|t pre IH]; intros line Hl Epre; [now exists line|].
    rewrite pl_cons in Hpre. apply andb_true_iff in Hpre as [Ht Hpre]. destruct line as [|t' line]; inversion Epre; subst; [discriminate|].
    rewrite pl_cons in Hl. apply andb_true_iff in Hl as [_ Hl]. eapply IH; eauto. }
  destruct q as [|t q]; [discriminate|]. destruct t; try discriminate. cbn [app opq] in E1. destruct (String.eqb ":" x); [|discriminate]. inversion E1; subst.
  destruct q as [|t q]; [|destruct t; discriminate]. cbn in E2. inversion E2; subst. exact Hr.
Qed.
