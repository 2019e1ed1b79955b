(** Property C26 of the macro expander. *)
From Verif Require Import Base AstLib UtilsModel FixLocModel ExpanderModel ExpanderSpec ExpanderProofs ExpanderProofs2 ExpanderProofs3 ExpanderProofs4 ExpanderProofs5 ExpanderExamples ExpanderCheck.

(** ** C26: recursive expansion is complete *)

Lemma unbound_nothing {U} (E : env U) u : ~ expandable E [] u.
Proof.
  assert (B : forall x i, ~ bound [] x i) by (intros x i [[|] [? [H _]]]; discriminate).
  intros H. inversion H; subst; try (match goal with Hn : names_macro _ _ _ _ _ |- _ => destruct Hn as [_ [_ [i0 [Hb0 _]]]] end); eapply B; eassumption.
Qed.

(** The full claim is "when [visit] returns in recursive mode, no part of the result outside Done is an invocation of a bound macro".
    Proved under these conditions: macros do not change the bindings; the input and what macros return are ASTs of
    Python's grammar; and no macro's expansion is, as a whole, a bare name of a bound macro or a call of one (such a
    result can become the head of an invocation that was not there before: see the refutation below). Nothing else is
    assumed about the macros: they may return further invocations, and may call the expander in any mode. *)
Theorem C26_recursive_expansion_complete_partial : forall U (E : env U) n t (s : st U) t' s',
  (forall j i, keeps_binds (m_run (x_macro E j) i)) -> tidy t -> s_rec s = true -> visit E n t s = Some (XOk t', s') ->
  exists d, s_log s' = s_log s ++ d /\
    ((forall x syn r v, In (EOut x syn r) d -> In v (members r) -> ~ mention (s_b s) v) ->
     (forall v v1 tg v2, In (ERet (XOk v)) d -> accepted v v1 -> x_fix E v1 tg = Ok v2 -> tidy v2) ->
     forall e u, In e (members t') -> part e u -> ~ expandable E (s_b s) u).
Proof.
  intros U E n t s t' s' Hk Ht Hr H. destruct (s_b s) as [|p b] eqn:Eb.
  - destruct (visit_mode E _ _ _ _ _ H) as [_ [d [L _]]]. exists d. split; [exact L|]. intros _ _ e u _ _. apply unbound_nothing.
  - destruct (complete E (p :: b) Hk ltac:(discriminate) n t Ht s t' s' H Hr Eb) as [_ [_ [d [L G]]]]. exists d. split; [exact L|]. intros H1 H2 e u He Hu.
    destruct (G (conj H1 H2)) as [_ [Hcl _]]. exact (Hcl e He u Hu).
Qed.
Print Assumptions C26_recursive_expansion_complete_partial.

(** The same for [visit_recursively], from either mode. *)
Theorem C26_visit_recursively_complete_partial : forall U (E : env U) n t (s : st U) t' s',
  (forall j i, keeps_binds (m_run (x_macro E j) i)) -> tidy t -> visit_recursively E n t s = Some (XOk t', s') ->
  exists d, s_log s' = s_log s ++ d /\
    ((forall x syn r v, In (EOut x syn r) d -> In v (members r) -> ~ mention (s_b s) v) ->
     (forall v v1 tg v2, In (ERet (XOk v)) d -> accepted v v1 -> x_fix E v1 tg = Ok v2 -> tidy v2) ->
     forall e u, In e (members t') -> part e u -> ~ expandable E (s_b s) u).
Proof.
  intros U E n t s t' s' Hk Ht H. unfold visit_recursively, call_expander, with_mode, bnd in H.
  destruct (visit E n t _) as [[[u0|e0] s1]|] eqn:E1; try discriminate. inversion H; subst.
  destruct (C26_recursive_expansion_complete_partial U E n t (mkSt (s_b s) true (s_u s) (s_log s ++ [EMode true])) _ _ Hk Ht eq_refl E1) as [d [L G]]. cbn in L, G.
  exists (EMode true :: d ++ [EModeEnd]). split; [cbn; rewrite L, <- !app_assoc; reflexivity|]. intros H1 H2. apply G.
  - intros x syn r v Hin. apply (H1 x syn r v). right. apply in_app_iff. left. exact Hin.
  - intros v v1 tg v2 Hin. apply (H2 v v1 tg v2). right. apply in_app_iff. left. exact Hin.
Qed.
Print Assumptions C26_visit_recursively_complete_partial.

(** Without the condition on bare names, the claim is false: in [(tom2[x])[y]], the macro [tom2] returns the name
    [ident]; the result is [ident[y]], and is not expanded again. *)
Theorem C26_new_invocation_left_refuted : exists (E : env unit) t (s : st unit) t' s',
  (forall j i, keeps_binds (m_run (x_macro E j) i)) /\ tidy t /\ s_rec s = true /\ visit E 10 t s = Some (XOk t', s') /\ expandable E (s_b s) t'.
Proof.
  exists env0, (sub_ (sub_ (name_ "tom2") (name_ "x")) (name_ "y")), (st0 true). eexists. eexists. split; [|split; [|split; [reflexivity|split; [vm_compute; reflexivity|]]]].
  - exact macros_keep.
  - apply tidyb_ok. vm_compute. reflexivity.
  - eapply ex_expr; [reflexivity| |].
    + split; [apply dn_name; reflexivity|]. split; [discriminate|]. exists 0. split; [exists [], (tl binds0); split; [reflexivity|intros []]|left; reflexivity].
    + intros [? [? [? [X _]]]]. discriminate.
Qed.
Print Assumptions C26_new_invocation_left_refuted.

(** A decorator macro on an async function definition is not expanded at all, although doc/main.md:356 lists async
    function definitions among the nodes a decorator macro may be applied to: there is no visit_AsyncFunctionDef
    (expander.py:213-274). *)
Theorem C26_async_def_left_refuted : exists (E : env unit) t (s : st unit) s' c,
  tidy t /\ s_rec s = true /\ visit E 10 t s = Some (XOk t, s') /\ calls_of (s_log s') = [] /\
  exists m fs, t = Nd m "AsyncFunctionDef" fs /\ getf "decorator_list" fs = Some (Ls [c]) /\ names_macro E (s_b s) c "ident" [] /\ ~ bad_call c.
Proof.
  exists env0, (def_ "AsyncFunctionDef" [name_ "ident"] [pass_]), (st0 true). eexists. exists (name_ "ident").
  split; [apply tidyb_ok; vm_compute; reflexivity|]. split; [reflexivity|]. split; [vm_compute; reflexivity|]. split; [reflexivity|].
  eexists. eexists. split; [reflexivity|]. split; [reflexivity|]. split.
  - split; [apply dn_name; reflexivity|]. split; [discriminate|]. exists 0. split; [exists [], (tl binds0); split; [reflexivity|intros []]|left; reflexivity].
  - intros [? [? [? [X _]]]]. discriminate.
Qed.
Print Assumptions C26_async_def_left_refuted.

(** A run that meets the hypotheses of the theorem: [outer[ident[x]] + two[nm]] in a block of the macro [ident]. *)
Example C26_example :
  let t := mod_ [with_ [item_ (name_ "ident")] [expr_ (plus_ (sub_ (name_ "outer") (sub_ (name_ "ident") (name_ "x"))) (name_ "nm"))]; pass_] in
  tidy t /\ exists t' s', visit env0 20 t (st0 true) = Some (XOk t', s') /\
    map fst (calls_of (s_log s')) = ["ident"; "outer"; "ident"; "nm"]%string /\
    forallb (fun e => match e with EOut _ _ r => forallb (fun v => match v with Nd _ "Name" fs => negb (existsb (fun p => match getf "id" fs with Some (At (AStr x)) => String.eqb x (fst p) | _ => false end) binds0) | Nd _ "Call" _ => false | _ => true end) (members r)
      | ERet (XOk v) => tidyb v | _ => true end) (s_log s') = true.
Proof. cbv zeta. split; [apply tidyb_ok; vm_compute; reflexivity|]. eexists. eexists. split; [vm_compute; reflexivity|]. split; vm_compute; reflexivity. Qed.
