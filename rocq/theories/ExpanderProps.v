(** Properties C22, C23, C24, C31 of the macro expander. *)
From Verif Require Import Base AstLib UtilsModel UtilsProofs FixLocModel ExpanderModel ExpanderSpec ExpanderProofs ExpanderProofs2 ExpanderProofs3 ExpanderExamples.

(** ** C22: code that invokes no bound macro is returned unchanged, and no macro function is called *)

(** [visit], in either mode. *)
Theorem C22_uninvolved_code_unchanged : forall U (E : env U) (s : st U) (t : ltree),
  shaped t -> is_node t = true ->
  (forall u x syn, part t u -> ~ invokes E (s_b s) u x syn) ->
  exists n0, forall n, n0 <= n -> visit E n t s = Some (XOk t, s).
Proof.
  intros U E s t Hs Hn Hq. destruct (quiet_same E s t Hs Hq Hn) as [n H]. exists n. intros n' Hle. exact (same_le E n n' s t Hle H).
Qed.
Print Assumptions C22_uninvolved_code_unchanged.

(** A suite: a list of statements, not empty. *)
Theorem C22_uninvolved_suite_unchanged : forall U (E : env U) (s : st U) (l : list ltree),
  l <> [] -> Forall (fun t => shaped t /\ is_node t = true) l ->
  (forall t u x syn, In t l -> part t u -> ~ invokes E (s_b s) u x syn) ->
  exists n0, forall n, n0 <= n -> visit E n (Ls l) s = Some (XOk (Ls l), s).
Proof.
  intros U E s l Hl HF Hq.
  assert (H : exists n, Forall (same E n s) l).
  { apply Forall_bound; [intros n n' x; apply same_le|]. rewrite Forall_forall in *. intros x Hx. destruct (HF x Hx) as [Hs Hn].
    apply quiet_same; [exact Hs|intros u y syn; apply (Hq x u y syn Hx)|exact Hn]. }
  destruct H as [n H]. exists (S n). intros n' Hle. apply (visit_mono_le E (S n) n' (Ls l) Hle).
  cbn [visit]. unfold visit_body. cbn [is_kind]. rewrite orb_false_r. destruct (s_b s) eqn:Eb; [reflexivity|]. rewrite <- Eb in *. clear Eb.
  assert (X : xvisit_elts (visit E n) l s = Some (XOk l, s)).
  { clear - H. induction H as [|x l Hx _ IH]; [reflexivity|]. cbn [xvisit_elts]. unfold bnd. unfold same in Hx. rewrite Hx, IH. reflexivity. }
  unfold bnd. rewrite X.
  assert (F : flatten l = l).
  { apply flatten_fixed. eapply Forall_impl; [|exact HF]. intros x [_ Hx]. destruct x; try discriminate. split; reflexivity. }
  rewrite F. destruct l; [contradiction|reflexivity].
Qed.
Print Assumptions C22_uninvolved_suite_unchanged.

(** Without bindings: any input at all. *)
Theorem C22_no_bindings_unchanged : forall U (E : env U) (s : st U) (t : ltree) n,
  s_b s = [] -> visit E (S n) t s = Some (XOk t, s).
Proof. intros U E s t n H. cbn [visit]. unfold visit_body. rewrite H. reflexivity. Qed.
Print Assumptions C22_no_bindings_unchanged.

(** [visit_once] and [visit_recursively]: the same tree ([visit_once] marks it), no macro function called. *)
Theorem C22_entry_points_unchanged : forall U (E : env U) (s : st U) (t : ltree),
  shaped t -> is_node t = true ->
  (forall u x syn, part t u -> ~ invokes E (s_b s) u x syn) ->
  exists n0, forall n, n0 <= n ->
    visit_once E n t s = Some (XOk (done t), mkSt (s_b s) (s_rec s) (s_u s) (s_log s ++ [EMode false; EModeEnd])) /\
    visit_recursively E n t s = Some (XOk t, mkSt (s_b s) (s_rec s) (s_u s) (s_log s ++ [EMode true; EModeEnd])).
Proof.
  intros U E s t Hs Hn Hq.
  destruct (quiet_same E (mkSt (s_b s) false (s_u s) (s_log s ++ [EMode false])) t Hs Hq Hn) as [n1 H1].
  destruct (quiet_same E (mkSt (s_b s) true (s_u s) (s_log s ++ [EMode true])) t Hs Hq Hn) as [n2 H2].
  exists (Nat.max n1 n2). intros n Hle. pose proof (same_le E n1 n _ t ltac:(lia) H1) as G1. pose proof (same_le E n2 n _ t ltac:(lia) H2) as G2.
  unfold same in G1, G2. unfold visit_once, visit_recursively, call_expander, with_mode, bnd. rewrite G1, G2. cbn. rewrite <- !app_assoc. auto.
Qed.
Print Assumptions C22_entry_points_unchanged.

(** [x = par; f(nm2)[y, z]; @dec def f: pass], where [par] is bound but only mentioned. *)
Definition quiet_tree : ltree :=
  mod_ [expr_ (plus_ (name_ "par") (sub_ (call_ (name_ "g") [name_ "ident"]) (tuple_ [name_ "y"; name_ "z"])));
        def_ "FunctionDef" [call_ (name_ "dec") [name_ "y"]] [pass_]; with_ [item_ (call_ (name_ "open") [])] [pass_]].
Example C22_example : visit env0 12 quiet_tree (st0 true) = Some (XOk quiet_tree, st0 true) /\
  s_b (st0 true) <> [] /\ isbound binds0 "par" = Some 6 /\ is_node quiet_tree = true.
Proof. split; [vm_compute; reflexivity|]. split; [discriminate|]. split; reflexivity. Qed.

(** ** C23: the mode is restored on every exit, and in between it is the one asked for last *)

(** Whatever macros do, and however the visit ends: the mode is the same as before, and the trace is
    disciplined. *)
Theorem C23_mode_restored : forall U (E : env U) n t (s : st U) r s',
  visit E n t s = Some (r, s') ->
  s_rec s' = s_rec s /\ exists d, s_log s' = s_log s ++ d /\ disciplined (s_rec s) d.
Proof. intros U E n t s r s' H. exact (visit_mode E n t s r s' H). Qed.
Print Assumptions C23_mode_restored.

Theorem C23_entry_points_restore_mode : forall U (E : env U) n t (s : st U) r s',
  (visit_once E n t s = Some (r, s') ->
   s_rec s' = s_rec s /\ exists d, s_log s' = s_log s ++ EMode false :: d ++ [EModeEnd] /\ disciplined false d) /\
  (visit_recursively E n t s = Some (r, s') ->
   s_rec s' = s_rec s /\ exists d, s_log s' = s_log s ++ EMode true :: d ++ [EModeEnd] /\ disciplined true d).
Proof.
  intros U E n t s r s'. unfold visit_once, visit_recursively, call_expander, with_mode. split; intros H.
  - unfold bnd in H. destruct (visit E n t _) as [[y s1]|] eqn:E1; [|discriminate]. destruct (visit_mode E _ _ _ _ _ E1) as [_ [d [L D]]]. cbn in L, D.
    assert (H' : s' = mkSt (s_b s1) (s_rec s) (s_u s1) (s_log s1 ++ [EModeEnd])) by (destruct y; inversion H; reflexivity). subst s'.
    split; [reflexivity|]. exists d. split; [|exact D]. cbn. rewrite L, <- !app_assoc. reflexivity.
  - destruct (visit E n t _) as [[y s1]|] eqn:E1; [|discriminate]. destruct (visit_mode E _ _ _ _ _ E1) as [_ [d [L D]]]. cbn in L, D.
    inversion H; subst. split; [reflexivity|]. exists d. split; [|exact D]. cbn. rewrite L, <- !app_assoc. reflexivity.
Qed.
Print Assumptions C23_entry_points_restore_mode.

(** A macro sees the mode of the innermost enclosing call: [once[rec[once[ident[x]]]]], and an error two levels down
    that a macro catches. *)
Definition modes_of (l : list event) : list bool := flat_map (fun e => match e with ESee b => [b] | _ => [] end) l.
Example C23_example :
  exists r s, visit_once env0 20 (sub_ (name_ "rec") (sub_ (name_ "once") (sub_ (name_ "rec") (sub_ (name_ "fails") (name_ "x"))))) (st0 true) = Some (r, s) /\
    modes_of (s_log s) = [false; false] /\ s_rec s = true /\
    map (fun e => match e with EMode b => Some b | EModeEnd => None | _ => Some true end)
      (filter (fun e => match e with EMode _ | EModeEnd => true | _ => false end) (s_log s)) =
    [Some false; Some true; Some false; Some true; None; None; None; None].
Proof. eexists. eexists. split; [vm_compute; reflexivity|]. vm_compute. split; [reflexivity|]. split; reflexivity. Qed.

(** ** C31: what is recognised as a macro invocation *)

(** An invocation, as described by [next_call] (hence by [denotes]): the macro function is the first thing called,
    with the tree and the arguments described there; a call without arguments or with starred arguments is refused
    with a SyntaxError. *)
Theorem C31_invocation_recognised : forall U (E : env U) n (s : st U) t c x i,
  shaped t -> next_call E (s_b s) t c x i ->
  (bad_call c -> visit E (S n) t s = Some (XRaise syntax_error, s)) /\
  (~ bad_call c -> forall r s', visit E (S n) t s = Some (r, s') -> exists m d,
     s_log s' = s_log s ++ m ++ d /\
     m = if String.eqb (in_syntax i) "name" then [EMode false; ECall x i false] else [ECall x i (s_rec s)]).
Proof.
  intros U E n s t c x i Hs Hn. destruct (visit_next E n s t c x i Hs Hn) as [V1 V2]. split; [exact V1|]. intros Hb r s' H. rewrite (V2 Hb) in H.
  destruct (next_bound E _ _ _ _ _ Hn) as [_ [j Hj]]. destruct (after_first E n c x i s r s' j Hj H) as [d L]. eexists. exists d. split; [exact L|].
  inversion Hn; subst; reflexivity.
Qed.
Print Assumptions C31_invocation_recognised.

(** Anything else is ordinary code: only its parts are visited. *)
Theorem C31_other_code_not_invoked : forall U (E : env U) n (s : st U) m k fs,
  shaped (Nd m k fs) -> k <> "Done"%string -> s_b s <> [] ->
  (forall x syn, ~ invokes E (s_b s) (Nd m k fs) x syn) ->
  visit E (S n) (Nd m k fs) s = if String.eqb k "Name" then Some (XOk (Nd m k fs), s) else xgeneric_visit (visit E n) (Nd m k fs) s.
Proof.
  intros U E n s m k fs Hs Hd Hb Hno. apply visit_generic; auto. intros c x i H.
  destruct (proj1 (invokes_next E (s_b s) m k fs Hs Hd)) as [y [syn Hy]]; [eauto|]. exact (Hno y syn Hy).
Qed.
Print Assumptions C31_other_code_not_invoked.

(** An invocation has exactly one next call. *)
Theorem C31_invocation_unique : forall U (E : env U) b m k fs,
  shaped (Nd m k fs) -> k <> "Done"%string -> (exists x syn, invokes E b (Nd m k fs) x syn) ->
  exists c x i, next_call E b (Nd m k fs) c x i /\ forall c' x' i', next_call E b (Nd m k fs) c' x' i' -> c' = c /\ x' = x /\ i' = i.
Proof.
  intros U E b m k fs Hs Hd H. apply (invokes_next E b m k fs Hs Hd) in H. destruct H as [c [x [i H]]]. exists c, x, i. split; [exact H|].
  intros c' x' i' H'. exact (next_unique E b _ c' x' i' c x i Hs H' H).
Qed.
Print Assumptions C31_invocation_unique.

(** [par[a, b][t]], [par(a, b)[t]], [par[t]]. *)
Definition seen_args (t : ltree) : option (list (option (list ltree))) :=
  match visit env0 12 t (st0 true) with
  | Some (_, s) => Some (map (fun p => in_args (snd p)) (calls_of (s_log s)))
  | None => None
  end.
Example C31_example :
  seen_args (sub_ (sub_ (name_ "par") (tuple_ [name_ "a"; name_ "b"])) (name_ "t")) = Some [Some [name_ "a"; name_ "b"]] /\
  seen_args (sub_ (call_ (name_ "par") [name_ "a"; name_ "b"]) (name_ "t")) = Some [Some [name_ "a"; name_ "b"]] /\
  seen_args (sub_ (sub_ (name_ "par") (name_ "a")) (name_ "t")) = Some [Some [name_ "a"]] /\
  seen_args (sub_ (name_ "par") (name_ "t")) = Some [Some []] /\
  seen_args (sub_ (sub_ (name_ "none") (name_ "a")) (name_ "t")) = Some [Some []] /\
  seen_args (sub_ (call_ (name_ "g") [name_ "a"]) (name_ "t")) = Some [] /\
  next_call env0 binds0 (sub_ (call_ (name_ "par") [name_ "a"]) (name_ "t")) (call_ (name_ "par") [name_ "a"]) "par"
    (mkIn "expr" (name_ "t") (Some [name_ "a"]) None (sub_ (call_ (name_ "par") [name_ "a"]) (name_ "t"))).
Proof.
  repeat (split; [vm_compute; reflexivity|]). eapply nc_expr; [reflexivity|reflexivity|]. split; [eapply dn_call; reflexivity|].
  split; [discriminate|]. exists 6. split; [apply isbound_iff; reflexivity|right; reflexivity].
Qed.

(** The rule of the statement, arguments only for a parametric macro, has an exception: [ident[()][t]] invokes [ident],
    which takes no arguments. *)
Theorem C31_empty_subscript_accepted_refuted : exists (E : env unit) s t x v i,
  t = sub_ (sub_ (name_ x) (tuple_ [])) v /\ isbound (s_b s) x = Some i /\ m_isparam (x_macro E i) = false /\
  exists s' inp, visit E 12 t s = Some (XOk v, s') /\ calls_of (s_log s') = [(x, inp)].
Proof.
  exists env0, (st0 true), (sub_ (sub_ (name_ "ident") (tuple_ [])) (name_ "t")), "ident"%string, (name_ "t"), 0.
  split; [reflexivity|]. split; [reflexivity|]. split; [reflexivity|]. eexists. eexists. split; vm_compute; reflexivity.
Qed.
Print Assumptions C31_empty_subscript_accepted_refuted.

(** And a call without arguments, or with starred ones, is not treated as ordinary code: an error is raised. *)
Theorem C31_bad_call_not_ordinary_refuted : exists (E : env unit) s c t,
  t = sub_ c (name_ "t") /\ bad_call c /\ (forall n, visit E (S n) t s = Some (XRaise syntax_error, s)).
Proof.
  exists env0, (st0 true), (call_ (name_ "par") []), (sub_ (call_ (name_ "par") []) (name_ "t")). split; [reflexivity|].
  split; [eexists; eexists; exists []; split; [reflexivity|]; split; [reflexivity|left; reflexivity]|]. intros n. reflexivity.
Qed.
Print Assumptions C31_bad_call_not_ordinary_refuted.

(** ** C24: stacked block and decorator macros *)

(** In a [with] statement the first macro item is applied first, to the rest of the statement: the body if no other item
    is left, else the statement with the other items in their order. The macro gets that rest as it is in the input. *)
Theorem C24_with_first_macro_first : forall U (E : env U) n (s : st U) m fs before mi fi after c x args ov body r s',
  shaped (Nd m "With" fs) ->
  getf "items" fs = Some (Ls (before ++ Nd mi "withitem" fi :: after)) ->
  getf "context_expr" fi = Some c -> getf "optional_vars" fi = Some ov -> getf "body" fs = Some body ->
  (forall it, In it before -> ~ macro_item E (s_b s) it) -> names_macro E (s_b s) c x args -> ~ bad_call c ->
  visit E (S n) (Nd m "With" fs) s = Some (r, s') ->
  exists d rest, s_log s' = s_log s ++ ECall x (mkIn "block" rest (Some args) (Some ov) (Nd m "With" fs)) (s_rec s) :: d /\
    (before ++ after = [] -> rest = body) /\
    (before ++ after <> [] -> rest = Ls [Nd m "With" (setf "items" (Ls (before ++ after)) fs)]).
Proof.
  intros U E n s m fs before mi fi after c x args ov body r s' Hs Hi Hc Ho Hb Hbef Hm Hbad H.
  pose proof (nc_block E (s_b s) m fs before mi fi after c x args ov body Hi ltac:(apply Forall_forall; exact Hbef) Hc Ho Hb Hm) as Hn.
  destruct (C31_invocation_recognised U E n s _ _ _ _ Hs Hn) as [_ G]. destruct (G Hbad r s' H) as [m0 [d [L ->]]]. cbn in L.
  exists d. eexists. split; [exact L|]. split; intros Hx; [rewrite Hx; reflexivity|]. destruct (before ++ after); [contradiction|reflexivity].
Qed.
Print Assumptions C24_with_first_macro_first.

(** Among decorators the last macro is applied first, to the definition with only that decorator removed. *)
Theorem C24_decorator_last_macro_first : forall U (E : env U) n (s : st U) m k fs before c after x args r s',
  shaped (Nd m k fs) -> k = "ClassDef"%string \/ k = "FunctionDef"%string ->
  getf "decorator_list" fs = Some (Ls (before ++ c :: after)) ->
  (forall c', In c' after -> ~ macro_dec E (s_b s) c') -> names_macro E (s_b s) c x args -> ~ bad_call c ->
  visit E (S n) (Nd m k fs) s = Some (r, s') ->
  exists d, s_log s' = s_log s ++ ECall x (mkIn "decorator" (Nd m k (setf "decorator_list" (Ls (before ++ after)) fs)) (Some args) None (Nd m k fs)) (s_rec s) :: d.
Proof.
  intros U E n s m k fs before c after x args r s' Hs Hk Hi Haft Hm Hbad H.
  pose proof (nc_dec E (s_b s) m k fs before c after x args Hk Hi ltac:(apply Forall_forall; exact Haft) Hm) as Hn.
  destruct (C31_invocation_recognised U E n s _ _ _ _ Hs Hn) as [_ G]. destruct (G Hbad r s' H) as [m0 [d [L ->]]]. exists d. exact L.
Qed.
Print Assumptions C24_decorator_last_macro_first.

(** Then the result of that macro is expanded, which takes care of the remaining ones: [with a, ident, b, none: pass] and
    [@a @ident @b @outer class f: pass]. *)
Example C24_example :
  outcome (visit env0 20 (with_ [item_ (name_ "a"); item_ (name_ "ident"); item_ (name_ "b"); item_ (name_ "outer")] [pass_]) (st0 true)) =
    Some (XOk (Ls [done (dummy_stmt "source line of ident" (at_ 1 0)); done (dummy_stmt "source line of outer" (at_ 1 0));
                   with_ [item_ (name_ "a"); item_ (name_ "b")] [pass_]]),
          [("ident"%string, Ls [with_ [item_ (name_ "a"); item_ (name_ "b"); item_ (name_ "outer")] [pass_]]);
           ("outer"%string, Ls [with_ [item_ (name_ "a"); item_ (name_ "b")] [pass_]])]) /\
  outcome (visit env0 20 (def_ "ClassDef" [name_ "a"; name_ "none"; name_ "b"; name_ "ident"; name_ "c"] [pass_]) (st0 true)) =
    Some (XOk (Ls [done (dummy_stmt "source line of ident" (at_ 1 0)); done (dummy_stmt "source line of none" (at_ 1 0))]),
          [("ident"%string, def_ "ClassDef" [name_ "a"; name_ "none"; name_ "b"; name_ "c"] [pass_]);
           ("none"%string, def_ "ClassDef" [name_ "a"; name_ "b"; name_ "c"] [pass_])]).
Proof. split; vm_compute; reflexivity. Qed.
