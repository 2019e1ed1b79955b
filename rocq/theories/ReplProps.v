(** C52: the interactive console. *)
From Verif Require Import Base Dict ReplModel.

Section Spec.
  Context {fn val ast code world : Type}.
  Notation ses := (ses fn val world).
  (** What the user sees of the session: macro bindings and variables (and what a later input does with them). *)
  Definition same_session (a b : ses) : Prop := s_bind b = s_bind a /\ s_changed b = s_changed a /\ s_locals b = s_locals a.
  Definition quiet {A B} (f : A -> ses -> ses * B) : Prop := forall t st, same_session st (fst (f t st)).
  Lemma same_trans a b c : same_session a b -> same_session b c -> same_session a c.
  Proof. intros (A1 & A2 & A3) (B1 & B2 & B3). repeat split; congruence. Qed.

  Variable metadata : @sdict val.
  Variable compile_cmd : string -> res (option code).
  Variables (parse : string -> res ast) (compile_ast : ast -> res code) (dedent : string -> string).
  Variable find_macros : ast -> ses -> ses * res (@sdict fn * ast).
  Variables (expand postprocess : ast -> ses -> ses * res ast).
  Variable exec : code -> ses -> ses * option exn.
  Variable fn_ref : fn -> option (string * string).
  Variable isa : exn -> string -> bool.
  Notation runsource := (runsource metadata compile_cmd parse compile_ast dedent find_macros expand postprocess exec fn_ref isa).
  Notation session := (session metadata compile_cmd parse compile_ast dedent find_macros expand postprocess exec fn_ref isa).
  Notation to_code := (to_code metadata parse compile_ast find_macros expand postprocess).
  Notation set_magic := (set_magic metadata).

  (** Not a special command, and complete. *)
  Definition plain_input (source : string) : Prop :=
    ends_with "?" source = false /\ ((exists c, compile_cmd source = Ok (Some c)) \/ exists e, compile_cmd source = Err e /\ isa_any isa e parse_errors = true).
  (** The input fails with [e], after importing the macros [b]. *)
  Inductive fails (source : string) (st : ses) : @sdict fn -> exn -> Prop :=
  | fa_parse e : parse source = Err e -> fails source st [] e
  | fa_import t st1 e : parse source = Ok t -> find_macros t (set_magic st) = (st1, Err e) -> fails source st [] e
  | fa_expand t st1 b t1 st2 e : parse source = Ok t -> find_macros t (set_magic st) = (st1, Ok (b, t1)) -> expand t1 (add_bindings b st1) = (st2, Err e) -> fails source st b e
  | fa_post t st1 b t1 st2 t2 st3 e : parse source = Ok t -> find_macros t (set_magic st) = (st1, Ok (b, t1)) -> expand t1 (add_bindings b st1) = (st2, Ok t2) ->
      postprocess t2 st2 = (st3, Err e) -> fails source st b e
  | fa_compile t st1 b t1 st2 t2 st3 t3 e : parse source = Ok t -> find_macros t (set_magic st) = (st1, Ok (b, t1)) -> expand t1 (add_bindings b st1) = (st2, Ok t2) ->
      postprocess t2 st2 = (st3, Ok t3) -> compile_ast t3 = Err e -> fails source st b e.

  Lemma ends2 s : ends_with "?" s = false -> s <> "macros?"%string /\ ends_with "??" s = false.
  Proof.
    intros H. split; [intros ->; vm_compute in H; discriminate|]. destruct (ends_with "??" s) eqn:E; [|reflexivity]. exfalso. unfold ends_with in *. apply andb_true_iff in E. destruct E as [L E]. cbn [String.length] in *. apply Nat.leb_le in L. apply String.eqb_eq in E.
    apply andb_false_iff in H. destruct H as [H|H]; [apply Nat.leb_gt in H; lia|]. apply String.eqb_neq in H. apply H. clear H.
    assert (G : forall s n a b, substring n 2 s = String a (String b EmptyString) -> substring (S n) 1 s = String b EmptyString).
    { clear. induction s as [|c s IH]; intros n a b; [destruct n; discriminate|]. destruct n as [|n].
      - destruct s as [|d s]; [discriminate|]. cbn. intros K. injection K as -> -> K. destruct s; reflexivity.
      - intros K. exact (IH n a b K). }
    replace (String.length s - 1) with (S (String.length s - 2)) by lia. exact (G _ _ _ _ E).
  Qed.
  Lemma plain_run source st : plain_input source -> runsource source st =
    match to_code source st with
    | (st', Err e) => if isa_any isa e caught then (st', [report isa e], Ok false) else (st', [], Err e)
    | (st', Ok c) => match exec c st' with (st'', Some e) => (st'', [], Err e) | (st'', None) => let (st3, r) := refresh parse compile_ast dedent exec fn_ref isa st'' in (st3, [], of_unit r) end
    end.
  Proof.
    intros [H1 H2]. destruct (ends2 _ H1) as [H3 H4]. unfold ReplModel.runsource. apply String.eqb_neq in H3. rewrite H3, H4, H1. destruct H2 as [[c ->]|[e [-> ->]]]; reflexivity.
  Qed.
  Lemma fails_code source st b e : fails source st b e <-> (exists st', to_code source st = (st', Err e)) /\ (exists st', (parse source = Err e \/ (exists t, parse source = Ok t /\ find_macros t (set_magic st) = (st', Err e))) /\ b = [] \/ exists t t1, parse source = Ok t /\ find_macros t (set_magic st) = (st', Ok (b, t1))).
  Proof.
    unfold ReplModel.to_code. split.
    - intros H. destruct H as [e H|t st1 e H H1|t st1 b t1 st2 e H H1 H2|t st1 b t1 st2 t2 st3 e H H1 H2 H3|t st1 b t1 st2 t2 st3 t3 e H H1 H2 H3 H4]; rewrite H.
      + split; [eauto|]. exists st. left. auto.
      + rewrite H1. split; [eauto|]. exists st1. left. split; [|reflexivity]. right. eauto.
      + rewrite H1, H2. split; [eauto|]. exists st1. right. eauto.
      + rewrite H1, H2, H3. split; [eauto|]. exists st1. right. eauto.
      + rewrite H1, H2, H3, H4. split; [eauto|]. exists st1. right. eauto.
    - intros [[st' H] [st1 [[[H1|[t [H1 H2]]] ->]|(t & t1 & H1 & H2)]]].
      + apply fa_parse. exact H1.
      + eapply fa_import; eauto.
      + rewrite H1, H2 in H. destruct (expand t1 (add_bindings b st1)) as [st2 [t2|e2]] eqn:E2; [|injection H as _ <-; eapply fa_expand; eauto].
        destruct (postprocess t2 st2) as [st3 [t3|e3]] eqn:E3; [|injection H as _ <-; eapply fa_post; eauto]. injection H as _ H. eapply fa_compile; eauto.
  Qed.
  Definition after (b : @sdict fn) (st st' : ses) : Prop :=
    s_bind st' = supd (s_bind st) b /\ s_changed st' = (match b with [] => s_changed st | _ :: _ => true end) /\ s_locals st' = s_locals st.
  Lemma after_add b st st1 st2 : same_session st st1 -> same_session (add_bindings b st1) st2 -> after b st st2.
  Proof. intros (H1 & H2 & H3) (H4 & H5 & H6). unfold after. rewrite H4, H5, H6. destruct b; cbn [add_bindings s_bind s_changed s_locals]; rewrite ?H1, ?H2, ?H3; auto. Qed.
  Lemma after_trans b st st1 st2 : after b st st1 -> same_session st1 st2 -> after b st st2.
  Proof. intros (H1 & H2 & H3) (H4 & H5 & H6). unfold after. rewrite H4, H5, H6. auto. Qed.
  Lemma after_nil st st' : after [] st st' <-> same_session st st'.
  Proof. reflexivity. Qed.
  Lemma fails_after source st b e : quiet find_macros -> quiet expand -> quiet postprocess -> fails source st b e -> exists st', to_code source st = (st', Err e) /\ after b st st'.
  Proof.
    intros Qf Qe Qp H. unfold ReplModel.to_code.
    assert (F : forall t st1 r, find_macros t (set_magic st) = (st1, r) -> same_session st st1). { intros t st1 r E. pose proof (Qf t (set_magic st)) as Q. rewrite E in Q. exact Q. }
    assert (X : forall t s s' r, expand t s = (s', r) -> same_session s s'). { intros t s s' r E. pose proof (Qe t s) as Q. rewrite E in Q. exact Q. }
    assert (P : forall t s s' r, postprocess t s = (s', r) -> same_session s s'). { intros t s s' r E. pose proof (Qp t s) as Q. rewrite E in Q. exact Q. }
    destruct H as [e H|t st1 e H H1|t st1 b t1 st2 e H H1 H2|t st1 b t1 st2 t2 st3 e H H1 H2 H3|t st1 b t1 st2 t2 st3 t3 e H H1 H2 H3 H4]; rewrite H; try rewrite H1; try rewrite H2; try rewrite H3; try rewrite H4; (eexists; split; [reflexivity|]).
    - repeat split; reflexivity.
    - apply after_nil. exact (F _ _ _ H1).
    - exact (after_add _ _ _ _ (F _ _ _ H1) (X _ _ _ _ H2)).
    - exact (after_trans _ _ _ _ (after_add _ _ _ _ (F _ _ _ H1) (X _ _ _ _ H2)) (P _ _ _ _ H3)).
    - exact (after_trans _ _ _ _ (after_add _ _ _ _ (F _ _ _ H1) (X _ _ _ _ H2)) (P _ _ _ _ H3)).
  Qed.

  (** Input that fails without macro-imports taking effect before, in one of the ways that the console expects: it returns, has shown the
      error once, and macro bindings and variables are as before. The input may be any text that is no special command. User code (imported
      modules, macros) is arbitrary but for leaving bindings and variables alone. *)
  Theorem C52_erroneous_input_partial source st e :
    quiet find_macros -> quiet expand -> quiet postprocess -> plain_input source ->
    fails source st [] e -> isa_any isa e caught = true ->
    exists st' o, runsource source st = (st', [o], Ok false) /\ (o = WSyntax e \/ o = WText e) /\ same_session st st'.
  Proof.
    intros Qf Qe Qp Hp Hf Hc. destruct (fails_after _ _ _ _ Qf Qe Qp Hf) as (st' & E & A). exists st', (report isa e). rewrite (plain_run _ _ Hp), E, Hc. split; [reflexivity|]. split; [|exact A].
    clear. unfold report. destruct (isa_any isa e (parse_errors ++ _)); [left|right]; reflexivity.
  Qed.
  (** Text that does not parse: nothing at all changes, whatever user code would do. *)
  Theorem C52_unparseable_input_partial source st e : plain_input source -> parse source = Err e -> isa_any isa e caught = true ->
    exists o, runsource source st = (st, [o], Ok false) /\ (o = WSyntax e \/ o = WText e).
  Proof.
    intros Hp He Hc. exists (report isa e). rewrite (plain_run _ _ Hp). unfold ReplModel.to_code. rewrite He, Hc. split; [reflexivity|]. clear. unfold report. destruct (isa_any isa e (parse_errors ++ _)); [left|right]; reflexivity.
  Qed.
  (** So in a session such inputs may come anywhere. *)
  Theorem C52_session_survives_partial a bad b st e : plain_input bad -> parse bad = Err e -> isa_any isa e caught = true ->
    fst (fst (session (a ++ bad :: b) st)) = fst (fst (session (a ++ b) st)) /\ snd (session (a ++ bad :: b) st) = snd (session (a ++ b) st).
  Proof.
    intros Hp He Hc. revert st. induction a as [|i a IH]; intros st; cbn [app ReplModel.session].
    - destruct (C52_unparseable_input_partial bad st e Hp He Hc) as (o & E & _). rewrite E. destruct (session b st) as [[s o'] x]. split; reflexivity.
    - destruct (runsource i st) as [[s1 o1] [r|x]]; [|split; reflexivity]. specialize (IH s1). destruct (session (a ++ bad :: b) s1) as [[s2 o2] x2]. destruct (session (a ++ b) s1) as [[s3 o3] x3]. exact IH.
  Qed.
  (** Incomplete input changes nothing and asks for more. *)
  Theorem C52_incomplete_input source st : ends_with "?" source = false -> compile_cmd source = Ok None -> runsource source st = (st, [], Ok true).
  Proof. intros H1 H2. destruct (ends2 _ H1) as [H3 H4]. unfold ReplModel.runsource. apply String.eqb_neq in H3. rewrite H3, H4, H1, H2. reflexivity. Qed.
  (** What happens to the bindings when macro-imports are followed by a failure: the imports stay. *)
  Theorem C52_bindings_after_failure source st b e :
    quiet find_macros -> quiet expand -> quiet postprocess -> plain_input source -> fails source st b e ->
    exists st' o r, runsource source st = (st', o, r) /\ s_bind st' = supd (s_bind st) b /\ s_locals st' = s_locals st /\
      (if isa_any isa e caught then r = Ok false else r = Err e).
  Proof.
    intros Qf Qe Qp Hp Hf. destruct (fails_after _ _ _ _ Qf Qe Qp Hf) as (st' & E & A1 & _ & A3). rewrite (plain_run _ _ Hp), E. destruct (isa_any isa e caught) eqn:Hc.
    - exists st', [report isa e], (Ok false). auto.
    - exists st', [], (Err e). auto.
  Qed.
  (** Every way an exception gets out of the console. *)
  Theorem C52_only_these_escape source st st' o e : runsource source st = (st', o, Err e) ->
    (* a special command; the text between the parentheses is the input *)
    ends_with "?" source = true
    (* the compiler gave up on the input, other than by OverflowError, SyntaxError, ValueError *)
    \/ (compile_cmd source = Err e /\ isa_any isa e parse_errors = false)
    (* the input failed with an exception of another class *)
    \/ (exists b, fails source st b e /\ isa_any isa e caught = false)
    (* the running code raised SystemExit *)
    \/ (exists c st1 st2, to_code source st = (st1, Ok c) /\ exec c st1 = (st2, Some e))
    (* the update of the variables that are named like macros *)
    \/ (exists c st1 st2 st3, to_code source st = (st1, Ok c) /\ exec c st1 = (st2, None) /\ refresh parse compile_ast dedent exec fn_ref isa st2 = (st3, Err e)).
  Proof.
    intros H. destruct (ends_with "?" source) eqn:E1; [auto|]. right. destruct (ends2 _ E1) as [H3 H4]. unfold ReplModel.runsource in H. apply String.eqb_neq in H3. rewrite H3, H4, E1 in H.
    assert (R : run_rest metadata parse compile_ast dedent find_macros expand postprocess exec fn_ref isa source st = (st', o, Err e) ->
      (exists b, fails source st b e /\ isa_any isa e caught = false) \/ (exists c st1 st2, to_code source st = (st1, Ok c) /\ exec c st1 = (st2, Some e)) \/
      (exists c st1 st2 st3, to_code source st = (st1, Ok c) /\ exec c st1 = (st2, None) /\ refresh parse compile_ast dedent exec fn_ref isa st2 = (st3, Err e))).
    { clear H. unfold run_rest. destruct (to_code source st) as [s1 [c|x]] eqn:T.
      - right. destruct (exec c s1) as [s2 [y|]] eqn:X; [injection H as _ _ <-; left; eauto 6|]. right. destruct (refresh _ _ _ _ _ _ s2) as [s3 [|y]] eqn:F; cbn [of_unit] in H; [discriminate|]. injection H as _ _ <-. eauto 8.
      - left. destruct (isa_any isa x caught) eqn:C; [discriminate|]. injection H as _ _ <-. 
        assert (G : exists b, fails source st b x). { unfold ReplModel.to_code in T. destruct (parse source) as [t|y] eqn:P; [|injection T as _ <-; exists []; apply fa_parse; exact P].
          destruct (find_macros t (set_magic st)) as [a1 [[b t1]|y]] eqn:Q; [|injection T as _ <-; exists []; eapply fa_import; eauto]. exists b. apply fails_code. split; [exists s1; unfold ReplModel.to_code; rewrite P, Q; exact T|]. exists a1. right. eauto. }
        destruct G as [b G]. eauto. }
    destruct (compile_cmd source) as [[c|]|x] eqn:K.
    - right. exact (R H).
    - discriminate.
    - destruct (isa_any isa x parse_errors) eqn:P; [right; exact (R H)|]. injection H as _ _ <-. left. auto.
  Qed.
End Spec.
Print Assumptions C52_erroneous_input_partial.
Print Assumptions C52_unparseable_input_partial.
Print Assumptions C52_session_survives_partial.
Print Assumptions C52_incomplete_input.
Print Assumptions C52_bindings_after_failure.
Print Assumptions C52_only_these_escape.

(** ** Witnesses: a small Python *)
(** The parser fails if a parenthesis is left open (comments go to the end of the line, here of the text), and on a dotted name in an import. *)
Fixpoint open_parens (s : string) (n : nat) : nat :=
  match s with
  | EmptyString => n
  | String c r => if Ascii.eqb c "#" then n else if Ascii.eqb c "(" then open_parens r (S n) else if Ascii.eqb c ")" then open_parens r (pred n) else open_parens r n
  end.
Fixpoint has_char (c : ascii) (s : string) : bool := match s with EmptyString => false | String d r => Ascii.eqb c d || has_char c r end.
Definition syntax_error : exn := mkExn "SyntaxError" [].
Definition x_parse (s : string) : res string :=
  if Nat.eqb (open_parens s 0) 0 && negb (String.prefix "from " s && has_char "." s) then Ok s else Err syntax_error.
Definition x_cmd (s : string) : res (option string) := match x_parse s with Ok t => Ok (Some t) | Err e => Err e end.
(** Macro functions are their references. Macro m of module mod fails; macro bad gives an AST that cannot be compiled. *)
Definition x_fn : Type := (string * string)%type.
Notation x_ses := (ses x_fn nat unit).
Definition x_find (t : string) (st : x_ses) : x_ses * res (@sdict x_fn * string) :=
  if String.prefix "from mod import macros, m" t then (st, Ok ([("m", ("mod", "m"))]%string, substring 27 100 t))
  else if String.prefix "from mod import macros, k" t then (st, Ok ([("k", ("mod", "C.k"))]%string, substring 27 100 t))
  else if String.prefix "from nowhere import macros" t then (st, Err (mkExn "ModuleNotFoundError" []))
  else (st, Ok ([], t)).
Definition x_expand (t : string) (st : x_ses) : x_ses * res string :=
  if String.prefix "m[" t && match sget "m" (s_bind st) with Some _ => true | None => false end then (st, Err (mkExn "MacroExpansionError" [])) else (st, Ok t).
Definition x_post (t : string) (st : x_ses) : x_ses * res string := (st, Ok t).
Definition x_compile (t : string) : res string := if String.prefix "bad[" t then Err (mkExn "TypeError" []) else Ok t.
Definition x_exec (c : string) (st : x_ses) : x_ses * option exn := (st, None).
Definition x_isa (e : exn) (c : string) : bool := String.eqb (e_cls e) c || (String.eqb (e_cls e) "ModuleNotFoundError" && String.eqb c "ImportError").
Definition x_run := runsource [] x_cmd x_parse x_compile (fun s => s) x_find x_expand x_post x_exec Some x_isa.
Definition x_st (b : @sdict x_fn) : x_ses := mkSes b false [("x"%string, 1)] [] tt.

(** Refuted: any input that ends in a question mark is taken for a special command, and put between parentheses; the parser's exception is not
    caught. Here the input is correct Python, with a comment. *)
Theorem C52_question_mark_refuted : exists source, source = "x = 1  # right?"%string /\ x_parse source = Ok source /\ x_run source (x_st []) = (x_st [], [], Err syntax_error).
Proof. eexists. split; [reflexivity|]. split; vm_compute; reflexivity. Qed.
Print Assumptions C52_question_mark_refuted.
(** Refuted: the macro-imports of an input remain although the input failed. *)
Theorem C52_bindings_kept_refuted : exists source st' e, source = "from mod import macros, m; m[x]"%string /\ x_run source (x_st []) = (st', [WSyntax e], Ok false) /\ s_bind (x_st []) = [] /\ s_bind st' = [("m", ("mod", "m"))]%string.
Proof. eexists _, _, _. split; [reflexivity|]. split; [vm_compute; reflexivity|]. split; reflexivity. Qed.
Print Assumptions C52_bindings_kept_refuted.
(** Refuted: a macro that gives an AST that [compile] rejects with TypeError. *)
Theorem C52_broken_ast_refuted : exists source e, source = "bad[x]"%string /\ e_cls e = "TypeError"%string /\ x_run source (x_st [("bad", ("mod", "bad"))]%string) = (mkSes [("bad", ("mod", "bad"))]%string false [("x"%string, 1)] [("x"%string, 1)] tt, [], Err e).
Proof. eexists _, _. split; [reflexivity|]. split; [|vm_compute; reflexivity]. reflexivity. Qed.
Print Assumptions C52_broken_ast_refuted.
(** Refuted: importing a macro whose qualified name has a dot (a method, or a function made by a function): the text of the import statement
    with which the console updates its variables does not parse. *)
Theorem C52_qualified_name_refuted : exists source st', source = "from mod import macros, k; x"%string /\ x_run source (x_st []) = (st', [], Err syntax_error).
Proof. eexists _, _. split; [reflexivity|]. vm_compute. reflexivity. Qed.
Print Assumptions C52_qualified_name_refuted.

Example C52_example :
  let st := x_st [("m", ("mod", "m"))]%string in
  quiet x_find /\ quiet x_expand /\ quiet x_post /\
  plain_input x_cmd x_isa "m[x]" /\ fails [] x_parse x_compile x_find x_expand x_post "m[x]" st [] (mkExn "MacroExpansionError" []) /\ plain_input x_cmd x_isa "x = (1" /\ x_parse "x = (1" = Err syntax_error /\ isa_any x_isa syntax_error caught = true /\ plain_input x_cmd x_isa "from nowhere import macros, q" /\ fails [] x_parse x_compile x_find x_expand x_post "from nowhere import macros, q" st [] (mkExn "ModuleNotFoundError" []) /\ snd (fst (session [] x_cmd x_parse x_compile (fun s => s) x_find x_expand x_post x_exec Some x_isa ["x"; "m[x]"; "x = (1"; "from nowhere import macros, q"; "macros?"; "x?"]%string st))
    = [WSyntax (mkExn "MacroExpansionError" []); WSyntax syntax_error; WText (mkExn "ModuleNotFoundError" []); WBindings].
Proof.
  cbv zeta. split; [|split; [|split]].
  - intros t st. unfold x_find. destruct (String.prefix _ t); [repeat split|]. destruct (String.prefix _ t); [repeat split|]. destruct (String.prefix _ t); repeat split.
  - intros t st. unfold x_expand. destruct (_ && _); repeat split.
  - intros t st. repeat split.
  - split; [split; [reflexivity|left; eexists; vm_compute; reflexivity]|].
    split; [eapply fa_expand; vm_compute; reflexivity|].
    split; [split; [reflexivity|right; eexists; vm_compute; split; reflexivity]|].
    split; [vm_compute; reflexivity|]. split; [vm_compute; reflexivity|].
    split; [split; [reflexivity|left; eexists; vm_compute; reflexivity]|].
    split; [eapply fa_import; vm_compute; reflexivity|]. vm_compute. reflexivity.
Qed.
