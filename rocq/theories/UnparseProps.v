(** C47: text made from an expression, read by Python's grammar (PyGrammar.v), gives the expression back. *)
From Coq Require Import NArith.
From Verif Require Import Base UnparseModel PyGrammar UnparseSpec UnparseLex UnparseToks UnparseText UnparseParse UnparseEnds.
Open Scope string_scope.
Open Scope list_scope.

(** PARTIAL: for every tree that [ok] allows, whatever its size, the text is read as the same tree; [printable] and [read] stand for
    any str.isprintable and any reading of float literals. f-strings are read as in Python 3.12. Missing: double-starred items of dict displays,
    subscripts by an empty tuple, f-strings with a brace or a backslash in their text or at the beginning of a field (all refuted below), trees
    with AST markers. *)
Theorem C47_expression_round_trip_partial : forall read printable e, ok read e = true ->
  exists s, unparse printable (TExpr e) = Ok s /\ parses_expr read s e.
Proof.
  intros read printable e Ho. destruct (unparse_expr read printable e Ho) as (c & s & Hs & _ & _ & Hu). exists (String c s). split; [exact Hu|].
  destruct (text_ok read printable e Ho) as (s' & Hs' & Hr). assert (s' = String c s) as -> by congruence.
  destruct (Hr "") as [Hst _]; [unfold FE; destruct (is_intc e); reflexivity|]. rewrite sapp_nil in Hst. exists (toks e). split; [now apply steps_lex|].
  assert (H := reads_at read e LExpr [] Ho eq_refl). rewrite app_nil_r in H. exact H.
Qed.
Print Assumptions C47_expression_round_trip_partial.

(** A reading of floats that is right for the literals below. *)
Definition some_read (s : string) : string := if String.eqb s "1e309" then "inf" else s.
(** Unary and binary operators, a conditional, a lambda with a star argument, slices, a double-starred argument, an assignment expression. *)
Definition big_example : expr :=
  EIfExp (EUnary USub (EBinOp (EName "x") Pow (EConst (CInt 2))))
    (EBool And [EUnary Not (EBool Or [EName "a"; EName "b"]); EName "c"])
    (EAttr (ECall (ELambda (Args [] [] (Some (Arg "p" None)) [Arg "k" None] [Some (EConst (CNum "inf"))] None [])
                       (ESub (EName "p") (ETuple [ESlice (Some (EConst (CInt 1))) None None; EConst CEllipsis])))
               [] [Kw None (EName "d"); Kw (Some "z") (ENamed (EName "y") (EConst (CStr false "it's")))]) "real").
Example C47_example : ok some_read big_example = true /\
  unparse (fun _ => false) (TExpr big_example) =
    Ok ("((-(x ** 2)) if ((not (a or b)) and c) else (lambda *p, k=1e309: p[1:, ...])(**d, z=(y := " ++ one dq ++ "it's" ++ one dq ++ ")).real)")%string.
Proof. vm_compute. auto. Qed.

(** There is no whitespace around the text, whatever is unparsed. *)
Definition blank_char (c : ascii) : Prop := In (nat_of_ascii c) [9; 10; 11; 12; 13; 28; 29; 30; 31; 32; 133; 160].
Lemma blank_space c : blank_char c -> is_space c = true.
Proof. unfold blank_char, is_space. intros H. repeat (destruct H as [H|H]; [rewrite <- H; reflexivity|]). destruct H. Qed.
Lemma lstrip_first s c r : lstrip s = String c r -> is_space c = false.
Proof. induction s as [|d s IH]; [discriminate|]. cbn [lstrip]. destruct (is_space d) eqn:E; [exact IH|]. intros H. inversion H; subst. exact E. Qed.
Lemma rstrip_last : forall s r c, rstrip s = (r ++ String c "")%string -> is_space c = false.
Proof.
  induction s as [|d s IH]; intros r c H; cbn [rstrip] in H; [destruct r; discriminate|]. destruct (rstrip s) as [|e t] eqn:E.
  - destruct (is_space d) eqn:Ed; destruct r as [|x r]; try discriminate; [inversion H; subst; exact Ed|destruct r; discriminate].
  - destruct r as [|x r]; [discriminate|]. inversion H. apply (IH r). assumption.
Qed.
Lemma rstrip_first s c r : rstrip s = String c r -> exists r', s = String c r'.
Proof. destruct s as [|d s]; [discriminate|]. cbn [rstrip]. destruct (rstrip s); [destruct (is_space d); [discriminate|]|]; intros H; inversion H; eauto. Qed.
Theorem C47_no_space_around : forall printable t s, unparse printable t = Ok s ->
  (forall c r, s = String c r -> ~ blank_char c) /\ (forall r c, s = (r ++ String c "")%string -> ~ blank_char c).
Proof.
  intros printable t s H. unfold unparse in H. destruct (cat _) as [x|]; [|discriminate]. inversion H as [E]. unfold strip in E. split; intros.
  - subst s. destruct (rstrip_first _ _ _ H0) as [r' E']. intros B. apply blank_space in B. rewrite (lstrip_first _ _ _ E') in B. discriminate.
  - subst s. intros B. apply blank_space in B. rewrite (rstrip_last _ _ _ H0) in B. discriminate.
Qed.
Print Assumptions C47_no_space_around.
Example C47_no_space_example : exists s, unparse (fun _ => false) (TStmts [SExpr (EName "x"); SExpr (EName "y")]) = Ok s /\ s = ("x" ++ String "010" "y")%string.
Proof. eexists. split; vm_compute; reflexivity. Qed.

(** An f-string with quotes in its text, a conversion, a format specification with a field that has a specification of its own, a lambda, an f-string in a field. *)
Definition fstring_example : expr :=
  EJoined [EConst (CStr false "it's "); EFormatted (ESub (EName "d") (EConst (CStr false "k"))) 114 (Some (EJoined [EConst (CStr false ">"); EFormatted (EName "w") (-1) (Some (EJoined [EConst (CStr false "x")]))]));
           EFormatted (ELambda (Args [] [Arg "a" None] None [] [] None []) (EName "a")) (-1) None; EConst (CStr false (String (ascii_of_nat 10) "!")); EFormatted (EJoined [EFormatted (EName "z") 115 None]) (-1) None].
Example C47_fstring_example : ok some_read fstring_example = true /\
  unparse (fun _ => false) (TExpr fstring_example) = Ok ("f'it" ++ String bs "'s {d['k']!r:>{w:x}}{(lambda a: a)}" ++ String bs "n!{f'{z!s}'}'")%string.
Proof. vm_compute. auto. Qed.

(** Refuted: text that Python reads as an expression, whose tree the unparser cannot write. *)
Theorem C47_dict_unpacking_refuted : exists s e, forall read printable,
  parses_expr read s e /\ unparse printable (TExpr e) = Err unparser_error.
Proof.
  exists "{**a}", (EDict [(None, EName "a")]). intros read printable. split; [|reflexivity].
  eexists. split; [reflexivity|]. exists 100. intros n Hn. replace n with (100 + (n - 100)) by lia. generalize (n - 100). clear. intros n. vm_compute. reflexivity.
Qed.
Print Assumptions C47_dict_unpacking_refuted.
(** Refuted: text that Python reads as an expression, whose tree is written as text that is no expression. *)
Theorem C47_empty_subscript_refuted : exists s e s', forall read printable,
  parses_expr read s e /\ unparse printable (TExpr e) = Ok s' /\ forall e', ~ parses_expr read s' e'.
Proof.
  exists "a[()]", (ESub (EName "a") (ETuple [])), "a[]". intros read printable. split; [|split; [reflexivity|]].
  - eexists. split; [reflexivity|]. exists 100. intros n Hn. replace n with (100 + (n - 100)) by lia. generalize (n - 100). clear. intros n. vm_compute. reflexivity.
  - intros e' (ts & Hl & N & H). vm_compute in Hl. injection Hl as <-. specialize (H (100 + N) ltac:(lia)). clear - H. vm_compute in H. discriminate.
Qed.
Print Assumptions C47_empty_subscript_refuted.
(** Refuted: an f-string whose text has (doubled) braces around x. It is written without the doubling, and so read as an f-string with the field x. *)
Theorem C47_fstring_refuted : exists s e s' e', e <> e' /\ forall read printable,
  parses_expr read s e /\ unparse printable (TExpr e) = Ok s' /\ parses_expr read s' e'.
Proof.
  exists "f'{{x}}'", (EJoined [EConst (CStr false "{x}")]), "f'{x}'", (EJoined [EFormatted (EName "x") (-1) None]). split; [discriminate|]. intros read printable.
  split; [|split; [reflexivity|]];
    (eexists; split; [reflexivity|]; exists 100; intros n Hn; replace n with (100 + (n - 100)) by lia; generalize (n - 100); clear; intros n; vm_compute; reflexivity).
Qed.
Print Assumptions C47_fstring_refuted.
(** Refuted: a field whose expression is a set display. It is written with the two braces together, and so read as text. *)
Theorem C47_fstring_set_refuted : exists s e s' e', e <> e' /\ forall read printable,
  parses_expr read s e /\ unparse printable (TExpr e) = Ok s' /\ parses_expr read s' e'.
Proof.
  exists "f'{ {x, y} }'", (EJoined [EFormatted (ESet [EName "x"; EName "y"]) (-1) None]), "f'{{x, y}}'", (EJoined [EConst (CStr false "{x, y}")]).
  split; [discriminate|]. intros read printable. split; [|split; [reflexivity|]];
    (eexists; split; [reflexivity|]; exists 100; intros n Hn; replace n with (100 + (n - 100)) by lia; generalize (n - 100); clear; intros n; vm_compute; reflexivity).
Qed.
Print Assumptions C47_fstring_set_refuted.
(** Refuted: an f-string with the text backslash, t. The backslash is not escaped; what is read from the text has a tab. *)
Theorem C47_fstring_backslash_refuted : exists s e s' e', e <> e' /\ forall read printable,
  parses_expr read s e /\ unparse printable (TExpr e) = Ok s' /\ parses_expr read s' e'.
Proof.
  exists ("f'" ++ String bs (String bs "t'"))%string, (EJoined [EConst (CStr false (String bs "t"))]), ("f'" ++ String bs "t'")%string, (EJoined [EConst (CStr false (one (ascii_of_nat 9)))]).
  split; [discriminate|]. intros read printable. split; [|split; [reflexivity|]];
    (eexists; split; [reflexivity|]; exists 100; intros n Hn; replace n with (100 + (n - 100)) by lia; generalize (n - 100); clear; intros n; vm_compute; reflexivity).
Qed.
Print Assumptions C47_fstring_backslash_refuted.
