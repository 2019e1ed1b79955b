(** C54: what [dump] shows of a tree. *)
From Verif Require Import Base UnparseModel PyGrammar PyStmt UnparseSpec StmtSpec UnparseLex UnparseToks UnparseText StmtText UnparseParse DumpModel DumpSpec DumpProofs DumpLayout.
Open Scope string_scope.
Open Scope list_scope.

(** The text is an expression whose value is the tree: nothing is lost, on one line or on several, with attributes or without.
    Missing from the full claim: non-finite floats, complex numbers with a real part, and objects that are no literals (see the
    refutation). *)
Theorem C54_dump_reads_back_partial : forall (M : Type) read printable repr_obj (attributes : M -> string -> list (string * atom)) include_attributes multiline cs t,
  (forall a, t <> At a) -> dumpable read (shape attributes include_attributes t) = true ->
  exists s e, dump printable repr_obj attributes include_attributes multiline false cs t = Ok s /\ reads_expr read s e /\ value_of e = Some (shape attributes include_attributes t).
Proof.
  intros M read printable repr_obj attributes include_attributes multiline cs t Ht Hd. set (u := shape attributes include_attributes t) in *.
  exists (recurse printable repr_obj (fun (_ : unit) (_ : string) => @nil (string * atom)) false multiline false cs 0 u), (expr_of u).
  split; [|split; [|now apply (value_tree read)]].
  - unfold dump. rewrite recurse_shape. destruct t; try reflexivity. exfalso. now apply (Ht a).
  - exists (dtoks multiline 0 u). split.
    + apply steps_lex. assert (X := recurse_toks read printable repr_obj multiline cs u 0 Hd "" eq_refl). rewrite sapp_nil in X. apply X.
    + assert (J := join_dtoks multiline u 0 0 []). rewrite app_nil_r in J. rewrite J. cbn [join_lines].
      exact (reads_tree read u Hd LExpr [] (or_introl eq_refl) eq_refl).
Qed.
Print Assumptions C54_dump_reads_back_partial.

(** Two trees with the same dump are the same tree. *)
Theorem C54_dump_injective_partial : forall (M : Type) read printable repr_obj (attributes : M -> string -> list (string * atom)) include_attributes multiline cs t t' s,
  dumpable read (shape attributes include_attributes t) = true -> dumpable read (shape attributes include_attributes t') = true ->
  dump printable repr_obj attributes include_attributes multiline false cs t = Ok s -> dump printable repr_obj attributes include_attributes multiline false cs t' = Ok s ->
  shape attributes include_attributes t = shape attributes include_attributes t'.
Proof.
  intros M read printable repr_obj attributes include_attributes multiline cs t t' s Hd Hd' H H'.
  assert (N : forall a, t <> At a) by (intros a ->; discriminate). assert (N' : forall a, t' <> At a) by (intros a ->; discriminate).
  destruct (C54_dump_reads_back_partial M read printable repr_obj attributes include_attributes multiline cs t N Hd) as (s1 & e1 & D1 & (ts1 & L1 & n1 & P1) & V1).
  destruct (C54_dump_reads_back_partial M read printable repr_obj attributes include_attributes multiline cs t' N' Hd') as (s2 & e2 & D2 & (ts2 & L2 & n2 & P2) & V2).
  assert (s1 = s) as -> by congruence. assert (s2 = s) as -> by congruence. assert (ts2 = ts1) as -> by congruence.
  specialize (P1 (n1 + n2) ltac:(lia)). specialize (P2 (n1 + n2) ltac:(lia)). congruence.
Qed.
Print Assumptions C54_dump_injective_partial.

(** On several lines, every line is indented to the column that follows the innermost open bracket; and all brackets are closed. *)
Theorem C54_layout_partial : forall (M : Type) read printable repr_obj (attributes : M -> string -> list (string * atom)) include_attributes multiline cs t s,
  dumpable read (shape attributes include_attributes t) = true ->
  dump printable repr_obj attributes include_attributes multiline false cs t = Ok s -> aligned s /\ (multiline = false -> has_char (ascii_of_nat 10) s = false).
Proof.
  intros M read printable repr_obj attributes include_attributes multiline cs t s Hd H. unfold dump in H.
  assert (E : s = recurse printable repr_obj (fun (_ : unit) (_ : string) => @nil (string * atom)) false multiline false cs 0 (shape attributes include_attributes t)).
  { rewrite <- recurse_shape. destruct t; congruence. }
  rewrite E. clear E H. split.
  - destruct (recurse_LO read printable repr_obj multiline cs _ 0 Hd [] 0 (fun _ => eq_refl)) as [col X]. exists col. exact X.
  - intros ->. apply (recurse_one_line read). exact Hd.
Qed.
Print Assumptions C54_layout_partial.

(** Colors only add escape sequences. *)
Theorem C54_color_partial : forall (M : Type) read printable repr_obj (attributes : M -> string -> list (string * atom)) include_attributes multiline cs t s,
  codes (reset_all cs) -> codes (nodetype cs) -> codes (fieldname cs) -> codes (barevalue cs) ->
  dumpable read (shape attributes include_attributes t) = true ->
  dump printable repr_obj attributes include_attributes multiline false cs t = Ok s -> no_esc s = true ->
  exists s', dump printable repr_obj attributes include_attributes multiline true cs t = Ok s' /\ strip false s' = (s, false).
Proof.
  intros M read printable repr_obj attributes include_attributes multiline cs t s H1 H2 H3 H4 Hd H He. unfold dump in *.
  assert (E : s = recurse printable repr_obj (fun (_ : unit) (_ : string) => @nil (string * atom)) false multiline false cs 0 (shape attributes include_attributes t)).
  { rewrite <- recurse_shape. destruct t; congruence. }
  rewrite E in He |- *. assert (X := color_shows read printable repr_obj multiline cs H1 H2 H3 H4 _ 0 Hd He). unfold shows in X. rewrite <- X, <- recurse_shape.
  exists (recurse printable repr_obj attributes include_attributes multiline true cs 0 t). split; [|reflexivity]. destruct t; congruence.
Qed.
Print Assumptions C54_color_partial.

(** Only nodes and lists are accepted. *)
Theorem C54_rejects_other_values : forall (M : Type) printable repr_obj (attributes : M -> string -> list (string * atom)) include_attributes multiline color cs t,
  (exists s, dump printable repr_obj attributes include_attributes multiline color cs t = Ok s) <-> forall a, t <> At a.
Proof.
  intros. split.
  - intros [s H] a ->. discriminate.
  - intros H. destruct t; [eexists; reflexivity..|]. exfalso. now apply (H a).
Qed.
Print Assumptions C54_rejects_other_values.

(** A tree with an infinite float (the parser makes one from the literal 1e999) does not read back: the dump says inf, a name. *)
Definition constant (a : atom) : tree unit := Nd tt "Constant" [("value", At a); ("kind", At ANone)].
Theorem C54_infinity_refuted : exists t s, forall read printable repr_obj cs,
  dump printable repr_obj (fun _ _ => []) false true false cs t = Ok s /\ forall e, reads_expr read s e -> value_of e <> Some t.
Proof.
  exists (constant (AFloat "inf")), ("Constant(value=inf," ++ nl ++ "         kind=None)")%string. intros read printable repr_obj cs. split; [reflexivity|]. intros e (ts & Hl & N & H). vm_compute in Hl. injection Hl as <-.
  specialize (H (100 + N) ltac:(lia)). clear - H. vm_compute in H. injection H as <-. discriminate.
Qed.
Print Assumptions C54_infinity_refuted.

(** ** A case *)
Definition name (m : nat) (x : string) : tree nat := Nd m "Name" [("id", At (AStr x)); ("ctx", Nd 0 "Load" [])].
Definition call : tree nat :=
  Ls [Nd 3 "Expr" [("value", Nd 3 "Call" [("func", name 3 "f"); ("args", Ls [name 5 "x"; Nd 8 "Constant" [("value", At (AStr "it's [")); ("kind", At ANone)]; Nd 9 "FormattedValue" [("value", name 9 "y"); ("conversion", At (AInt (-1))); ("format_spec", At ANone)]]); ("keywords", Ls [])])]].
Definition where_ (m : nat) (k : string) : list (string * atom) := if String.eqb k "Load" then [] else [("lineno", AInt 1); ("col_offset", AInt (Z.of_nat m)); ("end_lineno", ANone)].
Definition ansi : scheme := Scheme (String esc "[0m") (String esc "[1m") (String esc "[33m") (String esc "[32m").
Definition ascii_only (c : ascii) : bool := Nat.ltb (nat_of_ascii c) 127.

Example C54_case_text : dump ascii_only (fun _ => "") where_ false true false ansi call = Ok
  ("[Expr(value=Call(func=Name(id='f'," ++ nl ++
   "                           ctx=Load())," ++ nl ++
   "                 args=[Name(id='x'," ++ nl ++
   "                            ctx=Load())," ++ nl ++
   "                       Constant(value=" ++ String dq "it's [" ++ String dq "," ++ nl ++
   "                                kind=None)," ++ nl ++
   "                       FormattedValue(value=Name(id='y'," ++ nl ++
   "                                                 ctx=Load())," ++ nl ++
   "                                      conversion=-1," ++ nl ++
   "                                      format_spec=None)]," ++ nl ++
   "                 keywords=[]))]")%string.
Proof. vm_compute. reflexivity. Qed.
Example C54_case_covered : dumpable (fun r => r) (shape where_ true call) = true /\ dumpable (fun r => r) (shape where_ false call) = true.
Proof. vm_compute. auto. Qed.
Example C54_case_colors : codes (reset_all ansi) /\ codes (nodetype ansi) /\ codes (fieldname ansi) /\ codes (barevalue ansi) /\
  exists s, dump ascii_only (fun _ => "") where_ true true false ansi call = Ok s /\ no_esc s = true /\ dump ascii_only (fun _ => "") where_ true true true ansi call <> Ok s.
Proof. repeat split; try reflexivity. eexists. split; [reflexivity|]. split; [reflexivity|]. vm_compute. discriminate. Qed.
Example C54_case_attributes : dump ascii_only (fun _ => "") where_ true false false ansi (name 7 "x") = Ok "Name(id='x', ctx=Load(), lineno=1, col_offset=7, end_lineno=None)".
Proof. vm_compute. reflexivity. Qed.
