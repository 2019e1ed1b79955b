(** C72: what is shown of a tree that cannot be unparsed. *)
From Verif Require Import Base ShowModel ShowProofs UnparseModel DumpModel DumpSpec DumpProps FallbackModel.
Open Scope string_scope.
Open Scope list_scope.

Lemma cancel (a b c : string) : (a ++ b = a ++ c)%string -> b = c.
Proof. induction a; cbn [String.append]; intros H; [exact H|]. injection H. auto. Qed.

Lemma sep_lines d : sep d = if has_char (ascii_of_nat 10) d then nl else " ".
Proof.
  unfold sep. replace (existsb (Ascii.eqb (ascii_of_nat 10)) (list_ascii_of_string d)) with (has_char (ascii_of_nat 10) d); [reflexivity|].
  induction d as [|c d IH]; [reflexivity|]. cbn [has_char list_ascii_of_string existsb]. now rewrite IH.
Qed.
Section Statements.
  Variable V : Type.
  Variable unparser dump repr type_of : V -> res string.
  Variable str_err type_err : exn -> res string.
  Variable isa : exn -> string -> bool.
  (** An UnparserError is what it is. *)
  Hypothesis isa_unparser_error : forall l, isa (mkExn "UnparserError" l) "UnparserError" = true.
  Notation unparse_or_dump := (unparse_or_dump V unparser dump repr type_of isa).
  Notation unparse_with_fallbacks := (unparse_with_fallbacks V unparser dump repr type_of str_err type_err isa).

  (** A tree that can be unparsed: its source code, from both functions. *)
  Theorem C72_source_code t s : unparse_or_dump t = Ok s -> unparse_with_fallbacks t = Ok s /\ exists s0, unparser t = Ok s0 /\ UnparseModel.strip s0 = s.
  Proof.
    intros H. unfold FallbackModel.unparse_with_fallbacks. rewrite H. split; [reflexivity|]. unfold FallbackModel.unparse_or_dump in H.
    destruct (unparser t) as [s0|e]; [injection H as <-; eauto|]. exfalso. destruct (isa e _); [|discriminate]. destruct (dump t) as [|e1]; [discriminate|]. destruct (isa e1 _); [|discriminate].
    destruct (repr t); [|discriminate]. destruct (type_of t); discriminate.
  Qed.
  (** The only ways in which an exception gets out of [unparse_with_fallbacks]: one that is no [Exception], such as KeyboardInterrupt, out of one of the functions that are
      called with the tree; or an exception while a message is made from another one. *)
  Theorem C72_only_these_escape t e : unparse_with_fallbacks t = Err e ->
    (isa e "Exception" = false /\ (unparser t = Err e \/ dump t = Err e \/ repr t = Err e \/ type_of t = Err e)) \/
    (exists e0, (unparser t = Err e0 \/ dump t = Err e0 \/ repr t = Err e0 \/ type_of t = Err e0) /\ (type_err e0 = Err e \/ str_err e0 = Err e)).
  Proof.
    unfold FallbackModel.unparse_with_fallbacks. destruct (unparse_or_dump t) as [s|e0] eqn:U; [discriminate|]. destruct (isa e0 "UnparserError") eqn:I; [discriminate|]. intros H.
    assert (S : unparser t = Err e0 \/ dump t = Err e0 \/ repr t = Err e0 \/ type_of t = Err e0).
    { unfold FallbackModel.unparse_or_dump in U. destruct (unparser t) as [|e1]; [discriminate|]. destruct (isa e1 "UnparserError"); [|injection U as <-; auto].
      destruct (dump t) as [|e2]; [injection U as <-; unfold unparser_err in I; rewrite isa_unparser_error in I; discriminate|]. destruct (isa e2 "TypeError"); [|injection U as <-; auto].
      destruct (repr t) as [|e3]; [|injection U as <-; auto]. destruct (type_of t); [injection U as <-; unfold unparser_err in I; rewrite isa_unparser_error in I; discriminate|injection U as <-; auto]. }
    destruct (isa e0 "Exception") eqn:X.
    - right. exists e0. split; [exact S|]. destruct (type_err e0) as [|e4]; [|injection H as <-; auto]. destruct (str_err e0); [discriminate|injection H as <-; auto].
    - left. injection H as <-. auto.
  Qed.
  (** So, with exceptions of ordinary classes whose [str] works, the caller always gets a text. *)
  Theorem C72_always_a_text t :
    (forall e, unparser t = Err e \/ dump t = Err e \/ repr t = Err e \/ type_of t = Err e -> isa e "Exception" = true /\ (exists s, type_err e = Ok s) /\ exists s, str_err e = Ok s) ->
    exists s, unparse_with_fallbacks t = Ok s.
  Proof.
    intros H. destruct (unparse_with_fallbacks t) as [s|e] eqn:E; [eauto|]. exfalso. apply C72_only_these_escape in E. destruct E as [[A B]|(e0 & A & B)].
    - apply H in B. destruct B. congruence.
    - apply H in A. destruct A as (_ & [x1 A1] & [x2 A2]). destruct B; congruence.
  Qed.
End Statements.
Print Assumptions C72_source_code.
Print Assumptions C72_only_these_escape.
Print Assumptions C72_always_a_text.

(** ** With the real dump (C54) *)
Section Dumped.
  Variable M : Type.
  Variable read : string -> string.
  Variable printable : ascii -> bool.
  Variable repr_obj : nat -> string.
  Variable attributes : M -> string -> list (string * atom).
  Variable cs : scheme.
  Variable unparser repr type_of : tree M -> res string.
  Variable str_err type_err : exn -> res string.
  Variable isa : exn -> string -> bool.
  Hypothesis isa_unparser_error : forall l, isa (mkExn "UnparserError" l) "UnparserError" = true.
  Hypothesis isa_type_error : isa (mkExn "TypeError" []) "TypeError" = true.
  Notation dump color := (dump printable repr_obj attributes false true color cs).
  Notation unparse_or_dump color := (unparse_or_dump (tree M) unparser (dump color) repr type_of isa).
  Notation unparse_with_fallbacks color := (unparse_with_fallbacks (tree M) unparser (dump color) repr type_of str_err type_err isa).
  Notation fails t := (exists e, unparser t = Err e /\ isa e "UnparserError" = true).

  Lemma failed color t d : fails t -> dump color t = Ok d -> unparse_or_dump color t = Err (unparser_err (dump_header ++ sep d ++ d)) /\ unparse_with_fallbacks color t = Ok (dump_header ++ sep d ++ d)%string.
  Proof.
    intros (e & E & I) D. assert (U : unparse_or_dump color t = Err (unparser_err (dump_header ++ sep d ++ d))) by (unfold FallbackModel.unparse_or_dump; now rewrite E, I, D).
    split; [exact U|]. unfold FallbackModel.unparse_with_fallbacks. rewrite U. unfold unparser_err at 1. rewrite isa_unparser_error. reflexivity.
  Qed.
  (** When the unparser gives up on a tree, nothing of the tree is lost: both functions give the text of an expression whose value is the tree, after one sentence of
      explanation, on the same line only if it is one line. PARTIAL: for the trees of C54, and without colors. *)
  Theorem C72_dump_instead_partial t : fails t -> (forall a, t <> At a) -> dumpable read (shape attributes false t) = true ->
    exists intro d e, unparse_with_fallbacks false t = Ok (intro ++ d)%string /\ unparse_or_dump false t = Err (mkExn "UnparserError" [(intro ++ d)%string]) /\
      intro = ("unparse failed, likely invalid AST (or a new AST node type from a recent Python); here's an AST dump instead:" ++ if has_char (ascii_of_nat 10) d then nl else " ")%string /\ reads_expr read d e /\ value_of e = Some (shape attributes false t).
  Proof.
    intros F A D. destruct (C54_dump_reads_back_partial M read printable repr_obj attributes false true cs t A D) as (d & e & E & R & W). destruct (failed false t d F E) as [U1 U2].
    exists (dump_header ++ sep d)%string, d, e. rewrite U1, U2. rewrite sapp_assoc. split; [reflexivity|]. split; [reflexivity|]. split; [now rewrite <- sep_lines|auto].
  Qed.
  (** Two trees that get the same text are the same. *)
  Theorem C72_messages_differ_partial t t' s : fails t -> fails t' -> (forall a, t <> At a) -> (forall a, t' <> At a) ->
    dumpable read (shape attributes false t) = true -> dumpable read (shape attributes false t') = true ->
    unparse_with_fallbacks false t = Ok s -> unparse_with_fallbacks false t' = Ok s -> shape attributes false t = shape attributes false t'.
  Proof.
    intros F F' A A' D D' S S'. destruct (C54_dump_reads_back_partial M read printable repr_obj attributes false true cs t A D) as (d & e & E & R & W).
    destruct (C54_dump_reads_back_partial M read printable repr_obj attributes false true cs t' A' D') as (d' & e' & E' & R' & W').
    rewrite (proj2 (failed false t d F E)) in S. rewrite (proj2 (failed false t' d' F' E')) in S'.
    assert (X : d = d').
    { assert (K : (sep d ++ d = sep d' ++ d')%string) by (apply (cancel dump_header); congruence). unfold sep, nl in K. destruct (existsb _ _), (existsb _ _); cbn [String.append] in K; now injection K. }
    subst d'. eapply (C54_dump_injective_partial M read printable repr_obj attributes false true cs); eauto.
  Qed.
  (** With colors, as in error messages: the same text, with terminal escape sequences added. *)
  Theorem C72_dump_in_color_partial t d : fails t -> codes (reset_all cs) -> codes (nodetype cs) -> codes (fieldname cs) -> codes (barevalue cs) ->
    dumpable read (shape attributes false t) = true -> dump false t = Ok d -> no_esc d = true ->
    exists d', unparse_with_fallbacks true t = Ok (dump_header ++ sep d' ++ d')%string /\ DumpSpec.strip false d' = (d, false).
  Proof.
    intros F C1 C2 C3 C4 D E N. destruct (C54_color_partial M read printable repr_obj attributes false true cs t d C1 C2 C3 C4 D E N) as (d' & E' & S).
    exists d'. split; [apply (failed true t d' F E')|exact S].
  Qed.
  (** What is neither a node nor a list: its type and its repr. *)
  Theorem C72_not_a_tree a color r ty : fails (At a) -> repr (At a) = Ok r -> type_of (At a) = Ok ty ->
    unparse_with_fallbacks color (At a) = Ok ("unparse failed, fallback AST dump failed, likely not an AST; here's the type and repr instead:" ++ sep r ++ ty ++ sep r ++ r)%string.
  Proof.
    intros (e & E & I) R T. unfold FallbackModel.unparse_with_fallbacks, FallbackModel.unparse_or_dump. rewrite E, I. cbn [DumpModel.dump]. rewrite isa_type_error, R, T. unfold unparser_err. rewrite isa_unparser_error. reflexivity.
  Qed.
End Dumped.
Print Assumptions C72_dump_instead_partial.
Print Assumptions C72_messages_differ_partial.
Print Assumptions C72_dump_in_color_partial.
Print Assumptions C72_not_a_tree.

(** ** Cases *)
Definition x_isa (e : exn) (c : string) : bool := String.eqb (e_cls e) c || String.eqb c "Exception".
Definition x_text (e : exn) : res string := Ok (e_cls e).
(** An unparser that does not know a node type of a recent Python. *)
Definition x_unparser (t : tree nat) : res string := match t with Nd _ "Name" _ => Ok "x" | At _ => Err (mkExn "UnparserError" ["not an AST"]) | _ => Err (mkExn "UnparserError" ["don't know how"]) end.
Definition x_new : tree nat := Nd 1 "TemplateStr" [("values", Ls [DumpProps.name 2 "x"])].
Notation x_with := (unparse_with_fallbacks (tree nat) x_unparser (DumpModel.dump ascii_only (fun _ => "") where_ false true false DumpProps.ansi) (fun _ => Ok "42") (fun _ => Ok "<class 'int'>") x_text x_text x_isa).
Example C72_case : (forall l, x_isa (mkExn "UnparserError" l) "UnparserError" = true) /\ x_isa (mkExn "TypeError" []) "TypeError" = true /\
  dumpable (fun r => r) (shape where_ false x_new) = true /\
  x_with x_new = Ok (dump_header ++ nl ++ "TemplateStr(values=[Name(id='x'," ++ nl ++ "                         ctx=Load())])")%string /\
  x_with (At (AInt 42)) = Ok (repr_header ++ " <class 'int'> 42")%string /\ x_with (DumpProps.name 1 "x") = Ok "x".
Proof. repeat split; vm_compute; reflexivity. Qed.

(** ** The documentation of [unparse] *)
(** [unparse] is documented to raise UnparserError on invalid input. REFUTED: an empty set display is an AssertionError, whatever the fallbacks would give; and
    [unparse_with_fallbacks] reports an internal error, with nothing of the tree. *)
Theorem C72_other_exception_refuted : exists t, forall printable dump repr type_of,
  let unparser := fun t => cat [unp_top printable t; w nl] in
  unparse_or_dump top unparser dump repr type_of x_isa t = Err assertion_error /\
  unparse_with_fallbacks top unparser dump repr type_of x_text x_text x_isa t = Ok "Internal error in unparser: AssertionError: AssertionError".
Proof. exists (TExpr (ESet [])). intros. split; reflexivity. Qed.
Print Assumptions C72_other_exception_refuted.
(** That the message says the AST is likely invalid is wrong for [{**d}], which is Python. *)
Example valid_dict : forall printable dump repr type_of d, dump (TExpr (EDict [(None, EName "d")])) = Ok d ->
  unparse_or_dump top (fun t => cat [unp_top printable t; w nl]) dump repr type_of x_isa (TExpr (EDict [(None, EName "d")])) = Err (unparser_err (dump_header ++ sep d ++ d)).
Proof. intros printable dump repr type_of d D. unfold unparse_or_dump. cbn. now rewrite D. Qed.
