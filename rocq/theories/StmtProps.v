(** C48, C49: text made from a module, read by Python's grammar (PyStmt.v), gives the module back; the lines are indented as the statements are
    nested; what is not written, and what raises. *)
From Coq Require Import NArith.
From Verif Require Import Base UnparseModel PyGrammar PyStmt UnparseSpec StmtSpec UnparseLex UnparseToks StmtToks UnparseText StmtText StmtLayout StmtBlock StmtEnds UnparseTotal.
Open Scope string_scope.
Open Scope list_scope.

(** ** Reading back *)
Lemma module_lex read printable l : forallb (ok_stmt read) l = true ->
  exists u, unparse printable (TModule l) = Ok u /\ exists ts, (ts = flat_map (stoks "if" 0) l \/ TNl 0 :: ts = flat_map (stoks "if" 0) l \/ l = []) /\
    lex read (nl ++ u) = Some ts /\ layout [0] ts = Some (flat_map (ltoks "if") l).
Proof.
  intros Ho. destruct l as [|s0 l0] eqn:El.
  { exists "". split; [reflexivity|]. exists [TNl 0]. split; [auto|]. split; reflexivity. }
  rewrite <- El in *. assert (Hn : nonempty l = true) by now rewrite El.
  destruct (unparse_module read printable l Hn Ho) as (u & Hu & Hc). exists u. split; [exact Hu|].
  assert (Hy := layout_module read l Ho). destruct (module_text read printable l Ho) as (s & Hs & Hr).
  destruct (Hr "" eq_refl) as [Hst _]. rewrite sapp_nil in Hst. apply steps_lex in Hst.
  destruct Hc as [Hc|Hc]; rewrite Hc in Hs; apply (f_equal (fun r => match r with Ok x => x | Err _ => "" end)) in Hs; cbn beta iota in Hs; rewrite <- Hs in Hst; clear Hr.
  - exists (flat_map (stoks "if" 0) l). auto.
  - destruct (blank_first read u _ _ Hst Hy) as (ts' & H1 & H2). exists ts'. split; [|auto]. right. left.
    change (lex read (nl ++ nl ++ u)) with (match lex read (nl ++ u) with Some l => Some (TNl 0 :: l) | None => None end) in Hst.
    rewrite H1 in Hst. congruence.
Qed.

(** PARTIAL: for every module that [ok_stmt] allows, whatever its length and nesting, the text is read as the same statements, so every block,
    every elif and else, every handler and every case belongs to what it belonged to, and every pattern is the same. Missing: type parameters of functions
    and classes (C49_type_parameters_refuted), a with statement whose only item is a tuple, an as or or pattern within an as or or pattern, a mapping pattern with
    a negative or complex key, a complex number with a negative real part as a pattern (refuted below); AST markers. *)
Theorem C48_module_round_trip_partial : forall read printable l, forallb (ok_stmt read) l = true ->
  exists s, unparse printable (TModule l) = Ok s /\ parses_module read s l.
Proof.
  intros read printable l Ho. destruct (module_lex read printable l Ho) as (u & Hu & ts & _ & Hl & Hy). exists u. split; [exact Hu|].
  exists ts, (flat_map (ltoks "if") l). repeat split; auto. exact (module_ok read l Ho).
Qed.
Print Assumptions C48_module_round_trip_partial.

(** ** Indentation *)
(** The nesting of the lines of a statement that stands at depth [d]: decorators, first line, else, except, finally at [d], the blocks one deeper.
    An if that is all of an else part is written elif, at the same depth. *)
Fixpoint depths (d : nat) (s : stmt) : list nat :=
  let block := flat_map (depths (S d)) in
  let part l := match l with [] => [] | _ => d :: block l end in
  match s with
  | STry _ b hs o f => d :: block b ++ flat_map (fun h => match h with Handler _ _ b => d :: block b end) hs ++ part o ++ part f
  | SClass _ _ _ _ b ds | SFunction _ _ _ _ b ds _ => map (fun _ => d) ds ++ d :: block b
  | SFor _ _ _ b o | SWhile _ b o => d :: block b ++ part o
  | SIf _ b o => d :: block b ++ match o with [SIf _ _ _] => flat_map (depths d) o | _ => part o end
  | SWith _ _ b => d :: block b
  | SMatch _ cs => d :: flat_map (fun c => match c with Case _ _ b => S d :: flat_map (depths (S (S d))) b end) cs
  | _ => [d]
  end.
(** How far the lines that are not empty are indented, as Python's lexer finds them. *)
Fixpoint indents (ts : list tok) : list nat :=
  match ts with
  | TNl k :: r => if line_ends r then indents r else k :: indents r
  | _ :: r => indents r
  | [] => []
  end.

Lemma indents_plain ts rest : pl ts = true -> indents (ts ++ rest) = indents rest.
Proof. induction ts as [|t ts IH]; [reflexivity|]. cbn [pl forallb app]. intros H. apply andb_true_iff in H as [Ht H]. destruct t; try discriminate Ht; apply IH, H. Qed.
Lemma indents_line i ts rest : pl ts = true -> nonempty ts = true -> indents (line i ts ++ rest) = 4 * i :: indents rest.
Proof.
  intros Hp Hn. unfold line. cbn [app indents]. replace (line_ends (ts ++ rest)) with false; [now rewrite indents_plain|].
  destruct ts as [|t ts]; [discriminate Hn|]. cbn [pl forallb] in Hp. apply andb_true_iff in Hp as [Hp _]. destruct t; try discriminate Hp; reflexivity.
Qed.
Lemma indents_blank i ts rest : indents (TNl 0 :: line i ts ++ rest) = indents (line i ts ++ rest).
Proof. reflexivity. Qed.

Section Indents.
  Variable read : string -> string.
  Notation ok_stmt := (ok_stmt read).
  Notation four := (map (fun n => 4 * n)).
  Section Step.
    Variable N : nat.
    Hypothesis IH : forall s kw i rest, ssize s < N -> ok_stmt s = true -> indents (stoks kw i s ++ rest) = four (depths i s) ++ indents rest.
    Lemma ind_stmts l kw i rest : list_sum (map ssize l) < N -> forallb ok_stmt l = true ->
      indents (flat_map (stoks kw i) l ++ rest) = four (flat_map (depths i) l) ++ indents rest.
    Proof.
      unfold list_sum. intros Hs Ho. induction l as [|s l IHl]; [reflexivity|]. cbn in Hs. cbn [forallb] in Ho. apply andb_true_iff in Ho as [Os Ho].
      cbn [flat_map]. rewrite map_app, <- !app_assoc, IH, IHl; auto; lia.
    Qed.
    Lemma ind_block ts l i rest : pl ts = true -> nonempty ts = true -> list_sum (map ssize l) < N -> forallb ok_stmt l = true ->
      indents (line i ts ++ flat_map (stoks "if" (S i)) l ++ rest) = 4 * i :: four (flat_map (depths (S i)) l) ++ indents rest.
    Proof. intros. rewrite indents_line, ind_stmts; auto. Qed.
    Lemma ind_part k l i rest : list_sum (map ssize l) < N -> forallb ok_stmt l = true ->
      indents (match l with [] => [] | _ => line i [TKw k; TOp ":"] ++ flat_map (stoks "if" (S i)) l end ++ rest)
      = four (match l with [] => [] | _ => i :: flat_map (depths (S i)) l end) ++ indents rest.
    Proof.
      intros Hs Ho. destruct l as [|s l]; [reflexivity|]. rewrite <- app_assoc. now rewrite (ind_block [TKw k; TOp ":"] (s :: l)).
    Qed.
    Lemma ind_handlers star hs i rest : list_sum (map hsize hs) < N -> forallb (ok_handler read star) hs = true ->
      indents (flat_map (hstoks star i) hs ++ rest)
      = four (flat_map (fun h => match h with Handler _ _ b => i :: flat_map (depths (S i)) b end) hs) ++ indents rest.
    Proof.
      unfold list_sum. intros Hs Ho. induction hs as [|[t x b] hs IHl]; [reflexivity|]. cbn in Hs. cbn [forallb] in Ho. apply andb_true_iff in Ho as [Os Ho].
      cbn [flat_map hstoks]. cbn [ok_handler] in Os. apply andb_true_iff in Os as [Os Ob]. apply andb_true_iff in Os as [_ Nb].
      rewrite <- !app_assoc, (ind_block (handler_toks star (Handler t x b)) b); auto; [|apply handler_plain|unfold list_sum in *; lia].
      cbn [app map]. rewrite map_app, <- app_assoc, IHl; auto. lia.
    Qed.
    Lemma ind_cases cs i rest : list_sum (map csize cs) < N -> forallb (ok_case read) cs = true ->
      indents (flat_map (cstoks i) cs ++ rest) = four (flat_map (fun c => match c with Case _ _ b => i :: flat_map (depths (S i)) b end) cs) ++ indents rest.
    Proof.
      unfold list_sum. intros Hs Ho. induction cs as [|[p g b] cs IHl]; [reflexivity|]. cbn in Hs. cbn [forallb] in Ho. apply andb_true_iff in Ho as [Os Ho].
      cbn [flat_map cstoks]. cbn [ok_case] in Os. apply andb_true_iff in Os as [Os Ob].
      rewrite <- !app_assoc, (ind_block (case_toks (Case p g b)) b); auto; [|apply case_plain|unfold list_sum in *; lia].
      cbn [app map]. rewrite map_app, <- app_assoc, IHl; auto. lia.
    Qed.
    Lemma ind_decos ds i rest : indents (flat_map (fun e => line i (deco_toks e)) ds ++ rest) = four (map (fun _ => i) ds) ++ indents rest.
    Proof. induction ds as [|e ds IHd]; [reflexivity|]. cbn [flat_map map]. rewrite <- !app_assoc. rewrite indents_line, IHd; auto. apply pl_deco. Qed.
    Lemma ind_defs ds ts i rest : indents (TNl 0 :: flat_map (fun e => line i (deco_toks e)) ds ++ line i ts ++ rest) =
      indents (flat_map (fun e => line i (deco_toks e)) ds ++ line i ts ++ rest).
    Proof. destruct ds; reflexivity. Qed.
    Lemma ind_step s kw i rest : ssize s <= N -> ok_stmt s = true -> indents (stoks kw i s ++ rest) = four (depths i s) ++ indents rest.
    Proof.
      intros Hs Ho. assert (Hp := head_plain kw s). assert (Hn := head_nonempty read kw s Ho).
      destruct s; cbn [stoks depths]; try (cbn [map app]; now apply indents_line); cbn [ssize] in Hs; cbn [StmtSpec.ok_stmt] in Ho;
        try discriminate Ho; repeat (apply andb_true_iff in Ho as [Ho ?]); cbn [app]; rewrite <- ?app_assoc; cbn [app]; rewrite ?ind_defs, ?ind_decos;
        try (rewrite indents_line, ind_cases by (auto; lia); reflexivity);
        rewrite ind_block by (auto; lia); repeat (rewrite map_app || cbn [map]); cbn [app]; rewrite <- ?app_assoc; cbn [app]; rewrite <- ?app_assoc; try reflexivity.
      - (* Try *) rewrite ind_handlers by (auto; lia). rewrite ind_part by (auto; lia). now rewrite ind_part by (auto; lia).
      - (* For *) now rewrite ind_part by (auto; lia).
      - (* If *) assert (X := ind_part "else" orelse i rest ltac:(lia) ltac:(assumption)). assert (Y := ind_stmts orelse "elif" i rest ltac:(lia) ltac:(assumption)).
        destruct orelse as [|[] [|]]; (rewrite X || rewrite Y); reflexivity.
      - (* While *) now rewrite ind_part by (auto; lia).
    Qed.
  End Step.
  Lemma ind_stmt s kw i rest : ok_stmt s = true -> indents (stoks kw i s ++ rest) = four (depths i s) ++ indents rest.
  Proof.
    assert (X : forall N s kw i rest, ssize s < N -> ok_stmt s = true -> indents (stoks kw i s ++ rest) = four (depths i s) ++ indents rest).
    { induction N as [|N IH]; intros; [lia|]. apply (ind_step N); auto; lia. }
    intros. apply (X (S (ssize s))); auto.
  Qed.
  Lemma ind_module l : forallb ok_stmt l = true -> indents (flat_map (stoks "if" 0) l) = four (flat_map (depths 0) l).
  Proof.
    intros Ho. rewrite <- (app_nil_r (flat_map (stoks "if" 0) l)). rewrite (ind_stmts (S (list_sum (map ssize l)))); auto; [apply app_nil_r|].
    intros. now apply ind_stmt.
  Qed.
End Indents.

(** PARTIAL: in the text of every such module, the lines that are not empty are, in order, the lines of the statements, each indented by four spaces
    for each statement around it. Missing: as above. *)
Theorem C48_indentation_partial : forall read printable l, forallb (ok_stmt read) l = true ->
  exists s ts, unparse printable (TModule l) = Ok s /\ lex read (nl ++ s) = Some ts /\ indents ts = map (fun d => 4 * d) (flat_map (depths 0) l).
Proof.
  intros read printable l Ho. destruct (module_lex read printable l Ho) as (u & Hu & ts & Hc & Hl & _). exists u, ts. split; [exact Hu|]. split; [exact Hl|].
  rewrite <- (ind_module read l Ho). destruct Hc as [ -> |[ <- | -> ]]; [reflexivity| |].
  - cbn [indents]. assert (X : line_ends ts = true); [|now rewrite X].
    rewrite lex_nl in Hl.
    destruct (span (Ascii.eqb " ") u) as [b r1]. destruct (lexn read (String.length u) r1); [|discriminate]. injection Hl as <-. reflexivity.
  - assert (Hu' : u = "") by (vm_compute in Hu; congruence). subst u. vm_compute in Hl. now injection Hl as <-.
Qed.
Print Assumptions C48_indentation_partial.

(** Decorated function in a class, imports, if/elif/else with an if nested in the else part, loops with else, try with two handlers,
    an f-string, variables named match and type, a type alias, and a match statement with every sort of pattern. *)
Definition big_module : list stmt :=
  let n := EName in
  [SImport [Alias "a.b" (Some "c")]; SImportFrom None [Alias "y" (Some "z")] 2;
   SClass "A" [] [n "B"] [Kw (Some "k") (EConst (CInt 3))]
     [SFunction true "f" [] (Args [Arg "a" None] [Arg "b" (Some (n "int"))] None [] [] None [EConst (CInt 1)])
        [SIf (n "a") [SPass]
           [SIf (n "b") [SReturn (Some (EConst (CInt 1)))]
              [SIf (n "c") [SBreak] []; SAssign [n "x"; ETuple [n "y"; EStarred (n "z")]] (EYield None)]];
         SAnnAssign (n "b") (n "int") None false] [ECall (n "deco") [] []] None] [];
   STry false [SWith false [(n "a", Some (n "b")); (n "c", None)] [SAugAssign (ESub (n "b") (EConst (CInt 0))) Add (EConst (CInt 1))]]
     [Handler (Some (n "E")) (Some "e") [SDelete [n "q"]]; Handler None None [SRaise (Some (n "x")) (Some (n "y"))]]
     [SFor false (n "i") (n "j") [SContinue] [SWhile (EConst CTrue) [SPass] []]]
     [SAssert (n "p") (Some (EJoined [EFormatted (n "x") 114 None; EConst (CStr false ": "); EFormatted (n "y") (-1) (Some (EJoined [EConst (CStr false ">"); EFormatted (n "w") (-1) None]))]))];
   SAssign [n "match"] (ECall (n "type") [n "match"] []); SExpr (ESub (n "match") (EUnary USub (n "type")));
   STypeAlias (n "type") [TypeVar "T" (Some (n "int")); TypeVarTuple "U"; ParamSpec "V"] (n "T");
   SMatch (ETuple [n "match"; n "x"])
     [Case (PSequence [PValue (EUnary USub (EConst (CInt 1))); PStar (Some "r"); PAs None None]) None [SPass];
      Case (POr [PSingleton CNone; PValue (EAttr (n "A") "b"); PValue (EConst (CStr false "s"))]) (Some (n "g")) [SIf (n "a") [SPass] []];
      Case (PMapping [(EConst (CInt 1), PAs (Some (POr [PValue (EConst (CInt 2)); PAs None (Some "k")])) (Some "y"))] (Some "z")) None [SPass];
      Case (PClass (EAttr (n "m") "C") [PSequence []] [("k", PAs (Some (PMapping [] None)) (Some "v"))]) None [SMatch (n "case") [Case (PAs None (Some "case")) None [SPass]]]]].
Example C48_example : forallb (ok_stmt (fun s => s)) big_module = true /\
  unparse (fun _ => false) (TModule big_module) = Ok (String.concat nl
   ["import a.b as c"; "from .. import y as z"; ""; "class A(B, k=3):"; ""; "    @deco()"; "    async def f(a, /, b: int=1):"; "        if a:"; "            pass"; "        elif b:";
    "            return 1"; "        else:"; "            if c:"; "                break"; "            x = (y, *z) = (yield)"; "        (b): int";
    "try:"; "    with a as b, c:"; "        b[0] += 1"; "except E as e:"; "    del q"; "except:"; "    raise x from y"; "else:"; "    for i in j:";
    "        continue"; "    else:"; "        while True:"; "            pass"; "finally:"; "    assert p, f'{x!r}: {y:>{w}}'"; "match = type(match)"; "match[(-type)]";
    "type type[T: int, *U, **V] = T"; "match (match, x):"; "    case [(-1), *r, _]:"; "        pass"; "    case (None | A.b | 's') if g:"; "        if a:"; "            pass";
    "    case {1: (2 | k) as y, **z}:"; "        pass"; "    case m.C([], k={} as v):"; "        match case:"; "            case case:"; "                pass"]) /\
  flat_map (depths 0) big_module = [0;0;0;1;1;2;3;2;3;2;3;4;3;2;0;1;2;0;1;0;1;0;1;2;1;2;3;0;1;0;0;0;0;1;2;1;2;3;1;2;1;2;3;4].
Proof. vm_compute. auto. Qed.

Ltac parse_by := eexists; eexists; split; [vm_compute; reflexivity|split; [vm_compute; reflexivity|]]; exists 100; intros n Hn; replace n with (100 + (n - 100)) by lia;
  generalize (n - 100); clear; intros n; vm_compute; reflexivity.
(** Refuted for all that Python reads: a with statement on one tuple is written as one on the elements. *)
Theorem C48_with_tuple_refuted : exists s l s' l', forall read printable,
  parses_module read s l /\ unparse printable (TModule l) = Ok s' /\ parses_module read s' l' /\ l <> l'.
Proof.
  exists "with ((a, b)): pass", [SWith false [(ETuple [EName "a"; EName "b"], None)] [SPass]], ("with (a, b):" ++ nl ++ "    pass")%string,
    [SWith false [(EName "a", None); (EName "b", None)] [SPass]].
  intros read printable. split; [parse_by|]. split; [reflexivity|]. split; [parse_by|discriminate].
Qed.
Print Assumptions C48_with_tuple_refuted.

(** Refuted: patterns. An as pattern in an as pattern, and a negative key, are written as text that is no module; an or pattern in an or pattern as a longer or pattern. *)
Definition no_module (read : string -> string) (s : string) : Prop := forall l, ~ parses_module read s l.
Ltac no_parse := intros l (ts & lts & L1 & L2 & N & L3); vm_compute in L1; inversion L1; subst ts; vm_compute in L2; inversion L2; subst lts; specialize (L3 (100 + N) ltac:(lia));
  revert L3; clear; generalize N; clear N; intros N L3; vm_compute in L3; discriminate.
Theorem C48_nested_as_refuted : exists s l s', forall read printable, parses_module read s l /\ unparse printable (TModule l) = Ok s' /\ no_module read s'.
Proof.
  exists ("match x:" ++ nl ++ "  case (y as a) as b: pass")%string, [SMatch (EName "x") [Case (PAs (Some (PAs (Some (PAs None (Some "y"))) (Some "a"))) (Some "b")) None [SPass]]],
    ("match x:" ++ nl ++ "    case y as a as b:" ++ nl ++ "        pass")%string.
  intros read printable. split; [parse_by|]. split; [reflexivity|no_parse].
Qed.
Print Assumptions C48_nested_as_refuted.
Theorem C48_nested_or_refuted : exists s l s' l', forall read printable,
  parses_module read s l /\ unparse printable (TModule l) = Ok s' /\ parses_module read s' l' /\ l <> l'.
Proof.
  exists ("match x:" ++ nl ++ "  case (None | True) | False: pass")%string, [SMatch (EName "x") [Case (POr [POr [PSingleton CNone; PSingleton CTrue]; PSingleton CFalse]) None [SPass]]],
    ("match x:" ++ nl ++ "    case None | True | False:" ++ nl ++ "        pass")%string, [SMatch (EName "x") [Case (POr [PSingleton CNone; PSingleton CTrue; PSingleton CFalse]) None [SPass]]].
  intros read printable. split; [parse_by|]. split; [reflexivity|]. split; [parse_by|discriminate].
Qed.
Print Assumptions C48_nested_or_refuted.
Theorem C48_negative_key_refuted : exists s l s', forall read printable, parses_module read s l /\ unparse printable (TModule l) = Ok s' /\ no_module read s'.
Proof.
  exists ("match x:" ++ nl ++ "  case {-1: y}: pass")%string, [SMatch (EName "x") [Case (PMapping [(EUnary USub (EConst (CInt 1)), PAs None (Some "y"))] None) None [SPass]]],
    ("match x:" ++ nl ++ "    case {(-1): y}:" ++ nl ++ "        pass")%string.
  intros read printable. split; [parse_by|]. split; [reflexivity|no_parse].
Qed.
Print Assumptions C48_negative_key_refuted.

(** ** C49 *)
(** PARTIAL: no exception for any module without double-starred items in dict displays. [writable_stmt] (UnparseTotal.v) also asks for what the parser always
    does (for example, a set display is not empty); it covers every class of node: f-strings, match statements, type aliases, type parameters.
    Missing: dict displays with double-starred items (refuted below); trees with AST markers. *)
Theorem C49_no_error_partial : forall printable l, forallb writable_stmt l = true -> exists s, unparse printable (TModule l) = Ok s.
Proof. intros printable l. exact (w_module printable l). Qed.
Print Assumptions C49_no_error_partial.
Example C49_no_error_example :
  let l := [SMatch (EJoined [EConst (CStr false "a"); EFormatted (EName "x") 114 (Some (EJoined [EConst (CStr false ">"); EFormatted (EName "n") (-1) None]))])
              [Case (PMapping [(EConst (CInt 1), PAs (Some (POr [PStar None; PClass (EName "C") [PAs None None] [("k", PSingleton CNone)]])) (Some "y"))] (Some "r"))
                 (Some (EName "g")) [STypeAlias (EName "T") [TypeVar "A" (Some (EName "int")); ParamSpec "P"; TypeVarTuple "Q"] (EName "A")]]] in
  forallb writable_stmt l = true /\
  unparse (fun _ => true) (TModule l) =
    Ok ("match f'a{x!r:>{n}}':" ++ nl ++ "    case {1: (*_ | C(_, k=None)) as y, **r} if g:" ++ nl ++ "        type T[A: int, **P, *Q] = A")%string.
Proof. vm_compute. auto. Qed.
(** PARTIAL: two modules that [ok_stmt] allows, with the same text, are the same: the text shows every part of them. Missing: as in the theorems on C48. *)
Theorem C49_nothing_dropped_partial : forall read printable l l', forallb (ok_stmt read) l = true -> forallb (ok_stmt read) l' = true ->
  unparse printable (TModule l) = unparse printable (TModule l') -> l = l'.
Proof.
  intros read printable l l' H H' E. destruct (C48_module_round_trip_partial read printable l H) as (s & Hs & ts & lts & L1 & L2 & N & L3).
  destruct (C48_module_round_trip_partial read printable l' H') as (s' & Hs' & ts' & lts' & L1' & L2' & N' & L3').
  assert (s' = s) as -> by congruence. assert (ts' = ts) as -> by congruence. assert (lts' = lts) as -> by congruence.
  specialize (L3 (N + N') ltac:(lia)). specialize (L3' (N + N') ltac:(lia)). congruence.
Qed.
Print Assumptions C49_nothing_dropped_partial.
Example C49_nothing_dropped_example : forallb (ok_stmt (fun s => s)) big_module = true /\ forallb (ok_stmt (fun s => s)) (big_module ++ [SPass]) = true.
Proof. vm_compute. auto. Qed.
(** Refuted: a module that Python reads, for which UnparserError is raised. *)
Theorem C49_unparser_error_refuted : exists s l, forall read printable, parses_module read s l /\ unparse printable (TModule l) = Err unparser_error.
Proof.
  exists "x = {**a}", [SAssign [EName "x"] (EDict [(None, EName "a")])]. intros read printable. split; [parse_by|reflexivity].
Qed.
Print Assumptions C49_unparser_error_refuted.
(** Refuted: the type parameters of functions and classes are not written; the text is read as a function, and a class, without them. *)
Theorem C49_type_parameters_refuted : exists s1 l1 t1 m1 s2 l2 t2 m2, forall read printable,
  (parses_module read s1 l1 /\ unparse printable (TModule l1) = Ok t1 /\ parses_module read t1 m1 /\ l1 <> m1) /\
  (parses_module read s2 l2 /\ unparse printable (TModule l2) = Ok t2 /\ parses_module read t2 m2 /\ l2 <> m2).
Proof.
  exists "def f[T](): pass", [SFunction false "f" [TypeVar "T" None] (Args [] [] None [] [] None []) [SPass] [] None],
    ("def f():" ++ nl ++ "    pass")%string, [SFunction false "f" [] (Args [] [] None [] [] None []) [SPass] [] None],
    "class C[T]: pass", [SClass "C" [TypeVar "T" None] [] [] [SPass] []], ("class C:" ++ nl ++ "    pass")%string, [SClass "C" [] [] [] [SPass] []].
  intros read printable. split; (split; [parse_by|]; split; [reflexivity|]; split; [parse_by|discriminate]).
Qed.
Print Assumptions C49_type_parameters_refuted.
(** Refuted: whatever expression [ast.parse(..., mode='eval')] returns, its tree cannot be unparsed as it is. *)
Theorem C49_eval_mode_refuted : exists s e, forall read printable, parses_expr read s e /\ exists x, unparse printable (TExpression e) = Err x /\ e_cls x = "TypeError".
Proof.
  exists "a", (EName "a"). intros read printable. split; [|eexists; split; reflexivity].
  eexists. split; [reflexivity|]. exists 100. intros n Hn. replace n with (100 + (n - 100)) by lia. generalize (n - 100). clear. intros n. vm_compute. reflexivity.
Qed.
Print Assumptions C49_eval_mode_refuted.
