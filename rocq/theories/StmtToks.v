(** The tokens of a statement: line by line, as the lexer reads them ([stoks]), and with NEWLINE, INDENT, DEDENT ([ltoks]); that [layout] makes the
    latter from the former. *)
From Verif Require Import Base UnparseModel PyGrammar PyStmt UnparseSpec StmtSpec UnparseLex UnparseToks.
Open Scope string_scope.
Open Scope list_scope.

Definition dotted_toks (x : string) : list tok := seps (TOp ".") (map (fun y => [TId y]) (split_dots x)).
Definition alias_toks (dotted : bool) (a : alias) : list tok :=
  match a with Alias x y => (if dotted then dotted_toks x else if String.eqb x "*" then op "*" else [TId x]) ++ opt_toks (fun y => [TKw "as"; TId y]) y end.
Fixpoint dots_toks (n : nat) : list tok := match n with S (S (S m)) => TOp "..." :: dots_toks m | S (S O) => [TOp "."; TOp "."] | S O => [TOp "."] | O => [] end.
Definition commas (l : list (list tok)) : list tok := seps (TOp ",") l.
Definition witem_toks (p : expr * option expr) : list tok := toks (fst p) ++ opt_toks (fun v => TKw "as" :: toks v) (snd p).
Definition deco_toks (e : expr) : list tok := TOp "@" :: toks e.

Definition tp_toks (t : type_param) : list tok :=
  match t with TypeVar x b => TId x :: opt_toks (fun b => TOp ":" :: toks b) b | ParamSpec x => [TOp "**"; TId x] | TypeVarTuple x => [TOp "*"; TId x] end.
Definition pair_toks (k p : list tok) : list tok := k ++ TOp ":" :: p.
Definition pkw_toks (x : string) (p : list tok) : list tok := TId x :: TOp "=" :: p.
Definition rest_toks (x : string) : list tok := [TOp "**"; TId x].
Definition opts {A B} (f : A -> B) (o : option A) : list B := match o with Some a => [f a] | None => [] end.
Fixpoint ptoks (p : pattern) : list tok :=
  match p with
  | PValue e => toks e
  | PSingleton c => [ctok c]
  | PSequence l => op "[" ++ commas (map ptoks l) ++ op "]"
  | PStar x => [TOp "*"; TId (match x with Some x => x | None => "_" end)]
  | PMapping l r => op "{" ++ commas (map (fun kp => match kp with (k, p) => pair_toks (toks k) (ptoks p) end) l ++ opts rest_toks r) ++ op "}"
  | PClass c l k => toks c ++ op "(" ++ commas (map ptoks l ++ map (fun kp => match kp with (x, p) => pkw_toks x (ptoks p) end) k) ++ op ")"
  | PAs None None => [TId "_"]
  | PAs None (Some x) => [TId x]
  | PAs (Some _) None => []
  | PAs (Some p) (Some x) => (if is_or p then op "(" else []) ++ ptoks p ++ (if is_or p then op ")" else []) ++ [TKw "as"; TId x]
  | POr l => seps (TOp "|") (map ptoks l)
  end.
(** Induction on patterns. *)
Lemma pat_ind (P : pattern -> Prop) :
  (forall e, P (PValue e)) -> (forall c, P (PSingleton c)) -> (forall l, Forall P l -> P (PSequence l)) -> (forall x, P (PStar x)) ->
  (forall l r, Forall (fun kp => P (snd kp)) l -> P (PMapping l r)) -> (forall c l k, Forall P l -> Forall (fun kp => P (snd kp)) k -> P (PClass c l k)) ->
  (forall x, P (PAs None x)) -> (forall p x, P p -> P (PAs (Some p) x)) -> (forall l, Forall P l -> P (POr l)) -> forall p, P p.
Proof.
  intros H1 H2 H3 H4 H5 H6 H7 H8 H9. fix IH 1. intros [e|c|l|x|l r|c l k|[p|] x|l].
  - apply H1.
  - apply H2.
  - apply H3. induction l as [|p l IHl]; constructor; [exact (IH p)|exact IHl].
  - apply H4.
  - apply H5. induction l as [|[k p] l IHl]; constructor; [exact (IH p)|exact IHl].
  - apply H6; [induction l as [|p l IHl]|induction k as [|[y p] k IHl]]; constructor; [exact (IH p)|exact IHl|exact (IH p)|exact IHl].
  - apply H8. exact (IH p).
  - apply H7.
  - apply H9. induction l as [|p l IHl]; constructor; [exact (IH p)|exact IHl].
Qed.

(** The first line of a statement, but for the decorators; an If with the keyword [kw]. *)
Definition head_toks (kw : string) (s : stmt) : list tok :=
  match s with
  | SExpr e => toks e
  | SImport l => TKw "import" :: commas (map (alias_toks true) l)
  | SImportFrom m l n => TKw "from" :: dots_toks n ++ opt_toks dotted_toks m ++ TKw "import" :: commas (map (alias_toks false) l)
  | SAssign ts v => flat_map (fun t => toks t ++ op "=") ts ++ toks v
  | SAnnAssign t a v simple =>
      (if simple then [] else op "(") ++ toks t ++ (if simple then [] else op ")") ++ op ":" ++ toks a ++ opt_toks (fun v => TOp "=" :: toks v) v
  | SAugAssign t o v => toks t ++ op (binop_text o ++ "=") ++ toks v
  | SReturn e => TKw "return" :: opt_toks toks e
  | SPass => [TKw "pass"] | SBreak => [TKw "break"] | SContinue => [TKw "continue"]
  | SDelete l => TKw "del" :: commas (map toks l)
  | SAssert t m => TKw "assert" :: toks t ++ opt_toks (fun m => TOp "," :: toks m) m
  | SGlobal l => TKw "global" :: commas (map (fun x => [TId x]) l)
  | SNonlocal l => TKw "nonlocal" :: commas (map (fun x => [TId x]) l)
  | SRaise e c => TKw "raise" :: opt_toks toks e ++ opt_toks (fun c => TKw "from" :: toks c) c
  | STry _ _ _ _ _ => [TKw "try"; TOp ":"]
  | SClass x _ bases kws _ _ =>
      TKw "class" :: TId x :: match bases, kws with [], [] => [] | _, _ => op "(" ++ commas (map toks bases ++ map toks_kw kws) ++ op ")" end ++ op ":"
  | SFunction a x _ args _ _ r =>
      (if a then [TKw "async"] else []) ++ TKw "def" :: TId x :: op "(" ++ toks_args args ++ op ")" ++ opt_toks (fun r => TOp "->" :: toks r) r ++ op ":"
  | SFor a t it _ _ => (if a then [TKw "async"] else []) ++ TKw "for" :: toks t ++ TKw "in" :: toks it ++ op ":"
  | SIf t _ _ => TKw kw :: toks t ++ op ":"
  | SWhile t _ _ => TKw "while" :: toks t ++ op ":"
  | SWith a l _ => (if a then [TKw "async"] else []) ++ TKw "with" :: commas (map witem_toks l) ++ op ":"
  | SMatch e _ => TId "match" :: toks e ++ op ":"
  | STypeAlias x tps v => TId "type" :: toks x ++ match tps with [] => [] | _ => op "[" ++ commas (map tp_toks tps) ++ op "]" end ++ op "=" ++ toks v
  end.
Definition handler_toks (star : bool) (h : handler) : list tok :=
  match h with Handler t x _ => TKw "except" :: (if star then op "*" else []) ++ opt_toks toks t ++ opt_toks (fun x => [TKw "as"; TId x]) x ++ op ":" end.
Definition case_toks (c : mcase) : list tok :=
  match c with
  | Case p g _ =>
      let par := match g with Some _ => is_or p | None => false end in
      TId "case" :: (if par then op "(" else []) ++ ptoks p ++ (if par then op ")" else []) ++ opt_toks (fun g => TKw "if" :: toks g) g ++ op ":"
  end.

(** Lines. *)
Definition line (i : nat) (ts : list tok) : list tok := TNl (4 * i) :: ts.
Fixpoint stoks (kw : string) (i : nat) (s : stmt) : list tok :=
  let block := flat_map (stoks "if" (S i)) in
  let part k l := match l with [] => [] | _ => line i [TKw k; TOp ":"] ++ block l end in
  match s with
  | STry star b hs o f => line i (head_toks kw s) ++ block b ++ flat_map (hstoks star i) hs ++ part "else" o ++ part "finally" f
  | SClass _ _ _ _ b ds | SFunction _ _ _ _ b ds _ => TNl 0 :: flat_map (fun e => line i (deco_toks e)) ds ++ line i (head_toks kw s) ++ block b
  | SFor _ _ _ b o | SWhile _ b o => line i (head_toks kw s) ++ block b ++ part "else" o
  | SIf _ b o =>
      line i (head_toks kw s) ++ block b ++ match o with [SIf _ _ _] => flat_map (stoks "elif" i) o | _ => part "else" o end
  | SWith _ _ b => line i (head_toks kw s) ++ block b
  | SMatch _ cs => line i (head_toks kw s) ++ flat_map (cstoks (S i)) cs
  | _ => line i (head_toks kw s)
  end
with hstoks (star : bool) (i : nat) (h : handler) : list tok := match h with Handler _ _ b => line i (handler_toks star h) ++ flat_map (stoks "if" (S i)) b end
with cstoks (i : nat) (c : mcase) : list tok := match c with Case _ _ b => line i (case_toks c) ++ flat_map (stoks "if" (S i)) b end.

Fixpoint ltoks (kw : string) (s : stmt) : list tok :=
  let block l := TNewline :: TIndent :: flat_map (ltoks "if") l ++ [TDedent] in
  let part k l := match l with [] => [] | _ => [TKw k; TOp ":"] ++ block l end in
  match s with
  | STry star b hs o f => head_toks kw s ++ block b ++ flat_map (hltoks star) hs ++ part "else" o ++ part "finally" f
  | SClass _ _ _ _ b ds | SFunction _ _ _ _ b ds _ => flat_map (fun e => deco_toks e ++ [TNewline]) ds ++ head_toks kw s ++ block b
  | SFor _ _ _ b o | SWhile _ b o => head_toks kw s ++ block b ++ part "else" o
  | SIf _ b o => head_toks kw s ++ block b ++ match o with [SIf _ _ _] => flat_map (ltoks "elif") o | _ => part "else" o end
  | SWith _ _ b => head_toks kw s ++ block b
  | SMatch _ cs => head_toks kw s ++ TNewline :: TIndent :: flat_map cltoks cs ++ [TDedent]
  | _ => head_toks kw s ++ [TNewline]
  end
with hltoks (star : bool) (h : handler) : list tok := match h with Handler _ _ b => handler_toks star h ++ TNewline :: TIndent :: flat_map (ltoks "if") b ++ [TDedent] end
with cltoks (c : mcase) : list tok := match c with Case _ _ b => case_toks c ++ TNewline :: TIndent :: flat_map (ltoks "if") b ++ [TDedent] end.

Fixpoint ssize (s : stmt) : nat :=
  S match s with
    | STry _ b hs o f => list_sum (map ssize b) + list_sum (map hsize hs) + list_sum (map ssize o) + list_sum (map ssize f)
    | SClass _ _ _ _ b _ | SFunction _ _ _ _ b _ _ | SWith _ _ b => list_sum (map ssize b)
    | SFor _ _ _ b o | SIf _ b o | SWhile _ b o => list_sum (map ssize b) + list_sum (map ssize o)
    | SMatch _ cs => list_sum (map csize cs)
    | _ => 0
    end
with hsize (h : handler) : nat := match h with Handler _ _ b => S (list_sum (map ssize b)) end
with csize (c : mcase) : nat := match c with Case _ _ b => S (list_sum (map ssize b)) end.
