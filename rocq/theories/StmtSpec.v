(** Which statements the round-trip theorem covers: those that the parser makes, but for type parameters of classes and functions, a with
    statement whose only item is a tuple without starred elements and without [as], and these patterns: an as or or pattern as an alternative of an
    or pattern; an as pattern as the pattern of an as pattern; a negative or complex number as a key; a complex number with a negative real part.
    Expressions as in UnparseSpec.v. *)
From Verif Require Import Base UnparseModel PyGrammar PyStmt UnparseSpec.
Open Scope string_scope.
Open Scope list_scope.

(** The names between the dots. *)
Fixpoint split_dots (s : string) : list string :=
  match s with
  | "" => [""]
  | String c r => if Ascii.eqb c "." then "" :: split_dots r else match split_dots r with x :: l => String c x :: l | [] => [one c] end
  end.
Definition dotted_ok (x : string) : bool := forallb is_identifier (split_dots x).
Definition ok_alias (dotted : bool) (a : alias) : bool :=
  match a with Alias x y => (if dotted then dotted_ok x else is_identifier x) && match y with Some y => is_identifier y | None => true end end.
Definition is_star_import (l : list alias) : bool := match l with [Alias x None] => String.eqb x "*" | _ => false end.
(** Text that reads as several items. *)
Definition clash (l : list (expr * option expr)) : bool :=
  match l with [(ETuple (x :: m), None)] => forallb (fun e => negb (is_starred e)) (x :: m) | _ => false end.

Section Covered.
  Variable read : string -> string.
  Notation ok := (ok read).
  Definition ok_o (o : option expr) : bool := match o with Some e => ok e | None => true end.
  Definition ok_star (e : expr) : bool := match e with EStarred x => ok x | _ => ok e end.
  Definition ok_witem (p : expr * option expr) : bool := ok (fst p) && match snd p with Some t => ok t && is_target t | None => true end.

  Definition ok_tp (t : type_param) : bool := match t with TypeVar x b => is_identifier x && ok_o b | ParamSpec x | TypeVarTuple x => is_identifier x end.
  (** A name that a pattern binds. *)
  Definition ok_cap (x : string) : bool := is_identifier x && negb (String.eqb x "_").
  (** A name, or an attribute of such. *)
  Fixpoint ok_dots (e : expr) : bool := match e with EName x => ok_cap x | EAttr e x => ok_dots e && is_identifier x | _ => false end.
  Definition is_text (c : const) : bool := match c with CStr _ _ | CBytes _ => true | _ => false end.
  Definition ok_value (e : expr) : bool :=
    match e with
    | EConst c => (is_num c || is_text c) && const_ok read c
    | EUnary USub (EConst c) => is_num c && const_ok read c
    | EBinOp (EConst c) (Add | Sub) (EConst d) => is_num c && negb (is_imag c) && is_imag d && const_ok read c && const_ok read d
    | EAttr _ _ => ok_dots e
    | _ => false
    end.
  Definition ok_key (e : expr) : bool :=
    match e with EConst c => match c with CEllipsis => false | _ => const_ok read c end | EAttr e x => ok_dots (EAttr e x) | _ => false end.
  (** Neither an as pattern nor an or pattern. *)
  Definition closed (p : pattern) : bool := match p with PAs (Some _) _ | POr _ => false | _ => true end.
  Fixpoint ok_pat (p : pattern) : bool :=
    match p with
    | PValue e => ok_value e
    | PSingleton c => match c with CNone | CTrue | CFalse => true | _ => false end
    | PSequence l => forallb (fun p => match p with PStar (Some x) => ok_cap x | PStar None => true | _ => ok_pat p end) l
    | PStar _ => false
    | PMapping l r => forallb (fun kp => match kp with (k, p) => ok_key k && ok_pat p end) l && match r with Some x => ok_cap x | None => true end
    | PClass c l k => ok_dots c && forallb ok_pat l && forallb (fun kp => match kp with (x, p) => is_identifier x && ok_pat p end) k
    | PAs None None => true
    | PAs None (Some x) => ok_cap x
    | PAs (Some _) None => false
    | PAs (Some p) (Some x) => ok_pat p && (closed p || is_or p) && ok_cap x
    | POr l => Nat.leb 2 (List.length l) && forallb (fun p => ok_pat p && closed p) l
    end.

  Fixpoint ok_stmt (s : stmt) : bool :=
    match s with
    | SExpr e => ok e
    | SImport l => nonempty l && forallb (ok_alias true) l
    | SImportFrom m l n =>
        match m with Some m => dotted_ok m | None => negb (Nat.eqb n 0) end && (is_star_import l || (nonempty l && forallb (ok_alias false) l))
    | SAssign ts v => nonempty ts && forallb (fun t => ok t && is_target t) ts && ok v
    | SAnnAssign t a v simple =>
        ok t && (if simple then match t with EName _ => true | _ => false end else is_single t) && ok a && ok_o v
    | SAugAssign t _ v => ok t && is_single t && ok v
    | SReturn e => ok_o e
    | SPass | SBreak | SContinue => true
    | SDelete l => nonempty l && forallb (fun t => ok t && is_deltarget t) l
    | SAssert t m => ok t && ok_o m
    | SGlobal l | SNonlocal l => nonempty l && forallb is_identifier l
    | SRaise e c => match e, c with None, Some _ => false | _, _ => true end && ok_o e && ok_o c
    | STry star b hs o f =>
        nonempty b && forallb ok_stmt b && forallb (ok_handler star) hs && forallb ok_stmt o && forallb ok_stmt f &&
        match hs with [] => nonempty f && negb (nonempty o) && negb star | _ => true end
    | SClass x tps bases kws b ds =>
        is_identifier x && negb (nonempty tps) && forallb ok_star bases && forallb (ok_kw read) kws && nonempty b && forallb ok_stmt b && forallb ok ds
    | SFunction _ x tps a b ds r =>
        is_identifier x && negb (nonempty tps) && ok_args read true a && nonempty b && forallb ok_stmt b && forallb ok ds && ok_o r
    | SFor _ t it b o => ok t && is_target t && ok it && nonempty b && forallb ok_stmt b && forallb ok_stmt o
    | SIf t b o | SWhile t b o => ok t && nonempty b && forallb ok_stmt b && forallb ok_stmt o
    | SWith _ l b => nonempty l && forallb ok_witem l && negb (clash l) && nonempty b && forallb ok_stmt b
    | SMatch e cs => ok e && nonempty cs && forallb ok_case cs
    | STypeAlias x tps v => match x with EName x => is_identifier x | _ => false end && forallb ok_tp tps && ok v
    end
  with ok_handler (star : bool) (h : handler) : bool :=
    match h with
    | Handler t x b =>
        match t with Some t => ok t && match x with Some x => is_identifier x | None => true end | None => negb star && match x with Some _ => false | None => true end end &&
        nonempty b && forallb ok_stmt b
    end
  with ok_case (c : mcase) : bool := match c with Case p g b => ok_pat p && ok_o g && nonempty b && forallb ok_stmt b end.
End Covered.
