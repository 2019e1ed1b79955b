(** Python's own reading of statements: indentation (Python reference, 2.1.8) and the PEG grammar (chapter 10, Python 3.12). It is written from
    the reference, not from the unparser.

    As PyGrammar.v, it is a part of Python: text that it reads, Python reads the same way. Left out (such text is refused), besides what is left
    out there: line ends inside brackets, type comments. *)
From Verif Require Import Base UnparseModel PyGrammar.
Open Scope string_scope.
Open Scope list_scope.

(** ** Indentation *)
(** How many levels are closed by a line indented by [k], and the levels that stay open. *)
Fixpoint dedent (stack : list nat) (k : nat) : option (nat * list nat) :=
  match stack with
  | [] => None
  | t :: st => if Nat.eqb k t then Some (0, stack) else if Nat.ltb k t then let? (d, s) := dedent st k in Some (S d, s) else None
  end.
Definition line_ends (ts : list tok) : bool := match ts with [] => true | TNl _ :: _ => true | _ => false end.
(** The tokens with NEWLINE, INDENT, DEDENT instead of the line ends. Empty lines are skipped. *)
Fixpoint layout (stack : list nat) (ts : list tok) : option (list tok) :=
  match ts with
  | [] => Some (repeat TDedent (List.length stack - 1))
  | TNl k :: r =>
      if line_ends r then layout stack r
      else if Nat.ltb (hd 0 stack) k then let? l := layout (k :: stack) r in Some (TIndent :: l)
      else let? (d, st) := dedent stack k in let? l := layout st r in Some (repeat TDedent d ++ l)
  | t :: r => let? l := layout stack r in Some (t :: (if line_ends r then TNewline :: l else l))
  end.

(** ** Simple statements *)
Definition nlq (ts : list tok) : option (list tok) := match ts with TNewline :: r => Some r | _ => None end.
Definition indentq (ts : list tok) : option (list tok) := match ts with TIndent :: r => Some r | _ => None end.
Definition dedentq (ts : list tok) : option (list tok) := match ts with TDedent :: r => Some r | _ => None end.
(** Does the simple statement end here? *)
Definition ends_simple (ts : list tok) : bool := match ts with TNewline :: _ => true | TOp x :: _ => String.eqb x ";" | _ => false end.

(** star_expressions (but not a single starred one, which Python's parser takes and its compiler refuses), and with yield_expr. *)
Definition p_stars (n : nat) (ts : list tok) : option (expr * list tok) :=
  match p_list n KStarExpr ts with
  | (its, trailing, r) => let? l := exprs_of its in let? e := tuple_or_single l trailing in if is_starred e then None else Some (e, r)
  end.
Definition p_rhs (n : nat) (ts : list tok) : option (expr * list tok) := match kwq "yield" ts with Some r => p_yield n r | None => p_stars n ts end.
(** single_target; del_target. *)
Definition is_single (e : expr) : bool := match e with EName _ | EAttr _ _ | ESub _ _ => true | _ => false end.
Fixpoint is_deltarget (e : expr) : bool :=
  match e with EName _ | EAttr _ _ | ESub _ _ => true | ETuple l | EList l => forallb is_deltarget l | _ => false end.
Definition augops : list (string * binop) :=
  [("+=", Add); ("-=", Sub); ("*=", Mult); ("@=", MatMult); ("/=", Div); ("%=", Mod); ("&=", BitAnd); ("|=", BitOr); ("^=", BitXor);
   ("<<=", ShiftL); (">>=", ShiftR); ("**=", Pow); ("//=", FloorDiv)].
Definition augq (ts : list tok) : option (binop * list tok) :=
  match ts with TOp y :: r => let? o := assoc y augops in Some (o, r) | _ => None end.

(** NAME with dots between; with commas between. *)
Fixpoint p_dotted (n : nat) (ts : list tok) : option (string * list tok) :=
  match n with
  | O => None
  | S n =>
      let? (x, r) := idq ts in
      match opq "." r with
      | Some r1 => let? (y, r2) := p_dotted n r1 in Some (x ++ "." ++ y, r2)%string
      | None => Some (x, r)
      end
  end.
Fixpoint p_names (n : nat) (ts : list tok) : option (list string * list tok) :=
  match n with
  | O => None
  | S n =>
      let? (x, r) := idq ts in
      match opq "," r with
      | Some r1 => let? (l, r2) := p_names n r1 in Some (x :: l, r2)
      | None => Some ([x], r)
      end
  end.
(** ['as' NAME] *)
Definition p_as (ts : list tok) : option (option string * list tok) :=
  match kwq "as" ts with Some r => let? (y, r1) := idq r in Some (Some y, r1) | None => Some (None, ts) end.
(** dotted_as_names; import_from_as_names without trailing comma. *)
Fixpoint p_imports (n : nat) (dotted : bool) (ts : list tok) : option (list alias * list tok) :=
  match n with
  | O => None
  | S n =>
      let? (x, r) := if dotted then p_dotted n ts else idq ts in
      let? (y, r1) := p_as r in
      match opq "," r1 with
      | Some r2 => let? (l, r3) := p_imports n dotted r2 in Some (Alias x y :: l, r3)
      | None => Some ([Alias x y], r1)
      end
  end.
(** ('.' | '...')* *)
Fixpoint p_dots (ts : list tok) : nat * list tok :=
  match ts with
  | TOp x :: r => if String.eqb x "." then let (k, r1) := p_dots r in (1 + k, r1) else if String.eqb x "..." then let (k, r1) := p_dots r in (3 + k, r1) else (0, ts)
  | _ => (0, ts)
  end.
(** 'from' ... 'import' (names | '(' names [','] ')' | '*'), after 'from' *)
Definition p_from (n : nat) (ts : list tok) : option (stmt * list tok) :=
  let (k, r) := p_dots ts in
  let? (m, r1) := match idq r with Some _ => let? (x, r1) := p_dotted n r in Some (Some x, r1) | None => if Nat.eqb k 0 then None else Some (None, r) end in
  let? r2 := kwq "import" r1 in
  match opq "*" r2 with
  | Some r3 => Some (SImportFrom m [Alias "*" None] k, r3)
  | None =>
      match opq "(" r2 with
      | Some r3 =>
          let? (l, r4) := p_imports n false r3 in
          let? r5 := opq ")" (match opq "," r4 with Some r5 => r5 | None => r4 end) in Some (SImportFrom m l k, r5)
      | None => let? (l, r3) := p_imports n false r2 in Some (SImportFrom m l k, r3)
      end
  end.
(** (star_targets '=')* (yield_expr | star_expressions): the targets, and the value *)
Fixpoint p_assign (n : nat) (ts : list tok) : option (list expr * expr * list tok) :=
  match n with
  | O => None
  | S n =>
      let? (v, r) := p_rhs n ts in
      match opq "=" r with
      | Some r1 => if is_target v then let? (l, v', r2) := p_assign n r1 in Some (v :: l, v', r2) else None
      | None => Some ([], v, r)
      end
  end.
(** assignment | star_expressions *)
Definition p_exprstmt (n : nat) (ts : list tok) : option (stmt * list tok) :=
  let? (e, r) := p_stars n ts in
  match opq ":" r with
  | Some r1 =>
      if is_single e then
        let? (a, r2) := p n LExpr r1 in
        let? (v, r3) := match opq "=" r2 with Some r3 => let? (v, r4) := p_rhs n r3 in Some (Some v, r4) | None => Some (None, r2) end in
        Some (SAnnAssign e a v (match ts with TId _ :: TOp x :: _ => String.eqb x ":" | _ => false end), r3)
      else None
  | None =>
      match augq r with
      | Some (o, r1) => if is_single e then let? (v, r2) := p_rhs n r1 in Some (SAugAssign e o v, r2) else None
      | None =>
          match opq "=" r with
          | Some r1 => if is_target e then let? (l, v, r2) := p_assign n r1 in Some (SAssign (e :: l) v, r2) else None
          | None => Some (SExpr e, r)
          end
      end
  end.
(** type_params: '[' type_param with commas between [','] ']', after the bracket *)
Definition p_tparam (n : nat) (ts : list tok) : option (type_param * list tok) :=
  match opq "*" ts with
  | Some r => let? (x, r1) := idq r in Some (TypeVarTuple x, r1)
  | None =>
      match opq "**" ts with
      | Some r => let? (x, r1) := idq r in Some (ParamSpec x, r1)
      | None =>
          let? (x, r) := idq ts in
          match opq ":" r with Some r1 => let? (e, r2) := p n LExpr r1 in Some (TypeVar x (Some e), r2) | None => Some (TypeVar x None, r) end
      end
  end.
Fixpoint p_tparams (n : nat) (ts : list tok) : option (list type_param * list tok) :=
  match n with
  | O => None
  | S n =>
      let? (t, r) := p_tparam n ts in
      match opq "," r with
      | Some r1 => match opq "]" r1 with Some r2 => Some ([t], r2) | None => let? (l, r2) := p_tparams n r1 in Some (t :: l, r2) end
      | None => let? r1 := opq "]" r in Some ([t], r1)
      end
  end.
Definition p_tps (n : nat) (ts : list tok) : option (list type_param * list tok) :=
  match opq "[" ts with Some r => p_tparams n r | None => Some ([], ts) end.
(** type_alias, after 'type': NAME [type_params] '=' expression *)
Definition p_alias (n : nat) (ts : list tok) : option (stmt * list tok) :=
  let? (x, r) := idq ts in
  let? (tps, r1) := p_tps n r in
  let? r2 := opq "=" r1 in
  let? (v, r3) := p n LExpr r2 in Some (STypeAlias (EName x) tps v, r3).
(** After the name type, another name can only be a type alias. *)
Definition p_simple (n : nat) (ts : list tok) : option (stmt * list tok) :=
  match ts with
  | TId x :: r => if String.eqb x "type" then match r with TId _ :: _ => p_alias n r | _ => p_exprstmt n ts end else p_exprstmt n ts
  | TKw x :: r =>
      if String.eqb x "pass" then Some (SPass, r)
      else if String.eqb x "break" then Some (SBreak, r)
      else if String.eqb x "continue" then Some (SContinue, r)
      else if String.eqb x "return" then
        if ends_simple r then Some (SReturn None, r) else let? (e, r1) := p_stars n r in Some (SReturn (Some e), r1)
      else if String.eqb x "raise" then
        if ends_simple r then Some (SRaise None None, r)
        else let? (e, r1) := p n LExpr r in
             match kwq "from" r1 with Some r2 => let? (c, r3) := p n LExpr r2 in Some (SRaise (Some e) (Some c), r3) | None => Some (SRaise (Some e) None, r1) end
      else if String.eqb x "global" then let? (l, r1) := p_names n r in Some (SGlobal l, r1)
      else if String.eqb x "nonlocal" then let? (l, r1) := p_names n r in Some (SNonlocal l, r1)
      else if String.eqb x "del" then
        match p_list n KTarget r with
        | (its, _, r1) => let? l := exprs_of its in match l with [] => None | _ => if forallb is_deltarget l then Some (SDelete l, r1) else None end
        end
      else if String.eqb x "assert" then
        let? (e, r1) := p n LExpr r in
        match opq "," r1 with Some r2 => let? (m, r3) := p n LExpr r2 in Some (SAssert e (Some m), r3) | None => Some (SAssert e None, r1) end
      else if String.eqb x "import" then let? (l, r1) := p_imports n true r in Some (SImport l, r1)
      else if String.eqb x "from" then p_from n r
      else if String.eqb x "yield" then let? (e, r1) := p_yield n r in Some (SExpr e, r1)
      else p_exprstmt n ts
  | _ => p_exprstmt n ts
  end.
(** simple_stmts: with semicolons between; NEWLINE *)
Fixpoint p_simples (n : nat) (ts : list tok) : option (list stmt * list tok) :=
  match n with
  | O => None
  | S n =>
      let? (s, r) := p_simple n ts in
      match opq ";" r with
      | Some r1 => match nlq r1 with Some r2 => Some ([s], r2) | None => let? (l, r2) := p_simples n r1 in Some (s :: l, r2) end
      | None => let? r1 := nlq r in Some ([s], r1)
      end
  end.

(** ** Compound statements *)
Definition next_op (l : list string) (ts : list tok) : bool := match ts with TOp x :: _ => smem x l | _ => false end.
(** with_item: expression 'as' star_target &(',' | ')' | ':') | expression *)
Definition p_witem (n : nat) (ts : list tok) : option (expr * option expr * list tok) :=
  let? (e, r) := p n LExpr ts in
  match (let? r1 := kwq "as" r in
         match p_item n KTarget r1 with
         | Some (IExpr t, r2) => if is_starred t then None else if next_op [","; ")"; ":"] r2 then Some (t, r2) else None
         | _ => None
         end) with
  | Some (t, r2) => Some (e, Some t, r2)
  | None => Some (e, None, r)
  end.
(** with_items with commas between, and what follows *)
Fixpoint p_witems (n : nat) (ts : list tok) : option (list (expr * option expr) * list tok) :=
  match n with
  | O => None
  | S n =>
      let? (i, r) := p_witem n ts in
      match (let? r1 := opq "," r in p_witems n r1) with
      | Some (l, r2) => Some (i :: l, r2)
      | None => Some ([i], r)
      end
  end.
(** '(' with_items [','] ')' ':' | with_items ':' *)
Definition p_with (n : nat) (ts : list tok) : option (list (expr * option expr) * list tok) :=
  match (let? r := opq "(" ts in let? (l, r1) := p_witems n r in
         let? r2 := opq ")" (match opq "," r1 with Some r2 => r2 | None => r1 end) in let? r3 := opq ":" r2 in Some (l, r3)) with
  | Some x => Some x
  | None => let? (l, r1) := p_witems n ts in let? r2 := opq ":" r1 in Some (l, r2)
  end.
(** star_targets, of a for statement *)
Definition p_targets (n : nat) (ts : list tok) : option (expr * list tok) :=
  match p_list n KTarget ts with
  | (its, trailing, r) => let? l := exprs_of its in let? t := tuple_or_single l trailing in if is_starred t then None else Some (t, r)
  end.
(** ('@' named_expression NEWLINE)* *)
Fixpoint p_decos (n : nat) (ts : list tok) : option (list expr * list tok) :=
  match n with
  | O => None
  | S n =>
      match opq "@" ts with
      | Some r => let? (e, r1) := p n LNamed r in let? r2 := nlq r1 in let? (l, r3) := p_decos n r2 in Some (e :: l, r3)
      | None => Some ([], ts)
      end
  end.
(** The head of a function definition, after 'def'; of a class definition, after 'class'; up to the colon *)
Definition p_defhead (n : nat) (ts : list tok) : option (string * list type_param * arguments * option expr * list tok) :=
  let? (x, r) := idq ts in
  let? (tps, r1) := p_tps n r in
  let? r2 := opq "(" r1 in
  match p_list n (KParam true) r2 with
  | (its, _, r3) =>
      let? a := build its in
      let? r4 := opq ")" r3 in
      let? (ret, r5) := match opq "->" r4 with Some r5 => let? (e, r6) := p n LExpr r5 in Some (Some e, r6) | None => Some (None, r4) end in
      let? r6 := opq ":" r5 in Some (x, tps, a, ret, r6)
  end.
Definition p_classhead (n : nat) (ts : list tok) : option (string * list type_param * list expr * list keyword * list tok) :=
  let? (x, r) := idq ts in
  let? (tps, r1) := p_tps n r in
  let? (a, k, r2) :=
    match opq "(" r1 with
    | Some r2 => match p_list n KArg r2 with (its, _, r3) => let? (a, k) := call_args false false its in let? r4 := opq ")" r3 in Some (a, k, r4) end
    | None => Some ([], [], r1)
    end in
  let? r3 := opq ":" r2 in Some (x, tps, a, k, r3).

(** ** Patterns (8.6.4) *)
(** pattern_capture_target: NAME, but not the wildcard, and not before '.', '(' or '='. *)
Definition p_capture (ts : list tok) : option (string * list tok) :=
  let? (x, r) := idq ts in if String.eqb x "_" || next_op ["."; "("; "="] r then None else Some (x, r).
(** ('.' NAME)*, after the name or attribute [e] *)
Fixpoint p_attrs (n : nat) (e : expr) (ts : list tok) : option (expr * list tok) :=
  match n with
  | O => None
  | S n => match opq "." ts with Some r => let? (x, r1) := idq r in p_attrs n (EAttr e x) r1 | None => Some (e, ts) end
  end.
Definition is_num (c : const) : bool := match c with CInt _ | CNum _ => true | _ => false end.
(** The [repr] of an imaginary number ends with j. *)
Fixpoint ends_j (s : string) : bool := match s with "" => false | String c "" => Ascii.eqb c "j" | String _ r => ends_j r end.
Definition is_imag (c : const) : bool := match c with CNum r => ends_j r | _ => false end.
(** signed_number: ['-'] NUMBER *)
Definition p_signed (ts : list tok) : option (const * expr * list tok) :=
  match ts with
  | TConst c :: r => if is_num c then Some (c, EConst c, r) else None
  | TOp x :: TConst c :: r => if String.eqb x "-" && is_num c then Some (c, EUnary USub (EConst c), r) else None
  | _ => None
  end.
(** literal_expr: signed_number !('+' | '-') | complex_number | strings | 'None' | 'True' | 'False' *)
Definition p_literal (ts : list tok) : option (expr * list tok) :=
  match ts with
  | TKw x :: r => let? c := assoc x [("None", CNone); ("True", CTrue); ("False", CFalse)] in Some (EConst c, r)
  | TConst (CStr u s) :: r => if is_strtok r then None else Some (EConst (CStr u s), r)
  | TConst (CBytes s) :: r => if is_strtok r then None else Some (EConst (CBytes s), r)
  | _ =>
      let? (c, e, r) := p_signed ts in
      match r with
      | TOp x :: r1 =>
          match assoc x [("+", Add); ("-", Sub)] with
          | Some o => match r1 with TConst d :: r2 => if negb (is_imag c) && is_imag d then Some (EBinOp e o (EConst d), r2) else None | _ => None end
          | None => Some (e, r)
          end
      | _ => Some (e, r)
      end
  end.
(** What stands between commas: in a sequence, in a mapping, in a class pattern. *)
Inductive pkind : Type := KSeq | KMap | KCls.
Inductive pitem : Type := IPat (p : pattern) | IPair (k : expr) (p : pattern) | IRest (x : string) | IPk (x : string) (p : pattern).
Definition is_pstar (p : pattern) : bool := match p with PStar _ => true | _ => false end.
Fixpoint pats_of (l : list pitem) : option (list pattern) :=
  match l with [] => Some [] | IPat p :: r => let? l := pats_of r in Some (p :: l) | _ => None end.
(** items_pattern, and then double_star_pattern, or not *)
Fixpoint map_of (l : list pitem) : option (list (expr * pattern) * option string) :=
  match l with
  | [] => Some ([], None)
  | [IRest x] => Some ([], Some x)
  | IPair k p :: r => let? (l, x) := map_of r in Some ((k, p) :: l, x)
  | _ => None
  end.
Fixpoint kwds_of (l : list pitem) : option (list (string * pattern)) :=
  match l with [] => Some [] | IPk x p :: r => let? l := kwds_of r in Some ((x, p) :: l) | _ => None end.
(** positional_patterns, and then keyword_patterns *)
Fixpoint cls_of (l : list pitem) : option (list pattern * list (string * pattern)) :=
  match l with IPat p :: r => let? (a, k) := cls_of r in Some (p :: a, k) | _ => let? k := kwds_of l in Some ([], k) end.
(** A sequence without brackets, or one pattern: open_sequence_pattern | pattern *)
Definition seq_or_pat (l : list pattern) (trailing : bool) : option pattern :=
  match l, trailing with [p], false => if is_pstar p then None else Some p | _, _ => Some (PSequence l) end.
(** [p_pat]: as_pattern | or_pattern. [p_ors]: closed_pattern with '|' between. *)
Fixpoint p_pat (n : nat) (ts : list tok) {struct n} : option (pattern * list tok) :=
  match n with
  | O => None
  | S n =>
      let? (l, r) := p_ors n ts in
      let p := match l with [p] => p | _ => POr l end in
      match kwq "as" r with
      | Some r1 => let? (x, r2) := p_capture r1 in Some (PAs (Some p) (Some x), r2)
      | None => Some (p, r)
      end
  end
with p_ors (n : nat) (ts : list tok) {struct n} : option (list pattern * list tok) :=
  match n with
  | O => None
  | S n =>
      let? (p, r) := p_closed n ts in
      match opq "|" r with
      | Some r1 => let? (l, r2) := p_ors n r1 in Some (p :: l, r2)
      | None => Some ([p], r)
      end
  end
with p_closed (n : nat) (ts : list tok) {struct n} : option (pattern * list tok) :=
  match n with
  | O => None
  | S n =>
      match ts with
      | TId x :: r =>
          (* capture_pattern | wildcard_pattern | value_pattern | class_pattern *)
          if String.eqb x "_" then Some (PAs None None, r)
          else
            let? (e, r1) := p_attrs n (EName x) r in
            match opq "(" r1 with
            | Some r2 => match p_plist n KCls r2 with (its, _, r3) => let? (a, k) := cls_of its in let? r4 := opq ")" r3 in Some (PClass e a k, r4) end
            | None => if next_op ["="] r1 then None else Some (match e with EName x => PAs None (Some x) | _ => PValue e end, r1)
            end
      | TOp x :: r =>
          if String.eqb x "(" then
            (* group_pattern | sequence_pattern *)
            match p_plist n KSeq r with (its, t, r1) => let? l := pats_of its in let? r2 := opq ")" r1 in let? p := seq_or_pat l t in Some (p, r2) end
          else if String.eqb x "[" then
            match p_plist n KSeq r with (its, _, r1) => let? l := pats_of its in let? r2 := opq "]" r1 in Some (PSequence l, r2) end
          else if String.eqb x "{" then
            match p_plist n KMap r with (its, _, r1) => let? (l, x) := map_of its in let? r2 := opq "}" r1 in Some (PMapping l x, r2) end
          else let? (e, r1) := p_literal ts in Some (PValue e, r1)
      | TKw x :: r => let? c := assoc x [("None", CNone); ("True", CTrue); ("False", CFalse)] in Some (PSingleton c, r)
      | _ => let? (e, r1) := p_literal ts in Some (PValue e, r1)
      end
  end
with p_plist (n : nat) (k : pkind) (ts : list tok) {struct n} : list pitem * bool * list tok :=
  match n with
  | O => ([], false, ts)
  | S n =>
      match p_pitem n k ts with
      | Some (i, r) =>
          match opq "," r with
          | Some r1 => match p_plist n k r1 with ([], _, _) => ([i], true, r1) | (l, trailing, r2) => (i :: l, trailing, r2) end
          | None => ([i], false, r)
          end
      | None => ([], false, ts)
      end
  end
with p_pitem (n : nat) (k : pkind) (ts : list tok) {struct n} : option (pitem * list tok) :=
  match n with
  | O => None
  | S n =>
      match k with
      | KSeq =>
          (* star_pattern | pattern *)
          match opq "*" ts with
          | Some r =>
              match p_capture r with
              | Some (x, r1) => Some (IPat (PStar (Some x)), r1)
              | None => let? (x, r1) := idq r in if String.eqb x "_" then Some (IPat (PStar None), r1) else None
              end
          | None => let? (p, r) := p_pat n ts in Some (IPat p, r)
          end
      | KMap =>
          (* double_star_pattern | (literal_expr | attr) ':' pattern *)
          match opq "**" ts with
          | Some r => let? (x, r1) := p_capture r in Some (IRest x, r1)
          | None =>
              let? (e, r) :=
                match ts with
                | TId x :: r => let? (e, r1) := p_attrs n (EName x) r in match e with EAttr _ _ => Some (e, r1) | _ => None end
                | _ => p_literal ts
                end in
              let? r1 := opq ":" r in let? (p, r2) := p_pat n r1 in Some (IPair e p, r2)
          end
      | KCls =>
          match (let? (x, r) := idq ts in let? r1 := opq "=" r in Some (x, r1)) with
          | Some (x, r) => let? (p, r1) := p_pat n r in Some (IPk x p, r1)
          | None => let? (p, r) := p_pat n ts in Some (IPat p, r)
          end
      end
  end.
(** What comes after 'case', and the guard. *)
Definition p_patterns (n : nat) (ts : list tok) : option (pattern * list tok) :=
  match p_plist n KSeq ts with
  | (its, trailing, r) => let? l := pats_of its in match l with [] => None | _ => let? p := seq_or_pat l trailing in Some (p, r) end
  end.
Definition p_guard (n : nat) (ts : list tok) : option (option expr * list tok) :=
  match kwq "if" ts with Some r => let? (e, r1) := p n LNamed r in Some (Some e, r1) | None => Some (None, ts) end.
(** subject_expr, after 'match', and up to the indented cases *)
Definition p_subject (n : nat) (ts : list tok) : option (expr * list tok) :=
  match p_list n KStarNamed ts with
  | (its, trailing, r) =>
      let? l := exprs_of its in let? e := tuple_or_single l trailing in
      if is_starred e then None else let? r1 := opq ":" r in let? r2 := nlq r1 in let? r3 := indentq r2 in Some (e, r3)
  end.

(** [p_stmt]: one statement, or the simple statements of a line. [p_stmts]: statements as long as there are some. [p_block]: after a colon.
    [p_else], [p_elif], [p_finally]: the parts that may be left out. [p_handlers]: except blocks, all with or all without star.
    [p_match]: a match statement, after the name match; if there is none, that name begins a simple statement. [p_cases]: case blocks. *)
Fixpoint p_stmt (n : nat) (ts : list tok) {struct n} : option (list stmt * list tok) :=
  match n with
  | O => None
  | S n =>
      match ts with
      | TKw x :: r =>
          if String.eqb x "if" then
            let? (t, r1) := p n LNamed r in let? r2 := opq ":" r1 in let? (b, r3) := p_block n r2 in
            let? (o, r4) := p_elif n r3 in Some ([SIf t b o], r4)
          else if String.eqb x "while" then
            let? (t, r1) := p n LNamed r in let? r2 := opq ":" r1 in let? (b, r3) := p_block n r2 in
            let? (o, r4) := p_else n r3 in Some ([SWhile t b o], r4)
          else if String.eqb x "for" then p_for n false r
          else if String.eqb x "with" then p_withs n false r
          else if String.eqb x "def" then p_def n false [] r
          else if String.eqb x "class" then p_class n [] r
          else if String.eqb x "async" then
            match kwq "for" r with
            | Some r1 => p_for n true r1
            | None =>
                match kwq "with" r with
                | Some r1 => p_withs n true r1
                | None => let? r1 := kwq "def" r in p_def n true [] r1
                end
            end
          else if String.eqb x "try" then
            let? r1 := opq ":" r in let? (b, r2) := p_block n r1 in
            match kwq "except" r2 with
            | Some r3 =>
                let star := match opq "*" r3 with Some _ => true | None => false end in
                let? (hs, r4) := p_handlers n star r2 in let? (o, r5) := p_else n r4 in let? (f, r6) := p_finally n r5 in
                Some ([STry star b hs o f], r6)
            | None => let? (f, r3) := p_finally n r2 in match f with [] => None | _ => Some ([STry false b [] [] f], r3) end
            end
          else p_simples n ts
      | TOp x :: r =>
          if String.eqb x "@" then
            let? (ds, r1) := p_decos n ts in
            match kwq "class" r1 with
            | Some r2 => p_class n ds r2
            | None =>
                match kwq "async" r1 with
                | Some r2 => let? r3 := kwq "def" r2 in p_def n true ds r3
                | None => let? r2 := kwq "def" r1 in p_def n false ds r2
                end
            end
          else p_simples n ts
      | TId x :: r => if String.eqb x "match" then match p_match n r with Some y => Some y | None => p_simples n ts end else p_simples n ts
      | _ => p_simples n ts
      end
  end
with p_stmts (n : nat) (ts : list tok) {struct n} : list stmt * list tok :=
  match n with
  | O => ([], ts)
  | S n => match p_stmt n ts with Some (l, r) => let (l', r1) := p_stmts n r in (l ++ l', r1) | None => ([], ts) end
  end
with p_block (n : nat) (ts : list tok) {struct n} : option (list stmt * list tok) :=
  match n with
  | O => None
  | S n =>
      match nlq ts with
      | Some r =>
          let? r1 := indentq r in
          match p_stmts n r1 with ([], _) => None | (l, r2) => let? r3 := dedentq r2 in Some (l, r3) end
      | None => p_simples n ts
      end
  end
with p_else (n : nat) (ts : list tok) {struct n} : option (list stmt * list tok) :=
  match n with
  | O => None
  | S n => match kwq "else" ts with Some r => let? r1 := opq ":" r in p_block n r1 | None => Some ([], ts) end
  end
with p_finally (n : nat) (ts : list tok) {struct n} : option (list stmt * list tok) :=
  match n with
  | O => None
  | S n => match kwq "finally" ts with Some r => let? r1 := opq ":" r in p_block n r1 | None => Some ([], ts) end
  end
with p_elif (n : nat) (ts : list tok) {struct n} : option (list stmt * list tok) :=
  match n with
  | O => None
  | S n =>
      match kwq "elif" ts with
      | Some r =>
          let? (t, r1) := p n LNamed r in let? r2 := opq ":" r1 in let? (b, r3) := p_block n r2 in
          let? (o, r4) := p_elif n r3 in Some ([SIf t b o], r4)
      | None => p_else n ts
      end
  end
with p_handlers (n : nat) (star : bool) (ts : list tok) {struct n} : option (list handler * list tok) :=
  match n with
  | O => None
  | S n =>
      match kwq "except" ts with
      | None => Some ([], ts)
      | Some r =>
          let? r1 := if star then opq "*" r else match opq "*" r with Some _ => None | None => Some r end in
          let? (t, x, r2) :=
            match opq ":" r1 with
            | Some _ => if star then None else Some (None, None, r1)
            | None => let? (e, r2) := p n LExpr r1 in let? (x, r3) := p_as r2 in Some (Some e, x, r3)
            end in
          let? r3 := opq ":" r2 in let? (b, r4) := p_block n r3 in
          let? (l, r5) := p_handlers n star r4 in Some (Handler t x b :: l, r5)
      end
  end
with p_match (n : nat) (ts : list tok) {struct n} : option (list stmt * list tok) :=
  match n with
  | O => None
  | S n =>
      let? (e, r) := p_subject n ts in
      let? (cs, r1) := p_cases n r in
      match cs with [] => None | _ => let? r2 := dedentq r1 in Some ([SMatch e cs], r2) end
  end
with p_cases (n : nat) (ts : list tok) {struct n} : option (list mcase * list tok) :=
  match n with
  | O => None
  | S n =>
      match (match ts with TId x :: r => if String.eqb x "case" then Some r else None | _ => None end) with
      | None => Some ([], ts)
      | Some r =>
          let? (p, r1) := p_patterns n r in let? (g, r2) := p_guard n r1 in
          let? r3 := opq ":" r2 in let? (b, r4) := p_block n r3 in
          let? (l, r5) := p_cases n r4 in Some (Case p g b :: l, r5)
      end
  end
with p_for (n : nat) (a : bool) (ts : list tok) {struct n} : option (list stmt * list tok) :=
  match n with
  | O => None
  | S n =>
      let? (t, r) := p_targets n ts in let? r1 := kwq "in" r in let? (it, r2) := p_stars n r1 in let? r3 := opq ":" r2 in
      let? (b, r4) := p_block n r3 in let? (o, r5) := p_else n r4 in Some ([SFor a t it b o], r5)
  end
with p_withs (n : nat) (a : bool) (ts : list tok) {struct n} : option (list stmt * list tok) :=
  match n with
  | O => None
  | S n => let? (l, r) := p_with n ts in let? (b, r1) := p_block n r in Some ([SWith a l b], r1)
  end
with p_def (n : nat) (a : bool) (ds : list expr) (ts : list tok) {struct n} : option (list stmt * list tok) :=
  match n with
  | O => None
  | S n => let? (x, tps, args, ret, r) := p_defhead n ts in let? (b, r1) := p_block n r in Some ([SFunction a x tps args b ds ret], r1)
  end
with p_class (n : nat) (ds : list expr) (ts : list tok) {struct n} : option (list stmt * list tok) :=
  match n with
  | O => None
  | S n => let? (x, tps, bases, kws, r) := p_classhead n ts in let? (b, r1) := p_block n r in Some ([SClass x tps bases kws b ds], r1)
  end.

(** ast.parse(text), and then [.body]: some (and every larger) bound gives the statements. The text is the first line's. *)
Definition parses_module (read : string -> string) (s : string) (l : list stmt) : Prop :=
  exists ts lts, lex read (nl ++ s) = Some ts /\ layout [0] ts = Some lts /\ exists N, forall n, N <= n -> p_stmts n lts = (l, []).
