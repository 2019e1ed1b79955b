(** Python's own reading of source text, as far as the unparser's output needs it: the tokenizer (Python reference, chapter 2) and
    the PEG grammar (chapter 10, Python 3.12) for expressions. It is written from the reference, not from the unparser.

    It is a part of Python: text that it reads, Python reads the same way. f-strings are read as in Python 3.12 (PEP 701). Left out (such text
    is refused): the self-documenting form of f-strings, with an equals sign, unparenthesized tuples and yield in them, raw and triple-quoted strings, escapes other than those for backslash, quotes, n, r, t and xhh, numbers with a base prefix or underscores,
    comments, line joining, tabs, characters above 255. *)
From Coq Require Import DecimalString NArith.
From Verif Require Import Base UnparseModel.
Open Scope string_scope.

(** ** Tokens *)
Inductive tok : Type :=
| TId (x : string)          (* an identifier; the soft keywords are identifiers *)
| TKw (x : string)          (* a keyword *)
| TOp (x : string)
| TConst (c : const)        (* a literal *)
| TF (l : list fpart)       (* an f-string: what Python's tokenizer gives from FSTRING_START to FSTRING_END *)
| TNl (k : nat)             (* end of line; the next line is indented by k blanks *)
| TNewline | TIndent | TDedent
(** The parts of an f-string: text, with escapes and doubled braces resolved; a replacement field: the tokens of its expression, the conversion (-1: none),
    the format specification. *)
with fpart : Type :=
| FText (s : string)
| FField (ts : list tok) (conv : Z) (spec : option (list fpart)).

Definition keywords : list string :=
  ["False"; "None"; "True"; "and"; "as"; "assert"; "async"; "await"; "break"; "class"; "continue"; "def"; "del"; "elif"; "else"; "except";
   "finally"; "for"; "from"; "global"; "if"; "import"; "in"; "is"; "lambda"; "nonlocal"; "not"; "or"; "pass"; "raise"; "return"; "try";
   "while"; "with"; "yield"].

Definition between (a b : nat) (c : ascii) : bool := Nat.leb a (nat_of_ascii c) && Nat.leb (nat_of_ascii c) b.
Definition is_digit (c : ascii) : bool := between 48 57 c.
(** Letters: ASCII, and the Latin-1 letters that NFKC normalization leaves alone. *)
Definition is_idstart (c : ascii) : bool :=
  between 65 90 c || between 97 122 c || Nat.eqb (nat_of_ascii c) 95 || between 192 214 c || between 216 246 c || between 248 255 c.
Definition is_idchar (c : ascii) : bool := is_idstart c || is_digit c.
Fixpoint all_chars (f : ascii -> bool) (s : string) : bool := match s with "" => true | String c r => f c && all_chars f r end.
Definition is_identifier (x : string) : bool :=
  match x with "" => false | String c r => is_idstart c && all_chars is_idchar r && negb (smem x keywords) end.

Fixpoint span (f : ascii -> bool) (s : string) : string * string :=
  match s with
  | "" => ("", "")
  | String c r => if f c then let (a, b) := span f r in (String c a, b) else ("", s)
  end.

(** An exponent: e, a sign, digits. *)
Definition scan_exp (s : string) : string * string :=
  match s with
  | String e r =>
      if Ascii.eqb e "e" || Ascii.eqb e "E" then
        let (sg, r1) := match r with String g r' => if Ascii.eqb g "+" || Ascii.eqb g "-" then (one g, r') else ("", r) | "" => ("", r) end in
        let (d, r2) := span is_digit r1 in
        match d with "" => ("", s) | _ => (String e (sg ++ d), r2) end
      else ("", s)
  | "" => ("", s)
  end.
Definition scan_frac (s : string) : string * string :=
  match s with String c r => if Ascii.eqb c "." then let (d, r1) := span is_digit r in (String c d, r1) else ("", s) | "" => ("", s) end.
Definition scan_imag (s : string) : string * string :=
  match s with String c r => if Ascii.eqb c "j" || Ascii.eqb c "J" then (one c, r) else ("", s) | "" => ("", s) end.
(** A decimal number: the digits, the rest of the literal (empty for an integer), what follows. *)
Definition scan_number (s : string) : string * string * string :=
  let (d, r1) := span is_digit s in
  let (f, r2) := scan_frac r1 in
  let (e, r3) := scan_exp r2 in
  let (j, r4) := scan_imag r3 in
  (d, f ++ e ++ j, r4).
Definition starts (f : ascii -> bool) (s : string) : bool := match s with String c _ => f c | "" => false end.
(** No leading zeros, unless for zero. *)
Definition int_ok (d : string) : bool := match d with String c r => if Ascii.eqb c "0" then all_chars (Ascii.eqb "0") r else true | "" => false end.

Definition unhex (c : ascii) : option nat :=
  if is_digit c then Some (nat_of_ascii c - 48)
  else if between 97 102 c then Some (nat_of_ascii c - 87)
  else if between 65 70 c then Some (nat_of_ascii c - 55) else None.
Definition unescape (c : ascii) : option ascii :=
  if Ascii.eqb c bs || Ascii.eqb c sq || Ascii.eqb c dq then Some c
  else if Ascii.eqb c "n" then Some (ascii_of_nat 10)
  else if Ascii.eqb c "r" then Some (ascii_of_nat 13)
  else if Ascii.eqb c "t" then Some (ascii_of_nat 9) else None.
(** The inside of a string literal up to the closing quote [q]. *)
Fixpoint scan_str (bytes : bool) (q : ascii) (s : string) : option (string * string) :=
  match s with
  | "" => None
  | String c r =>
      if Ascii.eqb c q then Some ("", r)
      else if Ascii.eqb c bs then
        match r with
        | String e r1 =>
            if Ascii.eqb e "x" then
              match r1 with
              | String h1 (String h2 r2) =>
                  match unhex h1, unhex h2, scan_str bytes q r2 with
                  | Some a, Some b, Some (t, u) => Some (String (ascii_of_nat (16 * a + b)) t, u)
                  | _, _, _ => None
                  end
              | _ => None
              end
            else match unescape e, scan_str bytes q r1 with Some d, Some (t, u) => Some (String d t, u) | _, _ => None end
        | "" => None
        end
      else if Nat.eqb (nat_of_ascii c) 10 || Nat.eqb (nat_of_ascii c) 13 || Nat.eqb (nat_of_ascii c) 0 || (bytes && Nat.leb 128 (nat_of_ascii c))
      then None
      else match scan_str bytes q r with Some (t, u) => Some (String c t, u) | None => None end
  end.
(** A string literal from its opening quote on; not a triple-quoted one. *)
Definition scan_quoted (bytes : bool) (s : string) : option (string * string) :=
  match s with
  | String q r => match r with String a (String b _) => if Ascii.eqb a q && Ascii.eqb b q then None else scan_str bytes q r | _ => scan_str bytes q r end
  | "" => None
  end.
Definition is_quote (c : ascii) : bool := Ascii.eqb c sq || Ascii.eqb c dq.

(** Operators and delimiters: the longest match. *)
Definition is_op1 (a : ascii) : bool := has_char a "+-*/%@&|^~<>()[]{},:=;".
Definition is_op2 (a b : ascii) : bool :=
  (Ascii.eqb b "=" && has_char a "+-*/%@&|^<>=!:") || (Ascii.eqb a b && has_char a "*/<>") || (Ascii.eqb a "-" && Ascii.eqb b ">").
Definition is_op3 (a b c : ascii) : bool := Ascii.eqb a b && has_char a "*/<>" && Ascii.eqb c "=".
Definition scan_op (s : string) : option (string * string) :=
  match s with
  | "" => None
  | String a r =>
      match r with
      | String b r2 =>
          if is_op2 a b then
            match r2 with
            | String c r3 => if is_op3 a b c then Some (String a (String b (one c)), r3) else Some (String a (one b), r2)
            | "" => Some (String a (one b), r2)
            end
          else if is_op1 a then Some (one a, r) else None
      | "" => if is_op1 a then Some (one a, r) else None
      end
  end.

Section Lexer.
  (** The [repr] of the value of a float or imaginary literal. *)
  Variable read : string -> string.

  Definition number (s : string) : option (option tok * string) :=
    match scan_number s with
    | (d, more, r) =>
        if starts is_idchar r then None
        else match more with
             | "" => match NilZero.uint_of_string d with
                     | Some u => if int_ok d then Some (Some (TConst (CInt (N.of_uint u))), r) else None
                     | None => None
                     end
             | _ => Some (Some (TConst (CNum (read (d ++ more)))), r)
             end
    end.
  (** One step: a token, or nothing if a blank is skipped; and what follows. *)
  Definition step (s : string) : option (option tok * string) :=
    match s with
    | "" => None
    | String c r =>
        if Ascii.eqb c " " then Some (None, r)
        else if Nat.eqb (nat_of_ascii c) 10 then let (b, r1) := span (Ascii.eqb " ") r in Some (Some (TNl (String.length b)), r1)
        else if is_idstart c then
          let (x, r1) := span is_idchar s in
          if starts is_quote r1 then
            if String.eqb x "u" then match scan_quoted false r1 with Some (t, r2) => Some (Some (TConst (CStr true t)), r2) | None => None end
            else if String.eqb x "b" then match scan_quoted true r1 with Some (t, r2) => Some (Some (TConst (CBytes t)), r2) | None => None end
            else None
          else Some (Some (if smem x keywords then TKw x else TId x), r1)
        else if is_digit c then number s
        else if is_quote c then match scan_quoted false s with Some (t, r2) => Some (Some (TConst (CStr false t)), r2) | None => None end
        else if Ascii.eqb c "." then
          if starts is_digit r then number s
          else match r with
               | String a (String b r3) => if Ascii.eqb a "." && Ascii.eqb b "." then Some (Some (TOp "..."), r3) else Some (Some (TOp "."), r)
               | _ => Some (Some (TOp "."), r)
               end
        else match scan_op s with Some (o, r1) => Some (Some (TOp o), r1) | None => None end
    end.

  (** *** f-strings *)
  Definition addc (c : ascii) (l : list fpart) : list fpart := match l with FText t :: r => FText (String c t) :: r | _ => FText (one c) :: l end.
  (** The number of open brackets. *)
  Definition depth (t : tok) (d : nat) : option nat :=
    match t with
    | TOp x => if smem x ["("; "["; "{"] then Some (S d) else if smem x [")"; "]"; "}"] then match d with O => None | S d => Some d end else Some d
    | _ => Some d
    end.
  (** What ends the expression of a field, outside brackets. *)
  Definition field_end (s : string) : bool :=
    match s with String c r => Ascii.eqb c "}" || Ascii.eqb c ":" || (Ascii.eqb c "!" && negb (starts (Ascii.eqb "=") r)) | "" => false end.
  Definition scan_conv (s : string) : option (Z * string) :=
    match s with
    | String c r =>
        if Ascii.eqb c "!" then
          match r with
          | String k r1 =>
              if starts is_idchar r1 then None
              else if Ascii.eqb k "s" then Some (115%Z, r1) else if Ascii.eqb k "r" then Some (114%Z, r1) else if Ascii.eqb k "a" then Some (97%Z, r1) else None
          | "" => None
          end
        else Some ((-1)%Z, s)
    | "" => None
    end.
  (** One step, f-strings included. *)
  Fixpoint fstep (n : nat) (s : string) {struct n} : option (option tok * string) :=
    match step s with
    | Some x => Some x
    | None =>
        match n with
        | O => None
        | S n =>
            match s with
            | String f (String q r) =>
                if Ascii.eqb f "f" && is_quote q && negb (match r with String a (String b _) => Ascii.eqb a q && Ascii.eqb b q | _ => false end)
                then match fscan n 0 q r with Some (l, r1) => Some (Some (TF l), r1) | None => None end
                else None
            | _ => None
            end
        end
    end
  (** The inside of an f-string up to the closing quote ([lvl = 0]), or of a format specification, in a field of level [lvl - 1], up to the brace that closes the
      field. Fields may be nested twice. *)
  with fscan (n lvl : nat) (q : ascii) (s : string) {struct n} : option (list fpart * string) :=
    match n with
    | O => None
    | S n =>
        match s with
        | "" => None
        | String c r =>
            let lit := fun (d : ascii) (u : string) => match fscan n lvl q u with Some (l, v) => Some (addc d l, v) | None => None end in
            if Ascii.eqb c q then match lvl with O => Some ([], r) | S _ => None end
            else if Ascii.eqb c "{" then
              match lvl, r with
              | O, String "{" r1 => lit c r1
              | _, _ =>
                  if Nat.ltb lvl 2 then
                    match ffield n 0 r with
                    | Some (ts, r1) =>
                        match scan_conv r1 with
                        | Some (z, String k r2) =>
                            match (if Ascii.eqb k ":" then match fscan n (S lvl) q r2 with Some (x :: l, r3) => Some (Some (x :: l), r3) | _ => None end
                                   else Some (None, String k r2)) with
                            | Some (spec, String e r4) =>
                                if Ascii.eqb e "}" then match fscan n lvl q r4 with Some (l, v) => Some (FField ts z spec :: l, v) | None => None end else None
                            | _ => None
                            end
                        | _ => None
                        end
                    | None => None
                    end
                  else None
              end
            else if Ascii.eqb c "}" then
              match lvl, r with S _, _ => Some ([], s) | O, String "}" r1 => lit c r1 | O, _ => None end
            else if Ascii.eqb c bs then
              match r with
              | String e r1 =>
                  if Ascii.eqb e "x" then
                    match r1 with
                    | String h1 (String h2 r2) => match unhex h1, unhex h2 with Some a, Some b => lit (ascii_of_nat (16 * a + b)) r2 | _, _ => None end
                    | _ => None
                    end
                  else match unescape e with Some d => lit d r1 | None => None end
              | "" => None
              end
            else if Nat.eqb (nat_of_ascii c) 10 || Nat.eqb (nat_of_ascii c) 13 || Nat.eqb (nat_of_ascii c) 0 then None
            else lit c r
        end
    end
  (** The expression of a field: tokens up to its end. [d]: the number of brackets open in it. *)
  with ffield (n d : nat) (s : string) {struct n} : option (list tok * string) :=
    match n with
    | O => None
    | S n =>
        if Nat.eqb d 0 && field_end s then Some ([], s)
        else match fstep n s with
             | Some (None, r) => ffield n d r
             | Some (Some t, r) =>
                 match depth t d with
                 | Some d1 => match ffield n d1 r with Some (ts, u) => Some (t :: ts, u) | None => None end
                 | None => None
                 end
             | None => None
             end
    end.
  Fixpoint lexn (n : nat) (s : string) : option (list tok) :=
    match s with
    | "" => Some []
    | _ =>
        match n with
        | O => None
        | S n => match fstep n s with
                 | Some (t, r) => match lexn n r with Some l => Some (match t with Some t => t :: l | None => l end) | None => None end
                 | None => None
                 end
        end
    end.
  (** Every step takes at least one character. *)
  Definition lex (s : string) : option (list tok) := lexn (String.length s) s.
End Lexer.

(** ** Expressions *)
(** The levels of the grammar, from the tightest. *)
Inductive level : Type :=
| LPrim | LAwait | LPower | LFactor | LTerm | LSum | LShift | LBand | LBxor | LBor | LCmp | LInv | LConj | LDisj | LExpr | LNamed.

Notation "'let?' p := a 'in' b" := (match a with Some p => b | None => None end) (at level 200, p pattern, right associativity).

(** Is the next token the operator, the keyword? *)
Definition opq (x : string) (ts : list tok) : option (list tok) :=
  match ts with TOp y :: r => if String.eqb x y then Some r else None | _ => None end.
Definition kwq (x : string) (ts : list tok) : option (list tok) :=
  match ts with TKw y :: r => if String.eqb x y then Some r else None | _ => None end.
Definition idq (ts : list tok) : option (string * list tok) := match ts with TId x :: r => Some (x, r) | _ => None end.

Fixpoint assoc {A} (x : string) (l : list (string * A)) : option A := match l with [] => None | (y, a) :: r => if String.eqb x y then Some a else assoc x r end.
Definition binops (L : level) : list (string * binop) :=
  match L with
  | LTerm => [("*", Mult); ("/", Div); ("//", FloorDiv); ("%", Mod); ("@", MatMult)]
  | LSum => [("+", Add); ("-", Sub)]
  | LShift => [("<<", ShiftL); (">>", ShiftR)]
  | LBand => [("&", BitAnd)]
  | LBxor => [("^", BitXor)]
  | LBor => [("|", BitOr)]
  | _ => []
  end.
Definition tighter (L : level) : level :=
  match L with LTerm => LFactor | LSum => LTerm | LShift => LSum | LBand => LShift | LBxor => LBand | _ => LBxor end.
Definition binq (L : level) (ts : list tok) : option (binop * list tok) :=
  match ts with TOp y :: r => match assoc y (binops L) with Some o => Some (o, r) | None => None end | _ => None end.
Definition unq (ts : list tok) : option (unop * list tok) :=
  match ts with TOp y :: r => match assoc y [("+", UAdd); ("-", USub); ("~", Invert)] with Some o => Some (o, r) | None => None end | _ => None end.
Definition cmpq (ts : list tok) : option (cmpop * list tok) :=
  match ts with
  | TOp y :: r => match assoc y [("==", Eq_); ("!=", NotEq); ("<", Lt_); ("<=", LtE); (">", Gt_); (">=", GtE)] with Some o => Some (o, r) | None => None end
  | _ =>
      match kwq "is" ts with
      | Some r => match kwq "not" r with Some r1 => Some (IsNot, r1) | None => Some (Is, r) end
      | None =>
          match kwq "in" ts with
          | Some r => Some (In_, r)
          | None => match kwq "not" ts with Some r => match kwq "in" r with Some r1 => Some (NotIn, r1) | None => None end | None => None end
          end
      end
  end.

(** Items of comma-separated lists. *)
Inductive item : Type :=
| IExpr (e : expr)
| IKw (x : string) (e : expr)
| IDstar (e : expr)
| IKV (k v : expr)
| IParam (a : arg) (d : option expr)
| ISlash
| IStar (a : option arg)
| IDParam (a : arg).
(** The kinds of items: star_named_expression; star_expression; slice or starred_expression; an argument of a call; kvpair or double-starred;
    star_target; a parameter (with annotations, or of a lambda). *)
Inductive kind : Type := KStarNamed | KStarExpr | KSlice | KArg | KKV | KTarget | KParam (ann : bool).

Definition is_starred (e : expr) : bool := match e with EStarred _ => true | _ => false end.
Fixpoint exprs_of (l : list item) : option (list expr) :=
  match l with [] => Some [] | IExpr e :: r => let? l' := exprs_of r in Some (e :: l') | _ => None end.
(** What may be assigned to (star_target; a parenthesized target counts as the target). *)
Fixpoint is_target (e : expr) : bool :=
  match e with
  | EName _ | EAttr _ _ | ESub _ _ => true
  | ETuple l | EList l => forallb (fun e => match e with EStarred t => is_target t && negb (is_starred t) | _ => is_target e end) l
  | _ => false
  end.
(** A list of expressions without parentheses: a tuple, unless it is a single one without comma. *)
Definition tuple_or_single (l : list expr) (trailing : bool) : option expr :=
  match l, trailing with [], _ => None | [e], false => Some e | _, _ => Some (ETuple l) end.
(** Slices: as before, but a starred item always makes a tuple. *)
Definition slices (l : list expr) (trailing : bool) : option expr :=
  match l with [e] => if is_starred e then Some (ETuple l) else tuple_or_single l trailing | _ => tuple_or_single l trailing end.

(** The arguments of a call: no positional argument after a keyword argument, no positional or starred one after a double-starred one. *)
Fixpoint call_args (kw dstar : bool) (l : list item) : option (list expr * list keyword) :=
  match l with
  | [] => Some ([], [])
  | IExpr e :: r => if dstar || (kw && negb (is_starred e)) then None else let? (a, k) := call_args kw dstar r in Some (e :: a, k)
  | IKw x e :: r => let? (a, k) := call_args true dstar r in Some (a, Kw (Some x) e :: k)
  | IDstar e :: r => let? (a, k) := call_args true true r in Some (a, Kw None e :: k)
  | _ => None
  end.

(** The parameters of a function, from their list. *)
Fixpoint params (l : list item) : list (arg * option expr) * list item :=
  match l with IParam a d :: r => let (ps, r1) := params r in ((a, d) :: ps, r1) | _ => ([], l) end.
(** Parameters with default come last. *)
Fixpoint defaults_of (l : list (option expr)) : option (list expr) :=
  match l with
  | [] => Some []
  | None :: r => defaults_of r
  | Some d :: r => let? ds := defaults_of r in if Nat.eqb (List.length ds) (List.length r) then Some (d :: ds) else None
  end.
Definition build (l : list item) : option arguments :=
  let (ps, r) := params l in
  let? (posonly, args, r1) :=
    match r with
    | ISlash :: r' => match ps with [] => None | _ => let (qs, r2) := params r' in Some (ps, qs, r2) end
    | _ => Some ([], ps, r)
    end in
  let? ds := defaults_of (map snd posonly ++ map snd args) in
  let? (vararg, kwonly, r2) :=
    match r1 with
    | IStar v :: r' => let (ks, r3) := params r' in match v, ks with None, [] => None | _, _ => Some (v, ks, r3) end
    | _ => Some (None, [], r1)
    end in
  let? kwarg := match r2 with [] => Some None | [IDParam a] => Some (Some a) | _ => None end in
  Some (Args (map fst posonly) (map fst args) vararg (map fst kwonly) (map snd kwonly) kwarg ds).

Definition is_strtok (ts : list tok) : bool := match ts with TConst (CStr _ _) :: _ | TConst (CBytes _) :: _ | TF _ :: _ => true | _ => false end.

(** [p n L ts]: read an expression at level [L] from [ts]. PEG: alternatives in order, loops take what they can. [n] bounds the depth of the
    recursion and the lengths of lists. *)
Fixpoint p (n : nat) (L : level) (ts : list tok) {struct n} : option (expr * list tok) :=
  match n with
  | O => None
  | S n =>
      match L with
      | LNamed =>
          (* assignment_expression: NAME ':=' ~ expression | expression !':=' *)
          match (let? (x, r) := idq ts in let? r1 := opq ":=" r in Some (x, r1)) with
          | Some (x, r1) => let? (v, r2) := p n LExpr r1 in Some (ENamed (EName x) v, r2)
          | None => let? (e, r) := p n LExpr ts in match opq ":=" r with Some _ => None | None => Some (e, r) end
          end
      | LExpr =>
          (* disjunction 'if' disjunction 'else' expression | disjunction | lambdef *)
          match kwq "lambda" ts with
          | Some r =>
              match p_list n (KParam false) r with
              | (its, _, r1) => let? a := build its in let? r2 := opq ":" r1 in let? (b, r3) := p n LExpr r2 in Some (ELambda a b, r3)
              end
          | None =>
              let? (b, r) := p n LDisj ts in
              match (let? r1 := kwq "if" r in let? (t, r2) := p n LDisj r1 in let? r3 := kwq "else" r2 in
                     let? (o, r4) := p n LExpr r3 in Some (EIfExp b t o, r4)) with
              | Some x => Some x
              | None => Some (b, r)
              end
          end
      | LDisj =>
          let? (e, r) := p n LConj ts in
          match p_ops n "or" LConj r with ([], r1) => Some (e, r1) | (l, r1) => Some (EBool Or (e :: l), r1) end
      | LConj =>
          let? (e, r) := p n LInv ts in
          match p_ops n "and" LInv r with ([], r1) => Some (e, r1) | (l, r1) => Some (EBool And (e :: l), r1) end
      | LInv =>
          match kwq "not" ts with
          | Some r => let? (e, r1) := p n LInv r in Some (EUnary Not e, r1)
          | None => p n LCmp ts
          end
      | LCmp =>
          let? (e, r) := p n LBor ts in
          match p_cmps n r with ([], r1) => Some (e, r1) | (l, r1) => Some (ECompare e l, r1) end
      | LTerm | LSum | LShift | LBand | LBxor | LBor =>
          let? (e, r) := p n (tighter L) ts in Some (p_binl n L e r)
      | LFactor =>
          match unq ts with
          | Some (o, r) => let? (e, r1) := p n LFactor r in Some (EUnary o e, r1)
          | None => p n LPower ts
          end
      | LPower =>
          (* await_primary '**' factor | await_primary *)
          let? (e, r) := p n LAwait ts in
          match (let? r1 := opq "**" r in let? (f, r2) := p n LFactor r1 in Some (EBinOp e Pow f, r2)) with
          | Some x => Some x
          | None => Some (e, r)
          end
      | LAwait =>
          match kwq "await" ts with
          | Some r => let? (e, r1) := p n LPrim r in Some (EAwait e, r1)
          | None => p n LPrim ts
          end
      | LPrim => let? (e, r) := p_atom n ts in Some (p_trail n e r)
      end
  end
(** kw operand, any number of times *)
with p_ops (n : nat) (kw : string) (L : level) (ts : list tok) {struct n} : list expr * list tok :=
  match n with
  | O => ([], ts)
  | S n =>
      match (let? r := kwq kw ts in p n L r) with
      | Some (e, r1) => let (l, r2) := p_ops n kw L r1 in (e :: l, r2)
      | None => ([], ts)
      end
  end
with p_cmps (n : nat) (ts : list tok) {struct n} : list (cmpop * expr) * list tok :=
  match n with
  | O => ([], ts)
  | S n =>
      match (let? (o, r) := cmpq ts in let? (e, r1) := p n LBor r in Some (o, e, r1)) with
      | Some (o, e, r1) => let (l, r2) := p_cmps n r1 in ((o, e) :: l, r2)
      | None => ([], ts)
      end
  end
(** The binary operators of one level associate to the left. *)
with p_binl (n : nat) (L : level) (acc : expr) (ts : list tok) {struct n} : expr * list tok :=
  match n with
  | O => (acc, ts)
  | S n =>
      match (let? (o, r) := binq L ts in let? (e, r1) := p n (tighter L) r in Some (o, e, r1)) with
      | Some (o, e, r1) => p_binl n L (EBinOp acc o e) r1
      | None => (acc, ts)
      end
  end
(** The trailers of a primary: '.' NAME, genexp, '(' [args] ')', '[' slices ']'. *)
with p_trail (n : nat) (acc : expr) (ts : list tok) {struct n} : expr * list tok :=
  match n with
  | O => (acc, ts)
  | S n =>
      match p_trailer n acc ts with
      | Some (e, r) => p_trail n e r
      | None => (acc, ts)
      end
  end
with p_trailer (n : nat) (acc : expr) (ts : list tok) {struct n} : option (expr * list tok) :=
  match n with
  | O => None
  | S n =>
      match opq "." ts with
      | Some r => let? (x, r1) := idq r in Some (EAttr acc x, r1)
      | None =>
          match opq "(" ts with
          | Some r =>
              match p_list n KArg r with
              | (its, trailing, r1) =>
                  match opq ")" r1 with
                  | Some r2 => let? (a, k) := call_args false false its in Some (ECall acc a k, r2)
                  | None =>
                      match its, trailing with
                      | [IExpr e], false =>
                          if is_starred e then None
                          else match p_comps n r1 with
                               | ([], _) => None
                               | (g, r2) => let? r3 := opq ")" r2 in Some (ECall acc [EGen e g] [], r3)
                               end
                      | _, _ => None
                      end
                  end
              end
          | None =>
              let? r := opq "[" ts in
              match p_list n KSlice r with
              | (its, trailing, r1) =>
                  let? l := exprs_of its in let? s := slices l trailing in let? r2 := opq "]" r1 in Some (ESub acc s, r2)
              end
          end
      end
  end
with p_atom (n : nat) (ts : list tok) {struct n} : option (expr * list tok) :=
  match n with
  | O => None
  | S n =>
      match ts with
      | TId x :: r => Some (EName x, r)
      | TConst (CStr u s) :: r => if is_strtok r then None else Some (EConst (CStr u s), r)
      | TConst (CBytes s) :: r => if is_strtok r then None else Some (EConst (CBytes s), r)
      | TConst c :: r => Some (EConst c, r)
      | TF l :: r => if is_strtok r then None else let? es := p_parts n l in Some (EJoined es, r)
      | TKw x :: r => let? c := assoc x [("None", CNone); ("True", CTrue); ("False", CFalse)] in Some (EConst c, r)
      | TOp x :: r =>
          if String.eqb x "..." then Some (EConst CEllipsis, r)
          else if String.eqb x "(" then
            (* tuple | group | genexp *)
            match kwq "yield" r with
            | Some r1 => let? (e, r2) := p_yield n r1 in let? r3 := opq ")" r2 in Some (e, r3)
            | None =>
                match p_list n KStarNamed r with
                | (its, trailing, r1) =>
                    let? l := exprs_of its in
                    match opq ")" r1 with
                    | Some r2 => match l, trailing with [e], false => if is_starred e then None else Some (e, r2) | _, _ => Some (ETuple l, r2) end
                    | None =>
                        match l, trailing with
                        | [e], false =>
                            if is_starred e then None
                            else match p_comps n r1 with ([], _) => None | (g, r2) => let? r3 := opq ")" r2 in Some (EGen e g, r3) end
                        | _, _ => None
                        end
                    end
                end
            end
          else if String.eqb x "[" then
            (* list | listcomp *)
            match p_list n KStarNamed r with
            | (its, trailing, r1) =>
                let? l := exprs_of its in
                match opq "]" r1 with
                | Some r2 => Some (EList l, r2)
                | None =>
                    match l, trailing with
                    | [e], false =>
                        if is_starred e then None
                        else match p_comps n r1 with ([], _) => None | (g, r2) => let? r3 := opq "]" r2 in Some (EListComp e g, r3) end
                    | _, _ => None
                    end
                end
            end
          else if String.eqb x "{" then
            (* dict | set | dictcomp | setcomp *)
            match p_list n KKV r with
            | ([], _, _) =>
                match opq "}" r with
                | Some r2 => Some (EDict [], r2)
                | None =>
                    match p_list n KStarNamed r with
                    | (its, trailing, r1) =>
                        let? l := exprs_of its in
                        match opq "}" r1 with
                        | Some r2 => match l with [] => None | _ => Some (ESet l, r2) end
                        | None =>
                            match l, trailing with
                            | [e], false =>
                                if is_starred e then None
                                else match p_comps n r1 with ([], _) => None | (g, r2) => let? r3 := opq "}" r2 in Some (ESetComp e g, r3) end
                            | _, _ => None
                            end
                        end
                    end
                end
            | (its, trailing, r1) =>
                match opq "}" r1 with
                | Some r2 => Some (EDict (map (fun i => match i with IKV k v => (Some k, v) | IDstar v => (None, v) | _ => (None, EName "") end) its), r2)
                | None =>
                    match its, trailing with
                    | [IKV k v], false =>
                        match p_comps n r1 with ([], _) => None | (g, r2) => let? r3 := opq "}" r2 in Some (EDictComp k v g, r3) end
                    | _, _ => None
                    end
                end
            end
          else None
      | _ => None
      end
  end
(** The parts of an f-string. *)
with p_parts (n : nat) (l : list fpart) {struct n} : option (list expr) :=
  match n with
  | O => None
  | S n =>
      match l with
      | [] => Some []
      | FText s :: r => let? es := p_parts n r in Some (EConst (CStr false s) :: es)
      | FField ts z spec :: r =>
          match p n LExpr ts with
          | Some (e, []) =>
              let? sp := match spec with None => Some None | Some m => let? es := p_parts n m in Some (Some (EJoined es)) end in
              let? es := p_parts n r in Some (EFormatted e z sp :: es)
          | _ => None
          end
      end
  end
(** yield_expr, after 'yield': 'from' expression | [star_expressions] *)
with p_yield (n : nat) (ts : list tok) {struct n} : option (expr * list tok) :=
  match n with
  | O => None
  | S n =>
      match kwq "from" ts with
      | Some r => let? (e, r1) := p n LExpr r in Some (EYieldFrom e, r1)
      | None =>
          match p_list n KStarExpr ts with
          | ([], _, _) => Some (EYield None, ts)
          | (its, trailing, r) => let? l := exprs_of its in let? e := tuple_or_single l trailing in Some (EYield (Some e), r)
          end
      end
  end
(** for_if_clauses: ['async'] 'for' star_targets 'in' ~ disjunction ('if' disjunction)* , any number of times *)
with p_comps (n : nat) (ts : list tok) {struct n} : list comp * list tok :=
  match n with
  | O => ([], ts)
  | S n =>
      let (a, ts1) := match kwq "async" ts with Some r => (true, r) | None => (false, ts) end in
      match (let? r := kwq "for" ts1 in
             match p_list n KTarget r with
             | (its, trailing, r1) =>
                 let? l := exprs_of its in let? t := tuple_or_single l trailing in let? r2 := kwq "in" r1 in
                 let? (it, r3) := p n LDisj r2 in
                 let (ifs, r4) := p_ops n "if" LDisj r3 in Some (Comp t it ifs a, r4)
             end) with
      | Some (c, r) => let (l, r1) := p_comps n r in (c :: l, r1)
      | None => ([], ts)
      end
  end
(** A list of items with commas between, and whether a comma comes last. *)
with p_list (n : nat) (k : kind) (ts : list tok) {struct n} : list item * bool * list tok :=
  match n with
  | O => ([], false, ts)
  | S n =>
      match p_item n k ts with
      | Some (i, r) =>
          match opq "," r with
          | Some r1 => match p_list n k r1 with ([], _, _) => ([i], true, r1) | (l, trailing, r2) => (i :: l, trailing, r2) end
          | None => ([i], false, r)
          end
      | None => ([], false, ts)
      end
  end
with p_item (n : nat) (k : kind) (ts : list tok) {struct n} : option (item * list tok) :=
  match n with
  | O => None
  | S n =>
      match k with
      | KStarNamed =>
          match opq "*" ts with
          | Some r => let? (e, r1) := p n LBor r in Some (IExpr (EStarred e), r1)
          | None => let? (e, r1) := p n LNamed ts in Some (IExpr e, r1)
          end
      | KStarExpr =>
          match opq "*" ts with
          | Some r => let? (e, r1) := p n LBor r in Some (IExpr (EStarred e), r1)
          | None => let? (e, r1) := p n LExpr ts in Some (IExpr e, r1)
          end
      | KSlice =>
          (* slice: [expression] ':' [expression] [':' [expression]] | named_expression; starred_expression *)
          match opq "*" ts with
          | Some r => let? (e, r1) := p n LExpr r in Some (IExpr (EStarred e), r1)
          | None =>
              let (lo, r) := p_opt n ts in
              match opq ":" r with
              | Some r1 =>
                  let (hi, r2) := p_opt n r1 in
                  match opq ":" r2 with
                  | Some r3 => let (st, r4) := p_opt n r3 in Some (IExpr (ESlice lo hi st), r4)
                  | None => Some (IExpr (ESlice lo hi None), r2)
                  end
              | None => let? (e, r1) := p n LNamed ts in Some (IExpr e, r1)
              end
          end
      | KArg =>
          match opq "*" ts with
          | Some r => let? (e, r1) := p n LExpr r in Some (IExpr (EStarred e), r1)
          | None =>
              match opq "**" ts with
              | Some r => let? (e, r1) := p n LExpr r in Some (IDstar e, r1)
              | None =>
                  match (let? (x, r) := idq ts in let? r1 := opq "=" r in Some (x, r1)) with
                  | Some (x, r) => let? (e, r1) := p n LExpr r in Some (IKw x e, r1)
                  | None => let? (e, r1) := p n LNamed ts in Some (IExpr e, r1)
                  end
              end
          end
      | KKV =>
          match opq "**" ts with
          | Some r => let? (e, r1) := p n LBor r in Some (IDstar e, r1)
          | None => let? (k, r) := p n LExpr ts in let? r1 := opq ":" r in let? (v, r2) := p n LExpr r1 in Some (IKV k v, r2)
          end
      | KTarget =>
          match opq "*" ts with
          | Some r => let? (e, r1) := p n LPrim r in if is_target e then Some (IExpr (EStarred e), r1) else None
          | None => let? (e, r1) := p n LPrim ts in if is_target e then Some (IExpr e, r1) else None
          end
      | KParam ann =>
          match opq "/" ts with
          | Some r => Some (ISlash, r)
          | None =>
              match opq "**" ts with
              | Some r => let? (a, r1) := p_arg n ann false r in Some (IDParam a, r1)
              | None =>
                  match opq "*" ts with
                  | Some r => match p_arg n ann true r with Some (a, r1) => Some (IStar (Some a), r1) | None => Some (IStar None, r) end
                  | None =>
                      let? (a, r) := p_arg n ann false ts in
                      match opq "=" r with
                      | Some r1 => let? (d, r2) := p n LExpr r1 in Some (IParam a (Some d), r2)
                      | None => Some (IParam a None, r)
                      end
                  end
              end
          end
      end
  end
(** A parameter's name and annotation; that of a star parameter may be starred. *)
with p_arg (n : nat) (ann star : bool) (ts : list tok) {struct n} : option (arg * list tok) :=
  match n with
  | O => None
  | S n =>
      let? (x, r) := idq ts in
      match (if ann then opq ":" r else None) with
      | Some r1 =>
          match (if star then opq "*" r1 else None) with
          | Some r2 => let? (e, r3) := p n LBor r2 in Some (Arg x (Some (EStarred e)), r3)
          | None => let? (e, r2) := p n LExpr r1 in Some (Arg x (Some e), r2)
          end
      | None => Some (Arg x None, r)
      end
  end
with p_opt (n : nat) (ts : list tok) {struct n} : option expr * list tok :=
  match n with
  | O => (None, ts)
  | S n => match p n LExpr ts with Some (e, r) => (Some e, r) | None => (None, ts) end
  end.

(** ast.parse(text, mode="eval"), and then [.body]: some (and every larger) bound gives the tree. *)
Definition parses_expr (read : string -> string) (s : string) (e : expr) : Prop :=
  exists ts, lex read s = Some ts /\ exists N, forall n, N <= n -> p n LExpr ts = Some (e, []).
