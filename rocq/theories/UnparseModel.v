(** Model of the unparser, mcpyrate/unparser.py:27-1187, with [debug=False], [color=False], and trees without AST markers.

    The trees are typed as in CPython's Parser/Python.asdl (3.12), i.e. as the parser makes them; lists that the grammar
    keeps parallel (operators and comparators, keys and values) are lists of pairs. Left out: source locations, [ctx],
    type comments, the node classes that Python 3.8 abolished. *)
From Coq Require Import DecimalString NArith.
From Verif Require Import Base.
Open Scope string_scope.

Inductive binop : Type := Add | Sub | Mult | MatMult | Div | Mod | ShiftL | ShiftR | BitOr | BitXor | BitAnd | FloorDiv | Pow.
Inductive unop : Type := Invert | Not | UAdd | USub.
Inductive boolop : Type := And | Or.
Inductive cmpop : Type := Eq_ | NotEq | Lt_ | LtE | Gt_ | GtE | Is | IsNot | In_ | NotIn.
(** Values of Constant nodes. [CNum r]: a float or complex number, given by its [repr]. [CStr u s]: [u] is [kind == "u"].
    Characters are code points up to 255. *)
Inductive const : Type := CNone | CTrue | CFalse | CEllipsis | CInt (n : N) | CNum (r : string) | CStr (u : bool) (s : string) | CBytes (s : string).

Inductive expr : Type :=
| EName (x : string)
| EConst (c : const)
| EBinOp (l : expr) (o : binop) (r : expr)
| EUnary (o : unop) (e : expr)
| EBool (o : boolop) (l : list expr)
| ECompare (l : expr) (r : list (cmpop * expr))
| EIfExp (body test orelse : expr)
| ELambda (a : arguments) (body : expr)
| ENamed (target value : expr)
| ETuple (l : list expr)
| EList (l : list expr)
| ESet (l : list expr)
| EDict (l : list (option expr * expr))
| EListComp (elt : expr) (g : list comp)
| ESetComp (elt : expr) (g : list comp)
| EGen (elt : expr) (g : list comp)
| EDictComp (k v : expr) (g : list comp)
| EAttr (e : expr) (x : string)
| ESub (e sl : expr)
| ECall (f : expr) (args : list expr) (kws : list keyword)
| EStarred (e : expr)
| EAwait (e : expr)
| EYield (e : option expr)
| EYieldFrom (e : expr)
| ESlice (lo hi st : option expr)
| EJoined (l : list expr)
| EFormatted (e : expr) (conv : Z) (spec : option expr)
with arguments : Type :=
| Args (posonly args : list arg) (vararg : option arg) (kwonly : list arg) (kw_defaults : list (option expr)) (kwarg : option arg) (defaults : list expr)
with arg : Type := Arg (x : string) (ann : option expr)
with comp : Type := Comp (target iter : expr) (ifs : list expr) (is_async : bool)
with keyword : Type := Kw (x : option string) (e : expr).

Inductive alias : Type := Alias (name : string) (asname : option string).
Inductive type_param : Type := TypeVar (name : string) (bound : option expr) | ParamSpec (name : string) | TypeVarTuple (name : string).
(** [PAs None None]: the wildcard. *)
Inductive pattern : Type :=
| PValue (e : expr)
| PSingleton (c : const)
| PSequence (l : list pattern)
| PStar (name : option string)
| PMapping (l : list (expr * pattern)) (rest : option string)
| PClass (cls : expr) (l : list pattern) (kwd : list (string * pattern))
| PAs (p : option pattern) (name : option string)
| POr (l : list pattern).
(** [STry true]: TryStar. The other booleans: [is_async] for the pairs of classes With and AsyncWith and so on, [simple] for AnnAssign. *)
Inductive stmt : Type :=
| SExpr (e : expr)
| SImport (names : list alias)
| SImportFrom (module : option string) (names : list alias) (level : nat)
| SAssign (targets : list expr) (v : expr)
| SAnnAssign (target ann : expr) (v : option expr) (simple : bool)
| SAugAssign (target : expr) (o : binop) (v : expr)
| SReturn (e : option expr)
| SPass | SBreak | SContinue
| SDelete (l : list expr)
| SAssert (test : expr) (msg : option expr)
| SGlobal (l : list string)
| SNonlocal (l : list string)
| SRaise (exc cause : option expr)
| STry (star : bool) (body : list stmt) (handlers : list handler) (orelse finalbody : list stmt)
| SClass (name : string) (tps : list type_param) (bases : list expr) (kws : list keyword) (body : list stmt) (decos : list expr)
| SFunction (is_async : bool) (name : string) (tps : list type_param) (a : arguments) (body : list stmt) (decos : list expr) (returns : option expr)
| SFor (is_async : bool) (target iter : expr) (body orelse : list stmt)
| SIf (test : expr) (body orelse : list stmt)
| SWhile (test : expr) (body orelse : list stmt)
| SWith (is_async : bool) (items : list (expr * option expr)) (body : list stmt)
| SMatch (subject : expr) (cases : list mcase)
| STypeAlias (name : expr) (tps : list type_param) (v : expr)
with handler : Type := Handler (type : option expr) (name : option string) (body : list stmt)
with mcase : Type := Case (p : pattern) (guard : option expr) (body : list stmt).

(** ** Output *)
(** Pieces of text written one after the other; an exception ends it. *)
Fixpoint cat (l : list (res string)) : res string :=
  match l with
  | [] => Ok ""
  | Err e :: _ => Err e
  | Ok s :: r => match cat r with Ok t => Ok (s ++ t) | Err e => Err e end
  end.
Definition w (s : string) : res string := Ok s.
(** unparser.py:43-53, interleave. *)
Fixpoint inter (sep : string) (l : list (res string)) : list (res string) :=
  match l with
  | [] => []
  | [x] => [x]
  | x :: r => x :: w sep :: inter sep r
  end.
Definition opt {A} (f : A -> list (res string)) (x : option A) : list (res string) := match x with Some a => f a | None => [] end.

Definition unparser_error : exn := mkExn "UnparserError" [].
Definition value_error : exn := mkExn "ValueError" [].
Definition assertion_error : exn := mkExn "AssertionError" [].

(** ** Constants *)
Definition bs : ascii := "\"%char.
Definition sq : ascii := "'"%char.
Definition dq : ascii := ascii_of_nat 34.
Definition nl : string := String (ascii_of_nat 10) "".
Definition one (c : ascii) : string := String c "".
Fixpoint has_char (c : ascii) (s : string) : bool := match s with "" => false | String d r => Ascii.eqb c d || has_char c r end.
Definition hexdigit (n : nat) : ascii := match String.get n "0123456789abcdef" with Some c => c | None => "0"%char end.
Definition hex2 (c : ascii) : string := let n := nat_of_ascii c in String (hexdigit (n / 16)) (one (hexdigit (n mod 16))).
(** Python's repr of str and bytes objects: the quotes, and the escapes. [raw]: which characters from 127 on stand for themselves. *)
Definition repr_quote (s : string) : ascii := if has_char sq s && negb (has_char dq s) then dq else sq.
Definition repr_char (raw : ascii -> bool) (q c : ascii) : string :=
  if Ascii.eqb c q || Ascii.eqb c bs then String bs (one c)
  else if Nat.eqb (nat_of_ascii c) 9 then String bs "t"
  else if Nat.eqb (nat_of_ascii c) 10 then String bs "n"
  else if Nat.eqb (nat_of_ascii c) 13 then String bs "r"
  else if Nat.ltb (nat_of_ascii c) 32 then String bs ("x" ++ hex2 c)
  else if Nat.ltb (nat_of_ascii c) 127 then one c
  else if raw c then one c
  else String bs ("x" ++ hex2 c).
Fixpoint repr_chars (raw : ascii -> bool) (q : ascii) (s : string) : string :=
  match s with "" => "" | String c r => repr_char raw q c ++ repr_chars raw q r end.
Definition repr_str (raw : ascii -> bool) (s : string) : string := let q := repr_quote s in String q (repr_chars raw q s ++ one q).
Definition repr_int (n : N) : string := NilZero.string_of_uint (N.to_uint n).
(** unparser.py:27-29 (IEEE doubles) and [str.replace("inf", INFSTR)]. *)
Definition infstr : string := "1e309".
Fixpoint replace_inf (s : string) : string :=
  match s with
  | String "i" (String "n" (String "f" r)) => infstr ++ replace_inf r
  | String c r => String c (replace_inf r)
  | "" => ""
  end.

(** ** Tables, unparser.py:760, 772-774, 782-783, 796 *)
Definition unop_text (o : unop) : string := match o with Invert => "~" | Not => "not" | UAdd => "+" | USub => "-" end.
Definition binop_text (o : binop) : string :=
  match o with
  | Add => "+" | Sub => "-" | Mult => "*" | MatMult => "@" | Div => "/" | Mod => "%" | ShiftL => "<<" | ShiftR => ">>"
  | BitOr => "|" | BitXor => "^" | BitAnd => "&" | FloorDiv => "//" | Pow => "**"
  end.
Definition cmpop_text (o : cmpop) : string :=
  match o with
  | Eq_ => "==" | NotEq => "!=" | Lt_ => "<" | LtE => "<=" | Gt_ => ">" | GtE => ">=" | Is => "is" | IsNot => "is not" | In_ => "in" | NotIn => "not in"
  end.
Definition boolop_text (o : boolop) : string := match o with And => "and" | Or => "or" end.

(** unparser.py:868-869: [s.replace("'", r"\'").replace("\n", r"\n")]. *)
Fixpoint fstr_escape (s : string) : string :=
  match s with
  | "" => ""
  | String c r => (if Ascii.eqb c sq then String bs (one sq) else if Nat.eqb (nat_of_ascii c) 10 then String bs "n" else one c) ++ fstr_escape r
  end.
(** unparser.py:847-856. *)
Definition conversion_text (z : Z) : res string :=
  if Z.eqb z 115 then w "!s" else if Z.eqb z 114 then w "!r" else if Z.eqb z 97 then w "!a" else if Z.eqb z (-1) then w "" else Err value_error.

(** [zip] *)
Fixpoint zip {A B} (l : list A) (m : list B) : list (A * B) := match l, m with x :: l', y :: m' => (x, y) :: zip l' m' | _, _ => [] end.

(** unparser.py:810: [isinstance(v.value, int)] holds for True and False, too. *)
Definition is_int (e : expr) : bool := match e with EConst (CInt _) | EConst CTrue | EConst CFalse => true | _ => false end.
(** unparser.py:752-758, __Tuple_helper. *)
Definition tuple_items (l : list (res string)) : list (res string) := match l with [x] => [x; w ","] | _ => inter ", " l end.
(** unparser.py:842-860, _FormattedValue_helper, given the text of the value and of the parts of the format spec (a spec that is not
    a JoinedStr has no attribute [values]). *)
Definition formatted (v : res string) (conv : Z) (spec : option (option (list (res string)))) : res string :=
  cat [w "{"; v; conversion_text conv;
       match spec with Some (Some l) => cat (w ":" :: l) | Some None => Err (mkExn "AttributeError" []) | None => w "" end; w "}"].
(** unparser.py:1010-1014, takes_arguments. *)
Definition takes_arguments (a : arguments) : bool :=
  match a with Args [] [] None [] _ None _ => false | _ => true end.
(** unparser.py:950-952, 983-985. *)
Definition with_default (p : res string * option (res string)) : res string :=
  match p with (a, Some d) => cat [a; w "="; d] | (a, None) => a end.
(** unparser.py:924-996, given the texts of the arguments and defaults. The flag [first] and the calls of [write(", ")] it
    guards are put as a comma between any two items; the separator [", /"] (954-956) is written if some positional-only
    argument was. *)
Definition args_text (pos args : list (res string)) (vararg : option (res string)) (kwonly : list (res string)) (kwd : list (option (res string)))
  (kwarg : option (res string)) (defaults : list (res string)) : res string :=
  let ds := (repeat None (List.length pos + List.length args - List.length defaults) ++ map Some defaults)%list in
  let first := map with_default (zip pos (firstn (List.length pos) ds)) in
  cat (inter ", "
    (first ++
     (match first with [] => [] | _ => [w "/"] end) ++
     map with_default (zip args (skipn (List.length pos) ds)) ++
     (match vararg, kwonly with
      | None, [] => []
      | None, _ => [w "*"]
      | Some a, _ => [cat [w "*"; a]]
      end) ++
     map with_default (zip kwonly kwd) ++
     (match kwarg with Some a => [cat [w "**"; a]] | None => [] end))).

Section Unparse.
  (** [str.isprintable], for code points from 127 on. *)
  Variable printable : ascii -> bool.

  (** unparser.py:626-645. *)
  Definition unp_const (c : const) : string :=
    match c with
    | CNone => "None" | CTrue => "True" | CFalse => "False" | CEllipsis => "..."
    | CInt n => repr_int n
    | CNum r => replace_inf r
    | CStr u s => (if u then "u" else "") ++ repr_str printable s
    | CBytes s => "b" ++ repr_str (fun _ => false) s
    end.

  (** The methods for expressions, unparser.py:393-415, 618-1021. *)
  Fixpoint unp (e : expr) : res string :=
    match e with
    | EName x => w x
    | EConst c => w (unp_const c)
    | EBinOp l o r => cat [w "("; unp l; w (" " ++ binop_text o ++ " "); unp r; w ")"]
    | EUnary o e => cat [w "("; w (match o with Not => "not " | _ => unop_text o end); unp e; w ")"]
    | EBool o l => cat ([w "("] ++ inter (" " ++ boolop_text o ++ " ") (map unp l) ++ [w ")"])
    | ECompare l r => cat ([w "("; unp l] ++ map (fun p => match p with (o, e) => cat [w (" " ++ cmpop_text o ++ " "); unp e] end) r ++ [w ")"])
    | EIfExp b t o => cat [w "("; unp b; w " if "; unp t; w " else "; unp o; w ")"]
    | ELambda a b => cat [w "("; w "lambda"; w (if takes_arguments a then " " else ""); unp_args a; w ": "; unp b; w ")"]
    | ENamed t v => cat [w "("; unp t; w " := "; unp v; w ")"]
    | ETuple l => cat ([w "("] ++ tuple_items (map unp l) ++ [w ")"])
    | EList l => cat ([w "["] ++ inter ", " (map unp l) ++ [w "]"])
    | ESet l => match l with [] => Err assertion_error | _ => cat ([w "{"] ++ inter ", " (map unp l) ++ [w "}"]) end
    | EDict l =>
        (* the key of a double-starred item is None, and dispatch(None) raises *)
        cat ([w "{"] ++ inter ", " (map (fun p => match p with (k, v) =>
               cat [match k with Some k => unp k | None => Err unparser_error end; w ": "; unp v] end) l) ++ [w "}"])
    | EListComp e g => cat ([w "["; unp e] ++ map unp_comp g ++ [w "]"])
    | ESetComp e g => cat ([w "{"; unp e] ++ map unp_comp g ++ [w "}"])
    | EGen e g => cat ([w "("; unp e] ++ map unp_comp g ++ [w ")"])
    | EDictComp k v g => cat ([w "{"; unp k; w ": "; unp v] ++ map unp_comp g ++ [w "}"])
    | EAttr e x => cat [unp e; w (if is_int e then " " else ""); w "."; w x]
    | ESub e s => cat ([unp e; w "["] ++ (match s with ETuple l => tuple_items (map unp l) | _ => [unp s] end) ++ [w "]"])
    | ECall f a k => cat ([unp f; w "("] ++ inter ", " (map unp a ++ map unp_kw k) ++ [w ")"])
    | EStarred e => cat [w "*"; unp e]
    | EAwait e => cat [w "("; w "await"; w " "; unp e; w ")"]
    | EYield e => cat ([w "("; w "yield"] ++ match e with Some e => [w " "; unp e] | None => [] end ++ [w ")"])
    | EYieldFrom e => cat [w "("; w "yield from"; w " "; unp e; w ")"]
    | ESlice lo hi st =>
        cat (match lo with Some e => [unp e] | None => [] end ++ [w ":"] ++ match hi with Some e => [unp e] | None => [] end ++
             match st with Some e => [w ":"; unp e] | None => [] end)
    | EJoined l => cat ([w "f"; w "'"] ++ map fstr_part l ++ [w "'"])
    | EFormatted v c spec =>
        cat [w "f'";
             formatted (unp v) c (match spec with Some (EJoined l) => Some (Some (map fstr_part l)) | Some _ => Some None | None => None end);
             w "'"]
    end
  (** unparser.py:867-879, one round of _JoinedStr_helper. *)
  with fstr_part (e : expr) : res string :=
    match e with
    | EConst (CStr _ s) => w (fstr_escape s)
    | EFormatted v c spec =>
        formatted (unp v) c (match spec with Some (EJoined l) => Some (Some (map fstr_part l)) | Some _ => Some None | None => None end)
    | _ => Err value_error
    end
  with unp_args (a : arguments) : res string :=
    match a with
    | Args posonly args vararg kwonly kwd kwarg defaults =>
        args_text (map unp_arg posonly) (map unp_arg args) (match vararg with Some a => Some (unp_arg a) | None => None end) (map unp_arg kwonly)
          (map (fun d => match d with Some d => Some (unp d) | None => None end) kwd)
          (match kwarg with Some a => Some (unp_arg a) | None => None end) (map unp defaults)
    end
  (** unparser.py:917-921; and 970-973, 993-996. *)
  with unp_arg (a : arg) : res string :=
    match a with Arg x ann => cat ([w x] ++ match ann with Some e => [w ": "; unp e] | None => [] end) end
  (** unparser.py:706-715. *)
  with unp_comp (g : comp) : res string :=
    match g with
    | Comp t i ifs a => cat ([w (if a then " async" else ""); w " for "; unp t; w " in "; unp i] ++ map (fun c => cat [w " if "; unp c]) ifs)
    end
  (** unparser.py:998-1004. *)
  with unp_kw (k : keyword) : res string :=
    match k with Kw x e => cat [w (match x with Some x => x ++ "=" | None => "**" end); unp e] end.

  (** unparser.py:1023-1026, 1028-1032. *)
  Definition unp_alias (a : alias) : res string := match a with Alias x y => cat (w x :: opt (fun y => [w (" as " ++ y)]) y) end.
  Definition unp_withitem (p : expr * option expr) : res string := cat (unp (fst p) :: opt (fun v => [w " as "; unp v]) (snd p)).
  (** unparser.py:1154-1169. *)
  Definition unp_type_param (t : type_param) : res string :=
    match t with
    | TypeVar x b => cat (w x :: opt (fun b => [w ": "; unp b]) b)
    | ParamSpec x => w ("**" ++ x)
    | TypeVarTuple x => w ("*" ++ x)
    end.

  (** unparser.py:1067-1135. *)
  Definition is_or (p : pattern) : bool := match p with POr _ => true | _ => false end.
  Fixpoint unp_pattern (p : pattern) : res string :=
    match p with
    | PValue e => unp e
    | PSingleton c => w (unp_const c)
    | PSequence l => cat ([w "["] ++ inter ", " (map unp_pattern l) ++ [w "]"])
    | PStar x => w ("*" ++ match x with Some x => x | None => "_" end)
    | PMapping l r =>
        cat ([w "{"] ++ inter ", " (map (fun kp => match kp with (k, p) => cat [unp k; w ": "; unp_pattern p] end) l) ++
             opt (fun x => [w (match l with [] => "" | _ => ", " end); w "**"; w x]) r ++ [w "}"])
    | PClass c l k =>
        cat ([unp c; w "("] ++ inter ", " (map unp_pattern l) ++
             (match l, k with _ :: _, _ :: _ => [w ", "] | _, _ => [] end) ++
             inter ", " (map (fun kp => match kp with (x, p) => cat [w x; w "="; unp_pattern p] end) k) ++ [w ")"])
    | PAs None None => w "_"
    | PAs (Some _) None => Err assertion_error
    | PAs None (Some x) => w x
    | PAs (Some p) (Some x) => cat [w (if is_or p then "(" else ""); unp_pattern p; w (if is_or p then ")" else ""); w " as "; w x]
    | POr l => cat (inter " | " (map unp_pattern l))
    end.

  (** unparser.py:145-161. *)
  Fixpoint spaces (n : nat) : string := match n with O => "" | S n => String " " (spaces n) end.
  Definition fill (i : nat) (text : string) : res string := w (nl ++ spaces (4 * i) ++ text).
  (** The [else] and [finally] parts, e.g. unparser.py:439-448. *)
  Definition part (i : nat) (kw : string) (body : list (res string)) : list (res string) :=
    match body with [] => [] | _ => fill i kw :: w ":" :: body end.

  (** The methods for statements, unparser.py:307-616, 1044-1065, 1143-1152. [i] is the indentation level, [kw] the keyword for an If
      (the loop of unparser.py:576-583 is a recursive call), [star] the mode on top of the stack for ExceptHandler. Decorators
      begin a line with the at sign. *)
  Definition unp_decos (i : nat) (l : list expr) : list (res string) := map (fun e => cat [fill i "@"; unp e]) l.
  Fixpoint unp_stmt (kw : string) (i : nat) (s : stmt) : res string :=
    match s with
    | SExpr e => cat [fill i ""; unp e]
    | SImport l => cat (fill i "import " :: inter ", " (map unp_alias l))
    | SImportFrom m l n =>
        cat ([fill i "from "; w (String.concat "" (repeat "." n)); w (match m with Some m => m | None => "" end); w " import "] ++
             inter ", " (map unp_alias l))
    | SAssign ts v => cat ([fill i ""] ++ map (fun t => cat [unp t; w " = "]) ts ++ [unp v])
    | SAnnAssign t a v simple =>
        cat ([fill i ""; w (if simple then "" else "("); unp t; w (if simple then "" else ")"); w ": "; unp a] ++ opt (fun v => [w " = "; unp v]) v)
    | SAugAssign t o v => cat [fill i ""; unp t; w (" " ++ binop_text o ++ "= "); unp v]
    | SReturn e => cat (fill i "return" :: opt (fun e => [w " "; unp e]) e)
    | SPass => fill i "pass"
    | SBreak => fill i "break"
    | SContinue => fill i "continue"
    | SDelete l => cat (fill i "del " :: inter ", " (map unp l))
    | SAssert t m => cat (fill i "assert " :: unp t :: opt (fun m => [w ", "; unp m]) m)
    | SGlobal l => cat (fill i "global " :: inter ", " (map w l))
    | SNonlocal l => cat (fill i "nonlocal " :: inter ", " (map w l))
    | SRaise None None => fill i "raise"
    | SRaise None (Some _) => Err assertion_error
    | SRaise (Some e) c => cat (fill i "raise" :: w " " :: unp e :: opt (fun c => [w " from "; unp c]) c)
    | STry star b hs o f =>
        cat ([fill i "try"; w ":"] ++ map (unp_stmt "if " (S i)) b ++ map (unp_handler star i) hs ++
             part i "else" (map (unp_stmt "if " (S i)) o) ++ part i "finally" (map (unp_stmt "if " (S i)) f))
    | SClass x _ bases kws b ds =>
        (* the type parameters are not written *)
        cat ([w nl] ++ unp_decos i ds ++ [fill i ("class " ++ x)] ++
             (match bases, kws with
              | [], [] => []
              | _, _ => [w "("] ++ inter ", " (map unp bases ++ map unp_kw kws) ++ [w ")"]
              end) ++ [w ":"] ++ map (unp_stmt "if " (S i)) b)
    | SFunction a x _ args b ds r =>
        (* the type parameters are not written *)
        cat ([w nl] ++ unp_decos i ds ++ [fill i ((if a then "async def" else "def") ++ " " ++ x ++ "("); unp_args args; w ")"] ++
             opt (fun r => [w " -> "; unp r]) r ++ [w ":"] ++ map (unp_stmt "if " (S i)) b)
    | SFor a t it b o =>
        cat ([fill i (if a then "async for " else "for "); unp t; w " in "; unp it; w ":"] ++ map (unp_stmt "if " (S i)) b ++
             part i "else" (map (unp_stmt "if " (S i)) o))
    | SIf t b o =>
        cat ([fill i kw; unp t; w ":"] ++ map (unp_stmt "if " (S i)) b ++
             (match o with
              | [SIf _ _ _] => map (unp_stmt "elif " i) o
              | _ => part i "else" (map (unp_stmt "if " (S i)) o)
              end))
    | SWhile t b o => cat ([fill i "while "; unp t; w ":"] ++ map (unp_stmt "if " (S i)) b ++ part i "else" (map (unp_stmt "if " (S i)) o))
    | SWith a items b =>
        cat ([fill i (if a then "async with " else "with ")] ++ inter ", " (map unp_withitem items) ++ [w ":"] ++ map (unp_stmt "if " (S i)) b)
    | SMatch e cs => cat ([fill i "match "; unp e; w ":"] ++ map (unp_case (S i)) cs)
    | STypeAlias x tps v =>
        cat ([fill i ""; w "type "; unp x] ++ (match tps with [] => [] | _ => [w "["] ++ inter ", " (map unp_type_param tps) ++ [w "]"] end) ++
             [w " = "; unp v])
    end
  (** unparser.py:456-472. *)
  with unp_handler (star : bool) (i : nat) (h : handler) : res string :=
    match h with
    | Handler t x b =>
        cat ([fill i (if star then "except*" else "except")] ++ opt (fun t => [w " "; unp t]) t ++ opt (fun x => [w " as "; w x]) x ++ [w ":"] ++
             map (unp_stmt "if " (S i)) b)
    end
  (** unparser.py:1052-1065. *)
  with unp_case (i : nat) (c : mcase) : res string :=
    match c with
    | Case p g b =>
        let par := match g with Some _ => is_or p | None => false end in
        cat ([fill i "case "; w (if par then "(" else ""); unp_pattern p; w (if par then ")" else "")] ++ opt (fun g => [w " if "; unp g]) g ++ [w ":"] ++
             map (unp_stmt "if " (S i)) b)
    end.

  (** ** unparse, unparser.py:104-110, 183-187 *)
  (** [str.strip] *)
  Definition is_space (c : ascii) : bool :=
    let n := nat_of_ascii c in (Nat.leb 9 n && Nat.leb n 13) || (Nat.leb 28 n && Nat.leb n 32) || Nat.eqb n 133 || Nat.eqb n 160.
  Fixpoint lstrip (s : string) : string := match s with String c r => if is_space c then lstrip r else s | "" => "" end.
  Fixpoint rstrip (s : string) : string :=
    match s with
    | "" => ""
    | String c r => match rstrip r with "" => if is_space c then "" else String c "" | r' => String c r' end
    end.
  Definition strip (s : string) : string := rstrip (lstrip s).
  (** What [unparse] takes. [TExpression]: the tree that [ast.parse(mode="eval")] makes; its [body] is no list, and the loop over
      it (304) raises TypeError. *)
  Inductive top : Type := TModule (l : list stmt) | TExpression (e : expr) | TStmts (l : list stmt) | TStmt (s : stmt) | TExpr (e : expr).
  Definition unp_top (t : top) : res string :=
    match t with
    | TModule l | TStmts l => cat (map (unp_stmt "if " 0) l)
    | TStmt s => unp_stmt "if " 0 s
    | TExpression _ => Err (mkExn "TypeError" [])
    | TExpr e => unp e
    end.
  (** The fallback (188-198) changes the message of an UnparserError, not its class. *)
  Definition unparse (t : top) : res string := match cat [unp_top t; w nl] with Ok s => Ok (strip s) | Err e => Err e end.
End Unparse.
