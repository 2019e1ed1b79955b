(** Model of the unparser in debug mode: mcpyrate/unparser.py:145-187, 270-317, with [debug=True], [color=False], and trees without AST markers. The other
    methods are as in UnparseModel.v, whose types and helpers are used here; they differ from there in that each statement has a line number, and in
    that each call may be a captured value or macro. *)
From Verif Require Import Base UnparseModel.
Open Scope string_scope.

(** ** Captured values and macros *)
(** quotes.py:607-630. *)
Definition quotes_reference (e : expr) : res bool :=
  match e with
  | EAttr m "quotes" =>
      match m with
      | EName x => Ok (String.eqb x "mcpyrate")
      | ECall (EName "__import__") args _ =>
          match args with
          | [] => Err (mkExn "IndexError" [])
          | EConst (CStr _ s) :: _ => Ok (String.eqb s "mcpyrate.quotes")
          | _ => Ok false
          end
      | _ => Ok false
      end
  | _ => Ok false
  end.
(** The attribute [elts]: tuples, lists and sets have it. *)
Definition elts_of (e : expr) : res (list expr) := match e with ETuple l | EList l | ESet l => Ok l | _ => Err (mkExn "AttributeError" []) end.
Definition is_bytes (e : expr) : bool := match e with EConst (CBytes _) => true | _ => false end.
Definition str_of (e : expr) : res string := match e with EConst (CStr _ s) => Ok s | _ => Err assertion_error end.
(** quotes.py:484-514 and 587-604, what [dispatch] (unparser.py:182-187) asks of them: the name, if the node is a captured value or macro. The errors: calls
    of these functions with other arguments. *)
Definition captured (e : expr) : res (option string) :=
  match e with
  | ECall (EAttr v f) args _ =>
      if smem f ["capture_value"; "lookup_value"; "lookup_macro"] then
        match quotes_reference v with
        | Err x => Err x
        | Ok false => Ok None
        | Ok true =>
            if String.eqb f "capture_value" then
              match args with
              | _ :: n :: _ => match str_of n with Ok s => Ok (Some s) | Err x => Err x end
              | _ => Err (mkExn "IndexError" [])
              end
            else
              match args with
              | [] => Err (mkExn "IndexError" [])
              | k :: _ =>
                  match elts_of k with
                  | Err x => Err x
                  | Ok l =>
                      match String.eqb f "lookup_value", l with
                      | true, [n; b] => match str_of n with Ok s => if is_bytes b then Ok (Some s) else Err assertion_error | Err x => Err x end
                      | false, [n; u; b] =>
                          match str_of n with
                          | Ok s => match str_of u with Ok _ => if is_bytes b then Ok (Some s) else Err assertion_error | Err x => Err x end
                          | Err x => Err x
                          end
                      | _, _ => Err value_error
                      end
                  end
              end
        end
      else Ok None
  | _ => Ok None
  end.

(** [map], with the positions of the elements. *)
Section Mapi.
  Context {A B : Type}.
  Variable f : nat -> A -> B.
  Fixpoint mapi (j : nat) (l : list A) : list B := match l with [] => [] | x :: r => f j x :: mapi (S j) r end.
End Mapi.

(** The place of a node in the tree: from the inside out, the field (0 body, 1 orelse, 2 finalbody, 3 handlers, 4 decorator_list, 5 cases) and the index in
    it. *)
Definition place : Type := list (nat * nat).

(** f"{n:5d}" *)
Definition pad5 (s : string) : string := spaces (5 - String.length s) ++ s.
Definition decimal (z : Z) : string := (if Z.ltb z 0 then "-" else "") ++ repr_int (Z.abs_N z).
(** unparser.py:152-160; [None]: no such attribute. *)
Definition tag (n : option Z) : string := match n with Some z => if Z.eqb z 0 then "L ---- " else "L" ++ pad5 (decimal z) ++ " " | None => "L ---- " end.
(** unparser.py:145-161. *)
Definition dfill (i : nat) (n : option Z) (text : string) : res string := w (nl ++ tag n ++ spaces (4 * i) ++ text).

Section Debug.
  Variable printable : ascii -> bool.
  (** The [lineno] attribute of the statement, handler or decorator at a place. Nodes for cases have no such attribute. *)
  Variable lineno : place -> option Z.

  (** The methods for expressions, unparser.py:393-415, 618-1135, through [dispatch], 176-194. *)
  Fixpoint dunp (e : expr) : res string :=
    match e with
    | EName x => w x
    | EConst c => w (unp_const printable c)
    | EBinOp l o r => cat [w "("; dunp l; w (" " ++ binop_text o ++ " "); dunp r; w ")"]
    | EUnary o e => cat [w "("; w (match o with Not => "not " | _ => unop_text o end); dunp e; w ")"]
    | EBool o l => cat ([w "("] ++ inter (" " ++ boolop_text o ++ " ") (map dunp l) ++ [w ")"])
    | ECompare l r => cat ([w "("; dunp l] ++ map (fun p => match p with (o, e) => cat [w (" " ++ cmpop_text o ++ " "); dunp e] end) r ++ [w ")"])
    | EIfExp b t o => cat [w "("; dunp b; w " if "; dunp t; w " else "; dunp o; w ")"]
    | ELambda a b => cat [w "("; w "lambda"; w (if takes_arguments a then " " else ""); dunp_args a; w ": "; dunp b; w ")"]
    | ENamed t v => cat [w "("; dunp t; w " := "; dunp v; w ")"]
    | ETuple l => cat ([w "("] ++ tuple_items (map dunp l) ++ [w ")"])
    | EList l => cat ([w "["] ++ inter ", " (map dunp l) ++ [w "]"])
    | ESet l => match l with [] => Err assertion_error | _ => cat ([w "{"] ++ inter ", " (map dunp l) ++ [w "}"]) end
    | EDict l =>
        (* the key of a double-starred item is None, and dispatch(None) raises *)
        cat ([w "{"] ++ inter ", " (map (fun p => match p with (k, v) =>
               cat [match k with Some k => dunp k | None => Err unparser_error end; w ": "; dunp v] end) l) ++ [w "}"])
    | EListComp e g => cat ([w "["; dunp e] ++ map dunp_comp g ++ [w "]"])
    | ESetComp e g => cat ([w "{"; dunp e] ++ map dunp_comp g ++ [w "}"])
    | EGen e g => cat ([w "("; dunp e] ++ map dunp_comp g ++ [w ")"])
    | EDictComp k v g => cat ([w "{"; dunp k; w ": "; dunp v] ++ map dunp_comp g ++ [w "}"])
    | EAttr e x => cat [dunp e; w (if is_int e then " " else ""); w "."; w x]
    | ESub e s => cat ([dunp e; w "["] ++ (match s with ETuple l => tuple_items (map dunp l) | _ => [dunp s] end) ++ [w "]"])
    | ECall f a k =>
        match captured e with
        | Err x => Err x
        | Ok (Some x) => w ("$h[" ++ x ++ "]")
        | Ok None => cat ([dunp f; w "("] ++ inter ", " (map dunp a ++ map dunp_kw k) ++ [w ")"])
        end
    | EStarred e => cat [w "*"; dunp e]
    | EAwait e => cat [w "("; w "await"; w " "; dunp e; w ")"]
    | EYield e => cat ([w "("; w "yield"] ++ match e with Some e => [w " "; dunp e] | None => [] end ++ [w ")"])
    | EYieldFrom e => cat [w "("; w "yield from"; w " "; dunp e; w ")"]
    | ESlice lo hi st =>
        cat (match lo with Some e => [dunp e] | None => [] end ++ [w ":"] ++ match hi with Some e => [dunp e] | None => [] end ++
             match st with Some e => [w ":"; dunp e] | None => [] end)
    | EJoined l => cat ([w "f"; w "'"] ++ map dfstr_part l ++ [w "'"])
    | EFormatted v c spec =>
        cat [w "f'";
             formatted (dunp v) c (match spec with Some (EJoined l) => Some (Some (map dfstr_part l)) | Some _ => Some None | None => None end);
             w "'"]
    end
  (** unparser.py:867-879, one round of _JoinedStr_helper. *)
  with dfstr_part (e : expr) : res string :=
    match e with
    | EConst (CStr _ s) => w (fstr_escape s)
    | EFormatted v c spec =>
        formatted (dunp v) c (match spec with Some (EJoined l) => Some (Some (map dfstr_part l)) | Some _ => Some None | None => None end)
    | _ => Err value_error
    end
  with dunp_args (a : arguments) : res string :=
    match a with
    | Args posonly args vararg kwonly kwd kwarg defaults =>
        args_text (map dunp_arg posonly) (map dunp_arg args) (match vararg with Some a => Some (dunp_arg a) | None => None end) (map dunp_arg kwonly)
          (map (fun d => match d with Some d => Some (dunp d) | None => None end) kwd)
          (match kwarg with Some a => Some (dunp_arg a) | None => None end) (map dunp defaults)
    end
  (** unparser.py:917-921; and 970-973, 993-996. *)
  with dunp_arg (a : arg) : res string :=
    match a with Arg x ann => cat ([w x] ++ match ann with Some e => [w ": "; dunp e] | None => [] end) end
  (** unparser.py:706-715. *)
  with dunp_comp (g : comp) : res string :=
    match g with
    | Comp t i ifs a => cat ([w (if a then " async" else ""); w " for "; dunp t; w " in "; dunp i] ++ map (fun c => cat [w " if "; dunp c]) ifs)
    end
  (** unparser.py:998-1004. *)
  with dunp_kw (k : keyword) : res string :=
    match k with Kw x e => cat [w (match x with Some x => x ++ "=" | None => "**" end); dunp e] end.

  (** unparser.py:1023-1026, 1028-1032. *)
  Definition dunp_alias (a : alias) : res string := match a with Alias x y => cat (w x :: opt (fun y => [w (" as " ++ y)]) y) end.
  Definition dunp_withitem (p : expr * option expr) : res string := cat (dunp (fst p) :: opt (fun v => [w " as "; dunp v]) (snd p)).
  (** unparser.py:1154-1169. *)
  Definition dunp_type_param (t : type_param) : res string :=
    match t with
    | TypeVar x b => cat (w x :: opt (fun b => [w ": "; dunp b]) b)
    | ParamSpec x => w ("**" ++ x)
    | TypeVarTuple x => w ("*" ++ x)
    end.

  (** unparser.py:1067-1135. *)
  Fixpoint dunp_pattern (p : pattern) : res string :=
    match p with
    | PValue e => dunp e
    | PSingleton c => w (unp_const printable c)
    | PSequence l => cat ([w "["] ++ inter ", " (map dunp_pattern l) ++ [w "]"])
    | PStar x => w ("*" ++ match x with Some x => x | None => "_" end)
    | PMapping l r =>
        cat ([w "{"] ++ inter ", " (map (fun kp => match kp with (k, p) => cat [dunp k; w ": "; dunp_pattern p] end) l) ++
             opt (fun x => [w (match l with [] => "" | _ => ", " end); w "**"; w x]) r ++ [w "}"])
    | PClass c l k =>
        cat ([dunp c; w "("] ++ inter ", " (map dunp_pattern l) ++
             (match l, k with _ :: _, _ :: _ => [w ", "] | _, _ => [] end) ++
             inter ", " (map (fun kp => match kp with (x, p) => cat [w x; w "="; dunp_pattern p] end) k) ++ [w ")"])
    | PAs None None => w "_"
    | PAs (Some _) None => Err assertion_error
    | PAs None (Some x) => w x
    | PAs (Some p) (Some x) => cat [w (if is_or p then "(" else ""); dunp_pattern p; w (if is_or p then ")" else ""); w " as "; w x]
    | POr l => cat (inter " | " (map dunp_pattern l))
    end.

  (** The [else] and [finally] parts, e.g. unparser.py:439-448. *)
  Definition dpart (i : nat) (q : place) (kw : string) (body : list (res string)) : list (res string) :=
    match body with [] => [] | _ => dfill i (lineno q) kw :: w ":" :: body end.

  (** The methods for statements, as in UnparseModel.v; [q] is the place of the node, the place of a decorator or statement in it is one longer. *)
  Definition dunp_decos (i : nat) (q : place) (l : list expr) : list (res string) := mapi (fun j e => cat [dfill i (lineno ((4, j) :: q)) "@"; dunp e]) 0 l.
  Fixpoint dunp_stmt (kw : string) (i : nat) (q : place) (s : stmt) : res string :=
    match s with
    | SExpr e => cat [dfill i (lineno q) "$Expr"; w ":"; w " "; dunp e]
    | SImport l => cat (dfill i (lineno q) "import " :: inter ", " (map dunp_alias l))
    | SImportFrom m l n =>
        cat ([dfill i (lineno q) "from "; w (String.concat "" (repeat "." n)); w (match m with Some m => m | None => "" end); w " import "] ++
             inter ", " (map dunp_alias l))
    | SAssign ts v => cat ([dfill i (lineno q) ""] ++ map (fun t => cat [dunp t; w " = "]) ts ++ [dunp v])
    | SAnnAssign t a v simple =>
        cat ([dfill i (lineno q) ""; w (if simple then "" else "("); dunp t; w (if simple then "" else ")"); w ": "; dunp a] ++ opt (fun v => [w " = "; dunp v]) v)
    | SAugAssign t o v => cat [dfill i (lineno q) ""; dunp t; w (" " ++ binop_text o ++ "= "); dunp v]
    | SReturn e => cat (dfill i (lineno q) "return" :: opt (fun e => [w " "; dunp e]) e)
    | SPass => dfill i (lineno q) "pass"
    | SBreak => dfill i (lineno q) "break"
    | SContinue => dfill i (lineno q) "continue"
    | SDelete l => cat (dfill i (lineno q) "del " :: inter ", " (map dunp l))
    | SAssert t m => cat (dfill i (lineno q) "assert " :: dunp t :: opt (fun m => [w ", "; dunp m]) m)
    | SGlobal l => cat (dfill i (lineno q) "global " :: inter ", " (map w l))
    | SNonlocal l => cat (dfill i (lineno q) "nonlocal " :: inter ", " (map w l))
    | SRaise None None => dfill i (lineno q) "raise"
    | SRaise None (Some _) => Err assertion_error
    | SRaise (Some e) c => cat (dfill i (lineno q) "raise" :: w " " :: dunp e :: opt (fun c => [w " from "; dunp c]) c)
    | STry star b hs o f =>
        cat ([dfill i (lineno q) "try"; w ":"] ++ mapi (fun j => dunp_stmt "if " (S i) ((0, j) :: q)) 0 b ++ mapi (fun j => dunp_handler star i ((3, j) :: q)) 0 hs ++
             dpart i q "else" (mapi (fun j => dunp_stmt "if " (S i) ((1, j) :: q)) 0 o) ++ dpart i q "finally" (mapi (fun j => dunp_stmt "if " (S i) ((2, j) :: q)) 0 f))
    | SClass x _ bases kws b ds =>
        (* the type parameters are not written *)
        cat ([w nl] ++ dunp_decos i q ds ++ [dfill i (lineno q) ("class " ++ x)] ++
             (match bases, kws with
              | [], [] => []
              | _, _ => [w "("] ++ inter ", " (map dunp bases ++ map dunp_kw kws) ++ [w ")"]
              end) ++ [w ":"] ++ mapi (fun j => dunp_stmt "if " (S i) ((0, j) :: q)) 0 b)
    | SFunction a x _ args b ds r =>
        (* the type parameters are not written *)
        cat ([w nl] ++ dunp_decos i q ds ++ [dfill i (lineno q) ((if a then "async def" else "def") ++ " " ++ x ++ "("); dunp_args args; w ")"] ++
             opt (fun r => [w " -> "; dunp r]) r ++ [w ":"] ++ mapi (fun j => dunp_stmt "if " (S i) ((0, j) :: q)) 0 b)
    | SFor a t it b o =>
        cat ([dfill i (lineno q) (if a then "async for " else "for "); dunp t; w " in "; dunp it; w ":"] ++ mapi (fun j => dunp_stmt "if " (S i) ((0, j) :: q)) 0 b ++
             dpart i q "else" (mapi (fun j => dunp_stmt "if " (S i) ((1, j) :: q)) 0 o))
    | SIf t b o =>
        cat ([dfill i (lineno q) kw; dunp t; w ":"] ++ mapi (fun j => dunp_stmt "if " (S i) ((0, j) :: q)) 0 b ++
             (match o with
              | [SIf _ _ _] => mapi (fun j => dunp_stmt "elif " i ((1, j) :: q)) 0 o
              | _ => dpart i q "else" (mapi (fun j => dunp_stmt "if " (S i) ((1, j) :: q)) 0 o)
              end))
    | SWhile t b o => cat ([dfill i (lineno q) "while "; dunp t; w ":"] ++ mapi (fun j => dunp_stmt "if " (S i) ((0, j) :: q)) 0 b ++ dpart i q "else" (mapi (fun j => dunp_stmt "if " (S i) ((1, j) :: q)) 0 o))
    | SWith a items b =>
        cat ([dfill i (lineno q) (if a then "async with " else "with ")] ++ inter ", " (map dunp_withitem items) ++ [w ":"] ++ mapi (fun j => dunp_stmt "if " (S i) ((0, j) :: q)) 0 b)
    | SMatch e cs => cat ([dfill i (lineno q) "match "; dunp e; w ":"] ++ mapi (fun j => dunp_case (S i) ((5, j) :: q)) 0 cs)
    | STypeAlias x tps v =>
        cat ([dfill i (lineno q) ""; w "type "; dunp x] ++ (match tps with [] => [] | _ => [w "["] ++ inter ", " (map dunp_type_param tps) ++ [w "]"] end) ++
             [w " = "; dunp v])
    end
  (** unparser.py:456-472. *)
  with dunp_handler (star : bool) (i : nat) (q : place) (h : handler) : res string :=
    match h with
    | Handler t x b =>
        cat ([dfill i (lineno q) (if star then "except*" else "except")] ++ opt (fun t => [w " "; dunp t]) t ++ opt (fun x => [w " as "; w x]) x ++ [w ":"] ++
             mapi (fun j => dunp_stmt "if " (S i) ((0, j) :: q)) 0 b)
    end
  (** unparser.py:1052-1065. *)
  with dunp_case (i : nat) (q : place) (c : mcase) : res string :=
    match c with
    | Case p g b =>
        let par := match g with Some _ => is_or p | None => false end in
        cat ([dfill i None "case "; w (if par then "(" else ""); dunp_pattern p; w (if par then ")" else "")] ++ opt (fun g => [w " if "; dunp g]) g ++ [w ":"] ++
             mapi (fun j => dunp_stmt "if " (S i) ((0, j) :: q)) 0 b)
    end.

  (** ** unparse, unparser.py:104-110, 294-305, 1183-1187; [TStmts], [TStmt]: the place has an index into the list. *)
  Definition dunp_top (t : top) : res string :=
    match t with
    | TModule l => cat (dfill 0 None "$Module" :: w ":" :: mapi (fun j => dunp_stmt "if " 1 [(0, j)]) 0 l)
    | TStmts l => cat (mapi (fun j => dunp_stmt "if " 0 [(0, j)]) 0 l)
    | TStmt s => dunp_stmt "if " 0 [(0, 0)] s
    | TExpression _ => Err (mkExn "TypeError" [])
    | TExpr e => dunp e
    end.
  Definition dunparse (t : top) : res string := match cat [dunp_top t; w nl] with Ok s => Ok (UnparseModel.strip s) | Err e => Err e end.
End Debug.
