(** Model of the unparser in debug mode with syntax highlighting, mcpyrate/unparser.py:31-187, 270-1187, with [debug=True], and trees without AST markers: what
    error messages and the steppers show. The methods are those of ColorModel.v and DebugModel.v together. *)
From Verif Require Import Base Dict ShowModel UnparseModel ColorModel DebugModel.
Open Scope string_scope.

(** The color scheme (colorizer.py:98-155), with what only debug mode uses: LINENUMBER, INVISIBLENODE, ASTMARKER. *)
Record dtheme : Type := DTheme { d_theme : theme; t_linenumber : style; t_invisible : style; t_marker : style }.

Section DebugColor.
  Variable printable : ascii -> bool.
  Variable is_exception is_builtin is_macro : string -> bool.
  Variable D : dtheme.
  Variable color : bool.
  (** As in DebugModel.v. *)
  Variable lineno : place -> option Z.
  Notation T := (d_theme D).
  Notation mc := (mc T color).
  Notation kwd := (kwd T color).
  Notation cconst := (cconst printable T color).
  Notation cname := (cname is_exception is_builtin is_macro T color).
  Notation ccmp := (ccmp T color).
  Notation cformatted := (cformatted T color).

  (** unparser.py:270-282; [macro]: 277-282. *)
  Definition ccapture (ov macro : bool) (x : string) : string :=
    mc ov "$h" (t_marker D) ++ mc ov "[" (t_marker D) ++ (if macro then mc ov x (t_macroname T) else x) ++ mc ov "]" (t_marker D).
  (** Which of the two it is (quotes.py:499, 597), given that it is one. *)
  Definition is_lookup_macro (f : expr) : bool := match f with EAttr _ x => String.eqb x "lookup_macro" | _ => false end.
  (** unparser.py:145-161, 297-298, 310-311. *)
  Definition dcfill (i : nat) (n : option Z) (text : string) : res string := w (nl ++ mc false (tag n) (t_linenumber D) ++ spaces (4 * i) ++ text).
  Definition inv (label : string) : string := mc false label (t_invisible D).
  Definition dcpart (i : nat) (q : place) (kw : string) (body : list (res string)) : list (res string) :=
    match body with [] => [] | _ => dcfill i (lineno q) kw :: w ":" :: body end.

  (** The methods for expressions, unparser.py:393-415, 618-1021. *)
  Fixpoint dcunp (ov : bool) (e : expr) : res string :=
    match e with
    | EName x => w (cname ov x)
    | EConst c => w (cconst ov c)
    | EBinOp l o r => cat [w "("; dcunp ov l; w (" " ++ binop_text o ++ " "); dcunp ov r; w ")"]
    | EUnary o e => cat [w "("; w (match o with Not => kwd ov (unop_text o) ++ " " | _ => unop_text o end); dcunp ov e; w ")"]
    | EBool o l => cat ([w "("] ++ inter (" " ++ kwd ov (boolop_text o) ++ " ") (map (dcunp ov) l) ++ [w ")"])
    | ECompare l r => cat ([w "("; dcunp ov l] ++ map (fun p => match p with (o, e) => cat [w (ccmp ov o); dcunp ov e] end) r ++ [w ")"])
    | EIfExp b t o => cat [w "("; dcunp ov b; w (kwd ov " if "); dcunp ov t; w (kwd ov " else "); dcunp ov o; w ")"]
    | ELambda a b => cat [w "("; w (kwd ov "lambda"); w (if takes_arguments a then " " else ""); dcunp_args ov a; w ": "; dcunp ov b; w ")"]
    | ENamed t v => cat [w "("; dcunp ov t; w " := "; dcunp ov v; w ")"]
    | ETuple l => cat ([w "("] ++ tuple_items (map (dcunp ov) l) ++ [w ")"])
    | EList l => cat ([w "["] ++ inter ", " (map (dcunp ov) l) ++ [w "]"])
    | ESet l => match l with [] => Err assertion_error | _ => cat ([w "{"] ++ inter ", " (map (dcunp ov) l) ++ [w "}"]) end
    | EDict l =>
        cat ([w "{"] ++ inter ", " (map (fun p => match p with (k, v) =>
               cat [match k with Some k => dcunp ov k | None => Err unparser_error end; w ": "; dcunp ov v] end) l) ++ [w "}"])
    | EListComp e g => cat ([w "["; dcunp ov e] ++ map (dcunp_comp ov) g ++ [w "]"])
    | ESetComp e g => cat ([w "{"; dcunp ov e] ++ map (dcunp_comp ov) g ++ [w "}"])
    | EGen e g => cat ([w "("; dcunp ov e] ++ map (dcunp_comp ov) g ++ [w ")"])
    | EDictComp k v g => cat ([w "{"; dcunp ov k; w ": "; dcunp ov v] ++ map (dcunp_comp ov) g ++ [w "}"])
    | EAttr e x => cat [dcunp ov e; w (if is_int e then " " else ""); w "."; w x]
    | ESub e s => cat ([dcunp ov e; w "["] ++ (match s with ETuple l => tuple_items (map (dcunp ov) l) | _ => [dcunp ov s] end) ++ [w "]"])
    | ECall f a k =>
        match captured e with
        | Err x => Err x
        | Ok (Some x) => w (ccapture ov (is_lookup_macro f) x)
        | Ok None => cat ([dcunp ov f; w "("] ++ inter ", " (map (dcunp ov) a ++ map (dcunp_kw ov) k) ++ [w ")"])
        end
    | EStarred e => cat [w "*"; dcunp ov e]
    | EAwait e => cat [w "("; w (kwd ov "await"); w " "; dcunp ov e; w ")"]
    | EYield e => cat ([w "("; w (kwd ov "yield")] ++ match e with Some e => [w " "; dcunp ov e] | None => [] end ++ [w ")"])
    | EYieldFrom e => cat [w "("; w (kwd ov "yield from"); w " "; dcunp ov e; w ")"]
    | ESlice lo hi st =>
        cat (match lo with Some e => [dcunp ov e] | None => [] end ++ [w ":"] ++ match hi with Some e => [dcunp ov e] | None => [] end ++
             match st with Some e => [w ":"; dcunp ov e] | None => [] end)
    | EJoined l => cat ([w ("f" ++ mc ov "'" (t_string T))] ++ map (dcfstr_part ov) l ++ [w (mc ov "'" (t_string T))])
    | EFormatted v c spec =>
        cat [w "f'";
             cformatted ov (dcunp ov v) c (match spec with Some (EJoined l) => Some (Some (map (dcfstr_part ov) l)) | Some _ => Some None | None => None end);
             w "'"]
    end
  (** unparser.py:867-879. *)
  with dcfstr_part (ov : bool) (e : expr) : res string :=
    match e with
    | EConst (CStr _ s) => w (mc ov (fstr_escape s) (t_string T))
    | EFormatted v c spec =>
        cformatted ov (dcunp ov v) c (match spec with Some (EJoined l) => Some (Some (map (dcfstr_part ov) l)) | Some _ => Some None | None => None end)
    | _ => Err value_error
    end
  with dcunp_args (ov : bool) (a : arguments) : res string :=
    match a with
    | Args posonly args vararg kwonly kwd kwarg defaults =>
        args_text (map (dcunp_arg ov) posonly) (map (dcunp_arg ov) args) (match vararg with Some a => Some (dcunp_arg ov a) | None => None end) (map (dcunp_arg ov) kwonly)
          (map (fun d => match d with Some d => Some (dcunp ov d) | None => None end) kwd)
          (match kwarg with Some a => Some (dcunp_arg ov a) | None => None end) (map (dcunp ov) defaults)
    end
  (** unparser.py:917-921; and 970-973, 993-996. *)
  with dcunp_arg (ov : bool) (a : arg) : res string :=
    match a with Arg x ann => cat ([w x] ++ match ann with Some e => [w ": "; dcunp ov e] | None => [] end) end
  (** unparser.py:706-715. *)
  with dcunp_comp (ov : bool) (g : comp) : res string :=
    match g with
    | Comp t i ifs a =>
        cat ([w (if a then kwd ov " async" else ""); w (kwd ov " for "); dcunp ov t; w (kwd ov " in "); dcunp ov i] ++
             map (fun c => cat [w (kwd ov " if "); dcunp ov c]) ifs)
    end
  (** unparser.py:998-1004. *)
  with dcunp_kw (ov : bool) (k : keyword) : res string :=
    match k with Kw x e => cat [w (match x with Some x => x ++ "=" | None => "**" end); dcunp ov e] end.

  (** From here on [self._color_override] is false: only decorators, which are expressions, are unparsed while it is true. *)
  Notation cexpr := (dcunp false).
  Notation k_ := (kwd false).
  (** unparser.py:1023-1026, 1028-1032. *)
  Definition dcunp_alias (a : alias) : res string := match a with Alias x y => cat (w x :: opt (fun y => [w (k_ " as " ++ y)]) y) end.
  Definition dcunp_withitem (p : expr * option expr) : res string := cat (cexpr (fst p) :: opt (fun v => [w (k_ " as "); cexpr v]) (snd p)).
  (** unparser.py:1154-1169. *)
  Definition dcunp_type_param (t : type_param) : res string :=
    match t with
    | TypeVar x b => cat (w x :: opt (fun b => [w ": "; cexpr b]) b)
    | ParamSpec x => w ("**" ++ x)
    | TypeVarTuple x => w ("*" ++ x)
    end.

  (** unparser.py:1067-1135; 1129 does not color [as]. *)
  Fixpoint dcunp_pattern (p : pattern) : res string :=
    match p with
    | PValue e => cexpr e
    | PSingleton c => w (mc false (unp_const printable c) (t_nameconstant T))
    | PSequence l => cat ([w "["] ++ inter ", " (map dcunp_pattern l) ++ [w "]"])
    | PStar x => w ("*" ++ match x with Some x => x | None => k_ "_" end)
    | PMapping l r =>
        cat ([w "{"] ++ inter ", " (map (fun kp => match kp with (k, p) => cat [cexpr k; w ": "; dcunp_pattern p] end) l) ++
             opt (fun x => [w (match l with [] => "" | _ => ", " end); w "**"; w x]) r ++ [w "}"])
    | PClass c l k =>
        cat ([cexpr c; w "("] ++ inter ", " (map dcunp_pattern l) ++
             (match l, k with _ :: _, _ :: _ => [w ", "] | _, _ => [] end) ++
             inter ", " (map (fun kp => match kp with (x, p) => cat [w x; w "="; dcunp_pattern p] end) k) ++ [w ")"])
    | PAs None None => w (k_ "_")
    | PAs (Some _) None => Err assertion_error
    | PAs None (Some x) => w x
    | PAs (Some p) (Some x) => cat [w (if is_or p then "(" else ""); dcunp_pattern p; w (if is_or p then ")" else ""); w " as "; w x]
    | POr l => cat (inter " | " (map dcunp_pattern l))
    end.

  (** unparser.py:476-487, 522-533: the at sign, then the decorator's color until further notice, and the decorator itself without colors. *)
  Definition dcdecos (i : nat) (q : place) (l : list expr) : list (res string) :=
    mapi (fun j e => cat [dcfill i (lineno ((4, j) :: q)) (mc false "@" (t_decorator T));
                       w (if color then setcolor (t_base T) [t_decorator T] true else ""); dcunp true e;
                       w (if color then setcolor (t_base T) [] true else "")]) 0 l.
  (** The methods for statements, unparser.py:307-616, 1044-1065 (1061 does not color [if]), 1143-1152. *)
  Fixpoint dcunp_stmt (kw : string) (i : nat) (q : place) (s : stmt) : res string :=
    match s with
    | SExpr e => cat [dcfill i (lineno q) (inv "$Expr"); w ":"; w " "; cexpr e]
    | SImport l => cat (dcfill i (lineno q) (k_ "import ") :: inter ", " (map dcunp_alias l))
    | SImportFrom m l n =>
        cat ([dcfill i (lineno q) (k_ "from "); w (String.concat "" (repeat "." n)); w (match m with Some m => m | None => "" end); w (k_ " import ")] ++
             inter ", " (map dcunp_alias l))
    | SAssign ts v => cat ([dcfill i (lineno q) ""] ++ map (fun t => cat [cexpr t; w " = "]) ts ++ [cexpr v])
    | SAnnAssign t a v simple =>
        cat ([dcfill i (lineno q) ""; w (if simple then "" else "("); cexpr t; w (if simple then "" else ")"); w ": "; cexpr a] ++ opt (fun v => [w " = "; cexpr v]) v)
    | SAugAssign t o v => cat [dcfill i (lineno q) ""; cexpr t; w (" " ++ binop_text o ++ "= "); cexpr v]
    | SReturn e => cat (dcfill i (lineno q) (k_ "return") :: opt (fun e => [w " "; cexpr e]) e)
    | SPass => dcfill i (lineno q) (k_ "pass")
    | SBreak => dcfill i (lineno q) (k_ "break")
    | SContinue => dcfill i (lineno q) (k_ "continue")
    | SDelete l => cat (dcfill i (lineno q) (k_ "del ") :: inter ", " (map cexpr l))
    | SAssert t m => cat (dcfill i (lineno q) (k_ "assert ") :: cexpr t :: opt (fun m => [w ", "; cexpr m]) m)
    | SGlobal l => cat (dcfill i (lineno q) (k_ "global ") :: inter ", " (map w l))
    | SNonlocal l => cat (dcfill i (lineno q) (k_ "nonlocal ") :: inter ", " (map w l))
    | SRaise None None => dcfill i (lineno q) (k_ "raise")
    | SRaise None (Some _) => Err assertion_error
    | SRaise (Some e) c => cat (dcfill i (lineno q) (k_ "raise") :: w " " :: cexpr e :: opt (fun c => [w (k_ " from "); cexpr c]) c)
    | STry star b hs o f =>
        cat ([dcfill i (lineno q) (k_ "try"); w ":"] ++ mapi (fun j => dcunp_stmt "if " (S i) ((0, j) :: q)) 0 b ++ mapi (fun j => dcunp_handler star i ((3, j) :: q)) 0 hs ++
             dcpart i q (k_ "else") (mapi (fun j => dcunp_stmt "if " (S i) ((1, j) :: q)) 0 o) ++ dcpart i q (k_ "finally") (mapi (fun j => dcunp_stmt "if " (S i) ((2, j) :: q)) 0 f))
    | SClass x _ bases kws b ds =>
        cat ([w nl] ++ dcdecos i q ds ++ [dcfill i (lineno q) (k_ "class " ++ mc false x (t_defname T))] ++
             (match bases, kws with
              | [], [] => []
              | _, _ => [w "("] ++ inter ", " (map cexpr bases ++ map (dcunp_kw false) kws) ++ [w ")"]
              end) ++ [w ":"] ++ mapi (fun j => dcunp_stmt "if " (S i) ((0, j) :: q)) 0 b)
    | SFunction a x _ args b ds r =>
        cat ([w nl] ++ dcdecos i q ds ++ [dcfill i (lineno q) (k_ (if a then "async def" else "def") ++ " " ++ mc false x (t_defname T) ++ "("); dcunp_args false args; w ")"] ++
             opt (fun r => [w " -> "; cexpr r]) r ++ [w ":"] ++ mapi (fun j => dcunp_stmt "if " (S i) ((0, j) :: q)) 0 b)
    | SFor a t it b o =>
        cat ([dcfill i (lineno q) (k_ (if a then "async for " else "for ")); cexpr t; w (k_ " in "); cexpr it; w ":"] ++ mapi (fun j => dcunp_stmt "if " (S i) ((0, j) :: q)) 0 b ++
             dcpart i q (k_ "else") (mapi (fun j => dcunp_stmt "if " (S i) ((1, j) :: q)) 0 o))
    | SIf t b o =>
        cat ([dcfill i (lineno q) (k_ kw); cexpr t; w ":"] ++ mapi (fun j => dcunp_stmt "if " (S i) ((0, j) :: q)) 0 b ++
             (match o with
              | [SIf _ _ _] => mapi (fun j => dcunp_stmt "elif " i ((1, j) :: q)) 0 o
              | _ => dcpart i q (k_ "else") (mapi (fun j => dcunp_stmt "if " (S i) ((1, j) :: q)) 0 o)
              end))
    | SWhile t b o =>
        cat ([dcfill i (lineno q) (k_ "while "); cexpr t; w ":"] ++ mapi (fun j => dcunp_stmt "if " (S i) ((0, j) :: q)) 0 b ++ dcpart i q (k_ "else") (mapi (fun j => dcunp_stmt "if " (S i) ((1, j) :: q)) 0 o))
    | SWith a items b =>
        cat ([dcfill i (lineno q) (k_ (if a then "async with " else "with "))] ++ inter ", " (map dcunp_withitem items) ++ [w ":"] ++ mapi (fun j => dcunp_stmt "if " (S i) ((0, j) :: q)) 0 b)
    | SMatch e cs => cat ([dcfill i (lineno q) (k_ "match "); cexpr e; w ":"] ++ mapi (fun j => dcunp_case (S i) ((5, j) :: q)) 0 cs)
    | STypeAlias x tps v =>
        cat ([dcfill i (lineno q) ""; w (k_ "type "); cexpr x] ++ (match tps with [] => [] | _ => [w "["] ++ inter ", " (map dcunp_type_param tps) ++ [w "]"] end) ++
             [w " = "; cexpr v])
    end
  (** unparser.py:456-472. *)
  with dcunp_handler (star : bool) (i : nat) (q : place) (h : handler) : res string :=
    match h with
    | Handler t x b =>
        cat ([dcfill i (lineno q) (k_ (if star then "except*" else "except"))] ++ opt (fun t => [w " "; cexpr t]) t ++ opt (fun x => [w (k_ " as "); w x]) x ++ [w ":"] ++
             mapi (fun j => dcunp_stmt "if " (S i) ((0, j) :: q)) 0 b)
    end
  (** unparser.py:1052-1065. *)
  with dcunp_case (i : nat) (q : place) (c : mcase) : res string :=
    match c with
    | Case p g b =>
        let par := match g with Some _ => is_or p | None => false end in
        cat ([dcfill i None (k_ "case "); w (if par then "(" else ""); dcunp_pattern p; w (if par then ")" else "")] ++ opt (fun g => [w " if "; cexpr g]) g ++ [w ":"] ++
             mapi (fun j => dcunp_stmt "if " (S i) ((0, j) :: q)) 0 b)
    end.

  (** unparser.py:104-110, 294-305, 1183-1187. *)
  Definition dcunp_top (t : top) : res string :=
    match t with
    | TModule l => cat (dcfill 0 None (inv "$Module") :: w ":" :: mapi (fun j => dcunp_stmt "if " 1 [(0, j)]) 0 l)
    | TStmts l => cat (mapi (fun j => dcunp_stmt "if " 0 [(0, j)]) 0 l)
    | TStmt s => dcunp_stmt "if " 0 [(0, 0)] s
    | TExpression _ => Err (mkExn "TypeError" [])
    | TExpr e => cexpr e
    end.
  Definition dcunparse (t : top) : res string := match cat [dcunp_top t; w nl] with Ok s => Ok (UnparseModel.strip s) | Err e => Err e end.
End DebugColor.
