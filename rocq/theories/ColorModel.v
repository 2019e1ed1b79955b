(** Model of the unparser with syntax highlighting, mcpyrate/unparser.py:31-36, 63-124, 126-141, 307-1187: [color] and [expander] are parameters.
    [debug=False], and trees without AST markers, as in UnparseModel.v, whose types and helpers are used here. The method [dispatch] of a
    node is the function for its type here, and what it writes is the result. *)
From Verif Require Import Base Dict ShowModel UnparseModel.
Open Scope string_scope.

(** The color scheme (colorizer.py:98-155) and [Style.RESET_ALL], which [t_base] has. *)
Record theme : Type := Theme {
  t_base : palette; t_keyword : style; t_exception : style; t_builtin : style; t_defname : style; t_decorator : style;
  t_string : style; t_number : style; t_nameconstant : style; t_macroname : style }.

Section Color.
  Variable printable : ascii -> bool.
  (** unparser.py:31-36: which names are in [builtin_exceptions_and_warnings], in [builtin_others]. *)
  Variable is_exception is_builtin : string -> bool.
  (** [self.expander and self.expander.isbound(v)] *)
  Variable is_macro : string -> bool.
  Variable T : theme.
  Variable color : bool.

  (** unparser.py:114-120; [ov] is [self._color_override]. *)
  Definition mc (ov : bool) (text : string) (c : style) : string := if ov then text else if negb color then text else colorize (t_base T) text [c].
  (** unparser.py:122-124. *)
  Definition kwd (ov : bool) (text : string) : string := mc ov text (t_keyword T).

  (** unparser.py:626-645. *)
  Definition cconst (ov : bool) (c : const) : string :=
    match c with
    | CEllipsis => "..."
    | CNone | CTrue | CFalse => mc ov (unp_const printable c) (t_nameconstant T)
    | CInt _ | CNum _ => mc ov (unp_const printable c) (t_number T)
    | CStr u s => (if u then "u" else "") ++ mc ov (repr_str printable s) (t_string T)
    | CBytes _ => mc ov (unp_const printable c) (t_string T)
    end.
  (** unparser.py:653-661. *)
  Definition cname (ov : bool) (x : string) : string :=
    if is_exception x then mc ov x (t_exception T)
    else if is_builtin x then mc ov x (t_builtin T)
    else if is_macro x then mc ov x (t_macroname T)
    else x.
  (** unparser.py:782-794. *)
  Definition ccmp (ov : bool) (o : cmpop) : string :=
    match o with Is | IsNot | In_ | NotIn => " " ++ kwd ov (cmpop_text o) ++ " " | _ => " " ++ cmpop_text o ++ " " end.
  (** unparser.py:842-860; [conversion_text] when nothing is written, too, since the empty text is not colorized there. *)
  Definition cconv (ov : bool) (z : Z) : res string :=
    match conversion_text z with Ok "" => w "" | Ok s => w (mc ov s (t_string T)) | Err e => Err e end.
  Definition cformatted (ov : bool) (v : res string) (conv : Z) (spec : option (option (list (res string)))) : res string :=
    let c := fun text => mc ov text (t_string T) in
    cat [w (c "{"); v; cconv ov conv;
         match spec with Some (Some l) => cat (w (c ":") :: l) | Some None => Err (mkExn "AttributeError" []) | None => w "" end; w (c "}")].

  (** The methods for expressions, unparser.py:393-415, 618-1021. *)
  Fixpoint cunp (ov : bool) (e : expr) : res string :=
    match e with
    | EName x => w (cname ov x)
    | EConst c => w (cconst ov c)
    | EBinOp l o r => cat [w "("; cunp ov l; w (" " ++ binop_text o ++ " "); cunp ov r; w ")"]
    | EUnary o e => cat [w "("; w (match o with Not => kwd ov (unop_text o) ++ " " | _ => unop_text o end); cunp ov e; w ")"]
    | EBool o l => cat ([w "("] ++ inter (" " ++ kwd ov (boolop_text o) ++ " ") (map (cunp ov) l) ++ [w ")"])
    | ECompare l r => cat ([w "("; cunp ov l] ++ map (fun p => match p with (o, e) => cat [w (ccmp ov o); cunp ov e] end) r ++ [w ")"])
    | EIfExp b t o => cat [w "("; cunp ov b; w (kwd ov " if "); cunp ov t; w (kwd ov " else "); cunp ov o; w ")"]
    | ELambda a b => cat [w "("; w (kwd ov "lambda"); w (if takes_arguments a then " " else ""); cunp_args ov a; w ": "; cunp ov b; w ")"]
    | ENamed t v => cat [w "("; cunp ov t; w " := "; cunp ov v; w ")"]
    | ETuple l => cat ([w "("] ++ tuple_items (map (cunp ov) l) ++ [w ")"])
    | EList l => cat ([w "["] ++ inter ", " (map (cunp ov) l) ++ [w "]"])
    | ESet l => match l with [] => Err assertion_error | _ => cat ([w "{"] ++ inter ", " (map (cunp ov) l) ++ [w "}"]) end
    | EDict l =>
        cat ([w "{"] ++ inter ", " (map (fun p => match p with (k, v) =>
               cat [match k with Some k => cunp ov k | None => Err unparser_error end; w ": "; cunp ov v] end) l) ++ [w "}"])
    | EListComp e g => cat ([w "["; cunp ov e] ++ map (cunp_comp ov) g ++ [w "]"])
    | ESetComp e g => cat ([w "{"; cunp ov e] ++ map (cunp_comp ov) g ++ [w "}"])
    | EGen e g => cat ([w "("; cunp ov e] ++ map (cunp_comp ov) g ++ [w ")"])
    | EDictComp k v g => cat ([w "{"; cunp ov k; w ": "; cunp ov v] ++ map (cunp_comp ov) g ++ [w "}"])
    | EAttr e x => cat [cunp ov e; w (if is_int e then " " else ""); w "."; w x]
    | ESub e s => cat ([cunp ov e; w "["] ++ (match s with ETuple l => tuple_items (map (cunp ov) l) | _ => [cunp ov s] end) ++ [w "]"])
    | ECall f a k => cat ([cunp ov f; w "("] ++ inter ", " (map (cunp ov) a ++ map (cunp_kw ov) k) ++ [w ")"])
    | EStarred e => cat [w "*"; cunp ov e]
    | EAwait e => cat [w "("; w (kwd ov "await"); w " "; cunp ov e; w ")"]
    | EYield e => cat ([w "("; w (kwd ov "yield")] ++ match e with Some e => [w " "; cunp ov e] | None => [] end ++ [w ")"])
    | EYieldFrom e => cat [w "("; w (kwd ov "yield from"); w " "; cunp ov e; w ")"]
    | ESlice lo hi st =>
        cat (match lo with Some e => [cunp ov e] | None => [] end ++ [w ":"] ++ match hi with Some e => [cunp ov e] | None => [] end ++
             match st with Some e => [w ":"; cunp ov e] | None => [] end)
    | EJoined l => cat ([w ("f" ++ mc ov "'" (t_string T))] ++ map (cfstr_part ov) l ++ [w (mc ov "'" (t_string T))])
    | EFormatted v c spec =>
        cat [w "f'";
             cformatted ov (cunp ov v) c (match spec with Some (EJoined l) => Some (Some (map (cfstr_part ov) l)) | Some _ => Some None | None => None end);
             w "'"]
    end
  (** unparser.py:867-879. *)
  with cfstr_part (ov : bool) (e : expr) : res string :=
    match e with
    | EConst (CStr _ s) => w (mc ov (fstr_escape s) (t_string T))
    | EFormatted v c spec =>
        cformatted ov (cunp ov v) c (match spec with Some (EJoined l) => Some (Some (map (cfstr_part ov) l)) | Some _ => Some None | None => None end)
    | _ => Err value_error
    end
  with cunp_args (ov : bool) (a : arguments) : res string :=
    match a with
    | Args posonly args vararg kwonly kwd kwarg defaults =>
        args_text (map (cunp_arg ov) posonly) (map (cunp_arg ov) args) (match vararg with Some a => Some (cunp_arg ov a) | None => None end) (map (cunp_arg ov) kwonly)
          (map (fun d => match d with Some d => Some (cunp ov d) | None => None end) kwd)
          (match kwarg with Some a => Some (cunp_arg ov a) | None => None end) (map (cunp ov) defaults)
    end
  (** unparser.py:917-921; and 970-973, 993-996. *)
  with cunp_arg (ov : bool) (a : arg) : res string :=
    match a with Arg x ann => cat ([w x] ++ match ann with Some e => [w ": "; cunp ov e] | None => [] end) end
  (** unparser.py:706-715. *)
  with cunp_comp (ov : bool) (g : comp) : res string :=
    match g with
    | Comp t i ifs a =>
        cat ([w (if a then kwd ov " async" else ""); w (kwd ov " for "); cunp ov t; w (kwd ov " in "); cunp ov i] ++
             map (fun c => cat [w (kwd ov " if "); cunp ov c]) ifs)
    end
  (** unparser.py:998-1004. *)
  with cunp_kw (ov : bool) (k : keyword) : res string :=
    match k with Kw x e => cat [w (match x with Some x => x ++ "=" | None => "**" end); cunp ov e] end.

  (** From here on [self._color_override] is false: only decorators, which are expressions, are unparsed while it is true. *)
  Notation cexpr := (cunp false).
  Notation k_ := (kwd false).
  (** unparser.py:1023-1026, 1028-1032. *)
  Definition cunp_alias (a : alias) : res string := match a with Alias x y => cat (w x :: opt (fun y => [w (k_ " as " ++ y)]) y) end.
  Definition cunp_withitem (p : expr * option expr) : res string := cat (cexpr (fst p) :: opt (fun v => [w (k_ " as "); cexpr v]) (snd p)).
  (** unparser.py:1154-1169. *)
  Definition cunp_type_param (t : type_param) : res string :=
    match t with
    | TypeVar x b => cat (w x :: opt (fun b => [w ": "; cexpr b]) b)
    | ParamSpec x => w ("**" ++ x)
    | TypeVarTuple x => w ("*" ++ x)
    end.

  (** unparser.py:1067-1135; 1129 does not color [as]. *)
  Fixpoint cunp_pattern (p : pattern) : res string :=
    match p with
    | PValue e => cexpr e
    | PSingleton c => w (mc false (unp_const printable c) (t_nameconstant T))
    | PSequence l => cat ([w "["] ++ inter ", " (map cunp_pattern l) ++ [w "]"])
    | PStar x => w ("*" ++ match x with Some x => x | None => k_ "_" end)
    | PMapping l r =>
        cat ([w "{"] ++ inter ", " (map (fun kp => match kp with (k, p) => cat [cexpr k; w ": "; cunp_pattern p] end) l) ++
             opt (fun x => [w (match l with [] => "" | _ => ", " end); w "**"; w x]) r ++ [w "}"])
    | PClass c l k =>
        cat ([cexpr c; w "("] ++ inter ", " (map cunp_pattern l) ++
             (match l, k with _ :: _, _ :: _ => [w ", "] | _, _ => [] end) ++
             inter ", " (map (fun kp => match kp with (x, p) => cat [w x; w "="; cunp_pattern p] end) k) ++ [w ")"])
    | PAs None None => w (k_ "_")
    | PAs (Some _) None => Err assertion_error
    | PAs None (Some x) => w x
    | PAs (Some p) (Some x) => cat [w (if is_or p then "(" else ""); cunp_pattern p; w (if is_or p then ")" else ""); w " as "; w x]
    | POr l => cat (inter " | " (map cunp_pattern l))
    end.

  (** unparser.py:476-487, 522-533: the at sign, then the decorator's color until further notice, and the decorator itself without colors. *)
  Definition cdecos (i : nat) (l : list expr) : list (res string) :=
    map (fun e => cat [fill i (mc false "@" (t_decorator T));
                       w (if color then setcolor (t_base T) [t_decorator T] true else ""); cunp true e;
                       w (if color then setcolor (t_base T) [] true else "")]) l.
  (** The methods for statements, unparser.py:307-616, 1044-1065 (1061 does not color [if]), 1143-1152. *)
  Fixpoint cunp_stmt (kw : string) (i : nat) (s : stmt) : res string :=
    match s with
    | SExpr e => cat [fill i ""; cexpr e]
    | SImport l => cat (fill i (k_ "import ") :: inter ", " (map cunp_alias l))
    | SImportFrom m l n =>
        cat ([fill i (k_ "from "); w (String.concat "" (repeat "." n)); w (match m with Some m => m | None => "" end); w (k_ " import ")] ++
             inter ", " (map cunp_alias l))
    | SAssign ts v => cat ([fill i ""] ++ map (fun t => cat [cexpr t; w " = "]) ts ++ [cexpr v])
    | SAnnAssign t a v simple =>
        cat ([fill i ""; w (if simple then "" else "("); cexpr t; w (if simple then "" else ")"); w ": "; cexpr a] ++ opt (fun v => [w " = "; cexpr v]) v)
    | SAugAssign t o v => cat [fill i ""; cexpr t; w (" " ++ binop_text o ++ "= "); cexpr v]
    | SReturn e => cat (fill i (k_ "return") :: opt (fun e => [w " "; cexpr e]) e)
    | SPass => fill i (k_ "pass")
    | SBreak => fill i (k_ "break")
    | SContinue => fill i (k_ "continue")
    | SDelete l => cat (fill i (k_ "del ") :: inter ", " (map cexpr l))
    | SAssert t m => cat (fill i (k_ "assert ") :: cexpr t :: opt (fun m => [w ", "; cexpr m]) m)
    | SGlobal l => cat (fill i (k_ "global ") :: inter ", " (map w l))
    | SNonlocal l => cat (fill i (k_ "nonlocal ") :: inter ", " (map w l))
    | SRaise None None => fill i (k_ "raise")
    | SRaise None (Some _) => Err assertion_error
    | SRaise (Some e) c => cat (fill i (k_ "raise") :: w " " :: cexpr e :: opt (fun c => [w (k_ " from "); cexpr c]) c)
    | STry star b hs o f =>
        cat ([fill i (k_ "try"); w ":"] ++ map (cunp_stmt "if " (S i)) b ++ map (cunp_handler star i) hs ++
             part i (k_ "else") (map (cunp_stmt "if " (S i)) o) ++ part i (k_ "finally") (map (cunp_stmt "if " (S i)) f))
    | SClass x _ bases kws b ds =>
        cat ([w nl] ++ cdecos i ds ++ [fill i (k_ "class " ++ mc false x (t_defname T))] ++
             (match bases, kws with
              | [], [] => []
              | _, _ => [w "("] ++ inter ", " (map cexpr bases ++ map (cunp_kw false) kws) ++ [w ")"]
              end) ++ [w ":"] ++ map (cunp_stmt "if " (S i)) b)
    | SFunction a x _ args b ds r =>
        cat ([w nl] ++ cdecos i ds ++ [fill i (k_ (if a then "async def" else "def") ++ " " ++ mc false x (t_defname T) ++ "("); cunp_args false args; w ")"] ++
             opt (fun r => [w " -> "; cexpr r]) r ++ [w ":"] ++ map (cunp_stmt "if " (S i)) b)
    | SFor a t it b o =>
        cat ([fill i (k_ (if a then "async for " else "for ")); cexpr t; w (k_ " in "); cexpr it; w ":"] ++ map (cunp_stmt "if " (S i)) b ++
             part i (k_ "else") (map (cunp_stmt "if " (S i)) o))
    | SIf t b o =>
        cat ([fill i (k_ kw); cexpr t; w ":"] ++ map (cunp_stmt "if " (S i)) b ++
             (match o with
              | [SIf _ _ _] => map (cunp_stmt "elif " i) o
              | _ => part i (k_ "else") (map (cunp_stmt "if " (S i)) o)
              end))
    | SWhile t b o =>
        cat ([fill i (k_ "while "); cexpr t; w ":"] ++ map (cunp_stmt "if " (S i)) b ++ part i (k_ "else") (map (cunp_stmt "if " (S i)) o))
    | SWith a items b =>
        cat ([fill i (k_ (if a then "async with " else "with "))] ++ inter ", " (map cunp_withitem items) ++ [w ":"] ++ map (cunp_stmt "if " (S i)) b)
    | SMatch e cs => cat ([fill i (k_ "match "); cexpr e; w ":"] ++ map (cunp_case (S i)) cs)
    | STypeAlias x tps v =>
        cat ([fill i ""; w (k_ "type "); cexpr x] ++ (match tps with [] => [] | _ => [w "["] ++ inter ", " (map cunp_type_param tps) ++ [w "]"] end) ++
             [w " = "; cexpr v])
    end
  (** unparser.py:456-472. *)
  with cunp_handler (star : bool) (i : nat) (h : handler) : res string :=
    match h with
    | Handler t x b =>
        cat ([fill i (k_ (if star then "except*" else "except"))] ++ opt (fun t => [w " "; cexpr t]) t ++ opt (fun x => [w (k_ " as "); w x]) x ++ [w ":"] ++
             map (cunp_stmt "if " (S i)) b)
    end
  (** unparser.py:1052-1065. *)
  with cunp_case (i : nat) (c : mcase) : res string :=
    match c with
    | Case p g b =>
        let par := match g with Some _ => is_or p | None => false end in
        cat ([fill i (k_ "case "); w (if par then "(" else ""); cunp_pattern p; w (if par then ")" else "")] ++ opt (fun g => [w " if "; cexpr g]) g ++ [w ":"] ++
             map (cunp_stmt "if " (S i)) b)
    end.

  (** unparser.py:104-110, 183-187. *)
  Definition cunp_top (t : top) : res string :=
    match t with
    | TModule l | TStmts l => cat (map (cunp_stmt "if " 0) l)
    | TStmt s => cunp_stmt "if " 0 s
    | TExpression _ => Err (mkExn "TypeError" [])
    | TExpr e => cexpr e
    end.
  Definition cunparse (t : top) : res string := match cat [cunp_top t; w nl] with Ok s => Ok (strip s) | Err e => Err e end.
End Color.
