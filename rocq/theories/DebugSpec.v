(** What debug mode is to show. *)
From Verif Require Import Base UnparseModel DebugModel.
Open Scope string_scope.
Open Scope list_scope.

(** ** Captures, shown by name *)
(** Captured values and macros: what the hygienic unquote makes ([capture_value], before the value is frozen; [lookup_value], after), and what the quasiquote
    makes of a macro name; the module is named directly, or imported on the spot. *)
Definition quotes_module (e : expr) : Prop :=
  e = EAttr (EName "mcpyrate") "quotes" \/ exists b l k, e = EAttr (ECall (EName "__import__") (EConst (CStr b "mcpyrate.quotes") :: l) k) "quotes".
Inductive capture : expr -> string -> Prop :=
| Fresh m v b x l k : quotes_module m -> capture (ECall (EAttr m "capture_value") (v :: EConst (CStr b x) :: l) k) x
| Frozen m t b x f l k : quotes_module m -> (let key := [EConst (CStr b x); EConst (CBytes f)] in t = ETuple key \/ t = EList key \/ t = ESet key) ->
    capture (ECall (EAttr m "lookup_value") (t :: l) k) x
| Macro m t b x b' u f l k : quotes_module m -> (let key := [EConst (CStr b x); EConst (CStr b' u); EConst (CBytes f)] in t = ETuple key \/ t = EList key \/ t = ESet key) ->
    capture (ECall (EAttr m "lookup_macro") (t :: l) k) x.
(** The program with every captured value or macro replaced by the text $h[name], and every call with other arguments of one of these functions by an empty set,
    which has no source code. *)
Definition om {A} (f : A -> A) (o : option A) : option A := match o with Some x => Some (f x) | None => None end.
Fixpoint sub (e : expr) : expr :=
  match e with
  | EName x => EName x
  | EConst c => EConst c
  | EBinOp l o r => EBinOp (sub l) o (sub r)
  | EUnary o e => EUnary o (sub e)
  | EBool o l => EBool o (map sub l)
  | ECompare l r => ECompare (sub l) (map (fun p => match p with (o, e) => (o, sub e) end) r)
  | EIfExp b t o => EIfExp (sub b) (sub t) (sub o)
  | ELambda a b => ELambda (sub_args a) (sub b)
  | ENamed t v => ENamed (sub t) (sub v)
  | ETuple l => ETuple (map sub l)
  | EList l => EList (map sub l)
  | ESet l => ESet (map sub l)
  | EDict l => EDict (map (fun p => match p with (k, v) => (match k with Some k => Some (sub k) | None => None end, sub v) end) l)
  | EListComp e g => EListComp (sub e) (map sub_comp g)
  | ESetComp e g => ESetComp (sub e) (map sub_comp g)
  | EGen e g => EGen (sub e) (map sub_comp g)
  | EDictComp k v g => EDictComp (sub k) (sub v) (map sub_comp g)
  | EAttr e x => EAttr (sub e) x
  | ESub e s => ESub (sub e) (sub s)
  | ECall f a k => match captured e with Ok (Some x) => EName ("$h[" ++ x ++ "]")%string | Err _ => ESet [] | Ok None => ECall (sub f) (map sub a) (map sub_kw k) end
  | EStarred e => EStarred (sub e)
  | EAwait e => EAwait (sub e)
  | EYield e => EYield (match e with Some e => Some (sub e) | None => None end)
  | EYieldFrom e => EYieldFrom (sub e)
  | ESlice a b c =>
      ESlice (match a with Some e => Some (sub e) | None => None end) (match b with Some e => Some (sub e) | None => None end) (match c with Some e => Some (sub e) | None => None end)
  | EJoined l => EJoined (map sub l)
  | EFormatted v c spec => EFormatted (sub v) c (match spec with Some e => Some (sub e) | None => None end)
  end
with sub_args (a : arguments) : arguments :=
  match a with
  | Args p l v k kd kw d =>
      Args (map sub_arg p) (map sub_arg l) (match v with Some a => Some (sub_arg a) | None => None end) (map sub_arg k)
        (map (fun d => match d with Some d => Some (sub d) | None => None end) kd) (match kw with Some a => Some (sub_arg a) | None => None end) (map sub d)
  end
with sub_arg (a : arg) : arg := match a with Arg x t => Arg x (match t with Some e => Some (sub e) | None => None end) end
with sub_comp (g : comp) : comp := match g with Comp t i ifs a => Comp (sub t) (sub i) (map sub ifs) a end
with sub_kw (k : keyword) : keyword := match k with Kw x e => Kw x (sub e) end.

Definition sub_tp (t : type_param) : type_param := match t with TypeVar x b => TypeVar x (om sub b) | _ => t end.
Fixpoint sub_pattern (p : pattern) : pattern :=
  match p with
  | PValue e => PValue (sub e)
  | PSingleton c => PSingleton c
  | PSequence l => PSequence (map sub_pattern l)
  | PStar x => PStar x
  | PMapping l r => PMapping (map (fun p => match p with (k, p) => (sub k, sub_pattern p) end) l) r
  | PClass c l k => PClass (sub c) (map sub_pattern l) (map (fun p => match p with (x, p) => (x, sub_pattern p) end) k)
  | PAs p x => PAs (match p with Some p => Some (sub_pattern p) | None => None end) x
  | POr l => POr (map sub_pattern l)
  end.
Fixpoint sub_stmt (s : stmt) : stmt :=
  match s with
  | SExpr e => SExpr (sub e)
  | SImport l => SImport l
  | SImportFrom m l n => SImportFrom m l n
  | SAssign ts v => SAssign (map sub ts) (sub v)
  | SAnnAssign t a v b => SAnnAssign (sub t) (sub a) (om sub v) b
  | SAugAssign t o v => SAugAssign (sub t) o (sub v)
  | SReturn e => SReturn (om sub e)
  | SPass => SPass | SBreak => SBreak | SContinue => SContinue
  | SDelete l => SDelete (map sub l)
  | SAssert t m => SAssert (sub t) (om sub m)
  | SGlobal l => SGlobal l
  | SNonlocal l => SNonlocal l
  | SRaise e c => SRaise (om sub e) (om sub c)
  | STry star b hs o f => STry star (map sub_stmt b) (map sub_handler hs) (map sub_stmt o) (map sub_stmt f)
  | SClass x tps bases kws b ds => SClass x (map sub_tp tps) (map sub bases) (map sub_kw kws) (map sub_stmt b) (map sub ds)
  | SFunction a x tps args b ds r => SFunction a x (map sub_tp tps) (sub_args args) (map sub_stmt b) (map sub ds) (om sub r)
  | SFor a t i b o => SFor a (sub t) (sub i) (map sub_stmt b) (map sub_stmt o)
  | SIf t b o => SIf (sub t) (map sub_stmt b) (map sub_stmt o)
  | SWhile t b o => SWhile (sub t) (map sub_stmt b) (map sub_stmt o)
  | SWith a items b => SWith a (map (fun p => (sub (fst p), om sub (snd p))) items) (map sub_stmt b)
  | SMatch e cs => SMatch (sub e) (map sub_case cs)
  | STypeAlias x tps v => STypeAlias (sub x) (map sub_tp tps) (sub v)
  end
with sub_handler (h : handler) : handler := match h with Handler t x b => Handler (om sub t) x (map sub_stmt b) end
with sub_case (c : mcase) : mcase := match c with Case p g b => Case (sub_pattern p) (om sub g) (map sub_stmt b) end.
Definition sub_top (t : top) : top :=
  match t with
  | TModule l => TModule (map sub_stmt l)
  | TExpression e => TExpression (sub e)
  | TStmts l => TStmts (map sub_stmt l)
  | TStmt s => TStmt (sub_stmt s)
  | TExpr e => TExpr (sub e)
  end.

(** ** The lines of a program *)
(** An empty line (before a class or function), or a line with the number it is to show, its nesting depth, and whether it is an expression statement. *)
Inductive row : Type := Empty | Row (no : option Z) (depth : nat) (is_expr : bool).

Section Layout.
  (** The line number of each statement, handler and decorator. *)
  Variable lineno : place -> option Z.
  (** Each line shows the number of the statement that it belongs to: the lines with [else] and [finally], that of the whole statement (for an [elif]
      chain, of the last [elif]); decorators and handlers, their own; [case], none. *)
  Fixpoint rows (d : nat) (q : place) (s : stmt) : list row :=
    let body f b := concat (mapi (fun j => rows (S d) ((f, j) :: q)) 0 b) in
    let tail f b := match b with [] => [] | _ => Row (lineno q) d false :: concat (mapi (fun j => rows (S d) ((f, j) :: q)) 0 b) end in
    let decos ds := mapi (fun j (_ : expr) => Row (lineno ((4, j) :: q)) d false) 0 ds in
    match s with
    | SExpr _ => [Row (lineno q) d true]
    | STry _ b hs o f => Row (lineno q) d false :: body 0 b ++ concat (mapi (fun j => rows_handler d ((3, j) :: q)) 0 hs) ++ tail 1 o ++ tail 2 f
    | SClass _ _ _ _ b ds | SFunction _ _ _ _ b ds _ => Empty :: decos ds ++ Row (lineno q) d false :: body 0 b
    | SFor _ _ _ b o | SWhile _ b o => Row (lineno q) d false :: body 0 b ++ tail 1 o
    | SIf _ b o => Row (lineno q) d false :: body 0 b ++ match o with [SIf _ _ _] => concat (mapi (fun j => rows d ((1, j) :: q)) 0 o) | _ => tail 1 o end
    | SWith _ _ b => Row (lineno q) d false :: body 0 b
    | SMatch _ cs => Row (lineno q) d false :: concat (mapi (fun j => rows_case (S d) ((5, j) :: q)) 0 cs)
    | _ => [Row (lineno q) d false]
    end
  with rows_handler (d : nat) (q : place) (h : handler) : list row :=
    match h with Handler _ _ b => Row (lineno q) d false :: concat (mapi (fun j => rows (S d) ((0, j) :: q)) 0 b) end
  with rows_case (d : nat) (q : place) (c : mcase) : list row :=
    match c with Case _ _ b => Row None d false :: concat (mapi (fun j => rows (S d) ((0, j) :: q)) 0 b) end.
End Layout.

(** The text of a line in the source code, and in debug mode: there, the number comes first, the code is [k] levels deeper, and expression statements are
    marked. *)
Definition plain_line (r : row) (t : string) : string := match r with Empty => nl | Row _ d _ => (nl ++ spaces (4 * d) ++ t)%string end.
Definition debug_line (k : nat) (r : row) (t : string) : string :=
  match r with Empty => nl | Row n d e => (nl ++ tag n ++ spaces (4 * (d + k)) ++ (if e then "$Expr: " else "") ++ t)%string end.
Fixpoint text_of (line : row -> string -> string) (rs : list row) (ts : list string) : string :=
  match rs, ts with r :: rs, t :: ts => (line r t ++ text_of line rs ts)%string | _, _ => "" end.
(** An exception from looking at a call that has the form of a capture, but not its arguments. *)
Definition malformed (x : exn) : Prop := exists c, captured c = Err x.
