(** Model of the quasiquote compiler, uncompiler and the run-time parts of the operators, mcpyrate/quotes.py:34-259 and 607-1010.

    Not modelled here: hygienic capture (HygieneModel.v), the nesting of quotes (the expansion of the unquote macros into markers,
    quotes.py:937-968 and 1013-1219). *)
From Verif Require Import Base AstLib FixLocModel.

(** Python values: atoms, lists, tuples, dictionaries, sets, and AST nodes (with the present fields, in the order of ast.iter_fields).
    A dictionary or set is given by its items, which are distinct, in the order of iteration. *)
Inductive pv : Type :=
| PA (a : atom)
| PL (l : list pv)
| PT (l : list pv)
| PD (l : list (pv * pv))
| PS (l : list pv)
| PN (m : loc) (k : string) (fs : list (string * pv)).

Section MapRes.
  Context {A B : Type}.
  Variable f : A -> res B.
  Fixpoint mapr (l : list A) : res (list B) :=
    match l with
    | [] => Ok []
    | x :: r => match f x with
                | Err e => Err e
                | Ok y => match mapr r with Ok ys => Ok (y :: ys) | Err e => Err e end
                end
    end.
End MapRes.

(** Shorthands for the nodes that the code builds: no location, and only the fields that are given. *)
Definition nd (k : string) (fs : list (string * pv)) : pv := PN noloc k fs.
Definition str (s : string) : pv := PA (AStr s).
Definition p_const (v : pv) : pv := nd "Constant" [("value"%string, v)].
Definition p_name (s : string) : pv := nd "Name" [("id"%string, str s)].
Definition p_attr (v : pv) (a : string) : pv := nd "Attribute" [("value"%string, v); ("attr"%string, str a)].
Definition p_call (f : pv) (args kws : list pv) : pv := nd "Call" [("func"%string, f); ("args"%string, PL args); ("keywords"%string, PL kws)].
Definition p_kw (a : string) (v : pv) : pv := nd "keyword" [("arg"%string, str a); ("value"%string, v)].
(** quotes.py:34-42 with coreutils.py:202-252, not force_import. *)
Definition quotes_attr (a : string) : pv := p_attr (p_attr (p_name "mcpyrate") "quotes") a.

(** quotes.py:44-120: the quasiquote markers (subclasses that users might define are not considered). *)
Definition quasi_markers : list string :=
  ["QuasiquoteMarker"; "SpliceNodes"; "QuasiquoteSearchDone"; "Unquote"; "LiftSourcecode"; "ASTLiteral"; "ASTList"; "ASTTuple"; "Capture"]%string.
Definition is_quasi (k : string) : bool := smem k quasi_markers.
Definition is_splice (k : string) : bool := String.eqb k "SpliceNodes".

Definition type_err : exn := mkExn "TypeError" [].
Definition runtime_err : exn := mkExn "RuntimeError" [].

(** A path of names: [Name] and [Attribute] nodes. What else a node can be, its source text is not the name of a function here
    (used for the source text of [func] in quotes.py:846). *)
Fixpoint dotted (t : pv) : option (list string) :=
  match t with
  | PN _ k fs =>
      if String.eqb k "Name" then match fs with (f, PA (AStr s)) :: _ => if String.eqb f "id" then Some [s] else None | _ => None end
      else if String.eqb k "Attribute" then
        match fs with
        | (f, v) :: (g, PA (AStr a)) :: _ => if String.eqb f "value" && String.eqb g "attr" then match dotted v with Some p => Some (p ++ [a]) | None => None end else None
        | _ => None
        end
      else None
  | _ => None
  end.

Section Quotes.
  (** Classes: subclasses of ast.expr, of ast.stmt, marker classes other than those of this module, and [a in cls._attributes]. *)
  Variables (is_expr is_stmt user_marker : string -> bool) (has_attr : string -> string -> bool).
  Definition is_marker (k : string) : bool := is_quasi k || String.eqb k "Done" || String.eqb k "ASTMarker" || user_marker k.
  (** [ast.parse(value, mode="eval").body]. *)
  Variable parse_expr : string -> res pv.
  (** What [capture_macro] gives for a name, if the expander has a macro of that name ([astify] without expander: none). It makes a new
      unique name on each call; here it is a function of the name. *)
  Definition captures := string -> option (res pv).

  (** CPython ast.copy_location, for a new node without location. *)
  Definition copy1 (ok : bool) (old new : option Z) : option Z := if ok then match old with Some v => Some v | None => new end else new.
  Definition copy_location (kn : string) (mn : loc) (ko : string) (mo : loc) : loc :=
    let ok a := has_attr ko a && has_attr kn a in
    mkLoc (copy1 (ok "lineno"%string) (ln mo) (ln mn)) (copy1 (ok "col_offset"%string) (co mo) (co mn))
          (copy1 (ok "end_lineno"%string) (eln mo) (eln mn)) (copy1 (ok "end_col_offset"%string) (eco mo) (eco mn)).

  (** quotes.py:710, the builtin types that are made constants. *)
  Definition liftable (a : atom) : bool := match a with AComplex _ | AObj _ => false | _ => true end.
  (** quotes.py:655-707: the calls for the unquote commands. *)
  Definition marker_call (cm : captures) (k : string) (fs : list (string * pv)) : option (res pv) :=
    let body := match fs with (_, b) :: _ => b | [] => PA ANone end in
    let second := match fs with _ :: (_, b) :: _ => b | _ => PA ANone end in
    if String.eqb k "Unquote" then Some (Ok (p_call (quotes_attr "astify") [body] []))
    else if String.eqb k "LiftSourcecode" then Some (Ok (p_call (quotes_attr "lift_sourcecode") [body; p_const second] []))
    else if String.eqb k "ASTLiteral" then Some (Ok (p_call (quotes_attr "ast_literal") [body; p_const second] []))
    else if String.eqb k "ASTList" then Some (Ok (p_call (quotes_attr "ast_list") [body] []))
    else if String.eqb k "ASTTuple" then Some (Ok (p_call (quotes_attr "ast_tuple") [body] []))
    else if String.eqb k "Capture" then
      Some (match (match body with PN _ kb ((_, PA (AStr s)) :: _) => if String.eqb kb "Name" then cm s else None | _ => None end) with
            | Some r => r
            | None => Ok (p_call (quotes_attr "capture_value") [body; p_const second] [])
            end)
    else None.
  (** quotes.py:635-776, astify. *)
  Fixpoint astify (cm : captures) (x : pv) {struct x} : res pv :=
    let fields := fix fields (fs : list (string * pv)) : res (list pv) :=
      match fs with
      | [] => Ok []
      | (f, v) :: r => match astify cm v with
                       | Err e => Err e
                       | Ok c => match fields r with Ok cs => Ok (p_kw f c :: cs) | Err e => Err e end
                       end
      end in
    match x with
    | PA a => if liftable a then Ok (p_const (PA a)) else Err type_err
    | PL l => match mapr (astify cm) l with Ok l' => Ok (nd "List" [("elts"%string, PL l')]) | Err e => Err e end
    | PT l => match mapr (astify cm) l with Ok l' => Ok (nd "Tuple" [("elts"%string, PL l')]) | Err e => Err e end
    | PS l => match mapr (astify cm) l with Ok l' => Ok (nd "Set" [("elts"%string, PL l')]) | Err e => Err e end
    | PD l => match mapr (fun kv : pv * pv => let (k, _) := kv in astify cm k) l with
              | Err e => Err e
              | Ok ks => match mapr (fun kv : pv * pv => let (_, v) := kv in astify cm v) l with
                         | Err e => Err e
                         | Ok vs => Ok (nd "Dict" [("keys"%string, PL ks); ("values"%string, PL vs)])
                         end
              end
    | PN m k fs =>
        match marker_call cm k fs with
        | Some r => r
        | None =>
            if String.eqb k "Done" then match fields fs with Ok cs => Ok (p_call (quotes_attr "Done") [] cs) | Err e => Err e end
            else if is_marker k then Err type_err
            else match fields fs with
                 | Ok cs => Ok (PN (copy_location "Call" noloc k m) "Call"
                                  [("func"%string, p_attr (quotes_attr "ast") k); ("args"%string, PL []); ("keywords"%string, PL cs)])
                 | Err e => Err e
                 end
        end
    end.

  (** utils.py:69-81, flatten. *)
  Fixpoint flat (x : pv) : list pv := match x with PL l => flat_map flat l | PA ANone => [] | _ => [x] end.
  (** quotes.py:148-157, _typecheck. *)
  Fixpoint typecheck (iscls : string -> bool) (x : pv) : bool :=
    match x with
    | PN _ k fs =>
        if is_marker k then match fs with (_, b) :: _ => match b with PL l => forallb (typecheck iscls) l | _ => typecheck iscls b end | [] => false end
        else iscls k
    | _ => false
    end.
  (** [list(nodes)]; iterators and other iterable objects are not modelled. *)
  Definition aslist (x : pv) : res (list pv) :=
    match x with
    | PL l | PT l | PS l => Ok l
    | PD l => Ok (map fst l)
    | PA (AStr s) => Ok (map (fun c => str (String c EmptyString)) (list_ascii_of_string s))
    | PA (ABytes s) => Ok (map (fun c => PA (AInt (Z.of_nat (nat_of_ascii c)))) (list_ascii_of_string s))
    | _ => Err type_err
    end.
  (** quotes.py:159-167. *)
  Definition flatten_and_typecheck (iscls : string -> bool) (x : pv) : res (list pv) :=
    match aslist x with
    | Err e => Err e
    | Ok l => let l' := flat_map flat l in if forallb (typecheck iscls) l' then Ok l' else Err type_err
    end.
  Definition splice_nodes (l : list pv) : pv := nd "SpliceNodes" [("body"%string, PL l)].
  (** quotes.py:170-207, ast_literal. *)
  Definition ast_literal (x syn : pv) : res pv :=
    match syn with
    | PA (AStr s) =>
        if String.eqb s "expr" then
          match x with
          | PN _ _ _ => if typecheck is_expr x then Ok x else Err type_err
          | _ => match flatten_and_typecheck is_expr x with Ok l => Ok (splice_nodes l) | Err e => Err e end
          end
        else if String.eqb s "block" then match flatten_and_typecheck is_stmt x with Ok l => Ok (splice_nodes l) | Err e => Err e end
        else Err (mkExn "ValueError" [])
    | _ => Err (mkExn "ValueError" [])
    end.
  (** quotes.py:250-259. *)
  Definition ast_list (x : pv) : res pv := match flatten_and_typecheck is_expr x with Ok l => Ok (nd "List" [("elts"%string, PL l)]) | Err e => Err e end.
  Definition ast_tuple (x : pv) : res pv := match flatten_and_typecheck is_expr x with Ok l => Ok (nd "Tuple" [("elts"%string, PL l)]) | Err e => Err e end.
  (** quotes.py:127-145. *)
  Definition lift_sourcecode (x : pv) : res pv := match x with PA (AStr s) => parse_expr s | _ => Err type_err end.

  (** quotes.py:210-236, the recursion in splice_ast_literals. *)
  Fixpoint doit (t : pv) : res pv :=
    match t with
    | PL l =>
        match (fix items (l : list pv) : res (list pv) :=
                 match l with
                 | [] => Ok []
                 | x :: r =>
                     match doit x with
                     | Err e => Err e
                     | Ok x' =>
                         match items r with
                         | Err e => Err e
                         | Ok r' =>
                             (* a SpliceNodes: its body has been processed *)
                             match x' with
                             | PN _ k [(_, PL b)] => if is_splice k then Ok (b ++ r') else Ok (x' :: r')
                             | _ => Ok (x' :: r')
                             end
                         end
                     end
                 end) l with
        | Ok l' => Ok (PL l')
        | Err e => Err e
        end
    | PN m k fs =>
        if String.eqb k "Global" || String.eqb k "Nonlocal" then Ok t
        else match (fix fields (fs : list (string * pv)) : res (list (string * pv)) :=
                      match fs with
                      | [] => Ok []
                      | (f, v) :: r =>
                          match (match v with PL _ => doit v | _ => Ok v end) with
                          | Err e => Err e
                          | Ok v' => match fields r with Ok r' => Ok ((f, v') :: r') | Err e => Err e end
                          end
                      end) fs with
             | Ok fs' => Ok (PN m k fs')
             | Err e => Err e
             end
    | _ => Err type_err
    end.
  (** markers.py:45-54, get_markers, on a node and on a list, as a test; see MarkersModel.v. *)
  Section Contains.
    Variable iscls : string -> bool.
    Fixpoint has_marker (t : pv) : bool :=
      match t with
      | PN _ k fs =>
          iscls k || existsb (fun p : string * pv => let (_, v) := p in
                                match v with
                                | PN _ _ _ => has_marker v
                                | PL l => existsb (fun x => match x with PN _ _ _ => has_marker x | _ => false end) l
                                | _ => false
                                end) fs
      | _ => false
      end.
    Fixpoint has_marker_top (t : pv) : bool := match t with PL l => existsb has_marker_top l | _ => has_marker t end.
  End Contains.
  (** quotes.py:210-247, splice_ast_literals. *)
  Definition splice_ast_literals (t : pv) : res pv :=
    match doit t with
    | Err e => Err e
    | Ok t' => if has_marker_top is_splice t' then Err runtime_err else Ok t'
    end.

  (** ** Running the code that [q] makes *)
  (** The rest of Python: the value of any other expression; hygienic captures are part of it here. *)
  Variable ext : pv -> res pv.
  (** The run-time parts of the operators, by name. *)
  Definition runtime (f : string) (args : list pv) : option (res pv) :=
    match args with
    | [x] =>
        if String.eqb f "astify" then Some (astify (fun _ => None) x)
        else if String.eqb f "ast_list" then Some (ast_list x)
        else if String.eqb f "ast_tuple" then Some (ast_tuple x)
        else None
    | [x; y] =>
        if String.eqb f "lift_sourcecode" then Some (lift_sourcecode x)
        else if String.eqb f "ast_literal" then Some (ast_literal x y)
        else if String.eqb f "splice_ast_literals" then Some (splice_ast_literals x)
        else None
    | _ => None
    end.
  Definition path_is (p : option (list string)) (l : list string) : bool :=
    match p with Some q => if list_eq_dec string_dec q l then true else false | None => false end.
  (** Python's evaluation of constants, displays and calls of the functions above; [mcpyrate] is the package (the name is not rebound),
      and a constructor of an AST class makes a node with the given fields and no location. *)
  Fixpoint eval (c : pv) {struct c} : res pv :=
    let kws := fix kws (l : list pv) : option (res (list (string * pv))) :=
      match l with
      | [] => Some (Ok [])
      | PN _ k [(f, PA (AStr a)); (g, v)] :: r =>
          if String.eqb k "keyword" && String.eqb f "arg" && String.eqb g "value" then
            match kws r with
            | None => None
            | Some rest => Some (match eval v with
                                 | Err e => Err e
                                 | Ok y => match rest with Ok ys => Ok ((a, y) :: ys) | Err e => Err e end
                                 end)
            end
          else None
      | _ => None
      end in
    match c with
    | PN _ k [(f, x)] =>
        if String.eqb k "Constant" && String.eqb f "value" then Ok x
        else if String.eqb f "elts" then
          match x with
          | PL l =>
              if String.eqb k "List" then match mapr eval l with Ok l' => Ok (PL l') | Err e => Err e end
              else if String.eqb k "Tuple" then match mapr eval l with Ok l' => Ok (PT l') | Err e => Err e end
              else if String.eqb k "Set" then match mapr eval l with Ok l' => Ok (PS l') | Err e => Err e end
              else ext c
          | _ => ext c
          end
        else ext c
    | PN _ k [(f, PL ks); (g, PL vs)] =>
        if String.eqb k "Dict" && String.eqb f "keys" && String.eqb g "values" then
          match mapr eval ks with
          | Err e => Err e
          | Ok ks' => match mapr eval vs with Ok vs' => Ok (PD (combine ks' vs')) | Err e => Err e end
          end
        else ext c
    | PN _ k [(f, fn); (g, PL args); (h, PL kw)] =>
        if String.eqb k "Call" && String.eqb f "func" && String.eqb g "args" && String.eqb h "keywords" then
          match dotted fn with
          | Some [a; b; d; cls] =>
              if String.eqb a "mcpyrate" && String.eqb b "quotes" && String.eqb d "ast" then
                match args, kws kw with
                | [], Some (Ok fs) => Ok (nd cls fs)
                | [], Some (Err e) => Err e
                | _, _ => ext c
                end
              else ext c
          | Some [a; b; d] =>
              if String.eqb a "mcpyrate" && String.eqb b "quotes" then
                if String.eqb d "Done" then
                  match args, kws kw with
                  | [], Some (Ok fs) => Ok (nd "Done" fs)
                  | [], Some (Err e) => Err e
                  | _, _ => ext c
                  end
                else match kw with
                     | [] => match mapr eval args with
                             | Err e => Err e
                             | Ok vs => match runtime d vs with Some r => r | None => ext c end
                             end
                     | _ => ext c
                     end
              else ext c
          | _ => ext c
          end
        else ext c
    | PN _ _ _ => ext c
    | _ => Err type_err
    end.

  (** quotes.py:969-1010, q in expression mode at quote level 1, after the expansion of the unquote macros into markers (and without
      QuasiquoteSearchDone markers, which come from nested quotes). *)
  Definition q (cm : captures) (filename : string) (x : pv) : res pv :=
    match astify cm x with
    | Err e => Err e
    | Ok c => if has_marker_top is_quasi c then Err runtime_err
              else Ok (p_call (quotes_attr "splice_ast_literals") [c; p_const (str filename)] [])
    end.

  (** quotes.py:779-928, unastify, on what astify makes; a call of another function of the module raises here. [lookup_macro]: see
      HygieneModel.v. *)
  Definition not_impl : exn := mkExn "NotImplementedError" [].
  Definition const_value (t : pv) : pv := match t with PN _ _ ((_, v) :: _) => v | _ => PA ANone end.
  Fixpoint unastify (t : pv) {struct t} : res pv :=
    let kws := fix kws (l : list pv) : res (list (string * pv)) :=
      match l with
      | [] => Ok []
      | PN _ k [(f, PA (AStr a)); (g, v)] :: r =>
          if String.eqb k "keyword" && String.eqb f "arg" && String.eqb g "value" then
            match unastify v with
            | Err e => Err e
            | Ok y => match kws r with Ok ys => Ok ((a, y) :: ys) | Err e => Err e end
            end
          else Err type_err
      | _ => Err type_err
      end in
    match t with
    | PL l => match mapr unastify l with Ok l' => Ok (PL l') | Err e => Err e end
    | PN _ k [(f, x)] =>
        if String.eqb k "Constant" && String.eqb f "value" then Ok x
        else if String.eqb f "elts" then
          match x with
          | PL l =>
              if String.eqb k "List" then match mapr unastify l with Ok l' => Ok (PL l') | Err e => Err e end
              else if String.eqb k "Tuple" then match mapr unastify l with Ok l' => Ok (PT l') | Err e => Err e end
              else if String.eqb k "Set" then match mapr unastify l with Ok l' => Ok (PS l') | Err e => Err e end
              else Err type_err
          | _ => Err type_err
          end
        else Err type_err
    | PN _ k [(f, PL ks); (g, PL vs)] =>
        if String.eqb k "Dict" && String.eqb f "keys" && String.eqb g "values" then
          match mapr unastify ks with
          | Err e => Err e
          | Ok ks' => match mapr unastify vs with Ok vs' => Ok (PD (combine ks' vs')) | Err e => Err e end
          end
        else Err type_err
    | PN m k [(f, fn); (g, PL args); (h, PL kw)] =>
        if String.eqb k "Call" && String.eqb f "func" && String.eqb g "args" && String.eqb h "keywords" then
          match dotted fn with
          | Some [a; b; d; cls] =>
              if String.eqb a "mcpyrate" && String.eqb b "quotes" && String.eqb d "ast" then
                match args, kws kw with
                | [], Ok fs => Ok (PN (copy_location cls noloc "Call" m) cls fs)
                | [], Err e => Err e
                | _, _ => Err not_impl
                end
              else Err not_impl
          | Some [a; b; d] =>
              if String.eqb a "mcpyrate" && String.eqb b "quotes" then
                if String.eqb d "splice_ast_literals" then match args with x :: _ => unastify x | [] => Err (mkExn "IndexError" []) end
                else if String.eqb d "astify" then match args with [x] => Ok (nd "Unquote" [("body"%string, x)]) | _ => Err not_impl end
                else if String.eqb d "lift_sourcecode" then
                  match args with [x; y] => Ok (nd "LiftSourcecode" [("body"%string, x); ("filename"%string, const_value y)]) | _ => Err not_impl end
                else if String.eqb d "ast_literal" then
                  match args with [x; y] => Ok (nd "ASTLiteral" [("body"%string, x); ("syntax"%string, const_value y)]) | _ => Err not_impl end
                else if String.eqb d "ast_list" then match args with [x] => Ok (nd "ASTList" [("body"%string, x)]) | _ => Err not_impl end
                else if String.eqb d "ast_tuple" then match args with [x] => Ok (nd "ASTTuple" [("body"%string, x)]) | _ => Err not_impl end
                else if String.eqb d "capture_value" then
                  match args with [x; y] => Ok (nd "Capture" [("body"%string, x); ("name"%string, const_value y)]) | _ => Err not_impl end
                else if String.eqb d "Done" then
                  match args, kws kw with
                  | [], Ok fs => Ok (PN (copy_location "Done" noloc "Call" m) "Done" fs)
                  | [], Err e => Err e
                  | _, _ => Err not_impl
                  end
                else Err not_impl
              else Err not_impl
          | _ => Err not_impl
          end
        else Err type_err
    | _ => Err type_err
    end.
End Quotes.
