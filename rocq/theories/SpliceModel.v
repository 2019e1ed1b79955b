(** Model of mcpyrate/splicing.py and of the future-import helpers of mcpyrate/coreutils.py. *)
From Verif Require Import Base AstLib UtilsModel FixLocModel.

(** ast.NodeTransformer.generic_visit and ASTTransformer.visit on lists (walkers.py:185-190), for a
    transformer object with state [S]; compare [gv_list], [gv_fields] in AstLib. The transformers
    modelled here have no withstate overrides. *)
Section StatefulVisit.
  Context {M S : Type}.
  Variable visit : tree M -> S -> res (tree M * S).

  Fixpoint sgv_list (l : list (tree M)) (s : S) : res (list (tree M) * S) :=
    match l with
    | [] => Ok ([], s)
    | v :: r =>
        match v with
        | Nd _ _ _ =>
            match visit v s with
            | Err e => Err e
            | Ok (v', s1) =>
                match sgv_list r s1 with
                | Err e => Err e
                | Ok (r', s2) =>
                    match v' with
                    | At ANone => Ok (r', s2)
                    | Ls l' => Ok (l' ++ r', s2)
                    | Nd _ _ _ => Ok (v' :: r', s2)
                    | At _ => Err type_error   (* not iterable; a str is not modelled *)
                    end
                end
            end
        | _ => match sgv_list r s with Ok (r', s2) => Ok (v :: r', s2) | Err e => Err e end
        end
    end.

  Fixpoint sgv_fields (fs : list (string * tree M)) (s : S) : res (list (string * tree M) * S) :=
    match fs with
    | [] => Ok ([], s)
    | (f, v) :: r =>
        match v with
        | Ls l =>
            match sgv_list l s with
            | Err e => Err e
            | Ok (l', s1) => match sgv_fields r s1 with
                             | Ok (r', s2) => Ok ((f, Ls l') :: r', s2)
                             | Err e => Err e
                             end
            end
        | Nd _ _ _ =>
            match visit v s with
            | Err e => Err e
            | Ok (v', s1) => match sgv_fields r s1 with
                             | Ok (r', s2) => Ok (match v' with At ANone => r' | _ => (f, v') :: r' end, s2)
                             | Err e => Err e
                             end
            end
        | At _ => match sgv_fields r s with Ok (r', s2) => Ok ((f, v) :: r', s2) | Err e => Err e end
        end
    end.

  Fixpoint svisit_elts (l : list (tree M)) (s : S) : res (list (tree M) * S) :=
    match l with
    | [] => Ok ([], s)
    | x :: r => match visit x s with
                | Err e => Err e
                | Ok (x', s1) => match svisit_elts r s1 with
                                 | Ok (r', s2) => Ok (x' :: r', s2)
                                 | Err e => Err e
                                 end
                end
    end.
End StatefulVisit.

Section Splice.
  Context {M : Type}.
  (** [copy.deepcopy]: the same tree made of new objects. [cp i m] is the metadata (identity,
      locations) of the copy of a node with metadata [m] made by the i-th deepcopy. *)
  Variable cp : nat -> M -> M.
  Fixpoint deepcopy (i : nat) (t : tree M) : tree M :=
    match t with
    | Nd m k fs => Nd (cp i m) k (map (fun p : string * tree M => let (f, v) := p in (f, deepcopy i v)) fs)
    | Ls l => Ls (map (deepcopy i) l)
    | At a => At a
    end.

  (** splicing.py:60-75 and 141-157, ExpressionSplicer and StatementSplicer: at a paste-here
      indicator, the thing itself the first time, then copies. The state counts the indicators met so
      far; [self.first] is [count = 0]. *)
  Section Splicer.
    Variable ispastehere : tree M -> bool.
    Variable thing : tree M.
    Fixpoint splicer (t : tree M) (n : nat) : res (tree M * nat) :=
      match t with
      | Ls l => match svisit_elts splicer l n with
                | Ok (l', n') => Ok (Ls (flatten l'), n')
                | Err e => Err e
                end
      | Nd m k fs =>
          if ispastehere t then Ok (match n with O => thing | _ => deepcopy n thing end, S n)
          else match sgv_fields splicer fs n with
               | Ok (fs', n') => Ok (Nd m k fs', n')
               | Err e => Err e
               end
      | At _ => Err (attribute_error "_fields")
      end.
  End Splicer.

  Definition str_field (f s : string) (fs : list (string * tree M)) : bool :=
    match getf f fs with Some (At (AStr x)) => String.eqb x s | _ => false end.

  (** splicing.py:57-58. *)
  Definition name_hole (tag : string) (t : tree M) : bool :=
    match t with Nd _ k fs => String.eqb k "Name" && str_field "id" tag fs | _ => false end.
  (** splicing.py:138-139. *)
  Definition stmt_hole (tag : string) (t : tree M) : bool :=
    match t with
    | Nd _ k fs => String.eqb k "Expr" && match getf "value" fs with Some v => name_hole tag v | None => false end
    | _ => false
    end.

  (** [isinstance(node, ast.expr)] and [isinstance(node, ASTMarker)], by class name. *)
  Variables is_expr is_marker : string -> bool.

  (** splicing.py:16-75. *)
  Definition falsy (t : tree M) : bool :=
    match t with Ls [] | At ANone => true | _ => false end.
  Definition splice_expression (expr template : tree M) (tag : string) : res (tree M) :=
    if falsy template then Ok expr
    else
      let good := match expr with
                  | Nd _ k fs => is_expr k || (is_marker k && match getf "body" fs with
                                                              | Some (Nd _ k' _) => is_expr k'
                                                              | _ => false
                                                              end)
                  | _ => false
                  end in
      if negb good then Err type_error
      else match template with
           | At _ => Err type_error
           | _ => match splicer (name_hole tag) expr template 0 with
                  | Ok (t, _) => Ok t
                  | Err e => Err e
                  end
           end.

  (** splicing.py:79-157. *)
  Definition splice_statements (body template : tree M) (tag : string) : res (tree M) :=
    let body := if is_node body then Ls [body] else body in
    let body := if is_node template then Ls [template] else body in
    if falsy body then Err (mkExn "ValueError" [])
    else if falsy template then Ok body
    else match splicer (stmt_hole tag) body template 0 with
         | Ok (t, _) => Ok t
         | Err e => Err e
         end.

  (** coreutils.py:257-259. An absent [module] attribute reads as None. *)
  Definition isfutureimport (t : tree M) : bool :=
    match t with Nd _ k fs => String.eqb k "ImportFrom" && str_field "module" "__future__" fs | _ => false end.

  (** The truth value of [getdocstring(body)]: of a constant. Of the numbers, 0 and False are false;
      0.0 and 0j are not modelled apart. *)
  Definition truthy_atom (a : atom) : bool :=
    match a with
    | ANone => false
    | ABool b => b
    | AInt z => negb (Z.eqb z 0)
    | AStr s | ABytes s => negb (String.eqb s "")
    | _ => true
    end.
  Definition truthy_value (t : tree M) : bool :=
    match t with At a => truthy_atom a | Ls [] => false | _ => true end.

  (** coreutils.py:273-281: the loop leaves [k] at the first statement that is not a future-import,
      or at the last statement. *)
  Fixpoint future_k (body : list (tree M)) : nat :=
    match body with
    | [] => 0
    | [_] => 0
    | x :: r => if isfutureimport x then S (future_k r) else 0
    end.
  (** coreutils.py:261-281. *)
  Definition split_futureimports (body : list (tree M))
    : res (list (tree M) * list (tree M) * list (tree M)) :=
    match getdocstring (Ls body) with
    | Err e => Err e
    | Ok d =>
        let '(doc, body) := match body with
                            | x :: r => if truthy_value d then ([x], r) else ([], body)
                            | [] => ([], body)
                            end in
        match body with
        | [] => Ok (doc, [], body)
        | _ => let k := future_k body in Ok (doc, firstn k body, skipn k body)
        end
    end.

  (** coreutils.py:283-304, for [body] a list and [stmts] a list or an ast.stmt (otherwise it raises
      TypeError). *)
  Variable is_stmt : string -> bool.
  Definition inject_after_futureimports (stmts body : tree M) : res (list (tree M)) :=
    match body with
    | Ls b =>
        let go st := match split_futureimports b with
                     | Ok (doc, fut, rest) => Ok (doc ++ fut ++ st ++ rest)
                     | Err e => Err e
                     end in
        match stmts with
        | Ls st => go st
        | Nd _ k _ => if is_stmt k then go [stmts] else Err type_error
        | At _ => Err type_error
        end
    | _ => Err type_error
    end.

  (** coreutils.py:75-88. [names[0]] raises IndexError if there are no names. *)
  Definition ismacroimport (magic : string) (t : tree M) : res bool :=
    match t with
    | Nd _ k fs =>
        if String.eqb k "ImportFrom" then
          match getf "names" fs with
          | Some (Ls (Nd _ _ afs :: _)) =>
              match getf "name" afs with
              | Some n => Ok (match n with At (AStr x) => String.eqb x magic | _ => false end &&
                              match getf "asname" afs with Some (At ANone) | None => true | _ => false end)
              | None => Err (attribute_error "name")
              end
          | Some (Ls (_ :: _)) => Err (attribute_error "name")
          | Some (Ls []) => Err (mkExn "IndexError" [])
          | Some _ => Err type_error
          | None => Err (attribute_error "names")
          end
        else Ok false
    | _ => Ok false
    end.

  (** splicing.py:278-293, extract_magic_all: top level only. *)
  Definition ismagicall (t : tree M) : bool :=
    match t with
    | Nd _ k fs =>
        String.eqb k "Assign" &&
        match getf "targets" fs with Some (Ls [x]) => name_hole "__all__" x | _ => false end
    | _ => false
    end.
  Definition extract_magic_all (body : list (tree M)) : list (tree M) * list (tree M) :=
    (flatten (map (fun x => if ismagicall x then NoneT else x) body), filter ismagicall body).

  (** splicing.py:297-306, extract_macroimports: at any depth. The state is [w.collected]. *)
  Section Extract.
    Variable magic : string.
    Fixpoint extractor (t : tree M) (c : list (tree M)) : res (tree M * list (tree M)) :=
      match t with
      | Ls l => match svisit_elts extractor l c with
                | Ok (l', c') => Ok (Ls (flatten l'), c')
                | Err e => Err e
                end
      | Nd m k fs =>
          match ismacroimport magic t with
          | Err e => Err e
          | Ok true => Ok (NoneT, c ++ [t])
          | Ok false => match sgv_fields extractor fs c with
                        | Ok (fs', c') => Ok (Nd m k fs', c')
                        | Err e => Err e
                        end
          end
      | At _ => Err (attribute_error "_fields")
      end.
    Definition extract_macroimports (body : list (tree M)) : res (list (tree M) * list (tree M)) :=
      match extractor (Ls body) [] with
      | Ok (Ls b, c) => Ok (b, c)
      | Ok _ => Err type_error
      | Err e => Err e
      end.
  End Extract.
End Splice.

(** The separator, splicing.py:267. *)
Fixpoint dashes (n : nat) : string := match n with O => EmptyString | S m => String "-"%char (dashes m) end.
Definition newline : string := String (Ascii.ascii_of_nat 10) EmptyString.
Definition doc_sep : string := (newline ++ dashes 79 ++ newline)%string.

(** [user_doc + sep + template_doc]; TypeError unless both are str (or bytes, not modelled). *)
Definition add_docs {M} (a b : tree M) : res string :=
  match a, b with
  | At (AStr x), At (AStr y) => Ok (x ++ doc_sep ++ y)%string
  | _, _ => Err type_error
  end.

(** splicing.py:160-317. Metadata: the source locations. [has_attr]: as for fix_locations. *)
Section SpliceDialect.
  Variable has_attr : string -> string -> bool.
  Definition same_cp (_ : nat) (m : loc) : loc := m.

  Definition fix_stmts (ref : loc) (template : list (tree loc)) : res (list (tree loc)) :=
    (fix go (l : list (tree loc)) : res (list (tree loc)) :=
       match l with
       | [] => Ok []
       | x :: r => match fix_locations has_attr MOverwrite x ref with
                   | Err e => Err e
                   | Ok x' => match go r with Ok r' => Ok (x' :: r') | Err e => Err e end
                   end
       end) template.

  Definition bind {A B} (r : res A) (f : A -> res B) : res B := match r with Ok a => f a | Err e => Err e end.
  Notation "'let*' p := e 'in' b" := (bind e (fun x => match x with p => b end)) (at level 200, p pattern, right associativity).

  (** ast.copy_location(new, old) copies lineno, col_offset and the end positions. *)
  Definition meta_of (t : tree loc) : loc := match t with Nd m _ _ => m | _ => noloc end.

  (** splicing.py:261-274. *)
  Definition combine_docstrings (ud td : list (tree loc)) : res (list (tree loc)) :=
    match ud, td with
    | u :: _, _ :: _ =>
        let* a := getdocstring (Ls ud) in
        let* b := getdocstring (Ls td) in
        let* s := add_docs a b in
        Ok [Nd (meta_of u) "Constant" [("value"%string, At (AStr s)); ("kind"%string, NoneT)]]
    | [], _ => Ok td
    | _, [] => Ok ud
    end.

  Definition as_list (t : tree loc) : list (tree loc) :=
    match t with Ls l => l | Nd _ _ _ => [t] | At _ => [] end.

  Definition splice_dialect (body template : tree loc) (tag : string) (lineno col_offset : option Z)
    : res (tree loc) :=
    let body := as_list body in
    let template := as_list template in
    match body, template with
    | [], _ => Err (mkExn "ValueError" [])
    | _, [] => Ok (Ls body)
    | b0 :: _, _ =>
        let ref := match lineno, col_offset with
                   | Some l, Some c => mkLoc (Some l) (Some c) None None
                   | _, _ => meta_of b0
                   end in
        let* template := fix_stmts ref template in
        let* (udoc, ufut, body) := split_futureimports body in
        let* (tdoc, tfut, template) := split_futureimports template in
        let* docstring := combine_docstrings udoc tdoc in
        let (body, uall) := extract_magic_all body in
        let (template, _) := extract_magic_all template in
        let* (template, tdia) := extract_macroimports "dialects" template in
        let* (template, tmac) := extract_macroimports "macros" template in
        let* (body, udia) := extract_macroimports "dialects" body in
        let* (body, umac) := extract_macroimports "macros" body in
        let* final := splice_statements same_cp (Ls body) (Ls template) tag in
        Ok (Ls (docstring ++ tfut ++ ufut ++ uall ++ tdia ++ udia ++ tmac ++ umac ++ as_list final))
    end.
End SpliceDialect.
