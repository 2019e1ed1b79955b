(** Specification vocabulary for C55: what quotes and unquotes mean when they are nested. *)
From Verif Require Import Base AstLib FixLocModel QuoteModel ExpanderModel ExpanderSpec NestModel.

(** A result list in the place of one node. *)
Definition pack (l : list ltree) : ltree := match l with [x] => x | _ => Ls l end.
Definition omap {A B} (f : A -> option B) (x : option A) : option B := match x with Some a => f a | None => None end.

(** Which operator a name stands for, in a module where the operators are bound as in [b]. *)
Definition meaning (idx : op -> nat) (b : binds) (x : string) : option op :=
  if String.eqb x "" then None
  else match find (fun p => String.eqb (fst p) x) (filter (fun p => existsb (fun o => Nat.eqb (snd p) (idx o)) ops) b) with
       | Some p => find (fun o => Nat.eqb (idx o) (snd p)) ops
       | None => None
       end.

(** What a quote is compiled to, by an expander with the bindings [b] (see C41 and C42 for what it evaluates to). *)
Definition quoted_code user_marker has_attr filename unique pickled (b : binds) (t : ltree) : option ltree :=
  match QuoteModel.q user_marker has_attr (captures_in unique pickled b) filename (to_pv t) with Ok c => Some (of_pv c) | Err _ => None end.

Section Nest.
  (** Which operator a name stands for. *)
  Variable opn : string -> option op.
  (** The code that a quote stands for. *)
  Variable code : ltree -> option ltree.
  Variables (filename : string) (unparse : ltree -> string) (cov_text : loc -> string -> string).

  Definition names_op (c : ltree) : option (string * op) :=
    match c with
    | Nd _ k fs =>
        if String.eqb k "Name" then
          match getf "id" fs with
          | Some (At (AStr x)) => match opn x with Some o => Some (x, o) | None => None end
          | _ => None
          end
        else None
    | _ => None
    end.
  (** [op[...]] *)
  Definition expr_op (k : string) (fs : list (string * ltree)) : option op :=
    if String.eqb k "Subscript" then match getf "value" fs with Some c => option_map snd (names_op c) | None => None end else None.
  (** [with op as vars:] *)
  Definition block_op (k : string) (fs : list (string * ltree)) : option (string * op * ltree) :=
    if String.eqb k "With" then
      match getf "items" fs with
      | Some (Ls [Nd _ _ fi]) =>
          match getf "context_expr" fi, getf "optional_vars" fi with
          | Some c, Some ov => match names_op c with Some (x, o) => Some (x, o, ov) | None => None end
          | _, _ => None
          end
      | _ => None
      end
    else None.
  (** The marker for the unquote that belongs to the quote at hand. *)
  Definition mark (o : op) (name : string) (t : ltree) : ltree :=
    match o with
    | Oq => t
    | Ou => Nd noloc "Unquote" [("body"%string, t)]
    | On => Nd noloc "LiftSourcecode" [("body"%string, t); ("filename"%string, At (AStr filename))]
    | Oa => Nd noloc "ASTLiteral" [("body"%string, t); ("syntax"%string, At (AStr "expr"))]
    | Os => Nd noloc "ASTList" [("body"%string, t)]
    | Ot => Nd noloc "ASTTuple" [("body"%string, t)]
    | Oh => Nd noloc "Capture" [("body"%string, t); ("name"%string, At (AStr name))]
    end.
  Definition mark_block (l : list ltree) : ltree :=
    Nd noloc "ASTLiteral" [("body"%string, Nd noloc "List" [("elts"%string, Ls l)]); ("syntax"%string, At (AStr "block"))].
  Fixpoint exprs (l : list ltree) : option (list ltree) :=
    match l with
    | [] => Some []
    | Nd _ k fs :: r => if String.eqb k "Expr" then match getf "value" fs, exprs r with Some v, Some vs => Some (v :: vs) | _, _ => None end else None
    | _ => None
    end.
  (** The statement for coverage reports that is put before an expanded block (if the block has a source location). *)
  Definition coverage (m : loc) (x : string) : list ltree :=
    match ln m with None => [] | Some _ => [coverage_stmt (cov_text m x) m] end.

  (** [nest lv t]: the tree [t], which is inside [lv] quotes. A quote that is inside another one stays a quote, with what is inside
      seen one level up. An unquote takes what is inside one level down; if that is level 0 the unquote is replaced by its marker,
      otherwise it stays an unquote. A quote at level 0 is replaced by the code for it. [None]: error, namely an unquote at level 0, or
      a quote that cannot be compiled. *)
  Fixpoint nest (lv : nat) (t : ltree) {struct t} : option (list ltree) :=
    match t with
    | Nd m k fs =>
        let inside (lv' : nat) : option ltree := with_field "slice" None (fun sl => option_map pack (nest lv' sl)) fs in
        let items (lv' : nat) := fix items (l : list ltree) : option (list ltree) :=
          match l with
          | [] => Some []
          | x :: r =>
              match (match x with Nd _ _ _ => nest lv' x | _ => Some [x] end) with
              | Some a => option_map (fun b => a ++ b) (items r)
              | None => None
              end
          end in
        let body (lv' : nat) : option (list ltree) := with_field "body" None (fun b => match b with Ls l => items lv' l | _ => None end) fs in
        let replaced (f : string) (v : ltree) : ltree := Nd m k (setf f v fs) in
        match expr_op k fs with
        | Some Oq =>
            match lv with
            | O => omap (fun b => option_map (fun c => [c]) (code b)) (inside 1)
            | S _ => option_map (fun b => [replaced "slice"%string b]) (inside (S lv))
            end
        | Some o =>
            match lv with
            | O => None
            | S O => option_map (fun b => [mark o (with_field "slice" ""%string unparse fs) b]) (inside 0)
            | S lv' => option_map (fun b => [replaced "slice"%string b]) (inside lv')
            end
        | None =>
            match block_op k fs with
            | Some (x, Oq, vars) =>
                match lv with
                | O => omap (fun l => omap (fun c =>
                         if is_kind "Name" vars then Some (coverage m x ++ [Nd noloc "Assign" [("targets"%string, Ls [vars]); ("value"%string, c)]]) else None)
                         (code (Ls l))) (body 1)
                | S _ => option_map (fun l => coverage m x ++ [replaced "body"%string (Ls l)]) (body (S lv))
                end
            | Some (x, Oa, At ANone) =>
                match lv with
                | O => None
                | S O => omap (fun l => option_map (fun vs => coverage m x ++ [mark_block vs]) (exprs l)) (body 0)
                | S lv' => option_map (fun l => coverage m x ++ [replaced "body"%string (Ls l)]) (body lv')
                end
            | Some _ => None
            | None =>
                option_map (fun fs' => [Nd m k fs'])
                  ((fix fields (fs : list (string * ltree)) : option (list (string * ltree)) :=
                      match fs with
                      | [] => Some []
                      | (f, v) :: r =>
                          match (match v with
                                 | Nd _ _ _ => option_map pack (nest lv v)
                                 | Ls l => option_map (@Ls loc) (items lv l)
                                 | At _ => Some v
                                 end) with
                          | Some v' => option_map (fun r' => (f, v') :: r') (fields r)
                          | None => None
                          end
                      end) fs)
            end
        end
    | _ => Some [t]
    end.
  (** The same, for the elements of a list, in order. *)
  Definition nest_items (lv : nat) : list ltree -> option (list ltree) :=
    fix items (l : list ltree) : option (list ltree) :=
      match l with
      | [] => Some []
      | x :: r =>
          match (match x with Nd _ _ _ => nest lv x | _ => Some [x] end) with
          | Some a => option_map (fun b => a ++ b) (items r)
          | None => None
          end
      end.

  (** Every unquote in [t] belongs to a quote in [t], or to one of the [d] quotes around it that are counted. *)
  Inductive balanced : nat -> ltree -> Prop :=
  | ba_atom d a : balanced d (At a)
  | ba_list d l : (forall x, In x l -> balanced d x) -> balanced d (Ls l)
  | ba_quote d m k fs sl : expr_op k fs = Some Oq -> getf "slice" fs = Some sl -> balanced (S d) sl -> balanced d (Nd m k fs)
  | ba_unquote d m k fs o sl : expr_op k fs = Some o -> o <> Oq -> getf "slice" fs = Some sl -> balanced d sl -> balanced (S d) (Nd m k fs)
  | ba_node d m k fs : expr_op k fs = None -> block_op k fs = None -> (forall f v, In (f, v) fs -> balanced d v) -> balanced d (Nd m k fs).

  (** Source code: the operators are used by their names alone, as [op[...]] or as the only item of a [with], not as decorators; the
      nodes have the fields of Python's grammar; no list holds a list; there are no AST markers. *)
  Definition source_node (t : ltree) : Prop :=
    match t with
    | Nd m k fs =>
        k <> "Done"%string /\ is_quasi k = false /\
        Forall (fun p => match snd p with Ls l => Forall (fun x => is_list x = false) l | _ => True end) fs /\
        (k = "Name"%string -> Forall (fun p => match snd p with At _ => True | Nd _ k' [] => In k' ["Load"; "Store"; "Del"]%string | _ => False end) fs) /\
        (k = "Subscript"%string -> forall c x, getf "value" fs = Some c -> denotes c x [] -> opn x <> None ->
          kind_of c = "Name"%string /\ exists sl, getf "slice" fs = Some sl /\ is_node sl = true) /\
        (k = "With"%string -> forall items it mi fi c x, getf "items" fs = Some (Ls items) -> In it items -> it = Nd mi "withitem" fi ->
          getf "context_expr" fi = Some c -> denotes c x [] -> opn x <> None ->
          items = [it] /\ kind_of c = "Name"%string /\ (ln m = None -> co m = None) /\
          exists l, getf "body" fs = Some (Ls l) /\ l <> [] /\ Forall (fun y => is_node y = true) l) /\
        (k = "ClassDef"%string \/ k = "FunctionDef"%string -> forall ds c x, getf "decorator_list" fs = Some (Ls ds) -> In c ds -> denotes c x [] -> opn x = None)
    | _ => True
    end.
  Definition source (t : ltree) : Prop := shaped t /\ forall u, part t u -> source_node u.
End Nest.
