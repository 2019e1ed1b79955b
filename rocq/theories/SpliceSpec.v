(** Specification vocabulary for splicing and future-imports. *)
From Verif Require Import Base AstLib FixLocModel.

(** A list as it may stand in a list context: what a value contributes there. *)
Definition contrib {M} (v : tree M) : list (tree M) :=
  match v with Ls l => l | At ANone => [] | _ => [v] end.

Section Fill.
  Context {M : Type}.
  Variable hole : tree M -> bool.

  (** The template with [thing] in place of each hole (spliced, if [thing] is a list and the hole
      stands in a list); everything else as it is. *)
  Fixpoint fill (thing : tree M) (t : tree M) : tree M :=
    match t with
    | Nd m k fs =>
        if hole t then thing
        else Nd m k (map (fun p : string * tree M => let (f, v) := p in
               (f, match v with
                   | Ls l => Ls (flat_map (fun x => match x with
                                                    | Nd _ _ _ => contrib (fill thing x)
                                                    | _ => [x]
                                                    end) l)
                   | _ => fill thing v
                   end)) fs)
    | Ls l => Ls (flat_map (fun x => contrib (fill thing x)) l)
    | At a => At a
    end.

  (** Number of holes (a hole inside a hole does not count). *)
  Fixpoint holes (t : tree M) : nat :=
    match t with
    | Nd m k fs => if hole t then 1 else list_sum (map (fun p : string * tree M => let (_, v) := p in holes v) fs)
    | Ls l => list_sum (map holes l)
    | At _ => 0
    end.

  (** The metadata (identities) of the nodes outside the holes. *)
  Fixpoint kept (t : tree M) : list M :=
    match t with
    | Nd m k fs => if hole t then [] else m :: flat_map (fun p : string * tree M => let (_, v) := p in kept v) fs
    | Ls l => flat_map kept l
    | At _ => []
    end.
End Fill.

(** The metadata of all nodes. *)
Fixpoint metas {M} (t : tree M) : list M :=
  match t with
  | Nd m k fs => m :: flat_map (fun p : string * tree M => let (_, v) := p in metas v) fs
  | Ls l => flat_map metas l
  | At _ => []
  end.

(** A node, or a list of nodes. *)
Definition ast_or_list {M} (t : tree M) : bool :=
  match t with Nd _ _ _ => true | Ls l => forallb is_node l | At _ => false end.

(** The placeholders, as the documentation describes them, on trees without metadata. *)
Definition has_str {M} (f s : string) (fs : list (string * tree M)) : bool :=
  match getf f fs with Some (At (AStr x)) => String.eqb x s | _ => false end.
Definition is_name {M} (tag : string) (t : tree M) : bool :=
  match t with Nd _ k fs => String.eqb k "Name" && has_str "id" tag fs | _ => false end.
Definition is_name_stmt {M} (tag : string) (t : tree M) : bool :=
  match t with
  | Nd _ k fs => String.eqb k "Expr" && match getf "value" fs with Some v => is_name tag v | _ => false end
  | _ => false
  end.

(** Future-imports and docstrings, as Python defines them. *)
Definition future_import {M} (t : tree M) : Prop :=
  exists m fs, t = Nd m "ImportFrom" fs /\ getf "module" fs = Some (At (AStr "__future__")).
Definition docstring_stmt {M} (t : tree M) (s : string) : Prop :=
  exists m fs m' fs', t = Nd m "Expr" fs /\ getf "value" fs = Some (Nd m' "Constant" fs') /\
                      getf "value" fs' = Some (At (AStr s)).

(** Python's rule: a future-import may be preceded only by the docstring (the first statement) and by
    other future-imports. *)
Definition futures_first {M} (body : list (tree M)) : Prop :=
  forall i t, nth_error body i = Some t -> future_import t ->
  forall j u, j < i -> nth_error body j = Some u ->
  future_import u \/ (j = 0 /\ exists s, docstring_stmt u s).

(** ** Layout of a module *)

Definition future_importb {M} (t : tree M) : bool :=
  match t with Nd _ k fs => String.eqb k "ImportFrom" && has_str "module" "__future__" fs | _ => false end.
Definition docstringb {M} (t : tree M) : option string :=
  match t with
  | Nd _ k fs =>
      if String.eqb k "Expr" then
        match getf "value" fs with
        | Some (Nd _ k' fs') =>
            if String.eqb k' "Constant" then
              match getf "value" fs' with Some (At (AStr s)) => Some s | _ => None end
            else None
        | _ => None
        end
      else None
  | _ => None
  end.
Definition doc_part {M} (l : list (tree M)) : list (tree M) :=
  match l with x :: _ => match docstringb x with Some _ => [x] | None => [] end | [] => [] end.
Definition after_doc {M} (l : list (tree M)) : list (tree M) :=
  match l with x :: r => match docstringb x with Some _ => r | None => l end | [] => [] end.
Fixpoint future_prefix {M} (l : list (tree M)) : list (tree M) :=
  match l with x :: r => if future_importb x then x :: future_prefix r else [] | [] => [] end.
Fixpoint after_futures {M} (l : list (tree M)) : list (tree M) :=
  match l with x :: r => if future_importb x then after_futures r else l | [] => [] end.

(** [__all__ = ...] *)
Definition all_assignment {M} (t : tree M) : bool :=
  match t with
  | Nd _ k fs => String.eqb k "Assign" &&
                 match getf "targets" fs with Some (Ls [x]) => is_name "__all__" x | _ => false end
  | _ => false
  end.

(** [from ... import magic, ...] *)
Definition magic_import {M} (magic : string) (t : tree M) : bool :=
  match t with
  | Nd _ k fs =>
      String.eqb k "ImportFrom" &&
      match getf "names" fs with
      | Some (Ls (Nd _ _ afs :: _)) =>
          has_str "name" magic afs &&
          match getf "asname" afs with Some (At ANone) | None => true | _ => false end
      | _ => false
      end
  | _ => false
  end.

(** The nodes satisfying [p] and not inside another such node, at any depth, in source order. *)
Fixpoint outermost {M} (p : tree M -> bool) (t : tree M) : list (tree M) :=
  match t with
  | Nd _ _ fs => if p t then [t] else flat_map (fun q : string * tree M => let (_, v) := q in outermost p v) fs
  | Ls l => flat_map (outermost p) l
  | At _ => []
  end.
Definition magic_imports {M} (magic : string) (l : list (tree M)) : list (tree M) :=
  flat_map (outermost (magic_import magic)) l.
(** The code without those satisfying [p], at any depth. *)
Section Without.
  Context {M : Type}.
  Variable p : tree M -> bool.
  Fixpoint without (t : tree M) : tree M :=
    match t with
    | Nd m k fs =>
        Nd m k (flat_map (fun q : string * tree M => let (f, v) := q in
                  match v with
                  | Nd _ _ _ => if p v then [] else [(f, without v)]
                  | Ls l => [(f, Ls (flat_map (fun x => match x with
                                                     | Nd _ _ _ => if p x then [] else [without x]
                                                     | _ => [x]
                                                     end) l))]
                  | At _ => [(f, v)]
                  end) fs)
    | _ => t
    end.
  Definition without_list (l : list (tree M)) : list (tree M) :=
    flat_map (fun x => if p x then [] else [without x]) l.
End Without.

(** Import statements as Python's grammar has them: the first name is an alias node with a name. *)
Definition import_ok {M} (t : tree M) : bool :=
  match t with
  | Nd _ k fs =>
      negb (String.eqb k "ImportFrom") ||
      match getf "names" fs with
      | Some (Ls (Nd _ a afs :: _)) => String.eqb a "alias" && match getf "name" afs with Some (At _) => true | _ => false end
      | _ => false
      end
  | _ => true
  end.
Definition imports_ok {M} (t : tree M) : bool := forallb import_ok (preorder t).

(** The first statement is a docstring that is not empty, or not a constant at all. *)
Definition start_ok {M} (l : list (tree M)) : bool :=
  match l with
  | Nd _ k fs :: _ =>
      if String.eqb k "Expr" then
        match getf "value" fs with
        | Some (Nd _ k' fs') =>
            if String.eqb k' "Constant" then
              match getf "value" fs' with Some (At (AStr s)) => negb (String.eqb s "") | _ => false end
            else negb (String.eqb k' "Str")
        | Some _ => true
        | None => false
        end
      else true
  | _ => true
  end.
