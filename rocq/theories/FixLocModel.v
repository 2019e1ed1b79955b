(** Model of fix_locations, mcpyrate/astfixers.py:107-189. *)
From Verif Require Import Base AstLib.

(** Location attributes of a node instance. [ln]/[co]: the attribute value, None if the instance
    lacks the attribute. [eln]/[eco]: the attribute value, None if missing or None (the code reads
    them as None in both cases). *)
Record loc : Type := mkLoc { ln : option Z; co : option Z; eln : option Z; eco : option Z }.
Definition noloc : loc := mkLoc None None None None.

Inductive mode : Type := MReference | MUpdate | MOverwrite.
Definition is_overwrite (m : mode) : bool := match m with MOverwrite => true | _ => false end.
Definition is_update (m : mode) : bool := match m with MUpdate => true | _ => false end.

Section FixLoc.
  (** [a in tree._attributes], by class name and attribute name. *)
  Variable has_attr : string -> string -> bool.
  Variable md : mode.

  (** astfixers.py:148-151, update_lineno. *)
  Definition update_lineno (k : string) (m : loc) (l : Z) (el : option Z) : loc :=
    mkLoc (Some l) (co m) (if has_attr k "end_lineno" then el else eln m) (eco m).
  (** astfixers.py:152-155, update_col_offset. *)
  Definition update_col_offset (k : string) (m : loc) (c : Z) (ec : option Z) : loc :=
    mkLoc (ln m) (Some c) (eln m) (if has_attr k "end_col_offset" then ec else eco m).

  (** astfixers.py:164-172: the new metadata and the new (lineno, end_lineno) for the children. *)
  Definition fix_line (k : string) (m : loc) (l : Z) (el : option Z) : loc * (Z * option Z) :=
    if has_attr k "lineno" then
      if is_overwrite md then (update_lineno k m l el, (l, el))
      else match ln m with
           | None => (update_lineno k m l el, (l, el))
           | Some l' => if is_update md then (m, (l', eln m)) else (m, (l, el))
           end
    else (m, (l, el)).
  (** astfixers.py:173-181. *)
  Definition fix_col (k : string) (m : loc) (c : Z) (ec : option Z) : loc * (Z * option Z) :=
    if has_attr k "col_offset" then
      if is_overwrite md then (update_col_offset k m c ec, (c, ec))
      else match co m with
           | None => (update_col_offset k m c ec, (c, ec))
           | Some c' => if is_update md then (m, (c', eco m)) else (m, (c, ec))
           end
    else (m, (c, ec)).

  (** astfixers.py:157-183, [_fix] on a node; the children are those of iter_child_nodes. *)
  Fixpoint fix_node (t : tree loc) (l c : Z) (el ec : option Z) : tree loc :=
    match t with
    | Nd m k fs =>
        let (m1, lp) := fix_line k m l el in
        let (m2, cp) := fix_col k m1 c ec in
        let (l', el') := lp in
        let (c', ec') := cp in
        Nd m2 k
          (map (fun p : string * tree loc =>
                  let (f, v) := p in
                  (f, match v with
                      | Nd _ _ _ => fix_node v l' c' el' ec'
                      | Ls xs => Ls (map (fun x => match x with
                                                   | Nd _ _ _ => fix_node x l' c' el' ec'
                                                   | _ => x
                                                   end) xs)
                      | At a => At a
                      end)) fs)
    | _ => t
    end.

  (** astfixers.py:157-163, [_fix] on the argument: None, a list, a node; anything else has no
      [_attributes] and raises. *)
  Fixpoint fix_top (t : tree loc) (l c : Z) (el ec : option Z) : res (tree loc) :=
    match t with
    | At ANone => Ok t
    | Ls xs =>
        match (fix go (xs : list (tree loc)) : res (list (tree loc)) :=
                 match xs with
                 | [] => Ok []
                 | x :: r => match fix_top x l c el ec with
                             | Err e => Err e
                             | Ok x' => match go r with Ok r' => Ok (x' :: r') | Err e => Err e end
                             end
                 end) xs with
        | Ok xs' => Ok (Ls xs')
        | Err e => Err e
        end
    | Nd _ _ _ => Ok (fix_node t l c el ec)
    | At _ => Err (attribute_error "_attributes")
    end.

  (** astfixers.py:143-144 and 184-189. *)
  Definition fix_locations (t : tree loc) (ref : loc) : res (tree loc) :=
    match ln ref, co ref with
    | Some l, Some c => fix_top t l c (eln ref) (eco ref)
    | _, _ => Ok t
    end.
End FixLoc.
