(** Specification of fix_locations: what each node's location must be, given the nodes above it. *)
From Verif Require Import Base AstLib FixLocModel.

Section Spec.
  Variable has_attr : string -> string -> bool.

  (** A node seen from outside: its location attributes and class. *)
  Definition seen := (loc * string)%type.

  (** Does the node carry a line (column) of its own? *)
  Definition own_line (s : seen) : bool :=
    has_attr (snd s) "lineno" && match ln (fst s) with Some _ => true | None => false end.
  Definition own_col (s : seen) : bool :=
    has_attr (snd s) "col_offset" && match co (fst s) with Some _ => true | None => false end.

  (** Nearest enclosing node with a line (column) of its own, else the reference. [above] lists the
      enclosing nodes, innermost first, as they were before the call. *)
  Definition line_source (above : list seen) (ref : loc) : loc :=
    match find own_line above with Some s => fst s | None => ref end.
  Definition col_source (above : list seen) (ref : loc) : loc :=
    match find own_col above with Some s => fst s | None => ref end.

  (** Copy line info ([lineno], and [end_lineno] if the class has it) from [src]. *)
  Definition copy_line (k : string) (src dst : loc) : loc :=
    mkLoc (ln src) (co dst) (if has_attr k "end_lineno" then eln src else eln dst) (eco dst).
  Definition copy_col (k : string) (src dst : loc) : loc :=
    mkLoc (ln dst) (co src) (eln dst) (if has_attr k "end_col_offset" then eco src else eco dst).

  (** The location a node must have afterwards. *)
  Definition want (md : mode) (ref : loc) (above : list seen) (s : seen) : loc :=
    let (m, k) := s in
    let lsrc := match md with MUpdate => line_source above ref | _ => ref end in
    let csrc := match md with MUpdate => col_source above ref | _ => ref end in
    let fill_line := has_attr k "lineno" && (is_overwrite md || negb (own_line s)) in
    let fill_col := has_attr k "col_offset" && (is_overwrite md || negb (own_col s)) in
    let m1 := if fill_line then copy_line k lsrc m else m in
    if fill_col then copy_col k csrc m1 else m1.

  (** The node at [path] together with the nodes above it, innermost first. *)
  Fixpoint node_above (t : tree loc) (path : list nat) (above : list seen)
    : option (tree loc * list seen) :=
    match t with
    | Nd m k fs =>
        match path with
        | [] => Some (t, above)
        | i :: p => match nth_error (iter_child_nodes t) i with
                    | Some c => node_above c p ((m, k) :: above)
                    | None => None
                    end
        end
    | _ => None
    end.
End Spec.
