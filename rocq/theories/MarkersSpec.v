(** Specification vocabulary for MarkersModel. *)
From Verif Require Import Base AstLib.

Section Spec.
  Context {M : Type}.
  (** What a reader of the tree sees, walking it depth first and ignoring nodes of the classes
      [skip] (of which only the body is seen). List brackets are not events: splicing a list into
      a list is invisible. *)
  Inductive event : Type :=
  | EvOpen (m : M) (k : string)
  | EvField (f : string)
  | EvAtom (a : atom)
  | EvClose.

  Fixpoint events (skip : string -> bool) (t : tree M) : list event :=
    match t with
    | Nd m k fs =>
        if skip k then with_field "body" [] (events skip) fs
        else EvOpen m k :: flat_map (fun p => EvField (fst p) :: events skip (snd p)) fs ++ [EvClose]
    | Ls l => flat_map (events skip) l
    | At a => [EvAtom a]
    end.

  (** A suite: a node, or (nested) lists of nodes. *)
  Fixpoint nodes_only (t : tree M) : bool :=
    match t with
    | Nd _ _ _ => true
    | Ls l => forallb nodes_only l
    | At _ => false
    end.

  (** Every marker of the class carries a node or a suite. *)
  Fixpoint markers_ok (iscls : string -> bool) (t : tree M) : bool :=
    match t with
    | Nd m k fs =>
        (if iscls k then with_field "body" false nodes_only fs else true) &&
        forallb (fun p => markers_ok iscls (snd p)) fs
    | Ls l => forallb (markers_ok iscls) l
    | At _ => true
    end.
End Spec.
Arguments event M : clear implicits.
