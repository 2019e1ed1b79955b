(** Model of mcpyrate/markers.py and of the two walkers it defines. *)
From Verif Require Import Base AstLib UtilsModel.

(** walkers.py:185-190, ASTTransformer.visit on a list: visit the elements, flatten. (The
    walkers modelled here have no withstate overrides, so lines 181-183 and 192-194 do nothing.) *)
Section VisitList.
  Context {M : Type}.
  Variable visit : tree M -> res (tree M).
  Fixpoint visit_elts (l : list (tree M)) : res (list (tree M)) :=
    match l with
    | [] => Ok []
    | x :: r => match visit x with
                | Err e => Err e
                | Ok x' => match visit_elts r with Ok r' => Ok (x' :: r') | Err e => Err e end
                end
    end.
  Definition visit_list (l : list (tree M)) : res (tree M) :=
    match visit_elts l with
    | Ok l' => Ok (Ls (flatten l'))
    | Err e => Err e
    end.
End VisitList.

Section Markers.
  Context {M : Type}.
  (** [isinstance(tree, cls)], by the name of the node's class. *)
  Variable iscls : string -> bool.

  (** markers.py:57-68, [delete_markers]: ASTMarkerDeleter.visit. On a value that is neither a node
      nor a list, [transform] ends in generic_visit, which raises AttributeError. *)
  Fixpoint delete_markers (t : tree M) : res (tree M) :=
    match t with
    | Ls l => visit_list delete_markers l
    | Nd m k fs =>
        if iscls k
        then with_field "body" (Err (attribute_error "body")) delete_markers fs
        else match gv_fields delete_markers fs with Ok fs' => Ok (Nd m k fs') | Err e => Err e end
    | At _ => Err (attribute_error "_fields")
    end.

  (** markers.py:45-54, [get_markers]: ASTMarkerCollector (walkers.py:138-151) with
      NodeVisitor.generic_visit, which visits the AST nodes among the fields and list elements.
      [gm_node] is the call on a node, [get_markers] the entry point. *)
  Fixpoint gm_node (t : tree M) : list (tree M) :=
    match t with
    | Nd m k fs =>
        (if iscls k then [t] else []) ++
        flat_map (fun p : string * tree M => let (_, v) := p in
                           match v with
                           | Nd _ _ _ => gm_node v
                           | Ls l => flat_map (fun x => match x with
                                                        | Nd _ _ _ => gm_node x
                                                        | _ => []
                                                        end) l
                           | At _ => []
                           end) fs
    | _ => []
    end.
  Fixpoint get_markers (t : tree M) : res (list (tree M)) :=
    match t with
    | Nd _ _ _ => Ok (gm_node t)
    | Ls l =>
        (fix go (l : list (tree M)) : res (list (tree M)) :=
           match l with
           | [] => Ok []
           | x :: r => match get_markers x with
                       | Err e => Err e
                       | Ok a => match go r with Ok b => Ok (a ++ b) | Err e => Err e end
                       end
           end) l
    | At _ => Err (attribute_error "_fields")
    end.

  (** markers.py:71-89, [check_no_markers_remaining]: the message lists the markers; here the
      exception carries just its class. *)
  Definition check_no_markers_remaining (t : tree M) : res unit :=
    match get_markers t with
    | Err e => Err e
    | Ok [] => Ok tt
    | Ok (_ :: _) => Err (mkExn "MacroExpansionError" [])
    end.
End Markers.
