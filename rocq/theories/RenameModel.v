(** Model of rename, mcpyrate/utils.py:84-147. *)
From Verif Require Import Base AstLib UtilsModel MarkersModel.

Section Rename.
  Context {M : Type}.
  Variable oldname newname : string.

  (** [if tree.f == oldname: tree.f = newname]. The attribute may hold None or a str; a node or
      list is never equal to a str. *)
  Definition rn_value (v : tree M) : tree M :=
    match v with
    | At (AStr s) => if String.eqb s oldname then At (AStr newname) else v
    | _ => v
    end.
  Definition rn_field (f : string) (fs : list (string * tree M)) : res (list (string * tree M)) :=
    match getf f fs with
    | None => Err (attribute_error f)
    | Some v => Ok (setf f (rn_value v) fs)
    end.
  (** utils.py:138-141, Global and Nonlocal: [tree.names[j]] for each j. *)
  Definition rn_names (fs : list (string * tree M)) : res (list (string * tree M)) :=
    match getf "names" fs with
    | Some (Ls l) => Ok (setf "names" (Ls (map rn_value l)) fs)
    | Some _ => Err type_error
    | None => Err (attribute_error "names")
    end.

  Definition one_of (k : string) (ks : list string) : bool := smem k ks.

  (** utils.py:108-145, the edits of Renamer.transform before it recurses. *)
  Definition rn_edit (k : string) (fs : list (string * tree M)) : res (list (string * tree M)) :=
    if String.eqb k "Name" then rn_field "id" fs
    else if String.eqb k "Attribute" then rn_field "attr" fs
    else if one_of k ["FunctionDef"; "AsyncFunctionDef"; "ClassDef"]%string then rn_field "name" fs
    else if String.eqb k "arg" then rn_field "arg" fs
    else if String.eqb k "keyword" then rn_field "arg" fs
    else if String.eqb k "ImportFrom" then rn_field "module" fs
    else if String.eqb k "alias" then
      match rn_field "name" fs with
      | Ok fs' => rn_field "asname" fs'
      | Err e => Err e
      end
    else if String.eqb k "ExceptHandler" then rn_field "name" fs
    else if one_of k ["Global"; "Nonlocal"]%string then rn_names fs
    else if one_of k ["MatchAs"; "MatchStar"]%string then rn_field "name" fs
    else Ok fs.

  (** Renamer.visit (walkers.py:179-194) with transform (utils.py:108-146). The edits only change
      atoms, so recursing into the unedited fields and applying the edit to the result is the same
      as recursing into the edited ones; this order keeps the recursion structural. *)
  Fixpoint rename (t : tree M) : res (tree M) :=
    match t with
    | Ls l => visit_list rename l
    | Nd m k fs =>
        match rn_edit k fs with
        | Err e => Err e
        | Ok _ =>
            match gv_fields rename fs with
            | Err e => Err e
            | Ok fs' => match rn_edit k fs' with
                        | Ok fs'' => Ok (Nd m k fs'')
                        | Err e => Err e
                        end
            end
        end
    | At _ => Err (attribute_error "_fields")
    end.
End Rename.
