(** Model of mcpyrate/metatools.py: fill_location (108-161) and stepr (424-452), as macro programs for the expander of ExpanderModel.v.

    Simplifications: as in RuntimeModel.v. *)
From Verif Require Import Base AstLib UtilsModel FixLocModel MarkersModel QuoteModel HygieneModel ExpanderModel NestModel MetaModel RuntimeModel.

Section RuntimeStep.
  Variables (user_marker : string -> bool) (has_attr : string -> string -> bool).
  Notation astify := (astify user_marker has_attr (fun _ => None)).

  (** metatools.py:155: [.keywords.extend]. *)
  Fixpoint extend_field (kws : list pv) (fs : list (string * pv)) : res (list (string * pv)) :=
    match fs with
    | [] => Err (attribute_error "keywords")
    | (f, v) :: r =>
        if String.eqb f "keywords" then match v with PL l => Ok ((f, PL (l ++ kws)) :: r) | _ => Err (attribute_error "extend") end
        else match extend_field kws r with Ok r' => Ok ((f, v) :: r') | Err e => Err e end
    end.
  Definition extend_keywords (c : pv) (kws : list pv) : res pv :=
    match c with
    | PN m k fs => match extend_field kws fs with Ok fs' => Ok (PN m k fs') | Err e => Err e end
    | _ => Err (attribute_error "keywords")
    end.
  (** metatools.py:141-154. (An AST node made without the optional field [kind] has it as None.) *)
  Definition reference_node : pv := nd "Constant" [("value"%string, str "source location dummy"); ("kind"%string, PA ANone)].
  (** metatools.py:108-161, fill_location. [inv]: the location of the invocation. *)
  Definition fill_location_prog {U} (inv : loc) (i : minput) : prog U :=
    if negb (String.eqb (in_syntax i) "expr") then Raise syntax_error
    else
      match ln inv, co inv with
      | Some l, Some c =>
          match astify reference_node with
          | Err e => Raise (plain e)
          | Ok r =>
              match extend_keywords r [p_kw "lineno" (p_const (PA (AInt l))); p_kw "col_offset" (p_const (PA (AInt c)))] with
              | Err e => Raise (plain e)
              | Ok r => Ret (of_pv (p_call (metatools_attr "fix_locations") [to_pv (in_tree i); r] [p_kw "mode" (p_const (str "reference"))]))
              end
          end
      | _, _ => Raise syntax_error
      end.

  Variable filename : string.
  Variable dumps : nat -> res string.
  (** metatools.py:424-452, stepr, a parametric macro: without arguments, [args] is the empty list (expander.py:101-113). *)
  Definition stepr_code (d a t : pv) : pv :=
    p_call (metatools_attr "step_expansion") [t]
      [p_kw "args" a; p_kw "syntax" (p_const (str "expr"));
       p_kw "expander" (p_call (metatools_attr "MacroExpander") [] [p_kw "bindings" d; p_kw "filename" (p_const (str filename))])].
  Definition stepr_prog {U} (i : minput) : prog U :=
    if negb (String.eqb (in_syntax i) "expr") then Raise syntax_error
    else GetB (fun b =>
      match bindings_code dumps b with
      | Err e => Raise (plain e)
      | Ok d =>
          match astify (PL (map to_pv (match in_args i with Some l => l | None => [] end))) with
          | Err e => Raise (plain e)
          | Ok a => Ret (of_pv (stepr_code d a (to_pv (in_tree i))))
          end
      end).
End RuntimeStep.
