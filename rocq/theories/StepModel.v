(** Model of [step_expansion], mcpyrate/debug.py:27-143.

    What is printed is modelled as the list of the trees that are shown; how a tree is rendered is not (unparse.py,
    astdumper.py), except that [dump] refuses what is not a node or a list (astdumper.py:81-82). The headings, the nesting
    level and the reports of single macro applications of the "detailed" mode (debug.py:123-136; they go through a debug
    hook that prints only) are left out. *)
From Verif Require Import Base AstLib UtilsModel FixLocModel ExpanderModel CollectorModel.

Section Step.
  Context {U : Type}.
  Variable E : env U.

  (** debug.py:81-95: the macro arguments. True: the renderer is [dump]. *)
  Definition supported : list string := ["unparse"; "dump"; "detailed"; "summary"]%string.
  Fixpoint step_args (args : list ltree) (dumps : bool) : xres bool :=
    match args with
    | [] => XOk dumps
    | Nd _ "Constant" fs :: r =>
        match attr "value" fs with
        | XRaise e => XRaise e
        | XOk (At (AStr v)) => if smem v supported then step_args r (dumps || String.eqb v "dump") else XRaise (plain (mkExn "ValueError" []))
        | XOk _ => XRaise (plain (mkExn "ValueError" []))
        end
    | _ :: _ => XRaise (plain type_error)
    end.

  (** debug.py:108, 120: [formatter(tree)]. *)
  Definition render (dumps : bool) (t : ltree) : xres unit :=
    match t with
    | At _ => if dumps then XRaise (plain type_error) else XOk tt
    | _ => XOk tt
    end.

  (** debug.py:111-122, doit: the trees shown, and the outcome. [n]: depth of recursion for the expander and the
      collector, [k]: number of rounds. None: does not return within them. *)
  Definition body_of (t : ltree) : xres ltree :=
    match t with Nd _ _ fs => attr "body" fs | _ => XRaise (plain (attribute_error "body")) end.
  Fixpoint doit (n k : nat) (dumps : bool) (t : ltree) (s : st U) : option (xres ltree * list ltree * st U) :=
    match k with
    | O => None
    | S k' =>
        match cvisit E (s_b s) n t [] with
        | None => None
        | Some (XRaise e) => Some (XRaise e, [], s)
        | Some (XOk []) => Some (XOk t, [], s)
        | Some (XOk _) =>
            match visit_once E n t s with
            | None => None
            | Some (XRaise e, s1) => Some (XRaise e, [], s1)
            | Some (XOk d, s1) =>
                match body_of d with
                | XRaise e => Some (XRaise e, [], s1)
                | XOk t1 =>
                    match render dumps t1 with
                    | XRaise e => Some (XRaise e, [], s1)
                    | XOk _ =>
                        match doit n k' dumps t1 s1 with
                        | None => None
                        | Some (r, shown, s2) => Some (r, t1 :: shown, s2)
                        end
                    end
                end
            end
        end
    end.

  (** debug.py:77-143. *)
  Definition step_expansion (n k : nat) (syntax : string) (args : list ltree) (t : ltree) (s : st U) : option (xres ltree * list ltree * st U) :=
    if negb (smem syntax ["expr"; "block"]%string) then Some (XRaise syntax_error, [], s)
    else match step_args args false with
         | XRaise e => Some (XRaise e, [], s)
         | XOk dumps =>
             match render dumps t with
             | XRaise e => Some (XRaise e, [], s)
             | XOk _ =>
                 match doit n k dumps t s with
                 | None => None
                 | Some (r, shown, s1) => Some (r, t :: shown, s1)
                 end
             end
         end.
End Step.
