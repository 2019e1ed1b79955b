(** Model of MacroCollector (mcpyrate/expander.py:394-508), the tool that lists the macros a tree invokes. *)
From Verif Require Import Base AstLib FixLocModel ExpanderModel.

(** [collected], a list of (macro name, syntax). [_seen] is the same as a set, and is left out. *)
Definition coll : Type := list (string * string).
Definition seen (k : string * string) (c : coll) : bool := existsb (fun p => String.eqb (fst p) (fst k) && String.eqb (snd p) (snd k)) c.
(** expander.py:445-448 (and the three copies): record a macro, once. *)
Definition record (x syn : string) (c : coll) : coll := if seen (x, syn) c then c else c ++ [(x, syn)].

Section Collector.
  Context {U : Type}.
  Variable E : env U.
  Variable b : binds.

  (** None: no result within the available depth of recursion. *)
  Definition ccomp : Type := coll -> option (xres coll).
  Definition cthen (f g : ccomp) : ccomp := fun c =>
    match f c with None => None | Some (XRaise e) => Some (XRaise e) | Some (XOk c') => g c' end.
  Definition craise (e : xerr) : ccomp := fun _ => Some (XRaise e).
  Definition cnop : ccomp := fun c => Some (XOk c).

  Section Visit.
    Variable visit : ltree -> ccomp.

    (** [for elt in l: self.visit(elt)] *)
    Fixpoint cvisit_all (l : list ltree) : ccomp :=
      match l with
      | [] => cnop
      | t :: r => cthen (visit t) (cvisit_all r)
      end.
    (** NodeVisitor.generic_visit (CPython Lib/ast.py): visit the nodes in the fields, and in lists in the
        fields. *)
    Fixpoint cgv_fields (fs : list (string * ltree)) : ccomp :=
      match fs with
      | [] => cnop
      | (_, v) :: r =>
          cthen (match v with
                 | Nd _ _ _ => visit v
                 | Ls l => cvisit_all (filter is_node l)
                 | At _ => cnop
                 end) (cgv_fields r)
      end.

    (** expander.py:441-457, visit_Subscript (Python 3.9 or later). *)
    Definition cvisit_Subscript (fs : list (string * ltree)) : ccomp :=
      match attr "value" fs with
      | XRaise e => craise e
      | XOk cand =>
          match destructure true cand with
          | XRaise e => craise e
          | XOk (Some (x, args)) =>
              if ismacrocall E b x args "expr" then
                match attr "slice" fs with
                | XRaise e => craise e
                | XOk sl => fun c => cthen (cvisit_all args) (visit sl) (record x "expr" c)
                end
              else cgv_fields fs
          | XOk None => cgv_fields fs
          end
      end.

    (** expander.py:462-469, 485-491: the loop over the macro items. *)
    Fixpoint cmacros (block : bool) (l : list ltree) : ccomp :=
      match l with
      | [] => cnop
      | it :: r =>
          match candidate_of block it with
          | XRaise e => craise e
          | XOk cand =>
              match destructure true cand with
              | XRaise e => craise e
              | XOk None => craise (plain type_error) (* not reached *)
              | XOk (Some (x, args)) =>
                  fun c => cthen (cvisit_all args) (cmacros block r) (record x (if block then "block" else "decorator") c)
              end
          end
      end.
    Fixpoint select (want : bool) (l : list ltree) (flags : list bool) : list ltree :=
      match l, flags with
      | x :: l', f :: flags' => if Bool.eqb f want then x :: select want l' flags' else select want l' flags'
      | _, _ => []
      end.

    (** expander.py:459-474, visit_With. *)
    Definition cvisit_With (fs : list (string * ltree)) : ccomp :=
      match attr "items" fs with
      | XRaise e => craise e
      | XOk items =>
          match detect E b true (elements items) with
          | XRaise e => craise e
          | XOk flags =>
              match select true (elements items) flags with
              | [] => cgv_fields fs
              | macros =>
                  match attr "body" fs with
                  | XRaise e => cthen (cmacros true macros) (cthen (cvisit_all (select false (elements items) flags)) (craise e))
                  | XOk body => cthen (cmacros true macros) (cthen (cvisit_all (select false (elements items) flags)) (visit body))
                  end
              end
          end
      end.

    (** expander.py:482-499, _visit_Decorated. *)
    Definition cvisit_Decorated (fs : list (string * ltree)) : ccomp :=
      match attr "decorator_list" fs with
      | XRaise e => craise e
      | XOk ds =>
          match detect E b false (elements ds) with
          | XRaise e => craise e
          | XOk flags =>
              match select true (elements ds) flags with
              | [] => cgv_fields fs
              | macros =>
                  cthen (cmacros false macros)
                    (cthen (cvisit_all (select false (elements ds) flags))
                       (cvisit_all (map snd (filter (fun p => negb (smem (fst p) ["decorator_list"; "name"]%string)) fs))))
              end
          end
      end.

    (** expander.py:501-507, visit_Name. *)
    Definition cvisit_Name (fs : list (string * ltree)) : ccomp :=
      match str_attr "id" fs with
      | XRaise e => craise e
      | XOk x => if ismacrocall E b x [] "name" then fun c => Some (XOk (record x "name" c)) else cnop
      end.

    (** expander.py:422-439, visit, and NodeVisitor.visit. *)
    Definition cvisit_body (t : ltree) : ccomp :=
      if match b with [] => true | _ => false end || is_kind "Done" t then cnop
      else match t with
           | At ANone => cnop
           | At _ => craise (plain (attribute_error "_fields"))
           | Ls l => cvisit_all l
           | Nd _ k fs =>
               if String.eqb k "Subscript" then cvisit_Subscript fs
               else if String.eqb k "With" then cvisit_With fs
               else if String.eqb k "ClassDef" || String.eqb k "FunctionDef" then cvisit_Decorated fs
               else if String.eqb k "Name" then cvisit_Name fs
               else cgv_fields fs
           end.
  End Visit.

  Fixpoint cvisit (n : nat) (t : ltree) : ccomp :=
    match n with
    | O => fun _ => None
    | S n' => cvisit_body (cvisit n') t
    end.
End Collector.
