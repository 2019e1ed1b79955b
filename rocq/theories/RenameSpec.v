(** Specification of rename. *)
From Verif Require Import Base AstLib.

(** The documented name positions: class, field. *)
Definition name_positions : list (string * string) :=
  [("Name", "id"); ("Attribute", "attr"); ("FunctionDef", "name"); ("AsyncFunctionDef", "name");
   ("ClassDef", "name"); ("arg", "arg"); ("keyword", "arg"); ("ImportFrom", "module");
   ("alias", "name"); ("alias", "asname"); ("ExceptHandler", "name");
   ("Global", "names"); ("Nonlocal", "names"); ("MatchAs", "name"); ("MatchStar", "name")]%string.

(** All fields of type identifier in Python's abstract grammar (Python 3.12, ast documentation). *)
Definition grammar_identifier_positions : list (string * string) :=
  name_positions ++
  [("MatchMapping", "rest"); ("MatchClass", "kwd_attrs"); ("TypeVar", "name");
   ("ParamSpec", "name"); ("TypeVarTuple", "name")]%string.

Definition pos_mem (ps : list (string * string)) (k f : string) : bool :=
  existsb (fun p => String.eqb k (fst p) && String.eqb f (snd p)) ps.

Section Spec.
  Context {M : Type}.
  Variable ps : list (string * string).

  (** Apply [g] to the strings at the given positions (directly or in a list of strings) and to
      nothing else. *)
  Definition map_str (g : string -> string) (v : tree M) : tree M :=
    match v with At (AStr s) => At (AStr (g s)) | _ => v end.

  Fixpoint map_names (g : string -> string) (t : tree M) : tree M :=
    match t with
    | Nd m k fs =>
        Nd m k (map (fun p : string * tree M =>
                       let (f, v) := p in
                       (f, if pos_mem ps k f
                           then match v with
                                | Ls l => Ls (map (fun x => map_str g (map_names g x)) l)
                                | _ => map_str g (map_names g v)
                                end
                           else map_names g v)) fs)
    | Ls l => Ls (map (map_names g) l)
    | At a => At a
    end.

  (** The strings at the given positions. *)
  Definition str_of (v : tree M) : list string :=
    match v with At (AStr s) => [s] | _ => [] end.
  Fixpoint names_in (t : tree M) : list string :=
    match t with
    | Nd m k fs =>
        flat_map (fun p : string * tree M =>
                    let (f, v) := p in
                    (if pos_mem ps k f
                     then match v with
                          | Ls l => flat_map str_of l
                          | _ => str_of v
                          end
                     else []) ++ names_in v) fs
    | Ls l => flat_map names_in l
    | At _ => []
    end.
End Spec.

(** Shape of the nodes that carry names: the fields exist, exactly once, with values of the right
    type (an optional identifier, or a list of identifiers). *)
Definition ident_value {M} (v : tree M) : bool :=
  match v with At (AStr _) => true | At ANone => true | _ => false end.
Definition str_value {M} (v : tree M) : bool :=
  match v with At (AStr _) => true | _ => false end.

Definition fields_required (k : string) : list string :=
  map snd (filter (fun p => String.eqb k (fst p)) name_positions).
Definition is_names_list (k : string) : bool := String.eqb k "Global" || String.eqb k "Nonlocal".

Fixpoint shaped {M} (t : tree M) : bool :=
  match t with
  | Nd m k fs =>
      forallb (fun f => Nat.eqb (List.length (filter (fun p => String.eqb f (fst p)) fs)) 1)
              (fields_required k) &&
      forallb (fun p : string * tree M =>
                 let (f, v) := p in
                 (if pos_mem name_positions k f
                  then if is_names_list k
                       then match v with Ls l => forallb str_value l | _ => false end
                       else ident_value v
                  else true) && shaped v) fs
  | Ls l => forallb shaped l
  | At _ => true
  end.
