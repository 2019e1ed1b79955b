(** Specification of macro-imports. *)
From Verif Require Import Base AstLib FixLocModel ExpanderModel ExpanderSpec Dict ImportsModel.

(** The statement [from module import name as asname, ...], with [level] dots: the nodes that Python's parser makes for it. *)
Inductive alias_node : ltree -> string * option string -> Prop :=
| an_as m fs x y : getf "name" fs = Some (At (AStr x)) -> getf "asname" fs = Some (At (AStr y)) -> alias_node (Nd m "alias" fs) (x, Some y)
| an_plain m fs x : getf "name" fs = Some (At (AStr x)) -> getf "asname" fs = Some (At ANone) -> alias_node (Nd m "alias" fs) (x, None).
Inductive import_from : ltree -> imp -> Prop :=
| import_from_node m fs names l lv i :
    getf "module" fs = Some (At (match i_module i with Some s => AStr s | None => ANone end)) ->
    getf "names" fs = Some (Ls names) -> Forall2 alias_node names (i_names i) ->
    getf "level" fs = Some (At lv) -> (lv = AInt l /\ i_level i = Z.to_nat l \/ lv = ANone /\ i_level i = 0) ->
    import_from (Nd m "ImportFrom" fs) i.

(** [from ... import macros, rest] *)
Definition macro_import (t : ltree) (i : imp) (rest : list (string * option string)) : Prop :=
  view_import t = Some i /\ i_names i = ("macros"%string, None) :: rest.
(** A statement that is not a macro-import. *)
Definition other_stmt (t : ltree) : Prop :=
  view_import t = None \/ exists i x a rest, view_import t = Some i /\ i_names i = (x, a) :: rest /\ (x <> "macros"%string \/ a <> None).

Section Spec.
  Context {W Ob : Type}.
  Variable P : world W Ob.
  Variable ispy : bool.
  Variable self : option string.
  Variable transform : bool.
  Variable text : loc -> string.

  (** The import statement loads the module [o], with the absolute name [absname]. *)
  Inductive loaded (i : imp) (w : W) : W -> Ob -> option string -> Prop :=
  | lo_self o : i_module i = Some "__self__"%string -> i_level i = 0 -> (w_sysmod P w self = Some o) -> loaded i w w o self
  | lo_module m pkg absname o w' : i_module i = Some m -> m <> "__self__"%string ->
      ((i_level i <> 0 /\ ispy = true /\ exists p, w_package P w = Ok p /\ pkg = Some p) \/ ((i_level i = 0 \/ ispy = false) /\ pkg = None)) ->
      w_resolve P (i_level i) m pkg = Ok absname -> w_import P absname w = (Ok o, w') -> loaded i w w' o (Some absname).

  (** The (as-)names with the objects they are bound to. *)
  Definition named_objects (w : W) (o : Ob) (names : list (string * option string)) (ps : list (string * Ob)) : Prop :=
    Forall2 (fun n p => fst p = match snd n with Some y => if String.eqb y "" then fst n else y | None => fst n end /\
                        w_getattr P w o (fst n) = Ok (snd p) /\ w_callable P (snd p) = true) names ps.

  (** What takes the place of the macro-import. *)
  Definition selfish (i : imp) : Prop := i_module i = Some "__self__"%string /\ exists s, self = Some s /\ s <> ""%string.
  Inductive replaced (t : ltree) (i : imp) (absname : option string) : list ltree -> Prop :=
  | rp_keep : transform = false -> replaced t i absname [t]
  | rp_import : transform = true -> ~ selfish i -> replaced t i absname
      [Nd (loc_of t) "Import" [("names"%string, Ls [Nd (loc_of t) "alias" [("name"%string, At (match absname with Some s => AStr s | None => ANone end)); ("asname"%string, NoneT)]])]]
  | rp_self_gone : transform = true -> selfish i -> ln (loc_of t) = None -> co (loc_of t) = None -> replaced t i absname []
  | rp_self_dummy l : transform = true -> selfish i -> ln (loc_of t) = Some l -> replaced t i absname [coverage_stmt (text (loc_of t)) (loc_of t)].

  (** [imports w body pairs body' w']: the statements of [body] in order: each macro-import loads its module and binds its
      names, [pairs] in the order of the text; [body'] is what becomes of the statements. *)
  Inductive imports : W -> list ltree -> list (string * Ob) -> list ltree -> W -> Prop :=
  | im_nil w : imports w [] [] [] w
  | im_other w t r ps out w' : other_stmt t -> imports w r ps out w' -> imports w (t :: r) ps (t :: out) w'
  | im_macros w t i rest w1 o absname ps1 out1 r ps out w' : macro_import t i rest -> loaded i w w1 o absname ->
      named_objects w1 o rest ps1 -> replaced t i absname out1 -> imports w1 r ps out w' ->
      imports w (t :: r) (ps1 ++ ps) (out1 ++ out) w'.

  (** The statement cannot be processed. *)
  Definition unusable (t : ltree) (w : W) : Prop :=
    (exists i, view_import t = Some i /\ i_names i = []) \/
    exists i rest, macro_import t i rest /\
      ((forall w1 o absname ps, loaded i w w1 o absname -> ~ named_objects w1 o rest ps) \/
       (transform = true /\ selfish i /\ ln (loc_of t) = None /\ co (loc_of t) <> None)).
End Spec.
