(** What compile and run are documented to do, for C60. *)
From Verif Require Import Base AstLib UtilsModel FixLocModel ExpanderModel Dict ImportsModel ModulesModel CompileModel.

(** The same tree, up to source locations. *)
Fixpoint bare (t : ltree) : tree unit :=
  match t with
  | Nd _ k fs => Nd tt k (map (fun p : string * ltree => let (x, v) := p in (x, bare v)) fs)
  | Ls l => Ls (map bare l)
  | At a => At a
  end.

(** The last three characters of the file name are ".py". *)
Definition py_file (f : string) : Prop := exists p, f = (p ++ ".py")%string.
Section Effective.
  Context {code : Type}.
  Variable unparse : source code -> res string.
  (** What is expanded: an AST that does not come from a source file is unparsed before. *)
  Inductive effective (f : string) : source code -> source code -> Prop :=
  | ef_text t : effective f (SText t) (SText t)
  | ef_bytes b : effective f (SBytes b) (SBytes b)
  | ef_file src : py_file f -> effective f src src
  | ef_module body t : ~ py_file f -> unparse (SModule body) = Ok t -> effective f (SModule body) (SText t)
  | ef_list l t : ~ py_file f -> unparse (SList l) = Ok t -> effective f (SList l) (SText t).
End Effective.

(** The value of the first statement, if that is a constant. *)
Definition leading_constant (body : list ltree) (v : ltree) : Prop :=
  exists m fs m' fs' r, body = Nd m "Expr" fs :: r /\ getf "value" fs = Some (Nd m' "Constant" fs') /\ getf "value" fs' = Some v.
(** The docstring of a program: the string that is its first statement, or None. *)
Inductive docstring (body : list ltree) : ltree -> Prop :=
| ds_string s : leading_constant body (At (AStr s)) -> docstring body (At (AStr s))
| ds_none : (forall v, ~ leading_constant body v) -> docstring body NoneT.

(** [from mcpyrate.multiphase import macros, ..., phase, ...], possibly with [as]. *)
Definition phase_import (t : ltree) : Prop :=
  exists i rest a, view_import t = Some i /\ i_module i = Some "mcpyrate.multiphase"%string /\ i_level i = 0 /\ i_names i = ("macros"%string, None) :: rest /\ In ("phase"%string, a) rest.
(** An import statement imports something. *)
Definition sane_import (t : ltree) : Prop := forall i, view_import t = Some i -> i_names i <> [].
