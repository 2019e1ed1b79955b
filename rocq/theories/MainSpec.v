(** What macropython is documented to do, for C62. *)
From Verif Require Import Base Dict ModulesModel ModulesProps SyspathModel MainModel.

Section Spec.
  Context {U L : Type}.
  Notation st := (mst U).
  Variable import_module : string -> st -> res nat * st.
  Variable locations : nat -> st -> res (option (list string)).
  (** Where a module is searched for: a top-level module anywhere, another one where its parent package (which is imported first) says. *)
  Inductive located (name : string) (s : st) : string -> option (list string) -> st -> Prop :=
  | lc_top : top_level name -> located name s "" None s
  | lc_child parent child p path s1 : child_of name parent child -> import_module parent s = (Ok p, s1) -> locations p s1 = Ok path -> located name s parent path s1.
  (** The first finder that knows the module. *)
  Inductive first_spec (name : string) (path : option (list string)) : list (option (string -> option (list string) -> st -> res (option (mspec L)) * st)) -> st -> mspec L -> st -> Prop :=
  | fs_found f r s sp s1 : f name path s = (Ok (Some sp), s1) -> first_spec name path (Some f :: r) s sp s1
  | fs_next f r s s1 sp s2 : f name path s = (Ok None, s1) -> first_spec name path r s1 sp s2 -> first_spec name path (Some f :: r) s sp s2
  | fs_skip r s sp s1 : first_spec name path r s sp s1 -> first_spec name path (None :: r) s sp s1.
  (** No finder knows it. *)
  Inductive no_spec (name : string) (path : option (list string)) : list (option (string -> option (list string) -> st -> res (option (mspec L)) * st)) -> st -> st -> Prop :=
  | ns_end s : no_spec name path [] s s
  | ns_next f r s s1 s2 : f name path s = (Ok None, s1) -> no_spec name path r s1 s2 -> no_spec name path (Some f :: r) s s2
  | ns_skip r s s1 : no_spec name path r s s1 -> no_spec name path (None :: r) s s1.
End Spec.
