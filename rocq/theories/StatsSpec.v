(** Specification of the modification time that accounts for macro-imports. *)
From Verif Require Import Base AstLib FixLocModel ExpanderModel Dict ImportsModel PhaseModel DialectModel StatsModel.

(** A macro-import or dialect-import at the top level, or in (nested) [with phase] blocks at the top level. *)
Definition magic_import (t : ltree) (i : imp) : Prop :=
  view_import t = Some i /\ exists x rest, i_names i = (x, None) :: rest /\ (x = "macros" \/ x = "dialects")%string.
Inductive has_import : list ltree -> imp -> Prop :=
| hi_here body t i : In t body -> magic_import t i -> has_import body i
| hi_phase body m k fs n b i : In (Nd m k fs) body -> iswithphase (Nd m k fs) = Ok (Some n) -> getf "body" fs = Some (Ls b) -> has_import b i -> has_import body i.

Section Spec.
  Variable E : env.
  Variable fs : string -> option file.
  (** The source file [p] imports macros or dialects from the source file [q]. The package matters only if some import of the file is relative. *)
  Definition dep (p q : string) : Prop := exists f body i m pkg absname,
    fs p = Some f /\ f_text f = Ok body /\ has_import body i /\ i_module i = Some m /\
    ((exists j s, has_import body j /\ i_level j <> 0 /\ e_package E p = Ok s /\ pkg = Some s) \/
     ((forall j, has_import body j -> i_level j = 0) /\ pkg = None)) /\
    e_resolve E (i_level i) m pkg = Ok absname /\ e_spec E absname = Ok (Some (Some q)).
  Inductive reach (p : string) : string -> Prop :=
  | re_here : reach p p
  | re_dep q r : dep p q -> reach q r -> reach p r.
  (** [x] is the newest modification time of the files reachable from [p]. *)
  Definition newest (p : string) (x : Z) : Prop :=
    (exists q f, reach p q /\ fs q = Some f /\ x = e_float E (f_mtime f)) /\
    forall q, reach p q -> exists f, fs q = Some f /\ (e_float E (f_mtime f) <= x)%Z.
  (** No infinite chain of imports starts in [p]. *)
  Definition acyclic_from (p : string) : Prop := Acc (fun q r => dep r q) p.
End Spec.

(** A cache entry describes the file. *)
Definition describes (e : centry) (f : file) : Prop := exists body,
  f_text f = Ok body /\ scan body = Ok (ce_macros e, ce_dialects e) /\ ce_relative e = any_relative (ce_macros e ++ ce_dialects e).
(** The entries written for the present modification time of a file describe its present text. *)
Definition coherent (fs : string -> option file) (c : cache) : Prop :=
  forall p f e, fs p = Some f -> c p = Some e -> ce_mtime e = f_mtime f -> describes e f.

(** Histories of edits and queries. [ver p f]: at some time the file [p] was [f]. An edit gives the file a modification time that it never had
    before. Queries may be made with any configuration, and cache files may get lost or damaged. *)
Definition fset (p : string) (f : option file) (fs : string -> option file) : string -> option file := fun q => if String.eqb q p then f else fs q.
Inductive history : (string -> file -> Prop) -> (string -> option file) -> cache -> Prop :=
| h_start fs : history (fun p f => fs p = Some f) fs (fun _ => None)
| h_edit ver fs c p f : history ver fs c -> (forall g, ver p g -> f_mtime g <> f_mtime f) -> history (fun q g => ver q g \/ (q = p /\ g = f)) (fset p (Some f) fs) c
| h_delete ver fs c p : history ver fs c -> history ver (fset p None fs) c
| h_query ver fs c E n p r c' : history ver fs c -> path_stats E fs n p c = Some (r, c') -> history ver fs c'
| h_lose ver fs c p : history ver fs c -> history ver fs (fun q => if String.eqb q p then None else c q).
