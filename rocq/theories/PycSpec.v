(** Histories of editing and importing, for C59. *)
From Verif Require Import Base AstLib FixLocModel ExpanderModel Dict ImportsModel PhaseModel DialectModel StatsModel StatsSpec PycModel.

Definition second : Z := 1000000000.
(** Times (in nanoseconds since 1970) that fit in 32 bits, with a margin. *)
Definition in_range (t : Z) : Prop := (0 <= t < 4294967294 * second)%Z.
(** The conversion of a time to float and then to whole seconds keeps the order, and is off by less than a second. *)
Definition clock_ok (E : env) (stamp : Z -> Z) : Prop :=
  (forall a b, in_range a -> in_range b -> (e_float E a <= e_float E b)%Z -> (stamp (e_float E a) <= stamp (e_float E b))%Z) /\
  (forall a b, in_range a -> in_range b -> (a + 2 * second <= b)%Z -> (stamp (e_float E a) < stamp (e_float E b))%Z).
(** The code made from a file depends only on that file and on what it imports macros and dialects from, recursively. *)
Definition only_deps {code} (E : env) (compile : string -> (string -> option file) -> res code) : Prop :=
  forall p fs fs', (forall q, reach E fs p q -> fs q = fs' q) -> compile p fs = compile p fs'.

Section History.
  Context {code : Type}.
  Variable E : env.
  Variable stamp : Z -> Z.
  Variables (is_stdlib ispy : string -> bool) (std : (string -> option file) -> string -> res Z).
  Variable compile : string -> (string -> option file) -> res code.
  (** [now]: the time of the last change. Every change is two seconds or more after the one before it, and sets the modification time to the time of the
      change. Any files are imported in between; bytecode files and cache files can get lost. *)
  Inductive lives : Z -> (string -> option file) -> cache -> pycs code -> Prop :=
  | li_start now fs : in_range now -> (forall p f, fs p = Some f -> (0 <= f_mtime f <= now)%Z) -> lives now fs (fun _ => None) (fun _ => None)
  | li_edit now fs c k p f : lives now fs c k -> (now + 2 * second <= f_mtime f)%Z -> in_range (f_mtime f) -> lives (f_mtime f) (fset p (Some f) fs) c k
  | li_delete now fs c k p : lives now fs c k -> lives now (fset p None fs) c k
  | li_import now fs c k writes n p r c' k' : lives now fs c k -> get_code E stamp is_stdlib ispy std compile fs writes n p c k = Some (r, c', k') -> lives now fs c' k'
  | li_lose_cache now fs c k p : lives now fs c k -> lives now fs (fun q => if String.eqb q p then None else c q) k
  | li_lose_pyc now fs c k p : lives now fs c k -> lives now fs c (fun q => if String.eqb q p then None else k q).
End History.
