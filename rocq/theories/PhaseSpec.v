(** Specification of multi-phase compilation. *)
From Verif Require Import Base AstLib UtilsModel FixLocModel ExpanderModel SpliceModel Dict ModulesModel PhaseModel.

(** [with phase[slice]: body] *)
Definition header (t sl : ltree) (b : list ltree) : Prop :=
  exists m fs mi ki fi mc fc mv fv, t = Nd m "With" fs /\ getf "items" fs = Some (Ls [Nd mi ki fi]) /\ getf "optional_vars" fi = Some NoneT /\
    getf "context_expr" fi = Some (Nd mc "Subscript" fc) /\ getf "value" fc = Some (Nd mv "Name" fv) /\ getf "id" fv = Some (At (AStr "phase")) /\
    getf "slice" fc = Some sl /\ getf "body" fs = Some (Ls b).
(** The literal [n], a positive integer (or True). *)
Definition literal (sl : ltree) (n : Z) : Prop :=
  exists m fa, sl = Nd m "Constant" fa /\ ((getf "value" fa = Some (At (AInt n)) /\ (1 <= n)%Z) \/ (getf "value" fa = Some (At (ABool true)) /\ n = 1%Z)).
(** [with phase[n]: body], or [with phase[n,]: body]. *)
Definition simple_block (t : ltree) (n : Z) (b : list ltree) : Prop := exists sl, header t sl b /\ literal sl n.
Definition phase_block (t : ltree) (n : Z) (b : list ltree) : Prop :=
  exists sl, header t sl b /\ (literal sl n \/ exists m fs c, sl = Nd m "Tuple" fs /\ getf "elts" fs = Some (Ls [c]) /\ literal c n).
Definition not_block (t : ltree) : Prop := forall n b, ~ phase_block t n b.
Definition future_import (t : ltree) : Prop := exists m fs, t = Nd m "ImportFrom" fs /\ getf "module" fs = Some (At (AStr "__future__")).

(** The code of phase [k >= 1]: future-imports, and the bodies of the blocks of phase [k] or higher, in the order of the text. *)
Inductive phase_contents (k : Z) : list ltree -> list ltree -> Prop :=
| pc_nil : phase_contents k [] []
| pc_block t n b r out : phase_block t n b -> (k <= n)%Z -> phase_contents k r out -> phase_contents k (t :: r) (b ++ out)
| pc_future t r out : future_import t -> phase_contents k r out -> phase_contents k (t :: r) (t :: out)
| pc_other t r out : ~ future_import t -> (forall n b, phase_block t n b -> (n < k)%Z) -> phase_contents k r out -> phase_contents k (t :: r) out.
(** The final program: all statements, each block replaced by its body. *)
Inductive final_contents : list ltree -> list ltree -> Prop :=
| fc_nil : final_contents [] []
| fc_block t n b r out : phase_block t n b -> final_contents r out -> final_contents (t :: r) (b ++ out)
| fc_other t r out : not_block t -> final_contents r out -> final_contents (t :: r) (t :: out).

(** The highest phase number in the body. *)
Definition highest (body : list ltree) (n : Z) : Prop :=
  (exists t b, In t body /\ phase_block t n b) /\ forall t m b, In t body -> phase_block t m b -> (m <= n)%Z.

(** The fields that the statements of a parsed program have: only [with] statements matter. *)
Definition has_value (t : ltree) : Prop := forall m fs, t = Nd m "Constant" fs -> exists v, getf "value" fs = Some v.
Definition proper_item (it : ltree) : Prop :=
  exists m k fs ov c, it = Nd m k fs /\ getf "optional_vars" fs = Some ov /\ getf "context_expr" fs = Some c /\
    forall mc fc, c = Nd mc "Subscript" fc -> exists v sl, getf "value" fc = Some v /\ getf "slice" fc = Some sl /\
      (forall mv fv, v = Nd mv "Name" fv -> exists x, getf "id" fv = Some (At (AStr x))) /\
      has_value sl /\ forall ms gs, sl = Nd ms "Tuple" gs -> exists l, getf "elts" gs = Some (Ls l) /\ Forall has_value l.
Definition proper (t : ltree) : Prop :=
  forall m fs, t = Nd m "With" fs -> exists its b, getf "items" fs = Some (Ls its) /\ getf "body" fs = Some (Ls b) /\ Forall proper_item its.

Section Compile.
  Context {U E : Type}.
  Variable run : list ltree -> nat -> mst U -> res unit * mst U.
  Variable single : list ltree -> mst U -> res E * mst U.
  (** Compiling the phases [ks] of the program: each non-empty phase [k >= 1] is run in the temporary module, with the
      statement [__phase__ = k] put in; phase 0 is the result. *)
  Inductive compiles (body : list ltree) (module : nat) : list nat -> mst U -> res E -> mst U -> Prop :=
  | co_empty k r this s x s' : phase_contents (Z.of_nat (S k)) body this -> this = [] -> compiles body module r s x s' -> compiles body module (S k :: r) s x s'
  | co_run k r this code s s1 x s' : phase_contents (Z.of_nat (S k)) body this -> this <> [] -> inject (S k) this = Ok code ->
      run code module s = (Ok tt, s1) -> compiles body module r s1 x s' -> compiles body module (S k :: r) s x s'
  | co_run_raises k r this code s e s1 : phase_contents (Z.of_nat (S k)) body this -> this <> [] -> inject (S k) this = Ok code ->
      run code module s = (Err e, s1) -> compiles body module (S k :: r) s (Err e) s1
  | co_inject_raises k r this s e : phase_contents (Z.of_nat (S k)) body this -> inject (S k) this = Err e -> compiles body module (S k :: r) s (Err e) s
  | co_final fin code r s x s1 : final_contents body fin -> inject 0 fin = Ok code -> single code s = (x, s1) -> compiles body module (0 :: r) s x s1
  | co_final_inject_raises fin r s e : final_contents body fin -> inject 0 fin = Err e -> compiles body module (0 :: r) s (Err e) s.
End Compile.
