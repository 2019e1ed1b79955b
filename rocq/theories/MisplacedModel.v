(** Model of the macros that stand for features of the compiler: [phase] (multiphase.py:140-226) and [step_phases] (multiphase.py:267-292). They are
    bound by their macro-imports, but every correct use is gone before the macro expander runs; so their functions only raise. *)
From Verif Require Import Base AstLib FixLocModel ExpanderModel.
Open Scope string_scope.

Definition refusal (msg : string) : xerr := plain (mkExn "SyntaxError" [msg]).
(** multiphase.py:140-141, 221-226: a parametric macro. *)
Definition phase_macro {U} : mdef U :=
  mkMac false true (fun i => if negb (String.eqb (in_syntax i) "block") then Raise (refusal "`with phase` is a block macro only")
                             else Raise (refusal "Misplaced `with phase`; must appear at the module top level only.")).
(** multiphase.py:267-292: a name macro. *)
Definition step_phases_macro {U} : mdef U :=
  mkMac true false (fun _ => Raise (refusal "`step_phases` is a compiler flag; it may only appear in its macro-import.")).
