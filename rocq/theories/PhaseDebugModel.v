(** Model of the debug mode of the multi-phase compiler: mcpyrate/multiphase.py:291-316 (isdebug), and what 321-414 (multiphase_expand) prints.

    How a program is printed (unparse_with_fallbacks, colours) is left out; printing is taken to succeed. *)
From Verif Require Import Base AstLib UtilsModel FixLocModel ExpanderModel SpliceModel Dict ImportsModel ModulesModel PhaseModel DialectModel StatsModel.

(** multiphase.py:291-316, isdebug. *)
Fixpoint isdebug (body : list ltree) : res bool :=
  match body with
  | [] => Ok false
  | t :: r =>
      match import_named "macros" t with
      | Err e => Err e
      | Ok None => isdebug r
      | Ok (Some i) =>
          if match i_module i with Some m => String.eqb m "mcpyrate.debug" | None => false end && Nat.eqb (i_level i) 0 && existsb (fun p => String.eqb (fst p) "step_phases") (tl (i_names i))
          then Ok true
          else isdebug r
      end
  end.

(** What is printed: the heading for the module, the heading for a phase, the program of a phase. *)
Inductive shown : Type := ShModule (self : string) | ShPhase (k : nat) | ShCode (code : list ltree).

Section Debug.
  Context {U E : Type}.
  Variable isidentifier : string -> bool.
  Variable truthy : nat -> bool.
  Variable gen : nat -> string.
  (** As in PhaseModel.v. *)
  Variable run : list ltree -> nat -> mst U -> res unit * mst U.
  Variable single : list ltree -> mst U -> res E * mst U.

  (** multiphase.py:376-404, with the output. *)
  Fixpoint phases_shown (debug : bool) (ks : list nat) (body : list ltree) (module : nat) (s : mst U) : res (option E) * mst U * list shown :=
    match ks with
    | [] => (Ok None, s, [])
    | k :: r =>
        let out1 := if debug then [ShPhase k] else [] in
        match extract_phase k body with
        | Err e => (Err e, s, out1)
        | Ok (this, body') =>
            match this with
            | [] => let '(x, s1, out) := phases_shown debug r body' module s in (x, s1, out1 ++ out)
            | _ =>
                match inject k this with
                | Err e => (Err e, s, out1)
                | Ok code =>
                    let out2 := out1 ++ (if debug then [ShCode code] else []) in
                    match k with
                    | O => match single code s with
                           | (Ok x, s') => (Ok (Some x), s', out2)
                           | (Err e, s') => (Err e, s', out2)
                           end
                    | S _ => match run code module s with
                             | (Ok _, s') => let '(x, s1, out) := phases_shown debug r body' module s' in (x, s1, out2 ++ out)
                             | (Err e, s') => (Err e, s', out2)
                             end
                    end
                end
            end
        end
    end.
  (** multiphase.py:321-414, with the output. *)
  Definition multiphase_shown (body : list ltree) (self : string) (s : mst U) : res E * mst U * list shown :=
    match detect_highest_phase body with
    | Err e => (Err e, s, [])
    | Ok n =>
        match isdebug body with
        | Err e => (Err e, s, [])
        | Ok debug =>
            let original := sget self (m_sys s) in
            let out1 := if debug then [ShModule self] else [] in
            match create_module isidentifier truthy gen (ArgStr self) (ArgStr "file.py") false s with
            | (Err e, s1) => (Err e, s1, out1)
            | (Ok module, s1) =>
                match n with
                | PNone => (Err (mkExn "TypeError" []), s1, out1)
                | _ =>
                    match phases_shown debug (countdown (Z.to_nat (pyn_z n))) body module s1 with
                    | (Err e, s2, out) => (Err e, s2, out1 ++ out)
                    | (Ok (Some x), s2, out) => (Ok x, restore truthy self original s2, out1 ++ out)
                    | (Ok None, s2, out) => (Err (mkExn "UnboundLocalError" []), restore truthy self original s2, out1 ++ out)
                    end
                end
            end
        end
    end.
End Debug.
