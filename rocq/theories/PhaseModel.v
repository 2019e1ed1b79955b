(** Model of multi-phase compilation (mcpyrate/multiphase.py:36-138, 250-264, 321-414).

    Trees are values, so the deep copies made when a block is lifted are the trees themselves; a node object that occurs
    in two phases (the future-imports) is not followed. Python 3.9 or later (no [ast.Index], no [ast.Num]). *)
From Verif Require Import Base AstLib UtilsModel FixLocModel ExpanderModel SpliceModel Dict ModulesModel.

(** multiphase.py:59-69: the macro argument. The number is returned, with True as 1. *)
Definition phase_number (a : ltree) : res (option Z) :=
  match a with
  | Nd _ k fa =>
      if String.eqb k "Constant" then
        match getf "value" fa with
        | Some (At (AInt n)) => Ok (if (1 <=? n)%Z then Some n else None)
        | Some (At (ABool true)) => Ok (Some 1%Z)
        | Some _ => Ok None
        | None => Err (attribute_error "value")
        end
      else Ok None
  | _ => Ok None
  end.
(** multiphase.py:36-71, iswithphase. [None]: False. *)
Definition iswithphase (t : ltree) : res (option Z) :=
  match t with
  | Nd _ k fs =>
      if negb (String.eqb k "With") then Ok None else
      match getf "items" fs with
      | Some (Ls [Nd _ _ fi]) =>
          match getf "optional_vars" fi with
          | None => Err (attribute_error "optional_vars")
          | Some ov =>
              if negb (is_none ov) then Ok None else
              match getf "context_expr" fi with
              | None => Err (attribute_error "context_expr")
              | Some c =>
                  if negb (is_kind "Subscript" c) then Ok None else
                  match destructure false c with
                  | XRaise (XErr e _) => Err e
                  | XOk (Some (x, [a])) => if String.eqb x "phase" then phase_number a else Ok None
                  | XOk _ => Ok None
                  end
              end
          end
      | Some (Ls [_]) => Err (attribute_error "optional_vars")
      | Some (Ls _) => Ok None
      | Some _ => Err AstLib.type_error
      | None => Err (attribute_error "items")
      end
  | _ => Ok None
  end.

(** multiphase.py:108-119: the block with the number in its header lowered by one, if that is a constant. *)
Definition lower_slice (sl : ltree) : ltree :=
  match sl with
  | Nd m k fa =>
      if String.eqb k "Constant" then
        match getf "value" fa with
        | Some (At (AInt n)) => Nd m k (setf "value" (At (AInt (n - 1))) fa)
        | Some (At (ABool b)) => Nd m k (setf "value" (At (AInt ((if b then 1 else 0) - 1))) fa)
        | _ => sl
        end
      else sl
  | _ => sl
  end.
Definition with_field_ (f : string) (g : ltree -> ltree) (fs : list (string * ltree)) : list (string * ltree) :=
  match getf f fs with Some v => setf f (g v) fs | None => fs end.
Definition on_node (g : list (string * ltree) -> list (string * ltree)) (t : ltree) : ltree :=
  match t with Nd m k fs => Nd m k (g fs) | _ => t end.
Definition lower (t : ltree) : ltree :=
  on_node (with_field_ "items" (fun its => match its with
    | Ls (it :: r) => Ls (on_node (with_field_ "context_expr" (on_node (with_field_ "slice" lower_slice))) it :: r)
    | _ => its end)) t.

Definition block_body (t : ltree) : res (list ltree) :=
  match t with
  | Nd _ _ fs => match getf "body" fs with Some (Ls b) => Ok b | Some _ => Err AstLib.type_error | None => Err (attribute_error "body") end
  | _ => Err (attribute_error "body")
  end.

(** multiphase.py:121-136: the loop of extract_phase for [phase >= 1]: the statements of this phase, and the remaining ones. *)
Fixpoint extract (k : Z) (body : list ltree) : res (list ltree * list ltree) :=
  match body with
  | [] => Ok ([], [])
  | t :: r =>
      match iswithphase t with
      | Err e => Err e
      | Ok p =>
          if match p with Some n => Z.eqb n k | None => false end then
            match block_body t with
            | Err e => Err e
            | Ok b => match extract k r with
                      | Err e => Err e
                      | Ok (this, rem) => Ok (b ++ this, (if Z.eqb k 1 then b else [lower t]) ++ rem)
                      end
            end
          else match extract k r with
               | Err e => Err e
               | Ok (this, rem) => Ok ((if isfutureimport t then [t] else []) ++ this, t :: rem)
               end
      end
  end.
(** multiphase.py:73-138, extract_phase, for a natural number [phase]: the extracted body, and [tree.body] afterwards. *)
Definition extract_phase (k : nat) (body : list ltree) : res (list ltree * list ltree) :=
  match k with O => Ok (body, body) | S _ => extract (Z.of_nat k) body end.

(** multiphase.py:250-264, detect_highest_phase: None, False, or a number. *)
Inductive pyn : Type := PNone | PFalse | PInt (z : Z).
Definition pyn_z (p : pyn) : Z := match p with PInt z => z | _ => 0%Z end.
Fixpoint detect_loop (maxn : pyn) (body : list ltree) : res pyn :=
  match body with
  | [] => Ok maxn
  | t :: r =>
      match iswithphase t with
      | Err e => Err e
      | Ok p =>
          let n := match p with Some z => PInt z | None => PFalse end in
          detect_loop (match maxn with
                       | PNone => n
                       | _ => if (pyn_z maxn <? pyn_z n)%Z then n else maxn
                       end) r
      end
  end.
Definition detect_highest_phase (body : list ltree) : res pyn := detect_loop PNone body.

(** [range(n, -1, -1)]. *)
Fixpoint countdown (n : nat) : list nat := match n with O => [0] | S m => n :: countdown m end.

(** multiphase.py:384-386: [__phase__ = k]. *)
Definition phase_assign (k : nat) : ltree :=
  let at_ c := mkLoc (Some 1%Z) (Some c) None None in
  Nd (at_ 1%Z) "Assign"
    [("targets"%string, Ls [Nd (at_ 1%Z) "Name" [("id"%string, At (AStr "__phase__")); ("ctx"%string, Nd noloc "Store" [])]]);
     ("value"%string, Nd (at_ 13%Z) "Constant" [("value"%string, At (AInt (Z.of_nat k)))])].

Section Multiphase.
  Context {U E : Type}.
  Variable isidentifier : string -> bool.
  Variable truthy : nat -> bool.
  Variable gen : nat -> string.
  (** [compiler.run(tree, module)] and [compiler.singlephase_expand(tree, ...)]: macro expansion, and running of user code:
      any effect, any exception. *)
  Variable run : list ltree -> nat -> mst U -> res unit * mst U.
  Variable single : list ltree -> mst U -> res E * mst U.

  Definition inject (k : nat) (body : list ltree) : res (list ltree) := inject_after_futureimports (fun _ => true) (phase_assign k) (Ls body).

  (** multiphase.py:376-404: the loop. The outcome is [expansion], if it was assigned. *)
  Fixpoint phases (ks : list nat) (body : list ltree) (module : nat) (s : mst U) : res (option E) * mst U :=
    match ks with
    | [] => (Ok None, s)
    | k :: r =>
        match extract_phase k body with
        | Err e => (Err e, s)
        | Ok (this, body') =>
            match this with
            | [] => phases r body' module s
            | _ =>
                match inject k this with
                | Err e => (Err e, s)
                | Ok code =>
                    match k with
                    | O => match single code s with
                           | (Ok x, s') => (Ok (Some x), s')
                           | (Err e, s') => (Err e, s')
                           end
                    | S _ => match run code module s with
                             | (Ok _, s') => phases r body' module s'
                             | (Err e, s') => (Err e, s')
                             end
                    end
                end
            end
        end
    end.

  Definition set_sys (d : sdict nat) (s : mst U) : mst U := mkMst d (m_attr s) (m_next s) (m_uuid s) (m_user s).
  (** multiphase.py:406-412. *)
  Definition restore (self : string) (original : option nat) (s : mst U) : mst U :=
    match match original with Some o => if truthy o then Some o else None | None => None end with
    | Some o => set_sys (sset self o (m_sys s)) s
    | None => set_sys (sdel self (m_sys s)) s
    end.
  (** multiphase.py:321-414, multiphase_expand. The debug output is left out. *)
  Definition multiphase_expand (body : list ltree) (self : string) (s : mst U) : res E * mst U :=
    match detect_highest_phase body with
    | Err e => (Err e, s)
    | Ok n =>
        let original := sget self (m_sys s) in
        match create_module isidentifier truthy gen (ArgStr self) (ArgStr "file.py") false s with
        | (Err e, s1) => (Err e, s1)
        | (Ok module, s1) =>
            match n with
            | PNone => (Err (mkExn "TypeError" []), s1)
            | _ =>
                match phases (countdown (Z.to_nat (pyn_z n))) body module s1 with
                | (Err e, s2) => (Err e, s2)
                | (Ok (Some x), s2) => (Ok x, restore self original s2)
                | (Ok None, s2) => (Err (mkExn "UnboundLocalError" []), restore self original s2)
                end
            end
        end
    end.
End Multiphase.
