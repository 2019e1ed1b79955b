(** Specification vocabulary for the walkers. *)
From Verif Require Import Base WalkerModel.

Section Spec.
  Context {W V : Type}.

  (** The value a state (or the keyword arguments of a call) gives to a name. *)
  Fixpoint bget (k : string) (b : bindings V) : option V :=
    match b with
    | [] => None
    | (k', v) :: r => if String.eqb k k' then Some v else bget k r
    end.

  (** [d] is what the state [b] becomes when the keyword arguments [e] are applied: the names of [b] in their order, then the
      new names in the order of the arguments; an argument gives its name the new value, the other names keep theirs. *)
  Definition updated (b e d : bindings V) : Prop :=
    (forall k, bget k d = match bget k e with Some v => Some v | None => bget k b end) /\
    map fst d = map fst b ++ filter (fun k => match bget k b with Some _ => false | None => true end) (map fst e).

  (** The method never empties a state: it may add, change and remove bindings, as long as a state
      that has some binding keeps some binding. *)
  Fixpoint never_empties (p : prog W V) : Prop :=
    match p with
    | PRet _ | PRaise _ => True
    | PVisit _ k | PGeneric _ k | PWith _ _ k | PGenWith _ _ k => forall r, never_empties (k r)
    | PGetState k => forall i b, never_empties (k i b)
    | PAssign f k | PMutate _ f k => (forall b, b <> [] -> f b <> []) /\ never_empties k
    | PRebind _ k | PNewState _ k | PCollect _ k | PSetWorld _ k => never_empties k
    | PGetWorld k => forall w, never_empties (k w)
    end.

  (** The method never assigns to [self.state] itself. *)
  Fixpoint never_rebinds (p : prog W V) : Prop :=
    match p with
    | PRet _ | PRaise _ => True
    | PVisit _ k | PGeneric _ k | PWith _ _ k | PGenWith _ _ k => forall r, never_rebinds (k r)
    | PGetState k => forall i b, never_rebinds (k i b)
    | PAssign _ k | PMutate _ _ k | PCollect _ k | PSetWorld _ k => never_rebinds k
    | PRebind _ _ | PNewState _ _ => False
    | PGetWorld k => forall w, never_rebinds (k w)
    end.

  (** The method touches state only as [self.state] (it keeps no reference to a state object). *)
  Fixpoint no_handles (p : prog W V) : Prop :=
    match p with
    | PRet _ | PRaise _ => True
    | PVisit _ k | PGeneric _ k | PWith _ _ k | PGenWith _ _ k => forall r, no_handles (k r)
    | PGetState k => forall i b, no_handles (k i b)
    | PAssign _ k | PNewState _ k | PCollect _ k | PSetWorld _ k => no_handles k
    | PMutate _ _ _ | PRebind _ _ => False
    | PGetWorld k => forall w, no_handles (k w)
    end.

  (** The registration of [o] that is pending after the events [l] (most recent first): state and
      its data at registration. A visit of [o] uses it up. *)
  Fixpoint pending (l : list (event V)) (o : nat) : option (nat * bindings V) :=
    match l with
    | [] => None
    | Reg o' s _ d :: r => if Nat.eqb o o' then Some (s, d) else pending r o
    | Start o' _ _ :: r => if Nat.eqb o o' then None else pending r o
    end.

  (** Each visit runs in the state that was registered last for its object since the last visit of
      that object, if any, and if that state was not empty; otherwise in the surrounding state. *)
  Fixpoint visits_ok (l : list (event V)) : Prop :=
    match l with
    | [] => True
    | Start o s inh :: r =>
        s = match pending r o with
            | Some (x, _ :: _) => x
            | _ => inh
            end /\ visits_ok r
    | Reg _ _ _ _ :: r => visits_ok r
    end.
End Spec.
