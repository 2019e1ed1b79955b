(** Model of mcpyrate/walkers.py. *)
From Verif Require Import Base AstLib.

Section Walker.
  (** [W]: the memory that holds the trees; objects (nodes and lists) are numbered. Whatever the
      memory is, the walker looks at it through these functions only.
      [V]: values (results of visits, collected values, bindings). *)
  Context {W V : Type}.
  Variable list_of : W -> nat -> option (list nat).   (* elements, if the object is a list *)
  Variable children : W -> nat -> list nat.           (* ast.iter_child_nodes *)
  Variable assign_list : W -> nat -> list V -> W.     (* tree[:] = flatten(results) or [] *)
  Variables (none : V) (objv : nat -> V).             (* None; the object itself, as a value *)

  (** The data of a state (a Bunch), in insertion order. *)
  Definition bindings : Type := list (string * V).
  Fixpoint bset (k : string) (v : V) (b : bindings) : bindings :=
    match b with
    | [] => [(k, v)]
    | (k', w) :: r => if String.eqb k k' then (k', v) :: r else (k', w) :: bset k v r
    end.
  Definition bupd (b e : bindings) : bindings := fold_left (fun b p => bset (fst p) (snd p) b) e b.
  Fixpoint bhas (k : string) (b : bindings) : bool :=
    match b with [] => false | (k', _) :: r => String.eqb k k' || bhas k r end.

  (** What happened, for the specification: [Reg o s base bs]: object [o] was registered with the new
      state [s], made from the data of state [base] and the keyword arguments; [Start o s inh]:
      the visit of [o] began, [s] is the state during the visit, [inh] the state around it. *)
  Inductive event : Type :=
  | Reg (o s base : nat) (data : bindings)
  | Start (o s inh : nat).

  (** The walker object and its surroundings. States are numbered in order of creation.
      [seen]: state objects that user code has got hold of through [self.state]. *)
  Record st : Type := mkSt {
    world : W;
    states : list bindings;
    stack : list nat;               (* self._stack, top first *)
    over : list (nat * nat);        (* self._subtree_overrides: object to state *)
    collected : list V;
    seen : list nat;
    log : list event }.             (* most recent first *)

  (** User-written methods ([examine] / [transform]): programs that may do anything a method can do
      with the walker, for any data and any control flow. Visits hand over a result or an exception
      (which the method may catch, or raise again). *)
  Inductive prog : Type :=
  | PRet (v : V)
  | PRaise (e : exn)
  | PVisit (o : nat) (k : res V -> prog)                        (* self.visit(o) *)
  | PGeneric (o : nat) (k : res V -> prog)                      (* self.generic_visit(o) *)
  | PWith (o : nat) (bs : bindings) (k : res V -> prog)         (* self.withstate(o, ...) *)
  | PGenWith (o : nat) (bs : bindings) (k : res V -> prog)      (* self.generic_withstate(o, ...) *)
  | PGetState (k : nat -> bindings -> prog)                     (* s = self.state *)
  | PAssign (f : bindings -> bindings) (k : prog)               (* self.state.x = v etc. *)
  | PMutate (s : nat) (f : bindings -> bindings) (k : prog)     (* s.x = v; del s.x; s.clear() ... *)
  | PRebind (s : nat) (k : prog)                                (* self.state = s, a state seen before *)
  | PNewState (b : bindings) (k : prog)                         (* self.state = a new Bunch *)
  | PCollect (v : V) (k : prog)                                 (* self.collect(v) *)
  | PGetWorld (k : W -> prog)                                   (* look at the trees *)
  | PSetWorld (w : W) (k : prog).                               (* change the trees *)

  Definition set_world (w : W) (s : st) : st :=
    mkSt w (states s) (stack s) (over s) (collected s) (seen s) (log s).
  Definition set_states (x : list bindings) (s : st) : st :=
    mkSt (world s) x (stack s) (over s) (collected s) (seen s) (log s).
  Definition set_stack (x : list nat) (s : st) : st :=
    mkSt (world s) (states s) x (over s) (collected s) (seen s) (log s).
  Definition set_over (x : list (nat * nat)) (s : st) : st :=
    mkSt (world s) (states s) (stack s) x (collected s) (seen s) (log s).
  Definition set_seen (x : list nat) (s : st) : st :=
    mkSt (world s) (states s) (stack s) (over s) (collected s) x (log s).
  Definition add_log (e : event) (s : st) : st :=
    mkSt (world s) (states s) (stack s) (over s) (collected s) (seen s) (e :: log s).
  Definition data (s : st) (i : nat) : bindings := nth i (states s) [].
  Definition top (s : st) : nat := hd 0 (stack s).
  Fixpoint set_nth {A} (n : nat) (x : A) (l : list A) : list A :=
    match l, n with
    | [], _ => []
    | _ :: r, O => x :: r
    | y :: r, S m => y :: set_nth m x r
    end.
  Fixpoint over_get (o : nat) (l : list (nat * nat)) : option nat :=
    match l with
    | [] => None
    | (o', s) :: r => if Nat.eqb o o' then Some s else over_get o r
    end.
  Definition over_del (o : nat) (l : list (nat * nat)) : list (nat * nat) :=
    filter (fun p => negb (Nat.eqb o (fst p))) l.
  Definition over_set (o s : nat) (l : list (nat * nat)) : list (nat * nat) := (o, s) :: over_del o l.

  Definition type_err : res V := Err type_error.

  (** walkers.py:83-84 and 117-118: [newstate = self.state.copy(); newstate.update( ** bindings)].
      Bunch.copy passes the data as keyword arguments, so a key "self" makes it raise TypeError
      (bunch.py:25-27); so do bindings called self or tree. *)
  Definition new_state (bs : bindings) (s : st) : option (nat * st) :=
    if bhas "self" (data s (top s)) || bhas "self" bs || bhas "tree" bs then None
    else Some (List.length (states s),
               set_states (states s ++ [bupd (data s (top s)) bs]) s).

  Definition register (n base : nat) (o : nat) (s : st) : st :=
    add_log (Reg o n base (data s n)) (set_over (over_set o n (over s)) s).

  (** walkers.py:64-94, [withstate]: for a list, each element is registered. *)
  Definition withstate (o : nat) (bs : bindings) (s : st) : res V * st :=
    match new_state bs s with
    | None => (type_err, s)
    | Some (n, s1) =>
        match list_of (world s1) o with
        | Some l => (Ok none, fold_left (fun s x => register n (top s) x s) l s1)
        | None => (Ok none, register n (top s1) o s1)
        end
    end.

  (** walkers.py:96-121, [generic_withstate]. *)
  Definition generic_withstate (o : nat) (bs : bindings) (s : st) : res V * st :=
    match new_state bs s with
    | None => (type_err, s)
    | Some (n, s1) => (Ok none, fold_left (fun s x => register n (top s) x s) (children (world s1) o) s1)
    end.

  Definition smem_nat (x : nat) (l : list nat) : bool := existsb (Nat.eqb x) l.

  (** Running a method, given how visits behave. [None]: out of fuel. User code can only touch
      state objects it has seen. *)
  Section Run.
    Variables visit gvisit : nat -> st -> option (res V * st).
    Fixpoint run (p : prog) (s : st) : option (res V * st) :=
      match p with
      | PRet v => Some (Ok v, s)
      | PRaise e => Some (Err e, s)
      | PVisit o k => match visit o s with Some (r, s1) => run (k r) s1 | None => None end
      | PGeneric o k => match gvisit o s with Some (r, s1) => run (k r) s1 | None => None end
      | PWith o bs k => let (r, s1) := withstate o bs s in run (k r) s1
      | PGenWith o bs k => let (r, s1) := generic_withstate o bs s in run (k r) s1
      | PGetState k => run (k (top s) (data s (top s))) (set_seen (top s :: seen s) s)
      | PAssign f k => run k (set_states (set_nth (top s) (f (data s (top s))) (states s)) s)
      | PMutate i f k => if smem_nat i (seen s)
                         then run k (set_states (set_nth i (f (data s i)) (states s)) s)
                         else run k s
      | PRebind i k => if smem_nat i (seen s) then run k (set_stack (i :: tl (stack s)) s) else run k s
      | PNewState b k => run k (set_stack (List.length (states s) :: tl (stack s))
                                          (set_states (states s ++ [b]) s))
      | PCollect v k => run k (mkSt (world s) (states s) (stack s) (over s) (collected s ++ [v]) (seen s) (log s))
      | PGetWorld k => run (k (world s)) s
      | PSetWorld w k => run k (set_world w s)
      end.

    (** The loop over a list: Python iterates over the live list, by index. *)
    Fixpoint loop (m : nat) (o i : nat) (acc : list V) (s : st) : option (res (list V) * st) :=
      match m with
      | O => None
      | S m' =>
          match nth_error (match list_of (world s) o with Some l => l | None => [] end) i with
          | None => Some (Ok acc, s)
          | Some x =>
              match visit x s with
              | None => None
              | Some (Err e, s1) => Some (Err e, s1)
              | Some (Ok v, s1) => loop m' o (S i) (acc ++ [v]) s1
              end
          end
      end.
  End Run.

  (** [transformer]: whether this is an ASTTransformer or an ASTVisitor. [meth]: the user's method.
      [gv]: ast.NodeVisitor's or ast.NodeTransformer's generic_visit; it is code that calls
      [self.visit] and changes trees, i.e. a program of the same kind; any such program. *)
  Variables (transformer : bool) (meth gv : nat -> prog).

  (** walkers.py:138-151 and 179-194, [visit]. *)
  Definition body (n : nat) (visit gvisit : nat -> st -> option (res V * st)) (o : nat) (s : st)
    : option (res V * st) :=
    match list_of (world s) o with
    | Some _ =>
        match loop visit n o 0 [] s with
        | None => None
        | Some (Err e, s1) => Some (Err e, s1)
        | Some (Ok vs, s1) =>
            if transformer then Some (Ok (objv o), set_world (assign_list (world s1) o vs) s1)
            else Some (Ok none, s1)
        end
    | None => run visit gvisit (meth o) s
    end.

  (** A Bunch is true if it is not empty (bunch.py:50-51). *)
  Definition truthy (s : st) (i : nat) : bool := match data s i with [] => false | _ => true end.

  Fixpoint visit (fuel : nat) (o : nat) (s : st) : option (res V * st) :=
    match fuel with
    | O => None
    | S n =>
        let newstate := over_get o (over s) in                       (* pop(id(tree), False) *)
        let s0 := set_over (over_del o (over s)) s in
        let s1 := match newstate with
                  | Some x => if truthy s0 x then set_stack (x :: stack s0) s0 else s0
                  | None => s0
                  end in
        match body n (visit n) (gvisit n) o (add_log (Start o (top s1) (top s0)) s1) with
        | None => None
        | Some (r, s2) =>                                            (* finally *)
            Some (r, match newstate with
                     | Some x => if truthy s2 x then set_stack (tl (stack s2)) s2 else s2
                     | None => s2
                     end)
        end
    end
  with gvisit (fuel : nat) (o : nat) (s : st) : option (res V * st) :=
    match fuel with
    | O => None
    | S n => run (visit n) (gvisit n) (gv o) s
    end.

  (** walkers.py:47-55, [__init__] and [reset]. *)
  Definition start (w : W) (b : bindings) : st := mkSt w [b] [0] [] [] [] [].
End Walker.
Arguments prog : clear implicits.
Arguments st : clear implicits.
Arguments event : clear implicits.
Arguments bindings : clear implicits.
