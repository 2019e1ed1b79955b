(** C12, C13: AST walkers. *)
From Verif Require Import Base AstLib WalkerModel WalkerSpec WalkerProofs.

Section Props.
  Context {W V : Type}.
  Variable list_of : W -> nat -> option (list nat).
  Variable children : W -> nat -> list nat.
  Variable assign_list : W -> nat -> list V -> W.
  Variables (none : V) (objv : nat -> V) (transformer : bool) (meth gv : nat -> prog W V).

  Notation visit := (visit list_of children assign_list none objv transformer meth gv).
  Notation gvisit := (gvisit list_of children assign_list none objv transformer meth gv).
  Notation run := (run list_of children none).
  Notation st := (st W V).

  Lemma bget_bset k v (b : bindings V) q : bget q (bset k v b) = if String.eqb q k then Some v else bget q b.
  Proof.
    induction b as [|[k' w] r IH]; cbn [bset bget]; [reflexivity|]. destruct (String.eqb_spec k k') as [<-|Hn]; cbn [bget].
    - destruct (String.eqb_spec q k); reflexivity.
    - rewrite IH. destruct (String.eqb_spec q k'), (String.eqb_spec q k); congruence.
  Qed.
  Lemma bhas_not k (b : bindings V) : bget k b = None -> bhas k b = false.
  Proof. induction b as [|[k' w] r IH]; cbn [bget bhas]; [reflexivity|]. destruct (String.eqb k k'); [discriminate|exact IH]. Qed.
  Lemma keys_bset k v (b : bindings V) : map fst (bset k v b) = map fst b ++ match bget k b with Some _ => [] | None => [k] end.
  Proof.
    induction b as [|[k' w] r IH]; cbn [bset bget]; [reflexivity|]. destruct (String.eqb_spec k k') as [<-|Hn]; cbn [map fst app].
    - rewrite app_nil_r. reflexivity.
    - rewrite IH. reflexivity.
  Qed.
  Lemma updated_bupd (e : bindings V) : NoDup (map fst e) -> forall b, updated b e (bupd b e).
  Proof.
    induction e as [|[k v] e IH]; intros ND b; [split; [reflexivity|]; cbn; rewrite app_nil_r; reflexivity|].
    cbn [map fst] in ND. inversion ND as [|? ? Hk ND']; subst. unfold bupd. cbn [fold_left fst snd]. fold (bupd (bset k v b) e).
    destruct (IH ND' (bset k v b)) as [A B]. assert (Hg : bget k e = None).
    { destruct (bget k e) eqn:G; [|reflexivity]. exfalso. apply Hk. clear -G. induction e as [|[k' w] r IHr]; [discriminate|]. cbn [bget] in G.
      destruct (String.eqb_spec k k') as [<-|]; [left; reflexivity|right; auto]. }
    split.
    - intros q. rewrite A, bget_bset. cbn [bget]. destruct (String.eqb_spec q k) as [->|]; [rewrite Hg; reflexivity|reflexivity].
    - rewrite B, keys_bset. cbn [map fst filter]. rewrite <- app_assoc. f_equal.
      assert (Hf : filter (fun q => match bget q (bset k v b) with Some _ => false | None => true end) (map fst e) =
                   filter (fun q => match bget q b with Some _ => false | None => true end) (map fst e)).
      { apply filter_ext_in. intros q Hq. rewrite bget_bset. destruct (String.eqb_spec q k) as [->|]; [contradiction|reflexivity]. }
      rewrite Hf. destruct (bget k b); reflexivity.
  Qed.
  Lemma updated_ne (b e d : bindings V) : updated b e d -> b <> [] \/ e <> [] -> d <> [].
  Proof.
    intros [A B] H ->. destruct H as [H|H].
    - destruct b; [congruence|discriminate].
    - destruct e as [|[k v] e]; [congruence|]. specialize (A k). cbn [bget] in A. rewrite String.eqb_refl in A. discriminate.
  Qed.

  Lemma bupd_ne (e : bindings V) : forall b, b <> [] \/ e <> [] -> bupd b e <> [].
  Proof.
    assert (X : forall k v (b : bindings V), bset k v b <> []).
    { intros k v [|[k' w] r]; cbn [bset]; [discriminate|]. destruct (String.eqb k k'); discriminate. }
    induction e as [|[k v] e IH]; intros b H; [destruct H; [assumption|congruence]|]. apply IH. left. apply X.
  Qed.

  (** The walker as the method for [o] sees it when the visit of [o] begins. *)
  Definition enter (o : nat) (s : st) : st :=
    let s0 := set_over (over_del o (over s)) s in
    let s1 := match over_get o (over s) with
              | Some x => if truthy s0 x then set_stack (x :: stack s0) s0 else s0
              | None => s0
              end in
    add_log (Start o (top s1) (top s0)) s1.

  (** States of the walker that can occur: at the start; after any code ran (code outside the walker,
      or part of a method); at the beginning of a visit. *)
  Inductive reached : st -> Prop :=
  | r_start w b : reached (start w b)
  | r_run n p s r s' : reached s -> never_empties p -> run (visit n) (gvisit n) p s = Some (r, s') -> reached s'
  | r_enter o s : reached s -> reached (enter o s).

  Section Given.
    Hypothesis Hm : forall o, never_empties (meth o).
    Hypothesis Hg : forall o, never_empties (gv o).

    Lemma reached_inv s : reached s -> Inv s.
    Proof.
      induction 1 as [w b|n p s r s' H IH Hp E|o s H IH].
      - apply inv_start.
      - destruct (visit_ok list_of children assign_list none objv transformer meth gv false Hm Hg
                    (fun X => match Bool.diff_false_true X with end) n) as [Hv Hgv].
        exact (t_inv _ _ _ (run_ok list_of children none objv false _ _ Hv Hgv p Hp
                    (fun X => match Bool.diff_false_true X with end) s r s' IH E)).
      - exact (inv_pop s o IH).
    Qed.

    (** C12. After a visit returns or raises, everything on the stack below the current state is as
        before, and if the methods never assign to [self.state] itself, the whole stack is. If the
        object was registered with a state that is not empty, the whole stack is as before in any
        case: the current state is then the very object that was current before the call. All visits
        made up to any point ran in the state registered for them, each registration being used at
        most once. What is missing with respect to the full claim: methods that empty a state
        ([self.state.clear()], see [C12_emptied_state_refuted]). *)
    Theorem C12_stack_restored_partial : forall n o s r s', reached s -> visit n o s = Some (r, s') ->
      tl (stack s') = tl (stack s) /\
      ((forall q, never_rebinds (meth q) /\ never_rebinds (gv q)) -> stack s' = stack s) /\
      (forall x, over_get o (over s) = Some x -> data s x <> [] -> stack s' = stack s) /\
      visits_ok (log s').
    Proof.
      intros n o s r s' HR E. pose proof (reached_inv s HR) as HI.
      pose proof (visit_ok list_of children assign_list none objv transformer meth gv false Hm Hg
                    (fun X => match Bool.diff_false_true X with end) n) as [Hv _].
      pose proof (Hv o s r s' HI E) as S1. split; [apply (t_tl _ _ _ S1)|]. split; [|split; [|apply (i_log _ (t_inv _ _ _ S1))]].
      - intros Hf. pose proof (visit_ok list_of children assign_list none objv transformer meth gv true Hm Hg (fun _ => Hf) n) as [Hv2 _].
        exact (t_fix _ _ _ (Hv2 o s r s' HI E) eq_refl).
      - intros x Eo Hne. destruct n as [|n]; [discriminate|].
        destruct (visit_stack list_of children assign_list none objv transformer meth gv Hm Hg n o s r s' HI E) as [s2 [_ [_ [_ Est]]]].
        rewrite Eo in Est. destruct (data s x); [congruence|exact Est].
    Qed.

    (** C12. The code that surrounds all visits leaves a walker whose stack has one state. *)
    Theorem C12_toplevel_partial : forall n p w b r s', never_empties p ->
      run (visit n) (gvisit n) p (start w b) = Some (r, s') ->
      List.length (stack s') = 1 /\ visits_ok (log s').
    Proof.
      intros n p w b r s' Hp E.
      pose proof (visit_ok list_of children assign_list none objv transformer meth gv false Hm Hg
                    (fun X => match Bool.diff_false_true X with end) n) as [Hv Hgv].
      pose proof (run_ok list_of children none objv false _ _ Hv Hgv p Hp (fun X => match Bool.diff_false_true X with end) _ r s' (inv_start w b) E) as S1.
      split; [|apply (i_log _ (t_inv _ _ _ S1))].
      pose proof (t_tl _ _ _ S1) as T. pose proof (i_ne _ (t_inv _ _ _ S1)) as N. simpl in T.
      destruct (stack s'); [congruence|]. simpl in T. subst. reflexivity.
    Qed.

    (** C12. Registering a node and visiting it: the node's method runs, once, in a new state whose data
        is that of the registering state updated with the bindings; no registration for the node is
        left; the other states are untouched at that point; and when the method has returned or raised
        the stack is that of the registering code. *)
    Theorem C12_withstate_then_visit_partial : forall n o bs s, reached s ->
      list_of (world s) o = None ->
      bget "self" (data s (top s)) = None -> bget "self" bs = None -> bget "tree" bs = None ->
      NoDup (map fst bs) -> data s (top s) <> [] \/ bs <> [] ->
      let (r0, s0) := withstate list_of none o bs s in
      r0 = Ok none /\
      exists s1 d, world s1 = world s /\ updated (data s (top s)) bs d /\
        stack s1 = List.length (states s) :: stack s /\
        states s1 = states s ++ [d] /\
        over_get o (over s1) = None /\
        (forall p, p <> o -> over_get p (over s1) = over_get p (over s)) /\
        match visit (S n) o s0, run (visit n) (gvisit n) (meth o) s1 with
        | Some (r, s'), Some (r', s2) => r = r' /\ states s' = states s2 /\ over s' = over s2 /\ stack s' = stack s
        | None, None => True
        | _, _ => False
        end.
    Proof.
      intros n o bs s HR Hl H1 H2 H3 ND Hd. apply bhas_not in H1, H2, H3. pose proof (updated_bupd bs ND (data s (top s))) as Hup.
      pose proof (updated_ne _ _ _ Hup Hd) as Hne. pose proof (reached_inv s HR) as HI.
      unfold withstate, new_state. rewrite H1, H2, H3. cbn [orb set_states world]. rewrite Hl. split; [reflexivity|].
      set (s0 := register (List.length (states s)) (top (set_states (states s ++ [bupd (data s (top s)) bs]) s)) o
                   (set_states (states s ++ [bupd (data s (top s)) bs]) s)).
      assert (Ew : withstate list_of none o bs s = (Ok none, s0)).
      { unfold withstate, new_state. rewrite H1, H2, H3. cbn [orb set_states world]. rewrite Hl. reflexivity. }
      pose proof (t_inv _ _ _ (withstate_step list_of none false _ _ _ _ _ HI Ew)) as HI0.
      assert (Eo : over_get o (over s0) = Some (List.length (states s))).
      { unfold s0, register. cbn [add_log set_over over]. rewrite over_set_get, Nat.eqb_refl. reflexivity. }
      assert (Ed : data s0 (List.length (states s)) = bupd (data s (top s)) bs).
      { unfold s0, register, data. cbn [add_log set_over set_states states]. rewrite app_nth2, Nat.sub_diag by lia. reflexivity. }
      assert (Et : truthy (set_over (over_del o (over s0)) s0) (List.length (states s)) = true).
      { unfold truthy. change (data (set_over (over_del o (over s0)) s0) (List.length (states s))) with (data s0 (List.length (states s))).
        rewrite Ed. destruct (bupd (data s (top s)) bs); [congruence|reflexivity]. }
      exists (enter o s0), (bupd (data s (top s)) bs). unfold enter. rewrite Eo, Et. cbn [add_log set_stack set_over world stack states over].
      split; [reflexivity|]. split; [exact Hup|]. split; [reflexivity|]. split; [reflexivity|]. split; [rewrite over_del_get, Nat.eqb_refl; reflexivity|]. split.
      { intros p Hp. rewrite over_del_get. destruct (Nat.eqb o p) eqn:E1; [apply Nat.eqb_eq in E1; congruence|].
        unfold s0, register. cbn [add_log set_over over]. rewrite over_set_get. destruct (Nat.eqb p o) eqn:E2; [apply Nat.eqb_eq in E2; congruence|reflexivity]. }
      destruct (visit (S n) o s0) as [[r s']|] eqn:Ev.
      - destruct (visit_stack list_of children assign_list none objv transformer meth gv Hm Hg n o s0 r s' HI0 Ev) as [s2 [Eb [Es [Eov Est]]]].
        cbv zeta in Eb. rewrite Eo in Eb, Est. rewrite Et in Eb. unfold body in Eb.
        change (list_of (world s) o) with (list_of (world s0) o) in Hl.
        cbn [add_log set_stack set_over world] in Eb. rewrite Hl in Eb. cbn [add_log set_stack set_over world stack states over] in Eb. rewrite Eb.
        rewrite Ed in Est. destruct (bupd (data s (top s)) bs); [congruence|]. auto.
      - rewrite visit_S in Ev. cbv zeta in Ev. rewrite Eo, Et in Ev. unfold body in Ev.
        change (list_of (world s) o) with (list_of (world s0) o) in Hl.
        cbn [add_log set_stack set_over world] in Ev. rewrite Hl in Ev. cbn [add_log set_stack set_over world stack states over] in Ev.
        destruct (run (visit n) (gvisit n) (meth o) _) as [[r' s2]|]; [discriminate|exact I].
    Qed.

    (** C13. The methods reach state through [self.state] only. If the object has been registered with
        a state that is not empty, then after it has been visited, the current state is the object it
        was before, with the data it had before. What is missing: an empty state
        ([C13_empty_state_refuted]). *)
    Theorem C13_no_leak_partial : forall n o s r s' x, reached s ->
      (forall q, no_handles (meth q) /\ no_handles (gv q)) ->
      over_get o (over s) = Some x -> data s x <> [] ->
      (forall q, over_get q (over s) <> Some (top s)) ->
      visit n o s = Some (r, s') ->
      stack s' = stack s /\ data s' (top s') = data s (top s).
    Proof.
      intros n o s r s' x HR Hh Eo Hne Hfresh E. destruct n as [|n]; [discriminate|]. pose proof (reached_inv s HR) as HI.
      destruct (C12_stack_restored_partial _ o s r s' HR E) as [_ [_ [Hst _]]]. pose proof (Hst x Eo Hne) as Est. split; [exact Est|].
      destruct (visit_prot list_of children assign_list none objv transformer meth gv Hm Hg
                  (fun q => proj1 (Hh q)) (fun q => proj2 (Hh q)) (top s) n) as [Pv Pg].
      assert (Et : top s' = top s) by (unfold top; rewrite Est; reflexivity). rewrite Et.
      refine (proj1 (visit_body_prot list_of children assign_list none objv transformer meth gv Hm Hg
                  (fun q => proj1 (Hh q)) (top s) n Pv Pg o s r s' HI _ _ _ E)).
      - apply (i_stack s HI). unfold top. destruct (stack s) eqn:Es; [exfalso; exact (i_ne s HI Es)|left; reflexivity].
      - intros p _. apply Hfresh.
      - rewrite Eo. split; [intros ->; exact (Hfresh o Eo)|]. intros; contradiction.
    Qed.

    (** C13. The same from registration on: [self.withstate(o, ...)] directly followed by [self.visit(o)]. *)
    Theorem C13_withstate_visit_partial : forall n o bs s r s', reached s ->
      (forall q, no_handles (meth q) /\ no_handles (gv q)) ->
      (forall q, over_get q (over s) <> Some (top s)) ->
      list_of (world s) o = None ->
      bget "self" (data s (top s)) = None -> bget "self" bs = None -> bget "tree" bs = None ->
      data s (top s) <> [] \/ bs <> [] ->
      run (visit n) (gvisit n) (PWith o bs (fun _ => PVisit o (fun r => match r with Ok v => PRet v | Err e => PRaise e end))) s = Some (r, s') ->
      stack s' = stack s /\ data s' (top s') = data s (top s).
    Proof.
      intros n o bs s r s' HR Hh Hfresh Hl H1 H2 H3 Hd E. apply bhas_not in H1, H2, H3.
      assert (Hne : bupd (data s (top s)) bs <> []) by (apply bupd_ne, Hd). cbn [WalkerModel.run] in E.
      destruct (withstate list_of none o bs s) as [r0 s0] eqn:Ew.
      destruct (visit n o s0) as [[r1 s1]|] eqn:Ev; [|discriminate].
      assert (Es : s' = s1) by (destruct r1; cbn [WalkerModel.run] in E; inversion E; reflexivity). subst s'.
      assert (HR0 : reached s0).
      { apply (r_run n (PWith o bs (fun _ => PRet none)) s (Ok none) s0 HR); [simpl; auto|]. cbn [WalkerModel.run]. rewrite Ew. reflexivity. }
      unfold withstate, new_state in Ew. rewrite H1, H2, H3 in Ew. cbn [orb set_states world] in Ew. rewrite Hl in Ew. inversion Ew as [[Er Es0]].
      pose proof (reached_inv s HR) as HI.
      assert (Htop : top s < List.length (states s)).
      { apply (i_stack s HI). unfold top. destruct (stack s) eqn:Es; [exfalso; exact (i_ne s HI Es)|left; reflexivity]. }
      assert (Et0 : top s0 = top s) by (subst s0; reflexivity).
      assert (Ed0 : data s0 (top s) = data s (top s)).
      { subst s0. unfold register, data. cbn [add_log set_over set_states states]. rewrite app_nth1 by exact Htop. reflexivity. }
      assert (Hst0 : stack s0 = stack s) by (subst s0; reflexivity). rewrite <- Hst0, <- Ed0, <- Et0.
      refine (C13_no_leak_partial n o s0 r1 s1 (List.length (states s)) HR0 Hh _ _ _ Ev).
      - subst s0. unfold register. cbn [add_log set_over over]. rewrite over_set_get, Nat.eqb_refl. reflexivity.
      - subst s0. unfold register, data. cbn [add_log set_over set_states states]. rewrite app_nth2, Nat.sub_diag by lia. exact Hne.
      - intros q. rewrite Et0. subst s0. unfold register. cbn [add_log set_over over]. rewrite over_set_get. destruct (Nat.eqb q o); [|apply Hfresh].
        intros X. inversion X. lia.
    Qed.
  End Given.
End Props.

(** *** A concrete walker: object 0 is a list of the nodes 1 and 2; node 1 has children 3 and 4. *)
Definition w_list (_ : unit) (o : nat) : option (list nat) := if Nat.eqb o 0 then Some [1; 2] else None.
Definition w_children (_ : unit) (o : nat) : list nat := if Nat.eqb o 1 then [3; 4] else [].
Definition w_assign (w : unit) (_ : nat) (_ : list nat) : unit := w.
Definition w_gv (o : nat) : prog unit nat :=
  if Nat.eqb o 1 then PVisit 3 (fun _ => PVisit 4 (fun _ => PRet 1)) else PRet o.
(** Node 1 registers node 3 with depth=7 and visits its children; node 3 writes to its state and
    raises; node 1 catches the exception. *)
Definition w_meth (o : nat) : prog unit nat :=
  match o with
  | 1 => PWith 3 [("depth"%string, 7)] (fun _ => PVisit 3 (fun _ => PVisit 4 (fun _ => PRet 1)))
  | 3 => PGetState (fun _ b => PCollect (List.length b) (PAssign (bset "note"%string 9) (PRaise type_error)))
  | _ => PRet o
  end.
Definition w_visit := visit w_list w_children w_assign 0 (fun o => o) true w_meth w_gv.

Example C12_example :
  (forall o, never_empties (w_meth o)) /\ (forall o, no_handles (w_meth o) /\ no_handles (w_gv o)) /\
  match w_visit 5 0 (start tt [("a"%string, 1)]) with
  | Some (Ok v, s) => v = 0 /\ stack s = [0] /\ collected s = [2] /\ states s = [[("a", 1)]; [("a", 1); ("depth", 7); ("note", 9)]]%string
  | _ => False
  end.
Proof.
  split; [|split].
  - intros [|[|[|[|o]]]]; simpl; auto. intros _ b. split; [|auto]. intros [|[k v] b']; [congruence|].
    intros _. cbn [bset]. destruct (String.eqb "note" k); intros X; inversion X.
  - intros o. split; [destruct o as [|[|[|[|o]]]]; simpl; auto|unfold w_gv; destruct (Nat.eqb o 1); simpl; auto].
  - vm_compute. repeat split; reflexivity.
Qed.

(** C12 refuted in general: node 1 registers node 3 and visits it; node 3 runs [self.state.clear()].
    The temporary state is then false, and is not popped: after the visit, the stack is longer
    and [self.state] is the temporary state, not the object it was before. *)
Definition clear_meth (o : nat) : prog unit nat :=
  match o with
  | 1 => PWith 3 [("depth"%string, 7)] (fun _ => PVisit 3 (fun _ => PRet 1))
  | 3 => PAssign (fun _ => []) (PRet 3)
  | _ => PRet o
  end.
Theorem C12_emptied_state_refuted : exists (meth gv : nat -> prog unit nat) s',
  (forall q, never_rebinds (meth q) /\ never_rebinds (gv q)) /\
  visit w_list w_children w_assign 0 (fun o => o) true meth gv 5 1 (start tt [("a"%string, 1)]) = Some (Ok 1, s') /\
  stack (start tt [("a"%string, 1)]) = [0] /\ top s' <> 0 /\ data s' (top s') = [] /\ stack s' = [1; 0].
Proof.
  exists clear_meth, w_gv. eexists. split; [|split; [vm_compute; reflexivity|vm_compute; split; [reflexivity|]; split; [discriminate|]; split; reflexivity]].
  intros q. split; [destruct q as [|[|[|[|q]]]]; simpl; auto|unfold w_gv; destruct (Nat.eqb q 1); simpl; auto].
Qed.

(** C13 refuted for the empty state: the walker starts with no bindings; node 1 registers node 3
    without bindings and visits it; node 3 assigns [self.state.x = 5]. The temporary state is
    empty, hence false, hence not put in place, so the assignment lands in the outer state. *)
Definition leak_meth (o : nat) : prog unit nat :=
  match o with
  | 1 => PWith 3 [] (fun _ => PVisit 3 (fun _ => PRet 1))
  | 3 => PAssign (bset "x"%string 5) (PRet 3)
  | _ => PRet o
  end.
Theorem C13_empty_state_refuted : exists (meth gv : nat -> prog unit nat) s',
  (forall q, never_empties (meth q)) /\ (forall q, no_handles (meth q) /\ no_handles (gv q)) /\
  visit w_list w_children w_assign 0 (fun o => o) true meth gv 5 1 (start tt []) = Some (Ok 1, s') /\
  stack s' = [0] /\ data s' 0 = [("x"%string, 5)].
Proof.
  exists leak_meth, w_gv. eexists. split; [|split; [|split; [vm_compute; reflexivity|vm_compute; split; reflexivity]]].
  - intros [|[|[|[|o]]]]; simpl; auto. split; [|auto]. intros [|[k v] b']; [congruence|].
    intros _. cbn [bset]. destruct (String.eqb "x" k); intros X; inversion X.
  - intros q. split; [destruct q as [|[|[|[|q]]]]; simpl; auto|unfold w_gv; destruct (Nat.eqb q 1); simpl; auto].
Qed.

Print Assumptions C12_stack_restored_partial.
Print Assumptions C12_toplevel_partial.
Print Assumptions C12_withstate_then_visit_partial.
Print Assumptions C12_emptied_state_refuted.
Print Assumptions C13_no_leak_partial.
Print Assumptions C13_withstate_visit_partial.
Print Assumptions C13_empty_state_refuted.
