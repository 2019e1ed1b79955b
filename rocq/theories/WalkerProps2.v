(** C12, for lists: the elements are visited one after the other. *)
From Verif Require Import Base WalkerModel WalkerSpec WalkerProofs WalkerProps.

Section Lists.
  Context {W V : Type}.
  Variables (list_of : W -> nat -> option (list nat)) (children : W -> nat -> list nat) (assign_list : W -> nat -> list V -> W).
  Variables (none : V) (objv : nat -> V) (transformer : bool) (meth gv : nat -> prog W V).
  Notation st := (st W V).
  Notation visit := (visit list_of children assign_list none objv transformer meth gv).

  (** Visiting one object after the other; the first exception ends it. *)
  Inductive each (visit : nat -> st -> option (res V * st)) : list nat -> st -> res (list V) -> st -> Prop :=
  | each_end s : each visit [] s (Ok []) s
  | each_ok x l v vs s s1 s2 : visit x s = Some (Ok v, s1) -> each visit l s1 (Ok vs) s2 -> each visit (x :: l) s (Ok (v :: vs)) s2
  | each_raises x l s s1 e : visit x s = Some (Err e, s1) -> each visit (x :: l) s (Err e) s1
  | each_later x l v s s1 s2 e : visit x s = Some (Ok v, s1) -> each visit l s1 (Err e) s2 -> each visit (x :: l) s (Err e) s2.

  Lemma loop_each vis o l : (forall x s1 r s2, In x l -> vis x s1 = Some (r, s2) -> list_of (world s1) o = Some l -> list_of (world s2) o = Some l) ->
    forall m l1 l2 acc s r s', l = l1 ++ l2 -> list_of (world s) o = Some l -> loop list_of vis m o (List.length l1) acc s = Some (r, s') ->
    exists rs, each vis l2 s rs s' /\ r = match rs with Ok vs => Ok (acc ++ vs) | Err e => Err e end.
  Proof.
    intros Hst. induction m as [|m IH]; intros l1 l2 acc s r s' El Hl H; [discriminate|]. cbn [loop] in H. rewrite Hl, El, nth_error_app2, Nat.sub_diag in H by lia.
    destruct l2 as [|x l2]; cbn [nth_error] in H.
    - inversion H; subst. exists (Ok []). split; [constructor|rewrite app_nil_r; reflexivity].
    - destruct (vis x s) as [[[v|e] s1]|] eqn:Ev; [|inversion H; subst; exists (Err e); split; [constructor; exact Ev|reflexivity]|discriminate].
      assert (Hl1 : list_of (world s1) o = Some l) by (eapply Hst; [|exact Ev|exact Hl]; rewrite El; apply in_elt).
      destruct (IH (l1 ++ [x]) l2 (acc ++ [v]) s1 r s') as (rs & He & Er); [rewrite <- app_assoc; exact El|exact Hl1|rewrite app_length; cbn [List.length]; rewrite Nat.add_1_r; exact H|].
      destruct rs as [vs|e].
      + exists (Ok (v :: vs)). split; [eapply each_ok; eauto|rewrite Er, <- app_assoc; reflexivity].
      + exists (Err e). split; [eapply each_later; eauto|exact Er].
  Qed.

  (** Visiting a list that the methods called for its elements do not change meanwhile: the elements are visited from the first to the last, each once,
      in the state of the list; the first exception ends it. A transformer then puts the results into the list, and returns the list. *)
  Theorem C12_list_elements_in_order n o l s r s' :
    list_of (world s) o = Some l ->
    (forall x s1 r1 s2, In x l -> visit n x s1 = Some (r1, s2) -> list_of (world s1) o = Some l -> list_of (world s2) o = Some l) ->
    visit (S n) o s = Some (r, s') ->
    exists rs s2, each (visit n) l (enter o s) rs s2 /\ collected s' = collected s2 /\ states s' = states s2 /\
      match rs with
      | Err e => r = Err e /\ world s' = world s2
      | Ok vs => if transformer then r = Ok (objv o) /\ world s' = assign_list (world s2) o vs else r = Ok none /\ world s' = world s2
      end.
  Proof.
    intros Hl Hst H. cbn [WalkerModel.visit] in H. fold (enter o s) in H. unfold body in H.
    assert (Hw : world (enter o s) = world s).
    { unfold enter. destruct (over_get o (over s)) as [x|]; [|reflexivity]. destruct (truthy _ x); reflexivity. }
    rewrite Hw, Hl in H. destruct (loop list_of (visit n) n o 0 [] (enter o s)) as [[rl s2]|] eqn:El; [|discriminate].
    destruct (loop_each (visit n) o l Hst n [] l [] (enter o s) rl s2 eq_refl (eq_trans (f_equal (fun w => list_of w o) Hw) Hl) El) as (rs & He & ->).
    exists rs, s2. split; [exact He|]. destruct rs as [vs|e]; cbn [app] in H.
    - destruct transformer; inversion H; subst; (destruct (over_get o (over s)) as [x|]; [destruct (truthy _ x)|]; repeat split).
    - inversion H; subst. destruct (over_get o (over s)) as [x|]; [destruct (truthy _ x)|]; repeat split.
  Qed.
End Lists.
Print Assumptions C12_list_elements_in_order.

(** The concrete walker of C12: the list 0 of the nodes 1 and 2. *)
Example C12_list_example : w_list tt 0 = Some [1; 2] /\
  (forall x (s1 : st unit nat) r1 s2, In x [1; 2] -> w_visit 4 x s1 = Some (r1, s2) -> w_list (world s1) 0 = Some [1; 2] -> w_list (world s2) 0 = Some [1; 2]) /\
  exists s', w_visit 5 0 (start tt [("a"%string, 1)]) = Some (Ok 0, s').
Proof. split; [reflexivity|]. split; [reflexivity|]. eexists. vm_compute. reflexivity. Qed.
