From Verif Require Import Base AstLib WalkerModel WalkerSpec.

Section P.
  Context {W V : Type}.
  Variable list_of : W -> nat -> option (list nat).
  Variable children : W -> nat -> list nat.
  Variable assign_list : W -> nat -> list V -> W.
  Variables (none : V) (objv : nat -> V).

  Notation st := (st W V).
  Definition nstates (s : st) : nat := List.length (states s).
  Definition hid (s : st) (x : nat) : Prop :=
    x < nstates s /\ data s x = [] /\ ~ In x (seen s) /\ ~ In x (stack s).

  Record Inv (s : st) : Prop := mkInv {
    i_ne : stack s <> [];
    i_stack : forall x, In x (stack s) -> x < nstates s;
    i_seen : forall x, In x (seen s) -> x < nstates s;
    i_over : forall o x, over_get o (over s) = Some x -> x < nstates s /\ (data s x = [] -> hid s x);
    i_pend : forall o, over_get o (over s) = option_map fst (pending (log s) o);
    i_empty : forall o x d, pending (log s) o = Some (x, d) -> (d = [] <-> data s x = []);
    i_log : visits_ok (log s) }.

  Record Step (fixed : bool) (s s' : st) : Prop := mkStep {
    t_len : nstates s <= nstates s';
    t_ne : forall x, x < nstates s -> data s x <> [] -> data s' x <> [];
    t_hid : forall x, hid s x -> hid s' x;
    t_inv : Inv s';
    t_tl : tl (stack s') = tl (stack s);
    t_fix : fixed = true -> stack s' = stack s }.

  Lemma step_refl fx s : Inv s -> Step fx s s.
  Proof. intros H. constructor; auto. Qed.
  Lemma step_trans fx s1 s2 s3 : Step fx s1 s2 -> Step fx s2 s3 -> Step fx s1 s3.
  Proof.
    intros [A1 A2 A3 A4 A5 A6] [B1 B2 B3 B4 B5 B6]. constructor; auto; try congruence.
    - lia.
    - intros x Hx Hd. apply B2; [lia|]. apply A2; assumption.
    - intros Hf. rewrite (B6 Hf). auto.
  Qed.

  Lemma nth_set_same {A} n (x d : A) l : n < List.length l -> nth n (set_nth n x l) d = x.
  Proof. revert n. induction l as [|y l IH]; intros [|n] H; simpl in *; try lia; [reflexivity|]. apply IH. lia. Qed.
  Lemma nth_set_other {A} n m (x d : A) l : n <> m -> nth m (set_nth n x l) d = nth m l d.
  Proof. revert n m. induction l as [|y l IH]; intros [|n] [|m] H; simpl in *; try lia; try reflexivity. apply IH. lia. Qed.
  Lemma set_nth_length {A} n (x : A) l : List.length (set_nth n x l) = List.length l.
  Proof. revert n. induction l as [|y l IH]; intros [|n]; simpl; auto. Qed.
  Lemma set_nth_over {A} n (x : A) l : List.length l <= n -> set_nth n x l = l.
  Proof. revert n. induction l as [|y l IH]; intros [|n] H; simpl in *; try lia; try reflexivity. rewrite IH by lia. reflexivity. Qed.

  Lemma over_del_get o p l : over_get p (over_del o l) = if Nat.eqb o p then None else over_get p l.
  Proof.
    unfold over_del. induction l as [|[o' x] l IH]; simpl; [destruct (Nat.eqb o p); reflexivity|].
    destruct (Nat.eqb o o') eqn:E; simpl.
    - rewrite IH. apply Nat.eqb_eq in E. subst o'. rewrite (Nat.eqb_sym p o). destruct (Nat.eqb o p); reflexivity.
    - rewrite IH. destruct (Nat.eqb p o') eqn:E2; [|reflexivity]. apply Nat.eqb_eq in E2. subst o'. rewrite E. reflexivity.
  Qed.
  Lemma over_set_get o x p l : over_get p (over_set o x l) = if Nat.eqb p o then Some x else over_get p l.
  Proof.
    unfold over_set. simpl. destruct (Nat.eqb p o) eqn:E; [reflexivity|]. rewrite over_del_get. rewrite Nat.eqb_sym in E. rewrite E. reflexivity.
  Qed.

  (** *** Changing one state's data *)
  Lemma step_data fx (s : st) i b : Inv s -> (forall y, data s y = [] -> (exists o, over_get o (over s) = Some y) \/ hid s y -> y <> i) ->
    (data s i <> [] -> b <> []) -> Step fx s (set_states (set_nth i b (states s)) s).
  Proof.
    intros [I1 I2 I3 I4 I5 I6 I7] Hi Hb. set (s' := set_states (set_nth i b (states s)) s).
    assert (Hlen : nstates s' = nstates s) by (unfold nstates; simpl; apply set_nth_length).
    assert (Hne : forall x, x < nstates s -> data s x <> [] -> data s' x <> []).
    { intros x Hx Hd. unfold data. simpl. destruct (Nat.eq_dec i x) as [->|E]; [rewrite nth_set_same; auto|rewrite nth_set_other; auto]. }
    assert (Hsame : forall x, x <> i -> data s' x = data s x).
    { intros x Hx. unfold data. simpl. apply nth_set_other. congruence. }
    assert (Hhid : forall x, hid s x -> hid s' x).
    { intros x [h1 [h2 [h3 h4]]]. repeat split; auto; [lia|]. rewrite Hsame; [exact h2|]. apply (Hi x h2). right. repeat split; auto. }
    constructor; auto; [lia|]. constructor; auto.
    - intros x Hx. rewrite Hlen. apply I2, Hx.
    - intros x Hx. rewrite Hlen. apply I3, Hx.
    - intros o x Ho. destruct (I4 o x Ho) as [Hx Hh]. split; [lia|]. intros Hd. apply Hhid, Hh.
      destruct (data s x) eqn:E; [reflexivity|]. exfalso. apply (Hne x Hx); [congruence|exact Hd].
    - intros o x d Hp. change (pending (log s) o = Some (x, d)) in Hp. rewrite (I6 o x d Hp).
      assert (Ho : over_get o (over s) = Some x) by (rewrite I5, Hp; reflexivity). destruct (I4 o x Ho) as [Hx Hh]. split; intros Hd.
      + rewrite Hsame; [exact Hd|]. apply (Hi x Hd). left; exists o; exact Ho.
      + destruct (data s x) eqn:E; [reflexivity|]. exfalso. apply (Hne x Hx); [congruence|exact Hd].
  Qed.

  Lemma data_app (s : st) b x : x < nstates s -> nth x (states s ++ [b]) [] = data s x.
  Proof. intros H. apply app_nth1. exact H. Qed.

  (** *** Adding a state *)
  Lemma inv_new (s : st) b : Inv s -> Inv (set_states (states s ++ [b]) s) /\
     (forall x, hid s x -> hid (set_states (states s ++ [b]) s) x).
  Proof.
    intros [I1 I2 I3 I4 I5 I6 I7]. set (s' := set_states (states s ++ [b]) s).
    assert (Hlen : nstates s' = Datatypes.S (nstates s)) by (unfold nstates; simpl; rewrite app_length; simpl; lia).
    assert (Hd : forall x, x < nstates s -> data s' x = data s x) by (intros x Hx; unfold data; simpl; apply data_app; exact Hx).
    assert (Hhid : forall x, hid s x -> hid s' x).
    { intros x [h1 [h2 [h3 h4]]]. repeat split; auto; [lia|]. rewrite Hd; auto. }
    split; [|exact Hhid]. constructor; auto.
    - intros x Hx. rewrite Hlen. specialize (I2 x Hx). lia.
    - intros x Hx. rewrite Hlen. specialize (I3 x Hx). lia.
    - intros o x Ho. destruct (I4 o x Ho) as [Hx Hh]. split; [lia|]. rewrite Hd by exact Hx. auto.
    - intros o x d Hp. change (pending (log s) o = Some (x, d)) in Hp. assert (Ho : over_get o (over s) = Some x) by (rewrite I5, Hp; reflexivity). destruct (I4 o x Ho) as [Hx _].
      rewrite Hd by exact Hx. apply (I6 o x d Hp).
  Qed.

  Lemma inv_register (s : st) n base o : Inv s -> n < nstates s -> ~ In n (seen s) -> ~ In n (stack s) ->
    Inv (register n base o s).
  Proof.
    intros [I1 I2 I3 I4 I5 I6 I7] Hn Hs Hk. constructor; auto.
    - intros p x Hp. unfold register in Hp. cbn [add_log set_over over] in Hp. rewrite over_set_get in Hp. destruct (Nat.eqb p o); [|apply (I4 p x Hp)].
      inversion Hp; subst x. split; [exact Hn|]. intros Hd. repeat split; auto.
    - intros p. unfold register. cbn [add_log set_over over log pending]. rewrite over_set_get. destruct (Nat.eqb p o); [reflexivity|]. apply I5.
    - intros p x d Hp. simpl in Hp. destruct (Nat.eqb p o); [|apply (I6 p x d Hp)]. inversion Hp; subst. reflexivity.
  Qed.

  Lemma registers_ok l n : forall (s : st), Inv s -> n < nstates s -> ~ In n (seen s) -> ~ In n (stack s) ->
    let s' := fold_left (fun s x => register n (top s) x s) l s in
    Inv s' /\ states s' = states s /\ stack s' = stack s /\ seen s' = seen s.
  Proof.
    induction l as [|o l IH]; intros s HI Hn Hs Hk; [auto|]. cbn [fold_left].
    apply (IH (register n (top s) o s)); auto. apply inv_register; auto.
  Qed.

  Lemma step_registers fx (s : st) bs l n s1 : Inv s -> new_state bs s = Some (n, s1) ->
    Step fx s (fold_left (fun s x => register n (top s) x s) l s1).
  Proof.
    intros HI E. unfold new_state in E. destruct (_ || _ || _); [discriminate|]. inversion E; subst n s1. clear E.
    set (b := bupd (data s (top s)) bs). destruct (inv_new s b HI) as [HI1 Hhid]. set (s1 := set_states (states s ++ [b]) s) in *.
    destruct (registers_ok l (List.length (states s)) s1 HI1) as [HI2 [E1 [E2 E3]]].
    - unfold nstates. simpl. rewrite app_length. simpl. lia.
    - intros Hx. apply (i_seen s HI) in Hx. unfold nstates in Hx. lia.
    - intros Hx. apply (i_stack s HI) in Hx. unfold nstates in Hx. lia.
    - assert (Ed : forall x, data (fold_left (fun s x => register (List.length (states s)) (top s) x s) l s1) x = data (fold_left (fun s x => register (List.length (states s)) (top s) x s) l s1) x) by reflexivity.
      clear Ed. set (s2 := fold_left (fun s2 x => register (List.length (states s)) (top s2) x s2) l s1) in *.
      assert (Hd : forall x, data s2 x = data s1 x) by (intros x; unfold data; rewrite E1; reflexivity).
      constructor; auto.
      + unfold nstates. rewrite E1. simpl. rewrite app_length. lia.
      + intros x Hx Hne. rewrite Hd. unfold data. simpl. rewrite data_app; auto.
      + intros x Hx. destruct (Hhid x Hx) as [h1 [h2 [h3 h4]]]. unfold hid, nstates in *. rewrite E1, E2, E3, Hd. auto.
      + rewrite E2. reflexivity.
  Qed.

  Lemma withstate_step fx o bs s r s' : Inv s -> withstate list_of none o bs s = (r, s') -> Step fx s s'.
  Proof.
    intros HI E. unfold withstate in E. destruct (new_state bs s) as [[n s1]|] eqn:En.
    - destruct (list_of (world s1) o) as [l|]; inversion E; subst.
      + eapply step_registers; eassumption.
      + apply (step_registers fx s bs [o] n s1 HI En).
    - inversion E; subst. apply step_refl, HI.
  Qed.
  Lemma generic_withstate_step fx o bs s r s' : Inv s -> generic_withstate children none o bs s = (r, s') -> Step fx s s'.
  Proof.
    intros HI E. unfold generic_withstate in E. destruct (new_state bs s) as [[n s1]|] eqn:En; inversion E; subst.
    - eapply step_registers; eassumption.
    - apply step_refl, HI.
  Qed.

  Definition vok (fx : bool) (vis : nat -> st -> option (res V * st)) : Prop :=
    forall o s r s', Inv s -> vis o s = Some (r, s') -> Step fx s s'.

  Lemma smem_nat_In x l : smem_nat x l = true <-> In x l.
  Proof.
    unfold smem_nat. rewrite existsb_exists. split.
    - intros [y [Hy E]]. apply Nat.eqb_eq in E. subst. exact Hy.
    - intros H. exists x. split; [exact H|apply Nat.eqb_refl].
  Qed.

  Lemma top_In (s : st) : stack s <> [] -> In (top s) (stack s).
  Proof. unfold top. destruct (stack s); [congruence|]. intros _. left; reflexivity. Qed.

  (** A state that is seen or on the stack is neither hidden nor pending and empty. *)
  Lemma touchable (s : st) i : Inv s -> In i (seen s) \/ In i (stack s) ->
    forall y, data s y = [] -> (exists o, over_get o (over s) = Some y) \/ hid s y -> y <> i.
  Proof.
    intros HI Hi y Hd [[o Ho]|Hh] ->.
    - destruct (i_over s HI o i Ho) as [_ Hh]. destruct (Hh Hd) as [_ [_ [h3 h4]]]. tauto.
    - destruct Hh as [_ [_ [h3 h4]]]. tauto.
  Qed.

  Lemma step_simple fx (s s' : st) : Inv s -> states s' = states s -> stack s' = stack s -> over s' = over s -> log s' = log s ->
    (forall x, In x (seen s') -> In x (seen s) \/ In x (stack s)) -> Step fx s s'.
  Proof.
    intros [I1 I2 I3 I4 I5 I6 I7] E1 E2 E3 E4 Hs.
    assert (Hd : forall x, data s' x = data s x) by (intros x; unfold data; rewrite E1; reflexivity).
    assert (Hn : nstates s' = nstates s) by (unfold nstates; rewrite E1; reflexivity).
    assert (Hhid : forall x, hid s x -> hid s' x).
    { intros x [h1 [h2 [h3 h4]]]. unfold hid. rewrite Hn, Hd, E2. repeat split; auto. intros Hx. destruct (Hs x Hx); contradiction. }
    constructor; auto; rewrite ?Hn; auto.
    - intros x _. rewrite Hd. auto.
    - constructor; rewrite ?E2, ?E3, ?E4, ?Hn; auto.
      + intros x Hx. destruct (Hs x Hx); auto.
      + intros o x Ho. destruct (I4 o x Ho) as [Hx Hh]. split; [exact Hx|]. rewrite Hd. auto.
      + intros o x d. rewrite Hd. apply I6.
    - rewrite E2. reflexivity.
  Qed.

  Lemma step_stack (s : st) i : Inv s -> i < nstates s -> (forall y, hid s y -> y <> i) ->
    Step false s (set_stack (i :: tl (stack s)) s).
  Proof.
    intros [I1 I2 I3 I4 I5 I6 I7] Hi Hh.
    assert (Htl : forall x, In x (tl (stack s)) -> In x (stack s)) by (destruct (stack s); simpl; auto).
    assert (Hhid : forall x, hid s x -> hid (set_stack (i :: tl (stack s)) s) x).
    { intros x Hx. pose proof (Hh x Hx) as Hne. destruct Hx as [h1 [h2 [h3 h4]]]. repeat split; auto. simpl. intros [E|E]; [congruence|]. apply h4, Htl, E. }
    constructor; auto; [|discriminate]. constructor; auto.
    - simpl. discriminate.
    - intros x Hx. simpl in Hx. destruct Hx as [<-|Hx]; [exact Hi|]. apply I2, Htl, Hx.
    - intros o x Ho. destruct (I4 o x Ho) as [Hx Hd]. split; [exact Hx|]. auto.
  Qed.

  Lemma step_newstate (s : st) b : Inv s ->
    Step false s (set_stack (List.length (states s) :: tl (stack s)) (set_states (states s ++ [b]) s)).
  Proof.
    intros HI. destruct (inv_new s b HI) as [HI1 Hhid]. set (s1 := set_states (states s ++ [b]) s) in *.
    assert (Htl : forall x, In x (tl (stack s)) -> In x (stack s)) by (destruct (stack s); simpl; auto).
    assert (Hd : forall x, x < nstates s -> data s1 x = data s x) by (intros x Hx; unfold data; simpl; apply data_app; exact Hx).
    assert (Hh2 : forall x, x < nstates s -> hid s1 x -> hid (set_stack (List.length (states s) :: tl (stack s)) s1) x).
    { intros x Hlt [h1 [h2 [h3 h4]]]. repeat split; auto. simpl. intros [E|E]; [unfold nstates in Hlt; lia|]. apply h4, Htl, E. }
    constructor; auto; try discriminate.
    - unfold nstates. simpl. rewrite app_length. lia.
    - intros x Hx Hne. change (data s1 x <> []). rewrite Hd; auto.
    - intros x Hx. apply Hh2; [apply Hx|]. apply Hhid, Hx.
    - destruct HI1 as [I1 I2 I3 I4 I5 I6 I7]. constructor; auto.
      + simpl. discriminate.
      + intros x Hx. simpl in Hx. destruct Hx as [<-|Hx]; [unfold nstates; simpl; rewrite app_length; simpl; lia|]. apply I2, Htl, Hx.
      + intros o x Ho. destruct (I4 o x Ho) as [Hx Hh]. split; [exact Hx|]. intros He. apply Hh2; [|apply Hh; exact He].
        destruct (i_over s HI o x Ho) as [Hlt _]. exact Hlt.
  Qed.

  Lemma run_ok fx vis gvis : vok fx vis -> vok fx gvis ->
    forall p, never_empties p -> (fx = true -> never_rebinds p) ->
    forall s r s', Inv s -> run list_of children none vis gvis p s = Some (r, s') -> Step fx s s'.
  Proof.
    intros Hv Hg. induction p as [v|e|o k IH|o k IH|o bs k IH|o bs k IH|k IH|f k IH|i f k IH|i k IH|b k IH|v k IH|k IH|w k IH];
      intros Hn Hf s r s' HI E; cbn [run never_empties never_rebinds] in *.
    - inversion E; subst. apply step_refl, HI.
    - inversion E; subst. apply step_refl, HI.
    - destruct (vis o s) as [[r1 s1]|] eqn:Ev; [|discriminate]. pose proof (Hv _ _ _ _ HI Ev) as S1.
      eapply step_trans; [exact S1|]. eapply IH; [apply Hn|intros X; apply (Hf X)|apply (t_inv _ _ _ S1)|exact E].
    - destruct (gvis o s) as [[r1 s1]|] eqn:Ev; [|discriminate]. pose proof (Hg _ _ _ _ HI Ev) as S1.
      eapply step_trans; [exact S1|]. eapply IH; [apply Hn|intros X; apply (Hf X)|apply (t_inv _ _ _ S1)|exact E].
    - destruct (withstate list_of none o bs s) as [r1 s1] eqn:Ev. pose proof (withstate_step fx _ _ _ _ _ HI Ev) as S1.
      eapply step_trans; [exact S1|]. eapply IH; [apply Hn|intros X; apply (Hf X)|apply (t_inv _ _ _ S1)|exact E].
    - destruct (generic_withstate children none o bs s) as [r1 s1] eqn:Ev. pose proof (generic_withstate_step fx _ _ _ _ _ HI Ev) as S1.
      eapply step_trans; [exact S1|]. eapply IH; [apply Hn|intros X; apply (Hf X)|apply (t_inv _ _ _ S1)|exact E].
    - assert (S1 : Step fx s (set_seen (top s :: seen s) s)).
      { apply step_simple; auto. simpl. intros x [<-|Hx]; [right; apply top_In, HI|left; exact Hx]. }
      eapply step_trans; [exact S1|]. eapply IH; [apply Hn|intros X; apply (Hf X)|apply (t_inv _ _ _ S1)|exact E].
    - destruct Hn as [Hn1 Hn2].
      assert (S1 : Step fx s (set_states (set_nth (top s) (f (data s (top s))) (states s)) s)).
      { apply step_data; auto. apply touchable; auto. right. apply top_In, HI. }
      eapply step_trans; [exact S1|]. eapply IH; [exact Hn2|exact Hf|apply (t_inv _ _ _ S1)|exact E].
    - destruct Hn as [Hn1 Hn2]. destruct (smem_nat i (seen s)) eqn:Es; [|eapply IH; eassumption].
      assert (S1 : Step fx s (set_states (set_nth i (f (data s i)) (states s)) s)).
      { apply step_data; auto. apply touchable; auto. left. apply smem_nat_In, Es. }
      eapply step_trans; [exact S1|]. eapply IH; [exact Hn2|exact Hf|apply (t_inv _ _ _ S1)|exact E].
    - destruct fx; [destruct (Hf eq_refl)|]. destruct (smem_nat i (seen s)) eqn:Es; [|eapply IH; [exact Hn|discriminate|exact HI|exact E]].
      apply smem_nat_In in Es.
      assert (S1 : Step false s (set_stack (i :: tl (stack s)) s)).
      { apply step_stack; auto; [apply (i_seen s HI), Es|]. intros y [_ [_ [h3 _]]] ->. contradiction. }
      eapply step_trans; [exact S1|]. eapply IH; [exact Hn|discriminate|apply (t_inv _ _ _ S1)|exact E].
    - destruct fx; [destruct (Hf eq_refl)|]. pose proof (step_newstate s b HI) as S1.
      eapply step_trans; [exact S1|]. eapply IH; [exact Hn|discriminate|apply (t_inv _ _ _ S1)|exact E].
    - assert (S1 : Step fx s (mkSt (world s) (states s) (stack s) (over s) (collected s ++ [v]) (seen s) (log s))) by (apply step_simple; auto).
      eapply step_trans; [exact S1|]. eapply IH; [exact Hn|exact Hf|apply (t_inv _ _ _ S1)|exact E].
    - eapply IH; [apply Hn|intros X; apply (Hf X)|exact HI|exact E].
    - assert (S1 : Step fx s (set_world w s)) by (apply step_simple; auto).
      eapply step_trans; [exact S1|]. eapply IH; [exact Hn|exact Hf|apply (t_inv _ _ _ S1)|exact E].
  Qed.

  Lemma loop_ok fx vis : vok fx vis -> forall m o i acc s r s', Inv s -> loop list_of vis m o i acc s = Some (r, s') -> Step fx s s'.
  Proof.
    intros Hv. induction m as [|m IH]; intros o i acc s r s' HI E; [discriminate|]. cbn [loop] in E.
    destruct (nth_error _ i) as [x|].
    - destruct (vis x s) as [[[v|e] s1]|] eqn:Ev; [| |discriminate].
      + pose proof (Hv _ _ _ _ HI Ev) as S1. eapply step_trans; [exact S1|]. eapply IH; [apply (t_inv _ _ _ S1)|exact E].
      + inversion E; subst. apply (Hv _ _ _ _ HI Ev).
    - inversion E; subst. apply step_refl, HI.
  Qed.

  Variables (transformer : bool) (meth gv : nat -> prog W V).
  Notation body := (body list_of children assign_list none objv transformer meth).
  Notation visit := (visit list_of children assign_list none objv transformer meth gv).
  Notation gvisit := (gvisit list_of children assign_list none objv transformer meth gv).

  Lemma body_ok fx n vis gvis : vok fx vis -> vok fx gvis -> (forall o, never_empties (meth o)) ->
    (fx = true -> forall o, never_rebinds (meth o)) ->
    forall o s r s', Inv s -> body n vis gvis o s = Some (r, s') -> Step fx s s'.
  Proof.
    intros Hv Hg Hn Hf o s r s' HI E. unfold WalkerModel.body in E. destruct (list_of (world s) o).
    - destruct (loop list_of vis n o 0 [] s) as [[[vs|e] s1]|] eqn:El; [| |discriminate].
      + pose proof (loop_ok fx vis Hv _ _ _ _ _ _ _ HI El) as S1. destruct transformer; inversion E; subst; [|exact S1].
        eapply step_trans; [exact S1|]. apply step_simple; auto. apply (t_inv _ _ _ S1).
      + inversion E; subst. apply (loop_ok fx vis Hv _ _ _ _ _ _ _ HI El).
    - exact (run_ok fx vis gvis Hv Hg (meth o) (Hn o) (fun X => Hf X o) s r s' HI E).
  Qed.

  (** Taking a pending registration. *)
  Lemma inv_pop (s : st) o : Inv s ->
    let s0 := set_over (over_del o (over s)) s in
    let s1 := match over_get o (over s) with Some x => if truthy s0 x then set_stack (x :: stack s0) s0 else s0 | None => s0 end in
    Inv (add_log (Start o (top s1) (top s0)) s1).
  Proof.
    intros HI s0 s1. pose proof HI as [I1 I2 I3 I4 I5 I6 I7].
    assert (Hs1 : states s1 = states s /\ over s1 = over_del o (over s) /\ log s1 = log s /\ seen s1 = seen s).
    { unfold s1. destruct (over_get o (over s)) as [x|]; [destruct (truthy s0 x)|]; auto. }
    destruct Hs1 as [E1 [E2 [E3 E4]]].
    assert (Hd : forall x, data s1 x = data s x) by (intros x; unfold data; rewrite E1; reflexivity).
    assert (Hst : forall y, In y (stack s1) -> In y (stack s) \/ (over_get o (over s) = Some y /\ data s y <> [])).
    { unfold s1. destruct (over_get o (over s)) as [x|] eqn:Eo; [|auto]. destruct (truthy s0 x) eqn:Et; [|auto].
      intros y [<-|Hy]; [right|left; exact Hy]. split; [reflexivity|]. unfold truthy in Et. change (data s0 x) with (data s x) in Et. destruct (data s x); [discriminate|congruence]. }
    constructor; cbn [add_log stack seen over log]; unfold nstates; cbn [add_log states]; rewrite ?E1, ?E2, ?E3, ?E4; auto.
    - unfold s1. destruct (over_get o (over s)) as [x|]; [destruct (truthy s0 x)|]; try exact I1. discriminate.
    - intros x Hx. destruct (Hst x Hx) as [Hx'|[Hx' _]]; [exact (I2 x Hx')|exact (proj1 (I4 o x Hx'))].
    - intros p x Hp. rewrite over_del_get in Hp. destruct (Nat.eqb o p); [discriminate|]. destruct (I4 p x Hp) as [Hx Hh]. split; [exact Hx|].
      change (data (add_log (Start o (top s1) (top s0)) s1) x) with (data s1 x). rewrite Hd. intros He. destruct (Hh He) as [h1 [h2 [h3 h4]]].
      repeat split; cbn [add_log stack seen]; unfold nstates; cbn [add_log states]; rewrite ?E1, ?E4; auto.
      + change (data s1 x = []). rewrite Hd. exact He.
      + intros Hx2. destruct (Hst x Hx2) as [Hx'|[_ Hx']]; [contradiction|congruence].
    - intros p. rewrite over_del_get. cbn [pending]. rewrite (Nat.eqb_sym o p). destruct (Nat.eqb p o); [reflexivity|]. apply I5.
    - intros p x d Hp. cbn [pending] in Hp. destruct (Nat.eqb p o); [discriminate|].
      change (data (add_log (Start o (top s1) (top s0)) s1) x) with (data s1 x). rewrite Hd. apply (I6 p x d Hp).
    - cbn [visits_ok]. split; [|exact I7]. unfold s1. rewrite I5. destruct (pending (log s) o) as [[x d]|] eqn:Ep; [|reflexivity].
      cbn [option_map fst]. pose proof (I6 o x d Ep) as Hi. unfold truthy. change (data s0 x) with (data s x).
      destruct d as [|p d], (data s x) as [|q b]; try reflexivity.
      + destruct Hi as [Hi _]. discriminate (Hi eq_refl).
      + destruct Hi as [_ Hi]. discriminate (Hi eq_refl).
  Qed.

  Lemma visit_S n o s : visit (Datatypes.S n) o s =
    (let s0 := set_over (over_del o (over s)) s in
     let s1 := match over_get o (over s) with Some x => if truthy s0 x then set_stack (x :: stack s0) s0 else s0 | None => s0 end in
     match body n (visit n) (gvisit n) o (add_log (Start o (top s1) (top s0)) s1) with
     | None => None
     | Some (r, s2) => Some (r, match over_get o (over s) with Some x => if truthy s2 x then set_stack (tl (stack s2)) s2 else s2 | None => s2 end)
     end).
  Proof. reflexivity. Qed.
  Lemma gvisit_S n o s : gvisit (Datatypes.S n) o s = run list_of children none (visit n) (gvisit n) (gv o) s.
  Proof. reflexivity. Qed.

  Lemma visit_ok fx : (forall o, never_empties (meth o)) -> (forall o, never_empties (gv o)) ->
    (fx = true -> forall o, never_rebinds (meth o) /\ never_rebinds (gv o)) ->
    forall n, vok fx (visit n) /\ vok fx (gvisit n).
  Proof.
    intros Hm Hg Hf. induction n as [|n [IHv IHg]]; [split; intros o s r s' _ E; discriminate|]. split.
    - intros o s r s' HI E. rewrite visit_S in E. cbv zeta in E.
      pose proof (inv_pop s o HI) as HI1. cbv zeta in HI1.
      set (s0 := set_over (over_del o (over s)) s) in *.
      set (s1 := match over_get o (over s) with Some x => if truthy s0 x then set_stack (x :: stack s0) s0 else s0 | None => s0 end) in *.
      set (sl := add_log (Start o (top s1) (top s0)) s1) in *.
      destruct (body n (visit n) (gvisit n) o sl) as [[r2 s2]|] eqn:Eb; [|discriminate].
      pose proof (body_ok fx n _ _ IHv IHg Hm (fun X o => proj1 (Hf X o)) o sl r2 s2 HI1 Eb) as S2.
      inversion E; subst r2. clear E.
      assert (Edata : forall x, data sl x = data s x).
      { intros x. unfold sl, s1. destruct (over_get o (over s)) as [y|]; [destruct (truthy s0 y)|]; reflexivity. }
      assert (Enst : nstates sl = nstates s).
      { unfold sl, s1. destruct (over_get o (over s)) as [y|]; [destruct (truthy s0 y)|]; reflexivity. }
      assert (Hhid1 : forall x, hid s x -> hid sl x).
      { intros x [h1 [h2 [h3 h4]]]. unfold hid. rewrite Enst, Edata. split; [exact h1|]. split; [exact h2|].
        unfold sl, s1. destruct (over_get o (over s)) as [y|] eqn:Eo; [destruct (truthy s0 y) eqn:Et|]; simpl; auto.
        split; [exact h3|]. intros [<-|Hy]; [|contradiction]. unfold truthy in Et. change (data s0 y) with (data s y) in Et. rewrite h2 in Et. discriminate. }
      destruct (over_get o (over s)) as [x|] eqn:Eo.
      + destruct (i_over s HI o x Eo) as [Hx Hxh]. destruct (data s x) as [|p b] eqn:Ed.
        * (* empty: not pushed, still empty at the end *)
          assert (Hh2 : hid s2 x). { apply (t_hid _ _ _ S2), Hhid1, Hxh. reflexivity. }
          assert (Ett : truthy s2 x = false). { unfold truthy. destruct Hh2 as [_ [-> _]]. reflexivity. }
          rewrite Ett.
          assert (Es1 : stack sl = stack s). { unfold sl, s1. assert (Etx : truthy s0 x = false) by (unfold truthy; change (data s0 x) with (data s x); rewrite Ed; reflexivity). rewrite Etx. reflexivity. }
          destruct S2 as [T1 T2 T3 T4 T5 T6]. constructor; auto.
          -- rewrite <- Enst. exact T1.
          -- intros y Hy Hne. apply T2; [rewrite Enst; exact Hy|]. rewrite Edata. exact Hne.
          -- rewrite T5, Es1. reflexivity.
          -- intros X. rewrite (T6 X). exact Es1.
        * assert (Etx : truthy s0 x = true) by (unfold truthy; change (data s0 x) with (data s x); rewrite Ed; reflexivity).
          assert (Es1 : stack sl = x :: stack s) by (unfold sl, s1; rewrite Etx; reflexivity).
          destruct S2 as [T1 T2 T3 T4 T5 T6].
          assert (Ett : truthy s2 x = true).
          { unfold truthy. assert (Hne : data s2 x <> []) by (apply T2; [rewrite Enst; exact Hx|rewrite Edata, Ed; discriminate]). destruct (data s2 x); [congruence|reflexivity]. }
          rewrite Ett. rewrite Es1 in T5. cbn [tl] in T5.
          assert (Esub : forall y, In y (tl (stack s2)) -> In y (stack s2)) by (destruct (stack s2); simpl; auto).
          constructor; auto.
          -- unfold nstates in *. simpl. lia.
          -- intros y Hy Hne. change (data s2 y <> []). apply T2; [rewrite Enst; exact Hy|]. rewrite Edata. exact Hne.
          -- intros y Hy. destruct (T3 y (Hhid1 y Hy)) as [h1 [h2 [h3 h4]]]. repeat split; auto.
          -- destruct T4 as [I1 I2 I3 I4 I5 I6 I7]. constructor; auto.
             ++ cbn [set_stack stack]. rewrite T5. apply (i_ne s HI).
             ++ intros q y Hp. destruct (I4 q y Hp) as [Hy1 Hy2]. split; [exact Hy1|]. intros He. destruct (Hy2 He) as [h1 [h2 [h3 h4]]]. repeat split; auto.
          -- cbn [set_stack stack]. rewrite T5. reflexivity.
      + assert (Es1 : stack sl = stack s) by reflexivity.
        destruct S2 as [T1 T2 T3 T4 T5 T6]. constructor; auto.
    - intros o s r s' HI E. rewrite gvisit_S in E. eapply run_ok; [exact IHv|exact IHg|apply Hg| |exact HI|exact E]. intros X. apply (Hf X o).
  Qed.

  (** Whether the state was pushed decides whether one is popped, and the stack underneath is kept. *)
  Lemma visit_stack : (forall o, never_empties (meth o)) -> (forall o, never_empties (gv o)) ->
    forall n o s r s', Inv s -> visit (Datatypes.S n) o s = Some (r, s') ->
    let s0 := set_over (over_del o (over s)) s in
    let s1 := match over_get o (over s) with Some x => if truthy s0 x then set_stack (x :: stack s0) s0 else s0 | None => s0 end in
    exists s2, body n (visit n) (gvisit n) o (add_log (Start o (top s1) (top s0)) s1) = Some (r, s2) /\
      states s' = states s2 /\ over s' = over s2 /\
      (match over_get o (over s) with
       | Some x => match data s x with [] => stack s' = stack s2 | _ => stack s' = stack s end
       | None => stack s' = stack s2
       end).
  Proof.
    intros Hm Hg n o s r s' HI E s0 s1. destruct (visit_ok false Hm Hg (fun X => match Bool.diff_false_true X with end) n) as [IHv IHg].
    rewrite visit_S in E. cbv zeta in E. pose proof (inv_pop s o HI) as HI1. cbv zeta in HI1. fold s0 in E, HI1. fold s1 in E, HI1.
    set (sl := add_log (Start o (top s1) (top s0)) s1) in *.
    destruct (body n (visit n) (gvisit n) o sl) as [[r2 s2]|] eqn:Eb; [|discriminate].
    pose proof (body_ok false n _ _ IHv IHg Hm (fun X => match Bool.diff_false_true X with end) o sl r2 s2 HI1 Eb) as S2.
    inversion E as [[Er Es]]. subst r2. exists s2. split; [reflexivity|].
    destruct (over_get o (over s)) as [x|] eqn:Eo; [|auto].
    destruct (i_over s HI o x Eo) as [Hx Hxh]. destruct (data s x) as [|p b] eqn:Ed.
    - assert (Hh1 : hid sl x).
      { destruct (Hxh eq_refl) as [h1 [h2 [h3 h4]]]. unfold hid, sl, s1. unfold truthy. change (data s0 x) with (data s x). rewrite Ed. auto. }
      destruct (t_hid _ _ _ S2 x Hh1) as [_ [Hd _]]. unfold truthy. rewrite Hd. auto.
    - assert (Etx : truthy s0 x = true) by (unfold truthy; change (data s0 x) with (data s x); rewrite Ed; reflexivity).
      assert (Es1 : stack sl = x :: stack s) by (unfold sl, s1; rewrite Etx; reflexivity).
      assert (Hne : data s2 x <> []).
      { apply (t_ne _ _ _ S2); unfold sl, s1; rewrite Etx; [exact Hx|]. change (data s x <> []). rewrite Ed. discriminate. }
      unfold truthy. destruct (data s2 x) eqn:E2; [congruence|]. cbn [set_stack states over stack]. rewrite (t_tl _ _ _ S2), Es1. auto.
  Qed.

  Lemma inv_start w b : Inv (start w b).
  Proof.
    constructor; simpl; auto; try discriminate.
    - intros x [<-|[]]. unfold nstates. simpl. lia.
    - intros x [].
  Qed.

  (** *** States out of reach keep their data *)
  Definition prot (y : nat) (s : st) : Prop :=
    y < nstates s /\ (forall o, over_get o (over s) <> Some y) /\ top s <> y.
  Definition vprot (y : nat) (vis : nat -> st -> option (res V * st)) : Prop :=
    forall o s r s', Inv s -> prot y s -> vis o s = Some (r, s') -> prot y s' /\ data s' y = data s y.

  Lemma register_over l n y : y <> n -> forall (s : st), (forall o, over_get o (over s) <> Some y) ->
    forall o, over_get o (over (fold_left (fun s x => register n (top s) x s) l s)) <> Some y.
  Proof.
    intros Hy. induction l as [|x l IH]; intros s Hs o; [apply Hs|]. cbn [fold_left]. apply IH. intros p. unfold register. cbn [add_log set_over over].
    rewrite over_set_get. destruct (Nat.eqb p x); [congruence|apply Hs].
  Qed.
  Lemma register_rest l n : forall (s : st),
    states (fold_left (fun s x => register n (top s) x s) l s) = states s /\ stack (fold_left (fun s x => register n (top s) x s) l s) = stack s.
  Proof. induction l as [|x l IH]; intros s; [auto|]. cbn [fold_left]. destruct (IH (register n (top s) x s)) as [A B]. rewrite A, B. auto. Qed.
  Lemma prot_registers y (s : st) bs l n s1 : prot y s -> new_state bs s = Some (n, s1) ->
    let s' := fold_left (fun s x => register n (top s) x s) l s1 in prot y s' /\ data s' y = data s y.
  Proof.
    intros [P1 [P2 P3]] E s'. unfold new_state in E. destruct (_ || _ || _); [discriminate|]. inversion E; subst n s1.
    destruct (register_rest l (List.length (states s)) (set_states (states s ++ [bupd (data s (top s)) bs]) s)) as [A B]. fold s' in A, B. simpl in A, B. split.
    - split; [|split].
      + unfold nstates. rewrite A, app_length. unfold nstates in P1. lia.
      + unfold s'. apply register_over; [unfold nstates in P1; lia|]. exact P2.
      + unfold top. rewrite B. exact P3.
    - unfold data. rewrite A. apply data_app, P1.
  Qed.

  Lemma run_prot y vis gvis : vok false vis -> vok false gvis -> vprot y vis -> vprot y gvis ->
    forall p, never_empties p -> no_handles p -> forall s r s', Inv s -> prot y s ->
    run list_of children none vis gvis p s = Some (r, s') -> prot y s' /\ data s' y = data s y.
  Proof.
    intros Hv Hg Pv Pg. induction p as [v|e|o k IH|o k IH|o bs k IH|o bs k IH|k IH|f k IH|i f k IH|i k IH|b k IH|v k IH|k IH|w k IH];
      intros Hn Hh s r s' HI HP E; cbn [run never_empties no_handles] in *; try contradiction.
    - inversion E; subst. auto.
    - inversion E; subst. auto.
    - destruct (vis o s) as [[r1 s1]|] eqn:Ev; [|discriminate]. destruct (Pv _ _ _ _ HI HP Ev) as [P1 D1]. rewrite <- D1.
      eapply IH; [apply Hn|apply Hh|apply (t_inv _ _ _ (Hv _ _ _ _ HI Ev))|exact P1|exact E].
    - destruct (gvis o s) as [[r1 s1]|] eqn:Ev; [|discriminate]. destruct (Pg _ _ _ _ HI HP Ev) as [P1 D1]. rewrite <- D1.
      eapply IH; [apply Hn|apply Hh|apply (t_inv _ _ _ (Hg _ _ _ _ HI Ev))|exact P1|exact E].
    - destruct (withstate list_of none o bs s) as [r1 s1] eqn:Ev. pose proof (withstate_step false _ _ _ _ _ HI Ev) as S1.
      assert (X : prot y s1 /\ data s1 y = data s y).
      { unfold withstate in Ev. destruct (new_state bs s) as [[n s2]|] eqn:En; [|inversion Ev; subst; auto].
        destruct (list_of (world s2) o) as [l|]; inversion Ev; subst; [eapply prot_registers; eassumption|apply (prot_registers y s bs [o] n s2 HP En)]. }
      destruct X as [P1 D1]. rewrite <- D1. eapply IH; [apply Hn|apply Hh|apply (t_inv _ _ _ S1)|exact P1|exact E].
    - destruct (generic_withstate children none o bs s) as [r1 s1] eqn:Ev. pose proof (generic_withstate_step false _ _ _ _ _ HI Ev) as S1.
      assert (X : prot y s1 /\ data s1 y = data s y).
      { unfold generic_withstate in Ev. destruct (new_state bs s) as [[n s2]|] eqn:En; inversion Ev; subst; auto. eapply prot_registers; eassumption. }
      destruct X as [P1 D1]. rewrite <- D1. eapply IH; [apply Hn|apply Hh|apply (t_inv _ _ _ S1)|exact P1|exact E].
    - assert (S1 : Step false s (set_seen (top s :: seen s) s)).
      { apply step_simple; auto. simpl. intros x [<-|Hx]; [right; apply top_In, HI|left; exact Hx]. }
      destruct (IH (top s) (data s (top s)) (Hn _ _) (Hh _ _) (set_seen (top s :: seen s) s) r s' (t_inv _ _ _ S1) HP E) as [A B]. auto.
    - destruct Hn as [Hn1 Hn2].
      assert (S1 : Step false s (set_states (set_nth (top s) (f (data s (top s))) (states s)) s)).
      { apply step_data; auto. apply touchable; auto. right. apply top_In, HI. }
      destruct HP as [P1 [P2 P3]].
      destruct (IH Hn2 Hh _ r s' (t_inv _ _ _ S1)) as [A B]; [|exact E|].
      + split; [|split; auto]. unfold nstates. simpl. rewrite set_nth_length. exact P1.
      + split; [exact A|]. rewrite B. unfold data at 1. simpl. apply nth_set_other. exact P3.
    - destruct HP as [P1 [P2 P3]]. destruct (IH Hn Hh _ r s' (t_inv _ _ _ (step_newstate s b HI))) as [A B]; [|exact E|].
      + split; [|split; auto]. { unfold nstates in *. simpl. rewrite app_length. lia. } unfold top, nstates in *. simpl. lia.
      + split; [exact A|]. rewrite B. unfold data at 1. simpl. apply data_app, P1.
    - assert (S1 : Step false s (mkSt (world s) (states s) (stack s) (over s) (collected s ++ [v]) (seen s) (log s))) by (apply step_simple; auto).
      exact (IH Hn Hh _ r s' (t_inv _ _ _ S1) HP E).
    - exact (IH _ (Hn _) (Hh _) s r s' HI HP E).
    - assert (S1 : Step false s (set_world w s)) by (apply step_simple; auto). exact (IH Hn Hh _ r s' (t_inv _ _ _ S1) HP E).
  Qed.

  Lemma loop_prot y vis : vok false vis -> vprot y vis -> forall m o i acc s r s', Inv s -> prot y s ->
    loop list_of vis m o i acc s = Some (r, s') -> prot y s' /\ data s' y = data s y.
  Proof.
    intros Hv Pv. induction m as [|m IH]; intros o i acc s r s' HI HP E; [discriminate|]. cbn [loop] in E.
    destruct (nth_error _ i) as [x|].
    - destruct (vis x s) as [[[v|e] s1]|] eqn:Ev; [| |discriminate].
      + destruct (Pv _ _ _ _ HI HP Ev) as [P1 D1]. rewrite <- D1. eapply IH; [apply (t_inv _ _ _ (Hv _ _ _ _ HI Ev))|exact P1|exact E].
      + inversion E; subst. apply (Pv _ _ _ _ HI HP Ev).
    - inversion E; subst. auto.
  Qed.

  Lemma body_prot y n vis gvis : vok false vis -> vok false gvis -> vprot y vis -> vprot y gvis ->
    (forall o, never_empties (meth o)) -> (forall o, no_handles (meth o)) ->
    forall o s r s', Inv s -> prot y s -> body n vis gvis o s = Some (r, s') -> prot y s' /\ data s' y = data s y.
  Proof.
    intros Hv Hg Pv Pg Hn Hh o s r s' HI HP E. unfold WalkerModel.body in E. destruct (list_of (world s) o).
    - destruct (loop list_of vis n o 0 [] s) as [[[vs|e] s1]|] eqn:El; [| |discriminate].
      + destruct (loop_prot y vis Hv Pv _ _ _ _ _ _ _ HI HP El) as [P1 D1]. destruct transformer; inversion E; subst; auto.
      + inversion E; subst. apply (loop_prot y vis Hv Pv _ _ _ _ _ _ _ HI HP El).
    - exact (run_prot y vis gvis Hv Hg Pv Pg (meth o) (Hn o) (Hh o) s r s' HI HP E).
  Qed.

  Hypothesis Hm : forall o, never_empties (meth o).
  Hypothesis Hgv : forall o, never_empties (gv o).
  Hypothesis Hmh : forall o, no_handles (meth o).
  Hypothesis Hgh : forall o, no_handles (gv o).

  (** One visit: [y] is out of reach once the registered state, if any, is in place. *)
  Lemma visit_body_prot y n : vprot y (visit n) -> vprot y (gvisit n) ->
    forall o s r s', Inv s -> y < nstates s -> (forall p, p <> o -> over_get p (over s) <> Some y) ->
    (match over_get o (over s) with Some x => x <> y /\ (data s x = [] -> top s <> y) | None => top s <> y end) ->
    visit (Datatypes.S n) o s = Some (r, s') ->
    data s' y = data s y /\ (forall p, over_get p (over s') <> Some y) /\ y < nstates s' /\ (top s <> y -> top s' <> y).
  Proof.
    intros Pv Pg o s r s' HI Hy Ho Ht E. destruct (visit_ok false Hm Hgv (fun X => match Bool.diff_false_true X with end) n) as [Hv Hg].
    destruct (visit_stack Hm Hgv n o s r s' HI E) as [s2 [Eb [Es [Eov Est]]]].
    pose proof (inv_pop s o HI) as HI1. cbv zeta in HI1.
    set (s0 := set_over (over_del o (over s)) s) in *.
    set (s1 := match over_get o (over s) with Some x => if truthy s0 x then set_stack (x :: stack s0) s0 else s0 | None => s0 end) in *.
    set (sl := add_log (Start o (top s1) (top s0)) s1) in *.
    assert (HP : prot y sl).
    { split; [|split].
      - unfold sl, s1, nstates. destruct (over_get o (over s)) as [x|]; [destruct (truthy s0 x)|]; exact Hy.
      - intros p. assert (Eo : over sl = over_del o (over s)) by (unfold sl, s1; destruct (over_get o (over s)) as [x|]; [destruct (truthy s0 x)|]; reflexivity).
        rewrite Eo, over_del_get. destruct (Nat.eqb o p) eqn:Ep; [discriminate|]. apply Ho. intros ->. rewrite Nat.eqb_refl in Ep. discriminate.
      - unfold sl, s1. destruct (over_get o (over s)) as [x|]; [|exact Ht]. destruct Ht as [Ht1 Ht2].
        unfold truthy. change (data s0 x) with (data s x). destruct (data s x); [apply Ht2; reflexivity|exact Ht1]. }
    destruct (body_prot y n _ _ Hv Hg Pv Pg Hm Hmh o sl r s2 HI1 HP Eb) as [[P1 [P2 P3]] D].
    assert (D1 : data sl y = data s y).
    { unfold sl, s1. destruct (over_get o (over s)) as [x|]; [destruct (truthy s0 x)|]; reflexivity. }
    rewrite <- D1, <- D. unfold data, nstates. rewrite Es, Eov. split; [reflexivity|]. split; [exact P2|]. split; [exact P1|].
    intros Hts. unfold top in *. destruct (over_get o (over s)) as [x|]; [|rewrite Est; exact P3].
    destruct (data s x); rewrite Est; assumption.
  Qed.

  Lemma visit_prot y n : vprot y (visit n) /\ vprot y (gvisit n).
  Proof.
    induction n as [|n [IHv IHg]]; [split; intros o s r s' _ _ E; discriminate|].
    destruct (visit_ok false Hm Hgv (fun X => match Bool.diff_false_true X with end) n) as [Hv Hg].
    split.
    - intros o s r s' HI [P1 [P2 P3]] E.
      destruct (visit_body_prot y n IHv IHg o s r s' HI P1) as [D [D2 [D3 D4]]]; [intros p _; apply P2| |exact E|].
      + destruct (over_get o (over s)) as [x|] eqn:Eo; [|exact P3]. split; [|auto]. intros ->. apply (P2 o Eo).
      + split; [|exact D]. split; [exact D3|]. split; [exact D2|]. apply D4, P3.
    - intros o s r s' HI HP E. rewrite gvisit_S in E. exact (run_prot y _ _ Hv Hg IHv IHg (gv o) (Hgv o) (Hgh o) s r s' HI HP E).
  Qed.
End P.
