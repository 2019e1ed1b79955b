(** Theorems about global postprocessors. *)
From Verif Require Import Base PostModel.

Section Spec.
  Context {F : Type}.
  (** Added, and not removed since. *)
  Definition registered (f : F) (l : list rop) : Prop := exists a c, l = a ++ Add f :: c /\ ~ In (Remove f) c.
  (** The [i]-th call is the one that registered [f]: an addition of [f] when it was not registered, and not removed since. *)
  Definition registered_at (l : list rop) (i : nat) (f : F) : Prop :=
    exists a c, l = a ++ Add f :: c /\ length a = i /\ ~ In (Remove f) c /\ ~ registered f a.
  (** The positions increase. *)
  Fixpoint increasing (l : list nat) : Prop := match l with [] => True | i :: r => Forall (fun j => i < j) r /\ increasing r end.

  (** Running hooks one after the other, each on the result of the one before. *)
  Context {T U : Type}.
  Variable call : F -> T -> @pst F U -> res T * @pst F U.
  Inductive chain : list F -> T -> pst -> res T -> pst -> Prop :=
  | ch_nil t s : chain [] t s (Ok t) s
  | ch_cons f r t s t1 s1 t' s' : call f t s = (Ok t1, s1) -> chain r t1 s1 t' s' -> chain (f :: r) t s t' s'
  | ch_raise f r t s e s1 : call f t s = (Err e, s1) -> chain (f :: r) t s (Err e) s1.
End Spec.

Section Proofs.
  Context {F : Type}.
  Variable feq : F -> F -> bool.
  Hypothesis feq_spec : forall x y, reflect (x = y) (feq x y).

  Lemma existsb_in f reg : existsb (feq f) reg = true <-> In f reg.
  Proof.
    rewrite existsb_exists. split.
    - intros [x [Hx He]]. destruct (feq_spec f x) as [->|]; [exact Hx|discriminate].
    - intros H. exists f. split; [exact H|]. destruct (feq_spec f f); congruence.
  Qed.
  Lemma registered_app (f : F) l o : registered f (l ++ [o]) <-> (o = Add f \/ registered f l /\ o <> Remove f).
  Proof.
    split.
    - intros [a [c [Heq Hn]]]. destruct c as [|x c _] using rev_ind.
      + apply app_inj_tail in Heq. destruct Heq as [-> ->]. auto.
      + rewrite app_comm_cons, app_assoc in Heq. apply app_inj_tail in Heq. destruct Heq as [-> ->]. right. split.
        * exists a, c. split; [reflexivity|]. intros H. apply Hn. apply in_app_iff. auto.
        * intros ->. apply Hn. apply in_app_iff. right. left. reflexivity.
    - intros [->|[[a [c [-> Hn]]] Ho]].
      + exists l, []. auto.
      + exists a, (c ++ [o]). split; [rewrite <- app_assoc; reflexivity|]. rewrite in_app_iff. intros [H|[H|[]]]; auto.
  Qed.
  Lemma registered_at_app l o i (f : F) : registered_at (l ++ [o]) i f <-> (registered_at l i f /\ o <> Remove f) \/ (i = length l /\ o = Add f /\ ~ registered f l).
  Proof.
    split.
    - intros [a [c [Heq [Hl [Hn Hr]]]]]. destruct c as [|x c _] using rev_ind.
      + apply app_inj_tail in Heq. destruct Heq as [-> ->]. auto.
      + rewrite app_comm_cons, app_assoc in Heq. apply app_inj_tail in Heq. destruct Heq as [-> ->]. left. split.
        * exists a, c. repeat split; auto. intros H. apply Hn. apply in_app_iff. auto.
        * intros ->. apply Hn. apply in_app_iff. right. left. reflexivity.
    - intros [[[a [c [-> [Hl [Hn Hr]]]]] Ho]|[-> [-> Hr]]].
      + exists a, (c ++ [o]). repeat split; auto; [rewrite <- app_assoc; reflexivity|]. rewrite in_app_iff. intros [H|[H|[]]]; auto.
      + exists l, []. auto.
  Qed.
  Lemma registered_at_lt l i (f : F) : registered_at l i f -> i < length l.
  Proof. intros [a [c [-> [<- _]]]]. rewrite app_length. cbn. lia. Qed.
  Lemma increasing_snoc l i : increasing l -> Forall (fun j => j < i) l -> increasing (l ++ [i]).
  Proof.
    induction l as [|j l IH]; intros H HF; cbn in *; [auto|]. destruct H as [H1 H2]. inversion HF; subst. split; [|apply IH; assumption]. apply Forall_app. auto.
  Qed.
  Lemma list_remove_skip f reg : ~ In f reg -> list_remove feq f reg = reg.
  Proof. induction reg as [|g reg IH]; intros H; [reflexivity|]. cbn. destruct (feq_spec f g) as [->|]; [exfalso; apply H; left; reflexivity|]. f_equal. apply IH. intros Hi. apply H. right. exact Hi. Qed.
  Lemma remove_in f g reg : NoDup reg -> (In g (list_remove feq f reg) <-> In g reg /\ g <> f).
  Proof.
    induction reg as [|h reg IH]; intros Hd; cbn; [tauto|]. inversion Hd; subst. destruct (feq_spec f h) as [->|Hne].
    - split; [|intros [[->|H] Hg]; [congruence|exact H]]. intros H. split; [auto|]. intros ->. contradiction.
    - cbn. rewrite (IH ltac:(assumption)). split; [intros [->|[H Hg]]; auto|intros [[->|H] Hg]; auto].
  Qed.
  Lemma remove_positions f reg ps l : Forall2 (registered_at l) ps reg -> increasing ps -> NoDup reg ->
    exists ps', Forall2 (registered_at (l ++ [Remove f])) ps' (list_remove feq f reg) /\ increasing ps' /\ (forall j, In j ps' -> In j ps).
  Proof.
    intros HF. induction HF as [|p g ps reg Hp HF IH]; intros Hi Hd; cbn [list_remove].
    - exists []. repeat split; auto.
    - inversion Hd; subst. destruct Hi as [Hi1 Hi2]. destruct (feq_spec f g) as [->|Hne].
      + exists ps. split; [|split; [exact Hi2|intros j Hj; right; exact Hj]].
        assert (Hng : ~ In g reg) by assumption. clear - HF Hng. induction HF as [|p h ps reg Hp HF IH]; [constructor|]. constructor.
        * apply registered_at_app. left. split; [exact Hp|]. intros He. inversion He; subst. apply Hng. left. reflexivity.
        * apply IH. intros H. apply Hng. right. exact H.
      + destruct (IH Hi2 ltac:(assumption)) as [ps' [K1 [K2 K3]]]. exists (p :: ps'). split; [constructor; [|exact K1]|].
        * apply registered_at_app. left. split; [exact Hp|congruence].
        * split; [cbn; split; [|exact K2]|].
          -- apply Forall_forall. intros j Hj. rewrite Forall_forall in Hi1. apply Hi1, K3, Hj.
          -- intros j [->|Hj]; [left; reflexivity|right; apply K3, Hj].
  Qed.
  Lemma remove_nodup f reg : NoDup reg -> NoDup (list_remove feq f reg).
  Proof.
    induction reg as [|g reg IH]; intros H; cbn; [constructor|]. inversion H; subst. destruct (feq f g); [assumption|]. constructor; [|apply IH; assumption]. rewrite remove_in by assumption. tauto.
  Qed.
  Lemma Forall2_weaken {A B} (R R' : A -> B -> Prop) (a : list A) (b : list B) : (forall x y, R x y -> R' x y) -> Forall2 R a b -> Forall2 R' a b.
  Proof. intros H HF. induction HF; constructor; auto. Qed.
  Lemma ops_spec l : let reg := do_ops feq l [] in
    NoDup reg /\ (forall f, In f reg <-> registered f l) /\ exists ps, Forall2 (registered_at l) ps reg /\ increasing ps.
  Proof.
    induction l as [|o l IH] using rev_ind; cbv zeta.
    - split; [constructor|]. split; [|exists []; split; [constructor|exact I]]. intros f. split; [intros []|]. intros [a [c [H _]]]. destruct a; discriminate.
    - unfold do_ops in *. rewrite fold_left_app. cbn [fold_left]. set (reg := fold_left _ l []) in *. cbv zeta in IH. destruct IH as [Hd [Hin [ps [HF Hi]]]].
      destruct o as [f|f]; cbn [do_op].
      + unfold add_postprocessor. destruct (existsb (feq f) reg) eqn:Ee.
        * apply existsb_in in Ee. split; [exact Hd|]. split.
          -- intros g. rewrite registered_app, Hin. split; [intros H; right; split; [exact H|discriminate]|]. intros [H|[H _]]; [inversion H; subst; apply Hin, Ee|exact H].
          -- exists ps. split; [|exact Hi]. eapply Forall2_weaken; [|exact HF]. intros i g Hg. apply registered_at_app. left. split; [exact Hg|discriminate].
        * assert (Hnf : ~ In f reg) by (intros H; apply existsb_in in H; congruence). split.
          -- apply NoDup_rev in Hd. rewrite <- (rev_involutive (reg ++ [f])). apply NoDup_rev. rewrite rev_app_distr. cbn. constructor; [rewrite <- in_rev; exact Hnf|exact Hd].
          -- split.
             ++ intros g. rewrite registered_app, in_app_iff, Hin. split.
                ** intros [H|[->|[]]]; [right; split; [exact H|discriminate]|left; reflexivity].
                ** intros [H|[H _]]; [inversion H; subst; right; left; reflexivity|left; exact H].
             ++ exists (ps ++ [length l]). split.
                ** apply Forall2_app; [|constructor; [|constructor]].
                   --- eapply Forall2_weaken; [|exact HF]. intros i g Hg. apply registered_at_app. left. split; [exact Hg|discriminate].
                   --- apply registered_at_app. right. repeat split; auto. intros H. apply Hnf, Hin, H.
                ** apply increasing_snoc; [exact Hi|]. clear - HF. induction HF as [|i g ps reg Hg HF IH]; constructor; [eapply registered_at_lt; exact Hg|exact IH].
      + unfold remove_postprocessor.
        assert (HR : (if existsb (feq f) reg then list_remove feq f reg else reg) = list_remove feq f reg).
        { destruct (existsb (feq f) reg) eqn:Ee; [reflexivity|]. symmetry. apply list_remove_skip. intros H. apply existsb_in in H. congruence. }
        rewrite HR. split; [apply remove_nodup, Hd|]. split.
        * intros g. rewrite remove_in by exact Hd. rewrite registered_app, Hin. split; [intros [H Hg]; right; split; [exact H|congruence]|]. intros [H|[H Hg]]; [discriminate|]. split; [exact H|congruence].
        * destruct (remove_positions f reg ps l HF Hi Hd) as [ps' [H1 [H2 _]]]. exists ps'. auto.
  Qed.
End Proofs.

(** C29. After any sequence of additions and removals the registry holds exactly the functions added and not removed since,
    each once, in the order of the calls that registered them. *)
Theorem C29_registry : forall F (feq : F -> F -> bool), (forall x y, reflect (x = y) (feq x y)) -> forall l,
  let reg := do_ops feq l [] in
  NoDup reg /\ (forall f, In f reg <-> registered f l) /\ exists ps, Forall2 (registered_at l) ps reg /\ increasing ps.
Proof. intros F feq H l. apply ops_spec, H. Qed.
Print Assumptions C29_registry.

Section Run.
  Context {F T U : Type}.
  Variable call : F -> T -> @pst F U -> res T * @pst F U.
  Variable prepare : T -> res T.
  Lemma run_hooks_chain reg : (forall f t s r s', In f reg -> p_reg s = reg -> call f t s = (r, s') -> p_reg s' = reg) ->
    forall after before t s, reg = before ++ after -> p_reg s = reg ->
    forall n, length after < n -> exists r s', run_hooks call n (length before) t s = Some (r, s') /\ chain call after t s r s'.
  Proof.
    intros Hk. induction after as [|f after IH]; intros before t s Hr Hs n Hn; (destruct n as [|n]; [lia|]); cbn [run_hooks].
    - replace (nth_error (p_reg s) (length before)) with (@None F); [eexists _, _; split; [reflexivity|constructor]|]. symmetry. apply nth_error_None. rewrite Hs, Hr, app_nil_r. lia.
    - replace (nth_error (p_reg s) (length before)) with (Some f).
      + destruct (call f t s) as [[t1|e] s1] eqn:Ec.
        * assert (Hs1 : p_reg s1 = reg) by (eapply Hk; [|exact Hs|exact Ec]; rewrite Hr; apply in_app_iff; right; left; reflexivity).
          destruct (IH (before ++ [f]) t1 s1) with (n := n) as [r [s' [H1 H2]]]; auto; [rewrite <- app_assoc; exact Hr|cbn in Hn; lia|]. rewrite app_length, Nat.add_1_r in H1. exists r, s'. split; [exact H1|]. econstructor; eassumption.
        * eexists _, _. split; [reflexivity|]. constructor. exact Ec.
      + rewrite Hs, Hr. rewrite nth_error_app2, Nat.sub_diag by lia. reflexivity.
  Qed.
End Run.

(** C29. global_postprocess returns, and runs exactly the registered hooks, each once, in their order, each on the output of the
    one before, up to the first that raises - for hooks that do not themselves register or remove hooks. *)
Theorem C29_hooks_run_in_order_partial : forall F T U (call : F -> T -> @pst F U -> res T * @pst F U) prepare t t0 s,
  (forall f t s' r s'', In f (p_reg s) -> p_reg s' = p_reg s -> call f t s' = (r, s'') -> p_reg s'' = p_reg s) ->
  prepare t = Ok t0 ->
  forall n, length (p_reg s) < n -> exists r s', global_postprocess call prepare n t s = Some (r, s') /\ chain call (p_reg s) t0 s r s'.
Proof.
  intros F T U call prepare t t0 s Hk Hp n Hn. unfold global_postprocess. rewrite Hp. exact (run_hooks_chain call (p_reg s) Hk (p_reg s) [] t0 s eq_refl eq_refl n Hn).
Qed.
Print Assumptions C29_hooks_run_in_order_partial.
(** If deleting the markers or correcting the contexts fails, that exception is raised, and no hook runs. *)
Theorem C29_no_hook_after_error : forall F T U (call : F -> T -> @pst F U -> res T * @pst F U) prepare t e s n,
  prepare t = Err e -> global_postprocess call prepare n t s = Some (Err e, s).
Proof. intros F T U call prepare t e s n H. unfold global_postprocess. rewrite H. reflexivity. Qed.
Print Assumptions C29_no_hook_after_error.

(** C29, false in general: a hook that removes itself while it runs makes global_postprocess skip the next one. Hooks: 1 removes
    itself, others add their number to the list which is the tree. *)
Definition self_removing (f : nat) (t : list nat) (s : @pst nat unit) : res (list nat) * @pst nat unit :=
  if Nat.eqb f 1 then (Ok (t ++ [1]), mkPst (remove_postprocessor Nat.eqb 1 (p_reg s)) tt) else (Ok (t ++ [f]), s).
Theorem C29_self_removing_hook_refuted : exists ops : list (@rop nat), let reg := do_ops Nat.eqb ops [] in
  In 2 reg /\ ~ In (Remove 2) ops /\ exists s', global_postprocess self_removing (@Ok _) 10 [] (mkPst reg tt) = Some (Ok [1; 3], s').
Proof.
  exists [Add 1; Add 2; Add 3]. cbv zeta. split; [cbn; tauto|]. split; [intros [H|[H|[H|[]]]]; discriminate|]. eexists. vm_compute. reflexivity.
Qed.
Print Assumptions C29_self_removing_hook_refuted.

(** Duplicates and removals: 1, 2, 1 again, remove 5 (absent), remove 1, 3, 1. *)
Definition ex_ops : list (@rop nat) := [Add 1; Add 2; Add 1; Remove 5; Remove 1; Add 3; Add 1].
Definition ex_call (f : nat) (t : list nat) (s : @pst nat unit) : res (list nat) * @pst nat unit := (Ok (t ++ [f]), s).
Example C29_example : do_ops Nat.eqb ex_ops [] = [2; 3; 1] /\ registered_at ex_ops 6 1 /\
  exists s', global_postprocess ex_call (@Ok _) 4 [] (mkPst (do_ops Nat.eqb ex_ops []) tt) = Some (Ok [2; 3; 1], s').
Proof.
  split; [reflexivity|]. split; [|eexists; reflexivity]. exists [Add 1; Add 2; Add 1; Remove 5; Remove 1; Add 3], []. repeat split; auto.
  intros H. apply (proj1 (proj2 (C29_registry nat Nat.eqb Nat.eqb_spec _))) in H. vm_compute in H. destruct H as [H|[H|[]]]; discriminate.
Qed.
