From Coq Require Import Permutation.
From Verif Require Import Base AstLib HeapAst CtxModel CtxSpec CtxProofs CtxProofs2.

(** ** Overrides set up by a node *)
Lemma fold_put_get keys c ov u :
  ov_get u (fold_left (fun ov u => ov_put u c ov) keys ov)
  = if existsb (val_eqb u) keys then Some c else ov_get u ov.
Proof.
  revert ov. induction keys as [|w keys IH]; intros ov; [reflexivity|]. simpl. rewrite IH, ov_get_put.
  destruct (existsb (val_eqb u) keys); [rewrite orb_true_r; reflexivity|]. rewrite orb_false_r. reflexivity.
Qed.

Lemma withstate_get v c s i :
  w_heap (withstate v c s) = w_heap s /\ w_seen (withstate v c s) = w_seen s /\
  ((direct (w_heap s) v i /\ ovg (w_ov (withstate v c s)) i = Some c) \/
   (~ direct (w_heap s) v i /\ ovg (w_ov (withstate v c s)) i = ovg (w_ov s) i)).
Proof.
  split; [reflexivity|]. split; [reflexivity|]. unfold withstate. cbn [w_ov]. rewrite fold_put_get.
  destruct v as [j|a].
  - destruct (h_obj (w_heap s) j) as [[k fs|l]|] eqn:E.
    + simpl. rewrite orb_false_r. destruct (Nat.eqb i j) eqn:Ei.
      * apply Nat.eqb_eq in Ei. subst j. left. split; [|reflexivity]. left. split; [reflexivity|]. congruence.
      * right. split; [|reflexivity]. intros [[H _]|[j' [l [H [Ho _]]]]]; inversion H; subst.
        -- rewrite Nat.eqb_refl in Ei; discriminate.
        -- congruence.
    + destruct (existsb (val_eqb (VRef i)) l) eqn:Ei.
      * left. split; [|reflexivity]. right. exists j, l. split; [reflexivity|]. split; [exact E|].
        apply existsb_exists in Ei. destruct Ei as [x [Hx Hex]]. apply val_eqb_eq in Hex. subst x. exact Hx.
      * right. split; [|reflexivity]. intros [[H Hn]|[j' [l' [H [Ho Hx]]]]]; inversion H; subst.
        -- exact (Hn _ E).
        -- rewrite E in Ho. inversion Ho; subst.
           assert (existsb (val_eqb (VRef i)) l' = true)
             by (apply existsb_exists; exists (VRef i); split; [exact Hx|apply val_eqb_eq; reflexivity]).
           congruence.
    + simpl. rewrite orb_false_r. destruct (Nat.eqb i j) eqn:Ei.
      * apply Nat.eqb_eq in Ei. subst j. left. split; [|reflexivity]. left. split; [reflexivity|]. congruence.
      * right. split; [|reflexivity]. intros [[H _]|[j' [l [H [Ho _]]]]]; inversion H; subst.
        -- rewrite Nat.eqb_refl in Ei; discriminate.
        -- congruence.
  - simpl. right. split; [|reflexivity]. intros [[H _]|[j' [l [H _]]]]; discriminate.
Qed.

Lemma run_setup_ov calls fs : forall s,
  (forall f c g, In (f, c, g) calls -> exists v, vget f fs = Some v) ->
  exists ov', run_setup calls fs s = Ok (mkWst (w_heap s) ov' (w_seen s)) /\
    forall i,
      (ovg ov' i = ovg (w_ov s) i /\
       forall f c g v, In (f, c, g) calls -> vget f fs = Some v -> ~ direct (w_heap s) v i) \/
      (exists f c g v, In (f, c, g) calls /\ vget f fs = Some v /\ direct (w_heap s) v i /\ ovg ov' i = Some c).
Proof.
  induction calls as [|[[f c] g] r IH]; intros s Hf.
  - exists (w_ov s). split; [destruct s; reflexivity|]. intros i. left. split; [reflexivity|]. intros ? ? ? ? [].
  - destruct (Hf f c g (or_introl eq_refl)) as [v Hv]. cbn [run_setup]. rewrite Hv.
    set (s1 := if g && negb (truthy v) then s else withstate v c s).
    destruct (IH s1) as [ov' [E Hov]]; [intros f' c' g' Hin; apply (Hf f' c' g'); right; exact Hin|].
    assert (Hh : w_heap s1 = w_heap s) by (unfold s1; destruct (g && negb (truthy v)); reflexivity).
    assert (Hs : w_seen s1 = w_seen s) by (unfold s1; destruct (g && negb (truthy v)); reflexivity).
    rewrite Hh, Hs in E. exists ov'. split; [exact E|]. intros i.
    rewrite Hh in Hov.
    assert (Hi : (direct (w_heap s) v i /\ ovg (w_ov s1) i = Some c) \/
                 (~ direct (w_heap s) v i /\ ovg (w_ov s1) i = ovg (w_ov s) i)).
    { unfold s1. destruct (g && negb (truthy v)) eqn:G.
      - right. split; [|reflexivity]. apply andb_true_iff in G. destruct G as [_ G].
        destruct v as [j|[]]; try discriminate. intros [[H _]|[j' [l [H _]]]]; discriminate.
      - apply (withstate_get v c s i). }
    destruct (Hov i) as [[H1 H2]|[f' [c' [g' [v' [H1 [H2 [H3 H4]]]]]]]].
    + destruct Hi as [[Hd Hi]|[Hd Hi]].
      * right. exists f, c, g, v. rewrite H1, Hi. simpl; auto.
      * left. split; [congruence|]. intros f' c' g' v' [Hin|Hin] Hv'.
        -- inversion Hin; subst. rewrite Hv in Hv'. inversion Hv'; subst. exact Hd.
        -- exact (H2 f' c' g' v' Hin Hv').
    + right. exists f', c', g', v'. simpl; auto.
Qed.

(** ** Slots and fields *)
Lemma se_direct h c vs ts sl i : se h c vs ts sl -> In (VRef i) vs -> exists s, In s sl /\ s_v s = VRef i /\ s_c s = c.
Proof.
  induction 1 as [|a vs ts sl H IH|v t vs ts F S sl Hr H IH]; intros Hin.
  - destruct Hin.
  - destruct Hin as [Hin|Hin]; [discriminate|auto].
  - destruct Hin as [Hin|Hin].
    + subst v. eexists. split; [left; reflexivity|]. split; reflexivity.
    + destruct (IH Hin) as [s [A B]]. exists s. split; [right; exact A|exact B].
Qed.
Lemma sf_direct h k c fs gs js sl f v i : sf h k c fs gs js sl -> In (f, v) fs -> direct h v i ->
  exists s, In s sl /\ s_v s = VRef i /\ s_c s = demand k f c.
Proof.
  induction 1 as [|f' a fs gs js sl H IH|f' v' t fs gs F S js sl Hr H IH|f' j vs ts fs gs js sl1 sl2 Ho He H IH];
    intros Hin Hd.
  - destruct Hin.
  - destruct Hin as [Hin|Hin]; [|auto]. inversion Hin; subst. destruct Hd as [[E _]|[j [l [E _]]]]; discriminate.
  - destruct Hin as [Hin|Hin].
    + inversion Hin; subst. eexists. split; [left; reflexivity|]. split; [|reflexivity].
      destruct Hd as [[E _]|[j [l [E [Hl _]]]]]; [exact E|]. exfalso. exact (rep_not_list _ _ _ _ _ _ _ _ Hr E Hl).
    + destruct (IH Hin Hd) as [s [A B]]. exists s. split; [right; exact A|exact B].
  - destruct Hin as [Hin|Hin].
    + inversion Hin; subst. destruct Hd as [[E Hn]|[j' [l [E [Hl Hx]]]]].
      * inversion E; subst. exfalso. exact (Hn _ Ho).
      * inversion E; subst j'. rewrite Ho in Hl. inversion Hl; subst.
        destruct (se_direct _ _ _ _ _ _ He Hx) as [s [A B]]. exists s. split; [apply in_or_app; auto|exact B].
    + destruct (IH Hin Hd) as [s [A B]]. exists s. split; [apply in_or_app; auto|exact B].
Qed.

Lemma se_in h c vs ts sl s : se h c vs ts sl -> In s sl ->
  s_c s = c /\ In (s_v s) vs /\ In (s_t s) ts /\ rep h c (s_v s) (s_t s) (s_F s) (s_S s).
Proof.
  induction 1 as [|a vs ts sl H IH|v t vs ts F S sl Hr H IH]; intros Hin.
  - destruct Hin.
  - destruct (IH Hin) as [A [B [C D]]]. simpl; auto.
  - destruct Hin as [Hin|Hin]; [subst s; simpl; auto|]. destruct (IH Hin) as [A [B [C D]]]. simpl; auto.
Qed.
Lemma sf_in h k c fs gs js sl s : sf h k c fs gs js sl -> In s sl ->
  exists f v i, In (f, v) fs /\ s_v s = VRef i /\ direct h v i /\ s_c s = demand k f c /\
    rep h (s_c s) (s_v s) (s_t s) (s_F s) (s_S s) /\
    (In (f, s_t s) gs \/ exists ts, In (f, Ls ts) gs /\ In (s_t s) ts).
Proof.
  induction 1 as [|f' a fs gs js sl H IH|f' v' t fs gs F S js sl Hr H IH|f' j vs ts fs gs js sl1 sl2 Ho He H IH];
    intros Hin.
  - destruct Hin.
  - destruct (IH Hin) as [f [v [i [A [B [C [D [E G]]]]]]]]. exists f, v, i. simpl.
    repeat split; auto. destruct G as [G|[ts [G1 G2]]]; [auto|right; exists ts; auto].
  - destruct Hin as [Hin|Hin].
    + subst s. destruct (rep_root _ _ _ _ _ _ Hr) as [i [E _]]. exists f', v', i. simpl. repeat split; auto.
      left. split; [exact E|]. intros l. apply (rep_not_list _ _ _ _ _ _ _ l Hr E).
    + destruct (IH Hin) as [f [v [i [A [B [C [D [E G]]]]]]]]. exists f, v, i. simpl.
      repeat split; auto. destruct G as [G|[ts [G1 G2]]]; [auto|right; exists ts; auto].
  - apply in_app_or in Hin. destruct Hin as [Hin|Hin].
    + destruct (se_in _ _ _ _ _ _ He Hin) as [A [B [C D]]].
      destruct (rep_root _ _ _ _ _ _ D) as [i [E _]].
      exists f', (VRef j), i. rewrite A. simpl. repeat split; auto.
      * right. exists j, vs. rewrite <- E. auto.
      * right. exists ts; auto.
    + destruct (IH Hin) as [f [v [i [A [B [C [D [E G]]]]]]]]. exists f, v, i. simpl.
      repeat split; auto. destruct G as [G|[ts' [G1 G2]]]; [auto|right; exists ts'; auto].
Qed.

Lemma slot_unique (sl : list slot) s s' i :
  NoDup (flat_map s_F sl) -> In s sl -> In s' sl -> In i (s_F s) -> In i (s_F s') -> s = s'.
Proof.
  induction sl as [|x sl IH]; intros Hn H1 H2 H3 H4; [destruct H1|]. simpl in Hn.
  assert (Hd : In i (s_F x) -> ~ In i (flat_map s_F sl)).
  { intros Ha Hb. clear - Hn Ha Hb. induction (s_F x) as [|y l IHl]; [destruct Ha|]. simpl in Hn.
    inversion Hn; subst. destruct Ha as [Ha|Ha]; [subst; apply H1; apply in_or_app; auto|auto]. }
  assert (Hn' : NoDup (flat_map s_F sl)).
  { clear - Hn. induction (s_F x) as [|y l IHl]; [exact Hn|]. inversion Hn; auto. }
  destruct H1 as [H1|H1], H2 as [H2|H2]; subst.
  - reflexivity.
  - exfalso. apply Hd; [exact H3|]. apply in_flat_map. eauto.
  - exfalso. apply Hd; [exact H4|]. apply in_flat_map. eauto.
  - auto.
Qed.

(** ** Overrides that suit all children *)
Record ready (cur : string) (ov : list (val * string)) (sl : list slot) : Prop := mkReady {
  r_nd : NoDup (flat_map s_F sl);
  r_FS : forall i, slotF sl i -> ~ slotS sl i;
  r_F : forall s i, In s sl -> In i (s_F s) -> s_v s <> VRef i -> ovg ov i = None;
  r_S : forall s x e, In s sl -> In (x, e) (s_S s) -> ovg ov x = None \/ ovg ov x = Some e;
  r_rootF : forall s i, In s sl -> s_v s = VRef i -> In i (s_F s) -> eff cur ov i = s_c s;
  r_rootS : forall s x, In s sl -> s_v s = VRef x -> In (x, s_c s) (s_S s) ->
     s_c s = cur \/ (ovg ov x = Some (s_c s) /\
                     List.length (filter (fun p => Nat.eqb x (fst p)) (flat_map s_S sl)) = 1) }.

Definition slot_ok (s : slot) : Prop :=
  bare (s_t s) = true \/ exists i, s_v s = VRef i /\ (In i (s_F s) \/ In (i, s_c s) (s_S s)).

Lemma rep_slot_ok h s : rep h (s_c s) (s_v s) (s_t s) (s_F s) (s_S s) -> slot_ok s.
Proof.
  destruct s as [v t c F S]; simpl. intros H. inversion H; subst; unfold slot_ok; simpl.
  - left. rewrite H1. reflexivity.
  - right. eexists. split; [reflexivity|]. right; left; reflexivity.
  - right. eexists. split; [reflexivity|]. left; left; reflexivity.
Qed.

Lemma ready_good cur sl : forall ov, Forall slot_ok sl -> ready cur ov sl -> good cur ov sl.
Proof.
  induction sl as [|s r IH]; intros ov Hok R; [exact I|]. inversion Hok; subst. split.
  - repeat split.
    + intros i Hv Hb. destruct H1 as [Hbare|[i' [Hv' Hi]]]; [congruence|].
      rewrite Hv in Hv'. inversion Hv'; subst i'.
      destruct Hi as [Hi|Hi]; [apply (r_rootF _ _ _ R s i); simpl; auto|].
      destruct (r_rootS _ _ _ R s i (or_introl eq_refl) Hv Hi) as [E|[E _]].
      * unfold eff. destruct (r_S _ _ _ R s i (s_c s) (or_introl eq_refl) Hi) as [H|H]; rewrite H; congruence.
      * unfold eff. rewrite E. reflexivity.
    + intros i Hi Hv. apply (r_F _ _ _ R s i); simpl; auto.
    + intros x e Hx. apply (r_S _ _ _ R s x e); simpl; auto.
  - intros ov' [Hp1 Hp2]. apply IH; [assumption|]. constructor.
    + pose proof (r_nd _ _ _ R) as Hn. simpl in Hn. clear - Hn. induction (s_F s) as [|y l IHl]; [exact Hn|]. inversion Hn; auto.
    + intros i Hf Hs. apply (r_FS _ _ _ R i); [rewrite slotF_cons; auto|rewrite slotS_cons; auto].
    + intros s' i Hs' Hi Hv.
      rewrite Hp2.
      * apply (r_F _ _ _ R s' i); simpl; auto.
      * intros Hf. rewrite slotF_one in Hf.
        assert (Hns : In s' (s :: r)) by (right; exact Hs').
        pose proof (slot_unique _ _ _ _ (r_nd _ _ _ R) (or_introl eq_refl) Hns Hf Hi) as E. subst s'.
        (* s occurs twice: its footprint would be duplicated *)
        pose proof (r_nd _ _ _ R) as Hn. simpl in Hn.
        assert (Hin : In i (flat_map s_F r)) by (apply in_flat_map; eauto).
        clear - Hn Hin Hi. induction (s_F s) as [|y l IHl]; [destruct Hi|]. simpl in Hn. inversion Hn; subst.
        destruct Hi as [Hi|Hi]; [subst; apply H1; apply in_or_app; auto|auto].
      * intros Hs. apply (r_FS _ _ _ R i).
        -- rewrite slotF_cons. right. unfold slotF. apply in_flat_map. eauto.
        -- rewrite slotS_cons. auto.
    + intros s' x e Hs' Hx.
      destruct (slot_dec_S [s] x) as [Hd|Hd].
      { left. apply Hp1. auto. }
      rewrite Hp2; [apply (r_S _ _ _ R s' x e); simpl; auto| |exact Hd].
      intros Hf. apply (r_FS _ _ _ R x); [rewrite slotF_cons; auto|].
      rewrite slotS_cons. right. unfold slotS. eapply in_map_fst. apply in_flat_map. exists s'; split; [exact Hs'|exact Hx].
    + intros s' i Hs' Hv Hi.
      unfold eff. rewrite Hp2.
      * apply (r_rootF _ _ _ R s' i); simpl; auto.
      * intros Hf. rewrite slotF_one in Hf.
        pose proof (r_nd _ _ _ R) as Hn. simpl in Hn.
        assert (Hin : In i (flat_map s_F r)) by (apply in_flat_map; eauto).
        clear - Hn Hin Hf. induction (s_F s) as [|y l IHl]; [destruct Hf|]. simpl in Hn. inversion Hn; subst.
        destruct Hf as [Hf|Hf]; [subst; apply H1; apply in_or_app; auto|auto].
      * intros Hs. apply (r_FS _ _ _ R i).
        -- rewrite slotF_cons. right. unfold slotF. apply in_flat_map. eauto.
        -- rewrite slotS_cons. auto.
    + intros s' x Hs' Hv Hx.
      destruct (r_rootS _ _ _ R s' x (or_intror Hs') Hv Hx) as [E|[E Hc]]; [auto|right].
      assert (Hin : In (x, s_c s') (flat_map s_S r)) by (apply in_flat_map; eauto).
      simpl in Hc. rewrite filter_app, app_length in Hc.
      assert (Hr : 1 <= List.length (filter (fun p => Nat.eqb x (fst p)) (flat_map s_S r))).
      { assert (Hf : In (x, s_c s') (filter (fun p => Nat.eqb x (fst p)) (flat_map s_S r)))
          by (apply filter_In; split; [exact Hin|simpl; apply Nat.eqb_refl]).
        destruct (filter (fun p => Nat.eqb x (fst p)) (flat_map s_S r)); [destruct Hf|simpl; lia]. }
      split; [|lia].
      rewrite Hp2; [exact E| |].
      * intros Hf. apply (r_FS _ _ _ R x); [rewrite slotF_cons; auto|]. rewrite slotS_cons. right.
        unfold slotS. eapply in_map_fst. exact Hin.
      * intros Hs. rewrite slotS_one in Hs. apply map_fst_in in Hs. destruct Hs as [e He].
        assert (Hf : In (x, e) (filter (fun p => Nat.eqb x (fst p)) (s_S s)))
          by (apply filter_In; split; [exact He|simpl; apply Nat.eqb_refl]).
        destruct (filter (fun p => Nat.eqb x (fst p)) (s_S s)); [destruct Hf|]. simpl in Hc. lia.
Qed.
