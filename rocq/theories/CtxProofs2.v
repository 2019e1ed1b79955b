From Coq Require Import Permutation.
From Verif Require Import Base AstLib HeapAst CtxModel CtxSpec CtxProofs.

Scheme rep_ind3 := Induction for rep Sort Prop
  with rep_elts_ind3 := Induction for rep_elts Sort Prop
  with rep_fields_ind3 := Induction for rep_fields Sort Prop.
Combined Scheme rep_mut from rep_ind3, rep_elts_ind3, rep_fields_ind3.

Lemma in_map_fst (x : nat) (e : string) S : In (x, e) S -> In x (map fst S).
Proof. intros H. change x with (fst (x, e)). apply in_map. exact H. Qed.
Lemma map_fst_in (x : nat) (S : list (nat * string)) : In x (map fst S) -> exists e, In (x, e) S.
Proof. intros H. apply in_map_iff in H. destruct H as [[y e] [E H]]. simpl in E; subst. eauto. Qed.

(** The references a represented value consists of. *)
Lemma rep_root h c v t F S : rep h c v t F S ->
  exists i, v = VRef i /\ (leaf h i \/ (In i F /\ exists k fs, h_obj h i = Some (ONode k fs)) \/
                           (In (i, c) S /\ exists a, name_obj h i a)).
Proof.
  intros H; inversion H; subst.
  - exists i. split; [reflexivity|]. left. exists k; auto.
  - exists i. split; [reflexivity|]. right; right. split; [left; reflexivity|eauto].
  - exists i. split; [reflexivity|]. right; left. split; [left; reflexivity|eauto].
Qed.

Lemma name_obj_node h i a : name_obj h i a -> exists fs, h_obj h i = Some (ONode "Name" fs) /\ fs <> [].
Proof. intros [H|[c [kc [H _]]]]; rewrite H; eexists; split; try reflexivity; discriminate. Qed.

Lemma rep_not_list h c v t F S i l : rep h c v t F S -> v = VRef i -> h_obj h i <> Some (OList l).
Proof.
  intros H E Hl. destruct (rep_root _ _ _ _ _ _ H) as [i' [E' [[k [Hk _]]|[[_ [k [fs Hk]]]|[_ [a Ha]]]]]];
  rewrite E in E'; inversion E'; subst i'; try congruence.
  apply name_obj_node in Ha. destruct Ha as [fs [Ha _]]. congruence.
Qed.

Lemma rep_elts_in h c vs ts F S : rep_elts h c vs ts F S -> forall v, In v vs ->
  (exists a, v = VAt a) \/ exists t F1 S1, In t ts /\ rep h c v t F1 S1 /\ incl F1 F /\ incl S1 S.
Proof.
  induction 1 as [c|c a vs ts F S H IH|c v t vs ts F1 S1 F2 S2 H1 H2 IH]; intros u Hu.
  - destruct Hu.
  - destruct Hu as [Hu|Hu]; [left; eauto|]. destruct (IH u Hu) as [?|[t' [F1 [S1 [? [? [? ?]]]]]]]; [auto|].
    right. exists t', F1, S1. simpl; auto.
  - destruct Hu as [Hu|Hu].
    + subst u. right. exists t, F1, S1. repeat split; simpl; auto using incl_appl, incl_refl.
    + destruct (IH u Hu) as [?|[t' [F1' [S1' [? [? [? ?]]]]]]]; [auto|].
      right. exists t', F1', S1'. repeat split; simpl; auto using incl_appr.
Qed.

Lemma rep_fields_in h k c fs gs F S : rep_fields h k c fs gs F S -> forall f v, In (f, v) fs ->
  (exists a, v = VAt a) \/
  (exists t F1 S1, In (f, t) gs /\ rep h (demand k f c) v t F1 S1 /\ incl F1 F /\ incl S1 S) \/
  (exists j vs ts F1 S1, v = VRef j /\ In (f, Ls ts) gs /\ h_obj h j = Some (OList vs) /\
      rep_elts h (demand k f c) vs ts F1 S1 /\ In j F /\ incl F1 F /\ incl S1 S).
Proof.
  induction 1 as [k c|k c f a fs gs F S H IH|k c f v t fs gs F1 S1 F2 S2 H1 H2 IH
                 |k c f j vs ts fs gs F1 S1 F2 S2 H1 H2 H3 IH]; intros g w Hin.
  - destruct Hin.
  - destruct Hin as [Hin|Hin]; [inversion Hin; subst; left; eauto|].
    destruct (IH g w Hin) as [?|[[t' [F1 [S1 [? [? [? ?]]]]]]|[j [vs [ts [F1 [S1 [? [? [? [? [? [? ?]]]]]]]]]]]]].
    + auto.
    + right; left. exists t', F1, S1. simpl; auto.
    + right; right. exists j, vs, ts, F1, S1. simpl; repeat split; auto.
  - destruct Hin as [Hin|Hin].
    + inversion Hin; subst. right; left. exists t, F1, S1. simpl; repeat split; auto using incl_appl, incl_refl.
    + destruct (IH g w Hin) as [?|[[t' [F1' [S1' [? [? [? ?]]]]]]|[j [vs [ts [F1' [S1' [? [? [? [? [? [? ?]]]]]]]]]]]]].
      * auto.
      * right; left. exists t', F1', S1'. simpl; repeat split; auto using incl_appr.
      * right; right. exists j, vs, ts, F1', S1'. simpl; repeat split; auto using incl_appr. apply in_or_app; auto.
  - destruct Hin as [Hin|Hin].
    + inversion Hin; subst. right; right. exists j, vs, ts, F1, S1. simpl; repeat split; auto using incl_appl, incl_refl.
      apply incl_tl, incl_appl, incl_refl.
    + destruct (IH g w Hin) as [?|[[t' [F1' [S1' [? [? [? ?]]]]]]|[j' [vs' [ts' [F1' [S1' [? [? [? [? [? [? ?]]]]]]]]]]]]].
      * auto.
      * right; left. exists t', F1', S1'. simpl; repeat split; auto using incl_appr. apply incl_tl, incl_appr; assumption.
      * right; right. exists j', vs', ts', F1', S1'. simpl; repeat split; auto using incl_appr.
        -- right. apply in_or_app; auto.
        -- apply incl_tl, incl_appr; assumption.
Qed.

(** Memory changes elsewhere do not matter. *)
Section Frame.
  Variable h h' : heap.
  Hypothesis Hleaf : forall i, leaf h i -> h_obj h' i = h_obj h i.

  Lemma direct_back k c fs gs F S f v x :
    rep_fields h k c fs gs F S ->
    (forall i, In i F -> h_obj h' i = h_obj h i) ->
    (forall i a, In i (map fst S) -> name_obj h i a -> name_obj h' i a) ->
    In (f, v) fs -> direct h' v x -> direct h v x.
  Proof.
    intros Hr HF HS Hin Hd.
    destruct (rep_fields_in _ _ _ _ _ _ _ Hr _ _ Hin) as [[a Ha]|[[t [F1 [S1 [_ [Hrep [Hi1 Hi2]]]]]]|
       [j [vs [ts [F1 [S1 [Hv [_ [Ho [_ [HjF _]]]]]]]]]]]].
    - subst v. destruct Hd as [[E _]|[j [l [E _]]]]; discriminate.
    - destruct (rep_root _ _ _ _ _ _ Hrep) as [i [E Hi]]. subst v.
      assert (Hnl : forall l, h_obj h' i <> Some (OList l)).
      { intros l. destruct Hi as [Hi|[[Hi [kk [ffs Ho]]]|[Hi [a Ha]]]].
        - rewrite Hleaf by exact Hi. destruct Hi as [kk [Hk _]]. congruence.
        - rewrite HF by (apply Hi1; exact Hi). congruence.
        - assert (Hn : name_obj h' i a) by (apply HS; [eapply in_map_fst, Hi2; exact Hi|exact Ha]).
          apply name_obj_node in Hn. destruct Hn as [ffs [Hn _]]. congruence. }
      destruct Hd as [[E _]|[j [l [E [Ho _]]]]].
      + inversion E; subst x. left. split; [reflexivity|]. intros l. eapply rep_not_list; [exact Hrep|reflexivity].
      + inversion E; subst j. exfalso. exact (Hnl l Ho).
    - subst v. assert (E : h_obj h' j = h_obj h j) by (apply HF; exact HjF).
      destruct Hd as [[E1 Hn]|[j' [l [E1 [Hl Hx]]]]].
      + inversion E1; subst x. exfalso. apply (Hn vs). congruence.
      + inversion E1; subst j'. right. exists j, l. rewrite <- E. auto.
  Qed.

  Lemma rep_frame_all :
    (forall c v t F S, rep h c v t F S ->
       (forall i, In i F -> h_obj h' i = h_obj h i) ->
       (forall i a, In i (map fst S) -> name_obj h i a -> name_obj h' i a) ->
       rep h' c v t F S) /\
    (forall c vs ts F S, rep_elts h c vs ts F S ->
       (forall i, In i F -> h_obj h' i = h_obj h i) ->
       (forall i a, In i (map fst S) -> name_obj h i a -> name_obj h' i a) ->
       rep_elts h' c vs ts F S) /\
    (forall k c fs gs F S, rep_fields h k c fs gs F S ->
       (forall i, In i F -> h_obj h' i = h_obj h i) ->
       (forall i a, In i (map fst S) -> name_obj h i a -> name_obj h' i a) ->
       rep_fields h' k c fs gs F S).
  Proof.
    apply rep_mut.
    - intros c i k Ho Hk _ _. constructor; [|exact Hk]. rewrite Hleaf; [exact Ho|]. exists k; auto.
    - intros c i a gs Hn Hg _ HS. apply rp_shared with (a := a); [|exact Hg]. apply HS; [left; reflexivity|exact Hn].
    - intros c i k fs gs F1 S1 F2 S2 Ho Hk R1 IH1 R2 IH2 Hc HF HS.
      assert (HF1 : forall i, In i F1 -> h_obj h' i = h_obj h i)
        by (intros i' Hi; apply HF; right; apply in_or_app; auto).
      assert (HF2 : forall i, In i F2 -> h_obj h' i = h_obj h i)
        by (intros i' Hi; apply HF; right; apply in_or_app; auto).
      assert (HS1 : forall i a, In i (map fst S1) -> name_obj h i a -> name_obj h' i a)
        by (intros i' a Hi; apply HS; rewrite map_app; apply in_or_app; auto).
      assert (HS2 : forall i a, In i (map fst S2) -> name_obj h i a -> name_obj h' i a)
        by (intros i' a Hi; apply HS; rewrite map_app; apply in_or_app; auto).
      apply rp_node with (fs := fs); [rewrite HF; [exact Ho|left; reflexivity]|exact Hk|auto|auto|].
      intros f v x e Hin Hp Hd Hx. apply (Hc f v x e Hin Hp); [|exact Hx].
      exact (direct_back _ _ _ _ _ _ _ _ _ R1 HF1 HS1 Hin Hd).
    - intros; constructor.
    - intros c a vs ts F S R IH HF HS. constructor; auto.
    - intros c v t vs ts F1 S1 F2 S2 R1 IH1 R2 IH2 HF HS. constructor.
      + apply IH1; [intros i Hi; apply HF; apply in_or_app; auto|].
        intros i a Hi; apply HS; rewrite map_app; apply in_or_app; auto.
      + apply IH2; [intros i Hi; apply HF; apply in_or_app; auto|].
        intros i a Hi; apply HS; rewrite map_app; apply in_or_app; auto.
    - intros; constructor.
    - intros k c f a fs gs F S R IH HF HS. constructor; auto.
    - intros k c f v t fs gs F1 S1 F2 S2 R1 IH1 R2 IH2 HF HS. constructor.
      + apply IH1; [intros i Hi; apply HF; apply in_or_app; auto|].
        intros i a Hi; apply HS; rewrite map_app; apply in_or_app; auto.
      + apply IH2; [intros i Hi; apply HF; apply in_or_app; auto|].
        intros i a Hi; apply HS; rewrite map_app; apply in_or_app; auto.
    - intros k c f j vs ts fs gs F1 S1 F2 S2 Ho R1 IH1 R2 IH2 HF HS. apply rf_list with (vs := vs).
      + rewrite HF; [exact Ho|left; reflexivity].
      + apply IH1; [intros i Hi; apply HF; right; apply in_or_app; auto|].
        intros i a Hi; apply HS; rewrite map_app; apply in_or_app; auto.
      + apply IH2; [intros i Hi; apply HF; right; apply in_or_app; auto|].
        intros i a Hi; apply HS; rewrite map_app; apply in_or_app; auto.
  Qed.
End Frame.

Lemma rep_frame h h' c v t F S :
  (forall i, leaf h i -> h_obj h' i = h_obj h i) -> rep h c v t F S ->
  (forall i, In i F -> h_obj h' i = h_obj h i) ->
  (forall i a, In i (map fst S) -> name_obj h i a -> name_obj h' i a) ->
  rep h' c v t F S.
Proof. intros Hl. apply (rep_frame_all h h' Hl). Qed.

(** ** The children to visit, in order *)
Record slot : Type := mkSlot { s_v : val; s_t : tree unit; s_c : string; s_F : list nat; s_S : list (nat * string) }.
Definition slotF (sl : list slot) (i : nat) : Prop := In i (flat_map s_F sl).
Definition slotS (sl : list slot) (i : nat) : Prop := In i (map fst (flat_map s_S sl)).

Inductive se (h : heap) (c : string) : list val -> list (tree unit) -> list slot -> Prop :=
| se_nil : se h c [] [] []
| se_atom a vs ts sl : se h c vs ts sl -> se h c (VAt a :: vs) (At a :: ts) sl
| se_cons v t vs ts F S sl : rep h c v t F S -> se h c vs ts sl ->
    se h c (v :: vs) (t :: ts) (mkSlot v t c F S :: sl).

Inductive sf (h : heap) (k c : string) : list (string * val) -> list (string * tree unit) -> list nat -> list slot -> Prop :=
| sf_none : sf h k c [] [] [] []
| sf_atom f a fs gs js sl : sf h k c fs gs js sl -> sf h k c ((f, VAt a) :: fs) ((f, At a) :: gs) js sl
| sf_node f v t fs gs F S js sl : rep h (demand k f c) v t F S -> sf h k c fs gs js sl ->
    sf h k c ((f, v) :: fs) ((f, t) :: gs) js (mkSlot v t (demand k f c) F S :: sl)
| sf_list f j vs ts fs gs js sl1 sl2 : h_obj h j = Some (OList vs) -> se h (demand k f c) vs ts sl1 ->
    sf h k c fs gs js sl2 ->
    sf h k c ((f, VRef j) :: fs) ((f, Ls ts) :: gs) (j :: js) (sl1 ++ sl2).

Lemma rep_elts_se h c vs ts F S : rep_elts h c vs ts F S ->
  exists sl, se h c vs ts sl /\ F = flat_map s_F sl /\ S = flat_map s_S sl.
Proof.
  induction 1 as [c|c a vs ts F S H IH|c v t vs ts F1 S1 F2 S2 H1 H2 IH].
  - exists []. repeat split. constructor.
  - destruct IH as [sl [A [B C]]]. exists sl. repeat split; auto. constructor; exact A.
  - destruct IH as [sl [A [B C]]]. exists (mkSlot v t c F1 S1 :: sl). repeat split.
    + constructor; assumption.
    + simpl. rewrite B. reflexivity.
    + simpl. rewrite C. reflexivity.
Qed.

Lemma rep_fields_sf h k c fs gs F S : rep_fields h k c fs gs F S ->
  exists js sl, sf h k c fs gs js sl /\ Permutation F (js ++ flat_map s_F sl) /\ S = flat_map s_S sl.
Proof.
  induction 1 as [k c|k c f a fs gs F S H IH|k c f v t fs gs F1 S1 F2 S2 H1 H2 IH
                 |k c f j vs ts fs gs F1 S1 F2 S2 H1 H2 H3 IH].
  - exists [], []. repeat split; constructor.
  - destruct IH as [js [sl [A [B C]]]]. exists js, sl. repeat split; auto. constructor; exact A.
  - destruct IH as [js [sl [A [B C]]]]. exists js, (mkSlot v t (demand k f c) F1 S1 :: sl). repeat split.
    + constructor; assumption.
    + simpl. rewrite B, !app_assoc. apply Permutation_app_tail, Permutation_app_comm.
    + simpl. rewrite C. reflexivity.
  - destruct IH as [js [sl [A [B C]]]]. destruct (rep_elts_se _ _ _ _ _ _ H2) as [sl1 [D [E G]]].
    exists (j :: js), (sl1 ++ sl). repeat split.
    + apply sf_list with (vs := vs); assumption.
    + simpl. apply perm_skip. rewrite flat_map_app, B, E, !app_assoc. apply Permutation_app_tail, Permutation_app_comm.
    + rewrite flat_map_app, C, G. reflexivity.
Qed.

Section SlotFrame.
  Variable h h' : heap.
  Hypothesis Hleaf : forall i, leaf h i -> h_obj h' i = h_obj h i.

  Lemma se_frame c vs ts sl : se h c vs ts sl ->
    (forall i, slotF sl i -> h_obj h' i = h_obj h i) ->
    (forall i a, slotS sl i -> name_obj h i a -> name_obj h' i a) -> se h' c vs ts sl.
  Proof.
    unfold slotF, slotS. induction 1 as [|a vs ts sl H IH|v t vs ts F S sl Hr H IH]; intros HF HS.
    - constructor.
    - constructor; auto.
    - simpl in *. constructor.
      + apply (rep_frame h h'); auto.
        * intros i Hi. apply HF, in_or_app; auto.
        * intros i a Hi. apply HS. rewrite map_app. apply in_or_app; auto.
      + apply IH.
        * intros i Hi. apply HF, in_or_app; auto.
        * intros i a Hi. apply HS. rewrite map_app. apply in_or_app; auto.
  Qed.

  Lemma sf_frame k c fs gs js sl : sf h k c fs gs js sl ->
    (forall i, In i js \/ slotF sl i -> h_obj h' i = h_obj h i) ->
    (forall i a, slotS sl i -> name_obj h i a -> name_obj h' i a) -> sf h' k c fs gs js sl.
  Proof.
    unfold slotS, slotF. induction 1 as [|f a fs gs js sl H IH|f v t fs gs F S js sl Hr H IH|f j vs ts fs gs js sl1 sl2 Ho He H IH]; intros HF HS.
    - constructor.
    - constructor; auto.
    - simpl in *. constructor.
      + apply (rep_frame h h'); auto.
        * intros i Hi. apply HF. right. apply in_or_app; auto.
        * intros i a Hi. apply HS. rewrite map_app. apply in_or_app; auto.
      + apply IH.
        * intros i Hi. apply HF. destruct Hi; [auto|]. right; apply in_or_app; auto.
        * intros i a Hi. apply HS. rewrite map_app. apply in_or_app; auto.
    - apply sf_list with (vs := vs).
      + rewrite HF; [exact Ho|left; left; reflexivity].
      + apply se_frame; auto; unfold slotF, slotS.
        * intros i Hi. apply HF. right. rewrite flat_map_app. apply in_or_app; auto.
        * intros i a Hi. apply HS. rewrite flat_map_app, map_app. apply in_or_app; auto.
      + apply IH.
        * intros i Hi. apply HF. destruct Hi as [Hi|Hi]; [left; right; exact Hi|].
          right. rewrite flat_map_app. apply in_or_app; auto.
        * intros i a Hi. apply HS. rewrite flat_map_app, map_app. apply in_or_app; auto.
  Qed.
End SlotFrame.

(** What the overrides must look like when a child is visited with current ctx [cur]. *)
Definition eff (cur : string) (ov : list (val * string)) (i : nat) : string :=
  match ovg ov i with Some c => c | None => cur end.
Definition pre (cur : string) (ov : list (val * string)) (s : slot) : Prop :=
  (forall i, s_v s = VRef i -> bare (s_t s) = false -> eff cur ov i = s_c s) /\
  (forall i, In i (s_F s) -> s_v s <> VRef i -> ovg ov i = None) /\
  (forall x e, In (x, e) (s_S s) -> ovg ov x = None \/ ovg ov x = Some e).

Definition popped (F S : nat -> Prop) (ov ov' : list (val * string)) : Prop :=
  (forall i, F i \/ S i -> ovg ov' i = None) /\ (forall i, ~ F i -> ~ S i -> ovg ov' i = ovg ov i).
Fixpoint good (cur : string) (ov : list (val * string)) (sl : list slot) : Prop :=
  match sl with
  | [] => True
  | s :: r => pre cur ov s /\ forall ov', popped (slotF [s]) (slotS [s]) ov ov' -> good cur ov' r
  end.

Lemma slotF_cons s sl i : slotF (s :: sl) i <-> slotF [s] i \/ slotF sl i.
Proof. unfold slotF. simpl. rewrite app_nil_r, in_app_iff. tauto. Qed.
Lemma slotS_cons s sl i : slotS (s :: sl) i <-> slotS [s] i \/ slotS sl i.
Proof. unfold slotS. simpl. rewrite app_nil_r, map_app, in_app_iff. tauto. Qed.
Lemma slotF_app s sl i : slotF (s ++ sl) i <-> slotF s i \/ slotF sl i.
Proof. unfold slotF. rewrite flat_map_app, in_app_iff. tauto. Qed.
Lemma slotS_app s sl i : slotS (s ++ sl) i <-> slotS s i \/ slotS sl i.
Proof. unfold slotS. rewrite flat_map_app, map_app, in_app_iff. tauto. Qed.
Lemma slotF_one s i : slotF [s] i <-> In i (s_F s).
Proof. unfold slotF. simpl. rewrite app_nil_r. tauto. Qed.
Lemma slotS_one s i : slotS [s] i <-> In i (map fst (s_S s)).
Proof. unfold slotS. simpl. rewrite app_nil_r. tauto. Qed.

Lemma slot_dec_F sl i : slotF sl i \/ ~ slotF sl i.
Proof. unfold slotF. destruct (in_dec Nat.eq_dec i (flat_map s_F sl)); auto. Qed.
Lemma slot_dec_S sl i : slotS sl i \/ ~ slotS sl i.
Proof. unfold slotS. destruct (in_dec Nat.eq_dec i (map fst (flat_map s_S sl))); auto. Qed.
