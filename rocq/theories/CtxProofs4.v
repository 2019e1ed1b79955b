From Coq Require Import Permutation.
From Verif Require Import Base AstLib HeapAst CtxModel CtxSpec CtxProofs CtxProofs2 CtxProofs3.

Definition noids : nat -> Prop := fun _ => False.

Lemma hset_same h i o : h_obj (hset h i o) i = Some o.
Proof. simpl. rewrite Nat.eqb_refl. reflexivity. Qed.
Lemma hset_other h i o j : i <> j -> h_obj (hset h i o) j = h_obj h j.
Proof. intros H. simpl. apply Nat.eqb_neq in H. rewrite H. reflexivity. Qed.

Lemma post_hset h ov seen i o' :
  (forall j, h_obj h j <> None -> j < h_next h) -> ~ leaf h i -> i < h_next h -> ovg ov i = None ->
  post h ov seen (eq i) noids (hset h i o') ov seen.
Proof.
  intros Hwf Hnl Hlt Hov. unfold noids. constructor.
  - simpl; lia.
  - intros j Hj. simpl. destruct (Nat.eq_dec i j) as [E|E]; [subst; exact Hlt|].
    rewrite hset_other in Hj by exact E. apply Hwf; exact Hj.
  - intros j Hj. apply hset_other. intros E; subst; contradiction.
  - intros j _ Hj _. apply hset_other. exact Hj.
  - intros x a _ Hx Hn.
    destruct Hn as [Hn|[c [kc [Hn [Hc Hk]]]]].
    + left. rewrite hset_other by exact Hx. exact Hn.
    + right. exists c, kc. rewrite !hset_other; auto. intros E; subst c. apply Hnl. exists kc; auto.
  - apply incl_refl.
  - auto.
  - intros j [].
  - auto.
  - intros j [Hj|[]]. subst; exact Hov.
Qed.

Lemma halloc_old h o i : i < h_next h -> h_obj (snd (halloc h o)) i = h_obj h i.
Proof. intros H. simpl. assert (Nat.eqb (h_next h) i = false) by (apply Nat.eqb_neq; lia). rewrite H0. reflexivity. Qed.
Lemma halloc_new h o : h_obj (snd (halloc h o)) (h_next h) = Some o.
Proof. simpl. rewrite Nat.eqb_refl. reflexivity. Qed.

Lemma post_alloc h ov seen o :
  (forall j, h_obj h j <> None -> j < h_next h) ->
  post h ov seen noids noids (snd (halloc h o)) ov seen.
Proof.
  intros Hwf. unfold noids.
  assert (Hsame : forall j, h_obj h j <> None -> h_obj (snd (halloc h o)) j = h_obj h j)
    by (intros j Hj; apply halloc_old, Hwf, Hj).
  constructor.
  - simpl; lia.
  - intros j Hj. simpl in *. destruct (Nat.eqb (h_next h) j) eqn:E; [apply Nat.eqb_eq in E; lia|].
    specialize (Hwf j Hj). lia.
  - intros j [k [Hj _]]. apply Hsame. congruence.
  - intros j Hj _ _. apply halloc_old; exact Hj.
  - intros x a _ _ Hn. destruct Hn as [Hn|[c [kc [Hn [Hc Hk]]]]].
    + left. rewrite Hsame; congruence.
    + right. exists c, kc. rewrite !Hsame by congruence. auto.
  - apply incl_refl.
  - auto.
  - intros j [].
  - auto.
  - intros j [[]|[]].
Qed.

Lemma post_ov h ov ov2 seen F S h' ov' seen' :
  post h ov2 seen F S h' ov' seen' -> (forall i, ~ F i -> ~ S i -> ovg ov2 i = ovg ov i) ->
  post h ov seen F S h' ov' seen'.
Proof.
  intros P H. constructor; try apply P. intros i H1 H2. rewrite (p_ov _ _ _ _ _ _ _ _ P) by assumption. auto.
Qed.

Lemma inv_sub h ov seen (F S F' S' : nat -> Prop) :
  inv h ov seen F S -> (forall i, F' i -> F i) -> (forall i, S' i -> S i) -> inv h ov seen F' S'.
Proof.
  intros I HF HS. constructor; try apply I.
  - intros i Hi. apply (i_F _ _ _ _ _ I), HF, Hi.
  - intros i Hi. apply (i_S _ _ _ _ _ I), HS, Hi.
  - intros i Hi Hf. exact (i_seenF _ _ _ _ _ I i Hi (HF i Hf)).
  - intros i Hf Hs. exact (i_FS _ _ _ _ _ I i (HF i Hf) (HS i Hs)).
Qed.

Lemma post_popped h ov seen F S h' ov' seen' : post h ov seen F S h' ov' seen' -> popped F S ov ov'.
Proof. intros P. split; apply P. Qed.

Lemma NoDup_app_l {A} (a b : list A) : NoDup (a ++ b) -> NoDup a.
Proof. induction a as [|x a IH]; intros H; [constructor|]. inversion H; subst. constructor; [|auto]. intros Hx; apply H2, in_or_app; auto. Qed.
Lemma NoDup_app_r {A} (a b : list A) : NoDup (a ++ b) -> NoDup b.
Proof. induction a as [|x a IH]; intros H; [exact H|]. inversion H; auto. Qed.
Lemma NoDup_app_disj {A} (a b : list A) x : NoDup (a ++ b) -> In x a -> ~ In x b.
Proof.
  induction a as [|y a IH]; intros H Ha Hb; [destruct Ha|]. inversion H; subst.
  destruct Ha as [Ha|Ha]; [subst; apply H2, in_or_app; auto|]. exact (IH H3 Ha Hb).
Qed.

Section Main.
  Variable copy : bool.

  Definition VOK (t : tree unit) : Prop :=
    forall n cur c v h ov seen F S,
      ctxname c -> rep h c v t F S -> sound c t = true -> is_node t = true -> height t <= n ->
      (copy = true \/ S = []) -> NoDup F ->
      inv h ov seen (fun i => In i F) (fun i => In i (map fst S)) ->
      pre cur ov (mkSlot v t c F S) ->
      exists v' h' ov' seen',
        visit copy n cur v (mkWst h ov seen) = Rt (v', mkWst h' ov' seen') /\
        post h ov seen (fun i => In i F) (fun i => In i (map fst S)) h' ov' seen' /\
        rdt (region h h' (fun i => In i F) (fun i => In i (map fst S))) h' (set_ctx c t) v' /\
        (S = [] -> v' = v /\ keep h h').

  Lemma rep_is_node_val h c v t F S : rep h c v t F S -> is_node_val h v = true.
  Proof.
    intros H. destruct (rep_root _ _ _ _ _ _ H) as [i [E [[k [Hk _]]|[[_ [k [fs Hk]]]|[_ [a Ha]]]]]]; subst v; simpl.
    - rewrite Hk; reflexivity.
    - rewrite Hk; reflexivity.
    - apply name_obj_node in Ha. destruct Ha as [fs [Ha _]]. rewrite Ha. reflexivity.
  Qed.
  Lemma rep_is_node h c v t F S : rep h c v t F S -> is_node t = true.
  Proof. intros H; inversion H; reflexivity. Qed.

  Lemma elts_ok n cur c (Hc : ctxname c) ts :
    Forall VOK ts -> forall vs sl rest h ov seen,
      se h c vs ts sl ->
      Forall (fun t => is_node t = true -> sound c t = true /\ height t <= n) ts ->
      NoDup (flat_map s_F sl) -> (copy = true \/ flat_map s_S sl = []) ->
      inv h ov seen (slotF sl) (slotS sl) ->
      good cur ov (sl ++ rest) ->
      exists l' h' ov' seen',
        gv_elts (visit copy n cur) vs (mkWst h ov seen) = Rt (l', mkWst h' ov' seen') /\
        post h ov seen (slotF sl) (slotS sl) h' ov' seen' /\
        all2 (rdt (region h h' (slotF sl) (slotS sl)) h') (map (set_ctx c) ts) l' /\
        good cur ov' rest /\ (flat_map s_S sl = [] -> l' = vs /\ keep h h').
  Proof.
    induction ts as [|t ts IH]; intros HV vs sl rest h ov seen Hse Hs Hn Hcp Hi Hg; inversion Hse; subst.
    - exists [], h, ov, seen. split; [reflexivity|]. split; [|split; [exact I|split; [exact Hg|split; [reflexivity|apply keep_refl]]]].
      eapply post_equiv; [apply post_refl; apply Hi| |]; intros i; cbn; tauto.
    - inversion HV as [|? ? HVa HVb]; subst. inversion Hs as [|? ? Hsa Hsb]; subst.
      match goal with H : se h c vs0 ts sl |- _ => rename H into Hse' end.
      destruct (IH HVb vs0 sl rest h ov seen Hse' Hsb Hn Hcp Hi Hg) as [l' [h' [ov' [seen' [E [P [A [G Kp]]]]]]]].
      exists (VAt a :: l'), h', ov', seen'. cbn [gv_elts is_node_val]. rewrite E.
      split; [reflexivity|]. split; [exact P|]. split; [|split; [exact G|intros Hz; destruct (Kp Hz) as [Kp1 Kp2]; subst l'; auto]]. cbn [map all2]. split; [reflexivity|exact A].
    - rename vs0 into vs. rename sl0 into sl. rename v into u. inversion HV as [|? ? HV1 HV2]; subst. inversion Hs as [|? ? Hs1 Hs2]; subst.
      match goal with H : rep h c u t F S |- _ => rename H into Hr end.
      match goal with H : se h c vs ts sl |- _ => rename H into Hse' end.
      pose proof (rep_is_node _ _ _ _ _ _ Hr) as Hnode. destruct (Hs1 Hnode) as [Hsnd Hht].
      simpl in Hn. simpl in Hcp. destruct Hg as [Hpre Hg].
      assert (HcS : copy = true \/ S = []).
      { destruct Hcp as [?|Hcp]; [auto|]. right. apply app_eq_nil in Hcp. tauto. }
      assert (HcS' : copy = true \/ flat_map s_S sl = []).
      { destruct Hcp as [?|Hcp]; [auto|]. right. apply app_eq_nil in Hcp. tauto. }
      assert (Hi1 : inv h ov seen (fun i => In i F) (fun i => In i (map fst S))).
      { eapply inv_sub; [exact Hi| |]; intros i Hx.
        - rewrite slotF_cons, slotF_one. auto.
        - rewrite slotS_cons, slotS_one. auto. }
      destruct (HV1 n cur c u h ov seen F S Hc Hr Hsnd Hnode Hht HcS (NoDup_app_l _ _ Hn) Hi1 Hpre)
        as [v' [h1 [ov1 [seen1 [E1 [P1 [R1 K1]]]]]]].
      assert (P1' : post h ov seen (slotF [mkSlot u t c F S]) (slotS [mkSlot u t c F S]) h1 ov1 seen1).
      { eapply post_equiv; [exact P1| |]; intros i; [rewrite slotF_one|rewrite slotS_one]; reflexivity. }
      assert (HD : forall i, slotF sl i -> ~ slotF [mkSlot u t c F S] i).
      { intros i Ha Hb. rewrite slotF_one in Hb. exact (NoDup_app_disj _ _ _ Hn Hb Ha). }
      assert (Hi2 : inv h1 ov1 seen1 (slotF sl) (slotS sl)).
      { eapply inv_step; [exact Hi|exact P1'| | | | |exact HD]; intros i Hx;
          try (rewrite slotF_cons; tauto); try (rewrite slotS_cons; tauto). }
      assert (Hse2 : se h1 c vs ts sl).
      { apply (se_frame h h1 (p_leaf _ _ _ _ _ _ _ _ P1) c vs ts sl Hse').
        - intros i Hf. apply (p_frame _ _ _ _ _ _ _ _ P1').
          + apply (i_F _ _ _ _ _ Hi). rewrite slotF_cons; auto.
          + apply HD; exact Hf.
          + left. intros Hx. apply (i_FS _ _ _ _ _ Hi i); [rewrite slotF_cons; auto|rewrite slotS_cons; auto].
        - intros i a Hx. apply (p_name _ _ _ _ _ _ _ _ P1').
          + apply (i_S _ _ _ _ _ Hi). rewrite slotS_cons; auto.
          + intros Hf. apply (i_FS _ _ _ _ _ Hi i); [rewrite slotF_cons; auto|rewrite slotS_cons; auto]. }
      destruct (IH HV2 vs sl rest h1 ov1 seen1 Hse2 Hs2 (NoDup_app_r _ _ Hn) HcS' Hi2 (Hg ov1 (post_popped _ _ _ _ _ _ _ _ P1')))
        as [l' [h' [ov' [seen' [E2 [P2 [A2 [G2 K2]]]]]]]].
      exists (v' :: l'), h', ov', seen'. cbn [gv_elts w_heap].
      rewrite (rep_is_node_val _ _ _ _ _ _ Hr), E1, E2. split; [reflexivity|].
      assert (HFF : forall i, slotF [mkSlot u t c F S] i -> ~ slotF sl i /\ ~ slotS sl i).
      { intros i Hf. split; [intros Hb; exact (HD i Hb Hf)|].
        intros Hx. apply (i_FS _ _ _ _ _ Hi i); [rewrite slotF_cons; auto|rewrite slotS_cons; auto]. }
      assert (HSF : forall i, slotS [mkSlot u t c F S] i -> ~ slotF sl i).
      { intros i Hx Hf. apply (i_FS _ _ _ _ _ Hi i); [rewrite slotF_cons; auto|rewrite slotS_cons; auto]. }
      split.
      { eapply post_equiv; [eapply post_trans; [exact P1'|exact P2| |]| |].
        - intros i Hf. right; apply HFF, Hf.
        - exact HSF.
        - intros i. rewrite (slotF_cons _ sl). tauto.
        - intros i. rewrite (slotS_cons _ sl). tauto. }
      split; [|split; [exact G2|intros Hz; simpl in Hz; apply app_eq_nil in Hz; destruct Hz as [Hz1 Hz2];
        destruct (K1 Hz1) as [Ka Kb]; destruct (K2 Hz2) as [Kc Kd]; subst; split; [reflexivity|eapply keep_trans; eassumption]]].
      cbn [map all2]. split.
      + eapply rdt_mono; [|exact R1].
        intros i Hreg.
        apply (region_step _ _ _ (slotF [mkSlot u t c F S]) (slotS [mkSlot u t c F S]) (slotF sl) (slotS sl)
                 (slotF (mkSlot u t c F S :: sl)) (slotS (mkSlot u t c F S :: sl)) _ _ _ _ _ _ P1' P2).
        * intros j Hj.
          destruct Hj as [Hj|[Hj|[Hj|Hj]]].
          -- apply (i_F _ _ _ _ _ Hi). rewrite slotF_cons. auto.
          -- apply (i_S _ _ _ _ _ Hi). rewrite slotS_cons. auto.
          -- apply (i_F _ _ _ _ _ Hi). rewrite slotF_cons. auto.
          -- apply (i_S _ _ _ _ _ Hi). rewrite slotS_cons. auto.
        * exact HFF.
        * exact HSF.
        * intros j Hj. rewrite slotF_cons. auto.
        * intros j Hj. rewrite slotS_cons. auto.
        * eapply region_weaken; [| | |exact Hreg]; [lia| |]; intros j Hj; [rewrite slotF_one|rewrite slotS_one]; exact Hj.
      + clear - A2 P1' P2. revert l' A2. induction ts as [|t' ts IHt]; intros [|w l']; cbn [map all2]; auto.
        intros [HA HB]. split; [|apply IHt; exact HB].
        eapply rdt_mono; [|exact HA]. intros i Hr. split; [|reflexivity].
        eapply region_weaken; [| | |exact Hr].
        * apply (p_next _ _ _ _ _ _ _ _ P1').
        * intros j Hj. rewrite slotF_cons. auto.
        * intros j Hj. rewrite slotS_cons. auto.
  Qed.
End Main.
