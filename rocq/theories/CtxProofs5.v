From Coq Require Import Permutation.
From Verif Require Import Base AstLib HeapAst CtxModel CtxSpec CtxProofs CtxProofs2 CtxProofs3 CtxProofs4.

Lemma vget_app f v dn fs : ~ In f (map fst dn) -> vget f (dn ++ (f, v) :: fs) = Some v.
Proof.
  induction dn as [|[g w] dn IH]; intros H; simpl.
  - rewrite String.eqb_refl. reflexivity.
  - destruct (String.eqb f g) eqn:E; [apply String.eqb_eq in E; subst; exfalso; apply H; left; reflexivity|].
    apply IH. intros Hin; apply H; right; exact Hin.
Qed.
Lemma vset_app f v w dn fs : ~ In f (map fst dn) -> vset f w (dn ++ (f, v) :: fs) = dn ++ (f, w) :: fs.
Proof.
  induction dn as [|[g u] dn IH]; intros H; simpl.
  - rewrite String.eqb_refl. reflexivity.
  - destruct (String.eqb f g) eqn:E; [apply String.eqb_eq in E; subst; exfalso; apply H; left; reflexivity|].
    f_equal. apply IH. intros Hin; apply H; right; exact Hin.
Qed.

Section Keys.
  Variable copy : bool.
  Notation VOK := (VOK copy).

  (** The tree below a field is in order. *)
  Definition fld_ok (n : nat) (k c : string) (p : string * tree unit) : Prop :=
    match snd p with
    | Ls l => Forall (fun t => is_node t = true -> sound (demand k (fst p) c) t = true /\ height t <= n) l
    | t => is_node t = true -> sound (demand k (fst p) c) t = true /\ height t <= n
    end.

  Definition setfs (k c : string) (gs : list (string * tree unit)) : list (string * tree unit) :=
    map (fun p : string * tree unit => let (f, v) := p in (f, set_ctx (demand k f c) v)) gs.

  Lemma keys_ok n cur k c (Hc : ctxname c) i gs :
    Forall (fun p => VOK (snd p) /\ match snd p with Ls l => Forall VOK l | _ => True end) gs ->
    forall fs js sl rest dn sx h ov seen,
      sf h k c fs gs js sl ->
      Forall (fld_ok n k c) gs ->
      NoDup (map fst (dn ++ fs ++ sx)) ->
      h_obj h i = Some (ONode k (dn ++ fs ++ sx)) ->
      i < h_next h -> ~ In i js -> ~ slotF sl i -> ~ slotS sl i -> ovg ov i = None ->
      NoDup (js ++ flat_map s_F sl) -> (copy = true \/ flat_map s_S sl = []) ->
      (forall j, In j js -> ovg ov j = None) ->
      inv h ov seen (fun x => In x js \/ slotF sl x) (slotS sl) ->
      good cur ov (sl ++ rest) ->
      exists fs' h' ov' seen',
        gv_keys (visit copy n cur) i (map fst fs) (mkWst h ov seen) = Rt (mkWst h' ov' seen') /\
        h_obj h' i = Some (ONode k (dn ++ fs' ++ sx)) /\ map fst fs' = map fst fs /\
        post h ov seen (fun x => x = i \/ In x js \/ slotF sl x) (slotS sl) h' ov' seen' /\
        rdf (region h h' (fun x => In x js \/ slotF sl x) (slotS sl)) h' (setfs k c gs) fs' /\
        good cur ov' rest /\ (flat_map s_S sl = [] -> fs' = fs /\ keep h h').
  Proof.
    induction gs as [|[f t] gs IH]; intros HV fs js sl rest dn sx h ov seen Hsf Hok Hnd Ho Hlt Hij HiF HiS Hov Hn Hcp Hjs Hinv Hg;
      inversion Hsf; subst.
    - exists [], h, ov, seen. split; [reflexivity|]. split; [exact Ho|]. split; [reflexivity|]. split; [|split; [exact I|split; [exact Hg|split; [reflexivity|apply keep_refl]]]].
      constructor.
      + lia.
      + apply (i_wf _ _ _ _ _ Hinv).
      + intros; reflexivity.
      + intros; reflexivity.
      + intros x a _ _ Hx; exact Hx.
      + apply incl_refl.
      + auto.
      + intros x [].
      + intros; reflexivity.
      + intros x [[Hx|[[]|Hx]]|Hx]; [subst; exact Hov|destruct Hx|destruct Hx].
    - (* an atom *)
      rename fs0 into fs. inversion HV as [|? ? HV1 HV2]; subst. inversion Hok as [|? ? Hok1 Hok2]; subst.
      match goal with H : sf h k c fs gs js sl |- _ => rename H into Hsf' end.
      cbn [app] in Ho, Hnd.
      assert (Hf : ~ In f (map fst dn)).
      { rewrite map_app in Hnd. simpl in Hnd. apply NoDup_remove_2 in Hnd. intros Hx; apply Hnd, in_or_app; auto. }
      assert (E0 : dn ++ (f, VAt a) :: fs ++ sx = (dn ++ [(f, VAt a)]) ++ fs ++ sx) by (rewrite <- app_assoc; reflexivity).
      destruct (IH HV2 fs js sl rest (dn ++ [(f, VAt a)]) sx h ov seen Hsf' Hok2) as [fs' [h' [ov' [seen' [E [O [K [P [A [G Kp]]]]]]]]]];
        auto; try (rewrite <- E0; assumption).
      exists ((f, VAt a) :: fs'), h', ov', seen'. cbn [map fst gv_keys w_heap]. rewrite Ho, (vget_app f _ dn (fs ++ sx) Hf), E.
      split; [reflexivity|]. split; [rewrite O, <- app_assoc; reflexivity|]. split; [simpl; rewrite K; reflexivity|].
      split; [exact P|]. split; [|split; [exact G|intros Hz; destruct (Kp Hz) as [Kp1 Kp2]; subst fs'; auto]]. cbn. split; [split; reflexivity|exact A].
    - (* a node *)
      rename fs0 into fs. rename sl0 into sl.
      inversion HV as [|? ? [HV1 _] HV2]; subst. inversion Hok as [|? ? Hok1 Hok2]; subst. simpl in HV1.
      match goal with H : sf h k c fs gs js sl |- _ => rename H into Hsf' end.
      match goal with H : rep h _ v t F S |- _ => rename H into Hr end.
      set (s1 := mkSlot v t (demand k f c) F S) in *.
      cbn [app] in Ho, Hnd.
      assert (Hf : ~ In f (map fst dn)).
      { rewrite map_app in Hnd. simpl in Hnd. apply NoDup_remove_2 in Hnd. intros Hx; apply Hnd, in_or_app; auto. }
      pose proof (rep_is_node _ _ _ _ _ _ Hr) as Hnode.
      assert (Hsh : sound (demand k f c) t = true /\ height t <= n).
      { unfold fld_ok in Hok1. simpl in Hok1. destruct t; try discriminate. apply Hok1; reflexivity. }
      destruct Hsh as [Hsnd Hht]. destruct Hg as [Hpre Hg].
      assert (HcS : copy = true \/ S = []).
      { destruct Hcp as [?|Hcp]; [auto|]. right. simpl in Hcp. apply app_eq_nil in Hcp. tauto. }
      assert (HcS' : copy = true \/ flat_map s_S sl = []).
      { destruct Hcp as [?|Hcp]; [auto|]. right. simpl in Hcp. apply app_eq_nil in Hcp. tauto. }
      assert (Hn1 : NoDup F). { apply NoDup_app_r in Hn. simpl in Hn. apply NoDup_app_l in Hn. exact Hn. }
      assert (Hn2 : NoDup (js ++ flat_map s_F sl)).
      { simpl in Hn. eapply Permutation_NoDup in Hn; [|rewrite (Permutation_app_comm F), app_assoc; reflexivity].
        apply NoDup_app_l in Hn. exact Hn. }
      assert (Hdis : forall x, In x F -> ~ In x js /\ ~ slotF sl x).
      { intros x Hx. split.
        - intros Hj. apply (NoDup_app_disj _ _ x Hn Hj). simpl. apply in_or_app; auto.
        - apply NoDup_app_r in Hn. simpl in Hn. exact (NoDup_app_disj _ _ x Hn Hx). }
      assert (Hi1 : inv h ov seen (fun x => In x F) (fun x => In x (map fst S))).
      { eapply inv_sub; [exact Hinv| |]; intros x Hx; cbv beta.
        - right. rewrite slotF_cons, slotF_one. auto.
        - rewrite slotS_cons, slotS_one. auto. }
      destruct (HV1 n cur (demand k f c) v h ov seen F S (demand_ctxname _ _ _ Hc) Hr Hsnd Hnode Hht HcS Hn1 Hi1 Hpre)
        as [v' [h1 [ov1 [seen1 [E1 [P1 [R1 K1]]]]]]].
      assert (Hi1obj : h_obj h1 i = Some (ONode k (dn ++ (f, v) :: fs ++ sx))).
      { rewrite (p_frame _ _ _ _ _ _ _ _ P1); [exact Ho|exact Hlt| |].
        - intros Hx. apply HiF. rewrite slotF_cons, slotF_one. auto.
        - left. intros Hx. apply HiS. rewrite slotS_cons, slotS_one. auto. }
      assert (Hov1 : ovg ov1 i = None).
      { rewrite (p_ov _ _ _ _ _ _ _ _ P1); [exact Hov| |].
        - intros Hx. apply HiF. rewrite slotF_cons, slotF_one. auto.
        - intros Hx. apply HiS. rewrite slotS_cons, slotS_one. auto. }
      pose proof (p_next _ _ _ _ _ _ _ _ P1) as Hnx1.
      assert (P2 : post h1 ov1 seen1 (eq i) noids (hset h1 i (ONode k (dn ++ (f, v') :: fs ++ sx))) ov1 seen1).
      { apply post_hset; [apply (p_wf _ _ _ _ _ _ _ _ P1)| |lia|exact Hov1].
        intros [kk [Hk _]]. rewrite Hi1obj in Hk. inversion Hk. destruct dn; discriminate. }
      set (h2 := hset h1 i (ONode k (dn ++ (f, v') :: fs ++ sx))) in *.
      assert (P12 : post h ov seen (fun x => In x F \/ i = x) (fun x => In x (map fst S)) h2 ov1 seen1).
      { eapply post_equiv; [eapply post_trans; [exact P1|exact P2| |]| |].
        - intros x Hx. right. split; [|intros []]. intros Hx2; subst x. apply HiF. rewrite slotF_cons, slotF_one. auto.
        - intros x Hx Hx2; subst x. apply HiS. rewrite slotS_cons, slotS_one. auto.
        - intros x. cbv beta. tauto.
        - intros x. unfold noids. tauto. }
      assert (Hinv2 : inv h2 ov1 seen1 (fun x => In x js \/ slotF sl x) (slotS sl)).
      { assert (I0 : inv h1 ov1 seen1 (fun x => In x js \/ slotF sl x) (slotS sl)).
        { eapply inv_step; [exact Hinv|exact P1| | | | |]; intros x Hx; cbv beta in *.
          - right. rewrite slotF_cons, slotF_one. auto.
          - rewrite slotS_cons, slotS_one. auto.
          - destruct Hx; [auto|]. right. rewrite slotF_cons. auto.
          - rewrite slotS_cons. auto.
          - intros Hx2. destruct (Hdis x Hx2); tauto. }
        constructor; try apply I0.
        - apply (p_wf _ _ _ _ _ _ _ _ P2).
        - intros x [kk [Hx Hk]]. destruct (Nat.eq_dec i x) as [Eq|Eq]; [subst; exact Hov1|].
          apply (i_ovl _ _ _ _ _ I0). exists kk. unfold h2 in Hx. rewrite hset_other in Hx by exact Eq. auto. }
      assert (Hsf2 : sf h2 k c fs gs js sl).
      { apply (sf_frame h h2 (p_leaf _ _ _ _ _ _ _ _ P12) k c fs gs js sl Hsf').
        - intros x Hx. apply (p_frame _ _ _ _ _ _ _ _ P12).
          + apply (i_F _ _ _ _ _ Hinv). destruct Hx; [auto|]. right. rewrite slotF_cons; auto.
          + intros [Hx2|Hx2].
            * destruct (Hdis x Hx2); tauto.
            * subst x. destruct Hx; [auto|]. apply HiF. rewrite slotF_cons. auto.
          + left. intros Hx2. apply (i_FS _ _ _ _ _ Hinv x).
            * destruct Hx; [auto|]. right. rewrite slotF_cons; auto.
            * rewrite slotS_cons, slotS_one; auto.
        - intros x a Hx. apply (p_name _ _ _ _ _ _ _ _ P12).
          + apply (i_S _ _ _ _ _ Hinv). rewrite slotS_cons; auto.
          + intros [Hx2|Hx2].
            * apply (i_FS _ _ _ _ _ Hinv x); [right; rewrite slotF_cons, slotF_one; auto|rewrite slotS_cons; auto].
            * subst x. apply HiS. rewrite slotS_cons; auto. }
      assert (P1s : popped (slotF [s1]) (slotS [s1]) ov ov1).
      { split.
        - intros x Hx. rewrite slotF_one, slotS_one in Hx. apply (p_ovF _ _ _ _ _ _ _ _ P1); exact Hx.
        - intros x. rewrite slotF_one, slotS_one. apply (p_ov _ _ _ _ _ _ _ _ P1). }
      destruct (IH HV2 fs js sl rest (dn ++ [(f, v')]) sx h2 ov1 seen1 Hsf2 Hok2) as [fs' [h' [ov' [seen' [E [O [K [P [A [G Kp]]]]]]]]]]; auto.
      + rewrite <- app_assoc. simpl. rewrite map_app in *. exact Hnd.
      + unfold h2. rewrite hset_same, <- app_assoc. reflexivity.
      + unfold h2. simpl. lia.
      + intros Hx. apply HiF. rewrite slotF_cons; auto.
      + intros Hx. apply HiS. rewrite slotS_cons; auto.
      + intros j Hj. rewrite (p_ov _ _ _ _ _ _ _ _ P1); [apply Hjs; exact Hj| |].
        * intros Hx. destruct (Hdis j Hx); tauto.
        * intros Hx. apply (i_FS _ _ _ _ _ Hinv j); [auto|rewrite slotS_cons, slotS_one; auto].
      + exists ((f, v') :: fs'), h', ov', seen'. cbn [map fst gv_keys w_heap]. rewrite Ho, (vget_app f _ dn (fs ++ sx) Hf).
        destruct (rep_root _ _ _ _ _ _ Hr) as [j [Ej _]]. pose proof (rep_is_node_val _ _ _ _ _ _ Hr) as Hnv.
        subst v. cbn [is_node_val] in Hnv. destruct (h_obj h j) as [[kj fj|lj]|] eqn:Ojj; try discriminate.
        rewrite E1. cbn [w_heap]. rewrite Hi1obj. unfold set_heap. cbn [w_ov w_seen]. rewrite (vset_app f _ v' dn (fs ++ sx) Hf).
        change (hset h1 i (ONode k (dn ++ (f, v') :: fs ++ sx))) with h2. rewrite E.
        split; [reflexivity|]. split; [rewrite O, <- app_assoc; reflexivity|]. split; [simpl; rewrite K; reflexivity|].
        split; [|split; [|split; [exact G|]]].
        3: { intros Hz. simpl in Hz. apply app_eq_nil in Hz. destruct Hz as [Hz1 Hz2].
             destruct (K1 Hz1) as [Ka Kb]. destruct (Kp Hz2) as [Kc Kd]. subst. split; [reflexivity|].
             eapply keep_trans; [exact Kb|]. eapply keep_trans; [|exact Kd]. apply keep_hset_same. exact Hi1obj. }
        * eapply post_equiv; [eapply post_trans; [exact P12|exact P| |]| |].
          -- intros x [Hx|Hx].
             ++ destruct (Nat.eq_dec x i) as [Eq|Eq]; [left; auto|]. right. destruct (Hdis x Hx) as [Hd1 Hd2]. split; [tauto|].
                intros Hx2. apply (i_FS _ _ _ _ _ Hinv x); [right; rewrite slotF_cons, slotF_one; auto|rewrite slotS_cons; auto].
             ++ left; auto.
          -- intros x Hx [Hx2|[Hx2|Hx2]].
             ++ subst x. apply HiS. rewrite slotS_cons, slotS_one; auto.
             ++ apply (i_FS _ _ _ _ _ Hinv x); [auto|rewrite slotS_cons, slotS_one; auto].
             ++ apply (i_FS _ _ _ _ _ Hinv x); [right; rewrite slotF_cons; auto|rewrite slotS_cons, slotS_one; auto].
          -- intros x. rewrite (slotF_cons _ sl), slotF_one. simpl. intuition.
          -- intros x. rewrite (slotS_cons _ sl), slotS_one. simpl. tauto.
        * cbn [setfs map rdf all2 fst snd]. split.
          -- split; [reflexivity|]. eapply rdt_mono; [|exact R1].
             assert (P2r : post h1 ov1 seen1 (fun x => i = x \/ (x = i \/ In x js \/ slotF sl x)) (fun x => noids x \/ slotS sl x) h' ov' seen').
             { eapply post_trans; [exact P2|exact P| |]; [intros x Hx; left; auto|intros x []]. }
             intros x Hx.
             apply (region_step _ _ _ _ _ _ _ (fun x => In x js \/ slotF (s1 :: sl) x) (slotS (s1 :: sl)) _ _ _ _ _ _ P1 P2r); auto.
             ++ intros y Hy. unfold noids in Hy. destruct Hy as [Hy|[Hy|[[Hy|[Hy|[Hy|Hy]]]|[[]|Hy]]]]; try (subst; exact Hlt).
                ** apply (i_F _ _ _ _ _ Hi1 y Hy).
                ** apply (i_S _ _ _ _ _ Hi1 y Hy).
                ** apply (i_F _ _ _ _ _ Hinv y). auto.
                ** apply (i_F _ _ _ _ _ Hinv y). right; rewrite slotF_cons; auto.
                ** apply (i_S _ _ _ _ _ Hinv y). rewrite slotS_cons; auto.
             ++ intros y Hy. unfold noids. destruct (Hdis y Hy) as [Hd1 Hd2].
                assert (y <> i) by (intros Ey; subst; apply HiF; rewrite slotF_cons, slotF_one; auto).
                split; [intuition|]. intros [[]|Hy2].
                apply (i_FS _ _ _ _ _ Hinv y); [right; rewrite slotF_cons, slotF_one; auto|rewrite slotS_cons; auto].
             ++ intros y Hy [Hy2|[Hy2|[Hy2|Hy2]]].
                ** subst; apply HiS; rewrite slotS_cons, slotS_one; auto.
                ** subst; apply HiS; rewrite slotS_cons, slotS_one; auto.
                ** apply (i_FS _ _ _ _ _ Hinv y); [auto|rewrite slotS_cons, slotS_one; auto].
                ** apply (i_FS _ _ _ _ _ Hinv y); [right; rewrite slotF_cons; auto|rewrite slotS_cons, slotS_one; auto].
             ++ intros y Hy. right. rewrite slotF_cons, slotF_one; auto.
             ++ intros y Hy. rewrite slotS_cons, slotS_one; auto.
          -- clear - A P12. fold (setfs k c gs). revert fs' A. unfold setfs, rdf. induction gs as [|[g tg] gs IHg]; intros [|[g' w] fs']; cbn [map all2]; auto.
             intros [[HA1 HA2] HB]. split; [split; [exact HA1|]|apply IHg; exact HB].
             eapply rdt_mono; [|exact HA2]. intros x Hx. split; [|reflexivity].
             eapply region_weaken; [| | |exact Hx].
             ++ apply (p_next _ _ _ _ _ _ _ _ P12).
             ++ intros y [Hy|Hy]; [auto|right; rewrite slotF_cons; auto].
             ++ intros y Hy. rewrite slotS_cons; auto.
    - (* a list *)
      rename fs0 into fs. rename js0 into js.
      inversion HV as [|? ? [_ HV1] HV2]; subst. inversion Hok as [|? ? Hok1 Hok2]; subst. simpl in HV1.
      match goal with H : sf h k c fs gs js sl2 |- _ => rename H into Hsf' end.
      match goal with H : se h _ vs ts sl1 |- _ => rename H into Hse end.
      match goal with H : h_obj h j = _ |- _ => rename H into Hj end.
      cbn [app] in Ho, Hnd.
      assert (Hf : ~ In f (map fst dn)).
      { rewrite map_app in Hnd. simpl in Hnd. apply NoDup_remove_2 in Hnd. intros Hx; apply Hnd, in_or_app; auto. }
      rewrite <- app_assoc in Hg.
      assert (Hcp1 : copy = true \/ flat_map s_S sl1 = []).
      { destruct Hcp as [?|Hcp]; [auto|]. right. rewrite flat_map_app in Hcp. apply app_eq_nil in Hcp. tauto. }
      assert (Hcp2 : copy = true \/ flat_map s_S sl2 = []).
      { destruct Hcp as [?|Hcp]; [auto|]. right. rewrite flat_map_app in Hcp. apply app_eq_nil in Hcp. tauto. }
      rewrite flat_map_app in Hn.
      assert (Hn1 : NoDup (flat_map s_F sl1)).
      { simpl in Hn. inversion Hn; subst. apply NoDup_app_r in H2. apply NoDup_app_l in H2. exact H2. }
      assert (Hn2 : NoDup (js ++ flat_map s_F sl2)).
      { simpl in Hn. inversion Hn; subst.
        eapply Permutation_NoDup in H2; [|rewrite (Permutation_app_comm (flat_map s_F sl1)), app_assoc; reflexivity].
        apply NoDup_app_l in H2. exact H2. }
      assert (HjN : ~ In j js /\ ~ slotF sl1 j /\ ~ slotF sl2 j).
      { simpl in Hn. inversion Hn as [|? ? Hx _]; subst. unfold slotF.
        repeat split; intros Hy; apply Hx; rewrite !in_app_iff; auto. }
      assert (Hdis : forall x, slotF sl1 x -> ~ In x js /\ ~ slotF sl2 x).
      { intros x Hx. simpl in Hn. inversion Hn as [|? ? _ Hn']; subst. split.
        - intros Hy. apply (NoDup_app_disj _ _ x Hn' Hy). apply in_or_app; auto.
        - apply NoDup_app_r in Hn'. exact (NoDup_app_disj _ _ x Hn' Hx). }
      assert (HjS : ~ slotS (sl1 ++ sl2) j) by (intros Hx; apply (i_FS _ _ _ _ _ Hinv j); [left; left; reflexivity|exact Hx]).
      assert (Hjlt : j < h_next h) by (apply (i_F _ _ _ _ _ Hinv); left; left; reflexivity).
      assert (Hij' : i <> j) by (intros Ex; subst; apply Hij; left; reflexivity).
      rewrite slotF_app in HiF. rewrite slotS_app in HiS. rewrite slotS_app in HjS.
      assert (Hi1 : inv h ov seen (slotF sl1) (slotS sl1)).
      { eapply inv_sub; [exact Hinv| |]; intros x Hx; cbv beta; [right; rewrite slotF_app; auto|rewrite slotS_app; auto]. }
      destruct (elts_ok copy n cur (demand k f c) (demand_ctxname _ _ _ Hc) ts HV1 vs sl1 (sl2 ++ rest) h ov seen Hse Hok1 Hn1 Hcp1 Hi1 Hg)
        as [l' [h1 [ov1 [seen1 [E1 [P1 [R1 [G1 K1]]]]]]]].
      pose proof (p_next _ _ _ _ _ _ _ _ P1) as Hnx1.
      assert (Hobj1 : forall x, x < h_next h -> ~ slotF sl1 x -> ~ slotS sl1 x -> h_obj h1 x = h_obj h x)
        by (intros x H1 H2 H3; apply (p_frame _ _ _ _ _ _ _ _ P1); auto).
      assert (Hj1 : h_obj h1 j = Some (OList vs)) by (rewrite Hobj1; tauto).
      assert (Hi1obj : h_obj h1 i = Some (ONode k (dn ++ (f, VRef j) :: fs ++ sx))) by (rewrite Hobj1; tauto).
      assert (Hov1 : forall x, ~ slotF sl1 x -> ~ slotS sl1 x -> ovg ov1 x = ovg ov x)
        by (intros x; apply (p_ov _ _ _ _ _ _ _ _ P1)).
      assert (P2 : post h1 ov1 seen1 (eq j) noids (hset h1 j (OList l')) ov1 seen1).
      { apply post_hset; [apply (p_wf _ _ _ _ _ _ _ _ P1)| |lia|].
        - intros [kk [Hk _]]. rewrite Hj1 in Hk. discriminate.
        - rewrite Hov1; [|tauto|tauto]. apply Hjs. left; reflexivity. }
      set (h2 := hset h1 j (OList l')) in *.
      assert (P12 : post h ov seen (fun x => slotF sl1 x \/ j = x) (slotS sl1) h2 ov1 seen1).
      { eapply post_equiv; [eapply post_trans; [exact P1|exact P2| |]| |].
        - intros x Hx. right. split; [|intros []]. intros Hx2; subst x. tauto.
        - intros x Hx Hx2; subst x. tauto.
        - intros x. cbv beta. tauto.
        - intros x. unfold noids. tauto. }
      assert (Hinv2 : inv h2 ov1 seen1 (fun x => In x js \/ slotF sl2 x) (slotS sl2)).
      { assert (I0 : inv h1 ov1 seen1 (fun x => In x js \/ slotF sl2 x) (slotS sl2)).
        { eapply inv_step; [exact Hinv|exact P1| | | | |]; intros x Hx; cbv beta in *.
          - right. rewrite slotF_app. auto.
          - rewrite slotS_app. auto.
          - destruct Hx; [left; right; auto|]. right. rewrite slotF_app. auto.
          - rewrite slotS_app. auto.
          - intros Hx2. destruct (Hdis x Hx2); tauto. }
        constructor; try apply I0.
        - apply (p_wf _ _ _ _ _ _ _ _ P2).
        - intros x [kk [Hx Hk]]. destruct (Nat.eq_dec j x) as [Eq|Eq].
          + subst x. unfold h2 in Hx. rewrite hset_same in Hx. discriminate.
          + apply (i_ovl _ _ _ _ _ I0). exists kk. unfold h2 in Hx. rewrite hset_other in Hx by exact Eq. auto. }
      assert (Hsf2 : sf h2 k c fs gs js sl2).
      { apply (sf_frame h h2 (p_leaf _ _ _ _ _ _ _ _ P12) k c fs gs js sl2 Hsf').
        - intros x Hx. apply (p_frame _ _ _ _ _ _ _ _ P12).
          + apply (i_F _ _ _ _ _ Hinv). destruct Hx; [left; right; auto|]. right. rewrite slotF_app; auto.
          + intros [Hx2|Hx2].
            * destruct (Hdis x Hx2); tauto.
            * subst x. tauto.
          + left. intros Hx2. apply (i_FS _ _ _ _ _ Hinv x).
            * destruct Hx; [left; right; auto|]. right. rewrite slotF_app; auto.
            * rewrite slotS_app; auto.
        - intros x a Hx. apply (p_name _ _ _ _ _ _ _ _ P12).
          + apply (i_S _ _ _ _ _ Hinv). rewrite slotS_app; auto.
          + intros [Hx2|Hx2].
            * apply (i_FS _ _ _ _ _ Hinv x); [right; rewrite slotF_app; auto|rewrite slotS_app; auto].
            * subst x. tauto. }
      destruct (IH HV2 fs js sl2 rest (dn ++ [(f, VRef j)]) sx h2 ov1 seen1 Hsf2 Hok2) as [fs' [h' [ov' [seen' [E [O [K [P [A [G Kp]]]]]]]]]]; auto.
      + rewrite <- app_assoc. simpl. exact Hnd.
      + unfold h2. rewrite hset_other by auto. rewrite <- app_assoc. exact Hi1obj.
      + unfold h2. simpl. lia.
      + intros Hx. apply Hij. right; exact Hx.
      + rewrite Hov1; tauto.
      + intros x Hx. rewrite Hov1.
        * apply Hjs. right; exact Hx.
        * intros Hx2. destruct (Hdis x Hx2); tauto.
        * intros Hx2. apply (i_FS _ _ _ _ _ Hinv x); [left; right; auto|rewrite slotS_app; auto].
      + exists ((f, VRef j) :: fs'), h', ov', seen'. cbn [map fst gv_keys w_heap]. rewrite Ho, (vget_app f _ dn (fs ++ sx) Hf), Hj, E1.
        unfold set_heap. cbn [w_heap w_ov w_seen].
        change (hset h1 j (OList l')) with h2. rewrite E.
        split; [reflexivity|]. split; [rewrite O, <- app_assoc; reflexivity|]. split; [simpl; rewrite K; reflexivity|].
        split; [|split; [|split; [exact G|]]].
        3: { intros Hz. rewrite flat_map_app in Hz. apply app_eq_nil in Hz. destruct Hz as [Hz1 Hz2].
             destruct (K1 Hz1) as [Ka Kb]. destruct (Kp Hz2) as [Kc Kd]. subst. split; [reflexivity|].
             eapply keep_trans; [exact Kb|]. eapply keep_trans; [|exact Kd]. apply keep_hset_same. exact Hj1. }
        * eapply post_equiv; [eapply post_trans; [exact P12|exact P| |]| |].
          -- intros x [Hx|Hx].
             ++ right. destruct (Hdis x Hx) as [Hd1 Hd2]. split; [intros [Hx2|[Hx2|Hx2]]; subst; tauto|].
                intros Hx2. apply (i_FS _ _ _ _ _ Hinv x); [right; rewrite slotF_app; auto|rewrite slotS_app; auto].
             ++ right. subst x. split; [intros [Hx2|[Hx2|Hx2]]; [congruence|tauto|tauto]|tauto].
          -- intros x Hx [Hx2|[Hx2|Hx2]].
             ++ subst x. tauto.
             ++ apply (i_FS _ _ _ _ _ Hinv x); [left; right; auto|rewrite slotS_app; auto].
             ++ apply (i_FS _ _ _ _ _ Hinv x); [right; rewrite slotF_app; auto|rewrite slotS_app; auto].
          -- intros x. rewrite slotF_app. simpl. intuition.
          -- intros x. rewrite slotS_app. tauto.
        * cbn [setfs map rdf all2 fst snd]. split.
          -- split; [reflexivity|].
             (* the list object, then its elements *)
             assert (Hstab : forall x, region h h1 (slotF sl1) (slotS sl1) x ->
                region h h' (fun x => (j = x \/ In x js) \/ slotF (sl1 ++ sl2) x) (slotS (sl1 ++ sl2)) x /\ h_obj h' x = h_obj h1 x).
             { assert (P2r : post h1 ov1 seen1 (fun x => j = x \/ (x = i \/ In x js \/ slotF sl2 x)) (fun x => noids x \/ slotS sl2 x) h' ov' seen').
               { eapply post_trans; [exact P2|exact P| |intros x []].
                 intros x Hx. subst x. right. split; [intros [Hx2|[Hx2|Hx2]]; [congruence|tauto|tauto]|tauto]. }
               apply (region_step _ _ _ _ _ _ _ (fun x => (j = x \/ In x js) \/ slotF (sl1 ++ sl2) x) (slotS (sl1 ++ sl2)) _ _ _ _ _ _ P1 P2r); auto.
               - intros y Hy. unfold noids in Hy. destruct Hy as [Hy|[Hy|[[Hy|[Hy|[Hy|Hy]]]|[[]|Hy]]]]; try (subst; assumption).
                 + apply (i_F _ _ _ _ _ Hi1 y Hy).
                 + apply (i_S _ _ _ _ _ Hi1 y Hy).
                 + apply (i_F _ _ _ _ _ Hinv y). left; right; auto.
                 + apply (i_F _ _ _ _ _ Hinv y). right; rewrite slotF_app; auto.
                 + apply (i_S _ _ _ _ _ Hinv y). rewrite slotS_app; auto.
               - intros y Hy. unfold noids. destruct (Hdis y Hy) as [Hd1 Hd2].
                 split; [intros [Hy2|[Hy2|[Hy2|Hy2]]]; subst; tauto|]. intros [[]|Hy2].
                 apply (i_FS _ _ _ _ _ Hinv y); [right; rewrite slotF_app; auto|rewrite slotS_app; auto].
               - intros y Hy [Hy2|[Hy2|[Hy2|Hy2]]].
                 + subst; tauto.
                 + subst; tauto.
                 + apply (i_FS _ _ _ _ _ Hinv y); [left; right; auto|rewrite slotS_app; auto].
                 + apply (i_FS _ _ _ _ _ Hinv y); [right; rewrite slotF_app; auto|rewrite slotS_app; auto].
               - intros y Hy. right. rewrite slotF_app; auto.
               - intros y Hy. rewrite slotS_app; auto. }
             cbn [set_ctx rdt]. exists j, l'. split; [reflexivity|]. split; [left; left; left; reflexivity|]. split.
             ++ rewrite (p_frame _ _ _ _ _ _ _ _ P).
                ** unfold h2. apply hset_same.
                ** unfold h2. simpl. lia.
                ** intros [Hx|[Hx|Hx]]; [congruence|tauto|tauto].
                ** left. tauto.
             ++ clear - R1 Hstab. revert l' R1. induction ts as [|t' ts IHt]; intros [|w l']; cbn [map all2]; auto.
                intros [HA HB]. split; [|apply IHt; exact HB].
                eapply rdt_mono; [|exact HA]. exact Hstab.
          -- clear - A P12. fold (setfs k c gs). revert fs' A. unfold setfs, rdf. induction gs as [|[g tg] gs IHg]; intros [|[g' w] fs']; cbn [map all2]; auto.
             intros [[HA1 HA2] HB]. split; [split; [exact HA1|]|apply IHg; exact HB].
             eapply rdt_mono; [|exact HA2]. intros x Hx. split; [|reflexivity].
             eapply region_weaken; [| | |exact Hx].
             ++ apply (p_next _ _ _ _ _ _ _ _ P12).
             ++ intros y [Hy|Hy]; [left; right; auto|right; rewrite slotF_app; auto].
             ++ intros y Hy. rewrite slotS_app; auto.
  Qed.
End Keys.
