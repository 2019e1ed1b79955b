From Coq Require Import Permutation.
From Verif Require Import Base AstLib HeapAst CtxModel CtxSpec CtxProofs CtxProofs2 CtxProofs3 CtxProofs4 CtxProofs5 CtxProofs6 CtxProofs7.

Lemma ctx_head {A} k (l : list A) : ctx_class k = true -> head_fields k l = l /\ tail_fields k l = [].
Proof.
  intros H. unfold head_fields, tail_fields.
  assert (E : smem k ["For"; "AsyncFor"]%string = false).
  { destruct (smem k ["For"; "AsyncFor"]%string) eqn:E; [|reflexivity]. apply smem_In in E. destruct E as [E|[E|[]]]; subst; discriminate. }
  rewrite E. auto.
Qed.

Lemma In_vset f g w v (fs : list (string * val)) : In (f, v) (vset g w fs) -> f <> g -> In (f, v) fs.
Proof.
  induction fs as [|[x u] fs IH]; intros H Hn.
  - simpl in H. destruct H as [H|[]]. inversion H; congruence.
  - cbn [vset] in H. destruct (String.eqb g x) eqn:E.
    + apply String.eqb_eq in E; subst x. destruct H as [H|H]; [inversion H; congruence|right; exact H].
    + destruct H as [H|H]; [left; exact H|right; auto].
Qed.

Lemma height_field k (gs : list (string * tree unit)) f t n :
  height (Nd tt k gs) <= S n -> In (f, t) gs -> height t <= n.
Proof.
  cbn [height]. intros H Hin. apply le_S_n in H. revert H.
  generalize (if ctx_class k then 1 else 0). intros b. induction gs as [|[g u] gs IH]; [destruct Hin|].
  cbn [fold_right snd]. intros H. destruct Hin as [Hin|Hin]; [inversion Hin; subst; lia|]. apply IH; [exact Hin|]. cbn [snd] in H. lia.
Qed.
Lemma height_ctx k (gs : list (string * tree unit)) n : height (Nd tt k gs) <= S n -> ctx_class k = true -> 1 <= n.
Proof.
  cbn [height]. intros H Hk. rewrite Hk in H. apply le_S_n in H. induction gs as [|[g u] gs IH]; simpl in *; [lia|]. apply IH. simpl; lia.
Qed.
Lemma height_list (ts : list (tree unit)) t : In t ts -> height t <= height (Ls ts).
Proof. cbn [height]. induction ts as [|u ts IH]; [intros []|]. intros [H|H]; simpl; [subst; lia|]. apply IH in H. simpl in H. lia. Qed.

Lemma rdf_mono (P Q : nat -> Prop) h h' gs fs :
  (forall i, P i -> Q i /\ h_obj h' i = h_obj h i) -> rdf P h gs fs -> rdf Q h' gs fs.
Proof.
  intros HPQ. unfold rdf. revert fs. induction gs as [|[f t] gs IH]; intros [|[g w] fs]; cbn [all2]; auto.
  intros [[A B] C]. split; [split; [exact A|eapply rdt_mono; eassumption]|apply IH; exact C].
Qed.
Lemma rdf_app P h gs1 gs2 fs1 fs2 : rdf P h gs1 fs1 -> rdf P h gs2 fs2 -> rdf P h (gs1 ++ gs2) (fs1 ++ fs2).
Proof.
  unfold rdf. revert fs1. induction gs1 as [|[f t] gs IH]; intros [|[g w] fs]; cbn [all2 app]; auto; try contradiction.
  intros [A B] C. split; [exact A|apply IH; assumption].
Qed.

Lemma setfs_app k c a b : setfs k c (a ++ b) = setfs k c a ++ setfs k c b.
Proof. apply map_app. Qed.

Section Visit.
  Variable copy : bool.
  Notation VOK := (VOK copy).
  Notation FOK := (fun p : string * tree unit => VOK (snd p) /\ match snd p with Ls l => Forall VOK l | _ => True end).

  Lemma fieldsound_fld_ok n k c gs : Forall (fieldsound k c) gs -> (forall f t, In (f, t) gs -> height t <= n) ->
    Forall (fld_ok n k c) gs.
  Proof.
    intros Hs Hh. rewrite Forall_forall in *. intros [f t] Hin. specialize (Hs _ Hin). specialize (Hh _ _ Hin).
    unfold fld_ok. cbn [fst snd]. cbn [fieldsound] in Hs.
    destruct (ctx_class k && String.eqb f "ctx") eqn:E1.
    - destruct t as [[] kt [|]| |]; try discriminate. intros _. split; [|exact Hh].
      apply andb_true_iff in E1. destruct E1 as [E1 E2]. apply String.eqb_eq in E2. subst f.
      assert (Hd : demand k "ctx" c = "Load"%string).
      { unfold ctx_class in E1. apply smem_In in E1. simpl in E1.
        repeat (destruct E1 as [E1|E1]; [subst k; reflexivity|]). contradiction. }
      rewrite Hd. apply andb_true_iff in Hs. apply Hs.
    - destruct (at_pos identifier_positions k f).
      + destruct t; try discriminate.
      + destruct t as [m kt ft|l|a].
        * intros _. apply andb_true_iff in Hs. destruct Hs as [_ Hs]. split; assumption.
        * rewrite forallb_forall in Hs. apply Forall_forall. intros x Hx _. specialize (Hs x Hx).
          apply andb_true_iff in Hs. split; [apply Hs|]. pose proof (height_list _ _ Hx). lia.
        * intros H; discriminate.
  Qed.

  Lemma fix_one_ok c i k fs gs h ov seen F1 S1 F2 S2 n :
    ctxname c ->
    h_obj h i = Some (ONode k fs) -> (ctx_class k = true \/ fs <> []) ->
    rep_fields h k c (head_fields k fs) (head_fields k gs) F1 S1 ->
    rep_fields h k c (tail_fields k fs) (tail_fields k gs) F2 S2 ->
    no_conflict h k c (head_fields k fs) S1 ->
    fields_ok k (map fst gs) = true -> Forall (fieldsound k c) gs ->
    height (Nd tt k gs) <= S n -> Forall FOK gs -> NoDup (i :: F1 ++ F2) ->
    inv h ov seen (fun x => In x (i :: F1 ++ F2)) (fun x => In x (map fst (S1 ++ S2))) ->
    ovg ov i = None ->
    exists h1 seen1 fs1 gs1,
      fix_one copy c i k fs (mkWst h ov seen) = (i, mkWst h1 ov seen1) /\
      h_obj h1 i = Some (ONode k fs1) /\ post h ov seen (eq i) noids h1 ov seen1 /\
      rep_fields h1 k c (head_fields k fs1) (head_fields k gs1) F1 S1 /\
      rep_fields h1 k c (tail_fields k fs1) (tail_fields k gs1) F2 S2 /\
      no_conflict h1 k c (head_fields k fs1) S1 /\
      fields_ok k (map fst fs1) = true /\ map fst gs1 = map fst fs1 /\
      Forall (fieldsound k c) gs1 /\ Forall FOK gs1 /\ Forall (fld_ok n k c) gs1 /\
      setfs k c gs1 = (if ctx_class k then setf "ctx" (Nd tt c []) (setfs k c gs) else setfs k c gs) /\ keep h h1.
  Proof.
    intros Hc Ho Hne Hf1 Hf2 Hnc Hfo Hfs Hh Hv Hnd Hi Hov.
    pose proof (rep_node_keys _ _ _ _ _ _ _ _ _ Hf1 Hf2) as Hkeys.
    assert (Hilt : i < h_next h) by (apply (i_F _ _ _ _ _ Hi); left; reflexivity).
    unfold fix_one. rewrite has_ctx_class. destruct (ctx_class k) eqn:Hk.
    - assert (Hns : existsb (Nat.eqb i) seen = false).
      { destruct (existsb (Nat.eqb i) seen) eqn:E; [|reflexivity]. exfalso. apply existsb_exists in E. destruct E as [x [Hx E]].
        apply Nat.eqb_eq in E. subst x. apply (i_seenF _ _ _ _ _ Hi i Hx). left; reflexivity. }
      cbn [w_seen w_heap w_ov]. rewrite Hns, andb_false_r. cbn [halloc].
      destruct (ctx_head k fs Hk) as [E1 E2]. destruct (ctx_head k gs Hk) as [E3 E4]. rewrite E1, E3 in Hf1. rewrite E2, E4 in Hf2. rewrite E1 in Hnc.
      set (c0 := h_next h). set (ha := snd (halloc h (ONode c []))).
      set (h1 := hset ha i (ONode k (vset "ctx" (VRef c0) fs))).
      exists h1, (i :: seen), (vset "ctx" (VRef c0) fs), (setf "ctx" (Nd tt c []) gs).
      split; [reflexivity|]. split; [apply hset_same|].
      assert (Hnl : ~ leaf h i). { intros [kk [Hk1 Hk2]]. rewrite Ho in Hk1. inversion Hk1; subst. congruence. }
      assert (Pa : post h ov seen noids noids ha ov seen) by (apply post_alloc, (i_wf _ _ _ _ _ Hi)).
      assert (Hia : h_obj ha i = Some (ONode k fs)) by (unfold ha; rewrite halloc_old; assumption).
      assert (Pb : post ha ov seen (eq i) noids h1 ov seen).
      { apply post_hset; [apply (p_wf _ _ _ _ _ _ _ _ Pa)| |unfold ha; simpl; lia|exact Hov].
        intros [kk [Hk1 Hk2]]. rewrite Hia in Hk1. inversion Hk1; subst. congruence. }
      assert (P : post h ov seen (eq i) noids h1 ov (i :: seen)).
      { assert (P0 : post h ov seen (eq i) noids h1 ov seen).
        { eapply post_equiv; [eapply post_trans; [exact Pa|exact Pb| |]| |]; unfold noids; intros x; tauto. }
        constructor; try apply P0.
        - intros x Hx. right; exact Hx.
        - intros x [Hx|Hx]; auto.
        - intros x []. }
      assert (Hc0 : h_obj h1 c0 = Some (ONode c [])).
      { unfold h1. rewrite hset_other by (unfold c0; lia). unfold ha. apply halloc_new. }
      assert (HF : forall x, In x (F1 ++ F2) -> h_obj h1 x = h_obj h x).
      { intros x Hx. apply (p_frame _ _ _ _ _ _ _ _ P).
        - apply (i_F _ _ _ _ _ Hi). right; exact Hx.
        - intros E; subst x. inversion Hnd; contradiction.
        - left. intros []. }
      assert (HS : forall x a, In x (map fst (S1 ++ S2)) -> name_obj h x a -> name_obj h1 x a).
      { intros x a Hx. apply (p_name _ _ _ _ _ _ _ _ P).
        - apply (i_S _ _ _ _ _ Hi). exact Hx.
        - intros E; subst x. apply (i_FS _ _ _ _ _ Hi i); [left; reflexivity|exact Hx]. }
      assert (HF1 : forall x, In x F1 -> h_obj h1 x = h_obj h x) by (intros x Hx; apply HF, in_or_app; auto).
      assert (HS1 : forall x a, In x (map fst S1) -> name_obj h x a -> name_obj h1 x a)
        by (intros x a Hx; apply HS; rewrite map_app; apply in_or_app; auto).
      destruct (rep_frame_all h h1 (p_leaf _ _ _ _ _ _ _ _ P)) as [_ [_ Hfr]].
      pose proof (Hfr _ _ _ _ _ _ Hf1 HF1 HS1) as Hf1'.
      assert (Hnk : NoDup (map fst fs)) by (rewrite <- Hkeys; apply (fields_ok_nodup _ _ Hfo)).
      assert (Hbc : forall t, In ("ctx"%string, t) gs -> bare t = true).
      { intros t Ht. rewrite Forall_forall in Hfs. apply Hfs in Ht. cbn [fieldsound] in Ht. rewrite Hk in Ht.
        cbn [andb] in Ht. rewrite String.eqb_refl in Ht. apply andb_true_iff in Ht. apply Ht. }
      pose proof (rep_fields_vset h1 k c fs gs F1 S1 c0 c Hf1' Hnk Hbc Hc0 (ctxname_bare _ Hc)) as Hf1n.
      pose proof (height_ctx _ _ _ Hh Hk) as Hn1.
      destruct (ctx_head k (vset "ctx" (VRef c0) fs) Hk) as [E5 E6].
      destruct (ctx_head k (setf "ctx" (Nd tt c []) gs) Hk) as [E7 E8].
      rewrite E5, E6, E7, E8.
      assert (Hfs1 : Forall (fieldsound k c) (setf "ctx" (Nd tt c []) gs)).
      { apply Forall_setf; [exact Hfs|]. cbn [fieldsound]. rewrite Hk. cbn [andb]. rewrite String.eqb_refl.
        destruct Hc as [H|[H|H]]; subst; reflexivity. }
      split; [exact P|]. split; [exact Hf1n|]. split.
      { inversion Hf2; subst. constructor. }
      split.
      { intros f v x e Hin He Hd. apply (Hnc f v x e); [|exact He|].
        - apply (In_vset f "ctx" (VRef c0)); [exact Hin|]. intros Ef. subst f. apply expr_not_ctx in He. rewrite Hk in He. discriminate.
        - apply (direct_back h h1 (p_leaf _ _ _ _ _ _ _ _ P) k c fs gs F1 S1 f v x Hf1 HF1 HS1); [|exact Hd].
          apply (In_vset f "ctx" (VRef c0)); [exact Hin|]. intros Ef. subst f. apply expr_not_ctx in He. rewrite Hk in He. discriminate. }
      split; [apply fields_ok_vset; [exact Hk|rewrite <- Hkeys; exact Hfo]|].
      split; [apply setf_vset_keys; exact Hkeys|].
      split; [exact Hfs1|].
      split; [apply Forall_setf; [exact Hv|]; split; [apply vok_bare, ctxname_bare, Hc|exact I]|].
      split.
      { apply fieldsound_fld_ok; [exact Hfs1|]. 
        assert (HFH : Forall (fun p : string * tree unit => height (snd p) <= n) (setf "ctx" (Nd tt c []) gs)).
        { apply Forall_setf.
          - apply Forall_forall. intros [f t] Hin. apply (height_field k gs f t n Hh Hin).
          - simpl. destruct Hc as [H|[H|H]]; subst c; simpl; lia. }
        rewrite Forall_forall in HFH. intros f t Hin. apply (HFH _ Hin). }
      split; [apply setfs_setf, ctxname_bare, Hc|].
      eapply keep_trans; [apply (keep_alloc h (ONode c [])), (i_wf _ _ _ _ _ Hi)|]. fold ha.
      apply keep_ctx; [exact Hia|exact Hk|]. exists c. split; [unfold ha; apply halloc_new|apply ctxname_bare, Hc].
    - exists h, seen, fs, gs. split; [reflexivity|]. split; [exact Ho|]. split.
      { constructor; unfold noids; try tauto.
        - lia.
        - apply (i_wf _ _ _ _ _ Hi).
        - apply incl_refl.
        - intros x [Hx|[]]. subst; exact Hov. }
      split; [exact Hf1|]. split; [exact Hf2|]. split; [exact Hnc|]. split; [rewrite <- Hkeys; exact Hfo|]. split; [exact Hkeys|].
      split; [exact Hfs|]. split; [exact Hv|]. split; [|split; [reflexivity|apply keep_refl]].
      apply fieldsound_fld_ok; [exact Hfs|]. intros f t Hin. apply (height_field k gs f t n Hh Hin).
  Qed.

  Lemma Forall_head_tail (P : string * tree unit -> Prop) k gs : Forall P gs -> Forall P (head_fields k gs) /\ Forall P (tail_fields k gs).
  Proof. intros H. rewrite <- (head_tail k gs) in H. apply Forall_app in H. exact H. Qed.

  Lemma vok_node m k gs : Forall FOK gs -> VOK (Nd m k gs).
  Proof.
    destruct m. intros HV n cur c v h ov seen F S Hc Hr Hs _ Hh Hcp Hn Hi Hpre.
    destruct n as [|n]; [simpl in Hh; lia|].
    inversion Hr; subst.
    - (* bare *)
      apply (vok_bare copy k) with (F := []) (S := []); auto.
    - (* shared *)
      assert (Hcp1 : copy = true) by (destruct Hcp as [?|?]; [assumption|discriminate]).
      destruct (vok_shared copy (Datatypes.S n) cur c i a gs h ov seen) as [v' [h' [ov' [seen' [E [P R]]]]]]; auto.
      + pose proof (height_ctx _ _ _ Hh eq_refl). lia.
      + eapply inv_sub; [exact Hi| |]; intros x Hx; [destruct Hx|]. subst x. left; reflexivity.
      + apply Hpre; [reflexivity|]. cbn [s_t bare]. destruct gs; reflexivity.
      + exists v', h', ov', seen'. split; [exact E|].
        assert (HFq : forall x, noids x <-> In x (@nil nat)) by (intros x; unfold noids; simpl; tauto).
        assert (HSq : forall x, i = x <-> In x (map fst [(i, c)])) by (intros x; simpl; tauto).
        split; [|split; [|congruence]].
        * eapply post_equiv; [exact P|exact HFq|exact HSq].
        * eapply rdt_mono; [|exact R]. intros x Hx. split; [|reflexivity].
          eapply region_weaken; [| | |exact Hx]; [lia|intros y; apply HFq|intros y; apply HSq].
    - (* an owned node *)
      match goal with H : h_obj h i = _ |- _ => rename H into Ho end.
      match goal with H : ctx_class k = true \/ _ |- _ => rename H into Hne end.
      match goal with H : rep_fields _ _ _ (head_fields k fs) _ _ _ |- _ => rename H into Hf1 end.
      match goal with H : rep_fields _ _ _ (tail_fields k fs) _ _ _ |- _ => rename H into Hf2 end.
      match goal with H : no_conflict _ _ _ _ _ |- _ => rename H into Hnc end.
      pose proof (rep_node_keys _ _ _ _ _ _ _ _ _ Hf1 Hf2) as Hkeys.
      assert (Hbf : bare (Nd tt k gs) = false).
      { destruct gs; [|reflexivity]. simpl. destruct Hne as [Hne|Hne]; [rewrite Hne; reflexivity|].
        exfalso. apply Hne. destruct fs; [reflexivity|discriminate]. }
      cbn [sound] in Hs. apply andb_true_iff in Hs. destruct Hs as [Hs Hsf]. apply andb_true_iff in Hs. destruct Hs as [Hfo Hcl].
      assert (Hfs : Forall (fieldsound k c) gs).
      { apply Forall_forall. intros [f t] Hin. rewrite forallb_forall in Hsf. apply Hsf in Hin. exact Hin. }
      assert (Hcl' : c = "Load"%string \/ ctx_class k = true).
      { apply orb_true_iff in Hcl. destruct Hcl as [Hcl|Hcl]; [left; apply String.eqb_eq; exact Hcl|right; exact Hcl]. }
      destruct Hpre as [Hpre1 [Hpre2 Hpre3]]. cbn [s_v s_t s_c s_F s_S] in Hpre1, Hpre2, Hpre3.
      specialize (Hpre1 i eq_refl Hbf). apply (fun a => conj a I) in Hpre1.
      set (ov0 := ov_del (VRef i) ov).
      assert (Hov0i : ovg ov0 i = None) by (unfold ov0; rewrite ov_get_del, val_eqb_ref, Nat.eqb_refl; reflexivity).
      assert (Hov0 : forall x, x <> i -> ovg ov0 x = ovg ov x).
      { intros x Hx. unfold ov0. rewrite ov_get_del, val_eqb_ref. destruct (Nat.eqb i x) eqn:E; [apply Nat.eqb_eq in E; congruence|reflexivity]. }
      assert (Hi0 : inv h ov0 seen (fun x => In x (i :: F1 ++ F2)) (fun x => In x (map fst (S1 ++ S2)))).
      { constructor; try apply Hi.
        - intros x Hx. destruct (Nat.eq_dec x i) as [E|E]; [subst; exact Hov0i|]. rewrite Hov0 by exact E. apply (i_ovb _ _ _ _ _ Hi x Hx).
        - intros x Hx. destruct (Nat.eq_dec x i) as [E|E]; [subst; exact Hov0i|]. rewrite Hov0 by exact E. apply (i_ovl _ _ _ _ _ Hi x Hx). }
      destruct (fix_one_ok c i k fs gs h ov0 seen F1 S1 F2 S2 n Hc Ho Hne Hf1 Hf2 Hnc Hfo Hfs Hh HV Hn Hi0 Hov0i)
        as [h1 [seen1 [fs1 [gs1 [Efix [Ho1 [P1 [Hf1' [Hf2' [Hnc' [Hfo' [Hkeys' [Hfs' [HV' [Hfld' [Hset' Kfix]]]]]]]]]]]]]]]].
      destruct (rep_fields_sf _ _ _ _ _ _ _ Hf1') as [js1 [sl1 [Hsf1 [Hp1 HS1]]]].
      destruct (rep_fields_sf _ _ _ _ _ _ _ Hf2') as [js2 [sl2 [Hsf2 [Hp2 HS2]]]].
      subst S1 S2.
      assert (HF1 : forall x, In x F1 <-> In x js1 \/ slotF sl1 x).
      { intros x. unfold slotF. rewrite <- in_app_iff. split; apply Permutation_in; [exact Hp1|symmetry; exact Hp1]. }
      assert (HF2 : forall x, In x F2 <-> In x js2 \/ slotF sl2 x).
      { intros x. unfold slotF. rewrite <- in_app_iff. split; apply Permutation_in; [exact Hp2|symmetry; exact Hp2]. }
      inversion Hn as [|? ? HiF HnF]; subst.
      assert (HnF1 : NoDup F1) by (apply NoDup_app_l in HnF; exact HnF).
      assert (HnF2 : NoDup F2) by (apply NoDup_app_r in HnF; exact HnF).
      assert (HF12 : forall x, In x F1 -> ~ In x F2) by (intros x; apply (NoDup_app_disj _ _ x HnF)).
      rewrite in_app_iff in HiF.
      pose proof (Permutation_NoDup Hp1 HnF1) as Hnj1. pose proof (Permutation_NoDup Hp2 HnF2) as Hnj2.
      assert (HsS : forall x, In x (map fst (flat_map s_S sl1 ++ flat_map s_S sl2)) <-> slotS sl1 x \/ slotS sl2 x).
      { intros x. rewrite map_app, in_app_iff. reflexivity. }
      assert (HFSx : forall x, (x = i \/ In x F1 \/ In x F2) -> ~ slotS sl1 x /\ ~ slotS sl2 x).
      { intros x Hx. assert (Hq : ~ (slotS sl1 x \/ slotS sl2 x)).
        { rewrite <- HsS. apply (i_FS _ _ _ _ _ Hi x). simpl. rewrite in_app_iff. intuition. }
        tauto. }
      assert (Hcp1 : copy = true \/ flat_map s_S sl1 = []) by (destruct Hcp as [?|Hcp]; [auto|right; apply app_eq_nil in Hcp; tauto]).
      assert (Hcp2 : copy = true \/ flat_map s_S sl2 = []) by (destruct Hcp as [?|Hcp]; [auto|right; apply app_eq_nil in Hcp; tauto]).
      (* the overrides *)
      assert (Hfound : forall f c' g, In (f, c', g) (setup k) -> exists w, vget f fs1 = Some w).
      { intros f c' g Hin. apply vget_key. exact (fields_ok_setup _ _ Hfo' _ _ _ Hin). }
      destruct (run_setup_ov (setup k) fs1 (mkWst h1 ov0 seen1) Hfound) as [ov2 [Esetup Hov2]].
      cbn [w_heap w_ov w_seen] in Esetup, Hov2.
      assert (Hnk : NoDup (map fst fs1)) by (apply (fields_ok_nodup _ _ Hfo')).
      assert (Hov2' : forall x,
        (ovg ov2 x = ovg ov0 x /\ forall f c' g v, In (f, c', g) (setup k) -> In (f, v) (head_fields k fs1) -> ~ direct h1 v x) \/
        (exists f c' g v, In (f, c', g) (setup k) /\ In (f, v) (head_fields k fs1) /\ direct h1 v x /\ ovg ov2 x = Some c')).
      { intros x. destruct (Hov2 x) as [[A B]|[f [c' [g [v [A [B [C D]]]]]]]].
        - left. split; [exact A|]. intros f c' g v Hin Hin2. apply (B f c' g v Hin). apply In_vget; [exact Hnk|].
          rewrite <- (head_tail k fs1). apply in_or_app; left; exact Hin2.
        - right. exists f, c', g, v. split; [exact A|]. split; [|split; [exact C|exact D]]. apply (setup_head k fs1 f c' g v Hfo' A B). }
      destruct (Forall_head_tail _ k _ Hfs') as [Hfsh Hfst]. destruct (Forall_head_tail _ k _ HV') as [HVh HVt].
      destruct (Forall_head_tail _ k _ Hfld') as [Hfldh Hfldt].
      assert (Hinc1 : incl (map fst (head_fields k fs1)) (map fst fs1)).
      { intros x Hx. rewrite <- (head_tail k fs1), map_app. apply in_or_app; auto. }
      assert (Hinc2 : incl (map fst (tail_fields k fs1)) (map fst fs1)).
      { intros x Hx. rewrite <- (head_tail k fs1), map_app. apply in_or_app; auto. }
      assert (HF0 : forall x, In x F1 \/ In x F2 -> ovg ov0 x = None).
      { intros x Hx. assert (x <> i) by (intros E; subst; tauto). rewrite Hov0 by assumption. apply Hpre2; [|congruence].
        right. rewrite in_app_iff. exact Hx. }
      assert (HS0 : forall x e, In (x, e) (flat_map s_S sl1) \/ In (x, e) (flat_map s_S sl2) -> ovg ov0 x = None \/ ovg ov0 x = Some e).
      { intros x e Hx. assert (x <> i).
        { intros E; subst. destruct (HFSx i (or_introl eq_refl)) as [HA HB]. destruct Hx as [Hx|Hx]; apply in_map_fst in Hx; tauto. }
        rewrite Hov0 by assumption. apply Hpre3. rewrite in_app_iff. exact Hx. }
      assert (HnsF1 : NoDup (flat_map s_F sl1)) by (apply NoDup_app_r in Hnj1; exact Hnj1).
      assert (HnsF2 : NoDup (flat_map s_F sl2)) by (apply NoDup_app_r in Hnj2; exact Hnj2).
      assert (Hrd : ready c ov2 sl1).
      { apply (head_ready h1 k c (map fst fs1) (head_fields k fs1) (head_fields k gs1) js1 sl1 ov0 ov2); auto.
        - intros x Hx. assert (In x F1) by (apply HF1; auto). apply HFSx; auto.
        - intros x Hx. apply HF0. left; apply HF1; auto. }
      assert (Hreg : forall x, ~ slotF sl1 x -> ~ slotS sl1 x -> ovg ov2 x = ovg ov0 x).
      { intros x Hx1 Hx2. destruct (Hov2' x) as [[A _]|[f [c' [g [v [A [B [C D]]]]]]]]; [exact A|]. exfalso.
        destruct (reg_slot h1 k c (head_fields k fs1) (head_fields k gs1) js1 sl1 Hsf1 Hfsh f c' g v x A B C) as [s [A1 [_ [_ [A2|A2]]]]].
        - apply Hx1. apply in_flat_map; eauto.
        - apply Hx2. eapply in_map_fst. apply in_flat_map; eauto. }
      assert (Hok1 : Forall slot_ok sl1).
      { apply Forall_forall. intros s Hin. destruct (sf_in _ _ _ _ _ _ _ _ Hsf1 Hin) as [? [? [? [_ [_ [_ [_ [G _]]]]]]]].
        apply (rep_slot_ok _ _ G). }
      assert (Hok2 : Forall slot_ok sl2).
      { apply Forall_forall. intros s Hin. destruct (sf_in _ _ _ _ _ _ _ _ Hsf2 Hin) as [? [? [? [_ [_ [_ [_ [G _]]]]]]]].
        apply (rep_slot_ok _ _ G). }
      assert (Hg1 : good c ov2 (sl1 ++ [])) by (rewrite app_nil_r; apply ready_good; assumption).
      pose proof (p_next _ _ _ _ _ _ _ _ P1) as Hnx1.
      assert (Hilt : i < h_next h) by (apply (i_F _ _ _ _ _ Hi); left; reflexivity).
      assert (Hinv1 : inv h1 ov0 seen1 (fun x => In x F1 \/ In x F2) (fun x => slotS sl1 x \/ slotS sl2 x)).
      { eapply inv_step; [exact Hi0|exact P1| | | | |].
        - intros x Hx. subst x. left; reflexivity.
        - intros x [].
        - intros x Hx. right. apply in_or_app; exact Hx.
        - intros x Hx. apply HsS; exact Hx.
        - intros x Hx E. subst x. tauto. }
      assert (HrF : forall s x, In s sl1 -> In x (s_F s) -> In x F1) by (intros s x A B; apply HF1; right; apply in_flat_map; eauto).
      assert (Hinv1' : inv h1 ov2 seen1 (fun x => In x js1 \/ slotF sl1 x) (slotS sl1)).
      { assert (I1 : inv h1 ov0 seen1 (fun x => In x js1 \/ slotF sl1 x) (slotS sl1)).
        { eapply inv_sub; [exact Hinv1| |]; intros x Hx; [left; apply HF1; exact Hx|left; exact Hx]. }
        constructor; try apply I1.
        - intros x Hx. rewrite Hreg; [apply (i_ovb _ _ _ _ _ I1 x Hx)| |].
          + intros Hy. assert (x < h_next h1) by (apply (i_F _ _ _ _ _ I1); auto). lia.
          + intros Hy. assert (x < h_next h1) by (apply (i_S _ _ _ _ _ I1); auto). lia.
        - intros x Hx. destruct (Hov2' x) as [[A _]|[f [c' [g [v [A [B [C D]]]]]]]].
          + rewrite A. apply (i_ovl _ _ _ _ _ I1 x Hx).
          + exfalso. destruct (sf_direct2 _ _ _ _ _ _ _ _ _ _ Hsf1 B C) as [s [A1 [B1 [C1 [D1 E1]]]]].
            destruct (setup_positions _ _ _ _ A) as [He _].
            pose proof (child_not_bare _ _ _ _ _ Hfsh He E1 (rep_is_node _ _ _ _ _ _ D1)) as Hb.
            destruct Hx as [kx [Hx1 Hx2]]. rewrite B1 in D1. inversion D1; subst.
            * match goal with H : _ = s_t s |- _ => rewrite <- H in Hb end. simpl in Hb. 
              match goal with H : ctx_class ?k0 = false, Hb : negb (ctx_class ?k0) = false |- _ => rewrite H in Hb; discriminate end.
            * match goal with H : name_obj h1 x _ |- _ => apply name_obj_node in H; destruct H as [? [H HH]] end. congruence.
            * match goal with H : h_obj h1 x = Some (ONode _ _), H2 : _ \/ _ <> [] |- _ => rewrite Hx1 in H; inversion H; subst; destruct H2; congruence end. }
      (* the children *)
      destruct (keys_ok copy n c k c Hc i (head_fields k gs1) HVh (head_fields k fs1) js1 sl1 [] [] (tail_fields k fs1) h1 ov2 seen1 Hsf1 Hfldh)
        as [fsA [hA [ovA [seenA [EA [OA [KA [PA [RA [_ KpA]]]]]]]]]]; auto.
      { cbn [app]. rewrite head_tail. exact Hnk. }
      { cbn [app]. rewrite head_tail. exact Ho1. }
      { lia. }
      { intros Hx. apply HiF. left. apply HF1; auto. }
      { intros Hx. apply HiF. left. apply HF1; auto. }
      { apply (HFSx i); auto. }
      { rewrite Hreg; [exact Hov0i| |apply (HFSx i); auto]. intros Hx. apply HiF. left. apply HF1; auto. }
      { intros j Hj. assert (In j F1) by (apply HF1; auto). rewrite Hreg; [apply HF0; auto| |apply HFSx; auto].
        intros Hx. exact (NoDup_app_disj _ _ j Hnj1 Hj Hx). }
      cbn [app] in OA.
      assert (PA0 : post h1 ov0 seen1 (fun x => x = i \/ In x js1 \/ slotF sl1 x) (slotS sl1) hA ovA seenA).
      { eapply post_ov; [exact PA|]. intros x Hx1 Hx2. apply Hreg; tauto. }
      pose proof (p_next _ _ _ _ _ _ _ _ PA) as HnxA.
      assert (HinvA : inv hA ovA seenA (fun x => In x js2 \/ slotF sl2 x) (slotS sl2)).
      { assert (Hbig : inv h1 ov0 seen1 (fun x => In x F1 \/ In x F2) (fun x => slotS sl1 x \/ slotS sl2 x)) by exact Hinv1.
        constructor.
        - apply (p_wf _ _ _ _ _ _ _ _ PA).
        - intros x Hx. apply HF2 in Hx. assert (x < h_next h1) by (apply (i_F _ _ _ _ _ Hbig); auto). lia.
        - intros x Hx. assert (x < h_next h1) by (apply (i_S _ _ _ _ _ Hbig); auto). lia.
        - intros x Hx. rewrite (p_ov _ _ _ _ _ _ _ _ PA0).
          + apply (i_ovb _ _ _ _ _ Hbig). lia.
          + intros Hy. assert (x < h_next h1); [|lia]. destruct Hy as [Hy|Hy]; [subst; lia|]. apply HF1 in Hy. apply (i_F _ _ _ _ _ Hbig); auto.
          + intros Hy. assert (x < h_next h1) by (apply (i_S _ _ _ _ _ Hbig); auto). lia.
        - intros x Hx. destruct (in_dec Nat.eq_dec x (i :: js1 ++ flat_map s_F sl1)) as [Hy|Hy].
          { apply (p_ovF _ _ _ _ _ _ _ _ PA0). left. simpl in Hy. rewrite in_app_iff in Hy. unfold slotF. intuition. }
          assert (Hy' : ~ (x = i \/ In x js1 \/ slotF sl1 x)).
          { intros Hz. apply Hy. simpl. rewrite in_app_iff. unfold slotF in Hz. intuition. }
          destruct (slot_dec_S sl1 x) as [Hz|Hz]; [apply (p_ovF _ _ _ _ _ _ _ _ PA0); auto|].
          rewrite (p_ov _ _ _ _ _ _ _ _ PA0); [|exact Hy'|exact Hz].
          destruct (Nat.lt_ge_cases x (h_next h1)) as [Hlt|Hge]; [|apply (i_ovb _ _ _ _ _ Hbig x Hge)].
          apply (i_ovl _ _ _ _ _ Hbig). destruct Hx as [kx [Hx1 Hx2]]. exists kx.
          rewrite <- (p_frame _ _ _ _ _ _ _ _ PA0); auto.
        - intros x Hx. destruct (p_seen2 _ _ _ _ _ _ _ _ PA0 x Hx) as [Hy|[Hy|[Hy|Hy]]].
          + pose proof (i_seenb _ _ _ _ _ Hbig x Hy). lia.
          + destruct Hy as [Hy|Hy]; [subst; lia|]. apply HF1 in Hy. assert (x < h_next h1) by (apply (i_F _ _ _ _ _ Hbig); auto). lia.
          + assert (x < h_next h1) by (apply (i_S _ _ _ _ _ Hbig); auto). lia.
          + lia.
        - intros x Hx Hf. apply HF2 in Hf. destruct (p_seen2 _ _ _ _ _ _ _ _ PA0 x Hx) as [Hy|[Hy|[Hy|Hy]]].
          + apply (i_seenF _ _ _ _ _ Hbig x Hy). auto.
          + destruct Hy as [Hy|Hy]; [subst; tauto|]. apply HF1 in Hy. exact (HF12 x Hy Hf).
          + destruct (HFSx x); auto.
          + assert (x < h_next h1) by (apply (i_F _ _ _ _ _ Hbig); auto). lia.
        - intros x Hf. apply HF2 in Hf. apply HFSx. auto. }
      assert (Hsf2A : sf hA k c (tail_fields k fs1) (tail_fields k gs1) js2 sl2).
      { apply (sf_frame h1 hA (p_leaf _ _ _ _ _ _ _ _ PA) k c _ _ js2 sl2 Hsf2).
        - intros x Hx. apply HF2 in Hx. apply (p_frame _ _ _ _ _ _ _ _ PA).
          + apply (i_F _ _ _ _ _ Hinv1); auto.
          + intros [Hy|Hy]; [subst; tauto|]. apply HF1 in Hy. exact (HF12 x Hy Hx).
          + left. apply HFSx; auto.
        - intros x a Hx. apply (p_name _ _ _ _ _ _ _ _ PA).
          + apply (i_S _ _ _ _ _ Hinv1); auto.
          + intros [Hy|Hy]; [subst; apply (HFSx i); auto|]. apply HF1 in Hy. apply (HFSx x); auto. }
      assert (HovA : forall x, ~ (x = i \/ In x F1) -> ~ slotS sl1 x -> ovg ovA x = ovg ov0 x).
      { intros x Hx1 Hx2. apply (p_ov _ _ _ _ _ _ _ _ PA0); [|exact Hx2]. rewrite HF1 in Hx1. tauto. }
      assert (HrdA : ready c ovA sl2).
      { apply (tail_ready hA k c (map fst fs1) (tail_fields k fs1) (tail_fields k gs1) js2 sl2 ovA Hsf2A Hfo' Hinc2 Hfst Hcl' HnsF2).
        - intros x Hx. apply HFSx. right; right. apply HF2; auto.
        - intros x Hx. assert (HxF : In x F2) by (apply HF2; auto). rewrite HovA; [apply HF0; auto| |apply HFSx; auto].
          intros [Hy|Hy]; [subst; tauto|exact (HF12 x Hy HxF)].
        - intros x e Hx. destruct (slot_dec_S sl1 x) as [Hz|Hz].
          + left. apply (p_ovF _ _ _ _ _ _ _ _ PA0); auto.
          + rewrite HovA; [apply HS0; auto| |exact Hz]. apply in_map_fst in Hx.
            intros [Hy|Hy]; [subst; apply (HFSx i); auto|apply (HFSx x); auto].
        - intros f c' g Hin. destruct (Hfound f c' g Hin) as [w Hw]. apply (setup_head k fs1 f c' g w Hfo' Hin Hw). }
      assert (HgA : good c ovA (sl2 ++ [])) by (rewrite app_nil_r; apply ready_good; assumption).
      destruct (keys_ok copy n c k c Hc i (tail_fields k gs1) HVt (tail_fields k fs1) js2 sl2 [] fsA [] hA ovA seenA Hsf2A Hfldt)
        as [fsB [hB [ovB [seenB [EB [OB [KB [PB [RB [_ KpB]]]]]]]]]]; auto.
      { rewrite app_nil_r, map_app, KA, <- map_app, head_tail. exact Hnk. }
      { rewrite app_nil_r. exact OA. }
      { lia. }
      { intros Hx. apply HiF. right. apply HF2; auto. }
      { intros Hx. apply HiF. right. apply HF2; auto. }
      { apply (HFSx i); auto. }
      { apply (p_ovF _ _ _ _ _ _ _ _ PA0). auto. }
      { intros j Hj. assert (HjF : In j F2) by (apply HF2; auto). rewrite HovA; [apply HF0; auto| |apply HFSx; auto].
        intros [Hx|Hx]; [subst; tauto|exact (HF12 j Hx HjF)]. }
      rewrite app_nil_r in OB.
      exists (VRef i), hB, ovB, seenB.
      split.
      { cbn [visit w_heap w_ov w_seen]. fold (eff cur ov i). rewrite (proj1 Hpre1). fold ov0. rewrite Ho, Efix. cbn [w_heap]. rewrite Ho1, Esetup.
        rewrite <- (head_tail k fs1), map_app, gv_keys_app, EA, EB. reflexivity. }
      assert (PAB : post h1 ov0 seen1 (fun x => x = i \/ In x F1 \/ In x F2) (fun x => slotS sl1 x \/ slotS sl2 x) hB ovB seenB).
      { eapply post_equiv; [eapply post_trans; [exact PA0|exact PB| |]| |].
        - intros x [Hx|Hx]; [left; left; exact Hx|]. apply HF1 in Hx. right. split; [|apply HFSx; auto].
          intros [Hy|Hy]; [subst; tauto|]. apply HF2 in Hy. exact (HF12 x Hx Hy).
        - intros x Hx [Hy|Hy]; [destruct (HFSx x (or_introl Hy)); contradiction|]. apply HF2 in Hy. destruct (HFSx x (or_intror (or_intror Hy))); contradiction.
        - intros x. cbv beta. rewrite HF1, HF2. tauto.
        - intros x. reflexivity. }
      assert (PT : post h ov0 seen (fun x => In x (i :: F1 ++ F2)) (fun x => In x (map fst (flat_map s_S sl1 ++ flat_map s_S sl2))) hB ovB seenB).
      { eapply post_equiv; [eapply post_trans; [exact P1|exact PAB| |]| |].
        - intros x Hx. subst x. left; left; reflexivity.
        - intros x [].
        - intros x. cbv beta. simpl. rewrite in_app_iff. intuition.
        - intros x. cbv beta. rewrite HsS. unfold noids. tauto. }
      split; [|split; [|intros Hz; apply app_eq_nil in Hz; destruct Hz as [Hz1 Hz2]; split;
        [reflexivity|eapply keep_trans; [exact Kfix|eapply keep_trans; [apply (KpA Hz1)|apply (KpB Hz2)]]]]].
      { eapply post_ov; [exact PT|]. intros x Hx _. apply Hov0. intros E; subst. apply Hx. left; reflexivity. }
      cbn [set_ctx].
      change (map (fun p : string * tree unit => let (f, v) := p in (f, set_ctx (demand k f c) v)) gs) with (setfs k c gs).
      rewrite <- Hset'. cbn [rdt]. exists i, (fsA ++ fsB). split; [reflexivity|]. split; [left; left; reflexivity|]. split; [exact OB|].
      assert (Hgoal : rdf (region h hB (fun x => In x (i :: F1 ++ F2)) (fun x => In x (map fst (flat_map s_S sl1 ++ flat_map s_S sl2)))) hB
                (setfs k c gs1) (fsA ++ fsB)); [|exact Hgoal].
      rewrite <- (head_tail k gs1), setfs_app.
      apply rdf_app.
      + eapply rdf_mono; [|exact RA]. intros x Hx.
        assert (Hx' : region h1 hA (fun x => In x F1) (slotS sl1) x).
        { eapply region_weaken; [| | |exact Hx]; [lia|intros y Hy; apply HF1; exact Hy|intros y Hy; exact Hy]. }
        destruct (region_step2 h1 ov0 seen1 (fun x => In x F1) (fun x => x = i \/ In x js1 \/ slotF sl1 x) (slotS sl1)
                   (fun x => x = i \/ In x js2 \/ slotF sl2 x) (slotS sl2)
                   (fun x => In x (i :: F1 ++ F2)) (fun x => In x (map fst (flat_map s_S sl1 ++ flat_map s_S sl2)))
                   hA ovA seenA hB ovB seenB PA0 PB) with (i := x) as [Q1 Q2]; auto.
        * intros y [Hy|[Hy|[[Hy|Hy]|Hy]]].
          -- apply (i_F _ _ _ _ _ Hinv1); auto.
          -- apply (i_S _ _ _ _ _ Hinv1); auto.
          -- subst; lia.
          -- apply HF2 in Hy. apply (i_F _ _ _ _ _ Hinv1); auto.
          -- apply (i_S _ _ _ _ _ Hinv1); auto.
        * intros y Hy. split; [|apply HFSx; auto]. intros [Hz|Hz]; [subst; tauto|]. apply HF2 in Hz. exact (HF12 y Hy Hz).
        * intros y Hy [Hz|Hz]; [destruct (HFSx y (or_introl Hz)); contradiction|]. apply HF2 in Hz. destruct (HFSx y (or_intror (or_intror Hz))); contradiction.
        * intros y Hy. right. apply in_or_app; auto.
        * intros y Hy. apply HsS; auto.
        * split; [|exact Q2]. eapply region_weaken; [exact Hnx1| | |exact Q1]; auto.
      + eapply rdf_mono; [|exact RB]. intros x Hx. split; [|reflexivity].
        eapply region_weaken; [| | |exact Hx].
        * lia.
        * intros y Hy. right. apply in_or_app. right. apply HF2; exact Hy.
        * intros y Hy. apply HsS; auto.
  Qed.

  Theorem visit_ok t : VOK t.
  Proof.
    induction t as [m k fs IH|l IH|a] using tree_ind2.
    - apply vok_node; exact IH.
    - intros n cur c v h ov seen F S _ _ _ H; discriminate.
    - intros n cur c v h ov seen F S _ _ _ H; discriminate.
  Qed.
End Visit.
