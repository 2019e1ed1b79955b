From Coq Require Import Permutation.
From Verif Require Import Base AstLib HeapAst CtxModel CtxSpec CtxProofs CtxProofs2 CtxProofs3 CtxProofs4 CtxProofs5 CtxProofs6 CtxProofs7 CtxProofs8.

Section GoList.
  Variable copy : bool.
  Notation VOK := (VOK copy).
  Section Loop.
    Variable vis : val -> wst -> out (val * wst).
    Fixpoint go_elts (l : list val) (s : wst) : out (list val * wst) :=
      match l with
      | [] => Rt ([], s)
      | x :: r =>
          match vis x s with
          | Rt (x', s1) =>
              match go_elts r s1 with
              | Rt (r', s2) => Rt (x' :: r', s2)
              | Ex e => Ex e
              | NoFuel => NoFuel
              end
          | Ex e => Ex e
          | NoFuel => NoFuel
          end
      end.
  End Loop.

  Lemma go_ok n cur c (Hc : ctxname c) ts :
    Forall VOK ts -> forall vs sl rest h ov seen,
      se h c vs ts sl -> Forall (fun t => is_node t = true) ts ->
      Forall (fun t => is_node t = true -> sound c t = true /\ height t <= n) ts ->
      NoDup (flat_map s_F sl) -> (copy = true \/ flat_map s_S sl = []) ->
      inv h ov seen (slotF sl) (slotS sl) ->
      good cur ov (sl ++ rest) ->
      exists l' h' ov' seen',
        go_elts (visit copy n cur) vs (mkWst h ov seen) = Rt (l', mkWst h' ov' seen') /\
        post h ov seen (slotF sl) (slotS sl) h' ov' seen' /\
        all2 (rdt (region h h' (slotF sl) (slotS sl)) h') (map (set_ctx c) ts) l' /\
        good cur ov' rest /\ (flat_map s_S sl = [] -> l' = vs /\ keep h h').
  Proof.
    induction ts as [|t ts IH]; intros HV vs sl rest h ov seen Hse Hnds Hs Hn Hcp Hi Hg; inversion Hse; subst.
    - exists [], h, ov, seen. split; [reflexivity|]. split; [|split; [exact I|split; [exact Hg|split; [reflexivity|apply keep_refl]]]].
      eapply post_equiv; [apply post_refl; apply Hi| |]; intros i; cbn; tauto.
    - inversion Hnds; discriminate.
    - rename vs0 into vs. rename sl0 into sl. rename v into u. inversion HV as [|? ? HV1 HV2]; subst. inversion Hs as [|? ? Hs1 Hs2]; subst. assert (Hnds2 : Forall (fun t => is_node t = true) ts) by (inversion Hnds; assumption).
      match goal with H : rep h c u t F S |- _ => rename H into Hr end.
      match goal with H : se h c vs ts sl |- _ => rename H into Hse' end.
      pose proof (rep_is_node _ _ _ _ _ _ Hr) as Hnode. destruct (Hs1 Hnode) as [Hsnd Hht].
      simpl in Hn. simpl in Hcp. destruct Hg as [Hpre Hg].
      assert (HcS : copy = true \/ S = []).
      { destruct Hcp as [?|Hcp]; [auto|]. right. apply app_eq_nil in Hcp. tauto. }
      assert (HcS' : copy = true \/ flat_map s_S sl = []).
      { destruct Hcp as [?|Hcp]; [auto|]. right. apply app_eq_nil in Hcp. tauto. }
      assert (Hi1 : inv h ov seen (fun i => In i F) (fun i => In i (map fst S))).
      { eapply inv_sub; [exact Hi| |]; intros i Hx.
        - rewrite slotF_cons, slotF_one. auto.
        - rewrite slotS_cons, slotS_one. auto. }
      destruct (HV1 n cur c u h ov seen F S Hc Hr Hsnd Hnode Hht HcS (NoDup_app_l _ _ Hn) Hi1 Hpre)
        as [v' [h1 [ov1 [seen1 [E1 [P1 [R1 K1]]]]]]].
      assert (P1' : post h ov seen (slotF [mkSlot u t c F S]) (slotS [mkSlot u t c F S]) h1 ov1 seen1).
      { eapply post_equiv; [exact P1| |]; intros i; [rewrite slotF_one|rewrite slotS_one]; reflexivity. }
      assert (HD : forall i, slotF sl i -> ~ slotF [mkSlot u t c F S] i).
      { intros i Ha Hb. rewrite slotF_one in Hb. exact (NoDup_app_disj _ _ _ Hn Hb Ha). }
      assert (Hi2 : inv h1 ov1 seen1 (slotF sl) (slotS sl)).
      { eapply inv_step; [exact Hi|exact P1'| | | | |exact HD]; intros i Hx;
          try (rewrite slotF_cons; tauto); try (rewrite slotS_cons; tauto). }
      assert (Hse2 : se h1 c vs ts sl).
      { apply (se_frame h h1 (p_leaf _ _ _ _ _ _ _ _ P1) c vs ts sl Hse').
        - intros i Hf. apply (p_frame _ _ _ _ _ _ _ _ P1').
          + apply (i_F _ _ _ _ _ Hi). rewrite slotF_cons; auto.
          + apply HD; exact Hf.
          + left. intros Hx. apply (i_FS _ _ _ _ _ Hi i); [rewrite slotF_cons; auto|rewrite slotS_cons; auto].
        - intros i a Hx. apply (p_name _ _ _ _ _ _ _ _ P1').
          + apply (i_S _ _ _ _ _ Hi). rewrite slotS_cons; auto.
          + intros Hf. apply (i_FS _ _ _ _ _ Hi i); [rewrite slotF_cons; auto|rewrite slotS_cons; auto]. }
      destruct (IH HV2 vs sl rest h1 ov1 seen1 Hse2 Hnds2 Hs2 (NoDup_app_r _ _ Hn) HcS' Hi2 (Hg ov1 (post_popped _ _ _ _ _ _ _ _ P1')))
        as [l' [h' [ov' [seen' [E2 [P2 [A2 [G2 K2]]]]]]]].
      exists (v' :: l'), h', ov', seen'. cbn [go_elts w_heap].
      rewrite E1, E2. split; [reflexivity|].
      assert (HFF : forall i, slotF [mkSlot u t c F S] i -> ~ slotF sl i /\ ~ slotS sl i).
      { intros i Hf. split; [intros Hb; exact (HD i Hb Hf)|].
        intros Hx. apply (i_FS _ _ _ _ _ Hi i); [rewrite slotF_cons; auto|rewrite slotS_cons; auto]. }
      assert (HSF : forall i, slotS [mkSlot u t c F S] i -> ~ slotF sl i).
      { intros i Hx Hf. apply (i_FS _ _ _ _ _ Hi i); [rewrite slotF_cons; auto|rewrite slotS_cons; auto]. }
      split.
      { eapply post_equiv; [eapply post_trans; [exact P1'|exact P2| |]| |].
        - intros i Hf. right; apply HFF, Hf.
        - exact HSF.
        - intros i. rewrite (slotF_cons _ sl). tauto.
        - intros i. rewrite (slotS_cons _ sl). tauto. }
      split; [|split; [exact G2|intros Hz; simpl in Hz; apply app_eq_nil in Hz; destruct Hz as [Hz1 Hz2];
        destruct (K1 Hz1) as [Ka Kb]; destruct (K2 Hz2) as [Kc Kd]; subst; split; [reflexivity|eapply keep_trans; eassumption]]].
      cbn [map all2]. split.
      + eapply rdt_mono; [|exact R1].
        intros i Hreg.
        apply (region_step _ _ _ (slotF [mkSlot u t c F S]) (slotS [mkSlot u t c F S]) (slotF sl) (slotS sl)
                 (slotF (mkSlot u t c F S :: sl)) (slotS (mkSlot u t c F S :: sl)) _ _ _ _ _ _ P1' P2).
        * intros j Hj.
          destruct Hj as [Hj|[Hj|[Hj|Hj]]].
          -- apply (i_F _ _ _ _ _ Hi). rewrite slotF_cons. auto.
          -- apply (i_S _ _ _ _ _ Hi). rewrite slotS_cons. auto.
          -- apply (i_F _ _ _ _ _ Hi). rewrite slotF_cons. auto.
          -- apply (i_S _ _ _ _ _ Hi). rewrite slotS_cons. auto.
        * exact HFF.
        * exact HSF.
        * intros j Hj. rewrite slotF_cons. auto.
        * intros j Hj. rewrite slotS_cons. auto.
        * eapply region_weaken; [| | |exact Hreg]; [lia| |]; intros j Hj; [rewrite slotF_one|rewrite slotS_one]; exact Hj.
      + clear - A2 P1' P2. revert l' A2. induction ts as [|t' ts IHt]; intros [|w l']; cbn [map all2]; auto.
        intros [HA HB]. split; [|apply IHt; exact HB].
        eapply rdt_mono; [|exact HA]. intros i Hr. split; [|reflexivity].
        eapply region_weaken; [| | |exact Hr].
        * apply (p_next _ _ _ _ _ _ _ _ P1').
        * intros j Hj. rewrite slotF_cons. auto.
        * intros j Hj. rewrite slotS_cons. auto.
  Qed.
End GoList.

Lemma good_nil cur sl : Forall slot_ok sl -> NoDup (flat_map s_F sl) -> (forall x, slotF sl x -> ~ slotS sl x) ->
  (forall s, In s sl -> s_c s = cur) -> good cur [] (sl ++ []).
Proof.
  intros Hok Hn Hd Hc. rewrite app_nil_r. apply ready_good; [exact Hok|]. constructor; auto.
  intros s i Hin _ _. unfold eff. simpl. symmetry; auto.
Qed.

Lemma inv_start h (F S : nat -> Prop) : (forall i, h_obj h i <> None -> i < h_next h) ->
  (forall i, F i -> h_obj h i <> None) -> (forall i, S i -> h_obj h i <> None) -> (forall i, F i -> ~ S i) ->
  inv h [] [] F S.
Proof. intros Hw HF HS Hd. constructor; simpl; auto; intros i []. Qed.

Lemma rep_some h : (forall c v t F S, rep h c v t F S ->
    (forall i, In i F -> h_obj h i <> None) /\ (forall i, In i (map fst S) -> h_obj h i <> None)) /\
  (forall c v t F S, rep_elts h c v t F S ->
    (forall i, In i F -> h_obj h i <> None) /\ (forall i, In i (map fst S) -> h_obj h i <> None)) /\
  (forall k c v t F S, rep_fields h k c v t F S ->
    (forall i, In i F -> h_obj h i <> None) /\ (forall i, In i (map fst S) -> h_obj h i <> None)).
Proof.
  apply rep_mut; intros;
    repeat match goal with H : _ /\ _ |- _ => destruct H end;
    split; simpl; intros x Hx; rewrite ?map_app, ?in_app_iff in Hx; simpl in Hx; try contradiction; auto;
    try (apply name_obj_node in n; destruct n as [fs [E _]]; destruct Hx as [Hx|[]]; simpl in Hx; subst; congruence);
    rewrite ?in_app_iff in Hx; intuition (subst; try congruence; eauto).
Qed.

(** ** fix_ctx on a node *)
Lemma fix_ctx_rep copy n h v t F S :
  (forall i, h_obj h i <> None -> i < h_next h) ->
  rep h "Load" v t F S -> sound "Load" t = true -> height t <= n -> (copy = true \/ S = []) ->
  NoDup F -> (forall i, In i F -> ~ In i (map fst S)) ->
  exists v' h', fix_ctx copy n h v = Rt (v', h') /\ reads h' v' (set_ctx "Load" t) /\
    (forall i, h_obj h i <> None -> ~ In i F -> ~ In i (map fst S) -> h_obj h' i = h_obj h i) /\
    (S = [] -> v' = v /\ keep h h') /\ (forall i, h_obj h' i <> None -> i < h_next h').
Proof.
  intros Hw Hr Hs Hh Hc Hn Hd.
  destruct (proj1 (rep_some h) _ _ _ _ _ Hr) as [HF HS].
  assert (Hi : inv h [] [] (fun i => In i F) (fun i => In i (map fst S))) by (apply inv_start; auto).
  assert (Hp : pre "Load" [] (mkSlot v t "Load" F S)).
  { split; [|split]; cbn [s_v s_t s_c s_F s_S]; auto. }
  destruct (visit_ok copy t n "Load"%string "Load"%string v h [] [] F S (or_introl eq_refl) Hr Hs (rep_is_node _ _ _ _ _ _ Hr) Hh Hc Hn Hi Hp)
    as [v' [h' [ov' [seen' [E [P [R K]]]]]]].
  exists v', h'. unfold fix_ctx. rewrite E. split; [reflexivity|]. split; [eapply rdt_reads; exact R|]. split; [|split; [exact K|apply (p_wf _ _ _ _ _ _ _ _ P)]].
  intros i Hx H1 H2. apply (p_frame _ _ _ _ _ _ _ _ P); auto.
Qed.

(** ** fix_ctx on a list of nodes *)
Lemma visit_list copy n cur j vs h :
  h_obj h j = Some (OList vs) ->
  visit copy (S n) cur (VRef j) (mkWst h [] []) =
  match go_elts (visit copy n cur) vs (mkWst h [] []) with
  | Rt (l', s1) => Rt (VRef j, set_heap s1 (hset (w_heap s1) j (OList l')))
  | Ex e => Ex e
  | NoFuel => NoFuel
  end.
Proof. intros H. cbn [visit w_heap w_ov w_seen ov_get ov_del filter]. rewrite H. reflexivity. Qed.

Lemma fix_ctx_rep_list copy n h j vs ts F S :
  (forall i, h_obj h i <> None -> i < h_next h) ->
  h_obj h j = Some (OList vs) ->
  rep_elts h "Load" vs ts F S -> forallb is_node ts = true -> sound "Load" (Ls ts) = true -> height (Ls ts) <= n -> (copy = true \/ S = []) ->
  NoDup (j :: F) -> (forall i, In i (j :: F) -> ~ In i (map fst S)) ->
  exists h', fix_ctx copy (Datatypes.S n) h (VRef j) = Rt (VRef j, h') /\ reads h' (VRef j) (set_ctx "Load" (Ls ts)) /\
    (forall i, h_obj h i <> None -> ~ In i (j :: F) -> ~ In i (map fst S) -> h_obj h' i = h_obj h i) /\
    (S = [] -> keep h h') /\ (forall i, h_obj h' i <> None -> i < h_next h').
Proof.
  intros Hw Ho Hr Hnds Hs Hh Hc Hn Hd.
  destruct (proj1 (proj2 (rep_some h)) _ _ _ _ _ Hr) as [HF HS].
  destruct (rep_elts_se _ _ _ _ _ _ Hr) as [sl [Hse [EF ES]]].
  inversion Hn as [|? ? Hj Hn']; subst x l.
  assert (Hjlt : j < h_next h) by (apply Hw; congruence).
  assert (Hsc : forall s, In s sl -> s_c s = "Load"%string) by (intros s Hin; apply (se_in _ _ _ _ _ _ Hse Hin)).
  assert (Hok : Forall slot_ok sl).
  { apply Forall_forall. intros s Hin. destruct (se_in _ _ _ _ _ _ Hse Hin) as [A [_ [_ D]]]. rewrite <- A in D. exact (rep_slot_ok _ _ D). }
  assert (Hi : inv h [] [] (slotF sl) (slotS sl)).
  { apply inv_start; auto; unfold slotF, slotS; rewrite <- ?EF, <- ?ES; auto. intros i Hx. apply Hd. right; exact Hx. }
  assert (Hg : good "Load" [] (sl ++ [])).
  { apply good_nil; auto; [rewrite <- EF; exact Hn'|]. apply (i_FS _ _ _ _ _ Hi). }
  assert (Hel : Forall (fun t => is_node t = true -> sound "Load" t = true /\ height t <= n) ts).
  { apply Forall_forall. intros t Ht _. cbn [sound] in Hs. rewrite forallb_forall in Hs. specialize (Hs t Ht).
    apply andb_true_iff in Hs. split; [apply Hs|]. pose proof (height_list _ _ Ht). lia. }
  assert (HV : Forall (VOK copy) ts) by (apply Forall_forall; intros t _; apply visit_ok).
  assert (Hnds' : Forall (fun t => is_node t = true) ts).
  { apply Forall_forall. rewrite forallb_forall in Hnds. exact Hnds. }
  destruct (go_ok copy n "Load"%string "Load"%string (or_introl eq_refl) ts HV vs sl [] h [] [] Hse Hnds' Hel) as [l' [h1 [ov1 [seen1 [E1 [P1 [R1 [_ K1]]]]]]]]; auto.
  { rewrite <- EF; exact Hn'. }
  { rewrite <- ES; exact Hc. }
  pose proof (p_next _ _ _ _ _ _ _ _ P1) as Hnx.
  assert (Hj1 : ~ slotF sl j /\ ~ slotS sl j).
  { unfold slotF, slotS. rewrite <- EF, <- ES. split; [exact Hj|]. apply Hd. left; reflexivity. }
  assert (Hjo : h_obj h1 j = Some (OList vs)).
  { rewrite (p_frame _ _ _ _ _ _ _ _ P1); [exact Ho|lia|tauto|left; tauto]. }
  set (h' := hset h1 j (OList l')). exists h'. unfold fix_ctx. rewrite (visit_list copy n "Load" j vs h Ho), E1.
  cbn [set_heap w_heap]. split; [reflexivity|].
  assert (Hoth : forall x, j <> x -> h_obj h' x = h_obj h1 x) by (intros x Hx; apply hset_other; exact Hx).
  split.
  { cbn [set_ctx]. apply rd_list with (vs := l'); [apply hset_same|].
    assert (R2 : all2 (rdt (region h h1 (slotF sl) (slotS sl)) h') (map (set_ctx "Load") ts) l').
    { clearbody h'. clear - R1 Hoth Hj1 Hjlt Hjo. revert l' R1. induction ts as [|t ts IH]; intros [|w l'] R1; cbn [map all2] in *; auto.
      destruct R1 as [A B]. split; [|apply IH; exact B]. eapply rdt_mono; [|exact A]. intros x Hx. split; [exact Hx|].
      apply Hoth. intros E. subst x. destruct Hx as [Hx|[Hx|[Hx|[k [Hx _]]]]]; [tauto|tauto|lia|congruence]. }
    clearbody h'. clear - R2. revert l' R2. generalize (map (set_ctx "Load") ts). induction l as [|t l IH]; intros [|w l'] R2; cbn [all2] in R2; try contradiction.
    - constructor.
    - destruct R2 as [A B]. constructor; [eapply rdt_reads; exact A|]. apply IH. exact B. }
  split.
  { intros i Hx H1 H2. rewrite Hoth by (intros E; apply H1; left; exact E). apply (p_frame _ _ _ _ _ _ _ _ P1); auto.
    - unfold slotF. rewrite <- EF. intros H; apply H1; right; exact H.
    - left. unfold slotS. rewrite <- ES. exact H2. }
  split.
  { intros Hz. rewrite ES in Hz. destruct (K1 Hz) as [Ka Kb]. subst l'. eapply keep_trans; [exact Kb|]. apply keep_hset_same. exact Hjo. }
  intros i Hx. destruct (Nat.eq_dec j i) as [E|E]; [subst; simpl; lia|]. rewrite Hoth in Hx by exact E. apply (p_wf _ _ _ _ _ _ _ _ P1 i Hx).
Qed.
