From Verif Require Import Base AstLib UtilsModel UtilsSpec UtilsProofs MarkersModel MarkersSpec.

Section Proofs.
  Context {M : Type}.
  Variable iscls : string -> bool.
  Notation ev := (events iscls : tree M -> list (event M)).
  Notation ev0 := (events (fun _ => false) : tree M -> list (event M)).
  Notation del := (delete_markers iscls : tree M -> res (tree M)).

  (** Anything that reads a list element by element does not see [flatten]. *)
  Lemma flatten_flat_map {B} (g : tree M -> list B) (l : list (tree M)) :
    (forall sub, g (Ls sub) = flat_map g sub) -> forallb nodes_only l = true ->
    flat_map g (flatten l) = flat_map g l.
  Proof.
    intros Hg Hl. rewrite flatten_print.
    assert (G : forall t, nodes_only t = true ->
              flat_map g (erase_brackets (print t)) = g t).
    { induction t as [m k fs _|sub IH|a] using tree_ind'; intros Ht.
      - simpl. apply app_nil_r.
      - simpl. rewrite erase_app. simpl. rewrite app_nil_r, Hg.
        simpl in Ht. rewrite forallb_forall in Ht. rewrite Forall_forall in IH.
        clear Hl. induction sub as [|x sub IHs]; [reflexivity|]. simpl.
        rewrite erase_app, flat_map_app, IHs.
        + rewrite IH; [reflexivity|left; reflexivity|apply Ht; left; reflexivity].
        + intros y Hy; apply IH; right; exact Hy.
        + intros y Hy; apply Ht; right; exact Hy.
      - discriminate. }
    induction l as [|x l IH]; [reflexivity|]. simpl in *.
    apply andb_true_iff in Hl. destruct Hl as [Hx Hl].
    rewrite erase_app, flat_map_app, IH by exact Hl. rewrite G by exact Hx. reflexivity.
  Qed.

  Lemma flatten_nodes (l : list (tree M)) :
    forallb nodes_only l = true -> forallb is_node (flatten l) = true.
  Proof.
    intros Hl. apply forallb_forall. intros x Hx.
    pose proof (flatten_flat l) as HF. rewrite Forall_forall in HF.
    destruct (HF x Hx) as [H1 H2].
    assert (Hn : nodes_only x = true).
    { rewrite flatten_print in Hx. clear HF H1 H2.
      assert (G : forall t : tree M, nodes_only t = true -> forall y, In y (erase_brackets (print t)) ->
                  nodes_only y = true).
      { clear. induction t as [m k fs _|sub IH|a] using tree_ind'; intros Ht y Hy.
        - destruct Hy as [Hy|[]]; subst; reflexivity.
        - simpl in Hy. rewrite erase_app in Hy. simpl in Hy. rewrite app_nil_r in Hy.
          simpl in Ht. rewrite forallb_forall in Ht. rewrite Forall_forall in IH.
          induction sub as [|z sub IHs]; [destruct Hy|]. simpl in Hy. rewrite erase_app in Hy.
          apply in_app_or in Hy. destruct Hy as [Hy|Hy].
          + apply (IH z); [left; reflexivity|apply Ht; left; reflexivity|exact Hy].
          + apply IHs; [intros w Hw; apply IH; right; exact Hw|intros w Hw; apply Ht; right; exact Hw|exact Hy].
        - discriminate. }
      induction l as [|z l IHl]; [destruct Hx|]. simpl in *.
      apply andb_true_iff in Hl. destruct Hl as [Hz Hl].
      rewrite erase_app in Hx. apply in_app_or in Hx. destruct Hx as [Hx|Hx]; [apply (G z Hz x Hx)|].
      apply IHl; assumption. }
    destruct x; simpl in *; try discriminate; reflexivity.
  Qed.

  Definition good (t t' : tree M) : Prop :=
    ev0 t' = ev t /\ has_kind iscls t' = false /\
    (is_node t' = true \/ exists l, t' = Ls l /\ forallb is_node l = true).

  Lemma nodes_nodes_only (l : list (tree M)) : forallb is_node l = true -> forallb nodes_only l = true.
  Proof.
    intros H. apply forallb_forall. intros x Hx. rewrite forallb_forall in H. specialize (H x Hx).
    destruct x; simpl in *; try discriminate; reflexivity.
  Qed.
  Lemma good_nodes_only t t' : good t t' -> nodes_only t' = true.
  Proof.
    intros [_ [_ [H|[l [E H]]]]].
    - destruct t'; simpl in *; try discriminate; reflexivity.
    - subst. simpl. apply nodes_nodes_only; exact H.
  Qed.

  Lemma visit_elts_good (l : list (tree M)) :
    Forall (fun x => exists x', del x = Ok x' /\ good x x') l ->
    exists l', visit_elts del l = Ok l' /\
      flat_map ev0 l' = flat_map ev l /\ existsb (has_kind iscls) l' = false /\
      forallb nodes_only l' = true.
  Proof.
    induction 1 as [|x l [x' [Hx Hg]] Hl IH]; simpl.
    - exists []. auto.
    - destruct IH as [l' [E [E1 [E2 E3]]]]. rewrite Hx, E. exists (x' :: l'). split; [reflexivity|].
      pose proof (good_nodes_only _ _ Hg) as Hn. destruct Hg as [G1 [G2 _]].
      simpl. rewrite G1, E1, G2, E2, Hn, E3. auto.
  Qed.

  Lemma gv_list_good (l : list (tree M)) :
    Forall (fun x => is_node x = true -> exists x', del x = Ok x' /\ good x x') l ->
    forallb (fun x => negb (is_list x) && wf x) l = true ->
    exists l', gv_list del l = Ok l' /\
      flat_map ev0 l' = flat_map ev l /\ existsb (has_kind iscls) l' = false.
  Proof.
    induction 1 as [|x l Hx Hl IH]; simpl; intros Hw.
    - exists []. auto.
    - apply andb_true_iff in Hw. destruct Hw as [Hw1 Hw2].
      destruct (IH Hw2) as [l' [E [E1 E2]]].
      destruct x as [m k fs|sub|a].
      + destruct (Hx eq_refl) as [x' [Ex [G1 [G2 [G3|[lx [G3 G4]]]]]]]; rewrite Ex.
        * destruct x' as [m' k' fs'|?|?]; simpl in G3; try discriminate. rewrite E.
          exists (Nd m' k' fs' :: l'). split; [reflexivity|].
          cbn [flat_map existsb]. rewrite G1, G2, E1, E2. auto.
        * subst x'. rewrite E. exists (lx ++ l'). split; [reflexivity|].
          rewrite flat_map_app, existsb_app, E1, E2. change (flat_map ev0 lx = ev (Nd m k fs)) in G1. rewrite has_kind_Ls in G2.
          rewrite G2. cbn [flat_map]. rewrite <- G1. auto.
      + discriminate Hw1.
      + rewrite E. exists (At a :: l'). split; [reflexivity|].
        cbn [flat_map existsb]. rewrite E1, E2. auto.
  Qed.

  Lemma delete_good t :
    wf t = true -> markers_ok iscls t = true -> nodes_only t = true ->
    exists t', del t = Ok t' /\ good t t'.
  Proof.
    induction t as [m k fs IH|l IH|a] using tree_ind2; intros Hw Hm Hn; [| |discriminate].
    - cbn [delete_markers]. destruct (iscls k) eqn:Ek.
      + simpl in Hm. rewrite Ek in Hm. apply andb_true_iff in Hm. destruct Hm as [Hb Hm].
        rewrite with_field_getf in Hb. rewrite with_field_getf. destruct (getf "body" fs) as [b|] eqn:Eb; [|discriminate].
        apply getf_In in Eb as Hin. rewrite Forall_forall in IH. destruct (IH _ Hin) as [IHb _].
        simpl in IHb. pose proof (wf_field _ _ _ _ _ Hw Hin) as Hwb.
        rewrite forallb_forall in Hm. specialize (Hm _ Hin). simpl in Hm.
        destruct (IHb Hwb Hm Hb) as [t' [Et' [G1 G2]]].
        exists t'. split; [exact Et'|]. split; [|exact G2].
        cbn [events]. rewrite Ek, with_field_getf, Eb. exact G1.
      + assert (F : exists fs', gv_fields del fs = Ok fs' /\
            flat_map (fun p => EvField (fst p) :: ev0 (snd p)) fs'
            = flat_map (fun p => EvField (fst p) :: ev (snd p)) fs /\
            existsb (fun q => has_kind iscls (snd q)) fs' = false).
        { simpl in Hm. rewrite Ek in Hm. simpl in Hm, Hw. clear Hn.
          induction fs as [|[f v] fs IHf]; [exists []; auto|].
          inversion IH as [|? ? [IHv IHl] IHr]; subst. simpl in *.
          apply andb_true_iff in Hw, Hm. destruct Hw as [Hw1 Hw2], Hm as [Hm1 Hm2].
          destruct (IHf IHr Hw2 Hm2) as [fs' [E [E1 E2]]].
          destruct v as [m' k' fs''|l|a].
          - destruct (IHv Hw1 Hm1 eq_refl) as [v' [Ev [G1 [G2 G3]]]]. rewrite Ev.
            destruct v' as [m2 k2 fs2|l2|a2].
            + rewrite E. exists ((f, Nd m2 k2 fs2) :: fs'). split; [reflexivity|].
              cbn [flat_map existsb fst snd]. rewrite G1, G2, E1, E2. auto.
            + rewrite E. exists ((f, Ls l2) :: fs'). split; [reflexivity|].
              cbn [flat_map existsb fst snd]. rewrite G1, G2, E1, E2. auto.
            + destruct G3 as [G3|[l3 [G3 _]]]; discriminate.
          - assert (L : exists l', gv_list del l = Ok l' /\
                 flat_map ev0 l' = flat_map ev l /\ existsb (has_kind iscls) l' = false).
            { apply gv_list_good; [|exact Hw1].
              rewrite Forall_forall in IHl |- *. intros x Hx Hnx.
              simpl in Hm1. rewrite forallb_forall in Hw1, Hm1.
              specialize (Hw1 x Hx). apply andb_true_iff in Hw1. destruct Hw1 as [_ Hwx].
              apply IHl; auto. destruct x; simpl in *; try discriminate; reflexivity. }
            destruct L as [l' [L1 [L2 L3]]]. rewrite L1, E. exists ((f, Ls l') :: fs').
            split; [reflexivity|]. cbn [flat_map existsb fst snd]. rewrite has_kind_Ls, L3, E2, E1.
            simpl. rewrite L2. auto.
          - rewrite E. exists ((f, At a) :: fs'). split; [reflexivity|].
            cbn [flat_map existsb fst snd]. rewrite E1, E2. auto. }
        destruct F as [fs' [F1 [F2 F3]]]. rewrite F1. exists (Nd m k fs'). split; [reflexivity|].
        split; [|split].
        * cbn [events]. rewrite Ek, F2. reflexivity.
        * rewrite has_kind_Nd, Ek, F3. reflexivity.
        * left; reflexivity.
    - cbn [delete_markers]. unfold visit_list.
      destruct (visit_elts_good l) as [l' [E [E1 [E2 E3]]]].
      { rewrite Forall_forall in IH |- *. intros x Hx. simpl in Hw, Hm, Hn.
        rewrite forallb_forall in Hw, Hm, Hn. apply IH; auto. }
      rewrite E. exists (Ls (flatten l')). split; [reflexivity|]. split; [|split].
      + simpl. rewrite flatten_flat_map; [exact E1|reflexivity|exact E3].
      + rewrite has_kind_Ls.
        assert (G : forall l, existsb (has_kind iscls) l = existsb (fun n => iscls (kind_of n))
                              (flat_map (@preorder M) l)).
        { clear. intros l. induction l as [|x l IHl]; [reflexivity|]. simpl.
          rewrite existsb_app, IHl. reflexivity. }
        rewrite G, flatten_flat_map; [rewrite <- G; exact E2|reflexivity|exact E3].
      + right. exists (flatten l'). split; [reflexivity|apply flatten_nodes; exact E3].
  Qed.

  (** Without markers of the class, the tree is returned as it is. *)
  Lemma delete_identity_nd t :
    wf t = true -> has_kind iscls t = false -> is_node t = true -> del t = Ok t.
  Proof.
    induction t as [m k fs IH|l IH|a] using tree_ind2; intros Hw Hk Hn; try discriminate.
    rewrite has_kind_Nd in Hk. apply orb_false_iff in Hk. destruct Hk as [Ek Hk].
    cbn [delete_markers]. rewrite Ek.
    assert (F : gv_fields del fs = Ok fs).
    { clear Hn. induction fs as [|[f v] fs IHf]; [reflexivity|].
      inversion IH as [|? ? [IHv IHl] IHr]; subst. simpl in *.
      apply andb_true_iff in Hw. apply orb_false_iff in Hk.
      destruct Hw as [Hw1 Hw2], Hk as [Hk1 Hk2]. rewrite (IHf IHr Hw2 Hk2).
      destruct v as [m' k' fs'|l|a].
      - rewrite IHv; auto.
      - assert (L : gv_list del l = Ok l); [|rewrite L; reflexivity].
        rewrite has_kind_Ls in Hk1. clear - Hw1 Hk1 IHl.
        induction IHl as [|x l Hx Hl IH]; [reflexivity|]. simpl in *.
        apply andb_true_iff in Hw1. apply orb_false_iff in Hk1.
        destruct Hw1 as [Hw1 Hw2], Hk1 as [Hk1 Hk2]. apply andb_true_iff in Hw1.
        rewrite (IH Hw2 Hk2). destruct x as [m k fs|sub|a]; [|reflexivity|reflexivity].
        rewrite Hx; [reflexivity|tauto|exact Hk1|reflexivity].
      - reflexivity. }
    rewrite F. reflexivity.
  Qed.

  Lemma delete_identity t :
    wf t = true -> has_kind iscls t = false ->
    (is_node t = true \/ exists l, t = Ls l /\ forallb is_node l = true) -> del t = Ok t.
  Proof.
    intros Hw Hk [Hn|[l [E Hl]]]; [apply delete_identity_nd; assumption|]. subst t.
    cbn [delete_markers]. unfold visit_list.
    assert (V : visit_elts del l = Ok l).
    { rewrite has_kind_Ls in Hk. simpl in Hw. induction l as [|x l IH]; [reflexivity|]. simpl in *.
      apply andb_true_iff in Hw, Hl. apply orb_false_iff in Hk.
      destruct Hw as [Hw1 Hw2], Hl as [Hl1 Hl2], Hk as [Hk1 Hk2].
      rewrite delete_identity_nd, IH; auto. }
    rewrite V, flatten_fixed; [reflexivity|].
    apply Forall_forall. intros x Hx. rewrite forallb_forall in Hl. specialize (Hl x Hx).
    destruct x; simpl in *; try discriminate; auto.
  Qed.

  (** ** get_markers *)
  Lemma gm_node_preorder (t : tree M) :
    wf t = true -> is_node t = true ->
    gm_node iscls t = filter (fun n => iscls (kind_of n)) (preorder t).
  Proof.
    induction t as [m k fs IH|l IH|a] using tree_ind2; intros Hw Hn; try discriminate.
    cbn [gm_node preorder filter kind_of].
    assert (F : flat_map (fun p : string * tree M =>
         let (_, v) := p in
         match v with
         | Nd _ _ _ => gm_node iscls v
         | Ls l => flat_map (fun x => match x with Nd _ _ _ => gm_node iscls x | _ => [] end) l
         | At _ => []
         end) fs
      = filter (fun n => iscls (kind_of n)) (flat_map (fun p => preorder (snd p)) fs)).
    { rewrite filter_flat_map. simpl in Hw. clear Hn.
      induction fs as [|[f v] fs IHf]; [reflexivity|].
      inversion IH as [|? ? [IHv IHl] IHr]; subst. simpl in *.
      apply andb_true_iff in Hw. destruct Hw as [Hw1 Hw2]. rewrite (IHf IHr Hw2). f_equal.
      destruct v as [m' k' fs'|l|a].
      - apply IHv; auto.
      - simpl. rewrite filter_flat_map. clear - Hw1 IHl.
        induction IHl as [|x l Hx Hl IH]; [reflexivity|]. simpl in *.
        apply andb_true_iff in Hw1. destruct Hw1 as [Hw1 Hw2]. apply andb_true_iff in Hw1.
        rewrite (IH Hw2). f_equal. destruct x as [m k fs|sub|a].
        + apply Hx; tauto.
        + destruct Hw1; discriminate.
        + reflexivity.
      - reflexivity. }
    rewrite F. destruct (iscls k); reflexivity.
  Qed.

  Lemma get_markers_preorder (t : tree M) :
    wf t = true -> nodes_only t = true ->
    get_markers iscls t = Ok (filter (fun n => iscls (kind_of n)) (preorder t)).
  Proof.
    induction t as [m k fs IH|l IH|a] using tree_ind2; intros Hw Hn; [| |discriminate].
    - cbn [get_markers]. rewrite gm_node_preorder; auto.
    - cbn [get_markers preorder]. simpl in Hw, Hn. rewrite filter_flat_map.
      induction IH as [|x l Hx Hl IHl]; [reflexivity|]. simpl in *.
      apply andb_true_iff in Hw, Hn. destruct Hw as [Hw1 Hw2], Hn as [Hn1 Hn2].
      rewrite (Hx Hw1 Hn1), (IHl Hw2 Hn2). reflexivity.
  Qed.

  Lemma check_exact (t : tree M) :
    wf t = true -> nodes_only t = true ->
    check_no_markers_remaining iscls t =
    if has_kind iscls t then Err (mkExn "MacroExpansionError" []) else Ok tt.
  Proof.
    intros Hw Hn. unfold check_no_markers_remaining. rewrite get_markers_preorder by assumption.
    unfold has_kind. induction (preorder t) as [|x l IH]; [reflexivity|]. simpl.
    destruct (iscls (kind_of x)); [reflexivity|exact IH].
  Qed.

End Proofs.
