From Verif Require Import Base BunchModel BunchSpec BunchProofs BunchifyModel BunchifySpec.

Section P.
  Context {V : Type}.
  Variables (none : V) (veq : V -> V -> bool) (class_attrs : list string) (isident : string -> bool).
  Notation bob := (bobj (V := V) class_attrs).

  Definition vrel (adr : list nat) (m : bmem V) (hs : list nat) (v : view V) : Prop :=
    NoDup adr /\
    Forall2 (fun a d => nth_error (m_dicts m) a = Some d) adr (v_cells v) /\
    Forall (fun d => NoDup (dk d)) (v_cells v) /\
    Forall2 (fun o c => exists a, nth_error adr c = Some a /\ o = bob a) (m_objs m) (v_bunches v) /\
    Forall2 (fun h c => nth_error adr c = Some h) hs (v_dicts v).

  Lemma Forall2_nth {A B} (R : A -> B -> Prop) l1 l2 n : Forall2 R l1 l2 ->
    match nth_error l1 n, nth_error l2 n with
    | Some a, Some b => R a b
    | None, None => True
    | _, _ => False
    end.
  Proof. intros H. revert n. induction H; intros [|n]; simpl; auto. apply IHForall2. Qed.
  Lemma F2_nth_l {A B} (R : A -> B -> Prop) l1 l2 n a : Forall2 R l1 l2 -> nth_error l1 n = Some a -> exists b, nth_error l2 n = Some b /\ R a b.
  Proof. intros H E. pose proof (Forall2_nth R l1 l2 n H) as X. rewrite E in X. destruct (nth_error l2 n); [eauto|contradiction]. Qed.
  Lemma F2_nth_r {A B} (R : A -> B -> Prop) l1 l2 n b : Forall2 R l1 l2 -> nth_error l2 n = Some b -> exists a, nth_error l1 n = Some a /\ R a b.
  Proof. intros H E. pose proof (Forall2_nth R l1 l2 n H) as X. rewrite E in X. destruct (nth_error l1 n); [eauto|contradiction]. Qed.

  Lemma vrel_cell adr m hs v c a : vrel adr m hs v -> nth_error adr c = Some a ->
    exists d, nth_error (v_cells v) c = Some d /\ nth_error (m_dicts m) a = Some d /\ NoDup (dk d).
  Proof.
    intros [_ [HF [HN _]]] E. destruct (F2_nth_l _ _ _ _ _ HF E) as [d [E1 E2]]. exists d. split; [exact E1|]. split; [exact E2|].
    rewrite Forall_forall in HN. apply HN. eapply nth_error_In, E1.
  Qed.

  Lemma vrel_bunch adr m hs v b : vrel adr m hs v ->
    match bunch b v with
    | Some (c, d) => exists a, nth_error (v_bunches v) b = Some c /\ nth_error adr c = Some a /\ data_of b m = Some (a, d) /\
                               nth_error (m_objs m) b = Some (bob a) /\ nth_error (v_cells v) c = Some d /\ NoDup (dk d)
    | None => data_of b m = None /\ nth_error (m_objs m) b = None /\ nth_error (v_bunches v) b = None
    end.
  Proof.
    intros R. pose proof R as [_ [_ [_ [HB _]]]]. unfold bunch, cell. pose proof (Forall2_nth _ _ _ b HB) as X.
    unfold data_of. destruct (nth_error (m_objs m) b) as [o|], (nth_error (v_bunches v) b) as [c|]; try contradiction; [|auto].
    destruct X as [a [Ea Eo]]. subst o. destruct (vrel_cell _ _ _ _ _ _ R Ea) as [d [E1 [E2 E3]]]. rewrite E1. exists a. cbn [bobj sget String.eqb].
    simpl. rewrite E2. auto 10.
  Qed.
  Lemma vrel_dict adr m hs v h : vrel adr m hs v ->
    match dictionary h v with
    | Some (c, d) => exists a, nth_error (v_dicts v) h = Some c /\ nth_error adr c = Some a /\ nth_error hs h = Some a /\
                               nth_error (m_dicts m) a = Some d /\ nth_error (v_cells v) c = Some d /\ NoDup (dk d)
    | None => nth_error hs h = None
    end.
  Proof.
    intros R. pose proof R as [_ [_ [_ [_ HH]]]]. unfold dictionary, cell. pose proof (Forall2_nth _ _ _ h HH) as X.
    destruct (nth_error hs h) as [a|], (nth_error (v_dicts v) h) as [c|]; try contradiction; [|auto].
    destruct (vrel_cell _ _ _ _ _ _ R X) as [d [E1 [E2 E3]]]. rewrite E1. exists a. auto 10.
  Qed.

  Lemma Forall2_upd {A B} (R : A -> B -> Prop) l1 l2 n a b : Forall2 R l1 l2 -> R a b -> Forall2 R (upd_nth n a l1) (upd_nth n b l2).
  Proof. intros H Hab. revert n. induction H; intros [|n]; simpl; constructor; auto. Qed.
  Lemma Forall2_upd_r {A B} (R : A -> B -> Prop) l1 l2 n a b : Forall2 R l1 l2 -> nth_error l1 n = Some a -> R a b -> Forall2 R l1 (upd_nth n b l2).
  Proof. intros H E Hab. rewrite <- (upd_nth_same n a l1 E). apply Forall2_upd; assumption. Qed.

  Lemma vrel_set adr m hs v c a d' : vrel adr m hs v -> nth_error adr c = Some a -> NoDup (dk d') ->
    vrel adr (set_dict a d' m) hs (mkView (upd_nth c d' (v_cells v)) (v_bunches v) (v_dicts v)).
  Proof.
    intros R E Hn. destruct (vrel_cell _ _ _ _ _ _ R E) as [d [E1 [E2 _]]]. destruct R as [HA [HF [HN [HB HH]]]].
    split; [exact HA|]. cbn [v_cells v_bunches v_dicts set_dict m_dicts m_objs]. split; [|split; [apply Forall_upd; assumption|split; assumption]].
    assert (Hl : a < List.length (m_dicts m)) by (apply nth_error_Some; congruence).
    clear HN HB HH E2. revert c E E1. induction HF as [|x e adr' cells' Hx HF IH]; intros [|c] E E1; simpl in *; try discriminate.
    - inversion E; subst x. inversion HA as [|? ? N1 N2]; subst. constructor; [apply nth_upd_same; exact Hl|].
      clear - HF N1. induction HF; constructor; [|apply IHHF; intros X; apply N1; right; exact X].
      rewrite nth_upd_other; [assumption|]. intros ->. apply N1. left; reflexivity.
    - inversion HA as [|? ? N1 N2]; subst. constructor; [|apply IH; auto].
      rewrite nth_upd_other; [exact Hx|]. intros ->. apply N1. eapply nth_error_In, E.
  Qed.

  (** A new dictionary at the end of memory. *)
  Lemma vrel_grow adr m hs v d : vrel adr m hs v -> NoDup (dk d) ->
    vrel (adr ++ [List.length (m_dicts m)]) (mkMem (m_dicts m ++ [d]) (m_objs m)) hs (mkView (v_cells v ++ [d]) (v_bunches v) (v_dicts v)).
  Proof.
    intros [HA [HF [HN [HB HH]]]] Hn. unfold vrel. cbn [v_cells v_bunches v_dicts m_dicts m_objs]. split; [|split; [|split; [|split]]].
    - assert (Hlt : Forall (fun i => i < List.length (m_dicts m)) adr).
      { clear - HF. induction HF; constructor; auto. apply nth_error_Some. congruence. }
      clear - HA Hlt. induction HA as [|x l Hx HA IH]; simpl; [constructor; [simpl; tauto|constructor]|]. inversion Hlt; subst.
      constructor; [|auto]. rewrite in_app_iff. simpl. intros [H|[H|[]]]; [contradiction|lia].
    - apply Forall2_app; [eapply Forall2_impl2; [|exact HF]; intros i e He; apply nth_error_app_lt, He|].
      constructor; [|constructor]. rewrite nth_error_app2 by lia. rewrite Nat.sub_diag. reflexivity.
    - apply Forall_app. split; [exact HN|]. constructor; [exact Hn|constructor].
    - eapply Forall2_impl2; [|exact HB]. intros o c [a [E1 E2]]. exists a. split; [apply nth_error_app_lt, E1|exact E2].
    - eapply Forall2_impl2; [|exact HH]. intros o c E1. apply nth_error_app_lt, E1.
  Qed.
  Lemma vrel_last adr m hs v d : vrel adr m hs v -> nth_error (adr ++ [d]) (List.length (v_cells v)) = Some d.
  Proof.
    intros [_ [HF _]]. rewrite <- (Forall2_len _ _ _ HF). rewrite nth_error_app2 by lia. rewrite Nat.sub_diag. reflexivity.
  Qed.
  Lemma vrel_add adr m hs v c a : vrel adr m hs v -> nth_error adr c = Some a ->
    vrel adr (mkMem (m_dicts m) (m_objs m ++ [bob a])) hs (mkView (v_cells v) (v_bunches v ++ [c]) (v_dicts v)).
  Proof.
    intros [HA [HF [HN [HB HH]]]] E. unfold vrel. cbn [v_cells v_bunches v_dicts m_dicts m_objs]. repeat (split; [assumption|]). split; [|assumption].
    apply Forall2_app; [exact HB|]. constructor; [|constructor]. exists a. auto.
  Qed.
  Lemma vrel_blen adr m hs v : vrel adr m hs v -> List.length (m_objs m) = List.length (v_bunches v).
  Proof. intros [_ [_ [_ [HB _]]]]. apply (Forall2_len _ _ _ HB). Qed.

  (** Garbage in memory does not matter. *)
  Lemma vrel_garbage adr m hs v d : vrel adr m hs v -> vrel adr (mkMem (m_dicts m ++ [d]) (m_objs m)) hs v.
  Proof.
    intros [HA [HF [HN [HB HH]]]]. unfold vrel. cbn [m_dicts m_objs]. split; [exact HA|]. split; [|auto].
    eapply Forall2_impl2; [|exact HF]. intros i e He. apply nth_error_app_lt, He.
  Qed.

  Lemma see_rel adr m hs v b f : vrel adr m hs v ->
    fst (peek b m f) = fst (see b v f) /\ vrel adr (snd (peek b m f)) hs (snd (see b v f)).
  Proof.
    intros R. pose proof (vrel_bunch _ _ _ _ b R) as H. unfold see, at_cell, peek. destruct (bunch b v) as [[c d]|].
    - destruct H as [a [_ [_ [H1 [_ [H2 _]]]]]]. rewrite H1. cbn [fst snd]. rewrite upd_nth_same by exact H2. destruct v; auto.
    - destruct H as [H _]. rewrite H. auto.
  Qed.
  Lemma act_rel adr m hs v b f : vrel adr m hs v -> (forall d, NoDup (dk d) -> NoDup (dk (snd (f d)))) ->
    fst (poke b m f) = fst (act b v f) /\ vrel adr (snd (poke b m f)) hs (snd (act b v f)).
  Proof.
    intros R Hf. pose proof (vrel_bunch _ _ _ _ b R) as H. unfold act, at_cell, poke. destruct (bunch b v) as [[c d]|].
    - destruct H as [a [_ [Ha [H1 [_ [H2 H3]]]]]]. rewrite H1. specialize (Hf d H3). destruct (f d) as [r d']. cbn [fst snd] in *.
      split; [reflexivity|]. apply vrel_set; assumption.
    - destruct H as [H _]. rewrite H. auto.
  Qed.

  Lemma init_data ds os (e : dict V) : data_of (List.length os) (mkMem (ds ++ [e]) (os ++ [bob (List.length ds)])) = Some (List.length ds, e).
  Proof.
    unfold data_of. cbn [m_objs m_dicts]. rewrite nth_error_app2 by lia. rewrite Nat.sub_diag. cbn [nth_error].
    change (sget "_data"%string (bob (List.length ds))) with (Some (SDict (V := V) (List.length ds))). cbn iota beta.
    rewrite nth_error_app2 by lia. rewrite Nat.sub_diag. reflexivity.
  Qed.

  Lemma vop_rel adr m hs v o : vrel adr m hs v -> bop_ok class_attrs (BOp o) v ->
    fst (run_op none veq class_attrs o m) = fst (view_op none veq o v) /\
    exists adr', vrel adr' (snd (run_op none veq class_attrs o m)) hs (snd (view_op none veq o v)).
  Proof.
    intros R Hok.
    assert (Hsee : forall b f, fst (peek b m f) = fst (see b v f) /\ exists adr', vrel adr' (snd (peek b m f)) hs (snd (see b v f))).
    { intros b f. destruct (see_rel adr m hs v b f R). eauto. }
    assert (Hact : forall b f, (forall d, NoDup (dk d) -> NoDup (dk (snd (f d)))) ->
       fst (poke b m f) = fst (act b v f) /\ exists adr', vrel adr' (snd (poke b m f)) hs (snd (act b v f))).
    { intros b f Hf. destruct (act_rel adr m hs v b f R Hf). eauto. }
    destruct o; cbn [run_op view_op bop_ok] in *;
      try (apply Hsee);
      try (apply Hact; intros d9 Hd;
           first [ apply nodup_popitem; exact Hd
                 | unfold d_delitem; destruct (dhas _ d9); simpl; [apply (nodup_ddel none veq)|]; exact Hd
                 | unfold d_pop; destruct (dget _ d9); simpl; [apply (nodup_ddel none veq)|]; exact Hd
                 | unfold d_setdefault; destruct (dget _ d9); simpl; [|apply (nodup_dset none veq)]; exact Hd
                 | simpl; apply (nodup_dset none veq); exact Hd
                 | simpl; constructor ]).
    - (* new *)
      rewrite kwdict_ok by exact Hok. assert (Hn : NoDup (dk (kwdict kw))) by (apply (nodup_dupd none veq); apply NoDup_nil).
      unfold bunch_init, new_dict. cbn [fst snd m_objs m_dicts]. rewrite (vrel_blen _ _ _ _ R). split; [reflexivity|].
      exists (adr ++ [List.length (m_dicts m)]).
      apply (vrel_add _ _ _ _ (List.length (v_cells v)) _ (vrel_grow _ _ _ _ _ R Hn)). apply (vrel_last _ _ _ _ _ R).
    - (* copy *)
      pose proof (vrel_bunch _ _ _ _ b R) as H. unfold bunch_copy. destruct (bunch b v) as [[c d]|].
      + destruct H as [a [_ [_ [H1 [_ [_ H3]]]]]]. rewrite H1. rewrite (dupd_copy none veq) by exact H3. rewrite kw_ok_plain, Hok.
        unfold bunch_init, new_dict. cbn [fst snd m_objs m_dicts]. rewrite (vrel_blen _ _ _ _ R). split; [reflexivity|].
        exists (adr ++ [List.length (m_dicts m)]).
        apply (vrel_add _ _ _ _ (List.length (v_cells v)) _ (vrel_grow _ _ _ _ _ R H3)). apply (vrel_last _ _ _ _ _ R).
      + destruct H as [H _]. rewrite H. cbn [fst snd]. eauto.
    - (* replace *)
      pose proof (vrel_bunch _ _ _ _ b R) as H. pose proof (vrel_bunch _ _ _ _ c R) as H'. unfold bunch_copy.
      destruct (bunch b v) as [[cb d]|].
      + destruct H as [a [Hb [_ [H1 [Ho _]]]]]. rewrite H1. destruct (bunch c v) as [[cc e]|].
        * destruct H' as [a' [_ [_ [H1' [_ [_ H3']]]]]]. rewrite H1'. rewrite (dupd_copy none veq) by exact H3'. rewrite kw_ok_plain, Hok.
          unfold bunch_init, new_dict. cbn [fst snd m_objs m_dicts]. fold (bob (List.length (m_dicts m))). rewrite init_data, Ho. cbn [fst snd m_dicts].
          split; [reflexivity|]. exists (adr ++ [List.length (m_dicts m)]).
          pose proof (vrel_grow _ _ _ _ _ R H3') as [HA [HF [HN [HB HH]]]]. unfold vrel in *. cbn [v_cells v_bunches v_dicts m_dicts m_objs] in *.
          repeat (split; [assumption|]). split; [|assumption]. apply Forall2_upd; [exact HB|].
          exists (List.length (m_dicts m)). split; [apply (vrel_last _ _ _ _ _ R)|]. reflexivity.
        * destruct H' as [H' _]. rewrite H'. cbn [fst snd]. eauto.
      + destruct H as [H _]. rewrite H. cbn [fst snd]. eauto.
    - (* getattr *)
      destruct (Hsee b (d_getitem (KStr s))) as [E1 [adr' R1]]. pose proof (vrel_bunch _ _ _ _ b R) as H.
      assert (Eq : bunch_getattr class_attrs b s m = peek b m (d_getitem (KStr s))).
      { unfold bunch_getattr. destruct (bunch b v) as [[c d]|].
        - destruct H as [a [_ [_ [_ [Ho _]]]]]. rewrite Ho. unfold reserved in Hok. apply orb_false_iff in Hok. destruct Hok as [K1 K2].
          assert (Es : sget s (bob a) = None).
          { unfold bobj. cbn [sget]. unfold smem in K2. cbn [existsb] in K2. apply orb_false_iff in K2. destruct K2 as [K2 K3]. rewrite K2.
            apply orb_false_iff in K3. destruct K3 as [K3 _]. rewrite K3. reflexivity. }
          rewrite Es, K1. reflexivity.
        - destruct H as [H1 [H2 _]]. rewrite H2. unfold peek. rewrite H1. reflexivity. }
      rewrite Eq. eauto.
    - (* setattr *)
      destruct (Hact b (fun d => (RUnit, dset (KStr s) v0 d))) as [E1 [adr' R1]]; [intros d Hd; simpl; apply (nodup_dset none veq); exact Hd|].
      pose proof (vrel_bunch _ _ _ _ b R) as H.
      assert (Eq : bunch_setattr b s v0 m = poke b m (fun d => (RUnit, dset (KStr s) v0 d))).
      { unfold bunch_setattr. destruct (bunch b v) as [[c d]|].
        - destruct H as [a [_ [_ [_ [Ho _]]]]]. rewrite Ho. unfold names_of. rewrite Ho. unfold reserved in Hok. apply orb_false_iff in Hok. destruct Hok as [K1 K2].
          rewrite K2. change (sget "_reserved_names"%string (bob a)) with (Some (SNames (V := V) (class_attrs ++ ["_data"; "_reserved_names"]%string))).
          cbn iota beta. rewrite smem_app, K1, K2. reflexivity.
        - destruct H as [H1 [H2 _]]. rewrite H2. unfold poke. rewrite H1. reflexivity. }
      rewrite Eq. eauto.
    - (* get *)
      destruct (Hsee b (d_get none k d)) as [E1 [adr' R1]].
      assert (Eq : peek b m (fun d0 => if dhas k d0 then d_getitem k d0 else RVal match d with Some x => x | None => none end) = peek b m (d_get none k d)).
      { unfold peek. destruct (data_of b m) as [[i e]|]; [|reflexivity]. unfold dhas, d_getitem, d_get. destruct (dget k e); reflexivity. }
      rewrite Eq. eauto.
    - (* eq *)
      pose proof (vrel_bunch _ _ _ _ b R) as H. pose proof (vrel_bunch _ _ _ _ c R) as H'. unfold both.
      destruct (bunch b v) as [[cb d]|].
      + destruct H as [a [_ [_ [H1 _]]]]. rewrite H1. destruct (bunch c v) as [[cc e]|].
        * destruct H' as [a' [_ [_ [H1' _]]]]. rewrite H1'. cbn [fst snd]. eauto.
        * destruct H' as [H' _]. rewrite H'. cbn [fst snd]. eauto.
      + destruct H as [H _]. rewrite H. cbn [fst snd]. eauto.
    - (* ne *)
      pose proof (vrel_bunch _ _ _ _ b R) as H. pose proof (vrel_bunch _ _ _ _ c R) as H'. unfold both.
      destruct (bunch b v) as [[cb d]|].
      + destruct H as [a [_ [_ [H1 _]]]]. rewrite H1. destruct (bunch c v) as [[cc e]|].
        * destruct H' as [a' [_ [_ [H1' _]]]]. rewrite H1'. cbn [fst snd]. eauto.
        * destruct H' as [H' _]. rewrite H'. cbn [fst snd]. eauto.
      + destruct H as [H _]. rewrite H. cbn [fst snd]. eauto.
    - (* update *)
      destruct (Hact b (fun d => (RUnit, dupd d (kwdict kw)))) as [E1 [adr' R1]]; [intros d Hd; simpl; apply (nodup_dupd none veq); exact Hd|].
      pose proof (vrel_bunch _ _ _ _ b R) as H. rewrite kwdict_ok by exact Hok.
      assert (Eq : match data_of b m with Some _ => poke b m (fun d => (RUnit, dupd d (kwdict kw))) | None => (RNoBunch, m) end = poke b m (fun d => (RUnit, dupd d (kwdict kw)))).
      { unfold poke. destruct (data_of b m) as [[? ?]|]; reflexivity. }
      rewrite Eq. eauto.
  Qed.

  (** *** bunchify *)
  Lemma all_ident_strings (d : dict V) : strings d = true -> all_ident isident (map fst d) = Some (forallb (good_key isident) (map fst d)).
  Proof.
    induction d as [|[[s|n] x] d IH]; cbn [strings forallb map fst all_ident key_ident good_key]; intros H; [reflexivity| |discriminate].
    destruct (isident s); [|reflexivity]. cbn [andb]. apply IH. exact H.
  Qed.
  Lemma invalid_strings (d : dict V) : strings d = true ->
    invalid_keys isident (map fst d) = Some (filter (fun k => negb (good_key isident k)) (map fst d)).
  Proof.
    induction d as [|[[s|n] x] d IH]; cbn [strings forallb map fst invalid_keys key_ident filter good_key]; intros H; [reflexivity| |discriminate].
    rewrite IH by exact H. destruct (isident s); reflexivity.
  Qed.

  Lemma bunchify_rel adr s v a : vrel adr (s_mem s) (s_handles s) v -> bop_ok class_attrs (BBunchify a) v ->
    fst (bunchify class_attrs isident a s) = fst (view_bunchify isident a v) /\
    let s' := snd (bunchify class_attrs isident a s) in
    exists adr', vrel adr' (s_mem s') (s_handles s') (snd (view_bunchify isident a v)).
  Proof.
    intros R Hok. destruct a as [b|h|]; cbn [bunchify view_bunchify bop_ok] in *.
    - pose proof (vrel_bunch _ _ _ _ b R) as H. destruct (bunch b v) as [[c d]|] eqn:E.
      + destruct H as [a [H1 [_ [_ [Ho _]]]]]. rewrite Ho, H1. cbn [fst snd]. eauto.
      + destruct H as [_ [H1 H2]]. rewrite H1, H2. cbn [fst snd]. eauto.
    - pose proof (vrel_dict _ _ _ _ h R) as H. destruct (dictionary h v) as [[c d]|] eqn:E.
      + destruct H as [a [H1 [H2 [H3 [H4 [H5 H6]]]]]]. rewrite H3, H4. rewrite all_ident_strings by exact Hok.
        destruct (forallb (good_key isident) (map fst d)).
        * unfold bunch_init, new_dict. cbn [m_objs m_dicts fst snd]. rewrite nth_error_app2 by lia. rewrite Nat.sub_diag. simpl (nth_error [_] 0).
          cbn iota beta. cbn [fst snd s_mem s_handles]. rewrite (vrel_blen _ _ _ _ R). split; [reflexivity|]. exists adr.
          unfold set_obj. cbn [m_dicts m_objs].
          pose proof (vrel_add _ _ _ _ _ _ (vrel_garbage _ _ _ _ [] R) H2) as X. cbn [m_dicts m_objs] in X.
          replace (upd_nth (List.length (v_bunches v)) _ _) with (m_objs (s_mem s) ++ [bob a]); [exact X|].
          rewrite <- (vrel_blen _ _ _ _ R). clear. induction (m_objs (s_mem s)) as [|y l IH]; [reflexivity|]. cbn [List.length upd_nth app]. f_equal. exact IH.
        * rewrite invalid_strings by exact Hok. cbn [fst snd]. eauto.
      + rewrite H. cbn [fst snd]. eauto.
    - cbn [fst snd]. eauto.
  Qed.

  Lemma bop_rel adr s v o : vrel adr (s_mem s) (s_handles s) v -> bop_ok class_attrs o v ->
    fst (run_bop none veq class_attrs isident o s) = fst (view_bop none veq isident o v) /\
    let s' := snd (run_bop none veq class_attrs isident o s) in
    exists adr', vrel adr' (s_mem s') (s_handles s') (snd (view_bop none veq isident o v)).
  Proof.
    intros R Hok. destruct o as [o|l|h f|a|b n|b n dflt]; cbn [run_bop view_bop].
    - destruct (vop_rel _ _ _ _ _ R Hok) as [E1 [adr' R1]]. unfold with_mem. destruct (view_op none veq o v) as [r v']. cbn [fst snd s_mem s_handles] in *.
      rewrite E1. eauto.
    - unfold new_dict. cbn [fst snd s_mem s_handles]. pose proof R as [_ [_ [_ [_ HH]]]]. rewrite (Forall2_len _ _ _ HH). split; [reflexivity|].
      assert (Hn : NoDup (dk (dupd [] l))) by (apply (nodup_dupd none veq); apply NoDup_nil).
      exists (adr ++ [List.length (m_dicts (s_mem s))]). pose proof (vrel_grow _ _ _ _ _ R Hn) as [H1 [H2 [H3 [H4 H5]]]].
      unfold vrel in *. cbn [v_cells v_bunches v_dicts m_dicts m_objs] in *. repeat (split; [assumption|]). apply Forall2_app; [exact H5|].
      constructor; [|constructor]. apply (vrel_last _ _ _ _ _ R).
    - pose proof (vrel_dict _ _ _ _ h R) as H. destruct (dictionary h v) as [[c d]|].
      + destruct H as [a [H1 [H2 [H3 [H4 [H5 H6]]]]]]. rewrite H3, H4. cbn [bop_ok] in Hok. specialize (Hok d H6). unfold at_cell.
        destruct (f d) as [r d']. cbn [fst snd s_mem s_handles] in *. split; [reflexivity|]. exists adr. apply vrel_set; assumption.
      + rewrite H. cbn [fst snd]. eauto.
    - apply (bunchify_rel adr); assumption.
    - cbn [fst snd]. cbn [bop_ok] in Hok. destruct Hok as [K1 K2].
      destruct (vop_rel _ _ _ _ (OGetAttr b n) R K1) as [E1 _]. cbn [run_op view_op] in E1. rewrite E1. clear E1. split; [|eauto].
      unfold see, at_cell. destruct (bunch b v) as [[c d]|]; [|reflexivity]. cbn [fst]. unfold d_getitem. rewrite K2. unfold dhas in K2.
      destruct (dget (KStr n) d); [reflexivity|discriminate].
    - cbn [fst snd]. cbn [bop_ok] in Hok. destruct Hok as [K1 K2].
      destruct (vop_rel _ _ _ _ (OGetAttr b n) R K1) as [E1 _]. cbn [run_op view_op] in E1. rewrite E1. clear E1. split; [|eauto].
      unfold see, at_cell. destruct (bunch b v) as [[c d]|]; [|reflexivity]. cbn [fst]. unfold d_getitem, d_get. unfold dhas in K2.
      destruct (dget (KStr n) d); [reflexivity|discriminate].
  Qed.

  Lemma bops_rel l : forall adr s v, vrel adr (s_mem s) (s_handles s) v -> bops_ok none veq isident class_attrs l v ->
    fst (run_bops none veq class_attrs isident l s) = fst (view_bops none veq isident l v) /\
    let s' := snd (run_bops none veq class_attrs isident l s) in
    exists adr', vrel adr' (s_mem s') (s_handles s') (snd (view_bops none veq isident l v)).
  Proof.
    induction l as [|o l IH]; intros adr s v R Hok; cbn [run_bops view_bops bops_ok] in *; [cbn [fst snd]; eauto|].
    destruct Hok as [K1 K2]. destruct (bop_rel adr s v o R K1) as [E1 [adr' R1]].
    destruct (run_bop none veq class_attrs isident o s) as [x s1]. destruct (view_bop none veq isident o v) as [y v1]. cbn [fst snd] in *.
    destruct (IH adr' s1 v1 R1 K2) as [E2 R2].
    destruct (run_bops none veq class_attrs isident l s1) as [xs s2]. destruct (view_bops none veq isident l v1) as [ys v2]. cbn [fst snd] in *.
    rewrite E1, E2. auto.
  Qed.
  Lemma vrel0 : vrel [] (@bmem0 V) [] view0.
  Proof. repeat split; constructor. Qed.

  Lemma map_seq_ext {A} (f g : nat -> A) n : forall m, (forall x, f x = g x) -> map f (seq m n) = map g (seq m n).
  Proof. intros m H. apply map_ext. exact H. Qed.
  Lemma vrel_contents adr s v : vrel adr (s_mem s) (s_handles s) v -> mem_contents s = view_contents v.
  Proof.
    intros R. unfold mem_contents, view_contents, contents. rewrite (vrel_blen _ _ _ _ R). pose proof R as [_ [_ [_ [_ HH]]]].
    rewrite (Forall2_len _ _ _ HH). f_equal; apply map_seq_ext; intros n.
    - pose proof (vrel_bunch _ _ _ _ n R) as H. destruct (bunch n v) as [[c d]|].
      + destruct H as [a [_ [_ [H _]]]]. rewrite H. reflexivity.
      + destruct H as [H _]. rewrite H. reflexivity.
    - pose proof (vrel_dict _ _ _ _ n R) as H. destruct (dictionary n v) as [[c d]|].
      + destruct H as [a [_ [_ [H1 [H2 _]]]]]. rewrite H1, H2. reflexivity.
      + rewrite H. reflexivity.
  Qed.
End P.
