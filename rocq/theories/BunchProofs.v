From Verif Require Import Base BunchModel BunchSpec.

Lemma key_eqb_eq a b : key_eqb a b = true <-> a = b.
Proof.
  destruct a, b; simpl; split; intros H; try discriminate; try (inversion H; subst).
  - apply String.eqb_eq in H. subst; reflexivity.
  - apply String.eqb_refl.
  - apply Nat.eqb_eq in H. subst; reflexivity.
  - apply Nat.eqb_refl.
Qed.
Lemma key_eqb_refl a : key_eqb a a = true.
Proof. apply key_eqb_eq. reflexivity. Qed.

Section P.
  Context {V : Type}.
  Variables (none : V) (veq : V -> V -> bool) (class_attrs : list string).

  Definition dk (d : dict V) : list key := map fst d.

  Lemma upd_nth_length {A} n (x : A) l : List.length (upd_nth n x l) = List.length l.
  Proof. revert n. induction l as [|y l IH]; intros [|n]; simpl; auto. Qed.
  Lemma nth_upd_same {A} n (x : A) l : n < List.length l -> nth_error (upd_nth n x l) n = Some x.
  Proof. revert n. induction l as [|y l IH]; intros [|n] H; simpl in *; try lia; [reflexivity|]. apply IH. lia. Qed.
  Lemma nth_upd_other {A} n m (x : A) l : n <> m -> nth_error (upd_nth n x l) m = nth_error l m.
  Proof. revert n m. induction l as [|y l IH]; intros [|n] [|m] H; simpl in *; try lia; try reflexivity. apply IH. lia. Qed.
  Lemma upd_nth_same {A} n (x : A) l : nth_error l n = Some x -> upd_nth n x l = l.
  Proof. revert n. induction l as [|y l IH]; intros [|n] H; simpl in *; try discriminate; [congruence|]. rewrite IH; auto. Qed.
  Lemma upd_nth_map {A B} (f : A -> B) n x l : map f (upd_nth n x l) = upd_nth n (f x) (map f l).
  Proof. revert n. induction l as [|y l IH]; intros [|n]; simpl; auto. rewrite IH. reflexivity. Qed.

  (** *** Dictionaries keep distinct keys *)
  Lemma dget_None k (d : dict V) : dget k d = None <-> ~ In k (dk d).
  Proof.
    induction d as [|[k' v] d IH]; simpl; [tauto|]. destruct (key_eqb k k') eqn:E.
    - apply key_eqb_eq in E. subst. split; [discriminate|]. intros H. exfalso. apply H. left; reflexivity.
    - rewrite IH. assert (k' <> k) by (intros ->; rewrite key_eqb_refl in E; discriminate). intuition.
  Qed.
  Lemma dset_keys k v (d : dict V) : dk (dset k v d) = if dhas k d then dk d else dk d ++ [k].
  Proof.
    unfold dhas. induction d as [|[k' w] d IH]; simpl; [reflexivity|]. destruct (key_eqb k k'); simpl; [reflexivity|].
    rewrite IH. destruct (dget k d); reflexivity.
  Qed.
  Lemma nodup_dset k v (d : dict V) : NoDup (dk d) -> NoDup (dk (dset k v d)).
  Proof.
    intros H. rewrite dset_keys. unfold dhas. destruct (dget k d) eqn:E; [exact H|]. apply dget_None in E.
    clear - H E. induction (dk d) as [|x l IH]; simpl in *; [constructor; [simpl; tauto|constructor]|].
    inversion H; subst. constructor; [|apply IH; tauto]. rewrite in_app_iff. simpl. intuition.
  Qed.
  Lemma In_ddel x k (d : dict V) : In x (dk (ddel k d)) -> In x (dk d).
  Proof. induction d as [|[k' w] d IH]; simpl; [tauto|]. destruct (key_eqb k k'); simpl; tauto. Qed.
  Lemma nodup_ddel k (d : dict V) : NoDup (dk d) -> NoDup (dk (ddel k d)).
  Proof.
    induction d as [|[k' w] d IH]; simpl; intros H; [constructor|]. inversion H; subst. destruct (key_eqb k k'); [assumption|].
    simpl. constructor; [|auto]. intros Hi. apply In_ddel in Hi. contradiction.
  Qed.
  Lemma nodup_dupd e : forall (d : dict V), NoDup (dk d) -> NoDup (dk (dupd d e)).
  Proof. unfold dupd. induction e as [|[k v] e IH]; simpl; intros d H; [exact H|]. apply IH, nodup_dset, H. Qed.
  Lemma dset_new k v (d : dict V) : ~ In k (dk d) -> dset k v d = d ++ [(k, v)].
  Proof.
    induction d as [|[k' w] d IH]; simpl; intros H; [reflexivity|]. destruct (key_eqb k k') eqn:E.
    - apply key_eqb_eq in E. subst. exfalso. apply H. left; reflexivity.
    - rewrite IH; tauto.
  Qed.
  Lemma dupd_fresh e : forall (d : dict V), NoDup (dk (d ++ e)) -> dupd d e = d ++ e.
  Proof.
    unfold dupd. induction e as [|[k v] e IH]; simpl; intros d H; [rewrite app_nil_r; reflexivity|].
    rewrite dset_new.
    - rewrite IH; rewrite <- app_assoc; [reflexivity|]. exact H.
    - unfold dk in H. rewrite map_app in H. simpl in H. apply NoDup_remove_2 in H. rewrite in_app_iff in H. tauto.
  Qed.
  Lemma dupd_copy (d : dict V) : NoDup (dk d) -> dupd [] d = d.
  Proof. intros H. apply (dupd_fresh d []). exact H. Qed.
  Lemma kw_ok_plain (d : dict V) : kw_ok d = plain d.
  Proof. reflexivity. Qed.
  Lemma plain_dset k v (d : dict V) : plain (dset k v d) = plain d && match k with KStr s => negb (String.eqb s "self") | KObj _ => false end || (plain d && dhas k d).
  Proof.
    unfold plain, dhas. induction d as [|[k' w] d IH]; cbn [dset forallb dget fst]; [destruct k; rewrite ?andb_true_r, ?orb_false_r; reflexivity|].
    destruct (key_eqb k k') eqn:E; cbn [forallb fst].
    - apply key_eqb_eq in E. subst. destruct k' as [s|n]; [|reflexivity]. destruct (negb (String.eqb s "self")); [|reflexivity]. cbn [andb].
      rewrite andb_true_r. destruct (forallb _ d); reflexivity.
    - rewrite IH. destruct k' as [s|n]; [|reflexivity]. destruct (negb (String.eqb s "self")); reflexivity.
  Qed.
  Lemma kwdict_ok kw : forallb (fun p : string * V => negb (String.eqb (fst p) "self")) kw = true -> kw_ok (kwdict kw) = true.
  Proof.
    unfold kwdict, dupd. assert (H0 : kw_ok (@nil (key * V)) = true) by reflexivity. revert H0. generalize (@nil (key * V)).
    induction kw as [|[s v] kw IH]; intros d Hd H; cbn [map fold_left]; [exact Hd|]. cbn [forallb fst] in H. apply andb_true_iff in H.
    destruct H as [H1 H2]. apply IH; [|exact H2]. rewrite kw_ok_plain in *. rewrite plain_dset. cbn [fst]. rewrite Hd, H1. reflexivity.
  Qed.

  (** *** The relation between memory and dictionaries *)
  Definition bobj (i : nat) : list (string * slot V) :=
    [("_data"%string, SDict i); ("_reserved_names"%string, SNames (class_attrs ++ ["_data"; "_reserved_names"]%string))].

  Definition rel (m : bmem V) (ds : list (dict V)) : Prop :=
    exists refs, m_objs m = map bobj refs /\ NoDup refs /\
      Forall2 (fun i d => nth_error (m_dicts m) i = Some d) refs ds /\ Forall (fun d => NoDup (dk d)) ds.

  Lemma rel_data m ds b : rel m ds ->
    match nth_error ds b with
    | Some d => exists i, data_of b m = Some (i, d)
    | None => data_of b m = None /\ nth_error (m_objs m) b = None
    end.
  Proof.
    intros [refs [Ho [_ [HF _]]]]. unfold data_of. rewrite Ho. clear Ho. revert b. induction HF as [|i d refs' ds' Hi _ IH]; intros [|b]; simpl.
    - auto.
    - auto.
    - rewrite Hi. exists i. reflexivity.
    - apply IH.
  Qed.
  Lemma rel_len m ds : rel m ds -> List.length (m_objs m) = List.length ds.
  Proof. intros [refs [Ho [_ [HF _]]]]. rewrite Ho, map_length. clear Ho. induction HF; simpl; congruence. Qed.
  Lemma rel_obj m ds b d : rel m ds -> nth_error ds b = Some d -> exists i, nth_error (m_objs m) b = Some (bobj i) /\ nth_error (m_dicts m) i = Some d.
  Proof.
    intros [refs [Ho [_ [HF _]]]] H. rewrite Ho. clear Ho. revert b H. induction HF as [|i e refs' ds' Hi _ IH]; intros [|b] H; simpl in *; try discriminate.
    - exists i. inversion H; subst. auto.
    - apply IH, H.
  Qed.
  Lemma rel_nodup m ds b d : rel m ds -> nth_error ds b = Some d -> NoDup (dk d).
  Proof. intros [refs [_ [_ [_ HN]]]] H. rewrite Forall_forall in HN. apply HN. eapply nth_error_In, H. Qed.

  Lemma Forall_upd {A} (P : A -> Prop) b x l : Forall P l -> P x -> Forall P (upd_nth b x l).
  Proof. intros H Hx. revert b. induction H; intros [|b]; simpl; constructor; auto. Qed.

  Lemma rel_set m ds b i d d' : rel m ds -> data_of b m = Some (i, d) -> NoDup (dk d') ->
    rel (set_dict i d' m) (upd_nth b d' ds).
  Proof.
    intros [refs [Ho [HN [HF HD]]]] Hd Hn. exists refs. split; [exact Ho|]. split; [exact HN|]. split; [|apply Forall_upd; assumption].
    assert (Hb : nth_error refs b = Some i /\ i < List.length (m_dicts m)).
    { unfold data_of in Hd. rewrite Ho in Hd. rewrite nth_error_map in Hd. destruct (nth_error refs b) as [j|]; [|discriminate]. simpl in Hd.
      destruct (nth_error (m_dicts m) j) eqn:E; [|discriminate]. inversion Hd; subst. split; [reflexivity|]. apply nth_error_Some. congruence. }
    destruct Hb as [Hb Hl]. clear Hd Ho HD. cbn [set_dict m_dicts]. revert b Hb. induction HF as [|j e refs' ds' Hj HF IH]; intros [|b] Hb; simpl in *; try discriminate.
    - inversion Hb; subst j. constructor; [apply nth_upd_same; exact Hl|]. inversion HN as [|? ? N1 N2]; subst.
      clear - HF N1. induction HF; constructor; [|apply IHHF; intros X; apply N1; right; exact X].
      rewrite nth_upd_other; [assumption|]. intros ->. apply N1. left; reflexivity.
    - inversion HN as [|? ? N1 N2]; subst. constructor; [|apply IH; auto].
      rewrite nth_upd_other; [exact Hj|]. intros ->. apply N1. eapply nth_error_In, Hb.
  Qed.

  Lemma Forall2_len {A B} (R : A -> B -> Prop) l1 l2 : Forall2 R l1 l2 -> List.length l1 = List.length l2.
  Proof. induction 1; simpl; congruence. Qed.

  Lemma nth_error_app_lt {A} (l l' : list A) i x : nth_error l i = Some x -> nth_error (l ++ l') i = Some x.
  Proof. intros H. rewrite nth_error_app1; [exact H|]. apply nth_error_Some. congruence. Qed.

  Lemma Forall2_impl2 {A B} (R R' : A -> B -> Prop) l1 l2 : (forall a b, R a b -> R' a b) -> Forall2 R l1 l2 -> Forall2 R' l1 l2.
  Proof. intros H. induction 1; constructor; auto. Qed.

  Lemma rel_init m ds d : rel m ds -> NoDup (dk d) ->
    fst (bunch_init class_attrs d m) = List.length ds /\ rel (snd (bunch_init class_attrs d m)) (ds ++ [d]).
  Proof.
    intros R Hn. split; [simpl; apply (rel_len _ _ R)|]. destruct R as [refs [Ho [HN [HF HD]]]].
    exists (refs ++ [List.length (m_dicts m)]). simpl. split; [rewrite map_app, Ho; reflexivity|]. split; [|split].
    - assert (Hlt : Forall (fun i => i < List.length (m_dicts m)) refs).
      { clear - HF. induction HF; constructor; auto. apply nth_error_Some. congruence. }
      clear - HN Hlt. induction HN as [|x l Hx HN IH]; simpl; [constructor; [simpl; tauto|constructor]|]. inversion Hlt; subst.
      constructor; [|auto]. rewrite in_app_iff. simpl. intros [H|[H|[]]]; [contradiction|lia].
    - apply Forall2_app.
      + eapply Forall2_impl2; [|exact HF]. intros i e He. apply nth_error_app_lt, He.
      + constructor; [|constructor]. rewrite nth_error_app2 by lia. rewrite Nat.sub_diag. reflexivity.
    - apply Forall_app. split; [exact HD|]. constructor; [exact Hn|constructor].
  Qed.

  Lemma smem_app s a b : smem s (a ++ b) = smem s a || smem s b.
  Proof. unfold smem. apply existsb_app. Qed.

  Lemma look_rel m ds b f : rel m ds -> fst (peek b m f) = fst (look b ds f) /\ rel (snd (peek b m f)) (snd (look b ds f)).
  Proof.
    intros R. pose proof (rel_data m ds b R) as H. unfold look, on, peek. destruct (nth_error ds b) as [d|] eqn:E.
    - destruct H as [i Hi]. rewrite Hi. simpl. rewrite upd_nth_same by exact E. auto.
    - destruct H as [H _]. rewrite H. auto.
  Qed.
  Lemma on_rel m ds b f : rel m ds -> (forall d, NoDup (dk d) -> NoDup (dk (snd (f d)))) ->
    fst (poke b m f) = fst (on b ds f) /\ rel (snd (poke b m f)) (snd (on b ds f)).
  Proof.
    intros R Hf. pose proof (rel_data m ds b R) as H. unfold on, poke. destruct (nth_error ds b) as [d|] eqn:E.
    - destruct H as [i Hi]. rewrite Hi. specialize (Hf d (rel_nodup _ _ _ _ R E)). destruct (f d) as [r d']. simpl in *.
      split; [reflexivity|]. eapply rel_set; eassumption.
    - destruct H as [H _]. rewrite H. auto.
  Qed.

  Lemma nodup_popitem (d : dict V) : NoDup (dk d) -> NoDup (dk (snd (d_popitem d))).
  Proof.
    unfold d_popitem. intros H. destruct (rev d) as [|p r] eqn:E; [exact H|]. simpl.
    assert (E2 : d = rev r ++ [p]). { rewrite <- (rev_involutive d), E. reflexivity. }
    rewrite E2 in H. unfold dk in *. rewrite map_app in H. simpl in H. apply NoDup_remove_1 in H. rewrite app_nil_r in H. exact H.
  Qed.

  Lemma copy_rel m ds b : rel m ds -> match nth_error ds b with Some d => plain d | None => true end = true ->
    fst (bunch_copy class_attrs b m) = match nth_error ds b with Some _ => RNew (List.length ds) | None => RNoBunch end /\
    rel (snd (bunch_copy class_attrs b m)) (match nth_error ds b with Some d => ds ++ [d] | None => ds end).
  Proof.
    intros R Hp. pose proof (rel_data m ds b R) as H. unfold bunch_copy. destruct (nth_error ds b) as [d|] eqn:E.
    - destruct H as [i Hi]. rewrite Hi. pose proof (rel_nodup _ _ _ _ R E) as Hn. rewrite dupd_copy by exact Hn. rewrite kw_ok_plain, Hp.
      destruct (rel_init m ds d R Hn) as [E1 R1]. destruct (bunch_init class_attrs d m) as [c m1]. simpl in *. subst c. auto.
    - destruct H as [H _]. rewrite H. auto.
  Qed.

  Lemma op_rel m ds o : rel m ds -> op_ok class_attrs o ds = true ->
    fst (run_op none veq class_attrs o m) = fst (dict_op none veq o ds) /\
    rel (snd (run_op none veq class_attrs o m)) (snd (dict_op none veq o ds)).
  Proof.
    intros R Hok. destruct o; cbn [run_op dict_op op_ok] in *;
      try (apply look_rel; exact R);
      try (apply on_rel; [exact R|]; intros d9 Hd;
           first [ apply nodup_popitem; exact Hd
                 | unfold d_delitem; destruct (dhas _ d9); simpl; [apply nodup_ddel|]; exact Hd
                 | unfold d_pop; destruct (dget _ d9); simpl; [apply nodup_ddel|]; exact Hd
                 | unfold d_setdefault; destruct (dget _ d9); simpl; [|apply nodup_dset]; exact Hd
                 | simpl; apply nodup_dset; exact Hd
                 | simpl; constructor ]).
    - (* new *)
      rewrite kwdict_ok by exact Hok. assert (Hn : NoDup (dk (kwdict kw))) by (apply nodup_dupd; constructor).
      destruct (rel_init m ds (kwdict kw) R Hn) as [E1 R1]. destruct (bunch_init class_attrs (kwdict kw) m) as [c m1]. simpl in *. subst c. auto.
    - (* copy *)
      destruct (copy_rel m ds b R Hok) as [E1 R1]. rewrite E1. destruct (nth_error ds b); auto.
    - (* replace *)
      pose proof (rel_data m ds b R) as H. destruct (nth_error ds b) as [d|] eqn:Eb.
      + destruct H as [i Hi]. rewrite Hi. destruct (copy_rel m ds c R Hok) as [E1 R1].
        destruct (bunch_copy class_attrs c m) as [r m1] eqn:Ecopy. simpl in E1, R1. subst r.
        destruct (nth_error ds c) as [e|] eqn:Ec; [|auto].
        destruct (rel_obj m ds b d R Eb) as [i0 [Ho0 Hi0]].
        assert (X : exists j, data_of (List.length ds) m1 = Some (j, e) /\ j = List.length (m_dicts m) /\ m_dicts m1 = m_dicts m ++ [e]).
        { pose proof (rel_data m ds c R) as Hc. rewrite Ec in Hc. destruct Hc as [ic Hc]. unfold bunch_copy in Ecopy. rewrite Hc in Ecopy.
          rewrite (dupd_copy e (rel_nodup _ _ _ _ R Ec)) in Ecopy. rewrite kw_ok_plain, Hok in Ecopy.
          destruct (bunch_init class_attrs e m) as [c' m1'] eqn:Ei. unfold bunch_init, new_dict in Ei. inversion Ei; subst c' m1'. inversion Ecopy; subst m1. clear Ecopy Ei.
          exists (List.length (m_dicts m)). cbn [m_dicts m_objs]. unfold data_of. cbn [m_dicts m_objs]. try rewrite <- (rel_len _ _ R).
          rewrite nth_error_app2 by lia. rewrite Nat.sub_diag. simpl. rewrite nth_error_app2 by lia. rewrite Nat.sub_diag. auto. }
        destruct X as [j [Hj [Ej Ed]]]. rewrite Hj, Ho0, Ed. cbn [fst snd]. split; [reflexivity|]. clear R1 Hj Ecopy Ed.
        pose proof (rel_nodup _ _ _ _ R Ec) as Hne.
        destruct R as [refs [Ho [HN [HF HD]]]].
        exists (upd_nth b j refs). cbn [m_objs m_dicts]. split; [|split; [|split]].
        * rewrite Ho. change (sset "_data" (SDict j) (bobj i0)) with (bobj j). rewrite upd_nth_map. reflexivity.
        * assert (Hlt : ~ In j refs).
          { intros Hin. clear - HF Hin Ej. induction HF as [|x y lx ly Hxy HF IH]; [contradiction|]. destruct Hin as [Hin|Hin]; [|auto]. subst.
            assert (List.length (m_dicts m) < List.length (m_dicts m)); [|lia]. apply nth_error_Some. congruence. }
          clear - HN Hlt. revert b. induction HN as [|x l Hx HN IH]; intros [|b]; simpl; try constructor; auto.
          -- intros X; apply Hlt; right; exact X.
          -- intros X. assert (Hb : forall b, In x (upd_nth b j l) -> In x l \/ x = j).
             { clear. induction l as [|y l IH]; intros [|b]; simpl; try tauto; intuition. destruct (IH b H0); auto. }
             destruct (Hb _ X) as [Y|Y]; [contradiction|]. subst. apply Hlt. left; reflexivity.
          -- apply IH. intros X; apply Hlt; right; exact X.
        * subst j. clear - HF. revert b. induction HF as [|x y lx ly Hxy HF IH]; intros b; [destruct b; constructor|].
          destruct b as [|b]; simpl; constructor.
          -- rewrite nth_error_app2 by lia. rewrite Nat.sub_diag. reflexivity.
          -- eapply Forall2_impl2; [|exact HF]. intros i e' He. apply nth_error_app_lt, He.
          -- apply nth_error_app_lt, Hxy.
          -- apply IH.
        * apply Forall_upd; assumption.
      + destruct H as [H _]. rewrite H. auto.
    - (* getattr *)
      unfold bunch_getattr. pose proof (rel_data m ds b R) as H. destruct (nth_error ds b) as [d|] eqn:Eb.
      + destruct (rel_obj m ds b d R Eb) as [i0 [Ho0 Hi0]]. rewrite Ho0. unfold reserved in Hok. apply negb_true_iff, orb_false_iff in Hok.
        destruct Hok as [H1 H2]. assert (E : sget s (bobj i0) = None).
        { unfold bobj. cbn [sget]. unfold smem in H2. cbn [existsb] in H2. apply orb_false_iff in H2. destruct H2 as [H2 H3]. rewrite H2.
          apply orb_false_iff in H3. destruct H3 as [H3 _]. rewrite H3. reflexivity. }
        rewrite E, H1. apply look_rel. exact R.
      + destruct H as [_ H]. rewrite H. unfold look, on. rewrite Eb. auto.
    - (* setattr *)
      unfold bunch_setattr. pose proof (rel_data m ds b R) as H. destruct (nth_error ds b) as [d|] eqn:Eb.
      + destruct (rel_obj m ds b d R Eb) as [i0 [Ho0 Hi0]]. rewrite Ho0. unfold reserved in Hok. apply negb_true_iff, orb_false_iff in Hok.
        destruct Hok as [H1 H2]. rewrite H2. unfold names_of. rewrite Ho0. change (sget "_reserved_names" (bobj i0)) with (Some (@SNames V (class_attrs ++ ["_data"; "_reserved_names"]%string))).
        cbv iota. rewrite smem_app, H1, H2. cbn [orb]. apply on_rel; [exact R|]. intros d0 Hd0. simpl. apply nodup_dset, Hd0.
      + destruct H as [_ H]. rewrite H. unfold on. rewrite Eb. auto.
    - (* get *)
      assert (E : forall d0 : dict V, (if dhas k d0 then d_getitem k d0 else RVal (match d with Some v => v | None => none end)) = d_get none k d d0).
      { intros d0. unfold dhas, d_getitem, d_get. destruct (dget k d0); reflexivity. }
      destruct (look_rel m ds b (d_get none k d) R) as [A B]. unfold peek in *. destruct (data_of b m) as [[i d0]|]; rewrite ?E; auto.
    - (* eq *)
      pose proof (rel_data m ds b R) as H. pose proof (rel_data m ds c R) as H'.
      destruct (nth_error ds b), (nth_error ds c); repeat match goal with H : exists _, _ |- _ => destruct H as [? H] | H : _ /\ _ |- _ => destruct H as [H _] end; rewrite ?H, ?H'; auto.
    - pose proof (rel_data m ds b R) as H. pose proof (rel_data m ds c R) as H'.
      destruct (nth_error ds b), (nth_error ds c); repeat match goal with H : exists _, _ |- _ => destruct H as [? H] | H : _ /\ _ |- _ => destruct H as [H _] end; rewrite ?H, ?H'; auto.
    - (* update *)
      pose proof (rel_data m ds b R) as H. rewrite kwdict_ok by exact Hok.
      assert (G := on_rel m ds b (fun d => (RUnit, dupd d (kwdict kw))) R (fun d Hd => nodup_dupd _ _ Hd)).
      destruct (nth_error ds b) as [d|] eqn:Eb.
      + destruct H as [i Hi]. rewrite Hi. exact G.
      + destruct H as [H _]. rewrite H. unfold on. rewrite Eb. auto.
  Qed.

  Lemma ops_rel l : forall m ds, rel m ds -> ops_ok none veq class_attrs l ds = true ->
    fst (run_ops none veq class_attrs l m) = fst (dict_ops none veq l ds) /\
    rel (snd (run_ops none veq class_attrs l m)) (snd (dict_ops none veq l ds)).
  Proof.
    induction l as [|o l IH]; intros m ds R H; [auto|]. cbn [ops_ok] in H. apply andb_true_iff in H. destruct H as [H1 H2].
    destruct (op_rel m ds o R H1) as [E R1]. cbn [run_ops dict_ops].
    destruct (run_op none veq class_attrs o m) as [x m1]. destruct (dict_op none veq o ds) as [y d1]. simpl in *. subst y.
    destruct (IH m1 d1 R1 H2) as [E2 R2]. destruct (run_ops none veq class_attrs l m1) as [xs m2]. destruct (dict_ops none veq l d1) as [ys d2].
    simpl in *. subst. auto.
  Qed.

  Lemma rel_contents m ds : rel m ds -> contents m = map Some ds.
  Proof.
    intros R. unfold contents. rewrite (rel_len _ _ R).
    assert (G : forall l n, (forall i, nth_error l i = nth_error ds (n + i)) -> 
       map (fun b => match data_of b m with Some (_, d) => Some d | None => None end) (seq n (List.length l)) = map Some l).
    { induction l as [|d l IH]; intros n Hn; [reflexivity|]. cbn [List.length seq map]. f_equal.
      - pose proof (rel_data m ds n R) as H. specialize (Hn 0). rewrite Nat.add_0_r in Hn. rewrite <- Hn in H. simpl in H. destruct H as [i H]. rewrite H. reflexivity.
      - apply IH. intros i. specialize (Hn (S i)). simpl in Hn. rewrite Hn. f_equal. lia. }
    apply (G ds 0). intros i; reflexivity.
  Qed.

  Lemma rel0 : rel bmem0 [].
  Proof. exists []. repeat split; constructor. Qed.

  (** *** Public programs keep the instance attributes *)
  Definition intact (m : bmem V) : Prop :=
    Forall (fun o => exists i d, o = bobj i /\ nth_error (m_dicts m) i = Some d /\ True) (m_objs m).

  Lemma intact_dicts m ds' : intact m -> List.length (m_dicts m) <= List.length ds' -> intact (mkMem ds' (m_objs m)).
  Proof.
    intros H Hl. eapply Forall_impl; [|exact H]. intros o [i [d [E [Hi _]]]]. 
    assert (Hlt : i < List.length ds'). { apply Nat.lt_le_trans with (List.length (m_dicts m)); [|exact Hl]. apply nth_error_Some. congruence. }
    destruct (nth_error ds' i) as [d'|] eqn:E'; [|apply nth_error_None in E'; lia]. exists i, d'. cbn [m_dicts]. auto.
  Qed.
  Lemma intact_poke m b f : intact m -> intact (snd (poke b m f)).
  Proof.
    intros H. unfold poke. destruct (data_of b m) as [[i d]|]; [|exact H]. destruct (f d) as [r d']. apply intact_dicts; [exact H|]. rewrite upd_nth_length. lia.
  Qed.
  Lemma intact_peek m b f : intact m -> intact (snd (peek b m f)).
  Proof. intros H. unfold peek. destruct (data_of b m) as [[i d]|]; exact H. Qed.
  Lemma intact_init m d : intact m -> intact (snd (bunch_init class_attrs d m)).
  Proof.
    intros H. unfold bunch_init, new_dict. cbn [snd m_dicts m_objs]. unfold intact. cbn [m_dicts m_objs]. apply Forall_app. split.
    - apply (intact_dicts m (m_dicts m ++ [d]) H). rewrite app_length. lia.
    - constructor; [|constructor]. exists (List.length (m_dicts m)), d. split; [reflexivity|]. split; [|exact I].
      cbn [m_dicts]. rewrite nth_error_app2 by lia. rewrite Nat.sub_diag. reflexivity.
  Qed.
  Lemma intact_copy m b : intact m -> intact (snd (bunch_copy class_attrs b m)).
  Proof.
    intros H. unfold bunch_copy. destruct (data_of b m) as [[i d]|]; [|exact H]. destruct (kw_ok (dupd [] d)); [|exact H].
    pose proof (intact_init m (dupd [] d) H) as G. destruct (bunch_init class_attrs (dupd [] d) m). exact G.
  Qed.
  Lemma data_of_len b (m : bmem V) i d : data_of b m = Some (i, d) -> nth_error (m_dicts m) i = Some d.
  Proof.
    unfold data_of. destruct (nth_error (m_objs m) b) as [o|]; [|discriminate]. destruct (sget "_data" o) as [[j|l|v]|]; try discriminate.
    destruct (nth_error (m_dicts m) j) eqn:E; [|discriminate]. intros H; inversion H; subst. exact E.
  Qed.
  Lemma copy_dicts (m : bmem V) b : List.length (m_dicts m) <= List.length (m_dicts (snd (bunch_copy class_attrs b m))).
  Proof.
    unfold bunch_copy. destruct (data_of b m) as [[i d]|]; [|reflexivity]. destruct (kw_ok (dupd [] d)); [|reflexivity]. simpl. rewrite app_length. lia.
  Qed.

  Lemma intact_op m o : intact m -> public o = true -> intact (snd (run_op none veq class_attrs o m)).
  Proof.
    intros H Hp. destruct o; cbn [run_op]; try (apply intact_peek; exact H); try (apply intact_poke; exact H).
    - destruct (kw_ok (kwdict kw)); [|exact H]. pose proof (intact_init m (kwdict kw) H) as G. destruct (bunch_init class_attrs (kwdict kw) m). exact G.
    - apply intact_copy, H.
    - destruct (data_of b m); [|exact H]. pose proof (intact_copy m c H) as G. pose proof (copy_dicts m c) as L. destruct (bunch_copy class_attrs c m) as [r m1].
      destruct r; try exact G. destruct (data_of b0 m1) as [[i d]|] eqn:Ed; [|exact H]. destruct (nth_error (m_objs m) b) as [o|] eqn:Eo; [|exact H].
      simpl in G, L. cbn [snd]. unfold intact. cbn [m_dicts m_objs]. apply Forall_upd; [apply (intact_dicts m (m_dicts m1) H L)|].
      unfold intact in H. rewrite Forall_forall in H. destruct (H o (nth_error_In _ _ Eo)) as [i' [d' [Eo' _]]]. subst o.
      exists i, d. split; [reflexivity|]. split; [|exact I]. apply data_of_len in Ed. exact Ed.
    - unfold bunch_getattr. destruct (nth_error (m_objs m) b) as [o|]; [|exact H]. destruct (sget s o) as [[?|?|?]|]; try exact H. destruct (smem s class_attrs); [exact H|]. apply intact_peek, H.
    - unfold bunch_setattr. destruct (nth_error (m_objs m) b) as [o|]; [|exact H]. cbn [public] in Hp. apply negb_true_iff in Hp. rewrite Hp.
      destruct (smem s (names_of b m)); [exact H|]. apply intact_poke, H.
    - destruct (data_of b m) as [[? ?]|]; [|exact H]. destruct (data_of c m) as [[? ?]|]; exact H.
    - destruct (data_of b m) as [[? ?]|]; [|exact H]. destruct (data_of c m) as [[? ?]|]; exact H.
    - destruct (data_of b m) as [[? ?]|]; [|exact H]. destruct (kw_ok (kwdict kw)); [|exact H]. apply intact_poke, H.
  Qed.
  Lemma intact_ops l : forall m, intact m -> forallb public l = true -> intact (snd (run_ops none veq class_attrs l m)).
  Proof.
    induction l as [|o l IH]; intros m H Hp; [exact H|]. cbn [forallb] in Hp. apply andb_true_iff in Hp. destruct Hp as [Hp1 Hp2].
    pose proof (intact_op m o H Hp1) as G. cbn [run_ops]. destruct (run_op none veq class_attrs o m) as [x m1]. simpl in G. specialize (IH m1 G Hp2).
    destruct (run_ops none veq class_attrs l m1). exact IH.
  Qed.
End P.
