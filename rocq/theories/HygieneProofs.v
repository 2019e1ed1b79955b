(** Proofs for C44 and C45. *)
From Verif Require Import Base Dict UtilsModel UtilsSpec UtilsProofs QuoteModel HygieneModel.

Section Trace.
  Context {S O R : Type}.
  Variable step : S -> O -> option (S * R).
  Notation run := (run step).
  Lemma run_nth ops : forall st st' outs i op, run ops st = Some (st', outs) -> nth_error ops i = Some op ->
    exists st1 st2 x, run (firstn i ops) st = Some (st1, firstn i outs) /\ step st1 op = Some (st2, x) /\ nth_error outs i = Some x /\
      run (skipn (Datatypes.S i) ops) st2 = Some (st', skipn (Datatypes.S i) outs).
  Proof.
    induction ops as [|o ops IH]; intros st st' outs i op H E; [destruct i; discriminate|]. cbn [HygieneModel.run] in H. destruct (step st o) as [[s1 x]|] eqn:Es; [|discriminate].
    destruct (run ops s1) as [[s2 xs]|] eqn:Er; [|discriminate]. injection H as <- <-. destruct i as [|i]; cbn [nth_error firstn skipn] in *.
    - injection E as <-. exists st, s1, x. auto.
    - destruct (IH _ _ _ _ _ Er E) as (st1 & st2 & y & H1 & H2 & H3 & H4). exists st1, st2, y. split; [|auto]. cbn [HygieneModel.run]. rewrite Es, H1. reflexivity.
  Qed.
  (** Splitting at two indices. *)
  Lemma run_nth2 ops st st' outs i j op op' : run ops st = Some (st', outs) -> nth_error ops i = Some op -> nth_error ops j = Some op' -> i < j ->
    exists st1 st2 x s1 s2 y, run (firstn i ops) st = Some (st1, firstn i outs) /\ step st1 op = Some (st2, x) /\ nth_error outs i = Some x /\
      run (firstn (j - Datatypes.S i) (skipn (Datatypes.S i) ops)) st2 = Some (s1, firstn (j - Datatypes.S i) (skipn (Datatypes.S i) outs)) /\
      step s1 op' = Some (s2, y) /\ nth_error outs j = Some y /\ run (skipn (Datatypes.S j) ops) s2 = Some (st', skipn (Datatypes.S j) outs).
  Proof.
    intros H Hi Hj Hlt. destruct (run_nth _ _ _ _ _ _ H Hi) as (st1 & st2 & x & A1 & A2 & A3 & A4).
    assert (N : forall {A} (l : list A), nth_error (skipn (Datatypes.S i) l) (j - Datatypes.S i) = nth_error l j).
    { intros A l. rewrite <- (firstn_skipn (Datatypes.S i) l) at 2. destruct (Nat.le_gt_cases (List.length l) i) as [Hl|Hl].
      - rewrite (skipn_all2 l) by lia. rewrite app_nil_r, firstn_all2 by lia. destruct (j - Datatypes.S i); symmetry; apply nth_error_None; lia.
      - rewrite nth_error_app2; rewrite firstn_length_le by lia; [reflexivity|lia]. }
    assert (K : forall {A} (l : list A), skipn (Datatypes.S (j - Datatypes.S i)) (skipn (Datatypes.S i) l) = skipn (Datatypes.S j) l).
    { intros A l. replace (Datatypes.S j) with (Datatypes.S i + Datatypes.S (j - Datatypes.S i)) by lia. generalize (Datatypes.S (j - Datatypes.S i)) as n. generalize (Datatypes.S i) as k. intros k. revert l. induction k as [|k IHk]; intros [|z l] n; cbn [skipn Nat.add]; try reflexivity; [destruct n; reflexivity|apply IHk]. }
    rewrite <- (N _ ops) in Hj. destruct (run_nth _ _ _ _ _ _ A4 Hj) as (s1 & s2 & y & B1 & B2 & B3 & B4). rewrite N in B3. rewrite !K in B4. exists st1, st2, x, s1, s2, y. auto 10.
  Qed.
  Lemma run_inv (I : S -> Prop) : (forall s o s' x, I s -> step s o = Some (s', x) -> I s') -> forall ops s s' outs, I s -> run ops s = Some (s', outs) -> I s'.
  Proof.
    intros H. induction ops as [|o ops IH]; intros s s' outs Hs Hr; cbn [HygieneModel.run] in Hr; [injection Hr as <- <-; exact Hs|].
    destruct (step s o) as [[s1 x]|] eqn:Es; [|discriminate]. destruct (run ops s1) as [[s2 xs]|] eqn:Er; [|discriminate]. injection Hr as <- <-. eapply IH; [|exact Er]. eapply H; eassumption.
  Qed.
  (** With a condition on the operations. *)
  Lemma run_inv_ops (I : S -> Prop) (P : O -> Prop) : (forall s o s' x, I s -> P o -> step s o = Some (s', x) -> I s') -> forall ops s s' outs, Forall P ops -> I s -> run ops s = Some (s', outs) -> I s'.
  Proof.
    intros H. induction ops as [|o ops IH]; intros s s' outs HP Hs Hr; cbn [HygieneModel.run] in Hr; [injection Hr as <- <-; exact Hs|].
    destruct (step s o) as [[s1 x]|] eqn:Es; [|discriminate]. destruct (run ops s1) as [[s2 xs]|] eqn:Er; [|discriminate]. injection Hr as <- <-. inversion HP; subst. eapply IH; [assumption| |exact Er]. eapply H; eassumption.
  Qed.
End Trace.

Section Values.
  Context {val bytes : Type}.
  Variable dumps : val -> res bytes.
  Variable loads : bytes -> res val.
  Notation hst := (hst val bytes).
  Notation hstep := (hstep dumps loads).
  Notation hrun := (hrun dumps loads).
  Definition ab (b : bobj bytes) : Z * bytes := (b_addr b, b_bytes b).
  Definition grows (l l' : list (bobj bytes)) : Prop := exists t, map ab l' = map ab l ++ t.
  Lemma grows_refl l : grows l l. Proof. exists []. rewrite app_nil_r. reflexivity. Qed.
  Lemma grows_trans a b c : grows a b -> grows b c -> grows a c.
  Proof. intros [t1 H1] [t2 H2]. exists (t1 ++ t2). rewrite H2, H1, app_assoc. reflexivity. Qed.
  Lemma kill_ab h l : map ab (kill h l) = map ab l.
  Proof. revert h. induction l as [|b l IH]; intros [|h]; cbn; try reflexivity. rewrite IH. reflexivity. Qed.
  Lemma alloc_inv b a (st : hst) st' x : alloc b a st = Some (st', x) ->
    st' = mkH (h_heap st ++ [mkB a b true]) (h_cache st) (h_objs st) /\ x = RRef (List.length (h_heap st)) /\ addr_free a (h_heap st) = true.
  Proof. unfold alloc. destruct (addr_free a (h_heap st)); [|discriminate]. intros H. injection H as <- <-. auto. Qed.

  Lemma cget_mono (st : hst) o st' x k v : hstep st o = Some (st', x) -> cget k (h_cache st) = Some v -> cget k (h_cache st') = Some v.
  Proof.
    intros H Hc. destruct o as [name v0 a|b a|name [h|]|h]; cbn [HygieneModel.hstep] in H.
    - destruct (dumps (o_val v0)); [|injection H as <- <-; exact Hc]. apply alloc_inv in H. destruct H as (-> & _). exact Hc.
    - apply alloc_inv in H. destruct H as (-> & _). exact Hc.
    - destruct (nth_error (h_heap st) h) as [b|]; [|discriminate]. destruct (b_live b); [|discriminate]. destruct (cget (name, b_addr b) (h_cache st)) as [o|] eqn:E; [injection H as <- <-; exact Hc|].
      destruct (loads (b_bytes b)); injection H as <- <-; [|exact Hc]. cbn [h_cache cget]. destruct (key_eqb k (name, b_addr b)) eqn:K; [|exact Hc].
      unfold key_eqb in K. apply andb_true_iff in K. destruct K as [K1 K2]. apply String.eqb_eq in K1. apply Z.eqb_eq in K2. destruct k as [n z]; cbn [fst snd] in *. subst. congruence.
    - injection H as <- <-. exact Hc.
    - destruct (nth_error (h_heap st) h) as [b|]; [|discriminate]. destruct (b_live b); [|discriminate]. injection H as <- <-. exact Hc.
  Qed.
  Lemma heap_mono (st : hst) o st' x : hstep st o = Some (st', x) -> grows (h_heap st) (h_heap st').
  Proof.
    intros H. destruct o as [name v0 a|b a|name [h|]|h]; cbn [HygieneModel.hstep] in H.
    - destruct (dumps (o_val v0)) as [b|]; [|injection H as <- <-; apply grows_refl]. apply alloc_inv in H. destruct H as (-> & _). exists [(a, b)]. cbn [h_heap]. rewrite map_app. reflexivity.
    - apply alloc_inv in H. destruct H as (-> & _). exists [(a, b)]. cbn [h_heap]. rewrite map_app. reflexivity.
    - destruct (nth_error (h_heap st) h) as [b|]; [|discriminate]. destruct (b_live b); [|discriminate]. destruct (cget (name, b_addr b) (h_cache st)) as [o|]; [injection H as <- <-; apply grows_refl|].
      destruct (loads (b_bytes b)); injection H as <- <-; apply grows_refl.
    - injection H as <- <-. apply grows_refl.
    - destruct (nth_error (h_heap st) h) as [b|]; [|discriminate]. destruct (b_live b); [|discriminate]. injection H as <- <-. exists []. cbn [h_heap]. rewrite kill_ab, app_nil_r. reflexivity.
  Qed.
  Lemma run_grows ops (st : hst) st' outs : hrun ops st = Some (st', outs) -> grows (h_heap st) (h_heap st').
  Proof. intros H. apply (run_inv hstep (fun s => grows (h_heap st) (h_heap s)) ltac:(intros s o s' x Hs Ho; exact (grows_trans _ _ _ Hs (heap_mono _ _ _ _ Ho))) ops st st' outs (grows_refl _) H). Qed.
  Lemma run_cget ops (st : hst) st' outs k v : hrun ops st = Some (st', outs) -> cget k (h_cache st) = Some v -> cget k (h_cache st') = Some v.
  Proof. intros H Hc. apply (run_inv hstep (fun s => cget k (h_cache s) = Some v) ltac:(intros s o s' x Hs Ho; exact (cget_mono _ _ _ _ _ _ Ho Hs)) ops st st' outs Hc H). Qed.
  Lemma grows_nth l l' h p : grows l l' -> nth_error (map ab l) h = Some p -> nth_error (map ab l') h = Some p.
  Proof. intros [t H] Hn. rewrite H, nth_error_app1; [exact Hn|]. apply nth_error_Some. congruence. Qed.

  Definition inv (n0 : nat) (st : hst) : Prop :=
    n0 <= h_objs st /\
    (forall n a o, cget (n, a) (h_cache st) = Some o -> (exists h b, nth_error (map ab (h_heap st)) h = Some (a, b) /\ loads b = Ok (o_val o)) /\ n0 <= o_id o < h_objs st) /\
    (forall k k' o o', cget k (h_cache st) = Some o -> cget k' (h_cache st) = Some o' -> o_id o = o_id o' -> k = k').
  Lemma key_eqb_eq k k' : key_eqb k k' = true <-> k = k'.
  Proof. unfold key_eqb. rewrite andb_true_iff, String.eqb_eq, Z.eqb_eq. destruct k, k'; cbn [fst snd]. split; [intros [-> ->]; reflexivity|intros H; injection H; auto]. Qed.
  Lemma inv_step n0 (st : hst) o st' x : inv n0 st -> hstep st o = Some (st', x) -> inv n0 st'.
  Proof.
    intros (I0 & I1 & I2) H. pose proof (heap_mono _ _ _ _ H) as G.
    assert (Q : forall s', h_cache s' = h_cache st -> h_objs s' = h_objs st -> grows (h_heap st) (h_heap s') -> inv n0 s').
    { intros s' E1 E2 G'. unfold inv. rewrite E1, E2. split; [exact I0|]. split; [|exact I2]. intros n a o' Ho. destruct (I1 _ _ _ Ho) as ((h & b & A1 & A2) & A3). split; [|exact A3]. exists h, b. split; [exact (grows_nth _ _ _ _ G' A1)|exact A2]. }
    destruct o as [name v0 a|b a|name [h|]|h]; cbn [HygieneModel.hstep] in H.
    - destruct (dumps (o_val v0)) as [b|]; [|injection H as <- <-; repeat split; auto; apply I1 in H; apply H]. apply alloc_inv in H as A. destruct A as (E & _). apply Q; [rewrite E; reflexivity|rewrite E; reflexivity|exact G].
    - apply alloc_inv in H as A. destruct A as (E & _). apply Q; [rewrite E; reflexivity|rewrite E; reflexivity|exact G].
    - destruct (nth_error (h_heap st) h) as [b|] eqn:En; [|discriminate]. destruct (b_live b); [|discriminate]. destruct (cget (name, b_addr b) (h_cache st)) as [o|] eqn:E; [injection H as <- <-; apply Q; auto; apply grows_refl|].
      destruct (loads (b_bytes b)) as [v|] eqn:El; injection H as <- <-; [|apply Q; auto; apply grows_refl]. cbn [h_heap h_cache h_objs] in *. unfold inv. cbn [h_heap h_cache h_objs cget].
      split; [lia|]. split.
      + intros n a o Ho. destruct (key_eqb (n, a) (name, b_addr b)) eqn:K.
        * apply key_eqb_eq in K. injection K as -> ->. injection Ho as <-. cbn [o_id o_val]. split; [|lia]. exists h, (b_bytes b). split; [rewrite nth_error_map, En; reflexivity|exact El].
        * destruct (I1 _ _ _ Ho) as (A & B). split; [exact A|lia].
      + intros k k' o o' Ho Ho' Hid. destruct (key_eqb k (name, b_addr b)) eqn:K, (key_eqb k' (name, b_addr b)) eqn:K'.
        * apply key_eqb_eq in K, K'. congruence.
        * injection Ho as <-. cbn [o_id] in Hid. destruct k' as [n' a']. destruct (I1 _ _ _ Ho') as (_ & B). lia.
        * injection Ho' as <-. cbn [o_id] in Hid. destruct k as [n' a']. destruct (I1 _ _ _ Ho) as (_ & B). lia.
        * exact (I2 _ _ _ _ Ho Ho' Hid).
    - injection H as <- <-. apply Q; auto; apply grows_refl.
    - destruct (nth_error (h_heap st) h) as [b|]; [|discriminate]. destruct (b_live b); [|discriminate]. injection H as <- <-. apply Q; [reflexivity|reflexivity|exact G].
  Qed.
  Lemma inv_init (st : hst) : h_cache st = [] -> inv (h_objs st) st.
  Proof. intros H. unfold inv. rewrite H. split; [lia|]. split; intros; discriminate. Qed.
  Lemma run_inv' ops (st : hst) st' outs : h_cache st = [] -> hrun ops st = Some (st', outs) -> inv (h_objs st) st'.
  Proof. intros H Hr. exact (run_inv hstep (inv (h_objs st)) (inv_step (h_objs st)) ops st st' outs (inv_init st H) Hr). Qed.

  Lemma nodup_addr (l : list (bobj bytes)) h h' p p' : NoDup (map b_addr l) -> nth_error (map ab l) h = Some p -> nth_error (map ab l) h' = Some p' -> fst p = fst p' -> h = h'.
  Proof.
    intros N H H' E. assert (M : map b_addr l = map fst (map ab l)) by (rewrite map_map; reflexivity). rewrite M in N. clear M. revert N H H'. generalize (map ab l) as q. intros q N H H'.
    apply (proj1 (NoDup_nth_error _) N h h'); [apply nth_error_Some; rewrite nth_error_map, H; discriminate|]. rewrite !nth_error_map, H, H'. cbn. congruence.
  Qed.
  (** What a lookup gives, when no address is used twice. *)
  Lemma lookup_result ops (st0 : hst) st outs j name h r :
    h_cache st0 = [] -> hrun ops st0 = Some (st, outs) -> NoDup (map b_addr (h_heap st)) -> nth_error ops j = Some (OLookup name (Some h)) -> nth_error outs j = Some r ->
    exists a b, nth_error (map ab (h_heap st)) h = Some (a, b) /\
      match loads b with
      | Ok v => exists o, r = RObj o /\ o_val o = v /\ h_objs st0 <= o_id o /\ cget (name, a) (h_cache st) = Some o
      | Err e => r = RErr e
      end.
  Proof.
    intros H0 Hr N Hj Ho. destruct (run_nth hstep _ _ _ _ _ _ Hr Hj) as (s1 & s2 & x & A1 & A2 & A3 & A4). rewrite Ho in A3. injection A3 as <-.
    pose proof (run_inv' _ _ _ _ H0 A1) as I1. pose proof (inv_step _ _ _ _ _ I1 A2) as I2. pose proof (run_grows _ _ _ _ A4) as G2. pose proof (grows_trans _ _ _ (heap_mono _ _ _ _ A2) G2) as G1.
    pose proof (fun k v => run_cget _ _ _ _ k v A4) as C.
    cbn [HygieneModel.hstep] in A2. destruct (nth_error (h_heap s1) h) as [b|] eqn:En; [|discriminate]. destruct (b_live b); [|discriminate].
    assert (En' : nth_error (map ab (h_heap st)) h = Some (b_addr b, b_bytes b)) by (apply (grows_nth _ _ _ _ G1); rewrite nth_error_map, En; reflexivity).
    exists (b_addr b), (b_bytes b). split; [exact En'|].
    destruct (cget (name, b_addr b) (h_cache s1)) as [o|] eqn:E.
    - injection A2 as <- <-. destruct I1 as (_ & J1 & _). destruct (J1 _ _ _ E) as ((h' & b' & B1 & B2) & B3 & B4).
      apply (grows_nth _ _ _ _ G1) in B1. pose proof (nodup_addr _ _ _ _ _ N En' B1 eq_refl) as <-. rewrite En' in B1. injection B1 as <-. rewrite B2. exists o. split; [reflexivity|]. split; [reflexivity|]. split; [exact B3|]. exact (C _ _ E).
    - destruct (loads (b_bytes b)) as [v|] eqn:El; injection A2 as <- <-; [|reflexivity]. eexists. split; [reflexivity|]. split; [reflexivity|]. split; [cbn [o_id]; exact (proj1 I1)|]. apply C. cbn [h_cache cget].
      assert (K : key_eqb (name, b_addr b) (name, b_addr b) = true) by (apply key_eqb_eq; reflexivity). rewrite K. reflexivity.
  Qed.

  (** The reference that an allocation gives. *)
  Lemma alloc_nth b a (st st1 : hst) h (st' : hst) : alloc b a st = Some (st1, RRef h) -> grows (h_heap st1) (h_heap st') -> nth_error (map ab (h_heap st')) h = Some (a, b).
  Proof.
    intros H G. apply alloc_inv in H. destruct H as (-> & E & _). injection E as ->. apply (grows_nth _ _ _ _ G). cbn [h_heap]. rewrite map_app, nth_error_app2; rewrite map_length; [|lia]. rewrite Nat.sub_diag. reflexivity.
  Qed.
  Lemma capture_nth ops (st0 : hst) st outs i name v a h : hrun ops st0 = Some (st, outs) -> nth_error ops i = Some (OCapture name v a) -> nth_error outs i = Some (RRef h) ->
    exists b, dumps (o_val v) = Ok b /\ nth_error (map ab (h_heap st)) h = Some (a, b).
  Proof.
    intros Hr Hi Ho. destruct (run_nth hstep _ _ _ _ _ _ Hr Hi) as (s1 & s2 & x & A1 & A2 & A3 & A4). rewrite Ho in A3. injection A3 as <-. cbn [HygieneModel.hstep] in A2.
    destruct (dumps (o_val v)) as [b|]; [|discriminate]. exists b. split; [reflexivity|]. exact (alloc_nth _ _ _ _ _ _ A2 (run_grows _ _ _ _ A4)).
  Qed.
  Lemma load_nth ops (st0 : hst) st outs i b a h : hrun ops st0 = Some (st, outs) -> nth_error ops i = Some (OLoad b a) -> nth_error outs i = Some (RRef h) ->
    nth_error (map ab (h_heap st)) h = Some (a, b).
  Proof.
    intros Hr Hi Ho. destruct (run_nth hstep _ _ _ _ _ _ Hr Hi) as (s1 & s2 & x & A1 & A2 & A3 & A4). rewrite Ho in A3. injection A3 as <-. cbn [HygieneModel.hstep] in A2.
    exact (alloc_nth _ _ _ _ _ _ A2 (run_grows _ _ _ _ A4)).
  Qed.
  (** Nothing deallocated: addresses differ. *)
  Definition no_drop (o : hop val bytes) : Prop := match o with ODrop _ => False | _ => True end.
  Lemma no_drop_nodup ops (st0 : hst) st outs : Forall no_drop ops -> Forall (fun b => b_live b = true) (h_heap st0) -> NoDup (map b_addr (h_heap st0)) ->
    hrun ops st0 = Some (st, outs) -> NoDup (map b_addr (h_heap st)).
  Proof.
    intros Hd Hl Hn Hr.
    assert (AL : forall b a (s s' : hst) x, alloc b a s = Some (s', x) -> Forall (fun b => b_live b = true) (h_heap s) /\ NoDup (map b_addr (h_heap s)) -> Forall (fun b => b_live b = true) (h_heap s') /\ NoDup (map b_addr (h_heap s'))).
    { intros b a s s' x H [L N]. apply alloc_inv in H. destruct H as (-> & _ & F). cbn [h_heap]. split; [apply Forall_app; split; [exact L|repeat constructor]|]. rewrite map_app. cbn [map b_addr].
      apply NoDup_rev in N. rewrite <- (rev_involutive (map b_addr (h_heap s) ++ [a])). apply NoDup_rev. rewrite rev_app_distr. cbn [rev app]. constructor; [|exact N]. rewrite <- in_rev. intros Hin. apply in_map_iff in Hin. destruct Hin as (bo & <- & Hin).
      unfold addr_free in F. apply negb_true_iff in F. assert (X : existsb (fun b0 => b_live b0 && Z.eqb (b_addr b0) (b_addr bo)) (h_heap s) = true).
      { apply existsb_exists. exists bo. split; [exact Hin|]. rewrite Forall_forall in L. rewrite (L _ Hin), Z.eqb_refl. reflexivity. } congruence. }
    apply (run_inv_ops hstep (fun s => Forall (fun b => b_live b = true) (h_heap s) /\ NoDup (map b_addr (h_heap s))) no_drop) with (ops := ops) (s := st0) (outs := outs); auto.
    intros s o s' x [L N] Ho H. destruct o as [name v0 a|b a|name [h|]|h]; cbn [HygieneModel.hstep] in H; [| | | |destruct Ho].
    - destruct (dumps (o_val v0)) as [b|]; [|injection H as <- <-; auto]. exact (AL _ _ _ _ _ H (conj L N)).
    - exact (AL _ _ _ _ _ H (conj L N)).
    - destruct (nth_error (h_heap s) h) as [b|]; [|discriminate]. destruct (b_live b); [|discriminate]. destruct (cget (name, b_addr b) (h_cache s)) as [o|]; [injection H as <- <-; auto|].
      destruct (loads (b_bytes b)); injection H as <- <-; auto.
    - injection H as <- <-. auto.
  Qed.
  (** Two lookups with the same key in a process give the same object. *)
  Lemma lookup_same ops (st0 : hst) st outs i j name h o o' : hrun ops st0 = Some (st, outs) ->
    nth_error ops i = Some (OLookup name (Some h)) -> nth_error ops j = Some (OLookup name (Some h)) -> nth_error outs i = Some (RObj o) -> nth_error outs j = Some (RObj o') -> i < j -> o = o'.
  Proof.
    intros Hr Hi Hj Oi Oj Hlt. destruct (run_nth2 hstep _ _ _ _ _ _ _ _ Hr Hi Hj Hlt) as (s1 & s2 & x & s3 & s4 & y & A1 & A2 & A3 & A4 & A5 & A6 & A7). rewrite Oi in A3. rewrite Oj in A6. injection A3 as <-. injection A6 as <-.
    pose proof (run_cget _ _ _ _ (name, match nth_error (h_heap s1) h with Some b => b_addr b | None => 0%Z end) o A4) as C. pose proof (heap_mono _ _ _ _ A2) as G1. pose proof (run_grows _ _ _ _ A4) as G2.
    cbn [HygieneModel.hstep] in A2, A5. destruct (nth_error (h_heap s1) h) as [b|] eqn:En; [|discriminate]. destruct (b_live b); [|discriminate].
    assert (C2 : cget (name, b_addr b) (h_cache s2) = Some o).
    { destruct (cget (name, b_addr b) (h_cache s1)) as [o1|] eqn:E; [injection A2 as <- <-; exact E|]. destruct (loads (b_bytes b)); [|discriminate]. injection A2 as <- <-. cbn [h_cache cget].
      assert (K : key_eqb (name, b_addr b) (name, b_addr b) = true) by (apply key_eqb_eq; reflexivity). rewrite K. reflexivity. }
    assert (En3 : nth_error (map ab (h_heap s3)) h = Some (b_addr b, b_bytes b)). { apply (grows_nth _ _ _ _ (grows_trans _ _ _ G1 G2)). rewrite nth_error_map, En. reflexivity. }
    rewrite nth_error_map in En3. destruct (nth_error (h_heap s3) h) as [b3|]; [|discriminate]. injection En3 as E1 E2. destruct (b_live b3); [|discriminate]. rewrite E1, (C C2) in A5. injection A5 as _ <-. reflexivity.
  Qed.
End Values.

Lemma Forall_firstn_nth {A} (P : A -> Prop) l : forall i, (forall j o, nth_error l j = Some o -> j < i -> P o) -> Forall P (firstn i l).
Proof.
  induction l as [|x l IH]; intros [|i] H; cbn [firstn]; try constructor; [apply (H 0 x eq_refl); lia|]. apply IH. intros j o Hj Hlt. apply (H (S j) o Hj). lia.
Qed.
Lemma Forall_skipn_nth {A} (P : A -> Prop) l : forall i, (forall j o, nth_error l j = Some o -> i <= j -> P o) -> Forall P (skipn i l).
Proof.
  induction l as [|x l IH]; intros [|i] H; cbn [skipn]; try constructor.
  - apply (H 0 x eq_refl). lia.
  - apply (IH 0). intros j o Hj _. apply (H (S j) o Hj). lia.
  - apply IH. intros j o Hj Hle. apply (H (S j) o Hj). lia.
Qed.
Lemma Forall_firstn {A} (P : A -> Prop) n (l : list A) : Forall P l -> Forall P (firstn n l).
Proof. revert n. induction l as [|x l IH]; intros [|n] H; cbn [firstn]; constructor; inversion H; auto. Qed.

Lemma firstn_split {A} (l : list A) : forall i j o, i < j -> nth_error l i = Some o -> firstn j l = firstn i l ++ o :: firstn (j - S i) (skipn (S i) l).
Proof.
  induction l as [|x l IH]; intros [|i] [|j] o Hij E; try discriminate; try lia; cbn [firstn skipn nth_error app] in *; [injection E as <-; cbn [Nat.sub]; rewrite ?Nat.sub_0_r; reflexivity|]. rewrite (IH i j o ltac:(lia) E). reflexivity.
Qed.
Lemma run_app {S O R} (step : S -> O -> option (S * R)) a : forall b s s1 s2 o1 o2, run step a s = Some (s1, o1) -> run step b s1 = Some (s2, o2) -> run step (a ++ b) s = Some (s2, o1 ++ o2).
Proof.
  induction a as [|o a IH]; intros b s s1 s2 o1 o2 H1 H2; [injection H1 as <- <-; exact H2|]. cbn [run app] in *. destruct (step s o) as [[s' x]|]; [|discriminate]. destruct (run step a s') as [[s'' xs]|] eqn:E; [|discriminate]. injection H1 as <- <-.
  rewrite (IH b s' s'' s2 xs o2 E H2). reflexivity.
Qed.

Section Macros.
  Variables (fn_ref : nat -> string * string) (fn_name : nat -> string).
  Variable uuids : nat -> list ascii.
  Notation mstep := (mstep fn_ref fn_name uuids).
  Notation mrun := (mrun fn_ref fn_name uuids).

  Lemma lookup_macro_inv st k st' x : lookup_macro st k = (st', x) ->
    m_local st' = m_local st /\ m_gs st' = m_gs st /\ m_world st' = m_world st /\
    (forall y f, sget y (m_global st) = Some f -> sget y (m_global st') = Some f) /\
    (forall y, y <> k_unique k -> sget y (m_global st') = sget y (m_global st)) /\
    (forall f, sget (k_unique k) (m_global st) = None -> sget (k_unique k) (m_global st') = Some f -> m_world st (k_ref k) = Some f).
  Proof.
    unfold lookup_macro, loads_fn. destruct (sget (k_unique k) (m_global st)) as [g|] eqn:E; [intros H; injection H as <- <-; repeat split; auto; congruence|].
    destruct (m_world st (k_ref k)) as [g|]; intros H; injection H as <- <-; repeat split; auto; cbn [set_global m_global]; [| | |intros; congruence].
    - intros y f Hy. rewrite sget_sset. destruct (String.eqb_spec y (k_unique k)) as [->|]; [congruence|exact Hy].
    - intros y Hy. rewrite sget_sset. destruct (String.eqb_spec y (k_unique k)); [contradiction|reflexivity].
    - intros f _. rewrite sget_sset, String.eqb_refl. congruence.
  Qed.
  Lemma global_mono st o st' x y f : mstep st o = Some (st', x) -> sget y (m_global st) = Some f -> sget y (m_global st') = Some f.
  Proof.
    intros H Hy. destruct o as [g name fuel|g fuel|k|z g|z|z|w]; cbn [HygieneModel.mstep] in H.
    - destruct (dumps_fn fn_ref (m_world st) g); [|injection H as <- <-; exact Hy]. destruct (gensym uuids fuel _ (m_gs st)) as [[[u|e] gs]|]; [| |discriminate]; injection H as <- <-; exact Hy.
    - destruct (dumps_fn fn_ref (m_world st) g); [|injection H as <- <-; exact Hy]. destruct (gensym uuids fuel _ (m_gs st)) as [[[u|e] gs]|]; [| |discriminate]; [|injection H as <- <-; exact Hy].
      injection H as H. apply lookup_macro_inv in H. destruct H as (_ & _ & _ & H & _). exact (H _ _ Hy).
    - injection H as H. apply lookup_macro_inv in H. destruct H as (_ & _ & _ & H & _). exact (H _ _ Hy).
    - injection H as <- <-. exact Hy.
    - injection H as <- <-. exact Hy.
    - injection H as <- <-. exact Hy.
    - injection H as <- <-. exact Hy.
  Qed.
  Lemma run_global ops st st' outs y f : mrun ops st = Some (st', outs) -> sget y (m_global st) = Some f -> sget y (m_global st') = Some f.
  Proof. intros H Hy. exact (run_inv mstep (fun s => sget y (m_global s) = Some f) ltac:(intros s o s' x Hs Ho; exact (global_mono _ _ _ _ _ _ Ho Hs)) ops st st' outs Hy H). Qed.

  Hypothesis Hwf : forall n, wf_uuid (uuids n).
  Lemma gensym_prev fuel b gs r gs' : gensym uuids fuel b gs = Some (r, gs') -> (forall y, In y (g_prev gs) -> In y (g_prev gs')) /\ forall u, r = Ok u -> ~ In u (g_prev gs) /\ In u (g_prev gs').
  Proof.
    intros H. apply (gensym_spec uuids Hwf) in H. destruct H as (_ & H1 & H2). destruct r as [u|e].
    - destruct (H1 u eq_refl) as [A B]. rewrite B. split; [intros; right; assumption|]. intros u' E. injection E as <-. split; [exact A|left; reflexivity].
    - rewrite (H2 e eq_refl). split; [auto|discriminate].
  Qed.
  Lemma step_prev st o st' x y : mstep st o = Some (st', x) -> In y (g_prev (m_gs st)) -> In y (g_prev (m_gs st')).
  Proof.
    intros H Hy. destruct o as [g name fuel|g fuel|k|z g|z|z|w]; cbn [HygieneModel.mstep] in H.
    - destruct (dumps_fn fn_ref (m_world st) g); [|injection H as <- <-; exact Hy]. destruct (gensym uuids fuel _ (m_gs st)) as [[[u|e] gs]|] eqn:G; [| |discriminate]; apply gensym_prev in G; injection H as <- <-; exact (proj1 G _ Hy).
    - destruct (dumps_fn fn_ref (m_world st) g); [|injection H as <- <-; exact Hy]. destruct (gensym uuids fuel _ (m_gs st)) as [[[u|e] gs]|] eqn:G; [| |discriminate]; apply gensym_prev in G; [|injection H as <- <-; exact (proj1 G _ Hy)].
      injection H as H. apply lookup_macro_inv in H. destruct H as (_ & -> & _). exact (proj1 G _ Hy).
    - injection H as H. apply lookup_macro_inv in H. destruct H as (_ & -> & _). exact Hy.
    - injection H as <- <-. exact Hy.
    - injection H as <- <-. exact Hy.
    - injection H as <- <-. exact Hy.
    - injection H as <- <-. exact Hy.
  Qed.
  (** Global bindings other than those looked up with foreign keys have names that gensym has made. *)
  Definition not_key (u : string) (o : mop) : Prop := match o with MLookup k => k_unique k <> u | _ => True end.
  Lemma step_known u st o st' x : (sget u (m_global st) <> None -> In u (g_prev (m_gs st))) -> not_key u o -> mstep st o = Some (st', x) -> sget u (m_global st') <> None -> In u (g_prev (m_gs st')).
  Proof.
    intros HI HP H Hu. pose proof (step_prev _ _ _ _ u H) as Hp. destruct o as [g name fuel|g fuel|k|z g|z|z|w]; cbn [HygieneModel.mstep not_key] in H, HP.
    - destruct (dumps_fn fn_ref (m_world st) g); [|injection H as <- <-; auto]. destruct (gensym uuids fuel _ (m_gs st)) as [[[u'|e] gs]|] eqn:G; [| |discriminate]; injection H as <- <-; auto.
    - destruct (dumps_fn fn_ref (m_world st) g) as [rf|]; [|injection H as <- <-; auto]. destruct (gensym uuids fuel _ (m_gs st)) as [[[u'|e] gs]|] eqn:G; [| |discriminate]; [|injection H as <- <-; auto].
      injection H as H. apply lookup_macro_inv in H as L. destruct L as (_ & Lg & _ & _ & L & _). cbn [k_unique] in L. apply gensym_prev in G. destruct G as [_ G]. destruct (G u' eq_refl) as [_ G2].
      destruct (string_dec u u') as [->|Hne]; [rewrite Lg; exact G2|]. apply Hp. apply HI. rewrite (L u Hne) in Hu. exact Hu.
    - injection H as H. apply lookup_macro_inv in H as L. destruct L as (_ & Lg & _ & _ & L & _). apply Hp, HI. rewrite <- (L u (not_eq_sym HP)). exact Hu.
    - injection H as <- <-; auto.
    - injection H as <- <-; auto.
    - injection H as <- <-; auto.
    - injection H as <- <-; auto.
  Qed.
  (** After the capture, before and after the lookup: the name is bound to the function or not at all. *)
  Definition stable (f : nat) (u : string) (o : mop) : Prop :=
    match o with MLookup k => k_unique k = u -> k_ref k = fn_ref f | MWorld w => w (fn_ref f) = Some f | _ => True end.
  Definition held (f : nat) (u : string) (st : mst) : Prop :=
    In u (g_prev (m_gs st)) /\ m_world st (fn_ref f) = Some f /\ forall g, sget u (m_global st) = Some g -> g = f.
  Lemma step_held f u st o st' x : held f u st -> stable f u o -> mstep st o = Some (st', x) -> held f u st'.
  Proof.
    intros (I1 & I2 & I3) HP H. pose proof (step_prev _ _ _ _ u H I1) as Hp. destruct o as [g name fuel|g fuel|k|z g|z|z|w]; cbn [HygieneModel.mstep stable] in H, HP.
    - destruct (dumps_fn fn_ref (m_world st) g); [|injection H as <- <-; repeat split; auto]. destruct (gensym uuids fuel _ (m_gs st)) as [[[u'|e] gs]|] eqn:G; [| |discriminate]; injection H as <- <-; repeat split; auto.
    - destruct (dumps_fn fn_ref (m_world st) g) as [rf|]; [|injection H as <- <-; repeat split; auto]. destruct (gensym uuids fuel _ (m_gs st)) as [[[u'|e] gs]|] eqn:G; [| |discriminate]; [|injection H as <- <-; repeat split; auto].
      injection H as H. apply lookup_macro_inv in H as L. destruct L as (_ & Lg & Lw & _ & L & _). cbn [k_unique] in L. apply gensym_prev in G. destruct G as [_ G]. destruct (G u' eq_refl) as [G1 _].
      assert (Hne : u <> u') by (intros ->; contradiction). split; [exact Hp|]. split; [rewrite Lw; exact I2|]. intros g0 Hg. rewrite (L u Hne) in Hg. exact (I3 _ Hg).
    - injection H as H. apply lookup_macro_inv in H as L. destruct L as (_ & Lg & Lw & Lm & L & Ln). split; [exact Hp|]. split; [rewrite Lw; exact I2|]. intros g Hg.
      destruct (string_dec u (k_unique k)) as [->|Hne]; [|rewrite (L u Hne) in Hg; exact (I3 _ Hg)]. destruct (sget (k_unique k) (m_global st)) as [g0|] eqn:E.
      + rewrite (Lm _ _ E) in Hg. injection Hg as <-. exact (I3 _ eq_refl).
      + pose proof (Ln g eq_refl Hg) as W. rewrite (HP eq_refl), I2 in W. congruence.
    - injection H as <- <-. repeat split; auto.
    - injection H as <- <-. repeat split; auto.
    - injection H as <- <-. repeat split; auto.
    - injection H as <- <-. repeat split; auto.
  Qed.
  Definition no_bind (u : string) (o : mop) : Prop := match o with MBind x _ => x <> u | _ => True end.
  Lemma step_unbound u st o st' x : sget u (m_local st) = None -> no_bind u o -> mstep st o = Some (st', x) -> sget u (m_local st') = None.
  Proof.
    intros I1 HP H. destruct o as [g name fuel|g fuel|k|z g|z|z|w]; cbn [HygieneModel.mstep no_bind] in H, HP.
    - destruct (dumps_fn fn_ref (m_world st) g); [|injection H as <- <-; auto]. destruct (gensym uuids fuel _ (m_gs st)) as [[[u'|e] gs]|] eqn:G; [| |discriminate]; injection H as <- <-; auto.
    - destruct (dumps_fn fn_ref (m_world st) g) as [rf|]; [|injection H as <- <-; auto]. destruct (gensym uuids fuel _ (m_gs st)) as [[[u'|e] gs]|] eqn:G; [| |discriminate]; [|injection H as <- <-; auto].
      injection H as H. apply lookup_macro_inv in H as L. destruct L as (-> & _). exact I1.
    - injection H as H. apply lookup_macro_inv in H as L. destruct L as (-> & _). exact I1.
    - injection H as <- <-. cbn [set_local m_local]. rewrite sget_sset. destruct (String.eqb_spec u z) as [->|]; [congruence|exact I1].
    - injection H as <- <-. cbn [set_local m_local]. destruct (sget u (sdel z (m_local st))) as [f|] eqn:E; [|reflexivity]. exfalso.
      assert (K : forall (d : @sdict nat), sget u d = None -> sget u (sdel z d) = None).
      { clear. induction d as [|[k v] d IH]; intros H; cbn [sdel sget] in *; [reflexivity|]. destruct (String.eqb u k) eqn:E; [discriminate|]. destruct (String.eqb z k); [exact H|]. cbn [sget]. rewrite E. auto. }
      rewrite (K _ I1) in E. discriminate.
    - injection H as <- <-. auto.
    - injection H as <- <-. auto.
  Qed.

  Lemma capture_step st f name fuel st' k : mstep st (MCapture f name fuel) = Some (st', QKey k) ->
    k_ref k = fn_ref f /\ m_world st (fn_ref f) = Some f /\ ~ In (k_unique k) (g_prev (m_gs st)) /\ In (k_unique k) (g_prev (m_gs st')) /\ m_world st' = m_world st /\ m_global st' = m_global st /\ m_local st' = m_local st.
  Proof.
    cbn [HygieneModel.mstep]. unfold dumps_fn. destruct (m_world st (fn_ref f)) as [g|] eqn:W; [|discriminate]. destruct (Nat.eqb_spec f g) as [<-|]; [|discriminate].
    destruct (gensym uuids fuel _ (m_gs st)) as [[[u|e] gs]|] eqn:G; [|discriminate..]. intros H. injection H as <- <-. cbn [k_ref k_unique]. apply gensym_prev in G. destruct G as [_ G]. destruct (G u eq_refl). repeat split; auto.
  Qed.

  Lemma resolves ops st0 st outs i f name fuel key j m r :
    m_global st0 = [] -> mrun ops st0 = Some (st, outs) ->
    nth_error ops i = Some (MCapture f name fuel) -> nth_error outs i = Some (QKey key) ->
    (forall j k, nth_error ops j = Some (MLookup k) -> k_unique k = k_unique key -> i < j /\ k = key) ->
    (forall j w, nth_error ops j = Some (MWorld w) -> i < j -> w (fn_ref f) = Some f) ->
    (forall j x g, nth_error ops j = Some (MBind x g) -> x <> k_unique key) -> sget (k_unique key) (m_local st0) = None ->
    nth_error ops j = Some (MLookup key) -> nth_error ops m = Some (MIsbound (k_unique key)) -> j < m -> nth_error outs m = Some r ->
    nth_error outs j = Some (QName (k_unique key)) /\ r = QBound (Some f).
  Proof.
    intros H0 Hr Hi Oi HL HW HB Hl0 Hj Hm Hjm Om. destruct (HL j key Hj eq_refl) as [Hij _].
    destruct (run_nth2 mstep _ _ _ _ _ _ _ _ Hr Hi Hj Hij) as (s1 & s2 & x & s3 & s4 & y & A1 & A2 & A3 & A4 & A5 & A6 & A7). rewrite Oi in A3. injection A3 as <-.
    destruct (capture_step _ _ _ _ _ _ A2) as (C1 & C2 & C3 & C4 & C5 & C6 & C7). set (u := k_unique key) in *.
    assert (N1 : sget u (m_global s1) = None).
    { destruct (sget u (m_global s1)) eqn:E; [|reflexivity]. exfalso. apply C3.
      apply (run_inv_ops mstep (fun s => sget u (m_global s) <> None -> In u (g_prev (m_gs s))) (not_key u) (step_known u) (firstn i ops) st0 s1 (firstn i outs)); [|rewrite H0; intros X; destruct (X eq_refl)|exact A1|congruence].
      apply Forall_firstn_nth. intros j' o Hj' Hlt. destruct o; try exact I. cbn [not_key]. intros E'. destruct (HL _ _ Hj' E'). lia. }
    assert (ST : Forall (stable f u) (skipn (S i) ops)).
    { apply Forall_skipn_nth. intros j' o Hj' Hle. destruct o; try exact I; cbn [stable]; [intros E'; destruct (HL _ _ Hj' E') as [_ ->]; exact C1|]. exact (HW _ _ Hj' ltac:(lia)). }
    assert (H2 : held f u s2). { split; [exact C4|]. split; [rewrite C5; exact C2|]. rewrite C6, N1. discriminate. }
    assert (H3 : held f u s3). { eapply (run_inv_ops mstep (held f u) (stable f u)); [intros; eapply step_held; eauto| |exact H2|exact A4]. apply Forall_firstn. exact ST. }
    assert (B4 : sget u (m_global s4) = Some f /\ y = QName u).
    { cbn [HygieneModel.mstep] in A5. injection A5 as A5. unfold lookup_macro, loads_fn in A5. fold u in A5. destruct H3 as (_ & W & G). destruct (sget u (m_global s3)) as [g|] eqn:E.
      - injection A5 as <- <-. rewrite E, (G g eq_refl). auto.
      - rewrite C1, W in A5. injection A5 as <- <-. cbn [set_global m_global]. rewrite sget_sset, String.eqb_refl. auto. }
    destruct B4 as [B4 ->]. split; [exact A6|].
    destruct (run_nth2 mstep _ _ _ _ _ _ _ _ Hr Hj Hm Hjm) as (t1 & t2 & x' & t3 & t4 & y' & D1 & D2 & D3 & D4 & D5 & D6 & D7). rewrite Om in D6. injection D6 as <-.
    assert (E4 : t2 = s4).
    { destruct (run_nth mstep _ _ _ _ _ _ Hr Hj) as (z1 & z2 & zx & Z1 & Z2 & Z3 & Z4). pose proof Z1 as Z1'. rewrite D1 in Z1. injection Z1 as <-. rewrite D2 in Z2. injection Z2 as <- <-.
      (* the run up to j is the run up to i, then the rest *)
      assert (X : mrun (firstn j ops) st0 = Some (s3, firstn j outs)).
      { rewrite (firstn_split ops i j _ Hij Hi), (firstn_split outs i j _ Hij Oi). apply (run_app mstep _ _ _ _ _ _ _ A1). cbn [run]. rewrite A2, A4. reflexivity. }
      unfold HygieneModel.mrun in X. rewrite X in Z1'. injection Z1' as <-. rewrite A5 in D2. injection D2 as <- <-. reflexivity. }
    subst t2. pose proof (run_global _ _ _ _ _ _ D4 B4) as G3.
    assert (L3 : sget u (m_local t3) = None).
    { assert (D1' : exists os, mrun (firstn m ops) st0 = Some (t3, os)).
      { exists (firstn m outs). rewrite (firstn_split ops j m _ Hjm Hj), (firstn_split outs j m _ Hjm D3). apply (run_app mstep _ _ _ _ _ _ _ D1). cbn [run]. rewrite D2, D4. reflexivity. }
      destruct D1' as (os & D1'). eapply (run_inv_ops mstep (fun s => sget u (m_local s) = None) (no_bind u)); [intros; eapply step_unbound; eauto| |exact Hl0|exact D1'].
      apply Forall_firstn_nth. intros j' o Hj' _. destruct o; try exact I. exact (HB _ _ _ Hj'). }
    cbn [HygieneModel.mstep] in D5. injection D5 as _ <-. unfold isbound_m. rewrite L3, G3. reflexivity.
  Qed.
End Macros.
