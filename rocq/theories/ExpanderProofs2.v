(** Facts about recognising macro invocations, and about trees without any. *)
From Verif Require Import Base AstLib UtilsModel FixLocModel ExpanderModel ExpanderSpec ExpanderProofs.

(** ** Modes *)
Lemma disciplined_app b d r : disciplined b d -> disciplined b r -> disciplined b (d ++ r).
Proof.
  intros Hd Hr. revert Hr. induction Hd; intros Hr; cbn [app]; rewrite <- ?app_assoc; cbn [app]; try (constructor; auto; fail).
  exact Hr.
Qed.

Section Modes.
  Context {U : Type}.
  Variable E : env U.
  Definition mode_rel (s s' : st U) : Prop :=
    s_rec s' = s_rec s /\ exists d, s_log s' = s_log s ++ d /\ disciplined (s_rec s) d.
  Lemma mode_rel_refl s : mode_rel s s.
  Proof. split; [reflexivity|]. exists []. rewrite app_nil_r. split; [reflexivity|constructor]. Qed.
  Lemma mode_rel_trans a b c : mode_rel a b -> mode_rel b c -> mode_rel a c.
  Proof.
    intros [H1 [d1 [L1 D1]]] [H2 [d2 [L2 D2]]]. split; [congruence|]. exists (d1 ++ d2). rewrite L2, L1, app_assoc. split; [reflexivity|].
    apply disciplined_app; [exact D1|]. rewrite H1 in D2. exact D2.
  Qed.
  Ltac mode_side := first
    [ exact I
    | apply mode_rel_refl
    | exact mode_rel_trans
    | (intros s0 s1 [H1 [d [L D]]]; split; [reflexivity|]; exists (EUse HOnce :: EMode false :: d ++ [EModeEnd]);
       cbn in *; rewrite L; rewrite <- !app_assoc; cbn; split; [reflexivity|]; apply ds_once; [exact D|constructor])
    | (intros s0 s1 [H1 [d [L D]]]; split; [reflexivity|]; exists (EUse HRec :: EMode true :: d ++ [EModeEnd]);
       cbn in *; rewrite L; rewrite <- !app_assoc; cbn; split; [reflexivity|]; apply ds_rec; [exact D|constructor])
    | (intros s0; split; [reflexivity|]; exists [EUse HVisit]; split; [reflexivity|]; repeat constructor)
    | (intros s0; split; [reflexivity|]; exists [EUse HGen]; split; [reflexivity|]; repeat constructor)
    | (intros s0; split; [reflexivity|]; exists [ESee (s_rec s0)]; split; [reflexivity|]; repeat constructor)
    | (intros s0 name inp s1 s2 x Hbd Hn [H1 [d1 [L1 D1]]] [H2 [d2 [L2 D2]]]; split; [reflexivity|];
       exists (EMode false :: ECall name inp false :: (d1 ++ ERet x :: d2) ++ [EModeEnd]);
       split; [cbn in *; rewrite L2, L1; repeat (cbn; rewrite <- ?app_assoc); reflexivity|]; cbn in *;
       apply ds_name; [exact Hn| |constructor]; rewrite H1 in D2; apply ds_call; [exact D1|exact D2])
    | (intros s0 name inp s1 x Hbd [H1 [d [L D]]]; split; [exact H1|]; exists (ECall name inp (s_rec s0) :: d ++ [ERet x]);
       cbn in *; rewrite L; rewrite <- !app_assoc; cbn; split; [reflexivity|]; apply ds_call; [exact D|constructor])
    | (intros s0 name syn u; split; [reflexivity|]; exists [EOut name syn u]; split; [reflexivity|]; repeat constructor)
    | (intros ? ? _; split; [exact I|]; let x := fresh in intros x; exact (mode_rel_refl x))
    | (intros; exact I) ].
  Lemma visit_mode n t s r s' : visit E n t s = Some (r, s') -> mode_rel s s'.
  Proof. apply (visit_keeps E mode_rel (fun _ => True)); mode_side. Qed.
  Lemma generic_mode n t s r s' : xgeneric_visit (visit E n) t s = Some (r, s') -> mode_rel s s'.
  Proof. exact (keeps_generic mode_rel mode_rel_refl mode_rel_trans (visit E n) (fun u a b c => visit_mode n u a b c) t s r s'). Qed.
  Lemma run_mode n k p s r s' : run (visit E n) k p s = Some (r, s') -> mode_rel s s'.
  Proof. intros H. eapply (keeps_run mode_rel (fun _ => True)) with (v := visit E n); try exact H; try mode_side. intros u a b c. apply visit_mode. Qed.
  Lemma expansion_mode n t u s r s' : visit_expansion E (visit E n) t u s = Some (r, s') -> mode_rel s s'.
  Proof. exact (keeps_expansion E mode_rel mode_rel_refl mode_rel_trans (visit E n) (fun u a b c => visit_mode n u a b c) t u s r s'). Qed.
End Modes.

(** ** Candidates *)
Lemma attr_ok {M} f (fs : list (string * tree M)) v : getf f fs = Some v -> attr f fs = XOk v.
Proof. unfold attr. intros ->. reflexivity. Qed.
Lemma str_attr_ok {M} f (fs : list (string * tree M)) v : getf f fs = Some (At (AStr v)) -> str_attr f fs = XOk v.
Proof. unfold str_attr. intros ->. reflexivity. Qed.
Lemma str_attr_inv {M} f (fs : list (string * tree M)) v : str_attr f fs = XOk v -> getf f fs = Some (At (AStr v)).
Proof. unfold str_attr. destruct (getf f fs) as [[| |[]]|]; intros H; inversion H; reflexivity. Qed.
Lemma is_kind_eq {M} k (t : tree M) : is_kind k t = true -> exists m fs, t = Nd m k fs.
Proof. destruct t; try discriminate. cbn. intros H. apply String.eqb_eq in H. subst. eauto. Qed.

Lemma part_trans t u v : part t u -> part u v -> part t v.
Proof. intros H. revert v. induction H; intros w Hw; [exact Hw|eapply pt_field; eauto|eapply pt_elem; eauto]. Qed.
Lemma shaped_part t u : shaped t -> part t u -> shaped u.
Proof. intros H Hp v Hv. apply H. eapply part_trans; eauto. Qed.
Lemma shaped_get m k fs f v : shaped (Nd m k fs) -> k <> "Done"%string -> getf f fs = Some v -> shaped v.
Proof. intros H Hk Hg. apply (shaped_part _ _ H). eapply pt_field; [exact Hk|apply getf_In; exact Hg|constructor]. Qed.
Lemma shaped_field m k fs f ty : shaped (Nd m k fs) -> (exists g, In (k, g) grammar /\ In (f, ty) g) -> has_field fs (f, ty).
Proof.
  intros H [g [H1 H2]]. pose proof (H _ (pt_refl _)) as [Hn _]. specialize (Hn g H1). rewrite Forall_forall in Hn. exact (Hn _ H2).
Qed.
Ltac gram := eexists; split; [cbn; repeat first [left; reflexivity | right]|cbn; auto].

Lemma destructure_spec (c : ltree) : shaped c ->
  exists d, destructure false c = XOk d /\ forall x args, denotes c x args <-> d = Some (x, args).
Proof.
  intros Hs. destruct c as [m k fs|l|a].
  2: { exists None. split; [reflexivity|]. intros x args; split; intros H; inversion H. }
  2: { exists None. split; [reflexivity|]. intros x args; split; intros H; inversion H. }
  unfold destructure. destruct (String.eqb_spec k "Name") as [->|Hk1].
  { destruct (shaped_field _ _ _ "id" FStr Hs ltac:(gram)) as [x Hx]. cbn [fst] in Hx. rewrite (str_attr_ok _ _ _ Hx). eexists. split; [reflexivity|].
    intros y args. split; intros H; inversion H; subst.
    - cbn in Hx. congruence.
    - constructor. exact Hx. }
  destruct (String.eqb_spec k "Subscript") as [->|Hk2].
  { destruct (shaped_field _ _ _ "value" FAny Hs ltac:(gram)) as [v Hv]. destruct (shaped_field _ _ _ "slice" FAny Hs ltac:(gram)) as [sl Hsl].
    cbn [fst] in Hv, Hsl. rewrite (attr_ok _ _ _ Hv).
    assert (Hne : forall x args, ~ is_kind "Name" v = true -> ~ denotes (Nd m "Subscript" fs) x args).
    { intros x args Hnn Hd. inversion Hd; subst; assert (v = Nd m' "Name" fs') by congruence; subst; apply Hnn; reflexivity. }
    destruct v as [m' k' fs'|l|a].
    2: { exists None. split; [reflexivity|]. intros x args; split; intros H; [exfalso; eapply Hne; [|exact H]; discriminate|discriminate]. }
    2: { exists None. split; [reflexivity|]. intros x args; split; intros H; [exfalso; eapply Hne; [|exact H]; discriminate|discriminate]. }
    destruct (String.eqb_spec k' "Name") as [->|Hk'].
    2: { exists None. split; [reflexivity|]. intros x args; split; intros H; [exfalso; eapply Hne; [|exact H]|discriminate].
         cbn. intros Hq. apply String.eqb_eq in Hq. contradiction. }
    rewrite (attr_ok _ _ _ Hsl).
    destruct (shaped_field m' "Name" fs' "id" FStr) as [x Hx].
    { eapply shaped_get; [exact Hs|discriminate|exact Hv]. } { gram. }
    cbn [fst] in Hx. rewrite (str_attr_ok _ _ _ Hx).
    assert (Hother : kind_of sl <> "Tuple"%string -> forall y args, denotes (Nd m "Subscript" fs) y args <-> Some (x, [sl]) = Some (y, args)).
    { intros Hkt y args. split; intros H.
      - inversion H; subst.
        + assert (fs'0 = fs') by congruence. subst. assert (a = sl) by congruence. subst. assert (y = x) by congruence. subst. reflexivity.
        + assert (sl = Nd mt "Tuple" fst) by congruence. subst. exfalso. apply Hkt. reflexivity.
      - inversion H; subst. eapply dn_one; eauto. }
    destruct sl as [ms ks fss|l|a].
    - destruct (String.eqb_spec ks "Tuple") as [->|Hks].
      + destruct (shaped_field ms "Tuple" fss "elts" FList) as [el Hel].
        { eapply shaped_get; [exact Hs|discriminate|exact Hsl]. } { gram. }
        cbn [fst] in Hel. rewrite (attr_ok _ _ _ Hel). eexists. split; [reflexivity|]. cbn [elements]. intros y args. split; intros H.
        * inversion H; subst.
          -- assert (a = Nd ms "Tuple" fss) by congruence. subst. exfalso; match goal with H : kind_of _ <> _ |- _ => apply H; reflexivity end.
          -- assert (fs'0 = fs') by congruence. subst. assert (fst = fss) by congruence. subst. congruence.
        * inversion H; subst. eapply dn_many; eauto.
      + eexists. split; [reflexivity|]. apply Hother. exact Hks.
    - eexists. split; [reflexivity|]. apply Hother. discriminate.
    - eexists. split; [reflexivity|]. apply Hother. discriminate. }
  destruct (String.eqb_spec k "Call") as [->|Hk3].
  { destruct (shaped_field _ _ _ "func" FAny Hs ltac:(gram)) as [v Hv]. destruct (shaped_field _ _ _ "args" FList Hs ltac:(gram)) as [al Hal].
    destruct (shaped_field _ _ _ "keywords" FList Hs ltac:(gram)) as [kw Hkw].
    cbn [fst] in Hv, Hal, Hkw. rewrite (attr_ok _ _ _ Hv).
    assert (Hne : forall x args, ~ is_kind "Name" v = true -> ~ denotes (Nd m "Call" fs) x args).
    { intros x args Hnn Hd. inversion Hd; subst. assert (v = Nd m' "Name" fs') by congruence; subst; apply Hnn; reflexivity. }
    destruct v as [m' k' fs'|l|a].
    2: { exists None. split; [reflexivity|]. intros x args; split; intros H; [exfalso; eapply Hne; [|exact H]; discriminate|discriminate]. }
    2: { exists None. split; [reflexivity|]. intros x args; split; intros H; [exfalso; eapply Hne; [|exact H]; discriminate|discriminate]. }
    destruct (String.eqb_spec k' "Name") as [->|Hk'].
    2: { exists None. split; [reflexivity|]. intros x args; split; intros H; [exfalso; eapply Hne; [|exact H]|discriminate].
         cbn. intros Hq. apply String.eqb_eq in Hq. contradiction. }
    rewrite (attr_ok _ _ _ Hkw). destruct kw as [|k0 kw].
    - cbn [nonempty]. rewrite (attr_ok _ _ _ Hal). cbn [andb elements].
      destruct (shaped_field m' "Name" fs' "id" FStr) as [x Hx].
      { eapply shaped_get; [exact Hs|discriminate|exact Hv]. } { gram. }
      cbn [fst] in Hx. rewrite (str_attr_ok _ _ _ Hx). eexists. split; [reflexivity|]. intros y args. split; intros H.
      + inversion H; subst. assert (fs'0 = fs') by congruence. subst. congruence.
      + inversion H; subst. eapply dn_call; eauto.
    - cbn [nonempty]. exists None. split; [reflexivity|]. intros y args. split; intros H; [|discriminate]. inversion H; subst. congruence. }
  exists None. split; [reflexivity|]. intros x args. split; intros H; [|discriminate]. inversion H; subst; contradiction.
Qed.

(** With validation: the same, except that a call without arguments or with a starred one is refused. *)
Lemma existsb_starred {M} (l : list (tree M)) : existsb (is_kind "Starred") l = true <-> exists a, In a l /\ kind_of a = "Starred"%string.
Proof.
  rewrite existsb_exists. split; intros [a [H1 H2]]; exists a; split; auto.
  - apply is_kind_eq in H2. destruct H2 as [m [fs ->]]. reflexivity.
  - destruct a; cbn in *; try discriminate. subst. reflexivity.
Qed.
Lemma destructure_validate (c : ltree) x args : shaped c -> denotes c x args ->
  (bad_call c -> destructure true c = XRaise syntax_error) /\ (~ bad_call c -> destructure true c = XOk (Some (x, args))).
Proof.
  intros Hs Hd. destruct (destructure_spec c Hs) as [d [E1 Hiff]]. apply Hiff in Hd. subst d. clear Hiff.
  destruct c as [m k fs|l|a]; try discriminate. unfold destructure in *. destruct (String.eqb_spec k "Name") as [->|Hk1].
  { split; intros H; [destruct H as [? [? [? [X _]]]]; discriminate|]. exact E1. }
  destruct (String.eqb_spec k "Subscript") as [->|Hk2].
  { split; intros H; [destruct H as [? [? [? [X _]]]]; discriminate|]. exact E1. }
  destruct (String.eqb_spec k "Call") as [->|Hk3]; [|discriminate].
  destruct (attr "func" fs) as [[m' k' fs'| |]|]; try discriminate. destruct (String.eqb k' "Name"); [|discriminate].
  destruct (attr "keywords" fs) as [kws|]; [|discriminate]. destruct (nonempty kws); [discriminate|].
  destruct (shaped_field _ _ _ "args" FList Hs ltac:(gram)) as [al Hal]. cbn [fst] in Hal. rewrite (attr_ok _ _ _ Hal) in *.
  cbn [andb elements] in *.
  destruct (negb (nonempty (Ls al)) || existsb (is_kind "Starred") al) eqn:Eb.
  - split; intros H; [reflexivity|]. exfalso. apply H. exists m, fs, al. split; [reflexivity|]. split; [exact Hal|].
    apply orb_true_iff in Eb. destruct Eb as [Eb|Eb]; [left; destruct al; [reflexivity|discriminate]|right]. apply existsb_starred. exact Eb.
  - split; intros H; [|exact E1]. destruct H as [? [? [al' [X [Hal' Hor]]]]]. inversion X; subst. assert (al' = al) by congruence. subst.
    apply orb_false_iff in Eb. destruct Eb as [Eb1 Eb2]. destruct Hor as [->|Hor]; [discriminate|]. apply existsb_starred in Hor. congruence.
Qed.

Lemma isbound_iff b x i : isbound b x = Some i <-> bound b x i.
Proof.
  unfold isbound, bound. induction b as [|[y j] b IH]; cbn [find].
  - split; [discriminate|]. intros [b1 [b2 [H _]]]. destruct b1; discriminate.
  - cbn [fst]. destruct (String.eqb_spec y x) as [->|Hne].
    + cbn [snd]. split.
      * intros H; inversion H; subst. exists [], b. auto.
      * intros [b1 [b2 [H Hn]]]. destruct b1 as [|p b1]; cbn in H; inversion H; subst; [reflexivity|]. exfalso. apply Hn. left. reflexivity.
    + rewrite IH. split; intros [b1 [b2 [H Hn]]].
      * exists ((y, j) :: b1), b2. subst. split; [reflexivity|]. cbn. intros [Hq|Hq]; [congruence|contradiction].
      * destruct b1 as [|p b1]; cbn in H; inversion H; subst; [congruence|]. exists b1, b2. split; [reflexivity|]. intros Hq. apply Hn. right. exact Hq.
Qed.

Section Calls.
  Context {U : Type}.
  Variables (E : env U) (b : binds).
  Lemma ismacrocall_iff x args syn : syn <> "name"%string -> (ismacrocall E b x args syn = true <->
    x <> ""%string /\ exists i, bound b x i /\ (args = [] \/ m_isparam (x_macro E i) = true)).
  Proof.
    intros Hsyn. unfold ismacrocall. destruct x as [|a x]; [split; [discriminate|intros [H _]; contradiction]|].
    destruct (isbound b (String a x)) as [i|] eqn:E1.
    - apply isbound_iff in E1. destruct (String.eqb_spec syn "name") as [->|_]; [contradiction|]. split.
      + intros H. split; [discriminate|]. exists i. split; [exact E1|]. destruct args; auto.
      + intros [_ [j [Hj Hor]]]. apply isbound_iff in E1. apply isbound_iff in Hj. assert (j = i) by congruence. subst. destruct args; [reflexivity|]. destruct Hor; [discriminate|assumption].
    - split; [discriminate|]. intros [_ [j [Hj _]]]. apply isbound_iff in Hj. congruence.
  Qed.
  Lemma ismacrocall_name_iff x : ismacrocall E b x [] "name" = true <->
    x <> ""%string /\ exists i, bound b x i /\ m_isname (x_macro E i) = true.
  Proof.
    unfold ismacrocall. destruct x as [|a x]; [split; [discriminate|intros [H _]; contradiction]|].
    destruct (isbound b (String a x)) as [i|] eqn:E1.
    - apply isbound_iff in E1. cbn [String.eqb Ascii.eqb Bool.eqb]. split.
      + intros H. split; [discriminate|]. exists i. split; [exact E1|exact H].
      + intros [_ [j [Hj Hor]]]. apply isbound_iff in E1. apply isbound_iff in Hj. assert (j = i) by congruence. subst. exact Hor.
    - split; [discriminate|]. intros [_ [j [Hj _]]]. apply isbound_iff in Hj. congruence.
  Qed.

  Lemma names_macro_iff c x args d syn : syn <> "name"%string -> (forall x args, denotes c x args <-> d = Some (x, args)) ->
    (names_macro E b c x args <-> d = Some (x, args) /\ ismacrocall E b x args syn = true).
  Proof. intros Hsyn Hd. unfold names_macro. rewrite Hd, (ismacrocall_iff x args syn Hsyn). tauto. Qed.

  (** Which items are macro invocations. *)
  Definition item_macro (block : bool) (it : ltree) : Prop :=
    exists c x args, candidate_of block it = XOk c /\ names_macro E b c x args.
  Lemma detect_spec block items :
    Forall (fun it => exists c, candidate_of block it = XOk c /\ shaped c) items ->
    exists flags, detect E b block items = XOk flags /\ Forall2 (fun it (f : bool) => f = true <-> item_macro block it) items flags.
  Proof.
    induction 1 as [|it items [c [Hc Hsc]] _ [fl [IH1 IH2]]]; [exists []; split; [reflexivity|constructor]|].
    cbn [detect]. rewrite Hc. destruct (destructure_spec c Hsc) as [d [E1 Hd]]. rewrite E1, IH1. eexists. split; [reflexivity|]. constructor; [|exact IH2].
    assert (Hsyn : (if block then "block" else "decorator")%string <> "name"%string) by (destruct block; discriminate).
    split.
    - intros H. destruct d as [[x args]|]; [|discriminate]. exists c, x, args. split; [exact Hc|]. eapply (names_macro_iff _ _ _ _ _ Hsyn Hd). auto.
    - intros [c' [x [args [Hc' Hm]]]]. rewrite Hc in Hc'. inversion Hc'; subst c'. apply (names_macro_iff _ _ _ _ _ Hsyn Hd) in Hm. destruct Hm as [-> Hm]. exact Hm.
  Qed.
End Calls.

Lemma first_true_spec l : match first_true l with
  | Some i => exists a c, l = a ++ true :: c /\ List.length a = i /\ Forall (fun x => x = false) a
  | None => Forall (fun x => x = false) l
  end.
Proof.
  induction l as [|[] l IH]; cbn [first_true]; [constructor|exists [], l; auto|].
  destruct (first_true l) as [i|]; [|constructor; auto]. destruct IH as [a [c [-> [H1 H2]]]]. exists (false :: a), c. cbn. split; [reflexivity|]. split; [congruence|constructor; auto].
Qed.
Lemma last_true_spec l : match last_true l with
  | Some i => exists a c, l = a ++ true :: c /\ List.length a = i /\ Forall (fun x => x = false) c
  | None => Forall (fun x => x = false) l
  end.
Proof.
  induction l as [|x l IH]; cbn [last_true]; [constructor|].
  destruct (last_true l) as [i|].
  - destruct IH as [a [c [-> [H1 H2]]]]. exists (x :: a), c. cbn. split; [reflexivity|]. split; [congruence|auto].
  - destruct x; [exists [], l; auto|constructor; auto].
Qed.

(** ** No invocation: nothing happens *)
Section Quiet.
  Context {U : Type}.
  Variable E : env U.
  Definition quiet (b : binds) (t : ltree) : Prop := forall u x syn, part t u -> ~ invokes E b u x syn.
  Definition same (n : nat) (s : st U) (t : ltree) : Prop := visit E n t s = Some (XOk t, s).

  Lemma same_le n n' s t : n <= n' -> same n s t -> same n' s t.
  Proof. intros H. apply (visit_mono_le E n n' t H). Qed.
  Lemma same_list n s l : Forall (fun x => is_node x = true -> same n s x) l -> xgv_list (visit E n) l s = Some (XOk l, s).
  Proof.
    induction 1 as [|x l Hx _ IH]; [reflexivity|]. cbn [xgv_list]. destruct x as [m k fs|l'|a]; unfold bnd.
    - rewrite (Hx eq_refl), IH. reflexivity.
    - rewrite IH. reflexivity.
    - rewrite IH. reflexivity.
  Qed.
  Lemma same_fields n s fs : Forall (fun p => (is_node (snd p) = true -> same n s (snd p)) /\
      match snd p with Ls l => Forall (fun x => is_node x = true -> same n s x) l | _ => True end) fs ->
    xgv_fields (visit E n) fs s = Some (XOk fs, s).
  Proof.
    induction 1 as [|[f x] fs [Hx Hl] _ IH]; [reflexivity|]. cbn [xgv_fields]. cbn [snd] in Hx, Hl. destruct x as [m k fs'|l'|a]; unfold bnd.
    - rewrite (Hx eq_refl), IH. reflexivity.
    - rewrite (same_list _ _ _ Hl), IH. reflexivity.
    - rewrite IH. reflexivity.
  Qed.

  Lemma quiet_generic n s m k fs :
    Forall (fun p => (is_node (snd p) = true -> same n s (snd p)) /\
      match snd p with Ls l => Forall (fun x => is_node x = true -> same n s x) l | _ => True end) fs ->
    xgeneric_visit (visit E n) (Nd m k fs) s = Some (XOk (Nd m k fs), s).
  Proof. intros H. cbn [xgeneric_visit]. unfold bnd. rewrite (same_fields _ _ _ H). reflexivity. Qed.

  Lemma quiet_node n s m k fs : shaped (Nd m k fs) -> quiet (s_b s) (Nd m k fs) -> k <> "Done"%string ->
    Forall (fun p => (is_node (snd p) = true -> same n s (snd p)) /\
      match snd p with Ls l => Forall (fun x => is_node x = true -> same n s x) l | _ => True end) fs ->
    same (S n) s (Nd m k fs).
  Proof.
    intros Hs Hq Hd HF. pose proof (quiet_generic n s m k fs HF) as G. unfold same. cbn [visit]. unfold visit_body.
    destruct (_ || _); [reflexivity|].
    destruct (String.eqb_spec k "Subscript") as [->|Hk1].
    { unfold visit_Subscript. destruct (shaped_field _ _ _ "value" FAny Hs ltac:(gram)) as [c Hc]. cbn [fst] in Hc. rewrite (attr_ok _ _ _ Hc).
      destruct (destructure_spec c (shaped_get _ _ _ _ _ Hs Hd Hc)) as [d [E1 Hiff]]. rewrite E1.
      destruct (match d with Some (x, args) => _ | None => false end) eqn:Em; [|exact G]. exfalso.
      destruct d as [[x args]|]; [|discriminate]. apply (Hq _ x "expr"%string (pt_refl _)). eapply inv_expr; [exact Hc|].
      eapply (names_macro_iff E (s_b s) c x args _ "expr"); [discriminate|exact Hiff|]. auto. }
    destruct (String.eqb_spec k "With") as [->|Hk2].
    { unfold visit_With. destruct (shaped_field _ _ _ "items" FList Hs ltac:(gram)) as [items Hi]. cbn [fst] in Hi. rewrite (attr_ok _ _ _ Hi).
      assert (HI : Forall (fun it => exists mi fi c, it = Nd mi "withitem" fi /\ getf "context_expr" fi = Some c /\ shaped c) items).
      { pose proof (Hs _ (pt_refl _)) as [_ Hw]. specialize (Hw eq_refl _ Hi). rewrite Forall_forall in Hw. apply Forall_forall. intros it Hit. specialize (Hw it Hit).
        destruct it as [mi ki fi| |]; try discriminate. cbn in Hw. subst ki.
        assert (Hsi : shaped (Nd mi "withitem" fi)). { apply (shaped_part _ _ Hs). eapply pt_field; [exact Hd|apply getf_In; exact Hi|]. eapply pt_elem; [exact Hit|constructor]. }
        destruct (shaped_field _ _ _ "context_expr" FAny Hsi ltac:(gram)) as [c Hc]. exists mi, fi, c. split; [reflexivity|]. split; [exact Hc|].
        eapply shaped_get; [exact Hsi|discriminate|exact Hc]. }
      destruct (detect_spec E (s_b s) true items) as [fl [E1 HF2]].
      { eapply Forall_impl; [|exact HI]. intros it [mi [fi [c [-> [Hc Hsc]]]]]. exists c. split; [|exact Hsc]. cbn. apply attr_ok. exact Hc. }
      cbn [elements]. rewrite E1. pose proof (first_true_spec fl) as Hft. destruct (first_true fl) as [i|]; [|exact G]. exfalso.
      destruct Hft as [a [c [-> [Ha _]]]]. apply Forall2_app_inv_r in HF2. destruct HF2 as [l1 [l2 [_ [F2 ->]]]]. inversion F2 as [|it ? l2' ? Hit _]; subst.
      destruct Hit as [Hit _]. destruct (Hit eq_refl) as [c' [x [args [Hc' Hm]]]].
      assert (Hin : In it (l1 ++ it :: l2')) by (apply in_app_iff; right; left; reflexivity).
      rewrite Forall_forall in HI. destruct (HI _ Hin) as [mi [fi [c0 [-> [Hc0 _]]]]]. cbn in Hc'. rewrite (attr_ok _ _ _ Hc0) in Hc'. inversion Hc'; subst c'.
      apply (Hq _ x "block"%string (pt_refl _)). eapply inv_block; eauto. }
    destruct (String.eqb k "ClassDef" || String.eqb k "FunctionDef") eqn:Ek.
    { assert (Hkk : k = "ClassDef"%string \/ k = "FunctionDef"%string).
      { apply orb_true_iff in Ek. destruct Ek as [Ek|Ek]; apply String.eqb_eq in Ek; auto. }
      unfold visit_Decorated.
      assert (exists ds, getf "decorator_list" fs = Some (Ls ds)) as [ds Hi].
      { destruct Hkk as [->| ->]; destruct (shaped_field _ _ _ "decorator_list" FList Hs ltac:(gram)) as [ds Hds]; eauto. }
      rewrite (attr_ok _ _ _ Hi).
      destruct (detect_spec E (s_b s) false ds) as [fl [E1 HF2]].
      { apply Forall_forall. intros c Hc. exists c. split; [reflexivity|]. apply (shaped_part _ _ Hs). eapply pt_field; [exact Hd|apply getf_In; exact Hi|]. eapply pt_elem; [exact Hc|constructor]. }
      cbn [elements]. rewrite E1. pose proof (last_true_spec fl) as Hft. destruct (last_true fl) as [i|]; [|exact G]. exfalso.
      destruct Hft as [a [c [-> [Ha _]]]]. apply Forall2_app_inv_r in HF2. destruct HF2 as [l1 [l2 [_ [F2 ->]]]]. inversion F2 as [|it ? l2' ? Hit _]; subst.
      destruct Hit as [Hit _]. destruct (Hit eq_refl) as [c' [x [args [Hc' Hm]]]]. cbn in Hc'. inversion Hc'; subst c'.
      apply (Hq _ x "decorator"%string (pt_refl _)). eapply inv_dec; [exact Hkk|exact Hi| |exact Hm]. apply in_app_iff; right; left; reflexivity. }
    destruct (String.eqb_spec k "Name") as [->|Hk4]; [|exact G].
    unfold visit_Name. destruct (shaped_field _ _ _ "id" FStr Hs ltac:(gram)) as [x Hx]. cbn [fst] in Hx. rewrite (str_attr_ok _ _ _ Hx).
    destruct (ismacrocall E (s_b s) x [] "name") eqn:Em; [|reflexivity]. exfalso. apply ismacrocall_name_iff in Em. destruct Em as [Hx0 [i [Hb Hn]]].
    apply (Hq _ x "name"%string (pt_refl _)). econstructor; eauto.
  Qed.

  Lemma Forall_bound {A} (Q : nat -> A -> Prop) l : (forall n n' x, n <= n' -> Q n x -> Q n' x) ->
    Forall (fun x => exists n, Q n x) l -> exists n, Forall (Q n) l.
  Proof.
    intros Hmono. induction 1 as [|x l [n Hx] _ [n' IH]]; [exists 0; constructor|]. exists (Nat.max n n'). constructor.
    - eapply Hmono; [|exact Hx]. lia.
    - eapply Forall_impl; [|exact IH]. intros y Hy. eapply Hmono; [|exact Hy]. lia.
  Qed.

  Lemma quiet_same s t : shaped t -> quiet (s_b s) t -> is_node t = true -> exists n, same n s t.
  Proof.
    induction t as [m k fs IH|l IH|a] using tree_ind2; intros Hs Hq Hn; try discriminate.
    destruct (String.eqb_spec k "Done") as [->|Hd].
    { exists 1. unfold same. cbn [visit]. unfold visit_body. cbn [is_kind String.eqb Ascii.eqb Bool.eqb]. rewrite orb_true_r. reflexivity. }
    assert (Hb : exists n, Forall (fun p => (is_node (snd p) = true -> same n s (snd p)) /\
      match snd p with Ls l => Forall (fun x => is_node x = true -> same n s x) l | _ => True end) fs).
    { apply Forall_bound.
      - intros n n' p Hle [H1 H2]. split; [intros; eapply same_le; eauto|]. destruct (snd p); auto. eapply Forall_impl; [|exact H2]. intros x Hx Hnx. eapply same_le; eauto.
      - rewrite Forall_forall in IH. apply Forall_forall. intros [f v] Hin. cbn [snd]. specialize (IH _ Hin). cbn [snd] in IH. destruct IH as [IH1 IH2].
        assert (Hpv : forall u, part v u -> part (Nd m k fs) u) by (intros u Hu; eapply pt_field; eauto).
        destruct v as [mv kv fv|l|a].
        + destruct IH1 as [n Hsame]; [intros u Hu; apply Hs; auto|intros u x syn Hu; apply Hq; auto|reflexivity|]. exists n. auto.
        + assert (Hl : exists n, Forall (fun x => is_node x = true -> same n s x) l).
          { apply Forall_bound; [intros n n' x Hle Hx Hnx; eapply same_le; eauto|]. rewrite Forall_forall in IH2. apply Forall_forall. intros x Hx.
            destruct (is_node x) eqn:En; [|exists 0; discriminate].
            destruct (IH2 x Hx) as [n Hsame]; auto.
            - intros u Hu. apply Hs. apply Hpv. eapply pt_elem; eauto.
            - intros u y syn Hu. apply Hq. apply Hpv. eapply pt_elem; eauto.
            - exists n. auto. }
          destruct Hl as [n Hl]. exists n. split; [discriminate|exact Hl].
        + exists 0. split; [discriminate|exact I]. }
    destruct Hb as [n Hb]. exists (S n). apply quiet_node; assumption.
  Qed.
End Quiet.
