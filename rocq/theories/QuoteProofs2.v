(** Proofs for C42 and C43. *)
From Verif Require Import Base AstLib FixLocModel QuoteModel QuoteSpec QuoteSpec2 QuoteProofs.

Definition doit_items := fix items (l : list pv) : res (list pv) :=
                 match l with
                 | [] => Ok []
                 | x :: r =>
                     match doit x with
                     | Err e => Err e
                     | Ok x' =>
                         match items r with
                         | Err e => Err e
                         | Ok r' =>
                             match x' with
                             | PN _ k [(_, PL b)] => if is_splice k then Ok (b ++ r') else Ok (x' :: r')
                             | _ => Ok (x' :: r')
                             end
                         end
                     end
                 end.
Definition doit_fields := fix fields (fs : list (string * pv)) : res (list (string * pv)) :=
                      match fs with
                      | [] => Ok []
                      | (f, v) :: r =>
                          match (match v with PL _ => doit v | _ => Ok v end) with
                          | Err e => Err e
                          | Ok v' => match fields r with Ok r' => Ok ((f, v') :: r') | Err e => Err e end
                          end
                      end.
Lemma doit_list l : doit (PL l) = match doit_items l with Ok l' => Ok (PL l') | Err e => Err e end. Proof. reflexivity. Qed.
Lemma doit_node m k fs : doit (PN m k fs) = if is_glob k then Ok (PN m k fs) else match doit_fields fs with Ok fs' => Ok (PN m k fs') | Err e => Err e end. Proof. reflexivity. Qed.
Definition spliced_cons (x' : pv) (r' : list pv) : list pv :=
  match x' with PN _ k [(_, PL b)] => if is_splice k then b ++ r' else x' :: r' | _ => x' :: r' end.
Lemma doit_cons x r : doit_items (x :: r) = match doit x with Err e => Err e | Ok x' => match doit_items r with Err e => Err e | Ok r' => Ok (spliced_cons x' r') end end.
Proof.
  cbn [doit_items]. fold doit_items. destruct (doit x) as [x'|]; [|reflexivity]. destruct (doit_items r); [|reflexivity]. unfold spliced_cons.
  destruct x' as [| | | | |m k [|[f [| | | | |]] [|]]]; try reflexivity. destruct (is_splice k); reflexivity.
Qed.
Lemma not_glob_splice : is_glob "SpliceNodes" = false. Proof. reflexivity. Qed.


Lemma has_marker_occurs' (iscls : string -> bool) x :
  has_marker iscls x = true \/ (exists l, x = PL l /\ existsb (fun x => match x with PN _ _ _ => has_marker iscls x | _ => false end) l = true) -> exists k, iscls k = true /\ occurs k x.
Proof.
  induction x as [a|l IH|l IH|l IH|l IH|m k fs IH] using pv_ind2; intros [H|(l' & E & H)]; try discriminate.
  - injection E as <-. apply existsb_exists in H. destruct H as (y & Hy & H). rewrite Forall_forall in IH. destruct y as [| | | | |m k fs]; try discriminate. destruct (IH _ Hy (or_introl H)) as (k' & Hk & Ho). exists k'. split; [exact Hk|exact (oc_elt _ _ _ Hy Ho)].
  - cbn [has_marker] in H. apply orb_true_iff in H. destruct H as [H|H]; [exists k; split; [exact H|constructor]|].
    apply existsb_exists in H. destruct H as ([f v] & Hin & H). rewrite Forall_forall in IH. specialize (IH _ Hin). cbn [snd] in IH.
    assert (K : exists k, iscls k = true /\ occurs k v). { destruct v as [a|l|l|l|l|m' k' fs']; try discriminate; apply IH; [right; exists l; auto|left; exact H]. }
    destruct K as (k' & Hk & Ho). exists k'. split; [exact Hk|exact (oc_field _ _ _ _ _ _ Hin Ho)].
Qed.
Lemma has_marker_occurs (iscls : string -> bool) x : has_marker iscls x = true -> exists k, iscls k = true /\ occurs k x.
Proof. intros H. apply has_marker_occurs'. left. exact H. Qed.
Lemma has_marker_top_occurs (iscls : string -> bool) x : has_marker_top iscls x = true -> exists k, iscls k = true /\ occurs k x.
Proof.
  induction x as [a|l IH|l IH|l IH|l IH|m k fs IH] using pv_ind2; cbn [has_marker_top]; try discriminate.
  - intros H. apply existsb_exists in H. destruct H as (y & Hy & H). rewrite Forall_forall in IH. destruct (IH _ Hy H) as (k & Hk & Ho). exists k. split; [exact Hk|exact (oc_elt _ _ _ Hy Ho)].
  - apply has_marker_occurs.
Qed.
Lemma no_splice_top x : no_splice x -> has_marker_top is_splice x = false.
Proof. intros H. destruct (has_marker_top is_splice x) eqn:E; [|reflexivity]. destruct (has_marker_top_occurs _ _ E) as (k & Hk & Ho). apply String.eqb_eq in Hk. subst k. destruct (H Ho). Qed.

(** ** Placement gives success *)
Lemma no_splice_list l : no_splice (PL l) <-> Forall no_splice l.
Proof.
  unfold no_splice. rewrite Forall_forall. split.
  - intros H x Hx Ho. exact (H (oc_elt _ _ _ Hx Ho)).
  - intros H Ho. inversion Ho; subst. eapply H; eassumption.
Qed.
Lemma no_splice_node m k fs : no_splice (PN m k fs) <-> k <> "SpliceNodes"%string /\ Forall (fun p => no_splice (snd p)) fs.
Proof.
  unfold no_splice. rewrite Forall_forall. split.
  - intros H. split; [intros ->; apply H; constructor|]. intros [f v] Hp Ho. exact (H (oc_field _ _ _ _ _ _ Hp Ho)).
  - intros [Hk H] Ho. inversion Ho; subst; [congruence|]. match goal with Hin : In (?f, ?v) fs |- _ => exact (H (f, v) Hin ltac:(assumption)) end.
Qed.
Lemma spliced_cons_other x' r' : (match x' with PN _ k _ => k <> "SpliceNodes"%string | _ => True end) -> spliced_cons x' r' = x' :: r'.
Proof.
  destruct x' as [| | | | |m k [|[f [| | | | |]] [|]]]; intros H; try reflexivity. unfold spliced_cons, is_splice. destruct (String.eqb_spec k "SpliceNodes"); [contradiction|reflexivity].
Qed.
Lemma doit_kind t t' : doit t = Ok t' -> match t with PN m k fs => exists fs', t' = PN m k fs' | PL l => exists l', t' = PL l' | _ => False end.
Proof.
  destruct t as [a|l|l|l|l|m k fs]; try discriminate.
  - rewrite doit_list. destruct (doit_items l) as [l'|]; [|discriminate]. intros [= <-]. eauto.
  - rewrite doit_node. destruct (is_glob k); [intros [= <-]; eauto|]. destruct (doit_fields fs) as [fs'|]; [|discriminate]. intros [= <-]. eauto.
Qed.
Lemma placed_doit :
  (forall t, placed t -> exists t', doit t = Ok t' /\ no_splice t') /\
  (forall l, placed_items l -> exists l', doit_items l = Ok l' /\ Forall no_splice l') /\
  (forall fs, placed_fields fs -> exists fs', doit_fields fs = Ok fs' /\ Forall (fun p => no_splice (snd p)) fs').
Proof.
  apply placed_mutind.
  - intros l _ (l' & E & H). exists (PL l'). rewrite doit_list, E. split; [reflexivity|]. apply no_splice_list. exact H.
  - intros m k fs Hg Hn. exists (PN m k fs). rewrite doit_node, Hg. split; [reflexivity|exact Hn].
  - intros m k fs Hg Hk _ (fs' & E & H). exists (PN m k fs'). rewrite doit_node, Hg, E. split; [reflexivity|]. apply no_splice_node. auto.
  - exists []. split; [reflexivity|constructor].
  - intros m f b r _ (b' & E1 & H1) _ (r' & E2 & H2). exists (b' ++ r'). rewrite doit_cons, doit_node. cbn [is_glob String.eqb Ascii.eqb Bool.eqb orb]. cbn [doit_fields]. rewrite doit_list, E1, E2. split; [reflexivity|]. apply Forall_app. auto.
  - intros x r Hx Hp (x' & E1 & H1) _ (r' & E2 & H2). exists (x' :: r'). rewrite doit_cons, E1, E2. split; [|constructor; assumption]. f_equal. apply spliced_cons_other.
    destruct x' as [| | | | |m k fs]; try exact I. apply no_splice_node in H1. exact (proj1 H1).
  - exists []. split; [reflexivity|constructor].
  - intros f l r _ (l' & E1 & H1) _ (r' & E2 & H2). exists ((f, l') :: r'). cbn [doit_fields]. fold doit_fields. rewrite E1, E2. split; [reflexivity|constructor; assumption].
  - intros f v r Hv Hn _ (r' & E2 & H2). exists ((f, v) :: r'). cbn [doit_fields]. fold doit_fields. rewrite E2. split; [destruct v; try reflexivity; contradiction|constructor; assumption].
Qed.

(** ** The result *)
Lemma no_splice_refl x : no_splice x -> spliced x x.
Proof.
  induction x as [a|l IH|l IH|l IH|l IH|m k fs IH] using pv_ind2; intros H; try constructor.
  - apply no_splice_list in H. induction l as [|x l IHl]; [constructor|]. inversion IH; inversion H; subst. apply si_item; [auto|]. apply IHl; assumption.
  - apply no_splice_node in H. exact (proj1 H).
  - apply no_splice_node in H. destruct H as [_ H]. induction fs as [|[f v] fs IHl]; [constructor|]. inversion IH; inversion H; subst. constructor; [auto|]. apply IHl; assumption.
Qed.
Lemma doit_spliced t : forall t', doit t = Ok t' -> (no_splice t' -> spliced t t') /\
  (forall m f b, t = PN m "SpliceNodes" [(f, PL b)] -> exists b', t' = PN m "SpliceNodes" [(f, PL b')] /\ (Forall no_splice b' -> spliced_items b b')).
Proof.
  induction t as [a|l IH|l IH|l IH|l IH|m k fs IH] using pv_ind2; intros t' E; try discriminate.
  - split; [|discriminate]. rewrite doit_list in E. destruct (doit_items l) as [l'|] eqn:El; [|discriminate]. injection E as <-. intros H. apply no_splice_list in H. constructor.
    revert l' El H. induction l as [|x l IHl]; intros l' El H; [injection El as <-; constructor|]. rewrite doit_cons in El. inversion IH as [|? ? IHx IHr]; subst.
    destruct (doit x) as [x'|] eqn:Ex; [|discriminate]. destruct (doit_items l) as [r'|] eqn:Er; [|discriminate]. injection El as <-.
    specialize (IHl IHr r' eq_refl). destruct (IHx x' eq_refl) as [I1 I2]. pose proof (doit_kind _ _ Ex) as K.
    assert (D : (exists m f b', x' = PN m "SpliceNodes" [(f, PL b')]) \/ spliced_cons x' r' = x' :: r').
    { destruct x' as [| | | | |mx kx [|[fx [| | | | |]] [|]]]; try (right; reflexivity). unfold spliced_cons, is_splice. destruct (String.eqb_spec kx "SpliceNodes") as [->|]; [left; eauto|right; reflexivity]. }
    destruct D as [(mx & fx & b' & ->)|D].
    + cbn [spliced_cons is_splice String.eqb Ascii.eqb Bool.eqb] in H. change (is_splice "SpliceNodes") with true in *. cbn [spliced_cons] in *. change (is_splice "SpliceNodes") with true in *. cbv iota in *. apply Forall_app in H. destruct H as [H1 H2].
      destruct x as [| | | | |m0 k0 fs0]; try (destruct K as (? & K); discriminate); try contradiction. destruct K as (fs' & K). injection K as K1 K2 K3. subst m0 k0 fs'.
      rewrite doit_node in Ex. change (is_glob "SpliceNodes") with false in Ex. cbv iota in Ex.
      destruct fs0 as [|[f0 v0] fs0]; [discriminate|]. cbn [doit_fields] in Ex. fold doit_fields in Ex. destruct (match v0 with PL _ => doit v0 | _ => Ok v0 end) as [v0'|] eqn:Ev; [|discriminate].
      destruct (doit_fields fs0) as [fs1|] eqn:Ef; [|discriminate]. injection Ex as E1 E2 E3. subst f0 v0' fs1. destruct fs0 as [|[g0 w0] fs0].
      * destruct v0 as [|b| | | |]; try discriminate. destruct (I2 mx fx b eq_refl) as (b'' & E' & Hb). injection E' as <-. apply si_splice; [exact (Hb H1)|exact (IHl H2)].
      * cbn [doit_fields] in Ef. fold doit_fields in Ef. destruct (match w0 with PL _ => doit w0 | _ => Ok w0 end); [|discriminate]. destruct (doit_fields fs0); discriminate.
    + rewrite D in *. inversion H; subst. apply si_item; auto.
  - rewrite doit_node in E. destruct (is_glob k) eqn:Hg.
    + injection E as <-. split; [apply no_splice_refl|]. intros m' f b [= -> -> ->]. discriminate.
    + destruct (doit_fields fs) as [fs'|] eqn:Ef; [|discriminate]. injection E as <-. split.
      * intros H. apply no_splice_node in H. destruct H as [Hk H]. constructor; [exact Hk|]. clear Hk Hg. revert fs' Ef H. induction fs as [|[f v] fs IHl]; intros fs' Ef H; [injection Ef as <-; constructor|].
        cbn [doit_fields] in Ef. fold doit_fields in Ef. inversion IH as [|? ? IHx IHr]; subst. cbn [snd] in IHx. destruct (match v with PL _ => doit v | _ => Ok v end) as [v'|] eqn:Ev; [|discriminate].
        destruct (doit_fields fs) as [r'|] eqn:Er; [|discriminate]. injection Ef as <-. inversion H as [|? ? Hv Hr]; subst. cbn [snd] in Hv. constructor; [|exact (IHl IHr r' eq_refl Hr)].
        destruct v as [a|l|l|l|l|m' k' fs'']; try (injection Ev as <-; apply no_splice_refl; exact Hv). exact (proj1 (IHx v' Ev) Hv).
      * intros m' f b [= -> -> ->]. cbn [doit_fields] in Ef. destruct (doit (PL b)) as [v'|] eqn:Eb; [|discriminate]. injection Ef as <-. inversion IH as [|? ? IHb _]; subst. cbn [snd] in IHb.
        pose proof (doit_kind _ _ Eb) as (b' & ->). exists b'. split; [reflexivity|]. intros Hb. destruct (IHb _ Eb) as [I _]. assert (S : spliced (PL b) (PL b')) by (apply I; apply no_splice_list; exact Hb). inversion S; subst. assumption.
Qed.

(** ** No splice node is left *)
Definition nonlist (x : pv) : Prop := match x with PL _ => False | _ => True end.
Lemma occurs_has_marker (iscls : string -> bool) c x : iscls c = true -> flatlists x -> occurs c x -> has_marker_top iscls x = true.
Proof.
  intros Hc Hf H. revert Hf. induction H as [m fs|m k fs f v Hin Ho IH|l x Hin Ho IH]; intros Hf.
  - cbn [has_marker_top has_marker]. rewrite Hc. reflexivity.
  - cbn [has_marker_top has_marker]. apply orb_true_iff. right. apply existsb_exists. exists (f, v). split; [exact Hin|]. inversion Hf as [| | | | |? ? ? H]; subst. rewrite Forall_forall in H. destruct (H _ Hin) as [H1 H2]. cbn [snd] in *. specialize (IH H1).
    destruct v as [a|l|l|l|l|m' k' fs']; try (inversion Ho; fail); [|exact IH]. cbn [has_marker_top] in IH. apply existsb_exists in IH. destruct IH as (y & Hy & IH). apply existsb_exists. exists y. split; [exact Hy|]. rewrite Forall_forall in H2. specialize (H2 _ Hy). destruct y; try discriminate; [destruct H2|exact IH].
  - cbn [has_marker_top]. inversion Hf as [|? H| | | |]; subst. rewrite Forall_forall in H. apply existsb_exists. exists x. split; [exact Hin|exact (IH (H _ Hin))].
Qed.
Lemma doit_flat t : forall t', doit t = Ok t' -> flatlists t -> flatlists t' /\ match t, t' with PL l, PL l' => Forall nonlist l -> Forall nonlist l' | _, _ => True end.
Proof.
  induction t as [a|l IH|l IH|l IH|l IH|m k fs IH] using pv_ind2; intros t' E Hf; try discriminate.
  - rewrite doit_list in E. destruct (doit_items l) as [l'|] eqn:El; [|discriminate]. injection E as <-. inversion Hf as [|? H| | | |]; subst.
    assert (G : Forall flatlists l' /\ (Forall nonlist l -> Forall nonlist l')).
    { clear Hf. revert l' El. induction l as [|x l IHl]; intros l' El; [injection El as <-; split; [constructor|auto]|]. rewrite doit_cons in El. inversion IH as [|? ? IHx IHr]; subst. inversion H as [|? ? Hx Hr]; subst.
      destruct (doit x) as [x'|] eqn:Ex; [|discriminate]. destruct (doit_items l) as [r'|] eqn:Er; [|discriminate]. injection El as <-. destruct (IHl IHr Hr r' eq_refl) as [G1 G2]. destruct (IHx x' eq_refl Hx) as [F1 _]. pose proof (doit_kind _ _ Ex) as K.
      assert (Hk : nonlist x -> nonlist x') by (destruct x; try contradiction; destruct K as (? & ->); auto).
      assert (C : Forall flatlists (x' :: r') /\ (Forall nonlist (x :: l) -> Forall nonlist (x' :: r'))).
      { split; [constructor; assumption|]. intros HH. inversion HH; subst. constructor; auto. }
      destruct x' as [| | | | |mx kx [|[fx [|b| | | |]] [|]]]; try exact C. cbn [spliced_cons]. destruct (is_splice kx); [|exact C].
      inversion F1 as [| | | | |? ? ? HF]; subst. inversion HF as [|? ? [HF1 HF2] _]; subst. cbn [snd] in *. inversion HF1; subst. split.
      - apply Forall_app. auto.
      - intros HH. inversion HH; subst. apply Forall_app. auto. }
    split; [constructor; exact (proj1 G)|exact (proj2 G)].
  - split; [|exact I]. rewrite doit_node in E. destruct (is_glob k); [injection E as <-; exact Hf|]. destruct (doit_fields fs) as [fs'|] eqn:Ef; [|discriminate]. injection E as <-. inversion Hf as [| | | | |? ? ? H]; subst. constructor. clear Hf.
    revert fs' Ef. induction fs as [|[f v] fs IHl]; intros fs' Ef; [injection Ef as <-; constructor|]. cbn [doit_fields] in Ef. fold doit_fields in Ef. inversion IH as [|? ? IHx IHr]; subst. inversion H as [|? ? [H1 H2] Hr]; subst. cbn [snd] in *.
    destruct (match v with PL _ => doit v | _ => Ok v end) as [v'|] eqn:Ev; [|discriminate]. destruct (doit_fields fs) as [r'|] eqn:Er; [|discriminate]. injection Ef as <-. constructor; [|exact (IHl IHr Hr r' eq_refl)]. cbn [snd].
    destruct v as [a|l|l|l|l|m' k' fs'']; try (injection Ev as <-; split; [exact H1|exact I]).
    destruct (IHx v' Ev H1) as [G1 G2]. split; [exact G1|]. pose proof (doit_kind _ _ Ev) as (l' & ->). exact (G2 H2).
Qed.
