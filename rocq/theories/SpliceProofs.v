From Coq Require Import Permutation.
From Verif Require Import Base AstLib UtilsModel UtilsSpec UtilsProofs FixLocModel SpliceModel SpliceSpec.

Definition okval {M} (t : tree M) : bool := match t with Nd _ _ _ => true | Ls l => forallb is_node l | At _ => false end.

Lemma flatten_acc_app {M} (l : list (tree M)) : forall out, Forall (fun t => okval t = true) l ->
  fold_left flatten_acc l out = out ++ flat_map contrib l.
Proof.
  assert (N : forall l : list (tree M), forallb is_node l = true -> forall out, fold_left flatten_acc l out = out ++ l).
  { intros l0. induction l0 as [|x l0 IH]; intros H out; [symmetry; apply app_nil_r|]. simpl in H. apply andb_true_iff in H. destruct H as [Hx H].
    cbn [fold_left]. rewrite IH by exact H. destruct x; try discriminate. cbn [flatten_acc]. rewrite <- app_assoc. reflexivity. }
  induction l as [|x l IH]; intros out H; [symmetry; apply app_nil_r|]. inversion H as [|? ? Hx Hl]; subst. cbn [fold_left flat_map].
  rewrite IH by exact Hl. destruct x as [m k fs|xs|a]; [| |discriminate].
  - cbn [flatten_acc contrib]. rewrite <- app_assoc. reflexivity.
  - cbn [flatten_acc contrib]. rewrite (N xs Hx). simpl. rewrite <- app_assoc. reflexivity.
Qed.
Lemma flatten_ok {M} (l : list (tree M)) : Forall (fun t => okval t = true) l -> flatten l = flat_map contrib l.
Proof. intros H. unfold flatten. rewrite flatten_acc_app by exact H. reflexivity. Qed.

Lemma contrib_skel {M} (t : tree M) : okval t = true -> map skel (contrib t) = contrib (skel t).
Proof. destruct t; try discriminate; reflexivity. Qed.
Lemma contrib_nodes {M} (t : tree M) : okval t = true -> forallb is_node (contrib t) = true.
Proof. destruct t; try discriminate; simpl; auto. Qed.
Lemma metas_contrib {M} (t : tree M) : okval t = true -> flat_map metas (contrib t) = metas t.
Proof. destruct t; try discriminate; simpl; rewrite ?app_nil_r; reflexivity. Qed.

Lemma perm_mid {A} (a b c d x y : list A) : Permutation x (a ++ b) -> Permutation y (c ++ d) ->
  Permutation (x ++ y) ((a ++ c) ++ (b ++ d)).
Proof.
  intros H1 H2. rewrite H1, H2. rewrite <- !app_assoc. apply Permutation_app_head. rewrite !app_assoc. apply Permutation_app_tail.
  apply Permutation_app_comm.
Qed.

Section SplicerProof.
  Context {M : Type}.
  Variable cp : nat -> M -> M.
  Variable hole : tree M -> bool.
  Variable hole' : tree unit -> bool.
  Hypothesis Hhole : forall t, hole t = hole' (skel t).
  Hypothesis Hat : forall t, is_node t = false -> hole t = false.
  Variable thing : tree M.
  Hypothesis Hthing : okval thing = true.

  Notation splicer := (splicer cp hole thing).
  Definition pasted (i : nat) : tree M := match i with O => thing | _ => deepcopy cp i thing end.

  Lemma skel_deepcopy i (t : tree M) : skel (deepcopy cp i t) = skel t.
  Proof.
    induction t as [m k fs IH|l IH|a] using tree_ind'; [| |reflexivity].
    - simpl. f_equal. rewrite map_map. apply map_ext_in. intros [f v] Hin. rewrite Forall_forall in IH. cbn [fst snd]. f_equal. exact (IH _ Hin).
    - simpl. f_equal. rewrite map_map. apply map_ext_in. intros v Hin. rewrite Forall_forall in IH. apply IH, Hin.
  Qed.
  Lemma okval_deepcopy i (t : tree M) : okval t = true -> okval (deepcopy cp i t) = true.
  Proof.
    destruct t as [m k fs|l|a]; simpl; auto. intros H. rewrite forallb_forall in *. intros x Hx. apply in_map_iff in Hx. destruct Hx as [y [<- Hy]].
    specialize (H y Hy). destruct y; try discriminate. reflexivity.
  Qed.
  Lemma pasted_ok i : okval (pasted i) = true /\ skel (pasted i) = skel thing.
  Proof. destruct i; [auto|]. split; [apply okval_deepcopy, Hthing|apply skel_deepcopy]. Qed.

  Definition pastes (n c : nat) : list M := flat_map (fun i => metas (pasted i)) (seq n c).
  Lemma pastes_app n a b : pastes n (a + b) = pastes n a ++ pastes (n + a) b.
  Proof. unfold pastes. rewrite seq_app, flat_map_app. reflexivity. Qed.

  Definition Good (t : tree M) (n : nat) : Prop :=
    exists t', splicer t n = Ok (t', n + holes hole t) /\ okval t' = true /\
      skel t' = fill hole' (skel thing) (skel t) /\
      Permutation (metas t') (kept hole t ++ pastes n (holes hole t)).

  Lemma sgv_list_good l : Forall (fun x => is_list x = false /\ (is_node x = true -> forall n, Good x n)) l ->
    forall n, exists l', sgv_list splicer l n = Ok (l', n + holes hole (Ls l)) /\
      map skel l' = flat_map (fun x => match x with Nd _ _ _ => contrib (fill hole' (skel thing) x) | _ => [x] end) (map skel l) /\
      Permutation (flat_map metas l') (kept hole (Ls l) ++ pastes n (holes hole (Ls l))).
  Proof.
    induction l as [|x l IH]; intros H n.
    - exists []. simpl. rewrite Nat.add_0_r. auto.
    - inversion H as [|? ? [Hx1 Hx2] Hl]; subst. cbn [sgv_list]. destruct x as [m k fs|xs|a]; [|discriminate|].
      + destruct (Hx2 eq_refl n) as [t' [E1 [E2 [E3 E4]]]]. rewrite E1.
        destruct (IH Hl (n + holes hole (Nd m k fs))) as [l' [F1 [F2 F3]]]. rewrite F1.
        exists (contrib t' ++ l'). split; [|split].
        * change (holes hole (Ls (Nd m k fs :: l))) with (holes hole (Nd m k fs) + holes hole (Ls l)).
          rewrite Nat.add_assoc. destruct t'; try discriminate; reflexivity.
        * rewrite map_app, F2. cbn [map flat_map]. f_equal.
          rewrite contrib_skel, E3 by exact E2. reflexivity.
        * rewrite flat_map_app, metas_contrib by exact E2.
          cbn [kept flat_map]. change (holes hole (Ls (Nd m k fs :: l))) with (holes hole (Nd m k fs) + holes hole (Ls l)).
          rewrite pastes_app. apply perm_mid; [exact E4|exact F3].
      + destruct (IH Hl n) as [l' [F1 [F2 F3]]]. rewrite F1. exists (At a :: l'). split; [|split].
        * reflexivity.
        * cbn [map flat_map]. rewrite F2. reflexivity.
        * exact F3.
  Qed.

  Lemma sgv_fields_good fs : Forall (fun p : string * tree M => match snd p with
                                       | Nd _ _ _ => forall n, Good (snd p) n
                                       | Ls l => Forall (fun x => is_list x = false /\ (is_node x = true -> forall n, Good x n)) l
                                       | At _ => True end) fs ->
    forall n, exists fs', sgv_fields splicer fs n = Ok (fs', n + list_sum (map (fun p : string * tree M => let (_, v) := p in holes hole v) fs)) /\
      map (fun p => (fst p, skel (snd p))) fs' =
      map (fun p : string * tree unit => let (f, v) := p in
               (f, match v with
                   | Ls l => Ls (flat_map (fun x => match x with Nd _ _ _ => contrib (fill hole' (skel thing) x) | _ => [x] end) l)
                   | _ => fill hole' (skel thing) v
                   end)) (map (fun p => (fst p, skel (snd p))) fs) /\
      Permutation (flat_map (fun p : string * tree M => let (_, v) := p in metas v) fs')
        (flat_map (fun p : string * tree M => let (_, v) := p in kept hole v) fs ++
         pastes n (list_sum (map (fun p : string * tree M => let (_, v) := p in holes hole v) fs))).
  Proof.
    induction fs as [|[f v] fs IH]; intros H n.
    - exists []. simpl. rewrite Nat.add_0_r. auto.
    - inversion H as [|? ? Hv Hfs]; subst. cbn [snd] in Hv. cbn [sgv_fields].
      set (c := list_sum (map (fun p : string * tree M => let (_, v) := p in holes hole v) fs)) in *.
      destruct v as [m k gs|xs|a].
      + destruct (Hv n) as [t' [E1 [E2 [E3 E4]]]]. rewrite E1.
        destruct (IH Hfs (n + holes hole (Nd m k gs))) as [fs' [F1 [F2 F3]]]. rewrite F1.
        exists ((f, t') :: fs'). split; [|split].
        * change (list_sum (map (fun p : string * tree M => let (_, v) := p in holes hole v) ((f, Nd m k gs) :: fs))) with (holes hole (Nd m k gs) + c).
          rewrite Nat.add_assoc. destruct t' as [| |a]; try discriminate; reflexivity.
        * cbn [map fst snd]. rewrite F2, E3. reflexivity.
        * cbn [flat_map]. change (list_sum (map (fun p : string * tree M => let (_, v) := p in holes hole v) ((f, Nd m k gs) :: fs))) with (holes hole (Nd m k gs) + c).
          rewrite pastes_app. apply perm_mid; [exact E4|exact F3].
      + destruct (sgv_list_good xs Hv n) as [l' [E1 [E2 E3]]]. rewrite E1.
        destruct (IH Hfs (n + holes hole (Ls xs))) as [fs' [F1 [F2 F3]]]. rewrite F1.
        exists ((f, Ls l') :: fs'). split; [|split].
        * change (list_sum (map (fun p : string * tree M => let (_, v) := p in holes hole v) ((f, Ls xs) :: fs))) with (holes hole (Ls xs) + c).
          rewrite Nat.add_assoc. reflexivity.
        * cbn [map fst snd skel]. rewrite F2, E2. reflexivity.
        * cbn [flat_map]. change (list_sum (map (fun p : string * tree M => let (_, v) := p in holes hole v) ((f, Ls xs) :: fs))) with (holes hole (Ls xs) + c).
          rewrite pastes_app. apply perm_mid; [exact E3|exact F3].
      + destruct (IH Hfs n) as [fs' [F1 [F2 F3]]]. rewrite F1.
        exists ((f, At a) :: fs'). split; [reflexivity|split].
        * cbn [map fst snd skel]. rewrite F2. reflexivity.
        * exact F3.
  Qed.

  Lemma splicer_node t : wf t = true -> is_node t = true -> forall n, Good t n.
  Proof.
    induction t as [m k fs IH|l IH|a] using tree_ind2; intros Hw Hn n; try discriminate.
    unfold Good. cbn [SpliceModel.splicer]. cbn [holes kept fill skel].
    pose proof (Hhole (Nd m k fs)) as Hh. cbn [skel] in Hh. rewrite <- Hh.
    destruct (hole (Nd m k fs)) eqn:Eh.
    - exists (pasted n). destruct (pasted_ok n) as [P1 P2]. split; [rewrite Nat.add_1_r; reflexivity|]. split; [exact P1|]. split; [exact P2|].
      unfold pastes. simpl. rewrite app_nil_r. apply Permutation_refl.
    - destruct (sgv_fields_good fs) with (n := n) as [fs' [E1 [E2 E3]]].
      { apply Forall_forall. intros [f v] Hin. rewrite Forall_forall in IH. destruct (IH _ Hin) as [Hv1 Hv2]. cbn [snd] in *.
        pose proof (wf_field _ _ _ _ _ Hw Hin) as Hwv. destruct v as [m' k' fs'|xs|a]; [apply Hv1; auto| |exact I].
        simpl in Hw. rewrite forallb_forall in Hw. specialize (Hw _ Hin). simpl in Hw. rewrite forallb_forall in Hw.
        rewrite Forall_forall in Hv2. apply Forall_forall. intros x Hx. specialize (Hw x Hx). apply andb_true_iff in Hw. destruct Hw as [W1 W2].
        apply negb_true_iff in W1. split; [exact W1|]. intros Hxn. apply Hv2; assumption. }
      rewrite E1. exists (Nd m k fs'). split; [reflexivity|]. split; [reflexivity|]. split.
      + cbn [skel]. f_equal. exact E2.
      + cbn [metas app]. apply perm_skip, E3.
  Qed.

  Lemma svisit_elts_good l : Forall (fun x => is_node x = true /\ wf x = true) l ->
    forall n, exists l', svisit_elts splicer l n = Ok (l', n + holes hole (Ls l)) /\
      Forall (fun t => okval t = true) l' /\
      map skel (flat_map contrib l') = flat_map (fun x => contrib (fill hole' (skel thing) x)) (map skel l) /\
      Permutation (flat_map metas (flat_map contrib l')) (kept hole (Ls l) ++ pastes n (holes hole (Ls l))).
  Proof.
    induction l as [|x l IH]; intros H n.
    - exists []. simpl. rewrite Nat.add_0_r. auto.
    - inversion H as [|? ? [Hx1 Hx2] Hl]; subst. cbn [svisit_elts].
      destruct (splicer_node x Hx2 Hx1 n) as [t' [E1 [E2 [E3 E4]]]]. rewrite E1.
      destruct (IH Hl (n + holes hole x)) as [l' [F1 [F2 [F3 F4]]]]. rewrite F1.
      exists (t' :: l'). split; [|split; [constructor; assumption|split]].
      + change (holes hole (Ls (x :: l))) with (holes hole x + holes hole (Ls l)). rewrite Nat.add_assoc. reflexivity.
      + cbn [flat_map map]. rewrite map_app, F3, contrib_skel, E3 by exact E2. reflexivity.
      + cbn [flat_map kept]. rewrite flat_map_app, metas_contrib by exact E2.
        change (holes hole (Ls (x :: l))) with (holes hole x + holes hole (Ls l)). rewrite pastes_app. apply perm_mid; [exact E4|exact F4].
  Qed.

  Lemma splicer_good t : wf t = true -> ast_or_list t = true -> forall n, Good t n.
  Proof.
    destruct t as [m k fs|l|a]; intros Hw Ha n; [apply splicer_node; auto| |discriminate].
    unfold Good. cbn [SpliceModel.splicer]. simpl in Hw, Ha. rewrite forallb_forall in Hw, Ha.
    destruct (svisit_elts_good l) with (n := n) as [l' [E1 [E2 [E3 E4]]]].
    { apply Forall_forall. intros x Hx. split; auto. }
    rewrite E1. exists (Ls (flatten l')). rewrite flatten_ok by exact E2. split; [reflexivity|]. split; [|split].
    - simpl. clear - E2. induction E2 as [|x l Hx Hl IH]; [reflexivity|]. simpl. rewrite forallb_app, contrib_nodes, IH by exact Hx. reflexivity.
    - cbn [skel fill]. f_equal. exact E3.
    - exact E4.
  Qed.
End SplicerProof.

(** *** No hole is left *)
Lemma holes_list_app {M} h (a b : list (tree M)) : holes h (Ls (a ++ b)) = holes h (Ls a) + holes h (Ls b).
Proof. cbn [holes]. rewrite map_app, list_sum_app. reflexivity. Qed.
Lemma holes_contrib {M} h (v : tree M) : holes h (Ls (contrib v)) = holes h v.
Proof. destruct v as [m k fs| |[]]; try reflexivity. change (holes h (Nd m k fs) + 0 = holes h (Nd m k fs)). lia. Qed.

Section NoHole.
  Context {M : Type}.
  Variable hole : tree M -> bool.
  Variable thing : tree M.
  Hypothesis H0 : holes hole thing = 0.
  Definition fill_field (p : string * tree M) : string * tree M :=
    let (f, v) := p in
    (f, match v with
        | Ls l => Ls (flat_map (fun x => match x with Nd _ _ _ => contrib (fill hole thing x) | _ => [x] end) l)
        | _ => fill hole thing v
        end).
  Hypothesis Hst : forall m k fs, hole (Nd m k fs) = false -> hole (Nd m k (map fill_field fs)) = false.

  Lemma fill_Nd m k fs : fill hole thing (Nd m k fs) = if hole (Nd m k fs) then thing else Nd m k (map fill_field fs).
  Proof. reflexivity. Qed.

  Lemma no_hole_list l : Forall (fun x => holes hole (fill hole thing x) = 0) l ->
    holes hole (Ls (flat_map (fun x => contrib (fill hole thing x)) l)) = 0.
  Proof.
    induction 1 as [|x l Hx Hl IH]; [reflexivity|]. cbn [flat_map]. rewrite holes_list_app, holes_contrib, Hx, IH. reflexivity.
  Qed.

  Lemma no_hole t : wf t = true -> holes hole (fill hole thing t) = 0.
  Proof.
    induction t as [m k fs IH|l IH|a] using tree_ind2; intros Hw; [| |reflexivity].
    - rewrite fill_Nd. destruct (hole (Nd m k fs)) eqn:Eh; [exact H0|]. cbn [holes]. rewrite (Hst _ _ _ Eh).
      assert (G : forall q, In q fs -> holes hole (snd (fill_field q)) = 0).
      { intros [f v] Hin. rewrite Forall_forall in IH. destruct (IH _ Hin) as [Hv1 Hv2]. cbn [snd] in *.
        pose proof (wf_field _ _ _ _ _ Hw Hin) as Hwv. destruct v as [m' k' fs'|xs|a]; [exact (Hv1 Hwv)| |reflexivity].
        simpl in Hw. rewrite forallb_forall in Hw. specialize (Hw _ Hin). simpl in Hw.
        cbn [fill_field snd]. clear - Hw Hv2. induction xs as [|x xs IH]; [reflexivity|]. simpl in Hw. apply andb_true_iff in Hw. destruct Hw as [W1 W2].
        apply andb_true_iff in W1. destruct W1 as [W0 W1]. inversion Hv2 as [|? ? Hx Hxs]; subst. cbn [flat_map]. rewrite holes_list_app, (IH W2 Hxs), Nat.add_0_r.
        destruct x as [m k fs|ys|a]; [rewrite holes_contrib; apply Hx, W1|discriminate|reflexivity]. }
      clear - G. induction fs as [|q fs IH]; [reflexivity|]. cbn [map list_sum fold_right]. pose proof (G q (or_introl eq_refl)) as Gq.
      destruct (fill_field q) as [f v]. cbn [snd] in Gq. rewrite Gq. simpl. apply IH. intros r Hr. apply G. right. exact Hr.
    - cbn [fill]. apply no_hole_list. simpl in Hw. rewrite forallb_forall in Hw. rewrite Forall_forall in *. intros x Hx. apply IH; auto.
  Qed.
End NoHole.

Lemma getf_map_fill {M} (hole : tree M -> bool) thing f fs :
  getf f (map (fill_field hole thing) fs) = option_map (fun v => snd (fill_field hole thing (f, v))) (getf f fs).
Proof.
  induction fs as [|[g v] fs IH]; [reflexivity|]. cbn [map getf fill_field]. destruct (String.eqb f g) eqn:E; [|exact IH].
  reflexivity.
Qed.

Lemma is_name_holes_0 {M} tag (t : tree M) : holes (is_name tag) t = 0 -> is_name tag t = false.
Proof. destruct t as [m k fs|l|a]; try reflexivity. cbn [holes]. destruct (is_name tag (Nd m k fs)); [discriminate|reflexivity]. Qed.

Lemma is_name_stable {M} hole tag (thing : tree M) : okval thing = true ->
  forall m k fs, is_name tag (Nd m k fs) = false -> is_name tag (Nd m k (map (fill_field hole thing) fs)) = false.
Proof.
  intros Ht m k fs. unfold is_name, has_str. destruct (String.eqb k "Name"); [|reflexivity]. cbn [andb]. rewrite getf_map_fill.
  destruct (getf "id" fs) as [[m' k' fs'|l|a]|]; cbn [option_map fill_field snd fill]; auto.
  intros _. destruct (hole (Nd m' k' fs')); [destruct thing as [| |[]]; try reflexivity; discriminate|reflexivity].
Qed.

Lemma is_name_stmt_stable {M} hole tag (thing : tree M) : okval thing = true -> is_name tag thing = false ->
  forall m k fs, is_name_stmt tag (Nd m k fs) = false -> is_name_stmt tag (Nd m k (map (fill_field hole thing) fs)) = false.
Proof.
  intros Ht Hn m k fs. unfold is_name_stmt. destruct (String.eqb k "Expr"); [|reflexivity]. cbn [andb]. rewrite getf_map_fill.
  destruct (getf "value" fs) as [[m' k' fs'|l|a]|]; cbn [option_map fill_field snd]; auto.
  intros H. rewrite fill_Nd. destruct (hole (Nd m' k' fs')) eqn:E; [exact Hn|]. apply is_name_stable; assumption.
Qed.

(** *** The model's placeholders are the documented ones *)
Lemma getf_skel {M} f (fs : list (string * tree M)) :
  getf f (map (fun p => (fst p, skel (snd p))) fs) = option_map skel (getf f fs).
Proof. induction fs as [|[g v] fs IH]; [reflexivity|]. cbn [map getf fst snd]. destruct (String.eqb f g); [reflexivity|exact IH]. Qed.
Lemma name_hole_skel {M} tag (t : tree M) : name_hole tag t = is_name tag (skel t).
Proof.
  destruct t as [m k fs|l|a]; try reflexivity. cbn [skel name_hole is_name]. f_equal. unfold str_field, has_str. rewrite getf_skel.
  destruct (getf "id" fs) as [[| |]|]; reflexivity.
Qed.
Lemma stmt_hole_skel {M} tag (t : tree M) : stmt_hole tag t = is_name_stmt tag (skel t).
Proof.
  destruct t as [m k fs|l|a]; try reflexivity. cbn [skel stmt_hole is_name_stmt]. f_equal. rewrite getf_skel.
  destruct (getf "value" fs) as [v|]; [apply name_hole_skel|reflexivity].
Qed.
Lemma name_hole_same {M} tag (t : tree M) : name_hole tag t = is_name tag t.
Proof. destruct t; reflexivity. Qed.
Lemma stmt_hole_same {M} tag (t : tree M) : stmt_hole tag t = is_name_stmt tag t.
Proof. destruct t; reflexivity. Qed.

Lemma wf_skel {M} (t : tree M) : wf (skel t) = wf t.
Proof.
  assert (L : forall l : list (tree M), Forall (fun x => wf (skel x) = wf x) l -> forallb wf (map skel l) = forallb wf l).
  { induction 1 as [|x l Hx Hl IH]; [reflexivity|]. simpl. rewrite Hx, IH. reflexivity. }
  induction t as [m k fs IH|l IH|a] using tree_ind2; [|simpl; apply L, IH|reflexivity].
  cbn [skel wf]. induction IH as [|[f v] fs [Hv1 Hv2] Hfs IH']; [reflexivity|]. cbn [map forallb fst snd] in *. rewrite IH'. f_equal.
  destruct v as [m' k' fs'|xs|a]; [exact Hv1| |reflexivity].
  clear - Hv2. cbn [skel]. induction Hv2 as [|x xs Hx Hxs IH]; [reflexivity|]. cbn [map forallb]. rewrite Hx, IH. destruct x; reflexivity.
Qed.

(** *** Identities *)
Lemma metas_deepcopy {M} (cp : nat -> M -> M) i (t : tree M) : metas (deepcopy cp i t) = map (cp i) (metas t).
Proof.
  induction t as [m k fs IH|l IH|a] using tree_ind'; [| |reflexivity].
  - cbn [deepcopy metas map]. f_equal. induction IH as [|[f v] fs Hv Hfs IH']; [reflexivity|]. cbn [map flat_map snd] in *. rewrite map_app, Hv, IH'. reflexivity.
  - cbn [deepcopy metas]. induction IH as [|v l Hv Hl IH']; [reflexivity|]. cbn [map flat_map]. rewrite map_app, Hv, IH'. reflexivity.
Qed.

Lemma kept_incl {M} hole (t : tree M) : incl (kept hole t) (metas t).
Proof.
  induction t as [m k fs IH|l IH|a] using tree_ind'; [| |intros x []].
  - cbn [kept metas]. destruct (hole (Nd m k fs)); [intros x []|]. intros x [Hx|Hx]; [left; exact Hx|right].
    apply in_flat_map in Hx. destruct Hx as [[f v] [H1 H2]]. apply in_flat_map. exists (f, v). split; [exact H1|]. rewrite Forall_forall in IH. exact (IH _ H1 _ H2).
  - cbn [kept metas]. intros x Hx. apply in_flat_map in Hx. destruct Hx as [v [H1 H2]]. apply in_flat_map. exists v. split; [exact H1|]. rewrite Forall_forall in IH. exact (IH _ H1 _ H2).
Qed.
Lemma NoDup_app_iff {A} (a b : list A) : NoDup (a ++ b) <-> NoDup a /\ NoDup b /\ (forall x, In x a -> ~ In x b).
Proof.
  induction a as [|x a IH]; simpl.
  - split; [intros H; repeat split; [constructor|exact H|tauto]|tauto].
  - rewrite !NoDup_cons_iff, IH, in_app_iff. firstorder (subst; auto).
Qed.
Lemma NoDup_map_in {A B} (f : A -> B) l : (forall a b, In a l -> In b l -> f a = f b -> a = b) -> NoDup l -> NoDup (map f l).
Proof.
  induction l as [|x l IH]; intros Hi Hn; [constructor|]. inversion Hn as [|? ? N1 N2]; subst. cbn [map]. constructor.
  - intros Hx. apply in_map_iff in Hx. destruct Hx as [y [E Hy]]. apply Hi in E; [subst; contradiction|right; exact Hy|left; reflexivity].
  - apply IH; [|exact N2]. intros a b Ha Hb. apply Hi; right; assumption.
Qed.
Lemma NoDup_flat_map_sub {A B} (f g : A -> list B) l :
  (forall x, In x l -> incl (f x) (g x)) -> (forall x, In x l -> NoDup (g x) -> NoDup (f x)) -> NoDup (flat_map g l) -> NoDup (flat_map f l).
Proof.
  induction l as [|x l IH]; intros Hi Hn H; [constructor|]. cbn [flat_map] in *. apply NoDup_app_iff in H. destruct H as [H1 [H2 H3]].
  apply NoDup_app_iff. split; [apply Hn; [left; reflexivity|exact H1]|]. split; [apply IH; auto; intros y Hy; [apply Hi|apply Hn]; right; exact Hy|].
  intros y Hy Hy2. apply (H3 y); [apply (Hi x (or_introl eq_refl)), Hy|]. apply in_flat_map in Hy2. destruct Hy2 as [z [Hz1 Hz2]]. apply in_flat_map. exists z. split; [exact Hz1|].
  apply (Hi z (or_intror Hz1)), Hz2.
Qed.
Lemma kept_NoDup {M} hole (t : tree M) : NoDup (metas t) -> NoDup (kept hole t).
Proof.
  induction t as [m k fs IH|l IH|a] using tree_ind'; intros H; [| |constructor].
  - cbn [kept metas] in *. destruct (hole (Nd m k fs)); [constructor|]. inversion H as [|? ? N1 N2]; subst. constructor.
    + intros Hin. apply N1. apply in_flat_map in Hin. destruct Hin as [[f v] [H1 H2]]. apply in_flat_map. exists (f, v). split; [exact H1|]. exact (kept_incl hole v _ H2).
    + eapply NoDup_flat_map_sub; [| |exact N2]; intros [f v] Hin; [apply kept_incl|]. rewrite Forall_forall in IH. exact (IH _ Hin).
  - cbn [kept metas] in *. eapply NoDup_flat_map_sub; [| |exact H]; intros v Hin; [apply kept_incl|]. rewrite Forall_forall in IH. exact (IH _ Hin).
Qed.

(** New objects: the copies made by one deepcopy are distinct, differ from those made by another and
    from all the objects that existed before. *)
Definition fresh_copies {M} (cp : nat -> M -> M) (old : list M) : Prop :=
  forall i m j m', In m old -> In m' old -> (cp i m = cp j m' -> i = j /\ m = m') /\ cp i m <> m'.

Lemma pastes_NoDup {M} (cp : nat -> M -> M) (thing : tree M) old : fresh_copies cp old -> incl (metas thing) old -> NoDup (metas thing) ->
  forall c n, NoDup (pastes cp thing n c) /\
    (forall x, In x (pastes cp thing n c) -> (n = 0 /\ In x (metas thing)) \/ exists i m, n <= i /\ In m (metas thing) /\ x = cp i m).
Proof.
  intros Hf Hi Hn. induction c as [|c IH]; intros n; [split; [constructor|intros x []]|].
  unfold pastes. cbn [seq flat_map]. fold (pastes cp thing (S n) c). destruct (IH (S n)) as [I1 I2].
  assert (Hp : NoDup (metas (pasted cp thing n)) /\ forall x, In x (metas (pasted cp thing n)) -> (n = 0 /\ In x (metas thing)) \/ exists m, In m (metas thing) /\ x = cp n m).
  { destruct n as [|n]; cbn [pasted]; [split; [exact Hn|intros x Hx; left; auto]|]. rewrite metas_deepcopy. split.
    - apply NoDup_map_in; [|exact Hn]. intros a b Ha Hb E. apply (proj1 (Hf (S n) a (S n) b (Hi _ Ha) (Hi _ Hb)) E).
    - intros x Hx. apply in_map_iff in Hx. destruct Hx as [m [<- Hm]]. right. exists m. auto. }
  destruct Hp as [P1 P2]. split.
  - apply NoDup_app_iff. split; [exact P1|]. split; [exact I1|]. intros x Hx Hy.
    destruct (I2 x Hy) as [[? _]|[i [m [Hi1 [Hm ->]]]]]; [discriminate|].
    destruct (P2 _ Hx) as [[_ Hx2]|[m' [Hm' E]]].
    + apply (proj2 (Hf i m i (cp i m) (Hi _ Hm) (Hi _ Hx2))). reflexivity.
    + apply (proj1 (Hf i m n m' (Hi _ Hm) (Hi _ Hm'))) in E. destruct E. lia.
  - intros x Hx. apply in_app_iff in Hx. destruct Hx as [Hx|Hx].
    + destruct (P2 _ Hx) as [?|[m [Hm ->]]]; [left; assumption|right; exists n, m; auto].
    + destruct (I2 x Hx) as [[? _]|[i [m [Hi1 [Hm ->]]]]]; [discriminate|]. right. exists i, m. split; [lia|auto].
Qed.

Lemma splice_NoDup {M} (cp : nat -> M -> M) hole (thing t : tree M) (t' : tree M) :
  NoDup (metas t ++ metas thing) -> fresh_copies cp (metas t ++ metas thing) ->
  Permutation (metas t') (kept hole t ++ pastes cp thing 0 (holes hole t)) -> NoDup (metas t').
Proof.
  intros H Hf HP. apply (Permutation_NoDup (Permutation_sym HP)). apply NoDup_app_iff in H. destruct H as [H1 [H2 H3]].
  assert (Hi : incl (metas thing) (metas t ++ metas thing)) by (intros x Hx; apply in_app_iff; auto).
  destruct (pastes_NoDup cp thing _ Hf Hi H2 (holes hole t) 0) as [P1 P2].
  apply NoDup_app_iff. split; [apply kept_NoDup, H1|]. split; [exact P1|]. intros x Hx Hy. apply kept_incl in Hx.
  destruct (P2 x Hy) as [[_ Hy2]|[i [m [_ [Hm ->]]]]]; [exact (H3 x Hx Hy2)|].
  apply (proj2 (Hf i m i (cp i m) (Hi _ Hm) (proj2 (in_app_iff _ _ _) (or_introl Hx)))). reflexivity.
Qed.
