From Coq Require Import Permutation.
From Verif Require Import Base AstLib UtilsModel FixLocModel SpliceModel SpliceSpec SpliceProofs.

(** *** Future imports *)
Section Future.
  Context {M : Type}.
  Lemma future_same (t : tree M) : isfutureimport t = future_importb t.
  Proof. destruct t; reflexivity. Qed.
  Lemma future_importb_iff (t : tree M) : future_importb t = true <-> future_import t.
  Proof.
    split.
    - destruct t as [m k fs| |]; try discriminate. cbn [future_importb]. intros H. apply andb_true_iff in H. destruct H as [H1 H2].
      apply String.eqb_eq in H1. unfold has_str in H2. destruct (getf "module" fs) as [[| |[]]|] eqn:E; try discriminate. apply String.eqb_eq in H2. subst.
      exists m, fs. auto.
    - intros [m [fs [-> H]]]. cbn [future_importb]. unfold has_str. rewrite H. reflexivity.
  Qed.

  Lemma future_k_le (b : list (tree M)) : future_k b <= List.length b.
  Proof.
    induction b as [|x [|y r] IH]; [simpl; lia|simpl; lia|]. change (future_k (x :: y :: r)) with (if isfutureimport x then S (future_k (y :: r)) else 0).
    destruct (isfutureimport x); simpl in *; lia.
  Qed.
  Lemma future_k_split (b : list (tree M)) : existsb (fun t => negb (future_importb t)) b = true ->
    firstn (future_k b) b = future_prefix b /\ skipn (future_k b) b = after_futures b.
  Proof.
    induction b as [|x [|y r] IH]; intros H; [discriminate| |].
    - simpl in H. rewrite orb_false_r in H. apply negb_true_iff in H. simpl. rewrite H. auto.
    - change (future_k (x :: y :: r)) with (if isfutureimport x then S (future_k (y :: r)) else 0). rewrite future_same.
      cbn [existsb] in H. cbn [future_prefix after_futures]. destruct (future_importb x) eqn:E; [|auto]. cbn [negb orb] in H.
      destruct (IH H) as [I1 I2]. cbn [firstn skipn]. rewrite I1, I2. auto.
  Qed.
  Lemma after_futures_hd (b : list (tree M)) : existsb (fun t => negb (future_importb t)) b = true ->
    exists x r, after_futures b = x :: r /\ future_importb x = false.
  Proof.
    induction b as [|x r IH]; intros H; [discriminate|]. cbn [after_futures existsb] in *. destruct (future_importb x) eqn:E; [exact (IH H)|].
    exists x, r. auto.
  Qed.

  Lemma docstringb_iff (t : tree M) s : docstringb t = Some s <-> docstring_stmt t s.
  Proof.
    split.
    - destruct t as [m k fs| |]; try discriminate. cbn [docstringb]. destruct (String.eqb k "Expr") eqn:E; [|discriminate]. apply String.eqb_eq in E. subst k.
      destruct (getf "value" fs) as [[m' k' fs'| |]|] eqn:E; try discriminate. destruct (String.eqb k' "Constant") eqn:E2; [|discriminate]. apply String.eqb_eq in E2. subst k'.
      destruct (getf "value" fs') as [[| |[]]|] eqn:E3; try discriminate. intros H. inversion H; subst. exists m, fs, m', fs'. auto.
    - intros [m [fs [m' [fs' [-> [H1 H2]]]]]]. cbn [docstringb]. rewrite H1. simpl. rewrite H2. reflexivity.
  Qed.

  (** What split_futureimports does with the first statement. *)
  Lemma split_spec (b : list (tree M)) d : getdocstring (Ls b) = Ok d ->
    split_futureimports b =
    let c := truthy_value d && negb (match b with [] => true | _ => false end) in
    let doc := if c then firstn 1 b else [] in
    let r := if c then skipn 1 b else b in
    Ok (doc, firstn (future_k r) r, skipn (future_k r) r).
  Proof.
    intros H. unfold split_futureimports. rewrite H. destruct b as [|x r]; [rewrite andb_false_r; reflexivity|].
    cbn [negb andb]. rewrite andb_true_r. destruct (truthy_value d).
    - cbn [firstn skipn]. destruct r; reflexivity.
    - reflexivity.
  Qed.

  Lemma getdocstring_start (b : list (tree M)) : start_ok b = true ->
    exists d, getdocstring (Ls b) = Ok d /\
      truthy_value d && negb (match b with [] => true | _ => false end) = match doc_part b with [] => false | _ => true end.
  Proof.
    destruct b as [|[m k fs| |] r]; try (intros _; exists NoneT; simpl; auto; fail).
    cbn [start_ok getdocstring doc_part docstringb]. destruct (String.eqb k "Expr"); [|intros _; exists NoneT; auto].
    destruct (getf "value" fs) as [[m' k' fs'|l|a]|]; [|intros _; exists NoneT; auto|intros _; exists NoneT; auto|discriminate].
    destruct (String.eqb k' "Constant") eqn:E.
    - destruct (getf "value" fs') as [[| |[]]|]; try discriminate. intros H. eexists. split; [reflexivity|]. cbn [truthy_value truthy_atom]. rewrite H. reflexivity.
    - intros H. apply negb_true_iff in H. rewrite H. exists NoneT. auto.
  Qed.

  Lemma split_layout (b : list (tree M)) : start_ok b = true -> existsb (fun t => negb (future_importb t)) (after_doc b) = true ->
    split_futureimports b = Ok (doc_part b, future_prefix (after_doc b), after_futures (after_doc b)).
  Proof.
    intros Hs Hf. destruct (getdocstring_start b Hs) as [d [E1 E2]]. rewrite (split_spec b d E1). cbv zeta. rewrite E2.
    destruct b as [|x r]; [discriminate|]. cbn [doc_part after_doc] in *. destruct (docstringb x).
    - cbn [firstn skipn]. destruct (future_k_split r Hf) as [-> ->]. reflexivity.
    - destruct (future_k_split (x :: r) Hf) as [-> ->]. reflexivity.
  Qed.
End Future.

(** *** Splicing with copies that keep the metadata *)
Section SameCopy.
  Variable hole : tree loc -> bool.
  Variable thing : tree loc.
  Hypothesis Hthing : okval thing = true.
  Notation splicer := (splicer same_cp hole thing).

  Lemma deepcopy_same i (t : tree loc) : deepcopy same_cp i t = t.
  Proof.
    induction t as [m k fs IH|l IH|a] using tree_ind'; [| |reflexivity].
    - cbn [deepcopy]. unfold same_cp at 1. f_equal. induction IH as [|[f v] fs Hv Hfs IH']; [reflexivity|]. cbn [map snd] in *. rewrite Hv, IH'. reflexivity.
    - cbn [deepcopy]. f_equal. induction IH as [|v l Hv Hl IH']; [reflexivity|]. cbn [map]. rewrite Hv, IH'. reflexivity.
  Qed.

  Lemma fill_okval t : is_node t = true -> okval (fill hole thing t) = true.
  Proof. destruct t as [m k fs| |]; try discriminate. intros _. cbn [fill]. destruct (hole (Nd m k fs)); [exact Hthing|reflexivity]. Qed.

  Definition SG (t : tree loc) : Prop := forall n, splicer t n = Ok (fill hole thing t, n + holes hole t).
  Lemma sgv_list_same l : Forall (fun x => is_list x = false /\ (is_node x = true -> SG x)) l -> forall n,
    sgv_list splicer l n = Ok (flat_map (fun x => match x with Nd _ _ _ => contrib (fill hole thing x) | _ => [x] end) l, n + holes hole (Ls l)).
  Proof.
    induction 1 as [|x l [H1 H2] Hl IH]; intros n; [cbn; rewrite Nat.add_0_r; reflexivity|]. cbn [sgv_list flat_map]. destruct x as [m k fs|xs|a]; [|discriminate|].
    - rewrite (H2 eq_refl n), IH. change (holes hole (Ls (Nd m k fs :: l))) with (holes hole (Nd m k fs) + holes hole (Ls l)). rewrite Nat.add_assoc.
      pose proof (fill_okval (Nd m k fs) eq_refl) as Hf. destruct (fill hole thing (Nd m k fs)); try discriminate; reflexivity.
    - rewrite IH. reflexivity.
  Qed.
  Lemma sgv_fields_same fs : Forall (fun p : string * tree loc => match snd p with
                                       | Nd _ _ _ => SG (snd p)
                                       | Ls l => Forall (fun x => is_list x = false /\ (is_node x = true -> SG x)) l
                                       | At _ => True end) fs -> forall n,
    sgv_fields splicer fs n = Ok (map (fill_field hole thing) fs, n + list_sum (map (fun p : string * tree loc => let (_, v) := p in holes hole v) fs)).
  Proof.
    induction 1 as [|[f v] fs Hv Hfs IH]; intros n; [cbn; rewrite Nat.add_0_r; reflexivity|]. cbn [snd] in Hv. cbn [sgv_fields].
    change (list_sum (map (fun p : string * tree loc => let (_, v) := p in holes hole v) ((f, v) :: fs))) with (holes hole v + list_sum (map (fun p : string * tree loc => let (_, v) := p in holes hole v) fs)).
    rewrite Nat.add_assoc. destruct v as [m k gs|xs|a].
    - rewrite (Hv n), IH. pose proof (fill_okval (Nd m k gs) eq_refl) as Hf. cbn [map fill_field]. destruct (fill hole thing (Nd m k gs)); try discriminate; reflexivity.
    - rewrite (sgv_list_same xs Hv n), IH. reflexivity.
    - rewrite IH. cbn [holes]. rewrite Nat.add_0_r. reflexivity.
  Qed.
  Lemma splicer_same_node t : wf t = true -> is_node t = true -> SG t.
  Proof.
    induction t as [m k fs IH|l IH|a] using tree_ind2; intros Hw Hn n; try discriminate.
    cbn [SpliceModel.splicer holes]. rewrite fill_Nd. destruct (hole (Nd m k fs)).
    - rewrite Nat.add_1_r. destruct n; rewrite ?deepcopy_same; reflexivity.
    - rewrite sgv_fields_same; [reflexivity|]. apply Forall_forall. intros [f v] Hin. rewrite Forall_forall in IH. destruct (IH _ Hin) as [Hv1 Hv2]. cbn [snd] in *.
        pose proof (wf_field _ _ _ _ _ Hw Hin) as Hwv. destruct v as [m' k' fs'|xs|a]; [apply Hv1; auto| |exact I].
        simpl in Hw. rewrite forallb_forall in Hw. specialize (Hw _ Hin). simpl in Hw. rewrite forallb_forall in Hw.
        rewrite Forall_forall in Hv2. apply Forall_forall. intros x Hx. specialize (Hw x Hx). apply andb_true_iff in Hw. destruct Hw as [W1 W2].
        apply negb_true_iff in W1. split; [exact W1|]. intros Hxn. apply Hv2; assumption.
  Qed.
  Lemma splicer_same l : forallb wf l = true -> forallb is_node l = true -> exists n, splicer (Ls l) 0 = Ok (fill hole thing (Ls l), n).
  Proof.
    intros Hw Hn. cbn [SpliceModel.splicer].
    assert (E : forall n, exists l' n', svisit_elts splicer l n = Ok (l', n') /\ Forall (fun t => okval t = true) l' /\ flat_map contrib l' = flat_map (fun x => contrib (fill hole thing x)) l).
    { induction l as [|x l IH]; intros n; [exists [], n; auto|]. simpl in Hw, Hn. apply andb_true_iff in Hw, Hn. destruct Hw as [W1 W2], Hn as [N1 N2].
      cbn [svisit_elts]. rewrite (splicer_same_node x W1 N1 n). destruct (IH W2 N2 (n + holes hole x)) as [l' [n' [-> [E2 E3]]]].
      exists (fill hole thing x :: l'), n'. split; [reflexivity|]. split; [constructor; [apply fill_okval, N1|exact E2]|]. cbn [flat_map]. rewrite E3. reflexivity. }
    destruct (E 0) as [l' [n' [-> [E2 E3]]]]. exists n'. rewrite flatten_ok, E3 by exact E2. reflexivity.
  Qed.
End SameCopy.

(** *** Extraction of imports *)
Section ExtractProof.
  Context {M : Type}.
  Variable magic : string.
  Notation p := (magic_import magic).
  Notation extractor := (@extractor M magic).

  Lemma ismacroimport_ok (t : tree M) : import_ok t = true -> is_node t = true -> ismacroimport magic t = Ok (p t).
  Proof.
    destruct t as [m k fs| |]; try discriminate. intros H _. cbn [import_ok ismacroimport magic_import] in *. destruct (String.eqb k "ImportFrom"); [|reflexivity].
    cbn [negb orb andb] in *. destruct (getf "names" fs) as [[|[|[m' a afs| |] r]|]|]; try discriminate.
    apply andb_true_iff in H. destruct H as [_ H]. unfold has_str. destruct (getf "name" afs) as [[| |x]|]; try discriminate. destruct x; reflexivity.
  Qed.

  Definition EG (t : tree M) : Prop := forall c,
    extractor t c = Ok (if p t then NoneT else without p t, c ++ outermost p t).
  Lemma sgv_list_ex l : Forall (fun x => is_list x = false /\ (is_node x = true -> EG x)) l -> forall c,
    sgv_list extractor l c = Ok (flat_map (fun x => match x with Nd _ _ _ => if p x then [] else [without p x] | _ => [x] end) l, c ++ flat_map (outermost p) l).
  Proof.
    induction 1 as [|x l [H1 H2] Hl IH]; intros c; [cbn; rewrite app_nil_r; reflexivity|]. cbn [sgv_list flat_map]. destruct x as [m k fs|xs|a]; [|discriminate|].
    - rewrite (H2 eq_refl c), IH, <- app_assoc. destruct (p (Nd m k fs)); reflexivity.
    - rewrite IH. reflexivity.
  Qed.
  Lemma sgv_fields_ex fs : Forall (fun q : string * tree M => match snd q with
                                       | Nd _ _ _ => EG (snd q)
                                       | Ls l => Forall (fun x => is_list x = false /\ (is_node x = true -> EG x)) l
                                       | At _ => True end) fs -> forall c,
    sgv_fields extractor fs c = Ok (flat_map (fun q : string * tree M => let (f, v) := q in
                  match v with
                  | Nd _ _ _ => if p v then [] else [(f, without p v)]
                  | Ls l => [(f, Ls (flat_map (fun x => match x with Nd _ _ _ => if p x then [] else [without p x] | _ => [x] end) l))]
                  | At _ => [(f, v)]
                  end) fs, c ++ flat_map (fun q : string * tree M => let (_, v) := q in outermost p v) fs).
  Proof.
    induction 1 as [|[f v] fs Hv Hfs IH]; intros c; [cbn; rewrite app_nil_r; reflexivity|]. cbn [snd] in Hv. cbn [sgv_fields flat_map]. destruct v as [m k gs|xs|a].
    - rewrite (Hv c), IH, <- app_assoc. destruct (p (Nd m k gs)); reflexivity.
    - rewrite (sgv_list_ex xs Hv c), IH, <- app_assoc. reflexivity.
    - rewrite IH. reflexivity.
  Qed.

  Lemma preorder_In_self (t : tree M) : is_node t = true -> In t (preorder t).
  Proof. destruct t; try discriminate. left. reflexivity. Qed.

  Lemma imports_ok_field m k fs f v : imports_ok (Nd m k fs : tree M) = true -> In (f, v) fs -> imports_ok v = true.
  Proof.
    unfold imports_ok. intros H Hin. cbn [preorder forallb] in H. apply andb_true_iff in H. destruct H as [_ H]. rewrite forallb_forall in *.
    intros x Hx. apply H. apply in_flat_map. exists (f, v). auto.
  Qed.
  Lemma imports_ok_elt l (v : tree M) : imports_ok (Ls l) = true -> In v l -> imports_ok v = true.
  Proof. unfold imports_ok. intros H Hin. cbn [preorder] in H. rewrite forallb_forall in *. intros x Hx. apply H. apply in_flat_map. exists v. auto. Qed.
  Lemma imports_ok_self (t : tree M) : imports_ok t = true -> is_node t = true -> import_ok t = true.
  Proof. unfold imports_ok. intros H Hn. rewrite forallb_forall in H. apply H, preorder_In_self, Hn. Qed.

  Lemma extractor_node (t : tree M) : wf t = true -> imports_ok t = true -> is_node t = true -> EG t.
  Proof.
    induction t as [m k fs IH|l IH|a] using tree_ind2; intros Hw Hi Hn c; try discriminate.
    cbn [SpliceModel.extractor]. rewrite (ismacroimport_ok _ (imports_ok_self _ Hi Hn) Hn). cbn [outermost without]. destruct (p (Nd m k fs)); [reflexivity|].
    rewrite sgv_fields_ex; [reflexivity|]. apply Forall_forall. intros [f v] Hin. rewrite Forall_forall in IH. destruct (IH _ Hin) as [Hv1 Hv2]. cbn [snd] in *.
    pose proof (wf_field _ _ _ _ _ Hw Hin) as Hwv. pose proof (imports_ok_field _ _ _ _ _ Hi Hin) as Hiv.
    destruct v as [m' k' fs'|xs|a]; [apply Hv1; auto| |exact I].
    simpl in Hw. rewrite forallb_forall in Hw. specialize (Hw _ Hin). simpl in Hw. rewrite forallb_forall in Hw.
    rewrite Forall_forall in Hv2. apply Forall_forall. intros x Hx. specialize (Hw x Hx). apply andb_true_iff in Hw. destruct Hw as [W1 W2].
    apply negb_true_iff in W1. split; [exact W1|]. intros Hxn. apply Hv2; auto. exact (imports_ok_elt xs x Hiv Hx).
  Qed.

  Lemma extract_ok (l : list (tree M)) : forallb wf l = true -> forallb is_node l = true -> forallb imports_ok l = true ->
    extract_macroimports magic l = Ok (without_list p l, magic_imports magic l).
  Proof.
    intros Hw Hn Hi. unfold extract_macroimports. cbn [SpliceModel.extractor].
    assert (E : forall c, svisit_elts extractor l c = Ok (map (fun x => if p x then NoneT else without p x) l, c ++ flat_map (outermost p) l)).
    { induction l as [|x l IH]; intros c; [cbn; rewrite app_nil_r; reflexivity|]. simpl in Hw, Hn, Hi. apply andb_true_iff in Hw, Hn, Hi.
      destruct Hw as [W1 W2], Hn as [N1 N2], Hi as [I1 I2]. cbn [svisit_elts flat_map map]. rewrite (extractor_node x W1 I1 N1 c), (IH W2 N2 I2), <- app_assoc. reflexivity. }
    rewrite E. f_equal. f_equal. unfold without_list. clear - Hn.
    assert (G : forall out, fold_left flatten_acc (map (fun x => if p x then NoneT else without p x) l) out = out ++ flat_map (fun x => if p x then [] else [without p x]) l).
    { induction l as [|x l IH]; intros out; [symmetry; apply app_nil_r|]. simpl in Hn. apply andb_true_iff in Hn. destruct Hn as [N1 N2].
      cbn [map fold_left flat_map]. rewrite (IH N2). destruct (p x); [reflexivity|]. destruct x; try discriminate. cbn [without flatten_acc]. rewrite <- app_assoc. reflexivity. }
    exact (G []).
  Qed.

  (** What is left is again well-formed. *)
  Lemma without_wf (t : tree M) : wf t = true -> wf (without p t) = true.
  Proof.
    induction t as [m k fs IH|l IH|a] using tree_ind2; intros Hw; [|exact Hw|reflexivity].
    cbn [without wf]. apply forallb_forall. intros [f v] Hin. apply in_flat_map in Hin. destruct Hin as [[g w] [Hin Hv]].
    rewrite Forall_forall in IH. destruct (IH _ Hin) as [Hv1 Hv2]. cbn [snd] in *. pose proof (wf_field _ _ _ _ _ Hw Hin) as Hwv.
    destruct w as [m' k' fs'|xs|a].
    - destruct (p (Nd m' k' fs')); [destruct Hv|]. destruct Hv as [Hv|[]]. inversion Hv; subst. exact (Hv1 Hwv).
    - destruct Hv as [Hv|[]]. inversion Hv; subst. apply forallb_forall. intros x Hx. apply in_flat_map in Hx. destruct Hx as [y [Hy Hxy]].
      simpl in Hw. rewrite forallb_forall in Hw. specialize (Hw _ Hin). simpl in Hw. rewrite forallb_forall in Hw. specialize (Hw y Hy).
      rewrite Forall_forall in Hv2. apply andb_true_iff in Hw. destruct Hw as [W1 W2]. destruct y as [m' k' fs'|ys|a].
      + destruct (p (Nd m' k' fs')); [destruct Hxy|]. destruct Hxy as [Hxy|[]]. subst x. cbn [is_list negb andb without]. exact (Hv2 _ Hy W2).
      + discriminate.
      + destruct Hxy as [Hxy|[]]. subst. reflexivity.
    - destruct Hv as [Hv|[]]. inversion Hv; subst. reflexivity.
  Qed.

  Lemma without_import_ok m k fs : import_ok (Nd m k fs : tree M) = true -> import_ok (without p (Nd m k fs)) = true.
  Proof.
    cbn [without import_ok]. destruct (String.eqb k "ImportFrom"); [|reflexivity]. cbn [negb orb].
    set (g := fun q : string * tree M => let (f, v) := q in match v with
                  | Nd _ _ _ => if p v then [] else [(f, without p v)]
                  | Ls l => [(f, Ls (flat_map (fun x => match x with Nd _ _ _ => if p x then [] else [without p x] | _ => [x] end) l))]
                  | At _ => [(f, v)] end).
    assert (G1 : forall f fs l, getf f fs = Some (Ls l) -> getf f (flat_map g fs) = Some (Ls (flat_map (fun x => match x with Nd _ _ _ => if p x then [] else [without p x] | _ => [x] end) l))).
    { clear. intros f. induction fs as [|[f' v] fs IH]; intros l H; [discriminate|]. cbn [getf flat_map] in *. destruct (String.eqb f f') eqn:E.
      - inversion H; subst. cbn [g app getf]. rewrite E. reflexivity.
      - destruct v as [m k gs|xs|a]; cbn [g]; [destruct (p (Nd m k gs))|..]; cbn [app getf]; rewrite ?E; apply IH; exact H. }
    assert (G2 : forall f fs a, getf f fs = Some (At a) -> getf f (flat_map g fs) = Some (At a)).
    { clear. intros f. induction fs as [|[f' v] fs IH]; intros l H; [discriminate|]. cbn [getf flat_map] in *. destruct (String.eqb f f') eqn:E.
      - inversion H; subst. cbn [g app getf]. rewrite E. reflexivity.
      - destruct v as [m k gs|xs|a]; cbn [g]; [destruct (p (Nd m k gs))|..]; cbn [app getf]; rewrite ?E; apply IH; exact H. }
    destruct (getf "names" fs) as [[|[|[m' a afs| |] r]|]|] eqn:E; try discriminate.
    intros H. apply andb_true_iff in H. destruct H as [H1 H2]. rewrite (G1 _ _ _ E). cbn [flat_map].
    assert (Ep : p (Nd m' a afs) = false). { apply String.eqb_eq in H1. subst a. reflexivity. }
    rewrite Ep. cbn [app without]. fold g. rewrite H1. cbn [andb]. destruct (getf "name" afs) as [[| |x]|] eqn:E2; try discriminate.
    rewrite (G2 _ _ _ E2). reflexivity.
  Qed.

  Lemma without_imports_ok (t : tree M) : imports_ok t = true -> imports_ok (without p t) = true.
  Proof.
    induction t as [m k fs IH|l IH|a] using tree_ind2; intros Hi; [|exact Hi|reflexivity].
    pose proof (imports_ok_self _ Hi eq_refl) as Hs. apply without_import_ok in Hs.
    unfold imports_ok. cbn [without preorder forallb]. cbn [without] in Hs. rewrite Hs. cbn [andb]. apply forallb_forall. intros x Hx.
    apply in_flat_map in Hx. destruct Hx as [[f v] [Hin Hx]]. cbn [snd] in Hx.
    apply in_flat_map in Hin. destruct Hin as [[g w] [Hin Hv]].
    rewrite Forall_forall in IH. destruct (IH _ Hin) as [Hv1 Hv2]. cbn [snd] in *. pose proof (imports_ok_field _ _ _ _ _ Hi Hin) as Hwv.
    assert (U : forall t : tree M, imports_ok t = true -> In x (preorder t) -> import_ok x = true).
    { intros t0 H0 Hx0. unfold imports_ok in H0. rewrite forallb_forall in H0. auto. }
    destruct w as [m' k' fs'|xs|a].
    - destruct (p (Nd m' k' fs')); [destruct Hv|]. destruct Hv as [Hv|[]]. inversion Hv; subst. exact (U _ (Hv1 Hwv) Hx).
    - destruct Hv as [Hv|[]]. inversion Hv; subst. cbn [preorder] in Hx. apply in_flat_map in Hx. destruct Hx as [z [Hz Hx]].
      apply in_flat_map in Hz. destruct Hz as [y [Hy Hxy]]. pose proof (imports_ok_elt _ _ Hwv Hy) as Hiy. rewrite Forall_forall in Hv2. destruct y as [m' k' fs'|ys|a].
      + destruct (p (Nd m' k' fs')); [destruct Hxy|]. destruct Hxy as [Hxy|[]]. subst z. exact (U _ (Hv2 _ Hy Hiy) Hx).
      + destruct Hxy as [Hxy|[]]. subst z. exact (U _ Hiy Hx).
      + destruct Hxy as [Hxy|[]]. subst. destruct Hx.
    - destruct Hv as [Hv|[]]. inversion Hv; subst. destruct Hx.
  Qed.

  Lemma without_node (t : tree M) : is_node (without p t) = is_node t.
  Proof. destruct t; reflexivity. Qed.
  Lemma without_list_ok (l : list (tree M)) : forallb wf l = true -> forallb is_node l = true -> forallb imports_ok l = true ->
    forallb wf (without_list p l) = true /\ forallb is_node (without_list p l) = true /\ forallb imports_ok (without_list p l) = true.
  Proof.
    induction l as [|x l IH]; intros Hw Hn Hi; [auto|]. simpl in Hw, Hn, Hi. apply andb_true_iff in Hw, Hn, Hi.
    destruct Hw as [W1 W2], Hn as [N1 N2], Hi as [I1 I2]. destruct (IH W2 N2 I2) as [A [B C]]. unfold without_list in *. cbn [flat_map].
    destruct (p x); [auto|]. cbn [app forallb]. rewrite A, B, C, without_wf, without_node, N1, without_imports_ok by assumption. auto.
  Qed.
End ExtractProof.

(** *** __all__ *)
Lemma ismagicall_same {M} (t : tree M) : ismagicall t = all_assignment t.
Proof. destruct t as [m k fs| |]; try reflexivity. Qed.
Lemma extract_all_ok {M} (l : list (tree M)) : forallb is_node l = true ->
  extract_magic_all l = (filter (fun x => negb (all_assignment x)) l, filter all_assignment l).
Proof.
  intros Hn. unfold extract_magic_all. f_equal.
  assert (G : forall out, fold_left flatten_acc (map (fun x => if ismagicall x then NoneT else x) l) out = out ++ filter (fun x => negb (all_assignment x)) l).
  { induction l as [|x l IH]; intros out; [symmetry; apply app_nil_r|]. simpl in Hn. apply andb_true_iff in Hn. destruct Hn as [N1 N2].
    cbn [map fold_left filter]. rewrite (IH N2), ismagicall_same. destruct (all_assignment x); [reflexivity|]. destruct x; try discriminate. cbn [flatten_acc negb]. rewrite <- app_assoc. reflexivity. }
  exact (G []).
Qed.

Lemma forallb_incl {A} (f : A -> bool) (a b : list A) : incl a b -> forallb f b = true -> forallb f a = true.
Proof. intros Hi H. rewrite forallb_forall in *. auto. Qed.
Lemma after_doc_incl {M} (l : list (tree M)) : incl (after_doc l) l.
Proof. destruct l as [|x r]; [intros y []|]. cbn [after_doc]. destruct (docstringb x); intros y Hy; [right; exact Hy|exact Hy]. Qed.
Lemma after_futures_incl {M} (l : list (tree M)) : incl (after_futures l) l.
Proof.
  induction l as [|x r IH]; [intros y []|]. cbn [after_futures]. destruct (future_importb x); intros y Hy; [right; apply IH, Hy|exact Hy].
Qed.
