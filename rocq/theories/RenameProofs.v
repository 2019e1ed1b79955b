From Verif Require Import Base AstLib UtilsModel UtilsSpec UtilsProofs MarkersModel MarkersSpec RenameModel RenameSpec.

Lemma map_ext_id {A} (f : A -> A) l : (forall x, In x l -> f x = x) -> map f l = l.
Proof.
  induction l as [|x l IH]; intros H; [reflexivity|]. simpl.
  rewrite (H x (or_introl eq_refl)), IH; [reflexivity|]. intros y Hy; apply H; right; exact Hy.
Qed.

Section Map.
  Context {M : Type}.
  Variable ps : list (string * string).
  Notation mn := (map_names ps : (string -> string) -> tree M -> tree M).

  Lemma map_str_atom g (x : tree M) : is_node x = true \/ is_list x = true -> map_str g x = x.
  Proof. destruct x; simpl; intros [H|H]; try discriminate; reflexivity. Qed.

  Lemma str_of_map g (x : tree M) : str_of (map_str g (mn g x)) = map g (str_of x).
  Proof. destruct x as [m k fs|l|[]]; reflexivity. Qed.

  Lemma names_in_map_str g (x : tree M) : names_in ps (map_str g x) = names_in ps x.
  Proof. destruct x as [m k fs|l|[]]; reflexivity. Qed.

  Lemma names_in_mn g (t : tree M) : names_in ps (mn g t) = map g (names_in ps t).
  Proof.
    induction t as [m k fs IH|l IH|a] using tree_ind2.
    - cbn [map_names names_in]. induction IH as [|[f v] fs [IHv IHl] IHr IHf]; [reflexivity|].
      cbn [map flat_map snd] in *. rewrite IHf, map_app. f_equal.
      rewrite map_app.
      destruct (pos_mem ps k f); [|simpl; exact IHv].
      destruct v as [m' k' fs'|l|a].
      + rewrite <- IHv. reflexivity.
      + f_equal.
        * clear. induction l as [|x l IH]; [reflexivity|]. simpl. rewrite IH, map_app.
          f_equal. apply str_of_map.
        * cbn [names_in]. clear - IHl. induction IHl as [|x l Hx Hl IH]; [reflexivity|].
          simpl. rewrite IH, map_app, names_in_map_str, Hx. reflexivity.
      + destruct a; reflexivity.
    - cbn [map_names names_in]. induction IH as [|x l Hx Hl IH]; [reflexivity|]. simpl.
      rewrite IH, Hx, map_app. reflexivity.
    - reflexivity.
  Qed.

  Lemma mn_ext_id g (t : tree M) : (forall s, In s (names_in ps t) -> g s = s) -> mn g t = t.
  Proof.
    induction t as [m k fs IH|l IH|a] using tree_ind2; intros H.
    - cbn [map_names]. f_equal. apply map_ext_id. intros [f v] Hin. f_equal.
      rewrite Forall_forall in IH. destruct (IH _ Hin) as [IHv IHl]. cbn [snd] in *.
      assert (Hv : forall s, In s ((if pos_mem ps k f
                     then match v with Ls l => flat_map str_of l | _ => str_of v end
                     else []) ++ names_in ps v) -> g s = s).
      { intros s Hs. apply H. cbn [names_in]. apply in_flat_map. exists (f, v). split; [exact Hin|exact Hs]. }
      assert (Ev : mn g v = v) by (apply IHv; intros s Hs; apply Hv; apply in_or_app; right; exact Hs).
      destruct (pos_mem ps k f); [|exact Ev].
      destruct v as [m' k' fs'|l|a].
      + rewrite Ev. reflexivity.
      + f_equal. apply map_ext_id. intros x Hx.
        rewrite Forall_forall in IHl. rewrite IHl; [|exact Hx|].
        * destruct x as [?|?|[]]; try reflexivity. simpl. rewrite Hv; [reflexivity|].
          apply in_or_app; left. apply in_flat_map. exists (At (AStr s)). split; [exact Hx|left; reflexivity].
        * intros s Hs. apply Hv. apply in_or_app; right. cbn [names_in]. apply in_flat_map. exists x; auto.
      + rewrite Ev. destruct a; try reflexivity. simpl. rewrite Hv; [reflexivity|].
        apply in_or_app; left; left; reflexivity.
    - cbn [map_names]. f_equal. apply map_ext_id. intros x Hx.
      rewrite Forall_forall in IH. apply IH; [exact Hx|]. intros s Hs. apply H.
      cbn [names_in]. apply in_flat_map. exists x; auto.
    - reflexivity.
  Qed.

  Lemma map_str_comp g h (x : tree M) : map_str g (map_str h x) = map_str (fun s => g (h s)) x.
  Proof. destruct x as [?|?|[]]; reflexivity. Qed.
  Lemma mn_map_str g h (x : tree M) : mn g (map_str h x) = map_str h (mn g x).
  Proof. destruct x as [?|?|[]]; reflexivity. Qed.

  Lemma mn_comp g h (t : tree M) : mn g (mn h t) = mn (fun s => g (h s)) t.
  Proof.
    induction t as [m k fs IH|l IH|a] using tree_ind2.
    - cbn [map_names]. f_equal. rewrite map_map. apply map_ext_in. intros [f v] Hin.
      rewrite Forall_forall in IH. destruct (IH _ Hin) as [IHv IHl]. cbn [snd] in *. f_equal.
      destruct (pos_mem ps k f); [|exact IHv].
      destruct v as [m' k' fs'|l|a].
      + change (map_str g (mn g (mn h (Nd m' k' fs'))) = map_str (fun s => g (h s)) (mn (fun s => g (h s)) (Nd m' k' fs'))).
        rewrite IHv. reflexivity.
      + f_equal. rewrite map_map. apply map_ext_in. intros x Hx. rewrite Forall_forall in IHl.
        rewrite mn_map_str, map_str_comp, IHl by exact Hx. reflexivity.
      + destruct a; reflexivity.
    - cbn [map_names]. f_equal. rewrite map_map. apply map_ext_in. rewrite Forall_forall in IH. exact IH.
    - reflexivity.
  Qed.
End Map.

Section Shape.
  Context {M : Type}.
  Implicit Types (fs : list (string * tree M)).

  Lemma count1_setf f (v : tree M) fs f' :
    List.length (filter (fun p : string * tree M => String.eqb f (fst p)) fs) = 1 ->
    List.length (filter (fun p => String.eqb f' (fst p)) (setf f v fs))
    = List.length (filter (fun p : string * tree M => String.eqb f' (fst p)) fs).
  Proof.
    induction fs as [|[g w] fs IH]; simpl; [discriminate|]. intros H.
    destruct (String.eqb f g) eqn:E; simpl.
    - destruct (String.eqb f' g); reflexivity.
    - specialize (IH H). destruct (String.eqb f' g); simpl; rewrite IH; reflexivity.
  Qed.

  Lemma filter_nil_eqb f fs : List.length (filter (fun p : string * tree M => String.eqb f (fst p)) fs) = 0 ->
    forall g (w : tree M), In (g, w) fs -> String.eqb f g = false.
  Proof.
    induction fs as [|[g' w'] fs IH]; intros H g w Hin; [destruct Hin|]. simpl in H.
    destruct (String.eqb f g') eqn:E; [discriminate|].
    destruct Hin as [Hin|Hin]; [inversion Hin; subst; exact E|]. eapply IH; eassumption.
  Qed.

  Lemma setf_map f (h : tree M -> tree M) fs v :
    List.length (filter (fun p : string * tree M => String.eqb f (fst p)) fs) = 1 ->
    getf f fs = Some v ->
    setf f (h v) fs = map (fun p : string * tree M => let (g, w) := p in (g, if String.eqb f g then h w else w)) fs.
  Proof.
    induction fs as [|[g w] fs IH]; simpl; [discriminate|]. intros H Hg.
    destruct (String.eqb f g) eqn:E.
    - inversion Hg; subst w. f_equal. simpl in H. injection H as H.
      symmetry. apply map_ext_id. intros [g' w'] Hin. rewrite (filter_nil_eqb f fs H g' w' Hin). reflexivity.
    - rewrite (IH H Hg). reflexivity.
  Qed.

  Lemma getf_count1 f fs : List.length (filter (fun p : string * tree M => String.eqb f (fst p)) fs) = 1 ->
    exists v, getf f fs = Some v.
  Proof.
    induction fs as [|[g w] fs IH]; simpl; [discriminate|]. destruct (String.eqb f g); intros H.
    - exists w; reflexivity.
    - apply IH, H.
  Qed.

  Lemma keys_map f (h : string -> tree M -> tree M) fs :
    List.length (filter (fun p => String.eqb f (fst p)) (map (fun p : string * tree M => let (g, w) := p in (g, h g w)) fs))
    = List.length (filter (fun p : string * tree M => String.eqb f (fst p)) fs).
  Proof.
    induction fs as [|[g w] fs IH]; [reflexivity|]. simpl. destruct (String.eqb f g); simpl; rewrite IH; reflexivity.
  Qed.
End Shape.

Section RenameP.
  Context {M : Type}.
  Variable o n : string.
  Definition sub (s : string) : string := if String.eqb s o then n else s.

  Lemma rn_value_sub (v : tree M) : rn_value o n v = map_str sub v.
  Proof. destruct v as [?|?|[]]; try reflexivity. simpl. unfold sub. destruct (String.eqb s o); reflexivity. Qed.

  Definition edit (k f : string) (v : tree M) : tree M :=
    if pos_mem name_positions k f
    then match v with Ls l => Ls (map (map_str sub) l) | _ => map_str sub v end
    else v.

  Definition counts_ok (k : string) (fs : list (string * tree M)) : Prop :=
    forall f, In f (fields_required k) -> List.length (filter (fun p : string * tree M => String.eqb f (fst p)) fs) = 1.
  Definition values_ok (k : string) (fs : list (string * tree M)) : Prop :=
    forall f v, In (f, v) fs -> pos_mem name_positions k f = true ->
      if is_names_list k then is_list v = true else is_list v = false.

  Lemma rn_field_map f fs :
    List.length (filter (fun p : string * tree M => String.eqb f (fst p)) fs) = 1 ->
    rn_field o n f fs = Ok (map (fun p : string * tree M => let (g, w) := p in (g, if String.eqb f g then map_str sub w else w)) fs).
  Proof.
    intros H. unfold rn_field. destruct (getf_count1 f fs H) as [v Hv]. rewrite Hv.
    f_equal. rewrite rn_value_sub. apply (setf_map f (map_str sub)); assumption.
  Qed.

  Lemma rn_names_map fs :
    List.length (filter (fun p : string * tree M => String.eqb "names" (fst p)) fs) = 1 ->
    (forall v, In ("names"%string, v) fs -> is_list v = true) ->
    rn_names o n fs = Ok (map (fun p : string * tree M => let (g, w) := p in
        (g, if String.eqb "names" g then match w with Ls l => Ls (map (map_str sub) l) | _ => map_str sub w end else w)) fs).
  Proof.
    intros H Hv. unfold rn_names. destruct (getf_count1 "names" fs H) as [v Hg]. rewrite Hg.
    pose proof (Hv v (getf_In _ _ _ Hg)) as Hl. destruct v as [?|l|?]; try discriminate.
    f_equal.
    replace (map (rn_value o n) l) with (map (map_str sub) l)
      by (apply map_ext; intros x; symmetry; apply rn_value_sub).
    apply (setf_map "names" (fun w => match w with Ls l => Ls (map (map_str sub) l) | _ => map_str sub w end) fs (Ls l) H Hg).
  Qed.

  Lemma rn_field_edit k f fs :
    is_names_list k = false ->
    counts_ok k fs -> values_ok k fs -> In f (fields_required k) ->
    (forall g, pos_mem name_positions k g = String.eqb f g) ->
    rn_field o n f fs = Ok (map (fun p : string * tree M => let (g, v) := p in (g, edit k g v)) fs).
  Proof.
    intros Hk Hc Hv Hf Hp. rewrite rn_field_map by (apply Hc; exact Hf). f_equal.
    apply map_ext_in. intros [g w] Hin. f_equal. unfold edit. specialize (Hv g w Hin). rewrite Hp in *.
    destruct (String.eqb f g); [|reflexivity]. specialize (Hv eq_refl). rewrite Hk in Hv.
    destruct w; [reflexivity|discriminate|reflexivity].
  Qed.

  Ltac kcase k s :=
    let E := fresh "E" in destruct (String.eqb k s) eqn:E;
    [apply String.eqb_eq in E; subst k|].

  Lemma eqb_sym_if (f g : string) : (String.eqb g f || false) = String.eqb f g.
  Proof. rewrite orb_false_r. apply String.eqb_sym. Qed.

  Lemma rn_edit_map k fs :
    counts_ok k fs -> values_ok k fs ->
    rn_edit o n k fs = Ok (map (fun p : string * tree M => let (g, v) := p in (g, edit k g v)) fs).
  Proof.
    intros Hc Hv. unfold rn_edit, one_of, smem. cbn [existsb]. rewrite !orb_false_r.
    kcase k "Name"%string.
    { apply (rn_field_edit "Name" "id"); auto; [left; reflexivity|intros g; cbv; apply eqb_sym_if]. }
    kcase k "Attribute"%string.
    { apply (rn_field_edit "Attribute" "attr"); auto; [left; reflexivity|intros g; cbv; apply eqb_sym_if]. }
    kcase k "FunctionDef"%string.
    { apply (rn_field_edit "FunctionDef" "name"); auto; [left; reflexivity|intros g; cbv; apply eqb_sym_if]. }
    kcase k "AsyncFunctionDef"%string.
    { apply (rn_field_edit "AsyncFunctionDef" "name"); auto; [left; reflexivity|intros g; cbv; apply eqb_sym_if]. }
    kcase k "ClassDef"%string.
    { apply (rn_field_edit "ClassDef" "name"); auto; [left; reflexivity|intros g; cbv; apply eqb_sym_if]. }
    cbn [orb].
    kcase k "arg"%string.
    { apply (rn_field_edit "arg" "arg"); auto; [left; reflexivity|intros g; cbv; apply eqb_sym_if]. }
    kcase k "keyword"%string.
    { apply (rn_field_edit "keyword" "arg"); auto; [left; reflexivity|intros g; cbv; apply eqb_sym_if]. }
    kcase k "ImportFrom"%string.
    { apply (rn_field_edit "ImportFrom" "module"); auto; [left; reflexivity|intros g; cbv; apply eqb_sym_if]. }
    kcase k "alias"%string.
    { rewrite rn_field_map by (apply Hc; left; reflexivity).
      rewrite rn_field_map.
      - f_equal. rewrite map_map. apply map_ext_in. intros [g w] Hin. f_equal. unfold edit.
        specialize (Hv g w Hin).
        replace (pos_mem name_positions "alias" g) with (String.eqb "name" g || String.eqb "asname" g) in *
          by (rewrite (String.eqb_sym "name" g), (String.eqb_sym "asname" g); cbv -[String.eqb orb];
              rewrite orb_false_r; reflexivity).
        destruct (String.eqb "asname" g) eqn:Ea.
        + apply String.eqb_eq in Ea; subst g. cbn. specialize (Hv eq_refl). cbn in Hv.
          destruct w; [reflexivity|discriminate|reflexivity].
        + destruct (String.eqb "name" g) eqn:En; [|reflexivity]. cbn [orb] in *.
          specialize (Hv eq_refl). cbn in Hv. destruct w; [reflexivity|discriminate|reflexivity].
      - rewrite (keys_map "asname" (fun g w => if String.eqb "name" g then map_str sub w else w)).
        apply Hc. right; left; reflexivity. }
    kcase k "ExceptHandler"%string.
    { apply (rn_field_edit "ExceptHandler" "name"); auto; [left; reflexivity|intros g; cbv; apply eqb_sym_if]. }
    assert (N : forall k', is_names_list k' = true -> counts_ok k' fs -> values_ok k' fs ->
                In "names"%string (fields_required k') ->
                (forall g, pos_mem name_positions k' g = String.eqb "names" g) ->
                rn_names o n fs = Ok (map (fun p : string * tree M => let (g, v) := p in (g, edit k' g v)) fs)).
    { intros k' Hk' Hc' Hv' Hin' Hp'. rewrite rn_names_map.
      - f_equal. apply map_ext. intros [g w]. f_equal. unfold edit. rewrite Hp'. reflexivity.
      - apply Hc'. exact Hin'.
      - intros v Hin. specialize (Hv' _ _ Hin). rewrite Hp', Hk' in Hv'. apply Hv'. reflexivity. }
    kcase k "Global"%string.
    { apply N; auto; [left; reflexivity|intros g; cbv; apply eqb_sym_if]. }
    kcase k "Nonlocal"%string.
    { apply N; auto; [left; reflexivity|intros g; cbv; apply eqb_sym_if]. }
    cbn [orb].
    kcase k "MatchAs"%string.
    { apply (rn_field_edit "MatchAs" "name"); auto; [left; reflexivity|intros g; cbv; apply eqb_sym_if]. }
    kcase k "MatchStar"%string.
    { apply (rn_field_edit "MatchStar" "name"); auto; [left; reflexivity|intros g; cbv; apply eqb_sym_if]. }
    cbn [orb]. f_equal. symmetry. apply map_ext_id. intros [g w] _. f_equal. unfold edit.
    assert (P : pos_mem name_positions k g = false).
    { unfold pos_mem, name_positions. cbn [existsb fst snd].
      repeat match goal with H : String.eqb k _ = false |- _ => rewrite H; clear H end. reflexivity. }
    rewrite P. reflexivity.
  Qed.

  Lemma shaped_counts (m : M) k fs : shaped (Nd m k fs) = true -> counts_ok k fs.
  Proof.
    intros H f Hf. cbn [shaped] in H. apply andb_true_iff in H. destruct H as [H _].
    rewrite forallb_forall in H. apply Nat.eqb_eq. apply H. exact Hf.
  Qed.
  Lemma shaped_values (m : M) k fs : shaped (Nd m k fs) = true -> values_ok k fs.
  Proof.
    intros H f v Hin Hp. cbn [shaped] in H. apply andb_true_iff in H. destruct H as [_ H].
    rewrite forallb_forall in H. specialize (H _ Hin). cbv beta iota in H. rewrite Hp in H.
    apply andb_true_iff in H. destruct H as [H _].
    destruct (is_names_list k); destruct v as [?|?|[]]; try discriminate; reflexivity.
  Qed.
  Lemma shaped_field (m : M) k fs f v : shaped (Nd m k fs) = true -> In (f, v) fs -> shaped v = true.
  Proof.
    intros H Hin. cbn [shaped] in H. apply andb_true_iff in H. destruct H as [_ H].
    rewrite forallb_forall in H. specialize (H _ Hin). cbv beta iota in H. apply andb_true_iff in H. tauto.
  Qed.

  Notation mn := (map_names name_positions sub).

  Lemma rename_node (t : tree M) : wf t = true -> shaped t = true -> is_node t = true ->
    rename o n t = Ok (mn t).
  Proof.
    induction t as [m k fs IH|l IH|a] using tree_ind2; intros Hw Hs Hn; try discriminate.
    pose proof (shaped_counts _ _ _ Hs) as Hc. pose proof (shaped_values _ _ _ Hs) as Hv.
    cbn [rename]. rewrite (rn_edit_map k fs Hc Hv).
    assert (G : gv_fields (rename o n) fs = Ok (map (fun p : string * tree M => let (f, v) := p in (f, mn v)) fs)).
    { assert (Hs' : forall f v, In (f, v) fs -> shaped v = true) by (intros f v Hi; exact (shaped_field m k fs f v Hs Hi)).
      clear Hs Hn Hc Hv. simpl in Hw. induction fs as [|[f v] fs IHf]; [reflexivity|].
      inversion IH as [|? ? [IHv IHl] IHr]; subst. cbn [snd forallb] in *.
      apply andb_true_iff in Hw. destruct Hw as [Hw1 Hw2].
      pose proof (Hs' f v (or_introl eq_refl)) as Hsv.
      cbn [gv_fields map]. rewrite (IHf IHr Hw2) by (intros f' v' H; apply (Hs' f'); right; exact H).
      destruct v as [m' k' fs'|l|a].
      - rewrite (IHv Hw1 Hsv eq_refl). reflexivity.
      - assert (L : gv_list (rename o n) l = Ok (map mn l)).
        { simpl in Hsv. clear - IHl Hw1 Hsv. induction IHl as [|x l Hx Hl IH]; [reflexivity|].
          cbn [forallb] in *. apply andb_true_iff in Hw1, Hsv. destruct Hw1 as [Hw1 Hw2], Hsv as [Hs1 Hs2].
          apply andb_true_iff in Hw1. destruct Hw1 as [Hnl Hw1].
          cbn [gv_list map]. rewrite (IH Hw2 Hs2). destruct x as [m' k' fs'|?|?].
          - rewrite (Hx Hw1 Hs1 eq_refl). reflexivity.
          - discriminate.
          - reflexivity. }
        rewrite L. reflexivity.
      - reflexivity. }
    rewrite G. rewrite rn_edit_map.
    - cbn [map_names]. f_equal. f_equal. rewrite map_map. apply map_ext_in. intros [f v] Hin. f_equal.
      unfold edit. destruct (pos_mem name_positions k f) eqn:Ep; [|reflexivity].
      destruct v as [?|l|?]; [reflexivity| |reflexivity]. cbn [map_names]. rewrite map_map. reflexivity.
    - intros f Hf. rewrite (keys_map f (fun _ => mn)). apply Hc; exact Hf.
    - intros f v Hin Hp. apply in_map_iff in Hin. destruct Hin as [[f' v'] [E Hin]]. inversion E; subst.
      specialize (Hv f v' Hin Hp). destruct (is_names_list k); destruct v'; try discriminate; reflexivity.
  Qed.

  Lemma rename_list (l : list (tree M)) :
    wf (Ls l) = true -> shaped (Ls l) = true -> forallb is_node l = true ->
    rename o n (Ls l) = Ok (Ls (map mn l)).
  Proof.
    intros Hw Hs Hn. cbn [rename]. unfold visit_list.
    assert (V : visit_elts (rename o n) l = Ok (map mn l)).
    { simpl in Hw, Hs. induction l as [|x l IH]; [reflexivity|]. cbn [forallb] in *.
      apply andb_true_iff in Hw, Hs, Hn. destruct Hw as [Hw1 Hw2], Hs as [Hs1 Hs2], Hn as [Hn1 Hn2].
      cbn [visit_elts map]. rewrite (rename_node x Hw1 Hs1 Hn1), (IH Hw2 Hs2 Hn2). reflexivity. }
    rewrite V, flatten_fixed; [reflexivity|]. apply Forall_forall. intros x Hx.
    apply in_map_iff in Hx. destruct Hx as [y [E Hy]]. subst x.
    rewrite forallb_forall in Hn. specialize (Hn y Hy). destruct y; try discriminate; auto.
  Qed.
End RenameP.

(** Renaming keeps the shape, so that it can be repeated. *)
Section KeepShape.
  Context {M : Type}.
  Variable g : string -> string.
  Notation mn := (map_names name_positions g : tree M -> tree M).

  Lemma is_node_map_str (x : tree M) : is_node (map_str g x) = is_node x.
  Proof. destruct x as [?|?|[]]; reflexivity. Qed.
  Lemma is_list_map_str (x : tree M) : is_list (map_str g x) = is_list x.
  Proof. destruct x as [?|?|[]]; reflexivity. Qed.
  Lemma is_list_mn (x : tree M) : is_list (mn x) = is_list x.
  Proof. destruct x; reflexivity. Qed.
  Lemma is_node_mn (x : tree M) : is_node (mn x) = is_node x.
  Proof. destruct x; reflexivity. Qed.
  Lemma wf_map_str (x : tree M) : wf (map_str g x) = wf x.
  Proof. destruct x as [?|?|[]]; reflexivity. Qed.
  Lemma shaped_map_str (x : tree M) : shaped (map_str g x) = shaped x.
  Proof. destruct x as [?|?|[]]; reflexivity. Qed.
  Lemma str_value_map_str (x : tree M) : str_value (map_str g x) = str_value x.
  Proof. destruct x as [?|?|[]]; reflexivity. Qed.
  Lemma ident_value_map_str (x : tree M) : ident_value (map_str g x) = ident_value x.
  Proof. destruct x as [?|?|[]]; reflexivity. Qed.
  Lemma str_value_mn (x : tree M) : str_value (mn x) = str_value x.
  Proof. destruct x as [?|?|[]]; reflexivity. Qed.
  Lemma ident_value_mn (x : tree M) : ident_value (mn x) = ident_value x.
  Proof. destruct x as [?|?|[]]; reflexivity. Qed.

  Lemma forallb_map {A B} (p : B -> bool) (h : A -> B) l : forallb p (map h l) = forallb (fun x => p (h x)) l.
  Proof. induction l as [|x l IH]; [reflexivity|]. simpl. rewrite IH. reflexivity. Qed.
  Lemma forallb_ext_in {A} (p q : A -> bool) l : (forall x, In x l -> p x = q x) -> forallb p l = forallb q l.
  Proof.
    induction l as [|x l IH]; intros H; [reflexivity|]. simpl. rewrite (H x (or_introl eq_refl)), IH; [reflexivity|].
    intros y Hy; apply H; right; exact Hy.
  Qed.

  Lemma wf_mn (t : tree M) : wf (mn t) = wf t.
  Proof.
    induction t as [m k fs IH|l IH|a] using tree_ind2; [| |reflexivity].
    - cbn [map_names wf]. rewrite forallb_map. apply forallb_ext_in. intros [f v] Hin.
      rewrite Forall_forall in IH. destruct (IH _ Hin) as [IHv IHl]. cbn [snd] in *.
      assert (L : forall l, v = Ls l -> forall b,
        forallb (fun x => negb (is_list x) && wf x) (map (fun x => if b : bool then map_str g (mn x) else mn x) l)
        = forallb (fun x => negb (is_list x) && wf x) l).
      { intros l E b. subst v. rewrite forallb_map. apply forallb_ext_in. intros x Hx.
        rewrite Forall_forall in IHl. destruct b.
        - rewrite is_list_map_str, is_list_mn, wf_map_str, IHl by exact Hx. reflexivity.
        - rewrite is_list_mn, IHl by exact Hx. reflexivity. }
      destruct (pos_mem name_positions k f).
      + destruct v as [m' k' fs'|l|[]]; try reflexivity.
        * exact IHv.
        * apply (L l eq_refl true).
      + destruct v as [m' k' fs'|l|a].
        * exact IHv.
        * apply (L l eq_refl false).
        * reflexivity.
    - cbn [map_names wf]. rewrite forallb_map. apply forallb_ext_in. rewrite Forall_forall in IH. exact IH.
  Qed.

  Lemma shaped_mn (t : tree M) : shaped (mn t) = shaped t.
  Proof.
    induction t as [m k fs IH|l IH|a] using tree_ind2; [| |reflexivity].
    - cbn [map_names shaped]. f_equal.
      + apply forallb_ext_in. intros f _. f_equal.
        rewrite (keys_map f (fun f v => if pos_mem name_positions k f
                           then match v with
                                | Ls l => Ls (map (fun x => map_str g (mn x)) l)
                                | _ => map_str g (mn v)
                                end
                           else mn v)). reflexivity.
      + rewrite forallb_map. apply forallb_ext_in. intros [f v] Hin.
        rewrite Forall_forall in IH. destruct (IH _ Hin) as [IHv IHl]. cbn [snd] in *.
        destruct (pos_mem name_positions k f); [|rewrite IHv; reflexivity].
        destruct v as [m' k' fs'|l|a].
        * change (map_str g (mn (Nd m' k' fs'))) with (mn (Nd m' k' fs')). rewrite IHv.
          destruct (is_names_list k); reflexivity.
        * f_equal; [destruct (is_names_list k)|].
          -- rewrite forallb_map. apply forallb_ext_in. intros x Hx.
             rewrite str_value_map_str, str_value_mn. reflexivity.
          -- reflexivity.
          -- cbn [shaped]. rewrite forallb_map. apply forallb_ext_in. intros x Hx.
             rewrite Forall_forall in IHl. rewrite shaped_map_str, IHl by exact Hx. reflexivity.
        * destruct a; destruct (is_names_list k); reflexivity.
    - cbn [map_names shaped]. rewrite forallb_map. apply forallb_ext_in. rewrite Forall_forall in IH. exact IH.
  Qed.
End KeepShape.
