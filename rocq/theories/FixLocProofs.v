From Verif Require Import Base AstLib FixLocModel FixLocSpec.

Section Proofs.
  Variable has_attr : string -> string -> bool.
  Variable md : mode.
  Notation fixn := (fix_node has_attr md).

  Lemma skel_fix t : forall l c el ec, skel (fixn t l c el ec) = skel t.
  Proof.
    induction t as [m k fs IH|xs IH|a] using tree_ind2; intros l c el ec; [|reflexivity|reflexivity].
    cbn [fix_node]. destruct (fix_line has_attr md k m l el) as [m1 [l' el']].
    destruct (fix_col has_attr md k m1 c ec) as [m2 [c' ec']]. cbn [skel]. f_equal.
    induction IH as [|[f v] fs [IHv IHl] IHr IHf]; [reflexivity|]. cbn [map fst snd].
    rewrite IHf. f_equal. f_equal. cbn [snd] in *. destruct v as [m' k' fs'|xs|a].
    - apply IHv.
    - cbn [skel]. f_equal. clear - IHl. induction IHl as [|x xs Hx Hl IH]; [reflexivity|].
      cbn [map]. rewrite IH. f_equal. destruct x; [apply Hx|reflexivity|reflexivity].
    - reflexivity.
  Qed.

  Lemma is_node_fix t l c el ec : is_node (fixn t l c el ec) = is_node t.
  Proof.
    destruct t as [m k fs|xs|a]; [|reflexivity|reflexivity]. cbn [fix_node].
    destruct (fix_line has_attr md k m l el) as [m1 [l' el']].
    destruct (fix_col has_attr md k m1 c ec) as [m2 [c' ec']]. reflexivity.
  Qed.

  Lemma children_fix m k fs l c el ec m1 l' el' m2 c' ec' :
    fix_line has_attr md k m l el = (m1, (l', el')) ->
    fix_col has_attr md k m1 c ec = (m2, (c', ec')) ->
    iter_child_nodes (fixn (Nd m k fs) l c el ec)
    = map (fun x => fixn x l' c' el' ec') (iter_child_nodes (Nd m k fs)).
  Proof.
    intros H1 H2. cbn [fix_node]. rewrite H1, H2. cbn [iter_child_nodes].
    induction fs as [|[f v] fs IH]; [reflexivity|]. cbn [map flat_map snd].
    rewrite IH, map_app. f_equal. destruct v as [m' k' fs'|xs|a].
    - unfold field_nodes at 2. cbn [map].
      pose proof (is_node_fix (Nd m' k' fs') l' c' el' ec') as E.
      destruct (fixn (Nd m' k' fs') l' c' el' ec'); simpl in E; try discriminate. reflexivity.
    - cbn [field_nodes]. unfold list_nodes. induction xs as [|x xs IHx]; [reflexivity|].
      cbn [map filter]. destruct x as [m' k' fs'|?|?]; [|exact IHx|exact IHx].
      cbn [is_node]. rewrite is_node_fix. cbn [is_node map]. rewrite IHx. reflexivity.
    - reflexivity.
  Qed.

  Definition lsrc (ref : loc) (above : list seen) : loc :=
    match md with MUpdate => line_source has_attr above ref | _ => ref end.
  Definition csrc (ref : loc) (above : list seen) : loc :=
    match md with MUpdate => col_source has_attr above ref | _ => ref end.

  Lemma eta_loc m : mkLoc (ln m) (co m) (eln m) (eco m) = m.
  Proof. destruct m; reflexivity. Qed.

  Lemma fix_line_spec ref above m k l el :
    ln (lsrc ref above) = Some l -> eln (lsrc ref above) = el ->
    exists m1 l' el',
      fix_line has_attr md k m l el = (m1, (l', el')) /\
      ln (lsrc ref ((m, k) :: above)) = Some l' /\ eln (lsrc ref ((m, k) :: above)) = el' /\
      m1 = (if has_attr k "lineno" && (is_overwrite md || negb (own_line has_attr (m, k)))
            then copy_line has_attr k (lsrc ref above) m else m).
  Proof.
    intros Hl Hel. unfold fix_line, lsrc, line_source, own_line, copy_line, update_lineno in *.
    cbn [find fst snd] in *. unfold own_line in *. cbn [fst snd].
    destruct (has_attr k "lineno"); cbn [andb].
    - destruct md; cbn [is_overwrite is_update orb]; destruct (ln m) eqn:E; cbn [negb];
        do 3 eexists; (split; [reflexivity|]); repeat split; try assumption; try reflexivity;
        rewrite ?Hl, ?Hel; try reflexivity.
    - do 3 eexists; (split; [reflexivity|]). repeat split; destruct md; assumption.
  Qed.

  Lemma fix_col_spec ref above m m1 k c ec :
    co m1 = co m -> eco m1 = eco m ->
    co (csrc ref above) = Some c -> eco (csrc ref above) = ec ->
    exists m2 c' ec',
      fix_col has_attr md k m1 c ec = (m2, (c', ec')) /\
      co (csrc ref ((m, k) :: above)) = Some c' /\ eco (csrc ref ((m, k) :: above)) = ec' /\
      m2 = (if has_attr k "col_offset" && (is_overwrite md || negb (own_col has_attr (m, k)))
            then copy_col has_attr k (csrc ref above) m1 else m1).
  Proof.
    intros Hc He Hl Hel. unfold fix_col, csrc, col_source, own_col, copy_col, update_col_offset in *.
    cbn [find fst snd] in *. unfold own_col in *. cbn [fst snd]. rewrite Hc, He.
    destruct (has_attr k "col_offset"); cbn [andb].
    - destruct md; cbn [is_overwrite is_update orb]; destruct (co m) eqn:E; cbn [negb];
        do 3 eexists; (split; [reflexivity|]); repeat split; try assumption; try reflexivity;
        rewrite ?Hl, ?Hel, ?He; try reflexivity.
    - do 3 eexists; (split; [reflexivity|]). repeat split; destruct md; assumption.
  Qed.

  Lemma copy_line_col k s m : co (copy_line has_attr k s m) = co m /\ eco (copy_line has_attr k s m) = eco m.
  Proof. split; reflexivity. Qed.

  Lemma fix_node_at ref path : forall t above l c el ec m k fs ab,
    ln (lsrc ref above) = Some l -> eln (lsrc ref above) = el ->
    co (csrc ref above) = Some c -> eco (csrc ref above) = ec ->
    node_above t path above = Some (Nd m k fs, ab) ->
    exists fs', node_at (fixn t l c el ec) path = Some (Nd (want has_attr md ref ab (m, k)) k fs').
  Proof.
    induction path as [|i path IH]; intros t above l c el ec m k fs ab Hl Hel Hc Hec Hp;
      destruct t as [m0 k0 fs0|xs|a]; try discriminate;
      destruct (fix_line_spec ref above m0 k0 l el Hl Hel) as [m1 [l' [el' [F1 [F2 [F3 F4]]]]]];
      assert (Hm1 : co m1 = co m0 /\ eco m1 = eco m0)
        by (rewrite F4; destruct (has_attr k0 "lineno" && _); auto);
      destruct (fix_col_spec ref above m0 m1 k0 c ec (proj1 Hm1) (proj2 Hm1) Hc Hec)
        as [m2 [c' [ec' [G1 [G2 [G3 G4]]]]]].
    - cbn [node_above] in Hp. inversion Hp; subst m0 k0 fs0 ab. clear Hp.
      cbn [fix_node]. rewrite F1, G1. cbn [node_at is_node]. eexists.
      rewrite G4, F4. reflexivity.
    - cbn [node_above] in Hp. cbn [node_at].
      rewrite (children_fix m0 k0 fs0 l c el ec m1 l' el' m2 c' ec' F1 G1).
      rewrite nth_error_map.
      destruct (nth_error (iter_child_nodes (Nd m0 k0 fs0)) i) as [ch|] eqn:E; [|discriminate].
      cbn [option_map]. eapply (IH ch); eassumption.
  Qed.

  Lemma fix_top_list ref xs l c el ec :
    ln ref = Some l -> co ref = Some c -> eln ref = el -> eco ref = ec ->
    forall ys, fix_locations has_attr md (Ls xs) ref = Ok ys ->
    exists xs', ys = Ls xs' /\ Forall2 (fun x x' => fix_locations has_attr md x ref = Ok x') xs xs'.
  Proof.
    intros Hl Hc Hel Hec ys H. unfold fix_locations in *. rewrite Hl, Hc in *. cbn [fix_top] in H.
    match type of H with match ?q with _ => _ end = _ => destruct q as [xs'|?] eqn:E; [|discriminate] end.
    inversion H; subst ys. exists xs'. split; [reflexivity|]. clear H.
    revert xs' E. induction xs as [|x xs IH]; intros xs' E.
    - inversion E; constructor.
    - destruct (fix_top has_attr md x l c (eln ref) (eco ref)) as [x'|e] eqn:Ex; [|discriminate].
      match type of E with match ?q with _ => _ end = _ => destruct q as [r'|?] eqn:Er; [|discriminate] end.
      inversion E; subst. constructor; [exact Ex|apply IH; reflexivity].
  Qed.

  Lemma fix_top_list_ok ref xs :
    forallb (fun x => is_node x || is_none x) xs = true ->
    exists ys, fix_locations has_attr md (Ls xs) ref = Ok ys.
  Proof.
    intros H. unfold fix_locations. destruct (ln ref) as [l|]; [|eexists; reflexivity].
    destruct (co ref) as [c|]; [|eexists; reflexivity]. cbn [fix_top].
    match goal with |- exists ys, match ?e with _ => _ end = _ =>
      assert (E : exists zs, e = Ok zs) end.
    { induction xs as [|x xs IH]; [eexists; reflexivity|]. simpl in H. apply andb_true_iff in H.
      destruct H as [H1 H2]. destruct (IH H2) as [zs Hz].
      destruct x as [m k fs|sub|[]]; simpl in H1; try discriminate; cbn [fix_top]; rewrite Hz;
        eexists; reflexivity. }
    destruct E as [zs E]. rewrite E. eexists; reflexivity.
  Qed.
End Proofs.
