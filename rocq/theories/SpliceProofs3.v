From Coq Require Import Permutation.
From Verif Require Import Base AstLib UtilsModel FixLocModel SpliceModel SpliceSpec SpliceProofs SpliceProofs2.

(** *** The predicates look at the structure only *)
Section SkelFacts.
  Context {M : Type}.
  Lemma has_str_skel f s (fs : list (string * tree M)) : has_str f s (map (fun p => (fst p, skel (snd p))) fs) = has_str f s fs.
  Proof. unfold has_str. rewrite getf_skel. destruct (getf f fs) as [[| |]|]; reflexivity. Qed.
  Lemma is_node_skel (t : tree M) : is_node (skel t) = is_node t.
  Proof. destruct t; reflexivity. Qed.
  Lemma future_skel (t : tree M) : future_importb (skel t) = future_importb t.
  Proof. destruct t as [m k fs| |]; try reflexivity. cbn [skel future_importb]. rewrite has_str_skel. reflexivity. Qed.
  Lemma docstring_skel (t : tree M) : docstringb (skel t) = docstringb t.
  Proof.
    destruct t as [m k fs| |]; try reflexivity. cbn [skel docstringb]. rewrite getf_skel. destruct (String.eqb k "Expr"); [|reflexivity].
    destruct (getf "value" fs) as [[m' k' fs'| |]|]; try reflexivity. cbn [option_map skel]. rewrite getf_skel. destruct (getf "value" fs') as [[| |]|]; reflexivity.
  Qed.
  Lemma start_ok_skel (l : list (tree M)) : start_ok (map skel l) = start_ok l.
  Proof.
    destruct l as [|[m k fs| |] r]; try reflexivity. cbn [map skel start_ok]. rewrite getf_skel. destruct (String.eqb k "Expr"); [|reflexivity].
    destruct (getf "value" fs) as [[m' k' fs'| |]|]; try reflexivity. cbn [option_map skel]. rewrite getf_skel. destruct (getf "value" fs') as [[| |]|]; reflexivity.
  Qed.
  Lemma import_ok_skel (t : tree M) : import_ok (skel t) = import_ok t.
  Proof.
    destruct t as [m k fs| |]; try reflexivity. cbn [skel import_ok]. rewrite getf_skel. f_equal.
    destruct (getf "names" fs) as [[|[|[m' k' fs'| |] r]|]|]; try reflexivity. cbn [option_map skel map]. rewrite getf_skel. destruct (getf "name" fs') as [[| |]|]; reflexivity.
  Qed.
  Lemma preorder_skel (t : tree M) : preorder (skel t) = map skel (preorder t).
  Proof.
    induction t as [m k fs IH|l IH|a] using tree_ind'; [| |reflexivity].
    - cbn [skel preorder map]. f_equal. induction IH as [|[f v] fs Hv Hfs IH']; [reflexivity|]. cbn [map flat_map fst snd] in *. rewrite map_app, Hv, IH'. reflexivity.
    - cbn [skel preorder]. induction IH as [|v l Hv Hl IH']; [reflexivity|]. cbn [map flat_map]. rewrite map_app, Hv, IH'. reflexivity.
  Qed.
  Lemma imports_ok_skel (t : tree M) : imports_ok (skel t) = imports_ok t.
  Proof.
    unfold imports_ok. rewrite preorder_skel. generalize (preorder t). intros l. induction l as [|x l IH]; [reflexivity|]. cbn [map forallb]. rewrite import_ok_skel, IH. reflexivity.
  Qed.
  Lemma forallb_skel (q : tree M -> bool) (q' : tree unit -> bool) : (forall t, q' (skel t) = q t) -> forall l, forallb q' (map skel l) = forallb q l.
  Proof. intros H. induction l as [|x l IH]; [reflexivity|]. cbn [map forallb]. rewrite H, IH. reflexivity. Qed.
  Lemma after_doc_skel (l : list (tree M)) : after_doc (map skel l) = map skel (after_doc l).
  Proof. destruct l as [|x r]; [reflexivity|]. cbn [map after_doc]. rewrite docstring_skel. destruct (docstringb x); reflexivity. Qed.
  Lemma doc_part_skel (l : list (tree M)) : doc_part (map skel l) = map skel (doc_part l).
  Proof. destruct l as [|x r]; [reflexivity|]. cbn [map doc_part]. rewrite docstring_skel. destruct (docstringb x); reflexivity. Qed.
  Lemma existsb_future_skel (l : list (tree M)) :
    existsb (fun t => negb (future_importb t)) (map skel l) = existsb (fun t => negb (future_importb t)) l.
  Proof. induction l as [|x l IH]; [reflexivity|]. cbn [map existsb]. rewrite future_skel, IH. reflexivity. Qed.
End SkelFacts.

(** *** Locations *)
Section Locations.
  Variable has_attr : string -> string -> bool.

  Lemma fix_node_skel t : forall l c el ec, skel (fix_node has_attr MOverwrite t l c el ec) = skel t.
  Proof.
    induction t as [m k fs IH|xs IH|a] using tree_ind2; intros l c el ec; try reflexivity.
    cbn [fix_node]. destruct (fix_line has_attr MOverwrite k m l el) as [m1 [l' el']]. destruct (fix_col has_attr MOverwrite k m1 c ec) as [m2 [c' ec']].
    cbn [skel]. f_equal. rewrite map_map. apply map_ext_in. intros [f v] Hin. cbn [fst snd]. f_equal. rewrite Forall_forall in IH. destruct (IH _ Hin) as [Hv1 Hv2]. cbn [snd] in *.
    destruct v as [m' k' fs'|ys|a]; [apply Hv1| |reflexivity]. cbn [skel]. f_equal. rewrite map_map. apply map_ext_in. intros y Hy. rewrite Forall_forall in Hv2.
    destruct y; [apply Hv2, Hy|reflexivity|reflexivity].
  Qed.

  (** All nodes that can carry a location get the one given. *)
  Lemma fix_node_loc t l c el ec : wf t = true -> forall m k fs, In (Nd m k fs) (preorder (fix_node has_attr MOverwrite t l c el ec)) ->
    is_node t = true ->
    (has_attr k "lineno" = true -> ln m = Some l) /\ (has_attr k "col_offset" = true -> co m = Some c).
  Proof.
    induction t as [m k fs IH|xs IH|a] using tree_ind2; intros Hw m0 k0 fs0 Hin Hn; try discriminate.
    cbn [fix_node] in Hin.
    assert (EL : exists m1, fix_line has_attr MOverwrite k m l el = (m1, (l, el)) /\ (has_attr k "lineno" = true -> ln m1 = Some l)).
    { unfold fix_line. destruct (has_attr k "lineno"); cbn [is_overwrite]; eexists; split; try reflexivity. discriminate. }
    destruct EL as [m1 [EL1 EL2]]. rewrite EL1 in Hin.
    assert (EC : exists m2, fix_col has_attr MOverwrite k m1 c ec = (m2, (c, ec)) /\ ln m2 = ln m1 /\ (has_attr k "col_offset" = true -> co m2 = Some c)).
    { unfold fix_col. destruct (has_attr k "col_offset"); cbn [is_overwrite]; eexists; split; try reflexivity; split; try reflexivity. discriminate. }
    destruct EC as [m2 [EC1 [EC2 EC3]]]. rewrite EC1 in Hin. cbn [preorder] in Hin. destruct Hin as [Hin|Hin].
    - inversion Hin; subst. rewrite EC2. auto.
    - apply in_flat_map in Hin. destruct Hin as [[f v] [H1 H2]]. apply in_map_iff in H1. destruct H1 as [[g w] [E H1]]. inversion E; subst f v. cbn [snd] in H2.
      rewrite Forall_forall in IH. destruct (IH _ H1) as [Hv1 Hv2]. cbn [snd] in *. pose proof (wf_field _ _ _ _ _ Hw H1) as Hwv.
      destruct w as [m' k' fs'|ys|a]; [exact (Hv1 Hwv _ _ _ H2 eq_refl)| |destruct H2].
      cbn [preorder] in H2. apply in_flat_map in H2. destruct H2 as [z [Hz1 Hz2]]. apply in_map_iff in Hz1. destruct Hz1 as [y [Ey Hy]].
      simpl in Hw. rewrite forallb_forall in Hw. specialize (Hw _ H1). simpl in Hw. rewrite forallb_forall in Hw. specialize (Hw y Hy).
      apply andb_true_iff in Hw. destruct Hw as [W1 W2]. rewrite Forall_forall in Hv2. destruct y as [m' k' fs'|zs|a].
      + subst z. exact (Hv2 _ Hy W2 _ _ _ Hz2 eq_refl).
      + discriminate.
      + subst z. destruct Hz2.
  Qed.

  Definition located (ref : loc) (t : tree loc) : Prop :=
    match ln ref, co ref with
    | Some l, Some c => forall m k fs, In (Nd m k fs) (preorder t) ->
        (has_attr k "lineno" = true -> ln m = Some l) /\ (has_attr k "col_offset" = true -> co m = Some c)
    | _, _ => True
    end.

  Lemma fix_stmts_ok ref l : forallb is_node l = true -> forallb wf l = true ->
    exists l', fix_stmts has_attr ref l = Ok l' /\ map skel l' = map skel l /\ Forall (located ref) l'.
  Proof.
    unfold fix_stmts. induction l as [|x l IH]; intros Hn Hw; [exists []; auto|]. simpl in Hn, Hw. apply andb_true_iff in Hn, Hw. destruct Hn as [N1 N2], Hw as [W1 W2].
    destruct (IH N2 W2) as [l' [E1 [E2 E3]]].
    assert (X : exists x', fix_locations has_attr MOverwrite x ref = Ok x' /\ skel x' = skel x /\ located ref x').
    { unfold fix_locations, located. destruct (ln ref) as [n|]; [destruct (co ref) as [c|]|]; [|exists x; auto|exists x; auto].
      destruct x as [m k fs| |]; try discriminate. eexists. split; [reflexivity|]. split; [apply fix_node_skel|].
      intros m' k' fs' Hin. exact (fix_node_loc _ n c (eln ref) (eco ref) W1 m' k' fs' Hin eq_refl). }
    destruct X as [x' [X1 [X2 X3]]]. rewrite X1, E1. exists (x' :: l'). cbn [map]. rewrite X2, E2. auto.
  Qed.
End Locations.

(** *** splice_dialect *)
Section Dialect.
  Variable has_attr : string -> string -> bool.
  Definition good_module (l : list (tree loc)) : Prop :=
    forallb is_node l = true /\ forallb wf l = true /\ forallb imports_ok l = true /\
    start_ok l = true /\ existsb (fun t => negb (future_importb t)) (after_doc l) = true.

  Lemma good_skel l l' : map skel l' = map skel l -> good_module l -> good_module l'.
  Proof.
    intros E [A [B [C [D F]]]]. unfold good_module.
    rewrite <- (forallb_skel is_node is_node is_node_skel), E, (forallb_skel is_node is_node is_node_skel).
    rewrite <- (forallb_skel wf wf wf_skel), E, (forallb_skel wf wf wf_skel).
    rewrite <- (forallb_skel imports_ok imports_ok imports_ok_skel), E, (forallb_skel imports_ok imports_ok imports_ok_skel).
    rewrite <- start_ok_skel, E, start_ok_skel.
    rewrite <- existsb_future_skel, <- after_doc_skel, E, after_doc_skel, existsb_future_skel. auto.
  Qed.

  (** The statements below the future-imports, without [__all__]. *)
  Definition rest_of (l : list (tree loc)) : list (tree loc) :=
    filter (fun x => negb (all_assignment x)) (after_futures (after_doc l)).
  Definition no_dia (l : list (tree loc)) := without_list (magic_import "dialects") (rest_of l).
  Definition core_of (l : list (tree loc)) := without_list (magic_import "macros") (no_dia l).

  Lemma rest_ok l : good_module l -> forallb wf (rest_of l) = true /\ forallb is_node (rest_of l) = true /\ forallb imports_ok (rest_of l) = true.
  Proof.
    intros [A [B [C _]]].
    assert (I : incl (rest_of l) l).
    { intros x Hx. unfold rest_of in Hx. apply filter_In in Hx. destruct Hx as [Hx _]. apply after_doc_incl, after_futures_incl, Hx. }
    repeat split; eapply forallb_incl; eauto.
  Qed.
  Lemma af_nodes l : good_module l -> forallb is_node (after_futures (after_doc l)) = true.
  Proof. intros [A _]. eapply forallb_incl; [|exact A]. intros x Hx. apply after_doc_incl, after_futures_incl, Hx. Qed.

  (** What is put in place of the two docstrings: the docstring there is; or, if there are two, a constant with the two
      texts, with a rule of 79 dashes between them, at the place of the user's docstring. *)
  Definition doc_rule : string :=
    string_of_list_ascii (Ascii.ascii_of_nat 10 :: repeat "-"%char 79 ++ [Ascii.ascii_of_nat 10]).
  Definition joined_docs (u t : list (tree loc)) : list (tree loc) :=
    match u, t with
    | Nd m k fs :: _, y :: _ =>
        match docstringb (Nd m k fs), docstringb y with
        | Some a, Some b => [Nd m "Constant" [("value"%string, At (AStr (a ++ doc_rule ++ b))); ("kind"%string, NoneT)]]
        | _, _ => doc_part u ++ doc_part t
        end
    | _, _ => []
    end.

  Lemma getdoc_some (x : tree loc) r a : docstringb x = Some a -> getdocstring (Ls (x :: r)) = Ok (At (AStr a)).
  Proof.
    destruct x as [m k fs| |]; try discriminate. cbn [docstringb getdocstring]. destruct (String.eqb k "Expr"); [|discriminate].
    destruct (getf "value" fs) as [[m' k' fs'| |]|]; try discriminate. destruct (String.eqb k' "Constant"); [|discriminate].
    destruct (getf "value" fs') as [[| |[]]|]; try discriminate. intros X. inversion X. reflexivity.
  Qed.
  Lemma combine_ok u t : forallb is_node u = true -> u <> [] -> t <> [] -> combine_docstrings (doc_part u) (doc_part t) = Ok (joined_docs u t).
  Proof.
    intros Hn Hu Ht. destruct u as [|x ur]; [congruence|]. destruct t as [|y tr]; [congruence|]. clear Hu Ht.
    destruct x as [m k fs| |]; try discriminate. cbn [doc_part joined_docs].
    destruct (docstringb (Nd m k fs)) as [a|] eqn:Ea.
    - destruct (docstringb y) as [b|] eqn:Eb; [|reflexivity]. unfold combine_docstrings. rewrite (getdoc_some _ _ _ Ea), (getdoc_some _ _ _ Eb). cbn [bind add_docs].
      change doc_rule with doc_sep. reflexivity.
    - destruct (docstringb y) as [b|] eqn:Eb; reflexivity.
  Qed.

  Lemma splice_dialect_ok u t tag lineno col :
    good_module u -> good_module t -> core_of u <> [] ->
    exists t', map skel t' = map skel t /\
      Forall (located has_attr (match lineno, col with Some l, Some c => mkLoc (Some l) (Some c) None None | _, _ => meta_of (hd NoneT u) end)) t' /\
      splice_dialect has_attr (Ls u) (Ls t) tag lineno col =
      Ok (Ls (joined_docs u t' ++ future_prefix (after_doc t') ++ future_prefix (after_doc u) ++
              filter all_assignment (after_futures (after_doc u)) ++
              magic_imports "dialects" (rest_of t') ++ magic_imports "dialects" (rest_of u) ++
              magic_imports "macros" (no_dia t') ++ magic_imports "macros" (no_dia u) ++
              match core_of t' with
              | [] => core_of u
              | _ => contrib (fill (is_name_stmt tag) (Ls (core_of u)) (Ls (core_of t')))
              end)).
  Proof.
    intros Gu Gt Hc.
    set (ref := match lineno, col with Some l, Some c => mkLoc (Some l) (Some c) None None | _, _ => meta_of (hd NoneT u) end).
    destruct (fix_stmts_ok has_attr ref t (proj1 Gt) (proj1 (proj2 Gt))) as [t' [E1 [E2 E3]]].
    pose proof (good_skel _ _ E2 Gt) as Gt'. exists t'. split; [exact E2|]. split; [exact E3|].
    unfold splice_dialect. cbn [as_list].
    destruct u as [|u0 ur]; [exfalso; destruct Gu as [_ [_ [_ [_ F]]]]; discriminate F|].
    destruct t as [|t0 tr]; [exfalso; destruct Gt as [_ [_ [_ [_ F]]]]; discriminate F|].
    set (u := u0 :: ur) in *. change (meta_of u0) with (meta_of (hd NoneT u)). fold ref. rewrite E1. cbn [bind].
    destruct Gu as [Gu1 [Gu2 [Gu3 [Gu4 Gu5]]]]. destruct Gt' as [Gt1 [Gt2 [Gt3 [Gt4 Gt5]]]].
    assert (Gu : good_module u) by (repeat split; assumption). assert (Gt' : good_module t') by (repeat split; assumption).
    rewrite (split_layout u Gu4 Gu5). cbn [bind]. rewrite (split_layout t' Gt4 Gt5). cbn [bind].
    assert (Ed : combine_docstrings (doc_part u) (doc_part t') = Ok (joined_docs u t')).
    { apply combine_ok; [exact Gu1|discriminate|]. intros ->. discriminate E2. }
    rewrite Ed. cbn [bind]. rewrite (extract_all_ok _ (af_nodes u Gu)), (extract_all_ok _ (af_nodes t' Gt')).
    fold (rest_of u). fold (rest_of t').
    destruct (rest_ok u Gu) as [Ru1 [Ru2 Ru3]]. destruct (rest_ok t' Gt') as [Rt1 [Rt2 Rt3]].
    rewrite (extract_ok "dialects" _ Rt1 Rt2 Rt3). cbn [bind]. fold (no_dia t').
    destruct (without_list_ok "dialects" _ Rt1 Rt2 Rt3) as [St1 [St2 St3]]. fold (no_dia t') in St1, St2, St3.
    rewrite (extract_ok "macros" _ St1 St2 St3). cbn [bind]. fold (core_of t').
    destruct (without_list_ok "macros" _ St1 St2 St3) as [Ct1 [Ct2 Ct3]]. fold (core_of t') in Ct1, Ct2, Ct3.
    rewrite (extract_ok "dialects" _ Ru1 Ru2 Ru3). cbn [bind]. fold (no_dia u).
    destruct (without_list_ok "dialects" _ Ru1 Ru2 Ru3) as [Su1 [Su2 Su3]]. fold (no_dia u) in Su1, Su2, Su3.
    rewrite (extract_ok "macros" _ Su1 Su2 Su3). cbn [bind]. fold (core_of u).
    destruct (without_list_ok "macros" _ Su1 Su2 Su3) as [Cu1 [Cu2 Cu3]]. fold (core_of u) in Cu1, Cu2, Cu3.
    assert (Es : splice_statements same_cp (Ls (core_of u)) (Ls (core_of t')) tag =
                 Ok (match core_of t' with [] => Ls (core_of u) | _ => fill (is_name_stmt tag) (Ls (core_of u)) (Ls (core_of t')) end)).
    { unfold splice_statements. cbn [is_node]. unfold falsy at 1. destruct (core_of u) as [|c0 cr] eqn:Ecu; [congruence|]. rewrite <- Ecu in *.
      destruct (core_of t') as [|d0 dr] eqn:Ect; [reflexivity|]. rewrite <- Ect in *. unfold falsy. rewrite Ect. rewrite <- Ect.
      destruct (splicer_same (stmt_hole tag) (Ls (core_of u)) Cu2 (core_of t') Ct1 Ct2) as [n En]. rewrite En. reflexivity. }
    rewrite Es. cbn [bind]. f_equal. f_equal. repeat f_equal. destruct (core_of t'); reflexivity.
  Qed.
End Dialect.
