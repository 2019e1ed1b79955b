(** C16, C18, C19, C20: future-imports and splicing. *)
From Coq Require Import Permutation.
From Verif Require Import Base AstLib UtilsModel FixLocModel SpliceModel SpliceSpec SpliceProofs SpliceProofs2 SpliceProofs3.

(** ** C18 *)

(** The identities of all objects used for [n] holes: the thing itself, then copies. *)
Definition used {M} (cp : nat -> M -> M) (thing : tree M) (n : nat) : list M :=
  match n with
  | O => []
  | S k => metas thing ++ flat_map (fun i => map (cp i) (metas thing)) (seq 1 k)
  end.
Lemma pastes_used {M} (cp : nat -> M -> M) thing n : pastes cp thing 0 n = used cp thing n.
Proof.
  destruct n as [|k]; [reflexivity|]. unfold pastes. cbn [seq flat_map used pasted]. f_equal.
  assert (G : forall k n, flat_map (fun i => metas (pasted cp thing i)) (seq (S n) k) = flat_map (fun i => map (cp i) (metas thing)) (seq (S n) k)).
  { clear. induction k as [|k IH]; intros n; [reflexivity|]. cbn [seq flat_map pasted]. rewrite metas_deepcopy, IH. reflexivity. }
  apply G.
Qed.

(** [kept]: the identities of the template's nodes outside the placeholders. The result is, in
    structure, the template with the expression at each placeholder; it consists of the template's own
    objects, the expression's own objects (first placeholder) and a fresh copy for each further
    placeholder; so no object occurs twice in it; and no placeholder is left. *)
Theorem C18_splice_expression : forall (M : Type) (cp : nat -> M -> M) is_expr is_marker tag (m : M) k fs template,
  let expr := Nd m k fs in
  is_expr k = true \/ (is_marker k = true /\ exists m' k' fs', getf "body" fs = Some (Nd m' k' fs') /\ is_expr k' = true) ->
  wf template = true -> ast_or_list template = true -> template <> Ls [] ->
  exists t', splice_expression cp is_expr is_marker expr template tag = Ok t' /\
    skel t' = fill (is_name tag) (skel expr) (skel template) /\
    Permutation (metas t') (kept (is_name tag) template ++ used cp expr (holes (is_name tag) template)) /\
    (NoDup (metas template ++ metas expr) -> fresh_copies cp (metas template ++ metas expr) -> NoDup (metas t')) /\
    (holes (is_name tag) (skel expr) = 0 -> holes (is_name tag) (skel t') = 0).
Proof.
  intros M cp is_expr is_marker tag m k fs template expr He Hw Ha Hne.
  assert (Hh : forall t : tree M, is_name tag t = is_name tag (skel t)) by (intros t; rewrite <- name_hole_skel; symmetry; apply name_hole_same).
  destruct (splicer_good cp (is_name tag) (is_name tag) Hh expr eq_refl template Hw Ha 0) as [t' [E1 [E2 [E3 E4]]]].
  assert (Es : forall t n, splicer cp (name_hole tag) expr t n = splicer cp (is_name tag) expr t n) by reflexivity.
  exists t'. split; [|split; [exact E3|split; [rewrite <- pastes_used; exact E4|split]]].
  - unfold splice_expression. assert (Ef : falsy template = false) by (destruct template as [|[]|[]]; try reflexivity; [congruence|discriminate]).
    rewrite Ef. cbn [expr].
    assert (Eg : is_expr k || is_marker k && match getf "body" fs with Some (Nd _ k' _) => is_expr k' | _ => false end = true).
    { destruct He as [->|[-> [m' [k' [fs' [-> ->]]]]]]; [reflexivity|]. rewrite orb_true_r. reflexivity. }
    rewrite Eg. cbn [negb]. fold expr. rewrite Es, E1. destruct template; [reflexivity|reflexivity|discriminate].
  - intros H1 H2. exact (splice_NoDup cp (is_name tag) expr template t' H1 H2 E4).
  - intros H0. rewrite E3. apply no_hole; [exact H0| |rewrite wf_skel; exact Hw].
    apply is_name_stable. reflexivity.
Qed.
Print Assumptions C18_splice_expression.

(** An empty template gives the expression itself; something else than an expression is refused. *)
Theorem C18_edge_cases : forall (M : Type) (cp : nat -> M -> M) is_expr is_marker expr template tag,
  splice_expression cp is_expr is_marker expr (Ls []) tag = Ok expr /\
  splice_expression cp is_expr is_marker expr (At ANone) tag = Ok expr /\
  (falsy template = false -> (forall m k fs, expr = Nd m k fs -> is_expr k = false /\ is_marker k = false) ->
   splice_expression cp is_expr is_marker expr template tag = Err type_error).
Proof.
  intros M cp is_expr is_marker expr template tag. split; [reflexivity|]. split; [reflexivity|]. intros Hf He.
  unfold splice_expression. rewrite Hf. destruct expr as [m k fs| |]; try reflexivity.
  destruct (He m k fs eq_refl) as [-> ->]. reflexivity.
Qed.
Print Assumptions C18_edge_cases.

Definition nm (i : nat) (x : string) : tree nat := Nd i "Name" [("id"%string, At (AStr x))].
Definition ex_template : tree nat :=
  Ls [Nd 1 "Expr" [("value"%string, Nd 2 "BinOp" [("left"%string, nm 3 "__paste_here__"); ("op"%string, Nd 4 "Add" []); ("right"%string, nm 5 "y")])];
      Nd 6 "Expr" [("value"%string, Nd 7 "Call" [("func"%string, nm 8 "f"); ("args"%string, Ls [nm 9 "__paste_here__"; nm 10 "__paste_here__"])])]].
Definition ex_copies (i m : nat) : nat := 100 * S i + m.
Example C18_example :
  splice_expression ex_copies (fun k => String.eqb k "Name") (fun _ => false) (nm 20 "x") ex_template "__paste_here__" =
  Ok (Ls [Nd 1 "Expr" [("value"%string, Nd 2 "BinOp" [("left"%string, nm 20 "x"); ("op"%string, Nd 4 "Add" []); ("right"%string, nm 5 "y")])];
      Nd 6 "Expr" [("value"%string, Nd 7 "Call" [("func"%string, nm 8 "f"); ("args"%string, Ls [nm 220 "x"; nm 320 "x"])])]]) /\
  wf ex_template = true /\ ast_or_list ex_template = true /\ holes (is_name "__paste_here__") ex_template = 3.
Proof. vm_compute. repeat split; reflexivity. Qed.

(** ** C19 *)

(** For a template that is a list. [body]: a list of nodes. *)
Theorem C19_splice_statements_partial : forall (M : Type) (cp : nat -> M -> M) tag (body template : list (tree M)),
  body <> [] -> template <> [] -> forallb is_node body = true -> forallb is_node template = true -> forallb wf template = true ->
  exists t', splice_statements cp (Ls body) (Ls template) tag = Ok (Ls t') /\
    Ls (map skel t') = fill (is_name_stmt tag) (Ls (map skel body)) (Ls (map skel template)) /\
    Permutation (flat_map metas t') (kept (is_name_stmt tag) (Ls template) ++ used cp (Ls body) (holes (is_name_stmt tag) (Ls template))) /\
    (NoDup (metas (Ls template) ++ metas (Ls body)) -> fresh_copies cp (metas (Ls template) ++ metas (Ls body)) -> NoDup (flat_map metas t')) /\
    (holes (is_name_stmt tag) (Ls (map skel body)) = 0 -> holes (is_name_stmt tag) (Ls (map skel t')) = 0).
Proof.
  intros M cp tag body template Hb Ht Nb Nt Wt.
  assert (Hh : forall t : tree M, is_name_stmt tag t = is_name_stmt tag (skel t)) by (intros t; rewrite <- stmt_hole_skel; symmetry; apply stmt_hole_same).
  destruct (splicer_good cp (is_name_stmt tag) (is_name_stmt tag) Hh (Ls body) Nb (Ls template) Wt Nt 0) as [t' [E1 [E2 [E3 E4]]]].
  assert (Es : splicer cp (stmt_hole tag) (Ls body) (Ls template) 0 = splicer cp (is_name_stmt tag) (Ls body) (Ls template) 0) by reflexivity.
  destruct t' as [m k fs|t'|a].
  { exfalso. cbn [fill skel] in E3. discriminate. }
  2: { discriminate. }
  exists t'. split; [|split; [exact E3|split; [rewrite <- pastes_used; exact E4|split]]].
  - unfold splice_statements. cbn [is_node]. destruct body as [|b0 br]; [congruence|]. destruct template as [|t0 tr]; [congruence|]. cbn [falsy].
    rewrite Es, E1. reflexivity.
  - intros H1 H2. exact (splice_NoDup cp (is_name_stmt tag) (Ls body) (Ls template) (Ls t') H1 H2 E4).
  - intros H0. change (Ls (map skel t')) with (skel (Ls t')). rewrite E3. apply no_hole; [exact H0| |].
    + apply is_name_stmt_stable; [|reflexivity]. simpl. clear - Nb. induction body as [|x l IH]; [reflexivity|]. simpl in *. apply andb_true_iff in Nb. destruct Nb as [N1 N2].
      rewrite is_node_skel, N1, (IH N2). reflexivity.
    + rewrite wf_skel. exact Wt.
Qed.
Print Assumptions C19_splice_statements_partial.

(** A single statement is accepted in place of a one-element body. *)
Theorem C19_single_statement_body : forall (M : Type) (cp : nat -> M -> M) tag (s : tree M) (template : list (tree M)),
  is_node s = true -> splice_statements cp s (Ls template) tag = splice_statements cp (Ls [s]) (Ls template) tag.
Proof. intros M cp tag s template H. unfold splice_statements. rewrite H. reflexivity. Qed.
Print Assumptions C19_single_statement_body.

Theorem C19_edge_cases : forall (M : Type) (cp : nat -> M -> M) tag (body : tree M) (template : list (tree M)),
  splice_statements cp (Ls []) (Ls template) tag = Err (mkExn "ValueError" []) /\
  (is_list body = true -> body <> Ls [] -> splice_statements cp body (Ls []) tag = Ok body).
Proof.
  intros M cp tag body template. split; [reflexivity|]. intros H1 H2. unfold splice_statements. destruct body as [|[|x l]|]; try discriminate; [congruence|reflexivity].
Qed.
Print Assumptions C19_edge_cases.

Definition estmt (i : nat) (v : tree nat) : tree nat := Nd i "Expr" [("value"%string, v)].
Definition ex_if (i : nat) (b : list (tree nat)) : tree nat := Nd i "If" [("test"%string, nm (S i) "c"); ("body"%string, Ls b); ("orelse"%string, Ls [])].
Example C19_example :
  splice_statements ex_copies (Ls [estmt 20 (nm 21 "a"); estmt 22 (nm 23 "b")])
    (Ls [estmt 1 (nm 2 "__paste_here__"); ex_if 3 [estmt 5 (nm 6 "pre"); estmt 7 (nm 8 "__paste_here__")]]) "__paste_here__" =
  Ok (Ls [estmt 20 (nm 21 "a"); estmt 22 (nm 23 "b"); ex_if 3 [estmt 5 (nm 6 "pre"); estmt 220 (nm 221 "a"); estmt 222 (nm 223 "b")]]).
Proof. vm_compute. reflexivity. Qed.

(** C19 refuted for a template that is a single AST node, which the function explicitly
    handles (splicing.py:134-135): it assigns to the wrong variable, so the placeholder is replaced by
    the template itself, and the user's statements are lost. *)
Theorem C19_single_node_template_refuted : exists (body : list (tree nat)) (template : tree nat) t',
  wf template = true /\ is_node template = true /\ holes (is_name_stmt "__paste_here__") template = 1 /\
  splice_statements ex_copies (Ls body) template "__paste_here__" = Ok t' /\
  skel t' <> fill (is_name_stmt "__paste_here__") (Ls (map skel body)) (skel template) /\
  (exists m, In m (flat_map metas body)) /\ (forall m, In m (flat_map metas body) -> ~ In m (metas t')).
Proof.
  exists [estmt 20 (nm 21 "a")], (ex_if 3 [estmt 5 (nm 6 "__paste_here__")]). eexists.
  split; [reflexivity|]. split; [reflexivity|]. split; [reflexivity|]. split; [vm_compute; reflexivity|]. split; [vm_compute; discriminate|].
  split; [exists 20; vm_compute; auto|]. intros m H. vm_compute in *. intuition congruence.
Qed.
Print Assumptions C19_single_node_template_refuted.

(** ** C16 *)

(** The result is the body with the statements inserted at one place. If the docstring is not the
    empty string and something other than a future-import follows the docstring (or nothing does),
    then that place is after the docstring and after all future-imports, so Python's rule still holds. *)
Theorem C16_inject_partial : forall (M : Type) is_stmt (stmts body : list (tree M)) d,
  getdocstring (Ls body) = Ok d ->
  exists p, inject_after_futureimports is_stmt (Ls stmts) (Ls body) = Ok (firstn p body ++ stmts ++ skipn p body) /\
    (forall x r, body = x :: r -> docstringb x <> Some ""%string ->
       (r = [] /\ ~ future_import x \/ existsb (fun t => negb (future_importb t)) (after_doc body) = true) ->
       (forall s, docstring_stmt x s -> 1 <= p) /\
       (futures_first body -> (forall t, In t stmts -> ~ future_import t) ->
        (forall t, In t (skipn p body) -> ~ future_import t) /\ futures_first (firstn p body ++ stmts ++ skipn p body))).
Proof.
  intros M is_stmt stmts body d Hd. unfold inject_after_futureimports. rewrite (split_spec body d Hd). cbv zeta.
  set (c := truthy_value d && negb match body with [] => true | _ => false end).
  set (r0 := if c then skipn 1 body else body). set (p := (if c then 1 else 0) + future_k r0).
  assert (Ep : firstn p body = (if c then firstn 1 body else []) ++ firstn (future_k r0) r0 /\ skipn p body = skipn (future_k r0) r0).
  { unfold p, r0. destruct c eqn:Ec; [|auto]. destruct body as [|x r]; [unfold c in Ec; rewrite andb_false_r in Ec; discriminate|]. cbn [Nat.add firstn skipn app]. auto. }
  destruct Ep as [Ep1 Ep2]. exists p. rewrite Ep1, Ep2. split; [rewrite <- app_assoc; reflexivity|].
  intros x r -> Hne Hcond. rewrite <- Ep1, <- Ep2. assert (Ecv : c = truthy_value d) by (unfold c; apply andb_true_r).
  assert (Hdoc : forall s, docstring_stmt x s -> c = true).
  { intros s Hs. apply docstringb_iff in Hs. destruct x as [m k fs| |]; try discriminate. cbn [docstringb getdocstring] in *.
    destruct (String.eqb k "Expr"); [|discriminate]. destruct (getf "value" fs) as [[m' k' fs'| |]|]; try discriminate.
    destruct (String.eqb k' "Constant"); [|discriminate]. destruct (getf "value" fs') as [[| |[]]|]; try discriminate.
    inversion Hd; subst d. rewrite Ecv. cbn [truthy_value truthy_atom]. destruct (String.eqb s0 "") eqn:E; [|reflexivity]. apply String.eqb_eq in E. congruence. }
  split; [intros s Hs; unfold p; rewrite (Hdoc s Hs); lia|]. intros HF Hst.
  assert (Hnf : forall t, In t (skipn p (x :: r)) -> ~ future_import t).
  { intros t Ht HtF.
    assert (Hp : exists y, nth_error (x :: r) p = Some y /\ (future_importb y = false) /\ (p = 0 -> forall s, ~ docstring_stmt y s) \/ skipn p (x :: r) = []).
    { (* either the part after p starts with a statement that is not a future-import, or it is empty *)
      destruct (skipn p (x :: r)) as [|y q] eqn:Es; [exists x; right; reflexivity|]. exists y. left.
      assert (En : nth_error (x :: r) p = Some y).
      { rewrite <- (firstn_skipn p (x :: r)), Es. rewrite nth_error_app2 by (rewrite firstn_length; lia). rewrite firstn_length.
        assert (L : p <= List.length (x :: r)). { assert (List.length (skipn p (x :: r)) <> 0) by (rewrite Es; discriminate). rewrite skipn_length in H. lia. }
        rewrite Nat.min_l by exact L. rewrite Nat.sub_diag. reflexivity. }
      split; [exact En|].
      destruct Hcond as [[-> Hx]|Hex].
      - (* one statement *)
        assert (p = 0). { unfold p, r0. destruct c; [exfalso|reflexivity]. unfold p, r0 in Es. discriminate. }
        rewrite H in En. cbn [nth_error] in En. inversion En; subst y. split; [destruct (future_importb x) eqn:E; [apply future_importb_iff in E; contradiction|reflexivity]|].
        intros _ s Hs. apply Hdoc in Hs. unfold p in H. rewrite Hs in H. discriminate.
      - split.
        + assert (Hr0 : existsb (fun t => negb (future_importb t)) r0 = true \/ r0 = []  \/ (c = true /\ docstringb x = None)).
          { cbn [after_doc] in Hex. unfold r0. destruct (docstringb x) as [s|] eqn:E.
            - apply docstringb_iff in E. rewrite (Hdoc s E). left. exact Hex.
            - destruct c; [right; right; auto|left; exact Hex]. }
          destruct Hr0 as [Hr0|[Hr0|[Hc Hnd]]].
          * destruct (future_k_split r0 Hr0) as [_ S1]. destruct (after_futures_hd r0 Hr0) as [z [q' [S2 S3]]].
            rewrite S1, S2 in Ep2. injection Ep2 as Y1 _. rewrite Y1. exact S3.
          * rewrite Hr0 in Ep2. destruct (future_k []); discriminate.
          * (* a constant that is not a docstring: no future-import can follow it *)
            destruct (future_importb y) eqn:Ey; [|reflexivity]. apply future_importb_iff in Ey.
            assert (P1 : 1 <= p) by (unfold p; rewrite Hc; lia).
            destruct (HF p y En Ey 0 x P1 eq_refl) as [Hxf|[_ [s Hs]]]; [|apply docstringb_iff in Hs; congruence].
            exfalso. destruct Hxf as [m [fs [-> _]]]. cbn [getdocstring String.eqb] in Hd. cbn in Hd. inversion Hd; subst d. discriminate.
        + intros Hp s Hs. rewrite Hp in En. cbn [nth_error] in En. inversion En; subst y. apply Hdoc in Hs. unfold p in Hp. rewrite Hs in Hp. discriminate. }
    destruct Hp as [y [[En [Ey Hp0]]|Es]]; [|rewrite Es in Ht; destruct Ht].
    destruct (In_nth_error _ _ Ht) as [i Hi].
    assert (Hi2 : nth_error (x :: r) (p + i) = Some t).
    { rewrite <- (firstn_skipn p (x :: r)). assert (L : List.length (firstn p (x :: r)) = p).
      { rewrite firstn_length. apply Nat.min_l. assert (nth_error (x :: r) p <> None) by congruence. apply nth_error_Some in H. lia. }
      rewrite nth_error_app2 by lia. rewrite L. replace (p + i - p) with i by lia. exact Hi. }
    destruct i as [|i].
    - rewrite Nat.add_0_r in Hi2. rewrite En in Hi2. inversion Hi2; subst t. apply future_importb_iff in HtF. congruence.
    - destruct (HF _ _ Hi2 HtF p y) as [Hy|[Hy [s Hs]]]; [lia|exact En|apply future_importb_iff in Hy; congruence|exact (Hp0 Hy s Hs)]. }
  split; [exact Hnf|].
  intros i t Hi HtF j u Hj Hu.
  assert (Li : i < List.length (firstn p (x :: r))).
  { destruct (Nat.lt_ge_cases i (List.length (firstn p (x :: r)))) as [?|L]; [assumption|]. exfalso. rewrite nth_error_app2 in Hi by exact L.
    apply nth_error_In in Hi. apply in_app_iff in Hi. destruct Hi as [Hi|Hi]; [exact (Hst _ Hi HtF)|exact (Hnf _ Hi HtF)]. }
  rewrite nth_error_app1 in Hi by exact Li. rewrite nth_error_app1 in Hu by lia.
  assert (W : forall n z, nth_error (firstn p (x :: r)) n = Some z -> nth_error (x :: r) n = Some z).
  { intros n z Hz. rewrite <- (firstn_skipn p (x :: r)). rewrite nth_error_app1; [exact Hz|]. apply nth_error_Some. congruence. }
  exact (HF i t (W _ _ Hi) HtF j u Hj (W _ _ Hu)).
Qed.
Print Assumptions C16_inject_partial.

Theorem C16_single_statement : forall (M : Type) is_stmt m k fs (body : tree M),
  is_stmt k = true -> inject_after_futureimports is_stmt (Nd m k fs) body = inject_after_futureimports is_stmt (Ls [Nd m k fs]) body.
Proof. intros M is_stmt m k fs body H. unfold inject_after_futureimports. rewrite H. destruct body; reflexivity. Qed.
Print Assumptions C16_single_statement.

Definition fut (i : nat) : tree nat := Nd i "ImportFrom" [("module"%string, At (AStr "__future__")); ("names"%string, Ls [Nd 0 "alias" [("name"%string, At (AStr "annotations"))]])].
Definition docstmt (i : nat) (s : string) : tree nat := estmt i (Nd i "Constant" [("value"%string, At (AStr s))]).
Example C16_example :
  inject_after_futureimports (fun _ => true) (Ls [estmt 9 (nm 9 "new")]) (Ls [docstmt 1 "doc"; fut 2; fut 3; estmt 4 (nm 4 "x")]) =
  Ok [docstmt 1 "doc"; fut 2; fut 3; estmt 9 (nm 9 "new"); estmt 4 (nm 4 "x")].
Proof. vm_compute. reflexivity. Qed.

(** C16 refuted: if there is nothing but future-imports, the statements end up before the last one. *)
Theorem C16_only_futures_refuted : exists (body : list (tree nat)) (stmt : tree nat) r,
  futures_first body /\ ~ future_import stmt /\
  inject_after_futureimports (fun _ => true) (Ls [stmt]) (Ls body) = Ok r /\ ~ futures_first r.
Proof.
  exists [fut 1; fut 2], (estmt 9 (nm 9 "new")), [fut 1; estmt 9 (nm 9 "new"); fut 2]. split; [|split; [|split; [reflexivity|]]].
  - intros i t Hi HF j u Hj Hu. left. apply future_importb_iff. destruct j as [|[|j]]; cbn in Hu; try (inversion Hu; reflexivity). destruct j; discriminate.
  - intros H. apply future_importb_iff in H. discriminate.
  - intros H. destruct (H 2 (fut 2) eq_refl) with (j := 1) (u := estmt 9 (nm 9 "new")) as [X|[X _]]; auto; try discriminate X.
    + apply future_importb_iff. reflexivity.
    + apply future_importb_iff in X. discriminate.
Qed.
Print Assumptions C16_only_futures_refuted.

(** C16 refuted: an empty docstring is taken for no docstring, and then the future-imports after it
    are not seen. *)
Theorem C16_empty_docstring_refuted : exists (body : list (tree nat)) (stmt : tree nat) r,
  futures_first body /\ ~ future_import stmt /\
  inject_after_futureimports (fun _ => true) (Ls [stmt]) (Ls body) = Ok r /\ ~ futures_first r.
Proof.
  exists [docstmt 1 ""; fut 2; estmt 4 (nm 4 "x")], (estmt 9 (nm 9 "new")), [estmt 9 (nm 9 "new"); docstmt 1 ""; fut 2; estmt 4 (nm 4 "x")]. split; [|split; [|split; [reflexivity|]]].
  - intros i t Hi HF j u Hj Hu. apply future_importb_iff in HF. destruct i as [|[|[|i]]]; cbn in Hi; try (inversion Hi; subst; discriminate).
    + assert (j = 0) by lia. subst j. right. split; [reflexivity|]. cbn in Hu. inversion Hu; subst. exists ""%string. apply docstringb_iff. reflexivity.
    + destruct i; discriminate.
  - intros H. apply future_importb_iff in H. discriminate.
  - intros H. destruct (H 2 (fut 2) eq_refl) with (j := 0) (u := estmt 9 (nm 9 "new")) as [X|[_ [s X]]]; auto.
    + apply future_importb_iff. reflexivity.
    + apply future_importb_iff in X. discriminate.
    + apply docstringb_iff in X. discriminate.
Qed.
Print Assumptions C16_empty_docstring_refuted.

(** ** C20 *)

(** [good_module]: nodes, whose import statements are as in Python's grammar, that start with a
    docstring that is not empty or with something that is not a constant, and that contain something
    below the docstring that is not a future-import. [rest_of]: what is below the future-imports, without
    [__all__]; [no_dia]: that without dialect-imports, at any depth; [core_of]: that without macro-imports.
    The result has the documented layout. [joined_docs]: the docstring of the module that has one; if both have one, the two
    texts with a rule between them - but as a bare constant, not as a statement (see the refutation below). Missing with
    respect to the full claim: no code of the user is left ([core_of u = []]); only future-imports. *)
Theorem C20_layout_partial : forall has_attr u t tag lineno col,
  good_module u -> good_module t -> core_of u <> [] ->
  exists t', map skel t' = map skel t /\
    Forall (located has_attr (match lineno, col with Some l, Some c => mkLoc (Some l) (Some c) None None | _, _ => meta_of (hd NoneT u) end)) t' /\
    splice_dialect has_attr (Ls u) (Ls t) tag lineno col =
    Ok (Ls (joined_docs u t' ++ future_prefix (after_doc t') ++ future_prefix (after_doc u) ++
            filter all_assignment (after_futures (after_doc u)) ++
            magic_imports "dialects" (rest_of t') ++ magic_imports "dialects" (rest_of u) ++
            magic_imports "macros" (no_dia t') ++ magic_imports "macros" (no_dia u) ++
            match core_of t' with
            | [] => core_of u
            | _ => contrib (fill (is_name_stmt tag) (Ls (core_of u)) (Ls (core_of t')))
            end)).
Proof. intros has_attr u t tag lineno col. apply splice_dialect_ok. Qed.
Print Assumptions C20_layout_partial.

Definition L (n : Z) : loc := mkLoc (Some n) (Some 0%Z) None None.
Definition lname (n : Z) (x : string) : tree loc := Nd (L n) "Name" [("id"%string, At (AStr x))].
Definition lexpr (n : Z) (x : string) : tree loc := Nd (L n) "Expr" [("value"%string, lname n x)].
Definition ldoc (n : Z) (s : string) : tree loc := Nd (L n) "Expr" [("value"%string, Nd (L n) "Constant" [("value"%string, At (AStr s))])].
Definition lfrom (n : Z) (modname x : string) : tree loc :=
  Nd (L n) "ImportFrom" [("module"%string, At (AStr modname)); ("names"%string, Ls [Nd (L n) "alias" [("name"%string, At (AStr x)); ("asname"%string, NoneT)]])].
Definition lall (n : Z) : tree loc := Nd (L n) "Assign" [("targets"%string, Ls [lname n "__all__"]); ("value"%string, Nd (L n) "List" [("elts"%string, Ls [])])].
Definition lwith (n : Z) (b : list (tree loc)) : tree loc := Nd (L n) "With" [("body"%string, Ls b)].
Example C20_example :
  splice_dialect (fun _ _ => true)
    (Ls [ldoc 1 "doc"; lfrom 2 "__future__" "annotations"; lall 3; lfrom 4 "m" "macros"; lexpr 5 "x"])
    (Ls [lfrom 1 "__future__" "division"; lfrom 2 "n" "macros"; lwith 3 [lexpr 4 "__paste_here__"]])
    "__paste_here__" (Some 7%Z) (Some 0%Z) =
  Ok (Ls [ldoc 1 "doc"; lfrom 7 "__future__" "division"; lfrom 2 "__future__" "annotations"; lall 3;
          lfrom 7 "n" "macros"; lfrom 4 "m" "macros"; lwith 7 [lexpr 5 "x"]]).
Proof. vm_compute. reflexivity. Qed.

(** The two docstrings. *)
Example C20_joined_docs_example :
  splice_dialect (fun _ _ => true) (Ls [ldoc 1 "user"; lexpr 2 "x"]) (Ls [ldoc 1 "template"; lexpr 2 "__paste_here__"]) "__paste_here__" None None =
  Ok (Ls [Nd (L 1) "Constant" [("value"%string, At (AStr ("user" ++ doc_rule ++ "template"))); ("kind"%string, NoneT)]; lexpr 2 "x"]).
Proof. vm_compute. reflexivity. Qed.

(** C20 refuted: when both have a docstring, the result has none. The combined docstring is put in
    place as a bare constant, which is not a statement, so the module has no docstring (and its body is
    not a list of statements). *)
Theorem C20_docstring_lost_refuted : exists (u t : list (tree loc)) r,
  (exists s, docstring_stmt (hd NoneT u) s) /\ (exists s, docstring_stmt (hd NoneT t) s) /\ good_module u /\ good_module t /\
  splice_dialect (fun _ _ => true) (Ls u) (Ls t) "__paste_here__" None None = Ok (Ls r) /\
  doc_part r = [] /\ kind_of (hd NoneT r) = "Constant"%string.
Proof.
  exists [ldoc 1 "user"; lexpr 2 "x"], [ldoc 1 "template"; lexpr 2 "__paste_here__"]. eexists.
  split; [exists "user"%string; apply docstringb_iff; reflexivity|]. split; [exists "template"%string; apply docstringb_iff; reflexivity|].
  split; [vm_compute; auto 10|]. split; [vm_compute; auto 10|]. split; [vm_compute; reflexivity|]. split; reflexivity.
Qed.
Print Assumptions C20_docstring_lost_refuted.

(** C20 refuted: valid user modules are refused: one that has just a docstring, one that just defines
    [__all__], one that just imports macros. *)
Theorem C20_valid_module_refused_refuted : exists u1 u2 u3 t tag,
  (exists s, Forall (fun x => docstring_stmt x s) u1) /\ Forall (fun x => all_assignment x = true) u2 /\ u2 <> [] /\
  Forall (fun x => magic_import "macros" x = true) u3 /\ u3 <> [] /\
  holes (is_name_stmt tag) (Ls t) = 1 /\ u1 <> [] /\
  forall u, In u [u1; u2; u3] -> splice_dialect (fun _ _ => true) (Ls u) (Ls t) tag None None = Err (mkExn "ValueError" []).
Proof.
  exists [ldoc 1 "doc"], [lall 1], [lfrom 1 "m" "macros"], [lexpr 1 "__paste_here__"], "__paste_here__"%string.
  split; [exists "doc"%string; constructor; [apply docstringb_iff; reflexivity|constructor]|].
  split; [constructor; [reflexivity|constructor]|]. split; [discriminate|]. split; [constructor; [reflexivity|constructor]|]. split; [discriminate|].
  split; [reflexivity|]. split; [discriminate|]. intros u [<-|[<-|[<-|[]]]]; vm_compute; reflexivity.
Qed.
Print Assumptions C20_valid_module_refused_refuted.

(** C20 refuted: taking a macro-import out of a block that contains nothing else leaves a block without
    statements, which Python does not accept. *)
Theorem C20_empty_block_refuted : exists r,
  splice_dialect (fun _ _ => true) (Ls [lwith 1 [lfrom 2 "m" "macros"]; lexpr 3 "x"]) (Ls [lexpr 1 "__paste_here__"]) "__paste_here__" None None = Ok (Ls r) /\
  In (lwith 1 []) r.
Proof. eexists. split; [vm_compute; reflexivity|]. vm_compute. auto. Qed.
Print Assumptions C20_empty_block_refuted.
