(** C75: what may be unquoted. *)
From Verif Require Import Base AstLib FixLocModel QuoteModel QuoteSpec QuoteProofs KindSpec.

Section Statements.
  Variables is_expr is_stmt user_marker : string -> bool.
  Notation marker := (is_marker user_marker).
  Notation typecheck := (QuoteModel.typecheck user_marker).

  (** A marker class: one of the quasiquote markers, Done, ASTMarker itself, or one that a user defined. *)
  Lemma marker_iff k : marker k = true <-> In k (quasi_markers ++ ["Done"; "ASTMarker"]%string) \/ user_marker k = true.
  Proof.
    unfold is_marker, is_quasi. rewrite !orb_true_iff, smem_In, !String.eqb_eq, in_app_iff. cbn. intuition.
  Qed.

  Lemma typecheck_ok2 cls x : (typecheck cls x = true <-> ast_of marker cls x) /\
    (forall l, x = PL l -> Forall (fun y => typecheck cls y = true <-> ast_of marker cls y) l).
  Proof.
    induction x as [a|l IH|l IH|l IH|l IH|m k fs IH] using pv_ind2; cbn [QuoteModel.typecheck];
      try (split; [split; [discriminate|intros H; inversion H]|intros ? ?; congruence]).
    - split; [split; [discriminate|intros H; inversion H]|]. intros l' [= <-]. eapply Forall_impl; [|exact IH]. intros y [Hy _]. exact Hy.
    - split; [|congruence]. destruct (marker k) eqn:Em.
      + destruct fs as [|[f v] fs]; [split; [discriminate|intros H; inversion H; congruence]|]. inversion IH as [|? ? Hv _]; subst. cbn [snd] in Hv.
        assert (G : (forall l, v <> PL l) -> typecheck cls v = true <-> ast_of marker cls (PN m k ((f, v) :: fs))).
        { intros Hn. rewrite (proj1 Hv). split; [intros H; apply ao_marked; assumption|]. intros H. inversion H; subst; try congruence; try assumption. }
        destruct v as [a|l|l|l|l|m' k' fs']; try (apply G; congruence). destruct Hv as [_ Hv]. specialize (Hv l eq_refl). rewrite forallb_forall. rewrite Forall_forall in Hv. split.
        * intros H. apply ao_suite; [exact Em|]. apply Forall_forall. intros y Hy. apply Hv; auto.
        * intros H. inversion H; subst; try congruence; [match goal with H : ast_of _ _ (PL _) |- _ => inversion H end|]. intros y Hy. apply Hv; [exact Hy|]. match goal with H : Forall _ l |- _ => rewrite Forall_forall in H; auto end.
      + split; [intros H; apply ao_node; assumption|]. intros H. inversion H; subst; congruence.
  Qed.
  Lemma typecheck_ok cls x : typecheck cls x = true <-> ast_of marker cls x.
  Proof. apply typecheck_ok2. Qed.

  Lemma chars_iff s l : iterates (str s) l <-> l = map (fun c => str (String c EmptyString)) (list_ascii_of_string s).
  Proof.
    revert l. induction s as [|c s IH]; intros l; cbn; split.
    - intros H. inversion H; reflexivity.
    - intros ->. constructor.
    - intros H. inversion H; subst. f_equal. apply IH. assumption.
    - intros ->. constructor. apply IH. reflexivity.
  Qed.
  Lemma bytes_iff s l : iterates (PA (ABytes s)) l <-> l = map (fun c => PA (AInt (Z.of_nat (nat_of_ascii c)))) (list_ascii_of_string s).
  Proof.
    revert l. induction s as [|c s IH]; intros l; cbn; split.
    - intros H. inversion H; reflexivity.
    - intros ->. constructor.
    - intros H. inversion H; subst. f_equal. apply IH. assumption.
    - intros ->. constructor. apply IH. reflexivity.
  Qed.
  Lemma aslist_ok x l : aslist x = Ok l <-> iterates x l.
  Proof.
    destruct x as [a|l'|l'|l'|l'|m k fs]; cbn [aslist].
    2: { split; [intros [= <-]; apply it_list|intros H; inversion H; reflexivity]. }
    2: { split; [intros [= <-]; apply it_tuple|intros H; inversion H; reflexivity]. }
    2: { split; [intros [= <-]; apply it_dict|intros H; inversion H; reflexivity]. }
    2: { split; [intros [= <-]; apply it_set|intros H; inversion H; reflexivity]. }
    2: { split; [discriminate|intros H; inversion H]. }
    destruct a; try (split; [discriminate|intros H; inversion H]).
    - change (PA (AStr s)) with (str s). rewrite (chars_iff s l). split; [intros [= <-]; reflexivity|intros ->; reflexivity].
    - rewrite (bytes_iff s l). split; [intros [= <-]; reflexivity|intros ->; reflexivity].
  Qed.
  Lemma aslist_err x e : aslist x = Err e -> e = type_err /\ forall l, ~ iterates x l.
  Proof.
    intros H. split; [|intros l Hl; apply aslist_ok in Hl; congruence].
    destruct x as [[]| | | | |]; cbn in H; congruence.
  Qed.

  Lemma unnested_app l1 r1 l2 r2 : unnested l1 r1 -> unnested l2 r2 -> unnested (l1 ++ l2) (r1 ++ r2).
  Proof. intros H H2. induction H; cbn; [assumption|constructor; assumption| |constructor; assumption]. rewrite <- app_assoc. constructor; assumption. Qed.
  Lemma flat_unnested x : unnested [x] (flat x).
  Proof.
    induction x as [a|l IH|l IH|l IH|l IH|m k fs IH] using pv_ind2; cbn [flat]; try (apply un_item; [congruence|congruence|constructor]).
    - destruct a; try (apply un_item; [congruence|congruence|constructor]). apply un_none. constructor.
    - rewrite <- (app_nil_r (flat_map flat l)). apply un_list; [|constructor]. induction IH as [|y l Hy _ IHl]; [constructor|]. cbn [flat_map].
      apply (unnested_app [y]); assumption.
  Qed.
  Lemma flat_map_unnested l : unnested l (flat_map flat l).
  Proof. induction l as [|y l IH]; [constructor|]. cbn [flat_map]. apply (unnested_app [y]); [apply flat_unnested|exact IH]. Qed.
  Lemma unnested_flat l r : unnested l r -> r = flat_map flat l.
  Proof.
    intros H. induction H as [|l r _ IH|l1 l r1 r _ IH1 _ IH|x l r Hl Hn _ IH]; cbn [flat_map flat]; [reflexivity|exact IH|subst; reflexivity|].
    destruct x as [a|l'|l'|l'|l'|m k fs]; cbn [flat]; try (rewrite IH; reflexivity); [|exfalso; eapply Hl; reflexivity]. destruct a; try (rewrite IH; reflexivity). contradiction Hn. reflexivity.
  Qed.

  (** What [list]ing and flattening [x] gives. *)
  Definition gives (x : pv) (r : list pv) : Prop := exists l, iterates x l /\ unnested l r.
  Lemma fat_spec cls x :
    (forall r, gives x r -> Forall (ast_of marker cls) r -> flatten_and_typecheck user_marker cls x = Ok r) /\
    ((forall r, gives x r -> ~ Forall (ast_of marker cls) r) -> flatten_and_typecheck user_marker cls x = Err type_err).
  Proof.
    unfold flatten_and_typecheck. destruct (aslist x) as [l|e] eqn:Ea.
    - apply aslist_ok in Ea. assert (G : gives x (flat_map flat l)) by (exists l; split; [exact Ea|apply flat_map_unnested]). split.
      + intros r (l' & Hl & Hu) Hr. apply aslist_ok in Hl. apply aslist_ok in Ea. assert (l' = l) by congruence. subst l'. apply unnested_flat in Hu. subst r.
        assert (Hf : forallb (typecheck cls) (flat_map flat l) = true); [|rewrite Hf; reflexivity].
        apply forallb_forall. rewrite Forall_forall in Hr. intros y Hy. apply typecheck_ok. auto.
      + intros H. destruct (forallb (typecheck cls) (flat_map flat l)) eqn:Hf; [|reflexivity]. exfalso. apply (H _ G). apply Forall_forall.
        rewrite forallb_forall in Hf. intros y Hy. apply typecheck_ok. auto.
    - apply aslist_err in Ea as [-> Ea]. split; [|reflexivity]. intros r (l & Hl & _) _. contradiction (Ea l Hl).
  Qed.
  (** The two cases exclude each other and one of them holds. *)
  Lemma gives_cases cls x : (exists r, gives x r /\ Forall (ast_of marker cls) r) \/ (forall r, gives x r -> ~ Forall (ast_of marker cls) r).
  Proof.
    destruct (aslist x) as [l|e] eqn:Ea.
    - apply aslist_ok in Ea. assert (G : gives x (flat_map flat l)) by (exists l; split; [exact Ea|apply flat_map_unnested]).
      destruct (forallb (typecheck cls) (flat_map flat l)) eqn:Hf.
      + left. exists (flat_map flat l). split; [exact G|]. apply Forall_forall. rewrite forallb_forall in Hf. intros y Hy. apply typecheck_ok. auto.
      + right. intros r (l' & Hl & Hu) Hr. apply aslist_ok in Hl. apply aslist_ok in Ea. assert (l' = l) by congruence. subst l'. apply unnested_flat in Hu. subst r.
        assert (forallb (typecheck cls) (flat_map flat l) = true); [|congruence]. apply forallb_forall. rewrite Forall_forall in Hr. intros y Hy. apply typecheck_ok. auto.
    - right. apply aslist_err in Ea as [_ Ea]. intros r (l & Hl & _) _. contradiction (Ea l Hl).
  Qed.

  Notation expr_node := (ast_of marker is_expr).
  Notation stmt_node := (ast_of marker is_stmt).
  Notation ast_literal := (QuoteModel.ast_literal is_expr is_stmt user_marker).
  Notation type_error := (Err (mkExn "TypeError" [])).

  (** C75 a: in an expression, an AST node is unquoted as it is if it is an expression, and refused otherwise. *)
  Theorem C75_a_node m k fs :
    let x := PN m k fs in
    (expr_node x -> ast_literal x (str "expr") = Ok x) /\ (~ expr_node x -> ast_literal x (str "expr") = type_error).
  Proof.
    cbn zeta. unfold QuoteModel.ast_literal, str. cbn [String.eqb Ascii.eqb Bool.eqb]. split; intros H.
    - apply typecheck_ok in H. rewrite H. reflexivity.
    - destruct (typecheck is_expr (PN m k fs)) eqn:E; [|reflexivity]. apply typecheck_ok in E. contradiction.
  Qed.

  (** C75 b: anything else is a collection: its nodes are marked for splicing, in order, if all are expressions (statements, in a
      block); otherwise it is refused. *)
  Theorem C75_a_many x :
    (forall m k fs, x <> PN m k fs) ->
    (forall r, gives x r -> Forall expr_node r -> ast_literal x (str "expr") = Ok (nd "SpliceNodes" [("body"%string, PL r)])) /\
    ((forall r, gives x r -> ~ Forall expr_node r) -> ast_literal x (str "expr") = type_error).
  Proof.
    intros Hn. unfold QuoteModel.ast_literal, str. cbn [String.eqb Ascii.eqb Bool.eqb]. destruct (fat_spec is_expr x) as [F1 F2]. split.
    - intros r G Hr. rewrite (F1 r G Hr). destruct x; try reflexivity. exfalso. eapply Hn. reflexivity.
    - intros G. rewrite (F2 G). destruct x; try reflexivity. exfalso. eapply Hn. reflexivity.
  Qed.
  Theorem C75_a_block x :
    (forall r, gives x r -> Forall stmt_node r -> ast_literal x (str "block") = Ok (nd "SpliceNodes" [("body"%string, PL r)])) /\
    ((forall r, gives x r -> ~ Forall stmt_node r) -> ast_literal x (str "block") = type_error).
  Proof.
    unfold QuoteModel.ast_literal, str. cbn [String.eqb Ascii.eqb Bool.eqb]. destruct (fat_spec is_stmt x) as [F1 F2]. split.
    - intros r G Hr. rewrite (F1 r G Hr). reflexivity.
    - intros G. rewrite (F2 G). reflexivity.
  Qed.
  Theorem C75_a_syntax x syn : syn <> str "expr" -> syn <> str "block" -> ast_literal x syn = Err (mkExn "ValueError" []).
  Proof.
    intros H1 H2. destruct syn as [a| | | | |]; try reflexivity. destruct a; try reflexivity. cbn.
    destruct (String.eqb_spec s "expr") as [->|]; [contradiction H1; reflexivity|]. destruct (String.eqb_spec s "block") as [->|]; [contradiction H2; reflexivity|]. reflexivity.
  Qed.

  (** C75 c: s[] and t[] give a List, or a Tuple, of exactly the expressions in the collection. *)
  Theorem C75_s_and_t x :
    (forall r, gives x r -> Forall expr_node r ->
       ast_list is_expr user_marker x = Ok (nd "List" [("elts"%string, PL r)]) /\ ast_tuple is_expr user_marker x = Ok (nd "Tuple" [("elts"%string, PL r)])) /\
    ((forall r, gives x r -> ~ Forall expr_node r) -> ast_list is_expr user_marker x = type_error /\ ast_tuple is_expr user_marker x = type_error).
  Proof.
    unfold ast_list, ast_tuple. destruct (fat_spec is_expr x) as [F1 F2]. split.
    - intros r G Hr. rewrite (F1 r G Hr). split; reflexivity.
    - intros G. rewrite (F2 G). split; reflexivity.
  Qed.

  (** C75 d: a single node is no collection: in a block, in s[] and in t[] it is refused. *)
  Theorem C75_single_node_refused m k fs :
    let x := PN m k fs in
    ast_literal x (str "block") = type_error /\ ast_list is_expr user_marker x = type_error /\ ast_tuple is_expr user_marker x = type_error.
  Proof. repeat split; reflexivity. Qed.

  (** C75 e: n[] parses a string, and refuses anything else. *)
  Theorem C75_n (parse : string -> res pv) x :
    (forall s, x = str s -> lift_sourcecode parse x = parse s) /\ ((forall s, x <> str s) -> lift_sourcecode parse x = type_error).
  Proof.
    split; [intros s ->; reflexivity|]. intros H. destruct x as [a| | | | |]; try reflexivity. destruct a; try reflexivity. contradiction (H s). reflexivity.
  Qed.

  (** C75 f: so whatever a[], s[] and t[] let through contains expressions (statements, in a block) only. *)
  Theorem C75_only_the_kind x y :
    (ast_literal x (str "expr") = Ok y -> y = x /\ expr_node x \/ exists r, y = nd "SpliceNodes" [("body"%string, PL r)] /\ Forall expr_node r) /\
    (ast_literal x (str "block") = Ok y -> exists r, y = nd "SpliceNodes" [("body"%string, PL r)] /\ Forall stmt_node r) /\
    (ast_list is_expr user_marker x = Ok y -> exists r, y = nd "List" [("elts"%string, PL r)] /\ Forall expr_node r) /\
    (ast_tuple is_expr user_marker x = Ok y -> exists r, y = nd "Tuple" [("elts"%string, PL r)] /\ Forall expr_node r).
  Proof.
    repeat split.
    - intros H. destruct (match x with PN _ _ _ => true | _ => false end) eqn:E.
      + destruct x as [| | | | |m k fs]; try discriminate. left. revert H. unfold QuoteModel.ast_literal, str. cbn [String.eqb Ascii.eqb Bool.eqb].
        destruct (typecheck is_expr (PN m k fs)) eqn:Et; [|discriminate]. intros [= <-]. split; [reflexivity|]. apply typecheck_ok. exact Et.
      + assert (Hn : forall m k fs, x <> PN m k fs) by (intros; destruct x; congruence). destruct (C75_a_many x Hn) as [A B]. right.
        destruct (gives_cases is_expr x) as [(r & G & Hr)|G]; [|rewrite (B G) in H; discriminate]. rewrite (A r G Hr) in H. injection H as <-. eauto.
    - intros H. destruct (C75_a_block x) as [A B]. destruct (gives_cases is_stmt x) as [(r & G & Hr)|G]; [|rewrite (B G) in H; discriminate]. rewrite (A r G Hr) in H. injection H as <-. eauto.
    - intros H. destruct (C75_s_and_t x) as [A B]. destruct (gives_cases is_expr x) as [(r & G & Hr)|G]; [|destruct (B G) as [B1 _]; rewrite B1 in H; discriminate].
      destruct (A r G Hr) as [A1 _]. rewrite A1 in H. injection H as <-. eauto.
    - intros H. destruct (C75_s_and_t x) as [A B]. destruct (gives_cases is_expr x) as [(r & G & Hr)|G]; [|destruct (B G) as [_ B1]; rewrite B1 in H; discriminate].
      destruct (A r G Hr) as [_ A1]. rewrite A1 in H. injection H as <-. eauto.
  Qed.

  (** A marker class is one of the quasiquote markers, Done, ASTMarker itself, or one that a user defined: the kind of a marked node is
      the kind of what is inside, whichever class the marker has. *)
  Theorem C75_through_markers m k f v fs :
    (In k (quasi_markers ++ ["Done"; "ASTMarker"]%string) \/ user_marker k = true) -> (forall l, v <> PL l) ->
    (ast_literal (PN m k ((f, v) :: fs)) (str "expr") = Ok (PN m k ((f, v) :: fs)) <-> expr_node v) /\
    (~ expr_node v -> ast_literal (PN m k ((f, v) :: fs)) (str "expr") = type_error).
  Proof.
    intros Hk Hv. apply marker_iff in Hk. destruct (C75_a_node m k ((f, v) :: fs)) as [A B]. cbn zeta in A, B.
    assert (G : expr_node (PN m k ((f, v) :: fs)) <-> expr_node v).
    { split; [|intros H; apply ao_marked; assumption]. intros H. inversion H; subst; try congruence; try assumption. }
    split; [split|].
    - intros H. destruct (C75_only_the_kind (PN m k ((f, v) :: fs)) (PN m k ((f, v) :: fs))) as [C _]. destruct (C H) as [[_ D]|(r & D & Hr)]; [apply G; exact D|].
      unfold nd in D. injection D as -> -> -> -> ->. exfalso. eapply Hv. reflexivity.
    - intros H. apply A. apply G. exact H.
    - intros H. apply B. rewrite G. exact H.
  Qed.

  (** C75 g: a number, a nonempty string or bytes, None: refused everywhere. *)
  Theorem C75_plain_values_refused_partial a :
    a <> AStr "" -> a <> ABytes "" ->
    ast_literal (PA a) (str "expr") = type_error /\ ast_literal (PA a) (str "block") = type_error /\
    ast_list is_expr user_marker (PA a) = type_error /\ ast_tuple is_expr user_marker (PA a) = type_error.
  Proof.
    intros Hs Hb. destruct a; repeat split; try reflexivity; destruct s as [|c s]; try congruence; reflexivity.
  Qed.

  (** Not so for the empty string: it is iterable, and there is nothing in it to complain about. *)
  Theorem C75_plain_values_refused_refuted : exists a,
    ast_literal (PA a) (str "expr") = Ok (nd "SpliceNodes" [("body"%string, PL [])]) /\ ast_literal (PA a) (str "block") = Ok (nd "SpliceNodes" [("body"%string, PL [])]) /\
    ast_list is_expr user_marker (PA a) = Ok (nd "List" [("elts"%string, PL [])]).
  Proof. exists (AStr ""). repeat split; reflexivity. Qed.
End Statements.
Print Assumptions C75_a_node.
Print Assumptions C75_a_many.
Print Assumptions C75_a_block.
Print Assumptions C75_a_syntax.
Print Assumptions C75_s_and_t.
Print Assumptions C75_single_node_refused.
Print Assumptions C75_n.
Print Assumptions C75_only_the_kind.
Print Assumptions C75_through_markers.
Print Assumptions C75_plain_values_refused_partial.
Print Assumptions C75_plain_values_refused_refuted.

Definition ex_expr (k : string) : bool := smem k ["Name"; "Constant"; "Call"]%string.
Definition ex_stmt (k : string) : bool := smem k ["Expr"; "Pass"]%string.
Definition ex_user (k : string) : bool := String.eqb k "Mine".
Notation ex_lit := (ast_literal ex_expr ex_stmt ex_user).
Definition ex_name : pv := nd "Name" [("id"%string, str "x")].
Definition ex_pass : pv := nd "Pass" [].
Definition ex_mine (x : pv) : pv := nd "Mine" [("body"%string, x)].

Example C75_a_node_example :
  ex_lit ex_name (str "expr") = Ok ex_name /\ ast_of (is_marker ex_user) ex_expr ex_name /\
  ex_lit (ex_mine ex_name) (str "expr") = Ok (ex_mine ex_name) /\ ast_of (is_marker ex_user) ex_expr (ex_mine ex_name) /\
  ex_lit ex_pass (str "expr") = Err (mkExn "TypeError" []) /\ ~ ast_of (is_marker ex_user) ex_expr ex_pass /\
  ex_lit (ex_mine (PL [ex_name; ex_pass])) (str "expr") = Err (mkExn "TypeError" []) /\ ex_lit ex_name (str "exec") = Err (mkExn "ValueError" []).
Proof.
  split; [reflexivity|]. split; [apply ao_node; reflexivity|]. split; [reflexivity|]. split; [apply ao_marked; [reflexivity|apply ao_node; reflexivity]|].
  split; [reflexivity|]. split; [intros H; inversion H; discriminate|]. split; reflexivity.
Qed.
(** [a[[x, [None, x], x]]], [a] of a tuple, of nodes of the wrong kind, and in a block. *)
Example C75_a_many_example :
  gives (PL [ex_name; PL [PA ANone; ex_name]; ex_mine ex_name]) [ex_name; ex_name; ex_mine ex_name] /\
  ex_lit (PL [ex_name; PL [PA ANone; ex_name]; ex_mine ex_name]) (str "expr") = Ok (splice_nodes [ex_name; ex_name; ex_mine ex_name]) /\
  ex_lit (PT [ex_name; ex_pass]) (str "expr") = Err (mkExn "TypeError" []) /\
  ex_lit (PL [ex_pass; PL [ex_pass]]) (str "block") = Ok (splice_nodes [ex_pass; ex_pass]) /\ ex_lit (PL [ex_pass; ex_name]) (str "block") = Err (mkExn "TypeError" []) /\
  ex_lit ex_pass (str "block") = Err (mkExn "TypeError" []).
Proof.
  split; [|repeat split; reflexivity]. exists [ex_name; PL [PA ANone; ex_name]; ex_mine ex_name]. split; [apply it_list|].
  apply un_item; [intros ? H; discriminate H|intros H; discriminate H|]. apply (un_list [PA ANone; ex_name] [ex_mine ex_name] [ex_name] [ex_mine ex_name]).
  - apply un_none. apply un_item; [intros ? H; discriminate H|intros H; discriminate H|]. apply un_nil.
  - apply un_item; [intros ? H; discriminate H|intros H; discriminate H|]. apply un_nil.
Qed.
Example C75_s_and_t_example :
  ast_list ex_expr ex_user (PT [ex_name; PL [ex_name]]) = Ok (nd "List" [("elts"%string, PL [ex_name; ex_name])]) /\
  ast_tuple ex_expr ex_user (PL [ex_name]) = Ok (nd "Tuple" [("elts"%string, PL [ex_name])]) /\
  ast_list ex_expr ex_user (PL [ex_pass]) = Err (mkExn "TypeError" []) /\ ast_list ex_expr ex_user (str "ab") = Err (mkExn "TypeError" []) /\
  lift_sourcecode (fun s => Ok (nd "Name" [("id"%string, str s)])) (str "x") = Ok ex_name /\
  lift_sourcecode (fun s => Ok (nd "Name" [("id"%string, str s)])) (PA (AInt 3)) = Err (mkExn "TypeError" []).
Proof. repeat split; reflexivity. Qed.
