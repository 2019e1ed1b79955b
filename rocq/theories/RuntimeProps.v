(** C58: macro_bindings, expand1r, expandr, expand1rq, expandrq. *)
From Verif Require Import Base AstLib UtilsModel FixLocModel MarkersModel QuoteModel HygieneModel ExpanderModel ExpanderSpec ExpanderProofs ExpanderCheck QuoteSpec QuoteSpec2 QuoteProofs QuoteProofs2 QuoteProofs3 QuoteProps NestModel NestSpec NestCheck NestProofs NestProofs2 NestProofs4 NestProofs10 NestProps MetaModel MetaProofs RuntimeModel RuntimeSpec RuntimeProofs.

Section Statements.
  Variables (user_marker : string -> bool) (has_attr : string -> string -> bool).
  Variables (filename : string) (unparse : ltree -> string) (idx : op -> nat) (others : nat -> mdef nat).
  Variables (unique : string -> string) (pickled : nat -> string).
  Variables (loc_text : ltree -> string) (cov_text : loc -> string -> string) (isexc : exn -> bool).
  (** Pickling and unpickling of functions. *)
  Variables (dumps : nat -> res string) (loads : string -> option nat).
  Notation Ef f := (nest_env user_marker has_attr f unparse idx others unique pickled loc_text cov_text isexc).
  Notation E := (Ef filename).
  Notation code := (quoted_code user_marker has_attr filename unique pickled).
  Notation nest b := (nest (meaning idx b) (code (quasi_only idx b)) filename unparse cov_text).
  Notation nest_items b := (nest_items (meaning idx b) (code (quasi_only idx b)) filename unparse cov_text).
  (** [once = true]: expand1r, expand1rq; [once = false]: expandr, expandrq. *)
  Notation expandr := (expandr_prog filename dumps).
  Notation expandrq := (expandrq_prog user_marker has_attr filename idx unique pickled dumps).
  (** A dict, all of whose functions can be pickled. *)
  Definition good (b : binds) : Prop := NoDup (map fst b) /\ picklable dumps loads b.
  Notation runs := (runs_to loads (fun f => Ef f)).

  (** [macro_bindings] gives the code of a dict display whose value is the dict of the macro bindings at that point, and nothing else. *)
  Theorem C58_macro_bindings v k i s : 2 <= k -> in_syntax i = "name"%string -> good (s_b s) ->
    exists ks vs c, run v k (macro_bindings_prog dumps i) s = Some (XOk c, s) /\
      to_pv c = nd "Dict" [("keys"%string, PL ks); ("values"%string, PL vs)] /\ forall b', dict_of loads ks vs b' <-> b' = s_b s.
  Proof.
    intros Hk Hi [Hd Hp]. destruct (bindings_ok dumps loads _ Hd Hp) as (ks & vs & E1 & D). exists ks, vs. eexists. split; [|split; [exact (dict_tp loads _ _ _ D)|]].
    - unfold macro_bindings_prog. rewrite Hi. cbn [String.eqb Ascii.eqb Bool.eqb negb]. do 2 (destruct k as [|k]; [lia|]). rewrite run_getb, E1. reflexivity.
    - intros b'. split; [exact (dict_of_fun loads _ _ _ D b')|intros ->; exact D].
  Qed.

  (** One bound function that cannot be pickled: all these macros raise, also if the code does not use that function. *)
  Theorem C58_unpicklable v k i s x j e : 2 <= k -> In (x, j) (s_b s) -> dumps j = Err e ->
    (exists e', run v k (macro_bindings_prog dumps i) s = Some (XRaise e', s)) /\ (forall once, exists e', run v k (expandr once i) s = Some (XRaise e', s)).
  Proof.
    intros Hk Hin He. destruct (unpicklable_fails dumps _ _ _ _ Hin He) as [e' E1]. do 2 (destruct k as [|k]; [lia|]). split; [|intros once].
    - unfold macro_bindings_prog. destruct (negb _); [rewrite run_raise; eauto|]. rewrite run_getb, E1. rewrite run_raise. eauto.
    - unfold expandr_prog. destruct (_ && _); [rewrite run_raise; eauto|]. destruct (negb _); [rewrite run_raise; eauto|]. rewrite run_getb, E1. rewrite run_raise. eauto.
  Qed.

  Lemma expandr_ok ev once i b z : in_syntax i = "expr"%string \/ in_syntax i = "block"%string /\ has_asname i = false -> good b -> ev (to_pv (in_tree i)) = Ok z ->
    exists c, (forall v k s, 2 <= k -> s_b s = b -> run v k (expandr once i) s = Some (XOk c, s)) /\ forall r, runs ev (to_pv c) r <-> expands E once b (of_pv z) r.
  Proof.
    intros Hi [Hd Hp] He. destruct (bindings_ok dumps loads _ Hd Hp) as (ks & vs & E1 & D). eexists. split.
    - intros v k s Hk Hb. unfold expandr_prog. do 2 (destruct k as [|k]; [lia|]). destruct Hi as [Hi|[Hi Ha]]; rewrite Hi; [|rewrite Ha]; cbn [String.eqb Ascii.eqb Bool.eqb negb andb orb]; rewrite run_getb, Hb, E1; reflexivity.
    - intros r. rewrite code_tp; [|exact (dict_tp loads _ _ _ D)|rewrite of_to_pv; reflexivity]. rewrite <- runtime_expands. exact (code_runs filename loads (fun f => Ef f) ev once ks vs _ _ z r D He).
  Qed.
  Lemma up_run n0 n p s y : n0 <= n -> run (visit E n0) n0 p s = Some y -> run (visit E n) n0 p s = Some y.
  Proof. intros Hn0 Hy. eapply below_run; [|apply Nat.le_refl|exact Hy]. intros tt s0 w Hw. eapply visit_mono_le; [|exact Hw]. exact Hn0. Qed.

  (** [expandr[t]], where the code [t] evaluates to the AST [z] at run time: running the result gives (or raises) exactly what an expander with the macros of the
      use site makes of [z]. The same for [expand1r], with one layer of macros. *)
  Theorem C58_expandr ev once v k i s z : 2 <= k -> in_syntax i = "expr"%string -> good (s_b s) -> ev (to_pv (in_tree i)) = Ok z ->
    exists c, run v k (expandr once i) s = Some (XOk c, s) /\ forall r, runs ev (to_pv c) r <-> expands E once (s_b s) (of_pv z) r.
  Proof. intros Hk Hi Hg He. destruct (expandr_ok ev once i (s_b s) z (or_introl Hi) Hg He) as (c & R & H). exists c. split; [apply R; [exact Hk|reflexivity]|exact H]. Qed.

  (** [expandrq[t]] and [expand1rq[t]] outside any quote: the unquotes of [t] are filled in at run time, giving [z]; the result is what the expander then makes of [z]. *)
  Theorem C58_expandrq_partial is_expr is_stmt parse_expr ext once b t l z args vars target rec log :
    good b -> quasi_only idx b <> [] -> is_node t = true -> source (meaning idx b) t -> nest b 1 t = Some l ->
    subst is_expr is_stmt user_marker has_attr parse_expr (eval is_expr is_stmt user_marker has_attr parse_expr ext) true (to_pv (pack l)) z ->
    exists c log', (exists N, forall n, N <= n -> run (visit E n) n (expandrq once (mkIn "expr" t args vars target)) (mkSt b rec 0 log) = Some (XOk c, mkSt b rec 0 log')) /\
      forall r, runs (eval is_expr is_stmt user_marker has_attr parse_expr ext) (to_pv c) r <-> expands E once b (of_pv z) r.
  Proof.
    intros Hg Hq Hn Hs Hl Hz.
    destruct (C55_nested_value_partial user_marker has_attr filename unparse idx others unique pickled loc_text cov_text isexc is_expr is_stmt parse_expr ext b t l z args vars target rec log Hq Hn Hs Hl Hz) as (d & log' & [N R] & Ev).
    destruct (expandr_ok _ once (mkIn "expr" d args vars target) b z (or_introl eq_refl) Hg Ev) as (c & Rc & Hc).
    exists c, log'. split; [|exact Hc]. exists (N + 2). intros n Hle. replace n with (N + (n - N)) at 2 by lia.
    unfold expandrq_prog. cbn [in_syntax String.eqb Ascii.eqb Bool.eqb negb orb]. eapply run_bindp; [apply up_run; [lia|exact (R N (Nat.le_refl _))]|]. cbv iota. apply Rc; [lia|reflexivity].
  Qed.
  (** The same for [with expandrq as name: l], which becomes an assignment to the name; the value is that of the list of statements. *)
  Theorem C58_expandrq_block_partial is_expr is_stmt parse_expr ext once b l l1 z args name target rec log :
    good b -> quasi_only idx b <> [] -> l <> [] -> Forall (fun x => is_node x = true) l -> Forall (source (meaning idx b)) l -> nest_items b 1 l = Some l1 -> is_kind "Name" name = true ->
    subst is_expr is_stmt user_marker has_attr parse_expr (eval is_expr is_stmt user_marker has_attr parse_expr ext) true (to_pv (Ls l1)) z ->
    exists c log', (exists N, forall n, N <= n -> run (visit E n) n (expandrq once (mkIn "block" (Ls l) args (Some name) target)) (mkSt b rec 0 log) =
        Some (XOk (Nd noloc "Assign" [("targets"%string, Ls [name]); ("value"%string, c)]), mkSt b rec 0 log')) /\
      forall r, runs (eval is_expr is_stmt user_marker has_attr parse_expr ext) (to_pv c) r <-> expands E once b (of_pv z) r.
  Proof.
    intros Hg Hq Hne Hn Hs Hl Hk Hz.
    destruct (C55_nested_block_partial user_marker has_attr filename unparse idx others unique pickled loc_text cov_text isexc b l args (Some name) target rec log Hq Hne Hn Hs) as (r0 & log' & [N R] & O). rewrite Hl in O.
    destruct (q_run is_expr is_stmt user_marker has_attr parse_expr ext (captures_in unique pickled b) filename _ _ Hz) as (d & Qd & Ed). unfold quoted_code in O. rewrite Qd, Hk in O. subst r0.
    destruct (expandr_ok (eval is_expr is_stmt user_marker has_attr parse_expr ext) once (mkIn "block" (of_pv d) args None target) b z (or_intror (conj eq_refl eq_refl)) Hg) as (c & Rc & Hc).
    { cbn [in_tree]. rewrite (q_tp _ _ _ _ _ _ _ _ Qd). exact Ed. }
    exists c, log'. split; [|exact Hc]. exists (N + 3). intros n Hle. replace n with (N + (2 + (n - N - 2))) at 2 by lia.
    unfold expandrq_prog. cbn [in_syntax String.eqb Ascii.eqb Bool.eqb negb orb]. eapply run_bindp; [apply up_run; [lia|exact (R N (Nat.le_refl _))]|]. cbv iota.
    cbn [String.eqb Ascii.eqb Bool.eqb in_args in_target attr getf]. eapply run_bindp; [apply Rc; [lia|reflexivity]|]. cbv iota. destruct (n - N - 2) eqn:En; [lia|]. reflexivity.
  Qed.

  (** [with expandr: body] (documented as allowed): the result is an expression, a call with a list of statements as an argument, which is no Python code, whatever the body is. *)
  Theorem C58_expandr_block_no_code once v k i s s' l c : in_syntax i = "block"%string -> in_tree i = Ls l -> run v k (expandr once i) s = Some (XOk c, s') ->
    exists f d p, to_pv c = p_call f [] [d; p; p_kw "tree" (PL (map to_pv l))].
  Proof.
    intros Hi Ht. unfold expandr_prog. rewrite Hi, Ht. cbn [String.eqb Ascii.eqb Bool.eqb negb andb orb]. destruct (has_asname i); [destruct k; [discriminate|]; rewrite run_raise; discriminate|].
    destruct k as [|k]; [discriminate|]. rewrite run_getb. destruct (bindings_code dumps (s_b s)) as [d|e]; destruct k as [|k]; try discriminate.
    cbn [run]. intros H. assert (Hc : c = of_pv (expandr_code filename once d (to_pv (Ls l)))) by (inversion H; reflexivity). subst c. clear H.
    set (L := map to_pv l). change (to_pv (Ls l)) with (PL L).
    assert (HL : map to_pv (map of_pv L) = L). { unfold L. rewrite !map_map. apply map_ext. intros t. rewrite of_to_pv. reflexivity. }
    assert (K : to_pv (of_pv (p_kw "tree" (PL L))) = p_kw "tree" (PL L)). { unfold p_kw, nd. cbn [of_pv to_pv map]. unfold str. rewrite HL. reflexivity. }
    exists (to_pv (of_pv (metatools_attr (if once then "runtime_expand1" else "runtime_expand")%string))), (to_pv (of_pv (p_kw "bindings" d))), (p_kw "filename" (p_const (str filename))).
    rewrite <- K. unfold expandr_code, p_call, nd. cbn [of_pv to_pv map]. reflexivity.
  Qed.
End Statements.
Print Assumptions C58_macro_bindings.
Print Assumptions C58_unpicklable.
Print Assumptions C58_expandr.
Print Assumptions C58_expandrq_partial.
Print Assumptions C58_expandrq_block_partial.
Print Assumptions C58_expandr_block_no_code.

(** ** Examples *)
(** The macros of C55's examples. *)
Definition v_dumps (i : nat) : res string := Ok (String (Ascii.ascii_of_nat i) ""%string).
Definition v_loads (s : string) : option nat := match s with String c EmptyString => Some (Ascii.nat_of_ascii c) | _ => None end.
Definition v_expandr (once : bool) := expandr_prog "f.py" v_dumps once.
Definition v_expandrq (once : bool) := expandrq_prog x_user x_attr "f.py" y_idx (fun s => s) (fun _ => "pickle"%string) v_dumps once.
Definition v_env (f : string) := nest_env x_user x_attr f (fun _ => "src"%string) y_idx y_others (fun s => s) (fun _ => "pickle"%string) (fun _ => ""%string) y_cov (fun _ => true).
Definition v_run (p : prog nat) : option (xres ltree) := match run (visit y_env 60) 60 p (mkSt y_b false 0 []) with Some (r, mkSt _ _ 0 _) => Some r | _ => None end.
(** m[m[a[t]]], where [t] is the AST [tt]. *)
Definition v_tree : ltree := y_sub "m" (y_sub "m" (y_sub "a" (y_name "t"))).
Definition v_nested : ltree := y_sub "m" (y_sub "m" (Nd noloc "ASTLiteral" [("body"%string, y_name "t"); ("syntax"%string, At (AStr "expr"))])).
Definition v_z : ltree := y_sub "m" (y_sub "m" (y_name "tt")).
Lemma v_subst : subst x_expr x_stmt x_user x_attr x_parse x_eval true (to_pv v_nested) (to_pv v_z).
Proof.
  assert (N : forall s, subst x_expr x_stmt x_user x_attr x_parse x_eval false (to_pv (y_name s)) (to_pv (y_name s))).
  { intros s. apply su_node; [left; reflexivity|]. apply sfl_other; [exact I|apply su_atom; discriminate|]. apply sfl_other; [exact I|apply su_node; [left; reflexivity|constructor]|constructor]. }
  assert (S : forall r s t t', (match t with PL _ => False | _ => True end) -> subst x_expr x_stmt x_user x_attr x_parse x_eval false t t' ->
    subst x_expr x_stmt x_user x_attr x_parse x_eval r (nd "Subscript" [("value"%string, to_pv (y_name s)); ("slice"%string, t); ("ctx"%string, nd "Load" [])]) (nd "Subscript" [("value"%string, to_pv (y_name s)); ("slice"%string, t'); ("ctx"%string, nd "Load" [])])).
  { intros r s t t' Ht H. apply su_node; [left; reflexivity|]. apply sfl_other; [exact I|apply N|]. apply sfl_other; [exact Ht|exact H|]. apply sfl_other; [exact I|apply su_node; [left; reflexivity|constructor]|constructor]. }
  apply S; [exact I|]. apply S; [exact I|]. apply (su_a _ _ _ _ _ _ false (x_name "t")); [apply x_unmarked|vm_compute; reflexivity|split; reflexivity|apply x_inert].
Qed.
Lemma v_good : good v_dumps v_loads y_b.
Proof.
  split; [repeat constructor; cbn; intros H; repeat (destruct H as [H|H]; [discriminate|]); destruct H|].
  intros x i H. eexists. split; [reflexivity|]. cbn in H. repeat (destruct H as [H|H]; [inversion H; subst; reflexivity|]). destruct H.
Qed.
Lemma v_source : source (meaning y_idx y_b) v_tree.
Proof. apply sourceb_ok; vm_compute; reflexivity. Qed.
Lemma v_nest : nest (meaning y_idx y_b) (quoted_code x_user x_attr "f.py" (fun s => s) (fun _ => "pickle"%string) (quasi_only y_idx y_b)) "f.py" (fun _ => "src"%string) y_cov 1 v_tree = Some [v_nested].
Proof. vm_compute. reflexivity. Qed.
Lemma v_runtime : runtime_expand (v_env "f.py") 60 false y_b v_z = Some (XOk (y_name "tt")) /\ runtime_expand (v_env "f.py") 60 true y_b v_z = Some (XOk (y_sub "m" (y_name "tt"))).
Proof. split; vm_compute; reflexivity. Qed.
Example C58_example : forall once, exists c log',
  (exists N, forall n, N <= n -> run (visit (v_env "f.py") n) n (v_expandrq once (mkIn "expr" v_tree None None NoneT)) (mkSt y_b false 0 []) = Some (XOk c, mkSt y_b false 0 log')) /\
  runs_to v_loads v_env x_eval (to_pv c) (XOk (if once then y_sub "m" (y_name "tt") else y_name "tt")).
Proof.
  intros once.
  destruct (C58_expandrq_partial x_user x_attr "f.py" (fun _ => "src"%string) y_idx y_others (fun s => s) (fun _ => "pickle"%string) (fun _ => ""%string) y_cov (fun _ => true) v_dumps v_loads x_expr x_stmt x_parse x_ext once y_b v_tree [v_nested] (to_pv v_z) None None NoneT false [] v_good ltac:(discriminate) eq_refl v_source v_nest v_subst) as (c & log' & R & H).
  exists c, log'. split; [exact R|]. apply (proj2 (H _)). apply runtime_expands. exists 60. rewrite of_to_pv. destruct once; apply v_runtime.
Qed.
(** Block mode: with expandrq as out: m[m[a[t]]]. *)
Example C58_example_block : exists c, v_run (v_expandrq false (mkIn "block" (Ls [y_expr v_tree]) None (Some (y_name "out")) NoneT)) = Some (XOk (Nd noloc "Assign" [("targets"%string, Ls [y_name "out"]); ("value"%string, c)])).
Proof. eexists. vm_compute. reflexivity. Qed.

(** ** Refuted *)
(** [with expandr: tree], documented as allowed, makes a call with a list of statements as an argument. *)
Theorem C58_expandr_block_refuted : exists body c f d p, v_run (v_expandr false (mkIn "block" (Ls body) None (Some NoneT) NoneT)) = Some (XOk c) /\ body <> [] /\
  to_pv c = p_call f [] [d; p; p_kw "tree" (PL (map to_pv body))].
Proof. exists [y_expr (y_name "tree")]. eexists _, _, _, _. split; [vm_compute; reflexivity|]. split; [discriminate|]. vm_compute. reflexivity. Qed.
Print Assumptions C58_expandr_block_refuted.
