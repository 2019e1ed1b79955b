(** C41-C43: quasiquotes. *)
From Verif Require Import Base AstLib FixLocModel QuoteModel QuoteSpec QuoteSpec2 QuoteProofs QuoteProofs2 QuoteProofs3.

(** Classes for the examples. *)
Definition x_expr (k : string) : bool := smem k ["Name"; "Constant"; "Call"; "BinOp"; "Dict"; "List"; "Tuple"; "Attribute"]%string.
Definition x_stmt (k : string) : bool := smem k ["Expr"; "Assign"; "If"; "Pass"; "Global"]%string.
Definition x_user (k : string) : bool := false.
Definition x_attr (k a : string) : bool := (x_expr k || x_stmt k) && smem a ["lineno"; "col_offset"; "end_lineno"; "end_col_offset"]%string.
Definition x_parse (s : string) : res pv := Ok (nd "Name" [("id"%string, str s); ("ctx"%string, nd "Load" [])]).
Definition x_name (s : string) : pv := nd "Name" [("id"%string, str s); ("ctx"%string, nd "Load" [])].
(** Values of variables. *)
Definition x_ext (c : pv) : res pv :=
  match dotted c with
  | Some ["v"%string] => Ok (PA (AInt 42))
  | Some ["t"%string] => Ok (x_name "tt")
  | Some ["s"%string] => Ok (str "ss")
  | Some ["lst"%string] => Ok (PL [x_name "p"; x_name "q"])
  | Some ["stmts"%string] => Ok (PL [nd "Pass" []; nd "Expr" [("value"%string, x_name "p")]])
  | _ => Err (mkExn "NameError" [])
  end.
Definition x_q := q x_user x_attr.
Definition x_eval := eval x_expr x_stmt x_user x_attr x_parse x_ext.

(** ** C41 *)
(** Refuted: the parser makes complex constants, and the quasiquote compiler raises on them. Second: a dictionary display with [**d]
    has a None in its list of keys; the quasiquote compiles, and raises when it is run. *)
Theorem C41_quote_faithful_refuted : exists x x',
  (x = nd "Constant" [("value"%string, PA (AComplex "1j")); ("kind"%string, PA ANone)] /\
    forall cm fn, x_q cm fn x = Err type_err) /\
  (x' = nd "Dict" [("keys"%string, PL [PA ANone]); ("values"%string, PL [x_name "d"])] /\
    forall cm fn, exists c, x_q cm fn x' = Ok c /\ x_eval c = Err type_err).
Proof.
  eexists _, _. split; [split; [reflexivity|intros; reflexivity]|split; [reflexivity|]]. intros cm fn. eexists. split; [reflexivity|]. vm_compute. reflexivity.
Qed.
Print Assumptions C41_quote_faithful_refuted.

(** A list that is reached from the top through lists and list fields holds AST nodes (or lists) only. *)
Inductive whole : pv -> Prop :=
| wh_list l : Forall (fun x => node_or_list x /\ whole x) l -> whole (PL l)
| wh_node m k fs : (is_glob k = false -> Forall (fun p => nonlist (snd p) \/ whole (snd p)) fs) -> whole (PN m k fs).

Lemma quotable_no_splice um x : quotable um x -> no_splice (strip x).
Proof.
  induction x as [a|l IH|l IH|l IH|l IH|m k fs IH] using pv_ind2; intros H; inversion H as [a' H1 H2|l' H1|l' H1|l' H1|l' H1|m' k' fs' H1 H2]; subst; cbn [strip]; try (intros Ho; inversion Ho; fail).
  - apply no_splice_list. apply Forall_map. rewrite Forall_forall in *. intros x Hx. exact (IH x Hx (H1 x Hx)).
  - apply no_splice_node. split.
    + destruct H1 as [H1| ->]; [intros ->; discriminate H1|discriminate].
    + apply Forall_map. rewrite Forall_forall in *. intros [f v] Hx. exact (IH _ Hx (H2 _ Hx)).
Qed.
Lemma whole_placed x : whole x -> no_splice (strip x) -> placed (strip x).
Proof.
  induction x as [a|l IH|l IH|l IH|l IH|m k fs IH] using pv_ind2; intros H Hn; inversion H as [l' H1|m' k' fs' H1]; subst; cbn [strip] in *.
  - constructor. apply no_splice_list in Hn. clear H. induction l as [|x l IHl]; [constructor|]. cbn [map] in *. inversion H1 as [|? ? [A1 A2] A3]; inversion IH; inversion Hn; subst. apply pi_item; [destruct x; exact A1 || exact I|auto|auto].
  - apply no_splice_node in Hn as Hn'. destruct Hn' as [Hk Hn']. destruct (is_glob k) eqn:G; [apply pl_glob; assumption|]. apply pl_node; [exact G|exact Hk|]. specialize (H1 eq_refl). clear H Hn.
    induction fs as [|[f v] fs IHl]; [constructor|]. cbn [map] in *. inversion H1 as [|? ? W1 W2]; inversion IH; inversion Hn'; subst. cbn [snd] in *. destruct v; try (apply pf_other; [exact I|assumption|apply IHl; assumption]). destruct W1 as [[]|W1]. cbn [strip] in *. apply pf_list; [auto|auto].
Qed.

(** For every tree without unquotes whose constants are not complex, and without [**] in dictionary displays: the quasiquote compiles,
    and running it gives the tree, but without source locations. Whether or not the expander has macros. *)
Theorem C41_quote_faithful_partial is_expr is_stmt user_marker has_attr parse_expr ext cm fn x :
  quotable user_marker x -> whole x ->
  exists c, q user_marker has_attr cm fn x = Ok c /\ eval is_expr is_stmt user_marker has_attr parse_expr ext c = Ok (strip x).
Proof.
  intros H W. destruct (astify_faithful is_expr is_stmt user_marker has_attr parse_expr ext cm x H) as (c & E1 & E2 & E3 & E4). unfold q. rewrite E1.
  assert (T : has_marker_top is_quasi c = false) by (destruct c; try destruct E4; exact E3). rewrite T. eexists. split; [reflexivity|].
  pose proof (quotable_no_splice _ _ H) as Hn. pose proof (whole_placed x W Hn) as Hp. destruct (proj1 placed_doit _ Hp) as (t' & D & _). rewrite (doit_id _ _ D Hn) in D.
  cbn. rewrite E2. cbn. unfold splice_ast_literals. rewrite D, (no_splice_top _ Hn). reflexivity.
Qed.
Print Assumptions C41_quote_faithful_partial.

(** The same for the compiler alone, for every value; and uncompiling gives the value back, with its source locations. *)
Theorem C41_astify_faithful_partial is_expr is_stmt user_marker has_attr parse_expr ext cm x : quotable user_marker x ->
  exists c, astify user_marker has_attr cm x = Ok c /\
    eval is_expr is_stmt user_marker has_attr parse_expr ext c = Ok (strip x) /\
    (call_located has_attr -> located has_attr x -> unastify has_attr c = Ok x).
Proof.
  intros H. destruct (astify_faithful is_expr is_stmt user_marker has_attr parse_expr ext cm x H) as (c & E1 & E2 & _). exists c. split; [exact E1|]. split; [exact E2|].
  intros HC HL. exact (unastify_astify is_expr is_stmt user_marker has_attr parse_expr cm x HC H HL c E1).
Qed.
Print Assumptions C41_astify_faithful_partial.

(** print(1.5, x) with locations, and a call with a missing keywords field; the hypotheses hold. *)
Definition x_tree : pv :=
  PN (mkLoc (Some 3) (Some 0) (Some 3) (Some 9))%Z "Call"
    [("func"%string, PN (mkLoc (Some 3) (Some 0) None None)%Z "Name" [("id"%string, str "print"); ("ctx"%string, nd "Load" [])]);
     ("args"%string, PL [PN (mkLoc (Some 4) (Some 2) None None)%Z "Constant" [("value"%string, PA (AFloat "1.5")); ("kind"%string, PA ANone)]; x_name "x"])].
Ltac x_quotable := repeat first [apply qt_node; [left; reflexivity|] | apply qt_list | apply qt_atom; intros; discriminate | constructor | cbn [snd]].
Example C41_example :
  quotable x_user x_tree /\ whole x_tree /\ call_located x_attr /\ located x_attr x_tree /\
  (exists c, x_q (fun _ => None) "f.py" x_tree = Ok c /\ x_eval c = Ok (strip x_tree)) /\
  (exists c, astify x_user x_attr (fun _ => None) x_tree = Ok c /\ unastify x_attr c = Ok x_tree /\ strip x_tree <> x_tree).
Proof.
  assert (Q : quotable x_user x_tree) by (unfold x_tree, x_name, nd, str; x_quotable).
  assert (W : whole x_tree) by (unfold x_tree, x_name, nd, str; repeat first [apply wh_node; intros _ | apply wh_list | split | exact I | left; exact I | right; apply wh_list | constructor | cbn [snd]]).
  assert (CL : call_located x_attr) by (repeat split; try reflexivity).
  assert (L : located x_attr x_tree) by (unfold x_tree, x_name, nd, str; repeat first [apply lc_node; [vm_compute; congruence ..|] | apply lc_list | apply lc_atom | constructor | cbn [snd]]).
  repeat (split; [assumption|]). split; eexists; (split; [vm_compute; reflexivity|]); [vm_compute; reflexivity|]. split; [vm_compute; reflexivity|discriminate].
Qed.

(** ** C42 *)
(** Refuted: {**a[t]} does not work, whatever the AST t is: the quasiquote compiles, but gives an error. *)
Theorem C42_unquotes_refuted : exists x t body fn,
  x = nd "Dict" [("keys"%string, PL [PA ANone]); ("values"%string, PL [nd "ASTLiteral" [("body"%string, body); ("syntax"%string, str "expr")]])] /\
  x_eval body = Ok t /\ t = x_name "tt" /\ forall cm, exists c, x_q cm fn x = Ok c /\ x_eval c = Err type_err.
Proof.
  exists (nd "Dict" [("keys"%string, PL [PA ANone]); ("values"%string, PL [nd "ASTLiteral" [("body"%string, x_name "t"); ("syntax"%string, str "expr")]])]), (x_name "tt"), (x_name "t"), "f.py"%string.
  split; [reflexivity|]. split; [vm_compute; reflexivity|]. split; [reflexivity|]. intros cm. eexists. split; [reflexivity|]. vm_compute. reflexivity.
Qed.
Print Assumptions C42_unquotes_refuted.

(** With [subst] (QuoteSpec2.v), which says what each unquote should give: the quasiquote compiles and gives exactly that tree.
    Missing: hygienic unquotes (C44), nested quotes, and those places that [subst] leaves out. *)
Theorem C42_unquotes_partial is_expr is_stmt user_marker has_attr parse_expr ext cm fn x z :
  subst is_expr is_stmt user_marker has_attr parse_expr (eval is_expr is_stmt user_marker has_attr parse_expr ext) true x z ->
  exists c, q user_marker has_attr cm fn x = Ok c /\ eval is_expr is_stmt user_marker has_attr parse_expr ext c = Ok z.
Proof. apply q_run. Qed.
Print Assumptions C42_unquotes_partial.

(** The AST that u[] puts there evaluates to the value (a node in the value loses its source location). *)
Theorem C42_u_value is_expr is_stmt user_marker has_attr parse_expr ext cm v c :
  quotable user_marker v -> astify user_marker has_attr cm v = Ok c ->
  eval is_expr is_stmt user_marker has_attr parse_expr ext c = Ok (strip v).
Proof. intros H E. destruct (astify_faithful is_expr is_stmt user_marker has_attr parse_expr ext cm v H) as (c' & E1 & E2 & _). rewrite E in E1. injection E1 as <-. exact E2. Qed.
Print Assumptions C42_u_value.

(** f(u[v], a[lst], n[s]) + ... in a list of statements with a[stmts]. *)
Definition x_mark (k : string) (v : string) (more : list (string * pv)) : pv := nd k (("body"%string, x_name v) :: more).
Definition x_block : pv :=
  PL [nd "Expr" [("value"%string, nd "BinOp" [("left"%string, x_mark "ASTLiteral" "t" [("syntax"%string, str "expr")]); ("op"%string, nd "Add" []); ("right"%string, x_mark "LiftSourcecode" "s" [("filename"%string, str "f.py")])])];
      x_mark "ASTLiteral" "stmts" [("syntax"%string, str "block")];
      nd "If" [("test"%string, x_mark "Unquote" "v" []); ("body"%string, PL [x_mark "ASTLiteral" "stmts" [("syntax"%string, str "block")]; nd "Pass" []]); ("orelse"%string, PL [nd "Expr" [("value"%string, x_mark "ASTTuple" "lst" [])]])]].
Definition x_result : pv :=
  PL [nd "Expr" [("value"%string, nd "BinOp" [("left"%string, x_name "tt"); ("op"%string, nd "Add" []); ("right"%string, x_name "ss")])];
      nd "Pass" []; nd "Expr" [("value"%string, x_name "p")];
      nd "If" [("test"%string, nd "Constant" [("value"%string, PA (AInt 42))]); ("body"%string, PL [nd "Pass" []; nd "Expr" [("value"%string, x_name "p")]; nd "Pass" []]);
               ("orelse"%string, PL [nd "Expr" [("value"%string, nd "Tuple" [("elts"%string, PL [x_name "p"; x_name "q"])])]])]].
Lemma x_unmarked s : unmarked (x_name s).
Proof.
  split; [exact I|]. intros k Hk Ho. unfold x_name, nd, str in Ho. assert (K : k = "Name"%string \/ k = "Load"%string).
  { inversion Ho; subst; [auto|]. match goal with Hin : In _ _ |- _ => destruct Hin as [E|[E|[]]]; injection E as <- <- end; match goal with Hv : occurs _ (PA _) |- _ => inversion Hv | Hv : occurs _ (PN _ _ []) |- _ => inversion Hv; subst; [auto|contradiction] end. }
  destruct K as [-> | ->]; cbn in Hk; repeat (destruct Hk as [Hk|Hk]; [discriminate|]); destruct Hk.
Qed.
Ltac x_ns := repeat first [apply no_splice_node; split; [discriminate|] | progress cbn [snd] | intros Ho; inversion Ho; fail | apply Forall_nil | apply Forall_cons].
Lemma x_inert r s : inert r (x_name s).
Proof.
  split; [exact I|]. split; [unfold x_name, nd, str; x_ns|]. intros _. apply pl_node; [reflexivity|discriminate|]. repeat (apply pf_other; [exact I|unfold nd, str; x_ns|]). constructor.
Qed.
Lemma x_inert2 r : inert r (nd "Expr" [("value"%string, x_name "p")]).
Proof. split; [exact I|]. split; [unfold x_name, nd, str; x_ns|]. intros _. apply pl_node; [reflexivity|discriminate|]. apply pf_other; [exact I|unfold x_name, nd, str; x_ns|]. constructor. Qed.
Lemma x_inert3 r : inert r (nd "Pass" []).
Proof. split; [exact I|]. split; [unfold nd; x_ns|]. intros _. apply pl_node; [reflexivity|discriminate|]. constructor. Qed.
Lemma x_stmts : nodes_of (PL [nd "Pass" []; nd "Expr" [("value"%string, x_name "p")]]) [nd "Pass" []; nd "Expr" [("value"%string, x_name "p")]].
Proof. apply (no_list _ [[nd "Pass" []]; [nd "Expr" [("value"%string, x_name "p")]]]). repeat constructor. Qed.
Lemma x_lst : nodes_of (PL [x_name "p"; x_name "q"]) [x_name "p"; x_name "q"].
Proof. apply (no_list _ [[x_name "p"]; [x_name "q"]]). repeat constructor. Qed.
Example C42_example : subst x_expr x_stmt x_user x_attr x_parse x_eval true x_block x_result /\
  exists c, x_q (fun _ => None) "f.py" x_block = Ok c /\ x_eval c = Ok x_result.
Proof.
  assert (S : subst x_expr x_stmt x_user x_attr x_parse x_eval true x_block x_result).
  { apply su_list. apply ss_item; [intros _; exact I| |].
    - apply su_node; [left; reflexivity|]. apply sfl_other; [exact I| |constructor]. apply su_node; [left; reflexivity|].
      apply sfl_other; [exact I|apply su_a; [apply x_unmarked|vm_compute; reflexivity|split; reflexivity|apply x_inert]|].
      apply sfl_other; [exact I|apply su_node; [left; reflexivity|constructor]|].
      apply sfl_other; [exact I|eapply su_n; [apply x_unmarked|vm_compute; reflexivity|reflexivity|apply x_inert]|constructor].
    - apply (ss_splice _ _ _ _ _ _ (x_name "stmts") "block" _ [nd "Pass" []; nd "Expr" [("value"%string, x_name "p")]] _ _ (x_unmarked _) (or_intror eq_refl) eq_refl x_stmts).
      { repeat constructor. } { constructor; [apply x_inert3|constructor; [apply x_inert2|constructor]]. }
      apply ss_item; [intros _; exact I| |constructor]. apply su_node; [left; reflexivity|].
      apply sfl_other; [exact I| |].
      { apply (su_u _ _ _ _ _ _ _ _ (PA (AInt 42))); [apply x_unmarked|vm_compute; reflexivity|apply qt_atom; intros; discriminate|reflexivity]. }
      apply sfl_list; [|apply sfl_list; [|constructor]].
      + apply su_list. apply (ss_splice _ _ _ _ _ _ (x_name "stmts") "block" _ [nd "Pass" []; nd "Expr" [("value"%string, x_name "p")]] _ [nd "Pass" []] (x_unmarked _) (or_intror eq_refl) eq_refl x_stmts).
        { repeat constructor. } { constructor; [apply x_inert3|constructor; [apply x_inert2|constructor]]. }
        apply ss_item; [intros _; exact I| |constructor]. apply su_node; [left; reflexivity|constructor].
      + apply su_list. apply ss_item; [intros _; exact I| |constructor]. apply su_node; [left; reflexivity|]. apply sfl_other; [exact I| |constructor].
        apply (su_t _ _ _ _ _ _ _ _ [x_name "p"; x_name "q"]); [apply x_unmarked|left; vm_compute; reflexivity|exact x_lst|repeat constructor|constructor; [apply x_inert|constructor; [apply x_inert|constructor]]]. }
  split; [exact S|]. exact (C42_unquotes_partial x_expr x_stmt x_user x_attr x_parse x_ext (fun _ => None) "f.py" x_block x_result S).
Qed.

(** ** C43 *)
(** Refuted: f(a[lst]) + 1 gives an error: the splice is inside an argument list that is not reached through list fields. *)
Definition x_call : pv := nd "Call" [("func"%string, x_name "f"); ("args"%string, PL [x_mark "ASTLiteral" "lst" [("syntax"%string, str "expr")]]); ("keywords"%string, PL [])].
Definition x_sum : pv := nd "BinOp" [("left"%string, x_call); ("op"%string, nd "Add" []); ("right"%string, nd "Constant" [("value"%string, PA (AInt 1))])].
Theorem C43_splices_anywhere_refuted : exists x x' c c',
  x_q (fun _ => None) "f.py" x = Ok c /\ x_eval c = Ok (nd "Call" [("func"%string, x_name "f"); ("args"%string, PL [x_name "p"; x_name "q"]); ("keywords"%string, PL [])]) /\
  x' = nd "BinOp" [("left"%string, x); ("op"%string, nd "Add" []); ("right"%string, nd "Constant" [("value"%string, PA (AInt 1))])] /\
  x_q (fun _ => None) "f.py" x' = Ok c' /\ x_eval c' = Err (mkExn "RuntimeError" []).
Proof. exists x_call, x_sum. eexists _, _. split; [vm_compute; reflexivity|]. split; [vm_compute; reflexivity|]. split; [reflexivity|]. split; [vm_compute; reflexivity|vm_compute; reflexivity]. Qed.
Print Assumptions C43_splices_anywhere_refuted.

(** When the splicer returns, no splice node remains anywhere, and the tree is the given one with each splice node replaced by its
    nodes in its place, and nothing else changed. *)
Theorem C43_no_splice_left t t' : flatlists t -> splice_ast_literals t = Ok t' -> ~ occurs "SpliceNodes" t' /\ spliced t t'.
Proof.
  intros Hf E. unfold splice_ast_literals in E. destruct (doit t) as [t1|] eqn:D; [|discriminate]. destruct (has_marker_top is_splice t1) eqn:T; [discriminate|]. injection E as <-.
  assert (N : no_splice t1). { intros Ho. rewrite (occurs_has_marker is_splice "SpliceNodes" t1 eq_refl (proj1 (doit_flat t t1 D Hf)) Ho) in T. discriminate. }
  split; [exact N|]. exact (proj1 (doit_spliced t t1 D) N).
Qed.
Print Assumptions C43_no_splice_left.

(** It returns if splice nodes are only in lists that are reached through lists and list fields ([placed]). Missing: other places. *)
Theorem C43_splices_anywhere_partial t : placed t -> exists t', splice_ast_literals t = Ok t' /\ ~ occurs "SpliceNodes" t'.
Proof.
  intros H. destruct (proj1 placed_doit t H) as (t' & D & N). exists t'. unfold splice_ast_literals. rewrite D, (no_splice_top _ N). split; [reflexivity|exact N].
Qed.
Print Assumptions C43_splices_anywhere_partial.

(** A body with two splices, one of them in a nested block, and an empty one. *)
Definition x_splice (l : list pv) : pv := nd "SpliceNodes" [("body"%string, PL l)].
Definition x_spl : pv := PL [x_splice [nd "Pass" []; nd "Pass" []]; nd "If" [("test"%string, x_name "c"); ("body"%string, PL [nd "Pass" []; x_splice [nd "Expr" [("value"%string, x_name "p")]]]); ("orelse"%string, PL [x_splice []])]].
Example C43_example : flatlists x_spl /\ placed x_spl /\
  splice_ast_literals x_spl = Ok (PL [nd "Pass" []; nd "Pass" []; nd "If" [("test"%string, x_name "c"); ("body"%string, PL [nd "Pass" []; nd "Expr" [("value"%string, x_name "p")]]); ("orelse"%string, PL [])]]).
Proof.
  split; [|split; [|vm_compute; reflexivity]].
  - unfold x_spl, x_splice, x_name, nd, str. repeat first [apply fl_node | apply fl_list | apply fl_atom | split | exact I | constructor | cbn [snd]].
  - unfold x_spl, x_splice. apply pl_list. apply pi_splice; [repeat (apply pi_item; [exact I|apply pl_node; [reflexivity|discriminate|constructor]|]); constructor|].
    apply pi_item; [exact I| |constructor]. apply pl_node; [reflexivity|discriminate|]. apply pf_other; [exact I|unfold x_name, nd, str; x_ns|].
    apply pf_list; [apply pl_list; apply pi_item; [exact I|apply pl_node; [reflexivity|discriminate|constructor]|]; apply pi_splice; [|constructor]; apply pi_item; [exact I|exact (proj2 (proj2 (x_inert2 true)) eq_refl)|constructor]|].
    apply pf_list; [apply pl_list; apply pi_splice; constructor|constructor].
Qed.
