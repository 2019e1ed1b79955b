(** C56: expand1s, expands, expand1sq, expandsq. *)
From Verif Require Import Base AstLib UtilsModel FixLocModel MarkersModel QuoteModel ExpanderModel ExpanderSpec ExpanderProofs ExpanderCheck QuoteSpec QuoteSpec2 QuoteProofs QuoteProofs2 QuoteProofs3 QuoteProps NestModel NestSpec NestCheck NestProofs NestProofs2 NestProofs4 NestProofs10 NestProps MetaModel MetaProofs MetaProofs2 MetaProofs3.

Section Statements.
  Variables (user_marker : string -> bool) (has_attr : string -> string -> bool).
  Variables (filename : string) (unparse : ltree -> string) (idx : op -> nat) (others : nat -> mdef nat).
  Variables (unique : string -> string) (pickled : nat -> string).
  Variables (loc_text : ltree -> string) (cov_text : loc -> string -> string) (isexc : exn -> bool).
  Notation E := (nest_env user_marker has_attr filename unparse idx others unique pickled loc_text cov_text isexc).
  (** [once = true]: expand1s, expand1sq; [once = false]: expands, expandsq. *)
  Notation expands := (expands_prog user_marker has_attr filename idx unique pickled).
  Notation expandsq := (expandsq_prog user_marker has_attr filename idx unique pickled).
  Notation code := (quoted_code user_marker has_attr filename unique pickled).
  Notation nest b := (nest (meaning idx b) (code (quasi_only idx b)) filename unparse cov_text).
  (** Outside any quote, the expander with the bindings [b], in recursive mode or not, turns [t] into [r] (or raises). *)
  Definition turns_into (b : binds) (rec : bool) (t : ltree) (r : xres ltree) : Prop :=
    forall log, exists log', exists N, forall n, N <= n -> visit E n t (mkSt b rec 0 log) = Some (r, mkSt b rec 0 log').
  (** Trees without unquotes that reach outside of them, made of what can be quoted (see C41), with source locations where
      Python's nodes have them. *)
  Definition plain_code (b : binds) (t : ltree) : Prop :=
    is_node t = true /\ source (meaning idx b) t /\ balanced (meaning idx b) 0 t /\ quotable user_marker (to_pv t) /\ located has_attr (to_pv t).

  (** [expands[q[t]]] outside any quote, where [x] is the name of [q]: the result is the code for what the expander turns [t] into, with all
      macros of the module, however it was called itself. For [expand1s], one layer is expanded. If the expansion raises, so does the
      macro. *)
  Theorem C56_expands_partial once b m fs c x t r args vars target rec log :
    call_located has_attr -> shaped (Nd m "Subscript" fs) -> getf "value" fs = Some c -> denotes c x [] -> kind_of c = "Name"%string -> getf "slice" fs = Some t ->
    x <> ""%string -> bound b x (idx Oq) -> plain_code b t -> turns_into b (negb once) t r ->
    (forall t2, r = XOk t2 -> is_node t2 = true /\ source (meaning idx b) t2) ->
    exists r' log', (exists N, forall n, N <= n -> run (visit E n) n (expands once (mkIn "expr" (Nd m "Subscript" fs) args vars target)) (mkSt b rec 0 log) = Some (r', mkSt b rec 0 log')) /\
      match r with
      | XRaise e => r' = XRaise e
      | XOk t2 => match nest b 1 t2 with
                  | Some l => match code b (pack l) with Some c2 => r' = XOk c2 | None => exists e, r' = XRaise e end
                  | None => exists e, r' = XRaise e
                  end
      end.
  Proof.
    intros HC Hs Hc Hd Hk Hsl Hx Hb (Hn & Hso & Hba & HQ & HL) Ht H2. destruct (code_back user_marker has_attr filename unique pickled b t HC HQ HL) as (d & Hd1 & Hd2 & Hd3).
    pose proof (C55_inner_quote_kept user_marker has_attr filename unparse idx unique pickled cov_text b t 0 Hn Hba) as Hne.
    refine (expands_code user_marker has_attr filename unparse idx others unique pickled loc_text cov_text isexc b once _ t d args vars target rec log r _ Hd2 Ht H2 (bound_quasi idx b x Hb)).
    intros log0. exact (visit_quote user_marker has_attr filename unparse idx others unique pickled loc_text cov_text isexc b m fs c x t log0 Hs Hc Hd Hk Hsl Hx Hb Hn Hso Hne d Hd1 Hd3).
  Qed.

  (** [expandsq[t]] and [expand1sq[t]]: the same, if the operator [q] is bound under some name (and [mcpyrate] is not the name of a name
      macro). *)
  Theorem C56_expandsq_partial once b x t r args target rec log :
    call_located has_attr -> bound b x (idx Oq) -> (forall i, bound b "mcpyrate" i -> m_isname (x_macro E i) = false) ->
    plain_code b t -> turns_into b (negb once) t r ->
    (forall t2, r = XOk t2 -> is_node t2 = true /\ source (meaning idx b) t2) ->
    exists r' log', (exists N, forall n, N <= n -> run (visit E n) n (expandsq once (mkIn "expr" t args None target)) (mkSt b rec 0 log) = Some (r', mkSt b rec 0 log')) /\
      match r with
      | XRaise e => r' = XRaise e
      | XOk t2 => match nest b 1 t2 with
                  | Some l => match code b (pack l) with Some c2 => r' = XOk c2 | None => exists e, r' = XRaise e end
                  | None => exists e, r' = XRaise e
                  end
      end.
  Proof.
    intros HC Hb Hmc (Hn & Hso & Hba & HQ & HL) Ht H2. destruct (code_back user_marker has_attr filename unique pickled b t HC HQ HL) as (d & Hd1 & Hd2 & Hd3).
    pose proof (C55_inner_quote_kept user_marker has_attr filename unparse idx unique pickled cov_text b t 0 Hn Hba) as Hne. pose proof (bound_quasi idx b x Hb) as Hq.
    destruct (q_expr user_marker has_attr filename unparse idx others unique pickled loc_text cov_text isexc b Hq t args None target rec log Hn Hso) as (r1 & l1 & R1 & O).
    change (NestProofs2.code user_marker has_attr filename unique pickled) with code in O. rewrite Hne in O. cbn [pack] in O. rewrite Hd1 in O. subst r1.
    destruct (expands_code user_marker has_attr filename unparse idx others unique pickled loc_text cov_text isexc b once d t d args None target rec l1 r) as (r' & l2 & R2 & O2); [|exact Hd2|exact Ht|exact H2|exact Hq|].
    { intros log0. exists log0. apply (visit_code user_marker has_attr filename unparse idx others unique pickled loc_text cov_text isexc b d false log0 (code_sqb user_marker has_attr filename unparse idx others unique pickled loc_text cov_text isexc b Hmc b t d HQ Hd1) Hd3). }
    exists r', l2. split; [|exact O2]. destruct R1 as [N1 R1]. destruct R2 as [N2 R2]. exists (N1 + N2). intros n Hle. replace n with (N1 + (n - N1)) by lia.
    assert (up : forall n0 p s y, n0 <= N1 + (n - N1) -> run (visit E n0) n0 p s = Some y -> run (visit E (N1 + (n - N1))) n0 p s = Some y).
    { intros n0 p s y Hn0 Hy. eapply below_run; [|apply Nat.le_refl|exact Hy]. intros tt s0 z Hz. eapply visit_mono_le; [|exact Hz]. exact Hn0. }
    change (expandsq once (mkIn "expr" t args None target)) with (bindp (q_prog user_marker has_attr filename idx unique pickled (mkIn "expr" t args None target)) (fun r => match r with XRaise e => Raise e | XOk t0 => expands once (mkIn "expr" t0 args None target) end)).
    eapply run_bindp; [apply up; [lia|exact (R1 N1 (Nat.le_refl _))]|]. cbv iota. apply up; [lia|]. apply R2. lia.
  Qed.

  (** When the resulting code is run, it gives what the expander has turned [t] into (without source locations, see C41). *)
  Theorem C56_value_partial is_expr is_stmt parse_expr ext once b m fs c x t t2 args vars target rec log :
    call_located has_attr -> shaped (Nd m "Subscript" fs) -> getf "value" fs = Some c -> denotes c x [] -> kind_of c = "Name"%string -> getf "slice" fs = Some t ->
    x <> ""%string -> bound b x (idx Oq) -> plain_code b t -> turns_into b (negb once) t (XOk t2) ->
    is_node t2 = true -> source (meaning idx b) t2 -> balanced (meaning idx b) 0 t2 -> quotable user_marker (to_pv t2) -> whole (to_pv t2) ->
    exists c2 log', (exists N, forall n, N <= n -> run (visit E n) n (expands once (mkIn "expr" (Nd m "Subscript" fs) args vars target)) (mkSt b rec 0 log) = Some (XOk c2, mkSt b rec 0 log')) /\
      eval is_expr is_stmt user_marker has_attr parse_expr ext (to_pv c2) = Ok (strip (to_pv t2)).
  Proof.
    intros HC Hs Hc Hd Hk Hsl Hx Hb Hp Ht Hn2 Hs2 Hb2 Hq2 Hw2.
    destruct (C56_expands_partial once b m fs c x t (XOk t2) args vars target rec log HC Hs Hc Hd Hk Hsl Hx Hb Hp Ht) as (r' & log' & R & O). { intros t3 H3. inversion H3; subst. auto. }
    rewrite (C55_inner_quote_kept user_marker has_attr filename unparse idx unique pickled cov_text b t2 0 Hn2 Hb2) in O. cbn [pack] in O. unfold quoted_code in O.
    destruct (C41_quote_faithful_partial is_expr is_stmt user_marker has_attr parse_expr ext (captures_in unique pickled b) filename (to_pv t2) Hq2 Hw2) as (c2 & Q & Ev). rewrite Q in O. subst r'.
    exists (of_pv c2), log'. split; [exact R|]. rewrite (q_tp _ _ _ _ _ _ _ _ Q). exact Ev.
  Qed.

  (** The block variants never return, for any input: outside any quote, each of the four raises an exception (if it returns control at
      all), whatever the macros do, as long as these leave the quote level alone (as the quasiquote operators and the four macros themselves
      do, see C56_level). *)
  Theorem C56_block_raises : (forall i inp, pkeepsu (m_run (others i) inp)) ->
    forall once i n k s r s', in_syntax i = "block"%string -> s_u s = 0 ->
      (run (visit E n) k (expands once i) s = Some (r, s') -> exists e, r = XRaise e) /\
      (run (visit E n) k (expandsq once i) s = Some (r, s') -> exists e, r = XRaise e).
  Proof.
    intros Hp once i n k s r s' Hs Hu. split; intros H.
    - exact (expands_block user_marker has_attr filename unparse idx others unique pickled loc_text cov_text isexc Hp once i n k s r s' Hs Hu H).
    - exact (expandsq_block user_marker has_attr filename unparse idx others unique pickled loc_text cov_text isexc Hp once i n k s r s' Hs Hu H).
  Qed.
  (** However these macros end, the quote level is as before, if that holds for the expander's visits. *)
  Theorem C56_level once i : pkeepsu (expands once i) /\ pkeepsu (expandsq once i).
  Proof. split; [exact (expands_level user_marker has_attr filename unparse idx others unique pickled once i)|exact (expandsq_level user_marker has_attr filename unparse idx others unique pickled once i)]. Qed.
End Statements.
Print Assumptions C56_expands_partial.
Print Assumptions C56_expandsq_partial.
Print Assumptions C56_value_partial.
Print Assumptions C56_block_raises.
Print Assumptions C56_level.

(** ** Examples *)
(** The macros of C55's examples; [m] returns its argument. *)
Definition z_expands (once : bool) := expands_prog x_user x_attr "f.py" y_idx (fun s => s) (fun _ => "pickle"%string) once.
Definition z_expandsq (once : bool) := expandsq_prog x_user x_attr "f.py" y_idx (fun s => s) (fun _ => "pickle"%string) once.
Definition z_run (p : prog nat) : option (xres ltree) := match run (visit y_env 60) 60 p (mkSt y_b false 0 []) with Some (r, mkSt _ _ 0 _) => Some r | _ => None end.
Definition z_value (p : prog nat) : option (res pv) := match z_run p with Some (XOk c) => Some (x_eval (to_pv c)) | _ => None end.
(** a + m[m[b]] *)
Definition z_tree : ltree := y_add (y_name "a") (y_sub "m" (y_sub "m" (y_name "b"))).
Lemma z_ev rec t r : (forall n s, s_b s = y_b -> s_rec s = rec -> s_u s = 0 -> exists l, visit y_env (20 + n) t s = Some (r, mkSt y_b rec 0 l)) -> turns_into x_user x_attr "f.py" (fun _ => "src"%string) y_idx y_others (fun s => s) (fun _ => "pickle"%string) (fun _ => ""%string) y_cov (fun _ => true) y_b rec t r.
Proof.
  intros H log. destruct (H 0 (mkSt y_b rec 0 log) eq_refl eq_refl eq_refl) as [l Hl]. exists l, 20. intros n Hn. apply (visit_mono_le y_env 20 n t Hn _ _ Hl).
Qed.
Lemma z_turns_rec : turns_into x_user x_attr "f.py" (fun _ => "src"%string) y_idx y_others (fun s => s) (fun _ => "pickle"%string) (fun _ => ""%string) y_cov (fun _ => true) y_b true z_tree (XOk (y_add (y_name "a") (y_name "b"))).
Proof. apply z_ev. intros n [b' r' u' l'] Hb Hr Hu. cbn in Hb, Hr, Hu. subst. eexists. vm_compute. reflexivity. Qed.
Lemma z_turns_once : turns_into x_user x_attr "f.py" (fun _ => "src"%string) y_idx y_others (fun s => s) (fun _ => "pickle"%string) (fun _ => ""%string) y_cov (fun _ => true) y_b false z_tree (XOk (y_add (y_name "a") (y_sub "m" (y_name "b")))).
Proof. apply z_ev. intros n [b' r' u' l'] Hb Hr Hu. cbn in Hb, Hr, Hu. subst. eexists. vm_compute. reflexivity. Qed.
Ltac z_quot := first
  [ apply qt_atom; intros ? ?; discriminate
  | apply qt_list; repeat (apply Forall_cons; [z_quot|]); apply Forall_nil
  | apply qt_node; [left; reflexivity|]; repeat (apply Forall_cons; [cbn [snd]; z_quot|]); apply Forall_nil ].
Ltac z_loc := first
  [ apply lc_atom | apply lc_list; repeat (apply Forall_cons; [z_loc|]); apply Forall_nil
  | apply lc_node; [reflexivity|reflexivity|reflexivity|reflexivity|]; repeat (apply Forall_cons; [cbn [snd]; z_loc|]); apply Forall_nil ].
Lemma z_plain : plain_code x_user x_attr y_idx y_b z_tree.
Proof.
  split; [reflexivity|]. split; [apply sourceb_ok; vm_compute; reflexivity|]. split; [unfold z_tree, y_add, y_sub, y_name, y_ld; y_bal|]. split; [cbn; z_quot|cbn; z_loc].
Qed.
(** expands[q[a + m[m[b]]]] and expandsq[a + m[m[b]]] evaluate to the AST of a + b; with expand1s, of a + m[b]. *)
Example C56_example :
  call_located x_attr /\ shaped (y_sub "q" z_tree) /\ bound y_b "q" (y_idx Oq) /\ plain_code x_user x_attr y_idx y_b z_tree /\
  (forall i, bound y_b "mcpyrate" i -> m_isname (x_macro y_env i) = false) /\
  whole (to_pv (y_add (y_name "a") (y_name "b"))) /\ quotable x_user (to_pv (y_add (y_name "a") (y_name "b"))) /\
  (forall i inp, pkeepsu (m_run (y_others i) inp)) /\
  z_value (z_expands false (mkIn "expr" (y_sub "q" z_tree) None None NoneT)) = Some (Ok (to_pv (y_add (y_name "a") (y_name "b")))) /\
  z_value (z_expands true (mkIn "expr" (y_sub "q" z_tree) None None NoneT)) = Some (Ok (to_pv (y_add (y_name "a") (y_sub "m" (y_name "b"))))) /\
  z_value (z_expandsq false (mkIn "expr" z_tree None None NoneT)) = Some (Ok (to_pv (y_add (y_name "a") (y_name "b")))) /\
  z_value (z_expandsq true (mkIn "expr" z_tree None None NoneT)) = Some (Ok (to_pv (y_add (y_name "a") (y_sub "m" (y_name "b"))))).
Proof.
  split; [repeat split; reflexivity|]. split; [apply shapedb_ok; vm_compute; reflexivity|]. split; [exists [("m"%string, 3)]; eexists; split; [reflexivity|intros [H|[]]; discriminate]|].
  split; [exact z_plain|]. split; [|split; [|split; [cbn; z_quot|split; [|split; [vm_compute; reflexivity|split; [vm_compute; reflexivity|split; vm_compute; reflexivity]]]]]].
  - intros i (b1 & b2 & Hb & _). exfalso. assert (K : In ("mcpyrate"%string, i) y_b) by (rewrite Hb; apply in_app_iff; right; left; reflexivity). cbn in K. repeat (destruct K as [K|K]; [discriminate|]). destruct K.
  - repeat constructor.
  - intros i inp k v s r s' _ H. destruct k; [discriminate|]. inversion H; subst. reflexivity.
Qed.

(** ** Refuted *)
(** [with expandsq as out: m[b]] raises TypeError, though the tree is fine; likewise with [expand1sq]; [with expands: out = q[m[b]]] and [with expand1s:], too. *)
Theorem C56_block_refuted : exists l args target, Forall (source (meaning y_idx y_b)) l /\ y_eval_block l <> None /\
  forall once, z_run (z_expandsq once (mkIn "block" (Ls l) args (Some (y_name "out")) target)) = Some (XRaise (plain type_err)).
Proof.
  exists [y_expr (y_sub "m" (y_name "b"))], None, NoneT. split; [apply Forall_cons; [apply sourceb_ok; vm_compute; reflexivity|apply Forall_nil]|]. split; [vm_compute; discriminate|]. intros []; vm_compute; reflexivity.
Qed.
Print Assumptions C56_block_refuted.
(** On a tree that is not quoted, the exception need not be a TypeError: expands[f()]. *)
Theorem C56_not_quoted_refuted : exists t args target e, is_node t = true /\ z_run (z_expands false (mkIn "expr" t args None target)) = Some (XRaise e) /\ e <> plain type_err.
Proof.
  exists (Nd noloc "Call" [("func"%string, y_name "f"); ("args"%string, Ls []); ("keywords"%string, Ls [])]), None, NoneT. eexists. split; [reflexivity|]. split; [vm_compute; reflexivity|discriminate].
Qed.
Print Assumptions C56_not_quoted_refuted.
