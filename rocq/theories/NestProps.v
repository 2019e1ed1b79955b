(** C55: nested quasiquotes. *)
From Verif Require Import Base AstLib UtilsModel FixLocModel MarkersModel QuoteModel ExpanderModel ExpanderSpec ExpanderProofs ExpanderCheck QuoteSpec QuoteSpec2 QuoteProofs QuoteProofs2 QuoteProofs3 QuoteProps NestModel NestSpec NestCheck NestProofs NestProofs2 NestProofs4 NestProofs5 NestProofs6 NestProofs9 NestProofs10.

Section Statements.
  Variables (user_marker : string -> bool) (has_attr : string -> string -> bool).
  Variables (filename : string) (unparse : ltree -> string) (idx : op -> nat) (others : nat -> mdef nat).
  Variables (unique : string -> string) (pickled : nat -> string).
  Variables (loc_text : ltree -> string) (cov_text : loc -> string -> string) (isexc : exn -> bool).
  Notation E := (nest_env user_marker has_attr filename unparse idx others unique pickled loc_text cov_text isexc).
  Notation q := (q_prog user_marker has_attr filename idx unique pickled).
  Notation unquote := (unquote_prog filename unparse idx others).
  Notation code := (quoted_code user_marker has_attr filename unique pickled).
  (** The body of a quote in a module with the macro bindings [b]. *)
  Notation nest b := (nest (meaning idx b) (code (quasi_only idx b)) filename unparse cov_text).
  Notation nest_items b := (nest_items (meaning idx b) (code (quasi_only idx b)) filename unparse cov_text).

  (** [q[t]], outside any other quote, in a module with the macro bindings [b], whatever the other macros are: the result is the code for
      the tree in which the unquotes that belong to this quote are replaced by their markers, and in which the inner quotes and the
      unquotes that belong to them are kept. If there is an unquote too many, or if something cannot be compiled, an exception
      is raised. In every case the bindings, the mode and the quote level are as before. *)
  Theorem C55_nested_expr_partial b t args vars target rec log : quasi_only idx b <> [] -> is_node t = true -> source (meaning idx b) t ->
    exists r log', (exists N, forall n, N <= n -> run (visit E n) n (q (mkIn "expr" t args vars target)) (mkSt b rec 0 log) = Some (r, mkSt b rec 0 log')) /\
      match nest b 1 t with
      | Some l => match code b (pack l) with Some c => r = XOk c | None => exists e, r = XRaise e end
      | None => exists e, r = XRaise e
      end.
  Proof. intros Hq Hn Hs. exact (q_expr user_marker has_attr filename unparse idx others unique pickled loc_text cov_text isexc b Hq t args vars target rec log Hn Hs). Qed.

  (** [with q as vars:], outside any other quote; the code is assigned to the variable. *)
  Theorem C55_nested_block_partial b l args vars target rec log : quasi_only idx b <> [] -> l <> [] -> Forall (fun x => is_node x = true) l -> Forall (source (meaning idx b)) l ->
    exists r log', (exists N, forall n, N <= n -> run (visit E n) n (q (mkIn "block" (Ls l) args vars target)) (mkSt b rec 0 log) = Some (r, mkSt b rec 0 log')) /\
      match nest_items b 1 l with
      | Some l1 => match code b (Ls l1), vars with
                   | Some c, Some v => if is_kind "Name" v then r = XOk (Nd noloc "Assign" [("targets"%string, Ls [v]); ("value"%string, c)]) else r = XRaise syntax_error
                   | Some _, None => r = XRaise syntax_error
                   | None, _ => exists e, r = XRaise e
                   end
      | None => exists e, r = XRaise e
      end.
  Proof. intros Hq Hne Hn Hs. exact (q_block user_marker has_attr filename unparse idx others unique pickled loc_text cov_text isexc b Hq l args vars target rec log Hne Hn Hs). Qed.

  (** With what C42 says about markers: when the code is run, it gives the tree in which the markers are replaced by what they stand for. *)
  Theorem C55_nested_value_partial is_expr is_stmt parse_expr ext b t l z args vars target rec log :
    quasi_only idx b <> [] -> is_node t = true -> source (meaning idx b) t -> nest b 1 t = Some l ->
    subst is_expr is_stmt user_marker has_attr parse_expr (eval is_expr is_stmt user_marker has_attr parse_expr ext) true (to_pv (pack l)) z ->
    exists c log', (exists N, forall n, N <= n -> run (visit E n) n (q (mkIn "expr" t args vars target)) (mkSt b rec 0 log) = Some (XOk c, mkSt b rec 0 log')) /\
      eval is_expr is_stmt user_marker has_attr parse_expr ext (to_pv c) = Ok z.
  Proof.
    intros Hq Hn Hs Hl Hz. destruct (C55_nested_expr_partial b t args vars target rec log Hq Hn Hs) as (r & log' & R & O). rewrite Hl in O.
    destruct (q_run is_expr is_stmt user_marker has_attr parse_expr ext (captures_in unique pickled b) filename _ _ Hz) as (c & Qc & Ec). unfold quoted_code in O. rewrite Qc in O. subst r.
    exists (of_pv c), log'. split; [exact R|]. rewrite (q_tp _ _ _ _ _ _ _ _ Qc). exact Ec.
  Qed.

  (** A tree whose unquotes all belong to its own quotes is kept as it is inside a quote (here: without quotes and unquotes in
      block mode, see C55_coverage_refuted). *)
  Lemma balanced_kept opn cd d t : balanced opn d t -> (forall lv, is_node t = true -> NestSpec.nest opn cd filename unparse cov_text (S (lv + d)) t = Some [t]) /\
    (forall lv l, t = Ls l -> NestSpec.nest_items opn cd filename unparse cov_text (S (lv + d)) l = Some l).
  Proof.
    revert d. induction t as [m k fs IH|l IH|a] using tree_ind2; intros d Hb.
    - split; [|discriminate]. intros lv _. inversion Hb as [| |? ? ? ? sl Ho Hsl Hi|? ? ? ? o sl Ho Hno Hsl Hi|? ? ? ? Ho Hbo Hf]; subst.
      + cbn [NestSpec.nest]. rewrite Ho. rewrite with_field_getf, Hsl. rewrite Forall_forall in IH. destruct (IH _ (getf_In _ _ _ Hsl)) as [IH1 _]. cbn [snd] in IH1. specialize (proj1 (IH1 _ Hi) lv) as K. replace (S (lv + S d)) with (S (S (lv + d))) in K by lia.
        destruct sl as [ms ks fsl| |]; [specialize (K eq_refl); rewrite K|cbn [NestSpec.nest]|cbn [NestSpec.nest]]; cbn [option_map pack]; rewrite (setf_same _ _ _ Hsl); reflexivity.
      + replace (S (lv + S d0)) with (S (S (lv + d0))) by lia. cbn [NestSpec.nest]. rewrite Ho. rewrite !with_field_getf, Hsl. rewrite Forall_forall in IH. destruct (IH _ (getf_In _ _ _ Hsl)) as [IH1 _]. cbn [snd] in IH1. specialize (proj1 (IH1 _ Hi) lv) as K.
        destruct o; try contradiction; (destruct sl as [ms ks fsl| |]; [specialize (K eq_refl); rewrite K|cbn [NestSpec.nest]|cbn [NestSpec.nest]]; cbn [option_map pack]; rewrite (setf_same _ _ _ Hsl); reflexivity).
      + cbn [NestSpec.nest]. rewrite Ho, Hbo.
        match goal with |- option_map _ (?F fs) = _ => enough (F fs = Some fs) as K by (rewrite K; reflexivity) end.
        clear Hb Ho Hbo. induction fs as [|[f v] fs IHf]; [reflexivity|]. inversion IH as [|? ? [Hv Hvl] HIH]; subst. cbn [snd] in Hv, Hvl. specialize (IHf HIH (fun g w Hin => Hf g w (or_intror Hin))).
        destruct (Hv d (Hf f v (or_introl eq_refl))) as [V1 V2]. destruct v as [mv kv fv|lv'|a].
        * rewrite (V1 lv eq_refl). cbn [option_map pack]. rewrite IHf. reflexivity.
        * specialize (V2 lv lv' eq_refl). unfold NestSpec.nest_items in V2. rewrite V2. cbn [option_map]. rewrite IHf. reflexivity.
        * rewrite IHf. reflexivity.
    - split; [discriminate|]. intros lv l0 El. inversion El; subst l0. inversion Hb as [|? ? Hl| | |]; subst. clear El Hb. induction l as [|x l IHl]; [reflexivity|]. inversion IH as [|? ? Hx HIH]; subst. cbn [NestSpec.nest_items]. fold (NestSpec.nest_items opn cd filename unparse cov_text (S (lv + d))).
      rewrite (IHl HIH (fun y Hy => Hl y (or_intror Hy))). destruct x as [mx kx fx| |]; [|reflexivity ..]. rewrite (proj1 (Hx d (Hl _ (or_introl eq_refl))) lv eq_refl). reflexivity.
    - split; discriminate.
  Qed.
  Theorem C55_inner_quote_kept b t lv : is_node t = true -> balanced (meaning idx b) 0 t -> nest b (S lv) t = Some [t].
  Proof. intros Hn H. pose proof (proj1 (balanced_kept _ (code (quasi_only idx b)) 0 t H) lv Hn) as K. rewrite Nat.add_0_r in K. exact K. Qed.

  (** An unquote outside any quote is a SyntaxError, whatever is inside; nothing is expanded, and the state does not change. *)
  Theorem C55_unquote_outside v o i b rec log k : o <> Oq -> 20 <= k -> run v k (unquote o i) (mkSt b rec 0 log) = Some (XRaise syntax_error, mkSt b rec 0 log).
  Proof. intros _ Hk. rewrite run_u by exact Hk. cbn [s_u]. change (Nat.ltb 0 1) with true. rewrite orb_true_r. reflexivity. Qed.

  (** However the expansion of an operator ends, with whatever expander, at any level and for all inputs: the quote level is restored;
      [q] also restores the bindings. *)
  Theorem C55_level_restored v o i k s r s' : run v k (m_run (quasi_macro user_marker has_attr filename unparse idx others unique pickled o) i) s = Some (r, s') ->
    s_u s' = s_u s /\ (o = Oq -> s_b s' = s_b s).
  Proof.
    intros H. assert (H' : run v (20 + k) (m_run (quasi_macro user_marker has_attr filename unparse idx others unique pickled o) i) s = Some (r, s')).
    { eapply below_run; [|exact (Nat.le_add_l k 20)|exact H]. intros t x y Hx. exact Hx. }
    clear H. assert (Hk : 20 <= 20 + k) by lia. generalize dependent (20 + k). intros k' H Hk. destruct o.
    { cbn [m_run quasi_macro] in H. rewrite run_q in H by exact Hk. destruct (_ || _); [|inversion H; subst; auto]. unfold q_outcome in H. destruct (call_expander _ _ _ _) as [[r1 s1]|]; [|discriminate]. inversion H; subst. split; reflexivity. }
    all: cbn [m_run quasi_macro] in H; rewrite run_u in H by exact Hk; split; [|discriminate]; destruct (_ || _); [inversion H; subst; reflexivity|]; unfold unquote_outcome in H.
    6: destruct (is_name_macro _ _ _ _); [inversion H; subst; reflexivity|].
    all: destruct (call_expander _ _ _ _) as [[r1 s1]|]; [|discriminate]; inversion H; subst; reflexivity.
  Qed.
End Statements.
Print Assumptions C55_nested_expr_partial.
Print Assumptions C55_nested_block_partial.
Print Assumptions C55_nested_value_partial.
Print Assumptions C55_inner_quote_kept.
Print Assumptions C55_unquote_outside.
Print Assumptions C55_level_restored.

(** ** Examples *)
Definition y_idx (o : op) : nat := match o with Oq => 10 | Ou => 11 | On => 12 | Oa => 13 | Os => 14 | Ot => 15 | Oh => 16 end.
(** A macro [m] and the operators; [u] is imported under another name. *)
Definition y_b : binds := [("m"%string, 3); ("q"%string, 10); ("uu"%string, 11); ("a"%string, 13); ("h"%string, 16)].
Definition y_others : nat -> mdef nat := fun _ => mkMac false false (fun i => Ret (in_tree i)).
Definition y_cov (m : loc) (x : string) : string := ("macro " ++ x)%string.
Definition y_env := nest_env x_user x_attr "f.py" (fun _ => "src"%string) y_idx y_others (fun s => s) (fun _ => "pickle"%string) (fun _ => ""%string) y_cov (fun _ => true).
Definition y_q := q_prog x_user x_attr "f.py" y_idx (fun s => s) (fun _ => "pickle"%string).
Definition y_ld : ltree := Nd noloc "Load" [].
Definition y_name (s : string) : ltree := Nd noloc "Name" [("id"%string, At (AStr s)); ("ctx"%string, y_ld)].
Definition y_sub (f : string) (t : ltree) : ltree := Nd noloc "Subscript" [("value"%string, y_name f); ("slice"%string, t); ("ctx"%string, y_ld)].
Definition y_const (n : Z) : ltree := Nd noloc "Constant" [("value"%string, At (AInt n))].
Definition y_expr (t : ltree) : ltree := Nd noloc "Expr" [("value"%string, t)].
Definition y_item (f v : ltree) : ltree := Nd noloc "withitem" [("context_expr"%string, f); ("optional_vars"%string, v)].
Definition y_with (m : loc) (items body : list ltree) : ltree := Nd m "With" [("items"%string, Ls items); ("body"%string, Ls body)].
Definition y_add (s t : ltree) : ltree := Nd noloc "BinOp" [("left"%string, s); ("op"%string, Nd noloc "Add" []); ("right"%string, t)].
(** The result, and what it evaluates to. *)
Definition y_run (i : minput) : option (xres ltree) := match run (visit y_env 60) 60 (y_q i) (mkSt y_b true 0 []) with Some (r, mkSt _ _ 0 _) => Some r | _ => None end.
Definition y_value (c : ltree) : res pv := x_eval (to_pv c).
Definition y_eval_expr (t : ltree) : option (res pv) := match y_run (mkIn "expr" t None None (y_sub "q" t)) with Some (XOk c) => Some (y_value c) | _ => None end.
Definition y_eval_block (l : list ltree) : option (res pv) :=
  match y_run (mkIn "block" (Ls l) None (Some (y_name "out")) (y_with noloc [y_item (y_name "q") (y_name "out")] l)) with
  | Some (XOk (Nd _ _ [_; (_, c)])) => Some (y_value c)
  | _ => None
  end.

(** q[q[uu[uu[v]]] + a[t]] where v is 42 and t an AST: the AST of q[uu[42]] + tt. *)
Definition y_tree : ltree := y_add (y_sub "q" (y_sub "uu" (y_sub "uu" (y_name "v")))) (y_sub "a" (y_name "t")).
Definition y_nested : ltree := y_add (y_sub "q" (y_sub "uu" (Nd noloc "Unquote" [("body"%string, y_name "v")]))) (Nd noloc "ASTLiteral" [("body"%string, y_name "t"); ("syntax"%string, At (AStr "expr"))]).
Example C55_example :
  quasi_only y_idx y_b <> [] /\ is_node y_tree = true /\ source (meaning y_idx y_b) y_tree /\
  nest (meaning y_idx y_b) (quoted_code x_user x_attr "f.py" (fun s => s) (fun _ => "pickle"%string) (quasi_only y_idx y_b)) "f.py" (fun _ => "src"%string) y_cov 1 y_tree = Some [y_nested] /\
  y_eval_expr y_tree = Some (Ok (to_pv (y_add (y_sub "q" (y_sub "uu" (y_const 42))) (y_name "tt")))).
Proof. split; [discriminate|]. split; [reflexivity|]. split; [apply sourceb_ok; vm_compute; reflexivity|]. split; vm_compute; reflexivity. Qed.
(** One unquote too many. *)
Example C55_example_too_many :
  let t := y_sub "q" (y_sub "uu" (y_sub "uu" (y_sub "uu" (y_name "v")))) in
  source (meaning y_idx y_b) t /\ exists e, y_run (mkIn "expr" t None None (y_sub "q" t)) = Some (XRaise e).
Proof. split; [apply sourceb_ok; vm_compute; reflexivity|]. eexists. vm_compute. reflexivity. Qed.
(** In block mode: with q as out: (with q as x: uu[y]; a[t]), where the inner with has no source location. *)
Example C55_example_block :
  let l := [y_with noloc [y_item (y_name "q") (y_name "x")] [y_expr (y_sub "uu" (y_name "y"))]; y_expr (y_sub "a" (y_name "t"))] in
  Forall (source (meaning y_idx y_b)) l /\
  y_eval_block l = Some (Ok (PL [to_pv (y_with noloc [y_item (y_name "q") (y_name "x")] [y_expr (y_sub "uu" (y_name "y"))]); to_pv (y_expr (y_name "tt"))])).
Proof. split; [apply Forall_cons; [|apply Forall_cons; [|apply Forall_nil]]; apply sourceb_ok; vm_compute; reflexivity|]. vm_compute. reflexivity. Qed.
(** Its own unquotes only: a + q[f + uu[q[uu[b]]]]. *)
Definition y_closed : ltree := y_add (y_name "a") (y_sub "q" (y_add (y_name "f") (y_sub "uu" (y_sub "q" (y_sub "uu" (y_name "b")))))).
Ltac y_bal := first
  [ apply ba_atom | apply ba_list; intros x Hx; repeat (destruct Hx as [<-|Hx]; [y_bal|]); destruct Hx
  | eapply ba_quote; [vm_compute; reflexivity|reflexivity|y_bal]
  | eapply ba_unquote; [vm_compute; reflexivity|discriminate|reflexivity|y_bal]
  | apply ba_node; [vm_compute; reflexivity|vm_compute; reflexivity|]; intros f v Hf; repeat (destruct Hf as [Hf|Hf]; [inversion Hf; subst; clear Hf; y_bal|]); destruct Hf ].
Example C55_example_closed : balanced (meaning y_idx y_b) 0 y_closed /\ y_eval_expr y_closed = Some (Ok (to_pv y_closed)).
Proof. split; [unfold y_closed, y_add, y_sub, y_name, y_ld; y_bal|vm_compute; reflexivity]. Qed.

(** ** Refuted *)
(** Not kept as it is: a quote in block mode with a source location, inside another quote. The quoted code gets an additional statement. *)
Theorem C55_coverage_refuted : exists m x, 
  let t := y_with m [y_item (y_name "q") (y_name x)] [y_expr (y_name "y")] in
  source (meaning y_idx y_b) t /\ exists extra, y_eval_block [t] = Some (Ok (PL (extra ++ [strip (to_pv t)]))) /\ extra <> [].
Proof.
  exists (mkLoc (Some 3) (Some 0) None None)%Z, "x"%string. split; [apply sourceb_ok; vm_compute; reflexivity|]. eexists [_]. split; [vm_compute; reflexivity|discriminate].
Qed.
Print Assumptions C55_coverage_refuted.
(** Not kept as it is: [with q as x, ctx:] inside another quote. The other context manager is duplicated. *)
Theorem C55_other_items_refuted : exists x ctx body,
  let t := y_with noloc [y_item (y_name "q") (y_name x); y_item (y_name ctx) NoneT] body in
  y_eval_block [t] = Some (Ok (PL [to_pv (y_with noloc [y_item (y_name "q") (y_name x); y_item (y_name ctx) NoneT] [y_with noloc [y_item (y_name ctx) NoneT] body])])).
Proof. exists "x"%string, "ctx"%string, [y_expr (y_name "y")]. vm_compute. reflexivity. Qed.
Print Assumptions C55_other_items_refuted.
(** A quote inside an unquote is not compiled like one outside any quote: the hygienic capture of a macro becomes the capture of a value. *)
Theorem C55_quote_in_unquote_refuted : exists x c1 c2 c3, isbound y_b x <> None /\
  y_run (mkIn "expr" (y_sub "h" (y_name x)) None None (y_sub "q" (y_sub "h" (y_name x)))) = Some (XOk c1) /\
  y_run (mkIn "expr" (y_sub "uu" (y_sub "q" (y_sub "h" (y_name x)))) None None (y_sub "q" (y_sub "uu" (y_sub "q" (y_sub "h" (y_name x)))))) = Some (XOk c3) /\
  to_pv c1 = p_call (quotes_attr "splice_ast_literals") [capture_macro (fun s => s) (fun _ => "pickle"%string) x 3; p_const (str "f.py")] [] /\
  c2 = p_call (quotes_attr "splice_ast_literals") [p_call (quotes_attr "capture_value") [to_pv (y_name x); p_const (str "src")] []; p_const (str "f.py")] [] /\
  to_pv c3 = p_call (quotes_attr "splice_ast_literals") [p_call (quotes_attr "astify") [c2] []; p_const (str "f.py")] [].
Proof. exists "m"%string. eexists _, _, _. split; [discriminate|]. split; [vm_compute; reflexivity|]. split; [vm_compute; reflexivity|]. split; [vm_compute; reflexivity|]. split; [reflexivity|]. vm_compute. reflexivity. Qed.
Print Assumptions C55_quote_in_unquote_refuted.
