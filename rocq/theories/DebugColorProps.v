(** C71: the unparser in debug mode with syntax highlighting, as in error messages and in the steppers, read by a terminal. *)
From Verif Require Import Base Dict ShowModel UnparseModel DumpSpec ColorModel ColorSpec ColorProofs ColorEnds ColorProps DebugModel DebugSpec DebugProps DebugColorModel DebugColorSpec DebugColorProofs DebugColorStmt.
Open Scope string_scope.
Open Scope list_scope.

Definition ansi_dtheme (D : dtheme) : Prop := ansi_theme (d_theme D) /\ Forall ansi_style [t_linenumber D; t_invisible D; t_marker D].
Definition empty_dtheme (D : dtheme) : Prop := empty_theme (d_theme D) /\ Forall empty_style [t_linenumber D; t_invisible D; t_marker D].
Lemma dtheme_ok D : ansi_dtheme D \/ empty_dtheme D -> dtheme_works D.
Proof.
  intros [[H1 H2]|[H1 H2]]; (split; [apply theme_ok; auto|]); eapply Forall_impl; try exact H2; intros c Hc; unfold style_works; destruct H1 as [R _]; rewrite R.
  - destruct (screen_style c Hc false "") as [on E]. rewrite sapp_nil_r in E. exists on. split; [rewrite screen_ansi by reflexivity; exact E|destruct on; reflexivity].
  - exists false. cbn beta in Hc. rewrite empty_set by exact Hc. split; reflexivity.
Qed.
(** With [color=False], the text and the exception are those of C70. *)
Theorem C71_without_color printable is_exception is_builtin is_macro D lineno t :
  dcunparse printable is_exception is_builtin is_macro D false lineno t = dunparse printable lineno t.
Proof.
  assert (R := top_rel printable is_exception is_builtin is_macro D false lineno (fun E => match Bool.diff_false_true E with end) t (fun E => match Bool.diff_true_false E with end)).
  cbn [negb] in R. unfold dcunparse, dunparse. cbn [cat w]. destruct (dcunp_top _ _ _ _ _ _ _ _), (dunp_top _ _ _); cbn [relS] in R; try contradiction; subst; reflexivity.
Qed.
Print Assumptions C71_without_color.
(** PARTIAL: for every tree whose names, and f-strings, have no ESC and no line end in them. The same exception is raised as without colors, or none; what the
    terminal shows is the debug text of C70, but for white space at either end; no code is cut off; no style is on at any line end or at the end, so that the
    lines of an error message around it are not colored. Missing: f-strings with an ESC in their text (refuted below). *)
Theorem C71_color_shows_debug_text_partial printable is_exception is_builtin is_macro D lineno t : ansi_dtheme D \/ empty_dtheme D -> dclean_top printable t = true ->
  match dcunparse printable is_exception is_builtin is_macro D true lineno t, dunparse printable lineno t with
  | Ok s, Ok p => exists l, screen false None s = (l, (false, None)) /\ UnparseModel.strip (shown l) = p /\ forall b, In (lf, b) l -> b = false
  | Err e, Err e' => e = e'
  | _, _ => False
  end.
Proof.
  intros HD Hc. apply dtheme_ok in HD.
  assert (R := top_rel printable is_exception is_builtin is_macro D true lineno (fun _ => HD) t (fun _ => Hc)). cbn [negb] in R. unfold dcunparse, dunparse. cbn [cat w].
  destruct (dcunp_top _ _ _ _ _ _ _ _) as [s|e], (dunp_top _ _ _) as [p|e']; cbn [relS] in R; try contradiction; [|exact R]. rewrite !sapp_nil_r.
  assert (P : paints (s ++ nl) (p ++ nl)) by (apply paints_app; [exact R|now apply paints_plain]). destruct (paints_strip _ _ P) as (q & (l & A & B & C) & E).
  exists l. split; [exact A|]. split; [|exact C]. rewrite B. exact E.
Qed.
Print Assumptions C71_color_shows_debug_text_partial.

(** ** Which parts are highlighted *)
(** The marks around a captured value have the style of AST markers, switched off again before the captured name; the name of a value has no style. *)
Theorem C71_capture_highlighted printable is_exception is_builtin is_macro D lineno e x :
  capture e x -> (forall m a k, e <> ECall (EAttr m "lookup_macro") a k) ->
  let hl text := colorize (t_base (d_theme D)) text [t_marker D] in
  dcunparse printable is_exception is_builtin is_macro D true lineno (TExpr e) = Ok (UnparseModel.strip (hl "$h" ++ hl "[" ++ x ++ hl "]" ++ nl)).
Proof.
  intros H Hm hl. apply captured_iff in H. unfold dcunparse, dcunp_top. destruct e as [ | | | | | | | | | | | | | | | | | | |f a k| | | | | | | ]; try discriminate.
  assert (E : dcunp printable is_exception is_builtin is_macro D true false (ECall f a k) = w (ccapture D true false (is_lookup_macro f) x)) by (cbn [dcunp]; now rewrite H).
  rewrite E. assert (F : is_lookup_macro f = false).
  { destruct f; try reflexivity. cbn. destruct (String.eqb_spec x0 "lookup_macro") as [->|]; [|reflexivity]. exfalso. eapply Hm. reflexivity. }
  rewrite F. unfold ccapture, mc. cbn [negb]. cbn [cat w]. rewrite !sapp_assoc', sapp_nil_r. reflexivity.
Qed.
Print Assumptions C71_capture_highlighted.
(** Captured macros: the name has the style of macro names. *)
Theorem C71_captured_macro_highlighted printable is_exception is_builtin is_macro D lineno m a k x :
  capture (ECall (EAttr m "lookup_macro") a k) x ->
  let hl text := colorize (t_base (d_theme D)) text [t_marker D] in
  dcunparse printable is_exception is_builtin is_macro D true lineno (TExpr (ECall (EAttr m "lookup_macro") a k)) =
  Ok (UnparseModel.strip (hl "$h" ++ hl "[" ++ colorize (t_base (d_theme D)) x [t_macroname (d_theme D)] ++ hl "]" ++ nl)).
Proof.
  intros H hl. apply captured_iff in H. unfold dcunparse, dcunp_top.
  assert (E : dcunp printable is_exception is_builtin is_macro D true false (ECall (EAttr m "lookup_macro") a k) = w (ccapture D true false true x)) by (cbn [dcunp]; now rewrite H).
  rewrite E. unfold ccapture, mc. cbn [negb]. cbn [cat w]. rewrite !sapp_assoc', sapp_nil_r. reflexivity.
Qed.
Print Assumptions C71_captured_macro_highlighted.

(** ** A module in the default colors (colorizer.py:119-149) *)
Definition default_dtheme : dtheme := DTheme default_theme (SCode (ansi "2")) (SCode (ansi "2")) (SCode (ansi "2")).
Example default_dtheme_ansi : ansi_dtheme default_dtheme.
Proof. split; [exact default_theme_ansi|]. repeat (apply Forall_cons; [exists "2"; split; reflexivity|]). apply Forall_nil. Qed.
Example prog_covered : dclean_top all_printable (TModule (prog ++ colored_module)) = true.
Proof. vm_compute. reflexivity. Qed.
Example prog_codes : exists s p, dcunparse all_printable is_exc is_other is_mac default_dtheme true ln (TModule prog) = Ok s /\ dunparse all_printable ln (TModule prog) = Ok p /\
  s <> p /\ shown (fst (screen false None s)) = p /\ existsb (fun x => snd x) (fst (screen false None s)) = true.
Proof.
  eexists. eexists. split; [vm_compute; reflexivity|]. split; [vm_compute; reflexivity|]. split; [intros E; apply (f_equal String.length) in E; vm_compute in E; discriminate|]. split; vm_compute; reflexivity.
Qed.
Example captured_macro_case : capture (ECall (EAttr (EAttr (EName "mcpyrate") "quotes") "lookup_macro") [ETuple [EConst (CStr false "m"); EConst (CStr false "m1"); EConst (CBytes "pickled")]] []) "m".
Proof. apply (Macro (EAttr (EName "mcpyrate") "quotes") _ false "m" false "m1" "pickled" [] []); [now left|now left]. Qed.

(** REFUTED for f-strings with color codes in their text, as without debug mode. *)
Theorem C71_escape_in_fstring_refuted : exists e s p, dunparse all_printable ln (TExpr e) = Ok p /\
  dcunparse all_printable is_exc is_other is_mac default_dtheme true ln (TExpr e) = Ok s /\ UnparseModel.strip (shown (fst (screen false None s))) <> p.
Proof.
  exists (EJoined [EConst (CStr false (ansi "31")); EFormatted (EName "x") (-1) None; EConst (CStr false (ansi "0"))]). eexists. eexists. split; [vm_compute; reflexivity|]. split; [vm_compute; reflexivity|]. vm_compute. discriminate.
Qed.
Print Assumptions C71_escape_in_fstring_refuted.
