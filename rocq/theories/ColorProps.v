(** C68: what syntax highlighting does to the text that [unparse] makes, read by a terminal. *)
From Verif Require Import Base Dict ShowModel UnparseModel DumpSpec PyGrammar PyStmt UnparseSpec StmtSpec UnparseEnds StmtEnds ColorModel ColorSpec ColorProofs ColorStmt ColorEnds.
Open Scope string_scope.
Open Scope list_scope.

(** ** Color schemes *)
(** The values of [Fore], [Back] and [Style] (ansi.py:14-15, 51-103), as the user may put them into the color scheme: ESC, a bracket, a number, the letter m. *)
Definition ansi (n : string) : string := String esc ("[" ++ n ++ "m").
Fixpoint ansi_style (c : style) : Prop :=
  match c with
  | SCode s => exists n, has_char "m" n = false /\ s = ansi n
  | STup l => (fix go (l : list style) : Prop := match l with [] => True | x :: r => ansi_style x /\ go r end) l
  end.
Lemma screen_code on k n s : has_char "m" n = false -> screen on (Some k) (n ++ String "m" s) = screen (negb (String.eqb (k ++ n) "[0")) None s.
Proof.
  revert k. induction n as [|c n IH]; intros k H.
  - cbn [append screen]. rewrite sapp_nil_r. reflexivity.
  - cbn [has_char] in H. apply orb_false_iff in H as [H1 H2]. cbn [append screen]. rewrite Ascii.eqb_sym in H1. rewrite H1. rewrite IH by exact H2. rewrite sapp_assoc'. reflexivity.
Qed.
Lemma screen_ansi on n s : has_char "m" n = false -> screen on None (ansi n ++ s) = screen (negb (String.eqb ("[" ++ n) "[0")) None s.
Proof.
  intros H. unfold ansi. cbn [append screen]. change (Ascii.eqb esc esc) with true. cbn iota. change (Ascii.eqb "[" "m") with false. cbn iota. rewrite sapp_assoc'. cbn [append].
  rewrite screen_code by exact H. reflexivity.
Qed.
Lemma screen_style c : ansi_style c -> forall on s, exists on', screen on None (set_style c ++ s) = screen on' None s.
Proof.
  revert c. fix IH 1. intros [t|l] H on s.
  - destruct H as (n & Hn & ->). cbn [set_style]. rewrite screen_ansi by exact Hn. eexists. reflexivity.
  - cbn [set_style ansi_style] in *. revert H on s. induction l as [|x l IHl]; intros H on s.
    + exists on. reflexivity.
    + destruct H as [H1 H2]. destruct (IH x H1 on (set_style (STup l) ++ s)%string) as [o1 E1]. destruct (IHl H2 o1 s) as [o2 E2]. exists o2. rewrite sapp_assoc'. etransitivity; [exact E1|exact E2].
Qed.
Definition ansi_theme (T : theme) : Prop :=
  p_reset (t_base T) = ansi "0" /\
  Forall ansi_style [t_keyword T; t_exception T; t_builtin T; t_defname T; t_decorator T; t_string T; t_number T; t_nameconstant T; t_macroname T].
(** On no terminal, the values are empty (ansi.py:15). *)
Fixpoint empty_style (c : style) : Prop :=
  match c with SCode s => s = "" | STup l => (fix go (l : list style) : Prop := match l with [] => True | x :: r => empty_style x /\ go r end) l end.
Definition empty_theme (T : theme) : Prop :=
  p_reset (t_base T) = "" /\
  Forall empty_style [t_keyword T; t_exception T; t_builtin T; t_defname T; t_decorator T; t_string T; t_number T; t_nameconstant T; t_macroname T].
Lemma empty_set c : empty_style c -> set_style c = "".
Proof.
  revert c. fix IH 1. intros [t|l] H; [exact H|]. cbn [set_style empty_style] in *. induction l as [|x l IHl]; [reflexivity|]. destruct H as [H1 H2]. rewrite (IH x H1). exact (IHl H2).
Qed.
Lemma theme_ok T : ansi_theme T \/ empty_theme T -> theme_works T.
Proof.
  intros [[R H]|[R H]]; unfold theme_works; eapply Forall_impl; try exact H; intros c Hc; unfold style_works; rewrite R.
  - destruct (screen_style c Hc false "") as [on E]. rewrite sapp_nil_r in E. exists on. split.
    + rewrite screen_ansi by reflexivity. exact E.
    + destruct on; reflexivity.
  - exists false. cbn beta in Hc. rewrite empty_set by exact Hc. split; reflexivity.
Qed.

(** ** Colors off *)
(** With [color=False], no tree has a color code written for it, whatever the color scheme, and whatever macros the expander knows: the text, and
    the exception if there is one, are those of UnparseModel.v. *)
Theorem C68_without_color : forall printable is_exception is_builtin is_macro T t,
  cunparse printable is_exception is_builtin is_macro T false t = unparse printable t.
Proof.
  intros. assert (R := top_rel printable is_exception is_builtin is_macro T false (fun E => match Bool.diff_false_true E with end) t (fun E => match Bool.diff_true_false E with end)).
  cbn [negb] in R. unfold cunparse, unparse. cbn [cat w]. destruct (cunp_top _ _ _ _ _ _ _), (unp_top _ _); cbn [relS] in R; try contradiction; subst; reflexivity.
Qed.
Print Assumptions C68_without_color.

(** ** Colors on *)
(** PARTIAL: for every tree whose names, and f-strings, have no ESC and no line end in them. The same exception is raised as without colors, or none; what
    the terminal shows is the text without colors, but for white space at either end; no code is cut off; no style is on at any line end or at the end of
    the text. Missing: f-strings with an ESC in their text (refuted below). *)
Theorem C68_color_shows_the_text_partial : forall printable is_exception is_builtin is_macro T t, ansi_theme T \/ empty_theme T -> clean_top printable t = true ->
  match cunparse printable is_exception is_builtin is_macro T true t, unparse printable t with
  | Ok s, Ok p => exists l, screen false None s = (l, (false, None)) /\ UnparseModel.strip (shown l) = p /\ forall b, In (lf, b) l -> b = false
  | Err e, Err e' => e = e'
  | _, _ => False
  end.
Proof.
  intros printable is_exception is_builtin is_macro T t HT Hc. apply theme_ok in HT.
  assert (R := top_rel printable is_exception is_builtin is_macro T true (fun _ => HT) t (fun _ => Hc)). cbn [negb] in R. unfold cunparse, unparse. cbn [cat w].
  destruct (cunp_top _ _ _ _ _ _ _) as [s|e], (unp_top _ _) as [p|e']; cbn [relS] in R; try contradiction; [|exact R]. rewrite !sapp_nil_r.
  assert (P : paints (s ++ nl) (p ++ nl)) by (apply paints_app; [exact R|now apply paints_plain]). destruct (paints_strip _ _ P) as (q & (l & A & B & C) & E).
  exists l. split; [exact A|]. split; [|exact C]. rewrite B. exact E.
Qed.
Print Assumptions C68_color_shows_the_text_partial.

(** PARTIAL: for the modules of C48, the text shown is the same to the last character. *)
Theorem C68_module_exact_partial : forall read printable is_exception is_builtin is_macro T l, ansi_theme T \/ empty_theme T ->
  forallb (ok_stmt read) l = true -> forallb (clean printable) l = true ->
  exists s p, cunparse printable is_exception is_builtin is_macro T true (TModule l) = Ok s /\ unparse printable (TModule l) = Ok p /\
    exists cs, screen false None s = (cs, (false, None)) /\ shown cs = p /\ forall b, In (lf, b) cs -> b = false.
Proof.
  intros read printable is_exception is_builtin is_macro T l HT Ho Hc. destruct l as [|x l].
  - exists "", "". repeat split; try reflexivity. exists []. repeat split; try reflexivity. intros b [].
  - exact (module_exact read printable is_exception is_builtin is_macro T (theme_ok T HT) (x :: l) eq_refl Ho Hc).
Qed.
Print Assumptions C68_module_exact_partial.

(** ** A module, in the default colors (colorizer.py:119-144) *)
Definition default_theme : theme :=
  let bright := SCode (ansi "1") in
  Theme (Palette (ansi "0") (STup [bright; SCode (ansi "94")]) bright (SCode (ansi "2")) bright) (STup [bright; SCode (ansi "33")]) (SCode (ansi "36")) bright
    (STup [bright; SCode (ansi "36")]) (SCode (ansi "94")) (SCode (ansi "32")) (SCode (ansi "32")) (SCode (ansi "32")) (SCode (ansi "34")).
Example default_theme_ansi : ansi_theme default_theme.
Proof.
  split; [reflexivity|]. assert (H : forall n, has_char "m" n = false -> ansi_style (SCode (ansi n))) by (intros n Hn; exists n; auto).
  assert (H2 : forall a b, has_char "m" a = false -> has_char "m" b = false -> ansi_style (STup [SCode (ansi a); SCode (ansi b)])).
  { intros a b Ha Hb. cbn [ansi_style]. split; [exact (H a Ha)|]. split; [exact (H b Hb)|exact I]. }
  cbn [default_theme t_keyword t_exception t_builtin t_defname t_decorator t_string t_number t_nameconstant t_macroname].
  repeat (apply Forall_cons; [first [apply H; reflexivity|apply H2; reflexivity]|]). apply Forall_nil.
Qed.
(** A decorated class; a method with an annotated parameter and a macro invocation; a test with [is not]; an f-string with a conversion. *)
Definition colored_module : list stmt :=
  [SClass "C" [] [EName "ValueError"] []
     [SFunction false "f" [] (Args [] [Arg "x" (Some (EName "int"))] None [] [] None [EConst (CInt 1)])
        [SIf (ECompare (EName "x") [(IsNot, EConst CNone)]) [SRaise (Some (EName "ValueError")) None]
           [SReturn (Some (ESub (EName "q") (EJoined [EConst (CStr false "x is "); EFormatted (EName "x") 114 None])))]] [] None]
     [EAttr (EName "m") "deco"]].
Definition is_exc (x : string) : bool := String.eqb x "ValueError".
Definition is_other (x : string) : bool := String.eqb x "int".
Definition is_mac (x : string) : bool := String.eqb x "q".
Definition all_printable (c : ascii) : bool := negb (Ascii.eqb c esc).
Example colored_module_covered : forallb (ok_stmt (fun s => s)) colored_module = true /\ forallb (clean all_printable) colored_module = true.
Proof. split; vm_compute; reflexivity. Qed.
Example colored_module_codes : exists s p, cunparse all_printable is_exc is_other is_mac default_theme true (TModule colored_module) = Ok s /\
  unparse all_printable (TModule colored_module) = Ok p /\ s <> p /\ existsb (fun x => snd x) (fst (screen false None s)) = true.
Proof. eexists. eexists. split; [vm_compute; reflexivity|]. split; [vm_compute; reflexivity|]. split; [intros E; apply (f_equal String.length) in E; vm_compute in E; discriminate|vm_compute; reflexivity]. Qed.

(** ** The refuted part *)
(** REFUTED: an f-string with color codes in its text, as in programs that print colors: f'ESC[31m{x}ESC[0m'. The codes in it are written as they are, so
    that the terminal obeys them and shows less than the text. The same codes in a string without the f are escaped. *)
Theorem C68_escape_in_fstring_refuted : exists e s p, unparse all_printable (TExpr e) = Ok p /\
  cunparse all_printable is_exc is_other is_mac default_theme true (TExpr e) = Ok s /\ UnparseModel.strip (shown (fst (screen false None s))) <> p.
Proof.
  exists (EJoined [EConst (CStr false (ansi "31")); EFormatted (EName "x") (-1) None; EConst (CStr false (ansi "0"))]). eexists. eexists. split; [vm_compute; reflexivity|]. split; [vm_compute; reflexivity|]. vm_compute. discriminate.
Qed.
Print Assumptions C68_escape_in_fstring_refuted.
Example escape_in_string : clean_top all_printable (TExpr (EConst (CStr false (ansi "31")))) = true.
Proof. vm_compute. reflexivity. Qed.
