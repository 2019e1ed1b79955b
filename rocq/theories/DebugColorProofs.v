(** Debug mode: the text with colors against the text without. *)
From Verif Require Import Base Dict ShowModel UnparseModel PyGrammar DumpSpec UnparseToks UnparseLex StmtToks ColorModel ColorSpec ColorProofs ColorStmt DebugModel DebugColorModel DebugColorSpec.
Open Scope string_scope.
Open Scope list_scope.

Lemma digits_fine s : all_chars is_digit s = true -> fine s = true.
Proof.
  unfold fine. induction s as [|c s IH]; [reflexivity|]. cbn [all_chars has_char]. intros H. apply andb_true_iff in H as [H1 H2]. specialize (IH H2). apply andb_true_iff in IH as [IH1 IH2].
  assert (E : Ascii.eqb esc c = false /\ Ascii.eqb lf c = false).
  { split; [destruct (Ascii.eqb_spec esc c)|destruct (Ascii.eqb_spec lf c)]; auto; subst c; discriminate. }
  destruct E as [-> ->]. cbn [orb]. now rewrite IH1, IH2.
Qed.
Lemma spaces_fine n : fine (spaces n) = true.
Proof. induction n; [reflexivity|]. exact IHn. Qed.
Lemma tag_fine n : fine (tag n) = true.
Proof.
  destruct n as [z|]; [|reflexivity]. unfold tag. destruct (Z.eqb z 0); [reflexivity|]. unfold pad5, decimal. rewrite !fine_app, spaces_fine.
  rewrite (digits_fine (repr_int _)) by apply repr_int_ok. destruct (Z.ltb z 0); reflexivity.
Qed.
Lemma F2_mapi {A B C} (R : B -> C -> Prop) (f : nat -> A -> B) (g : nat -> A -> C) l : forall j, (forall j x, In x l -> R (f j x) (g j x)) -> Forall2 R (mapi f j l) (mapi g j l).
Proof. induction l as [|x l IH]; intros j H; cbn [mapi]; constructor; [apply H; now left|apply IH; intros j' y Hy; apply H; now right]. Qed.

Section Proofs.
  Variable printable : ascii -> bool.
  Variable is_exception is_builtin is_macro : string -> bool.
  Variable D : dtheme.
  Notation T := (d_theme D).
  Variable color : bool.
  Hypothesis HD : color = true -> dtheme_works D.
  Lemma HT : color = true -> theme_works T.
  Proof. intros H. apply (HD H). Qed.
  Notation mc := (mc T color).
  Notation kwd := (kwd T color).
  Notation same := (same color).
  Notation dcunp := (dcunp printable is_exception is_builtin is_macro D color).
  Notation dunp := (dunp printable).
  Notation cpart := (dcfstr_part printable is_exception is_builtin is_macro D color).
  Notation cargs := (dcunp_args printable is_exception is_builtin is_macro D color).
  Notation carg := (dcunp_arg printable is_exception is_builtin is_macro D color).
  Notation ccomp := (dcunp_comp printable is_exception is_builtin is_macro D color).
  Notation ckw := (dcunp_kw printable is_exception is_builtin is_macro D color).
  Ltac inlist := repeat first [left; reflexivity | right].
  Lemma dworks c : In c [t_linenumber D; t_invisible D; t_marker D] -> forall ov, same ov = false -> style_works T c.
  Proof.
    intros Hi ov Hs. assert (color = true) as Hc by (unfold ColorProofs.same in Hs; destruct color, ov; auto; discriminate). specialize (HD Hc). destruct HD as [_ H]. rewrite Forall_forall in H. auto.
  Qed.
  Lemma rel_capture ov m x : rel (same ov) (w (ccapture D color ov m x)) (w ("$h[" ++ x ++ "]")).
  Proof.
    unfold ccapture. apply rel_w.
    - intros H. rewrite !(mc_same T color) by exact H. now destruct m.
    - intros H F. assert (W : style_works T (t_marker D)) by (apply (dworks (t_marker D) ltac:(inlist) ov H)). change ("$h[" ++ x ++ "]")%string with ("$h" ++ "[" ++ x ++ "]")%string in *. rewrite !fine_app in F.
      apply andb_true_iff in F as [_ F]. apply andb_true_iff in F as [_ F]. apply andb_true_iff in F as [F _].
      apply paints_app; [now apply mc_paints|]. apply paints_app; [now apply mc_paints|]. apply paints_app; [|now apply mc_paints].
      destruct m; [|apply paints_plain; now apply fine_esc]. assert (X := rel_mc0 T color HT ov x (t_macroname T) ltac:(inlist)). rewrite H in X. cbn [rel w] in X. now apply X.
  Qed.

  Section Step.
    Variable N : nat.
    Variable ov : bool.
    Hypothesis IH : forall e, size e < N -> rel (same ov) (dcunp ov e) (dunp e) /\ rel (same ov) (cpart ov e) (dfstr_part printable e).
    Notation R := (rel (same ov)).
    Lemma IHe e : size e < N -> R (dcunp ov e) (dunp e).
    Proof. intros H. now apply IH. Qed.
    Lemma IHl l : list_sum (map size l) < N -> Forall2 R (map (dcunp ov) l) (map dunp l).
    Proof. intros H. apply F2_map. intros x Hx. apply IHe. apply (sum_in size) in Hx. lia. Qed.
    Lemma IHp l : list_sum (map size l) < N -> Forall2 R (map (cpart ov) l) (map (dfstr_part printable) l).
    Proof. intros H. apply F2_map. intros x Hx. apply IH. apply (sum_in size) in Hx. lia. Qed.
    Lemma arg_rel a : size_arg a < N -> R (carg ov a) (dunp_arg printable a).
    Proof.
      destruct a as [x o]. cbn [size_arg dcunp_arg dunp_arg]. intros H. apply rel_cat. apply F2_app; [constructor; [apply rel_same|constructor]|].
      destruct o; [|constructor]. constructor; [apply rel_same|]. constructor; [now apply IHe|constructor].
    Qed.
    Lemma args_rel a : size_args a < N -> R (cargs ov a) (dunp_args printable a).
    Proof.
      destruct a as [pos args va kwo kwd kwa ds]. cbn [size_args dcunp_args dunp_args]. intros H. apply rel_args_text.
      - apply F2_map. intros x Hx. apply arg_rel. apply (sum_in size_arg) in Hx. lia.
      - apply F2_map. intros x Hx. apply arg_rel. apply (sum_in size_arg) in Hx. lia.
      - destruct va; cbn [relo]; [|exact I]. apply arg_rel. lia.
      - apply F2_map. intros x Hx. apply arg_rel. apply (sum_in size_arg) in Hx. lia.
      - apply F2_map. intros x Hx. apply (sum_in (fun d => match d with Some e => size e | None => 0 end)) in Hx. destruct x; cbn [relo]; [|exact I]. apply IHe. lia.
      - destruct kwa; cbn [relo]; [|exact I]. apply arg_rel. lia.
      - apply IHl. lia.
    Qed.
    Lemma comp_rel g : size_comp g < N -> R (ccomp ov g) (dunp_comp printable g).
    Proof.
      destruct g as [t i ifs a]. cbn [size_comp dcunp_comp dunp_comp]. intros H. apply rel_cat. apply F2_app.
      - constructor; [destruct a; [apply (rel_kwd T color HT)|apply rel_same]|]. constructor; [apply (rel_kwd T color HT)|]. constructor; [apply IHe; lia|]. constructor; [apply (rel_kwd T color HT)|]. constructor; [apply IHe; lia|constructor].
      - apply F2_map. intros x Hx. apply (sum_in size) in Hx. apply rel_cat. constructor; [apply (rel_kwd T color HT)|]. constructor; [apply IHe; lia|constructor].
    Qed.
    Lemma kw_rel k : size_kw k < N -> R (ckw ov k) (dunp_kw printable k).
    Proof. destruct k as [x e]. cbn [size_kw dcunp_kw dunp_kw]. intros H. apply rel_cat. constructor; [apply rel_same|]. constructor; [now apply IHe|constructor]. Qed.
    Lemma comps_rel g : list_sum (map size_comp g) < N -> Forall2 R (map (ccomp ov) g) (map (dunp_comp printable) g).
    Proof. intros H. apply F2_map. intros x Hx. apply comp_rel. apply (sum_in size_comp) in Hx. lia. Qed.
    Lemma kws_rel g : list_sum (map size_kw g) < N -> Forall2 R (map (ckw ov) g) (map (dunp_kw printable) g).
    Proof. intros H. apply F2_map. intros x Hx. apply kw_rel. apply (sum_in size_kw) in Hx. lia. Qed.
    Ltac sw := apply rel_same.
    Ltac lst := repeat first [apply Forall2_nil | apply Forall2_cons; [first [apply rel_same | apply (rel_kwd T color HT) | (apply IHe; lia) | idtac]|]].
    Lemma spec_rel spec : match spec with Some e => size e | None => 0 end < N ->
      match (match spec with Some (EJoined l) => Some (Some (map (cpart ov) l)) | Some _ => Some None | None => None end),
            (match spec with Some (EJoined l) => Some (Some (map (dfstr_part printable) l)) | Some _ => Some None | None => None end) with
      | Some (Some l), Some (Some l') => Forall2 R l l' | Some None, Some None => True | None, None => True | _, _ => False end.
    Proof. intros H. destruct spec as [e|]; [|exact I]. destruct e; try exact I. apply IHp. cbn [size] in H. lia. Qed.
    Lemma part_step e : size e <= N -> R (cpart ov e) (dfstr_part printable e).
    Proof.
      intros H. destruct e as [x|c|l o r|o e|o l|l r|b t o|a b|t v|l|l|l|l|e g|e g|e g|k v g|e x|e s|f a k|e|e|e|e|lo hi st|l|v c spec]; try reflexivity.
      - destruct c; try reflexivity. cbn [dcfstr_part dfstr_part]. apply (rel_mc0 T color HT). inlist.
      - cbn [size] in H. cbn [dcfstr_part dfstr_part]. apply (rel_formatted T color HT); [apply IHe; lia|]. apply spec_rel. lia.
    Qed.
    Lemma expr_step e : size e <= N -> R (dcunp ov e) (dunp e).
    Proof.
      intros H. destruct e as [x|c|l o r|o e|o l|l r|b t o|a b|t v|l|l|l|l|e g|e g|e g|k v g|e x|e s|f a k|e|e|e|e|lo hi st|l|v c spec]; cbn [size] in H; cbn [DebugColorModel.dcunp DebugModel.dunp].
      - apply (rel_name is_exception is_builtin is_macro T color HT).
      - apply (rel_const printable T color HT).
      - apply rel_cat. lst.
      - apply rel_cat. lst. destruct o; try sw. cbn [unop_text]. apply (rel_mc T color HT ov "" "not" " "). inlist.
      - apply rel_cat. apply F2_app; [lst|]. apply F2_app; [|lst]. apply rel_inter; [apply (rel_mc T color HT ov " " _ " "); inlist|]. apply IHl. lia.
      - apply rel_cat. apply F2_app; [lst|]. apply F2_app; [|lst]. apply F2_map. intros [o e] Hx. apply (sum_in (fun p => match p with (_, e) => size e end)) in Hx. cbn in Hx.
        apply rel_cat. constructor; [apply (rel_cmp T color HT)|]. lst.
      - apply rel_cat. lst.
      - apply rel_cat. lst. apply args_rel. lia.
      - apply rel_cat. lst.
      - apply rel_cat. apply F2_app; [lst|]. apply F2_app; [|lst]. apply rel_tuple. apply IHl. lia.
      - apply rel_cat. apply F2_app; [lst|]. apply F2_app; [|lst]. apply rel_inter; [sw|]. apply IHl. lia.
      - destruct l as [|y l]; [reflexivity|]. apply rel_cat. apply F2_app; [lst|]. apply F2_app; [|lst]. apply rel_inter; [sw|]. apply IHl. lia.
      - apply rel_cat. apply F2_app; [lst|]. apply F2_app; [|lst]. apply rel_inter; [sw|]. apply F2_map. intros [k v] Hx.
        apply (sum_in (fun p => match p with (k, v) => match k with Some e => size e | None => 0 end + size v end)) in Hx. cbn in Hx. apply rel_cat. destruct k as [k|]; lst.
      - apply rel_cat. apply F2_app; [lst|]. apply F2_app; [|lst]. apply comps_rel. lia.
      - apply rel_cat. apply F2_app; [lst|]. apply F2_app; [|lst]. apply comps_rel. lia.
      - apply rel_cat. apply F2_app; [lst|]. apply F2_app; [|lst]. apply comps_rel. lia.
      - apply rel_cat. apply F2_app; [lst|]. apply F2_app; [|lst]. apply comps_rel. lia.
      - apply rel_cat. lst.
      - apply rel_cat. apply F2_app; [lst|]. apply F2_app; [|lst].
        assert (X : Forall2 R [dcunp ov s] [dunp s]) by lst. destruct s as [| | | | | | | | |l| | | | | | | | | | | | | | | | | ]; try exact X. apply rel_tuple. apply IHl. cbn [size] in H. lia.
      - destruct (captured _) as [[x|]|x]; [apply rel_capture| |reflexivity].
        apply rel_cat. apply F2_app; [lst|]. apply F2_app; [|lst]. apply rel_inter; [sw|]. apply F2_app; [apply IHl; lia|apply kws_rel; lia].
      - apply rel_cat. lst.
      - apply rel_cat. lst.
      - apply rel_cat. apply F2_app; [lst|]. apply F2_app; [|lst]. destruct e; lst.
      - apply rel_cat. lst.
      - apply rel_cat. apply F2_app; [destruct lo; lst|]. apply F2_app; [lst|]. apply F2_app; [destruct hi; lst|destruct st; lst].
      - match goal with |- rel _ _ ?y => assert (E : y = cat (w ("f" ++ "'")%string :: (map (dfstr_part printable) l ++ [w "'"]))) by apply cat2 end. rewrite E. clear E.
        apply rel_cat. cbn [app]. constructor; [assert (X := rel_mc T color HT ov "f" "'" "" (t_string T) ltac:(inlist)); now rewrite !sapp_nil_r in X|].
        apply F2_app; [apply IHp; lia|]. constructor; [apply (rel_mc0 T color HT); inlist|constructor].
      - apply rel_cat. lst. apply (rel_formatted T color HT); [apply IHe; lia|]. apply spec_rel. lia.
    Qed.
  End Step.
  Lemma both_rel ov e : rel (same ov) (dcunp ov e) (dunp e) /\ rel (same ov) (cpart ov e) (dfstr_part printable e).
  Proof.
    assert (X : forall N e, size e < N -> rel (same ov) (dcunp ov e) (dunp e) /\ rel (same ov) (cpart ov e) (dfstr_part printable e)).
    { induction N as [|N IHN]; intros e' H; [lia|]. split; [apply (expr_step N)|apply (part_step N)]; auto; lia. }
    apply (X (S (size e))). lia.
  Qed.
  Lemma expr_rel ov e : rel (same ov) (dcunp ov e) (dunp e).
  Proof. apply both_rel. Qed.
  Lemma kws_rel' ov k : rel (same ov) (ckw ov k) (dunp_kw printable k).
  Proof. apply (kw_rel (S (size_kw k)) ov); [intros; apply both_rel|lia]. Qed.
  Lemma args_rel' ov k : rel (same ov) (cargs ov k) (dunp_args printable k).
  Proof. apply (args_rel (S (size_args k)) ov); [intros; apply both_rel|lia]. Qed.
End Proofs.
