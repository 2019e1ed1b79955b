(** Colors and the white space that [unparse] strips off. *)
From Verif Require Import Base Dict ShowModel UnparseModel DumpSpec PyGrammar PyStmt UnparseSpec StmtSpec UnparseEnds StmtEnds ColorModel ColorSpec ColorProofs ColorStmt.
Open Scope string_scope.
Open Scope list_scope.

Notation is_space := UnparseModel.is_space.
Notation lstrip := UnparseModel.lstrip.
Notation rstrip := UnparseModel.rstrip.
Notation ustrip := UnparseModel.strip.
Fixpoint blank (s : string) : bool := match s with "" => true | String c r => is_space c && blank r end.
Lemma space_esc c : is_space c = true -> Ascii.eqb c esc = false.
Proof. intros H. destruct (Ascii.eqb_spec c esc); [subst; discriminate|reflexivity]. Qed.
Lemma space_m c : is_space c = true -> Ascii.eqb c "m" = false.
Proof. intros H. destruct (Ascii.eqb_spec c "m"); [subst; discriminate|reflexivity]. Qed.
Lemma blank_esc a : blank a = true -> has_char esc a = false.
Proof. induction a as [|c a IH]; [reflexivity|]. cbn [blank has_char]. intros H. apply andb_true_iff in H as [H1 H2]. rewrite IH by exact H2. rewrite Ascii.eqb_sym, space_esc by exact H1. reflexivity. Qed.
Lemma blank_code a : blank a = true -> forall on k, exists k', screen on (Some k) a = ([], (on, Some k')).
Proof. induction a as [|c a IH]; intros H on k; [exists k; reflexivity|]. cbn [blank] in H. apply andb_true_iff in H as [H1 H2]. cbn [screen]. rewrite space_m by exact H1. now apply IH. Qed.
Lemma blank_app a b : blank (a ++ b) = blank a && blank b.
Proof. induction a as [|c a IH]; [reflexivity|]. cbn [append blank]. now rewrite IH, andb_assoc. Qed.

Lemma lstrip_eq s : exists a, blank a = true /\ s = (a ++ lstrip s)%string.
Proof.
  induction s as [|c s (a & Ha & E)]; [exists ""; auto|]. cbn [UnparseModel.lstrip]. destruct (is_space c) eqn:Ec; [|exists ""; auto]. exists (String c a). cbn [blank append]. rewrite Ec. split; [exact Ha|now f_equal].
Qed.
Lemma rstrip_eq s : exists a, blank a = true /\ s = (rstrip s ++ a)%string.
Proof.
  induction s as [|c s (a & Ha & E)]; [exists ""; auto|]. cbn [UnparseModel.rstrip]. destruct (rstrip s) as [|d r].
  - cbn [append] in E. subst a. destruct (is_space c) eqn:Ec; [exists (String c s)|exists s]; cbn [blank append]; rewrite ?Ec; auto.
  - exists a. split; [exact Ha|]. cbn [append] in *. now f_equal.
Qed.
Lemma lstrip_blank a s : blank a = true -> lstrip (a ++ s) = lstrip s.
Proof. induction a as [|c a IH]; [reflexivity|]. cbn [blank append UnparseModel.lstrip]. intros H. apply andb_true_iff in H as [-> H]. auto. Qed.
Lemma rstrip_blank a : blank a = true -> rstrip a = "".
Proof. induction a as [|c a IH]; [reflexivity|]. cbn [blank UnparseModel.rstrip]. intros H. apply andb_true_iff in H as [Hc H]. rewrite IH by exact H. now rewrite Hc. Qed.
Lemma rstrip_app s a : blank a = true -> rstrip (s ++ a) = rstrip s.
Proof. intros H. induction s as [|c s IH]; [now apply rstrip_blank|]. cbn [append UnparseModel.rstrip]. now rewrite IH. Qed.
Lemma lstrip_app s a : lstrip (s ++ a) = if blank s then lstrip a else (lstrip s ++ a)%string.
Proof. induction s as [|c s IH]; [reflexivity|]. cbn [append UnparseModel.lstrip blank]. destruct (is_space c); [exact IH|reflexivity]. Qed.
Lemma lstrip_all a : blank a = true -> lstrip a = "".
Proof. intros H. rewrite <- (sapp_nil_r a). rewrite lstrip_blank by exact H. reflexivity. Qed.
Lemma strip_ends a q b : blank a = true -> blank b = true -> ustrip (a ++ q ++ b) = ustrip q.
Proof.
  intros Ha Hb. unfold ustrip. rewrite lstrip_blank by exact Ha. rewrite lstrip_app. destruct (blank q) eqn:E; [rewrite !lstrip_all by assumption; reflexivity|]. now apply rstrip_app.
Qed.

Lemma paints_pre a s p : blank a = true -> paints (a ++ s) p -> exists q, paints s q /\ p = (a ++ q)%string.
Proof.
  intros Ha (L & A & B & C). rewrite screen_app, screen_plain in A by now apply blank_esc. cbn [fst snd] in A. destruct (screen false None s) as [L' st] eqn:E. injection A as A ->.
  exists (shown L'). split; [|rewrite <- B, <- A, shown_app, shown_map; reflexivity]. exists L'. split; [exact E|]. split; [reflexivity|]. intros b Hi. apply C. rewrite <- A. apply in_or_app. now right.
Qed.
Lemma paints_post a s p : blank a = true -> paints (s ++ a) p -> exists q, paints s q /\ p = (q ++ a)%string.
Proof.
  intros Ha (L & A & B & C). rewrite screen_app in A. destruct (screen false None s) as [L' [o k]] eqn:E. cbn [fst snd] in A. destruct k as [k|].
  - exfalso. destruct (blank_code a Ha o k) as [k' K]. rewrite K in A. injection A as _ _ A. discriminate.
  - rewrite screen_plain in A by now apply blank_esc. injection A as A ->. exists (shown L'). split; [|rewrite <- B, <- A, shown_app, shown_map; reflexivity].
    exists L'. split; [exact E|]. split; [reflexivity|]. intros b Hi. apply C. rewrite <- A. apply in_or_app. now left.
Qed.
Lemma paints_strip s p : paints s p -> exists q, paints (ustrip s) q /\ ustrip q = ustrip p.
Proof.
  intros H. destruct (lstrip_eq s) as (a & Ha & Ea). destruct (rstrip_eq (lstrip s)) as (b & Hb & Eb). unfold ustrip at 1. rewrite Eb in Ea. rewrite Ea in H.
  destruct (paints_pre _ _ _ Ha H) as (q1 & H1 & ->). destruct (paints_post _ _ _ Hb H1) as (q & H2 & ->). exists q. split; [exact H2|]. symmetry. now apply strip_ends.
Qed.
(** When what is shown neither begins nor ends with white space, nor does the text. *)
Lemma paints_solid v u : paints v u -> solid u -> solid v.
Proof.
  intros (L & A & B & _) Hu. destruct v as [|c v]; [cbn in A; injection A as <-; subst u; exact Hu|]. cbn [solid]. cbn [screen] in A.
  destruct (Ascii.eqb_spec c esc) as [->|]; [reflexivity|]. destruct (screen false None v) as [L' st]. injection A as <- _. subst u. exact Hu.
Qed.
Lemma paints_ends v u : paints v u -> solid u -> ends u -> ends v.
Proof.
  intros H Hu (a & c & Eu & Hc). destruct (rstrip_eq v) as (b & Hb & Eb). destruct b as [|d b].
  - rewrite sapp_nil_r in Eb. assert (Hv := paints_solid _ _ H Hu). destruct v as [|x v]; [destruct Hv|].
    assert (X : forall y s, y = rstrip y -> y = String x s -> ends y).
    { clear. intros y s. revert y x. induction s as [|z s IH]; intros y x Ey E; subst y.
      - cbn [UnparseModel.rstrip] in Ey. destruct (is_space x) eqn:Ex; [discriminate|]. exists "", x. auto.
      - destruct (IH (String z s) z) as (a & c & Ea & Hc); [|reflexivity|exists (String x a), c; split; [cbn; now f_equal|exact Hc]].
        cbn [UnparseModel.rstrip] in Ey |- *. destruct (rstrip s); destruct (is_space z), (is_space x); congruence. }
    eapply X; [exact Eb|reflexivity].
  - exfalso. rewrite Eb in H. destruct (paints_post _ _ _ Hb H) as (q & _ & E). rewrite Eu in E.
    assert (Y : forall b, blank b = true -> b <> "" -> forall q a, (a ++ one c)%string <> (q ++ b)%string).
    { clear - Hc. intros b. induction b as [|x b IH]; intros Hb Nb q a E; [congruence|].
      cbn [blank] in Hb. apply andb_true_iff in Hb as [Hx Hb]. destruct b as [|y b].
      - clear IH. revert a E. induction q as [|z q IHq]; intros [|w' a] E.
        + cbn in E. inversion E; subst. congruence.
        + cbn in E. inversion E as [[E1 E2]]. destruct a; discriminate.
        + cbn in E. inversion E as [[E1 E2]]. destruct q; discriminate.
        + cbn in E. inversion E as [[E1 E2]]. eapply IHq; eauto.
      - apply (IH Hb ltac:(discriminate) (q ++ one x)%string a). rewrite E. rewrite sapp_assoc'. reflexivity. }
    eapply (Y (String d b)); eauto. discriminate.
Qed.

Section Module.
  Variable read : string -> string.
  Variable printable : ascii -> bool.
  Variable is_exception is_builtin is_macro : string -> bool.
  Variable T : theme.
  Hypothesis HT : theme_works T.
  Notation cstmt := (cunp_stmt printable is_exception is_builtin is_macro T true).

  (** The line ends that the text of a statement begins with. *)
  Lemma head_lines s kw t : cstmt kw 0 s = Ok t -> exists v, t = if is_def s then (nl ++ nl ++ v)%string else (nl ++ v)%string.
  Proof.
    assert (F : forall d x l y, (d = false) -> cat (fill 0 x :: l) = Ok y -> exists v, y = if d then (nl ++ nl ++ v)%string else (nl ++ v)%string).
    { intros d x l y -> E. apply cat_cons in E as (a & b & Ha & _ & ->). injection Ha as <-. exists (x ++ b)%string. reflexivity. }
    intros E. destruct s; cbn [cunp_stmt] in E; try (eapply F; [reflexivity|exact E]); try (injection E as <-; eexists; reflexivity).
    - destruct exc as [e|], cause as [c|]; try discriminate; try (eapply F; [reflexivity|exact E]). injection E as <-. eexists; reflexivity.
    - cbn [app] in E. apply cat_cons in E as (a & b & Ha & Hb & ->). injection Ha as <-. cbn [is_def].
      destruct decos as [|d ds]; cbn [cdecos map app] in Hb; apply cat_cons in Hb as (a & c & Ha & _ & ->).
      + injection Ha as <-. eexists. cbn [append spaces Nat.mul]. reflexivity.
      + apply cat_cons in Ha as (a1 & a2 & Ha & _ & ->). injection Ha as <-. eexists. reflexivity.
    - cbn [app] in E. apply cat_cons in E as (a0 & b & Ha & Hb & ->). injection Ha as <-. cbn [is_def].
      destruct decos as [|d ds]; cbn [cdecos map app] in Hb; apply cat_cons in Hb as (a1 & c & Ha & _ & ->).
      + injection Ha as <-. eexists. cbn [append spaces Nat.mul]. reflexivity.
      + apply cat_cons in Ha as (a3 & a2 & Ha & _ & ->). injection Ha as <-. eexists. reflexivity.
  Qed.
  Lemma module_exact l : nonempty l = true -> forallb (ok_stmt read) l = true -> forallb (clean printable) l = true ->
    exists s p, cunparse printable is_exception is_builtin is_macro T true (TModule l) = Ok s /\ unparse printable (TModule l) = Ok p /\ paints s p.
  Proof.
    intros Hn Ho Hc. destruct (unparse_module_ends read printable l Hn Ho) as (u & Hu & So & En & Ht).
    assert (R := top_rel printable is_exception is_builtin is_macro T true (fun _ => HT) (TModule l) (fun _ => Hc)). cbn [cunp_top unp_top negb] in R. rewrite Ht in R.
    destruct (cat (map (cstmt "if " 0) l)) as [s|e] eqn:Es; cbn [relS] in R; [|contradiction].
    assert (V : exists v, s = if is_def (hd SPass l) then (nl ++ nl ++ v)%string else (nl ++ v)%string).
    { destruct l as [|x l]; [discriminate|]. cbn [map] in Es. apply cat_cons in Es as (a & b & Ha & _ & ->). destruct (head_lines _ _ _ Ha) as [v ->]. cbn [hd]. exists (v ++ b)%string. destruct (is_def x); reflexivity. }
    destruct V as [v V]. assert (P : paints v u).
    { rewrite V in R. destruct (is_def (hd SPass l)).
      - destruct (paints_pre (nl ++ nl) v _ eq_refl R) as (q & Q & E). cbn in E. injection E as <-. exact Q.
      - destruct (paints_pre nl v _ eq_refl R) as (q & Q & E). cbn in E. injection E as <-. exact Q. }
    exists v, u. split; [|split; [exact Hu|exact P]]. unfold cunparse. cbn [cunp_top cat w]. rewrite Es. rewrite sapp_nil_r. f_equal. unfold ustrip.
    assert (X : lstrip (s ++ nl) = (v ++ nl)%string).
    { assert (Y := lstrip_solid (v ++ nl) (solid_app v nl (paints_solid _ _ P So))). rewrite V. destruct (is_def (hd SPass l)); exact Y. }
    rewrite X. apply rstrip_ends; [eapply paints_ends; eauto|reflexivity].
  Qed.
End Module.
