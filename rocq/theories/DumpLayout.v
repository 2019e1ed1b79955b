(** The layout of a dump, and its colors. *)
From Verif Require Import Base UnparseModel PyGrammar UnparseSpec UnparseLex UnparseToks UnparseText StmtText DumpModel DumpSpec DumpProofs.
Open Scope string_scope.
Open Scope list_scope.

(** ** Characters that the layout does not see *)
Definition dull (c : ascii) : bool := negb (has_char c "([{)]}") && negb (Nat.eqb (nat_of_ascii c) 10) && negb (is_quote c).
Lemma idchar_dull c : is_idchar c = true -> dull c = true.
Proof. destruct c as [[] [] [] [] [] [] [] []]; intros H; try reflexivity; discriminate H. Qed.
Lemma all_chars_app f a b : all_chars f (a ++ b) = all_chars f a && all_chars f b.
Proof. induction a as [|c a IH]; [reflexivity|]. cbn [append all_chars]. rewrite IH. now rewrite andb_assoc. Qed.
Lemma all_chars_impl (f g : ascii -> bool) s : (forall c, f c = true -> g c = true) -> all_chars f s = true -> all_chars g s = true.
Proof. intros H. induction s as [|c s IH]; [reflexivity|]. cbn. intros X. apply andb_true_iff in X as [X1 X2]. now rewrite H, IH. Qed.
Lemma span_split f s a b : span f s = (a, b) -> s = (a ++ b)%string /\ all_chars f a = true.
Proof.
  revert a b. induction s as [|c s IH]; intros a b H; cbn [span] in H; [injection H as <- <-; auto|].
  destruct (f c) eqn:F; [|injection H as <- <-; auto]. destruct (span f s) as [a' b'] eqn:S. injection H as <- <-. destruct (IH _ _ eq_refl) as [-> X]. cbn. now rewrite F.
Qed.
Lemma digits_dull a : all_chars is_digit a = true -> all_chars dull a = true.
Proof. apply all_chars_impl. intros c H. apply idchar_dull. unfold is_idchar. rewrite H. now rewrite orb_true_r. Qed.
Lemma frac_split s a b : scan_frac s = (a, b) -> s = (a ++ b)%string /\ all_chars dull a = true.
Proof.
  unfold scan_frac. destruct s as [|c r]; [intros H; injection H as <- <-; auto|]. destruct (Ascii.eqb_spec c ".") as [->|]; [|intros H; injection H as <- <-; auto].
  destruct (span is_digit r) as [d r1] eqn:S. intros H. injection H as <- <-. apply span_split in S as [-> D]. split; [reflexivity|]. cbn. now apply digits_dull.
Qed.
Lemma imag_split s a b : scan_imag s = (a, b) -> s = (a ++ b)%string /\ all_chars dull a = true.
Proof.
  unfold scan_imag. destruct s as [|c r]; [intros H; injection H as <- <-; auto|]. destruct (Ascii.eqb_spec c "j") as [->|]; [cbn [orb]; intros H; injection H as <- <-; auto|].
  destruct (Ascii.eqb_spec c "J") as [->|]; cbn [orb]; intros H; injection H as <- <-; auto.
Qed.
Lemma exp_split s a b : scan_exp s = (a, b) -> s = (a ++ b)%string /\ all_chars dull a = true.
Proof.
  unfold scan_exp. destruct s as [|e r]; [intros H; injection H as <- <-; auto|]. destruct (Ascii.eqb e "e" || Ascii.eqb e "E") eqn:E; [|intros H; injection H as <- <-; auto].
  assert (De : dull e = true). { apply orb_true_iff in E as [E|E]; apply Ascii.eqb_eq in E as ->; reflexivity. }
  set (q := match r with String g r' => if Ascii.eqb g "+" || Ascii.eqb g "-" then (one g, r') else ("", r) | "" => ("", r) end).
  assert (Q : r = (fst q ++ snd q)%string /\ all_chars dull (fst q) = true).
  { subst q. destruct r as [|g r']; [auto|]. destruct (Ascii.eqb g "+" || Ascii.eqb g "-") eqn:G; [|auto]. split; [reflexivity|].
    apply orb_true_iff in G as [G|G]; apply Ascii.eqb_eq in G as ->; reflexivity. }
  destruct q as [sg r1]. cbn [fst snd] in Q. destruct Q as [-> Dg]. destruct (span is_digit r1) as [d r2] eqn:S. apply span_split in S as [-> D]. apply digits_dull in D.
  destruct d as [|c d]; intros H.
  - injection H as <- <-. auto.
  - injection H as <- <-. split.
    + cbn [append]. now rewrite !sapp_assoc.
    + change (dull e && all_chars dull (sg ++ String c d) = true). rewrite De, all_chars_app, Dg, D. reflexivity.
Qed.
Lemma literal_dull read r : literal read r = true -> all_chars dull r = true.
Proof.
  unfold literal, num_ok. intros H. apply andb_true_iff in H as [H E]. apply String.eqb_eq in E. rewrite E in H. unfold scan_number in H.
  destruct (span is_digit r) as [d r1] eqn:E1. destruct (scan_frac r1) as [f r2] eqn:E2. destruct (scan_exp r2) as [e r3] eqn:E3. destruct (scan_imag r3) as [j r4] eqn:E4.
  assert (r4 = "") as ->. { destruct d; [discriminate|]. destruct (f ++ e ++ j)%string; [discriminate|]. destruct r4; [reflexivity|discriminate]. }
  apply span_split in E1 as [-> D1]. apply frac_split in E2 as [-> D2]. apply exp_split in E3 as [-> D3]. apply imag_split in E4 as [-> D4].
  rewrite !all_chars_app, (digits_dull _ D1), D2, D3, D4. reflexivity.
Qed.

(** ** Layout *)
Lemma scan_app x : forall st y, scan_layout st (x ++ y) = match scan_layout st x with Some st' => scan_layout st' y | None => None end.
Proof. induction x as [|c x IH]; intros st y; [reflexivity|]. cbn [append scan_layout]. destruct (at_char st c); auto. Qed.
Lemma dull_scan x : forall cols col, all_chars dull x = true -> scan_layout (cols, col, Plain) x = Some (cols, col + String.length x, Plain).
Proof.
  induction x as [|c x IH]; intros cols col H; cbn [scan_layout String.length]; [now rewrite Nat.add_0_r|].
  cbn [all_chars] in H. apply andb_true_iff in H as [H Hx]. unfold dull in H. apply andb_true_iff in H as [H H3]. apply andb_true_iff in H as [H1 H2].
  apply negb_true_iff in H1, H2, H3. cbn [at_char]. assert (H1' : has_char c "([{" = false /\ has_char c ")]}" = false).
  { cbn in H1 |- *. repeat (apply orb_false_iff in H1 as [? H1]). rewrite H, H0, H4, H5, H6, H7. auto. }
  destruct H1' as [-> ->]. rewrite H2, H3. rewrite IH by exact Hx. do 3 f_equal. lia.
Qed.
Lemma indent_scan n cols x : nsp x = true -> x <> "" -> scan_layout (n :: cols, n, Indent) x = scan_layout (n :: cols, n, Plain) x.
Proof.
  intros H Hx. destruct x as [|c x]; [congruence|]. unfold nsp in H. cbn [starts] in H. apply negb_true_iff in H. cbn [scan_layout at_char].
  destruct (Ascii.eqb_spec c " ") as [->|]; [discriminate|]. now rewrite Nat.eqb_refl.
Qed.
Lemma spaces_scan n : forall cols col, scan_layout (cols, col, Indent) (spaces n) = Some (cols, col + n, Indent).
Proof. induction n as [|n IH]; intros cols col; cbn [spaces scan_layout]; [now rewrite Nat.add_0_r|]. cbn [at_char Ascii.eqb Bool.eqb]. rewrite IH. do 3 f_equal. lia. Qed.

Lemma hexdigit_ok n : is_idchar (hexdigit n) = true.
Proof. unfold hexdigit. do 16 (destruct n as [|n]; [reflexivity|]). cbn. destruct n; reflexivity. Qed.
Lemma idchar_quoted q c cols col : (q = sq \/ q = dq) -> is_idchar c = true -> at_char (cols, col, Quoted q) c = Some (cols, S col, Quoted q).
Proof.
  intros Hq H. cbn [at_char]. assert (Nat.eqb (nat_of_ascii c) 10 = false) as -> by (destruct c as [[] [] [] [] [] [] [] []]; try reflexivity; discriminate H).
  assert (Ascii.eqb c q = false) as ->. { destruct (Ascii.eqb_spec c q); [|reflexivity]. subst c. destruct Hq; subst q; discriminate. }
  assert (Ascii.eqb c bs = false) as ->. { destruct (Ascii.eqb_spec c bs); [|reflexivity]. subst c. discriminate. } reflexivity.
Qed.
Lemma char_scan raw q c cols col : (q = sq \/ q = dq) -> exists col', scan_layout (cols, col, Quoted q) (repr_char raw q c) = Some (cols, col', Quoted q).
Proof.
  intros Hq. assert (Hb : forall r col, scan_layout (cols, col, Quoted q) (String bs r) = scan_layout (cols, S col, Escaped q) r).
  { intros r col0. cbn [scan_layout at_char]. destruct Hq; subst q; reflexivity. }
  assert (Hx : exists col', scan_layout (cols, col, Quoted q) (String bs ("x" ++ hex2 c)) = Some (cols, col', Quoted q)).
  { rewrite Hb. unfold hex2, one. cbn [append scan_layout]. change (at_char (cols, S col, Escaped q) "x") with (Some (cols, S (S col), Quoted q)). cbv iota beta. rewrite idchar_quoted by (auto using hexdigit_ok). rewrite idchar_quoted by (auto using hexdigit_ok). eauto. }
  unfold repr_char. destruct (Ascii.eqb c q) eqn:E1; cbn [orb]; [rewrite Hb; cbn; eauto|]. destruct (Ascii.eqb c bs) eqn:E2; [rewrite Hb; cbn; eauto|].
  destruct (Nat.eqb_spec (nat_of_ascii c) 9); [rewrite Hb; cbn; eauto|]. destruct (Nat.eqb_spec (nat_of_ascii c) 10) as [|N]; [rewrite Hb; cbn; eauto|].
  assert (Hc : exists col', scan_layout (cols, col, Quoted q) (one c) = Some (cols, col', Quoted q)).
  { unfold one. cbn [scan_layout at_char]. apply Nat.eqb_neq in N. rewrite N, E1, E2. eauto. }
  destruct (Nat.eqb_spec (nat_of_ascii c) 13); [rewrite Hb; cbn; eauto|]. destruct (Nat.ltb (nat_of_ascii c) 32); [exact Hx|].
  destruct (Nat.ltb (nat_of_ascii c) 127); [exact Hc|]. destruct (raw c); [exact Hc|exact Hx].
Qed.
Lemma chars_scan raw q s : (q = sq \/ q = dq) -> forall cols col, exists col', scan_layout (cols, col, Quoted q) (repr_chars raw q s) = Some (cols, col', Quoted q).
Proof.
  intros Hq. induction s as [|c s IH]; intros cols col; [cbn; eauto|]. cbn [repr_chars]. rewrite scan_app. destruct (char_scan raw q c cols col Hq) as [col' ->]. apply IH.
Qed.
Lemma str_scan raw s cols col : exists col', scan_layout (cols, col, Plain) (repr_str raw s) = Some (cols, col', Plain).
Proof.
  assert (Hq : repr_quote s = sq \/ repr_quote s = dq) by (unfold repr_quote; destruct (has_char sq s && negb (has_char dq s)); auto).
  unfold repr_str. cbv zeta. generalize dependent (repr_quote s). intros q Hq. cbn [scan_layout].
  assert (at_char (cols, col, Plain) q = Some (cols, S col, Quoted q)) as -> by (destruct Hq as [-> | ->]; reflexivity).
  rewrite scan_app. destruct (chars_scan raw q s Hq cols (S col)) as [col' ->]. unfold one. exists (S col'). destruct Hq as [-> | ->]; reflexivity.
Qed.

Section Layout.
  Variable read : string -> string.
  Variable printable : ascii -> bool.
  Variable repr_obj : nat -> string.
  Variable multiline : bool.
  Variable cs : scheme.
  Notation none := (fun (_ : unit) (_ : string) => @nil (string * atom)).
  Notation rec := (recurse printable repr_obj none false multiline false cs).

  (** The column is the expected one, if there are several lines. *)
  Definition at_col (n col : nat) : Prop := multiline = true -> col = n.
  Definition LO (n : nat) (x : string) : Prop := forall cols col, at_col n col -> exists col', scan_layout (cols, col, Plain) x = Some (cols, col', Plain).

  Lemma atom_LO n a : atom_ok read a = true -> LO n (repr_atom printable repr_obj a).
  Proof.
    intros H cols col _. destruct a as [| |b|z|r|r|s|s|k]; cbn [atom_ok repr_atom] in *; try discriminate.
    - eexists. now apply dull_scan.
    - eexists. now apply dull_scan.
    - destruct b; eexists; now apply dull_scan.
    - assert (D : all_chars dull (repr_int (Z.abs_N z)) = true) by (apply digits_dull; apply repr_int_ok).
      destruct (Z.ltb z 0); eexists; apply dull_scan; [cbn; exact D|exact D].
    - apply andb_true_iff in H as [H _]. apply literal_dull in H. eexists. apply dull_scan. rewrite <- (signed r). rewrite all_chars_app, H. destruct (negative r); reflexivity.
    - apply andb_true_iff in H as [H _]. apply literal_dull in H. eexists. now apply dull_scan.
    - apply str_scan.
    - change ("b" ++ repr_str (fun _ => false) s)%string with (String "b" (repr_str (fun _ => false) s)). cbn [scan_layout]. change (at_char (cols, col, Plain) "b") with (Some (cols, S col, Plain)). apply str_scan.
  Qed.
  (** Items, from the second on each after a separator; the column after the bracket is [n]. *)
  Definition item (n : nat) (x : string) : Prop := x <> "" /\ nsp x = true /\ LO n x.
  Lemma concat_LO n l : Forall (item n) l -> forall c cols col, at_col n c -> at_col n col ->
    exists col', scan_layout (c :: cols, col, Plain) (String.concat (separator multiline n) l) = Some (c :: cols, col', Plain).
  Proof.
    intros H. induction H as [|x l (N1 & N2 & Hx) H IH]; intros c cols col Hc Hcol; [cbn; eauto|]. destruct H as [|y l Hy H]; [cbn [String.concat]; now apply Hx|].
    change (String.concat (separator multiline n) (x :: y :: l)) with (x ++ separator multiline n ++ String.concat (separator multiline n) (y :: l))%string.
    rewrite !scan_app. destruct (Hx (c :: cols) col Hcol) as [col1 ->]. unfold separator at 1. unfold at_col in *. destruct multiline.
    - rewrite Hc in * by reflexivity. rewrite !scan_app. cbn [scan_layout]. change (at_char (n :: cols, col1, Plain) ",") with (Some (n :: cols, S col1, Plain)). cbv iota beta.
      rewrite scan_app. change (scan_layout (n :: cols, S col1, Plain) nl) with (Some (n :: cols, 0, Indent)). cbv iota beta. rewrite spaces_scan. rewrite Nat.add_0_l. rewrite indent_scan; [apply IH; auto| |].
      + destruct Hy as (Y1 & Y2 & _). destruct l; [exact Y2|]. cbn [String.concat]. destruct y; [congruence|]. exact Y2.
      + destruct Hy as (Y1 & Y2 & _). destruct l; [exact Y1|]. cbn [String.concat]. destruct y; [congruence|]. discriminate.
    - cbn -[String.concat]. apply IH; discriminate.
  Qed.
  Lemma ident_LO x : is_identifier x = true -> all_chars dull x = true /\ x <> "" /\ forall y, nsp (x ++ y) = true.
  Proof.
    intros H. destruct x as [|c x]; [discriminate|]. cbn [is_identifier] in H. apply andb_true_iff in H as [H _]. apply andb_true_iff in H as [Hc Hx]. split; [|split; [discriminate|]].
    - cbn [all_chars]. rewrite (idchar_dull c) by (unfold is_idchar; now rewrite Hc). apply (all_chars_impl _ dull) in Hx; [exact Hx|apply idchar_dull].
    - intros y. unfold nsp. cbn [append starts]. rewrite efirst_nsp; [reflexivity|]. unfold efirst. now rewrite Hc.
  Qed.
  Lemma rec_nsp t n : dumpable read t = true -> rec n t <> "" /\ nsp (rec n t) = true.
  Proof.
    intros H. destruct (recurse_toks read printable repr_obj multiline cs t n H ")" eq_refl) as [S B]. apply beg_nsp in B. destruct (rec n t) eqn:E; [|split; [discriminate|exact B]].
    exfalso. destruct t as [m k fs|l|a].
    - cbn [dumpable] in H. apply andb_true_iff in H as [H _]. apply andb_true_iff in H as [H _]. destruct k; discriminate.
    - cbn [recurse] in E. destruct (map _ l); [discriminate|]. cbn [String.concat] in E. destruct l0; discriminate.
    - cbn [recurse] in E. destruct a as [| |b|z|r|r|s|s|k]; cbn [repr_atom atom_ok dumpable] in *; try discriminate.
      + destruct b; discriminate.
      + destruct (repr_int_ok (Z.abs_N z)) as (_ & X & _). destruct (Z.ltb z 0); [discriminate|]. rewrite E in X. discriminate.
      + subst r. discriminate.
      + subst r. discriminate.
  Qed.
  Theorem recurse_LO : forall t n, dumpable read t = true -> LO n (rec n t).
  Proof.
    induction t as [m k fs IH|l IH|a] using tree_ind'; intros prev Hd.
    - cbn [dumpable] in Hd. apply andb_true_iff in Hd as [Hd _]. apply andb_true_iff in Hd as [Hk Hf]. rewrite forallb_forall in Hf. rewrite Forall_forall in IH.
      cbn [recurse]. unfold maybe_colorize, maybe_colorize_value. rewrite app_nil_r, map_map. set (n := prev + (String.length k + 1)). intros cols col Hcol.
      destruct (ident_LO k Hk) as (Dk & _). rewrite scan_app, dull_scan by exact Dk.
      change ("(" ++ ?x)%string with (String "(" x). cbn [scan_layout]. change (at_char (cols, ?c, Plain) "(") with (Some (S c :: cols, S c, Plain)). cbv iota beta. rewrite scan_app.
      rewrite (map_ext _ (fun p => match p with (f, v) => f ++ "=" ++ rec (n + (String.length f + 1)) v end)%string).
      2:{ intros [f v]. destruct (starts_bracket _); reflexivity. }
      assert (C : at_col n (S (col + String.length k))) by (unfold at_col in *; intros E; rewrite Hcol by exact E; lia).
      destruct (concat_LO n (map (fun p => match p with (f, v) => f ++ "=" ++ rec (n + (String.length f + 1)) v end)%string fs)) with (c := S (col + String.length k)) (cols := cols) (col := S (col + String.length k)) as [col' ->]; auto.
      + apply Forall_forall. intros q Hq. apply in_map_iff in Hq as ([f v] & <- & Hin). specialize (IH _ Hin). specialize (Hf _ Hin). cbn in IH, Hf.
        apply andb_true_iff in Hf as [Hi Hv]. destruct (ident_LO f Hi) as (Df & Nf & Sf). split; [destruct f; [congruence|discriminate]|]. split; [apply Sf|].
        intros cols0 col0 H0. rewrite scan_app, dull_scan by exact Df. change ("=" ++ ?x)%string with (String "=" x). cbn [scan_layout]. change (at_char (cols0, ?c, Plain) "=") with (Some (cols0, S c, Plain)). cbv iota beta. apply IH; auto. unfold at_col in *. intros E. rewrite H0 by exact E. lia.
      + cbn. eauto.
    - cbn [dumpable] in Hd. rewrite forallb_forall in Hd. rewrite Forall_forall in IH. cbn [recurse]. intros cols col Hcol.
      replace (match map (rec (prev + 1)) l with [] => "[]" | x :: items => String.concat (separator multiline (prev + 1)) (("[" ++ lstrip x)%string :: items) ++ "]" end)%string
        with ("[" ++ String.concat (separator multiline (prev + 1)) (map (rec (prev + 1)) l) ++ "]")%string.
      2:{ destruct l as [|x l]; [reflexivity|]. cbn [map]. rewrite (lstrip_nsp _ "") by (rewrite sapp_nil; apply rec_nsp; apply Hd; now left).
          destruct (map (rec (prev + 1)) l) as [|y r]; cbn [String.concat]; rewrite ?sapp_assoc; reflexivity. }
      change ("[" ++ ?x)%string with (String "[" x). cbn [scan_layout]. change (at_char (cols, ?c, Plain) "[") with (Some (S c :: cols, S c, Plain)). cbv iota beta. rewrite scan_app.
      assert (C : at_col (prev + 1) (S col)) by (unfold at_col in *; intros E; rewrite Hcol by exact E; lia).
      destruct (concat_LO (prev + 1) (map (rec (prev + 1)) l)) with (c := S col) (cols := cols) (col := S col) as [col' ->]; auto.
      + apply Forall_forall. intros q Hq. apply in_map_iff in Hq as (v & <- & Hin). split; [|split]; [now apply rec_nsp; auto..|]. apply IH; auto.
      + cbn. eauto.
    - cbn [recurse]. apply atom_LO. exact Hd.
  Qed.
End Layout.

(** ** Colors *)
Definition shows (x y : string) : Prop := strip false x = (y, false).
Lemma strip_app x : forall b y, strip b (x ++ y) = let (a, b') := strip b x in let (c, b'') := strip b' y in ((a ++ c)%string, b'').
Proof.
  induction x as [|c x IH]; intros b y; cbn [append strip]; [now destruct (strip b y)|]. destruct b; [apply IH|]. destruct (Ascii.eqb c esc); [apply IH|].
  rewrite IH. destruct (strip false x) as [a b']. destruct (strip b' y) as [d b'']. reflexivity.
Qed.
Lemma shows_app x1 y1 x2 y2 : shows x1 y1 -> shows x2 y2 -> shows (x1 ++ x2) (y1 ++ y2).
Proof. unfold shows. intros H1 H2. now rewrite strip_app, H1, H2. Qed.
Lemma shows_self y : no_esc y = true -> shows y y.
Proof.
  unfold shows, no_esc. induction y as [|c y IH]; [reflexivity|]. cbn [all_chars strip]. intros H. apply andb_true_iff in H as [H1 H2]. apply negb_true_iff in H1. rewrite H1. now rewrite IH.
Qed.
Lemma no_esc_app a b : no_esc (a ++ b) = no_esc a && no_esc b.
Proof. apply all_chars_app. Qed.
Lemma shows_lstrip x y : shows x y -> nsp y = true -> y <> "" -> lstrip x = x.
Proof.
  intros H Hy N. destruct x as [|c x]; [reflexivity|]. unfold shows in H. cbn [strip] in H. cbn [lstrip]. destruct (Ascii.eqb_spec c esc) as [->|].
  - reflexivity.
  - destruct (strip false x) as [t b]. inversion H; subst. unfold nsp in Hy. cbn [starts] in Hy. apply negb_true_iff in Hy. now rewrite Hy.
Qed.
Lemma shows_concat s l m : no_esc s = true -> Forall2 shows l m -> shows (String.concat s l) (String.concat s m).
Proof.
  intros Hs H. induction H as [|x y l m Hx H IH]; [reflexivity|]. destruct H as [|x' y' l m Hx' H]; [exact Hx|].
  change (String.concat s (x :: x' :: l)) with (x ++ s ++ String.concat s (x' :: l))%string. change (String.concat s (y :: y' :: m)) with (y ++ s ++ String.concat s (y' :: m))%string.
  apply shows_app; [exact Hx|]. apply shows_app; [now apply shows_self|exact IH].
Qed.
Lemma concat_esc s l : no_esc (String.concat s l) = true -> Forall (fun x => no_esc x = true) l.
Proof.
  induction l as [|x l IH]; [constructor|]. destruct l as [|y l]; [cbn [String.concat]; auto|].
  change (String.concat s (x :: y :: l)) with (x ++ s ++ String.concat s (y :: l))%string. rewrite !no_esc_app. intros H. apply andb_true_iff in H as [H1 H]. apply andb_true_iff in H as [_ H]. auto.
Qed.

Section Colors.
  Variable read : string -> string.
  Variable printable : ascii -> bool.
  Variable repr_obj : nat -> string.
  Variable multiline : bool.
  Variable cs : scheme.
  Hypothesis Hreset : codes (reset_all cs).
  Hypothesis Hnode : codes (nodetype cs).
  Hypothesis Hfield : codes (fieldname cs).
  Hypothesis Hbare : codes (barevalue cs).
  Notation none := (fun (_ : unit) (_ : string) => @nil (string * atom)).
  Notation rec color := (recurse printable repr_obj none false multiline color cs).

  Lemma shows_colorize x y c : codes c -> shows x y -> shows (colorize cs x c) y.
  Proof.
    intros Hc H. unfold colorize. change y with ("" ++ y)%string. apply shows_app; [change "" with ("" ++ "")%string; now apply shows_app|].
    rewrite <- (sapp_nil y). apply shows_app; [exact H|exact Hreset].
  Qed.
  Lemma sep_esc n : no_esc (separator multiline n) = true.
  Proof.
    unfold separator. destruct multiline; [|reflexivity]. rewrite !no_esc_app. cbn [andb no_esc all_chars]. change (no_esc nl) with true. change (no_esc ",") with true. cbn [andb]. induction n; [reflexivity|]. exact IHn.
  Qed.
  Theorem color_shows : forall t n, dumpable read t = true -> no_esc (rec false n t) = true -> shows (rec true n t) (rec false n t).
  Proof.
    induction t as [m k fs IH|l IH|a] using tree_ind'; intros prev Hd He.
    - cbn [dumpable] in Hd. apply andb_true_iff in Hd as [Hd _]. apply andb_true_iff in Hd as [Hk Hf]. rewrite forallb_forall in Hf. rewrite Forall_forall in IH.
      cbn [recurse] in He |- *. rewrite app_nil_r, map_map in He. rewrite !app_nil_r, !map_map. set (n := prev + (String.length k + 1)) in *.
      unfold maybe_colorize at 1 2. unfold maybe_colorize at 1 in He. rewrite !no_esc_app in He. apply andb_true_iff in He as [E1 E2]. apply andb_true_iff in E2 as [_ E2]. apply andb_true_iff in E2 as [E2 _].
      apply shows_app; [apply shows_colorize; auto; now apply shows_self|]. apply shows_app; [reflexivity|]. apply shows_app; [|reflexivity]. apply shows_concat; [apply sep_esc|].
      apply concat_esc in E2. rewrite Forall_forall in E2. clear - IH Hf E2 Hreset Hfield Hbare. induction fs as [|[f v] fs IHf]; [constructor|]. cbn [map]. constructor.
      + assert (H := E2 _ (or_introl eq_refl)). cbn [map] in H. unfold maybe_colorize, maybe_colorize_value in *. rewrite !no_esc_app in H. apply andb_true_iff in H as [H1 H2]. apply andb_true_iff in H2 as [_ H2].
        apply shows_app; [apply shows_colorize; auto; now apply shows_self|]. apply shows_app; [reflexivity|].
        specialize (IH _ (or_introl eq_refl)). specialize (Hf _ (or_introl eq_refl)). cbn in IH, Hf. apply andb_true_iff in Hf as [_ Hv].
        assert (H2' : no_esc (rec false (n + (String.length f + 1)) v) = true) by (destruct (starts_bracket (rec false (n + (String.length f + 1)) v)); exact H2).
        replace (if starts_bracket (rec false (n + (String.length f + 1)) v) then rec false (n + (String.length f + 1)) v else maybe_colorize false cs (rec false (n + (String.length f + 1)) v) (barevalue cs))
          with (rec false (n + (String.length f + 1)) v) by (destruct (starts_bracket (rec false (n + (String.length f + 1)) v)); reflexivity).
        specialize (IH (n + (String.length f + 1)) Hv H2').
        destruct (starts_bracket (rec true (n + (String.length f + 1)) v)); [exact IH|]. unfold maybe_colorize. now apply shows_colorize.
      + apply IHf; intros; [apply IH|apply Hf|apply E2]; auto; now right.
    - cbn [dumpable] in Hd. rewrite forallb_forall in Hd. rewrite Forall_forall in IH. cbn [recurse] in He |- *.
      assert (X : forall x, In x l -> lstrip (rec false (prev + 1) x) = rec false (prev + 1) x /\ (no_esc (rec false (prev + 1) x) = true -> lstrip (rec true (prev + 1) x) = rec true (prev + 1) x)).
      { intros x Hx. destruct (rec_nsp read printable repr_obj multiline cs x (prev + 1) (Hd _ Hx)) as [N1 N2]. split; [apply (lstrip_nsp _ ""); now rewrite sapp_nil|].
        intros Ex. apply (shows_lstrip _ _ (IH x Hx (prev + 1) (Hd _ Hx) Ex)); auto. }
      destruct l as [|x l]; [reflexivity|]. cbn [map] in *. destruct (X x (or_introl eq_refl)) as [X1 X2]. rewrite X1 in *. rewrite no_esc_app in He. apply andb_true_iff in He as [He _].
      apply concat_esc in He. inversion He as [|? ? E1 E2]. subst. change ("[" ++ rec false (prev + 1) x)%string with (String "[" (rec false (prev + 1) x)) in E1. cbn [no_esc all_chars] in E1. apply andb_true_iff in E1 as [_ E1].
      rewrite (X2 E1). apply shows_app; [|reflexivity]. apply shows_concat; [apply sep_esc|]. constructor.
      + apply shows_app; [reflexivity|]. apply IH; auto; [now left|apply Hd; now left].
      + rewrite Forall_forall in E2. clear - IH Hd E2. induction l as [|y l IHl]; [constructor|]. cbn [map] in *. constructor.
        * apply IH; [now right; left|apply Hd; now right; left|apply E2; now left].
        * apply IHl; intros; [apply IH|apply Hd|apply E2]; auto; [destruct H as [->|]; [now left|now right; right]|destruct H as [->|]; [now left|now right; right]|now right].
    - cbn [recurse] in *. now apply shows_self.
  Qed.
End Colors.

(** ** One line *)
Definition no_nl (s : string) : bool := negb (has_char (ascii_of_nat 10) s).
Lemma has_char_app c a b : has_char c (a ++ b) = has_char c a || has_char c b.
Proof. induction a as [|d a IH]; [reflexivity|]. cbn [append has_char]. now rewrite IH, orb_assoc. Qed.
Lemma no_nl_app a b : no_nl (a ++ b) = no_nl a && no_nl b.
Proof. unfold no_nl. now rewrite has_char_app, negb_orb. Qed.
Lemma dull_nl s : all_chars dull s = true -> no_nl s = true.
Proof.
  unfold no_nl. intros H. apply negb_true_iff. induction s as [|c s IH]; [reflexivity|]. cbn [all_chars has_char] in *. apply andb_true_iff in H as [H1 H2]. rewrite IH by exact H2. rewrite orb_false_r.
  unfold dull in H1. apply andb_true_iff in H1 as [H1 _]. apply andb_true_iff in H1 as [_ H1]. apply negb_true_iff in H1. apply Nat.eqb_neq in H1.
  destruct (Ascii.eqb_spec (ascii_of_nat 10) c) as [<-|]; [|reflexivity]. exfalso. now apply H1.
Qed.
Lemma hex_nl c : no_nl (String bs ("x" ++ hex2 c)) = true.
Proof.
  unfold hex2. set (n1 := nat_of_ascii c / 16). set (n2 := nat_of_ascii c mod 16). change (no_nl (String bs (String "x" (String (hexdigit n1) (one (hexdigit n2)))))= true).
  assert (X : forall n, Ascii.eqb (ascii_of_nat 10) (hexdigit n) = false).
  { intros n. assert (H := hexdigit_ok n). destruct (Ascii.eqb_spec (ascii_of_nat 10) (hexdigit n)) as [E|]; [rewrite <- E in H; discriminate|reflexivity]. }
  unfold no_nl, one. cbn [has_char]. rewrite !X. reflexivity.
Qed.
Lemma char_nl raw q c : (q = sq \/ q = dq) -> no_nl (repr_char raw q c) = true.
Proof.
  intros Hq. unfold repr_char. destruct (Ascii.eqb_spec c q) as [->|]; cbn [orb]; [destruct Hq as [-> | ->]; reflexivity|]. destruct (Ascii.eqb_spec c bs) as [->|]; [reflexivity|].
  destruct (Nat.eqb_spec (nat_of_ascii c) 9); [reflexivity|]. destruct (Nat.eqb_spec (nat_of_ascii c) 10) as [|N]; [reflexivity|].
  destruct (Nat.eqb_spec (nat_of_ascii c) 13); [reflexivity|].
  assert (C : no_nl (one c) = true). { unfold no_nl, one. cbn [has_char]. destruct (Ascii.eqb_spec (ascii_of_nat 10) c) as [<-|]; [exfalso; now apply N|reflexivity]. }
  destruct (Nat.ltb (nat_of_ascii c) 32); [apply hex_nl|]. destruct (Nat.ltb (nat_of_ascii c) 127); [exact C|]. destruct (raw c); [exact C|apply hex_nl].
Qed.
Lemma str_nl raw s : no_nl (repr_str raw s) = true.
Proof.
  assert (Hq : repr_quote s = sq \/ repr_quote s = dq) by (unfold repr_quote; destruct (has_char sq s && negb (has_char dq s)); auto).
  unfold repr_str. cbv zeta. generalize dependent (repr_quote s). intros q Hq.
  assert (no_nl (one q) = true) as Q by (destruct Hq as [-> | ->]; reflexivity). change (String q ?x) with (one q ++ x)%string. rewrite !no_nl_app, Q. cbn [andb]. rewrite andb_true_r.
  induction s as [|c s IH]; [reflexivity|]. cbn [repr_chars]. now rewrite no_nl_app, char_nl, IH.
Qed.
Lemma concat_nl s l : no_nl s = true -> Forall (fun x => no_nl x = true) l -> no_nl (String.concat s l) = true.
Proof.
  intros Hs H. induction H as [|x l Hx H IH]; [reflexivity|]. destruct H as [|y l Hy H]; [exact Hx|].
  change (String.concat s (x :: y :: l)) with (x ++ s ++ String.concat s (y :: l))%string. now rewrite !no_nl_app, Hx, Hs, IH.
Qed.
Lemma lstrip_nl x : no_nl x = true -> no_nl (lstrip x) = true.
Proof.
  induction x as [|c x IH]; [reflexivity|]. cbn [lstrip]. intros H. destruct (is_space c); [|exact H]. apply IH. unfold no_nl in *. cbn [has_char] in H. apply negb_true_iff, orb_false_iff in H as [_ H]. now rewrite H.
Qed.
Section OneLine.
  Variable read : string -> string.
  Variable printable : ascii -> bool.
  Variable repr_obj : nat -> string.
  Variable cs : scheme.
  Notation none := (fun (_ : unit) (_ : string) => @nil (string * atom)).
  Notation rec := (recurse printable repr_obj none false false false cs).
  Lemma atom_nl a : atom_ok read a = true -> no_nl (repr_atom printable repr_obj a) = true.
  Proof.
    destruct a as [| |b|z|r|r|s|s|k]; cbn [atom_ok repr_atom]; intros H; try discriminate; try reflexivity.
    - destruct b; reflexivity.
    - assert (D : no_nl (repr_int (Z.abs_N z)) = true) by (apply dull_nl, digits_dull; apply repr_int_ok). destruct (Z.ltb z 0); [rewrite no_nl_app, D; reflexivity|exact D].
    - apply andb_true_iff in H as [H _]. apply literal_dull, dull_nl in H. rewrite <- (signed r). rewrite no_nl_app, H. destruct (negative r); reflexivity.
    - apply andb_true_iff in H as [H _]. now apply literal_dull, dull_nl in H.
    - apply str_nl.
    - rewrite no_nl_app, str_nl. reflexivity.
  Qed.
  Theorem rec_one_line : forall t n, dumpable read t = true -> no_nl (rec n t) = true.
  Proof.
    induction t as [m k fs IH|l IH|a] using tree_ind'; intros prev Hd; cbn [dumpable] in Hd; cbn [recurse].
    - apply andb_true_iff in Hd as [Hd _]. apply andb_true_iff in Hd as [Hk Hf]. rewrite forallb_forall in Hf. rewrite Forall_forall in IH.
      unfold maybe_colorize, maybe_colorize_value, separator. rewrite app_nil_r, map_map, !no_nl_app. rewrite (dull_nl k) by now apply ident_LO.
      rewrite concat_nl; [reflexivity|reflexivity|]. apply Forall_forall. intros x Hx. apply in_map_iff in Hx as ([f v] & <- & Hin). specialize (IH _ Hin). specialize (Hf _ Hin). cbn in IH, Hf.
      apply andb_true_iff in Hf as [Hi Hv]. rewrite !no_nl_app, (dull_nl f) by now apply ident_LO. cbn [andb]. change (no_nl "=") with true. cbn [andb].
      destruct (starts_bracket _); unfold maybe_colorize; now apply IH.
    - rewrite forallb_forall in Hd. rewrite Forall_forall in IH. destruct l as [|x l]; [reflexivity|]. cbn [map]. rewrite no_nl_app. rewrite concat_nl; [reflexivity|reflexivity|]. constructor.
      + rewrite no_nl_app, lstrip_nl; [reflexivity|]. apply IH; [now left|apply Hd; now left].
      + apply Forall_forall. intros y Hy. apply in_map_iff in Hy as (v & <- & Hin). apply IH; [now right|apply Hd; now right].
    - now apply atom_nl.
  Qed.
  Lemma recurse_one_line t n : dumpable read t = true -> has_char (ascii_of_nat 10) (rec n t) = false.
  Proof. intros H. assert (X := rec_one_line t n H). unfold no_nl in X. now apply negb_true_iff in X. Qed.
End OneLine.
