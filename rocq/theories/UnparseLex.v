(** The characters that the unparser writes for an expression, as tokens. *)
From Coq Require Import DecimalString DecimalN DecimalFacts NArith.
From Verif Require Import Base UnparseModel PyGrammar UnparseSpec.
Open Scope string_scope.
Open Scope list_scope.

(** ** Strings *)
Lemma sapp_assoc (a b c : string) : ((a ++ b) ++ c = a ++ (b ++ c))%string.
Proof. induction a as [|x a IH]; cbn; [reflexivity|]. now rewrite IH. Qed.
Lemma sapp_nil (a : string) : (a ++ "" = a)%string.
Proof. induction a as [|x a IH]; cbn; [reflexivity|]. now rewrite IH. Qed.
Lemma slen_app (a b : string) : String.length (a ++ b)%string = String.length a + String.length b.
Proof. induction a as [|x a IH]; cbn; [reflexivity|]. now rewrite IH. Qed.

Lemma span_app f a rest : all_chars f a = true -> starts f rest = false -> span f (a ++ rest)%string = (a, rest).
Proof.
  intros Ha Hr. induction a as [|c a IH]; cbn in *.
  - destruct rest as [|c r]; [reflexivity|]. cbn in Hr |- *. now rewrite Hr.
  - apply andb_true_iff in Ha as [Hc Ha]. rewrite Hc, (IH Ha). reflexivity.
Qed.
Lemma span_ok f s : all_chars f (fst (span f s)) = true /\ starts f (snd (span f s)) = false /\ s = (fst (span f s) ++ snd (span f s))%string.
Proof.
  induction s as [|c s IH]; cbn; [auto|]. destruct (f c) eqn:E.
  - destruct (span f s) as [a b]; cbn in *. destruct IH as (H1 & H2 & H3). rewrite E, H1. repeat split; auto. now rewrite <- H3.
  - cbn. rewrite E. auto.
Qed.

(** ** Steps of the lexer *)
Section Lex.
  Variable read : string -> string.
  Variable printable : ascii -> bool.
  Notation step := (step read).
  Notation unp := (unp printable).
  Notation ok := (ok read).

  Inductive steps : string -> list tok -> string -> Prop :=
  | st_nil s : steps s [] s
  | st_tokn x t r ts q : x <> "" -> (forall n, String.length (x ++ r) <= S n -> fstep read n (x ++ r) = Some (Some t, r)) -> steps r ts q -> steps (x ++ r) (t :: ts) q
  | st_sp r ts q : steps r ts q -> steps (String " " r) ts q.
  Lemma fstep_step n s x : step s = Some x -> fstep read n s = Some x.
  Proof. intros H. destruct n; cbn [fstep]; rewrite H; reflexivity. Qed.
  Lemma st_tok x t r ts q : x <> "" -> step (x ++ r) = Some (Some t, r) -> steps r ts q -> steps (x ++ r) (t :: ts) q.
  Proof. intros Hx H. apply st_tokn; auto. intros n _. now apply fstep_step. Qed.

  Lemma steps_trans s1 t1 s2 t2 s3 : steps s1 t1 s2 -> steps s2 t2 s3 -> steps s1 (t1 ++ t2) s3.
  Proof. induction 1; intros H'; cbn; auto; [eapply st_tokn|apply st_sp]; eauto. Qed.
  Lemma steps_one x t r : x <> "" -> step (x ++ r) = Some (Some t, r) -> steps (x ++ r) [t] r.
  Proof. intros. eapply st_tok; eauto. apply st_nil. Qed.
  Lemma steps_lexn s ts : steps s ts "" -> forall n, String.length s <= n -> lexn read n s = Some ts.
  Proof.
    remember "" as q eqn:Eq. induction 1; intros n Hn; subst.
    - destruct n; reflexivity.
    - assert (Hl := Hn). rewrite slen_app in Hl. destruct x as [|c x]; [congruence|]. cbn in Hl. destruct n as [|n]; [lia|].
      cbn [append lexn]. cbn [append] in H0, Hn. rewrite H0 by exact Hn. rewrite IHsteps by (auto; lia). reflexivity.
    - cbn in Hn. destruct n as [|n]; [lia|]. cbn [lexn]. rewrite (fstep_step n (String " " r) (None, r) eq_refl). rewrite IHsteps by (auto; lia). reflexivity.
  Qed.
  Lemma steps_lex s ts : steps s ts "" -> lex read s = Some ts.
  Proof. intros H. apply steps_lexn; auto. Qed.

  Lemma lex_nl u : lex read (nl ++ u) =
    match (let (b, r1) := span (Ascii.eqb " ") u in Some (Some (TNl (String.length b)), r1)) with
    | Some (t, r) => match lexn read (String.length u) r with Some l => Some (match t with Some t => t :: l | None => l end) | None => None end
    | None => None
    end.
  Proof.
    assert (X : step (nl ++ u) = let (b, r1) := span (Ascii.eqb " ") u in Some (Some (TNl (String.length b)), r1)) by reflexivity.
    unfold lex. change (String.length (nl ++ u)) with (S (String.length u)). cbn [lexn]. change (nl ++ u)%string with (String (ascii_of_nat 10) u) in *.
    destruct (span (Ascii.eqb " ") u) as [b r1]. rewrite (fstep_step _ _ _ X). reflexivity.
  Qed.

  (** ** What may come next *)
  (** After a name, a number, a string. *)
  Definition sep (s : string) : bool := negb (starts is_idchar s) && negb (starts is_quote s).
  (** After an operator. *)
  Definition soft (s : string) : bool := match s with String c _ => negb (has_char c "=*/<>") | "" => true end.
  Definition nodot (s : string) : bool := negb (starts (Ascii.eqb ".") s).
  (** A character that an expression begins with. *)
  Definition efirst (c : ascii) : bool := is_idstart c || is_digit c || is_quote c || has_char c "([{.".

  (** ** Names, constants *)
  Lemma ident_step x rest : is_identifier x = true -> sep rest = true -> step (x ++ rest) = Some (Some (TId x), rest).
  Proof.
    intros Hx Hr. apply andb_true_iff in Hr as [Hr1 Hr2]. apply negb_true_iff in Hr1, Hr2. destruct x as [|c x]; [discriminate|].
    cbn in Hx. apply andb_true_iff in Hx as [Hx Hk]. apply andb_true_iff in Hx as [Hc Hx]. apply negb_true_iff in Hk.
    assert (Hs : span is_idchar (String c x ++ rest) = (String c x, rest)).
    { apply span_app; auto. cbn. rewrite Hx. unfold is_idchar. now rewrite Hc. }
    unfold PyGrammar.step. cbn [append]. cbn [append] in Hs.
    assert (H1 : Ascii.eqb c " " = false). { destruct (Ascii.eqb_spec c " "); [subst; discriminate|reflexivity]. }
    assert (H2 : Nat.eqb (nat_of_ascii c) 10 = false).
    { destruct (Nat.eqb_spec (nat_of_ascii c) 10) as [E|]; [|reflexivity]. unfold is_idstart, between in Hc. rewrite E in Hc. discriminate. }
    rewrite H1, H2, Hc, Hs, Hr2. unfold smem in *. cbn in Hk |- *. rewrite Hk. reflexivity.
  Qed.

  Lemma digit_facts c : is_digit c = true -> Ascii.eqb c " " = false /\ Nat.eqb (nat_of_ascii c) 10 = false /\ is_idstart c = false /\ Ascii.eqb c "." = false.
  Proof. destruct c as [[] [] [] [] [] [] [] []]; cbn; intros; try discriminate; auto. Qed.
  Lemma digit_step s : starts is_digit s = true -> step s = number read s.
  Proof. destruct s as [|c r]; [discriminate|]. intros H. destruct (digit_facts c H) as (H1 & H2 & H3 & _). unfold PyGrammar.step. cbn in H. now rewrite H1, H2, H3, H. Qed.

  Lemma uint_digits u : all_chars is_digit (NilEmpty.string_of_uint u) = true.
  Proof. induction u; cbn; auto. Qed.
  Lemma to_uint_norm n : Decimal.unorm (N.to_uint n) = N.to_uint n.
  Proof. rewrite <- DecimalN.Unsigned.to_of. now rewrite DecimalN.Unsigned.of_to. Qed.
  Lemma unorm_nonnil u : Decimal.unorm u <> Decimal.Nil.
  Proof. unfold Decimal.unorm. destruct (Decimal.nzhead u); discriminate. Qed.
  Lemma nzhead_not0 u v : Decimal.nzhead u <> Decimal.D0 v.
  Proof. revert v. induction u; cbn; intros v; try discriminate. auto. Qed.
  Lemma repr_int_ok n :
    all_chars is_digit (repr_int n) = true /\ starts is_digit (repr_int n) = true /\ int_ok (repr_int n) = true /\
    NilZero.uint_of_string (repr_int n) = Some (N.to_uint n).
  Proof.
    unfold repr_int. assert (Hn := to_uint_norm n). assert (H : N.to_uint n <> Decimal.Nil) by (rewrite <- Hn; apply unorm_nonnil).
    split; [|split; [|split]].
    - unfold NilZero.string_of_uint. destruct (N.to_uint n) eqn:E; try apply uint_digits; try congruence.
    - destruct (N.to_uint n); cbn; auto; congruence.
    - destruct (N.to_uint n) as [|u|u|u|u|u|u|u|u|u|u]; try reflexivity; try congruence. unfold Decimal.unorm in Hn. cbn [Decimal.nzhead] in Hn.
      assert (u = Decimal.Nil).
      { destruct (Decimal.nzhead u) eqn:E; try congruence. exfalso. apply (nzhead_not0 u u0). congruence. }
      now subst.
    - apply NilZero.usu; auto.
  Qed.
  Lemma starts_app f a b : starts f a = true -> starts f (a ++ b) = true.
  Proof. destruct a; cbn; [discriminate|auto]. Qed.
  Lemma starts_weaken f g s : (forall c, f c = true -> g c = true) -> starts g s = false -> starts f s = false.
  Proof. intros H. destruct s; cbn; auto. destruct (f a) eqn:E; auto. rewrite (H _ E). discriminate. Qed.
  Lemma digit_idchar c : is_digit c = true -> is_idchar c = true.
  Proof. intros H. unfold is_idchar. rewrite H. apply orb_true_r. Qed.
  (** At the end of a number that nothing can prolong. *)
  Lemma scan_end rest : starts is_idchar rest = false -> scan_exp rest = ("", rest) /\ scan_imag rest = ("", rest).
  Proof.
    intros H. destruct rest as [|c r]; [auto|]. cbn in H.
    assert (E1 : Ascii.eqb c "e" || Ascii.eqb c "E" = false).
    { destruct (Ascii.eqb_spec c "e"), (Ascii.eqb_spec c "E"); subst; try discriminate; reflexivity. }
    assert (E2 : Ascii.eqb c "j" || Ascii.eqb c "J" = false).
    { destruct (Ascii.eqb_spec c "j"), (Ascii.eqb_spec c "J"); subst; try discriminate; reflexivity. }
    unfold scan_exp, scan_imag. rewrite E1, E2. auto.
  Qed.
  Lemma int_step n rest : sep rest = true -> nodot rest = true -> step (repr_int n ++ rest) = Some (Some (TConst (CInt n)), rest).
  Proof.
    intros Hs Hd. apply andb_true_iff in Hs as [Hs _]. apply negb_true_iff in Hs, Hd. destruct (repr_int_ok n) as (H1 & H2 & H3 & H4).
    rewrite digit_step by now apply starts_app. unfold number, scan_number. rewrite (span_app is_digit); auto.
    2: { eapply starts_weaken; [|exact Hs]. apply digit_idchar. }
    assert (E : scan_frac rest = ("", rest)).
    { destruct rest as [|c r]; [reflexivity|]. unfold starts in Hd. rewrite Ascii.eqb_sym in Hd. unfold scan_frac. rewrite Hd. reflexivity. }
    rewrite E. destruct (scan_end rest Hs) as [-> ->]. rewrite Hs. cbn. rewrite H4, H3. now rewrite DecimalN.Unsigned.of_to.
  Qed.

  Lemma span_more f s a b rest : span f s = (a, b) -> (b = "" -> starts f rest = false) -> span f (s ++ rest)%string = (a, (b ++ rest)%string).
  Proof.
    intros H Hr. destruct (span_ok f s) as (H1 & H2 & H3). rewrite H in *. cbn in *. subst s. rewrite sapp_assoc. apply span_app; auto.
    destruct b as [|c b]; cbn in *; auto.
  Qed.
  Lemma frac_more s a b rest : scan_frac s = (a, b) -> s <> "" -> starts is_idchar rest = false -> scan_frac (s ++ rest)%string = (a, (b ++ rest)%string).
  Proof.
    intros H Hs Hr. destruct s as [|c q]; [congruence|]. cbn [append]. unfold scan_frac in *. destruct (Ascii.eqb c ".").
    - destruct (span is_digit q) as [d2 r2] eqn:E. injection H as <- <-. rewrite (span_more _ _ _ _ rest E); auto.
      intros _. eapply starts_weaken; [|exact Hr]. apply digit_idchar.
    - injection H as <- <-. reflexivity.
  Qed.
  Lemma exp_more s a b rest : scan_exp s = (a, b) -> snd (scan_imag b) = "" -> starts is_idchar rest = false -> scan_exp (s ++ rest)%string = (a, (b ++ rest)%string).
  Proof.
    intros H Hj Hr. destruct s as [|c q].
    - injection H as <- <-. cbn [append]. now apply scan_end.
    - cbn [append]. unfold scan_exp in *. destruct (Ascii.eqb c "e" || Ascii.eqb c "E") eqn:E.
      2: { injection H as <- <-. reflexivity. }
      assert (Hbad : snd (scan_imag (String c q)) <> "").
      { unfold scan_imag. apply orb_true_iff in E as [E|E]; apply Ascii.eqb_eq in E; subst c; cbn; discriminate. }
      assert (Hd : starts is_digit rest = false). { eapply starts_weaken; [|exact Hr]. apply digit_idchar. }
      destruct q as [|g q].
      + cbn in H. injection H as <- <-. congruence.
      + cbn [append]. destruct (Ascii.eqb g "+" || Ascii.eqb g "-").
        * destruct (span is_digit q) as [d r2] eqn:Ed. rewrite (span_more _ _ _ _ rest Ed); auto.
          destruct d; injection H as <- <-; [congruence|reflexivity].
        * change (String g (q ++ rest)%string) with (String g q ++ rest)%string.
          destruct (span is_digit (String g q)) as [d r2] eqn:Ed. rewrite (span_more _ _ _ _ rest Ed); auto.
          destruct d; injection H as <- <-; [congruence|reflexivity].
  Qed.
  Lemma imag_more s a rest : scan_imag s = (a, "") -> starts is_idchar rest = false -> scan_imag (s ++ rest)%string = (a, rest).
  Proof.
    intros H Hr. destruct s as [|c q].
    - injection H as <-. cbn [append]. now apply scan_end.
    - cbn [append]. unfold scan_imag in *. destruct (Ascii.eqb c "j" || Ascii.eqb c "J"); [injection H as <- ->; reflexivity|discriminate].
  Qed.
  Lemma float_step r rest : num_ok read r = true -> sep rest = true -> step (replace_inf r ++ rest) = Some (Some (TConst (CNum r)), rest).
  Proof.
    intros H Hs. apply andb_true_iff in Hs as [Hs _]. apply negb_true_iff in Hs. unfold num_ok in H.
    set (t := replace_inf r) in *. unfold scan_number in H.
    destruct (span is_digit t) as [d r1] eqn:E1. destruct (scan_frac r1) as [f r2] eqn:E2. destruct (scan_exp r2) as [e r3] eqn:E3.
    destruct (scan_imag r3) as [j r4] eqn:E4.
    destruct d as [|c d]; [discriminate|]. destruct (f ++ e ++ j)%string as [|m more] eqn:Em; [discriminate|].
    destruct r4; [|discriminate]. apply String.eqb_eq in H.
    assert (Hd : starts is_digit t = true).
    { destruct (span_ok is_digit t) as (K1 & K2 & K3). rewrite E1 in *. cbn [fst snd] in *. rewrite K3. cbn in K1 |- *. apply andb_true_iff in K1. tauto. }
    assert (Hn : r1 <> ""). { intros ->. injection E2 as <- <-. injection E3 as <- <-. injection E4 as <-. discriminate. }
    rewrite digit_step by now apply starts_app. unfold number, scan_number.
    rewrite (span_more _ _ _ _ rest E1) by (intros; contradiction).
    rewrite (frac_more _ _ _ rest E2) by auto. rewrite (exp_more _ _ _ rest E3); auto. 2: now rewrite E4.
    rewrite (imag_more _ _ rest E4) by auto. rewrite Hs, Em.
    do 4 f_equal. rewrite <- H. f_equal.
    destruct (span_ok is_digit t) as (_ & _ & K3). rewrite E1 in K3. cbn [fst snd] in K3. rewrite K3. f_equal. rewrite <- Em.
    assert (X2 : r1 = (f ++ r2)%string).
    { destruct r1 as [|c1 q]; [congruence|]. unfold scan_frac in E2. destruct (Ascii.eqb c1 "."); [|now injection E2 as <- <-].
      destruct (span_ok is_digit q) as (_ & _ & K). destruct (span is_digit q). injection E2 as <- <-. cbn in *. now rewrite <- K. }
    assert (X4 : r3 = j).
    { destruct r3 as [|c1 q]; [now injection E4 as <-|]. unfold scan_imag in E4. destruct (Ascii.eqb c1 "j" || Ascii.eqb c1 "J"); [injection E4 as <- ->; reflexivity|discriminate]. }
    assert (X3 : r2 = (e ++ r3)%string).
    { destruct r2 as [|c1 q]; [now injection E3 as <- <-|]. unfold scan_exp in E3. destruct (Ascii.eqb c1 "e" || Ascii.eqb c1 "E"); [|now injection E3 as <- <-].
      destruct q as [|g q]; [cbn in E3; now injection E3 as <- <-|]. destruct (Ascii.eqb g "+" || Ascii.eqb g "-").
      - destruct (span_ok is_digit q) as (_ & _ & K). destruct (span is_digit q) as [x y]. cbn [fst snd] in K.
        destruct x; injection E3 as <- <-; cbn in *; [reflexivity|]. now rewrite K.
      - destruct (span_ok is_digit (String g q)) as (_ & _ & K). destruct (span is_digit (String g q)) as [x y]. cbn [fst snd] in K.
        destruct x; injection E3 as <- <-; cbn in *; [reflexivity|]. now rewrite K. }
    rewrite X2, X3, X4. reflexivity.
  Qed.

  (** ** String literals *)
  Lemma scan_char raw bytes q c t : q = sq \/ q = dq -> (bytes = true -> forall c, raw c = false) ->
    scan_str bytes q (repr_char raw q c ++ t) = match scan_str bytes q t with Some (u, v) => Some (String c u, v) | None => None end.
  Proof.
    intros Hq Hraw. unfold repr_char.
    destruct (raw c) eqn:E.
    - destruct bytes; [rewrite Hraw in E by reflexivity; discriminate|]. clear Hraw.
      destruct Hq as [-> | ->]; destruct c as [[] [] [] [] [] [] [] []]; cbn; reflexivity.
    - clear Hraw E raw. destruct bytes, Hq as [-> | ->]; destruct c as [[] [] [] [] [] [] [] []]; cbn; reflexivity.
  Qed.
  Lemma scan_chars raw bytes q s t : q = sq \/ q = dq -> (bytes = true -> forall c, raw c = false) ->
    scan_str bytes q (repr_chars raw q s ++ String q t) = Some (s, t).
  Proof.
    intros Hq Hr. induction s as [|c s IH]; cbn [repr_chars].
    - cbn [append scan_str]. now rewrite Ascii.eqb_refl.
    - rewrite sapp_assoc, scan_char, IH by auto. reflexivity.
  Qed.
  Lemma repr_char_first raw q c t : q = sq \/ q = dq -> starts (Ascii.eqb q) (repr_char raw q c ++ t) = false.
  Proof.
    intros Hq. unfold repr_char. destruct (Ascii.eqb c q || Ascii.eqb c bs) eqn:E1.
    - destruct Hq as [-> | ->]; reflexivity.
    - apply orb_false_iff in E1 as [E1 _]. rewrite Ascii.eqb_sym in E1.
      assert (B : starts (Ascii.eqb q) (String bs "") = false) by (destruct Hq as [-> | ->]; reflexivity).
      unfold starts in B |- *.
      repeat match goal with |- context[if ?b then _ else _] => destruct b end; cbn [append one]; assumption.
  Qed.
  Lemma repr_quote_ok s : repr_quote s = sq \/ repr_quote s = dq.
  Proof. unfold repr_quote. destruct (has_char sq s && negb (has_char dq s)); auto. Qed.
  Lemma quoted_ok raw bytes s rest : (bytes = true -> forall c, raw c = false) -> sep rest = true -> scan_quoted bytes (repr_str raw s ++ rest) = Some (s, rest).
  Proof.
    intros Hr Hs. unfold repr_str. set (q := repr_quote s). assert (Hq : q = sq \/ q = dq) by apply repr_quote_ok. cbn [append]. rewrite sapp_assoc. cbn [append one].
    unfold scan_quoted.
    assert (X := scan_chars raw bytes q s rest Hq Hr).
    apply andb_true_iff in Hs as [_ Hs]. apply negb_true_iff in Hs.
    destruct s as [|c s].
    - cbn [repr_chars append] in *. destruct rest as [|b r]; [exact X|].
      assert (Ascii.eqb b q = false).
      { destruct (Ascii.eqb_spec b q) as [->|]; [|reflexivity]. cbn [starts] in Hs. destruct Hq as [E|E]; rewrite E in Hs; discriminate. }
      rewrite H, andb_false_r. exact X.
    - assert (F := repr_char_first raw q c (repr_chars raw q s ++ String q rest) Hq). cbn [repr_chars] in *. rewrite sapp_assoc in *.
      destruct ((repr_char raw q c ++ repr_chars raw q s ++ String q rest)%string) as [|a [|b w]]; auto.
      cbn [starts] in F. rewrite Ascii.eqb_sym in F. rewrite F. exact X.
  Qed.
  Lemma quote_step s : starts is_quote s = true -> step s = match scan_quoted false s with Some (t, r) => Some (Some (TConst (CStr false t)), r) | None => None end.
  Proof.
    destruct s as [|c r]; [discriminate|]. intros H. cbn [starts] in H. assert (Hc : c = sq \/ c = dq).
    { unfold is_quote in H. apply orb_true_iff in H as [H|H]; apply Ascii.eqb_eq in H; auto. }
    unfold PyGrammar.step. rewrite H. destruct Hc as [-> | ->]; reflexivity.
  Qed.
  Lemma repr_str_quote raw s rest : starts is_quote (repr_str raw s ++ rest) = true.
  Proof. unfold repr_str. cbn [append starts]. destruct (repr_quote_ok s) as [-> | ->]; reflexivity. Qed.
  Lemma prefix_step x s : x = "u"%char \/ x = "b"%char -> starts is_quote s = true ->
    step (String x s) = match scan_quoted (Ascii.eqb x "b") s with Some (t, r) => Some (Some (TConst (if Ascii.eqb x "b" then CBytes t else CStr true t)), r) | None => None end.
  Proof.
    intros Hx H. assert (E : span is_idchar s = ("", s)).
    { destruct s as [|c r]; [reflexivity|]. cbn [starts] in H. unfold is_quote in H.
      apply orb_true_iff in H as [H|H]; apply Ascii.eqb_eq in H; subst c; reflexivity. }
    unfold PyGrammar.step. destruct Hx as [-> | ->].
    - replace (span is_idchar (String "u" s)) with ("u", s) by (cbn [span]; rewrite E; reflexivity). rewrite H. reflexivity.
    - replace (span is_idchar (String "b" s)) with ("b", s) by (cbn [span]; rewrite E; reflexivity). rewrite H. reflexivity.
  Qed.
  Lemma str_step raw s rest : sep rest = true -> step (repr_str raw s ++ rest) = Some (Some (TConst (CStr false s)), rest).
  Proof. intros Hs. rewrite quote_step by apply repr_str_quote. rewrite quoted_ok by (auto; discriminate). reflexivity. Qed.
  Lemma ustr_step raw s rest : sep rest = true -> step (String "u" (repr_str raw s) ++ rest) = Some (Some (TConst (CStr true s)), rest).
  Proof. intros Hs. cbn [append]. rewrite prefix_step by (auto; apply repr_str_quote). change (Ascii.eqb "u" "b") with false. rewrite quoted_ok by (auto; discriminate). reflexivity. Qed.
  Lemma bytes_step s rest : sep rest = true -> step (String "b" (repr_str (fun _ => false) s) ++ rest) = Some (Some (TConst (CBytes s)), rest).
  Proof. intros Hs. cbn [append]. rewrite prefix_step by (auto; apply repr_str_quote). change (Ascii.eqb "b" "b") with true. rewrite quoted_ok by auto. reflexivity. Qed.
End Lex.
