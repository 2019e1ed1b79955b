(** The text of an expression neither begins nor ends with whitespace; what [unparse] strips off. *)
From Coq Require Import NArith DecimalString.
From Verif Require Import Base UnparseModel PyGrammar UnparseSpec UnparseLex UnparseToks UnparseText.
Open Scope string_scope.
Open Scope list_scope.

Definition ends (s : string) : Prop := exists a c, s = (a ++ one c)%string /\ is_space c = false.
Lemma sapp_assoc a b c : ((a ++ b) ++ c = a ++ (b ++ c))%string.
Proof. induction a as [|x a IH]; [reflexivity|]. cbn [append]. now rewrite IH. Qed.
Lemma sapp_nil a : (a ++ "" = a)%string.
Proof. induction a as [|x a IH]; [reflexivity|]. cbn [append]. now rewrite IH. Qed.
Lemma ends_app a s : ends s -> ends (a ++ s).
Proof. intros (b & c & -> & H). exists (a ++ b)%string, c. split; auto. now rewrite sapp_assoc. Qed.
Lemma rstrip_end a c t : is_space c = false -> rstrip t = "" -> rstrip (a ++ String c t) = (a ++ one c)%string.
Proof.
  intros Hc Ht. induction a as [|x a IH].
  - cbn [append rstrip]. rewrite Ht, Hc. reflexivity.
  - cbn [append rstrip]. rewrite IH. destruct a; reflexivity.
Qed.
Lemma rstrip_ends s t : ends s -> rstrip t = "" -> rstrip (s ++ t) = s.
Proof. intros (a & c & -> & Hc) Ht. rewrite sapp_assoc. cbn [append]. now apply rstrip_end. Qed.
Lemma strip_ends c s : is_space c = false -> ends (String c s) -> strip (String c s ++ nl) = String c s.
Proof. intros Hc He. unfold strip. cbn [append lstrip]. rewrite Hc. change (String c (s ++ nl)) with (String c s ++ nl)%string. now apply rstrip_ends. Qed.
Lemma cat_last : forall l s x, cat l = Ok s -> last l (Err value_error) = Ok x -> exists y, s = (y ++ x)%string.
Proof.
  induction l as [|[a|e] l IH]; intros s x H L; [discriminate| |discriminate]. cbn [cat] in H. destruct (cat l) as [t|] eqn:Ec; [|discriminate].
  injection H as <-. destruct l as [|b l].
  - cbn in L, Ec. injection L as ->. injection Ec as <-. exists "". apply sapp_nil.
  - destruct (IH t x eq_refl) as (y & ->); [exact L|]. exists (a ++ y)%string. now rewrite sapp_assoc.
Qed.
Lemma cat_ends l s x : cat l = Ok s -> last l (Err value_error) = Ok x -> ends x -> ends s.
Proof. intros H L E. destruct (cat_last l s x H L) as (y & ->). now apply ends_app. Qed.
Lemma all_char (P : ascii -> bool) : (forallb P (map ascii_of_nat (seq 0 256)) = true) -> forall c, P c = true.
Proof. intros H c. rewrite forallb_forall in H. apply H. apply in_map_iff. exists (nat_of_ascii c). split; [apply ascii_nat_embedding|]. apply in_seq. pose proof (nat_ascii_bounded c). lia. Qed.
Lemma idchar_space c : is_idchar c = true -> is_space c = false.
Proof. intros H. assert (X := all_char (fun c => negb (is_idchar c) || negb (is_space c)) ltac:(vm_compute; reflexivity) c). cbn beta in X. rewrite H in X. now apply negb_true_iff in X. Qed.
Lemma efirst_space c : efirst c = true -> is_space c = false.
Proof. intros H. assert (X := all_char (fun c => negb (efirst c) || negb (is_space c)) ltac:(vm_compute; reflexivity) c). cbn beta in X. rewrite H in X. now apply negb_true_iff in X. Qed.
Lemma all_ends (f : ascii -> bool) s : (forall c, f c = true -> is_space c = false) -> s <> "" -> all_chars f s = true -> ends s.
Proof.
  intros Hf. induction s as [|c s IH]; intros Hn Ha; [congruence|]. cbn in Ha. apply andb_true_iff in Ha as [Hc Ha]. destruct s as [|d s].
  - exists "", c. split; auto.
  - change (String c (String d s)) with (one c ++ String d s)%string. apply ends_app. apply IH; [discriminate|exact Ha].
Qed.
Lemma ident_ends x : is_identifier x = true -> ends x.
Proof.
  intros H. destruct x as [|c x]; [discriminate|]. cbn in H. apply andb_true_iff in H as [H _]. apply andb_true_iff in H as [H1 H2].
  apply (all_ends is_idchar); [apply idchar_space|discriminate|]. cbn [all_chars]. unfold is_idchar at 1. rewrite H1. exact H2.
Qed.
Lemma span_cat f s a b : span f s = (a, b) -> s = (a ++ b)%string /\ all_chars f a = true.
Proof.
  revert a b. induction s as [|c s IH]; intros a b H; cbn in H; [injection H as <- <-; auto|].
  destruct (f c) eqn:Ef; [|injection H as <- <-; auto]. destruct (span f s) as [a' b'] eqn:E. injection H as <- <-. destruct (IH _ _ eq_refl) as [-> Ha]. cbn. now rewrite Ef.
Qed.
Definition numchar (c : ascii) : bool := is_digit c || has_char c ".eE+-jJ".
Lemma numchar_space c : numchar c = true -> is_space c = false.
Proof. intros H. assert (X := all_char (fun c => negb (numchar c) || negb (is_space c)) ltac:(vm_compute; reflexivity) c). cbn beta in X. rewrite H in X. now apply negb_true_iff in X. Qed.
Lemma all_app f a b : all_chars f (a ++ b) = all_chars f a && all_chars f b.
Proof. induction a as [|c a IH]; [reflexivity|]. cbn. now rewrite IH, andb_assoc. Qed.
Lemma all_impl (f g : ascii -> bool) s : (forall c, f c = true -> g c = true) -> all_chars f s = true -> all_chars g s = true.
Proof. intros H. induction s as [|c s IH]; [reflexivity|]. cbn. intros X. apply andb_true_iff in X as [X1 X2]. now rewrite (H c X1), IH. Qed.
Lemma digit_num c : is_digit c = true -> numchar c = true.
Proof. unfold numchar. now intros ->. Qed.
Lemma frac_cat s a b : scan_frac s = (a, b) -> s = (a ++ b)%string /\ all_chars numchar a = true.
Proof.
  destruct s as [|c s]; cbn; [intros H; injection H as <- <-; auto|]. destruct (Ascii.eqb_spec c "."); [|intros H; injection H as <- <-; auto].
  destruct (span is_digit s) as [d r] eqn:E. intros H; injection H as <- <-. apply span_cat in E as [-> E]. subst c. split; [reflexivity|]. cbn. eapply all_impl; [apply digit_num|exact E].
Qed.
Lemma exp_cat s a b : scan_exp s = (a, b) -> s = (a ++ b)%string /\ all_chars numchar a = true.
Proof.
  destruct s as [|c s]; [cbn; intros H; injection H as <- <-; auto|]. unfold scan_exp. destruct (Ascii.eqb c "e" || Ascii.eqb c "E") eqn:Ee; [|intros H; injection H as <- <-; auto].
  assert (Hc : numchar c = true) by (apply orb_true_iff in Ee as [E|E]; apply Ascii.eqb_eq in E as ->; reflexivity).
  destruct (match s with String g r' => if Ascii.eqb g "+" || Ascii.eqb g "-" then (one g, r') else ("", s) | "" => ("", s) end) as [sg r1] eqn:Eg.
  assert (Hg : s = (sg ++ r1)%string /\ all_chars numchar sg = true).
  { destruct s as [|g s]; [injection Eg as <- <-; auto|]. destruct (Ascii.eqb g "+" || Ascii.eqb g "-") eqn:E; injection Eg as <- <-; auto.
    split; auto. cbn. apply orb_true_iff in E as [E|E]; apply Ascii.eqb_eq in E as ->; reflexivity. }
  destruct Hg as [Hs Hg]. destruct (span is_digit r1) as [d r2] eqn:Ed. destruct d; intros H; injection H as <- <-; auto.
  apply span_cat in Ed as [-> Ed]. subst s. split; [rewrite <- sapp_assoc; reflexivity|]. cbn [all_chars]. rewrite Hc, all_app, Hg. eapply all_impl; [apply digit_num|exact Ed].
Qed.
Lemma imag_cat s a b : scan_imag s = (a, b) -> s = (a ++ b)%string /\ all_chars numchar a = true.
Proof.
  destruct s as [|c s]; cbn; [intros H; injection H as <- <-; auto|]. destruct (Ascii.eqb c "j" || Ascii.eqb c "J") eqn:Ee; intros H; injection H as <- <-; auto.
  split; auto. cbn. apply orb_true_iff in Ee as [E|E]; apply Ascii.eqb_eq in E as ->; reflexivity.
Qed.
Lemma num_ends read r : num_ok read r = true -> ends (replace_inf r).
Proof.
  unfold num_ok. destruct (scan_number (replace_inf r)) as [[d m] t] eqn:E. unfold scan_number in E.
  destruct (span is_digit (replace_inf r)) as [d' r1] eqn:E1. destruct (scan_frac r1) as [f r2] eqn:E2. destruct (scan_exp r2) as [x r3] eqn:E3. destruct (scan_imag r3) as [j r4] eqn:E4.
  injection E as <- <- <-. apply span_cat in E1 as [E1 D1]. apply frac_cat in E2 as [-> D2]. apply exp_cat in E3 as [-> D3]. apply imag_cat in E4 as [-> D4].
  intros H. destruct d' as [|c d']; [discriminate|]. destruct (f ++ x ++ j)%string; [discriminate|]. destruct r4; [|discriminate].
  apply (all_ends numchar); [apply numchar_space|rewrite E1; discriminate|]. rewrite E1, !all_app, D2, D3, D4, (all_impl _ _ _ digit_num D1). reflexivity.
Qed.
Lemma repr_str_ends f s : ends (repr_str f s).
Proof.
  unfold repr_str. exists (String (repr_quote s) (repr_chars f (repr_quote s) s)), (repr_quote s). split; [reflexivity|].
  unfold repr_quote. destruct (has_char sq s && negb (has_char dq s)); reflexivity.
Qed.
Lemma ends1 c : is_space c = false -> ends (one c).
Proof. exists "", c. auto. Qed.
Lemma last_in_app {A} (l : list A) x d : last (l ++ [x]) d = x.
Proof. apply last_last. Qed.
Lemma all_digits_num s : all_chars is_digit s = true -> all_chars numchar s = true.
Proof. apply all_impl, digit_num. Qed.

Section Ends.
  Variable read : string -> string.
  Variable printable : ascii -> bool.
  Lemma const_ends c : const_ok read c = true -> ends (unp_const printable c).
  Proof.
    destruct c as [| | | |n|r|u s|s]; cbn [unp_const const_ok]; intros H.
    1-3: apply (all_ends is_idchar); [apply idchar_space|discriminate|reflexivity].
    - exists "..", "."%char. auto.
    - destruct (repr_int_ok n) as (H1 & H2 & _ & _). apply (all_ends numchar); [apply numchar_space|destruct (repr_int n); discriminate|].
      apply all_digits_num. exact H1.
    - eapply num_ends; eauto.
    - apply ends_app, repr_str_ends.
    - apply ends_app, repr_str_ends.
  Qed.
  Ltac fin := intros H; eapply cat_ends; [exact H|rewrite ?app_assoc; first [apply last_last|reflexivity]|apply ends1; reflexivity].
  Lemma unp_ends e s : ok read e = true -> unp printable e = Ok s -> ends s.
  Proof.
    intros Ho. destruct e; cbn [unp]; try (fin; fail); cbn [ok] in Ho; try discriminate.
    - intros H. injection H as <-. now apply ident_ends.
    - intros H. injection H as <-. now apply const_ends.
    - destruct l; [discriminate|]. fin.
    - intros H. apply andb_true_iff in Ho as [_ Ho]. eapply cat_ends; [exact H|reflexivity|]. now apply ident_ends.
  Qed.
  (** The text of a covered expression is what [unparse] returns. *)
  Lemma unparse_expr e : ok read e = true -> exists c s, unp printable e = Ok (String c s) /\ is_space c = false /\ ends (String c s) /\ unparse printable (TExpr e) = Ok (String c s).
  Proof.
    intros Ho. destruct (text_ok read printable e Ho) as (s & Hs & Hr). destruct (Hr "") as [_ Hf]; [unfold FE; destruct (is_intc e); reflexivity|]. rewrite sapp_nil in Hf.
    destruct s as [|c s]; [discriminate|]. unfold EF in Hf. cbn [starts] in Hf. apply efirst_space in Hf. exists c, s. split; [exact Hs|]. split; [exact Hf|].
    assert (He := unp_ends e _ Ho Hs). split; [exact He|]. unfold unparse. cbn [unp_top cat]. rewrite Hs. cbn [w cat]. rewrite sapp_nil. now rewrite (strip_ends c s Hf He).
  Qed.
End Ends.
