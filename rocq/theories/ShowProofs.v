(** Proofs about the report of macro bindings. *)
From Coq Require Import Sorted Permutation.
From Verif Require Import Base Dict IpyProofs UnparseModel DumpSpec DumpLayout ShowModel.
Open Scope string_scope.

(** The order of strings, by the numbers of their characters. *)
Inductive lex_lt : string -> string -> Prop :=
| lt_end c s : lex_lt "" (String c s)
| lt_head c d s t : nat_of_ascii c < nat_of_ascii d -> lex_lt (String c s) (String d t)
| lt_tail c s t : lex_lt s t -> lex_lt (String c s) (String c t).
Lemma ascii_nat c d : nat_of_ascii c = nat_of_ascii d -> c = d.
Proof. intros H. rewrite <- (ascii_nat_embedding c), <- (ascii_nat_embedding d), H. reflexivity. Qed.
Lemma str_le_spec a : forall b, str_le a b = true -> a = b \/ lex_lt a b.
Proof.
  induction a as [|c a IH]; intros [|d b]; cbn [str_le]; intros H; [left; reflexivity|right; constructor|discriminate|].
  destruct (Nat.ltb_spec (nat_of_ascii c) (nat_of_ascii d)); [right; constructor; assumption|]. apply andb_true_iff in H as [H1 H2]. apply Nat.eqb_eq, ascii_nat in H1. subst.
  destruct (IH _ H2) as [->|]; [left; reflexivity|right; apply lt_tail; assumption].
Qed.
Lemma str_le_false a : forall b, str_le a b = false -> lex_lt b a.
Proof.
  induction a as [|c a IH]; intros [|d b]; cbn [str_le]; intros H; try discriminate; [constructor|].
  destruct (Nat.ltb_spec (nat_of_ascii c) (nat_of_ascii d)); [discriminate|]. apply andb_false_iff in H as [H|H].
  - apply Nat.eqb_neq in H. apply lt_head. lia.
  - destruct (Nat.eq_dec (nat_of_ascii c) (nat_of_ascii d)) as [E|E]; [apply ascii_nat in E; subst; apply lt_tail, IH, H|apply lt_head; lia].
Qed.
Lemma lex_trans a : forall b c, lex_lt a b -> lex_lt b c -> lex_lt a c.
Proof.
  induction a as [|x a IH]; intros b c H1 H2; inversion H1; subst; inversion H2; subst; first [apply lt_end|apply lt_head; lia|apply lt_head; assumption|apply lt_tail; eapply IH; eassumption].
Qed.
Lemma lex_irrefl a : ~ lex_lt a a.
Proof. induction a as [|c a IH]; intros H; inversion H; subst; [lia|contradiction]. Qed.

Notation before := (fun a b : string * mfn => lex_lt (fst a) (fst b)).
Lemma insert_perm p l : Permutation (p :: l) (insert_item p l).
Proof. induction l as [|q l IH]; cbn [insert_item]; [reflexivity|]. destruct (str_le (fst p) (fst q)); [reflexivity|]. rewrite perm_swap. now constructor. Qed.
Lemma sort_perm l : Permutation l (sort_items l).
Proof. induction l as [|p l IH]; cbn [sort_items]; [reflexivity|]. rewrite <- insert_perm. now constructor. Qed.
Lemma insert_sorted p l : ~ In (fst p) (map fst l) -> StronglySorted before l -> StronglySorted before (insert_item p l).
Proof.
  intros Hn Hs. induction Hs as [|q l Hs IH Hf]; cbn [insert_item]; [repeat constructor|].
  destruct (str_le (fst p) (fst q)) eqn:E.
  - destruct (str_le_spec _ _ E) as [Eq|Hl]; [exfalso; apply Hn; left; congruence|]. constructor; [constructor; assumption|]. constructor; [exact Hl|]. eapply Forall_impl; [|exact Hf]. intros x Hx. eapply lex_trans; eassumption.
  - apply str_le_false in E. constructor; [apply IH; intros H; apply Hn; right; exact H|].
    apply Forall_forall. intros x Hx. apply (Permutation_in x (Permutation_sym (insert_perm p l))) in Hx. destruct Hx as [<-|Hx]; [exact E|]. rewrite Forall_forall in Hf. apply Hf. exact Hx.
Qed.
Lemma sort_sorted l : NoDup (map fst l) -> StronglySorted before (sort_items l).
Proof.
  induction l as [|p l IH]; cbn [sort_items map]; intros H; [constructor|]. inversion H; subst. apply insert_sorted; [|apply IH; assumption].
  intros Hi. apply H2. eapply Permutation_in; [|exact Hi]. apply Permutation_map. symmetry. apply sort_perm.
Qed.
Lemma sort_nil l : sort_items l = [] -> l = [].
Proof. intros H. pose proof (sort_perm l) as Hp. rewrite H in Hp. apply Permutation_sym, Permutation_nil in Hp. exact Hp. Qed.

(** The bindings that a report is about. *)
Definition lookup (e : expander) (globals_too : bool) (k : string) : option mfn :=
  match sget k (x_local e) with Some f => Some f | None => if globals_too then sget k (x_global e) else None end.
Definition dicts (e : expander) : Prop := NoDup (map fst (x_local e)) /\ NoDup (map fst (x_global e)).
Definition chosen (e : expander) (globals_too : bool) : sdict mfn := if globals_too then all_bindings e else x_local e.
Lemma chosen_get e g k : dicts e -> sget k (chosen e g) = lookup e g k.
Proof. intros [H1 H2]. unfold chosen, lookup, all_bindings. destruct g; [apply sget_supd_nodup; exact H1|]. destruct (sget k (x_local e)); reflexivity. Qed.
Lemma chosen_nodup e g : dicts e -> NoDup (map fst (chosen e g)).
Proof. intros [H1 H2]. unfold chosen, all_bindings. destruct g; [apply supd_nodup; exact H2|exact H1]. Qed.
Lemma chosen_in e g k f : dicts e -> In (k, f) (sort_items (chosen e g)) <-> lookup e g k = Some f.
Proof.
  intros Hd. rewrite <- (chosen_get e g k Hd). split.
  - intros H. apply (Permutation_in (k, f) (Permutation_sym (sort_perm (chosen e g)))) in H. apply sget_In_nodup; [apply chosen_nodup; exact Hd|exact H].
  - intros H. apply sget_In in H. eapply Permutation_in; [apply sort_perm|exact H].
Qed.

Definition header (file : string) : string := "Macro bindings for " ++ file ++ ":" ++ newline.
Definition row (p : string * mfn) : string := "    " ++ fst p ++ ": " ++ format_macrofunction (snd p) ++ newline.
Definition body (rows : list (string * mfn)) : string := match rows with [] => "    <no bindings>" ++ newline | _ => String.concat "" (map row rows) end.
Lemma sapp_assoc (a b c : string) : (a ++ b) ++ c = a ++ b ++ c.
Proof. induction a; cbn; [reflexivity|now f_equal]. Qed.
Lemma plain_report P e g : format_bindings P e g false = header (x_file e) ++ body (sort_items (chosen e g)).
Proof.
  unfold format_bindings, header, body. cbn zeta. cbn [append]. fold (chosen e g). rewrite !sapp_assoc. repeat f_equal.
  cbn [append]. destruct (chosen e g) as [|p l] eqn:E; [reflexivity|]. destruct (sort_items (p :: l)) eqn:Es; [apply sort_nil in Es; discriminate|]. reflexivity.
Qed.

(** ** Reading a report back *)
Definition lacks (c : ascii) (s : string) : Prop := ~ In c (list_ascii_of_string s).
Lemma cut_eq c a : forall b x y, lacks c a -> lacks c b -> a ++ String c x = b ++ String c y -> a = b /\ x = y.
Proof.
  induction a as [|d a IH]; intros [|d' b] x y Ha Hb H; cbn [append] in H; inversion H; subst.
  - split; reflexivity.
  - exfalso. apply Hb. left. reflexivity.
  - exfalso. apply Ha. left. reflexivity.
  - destruct (IH b x y) as [-> ->]; [intros Hi; apply Ha; right; exact Hi|intros Hi; apply Hb; right; exact Hi|assumption|split; reflexivity].
Qed.
Lemma chars_app a b : list_ascii_of_string (a ++ b) = (list_ascii_of_string a ++ list_ascii_of_string b)%list.
Proof. induction a as [|c a IH]; cbn; [reflexivity|now f_equal]. Qed.
Lemma lacks_app c a b : lacks c (a ++ b) <-> lacks c a /\ lacks c b.
Proof. unfold lacks. rewrite chars_app, in_app_iff. tauto. Qed.
Definition lf : ascii := ascii_of_nat 10.
(** Names without a colon or a line break (identifiers), descriptions and file names without a line break. *)
Definition readable (e : expander) (g : bool) : Prop :=
  lacks lf (x_file e) /\ forall k f, lookup e g k = Some f -> lacks lf k /\ lacks ":" k /\ lacks lf (format_macrofunction f).

Lemma lacks_lit c (s : string) : forallb (fun d => negb (Ascii.eqb c d)) (list_ascii_of_string s) = true -> lacks c s.
Proof. unfold lacks. intros H Hi. rewrite forallb_forall in H. specialize (H c Hi). rewrite Ascii.eqb_refl in H. discriminate. Qed.
Lemma row_eq p : row p = ("    " ++ fst p ++ ": " ++ format_macrofunction (snd p)) ++ String lf "".
Proof. unfold row, newline. rewrite !sapp_assoc. reflexivity. Qed.
Definition good (p : string * mfn) : Prop := lacks lf (fst p) /\ lacks ":" (fst p) /\ lacks lf (format_macrofunction (snd p)).
Lemma good_line p : good p -> lacks lf ("    " ++ fst p ++ ": " ++ format_macrofunction (snd p)).
Proof. intros (H1 & _ & H3). rewrite !lacks_app. repeat split; try assumption; apply lacks_lit; reflexivity. Qed.
Lemma row_inj p q x y : good p -> good q -> row p ++ x = row q ++ y -> fst p = fst q /\ format_macrofunction (snd p) = format_macrofunction (snd q) /\ x = y.
Proof.
  intros Hp Hq H. rewrite !row_eq, !sapp_assoc in H. cbn [append] in H.
  change (String " " (String " " (String " " (String " " (fst p ++ String ":" (String " " (format_macrofunction (snd p) ++ String lf x))))))) with (("    " ++ fst p) ++ String ":" (String " " (format_macrofunction (snd p) ++ String lf x))) in H.
  change (String " " (String " " (String " " (String " " (fst q ++ String ":" (String " " (format_macrofunction (snd q) ++ String lf y))))))) with (("    " ++ fst q) ++ String ":" (String " " (format_macrofunction (snd q) ++ String lf y))) in H.
  destruct Hp as (A1 & A2 & A3). destruct Hq as (B1 & B2 & B3).
  apply cut_eq in H; [|apply lacks_app; split; [apply lacks_lit; reflexivity|assumption]|apply lacks_app; split; [apply lacks_lit; reflexivity|assumption]].
  destruct H as [H1 H2]. injection H1 as E1. injection H2 as E2. apply cut_eq in E2; [|assumption|assumption]. destruct E2 as [E2 E3]. repeat split; assumption.
Qed.
Lemma concat_cons (x : string) l : String.concat "" (x :: l) = x ++ String.concat "" l.
Proof. destruct l as [|y l]; cbn [String.concat]; [now induction x; cbn; [|f_equal]|reflexivity]. Qed.
Lemma rows_inj l : forall m, Forall good l -> Forall good m -> String.concat "" (map row l) = String.concat "" (map row m) ->
  map (fun p => (fst p, format_macrofunction (snd p))) l = map (fun p => (fst p, format_macrofunction (snd p))) m.
Proof.
  induction l as [|p l IH]; intros [|q m] Hl Hm H; cbn [map] in H; rewrite ?concat_cons in H; [reflexivity|unfold row in H; cbn in H; discriminate|unfold row in H; cbn in H; discriminate|].
  inversion Hl; inversion Hm; subst. destruct (row_inj p q _ _ ltac:(assumption) ltac:(assumption) H) as (E1 & E2 & E3). cbn [map]. rewrite E1, E2. f_equal. apply IH; assumption.
Qed.
Lemma body_inj l m : Forall good l -> Forall good m -> body l = body m -> map (fun p => (fst p, format_macrofunction (snd p))) l = map (fun p => (fst p, format_macrofunction (snd p))) m.
Proof.
  assert (N : forall p x y, good p -> row p ++ x <> ("    <no bindings>" ++ newline) ++ y).
  { intros p x y (A1 & A2 & A3) H. unfold row in H. rewrite !sapp_assoc in H. cbn [append] in H. inversion H as [K]. clear H.
    assert (E : fst p ++ String ":" (String " " (format_macrofunction (snd p) ++ newline ++ x)) = "<no bindings>" ++ String lf y) by (cbn [append]; exact K). clear K.
    apply (f_equal list_ascii_of_string) in E. rewrite !chars_app in E. cbn [list_ascii_of_string] in E.
    destruct (fst p) as [|c0 k]; [cbn in E; discriminate|]. revert A1 E. generalize (String c0 k). clear. intros k A1 E.
    (* the first line break or colon *)
    assert (G : forall (a b : list ascii) (u v : list ascii), ~ In lf a -> ~ In ":"%char b -> (a ++ ":"%char :: u = b ++ lf :: v)%list -> False).
    { induction a as [|c a IH]; intros [|d b] u v Ha Hb Eq; cbn in Eq; inversion Eq; subst.
      - apply Hb. left. reflexivity.
      - apply Ha. left. reflexivity.
      - eapply IH; [| |eassumption]; [intros Hi; apply Ha; right; exact Hi|intros Hi; apply Hb; right; exact Hi]. }
    eapply G; [exact A1| |exact E]. cbn. intuition discriminate. }
  intros Hl Hm H. destruct l as [|p l], m as [|q m]; [reflexivity| | |apply rows_inj; assumption].
  - exfalso. inversion Hm; subst. unfold body in H. cbn [map] in H. rewrite concat_cons in H. eapply (N q _ ""); [assumption|]. rewrite <- H. reflexivity.
  - exfalso. inversion Hl; subst. unfold body in H. cbn [map] in H. rewrite concat_cons in H. eapply (N p _ ""); [assumption|]. rewrite H. reflexivity.
Qed.
Lemma sget_map k (l : list (string * mfn)) : sget k (map (fun p => (fst p, format_macrofunction (snd p))) l) = option_map format_macrofunction (sget k l).
Proof. induction l as [|[j f] l IH]; cbn; [reflexivity|]. destruct (String.eqb k j); [reflexivity|exact IH]. Qed.
Lemma sort_get k l : NoDup (map fst l) -> sget k (sort_items l) = sget k l.
Proof.
  intros H. assert (H' : NoDup (map fst (sort_items l))) by (eapply Permutation_NoDup; [apply Permutation_map, sort_perm|exact H]).
  destruct (sget k l) as [f|] eqn:E.
  - apply sget_In_nodup; [exact H'|]. apply sget_In in E. eapply Permutation_in; [apply sort_perm|exact E].
  - apply sget_none. apply sget_none in E. intros Hi. apply E. eapply Permutation_in; [|exact Hi]. apply Permutation_map. symmetry. apply sort_perm.
Qed.

(** ** Colors *)
Inductive style_codes : style -> Prop :=
| sc_code s : codes s -> style_codes (SCode s)
| sc_tup l : Forall style_codes l -> style_codes (STup l).
Fixpoint set_style_shows (c : style) : style_codes c -> shows (set_style c) "".
Proof.
  destruct c as [s|l]; intros H; inversion H as [? K|? K]; subst; [exact K|]. cbn [set_style]. clear H. revert K. induction l as [|x l IH]; intros K; [reflexivity|].
  inversion K; subst. apply (shows_app _ "" _ ""); [apply set_style_shows; assumption|apply IH; assumption].
Qed.
Definition palette_codes (P : palette) : Prop := codes (p_reset P) /\ style_codes (p_heading1 P) /\ style_codes (p_filename P) /\ style_codes (p_greyed P) /\ style_codes (p_macro P).
Lemma setcolor_shows P l r : codes (p_reset P) -> Forall style_codes l -> shows (setcolor P l r) "".
Proof. intros H1 H2. unfold setcolor. apply (shows_app _ "" _ ""); [destruct r; [exact H1|reflexivity]|apply set_style_shows; constructor; exact H2]. Qed.
Lemma colorize_shows P t l : codes (p_reset P) -> Forall style_codes l -> no_esc t = true -> shows (colorize P t l) t.
Proof.
  intros H1 H2 H3. unfold colorize. replace t with ("" ++ t ++ "") at 2 by (cbn [append]; clear; induction t; cbn; [reflexivity|now f_equal]).
  apply shows_app; [apply setcolor_shows; [exact H1|]; constructor; [constructor; exact H2|constructor]|]. apply shows_app; [apply shows_self; exact H3|apply setcolor_shows; [exact H1|constructor]].
Qed.
