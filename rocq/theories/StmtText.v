(** The unparser's text for a covered statement reads as the statement's lines. *)
From Verif Require Import Base UnparseModel PyGrammar PyStmt UnparseSpec StmtSpec UnparseLex UnparseToks UnparseText StmtToks StmtLayout.
Open Scope string_scope.
Open Scope list_scope.

Definition is_nl (c : ascii) : bool := Nat.eqb (nat_of_ascii c) 10.
(** The end of a line. *)
Definition eol (s : string) : bool := match s with "" => true | String c _ => is_nl c end.
(** No blank. *)
Definition nb (s : string) : bool := negb (starts (Ascii.eqb " ") s).
Lemma nl_char c : is_nl c = true -> c = ascii_of_nat 10.
Proof. unfold is_nl. intros H. apply Nat.eqb_eq in H. rewrite <- H. symmetry. apply ascii_nat_embedding. Qed.
Lemma eol_lf s : eol s = true -> lf s = true.
Proof. destruct s as [|c s]; [reflexivity|]. cbn [eol]. intros H. apply nl_char in H as ->. reflexivity. Qed.
Lemma eol_sepd s : eol s = true -> sepd s = true.
Proof. intros H. now apply lf_sepd, eol_lf. Qed.
Lemma eol_sep s : eol s = true -> sep s = true.
Proof. intros H. apply eol_sepd in H. unfold sepd in H. apply andb_true_iff in H. tauto. Qed.
Lemma eol_soft s : eol s = true -> soft s = true.
Proof. intros H. now apply lf_soft, eol_lf. Qed.
Lemma sepd_sep s : sepd s = true -> sep s = true.
Proof. unfold sepd. intros H. apply andb_true_iff in H as [H _]. exact H. Qed.
Lemma EF_nb s : EF s = true -> nb s = true.
Proof. destruct s as [|c s]; [discriminate|]. unfold EF, nb. cbn [starts]. intros H. destruct (Ascii.eqb_spec " " c) as [<-|]; [discriminate|reflexivity]. Qed.
Lemma idf_nb s : idf s = true -> nb s = true.
Proof. destruct s as [|c s]; [discriminate|]. unfold idf, nb. cbn [starts]. intros H. destruct (Ascii.eqb_spec " " c) as [<-|]; [discriminate|reflexivity]. Qed.

Section Text.
  Variable read : string -> string.
  Variable printable : ascii -> bool.
  Notation step := (step read).
  Notation steps := (steps read).
  Notation unp := (unp printable).
  Notation ok := (ok read).
  Notation LT := (LT read).
  Notation unp_stmt := (unp_stmt printable).

  Ltac litsteps :=
    first
      [ apply st_nil
      | apply st_sp; litsteps
      | match goal with
        | |- UnparseLex.steps _ _ (TOp ?x :: _) _ => eapply (st_tok read x (TOp x)); [discriminate| |]; cbn [append];
            [first [reflexivity | apply hard_step; reflexivity | apply soft_step; [reflexivity|assumption] | apply dstar_step; assumption | apply dot_step; assumption] | litsteps]
        | |- UnparseLex.steps _ _ (TKw ?x :: _) _ => eapply (st_tok read x (TKw x)); [discriminate| |];
            [first [reflexivity | apply kw_step; [reflexivity|assumption]] | litsteps]
        end ].
  Ltac lit := apply LT_lit; [intros rest HF; cbn [append]; litsteps | intros; reflexivity].

  Lemma LT_cons' r l ts t1 t2 F1 F H : ts = t1 ++ t2 -> LT r t1 F1 H -> LT (cat l) t2 F F1 -> LT (cat (r :: l)) ts F H.
  Proof. intros ->. apply LT_cons. Qed.
  Lemma LT_app' l m ts t1 t2 F1 F H : ts = t1 ++ t2 -> LT (cat l) t1 F1 H -> LT (cat m) t2 F F1 -> LT (cat (l ++ m)) ts F H.
  Proof. intros ->. apply LT_app. Qed.
  Ltac pc t F := eapply (LT_cons' _ _ _ t _ F); [reflexivity| |].
  Ltac pca t F := eapply (LT_cons' _ _ _ t _ F); [cbn [app]; rewrite <- ?app_assoc; cbn [app]; reflexivity| |].
  Ltac pcs t F := eapply (LT_app' _ _ _ t _ F); [reflexivity| |].

  Lemma spaces_span n s : nb s = true -> span (Ascii.eqb " ") (spaces n ++ s) = (spaces n, s).
  Proof.
    intros H. induction n as [|n IH]; cbn [spaces append].
    - destruct s as [|c s]; [reflexivity|]. unfold nb in H. cbn [starts] in H. apply negb_true_iff in H. cbn [span]. now rewrite H.
    - cbn [span]. rewrite IH. reflexivity.
  Qed.
  Lemma spaces_length n : String.length (spaces n) = n.
  Proof. induction n; cbn; auto. Qed.
  Lemma nl_step n s : nb s = true -> step (nl ++ spaces n ++ s) = Some (Some (TNl n), s).
  Proof. intros H. unfold PyGrammar.step. cbn [nl one append]. rewrite spaces_span by exact H. cbn. now rewrite spaces_length. Qed.
  Lemma LT_fill i text ts F : LT (w text) ts F nb -> LT (fill i text) (TNl (4 * i) :: ts) F eol.
  Proof.
    intros (s & E & X). injection E as <-. exists (nl ++ spaces (4 * i) ++ text)%string. split; [reflexivity|]. intros rest Hr. apply X in Hr as [S1 H1].
    split; [|reflexivity]. rewrite !sapp_assoc. rewrite <- (sapp_assoc nl). apply (st_tok read (nl ++ spaces (4 * i))).
    - discriminate.
    - rewrite sapp_assoc. now apply nl_step.
    - exact S1.
  Qed.
  Ltac fl := apply LT_fill; lit.
  Lemma LT_blank : LT (w nl) [TNl 0] eol eol.
  Proof.
    exists nl. split; [reflexivity|]. intros rest Hr. split; [|reflexivity]. apply steps_one; [discriminate|]. apply (nl_step 0).
    destruct rest as [|c r]; [reflexivity|]. cbn [eol] in Hr. apply nl_char in Hr as ->. reflexivity.
  Qed.
  Lemma LT_start i : LT (fill i "") [TNl (4 * i)] nb eol.
  Proof. apply LT_fill. exists "". split; [reflexivity|]. intros rest Hr. split; [apply st_nil|exact Hr]. Qed.

  (** Expressions at the places where they are written. *)
  Lemma E_any e : ok e = true -> LT (unp e) (toks e) sepd any.
  Proof. intros H. apply LTe_d; [reflexivity|now apply text_ok]. Qed.
  Lemma E_nb e : ok e = true -> LT (unp e) (toks e) sepd nb.
  Proof. intros H. apply LTe_d; [apply EF_nb|now apply text_ok]. Qed.
  Lemma E_soft e : ok e = true -> LT (unp e) (toks e) sepd soft.
  Proof. intros H. apply LTe_d; [apply EF_soft|now apply text_ok]. Qed.
  Lemma E_last e (H : string -> bool) : (forall s, EF s = true -> H s = true) -> ok e = true -> LT (unp e) (toks e) eol H.
  Proof. intros HH Ho. eapply LT_weaken; [apply text_ok, Ho| |exact HH]. intros s Hs. apply sepd_FE. now apply eol_sepd. Qed.
  Lemma E_item e : ok e = true -> LTi read (unp e) (toks e).
  Proof. intros H. eapply LT_weaken; [now apply E_any|apply lf_sepd|reflexivity]. Qed.
  Lemma E_items l : forallb ok l = true -> Forall2 (LTi read) (map unp l) (map toks l).
  Proof. intros H. apply Forall2_maps. apply forallb_Forall_In in H. eapply Forall_impl; [|exact H]. cbn beta. intros e [He _]. now apply E_item. Qed.
  Lemma LT_list rs ts : Forall2 (LTi read) rs ts -> LT (cat (inter ", " rs)) (commas ts) lf any.
  Proof. apply LT_inter. apply LT_comma. Qed.
  Lemma LT_end l ts (H : string -> bool) : LT l ts lf H -> LT l ts eol H.
  Proof. intros X. eapply LT_weaken; [exact X|apply eol_lf|auto]. Qed.
  Lemma LT_flatF {A} F (f : A -> res string) (g : A -> list tok) l : Forall (fun x => LT (f x) (g x) F F) l -> LT (cat (map f l)) (flat_map g l) F F.
  Proof. induction 1 as [|x l Hx H IH]; cbn [map flat_map]; [apply LT_nil|]. eapply LT_cons; eauto. Qed.
  Lemma LT_opt {A} (f : A -> list (res string)) (g : A -> list tok) (F : string -> bool) o :
    (forall a, o = Some a -> LT (cat (f a)) (g a) F F) -> LT (cat (opt f o)) (opt_toks g o) F F.
  Proof. intros H. destruct o as [a|]; [now apply H|apply LT_nil]. Qed.

  (** ** Names with dots *)
  Lemma split_dots_app x s : all_chars is_idchar x = true -> split_dots (x ++ "." ++ s) = x :: split_dots s.
  Proof.
    induction x as [|c x IH]; intros H; [reflexivity|]. cbn [all_chars] in H. apply andb_true_iff in H as [Hc H]. specialize (IH H). cbn [append] in *. cbn [split_dots].
    destruct (Ascii.eqb_spec c "."); [subst; discriminate|]. rewrite IH. reflexivity.
  Qed.
  Lemma split_dots_text s : exists l, split_dots s = l /\ s = String.concat "." l /\ l <> [].
  Proof.
    induction s as [|c s (l & E & IH & N)]; [exists [""]; repeat split; discriminate|]. cbn [split_dots]. rewrite E. destruct (Ascii.eqb_spec c ".") as [->|].
    - exists ("" :: l). split; [reflexivity|]. split; [|discriminate]. rewrite IH at 1. destruct l; [congruence|]. reflexivity.
    - destruct l as [|x l]; [congruence|]. exists (String c x :: l). split; [reflexivity|]. split; [|discriminate]. rewrite IH. destruct l; reflexivity.
  Qed.
  Lemma LT_w a b t1 t2 F1 F H : LT (w a) t1 F1 H -> LT (w b) t2 F F1 -> LT (w (a ++ b)) (t1 ++ t2) F H.
  Proof.
    intros (s1 & E1 & X1) (s2 & E2 & X2). injection E1 as <-. injection E2 as <-. exists (a ++ b)%string. split; [reflexivity|].
    intros rest Hr. apply X2 in Hr as [S2 H2]. apply X1 in H2 as [S1 H1]. rewrite !sapp_assoc. split; auto. eapply steps_trans; eauto.
  Qed.
  Lemma LT_dotted x : dotted_ok x = true -> LT (w x) (dotted_toks x) sep idf.
  Proof.
    unfold dotted_ok, dotted_toks. destruct (split_dots_text x) as (l & E & Ex & N). rewrite E. rewrite Ex. clear E Ex x. induction l as [|x l IH]; [congruence|]. clear N.
    intros H. cbn [forallb] in H. apply andb_true_iff in H as [Hx H]. destruct l as [|y l].
    - cbn. now apply LT_ident.
    - specialize (IH ltac:(discriminate) H). change (String.concat "." (x :: y :: l)) with (x ++ "." ++ String.concat "." (y :: l))%string.
      change (seps (TOp ".") (map (fun y => [TId y]) (x :: y :: l))) with ([TId x] ++ [TOp "."] ++ seps (TOp ".") (map (fun y => [TId y]) (y :: l))).
      eapply LT_w; [apply LT_ident, Hx|]. eapply LT_w; [|exact IH]. lit.
  Qed.
  Lemma alias_text dotted a : ok_alias dotted a = true -> LTi read (unp_alias a) (alias_toks dotted a).
  Proof.
    destruct a as [x y]. cbn [ok_alias]. intros H. apply andb_true_iff in H as [Hx Hy]. cbn [unp_alias alias_toks].
    assert (X : LT (w x) (if dotted then dotted_toks x else if String.eqb x "*" then op "*" else [TId x]) sep any).
    { destruct dotted; [eapply LT_weaken; [now apply LT_dotted|auto|auto]|]. destruct (String.eqb_spec x "*") as [->|]; [discriminate|].
      eapply LT_weaken; [now apply LT_ident|auto|auto]. }
    unfold LTi. destruct y as [y|]; cbn [opt opt_toks].
    - eapply (LT_cons read _ _ _ _ sep); [exact X|]. apply LT_one. apply (LT_w " as " y [TKw "as"] [TId y] any); [lit|]. eapply LT_weaken; [now apply LT_ident| |auto]. intros s Hs. apply lf_sepd in Hs. now apply sepd_sep.
    - rewrite app_nil_r. apply LT_one. eapply LT_weaken; [exact X| |auto]. intros s Hs. apply lf_sepd in Hs. now apply sepd_sep.
  Qed.
  Lemma aliases_text dotted l : forallb (ok_alias dotted) l = true -> LT (cat (inter ", " (map unp_alias l))) (commas (map (alias_toks dotted) l)) eol any.
  Proof. intros H. apply LT_end, LT_list. apply Forall2_maps. apply forallb_Forall_In in H. eapply Forall_impl; [|exact H]. cbn beta. intros e [He _]. now apply alias_text. Qed.
  Definition nd (s : string) : bool := negb (starts (Ascii.eqb ".") s) && negb (starts is_digit s).
  Lemma idf_nd s : idf s = true -> nd s = true.
  Proof.
    destruct s as [|c s]; [discriminate|]. unfold idf, nd. cbn [starts]. intros H. destruct (Ascii.eqb_spec "." c) as [<-|]; [discriminate|].
    destruct (is_digit c) eqn:E; [|reflexivity]. apply digit_facts in E. intuition congruence.
  Qed.
  Lemma dots_step1 s : nd s = true -> step (String "." s) = Some (Some (TOp "."), s).
  Proof.
    intros H. unfold nd in H. apply andb_true_iff in H as [H1 H2]. apply negb_true_iff in H1, H2. unfold PyGrammar.step. cbn -[is_digit number starts]. rewrite H2.
    destruct s as [|a [|b s]]; try reflexivity. cbn [starts] in H1. rewrite Ascii.eqb_sym in H1. now rewrite H1.
  Qed.
  Lemma dots_step2 s : nd s = true -> step (String "." (String "." s)) = Some (Some (TOp "."), String "." s).
  Proof.
    intros H. unfold nd in H. apply andb_true_iff in H as [H1 H2]. apply negb_true_iff in H1, H2. unfold PyGrammar.step. cbn -[is_digit number starts].
    destruct s as [|b s]; try reflexivity. cbn [starts] in *. rewrite Ascii.eqb_sym in H1. now rewrite H1.
  Qed.
  Lemma dots_more n : String.concat "" (repeat "." (S n)) = String "." (String.concat "" (repeat "." n)).
  Proof. destruct n; reflexivity. Qed.
  Lemma dots_steps n s : nd s = true -> steps (String.concat "" (repeat "." n) ++ s) (dots_toks n) s.
  Proof.
    intros H. revert n. fix IH 1. intros [|[|[|n]]].
    - apply st_nil.
    - apply (st_tok read "."); [discriminate|now apply dots_step1|]. apply st_nil.
    - apply (st_tok read "." _ (String "." s)); [discriminate|now apply dots_step2|]. apply (st_tok read "."); [discriminate|now apply dots_step1|]. apply st_nil.
    - rewrite !dots_more. cbn [append dots_toks]. apply (st_tok read "..."); [discriminate| |apply IH]. reflexivity.
  Qed.
  Lemma LT_dots n : LT (w (String.concat "" (repeat "." n))) (dots_toks n) nd any.
  Proof. exists (String.concat "" (repeat "." n)). split; [reflexivity|]. intros rest Hr. split; [now apply dots_steps|reflexivity]. Qed.

  (** ** Parts of statements *)
  Lemma LT_augop o : LT (w (" " ++ binop_text o ++ "= ")) [TOp (binop_text o ++ "=")] any sepd.
  Proof. apply LT_lit; [|intros rest; reflexivity]. intros rest _. destruct o; cbn [binop_text append]; litsteps. Qed.
  Lemma targets_text ts : forallb (fun t => ok t && is_target t) ts = true ->
    LT (cat (map (fun t => cat [unp t; w " = "]) ts)) (flat_map (fun t => toks t ++ op "=") ts) nb nb.
  Proof.
    intros H. apply LT_flatF. apply forallb_Forall_In in H. eapply Forall_impl; [|exact H]. cbn beta. intros t [Ht _]. apply andb_true_iff in Ht as [Ht _].
    pc (toks t) sepd; [now apply E_nb|]. apply LT_one. unfold op. lit.
  Qed.
  Lemma idents_text l : forallb is_identifier l = true -> LT (cat (inter ", " (map w l))) (commas (map (fun x => [TId x]) l)) eol any.
  Proof.
    intros H. apply LT_end, LT_list. apply Forall2_maps. apply forallb_Forall_In in H. eapply Forall_impl; [|exact H]. cbn beta. intros x [Hx _].
    unfold LTi. eapply LT_weaken; [now apply LT_ident| |auto]. intros s Hs. apply lf_sepd in Hs. now apply sepd_sep.
  Qed.
  Lemma witem_text p : ok_witem read p = true -> LTi read (unp_withitem printable p) (witem_toks p).
  Proof.
    destruct p as [e [t|]]; unfold ok_witem, LTi, unp_withitem, witem_toks; cbn [fst snd opt opt_toks]; intros H; apply andb_true_iff in H as [He Ht].
    - apply andb_true_iff in Ht as [Ht _]. pc (toks e) sepd; [now apply E_any|]. pc [TKw "as"] any; [lit|]. apply LT_one. now apply E_item.
    - rewrite app_nil_r. apply LT_one. now apply E_item.
  Qed.
  Lemma bases_text l : forallb (ok_star read) l = true -> Forall2 (LTi read) (map unp l) (map toks l).
  Proof. intros H. apply (list_text read printable (S (list_sum (map size l)))); auto. intros. now apply text_ok. Qed.
  Lemma kws_text l : forallb (ok_kw read) l = true -> Forall2 (LTi read) (map (unp_kw printable) l) (map toks_kw l).
  Proof.
    intros H. apply Forall2_maps. apply forallb_Forall_In in H. eapply Forall_impl; [|exact H]. cbn beta. intros k [Hk _].
    apply (kw_text read printable (S (size_kw k))); auto. intros. now apply text_ok.
  Qed.
  Lemma params_text a : ok_args read true a = true -> LTi read (unp_args printable a) (toks_args a).
  Proof. intros H. apply (args_text_ok read printable (S (size_args a)) (fun e _ => text_ok read printable e) true); auto. Qed.
  Lemma decos_text i ds : forallb ok ds = true -> LT (cat (unp_decos printable i ds)) (flat_map (fun e => line i (deco_toks e)) ds) eol eol.
  Proof.
    intros H. apply LT_flatF. apply forallb_Forall_In in H. eapply Forall_impl; [|exact H]. cbn beta. intros e [He _].
    unfold line, deco_toks. pc [TNl (4 * i); TOp "@"] soft; [fl|]. apply LT_one. apply E_last; [apply EF_soft|exact He].
  Qed.

  (** ** Patterns *)
  Lemma ok_cap_id x : ok_cap x = true -> is_identifier x = true.
  Proof. unfold ok_cap. intros H. apply andb_true_iff in H. tauto. Qed.
  Lemma ok_dots_ok : forall e, ok_dots e = true -> ok e = true.
  Proof.
    fix IH 1. intros [] H; try discriminate; cbn [ok_dots UnparseSpec.ok] in *.
    - now apply ok_cap_id.
    - apply andb_true_iff in H as [H Hx]. now rewrite (IH _ H).
  Qed.
  Lemma ok_value_ok e : ok_value read e = true -> ok e = true.
  Proof.
    destruct e; try discriminate; cbn [ok_value].
    - intros H. apply andb_true_iff in H as [_ H]. exact H.
    - destruct e1; try discriminate; destruct o; try discriminate; destruct e2; try discriminate; intros H; apply andb_true_iff in H as [H H2]; apply andb_true_iff in H as [_ H1];
        cbn [UnparseSpec.ok]; now rewrite H1.
    - destruct o; try discriminate; destruct e; try discriminate. intros H. apply andb_true_iff in H as [_ H]. exact H.
    - apply ok_dots_ok.
  Qed.
  Lemma ok_key_ok e : ok_key read e = true -> ok e = true.
  Proof. destruct e; try discriminate; cbn [ok_key]; [|apply ok_dots_ok]. destruct c; try discriminate; auto. Qed.
  Lemma lf_sep s : lf s = true -> sep s = true.
  Proof. intros H. apply lf_sepd in H. now apply sepd_sep. Qed.
  Lemma LT_name x H : (forall s, idf s = true -> H s = true) -> is_identifier x = true -> LT (w x) [TId x] lf H.
  Proof. intros HH Hx. eapply LT_weaken; [now apply LT_ident|apply lf_sep|exact HH]. Qed.
  Lemma seps_app (t : tok) a b : a <> [] -> b <> [] -> seps t (a ++ b) = seps t a ++ t :: seps t b.
  Proof.
    intros Ha Hb. induction a as [|x a IH]; [congruence|]. destruct a as [|y a].
    - destruct b; [congruence|]. reflexivity.
    - change (seps t ((x :: y :: a) ++ b)) with (x ++ t :: seps t ((y :: a) ++ b)). rewrite IH by discriminate. change (seps t (x :: y :: a)) with (x ++ t :: seps t (y :: a)).
      now rewrite <- app_assoc.
  Qed.
  Lemma LT_ors rs ts : Forall2 (fun r t => LT r t lf soft) rs ts -> nonempty rs = true -> LT (cat (inter " | " rs)) (seps (TOp "|") ts) lf soft.
  Proof.
    assert (B : LT (w " | ") [TOp "|"] any lf) by lit.
    intros H Hn. destruct H as [|r u rs ts Hr H]; [discriminate|].
    assert (W : Forall2 (LTi read) rs ts) by (clear - H; induction H; constructor; auto; eapply LT_weaken; [eassumption|auto|auto]).
    destruct H as [|r' u' rs ts Hr' H]; [now apply LT_one|].
    change (inter " | " (r :: r' :: rs)) with (r :: w " | " :: inter " | " (r' :: rs)). change (seps (TOp "|") (u :: u' :: ts)) with (u ++ [TOp "|"] ++ seps (TOp "|") (u' :: ts)).
    eapply LT_cons; [exact Hr|]. eapply LT_cons; [exact B|]. now apply LT_inter.
  Qed.
  Notation unp_pattern := (unp_pattern printable).
  Lemma pat_text p : ok_pat read p = true -> LT (unp_pattern p) (ptoks p) lf soft.
  Proof.
    apply (pat_ind (fun p => ok_pat read p = true -> LT (unp_pattern p) (ptoks p) lf soft)); clear p; cbn [ok_pat UnparseModel.unp_pattern ptoks]; try discriminate.
    - intros e H. eapply LT_weaken; [apply E_soft, ok_value_ok, H|apply lf_sepd|auto].
    - intros c H. eapply LT_weaken; [apply LT_const; destruct c; try discriminate; reflexivity| |apply EF_soft]. intros s Hs. apply sepd_FE. now apply lf_sepd.
    - intros l IH H. unfold op. pc [TOp "["] any; [lit|]. apply (LT_app read _ _ _ _ lf); [|apply LT_one; lit]. apply LT_list. apply Forall2_maps.
      apply forallb_Forall_In in H. rewrite Forall_forall in *. intros p Hp. destruct (H p Hp) as [Ho _]. specialize (IH p Hp). unfold LTi.
      destruct p as [e|c|l0|x|l0 r|c l0 k|o x|l0]; try (eapply LT_weaken; [now apply IH|auto|auto]). clear IH. cbn [UnparseModel.unp_pattern ptoks].
      assert (Hx : is_identifier (match x with Some x => x | None => "_" end) = true) by (destruct x; [now apply ok_cap_id|reflexivity]).
      apply (LT_w "*" _ [TOp "*"] [TId _] soft); [lit|]. apply LT_name; [apply idf_soft|exact Hx].
    - intros l r IH H. apply andb_true_iff in H as [H Hr]. unfold op.
      assert (X : LT (cat (inter ", " (map (fun kp => match kp with (k, p) => cat [unp k; w ": "; unp_pattern p] end) l)))
        (commas (map (fun kp => match kp with (k, p) => pair_toks (toks k) (ptoks p) end) l)) lf any).
      { apply LT_list. apply Forall2_maps. apply forallb_Forall_In in H. rewrite Forall_forall in *. intros [k p] Hp. destruct (H _ Hp) as [Ho _]. apply andb_true_iff in Ho as [Hk Ho].
        specialize (IH _ Hp Ho). cbn [snd] in IH. unfold LTi, pair_toks. pc (toks k) sepd; [now apply E_any, ok_key_ok|]. pc [TOp ":"] any; [lit|]. apply LT_one.
        eapply LT_weaken; [exact IH|auto|auto]. }
      pc [TOp "{"] any; [lit|]. destruct r as [x|]; cbn [opt opts].
      + assert (Y : LT (cat [w "**"; w x]) (rest_toks x) lf any).
        { unfold rest_toks. pc [TOp "**"] soft; [lit|]. apply LT_one. apply LT_name; [apply idf_soft|now apply ok_cap_id]. }
        destruct l as [|kp l].
        * cbn [map inter app commas seps]. apply LT_empty. change (cat [w "**"; w x; w "}"]) with (cat ([w "**"; w x] ++ [w "}"])). apply (LT_app read _ _ _ _ lf); [exact Y|apply LT_one; lit].
        * unfold commas. rewrite seps_app by (cbn [map]; discriminate). rewrite <- app_assoc. apply (LT_app read _ _ _ _ lf); [exact X|]. cbn [seps app].
          pc [TOp ","] any; [lit|]. change (cat [w "**"; w x; w "}"]) with (cat ([w "**"; w x] ++ [w "}"])). apply (LT_app read _ _ _ _ lf); [exact Y|apply LT_one; lit].
      + rewrite app_nil_r. cbn [app]. apply (LT_app read _ _ _ _ lf); [exact X|apply LT_one; lit].
    - intros c l k IH IHk H. apply andb_true_iff in H as [H Hk]. apply andb_true_iff in H as [Hc H]. unfold op.
      assert (X : LT (cat (inter ", " (map unp_pattern l))) (commas (map ptoks l)) lf any).
      { apply LT_list. apply Forall2_maps. apply forallb_Forall_In in H. rewrite Forall_forall in *. intros p Hp. destruct (H _ Hp) as [Ho _].
        eapply LT_weaken; [now apply IH|auto|auto]. }
      assert (Y : LT (cat (inter ", " (map (fun kp => match kp with (x, p) => cat [w x; w "="; unp_pattern p] end) k)))
        (commas (map (fun kp => match kp with (x, p) => pkw_toks x (ptoks p) end) k)) lf any).
      { apply LT_list. apply Forall2_maps. apply forallb_Forall_In in Hk. rewrite Forall_forall in *. intros [x p] Hp. destruct (Hk _ Hp) as [Ho _]. apply andb_true_iff in Ho as [Hx Ho].
        specialize (IHk _ Hp Ho). cbn [snd] in IHk. unfold LTi, pkw_toks. pc [TId x] sep; [eapply LT_weaken; [now apply LT_ident|auto|auto]|]. pc [TOp "="] soft; [lit|]. now apply LT_one. }
      pc (toks c) sepd; [now apply E_soft, ok_dots_ok|]. pc [TOp "("] any; [lit|].
      destruct l as [|p l]; [|destruct k as [|kp k]].
      + cbn [map inter app]. apply (LT_app read _ _ _ _ lf); [exact Y|apply LT_one; lit].
      + cbn [map inter]. rewrite app_nil_r. cbn [app]. apply (LT_app read _ _ _ _ lf); [exact X|apply LT_one; lit].
      + unfold commas. rewrite seps_app by (cbn [map]; discriminate). rewrite <- app_assoc. apply (LT_app read _ _ _ _ lf); [exact X|]. cbn [app].
        pc [TOp ","] any; [lit|]. apply (LT_app read _ _ _ _ lf); [exact Y|apply LT_one; lit].
    - intros [x|] H; [apply LT_name; [apply idf_soft|now apply ok_cap_id]|]. apply (LT_name "_"); [apply idf_soft|reflexivity].
    - intros p [x|] IH H; [|discriminate]. apply andb_true_iff in H as [H Hx]. apply andb_true_iff in H as [H _]. specialize (IH H). unfold op. destruct (is_or p); cbn [app].
      + pc [TOp "("] any; [lit|]. pc (ptoks p) lf; [eapply LT_weaken; [exact IH|auto|auto]|]. pc [TOp ")"] any; [lit|]. pc [TKw "as"] any; [lit|]. apply LT_one.
        apply LT_name; [auto|now apply ok_cap_id].
      + apply LT_empty. pc (ptoks p) lf; [exact IH|]. apply LT_empty. pc [TKw "as"] any; [lit|]. apply LT_one. apply LT_name; [auto|now apply ok_cap_id].
    - intros l IH H. apply andb_true_iff in H as [Hl H]. apply LT_ors; [|destruct l; [discriminate|reflexivity]]. apply Forall2_maps.
      apply forallb_Forall_In in H. rewrite Forall_forall in *. intros p Hp. destruct (H _ Hp) as [Ho _]. apply andb_true_iff in Ho as [Ho _]. now apply IH.
  Qed.
  Lemma tp_text t : ok_tp read t = true -> LTi read (unp_type_param printable t) (tp_toks t).
  Proof.
    unfold LTi. destruct t as [x b|x|x]; cbn [ok_tp unp_type_param tp_toks]; intros H.
    - apply andb_true_iff in H as [Hx Hb]. pc [TId x] sep; [eapply LT_weaken; [now apply LT_ident|auto|auto]|]. destruct b as [b|]; cbn [opt opt_toks].
      + pc [TOp ":"] any; [lit|]. apply LT_one. now apply E_item.
      + eapply LT_weaken; [apply (LT_nil read lf)|auto|apply lf_sep].
    - apply (LT_w "**" x [TOp "**"] [TId x] soft); [lit|]. now apply LT_name; [apply idf_soft|].
    - apply (LT_w "*" x [TOp "*"] [TId x] soft); [lit|]. now apply LT_name; [apply idf_soft|].
  Qed.
  Lemma LT_soft x H : is_identifier x = true -> (forall s, idf s = true -> H s = true) -> LT (w (x ++ " ")) [TId x] any H.
  Proof. intros Hx HH. apply (LT_w x " " [TId x] [] sep); [|lit]. eapply LT_weaken; [now apply LT_ident|auto|exact HH]. Qed.

  (** ** Statements *)
  Lemma LT_colon : LT (w ":") [TOp ":"] eol lf.
  Proof. apply (LT_weaken read _ _ soft lf); [lit|apply eol_soft|auto]. Qed.
  Lemma LT_colon_any F : (forall s, lf s = true -> F s = true) -> LT (w ":") [TOp ":"] eol F.
  Proof. intros H. eapply LT_weaken; [apply LT_colon|auto|exact H]. Qed.

  Section Step.
    Variable N : nat.
    Hypothesis IH : forall s kw i, ssize s < N -> ok_stmt read s = true -> kw = "if" \/ kw = "elif" -> LT (unp_stmt (kw ++ " ") i s) (stoks kw i s) eol eol.
    Lemma stmts_text l kw i : list_sum (map ssize l) < N -> forallb (ok_stmt read) l = true -> kw = "if" \/ kw = "elif" ->
      LT (cat (map (unp_stmt (kw ++ " ") i) l)) (flat_map (stoks kw i) l) eol eol.
    Proof.
      intros Hs Ho Hk. apply LT_flatF. apply forallb_Forall_In in Ho. eapply Forall_impl; [|exact Ho]. cbn beta. intros s [Os Hi]. apply IH; auto.
      apply (sum_in ssize) in Hi. lia.
    Qed.
    Lemma block_text l i : list_sum (map ssize l) < N -> forallb (ok_stmt read) l = true ->
      LT (cat (map (unp_stmt "if " (S i)) l)) (flat_map (stoks "if" (S i)) l) eol eol.
    Proof. intros. apply (stmts_text l "if"); auto. Qed.
    Lemma part_text k i l : k = "else" \/ k = "finally" -> list_sum (map ssize l) < N -> forallb (ok_stmt read) l = true ->
      LT (cat (part i k (map (unp_stmt "if " (S i)) l))) (match l with [] => [] | _ => line i [TKw k; TOp ":"] ++ flat_map (stoks "if" (S i)) l end) eol eol.
    Proof.
      intros Hk Hs Ho. destruct l as [|s l]; [apply LT_nil|]. assert (X := block_text (s :: l) i Hs Ho). cbn [map] in *. unfold part. unfold line.
      pc [TNl (4 * i); TKw k] sep; [destruct Hk as [-> | ->]; fl|]. pc [TOp ":"] eol; [apply LT_colon_any; intros q Hq; apply lf_sepd in Hq; now apply sepd_sep|exact X].
    Qed.
    Lemma handler_text star i h : hsize h < N -> ok_handler read star h = true -> LT (unp_handler printable star i h) (hstoks star i h) eol eol.
    Proof.
      destruct h as [t x b]. cbn [hsize ok_handler]. intros Hs Ho. apply andb_true_iff in Ho as [Ho Ob]. apply andb_true_iff in Ho as [Ho _].
      assert (X : LT (cat ([w ":"] ++ map (unp_stmt "if " (S i)) b)) ([TOp ":"] ++ flat_map (stoks "if" (S i)) b) eol lf).
      { pc [TOp ":"] eol; [apply LT_colon|]. apply block_text; auto. lia. }
      assert (Y : LT (cat (opt (fun x => [w " as "; w x]) x ++ [w ":"] ++ map (unp_stmt "if " (S i)) b))
        (opt_toks (fun x => [TKw "as"; TId x]) x ++ [TOp ":"] ++ flat_map (stoks "if" (S i)) b) eol sepd).
      { destruct x as [x|]; [|eapply LT_weaken; [exact X|auto|apply lf_sepd]]. cbn [opt opt_toks].
        assert (Hx : is_identifier x = true). { destruct t as [t|]; [apply andb_true_iff in Ho; tauto|]. rewrite andb_false_r in Ho. discriminate. }
        pc [TKw "as"] any; [lit|]. pc [TId x] sep; [eapply LT_weaken; [now apply LT_ident|auto|auto]|].
        eapply LT_weaken; [exact X|auto|]. intros s H. apply lf_sepd in H. now apply sepd_sep. }
      cbn [unp_handler hstoks handler_toks]. unfold line, op. cbn [app]. rewrite <- ?app_assoc. cbn [app].
      assert (Z' : LT (cat (opt (fun t => [w " "; unp t]) t ++ opt (fun x => [w " as "; w x]) x ++ [w ":"] ++ map (unp_stmt "if " (S i)) b))
        (opt_toks toks t ++ opt_toks (fun x => [TKw "as"; TId x]) x ++ [TOp ":"] ++ flat_map (stoks "if" (S i)) b) eol (fun s => sep s && soft s)).
      { destruct t as [t|]; [|destruct x as [x|]].
        - cbn [opt opt_toks]. apply andb_true_iff in Ho as [Ot _]. pc (@nil tok) any; [lit|]. pc (toks t) sepd; [now apply E_any|]. exact Y.
        - rewrite andb_false_r in Ho. discriminate.
        - eapply LT_weaken; [exact X|auto|]. intros s H. assert (H' := lf_sepd _ H). apply lf_soft in H. apply sepd_sep in H'. now rewrite H, H'. }
      destruct star; cbn [app].
      - pc [TNl (4 * i); TKw "except"; TOp "*"] (fun s => sep s && soft s); [|exact Z'].
        apply LT_fill. apply LT_lit; [|reflexivity]. intros rest HF. apply andb_true_iff in HF as [_ HF]. cbn [append]. litsteps.
      - pc [TNl (4 * i); TKw "except"] (fun s => sep s && soft s); [|exact Z'].
        apply LT_fill. apply LT_lit; [|reflexivity]. intros rest HF. apply andb_true_iff in HF as [HF _]. cbn [append]. litsteps.
    Qed.
    Lemma handlers_text star i hs : list_sum (map hsize hs) < N -> forallb (ok_handler read star) hs = true ->
      LT (cat (map (unp_handler printable star i) hs)) (flat_map (hstoks star i) hs) eol eol.
    Proof.
      intros Hs Ho. apply LT_flatF. apply forallb_Forall_In in Ho. eapply Forall_impl; [|exact Ho]. cbn beta. intros h [Oh Hi]. apply handler_text; auto.
      apply (sum_in hsize) in Hi. lia.
    Qed.
    Lemma case_text i c : csize c < N -> ok_case read c = true -> LT (unp_case printable i c) (cstoks i c) eol eol.
    Proof.
      destruct c as [p g b]. cbn [csize ok_case]. intros Hs Ho. apply andb_true_iff in Ho as [Ho Ob]. apply andb_true_iff in Ho as [Ho _]. apply andb_true_iff in Ho as [Op Og].
      assert (X : LT (cat ([w ":"] ++ map (unp_stmt "if " (S i)) b)) ([TOp ":"] ++ flat_map (stoks "if" (S i)) b) eol lf).
      { pc [TOp ":"] eol; [apply LT_colon|]. apply block_text; auto. lia. }
      assert (Y : LT (cat (opt (fun g => [w " if "; unp g]) g ++ [w ":"] ++ map (unp_stmt "if " (S i)) b))
        (opt_toks (fun g => TKw "if" :: toks g) g ++ [TOp ":"] ++ flat_map (stoks "if" (S i)) b) eol lf).
      { destruct g as [g|]; [|exact X]. cbn [opt opt_toks]. cbn [app]. pc [TKw "if"] any; [lit|]. pc (toks g) sepd; [now apply E_any|]. eapply LT_weaken; [exact X|auto|apply lf_sepd]. }
      assert (Z := pat_text p Op).
      cbn [unp_case cstoks case_toks]. unfold line, op. cbn [app]. rewrite <- ?app_assoc. pc [TNl (4 * i); TId "case"] any.
      { apply LT_fill. apply (LT_soft "case"); [reflexivity|apply idf_nb]. }
      destruct (match g with Some _ => is_or p | None => false end); cbn [app].
      - pc [TOp "("] any; [lit|]. pc (ptoks p) lf; [eapply LT_weaken; [exact Z|auto|auto]|]. pc [TOp ")"] any; [lit|]. eapply LT_weaken; [exact Y|auto|auto].
      - apply LT_empty. pc (ptoks p) lf; [eapply LT_weaken; [exact Z|auto|auto]|]. apply LT_empty. exact Y.
    Qed.
    Lemma cases_text i cs : list_sum (map csize cs) < N -> forallb (ok_case read) cs = true -> LT (cat (map (unp_case printable i) cs)) (flat_map (cstoks i) cs) eol eol.
    Proof.
      intros Hs Ho. apply LT_flatF. apply forallb_Forall_In in Ho. eapply Forall_impl; [|exact Ho]. cbn beta. intros c [Oc Hi]. apply case_text; auto.
      apply (sum_in csize) in Hi. lia.
    Qed.
    Lemma stmt_step s kw i : ssize s <= N -> ok_stmt read s = true -> kw = "if" \/ kw = "elif" -> LT (unp_stmt (kw ++ " ") i s) (stoks kw i s) eol eol.
    Proof.
      intros Hs Ho Hk.
      destruct s as [e|l0|module names level|targets v|t a v simple|t o v|e| | | |l|t m|l|l|e c|star body handlers orelse finalbody|x tps bases kws body decorators
        |is_async x tps args body decorators returns|is_async t iter body orelse|t body orelse|t body orelse|is_async items body|e cs|x tps v]; cbn [ssize] in Hs; cbn [StmtSpec.ok_stmt] in Ho; cbn [UnparseModel.unp_stmt stoks head_toks]; unfold line, op; try discriminate Ho.
      - (* Expr *) pc [TNl (4 * i)] nb; [apply LT_start|]. apply LT_one. apply E_last; [apply EF_nb|exact Ho].
      - (* Import *) apply andb_true_iff in Ho as [_ Ho]. pc [TNl (4 * i); TKw "import"] any; [fl|]. now apply aliases_text.
      - (* ImportFrom *) apply andb_true_iff in Ho as [Om Ol]. pc [TNl (4 * i); TKw "from"] any; [fl|].
        assert (X : LT (cat (inter ", " (map unp_alias names))) (commas (map (alias_toks false) names)) eol any).
        { apply orb_true_iff in Ol as [Ol|Ol]; [|apply andb_true_iff in Ol as [_ Ol]; now apply aliases_text].
          destruct names as [|[x [y|]] [|]]; try discriminate. cbn in Ol. apply String.eqb_eq in Ol as ->. cbn. apply LT_end.
          apply (LT_weaken read _ _ soft any); [|apply lf_soft|auto]. unfold op. lit. }
        cbn [app]. pc (dots_toks level) nd; [apply LT_dots|].
        destruct module as [m|]; cbn [opt_toks].
        + pc (dotted_toks m) sep; [eapply LT_weaken; [now apply LT_dotted|auto|apply idf_nd]|]. pc [TKw "import"] any; [lit|exact X].
        + pc (@nil tok) nd; [|pc [TKw "import"] any; [lit|exact X]]. exists "". split; [reflexivity|]. intros rest Hr. split; [apply st_nil|exact Hr].
      - (* Assign *) apply andb_true_iff in Ho as [Ho Ov]. apply andb_true_iff in Ho as [_ Ot].
        pc [TNl (4 * i)] nb; [apply LT_start|]. pcs (flat_map (fun t => toks t ++ op "=") targets) nb; [now apply targets_text|]. apply LT_one. apply E_last; [apply EF_nb|exact Ov].
      - (* AnnAssign *) apply andb_true_iff in Ho as [Ho Ov]. apply andb_true_iff in Ho as [Ho Oa]. apply andb_true_iff in Ho as [Ot _].
        assert (X : LT (cat (w ": " :: unp a :: opt (fun v => [w " = "; unp v]) v)) ([TOp ":"] ++ toks a ++ opt_toks (fun v => TOp "=" :: toks v) v) eol sepd).
        { pc [TOp ":"] any; [lit|]. destruct v as [v|]; cbn [opt opt_toks]; [|rewrite app_nil_r; apply LT_one; now apply E_last].
          pc (toks a) sepd; [now apply E_any|]. pc [TOp "="] any; [lit|]. apply LT_one. now apply E_last. }
        pc [TNl (4 * i)] nb; [apply LT_start|]. destruct simple; cbn [app].
        + apply LT_empty. pc (toks t) sepd; [now apply E_nb|]. apply LT_empty. exact X.
        + pc [TOp "("] any; [lit|]. rewrite <- ?app_assoc. pc (toks t) sepd; [now apply E_any|]. pc [TOp ")"] any; [lit|]. eapply LT_weaken; [exact X|auto|auto].
      - (* AugAssign *) apply andb_true_iff in Ho as [Ho Ov]. apply andb_true_iff in Ho as [Ot _].
        pc [TNl (4 * i)] nb; [apply LT_start|]. pc (toks t) sepd; [now apply E_nb|]. pc [TOp (binop_text o ++ "=")] any; [apply LT_augop|]. apply LT_one. now apply E_last.
      - (* Return *) destruct e as [e|]; cbn [opt opt_toks].
        + pc [TNl (4 * i); TKw "return"] sep; [fl|]. pc (@nil tok) any; [lit|]. apply LT_one. now apply E_last.
        + apply LT_one. eapply LT_weaken; [apply (LT_fill _ _ _ sep); lit|apply eol_sep|auto].
      - (* Pass *) eapply LT_weaken; [apply (LT_fill _ _ _ sep); lit|apply eol_sep|auto].
      - eapply LT_weaken; [apply (LT_fill _ _ _ sep); lit|apply eol_sep|auto].
      - eapply LT_weaken; [apply (LT_fill _ _ _ sep); lit|apply eol_sep|auto].
      - (* Delete *) apply andb_true_iff in Ho as [_ Ho]. pc [TNl (4 * i); TKw "del"] any; [fl|]. apply LT_end, LT_list, E_items.
        clear - Ho. induction l as [|t l IHl]; [reflexivity|]. cbn [forallb] in *. apply andb_true_iff in Ho as [Ht Ho]. apply andb_true_iff in Ht as [-> _]. now rewrite IHl.
      - (* Assert *) apply andb_true_iff in Ho as [Ot Om]. pc [TNl (4 * i); TKw "assert"] any; [fl|]. destruct m as [m|]; cbn [opt opt_toks].
        + pc (toks t) sepd; [now apply E_any|]. pc [TOp ","] any; [lit|]. apply LT_one. now apply E_last.
        + rewrite app_nil_r. apply LT_one. now apply E_last.
      - (* Global *) apply andb_true_iff in Ho as [_ Ho]. pc [TNl (4 * i); TKw "global"] any; [fl|]. now apply idents_text.
      - apply andb_true_iff in Ho as [_ Ho]. pc [TNl (4 * i); TKw "nonlocal"] any; [fl|]. now apply idents_text.
      - (* Raise *) apply andb_true_iff in Ho as [Ho Oc]. apply andb_true_iff in Ho as [Ho Oe]. destruct e as [e|].
        + pc [TNl (4 * i); TKw "raise"] sep; [fl|]. destruct c as [c|]; cbn [opt opt_toks]; rewrite ?app_nil_r; (pc (@nil tok) any; [lit|]).
          * pc (toks e) sepd; [now apply E_any|]. pc [TKw "from"] any; [lit|]. apply LT_one. now apply E_last.
          * apply LT_one. now apply E_last.
        + destruct c; [discriminate|]. eapply LT_weaken; [apply (LT_fill _ _ _ sep); lit|apply eol_sep|auto].
      - (* Try *) repeat (apply andb_true_iff in Ho as [Ho ?]). cbn [app].
        pc [TNl (4 * i); TKw "try"] sep; [fl|]. pc [TOp ":"] eol; [apply LT_colon_any; intros q Hq; apply lf_sepd in Hq; now apply sepd_sep|].
        pcs (flat_map (stoks "if" (S i)) body) eol; [apply block_text; auto; lia|]. pcs (flat_map (hstoks star i) handlers) eol; [apply handlers_text; auto; lia|].
        apply (LT_app read _ _ _ _ eol); apply part_text; auto; lia.
      - (* Class *) repeat (apply andb_true_iff in Ho as [Ho ?]). cbn [app]. pc [TNl 0] eol; [apply LT_blank|].
        pcs (flat_map (fun e => line i (deco_toks e)) decorators) eol; [now apply decos_text|]. rewrite <- ?app_assoc. cbn [app].
        pc [TNl (4 * i); TKw "class"; TId x] sep.
        { apply LT_fill. apply (LT_w "class " x [TKw "class"] [TId x] any); [lit|]. eapply LT_weaken; [now apply LT_ident|auto|auto]. }
        assert (X : LT (cat (w ":" :: map (unp_stmt "if " (S i)) body)) ([TOp ":"] ++ flat_map (stoks "if" (S i)) body) eol lf).
        { pc [TOp ":"] eol; [apply LT_colon|]. apply block_text; auto; lia. }
        assert (S : forall s, lf s = true -> sep s = true) by (intros q Hq; apply lf_sepd in Hq; now apply sepd_sep).
        assert (Y : LT (cat ((w "(" :: inter ", " (map unp bases ++ map (unp_kw printable) kws) ++ [w ")"]) ++ w ":" :: map (unp_stmt "if " (Datatypes.S i)) body))
          ((TOp "(" :: commas (map toks bases ++ map toks_kw kws) ++ [TOp ")"]) ++ [TOp ":"] ++ flat_map (stoks "if" (Datatypes.S i)) body) eol sep).
        { apply (LT_app read _ _ _ _ lf); [|exact X]. pc [TOp "("] any; [lit|]. apply (LT_app read _ _ _ _ lf); [|apply LT_one; lit].
          apply LT_list. apply Forall2_app; [now apply bases_text|now apply kws_text]. }
        destruct bases as [|b0 bases]; [destruct kws as [|k0 kws]|]; [eapply LT_weaken; [exact X|auto|exact S]|exact Y|exact Y].
      - (* Function *) repeat (apply andb_true_iff in Ho as [Ho ?]). cbn [app]. pc [TNl 0] eol; [apply LT_blank|].
        pcs (flat_map (fun e => line i (deco_toks e)) decorators) eol; [now apply decos_text|]. rewrite <- ?app_assoc. cbn [app].
        pca (TNl (4 * i) :: (if is_async then [TKw "async"] else []) ++ [TKw "def"; TId x; TOp "("]) any.
        { apply LT_fill. destruct is_async.
          - apply (LT_w "async def " (x ++ "(") [TKw "async"; TKw "def"] [TId x; TOp "("] any); [lit|]. apply (LT_w x "(" [TId x] [TOp "("] sep); [|lit].
            eapply LT_weaken; [now apply LT_ident|auto|auto].
          - apply (LT_w "def " (x ++ "(") [TKw "def"] [TId x; TOp "("] any); [lit|]. apply (LT_w x "(" [TId x] [TOp "("] sep); [|lit].
            eapply LT_weaken; [now apply LT_ident|auto|auto]. }
        rewrite <- ?app_assoc. cbn [app].
        pc (toks_args args) lf; [now apply params_text|].
        assert (X : LT (cat (w ":" :: map (unp_stmt "if " (S i)) body)) ([TOp ":"] ++ flat_map (stoks "if" (S i)) body) eol lf).
        { pc [TOp ":"] eol; [apply LT_colon|]. apply block_text; auto; lia. }
        pc [TOp ")"] any; [lit|]. rewrite <- ?app_assoc. destruct returns as [r|]; cbn [opt opt_toks].
        + pc [TOp "->"] any; [lit|]. pc (toks r) sepd; [now apply E_any|]. eapply LT_weaken; [exact X|auto|apply lf_sepd].
        + eapply LT_weaken; [exact X|auto|auto].
      - (* For *) repeat (apply andb_true_iff in Ho as [Ho ?]). cbn [app]. rewrite <- ?app_assoc. cbn [app].
        pca (TNl (4 * i) :: (if is_async then [TKw "async"] else []) ++ [TKw "for"]) any; [destruct is_async; cbn [app]; fl|].
        rewrite <- ?app_assoc. cbn [app].
        pc (toks t) sepd; [now apply E_any|]. pc [TKw "in"] any; [lit|]. rewrite <- ?app_assoc. pc (toks iter) sepd; [now apply E_any|]. pc [TOp ":"] eol; [apply LT_colon_any, lf_sepd|].
        pcs (flat_map (stoks "if" (S i)) body) eol; [apply block_text; auto; lia|]. apply part_text; auto; lia.
      - (* If *) repeat (apply andb_true_iff in Ho as [Ho ?]). cbn [app]. rewrite <- ?app_assoc. cbn [app].
        pc [TNl (4 * i); TKw kw] any; [destruct Hk as [-> | ->]; fl|]. pc (toks t) sepd; [now apply E_any|]. pc [TOp ":"] eol; [apply LT_colon_any, lf_sepd|].
        pcs (flat_map (stoks "if" (S i)) body) eol; [apply block_text; auto; lia|].
        assert (X := part_text "else" i orelse (or_introl eq_refl) ltac:(lia) ltac:(assumption)).
        assert (Y := stmts_text orelse "elif" i ltac:(lia) ltac:(assumption) (or_intror eq_refl)).
        destruct orelse as [|[] [|]]; try exact X. exact Y.
      - (* While *) repeat (apply andb_true_iff in Ho as [Ho ?]). cbn [app]. rewrite <- ?app_assoc. cbn [app].
        pc [TNl (4 * i); TKw "while"] any; [fl|]. pc (toks t) sepd; [now apply E_any|]. pc [TOp ":"] eol; [apply LT_colon_any, lf_sepd|].
        pcs (flat_map (stoks "if" (S i)) body) eol; [apply block_text; auto; lia|]. apply part_text; auto; lia.
      - (* With *) repeat (apply andb_true_iff in Ho as [Ho ?]). cbn [app]. rewrite <- ?app_assoc. cbn [app].
        pca (TNl (4 * i) :: (if is_async then [TKw "async"] else []) ++ [TKw "with"]) any; [destruct is_async; cbn [app]; fl|].
        rewrite <- ?app_assoc. cbn [app].
        pcs (commas (map witem_toks items)) lf.
        { apply LT_list. apply Forall2_maps. match goal with X : forallb (ok_witem read) _ = true |- _ => apply forallb_Forall_In in X; eapply Forall_impl; [|exact X] end.
          cbn beta. intros p [Hp _]. now apply witem_text. }
        pc [TOp ":"] eol; [apply LT_colon|]. apply block_text; auto; lia.
      - (* Match *) repeat (apply andb_true_iff in Ho as [Ho ?]). cbn [app]. rewrite <- ?app_assoc. cbn [app].
        pc [TNl (4 * i); TId "match"] any; [apply LT_fill; apply (LT_soft "match"); [reflexivity|apply idf_nb]|].
        pc (toks e) sepd; [now apply E_any|]. pc [TOp ":"] eol; [apply LT_colon_any, lf_sepd|]. apply cases_text; auto; lia.
      - (* TypeAlias *) apply andb_true_iff in Ho as [Ho Ov]. apply andb_true_iff in Ho as [Ox Ot]. destruct x; try discriminate. cbn [UnparseModel.unp toks app].
        pc [TNl (4 * i)] nb; [apply LT_start|]. pc [TId "type"] any; [apply (LT_soft "type"); [reflexivity|apply idf_nb]|].
        pc [TId x] sep; [eapply LT_weaken; [now apply LT_ident|auto|auto]|].
        assert (X : LT (cat [w " = "; unp v]) ([TOp "="] ++ toks v) eol lf) by (pc [TOp "="] any; [lit|]; apply LT_one; now apply E_last).
        destruct tps as [|tp tps]; [eapply LT_weaken; [exact X|auto|apply lf_sep]|].
        apply (LT_app read _ _ _ _ lf); [|exact X]. pc [TOp "["] any; [lit|]. apply (LT_app read _ _ _ _ lf); [|apply LT_one; lit].
        apply LT_list. apply Forall2_maps. apply forallb_Forall_In in Ot. eapply Forall_impl; [|exact Ot]. cbn beta. intros q [Hq _]. now apply tp_text.
    Qed.
  End Step.
  Theorem stmt_text s kw i : ok_stmt read s = true -> kw = "if" \/ kw = "elif" -> LT (unp_stmt (kw ++ " ") i s) (stoks kw i s) eol eol.
  Proof.
    assert (X : forall N s kw i, ssize s < N -> ok_stmt read s = true -> kw = "if" \/ kw = "elif" -> LT (unp_stmt (kw ++ " ") i s) (stoks kw i s) eol eol).
    { induction N as [|N IH]; intros; [lia|]. apply (stmt_step N); auto. lia. }
    intros. apply (X (S (ssize s))); auto.
  Qed.
  Theorem module_text l : forallb (ok_stmt read) l = true -> LT (cat (map (unp_stmt "if " 0) l)) (flat_map (stoks "if" 0) l) eol eol.
  Proof. intros H. apply (stmts_text (S (list_sum (map ssize l)))) with (kw := "if"); auto. intros. now apply stmt_text. Qed.
End Text.
