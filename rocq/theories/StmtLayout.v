(** [layout] makes the tokens of statements with NEWLINE, INDENT, DEDENT from their lines. *)
From Verif Require Import Base UnparseModel PyGrammar PyStmt UnparseSpec StmtSpec UnparseLex UnparseToks StmtToks.
Open Scope string_scope.
Open Scope list_scope.

Definition plain (t : tok) : bool := match t with TId _ | TKw _ | TOp _ | TConst _ | TF _ => true | _ => false end.
Definition pl (l : list tok) : bool := forallb plain l.
Lemma pl_app a b : pl (a ++ b) = pl a && pl b.
Proof. apply forallb_app. Qed.
Lemma pl_seps x l : plain x = true -> Forall (fun a => pl a = true) l -> pl (seps x l) = true.
Proof.
  intros Hx H. induction H as [|a l Ha H IH]; [reflexivity|]. destruct H as [|b l Hb H]; [exact Ha|].
  change (seps x (a :: b :: l)) with (a ++ x :: seps x (b :: l)). rewrite pl_app, Ha. cbn [pl forallb andb]. now rewrite Hx.
Qed.
Lemma pl_tuple l : Forall (fun a => pl a = true) l -> pl (tuple_toks l) = true.
Proof.
  intros H. destruct l as [|a [|b l]]; [reflexivity| |now apply pl_seps]. inversion H; subst. cbn [tuple_toks]. rewrite pl_app. now rewrite H2.
Qed.
Lemma pl_flat {A} (f : A -> list tok) l : Forall (fun x => pl (f x) = true) l -> pl (flat_map f l) = true.
Proof. induction 1 as [|x l Hx H IH]; [reflexivity|]. cbn [flat_map]. now rewrite pl_app, Hx. Qed.
Lemma Forall_sum {A} (f : A -> nat) (P : A -> Prop) l n : list_sum (map f l) < n -> (forall x, f x < n -> P x) -> Forall P l.
Proof. intros H HP. apply Forall_forall. intros x Hx. apply HP. apply (sum_in f) in Hx. lia. Qed.
Lemma Forall_mapped {A B} (f : A -> B) (P : B -> Prop) l : Forall (fun x => P (f x)) l -> Forall P (map f l).
Proof. induction 1; constructor; auto. Qed.

Section Plain.
  Variable N : nat.
  Hypothesis IH : forall e, size e < N -> pl (toks e) = true.
  Lemma pl_list l : list_sum (map size l) < N -> Forall (fun a => pl a = true) (map toks l).
  Proof. intros H. apply Forall_mapped. eapply Forall_sum; eauto. Qed.
  Lemma pl_opt o : match o with Some e => size e | None => 0 end < N -> pl (match o with Some e => toks e | None => [] end) = true.
  Proof. destruct o; [apply IH|reflexivity]. Qed.
  Lemma pl_arg a : size_arg a < N -> pl (toks_arg a) = true.
  Proof. destruct a as [x [e|]]; cbn [size_arg toks_arg]; intros H; [|reflexivity]. cbn. now apply IH. Qed.
  Lemma pl_comp g : size_comp g < N -> pl (toks_comp g) = true.
  Proof.
    destruct g as [t i ifs a]. cbn [size_comp toks_comp]. intros H. rewrite !pl_app, !IH by lia. rewrite pl_flat; [destruct a; reflexivity|].
    eapply Forall_sum with (f := size); [|intros x Hx; cbn; apply IH; exact Hx]. lia.
  Qed.
  Lemma pl_comps g : list_sum (map size_comp g) < N -> pl (flat_map toks_comp g) = true.
  Proof. intros H. apply pl_flat. eapply Forall_sum; [exact H|]. apply pl_comp. Qed.
  Lemma pl_kw k : size_kw k < N -> pl (toks_kw k) = true.
  Proof. destruct k as [[x|] e]; cbn [size_kw toks_kw]; intros H; cbn; now apply IH. Qed.
  Lemma pl_zip l m : Forall (fun a => pl a = true) l -> Forall (fun d => match d with Some d => pl d = true | None => True end) m ->
    Forall (fun a => pl a = true) (map (fun p => wd_toks (fst p) (snd p)) (zip l m)).
  Proof.
    intros H. revert m. induction H as [|a l Ha H IHl]; intros m Hm; [constructor|]. destruct Hm as [|d m Hd Hm]; [constructor|]. cbn [zip map fst snd].
    constructor; [|now apply IHl]. destruct d as [d|]; cbn [wd_toks]; [|exact Ha]. rewrite pl_app, Ha. exact Hd.
  Qed.
  Lemma pl_args a : size_args a < N -> pl (toks_args a) = true.
  Proof.
    destruct a as [pos args v ko kd ka df]. cbn [size_args toks_args]. intros H. apply pl_seps; [reflexivity|]. unfold args_toks, args_pieces.
    assert (AR : forall l, list_sum (map size_arg l) < N -> Forall (fun a => pl a = true) (map toks_arg l)).
    { intros l Hl. apply Forall_mapped. eapply Forall_sum; [exact Hl|]. apply pl_arg. }
    rewrite !map_length.
    set (ds := repeat None _ ++ map Some (map toks df)).
    assert (HD : Forall (fun d => match d with Some d => pl d = true | None => True end) ds).
    { unfold ds. apply Forall_app. split; [apply Forall_forall; intros x Hx; apply repeat_spec in Hx; now subst|].
      apply Forall_mapped. apply pl_list. lia. }
    assert (F1 : Forall (fun d => match d with Some d => pl d = true | None => True end) (firstn (List.length pos) ds)).
    { rewrite <- (firstn_skipn (List.length pos) ds) in HD. apply Forall_app in HD. tauto. }
    assert (F2 : Forall (fun d => match d with Some d => pl d = true | None => True end) (skipn (List.length pos) ds)).
    { rewrite <- (firstn_skipn (List.length pos) ds) in HD. apply Forall_app in HD. tauto. }
    assert (Z := pl_zip (map toks_arg pos) _ (AR pos ltac:(lia)) F1).
    apply Forall_app. split; [exact Z|]. apply Forall_app. split; [destruct (map _ (zip (map toks_arg pos) _)); repeat constructor|].
    apply Forall_app. split; [apply pl_zip; [apply AR; lia|exact F2]|].
    apply Forall_app. split.
    { destruct v as [v|]; [repeat constructor; cbn; apply pl_arg; lia|]. destruct (map toks_arg ko); repeat constructor. }
    apply Forall_app. split.
    { apply pl_zip; [apply AR; lia|]. apply Forall_mapped.
      eapply Forall_sum with (f := fun d => match d with Some e => size e | None => 0 end); [|intros [d|] Hd; [apply IH; exact Hd|exact I]]. lia. }
    destruct ka as [a|]; repeat constructor. cbn. apply pl_arg. lia.
  Qed.
  Lemma plain_step e : size e <= N -> pl (toks e) = true.
  Proof.
    intros H. destruct e; cbn [size] in H; cbn [toks]; unfold op; rewrite ?pl_app; cbn [pl forallb plain andb]; rewrite ?andb_true_r;
      repeat match goal with
      | |- context[forallb plain (toks ?e)] => fold (pl (toks e)); rewrite (IH e) by lia
      | |- context[pl (toks ?e)] => rewrite (IH e) by lia
      | |- context[pl (flat_map toks_comp ?g)] => rewrite (pl_comps g) by lia
      end; try reflexivity.
    - now destruct c.
    - destruct o; reflexivity.
    - apply pl_seps; [reflexivity|]. apply pl_list. lia.
    - rewrite ?andb_true_r. apply pl_flat. eapply Forall_sum with (f := fun p => match p with (_, e) => size e end); [|intros [o x] Hx; rewrite pl_app, (IH x Hx); destruct o; reflexivity]. lia.
    - now rewrite pl_args by lia.
    - apply pl_tuple. apply pl_list. lia.
    - apply pl_seps; [reflexivity|]. apply pl_list. lia.
    - apply pl_seps; [reflexivity|]. apply pl_list. lia.
    - apply pl_seps; [reflexivity|]. apply Forall_mapped.
      apply Forall_sum with (f := fun p => match p with (k, v) => match k with Some e => size e | None => 0 end + size v end) (n := N); [lia|].
      { intros [[k|] v] Hx; rewrite ?pl_app; cbn [pl forallb plain andb app]; [rewrite (IH k) by lia|]; cbn [andb]; apply IH; lia. }
    - destruct e2; try (apply IH; lia). cbn [size] in H. apply pl_tuple. apply pl_list. lia.
    - apply pl_seps; [reflexivity|]. apply Forall_app. split; [apply pl_list; lia|]. apply Forall_mapped. eapply Forall_sum; [|apply pl_kw]. lia.
    - destruct e; [apply IH; lia|reflexivity].
    - rewrite !pl_opt by lia. destruct st; [cbn; apply IH; lia|reflexivity].
  Qed.
End Plain.
Lemma toks_plain e : pl (toks e) = true.
Proof. assert (X : forall N e, size e < N -> pl (toks e) = true); [|apply (X (S (size e))); lia]. induction N as [|N IH]; intros x Hx; [lia|]. apply (plain_step N); auto. lia. Qed.
Lemma toks_args_plain a : pl (toks_args a) = true.
Proof. apply (pl_args (S (size_args a))); [intros; apply toks_plain|lia]. Qed.
Lemma toks_kw_plain k : pl (toks_kw k) = true.
Proof. apply (pl_kw (S (size_kw k))); [intros; apply toks_plain|lia]. Qed.

Lemma pl_optt {A} (f : A -> list tok) o : (forall a, pl (f a) = true) -> pl (opt_toks f o) = true.
Proof. intros H. destruct o; [apply H|reflexivity]. Qed.
Lemma pl_ids l : Forall (fun a => pl a = true) (map (fun x => [TId x]) l).
Proof. apply Forall_mapped. apply Forall_forall. reflexivity. Qed.
Lemma pl_dots n : pl (dots_toks n) = true.
Proof.
  assert (X : pl (dots_toks n) = true /\ pl (dots_toks (S n)) = true /\ pl (dots_toks (S (S n))) = true); [|tauto].
  induction n as [|n (H1 & H2 & H3)]; [auto|]. repeat split; auto.
Qed.
Lemma pl_alias d l : pl (commas (map (alias_toks d) l)) = true.
Proof.
  apply pl_seps; [reflexivity|]. apply Forall_mapped. apply Forall_forall. intros [x y] _. cbn [alias_toks]. rewrite pl_app. rewrite (pl_optt _ y) by reflexivity.
  rewrite andb_true_r. destruct d; [apply pl_seps; [reflexivity|apply pl_ids]|]. destruct (String.eqb x "*"); reflexivity.
Qed.
Lemma pl_toks_list l : Forall (fun a => pl a = true) (map toks l).
Proof. apply Forall_mapped. apply Forall_forall. intros x _. apply toks_plain. Qed.
Lemma pl_cons t l : pl (t :: l) = plain t && pl l.
Proof. reflexivity. Qed.
Lemma pl_commas l : Forall (fun a => pl a = true) l -> pl (commas l) = true.
Proof. now apply pl_seps. Qed.
Lemma pl_deco e : pl (deco_toks e) = true.
Proof. unfold deco_toks. rewrite pl_cons. apply toks_plain. Qed.
Lemma pl_tp t : pl (tp_toks t) = true.
Proof. destruct t as [x b|x|x]; try reflexivity. cbn [tp_toks]. rewrite pl_cons. apply pl_optt. intros. rewrite pl_cons. apply toks_plain. Qed.
Lemma ptoks_plain p : pl (ptoks p) = true.
Proof.
  apply (pat_ind (fun p => pl (ptoks p) = true)); cbn [ptoks]; unfold op; intros; rewrite ?pl_app, ?pl_cons; cbn [plain andb pl forallb]; try (now destruct x); try apply toks_plain.
  - now destruct c.
  - rewrite andb_true_r. apply pl_commas, Forall_mapped. exact H.
  - rewrite andb_true_r. apply pl_commas, Forall_app. split; [|destruct r; repeat constructor]. apply Forall_mapped. eapply Forall_impl; [|exact H]. cbn beta. intros [k q] Hq. unfold pair_toks.
    now rewrite pl_app, toks_plain, pl_cons.
  - rewrite toks_plain. cbn [andb]. rewrite !andb_true_r. apply pl_commas, Forall_app. split; [now apply Forall_mapped|]. apply Forall_mapped. eapply Forall_impl; [|exact H0]. cbn beta. intros [y q] Hq. unfold pkw_toks. now rewrite !pl_cons.
  - destruct x as [x|]; [|reflexivity]. rewrite !pl_app, H. destruct (is_or p0); reflexivity.
  - apply pl_seps; [reflexivity|]. now apply Forall_mapped.
Qed.
Lemma head_plain kw s : pl (head_toks kw s) = true.
Proof.
  assert (Hd : forall x, pl (dotted_toks x) = true) by (intros; apply pl_seps; [reflexivity|apply pl_ids]).
  assert (Hw : forall l, pl (commas (map witem_toks l)) = true).
  { intros l. apply pl_commas, Forall_mapped, Forall_forall. intros [e o] _. unfold witem_toks. rewrite pl_app, toks_plain. apply pl_optt. intros. rewrite pl_cons. apply toks_plain. }
  assert (Hc : forall a b, pl (commas (map toks a ++ map toks_kw b)) = true).
  { intros a b. apply pl_commas, Forall_app. split; [apply pl_toks_list|]. apply Forall_mapped, Forall_forall. intros k _. apply toks_kw_plain. }
  destruct s; cbn [head_toks]; unfold op; try reflexivity; rewrite ?pl_app, ?pl_cons, ?pl_app, ?pl_cons, ?pl_app, ?pl_cons, ?pl_app, ?pl_cons, ?pl_app, ?toks_plain, ?toks_args_plain, ?pl_dots, ?pl_alias, ?Hw; cbn [plain andb];
    repeat match goal with |- context[pl (opt_toks ?f ?o)] => rewrite (pl_optt f o) by (intros; rewrite ?pl_cons, ?toks_plain; auto) end; rewrite ?andb_true_r; try reflexivity.
  - apply pl_flat. apply Forall_forall. intros x _. rewrite pl_app, toks_plain. reflexivity.
  - destruct simple; reflexivity.
  - apply pl_commas, pl_toks_list.
  - apply pl_commas, pl_ids.
  - apply pl_commas, pl_ids.
  - destruct bases, kws; try reflexivity; cbn [app]; rewrite pl_cons, pl_app, Hc; reflexivity.
  - destruct is_async; reflexivity.
  - destruct is_async; reflexivity.
  - destruct is_async; reflexivity.
  - destruct tps as [|t0 tps]; [reflexivity|]. cbn [app]. rewrite pl_cons, pl_app. cbn [plain andb pl forallb]. rewrite andb_true_r. apply pl_commas, Forall_mapped, Forall_forall. intros t _. apply pl_tp.
Qed.
Lemma case_plain c : pl (case_toks c) = true.
Proof.
  destruct c as [p g b]. cbn [case_toks]. unfold op. rewrite pl_cons, !pl_app, ptoks_plain. cbn [plain andb].
  rewrite pl_optt by (intros; rewrite pl_cons; apply toks_plain). destruct g; [destruct (is_or p)|]; reflexivity.
Qed.
Lemma handler_plain star h : pl (handler_toks star h) = true.
Proof.
  destruct h as [t x b]. cbn [handler_toks]. unfold op. rewrite pl_cons, !pl_app. cbn [plain andb]. rewrite !pl_optt; [destruct star; reflexivity|reflexivity|apply toks_plain].
Qed.

(** ** Layout *)
Fixpoint st (i : nat) : list nat := match i with O => [0] | S j => 4 * i :: st j end.
Lemma st_hd i : hd 0 (st i) = 4 * i.
Proof. destruct i; reflexivity. Qed.
Lemma st_length i : List.length (st i) = S i.
Proof. induction i as [|i IH]; [reflexivity|]. cbn [st List.length]. now rewrite IH. Qed.
Lemma dedent_st j i : i <= j -> dedent (st j) (4 * i) = Some (j - i, st i).
Proof.
  induction j as [|j IH]; intros H.
  - assert (i = 0) as -> by lia. reflexivity.
  - assert (i = S j \/ i <= j) as [->|Hi] by lia.
    + cbn [st dedent]. rewrite Nat.eqb_refl, Nat.sub_diag. reflexivity.
    + cbn [st dedent]. destruct (Nat.eqb_spec (4 * i) (4 * S j)); [lia|]. destruct (Nat.ltb_spec (4 * i) (4 * S j)); [|lia]. rewrite IH by exact Hi.
      now rewrite Nat.sub_succ_l by exact Hi.
Qed.
Lemma plain_line_ends t l : plain t = true -> line_ends (t :: l) = false.
Proof. now destruct t. Qed.
Lemma layout_plain stk t r : plain t = true -> layout stk (t :: r) = let? l := layout stk r in Some (t :: (if line_ends r then TNewline :: l else l)).
Proof. now destruct t. Qed.
Lemma layout_nl stk k r : line_ends r = false -> layout stk (TNl k :: r) = if Nat.ltb (hd 0 stk) k then let? l := layout (k :: stk) r in Some (TIndent :: l)
      else let? (d, st) := dedent stk k in let? l := layout st r in Some (repeat TDedent d ++ l).
Proof. intros H. cbn [layout]. now rewrite H. Qed.
Lemma layout_line stk ts r L : pl ts = true -> nonempty ts = true -> line_ends r = true -> layout stk r = Some L -> layout stk (ts ++ r) = Some (ts ++ TNewline :: L).
Proof.
  intros Hp Hn Hr HL. induction ts as [|t ts IH]; [discriminate|]. rewrite pl_cons in Hp. apply andb_true_iff in Hp as [Ht Hp]. cbn [app]. rewrite layout_plain by exact Ht.
  destruct ts as [|t' ts].
  - cbn [app]. now rewrite HL, Hr.
  - rewrite IH by auto. rewrite pl_cons in Hp. apply andb_true_iff in Hp as [Ht' _]. cbn [app]. now rewrite plain_line_ends by exact Ht'.
Qed.

(** What follows a statement of level [i] with the levels up to [i] open: it closes the deeper ones, and then reads as [L]. *)
Definition after (i : nat) (rest L : list tok) : Prop :=
  line_ends rest = true /\ forall j, i <= j -> layout (st j) rest = Some (repeat TDedent (j - i) ++ L).
Lemma after_end : after 0 [] [].
Proof. split; [reflexivity|]. intros j _. cbn [layout]. rewrite st_length, app_nil_r. f_equal; f_equal; lia. Qed.
Lemma after_up i rest L : after i rest L -> after (S i) rest (TDedent :: L).
Proof.
  intros [H1 H2]. split; [exact H1|]. intros j Hj. rewrite H2 by lia. replace (j - i) with (S (j - S i)) by lia. f_equal.
  change (repeat TDedent (S (j - S i))) with (TDedent :: repeat TDedent (j - S i)). rewrite repeat_cons. now rewrite <- app_assoc.
Qed.
Lemma after_line i ts rest L : pl ts = true -> nonempty ts = true -> line_ends rest = true -> layout (st i) rest = Some L -> after i (line i ts ++ rest) (ts ++ TNewline :: L).
Proof.
  intros Hp Hn Hr HL. split; [reflexivity|]. intros j Hj. unfold line. destruct ts as [|t ts]; [discriminate|].
  assert (Ht : plain t = true) by (rewrite pl_cons in Hp; apply andb_true_iff in Hp; tauto).
  cbn [app]. rewrite layout_nl by now apply plain_line_ends. rewrite st_hd. destruct (Nat.ltb_spec (4 * j) (4 * i)); [lia|]. rewrite dedent_st by exact Hj.
  change (t :: ts ++ rest) with ((t :: ts) ++ rest). rewrite (layout_line _ _ _ _ Hp Hn Hr HL). reflexivity.
Qed.
Lemma after_now i rest L : after i rest L -> layout (st i) rest = Some L.
Proof. intros [_ H]. rewrite H by lia. now rewrite Nat.sub_diag. Qed.
Lemma after_ends i rest L : after i rest L -> line_ends rest = true.
Proof. now intros []. Qed.
Lemma after_simple i ts rest L : pl ts = true -> nonempty ts = true -> after i rest L -> after i (line i ts ++ rest) (ts ++ TNewline :: L).
Proof. intros. apply after_line; auto; [eapply after_ends; eauto|now apply after_now]. Qed.
Lemma after_blank i rest L : after i rest L -> after i (TNl 0 :: rest) L.
Proof. intros [H1 H2]. split; [reflexivity|]. intros j Hj. cbn [layout]. rewrite H1. now apply H2. Qed.
(** The lines of a block open a level. *)
Definition opens (i : nat) (ts : list tok) : Prop := line_ends ts = true /\ forall L, layout (st (S i)) ts = Some L -> layout (st i) ts = Some (TIndent :: L).
Lemma opens_line i ts rest : pl ts = true -> nonempty ts = true -> opens i (line (S i) ts ++ rest).
Proof.
  intros Hp Hn. split; [reflexivity|]. intros L H. unfold line in *. destruct ts as [|t ts]; [discriminate|].
  assert (Ht : plain t = true) by (rewrite pl_cons in Hp; apply andb_true_iff in Hp; tauto).
  cbn [app] in *. rewrite layout_nl in H by now apply plain_line_ends. rewrite layout_nl by now apply plain_line_ends. rewrite st_hd in *.
  destruct (Nat.ltb_spec (4 * S i) (4 * S i)); [lia|]. destruct (Nat.ltb_spec (4 * i) (4 * S i)); [|lia].
  rewrite dedent_st in H by lia. change (4 * S i :: st i) with (st (S i)). rewrite Nat.sub_diag in H. destruct (layout (st (S i)) (t :: ts ++ rest)); [|discriminate].
  injection H as <-. reflexivity.
Qed.
Lemma opens_blank i rest : opens i rest -> opens i (TNl 0 :: rest).
Proof. intros [H1 H2]. split; [reflexivity|]. intros L. cbn [layout]. rewrite H1. apply H2. Qed.

Section Layout.
  Variable read : string -> string.
  Notation ok_stmt := (ok_stmt read).
  Lemma head_nonempty kw s : ok_stmt s = true -> nonempty (head_toks kw s) = true.
  Proof.
    assert (X : forall e l, ok read e = true -> nonempty (toks e ++ l) = true).
    { fix IH 1. intros e l Ho. destruct e; cbn [UnparseSpec.ok] in Ho; try discriminate; try reflexivity; apply andb_true_iff in Ho as [Ho _];
        try (apply andb_true_iff in Ho as [Ho _]); cbn [toks]; rewrite <- app_assoc; now apply IH. }
    destruct s; cbn [StmtSpec.ok_stmt head_toks]; intros Ho; try reflexivity; try discriminate.
    - rewrite <- (app_nil_r (toks e)). now apply X.
    - apply andb_true_iff in Ho as [Ho _]. apply andb_true_iff in Ho as [Hn Ho]. destruct targets as [|t ts]; [discriminate|].
      cbn [forallb] in Ho. apply andb_true_iff in Ho as [Ho _]. apply andb_true_iff in Ho as [Ho _]. cbn [flat_map]. rewrite <- !app_assoc. now apply X.
    - apply andb_true_iff in Ho as [Ho _]. apply andb_true_iff in Ho as [Ho _]. apply andb_true_iff in Ho as [Ho _]. destruct simple; [now apply X|reflexivity].
    - apply andb_true_iff in Ho as [Ho _]. apply andb_true_iff in Ho as [Ho _]. now apply X.
    - destruct is_async; reflexivity.
    - destruct is_async; reflexivity.
    - destruct is_async; reflexivity.
  Qed.
  Lemma opens_stmt i s rest : ok_stmt s = true -> opens i (stoks "if" (S i) s ++ rest).
  Proof.
    intros Ho. assert (Hp := head_plain "if" s). assert (Hn := head_nonempty "if" s Ho).
    assert (D : forall ds r, opens i ((flat_map (fun e => line (S i) (deco_toks e)) ds ++ line (S i) (head_toks "if" s) ++ r) ++ rest)).
    { intros ds r. destruct ds as [|e ds]; cbn [flat_map app]; rewrite <- ?app_assoc; apply opens_line; auto. apply pl_deco. }
    destruct s; cbn [stoks]; rewrite <- ?app_assoc; try (apply opens_line; auto); cbn [app]; apply opens_blank; apply D.
  Qed.
  Lemma opens_block i l rest : nonempty l = true -> forallb ok_stmt l = true -> opens i (flat_map (stoks "if" (S i)) l ++ rest).
  Proof. destruct l as [|s l]; [discriminate|]. intros _ H. cbn [forallb] in H. apply andb_true_iff in H as [H _]. cbn [flat_map]. rewrite <- app_assoc. now apply opens_stmt. Qed.

  Section Step.
    Variable N : nat.
    Hypothesis IH : forall s kw i rest L, ssize s < N -> ok_stmt s = true -> after i rest L -> after i (stoks kw i s ++ rest) (ltoks kw s ++ L).
    Lemma after_stmts l kw i rest L : list_sum (map ssize l) < N -> forallb ok_stmt l = true -> after i rest L ->
      after i (flat_map (stoks kw i) l ++ rest) (flat_map (ltoks kw) l ++ L).
    Proof.
      unfold list_sum. intros Hs Ho Ha. induction l as [|s l IHl]; [exact Ha|]. cbn in Hs. cbn [forallb] in Ho. apply andb_true_iff in Ho as [Os Ho].
      cbn [flat_map]. rewrite <- !app_assoc. apply IH; [lia|auto|]. apply IHl; [lia|auto].
    Qed.
    (** A head, and its block. *)
    Lemma after_block ts l i rest L : pl ts = true -> nonempty ts = true -> nonempty l = true -> list_sum (map ssize l) < N -> forallb ok_stmt l = true -> after i rest L ->
      after i (line i ts ++ flat_map (stoks "if" (S i)) l ++ rest) (ts ++ TNewline :: TIndent :: flat_map (ltoks "if") l ++ TDedent :: L).
    Proof.
      intros Hp Hn Hl Hs Ho Ha. destruct (opens_block i l rest Hl Ho) as [O1 O2].
      apply after_line; auto. apply O2. apply after_now. apply after_stmts; auto. now apply after_up.
    Qed.
    Lemma after_part k l i rest L : list_sum (map ssize l) < N -> forallb ok_stmt l = true -> after i rest L ->
      after i (match l with [] => [] | _ => line i [TKw k; TOp ":"] ++ flat_map (stoks "if" (S i)) l end ++ rest)
        (match l with [] => [] | _ => [TKw k; TOp ":"] ++ TNewline :: TIndent :: flat_map (ltoks "if") l ++ [TDedent] end ++ L).
    Proof.
      intros Hs Ho Ha. destruct l as [|s l]; [exact Ha|]. rewrite <- !app_assoc. cbn [app]. rewrite <- app_assoc. cbn [app].
      change (after i (line i [TKw k; TOp ":"] ++ flat_map (stoks "if" (S i)) (s :: l) ++ rest) ([TKw k; TOp ":"] ++ TNewline :: TIndent :: flat_map (ltoks "if") (s :: l) ++ TDedent :: L)).
      now apply after_block.
    Qed.
    Lemma after_handlers star hs i rest L : list_sum (map hsize hs) < N -> forallb (ok_handler read star) hs = true -> after i rest L ->
      after i (flat_map (hstoks star i) hs ++ rest) (flat_map (hltoks star) hs ++ L).
    Proof.
      unfold list_sum. intros Hs Ho Ha. induction hs as [|[t x b] hs IHl]; [exact Ha|]. cbn in Hs. cbn [forallb] in Ho. apply andb_true_iff in Ho as [Os Ho].
      cbn [flat_map hstoks hltoks]. rewrite <- !app_assoc. cbn [app]. rewrite <- app_assoc. cbn [app]. cbn [ok_handler] in Os.
      apply andb_true_iff in Os as [Os Ob]. apply andb_true_iff in Os as [_ Nb].
      apply after_block; auto; [apply handler_plain|unfold list_sum in *; lia|]. apply IHl; [lia|auto].
    Qed.
    Lemma after_cases cs i rest L : list_sum (map csize cs) < N -> forallb (ok_case read) cs = true -> after i rest L ->
      after i (flat_map (cstoks i) cs ++ rest) (flat_map cltoks cs ++ L).
    Proof.
      unfold list_sum. intros Hs Ho Ha. induction cs as [|[p g b] cs IHl]; [exact Ha|]. cbn in Hs. cbn [forallb] in Ho. apply andb_true_iff in Ho as [Os Ho].
      cbn [flat_map cstoks cltoks]. rewrite <- !app_assoc. cbn [app]. rewrite <- app_assoc. cbn [app]. cbn [ok_case] in Os.
      apply andb_true_iff in Os as [Os Ob]. apply andb_true_iff in Os as [_ Nb].
      apply after_block; auto; [apply case_plain|unfold list_sum in *; lia|]. apply IHl; [lia|auto].
    Qed.
    Lemma after_decos ds i rest L : after i rest L -> after i (flat_map (fun e => line i (deco_toks e)) ds ++ rest) (flat_map (fun e => deco_toks e ++ [TNewline]) ds ++ L).
    Proof.
      intros Ha. induction ds as [|e ds IHd]; [exact Ha|]. cbn [flat_map]. rewrite <- !app_assoc. cbn [app]. apply after_simple; auto. apply pl_deco.
    Qed.
    Lemma layout_step s kw i rest L : ssize s <= N -> ok_stmt s = true -> after i rest L -> after i (stoks kw i s ++ rest) (ltoks kw s ++ L).
    Proof.
      intros Hs Ho Ha. assert (Hp := head_plain kw s). assert (Hn := head_nonempty kw s Ho).
      destruct s; cbn [stoks ltoks]; try (rewrite <- app_assoc; cbn [app]; now apply after_simple); cbn [ssize] in Hs; cbn [StmtSpec.ok_stmt] in Ho.
      - (* Try *) repeat (apply andb_true_iff in Ho as [Ho ?]). rewrite <- !app_assoc. cbn [app]. rewrite <- !app_assoc. cbn [app].
        apply after_block; auto; try lia. apply after_handlers; auto; [lia|]. apply after_part; auto; [lia|]. apply after_part; auto; lia.
      - (* Class *) repeat (apply andb_true_iff in Ho as [Ho ?]). cbn [app]. apply after_blank. rewrite <- !app_assoc. cbn [app]. rewrite <- !app_assoc. cbn [app].
        apply after_decos. apply after_block; auto; lia.
      - (* Function *) repeat (apply andb_true_iff in Ho as [Ho ?]). cbn [app]. apply after_blank. rewrite <- !app_assoc. cbn [app]. rewrite <- !app_assoc. cbn [app].
        apply after_decos. apply after_block; auto; lia.
      - (* For *) repeat (apply andb_true_iff in Ho as [Ho ?]). rewrite <- !app_assoc. cbn [app]. rewrite <- !app_assoc. cbn [app].
        apply after_block; auto; try lia. apply after_part; auto; lia.
      - (* If *) repeat (apply andb_true_iff in Ho as [Ho ?]). rewrite <- !app_assoc. cbn [app]. rewrite <- !app_assoc. cbn [app].
        apply after_block; auto; try lia.
        assert (X := after_part "else" orelse i rest L ltac:(lia) ltac:(assumption) Ha). assert (Y := after_stmts orelse "elif" i rest L ltac:(lia) ltac:(assumption) Ha).
        destruct orelse as [|[] [|]]; try exact X. exact Y.
      - (* While *) repeat (apply andb_true_iff in Ho as [Ho ?]). rewrite <- !app_assoc. cbn [app]. rewrite <- !app_assoc. cbn [app].
        apply after_block; auto; try lia. apply after_part; auto; lia.
      - (* With *) repeat (apply andb_true_iff in Ho as [Ho ?]). rewrite <- !app_assoc. cbn [app]. rewrite <- !app_assoc. cbn [app].
        apply after_block; auto; lia.
      - (* Match *) repeat (apply andb_true_iff in Ho as [Ho ?]). rewrite <- !app_assoc. cbn [app]. rewrite <- !app_assoc. cbn [app].
        assert (O : opens i (flat_map (cstoks (S i)) cases ++ rest)).
        { destruct cases as [|[p g b] cs]; [discriminate|]. cbn [flat_map cstoks]. rewrite <- !app_assoc. apply opens_line; [apply case_plain|reflexivity]. }
        destruct O as [O1 O2]. apply after_line; auto. apply O2. apply after_now. apply after_cases; auto; try lia; now apply after_up.
    Qed.
  End Step.
  Lemma layout_ok s kw i rest L : ok_stmt s = true -> after i rest L -> after i (stoks kw i s ++ rest) (ltoks kw s ++ L).
  Proof.
    assert (X : forall N s kw i rest L, ssize s < N -> ok_stmt s = true -> after i rest L -> after i (stoks kw i s ++ rest) (ltoks kw s ++ L)).
    { induction N as [|N IH]; intros; [lia|]. apply (layout_step N); auto; lia. }
    intros. apply (X (S (ssize s))); auto.
  Qed.
  Lemma layout_module l : forallb ok_stmt l = true -> layout [0] (flat_map (stoks "if" 0) l) = Some (flat_map (ltoks "if") l).
  Proof.
    intros Ho. rewrite <- (app_nil_r (flat_map (stoks "if" 0) l)), <- (app_nil_r (flat_map (ltoks "if") l)). apply (after_now 0).
    apply (after_stmts (S (list_sum (map ssize l)))); auto; [|apply after_end]. intros. now apply layout_ok.
  Qed.
End Layout.
