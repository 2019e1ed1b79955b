(** Colors in statements, and in what [unparse] returns. *)
From Verif Require Import Base Dict ShowModel UnparseModel DumpSpec UnparseToks StmtToks ColorModel ColorSpec ColorProofs.
Open Scope string_scope.
Open Scope list_scope.

Lemma relS_of m x y : rel m x y -> (m = false -> fine_r y = true) -> relS m x y.
Proof. destruct x, y; cbn [rel relS fine_r]; intros H F; try contradiction; auto. destruct m; auto. Qed.
Lemma relS_fill m i s p : relS m (w s) (w p) -> relS m (fill i s) (fill i p).
Proof.
  cbn. destruct m; [now intros ->|]. intros H. change (String (ascii_of_nat 10) (spaces (4 * i) ++ s)) with ((nl ++ spaces (4 * i)) ++ s)%string.
  apply (paints_app (nl ++ spaces (4 * i)) (nl ++ spaces (4 * i))); [|exact H]. apply paints_plain. rewrite has_app. change (has_char esc nl) with false. cbn [orb]. induction (4 * i); [reflexivity|exact IHn].
Qed.
Lemma relS_lit m s : has_char esc s = false -> relS m (w s) (w s).
Proof. intros H. cbn. destruct m; [reflexivity|now apply paints_plain]. Qed.
Lemma relS_name m x : (m = false -> fine x = true) -> relS m (w x) (w x).
Proof. intros H. apply relS_of; [apply rel_same|exact H]. Qed.
Lemma relS_part m i k k' l l' : relS m (w k) (w k') -> Forall2 (relS m) l l' -> Forall2 (relS m) (part i k l) (part i k' l').
Proof. intros Hk H. destruct H; [constructor|]. unfold part. constructor; [now apply relS_fill|]. constructor; [now apply relS_lit|]. now constructor. Qed.

Section Stmts.
  Variable printable : ascii -> bool.
  Variable is_exception is_builtin is_macro : string -> bool.
  Variable T : theme.
  Variable color : bool.
  Hypothesis HT : color = true -> theme_works T.
  Notation mc := (mc T color).
  Notation k_ := (kwd T color false).
  Notation cexpr := (cunp printable is_exception is_builtin is_macro T color false).
  Notation unp := (unp printable).
  Notation cpat := (cunp_pattern printable is_exception is_builtin is_macro T color).
  Notation cstmt := (cunp_stmt printable is_exception is_builtin is_macro T color).
  Notation chandler := (cunp_handler printable is_exception is_builtin is_macro T color).
  Notation ccase := (cunp_case printable is_exception is_builtin is_macro T color).
  Notation m := (negb color).
  Notation fine_e := (fine_e printable).
  Notation fine_o := (fine_o printable).
  Ltac inlist := repeat first [left; reflexivity | right].

  Lemma erel e : rel m (cexpr e) (unp e).
  Proof. exact (expr_rel printable is_exception is_builtin is_macro T color HT false e). Qed.
  Lemma krel t : rel m (w (k_ t)) (w t).
  Proof. exact (rel_kwd T color HT false t). Qed.
  Lemma mrel t c : In c [t_keyword T; t_exception T; t_builtin T; t_defname T; t_decorator T; t_string T; t_number T; t_nameconstant T; t_macroname T] ->
    rel m (w (mc false t c)) (w t).
  Proof. exact (rel_mc0 T color HT false t c). Qed.

  Fixpoint pat_rel (p : pattern) : rel m (cpat p) (unp_pattern printable p).
  Proof.
    destruct p as [e|c|l|x|l r|c l k|p x|l]; cbn [cunp_pattern unp_pattern].
    - apply erel.
    - apply mrel. inlist.
    - apply rel_cat. apply F2_app; [repeat constructor; apply rel_same|]. apply F2_app; [|repeat constructor; apply rel_same]. apply rel_inter; [apply rel_same|].
      induction l as [|q l IH]; constructor; [apply pat_rel|exact IH].
    - destruct x; [apply rel_same|]. assert (H := rel_mc T color HT false "*" "_" "" (t_keyword T) ltac:(inlist)). rewrite !sapp_nil_r in H. exact H.
    - apply rel_cat. apply F2_app; [repeat constructor; apply rel_same|]. apply F2_app; [|].
      + apply rel_inter; [apply rel_same|]. induction l as [|[k q] l IH]; constructor; [|exact IH]. apply rel_cat. constructor; [apply erel|]. constructor; [apply rel_same|]. constructor; [apply pat_rel|constructor].
      + destruct r; cbn [opt app]; repeat constructor; apply rel_same.
    - apply rel_cat. apply F2_app; [constructor; [apply erel|]; repeat constructor; apply rel_same|]. apply F2_app.
      + apply rel_inter; [apply rel_same|]. induction l as [|q l IH]; constructor; [apply pat_rel|exact IH].
      + apply F2_app; [destruct l, k; repeat constructor; apply rel_same|]. apply F2_app; [|repeat constructor; apply rel_same].
        apply rel_inter; [apply rel_same|]. induction k as [|[x q] k IH]; constructor; [|exact IH]. apply rel_cat. constructor; [apply rel_same|]. constructor; [apply rel_same|]. constructor; [apply pat_rel|constructor].
    - destruct p as [p|], x as [x|]; [|reflexivity|apply rel_same|apply krel]. apply rel_cat. constructor; [apply rel_same|]. constructor; [apply pat_rel|]. repeat constructor; apply rel_same.
    - apply rel_cat. apply rel_inter; [apply rel_same|]. induction l as [|q l IH]; constructor; [apply pat_rel|exact IH].
  Qed.

  (** ** Statements *)
  Notation S2 := (Forall2 (relS m)).
  Notation asks P := (m = false -> P = true).
  Lemma eS e : asks (fine_e e) -> relS m (cexpr e) (unp e).
  Proof. intros H. apply relS_of; [apply erel|exact H]. Qed.
  Lemma kS t : fine t = true -> relS m (w (k_ t)) (w t).
  Proof. intros H. apply relS_of; [apply krel|intros _; exact H]. Qed.
  Lemma esS l : asks (forallb fine_e l) -> S2 (map cexpr l) (map unp l).
  Proof. intros H. apply F2_map. intros x Hx. apply eS. intros E. specialize (H E). rewrite forallb_forall in H. auto. Qed.
  Lemma oS (f g : expr -> list (res string)) o : asks (fine_o o) -> (forall e, asks (fine_e e) -> S2 (f e) (g e)) -> S2 (opt f o) (opt g o).
  Proof. intros H K. destruct o; cbn [opt]; [apply K; exact H|constructor]. Qed.
  Lemma decos i l : asks (forallb fine_e l) ->
    S2 (cdecos printable is_exception is_builtin is_macro T color i l) (unp_decos printable i l).
  Proof.
    intros H. apply F2_map. intros e He. assert (F : asks (fine_e e)) by (intros E; specialize (H E); rewrite forallb_forall in H; auto). clear H He.
    rewrite (rel_true _ _ (expr_rel printable is_exception is_builtin is_macro T color HT true e)). cbn [cat w fill]. unfold ColorSpec.fine_e in F. destruct (unp e) as [p|x] eqn:E; [|exact eq_refl].
    cbn [relS fine_r] in *. destruct color eqn:Ec; cbn [negb] in *.
    - assert (W : style_works T (t_decorator T)). { specialize (HT eq_refl). unfold theme_works in HT. rewrite Forall_forall in HT. apply HT. inlist. }
      assert (X := relS_fill false i (mc false "@" (t_decorator T)) "@"). cbn [relS fill w] in X. rewrite Ec in X.
      apply paints_app; [apply X|].
      + assert (Y := mc_paints T color false "@" (t_decorator T) W). rewrite Ec in Y. apply Y; reflexivity.
      + unfold setcolor. cbn [set_style]. rewrite !sapp_nil_r. apply paints_styled; auto.
    - reflexivity.
  Qed.
  Lemma aliasS a : asks (fine_alias a) -> relS m (cunp_alias T color a) (unp_alias a).
  Proof.
    destruct a as [x y]. intros H. cbn [cunp_alias unp_alias]. apply relS_cat. constructor.
    - apply relS_name. intros E. specialize (H E). cbn in H. now apply andb_true_iff in H.
    - destruct y as [y|]; cbn [opt]; constructor; [|constructor]. apply relS_of; [|intros E; specialize (H E); cbn in H; apply andb_true_iff in H as [_ H]; cbn [fine_r w]; rewrite fine_app, H; reflexivity].
      exact (rel_mc T color HT false "" " as " y (t_keyword T) ltac:(inlist)).
  Qed.
  Lemma aliasesS l : asks (forallb fine_alias l) -> S2 (map (cunp_alias T color) l) (map unp_alias l).
  Proof. intros H. apply F2_map. intros x Hx. apply aliasS. intros E. specialize (H E). rewrite forallb_forall in H. auto. Qed.
  Ltac sp := let E := fresh in intros E;
    repeat match goal with H : negb color = false -> _ |- _ => specialize (H E) end; cbn [clean clean_handler clean_case] in *;
    repeat match goal with H : (_ && _)%bool = true |- _ => apply andb_true_iff in H as [? ?] end; auto.
  Lemma withS p : asks (fine_e (fst p) && fine_o (snd p)) -> relS m (cunp_withitem printable is_exception is_builtin is_macro T color p) (unp_withitem printable p).
  Proof.
    intros H. unfold cunp_withitem, unp_withitem. apply relS_cat. constructor; [apply eS; sp|]. apply oS; [sp|]. intros e He. constructor; [now apply kS|]. constructor; [now apply eS|constructor].
  Qed.
  Lemma tpS t : asks (fine_tp printable t) -> relS m (cunp_type_param printable is_exception is_builtin is_macro T color t) (unp_type_param printable t).
  Proof.
    intros H. destruct t as [x b|x|x]; cbn [cunp_type_param unp_type_param fine_tp] in *.
    - apply relS_cat. constructor; [apply relS_name; sp|]. apply oS; [sp|]. intros e He. constructor; [now apply relS_lit|]. constructor; [now apply eS|constructor].
    - apply relS_name. intros E. rewrite fine_app, (H E). reflexivity.
    - apply relS_name. intros E. rewrite fine_app, (H E). reflexivity.
  Qed.

  Ltac lst := repeat first [apply Forall2_nil | apply Forall2_cons; [first
    [ now apply relS_lit | (apply kS; reflexivity) | (apply eS; sp; fail) | (apply relS_fill; apply kS; reflexivity) | (apply relS_fill; now apply relS_lit) | (apply relS_name; sp; fail) | idtac ]|]].
  Section Step.
    Variable N : nat.
    Hypothesis IH : forall s kw i, ssize s < N -> fine kw = true -> asks (clean printable s) -> relS m (cstmt kw i s) (unp_stmt printable kw i s).
    Lemma bodyS l kw i : list_sum (map ssize l) < N -> fine kw = true -> asks (forallb (clean printable) l) -> S2 (map (cstmt kw i) l) (map (unp_stmt printable kw i) l).
    Proof. intros Hs Hk H. apply F2_map. intros s Hi. apply IH; auto; [apply (sum_in ssize) in Hi; lia|]. intros E. specialize (H E). rewrite forallb_forall in H. auto. Qed.
    Lemma handlersS star hs i : list_sum (map hsize hs) <= N -> asks (forallb (clean_handler printable) hs) -> S2 (map (chandler star i) hs) (map (unp_handler printable star i) hs).
    Proof.
      intros Hs H. apply F2_map. intros h Hi. assert (Hc : asks (clean_handler printable h)) by (intros E; specialize (H E); rewrite forallb_forall in H; auto). clear H.
      apply (sum_in hsize) in Hi. destruct h as [t x b]. cbn [hsize] in Hi. cbn [cunp_handler unp_handler]. apply relS_cat. apply F2_app.
      { constructor; [|constructor]. apply relS_fill. apply kS. now destruct star. }
      apply F2_app; [apply oS; [sp|]; intros e He; lst; now apply eS|]. apply F2_app.
      { destruct x as [x|]; cbn [opt]; [|constructor]. lst. }
      apply F2_app; [lst|]. apply bodyS; [lia|reflexivity|sp].
    Qed.
    Lemma casesS cs i : list_sum (map csize cs) <= N -> asks (forallb (clean_case printable) cs) -> S2 (map (ccase i) cs) (map (unp_case printable i) cs).
    Proof.
      intros Hs H. apply F2_map. intros h Hi. assert (Hc : asks (clean_case printable h)) by (intros E; specialize (H E); rewrite forallb_forall in H; auto). clear H.
      apply (sum_in csize) in Hi. destruct h as [p g b]. cbn [csize] in Hi. cbn [cunp_case unp_case]. apply relS_cat. apply F2_app.
      { lst. - destruct g, (is_or p); now apply relS_lit. - apply relS_of; [apply pat_rel|sp]. - destruct g, (is_or p); now apply relS_lit. }
      apply F2_app; [apply oS; [sp|]; intros e He; lst; now apply eS|]. apply F2_app; [lst|]. apply bodyS; [lia|reflexivity|sp].
    Qed.
    Lemma namesS l : asks (forallb fine l) -> S2 (map w l) (map w l).
    Proof. intros H. apply F2_map. intros x Hx. apply relS_name. intros E. specialize (H E). rewrite forallb_forall in H. auto. Qed.
    Lemma dots n : has_char esc (String.concat "" (repeat "." n)) = false.
    Proof. induction n as [|n IHn]; [reflexivity|]. cbn [repeat]. destruct n; [reflexivity|]. change (String.concat "" ("." :: repeat "." (S n))) with ("." ++ "" ++ String.concat "" (repeat "." (S n)))%string. rewrite !has_app, IHn. reflexivity. Qed.
    Ltac i_ := apply relS_inter; [reflexivity|].
    Lemma stmt_step s kw i : ssize s <= N -> fine kw = true -> asks (clean printable s) -> relS m (cstmt kw i s) (unp_stmt printable kw i s).
    Proof.
      intros Hs Hk H. destruct s as [e|l0|module names level|targets v|t a v simple|t o v|e| | | |l|t mm|l|l|e c|star body handlers orelse finalbody|x tps bases kws body decorators
        |is_async x tps args body decorators returns|is_async t iter body orelse|t body orelse|t body orelse|is_async items body|e cs|x tps v];
        cbn [ssize] in Hs; cbn [cunp_stmt unp_stmt].
      - apply relS_cat. lst.
      - apply relS_cat. lst. i_. now apply aliasesS.
      - apply relS_cat. apply F2_app; [|i_; apply aliasesS; sp]. lst.
        + apply relS_lit, dots.
        + destruct module; [apply relS_name; sp|now apply relS_lit].
      - apply relS_cat. apply F2_app; [lst|]. apply F2_app; [|lst]. apply F2_map. intros t Ht. apply relS_cat. lst. apply eS. sp. rewrite forallb_forall in *. auto.
      - apply relS_cat. apply F2_app; [lst; destruct simple; now apply relS_lit|]. apply oS; [sp|]. intros e He. lst; now apply eS.
      - apply relS_cat. lst. destruct o; now apply relS_lit.
      - apply relS_cat. lst. apply oS; [sp|]. intros e' He. lst; now apply eS.
      - apply relS_fill, kS. reflexivity.
      - apply relS_fill, kS. reflexivity.
      - apply relS_fill, kS. reflexivity.
      - apply relS_cat. lst. i_. now apply esS.
      - apply relS_cat. lst. apply oS; [sp|]. intros e' He. lst; now apply eS.
      - apply relS_cat. lst. i_. now apply namesS.
      - apply relS_cat. lst. i_. now apply namesS.
      - destruct e as [e|], c as [c|]; try reflexivity; try (apply relS_fill, kS; reflexivity).
        + apply relS_cat. lst.
        + apply relS_cat. lst.
      - apply relS_cat. apply F2_app; [lst|]. apply F2_app; [apply bodyS; [lia|reflexivity|sp]|]. apply F2_app; [apply handlersS; [lia|sp]|].
        apply F2_app; apply relS_part; try (apply kS; reflexivity); apply bodyS; try lia; try reflexivity; sp.
      - apply relS_cat. apply F2_app; [lst|]. apply F2_app; [apply decos; sp|]. apply F2_app; [|apply F2_app; [|apply F2_app; [lst|apply bodyS; [lia|reflexivity|sp]]]].
        + lst. apply relS_fill. apply relS_of; [|intros E; specialize (H E); cbn [clean] in H; do 4 (apply andb_true_iff in H as [H _]); cbn [fine_r w]; rewrite fine_app, H; reflexivity].
          apply rel_w.
          * intros E. rewrite !(mc_same T color false) by exact E. unfold kwd. now rewrite mc_same.
          * intros E F. rewrite fine_app in F. apply andb_true_iff in F as [F1 F2]. apply paints_app.
            -- assert (K := krel "class "). rewrite E in K. cbn [rel w] in K. auto.
            -- assert (K := mrel x (t_defname T) ltac:(inlist)). rewrite E in K. cbn [rel w] in K. auto.
        + assert (X : S2 ([w "("] ++ inter ", " (map cexpr bases ++ map (cunp_kw printable is_exception is_builtin is_macro T color false) kws) ++ [w ")"])
                         ([w "("] ++ inter ", " (map unp bases ++ map (unp_kw printable) kws) ++ [w ")"])).
          { apply F2_app; [lst|]. apply F2_app; [|lst]. i_. apply F2_app; [apply esS; sp|]. apply F2_map. intros k Hin. apply relS_of; [exact (kws_rel' printable is_exception is_builtin is_macro T color HT false k)|].
            sp. rewrite forallb_forall in *. auto. }
          destruct bases, kws; [constructor|exact X|exact X|exact X].
      - apply relS_cat. apply F2_app; [lst|]. apply F2_app; [apply decos; sp|]. apply F2_app.
        + lst; [|apply relS_of; [exact (args_rel' printable is_exception is_builtin is_macro T color HT false args)|sp]]. apply relS_fill.
          assert (F : asks (fine x)) by sp. clear H. change (relS m (w (k_ (if is_async then "async def" else "def") ++ " " ++ mc false x (t_defname T) ++ "(")) (w ((if is_async then "async def" else "def") ++ " " ++ x ++ "("))).
          assert (F' : m = false -> fine ((if is_async then "async def" else "def") ++ " " ++ x ++ "(") = true) by (intros E; rewrite !fine_app, (F E); now destruct is_async).
          apply relS_of; [|exact F']. apply rel_w.
          * intros E. rewrite !(mc_same T color false) by exact E. unfold kwd. now rewrite mc_same.
          * intros E _. apply paints_app.
            -- assert (K := krel (if is_async then "async def" else "def")). rewrite E in K. cbn [rel w] in K. apply K. now destruct is_async.
            -- assert (K := rel_mc T color HT false " " x "(" (t_defname T) ltac:(inlist)). change (same color false) with m in K. rewrite E in K. cbn [rel w] in K. apply K. rewrite !fine_app, (F E). reflexivity.
        + apply F2_app; [apply oS; [sp|]; intros e He; lst; now apply eS|]. apply F2_app; [lst|]. apply bodyS; [lia|reflexivity|sp].
      - apply relS_cat. apply F2_app; [lst; apply relS_fill, kS; now destruct is_async|]. apply F2_app; [apply bodyS; [lia|reflexivity|sp]|].
        apply relS_part; [apply kS; reflexivity|]. apply bodyS; [lia|reflexivity|sp].
      - apply relS_cat. apply F2_app; [lst; apply relS_fill, kS; exact Hk|]. apply F2_app; [apply bodyS; [lia|reflexivity|sp]|].
        assert (X : S2 (part i (k_ "else") (map (cstmt "if " (S i)) orelse)) (part i "else" (map (unp_stmt printable "if " (S i)) orelse))).
        { apply relS_part; [apply kS; reflexivity|]. apply bodyS; [lia|reflexivity|sp]. }
        assert (Y : S2 (map (cstmt "elif " i) orelse) (map (unp_stmt printable "elif " i) orelse)) by (apply bodyS; [lia|reflexivity|sp]).
        destruct orelse as [|[] [|]]; try exact X. exact Y.
      - apply relS_cat. apply F2_app; [lst|]. apply F2_app; [apply bodyS; [lia|reflexivity|sp]|].
        apply relS_part; [apply kS; reflexivity|]. apply bodyS; [lia|reflexivity|sp].
      - apply relS_cat. apply F2_app; [lst; apply relS_fill, kS; now destruct is_async|]. apply F2_app; [|apply F2_app; [lst|apply bodyS; [lia|reflexivity|sp]]].
        i_. apply F2_map. intros p Hp. apply withS. sp. rewrite forallb_forall in *. auto.
      - apply relS_cat. apply F2_app; [lst|]. apply casesS; [lia|sp].
      - apply relS_cat. apply F2_app; [lst|]. apply F2_app; [|lst].
        destruct tps as [|tp tps]; [constructor|]. apply F2_app; [lst|]. apply F2_app; [|lst]. i_. apply F2_map. intros p Hp. apply tpS. sp. rewrite forallb_forall in *. auto.
    Qed.
  End Step.
  Lemma stmt_rel s kw i : fine kw = true -> asks (clean printable s) -> relS m (cstmt kw i s) (unp_stmt printable kw i s).
  Proof.
    assert (X : forall N s kw i, ssize s < N -> fine kw = true -> asks (clean printable s) -> relS m (cstmt kw i s) (unp_stmt printable kw i s)).
    { induction N as [|N IHN]; intros; [lia|]. apply (stmt_step N); auto. lia. }
    intros. apply (X (S (ssize s))); auto.
  Qed.
  Lemma top_rel t : asks (clean_top printable t) -> relS m (cunp_top printable is_exception is_builtin is_macro T color t) (unp_top printable t).
  Proof.
    assert (X : forall l, asks (forallb (clean printable) l) -> relS m (cat (map (cstmt "if " 0) l)) (cat (map (unp_stmt printable "if " 0) l))).
    { intros l H. apply relS_cat. apply F2_map. intros s Hi. apply stmt_rel; [reflexivity|]. intros E. specialize (H E). rewrite forallb_forall in H. auto. }
    destruct t; cbn [cunp_top unp_top clean_top]; intros H; auto.
    - reflexivity.
    - apply stmt_rel; auto.
    - now apply eS.
  Qed.
End Stmts.
