(** Debug mode: colors in statements, and in what [unparse] returns. *)
From Verif Require Import Base Dict ShowModel UnparseModel DumpSpec UnparseToks StmtToks ColorModel ColorSpec ColorProofs ColorStmt DebugModel DebugColorModel DebugColorSpec DebugColorProofs.
Open Scope string_scope.
Open Scope list_scope.

Section Stmts.
  Variable printable : ascii -> bool.
  Variable is_exception is_builtin is_macro : string -> bool.
  Variable D : dtheme.
  Notation T := (d_theme D).
  Variable color : bool.
  Variable lineno : place -> option Z.
  Hypothesis HD : color = true -> dtheme_works D.
  Lemma HT : color = true -> theme_works T.
  Proof. intros H. apply (HD H). Qed.
  Notation mc := (mc T color).
  Notation k_ := (kwd T color false).
  Notation cexpr := (dcunp printable is_exception is_builtin is_macro D color false).
  Notation dunp := (dunp printable).
  Notation cpat := (dcunp_pattern printable is_exception is_builtin is_macro D color).
  Notation cstmt := (dcunp_stmt printable is_exception is_builtin is_macro D color lineno).
  Notation chandler := (dcunp_handler printable is_exception is_builtin is_macro D color lineno).
  Notation ccase := (dcunp_case printable is_exception is_builtin is_macro D color lineno).
  Notation m := (negb color).
  Notation dfine_e := (dfine_e printable).
  Notation dfine_o := (dfine_o printable).
  Lemma relS_mcd t c : In c [t_linenumber D; t_invisible D; t_marker D] -> fine t = true -> relS m (w (mc false t c)) (w t).
  Proof.
    intros Hi F. cbn [relS w]. destruct color eqn:E; cbn [negb]; [|reflexivity].
    apply (mc_paints T true false t c); auto. destruct (HD eq_refl) as [_ H]. rewrite Forall_forall in H. auto.
  Qed.
  Lemma relS_app a b x y : relS m (w a) (w x) -> relS m (w b) (w y) -> relS m (w (a ++ b)) (w (x ++ y)).
  Proof. cbn. destruct (negb color); [now intros -> ->|]. apply paints_app. Qed.
  Lemma relS_dfill i n s p : relS m (w s) (w p) -> relS m (dcfill D color i n s) (dfill i n p).
  Proof.
    intros H. unfold dcfill, dfill. apply relS_app; [now apply relS_lit|]. apply relS_app; [apply relS_mcd; [left; reflexivity|apply tag_fine]|].
    apply relS_app; [apply relS_lit, fine_esc, spaces_fine|exact H].
  Qed.
  Lemma relS_dpart i q k k' l l' : relS m (w k) (w k') -> Forall2 (relS m) l l' -> Forall2 (relS m) (dcpart D color lineno i q k l) (dpart lineno i q k' l').
  Proof. intros Hk H. destruct H; [constructor|]. unfold dcpart, dpart. constructor; [now apply relS_dfill|]. constructor; [now apply relS_lit|]. now constructor. Qed.
  Ltac inlist := repeat first [left; reflexivity | right].

  Lemma erel e : rel m (cexpr e) (dunp e).
  Proof. exact (DebugColorProofs.expr_rel printable is_exception is_builtin is_macro D color HD false e). Qed.
  Lemma krel t : rel m (w (k_ t)) (w t).
  Proof. exact (rel_kwd T color HT false t). Qed.
  Lemma mrel t c : In c [t_keyword T; t_exception T; t_builtin T; t_defname T; t_decorator T; t_string T; t_number T; t_nameconstant T; t_macroname T] ->
    rel m (w (mc false t c)) (w t).
  Proof. exact (rel_mc0 T color HT false t c). Qed.

  Fixpoint pat_rel (p : pattern) : rel m (cpat p) (dunp_pattern printable p).
  Proof.
    destruct p as [e|c|l|x|l r|c l k|p x|l]; cbn [dcunp_pattern dunp_pattern].
    - apply erel.
    - apply mrel. inlist.
    - apply rel_cat. apply F2_app; [repeat constructor; apply rel_same|]. apply F2_app; [|repeat constructor; apply rel_same]. apply rel_inter; [apply rel_same|].
      induction l as [|q l IH]; constructor; [apply pat_rel|exact IH].
    - destruct x; [apply rel_same|]. assert (H := rel_mc T color HT false "*" "_" "" (t_keyword T) ltac:(inlist)). rewrite !sapp_nil_r in H. exact H.
    - apply rel_cat. apply F2_app; [repeat constructor; apply rel_same|]. apply F2_app; [|].
      + apply rel_inter; [apply rel_same|]. induction l as [|[k q] l IH]; constructor; [|exact IH]. apply rel_cat. constructor; [apply erel|]. constructor; [apply rel_same|]. constructor; [apply pat_rel|constructor].
      + destruct r; cbn [opt app]; repeat constructor; apply rel_same.
    - apply rel_cat. apply F2_app; [constructor; [apply erel|]; repeat constructor; apply rel_same|]. apply F2_app.
      + apply rel_inter; [apply rel_same|]. induction l as [|q l IH]; constructor; [apply pat_rel|exact IH].
      + apply F2_app; [destruct l, k; repeat constructor; apply rel_same|]. apply F2_app; [|repeat constructor; apply rel_same].
        apply rel_inter; [apply rel_same|]. induction k as [|[x q] k IH]; constructor; [|exact IH]. apply rel_cat. constructor; [apply rel_same|]. constructor; [apply rel_same|]. constructor; [apply pat_rel|constructor].
    - destruct p as [p|], x as [x|]; [|reflexivity|apply rel_same|apply krel]. apply rel_cat. constructor; [apply rel_same|]. constructor; [apply pat_rel|]. repeat constructor; apply rel_same.
    - apply rel_cat. apply rel_inter; [apply rel_same|]. induction l as [|q l IH]; constructor; [apply pat_rel|exact IH].
  Qed.

  (** ** Statements *)
  Notation S2 := (Forall2 (relS m)).
  Notation asks P := (m = false -> P = true).
  Lemma eS e : asks (dfine_e e) -> relS m (cexpr e) (dunp e).
  Proof. intros H. apply relS_of; [apply erel|exact H]. Qed.
  Lemma kS t : fine t = true -> relS m (w (k_ t)) (w t).
  Proof. intros H. apply relS_of; [apply krel|intros _; exact H]. Qed.
  Lemma esS l : asks (forallb dfine_e l) -> S2 (map cexpr l) (map dunp l).
  Proof. intros H. apply F2_map. intros x Hx. apply eS. intros E. specialize (H E). rewrite forallb_forall in H. auto. Qed.
  Lemma oS (f g : expr -> list (res string)) o : asks (dfine_o o) -> (forall e, asks (dfine_e e) -> S2 (f e) (g e)) -> S2 (opt f o) (opt g o).
  Proof. intros H K. destruct o; cbn [opt]; [apply K; exact H|constructor]. Qed.
  Lemma decos i q l : asks (forallb dfine_e l) ->
    S2 (dcdecos printable is_exception is_builtin is_macro D color lineno i q l) (dunp_decos printable lineno i q l).
  Proof.
    intros H. apply F2_mapi. intros j e He. assert (F : asks (dfine_e e)) by (intros E; specialize (H E); rewrite forallb_forall in H; auto). clear H He.
    rewrite (rel_true _ _ (DebugColorProofs.expr_rel printable is_exception is_builtin is_macro D color HD true e)). unfold DebugColorSpec.dfine_e in F.
    destruct (dunp e) as [p|x] eqn:E; [|reflexivity]. cbn [fine_r] in F.
    assert (A : relS m (dcfill D color i (lineno ((4, j) :: q)) (mc false "@" (t_decorator T))) (dfill i (lineno ((4, j) :: q)) "@")) by (apply relS_dfill; apply relS_of; [apply mrel; inlist|reflexivity]).
    assert (B : relS m (w ((if color then setcolor (t_base T) [t_decorator T] true else "") ++ p ++ (if color then setcolor (t_base T) [] true else ""))) (w p)).
    { destruct color eqn:Ec; cbn [relS w negb] in *; [|cbn [append]; apply sapp_nil_r].
      assert (W : style_works T (t_decorator T)). { destruct (HD eq_refl) as [H _]. unfold theme_works in H. rewrite Forall_forall in H. apply H. inlist. }
      unfold setcolor. cbn [set_style]. rewrite !sapp_nil_r. apply paints_styled; auto. }
    cbn [cat w] in *. unfold dcfill, dfill in *. cbn [w cat relS] in *. rewrite !sapp_nil_r. 
    destruct (negb color); [now rewrite A, B|]. now apply paints_app.
  Qed.
  Lemma aliasS a : asks (fine_alias a) -> relS m (dcunp_alias D color a) (dunp_alias a).
  Proof.
    destruct a as [x y]. intros H. cbn [dcunp_alias dunp_alias]. apply relS_cat. constructor.
    - apply relS_name. intros E. specialize (H E). cbn in H. now apply andb_true_iff in H.
    - destruct y as [y|]; cbn [opt]; constructor; [|constructor]. apply relS_of; [|intros E; specialize (H E); cbn in H; apply andb_true_iff in H as [_ H]; cbn [fine_r w]; rewrite fine_app, H; reflexivity].
      exact (rel_mc T color HT false "" " as " y (t_keyword T) ltac:(inlist)).
  Qed.
  Lemma aliasesS l : asks (forallb fine_alias l) -> S2 (map (dcunp_alias D color) l) (map dunp_alias l).
  Proof. intros H. apply F2_map. intros x Hx. apply aliasS. intros E. specialize (H E). rewrite forallb_forall in H. auto. Qed.
  Ltac sp := let E := fresh in intros E;
    repeat match goal with H : negb color = false -> _ |- _ => specialize (H E) end; cbn [dclean dclean_handler dclean_case] in *;
    repeat match goal with H : (_ && _)%bool = true |- _ => apply andb_true_iff in H as [? ?] end; auto.
  Lemma withS p : asks (dfine_e (fst p) && dfine_o (snd p)) -> relS m (dcunp_withitem printable is_exception is_builtin is_macro D color p) (dunp_withitem printable p).
  Proof.
    intros H. unfold dcunp_withitem, dunp_withitem. apply relS_cat. constructor; [apply eS; sp|]. apply oS; [sp|]. intros e He. constructor; [now apply kS|]. constructor; [now apply eS|constructor].
  Qed.
  Lemma tpS t : asks (dfine_tp printable t) -> relS m (dcunp_type_param printable is_exception is_builtin is_macro D color t) (dunp_type_param printable t).
  Proof.
    intros H. destruct t as [x b|x|x]; cbn [dcunp_type_param dunp_type_param dfine_tp] in *.
    - apply relS_cat. constructor; [apply relS_name; sp|]. apply oS; [sp|]. intros e He. constructor; [now apply relS_lit|]. constructor; [now apply eS|constructor].
    - apply relS_name. intros E. rewrite fine_app, (H E). reflexivity.
    - apply relS_name. intros E. rewrite fine_app, (H E). reflexivity.
  Qed.

  Ltac lst := repeat first [apply Forall2_nil | apply Forall2_cons; [first
    [ now apply relS_lit | (apply kS; reflexivity) | (apply eS; sp; fail) | (apply relS_dfill; apply kS; reflexivity) | (apply relS_dfill; now apply relS_lit) | (apply relS_name; sp; fail) | idtac ]|]].
  Section Step.
    Variable N : nat.
    Hypothesis IH : forall s kw i q, ssize s < N -> fine kw = true -> asks (dclean printable s) -> relS m (cstmt kw i q s) (dunp_stmt printable lineno kw i q s).
    Lemma bodyS l kw i f q : list_sum (map ssize l) < N -> fine kw = true -> asks (forallb (dclean printable) l) -> S2 (mapi (fun j => cstmt kw i ((f, j) :: q)) 0 l) (mapi (fun j => dunp_stmt printable lineno kw i ((f, j) :: q)) 0 l).
    Proof. intros Hs Hk H. apply F2_mapi. intros j s Hi. apply IH; auto; [apply (sum_in ssize) in Hi; lia|]. intros E. specialize (H E). rewrite forallb_forall in H. auto. Qed.
    Lemma handlersS star hs i q : list_sum (map hsize hs) <= N -> asks (forallb (dclean_handler printable) hs) -> S2 (mapi (fun j => chandler star i ((3, j) :: q)) 0 hs) (mapi (fun j => dunp_handler printable lineno star i ((3, j) :: q)) 0 hs).
    Proof.
      intros Hs H. apply F2_mapi. intros j h Hi. assert (Hc : asks (dclean_handler printable h)) by (intros E; specialize (H E); rewrite forallb_forall in H; auto). clear H.
      apply (sum_in hsize) in Hi. destruct h as [t x b]. cbn [hsize] in Hi. cbn [dcunp_handler dunp_handler]. apply relS_cat. apply F2_app.
      { constructor; [|constructor]. apply relS_dfill. apply kS. now destruct star. }
      apply F2_app; [apply oS; [sp|]; intros e He; lst; now apply eS|]. apply F2_app.
      { destruct x as [x|]; cbn [opt]; [|constructor]. lst. }
      apply F2_app; [lst|]. apply bodyS; [lia|reflexivity|sp].
    Qed.
    Lemma casesS cs i q : list_sum (map csize cs) <= N -> asks (forallb (dclean_case printable) cs) -> S2 (mapi (fun j => ccase i ((5, j) :: q)) 0 cs) (mapi (fun j => dunp_case printable lineno i ((5, j) :: q)) 0 cs).
    Proof.
      intros Hs H. apply F2_mapi. intros j h Hi. assert (Hc : asks (dclean_case printable h)) by (intros E; specialize (H E); rewrite forallb_forall in H; auto). clear H.
      apply (sum_in csize) in Hi. destruct h as [p g b]. cbn [csize] in Hi. cbn [dcunp_case dunp_case]. apply relS_cat. apply F2_app.
      { lst. - destruct g, (is_or p); now apply relS_lit. - apply relS_of; [apply pat_rel|sp]. - destruct g, (is_or p); now apply relS_lit. }
      apply F2_app; [apply oS; [sp|]; intros e He; lst; now apply eS|]. apply F2_app; [lst|]. apply bodyS; [lia|reflexivity|sp].
    Qed.
    Lemma namesS l : asks (forallb fine l) -> S2 (map w l) (map w l).
    Proof. intros H. apply F2_map. intros x Hx. apply relS_name. intros E. specialize (H E). rewrite forallb_forall in H. auto. Qed.
    Lemma dots n : has_char esc (String.concat "" (repeat "." n)) = false.
    Proof. induction n as [|n IHn]; [reflexivity|]. cbn [repeat]. destruct n; [reflexivity|]. change (String.concat "" ("." :: repeat "." (S n))) with ("." ++ "" ++ String.concat "" (repeat "." (S n)))%string. rewrite !has_app, IHn. reflexivity. Qed.
    Ltac i_ := apply relS_inter; [reflexivity|].
    Lemma stmt_step s kw i q : ssize s <= N -> fine kw = true -> asks (dclean printable s) -> relS m (cstmt kw i q s) (dunp_stmt printable lineno kw i q s).
    Proof.
      intros Hs Hk H. destruct s as [e|l0|module names level|targets v|t a v simple|t o v|e| | | |l|t mm|l|l|e c|star body handlers orelse finalbody|x tps bases kws body decorators
        |is_async x tps args body decorators returns|is_async t iter body orelse|t body orelse|t body orelse|is_async items body|e cs|x tps v];
        cbn [ssize] in Hs; cbn [dcunp_stmt dunp_stmt].
      - apply relS_cat. constructor; [apply relS_dfill, relS_mcd; [right; left; reflexivity|reflexivity]|]. lst.
      - apply relS_cat. lst. i_. now apply aliasesS.
      - apply relS_cat. apply F2_app; [|i_; apply aliasesS; sp]. lst.
        + apply relS_lit, dots.
        + destruct module; [apply relS_name; sp|now apply relS_lit].
      - apply relS_cat. apply F2_app; [lst|]. apply F2_app; [|lst]. apply F2_map. intros t Ht. apply relS_cat. lst. apply eS. sp. rewrite forallb_forall in *. auto.
      - apply relS_cat. apply F2_app; [lst; destruct simple; now apply relS_lit|]. apply oS; [sp|]. intros e He. lst; now apply eS.
      - apply relS_cat. lst. destruct o; now apply relS_lit.
      - apply relS_cat. lst. apply oS; [sp|]. intros e' He. lst; now apply eS.
      - apply relS_dfill, kS. reflexivity.
      - apply relS_dfill, kS. reflexivity.
      - apply relS_dfill, kS. reflexivity.
      - apply relS_cat. lst. i_. now apply esS.
      - apply relS_cat. lst. apply oS; [sp|]. intros e' He. lst; now apply eS.
      - apply relS_cat. lst. i_. now apply namesS.
      - apply relS_cat. lst. i_. now apply namesS.
      - destruct e as [e|], c as [c|]; try reflexivity; try (apply relS_dfill, kS; reflexivity).
        + apply relS_cat. lst.
        + apply relS_cat. lst.
      - apply relS_cat. apply F2_app; [lst|]. apply F2_app; [apply bodyS; [lia|reflexivity|sp]|]. apply F2_app; [apply handlersS; [lia|sp]|].
        apply F2_app; apply relS_dpart; try (apply kS; reflexivity); apply bodyS; try lia; try reflexivity; sp.
      - apply relS_cat. apply F2_app; [lst|]. apply F2_app; [apply decos; sp|]. apply F2_app; [|apply F2_app; [|apply F2_app; [lst|apply bodyS; [lia|reflexivity|sp]]]].
        + lst. apply relS_dfill. apply relS_of; [|intros E; specialize (H E); cbn [dclean] in H; do 4 (apply andb_true_iff in H as [H _]); cbn [fine_r w]; rewrite fine_app, H; reflexivity].
          apply rel_w.
          * intros E. rewrite !(mc_same T color false) by exact E. unfold kwd. now rewrite mc_same.
          * intros E F. rewrite fine_app in F. apply andb_true_iff in F as [F1 F2]. apply paints_app.
            -- assert (K := krel "class "). rewrite E in K. cbn [rel w] in K. auto.
            -- assert (K := mrel x (t_defname T) ltac:(inlist)). rewrite E in K. cbn [rel w] in K. auto.
        + assert (X : S2 ([w "("] ++ inter ", " (map cexpr bases ++ map (dcunp_kw printable is_exception is_builtin is_macro D color false) kws) ++ [w ")"])
                         ([w "("] ++ inter ", " (map dunp bases ++ map (dunp_kw printable) kws) ++ [w ")"])).
          { apply F2_app; [lst|]. apply F2_app; [|lst]. i_. apply F2_app; [apply esS; sp|]. apply F2_map. intros k Hin. apply relS_of; [exact (DebugColorProofs.kws_rel' printable is_exception is_builtin is_macro D color HD false k)|].
            sp. rewrite forallb_forall in *. auto. }
          destruct bases, kws; [constructor|exact X|exact X|exact X].
      - apply relS_cat. apply F2_app; [lst|]. apply F2_app; [apply decos; sp|]. apply F2_app.
        + lst; [|apply relS_of; [exact (DebugColorProofs.args_rel' printable is_exception is_builtin is_macro D color HD false args)|sp]]. apply relS_dfill.
          assert (F : asks (fine x)) by sp. clear H. change (relS m (w (k_ (if is_async then "async def" else "def") ++ " " ++ mc false x (t_defname T) ++ "(")) (w ((if is_async then "async def" else "def") ++ " " ++ x ++ "("))).
          assert (F' : m = false -> fine ((if is_async then "async def" else "def") ++ " " ++ x ++ "(") = true) by (intros E; rewrite !fine_app, (F E); now destruct is_async).
          apply relS_of; [|exact F']. apply rel_w.
          * intros E. rewrite !(mc_same T color false) by exact E. unfold kwd. now rewrite mc_same.
          * intros E _. apply paints_app.
            -- assert (K := krel (if is_async then "async def" else "def")). rewrite E in K. cbn [rel w] in K. apply K. now destruct is_async.
            -- assert (K := rel_mc T color HT false " " x "(" (t_defname T) ltac:(inlist)). change (same color false) with m in K. rewrite E in K. cbn [rel w] in K. apply K. rewrite !fine_app, (F E). reflexivity.
        + apply F2_app; [apply oS; [sp|]; intros e He; lst; now apply eS|]. apply F2_app; [lst|]. apply bodyS; [lia|reflexivity|sp].
      - apply relS_cat. apply F2_app; [lst; apply relS_dfill, kS; now destruct is_async|]. apply F2_app; [apply bodyS; [lia|reflexivity|sp]|].
        apply relS_dpart; [apply kS; reflexivity|]. apply bodyS; [lia|reflexivity|sp].
      - apply relS_cat. apply F2_app; [lst; apply relS_dfill, kS; exact Hk|]. apply F2_app; [apply bodyS; [lia|reflexivity|sp]|].
        assert (X : S2 (dcpart D color lineno i q (k_ "else") (mapi (fun j => cstmt "if " (S i) ((1, j) :: q)) 0 orelse)) (dpart lineno i q "else" (mapi (fun j => dunp_stmt printable lineno "if " (S i) ((1, j) :: q)) 0 orelse))).
        { apply relS_dpart; [apply kS; reflexivity|]. apply bodyS; [lia|reflexivity|sp]. }
        assert (Y : S2 (mapi (fun j => cstmt "elif " i ((1, j) :: q)) 0 orelse) (mapi (fun j => dunp_stmt printable lineno "elif " i ((1, j) :: q)) 0 orelse)) by (apply bodyS; [lia|reflexivity|sp]).
        destruct orelse as [|[] [|]]; try exact X. exact Y.
      - apply relS_cat. apply F2_app; [lst|]. apply F2_app; [apply bodyS; [lia|reflexivity|sp]|].
        apply relS_dpart; [apply kS; reflexivity|]. apply bodyS; [lia|reflexivity|sp].
      - apply relS_cat. apply F2_app; [lst; apply relS_dfill, kS; now destruct is_async|]. apply F2_app; [|apply F2_app; [lst|apply bodyS; [lia|reflexivity|sp]]].
        i_. apply F2_map. intros p Hp. apply withS. sp. rewrite forallb_forall in *. auto.
      - apply relS_cat. apply F2_app; [lst|]. apply casesS; [lia|sp].
      - apply relS_cat. apply F2_app; [lst|]. apply F2_app; [|lst].
        destruct tps as [|tp tps]; [constructor|]. apply F2_app; [lst|]. apply F2_app; [|lst]. i_. apply F2_map. intros p Hp. apply tpS. sp. rewrite forallb_forall in *. auto.
    Qed.
  End Step.
  Lemma stmt_rel s kw i q : fine kw = true -> asks (dclean printable s) -> relS m (cstmt kw i q s) (dunp_stmt printable lineno kw i q s).
  Proof.
    assert (X : forall N s kw i q, ssize s < N -> fine kw = true -> asks (dclean printable s) -> relS m (cstmt kw i q s) (dunp_stmt printable lineno kw i q s)).
    { induction N as [|N IHN]; intros; [lia|]. apply (stmt_step N); auto. lia. }
    intros. apply (X (S (ssize s))); auto.
  Qed.
  Lemma top_rel t : asks (dclean_top printable t) -> relS m (dcunp_top printable is_exception is_builtin is_macro D color lineno t) (dunp_top printable lineno t).
  Proof.
    assert (X : forall k l, asks (forallb (dclean printable) l) -> S2 (mapi (fun j => cstmt "if " k [(0, j)]) 0 l) (mapi (fun j => dunp_stmt printable lineno "if " k [(0, j)]) 0 l)).
    { intros k l H. apply F2_mapi. intros j s Hi. apply stmt_rel; [reflexivity|]. intros E. specialize (H E). rewrite forallb_forall in H. auto. }
    destruct t; cbn [dcunp_top dunp_top dclean_top]; intros H.
    - apply relS_cat. constructor; [apply relS_dfill, relS_mcd; [right; left; reflexivity|reflexivity]|]. constructor; [now apply relS_lit|]. now apply X.
    - reflexivity.
    - apply relS_cat. now apply X.
    - apply stmt_rel; auto.
    - now apply eS.
  Qed.
End Stmts.
