(** The text of covered statements: how it begins and ends; what [unparse] strips off. *)
From Verif Require Import Base UnparseModel PyGrammar PyStmt UnparseSpec StmtSpec UnparseLex UnparseToks UnparseText UnparseEnds StmtToks StmtLayout StmtText.
Open Scope string_scope.
Open Scope list_scope.

Definition LE (r : res string) : Prop := forall s, r = Ok s -> ends s.
Lemma LE_w x : ends x -> LE (w x).
Proof. intros H s E. injection E as <-. exact H. Qed.
Lemma last_ok : forall l s, l <> [] -> cat l = Ok s -> exists x, last l (Err value_error) = Ok x.
Proof.
  induction l as [|[a|e] l IH]; intros s Hn H; [congruence| |discriminate]. cbn [cat] in H. destruct (cat l) as [t|] eqn:Ec; [|discriminate]. destruct l as [|b l]; [exists a; reflexivity|].
  apply (IH t); [discriminate|]. exact eq_refl || exact Ec.
Qed.
Lemma LE_last l : l <> [] -> LE (last l (Err value_error)) -> LE (cat l).
Proof. intros Hn H s E. destruct (last_ok l s Hn E) as [x L]. eapply cat_ends; eauto. Qed.
Lemma last_app_ne {A} (a b : list A) d : b <> [] -> last (a ++ b) d = last b d.
Proof.
  intros Hb. induction a as [|x a IH]; [reflexivity|]. cbn [app]. destruct (a ++ b) eqn:E; [destruct a; [cbn in E; congruence|discriminate]|]. cbn [last]. exact IH.
Qed.
Lemma last_Forall (l : list (res string)) : Forall LE l -> LE (last l (Err value_error)).
Proof. induction 1 as [|x l H F IH]; [intros s E; discriminate|]. destruct l; [exact H|exact IH]. Qed.
Lemma LE_blk a b : b <> [] -> Forall LE b -> LE (cat (a ++ b)).
Proof. intros Hb H. apply LE_last; [destruct a; [exact Hb|discriminate]|]. rewrite last_app_ne by exact Hb. now apply last_Forall. Qed.
Lemma LE_app a b : LE (cat a) -> Forall LE b -> LE (cat (a ++ b)).
Proof. intros Ha H. destruct b as [|x b]; [now rewrite app_nil_r|]. apply LE_blk; [discriminate|exact H]. Qed.
Lemma inter_last sep l d : l <> [] -> last (inter sep l) d = last l d /\ inter sep l <> [].
Proof.
  intros Hn. induction l as [|x l IH]; [congruence|]. destruct l as [|y l]; [split; [reflexivity|discriminate]|]. destruct (IH ltac:(discriminate)) as [E N].
  change (inter sep (x :: y :: l)) with (x :: w sep :: inter sep (y :: l)). split; [|discriminate].
  change (last (x :: y :: l) d) with (last (y :: l) d). rewrite <- E. cbn [last]. destruct (inter sep (y :: l)); [congruence|reflexivity].
Qed.
Lemma LE_inter a sep l : l <> [] -> Forall LE l -> LE (cat (a ++ inter sep l)).
Proof.
  intros Hn H. destruct (inter_last sep l (Err value_error) Hn) as [E N]. apply LE_last; [destruct a; [exact N|discriminate]|]. rewrite last_app_ne by exact N. rewrite E. now apply last_Forall.
Qed.
Lemma Forall_map_ok {A} (f : A -> res string) (g : A -> bool) l : (forall x, g x = true -> LE (f x)) -> forallb g l = true -> Forall LE (map f l).
Proof. intros H Hg. induction l as [|x l IH]; cbn [map]; constructor; cbn [forallb] in Hg; apply andb_true_iff in Hg as [? ?]; auto. Qed.
Lemma LE_fill i x : ends x -> LE (fill i x).
Proof. intros H. apply LE_w. now do 2 apply ends_app. Qed.
Lemma map_ne {A B} (f : A -> B) l : nonempty l = true -> map f l <> [].
Proof. now destruct l. Qed.

Section Ends.
  Variable read : string -> string.
  Variable printable : ascii -> bool.
  Notation ok := (ok read).
  Notation unp := (unp printable).
  Notation unp_stmt := (unp_stmt printable).
  Notation ok_stmt := (ok_stmt read).

  Lemma LE_unp e : ok e = true -> LE (unp e).
  Proof. intros Ho s E. eapply unp_ends; eauto. Qed.
  Lemma dotted_ends x : dotted_ok x = true -> ends x.
  Proof.
    unfold dotted_ok. destruct (split_dots_text x) as (l & -> & Ex & N). rewrite Ex. clear Ex x. induction l as [|x l IH]; [congruence|]. cbn [forallb]. intros H. apply andb_true_iff in H as [Hx H].
    destruct l as [|y l]; [now apply ident_ends|]. change (String.concat "." (x :: y :: l)) with (x ++ "." ++ String.concat "." (y :: l))%string. do 2 apply ends_app. apply IH; [discriminate|exact H].
  Qed.
  Lemma LE_alias x y : ends x -> match y with Some y => is_identifier y | None => true end = true -> LE (unp_alias (Alias x y)).
  Proof. intros Hx Hy. cbn [unp_alias]. apply LE_last; [discriminate|]. destruct y as [y|]; cbn [opt last]; apply LE_w; [apply ends_app; now apply ident_ends|exact Hx]. Qed.
  Lemma alias_LE d a : ok_alias d a = true -> LE (unp_alias a).
  Proof. destruct a as [x y]. cbn [ok_alias]. intros H. apply andb_true_iff in H as [H1 H2]. apply LE_alias; auto. destruct d; [now apply dotted_ends|now apply ident_ends]. Qed.
  Ltac lits := first [ exists "", ":"%char; split; reflexivity | (apply (all_ends is_idchar); [apply idchar_space|discriminate|reflexivity]) ].
  Lemma LE_part i k l : ends k -> Forall LE l -> Forall LE (part i k l).
  Proof. intros Hk H. destruct l as [|x l]; [constructor|]. unfold part. constructor; [now apply LE_fill|]. constructor; [apply LE_w; lits|exact H]. Qed.
  Lemma LE_opt a pre (o : option expr) : LE (cat a) -> ok_o read o = true -> LE (cat (a ++ opt (fun e => [w pre; unp e]) o)).
  Proof.
    intros Ha Ho. destruct o as [e|]; cbn [opt]; [|now rewrite app_nil_r]. apply LE_last; [destruct a; discriminate|]. rewrite last_app_ne by discriminate. cbn [last]. now apply LE_unp.
  Qed.

  Section Step.
    Variable N : nat.
    Hypothesis IH : forall s kw i, ssize s < N -> ok_stmt s = true -> LE (unp_stmt kw i s).
    Lemma LE_body i kw l : list_sum (map ssize l) < N -> forallb ok_stmt l = true -> Forall LE (map (unp_stmt kw i) l).
    Proof.
      intros Hs Ho. apply forallb_Forall_In in Ho. apply Forall_map. eapply Forall_impl; [|exact Ho]. cbn beta. intros s [Os Is]. apply (sum_in ssize) in Is. apply IH; [lia|exact Os].
    Qed.
    Lemma LE_step s kw i : ssize s <= N -> ok_stmt s = true -> LE (unp_stmt kw i s).
    Proof.
      intros Hs Ho. destruct s as [e|l0|module names level|targets v|t a v simple|t o v|e| | | |l|t m|l|l|e c|star body handlers orelse finalbody|x tps bases kws body decorators
        |is_async x tps args body decorators returns|is_async t iter body orelse|t body orelse|t body orelse|is_async items body|e cs|x tps v];
        cbn [StmtSpec.ok_stmt] in Ho; try discriminate; cbn [ssize] in Hs; cbn [UnparseModel.unp_stmt].
      - apply LE_last; [discriminate|]. cbn [last]. now apply LE_unp.
      - apply andb_true_iff in Ho as [Hn Ho]. apply (LE_inter [fill i "import "]); [now apply map_ne|]. eapply Forall_map_ok; [|exact Ho]. apply alias_LE.
      - apply andb_true_iff in Ho as [_ Ho]. apply LE_inter.
        + destruct names; [|discriminate]. cbn in Ho. discriminate.
        + apply orb_true_iff in Ho as [Ho|Ho].
          * destruct names as [|[x [y|]] [|]]; try discriminate. cbn in Ho. apply String.eqb_eq in Ho as ->. constructor; [|constructor]. apply LE_alias; [exists "", "*"%char; auto|reflexivity].
          * apply andb_true_iff in Ho as [_ Ho]. eapply Forall_map_ok; [|exact Ho]. apply alias_LE.
      - apply andb_true_iff in Ho as [_ Ho]. rewrite app_assoc. apply LE_blk; [discriminate|]. constructor; [now apply LE_unp|constructor].
      - apply andb_true_iff in Ho as [Ho Ov]. apply andb_true_iff in Ho as [Ho Oa]. apply LE_opt; [|exact Ov]. apply LE_last; [discriminate|]. cbn [last]. now apply LE_unp.
      - apply andb_true_iff in Ho as [_ Ho]. apply LE_last; [discriminate|]. cbn [last]. now apply LE_unp.
      - apply (LE_opt [fill i "return"]); [|exact Ho]. apply LE_last; [discriminate|]. apply LE_fill. lits.
      - apply LE_fill. lits.
      - apply LE_fill. lits.
      - apply LE_fill. lits.
      - apply andb_true_iff in Ho as [Hn Ho]. apply (LE_inter [fill i "del "]); [now apply map_ne|]. eapply Forall_map_ok; [|exact Ho]. cbn beta. intros t Ht. apply andb_true_iff in Ht as [Ht _]. now apply LE_unp.
      - apply andb_true_iff in Ho as [Ot Om]. apply (LE_opt [fill i "assert "; unp t] ", "); [|exact Om]. apply LE_last; [discriminate|]. cbn [last]. now apply LE_unp.
      - apply andb_true_iff in Ho as [Hn Ho]. apply (LE_inter [fill i "global "]); [now apply map_ne|]. eapply Forall_map_ok; [|exact Ho]. intros x Hx. apply LE_w. now apply ident_ends.
      - apply andb_true_iff in Ho as [Hn Ho]. apply (LE_inter [fill i "nonlocal "]); [now apply map_ne|]. eapply Forall_map_ok; [|exact Ho]. intros x Hx. apply LE_w. now apply ident_ends.
      - apply andb_true_iff in Ho as [Ho Oc]. apply andb_true_iff in Ho as [Hx Oe]. destruct e as [e|].
        + apply (LE_opt [fill i "raise"; w " "; unp e] " from "); [|exact Oc]. apply LE_last; [discriminate|]. cbn [last]. now apply LE_unp.
        + destruct c; [discriminate|]. apply LE_fill. lits.
      - (* Try *) apply andb_true_iff in Ho as [Ho _]. apply andb_true_iff in Ho as [Ho Of]. apply andb_true_iff in Ho as [Ho Oo]. apply andb_true_iff in Ho as [Ho Oh]. apply andb_true_iff in Ho as [Hn Ob].
        apply LE_blk; [destruct body; discriminate|]. apply Forall_app. split.
        + apply LE_body; [lia|exact Ob].
        + repeat (apply Forall_app; split).
          * apply Forall_map. apply forallb_Forall_In in Oh. eapply Forall_impl; [|exact Oh]. cbn beta. intros [ht hx hb] [Hh Ih]. apply (sum_in hsize) in Ih. cbn [hsize] in Ih.
            cbn [StmtSpec.ok_handler] in Hh. apply andb_true_iff in Hh as [Hh Ohb]. apply andb_true_iff in Hh as [_ Hnb]. cbn [unp_handler]. rewrite !app_assoc. apply LE_blk; [now apply map_ne|]. apply LE_body; [lia|exact Ohb].
          * apply LE_part; [lits|]. apply LE_body; [lia|exact Oo].
          * apply LE_part; [lits|]. apply LE_body; [lia|exact Of].
      - apply andb_true_iff in Ho as [Ho _]. apply andb_true_iff in Ho as [Ho Ob]. apply andb_true_iff in Ho as [_ Hn]. rewrite !app_assoc. apply LE_blk; [now apply map_ne|]. apply LE_body; [lia|exact Ob].
      - apply andb_true_iff in Ho as [Ho _]. apply andb_true_iff in Ho as [Ho _]. apply andb_true_iff in Ho as [Ho Ob]. apply andb_true_iff in Ho as [_ Hn]. rewrite !app_assoc. apply LE_blk; [now apply map_ne|]. apply LE_body; [lia|exact Ob].
      - apply andb_true_iff in Ho as [Ho Oo]. apply andb_true_iff in Ho as [Ho Ob]. apply andb_true_iff in Ho as [_ Hn]. apply LE_blk; [destruct body; discriminate|]. apply Forall_app. split.
        + apply LE_body; [lia|exact Ob].
        + apply LE_part; [lits|]. apply LE_body; [lia|exact Oo].
      - apply andb_true_iff in Ho as [Ho Oo]. apply andb_true_iff in Ho as [Ho Ob]. apply andb_true_iff in Ho as [_ Hn]. apply LE_blk; [destruct body; discriminate|]. apply Forall_app. split.
        + apply LE_body; [lia|exact Ob].
        + assert (X : Forall LE (part i "else" (map (unp_stmt "if " (S i)) orelse))) by (apply LE_part; [lits|]; apply LE_body; [lia|exact Oo]).
          assert (Y : Forall LE (map (unp_stmt "elif " i) orelse)) by (apply LE_body; [lia|exact Oo]).
          destruct orelse as [|[] [|]]; try exact X. exact Y.
      - apply andb_true_iff in Ho as [Ho Oo]. apply andb_true_iff in Ho as [Ho Ob]. apply andb_true_iff in Ho as [_ Hn]. apply LE_blk; [destruct body; discriminate|]. apply Forall_app. split.
        + apply LE_body; [lia|exact Ob].
        + apply LE_part; [lits|]. apply LE_body; [lia|exact Oo].
      - apply andb_true_iff in Ho as [Ho Ob]. apply andb_true_iff in Ho as [_ Hn]. rewrite !app_assoc. apply LE_blk; [now apply map_ne|]. apply LE_body; [lia|exact Ob].
      - (* Match *) apply andb_true_iff in Ho as [Ho Oc]. apply andb_true_iff in Ho as [_ Hn]. apply LE_blk; [now apply map_ne|].
        apply Forall_map. apply forallb_Forall_In in Oc. eapply Forall_impl; [|exact Oc]. cbn beta. intros [p g b] [Hc Ic]. apply (sum_in csize) in Ic. cbn [csize] in Ic.
        cbn [StmtSpec.ok_case] in Hc. apply andb_true_iff in Hc as [Hc Ob]. apply andb_true_iff in Hc as [_ Hb]. cbn [unp_case]. rewrite !app_assoc. apply LE_blk; [now apply map_ne|]. apply LE_body; [lia|exact Ob].
      - (* TypeAlias *) apply andb_true_iff in Ho as [_ Ov]. rewrite ?app_assoc. apply LE_last; [destruct tps; discriminate|]. rewrite last_app_ne by discriminate. cbn [last]. now apply LE_unp.
    Qed.
  End Step.
  Lemma LE_stmt s kw i : ok_stmt s = true -> LE (unp_stmt kw i s).
  Proof.
    assert (X : forall N s kw i, ssize s < N -> ok_stmt s = true -> LE (unp_stmt kw i s)).
    { induction N as [|N IHN]; intros; [lia|]. apply (LE_step N); auto. lia. }
    intros. apply (X (S (ssize s))); auto.
  Qed.

  (** ** The beginning *)
  Definition solid (s : string) : Prop := match s with String c _ => is_space c = false | "" => False end.
  (** After the line end, or two of them. *)
  Definition is_def (s : stmt) : bool := match s with SClass _ _ _ _ _ _ | SFunction _ _ _ _ _ _ _ => true | _ => false end.
  Definition BE (d : bool) (r : res string) : Prop := forall t, r = Ok t -> exists u, solid u /\ t = if d then (nl ++ nl ++ u)%string else (nl ++ u)%string.
  Lemma cat_cons r l t : cat (r :: l) = Ok t -> exists a b, r = Ok a /\ cat l = Ok b /\ t = (a ++ b)%string.
  Proof. cbn [cat]. destruct r as [a|]; [|discriminate]. destruct (cat l) as [b|]; [|discriminate]. intros H. injection H as <-. eauto. Qed.
  Lemma solid_app a b : solid a -> solid (a ++ b).
  Proof. destruct a; [intros []|exact id]. Qed.
  Lemma unp_solid e a : ok e = true -> unp e = Ok a -> solid a.
  Proof. intros Ho E. destruct (unparse_expr read printable e Ho) as (c & s & Hs & Hc & _). rewrite Hs in E. injection E as <-. exact Hc. Qed.
  Lemma BE_kw x l : solid x -> BE false (cat (fill 0 x :: l)).
  Proof. intros Hx t E. apply cat_cons in E as (a & b & Ha & _ & ->). injection Ha as <-. exists (x ++ b)%string. split; [now apply solid_app|]. reflexivity. Qed.
  Lemma BE_fill x : solid x -> BE false (fill 0 x).
  Proof. intros Hx t E. injection E as <-. exists x. split; [exact Hx|]. reflexivity. Qed.
  Lemma BE_unp e l : ok e = true -> BE false (cat (fill 0 "" :: unp e :: l)).
  Proof.
    intros Ho t E. apply cat_cons in E as (a & b & Ha & Hb & ->). injection Ha as <-. apply cat_cons in Hb as (c & d & Hc & _ & ->). exists (c ++ d)%string.
    split; [apply solid_app; eapply unp_solid; eauto|]. reflexivity.
  Qed.
  Lemma BE_stmt s kw : kw = "if " \/ kw = "elif " -> ok_stmt s = true -> BE (is_def s) (unp_stmt kw 0 s).
  Proof.
    intros Hk Ho. destruct s as [e|l0|module names level|targets v|t a v simple|t o v|e| | | |l|t m|l|l|e c|star body handlers orelse finalbody|x tps bases kws body decorators
        |is_async x tps args body decorators returns|is_async t iter body orelse|t body orelse|t body orelse|is_async items body|e cs|x tps v];
        cbn [StmtSpec.ok_stmt] in Ho; try discriminate; cbn [UnparseModel.unp_stmt]; try (apply BE_kw; reflexivity); try (apply BE_fill; reflexivity).
    - now apply BE_unp.
    - apply andb_true_iff in Ho as [Ho _]. apply andb_true_iff in Ho as [Hn Ho]. destruct targets as [|t ts]; [discriminate|]. cbn [forallb] in Ho.
      apply andb_true_iff in Ho as [Ho _]. apply andb_true_iff in Ho as [Ho _]. cbn [map app]. intros u E. apply cat_cons in E as (a & b & Ha & Hb & ->). injection Ha as <-.
      apply cat_cons in Hb as (c & d & Hc & _ & ->). apply cat_cons in Hc as (c1 & c2 & Hc & _ & ->). exists ((c1 ++ c2) ++ d)%string. split; [do 2 apply solid_app; eapply unp_solid; eauto|]. reflexivity.
    - apply andb_true_iff in Ho as [Ho _]. apply andb_true_iff in Ho as [Ho _]. apply andb_true_iff in Ho as [Ho _]. intros u E. cbn [app] in E. apply cat_cons in E as (a0 & b & Ha & Hb & ->). injection Ha as <-.
      apply cat_cons in Hb as (c & d & Hc & Hd & ->). injection Hc as <-. apply cat_cons in Hd as (e & f & He & _ & ->). exists ((if simple then "" else "(") ++ e ++ f)%string. split; [|reflexivity].
      destruct simple; [|reflexivity]. apply (solid_app e). eapply unp_solid; eauto.
    - apply andb_true_iff in Ho as [Ho _]. apply andb_true_iff in Ho as [Ho _]. now apply BE_unp.
    - destruct e, c; try discriminate; try (apply BE_kw; reflexivity); apply BE_fill; reflexivity.
    - cbn [app]. intros t E. apply cat_cons in E as (a & b & Ha & Hb & ->). injection Ha as <-.
      assert (exists u, solid u /\ b = (nl ++ u)%string) as (u & Hu & ->); [|exists u; auto].
      destruct decorators as [|d ds]; cbn [unp_decos map app] in Hb.
      + apply cat_cons in Hb as (c & d & Hc & _ & ->). injection Hc as <-. exists (("class " ++ x) ++ d)%string. split; reflexivity.
      + apply cat_cons in Hb as (c & e & Hc & _ & ->). apply cat_cons in Hc as (c1 & c2 & Hc & _ & ->). injection Hc as <-. exists (("@" ++ c2) ++ e)%string. split; reflexivity.
    - cbn [app]. intros t E. apply cat_cons in E as (a & b & Ha & Hb & ->). injection Ha as <-.
      assert (exists u, solid u /\ b = (nl ++ u)%string) as (u & Hu & ->); [|exists u; auto].
      destruct decorators as [|d ds]; cbn [unp_decos map app] in Hb.
      + apply cat_cons in Hb as (c & d & Hc & _ & ->). injection Hc as <-. exists (((if is_async then "async def" else "def") ++ " " ++ x ++ "(") ++ d)%string. destruct is_async; split; reflexivity.
      + apply cat_cons in Hb as (c & e & Hc & _ & ->). apply cat_cons in Hc as (c1 & c2 & Hc & _ & ->). injection Hc as <-. exists (("@" ++ c2) ++ e)%string. split; reflexivity.
    - destruct is_async; apply BE_kw; reflexivity.
    - destruct Hk as [-> | ->]; apply BE_kw; reflexivity.
    - destruct is_async; apply BE_kw; reflexivity.
    - cbn [app]. intros t E. apply cat_cons in E as (a & b & Ha & Hb & ->). injection Ha as <-. apply cat_cons in Hb as (c & d & Hc & _ & ->). injection Hc as <-.
      exists ("type " ++ d)%string. split; [reflexivity|reflexivity].
  Qed.
  Lemma lstrip_solid u : solid u -> lstrip u = u.
  Proof. destruct u as [|c u]; [intros []|]. cbn [solid lstrip]. now intros ->. Qed.
  (** What [unparse] makes of a module with a statement: without the line ends before it, and the one after it. *)
  Lemma unparse_module_ends l : nonempty l = true -> forallb ok_stmt l = true ->
    exists u, unparse printable (TModule l) = Ok u /\ solid u /\ ends u /\
      cat (map (unp_stmt "if " 0) l) = Ok (if is_def (hd SPass l) then (nl ++ nl ++ u)%string else (nl ++ u)%string).
  Proof.
    intros Hn Ho. destruct (module_text read printable l Ho) as (t & Ht & _).
    assert (B : exists u, solid u /\ t = if is_def (hd SPass l) then (nl ++ nl ++ u)%string else (nl ++ u)%string).
    { destruct l as [|s l]; [discriminate|]. cbn [forallb] in Ho. apply andb_true_iff in Ho as [Os _]. cbn [map] in Ht. apply cat_cons in Ht as (a & b & Ha & _ & ->).
      destruct (BE_stmt s "if " (or_introl eq_refl) Os a Ha) as (u & Hu & Ea). exists (u ++ b)%string. split; [now apply solid_app|]. rewrite Ea. cbn [hd]. destruct (is_def s); reflexivity. }
    assert (L : ends t).
    { apply (LE_last (map (unp_stmt "if " 0) l)); [now apply map_ne| |exact Ht]. apply last_Forall. eapply Forall_map_ok; [|exact Ho]. intros s Os. now apply LE_stmt. }
    destruct B as (u & Hu & B). exists u.
    assert (Lu : ends u).
    { assert (E2 : forall v, solid v -> ends (nl ++ v) -> ends v).
      { intros v Hv (a & c & Ea & Hc). destruct a as [|d a]; [destruct v; [destruct Hv|discriminate Ea]|]. cbn in Ea. injection Ea as _ Ea. exists a, c. auto. }
      rewrite B in L. destruct (is_def (hd SPass l)); [|now apply E2]. apply E2; [exact Hu|]. destruct L as (a & c & Ea & Hc). destruct a as [|d a]; [discriminate Ea|]. cbn in Ea. injection Ea as _ Ea. exists a, c. auto. }
    split; [|split; [exact Hu|split; [exact Lu|rewrite Ht; now rewrite <- B]]].
    unfold unparse. cbn [unp_top]. cbn [cat]. rewrite Ht. cbn [w cat]. rewrite sapp_nil. f_equal. unfold strip.
    assert (X : lstrip (t ++ nl) = (u ++ nl)%string).
    { assert (Y := lstrip_solid (u ++ nl) (solid_app u nl Hu)). rewrite B. destruct (is_def (hd SPass l)); exact Y. }
    rewrite X. apply rstrip_ends; [exact Lu|reflexivity].
  Qed.
  Lemma unparse_module l : nonempty l = true -> forallb ok_stmt l = true ->
    exists u, unparse printable (TModule l) = Ok u /\ (cat (map (unp_stmt "if " 0) l) = Ok (nl ++ u)%string \/ cat (map (unp_stmt "if " 0) l) = Ok (nl ++ nl ++ u)%string).
  Proof. intros Hn Ho. destruct (unparse_module_ends l Hn Ho) as (u & H1 & _ & _ & H2). exists u. split; [exact H1|]. destruct (is_def (hd SPass l)); auto. Qed.
  (** An empty first line makes no difference. *)
  Lemma blank_first u ts lts : lex read (nl ++ nl ++ u) = Some ts -> layout [0] ts = Some lts -> exists ts', lex read (nl ++ u) = Some ts' /\ layout [0] ts' = Some lts.
  Proof.
    intros H Hl. change (lex read (nl ++ nl ++ u)) with (match lex read (nl ++ u) with Some l => Some (TNl 0 :: l) | None => None end) in H.
    destruct (lex read (nl ++ u)) as [ts'|] eqn:E; [|discriminate]. injection H as <-. exists ts'. split; [reflexivity|].
    assert (X : line_ends ts' = true).
    { rewrite lex_nl in E.
      destruct (span (Ascii.eqb " ") u) as [b r1]. destruct (lexn read (String.length u) r1); [|discriminate]. injection E as <-. reflexivity. }
    cbn [layout] in Hl. rewrite X in Hl. exact Hl.
  Qed.
End Ends.
