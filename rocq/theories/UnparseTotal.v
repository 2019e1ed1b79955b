(** For which trees the unparser raises nothing: every class of node, any nesting. *)
From Coq Require Import ZArith.
From Verif Require Import Base UnparseModel UnparseToks.
Open Scope string_scope.
Open Scope list_scope.

(** What the parser makes of a value, but for double-starred items of dict displays: sets are not empty, conversions of f-strings are -1, s, r or a, their
    parts are texts and fields, and a format spec is an f-string. *)
Definition conversion_ok (z : Z) : bool := Z.eqb z 115 || Z.eqb z 114 || Z.eqb z 97 || Z.eqb z (-1).
Fixpoint writable (e : expr) : bool :=
  let o x := match x with Some e => writable e | None => true end in
  match e with
  | EName _ | EConst _ => true
  | EBinOp l _ r => writable l && writable r
  | EUnary _ e | EAttr e _ | EStarred e | EAwait e | EYieldFrom e => writable e
  | EBool _ l | ETuple l | EList l => forallb writable l
  | ECompare l r => writable l && forallb (fun p => match p with (_, e) => writable e end) r
  | EIfExp b t e => writable b && writable t && writable e
  | ELambda a b => writable_args a && writable b
  | ENamed t v => writable t && writable v
  | ESet l => match l with [] => false | _ => forallb writable l end
  | EDict l => forallb (fun p => match p with (k, v) => match k with Some k => writable k | None => false end && writable v end) l
  | EListComp e g | ESetComp e g | EGen e g => writable e && forallb writable_comp g
  | EDictComp k v g => writable k && writable v && forallb writable_comp g
  | ESub e s => writable e && writable s
  | ECall f a k => writable f && forallb writable a && forallb writable_kw k
  | EYield e => o e
  | ESlice a b c => o a && o b && o c
  | EJoined l => forallb (fun p => match p with EConst (CStr _ _) => true | EFormatted _ _ _ => writable p | _ => false end) l
  | EFormatted v c spec => writable v && conversion_ok c && match spec with None => true | Some (EJoined l) => o spec | _ => false end
  end
with writable_args (a : arguments) : bool :=
  match a with
  | Args pos args v kwo kwd kwa ds =>
      forallb writable_arg pos && forallb writable_arg args && match v with Some a => writable_arg a | None => true end && forallb writable_arg kwo &&
      forallb (fun d => match d with Some d => writable d | None => true end) kwd && match kwa with Some a => writable_arg a | None => true end &&
      forallb writable ds
  end
with writable_arg (a : arg) : bool := match a with Arg _ o => match o with Some e => writable e | None => true end end
with writable_comp (g : comp) : bool := match g with Comp t i ifs _ => writable t && writable i && forallb writable ifs end
with writable_kw (k : keyword) : bool := match k with Kw _ e => writable e end.

Definition writable_o (o : option expr) : bool := match o with Some e => writable e | None => true end.
(** [case p as x] has a pattern and a name, [case x] a name, [case _] nothing. *)
Fixpoint writable_pattern (p : pattern) : bool :=
  match p with
  | PValue e => writable e
  | PSingleton _ | PStar _ => true
  | PSequence l | POr l => forallb writable_pattern l
  | PMapping l _ => forallb (fun kp => match kp with (k, p) => writable k && writable_pattern p end) l
  | PClass c l k => writable c && forallb writable_pattern l && forallb (fun kp => match kp with (_, p) => writable_pattern p end) k
  | PAs (Some p) n => writable_pattern p && match n with Some _ => true | None => false end
  | PAs None _ => true
  end.
Definition writable_tp (t : type_param) : bool := match t with TypeVar _ b => writable_o b | _ => true end.
(** [raise from x] is no statement. *)
Fixpoint writable_stmt (s : stmt) : bool :=
  match s with
  | SExpr e => writable e
  | SImport _ | SImportFrom _ _ _ | SPass | SBreak | SContinue | SGlobal _ | SNonlocal _ => true
  | SAssign ts v => forallb writable ts && writable v
  | SAnnAssign t a v _ => writable t && writable a && writable_o v
  | SAugAssign t _ v => writable t && writable v
  | SReturn e => writable_o e
  | SDelete l => forallb writable l
  | SAssert t m => writable t && writable_o m
  | SRaise e c => match e, c with None, Some _ => false | _, _ => writable_o e && writable_o c end
  | STry _ b hs o f =>
      forallb writable_stmt b && forallb (fun h => match h with Handler t _ b => writable_o t && forallb writable_stmt b end) hs && forallb writable_stmt o && forallb writable_stmt f
  | SClass _ _ bases kws b ds => forallb writable bases && forallb writable_kw kws && forallb writable_stmt b && forallb writable ds
  | SFunction _ _ _ a b ds r => writable_args a && forallb writable_stmt b && forallb writable ds && writable_o r
  | SFor _ t it b o => writable t && writable it && forallb writable_stmt b && forallb writable_stmt o
  | SIf t b o | SWhile t b o => writable t && forallb writable_stmt b && forallb writable_stmt o
  | SWith _ l b => forallb (fun p => match p with (e, v) => writable e && writable_o v end) l && forallb writable_stmt b
  | SMatch e cs =>
      writable e && forallb (fun c => match c with Case p g b => writable_pattern p && writable_o g && forallb writable_stmt b end) cs
  | STypeAlias x tps v => writable x && forallb writable_tp tps && writable v
  end.

(** ** Proof *)
Definition isok {A} (r : res A) : bool := match r with Ok _ => true | Err _ => false end.
Lemma isok_cat l : isok (cat l) = forallb isok l.
Proof. induction l as [|[s|e] l IH]; [reflexivity| |reflexivity]. cbn [cat forallb isok andb]. rewrite <- IH. now destruct (cat l). Qed.
Lemma isok_w s : isok (w s) = true. Proof. reflexivity. Qed.
Lemma isok_fill i s : isok (fill i s) = true. Proof. reflexivity. Qed.
Lemma isok_inter s l : forallb isok (inter s l) = forallb isok l.
Proof. induction l as [|x [|y l] IH]; [reflexivity..|]. change (inter s (x :: y :: l)) with (x :: w s :: inter s (y :: l)). cbn [forallb isok w andb]. now rewrite IH. Qed.
Lemma isok_tuple l : forallb isok (tuple_items l) = forallb isok l.
Proof. destruct l as [|x [|y l]]; [reflexivity| |apply isok_inter]. cbn. now rewrite !andb_true_r. Qed.
Lemma forallb_map {A B} (f : B -> bool) (g : A -> B) l : forallb f (map g l) = forallb (fun x => f (g x)) l.
Proof. induction l; cbn; congruence. Qed.
Lemma forallb_In {A} (f g : A -> bool) l : forallb f l = true -> (forall x, In x l -> f x = true -> g x = true) -> forallb g l = true.
Proof. rewrite !forallb_forall. auto. Qed.
Lemma zip_In {A B} (l : list A) (m : list B) x y : In (x, y) (zip l m) -> In x l /\ In y m.
Proof. revert m. induction l as [|a l IH]; intros [|b m] H; cbn in H; try contradiction. destruct H as [E|H]; [injection E as -> ->; cbn; auto|]. apply IH in H. cbn. tauto. Qed.
Lemma firstn_In {A} n (l : list A) x : In x (firstn n l) -> In x l.
Proof. revert l. induction n; intros [|a l]; cbn; tauto || (intros [H|H]; auto). Qed.
Lemma skipn_In {A} n (l : list A) x : In x (skipn n l) -> In x l.
Proof. revert l. induction n; intros [|a l]; cbn; auto. Qed.

Lemma isok_args pos args v kwo kwd kwa ds : forallb isok pos = true -> forallb isok args = true -> match v with Some a => isok a | None => true end = true ->
  forallb isok kwo = true -> forallb (fun d => match d with Some d => isok d | None => true end) kwd = true ->
  match kwa with Some a => isok a | None => true end = true -> forallb isok ds = true -> isok (args_text pos args v kwo kwd kwa ds) = true.
Proof.
  intros Hp Ha Hv Hk Hkd Hw Hd. unfold args_text. rewrite isok_cat, isok_inter.
  set (D := repeat None _ ++ map Some ds).
  assert (HD : forallb (fun d => match d with Some d => isok d | None => true end) D = true).
  { apply forallb_forall. intros x Hx. apply in_app_or in Hx as [Hx|Hx]; [apply repeat_spec in Hx; now subst|]. apply in_map_iff in Hx as (y & <- & Hy).
    rewrite forallb_forall in Hd. auto. }
  assert (Z : forall l m, forallb isok l = true -> forallb (fun d => match d with Some d => isok d | None => true end) m = true ->
    forallb isok (map with_default (zip l m)) = true).
  { intros l m Hl Hm. rewrite forallb_forall in *. intros r Hr. apply in_map_iff in Hr as ([x y] & <- & Hr). apply zip_In in Hr as [H1 H2].
    apply Hl in H1. apply Hm in H2. destruct y as [y|]; [|exact H1]. cbn [with_default]. rewrite isok_cat. cbn [forallb]. now rewrite H1, H2. }
  rewrite !forallb_app. rewrite (Z pos), (Z args), (Z kwo); auto.
  - cbn [andb]. destruct (map with_default (zip pos _)); cbn [forallb isok andb w];
      (destruct v as [v|]; [|destruct kwo]); cbn [forallb andb]; rewrite ?isok_cat; cbn [forallb isok w andb]; rewrite ?Hv; cbn [andb];
      (destruct kwa as [k|]; cbn [forallb andb]; [rewrite isok_cat; cbn [forallb isok w andb]; now rewrite Hw|reflexivity]).
  - rewrite forallb_forall in *. intros x Hx. apply HD. eapply skipn_In, Hx.
  - rewrite forallb_forall in *. intros x Hx. apply HD. eapply firstn_In, Hx.
Qed.
Lemma isok_formatted v c spec : isok v = true -> conversion_ok c = true ->
  match spec with Some (Some l) => forallb isok l | Some None => false | None => true end = true -> isok (formatted v c spec) = true.
Proof.
  intros Hv Hc Hs. unfold formatted. rewrite isok_cat. cbn [forallb isok w]. rewrite Hv. cbn [andb].
  assert (X : isok (conversion_text c) = true).
  { unfold conversion_text. unfold conversion_ok in Hc. destruct (Z.eqb c 115), (Z.eqb c 114), (Z.eqb c 97), (Z.eqb c (-1)); try reflexivity; discriminate. }
  rewrite X. cbn [andb]. destruct spec as [[l|]|]; [|discriminate|reflexivity]. rewrite isok_cat. cbn [forallb isok w andb]. now rewrite Hs.
Qed.

Section Total.
  Variable printable : ascii -> bool.
  Notation unp := (unp printable).
  Section Step.
    Variable N : nat.
    Hypothesis IH : forall e, size e < N -> writable e = true -> isok (unp e) = true.
    Lemma w_list l : list_sum (map size l) < N -> forallb writable l = true -> forallb isok (map unp l) = true.
    Proof. intros Hs Hw. rewrite forallb_map. apply (forallb_In writable); auto. intros x Hx Wx. apply IH; auto. apply (sum_in size) in Hx. lia. Qed.
    Lemma w_arg a : size_arg a < N -> writable_arg a = true -> isok (unp_arg printable a) = true.
    Proof. destruct a as [x [e|]]; cbn [size_arg writable_arg unp_arg]; intros; rewrite isok_cat; cbn [app forallb isok w andb]; [rewrite IH|]; auto. Qed.
    Lemma w_arglist l : list_sum (map size_arg l) < N -> forallb writable_arg l = true -> forallb isok (map (unp_arg printable) l) = true.
    Proof. intros Hs Hw. rewrite forallb_map. apply (forallb_In writable_arg); auto. intros x Hx Wx. apply w_arg; auto. apply (sum_in size_arg) in Hx. lia. Qed.
    Lemma w_args a : size_args a < N -> writable_args a = true -> isok (unp_args printable a) = true.
    Proof.
      destruct a as [pos args v kwo kwd kwa ds]. cbn [size_args writable_args unp_args]. intros Hs Hw. repeat (apply andb_true_iff in Hw as [Hw ?]).
      apply isok_args; try (apply w_arglist; auto; lia).
      - destruct v; auto. apply w_arg; auto. lia.
      - rewrite forallb_map. apply (forallb_In (fun d => match d with Some d => writable d | None => true end)); auto. intros [x|] Hx Wx; auto. apply IH; auto.
        apply (sum_in (fun d => match d with Some e => size e | None => 0 end)) in Hx. lia.
      - destruct kwa; auto. apply w_arg; auto. lia.
      - apply w_list; auto. lia.
    Qed.
    Lemma w_comp g : size_comp g < N -> writable_comp g = true -> isok (unp_comp printable g) = true.
    Proof.
      destruct g as [t i ifs a]. cbn [size_comp writable_comp unp_comp]. intros Hs Hw. repeat (apply andb_true_iff in Hw as [Hw ?]).
      rewrite isok_cat, forallb_app. cbn [forallb isok w andb]. rewrite !IH by (auto; lia). cbn [andb]. rewrite forallb_map.
      apply (forallb_In writable); auto. intros x Hx Wx. rewrite isok_cat. cbn [forallb isok w andb]. rewrite IH; auto. apply (sum_in size) in Hx. lia.
    Qed.
    Lemma w_comps g : list_sum (map size_comp g) < N -> forallb writable_comp g = true -> forallb isok (map (unp_comp printable) g) = true.
    Proof. intros Hs Hw. rewrite forallb_map. apply (forallb_In writable_comp); auto. intros x Hx Wx. apply w_comp; auto. apply (sum_in size_comp) in Hx. lia. Qed.
    Lemma w_kw k : size_kw k < N -> writable_kw k = true -> isok (unp_kw printable k) = true.
    Proof. destruct k. cbn [size_kw writable_kw unp_kw]. intros. rewrite isok_cat. cbn [forallb isok w andb]. now rewrite IH. Qed.
    Lemma w_kws k : list_sum (map size_kw k) < N -> forallb writable_kw k = true -> forallb isok (map (unp_kw printable) k) = true.
    Proof. intros Hs Hw. rewrite forallb_map. apply (forallb_In writable_kw); auto. intros x Hx Wx. apply w_kw; auto. apply (sum_in size_kw) in Hx. lia. Qed.
    Lemma w_opt o : match o with Some e => size e | None => 0 end < N -> match o with Some e => writable e | None => true end = true ->
      match o with Some e => isok (unp e) | None => true end = true.
    Proof. destruct o; auto. Qed.
  End Step.

  Definition part_ok (p : expr) : bool := match p with EConst (CStr _ _) => true | EFormatted _ _ _ => writable p | _ => false end.
  Lemma parts_ok l : forallb part_ok l = true -> forallb (fun p => match p with EConst (CStr _ _) => true | EFormatted _ _ _ => writable p | _ => false end) l = true.
  Proof. auto. Qed.
  (** Expressions and parts of f-strings, together. *)
  Lemma total : forall N e, size e < N -> (writable e = true -> isok (unp e) = true) /\ (part_ok e = true -> isok (fstr_part printable e) = true).
  Proof.
    induction N as [|N IHN]; intros e He; [lia|].
    assert (IH : forall e, size e < N -> writable e = true -> isok (unp e) = true) by (intros; now apply IHN).
    assert (IP : forall l, list_sum (map size l) < N -> forallb part_ok l = true -> forallb isok (map (fstr_part printable) l) = true).
    { intros l Hs Hw. rewrite forallb_map. apply (forallb_In part_ok); auto. intros x Hx Wx. apply IHN; auto. apply (sum_in size) in Hx. lia. }
    assert (FV : forall v c spec, size (EFormatted v c spec) < S N -> writable (EFormatted v c spec) = true ->
      isok (formatted (unp v) c (match spec with Some (EJoined l) => Some (Some (map (fstr_part printable) l)) | Some _ => Some None | None => None end)) = true).
    { intros v c spec Hs Hw. cbn [size] in Hs. cbn [writable] in Hw. apply andb_true_iff in Hw as [Hw Hx]. apply andb_true_iff in Hw as [Hv Hc].
      apply isok_formatted; auto. { apply IH; auto. lia. }
      destruct spec as [[]|]; auto. cbn [size] in Hs. apply IP; auto. lia. }
    split.
    - intros Hw. destruct e; cbn [size] in He; cbn [UnparseModel.unp]; cbn [writable] in Hw; try reflexivity;
        repeat match goal with H : _ && _ = true |- _ => apply andb_true_iff in H as [? ?] end;
        rewrite ?isok_cat, ?forallb_app, ?isok_inter, ?isok_tuple; cbn [forallb isok w app andb]; rewrite ?forallb_app, ?isok_inter, ?isok_tuple, ?andb_true_r;
        repeat first [ rewrite IH by (auto; lia) | rewrite (w_list N) by (auto; lia) | rewrite (w_comps N) by (auto; lia) | rewrite (w_kws N) by (auto; lia)
          | rewrite (w_args N) by (auto; lia) ]; cbn [andb forallb isok w]; try reflexivity.
      + (* Compare *) rewrite forallb_map. eapply forallb_In; [eassumption|]. intros [o x] Hx Wx. rewrite isok_cat. cbn [forallb isok w andb]. rewrite IH; auto.
        apply (sum_in (fun p => match p with (_, e) => size e end)) in Hx. lia.
      + (* Set *) destruct l; [discriminate Hw|]. rewrite isok_cat. change (w "{" :: ?a ++ ?b) with ([w "{"] ++ a ++ b). rewrite !forallb_app, isok_inter. cbn [forallb isok w andb].
        rewrite andb_true_r. apply (w_list N); auto. lia.
      + (* Dict *) rewrite forallb_map. eapply forallb_In; [eassumption|]. intros [[k|] v] Hx Wx; [|discriminate Wx]. apply andb_true_iff in Wx as [W1 W2].
        rewrite isok_cat. cbn [forallb isok w andb].
        apply (sum_in (fun p => match p with (k, v) => match k with Some e => size e | None => 0 end + size v end)) in Hx. rewrite !IH; auto; lia.
      + (* Sub *) assert (X : isok (unp e2) = true) by (apply IH; auto; lia). destruct e2; cbn [forallb]; try (now rewrite X). rewrite isok_tuple. cbn [writable size] in *.
        apply (w_list N); auto. lia.
      + (* Yield *) destruct e; auto. cbn [forallb isok w andb]. rewrite IH; auto. lia.
      + (* Slice *) destruct lo, hi, st; cbn [forallb isok w andb]; rewrite ?IH; auto; lia.
      + (* Joined *) apply IP; auto. lia.
      + (* Formatted *) apply FV; [cbn [size]; lia|]. cbn [writable]. repeat (apply andb_true_iff; split); auto.
    - intros Hp. destruct e as [| [] | | | | | | | | | | | | | | | | | | | | | | | | |]; try discriminate Hp; [reflexivity|]. cbn [fstr_part]. apply FV; auto.
  Qed.
  Lemma w_expr e : writable e = true -> isok (unp e) = true.
  Proof. apply (total (S (size e))). lia. Qed.
  Lemma w_exprs l : forallb writable l = true -> forallb isok (map unp l) = true.
  Proof. intros H. rewrite forallb_map. apply (forallb_In writable); auto. intros. now apply w_expr. Qed.
  Lemma w_arguments a : writable_args a = true -> isok (unp_args printable a) = true.
  Proof. apply (w_args (S (size_args a))); auto. intros. now apply w_expr. Qed.
  Lemma w_keywords k : forallb writable_kw k = true -> forallb isok (map (unp_kw printable) k) = true.
  Proof. apply (w_kws (S (list_sum (map size_kw k)))); auto. intros. now apply w_expr. Qed.
  Lemma w_optional (o : option expr) (f : expr -> list (res string)) : (forall e, forallb isok (f e) = isok (unp e)) -> writable_o o = true -> forallb isok (opt f o) = true.
  Proof. intros Hf. destruct o as [e|]; auto. cbn [opt writable_o]. rewrite Hf. apply w_expr. Qed.

  Fixpoint psize (p : pattern) : nat :=
    S match p with
      | PSequence l | POr l => list_sum (map psize l)
      | PMapping l _ => list_sum (map (fun kp => match kp with (_, p) => psize p end) l)
      | PClass _ l k => list_sum (map psize l) + list_sum (map (fun kp => match kp with (_, p) => psize p end) k)
      | PAs (Some p) _ => psize p
      | _ => 0
      end.
  Lemma w_pattern p : writable_pattern p = true -> isok (unp_pattern printable p) = true.
  Proof.
    assert (X : forall N p, psize p < N -> writable_pattern p = true -> isok (unp_pattern printable p) = true); [|apply (X (S (psize p))); lia].
    clear p. induction N as [|N IH]; intros p Hs Hw; [lia|].
    assert (IL : forall l, list_sum (map psize l) < N -> forallb writable_pattern l = true -> forallb isok (map (unp_pattern printable) l) = true).
    { intros l Hl Wl. rewrite forallb_map. apply (forallb_In writable_pattern); auto. intros x Hx Wx. apply IH; auto. apply (sum_in psize) in Hx. lia. }
    destruct p; cbn [psize] in Hs; cbn [writable_pattern] in Hw; cbn [unp_pattern]; try reflexivity.
    - now apply w_expr.
    - rewrite isok_cat, !forallb_app, isok_inter. cbn [forallb isok w andb]. rewrite IL; auto. lia.
    - rewrite isok_cat, !forallb_app, isok_inter. cbn [forallb isok w andb]. apply andb_true_iff. split; [|destruct rest; reflexivity].
      rewrite forallb_map. eapply forallb_In; [exact Hw|]. intros [k p] Hx Wx. apply andb_true_iff in Wx as [W1 W2]. rewrite isok_cat. cbn [forallb isok w andb].
      apply (sum_in (fun kp => match kp with (_, p) => psize p end)) in Hx. rewrite w_expr, IH; auto. lia.
    - apply andb_true_iff in Hw as [Hw Hk]. apply andb_true_iff in Hw as [Hc Hl]. rewrite isok_cat, !forallb_app, !isok_inter. cbn [forallb isok w andb].
      rewrite w_expr, IL by (auto; lia). cbn [andb]. apply andb_true_iff. split; [destruct l, kwd; reflexivity|]. rewrite andb_true_r.
      rewrite forallb_map. eapply forallb_In; [exact Hk|]. intros [k p] Hx Wx. rewrite isok_cat. cbn [forallb isok w andb].
      apply (sum_in (fun kp => match kp with (_, p) => psize p end)) in Hx. rewrite IH; auto. lia.
    - destruct p as [p|]; [|destruct name; reflexivity]. apply andb_true_iff in Hw as [Hw Hn]. destruct name; [|discriminate Hn]. rewrite isok_cat. cbn [forallb isok w andb].
      rewrite IH; auto. lia.
    - rewrite isok_cat, isok_inter. apply IL; auto. lia.
  Qed.

  Fixpoint tsize (s : stmt) : nat :=
    S match s with
      | STry _ b hs o f => list_sum (map tsize b) + list_sum (map (fun h => match h with Handler _ _ b => list_sum (map tsize b) end) hs) + list_sum (map tsize o) + list_sum (map tsize f)
      | SClass _ _ _ _ b _ | SFunction _ _ _ _ b _ _ | SWith _ _ b => list_sum (map tsize b)
      | SFor _ _ _ b o | SIf _ b o | SWhile _ b o => list_sum (map tsize b) + list_sum (map tsize o)
      | SMatch _ cs => list_sum (map (fun c => match c with Case _ _ b => list_sum (map tsize b) end) cs)
      | _ => 0
      end.
  Lemma isok_part i k l : forallb isok l = true -> forallb isok (part i k l) = true.
  Proof. destruct l; auto. Qed.
  Lemma isok_aliases l : forallb isok (map unp_alias l) = true.
  Proof. rewrite forallb_map. apply forallb_forall. intros [x [y|]] _; reflexivity. Qed.
  Lemma isok_ws l : forallb isok (map w l) = true.
  Proof. rewrite forallb_map. apply forallb_forall. reflexivity. Qed.
  Lemma isok_decos i l : forallb writable l = true -> forallb isok (unp_decos printable i l) = true.
  Proof. intros H. unfold unp_decos. rewrite forallb_map. apply (forallb_In writable); auto. intros x _ Wx. rewrite isok_cat. cbn [forallb isok fill w andb]. now rewrite w_expr. Qed.
  Ltac ok1 := rewrite ?isok_cat, ?forallb_app, ?isok_inter; cbn [forallb isok fill w app andb]; rewrite ?forallb_app, ?isok_inter, ?isok_aliases, ?isok_ws; cbn [forallb isok fill w app andb].
  Lemma w_stmt s : forall kw i, writable_stmt s = true -> isok (unp_stmt printable kw i s) = true.
  Proof.
    assert (X : forall N s kw i, tsize s < N -> writable_stmt s = true -> isok (unp_stmt printable kw i s) = true); [|intros; apply (X (S (tsize s))); auto; lia].
    clear s. induction N as [|N IH]; intros s kw i Hs Hw; [lia|].
    assert (IL : forall kw i l, list_sum (map tsize l) < N -> forallb writable_stmt l = true -> forallb isok (map (unp_stmt printable kw i) l) = true).
    { intros kw' i' l Hl Wl. rewrite forallb_map. apply (forallb_In writable_stmt); auto. intros x Hx Wx. apply IH; auto. apply (sum_in tsize) in Hx. lia. }
    destruct s; cbn [tsize] in Hs; cbn [writable_stmt] in Hw; cbn [unp_stmt]; try reflexivity;
      repeat match goal with H : _ && _ = true |- _ => apply andb_true_iff in H as [? ?] end; ok1;
      repeat first [rewrite w_expr by auto | rewrite w_arguments by auto | rewrite w_exprs by auto | rewrite w_keywords by auto | rewrite isok_decos by auto
                   | rewrite IL by (auto; lia) | rewrite (w_optional _ _) by (auto; intros; ok1; now rewrite ?andb_true_r) | rewrite isok_part by (apply IL; auto; lia) ];
      cbn [andb forallb isok w]; try reflexivity.
    - (* Assign *) rewrite andb_true_r, forallb_map. apply (forallb_In writable); auto. intros x _ Wx. ok1. now rewrite w_expr.
    - (* Raise *) destruct exc as [e|], cause as [c|]; try discriminate Hw; auto; cbn [writable_o] in Hw; apply andb_true_iff in Hw as [We Wc]; cbn [opt]; ok1;
        rewrite ?w_expr; auto.
    - (* Try *) apply andb_true_iff. split; [|reflexivity]. rewrite forallb_map. eapply forallb_In; [eassumption|]. intros [t x b] Hx Wx.
      apply andb_true_iff in Wx as [Wt Wb]. change (isok (unp_handler printable star i (Handler t x b)) = true). cbn [unp_handler]. ok1.
      rewrite (w_optional t) by (auto; intros; ok1; now rewrite ?andb_true_r). rewrite IL; auto; [destruct x; reflexivity|].
      apply (sum_in (fun h => match h with Handler _ _ b => list_sum (map tsize b) end)) in Hx. lia.
    - (* Class *) apply andb_true_iff. split; [|reflexivity]. destruct bases, kws; ok1; auto; rewrite ?forallb_app, ?w_exprs, ?w_keywords; auto.
    - (* If *) assert (Y : forallb isok (part i "else" (map (unp_stmt printable "if " (S i)) orelse)) = true) by (apply isok_part, IL; auto; lia).
      assert (Z : forallb isok (map (unp_stmt printable "elif " i) orelse) = true) by (apply IL; auto; lia).
      destruct orelse as [|[] [|]]; (exact Y || exact Z).
    - (* With *) apply andb_true_iff. split; [|reflexivity]. rewrite forallb_map. eapply forallb_In; [eassumption|]. intros [x v] _ Wx.
      apply andb_true_iff in Wx as [W1 W2]. unfold unp_withitem. cbn [fst snd]. ok1. rewrite w_expr by auto. apply w_optional; auto. intros; ok1. now rewrite andb_true_r.
    - (* Match *) rewrite forallb_map. eapply forallb_In; [eassumption|]. intros [p g b] Hx Wx. repeat (apply andb_true_iff in Wx as [Wx ?]).
      change (isok (unp_case printable (S i) (Case p g b)) = true). cbn [unp_case]. ok1. rewrite w_pattern by auto.
      rewrite (w_optional g) by (auto; intros; ok1; now rewrite ?andb_true_r). rewrite IL; auto.
      apply (sum_in (fun c => match c with Case _ _ b => list_sum (map tsize b) end)) in Hx. lia.
    - (* TypeAlias *) rewrite andb_true_r. destruct tps as [|t tps]; auto. ok1. rewrite andb_true_r, forallb_map. eapply forallb_In; [eassumption|]. intros [x b|x|x] _ Wx; try reflexivity.
      cbn [unp_type_param]. ok1. apply w_optional; auto. intros; ok1. now rewrite andb_true_r.
  Qed.

  Lemma w_module l : forallb writable_stmt l = true -> exists s, unparse printable (TModule l) = Ok s.
  Proof.
    intros H. unfold unparse, unp_top. assert (X : isok (cat [cat (map (unp_stmt printable "if " 0) l); w nl]) = true).
    { ok1. rewrite isok_cat, andb_true_r, forallb_map. apply (forallb_In writable_stmt); auto. intros. now apply w_stmt. }
    destruct (cat _); [eauto|discriminate X].
  Qed.
End Total.
