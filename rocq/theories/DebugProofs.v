(** Debug mode shows the same text, with captures by name, line by line. *)
From Verif Require Import Base UnparseModel UnparseToks StmtToks DebugModel DebugSpec.
From Coq Require Import Lia.
Open Scope string_scope.
Open Scope list_scope.

Definition R (a b : res string) : Prop := a = b \/ exists x y, malformed x /\ a = Err x /\ b = Err y.
Definition Ro (x y : option (res string)) : Prop := match x, y with Some x, Some y => R x y | None, None => True | _, _ => False end.
Lemma R_same x : R x x.
Proof. now left. Qed.
Lemma R_cat l l' : Forall2 R l l' -> R (cat l) (cat l').
Proof.
  induction 1 as [|x y l l' H F IH]; [now left|]. destruct H as [->|(x0 & y0 & Hm & -> & ->)]; [|right; exists x0, y0; split; [exact Hm|split; reflexivity]]. cbn [cat]. destruct y as [s|e]; [|now left].
  destruct IH as [E|(x0 & y0 & Hm & E & E')]; rewrite E; [now left|]. rewrite E'. right. eauto.
Qed.
Lemma R_inter sep l l' : Forall2 R l l' -> Forall2 R (inter sep l) (inter sep l').
Proof.
  induction 1 as [|x y l l' H F IH]; [constructor|]. destruct F as [|x' y' l l' H' F]; [constructor; [exact H|constructor]|].
  change (inter sep (x :: x' :: l)) with (x :: w sep :: inter sep (x' :: l)). change (inter sep (y :: y' :: l')) with (y :: w sep :: inter sep (y' :: l')).
  constructor; [exact H|]. constructor; [apply R_same|exact IH].
Qed.
Lemma R_tuple l l' : Forall2 R l l' -> Forall2 R (tuple_items l) (tuple_items l').
Proof.
  intros H. inversion H as [|x y a b Hx F]; subst; [constructor|]. inversion F as [|x' y' a' b' Hx' F']; subst.
  - constructor; [exact Hx|]. constructor; [apply R_same|constructor].
  - unfold tuple_items. now apply R_inter.
Qed.
Lemma M2 {A B} (f : A -> res string) (g : B -> res string) (h : A -> B) l : (forall x, In x l -> R (f x) (g (h x))) -> Forall2 R (map f l) (map g (map h l)).
Proof. induction l as [|x l IH]; intros H; cbn [map]; constructor; [apply H; now left|apply IH; intros y Hy; apply H; now right]. Qed.
Lemma L2 {A B} (P : A -> B -> Prop) l l' : Forall2 P l l' -> List.length l = List.length l'.
Proof. induction 1; cbn; congruence. Qed.
Lemma R_default a b x y : R a b -> Ro x y -> R (with_default (a, x)) (with_default (b, y)).
Proof.
  intros H K. destruct x, y; cbn [Ro] in K; try contradiction; cbn [with_default]; [|exact H]. apply R_cat. constructor; [exact H|]. constructor; [apply R_same|]. constructor; [exact K|constructor].
Qed.
Lemma Z2 l l' (d d' : list (option (res string))) : Forall2 R l l' -> Forall2 Ro d d' -> Forall2 R (map with_default (zip l d)) (map with_default (zip l' d')).
Proof.
  intros H. revert d d'. induction H as [|x y l l' Hx F IH]; intros d d' K; [destruct d, d'; constructor|]. destruct K as [|u v d d' Hu K]; [constructor|].
  cbn [zip map]. constructor; [now apply R_default|now apply IH].
Qed.
Lemma firstn2 {A B} (P : A -> B -> Prop) n : forall a b, Forall2 P a b -> Forall2 P (firstn n a) (firstn n b).
Proof. induction n as [|n IH]; intros a b H; [constructor|]. destruct H; cbn [firstn]; constructor; auto. Qed.
Lemma skipn2 {A B} (P : A -> B -> Prop) n : forall a b, Forall2 P a b -> Forall2 P (skipn n a) (skipn n b).
Proof. induction n as [|n IH]; intros a b H; [exact H|]. destruct H; cbn [skipn]; [constructor|auto]. Qed.
Lemma R_args_text pos pos' args args' va va' kwo kwo' kwd kwd' kwa kwa' ds ds' :
  Forall2 R pos pos' -> Forall2 R args args' -> Ro va va' -> Forall2 R kwo kwo' -> Forall2 Ro kwd kwd' -> Ro kwa kwa' -> Forall2 R ds ds' ->
  R (args_text pos args va kwo kwd kwa ds) (args_text pos' args' va' kwo' kwd' kwa' ds').
Proof.
  intros H1 H2 H3 H4 H5 H6 H7. unfold args_text. apply R_cat. apply R_inter.
  rewrite <- (L2 _ _ _ H1), <- (L2 _ _ _ H2), <- (L2 _ _ _ H7). set (n := List.length pos + List.length args - List.length ds).
  assert (D : Forall2 Ro (repeat None n ++ map Some ds) (repeat None n ++ map Some ds')).
  { apply Forall2_app; [induction n; [constructor|constructor; [exact I|assumption]]|]. induction H7; constructor; assumption. }
  assert (F : Forall2 R (map with_default (zip pos (firstn (List.length pos) (repeat None n ++ map Some ds)))) (map with_default (zip pos' (firstn (List.length pos) (repeat None n ++ map Some ds'))))).
  { apply Z2; [exact H1|]. now apply firstn2. }
  apply Forall2_app; [exact F|]. apply Forall2_app.
  { destruct F; constructor; [apply R_same|constructor]. }
  apply Forall2_app; [apply Z2; [exact H2|now apply skipn2]|]. apply Forall2_app.
  { destruct va, va'; cbn [Ro] in H3; try contradiction.
    - constructor; [|constructor]. apply R_cat. constructor; [apply R_same|]. constructor; [exact H3|constructor].
    - destruct H4; constructor; [apply R_same|constructor]. }
  apply Forall2_app; [now apply Z2|]. destruct kwa, kwa'; cbn [Ro] in H6; try contradiction; [|constructor]. constructor; [|constructor]. apply R_cat. constructor; [apply R_same|]. constructor; [exact H6|constructor].
Qed.
Lemma R_formatted v v' c spec spec' : R v v' ->
  match spec, spec' with Some (Some l), Some (Some l') => Forall2 R l l' | Some None, Some None => True | None, None => True | _, _ => False end ->
  R (formatted v c spec) (formatted v' c spec').
Proof.
  intros Hv Hs. unfold formatted. apply R_cat. constructor; [apply R_same|]. constructor; [exact Hv|]. constructor; [apply R_same|].
  constructor; [|constructor; [apply R_same|constructor]].
  destruct spec as [[l|]|], spec' as [[l'|]|]; try contradiction; try apply R_same. apply R_cat. constructor; [apply R_same|exact Hs].
Qed.

Section Proofs.
  Variable printable : ascii -> bool.
  Notation unp := (unp printable).
  Notation dunp := (dunp printable).
  Lemma is_int_sub e : is_int (sub e) = is_int e.
  Proof. destruct e; try reflexivity. cbn [sub]. destruct (captured _) as [[|]|]; reflexivity. Qed.
  Lemma takes_sub a : takes_arguments (sub_args a) = takes_arguments a.
  Proof. destruct a as [pos args va kwo kwd kwa ds]. destruct pos, args, va, kwo, kwa; reflexivity. Qed.

  Section Step.
    Variable N : nat.
    Hypothesis IH : forall e, size e < N -> R (dunp e) (unp (sub e)) /\ R (dfstr_part printable e) (fstr_part printable (sub e)).
    Lemma IHe e : size e < N -> R (dunp e) (unp (sub e)).
    Proof. intros H. now apply IH. Qed.
    Lemma IHl l : list_sum (map size l) < N -> Forall2 R (map dunp l) (map unp (map sub l)).
    Proof. intros H. apply M2. intros x Hx. apply IHe. apply (sum_in size) in Hx. lia. Qed.
    Lemma IHp l : list_sum (map size l) < N -> Forall2 R (map (dfstr_part printable) l) (map (fstr_part printable) (map sub l)).
    Proof. intros H. apply M2. intros x Hx. apply IH. apply (sum_in size) in Hx. lia. Qed.
    Ltac lst := repeat first [apply Forall2_nil | apply Forall2_cons; [first [apply R_same | (apply IHe; lia) | idtac]|]].
    Lemma arg_R a : size_arg a < N -> R (dunp_arg printable a) (unp_arg printable (sub_arg a)).
    Proof. destruct a as [x o]. cbn [size_arg dunp_arg sub_arg unp_arg]. intros H. apply R_cat. apply Forall2_app; [lst|]. destruct o; lst. Qed.
    Lemma args_R a : size_args a < N -> R (dunp_args printable a) (unp_args printable (sub_args a)).
    Proof.
      destruct a as [pos args va kwo kwd kwa ds]. cbn [size_args dunp_args sub_args unp_args]. intros H. apply R_args_text.
      - apply M2. intros x Hx. apply arg_R. apply (sum_in size_arg) in Hx. lia.
      - apply M2. intros x Hx. apply arg_R. apply (sum_in size_arg) in Hx. lia.
      - destruct va; cbn [Ro]; [|exact I]. apply arg_R. lia.
      - apply M2. intros x Hx. apply arg_R. apply (sum_in size_arg) in Hx. lia.
      - assert (Hs : list_sum (map (fun d => match d with Some e => size e | None => 0 end) kwd) < N) by lia. clear H.
        induction kwd as [|d kwd IHk]; cbn [map]; [constructor|]. cbn [map] in Hs; change (list_sum (?a :: ?b)) with (a + list_sum b) in Hs. constructor; [|apply IHk; lia]. destruct d; cbn [Ro]; [|exact I]. apply IHe. lia.
      - destruct kwa; cbn [Ro]; [|exact I]. apply arg_R. lia.
      - apply IHl. lia.
    Qed.
    Lemma comp_R g : size_comp g < N -> R (dunp_comp printable g) (unp_comp printable (sub_comp g)).
    Proof.
      destruct g as [t i ifs a]. cbn [size_comp dunp_comp sub_comp unp_comp]. intros H. apply R_cat. apply Forall2_app; [lst|].
      apply (M2 _ (fun c => cat [w " if "; unp c])). intros x Hx. apply (sum_in size) in Hx. apply R_cat. lst.
    Qed.
    Lemma kw_R k : size_kw k < N -> R (dunp_kw printable k) (unp_kw printable (sub_kw k)).
    Proof. destruct k as [x e]. cbn [size_kw dunp_kw sub_kw unp_kw]. intros H. apply R_cat. lst. Qed.
    Lemma comps_R g : list_sum (map size_comp g) < N -> Forall2 R (map (dunp_comp printable) g) (map (unp_comp printable) (map sub_comp g)).
    Proof. intros H. apply M2. intros x Hx. apply comp_R. apply (sum_in size_comp) in Hx. lia. Qed.
    Lemma kws_R g : list_sum (map size_kw g) < N -> Forall2 R (map (dunp_kw printable) g) (map (unp_kw printable) (map sub_kw g)).
    Proof. intros H. apply M2. intros x Hx. apply kw_R. apply (sum_in size_kw) in Hx. lia. Qed.
    Lemma spec_R spec : match spec with Some e => size e | None => 0 end < N ->
      match (match spec with Some (EJoined l) => Some (Some (map (dfstr_part printable) l)) | Some _ => Some None | None => None end),
            (match (match spec with Some e => Some (sub e) | None => None end) with Some (EJoined l) => Some (Some (map (fstr_part printable) l)) | Some _ => Some None | None => None end) with
      | Some (Some l), Some (Some l') => Forall2 R l l' | Some None, Some None => True | None, None => True | _, _ => False end.
    Proof.
      intros H. destruct spec as [e|]; [|exact I]. destruct e; try exact I; cbn [sub].
      - destruct (captured _) as [[|]|]; exact I.
      - apply IHp. cbn [size] in H. lia.
    Qed.
    Lemma part_step e : size e <= N -> R (dfstr_part printable e) (fstr_part printable (sub e)).
    Proof.
      intros H. destruct e; try apply R_same.
      - cbn [sub]. destruct (captured _) as [[|]|]; apply R_same.
      - cbn [size] in H. cbn [dfstr_part sub fstr_part]. apply R_formatted; [apply IHe; lia|]. apply spec_R. lia.
    Qed.
    Lemma expr_step e : size e <= N -> R (dunp e) (unp (sub e)).
    Proof.
      intros H. destruct e as [x|c|l o r|o e|o l|l r|b t o|a b|t v|l|l|l|l|e g|e g|e g|k v g|e x|e s|f a k|e|e|e|e|lo hi st|l|v c spec]; cbn [size] in H.
      all: try (cbn [DebugModel.dunp sub UnparseModel.unp]; apply R_cat; repeat (apply Forall2_app); lst; fail).
      - apply R_same.
      - apply R_same.
      - cbn [DebugModel.dunp sub UnparseModel.unp]. apply R_cat. apply Forall2_app; [lst|]. apply Forall2_app; [|lst]. apply R_inter. apply IHl. lia.
      - cbn [DebugModel.dunp sub UnparseModel.unp]. apply R_cat. apply Forall2_app; [lst|]. apply Forall2_app; [|lst].
        apply (M2 _ (fun p => match p with (o, e) => cat [w (" " ++ cmpop_text o ++ " "); unp e] end)). intros [o e] Hx. apply (sum_in (fun p => match p with (_, e) => size e end)) in Hx. cbn in Hx. apply R_cat. lst.
      - cbn [DebugModel.dunp sub UnparseModel.unp]. rewrite takes_sub. apply R_cat. lst. apply args_R. lia.
      - cbn [DebugModel.dunp sub UnparseModel.unp]. apply R_cat. apply Forall2_app; [lst|]. apply Forall2_app; [|lst]. apply R_tuple. apply IHl. lia.
      - cbn [DebugModel.dunp sub UnparseModel.unp]. apply R_cat. apply Forall2_app; [lst|]. apply Forall2_app; [|lst]. apply R_inter. apply IHl. lia.
      - destruct l as [|y l]; [apply R_same|]. cbn [DebugModel.dunp sub UnparseModel.unp]. cbn [map]. cbn iota. apply R_cat. apply Forall2_app; [lst|]. apply Forall2_app; [|lst]. apply R_inter. apply (IHl (y :: l)). lia.
      - cbn [DebugModel.dunp sub UnparseModel.unp]. apply R_cat. apply Forall2_app; [lst|]. apply Forall2_app; [|lst]. apply R_inter.
        apply (M2 _ (fun p => match p with (k, v) => cat [match k with Some k => unp k | None => Err unparser_error end; w ": "; unp v] end)). intros [k v] Hx.
        apply (sum_in (fun p => match p with (k, v) => match k with Some e => size e | None => 0 end + size v end)) in Hx. cbn in Hx. apply R_cat. destruct k as [k|]; lst.
      - cbn [DebugModel.dunp sub UnparseModel.unp]. apply R_cat. apply Forall2_app; [lst|]. apply Forall2_app; [|lst]. apply comps_R. lia.
      - cbn [DebugModel.dunp sub UnparseModel.unp]. apply R_cat. apply Forall2_app; [lst|]. apply Forall2_app; [|lst]. apply comps_R. lia.
      - cbn [DebugModel.dunp sub UnparseModel.unp]. apply R_cat. apply Forall2_app; [lst|]. apply Forall2_app; [|lst]. apply comps_R. lia.
      - cbn [DebugModel.dunp sub UnparseModel.unp]. apply R_cat. apply Forall2_app; [lst|]. apply Forall2_app; [|lst]. apply comps_R. lia.
      - cbn [DebugModel.dunp sub UnparseModel.unp]. rewrite is_int_sub. apply R_cat. lst.
      - cbn [DebugModel.dunp sub UnparseModel.unp]. apply R_cat. apply Forall2_app; [lst|]. apply Forall2_app; [|lst].
        assert (X : Forall2 R [dunp s] [unp (sub s)]) by lst. destruct s; try exact X.
        + cbn [sub]. apply R_tuple. apply IHl. cbn [size] in H. lia.
        + revert X. cbn [sub]. destruct (captured _) as [[|]|]; intros X; exact X.
      - cbn [DebugModel.dunp sub]. destruct (captured (ECall f a k)) as [[x|]|x] eqn:E; [apply R_same| |right; exists x, assertion_error; split; [eexists; exact E|split; reflexivity]].
        cbn [UnparseModel.unp]. apply R_cat. apply Forall2_app; [lst|]. apply Forall2_app; [|lst]. apply R_inter. apply Forall2_app; [apply IHl; lia|apply kws_R; lia].
      - cbn [DebugModel.dunp sub UnparseModel.unp]. apply R_cat. apply Forall2_app; [lst|]. apply Forall2_app; [|lst]. destruct e; lst.
      - cbn [DebugModel.dunp sub UnparseModel.unp]. apply R_cat. apply Forall2_app; [destruct lo; lst|]. apply Forall2_app; [lst|]. apply Forall2_app; [destruct hi; lst|destruct st; lst].
      - cbn [DebugModel.dunp sub UnparseModel.unp]. apply R_cat. apply Forall2_app; [lst|]. apply Forall2_app; [|lst]. apply IHp. lia.
      - cbn [DebugModel.dunp sub UnparseModel.unp]. apply R_cat. lst. apply R_formatted; [apply IHe; lia|]. apply spec_R. lia.
    Qed.
  End Step.
  Lemma both_R e : R (dunp e) (unp (sub e)) /\ R (dfstr_part printable e) (fstr_part printable (sub e)).
  Proof.
    assert (X : forall N e, size e < N -> R (dunp e) (unp (sub e)) /\ R (dfstr_part printable e) (fstr_part printable (sub e))).
    { induction N as [|N IHN]; intros e' H; [lia|]. split; [apply (expr_step N)|apply (part_step N)]; auto; lia. }
    apply (X (S (size e))). lia.
  Qed.
  Lemma eR e : R (dunp e) (unp (sub e)).
  Proof. apply both_R. Qed.
  Lemma kR k : R (dunp_kw printable k) (unp_kw printable (sub_kw k)).
  Proof. apply (kw_R (S (size_kw k))); [intros; apply both_R|lia]. Qed.
  Lemma aR a : R (dunp_args printable a) (unp_args printable (sub_args a)).
  Proof. apply (args_R (S (size_args a))); [intros; apply both_R|lia]. Qed.
  Lemma is_or_sub p : is_or (sub_pattern p) = is_or p.
  Proof. now destruct p. Qed.
  Ltac lst := repeat first [apply Forall2_nil | apply Forall2_cons; [first [apply R_same | apply eR | idtac]|]].
  Fixpoint pat_R (p : pattern) : R (dunp_pattern printable p) (unp_pattern printable (sub_pattern p)).
  Proof.
    destruct p as [e|c|l|x|l r|c l k|p x|l]; cbn [dunp_pattern sub_pattern unp_pattern].
    - apply eR.
    - apply R_same.
    - apply R_cat. apply Forall2_app; [lst|]. apply Forall2_app; [|lst]. apply R_inter. induction l as [|q l IH]; [constructor|constructor; [apply pat_R|exact IH]].
    - apply R_same.
    - apply R_cat. apply Forall2_app; [lst|]. apply Forall2_app.
      + apply R_inter. induction l as [|[k q] l IH]; [constructor|constructor; [|exact IH]]. apply R_cat. constructor; [apply eR|]. constructor; [apply R_same|]. constructor; [apply pat_R|constructor].
      + destruct r, l; cbn [opt app map]; lst.
    - apply R_cat. apply Forall2_app; [lst|]. apply Forall2_app.
      + apply R_inter. induction l as [|q l IH]; [constructor|constructor; [apply pat_R|exact IH]].
      + apply Forall2_app; [destruct l, k; cbn [map]; lst|]. apply Forall2_app; [|lst].
        apply R_inter. induction k as [|[x q] k IH]; [constructor|constructor; [|exact IH]]. apply R_cat. constructor; [apply R_same|]. constructor; [apply R_same|]. constructor; [apply pat_R|constructor].
    - destruct p as [p|], x as [x|]; try apply R_same. rewrite is_or_sub. apply R_cat. constructor; [apply R_same|]. constructor; [apply pat_R|]. lst.
    - apply R_cat. apply R_inter. induction l as [|q l IH]; [constructor|constructor; [apply pat_R|exact IH]].
  Qed.
  Lemma tpR t : R (dunp_type_param printable t) (unp_type_param printable (sub_tp t)).
  Proof. destruct t as [x b|x|x]; try apply R_same. cbn [dunp_type_param sub_tp unp_type_param]. apply R_cat. lst. destruct b; cbn [om opt]; lst. Qed.
  Lemma withR p : R (dunp_withitem printable p) (unp_withitem printable (sub (fst p), om sub (snd p))).
  Proof. unfold dunp_withitem, unp_withitem. cbn [fst snd]. apply R_cat. lst. destruct (snd p); cbn [om opt]; lst. Qed.

  (** ** Lines *)
  Definition rmap {A B} (f : A -> B) (r : res A) : res B := match r with Ok x => Ok (f x) | Err e => Err e end.
  Variable k : nat.
  Definition shows (a b : res string) (rs : list row) : Prop :=
    (exists x y, malformed x /\ a = Err x /\ b = Err y) \/
    exists r : res (list string), a = rmap (text_of (debug_line k) rs) r /\ b = rmap (text_of plain_line rs) r /\ forall ts, r = Ok ts -> List.length ts = List.length rs.
  Definition lshows (la lb : list (res string)) (rs : list row) : Prop := shows (cat la) (cat lb) rs.
  Lemma sapp_nil (s : string) : (s ++ "")%string = s.
  Proof. induction s as [|c s IH]; cbn; congruence. Qed.
  Lemma sapp_assoc (a b c : string) : ((a ++ b) ++ c)%string = (a ++ b ++ c)%string.
  Proof. induction a as [|x a IH]; cbn; congruence. Qed.
  Lemma cat_one a : cat [a] = a.
  Proof. destruct a; [|reflexivity]. cbn [cat]. now rewrite sapp_nil. Qed.
  Lemma cat_app' l l' : cat (l ++ l') = match cat l with Ok s => match cat l' with Ok t => Ok (s ++ t)%string | Err e => Err e end | Err e => Err e end.
  Proof.
    induction l as [|[s|e] l IH]; cbn [cat app]; [destruct (cat l'); reflexivity| |reflexivity]. rewrite IH. destruct (cat l) as [t|]; [|reflexivity]. destruct (cat l'); [|reflexivity]. now rewrite sapp_assoc.
  Qed.
  Lemma text_app f rs rs' ts ts' : List.length ts = List.length rs -> text_of f (rs ++ rs') (ts ++ ts') = (text_of f rs ts ++ text_of f rs' ts')%string.
  Proof. revert ts. induction rs as [|r rs IH]; intros [|t ts] H; try discriminate; [reflexivity|]. cbn [app text_of]. rewrite IH by (cbn in H; lia). now rewrite sapp_assoc. Qed.
  Lemma ls_app la lb rs la' lb' rs' : lshows la lb rs -> lshows la' lb' rs' -> lshows (la ++ la') (lb ++ lb') (rs ++ rs').
  Proof.
    unfold lshows. intros H H'. rewrite !cat_app'. destruct H as [(x & y & Hm & E & Ey)|(r & E & E2 & Hl)]; rewrite E; [rewrite Ey; left; eauto|]. rewrite E2. destruct r as [ts|e]; cbn [rmap].
    - destruct H' as [(x & y & Hm & E' & Ey)|(r' & E' & E2' & Hl')]; rewrite E'; [rewrite Ey; left; eauto|]. rewrite E2'. right. destruct r' as [ts'|e']; cbn [rmap].
      + exists (Ok (ts ++ ts')). cbn [rmap]. specialize (Hl _ eq_refl). rewrite !text_app by exact Hl. split; [reflexivity|]. split; [reflexivity|]. intros x Ex. inversion Ex; subst.
        rewrite !app_length, Hl, (Hl' _ eq_refl). reflexivity.
      + exists (Err e'). split; [reflexivity|]. split; [reflexivity|discriminate].
    - right. exists (Err e). split; [reflexivity|]. split; [reflexivity|discriminate].
  Qed.
  Lemma ls_nil : lshows [] [] [].
  Proof. right. exists (Ok []). split; [reflexivity|]. split; [reflexivity|]. intros ts E. inversion E. reflexivity. Qed.
  Lemma ls_one a b rs : shows a b rs -> lshows [a] [b] rs.
  Proof. unfold lshows. now rewrite !cat_one. Qed.
  Lemma ls_blank : lshows [w nl] [w nl] [Empty].
  Proof. right. exists (Ok [""]). split; [reflexivity|]. split; [reflexivity|]. intros ts E. inversion E. reflexivity. Qed.
  Lemma ls_head i n t xs ys : Forall2 R xs ys -> lshows (dfill (i + k) n t :: xs) (fill i t :: ys) [Row n i false].
  Proof.
    intros H. apply R_cat in H. unfold lshows. cbn [cat dfill fill w]. destruct H as [E|(x & y & Hm & E & Ey)]; rewrite E; [|rewrite Ey; left; eauto]. right. destruct (cat ys) as [s|e].
    - exists (Ok [(t ++ s)%string]). cbn [rmap text_of debug_line plain_line]. rewrite !sapp_nil, !sapp_assoc. split; [reflexivity|]. split; [reflexivity|]. intros ts Et. inversion Et. reflexivity.
    - exists (Err e). split; [reflexivity|]. split; [reflexivity|discriminate].
  Qed.
  Lemma ls_expr i n e : lshows [dfill (i + k) n "$Expr"; w ":"; w " "; dunp e] [fill i ""; unp (sub e)] [Row n i true].
  Proof.
    unfold lshows. cbn [cat dfill fill w]. destruct (eR e) as [E|(x & y & Hm & E & Ey)]; rewrite E; [|rewrite Ey; left; eauto]. right. destruct (unp (sub e)) as [s|x].
    - exists (Ok [s]). cbn [rmap text_of debug_line plain_line]. rewrite ?sapp_nil, ?sapp_assoc. cbn [append]. split; [reflexivity|]. split; [reflexivity|]. intros ts Et. inversion Et. reflexivity.
    - exists (Err x). split; [reflexivity|]. split; [reflexivity|discriminate].
  Qed.
  Lemma ls_head_app i n t xs ys la lb rs : Forall2 R xs ys -> lshows la lb rs -> lshows ((dfill (i + k) n t :: xs) ++ la) ((fill i t :: ys) ++ lb) (Row n i false :: rs).
  Proof. intros H H'. exact (ls_app _ _ _ _ _ _ (ls_head i n t xs ys H) H'). Qed.
  Lemma ls_mapi {A B} (f : nat -> A -> res string) (g : B -> res string) (h : A -> B) (rs : nat -> A -> list row) l : forall j,
    (forall j x, In x l -> shows (f j x) (g (h x)) (rs j x)) -> lshows (mapi f j l) (map g (map h l)) (concat (mapi rs j l)).
  Proof.
    induction l as [|x l IH]; intros j H; [exact ls_nil|]. cbn [mapi map concat]. apply (ls_app [f j x] [g (h x)]); [apply ls_one, H; now left|]. apply IH. intros j' y Hy. apply H. now right.
  Qed.
  Variable lineno : place -> option Z.
  Notation dstmt := (dunp_stmt printable lineno).
  Notation srows := (rows lineno).
  Section Step2.
    Variable N : nat.
    Hypothesis IH : forall kw i q s, ssize s < N -> shows (dstmt kw (i + k) q s) (unp_stmt printable kw i (sub_stmt s)) (srows i q s).
    Lemma body_shows kw i f q l j : list_sum (map ssize l) < N ->
      lshows (mapi (fun j => dstmt kw (i + k) ((f, j) :: q)) j l) (map (unp_stmt printable kw i) (map sub_stmt l)) (concat (mapi (fun j => srows i ((f, j) :: q)) j l)).
    Proof. intros H. apply ls_mapi. intros j' x Hx. apply IH. apply (sum_in ssize) in Hx. lia. Qed.
    Lemma tail_shows kw i f q l : list_sum (map ssize l) < N ->
      lshows (dpart lineno (i + k) q kw (mapi (fun j => dstmt "if " (S (i + k)) ((f, j) :: q)) 0 l)) (part i kw (map (unp_stmt printable "if " (S i)) (map sub_stmt l)))
        (match l with [] => [] | _ => Row (lineno q) i false :: concat (mapi (fun j => srows (S i) ((f, j) :: q)) 0 l) end).
    Proof.
      intros H. pose proof (body_shows "if " (S i) f q l 0 H) as B. destruct l as [|s l]; [exact ls_nil|]. unfold dpart, part. cbn [mapi map] in *.
      apply (ls_head_app i (lineno q) kw [w ":"] [w ":"]); [lst|exact B].
    Qed.
    Lemma decos_shows i q l : forall j, lshows (mapi (fun j e => cat [dfill (i + k) (lineno ((4, j) :: q)) "@"; dunp e]) j l) (map (fun e => cat [fill i "@"; unp e]) (map sub l))
      (mapi (fun j (_ : expr) => Row (lineno ((4, j) :: q)) i false) j l).
    Proof.
      induction l as [|e l IHl']; intros j; [exact ls_nil|]. cbn [mapi map].
      apply (ls_app [_] [_] [_]); [|apply IHl']. apply ls_one. apply (ls_head i _ "@"). lst.
    Qed.
    Ltac head i n t xs ys B :=
      let F := fresh in assert (F : Forall2 R xs ys); [|let X := fresh in pose proof (ls_head_app i n t xs ys _ _ _ F B) as X; cbn [app] in X; rewrite <- ?app_assoc in X; exact X].
    Lemma handler_shows star i q h : hsize h <= N -> shows (dunp_handler printable lineno star (i + k) q h) (unp_handler printable star i (sub_handler h)) (rows_handler lineno i q h).
    Proof.
      destruct h as [t x b]. cbn [hsize]. intros H. cbn [dunp_handler sub_handler unp_handler rows_handler].
      assert (B : list_sum (map ssize b) < N) by lia. apply (body_shows "if " (S i) 0 q b 0) in B.
      head i (lineno q) (if star then "except*" else "except") (opt (fun t => [w " "; dunp t]) t ++ opt (fun x => [w " as "; w x]) x ++ [w ":"])
        (opt (fun t => [w " "; unp t]) (om sub t) ++ opt (fun x => [w " as "; w x]) x ++ [w ":"]) B.
      apply Forall2_app; [destruct t; cbn [om opt]; lst|]. apply Forall2_app; [destruct x; cbn [opt]; lst|lst].
    Qed.
    Lemma case_shows i q c : csize c <= N -> shows (dunp_case printable lineno (i + k) q c) (unp_case printable i (sub_case c)) (rows_case lineno i q c).
    Proof.
      destruct c as [p g b]. cbn [csize]. intros H. cbn [dunp_case sub_case unp_case rows_case]. rewrite is_or_sub.
      assert (B : list_sum (map ssize b) < N) by lia. apply (body_shows "if " (S i) 0 q b 0) in B.
      destruct g as [g|]; cbn [om opt].
      - head i (@None Z) "case " [w (if is_or p then "(" else ""); dunp_pattern printable p; w (if is_or p then ")" else ""); w " if "; dunp g; w ":"]
          [w (if is_or p then "(" else ""); unp_pattern printable (sub_pattern p); w (if is_or p then ")" else ""); w " if "; unp (sub g); w ":"] B. lst. apply pat_R.
      - head i (@None Z) "case " [w ""; dunp_pattern printable p; w ""; w ":"] [w ""; unp_pattern printable (sub_pattern p); w ""; w ":"] B. lst. apply pat_R.
    Qed.
    Lemma stmt_step kw i q s : ssize s <= N -> shows (dstmt kw (i + k) q s) (unp_stmt printable kw i (sub_stmt s)) (srows i q s).
    Proof.
      intros H. destruct s as [e|l|m l n|ts v|t a v b|t o v|e| | | |l|t m|l|l|e c|star b hs o f|x tps bases kws b ds|a x tps args b ds r|a t it b o|t b o|t b o|a items b|e cs|x tps v]; cbn [ssize] in H.
      - apply ls_expr.
      - cbn [dunp_stmt sub_stmt unp_stmt rows]. apply ls_head. apply R_inter. induction l; constructor; [apply R_same|assumption].
      - cbn [dunp_stmt sub_stmt unp_stmt rows]. apply (ls_head i _ "from "). lst. apply R_inter. induction l; constructor; [apply R_same|assumption].
      - cbn [dunp_stmt sub_stmt unp_stmt rows]. apply (ls_head i _ ""). apply Forall2_app; [|lst].
        apply (M2 _ (fun t => cat [unp t; w " = "])). intros x _. apply R_cat. lst.
      - cbn [dunp_stmt sub_stmt unp_stmt rows]. apply (ls_head i _ ""). lst. destruct v; cbn [om opt]; lst.
      - cbn [dunp_stmt sub_stmt unp_stmt rows]. apply (ls_head i _ ""). lst.
      - cbn [dunp_stmt sub_stmt unp_stmt rows]. apply (ls_head i _ "return"). destruct e; cbn [om opt]; lst.
      - rewrite <- (cat_one (dstmt _ _ _ _)), <- (cat_one (unp_stmt _ _ _ _)). apply (ls_head i _ "pass" [] []). constructor.
      - rewrite <- (cat_one (dstmt _ _ _ _)), <- (cat_one (unp_stmt _ _ _ _)). apply (ls_head i _ "break" [] []). constructor.
      - rewrite <- (cat_one (dstmt _ _ _ _)), <- (cat_one (unp_stmt _ _ _ _)). apply (ls_head i _ "continue" [] []). constructor.
      - cbn [dunp_stmt sub_stmt unp_stmt rows]. apply ls_head. apply R_inter. apply M2. intros; apply eR.
      - cbn [dunp_stmt sub_stmt unp_stmt rows]. apply (ls_head i _ "assert "). lst. destruct m; cbn [om opt]; lst.
      - cbn [dunp_stmt sub_stmt unp_stmt rows]. apply ls_head. apply R_inter. induction l; constructor; [apply R_same|assumption].
      - cbn [dunp_stmt sub_stmt unp_stmt rows]. apply ls_head. apply R_inter. induction l; constructor; [apply R_same|assumption].
      - destruct e as [e|].
        + cbn [dunp_stmt sub_stmt unp_stmt rows om]. apply (ls_head i _ "raise"). lst. destruct c; cbn [om opt]; lst.
        + destruct c; cbn [dunp_stmt sub_stmt unp_stmt rows om].
          * right. exists (Err assertion_error). split; [reflexivity|]. split; [reflexivity|discriminate].
          * rewrite <- (cat_one (dfill _ _ _)), <- (cat_one (fill _ _)). apply (ls_head i _ "raise" [] []). constructor.
      - cbn [dunp_stmt sub_stmt unp_stmt rows]. apply (ls_head_app i _ "try" [w ":"] [w ":"]); [lst|].
        apply ls_app; [apply (body_shows "if " (S i)); lia|]. apply ls_app.
        + apply ls_mapi. intros j h Hh. apply handler_shows. apply (sum_in hsize) in Hh. lia.
        + apply ls_app; apply tail_shows; lia.
      - cbn [dunp_stmt sub_stmt unp_stmt rows]. unfold dunp_decos, unp_decos. apply (ls_app [_] [_] [_]); [apply ls_blank|]. apply ls_app; [apply decos_shows|].
        assert (B : list_sum (map ssize b) < N) by lia. apply (body_shows "if " (S i) 0 q b 0) in B.
        assert (A : Forall2 R ([w "("] ++ inter ", " (map dunp bases ++ map (dunp_kw printable) kws) ++ [w ")"]) ([w "("] ++ inter ", " (map unp (map sub bases) ++ map (unp_kw printable) (map sub_kw kws)) ++ [w ")"])).
        { apply Forall2_app; [lst|]. apply Forall2_app; [|lst]. apply R_inter. apply Forall2_app; apply M2; intros; [apply eR|apply kR]. }
        head i (lineno q) ("class " ++ x)%string (match bases, kws with [], [] => [] | _, _ => [w "("] ++ inter ", " (map dunp bases ++ map (dunp_kw printable) kws) ++ [w ")"] end ++ [w ":"])
          (match map sub bases, map sub_kw kws with [], [] => [] | _, _ => [w "("] ++ inter ", " (map unp (map sub bases) ++ map (unp_kw printable) (map sub_kw kws)) ++ [w ")"] end ++ [w ":"]) B.
        apply Forall2_app; [|lst]. destruct bases, kws; [constructor|exact A|exact A|exact A].
      - cbn [dunp_stmt sub_stmt unp_stmt rows]. unfold dunp_decos, unp_decos. apply (ls_app [_] [_] [_]); [apply ls_blank|]. apply ls_app; [apply decos_shows|].
        assert (B : list_sum (map ssize b) < N) by lia. apply (body_shows "if " (S i) 0 q b 0) in B.
        head i (lineno q) ((if a then "async def" else "def") ++ " " ++ x ++ "(")%string (dunp_args printable args :: w ")" :: opt (fun r => [w " -> "; dunp r]) r ++ [w ":"])
          (unp_args printable (sub_args args) :: w ")" :: opt (fun r => [w " -> "; unp r]) (om sub r) ++ [w ":"]) B.
        lst; [apply aR|]. apply Forall2_app; [|lst]. destruct r; cbn [om opt]; lst.
      - cbn [dunp_stmt sub_stmt unp_stmt rows]. apply (ls_head_app i _ (if a then "async for " else "for ") [_; _; _; _] [_; _; _; _]); [lst|].
        apply ls_app; [apply (body_shows "if " (S i)); lia|apply tail_shows; lia].
      - cbn [dunp_stmt sub_stmt unp_stmt rows]. apply (ls_head_app i _ kw [_; _] [_; _]); [lst|].
        apply ls_app; [apply (body_shows "if " (S i)); lia|].
        pose proof (tail_shows "else" i 1 q o) as T. pose proof (body_shows "elif " i 1 q o 0) as B.
        destruct o as [|s o]; [apply T; lia|]. destruct o; [|destruct s; apply T; lia]. destruct s; try (apply T; lia). apply B. lia.
      - cbn [dunp_stmt sub_stmt unp_stmt rows]. apply (ls_head_app i _ "while " [_; _] [_; _]); [lst|].
        apply ls_app; [apply (body_shows "if " (S i)); lia|apply tail_shows; lia].
      - cbn [dunp_stmt sub_stmt unp_stmt rows]. assert (B : list_sum (map ssize b) < N) by lia. apply (body_shows "if " (S i) 0 q b 0) in B.
        head i (lineno q) (if a then "async with " else "with ") (inter ", " (map (dunp_withitem printable) items) ++ [w ":"]) (inter ", " (map (unp_withitem printable) (map (fun p => (sub (fst p), om sub (snd p))) items)) ++ [w ":"]) B.
        apply Forall2_app; [|lst]. apply R_inter. apply M2. intros. apply withR.
      - cbn [dunp_stmt sub_stmt unp_stmt rows]. apply (ls_head_app i _ "match " [_; _] [_; _]); [lst|].
        apply ls_mapi. intros j c Hc. apply (case_shows (S i)). apply (sum_in csize) in Hc. lia.
      - cbn [dunp_stmt sub_stmt unp_stmt rows]. 
        assert (A : Forall2 R ([w "["] ++ inter ", " (map (dunp_type_param printable) tps) ++ [w "]"]) ([w "["] ++ inter ", " (map (unp_type_param printable) (map sub_tp tps)) ++ [w "]"])).
        { apply Forall2_app; [lst|]. apply Forall2_app; [|lst]. apply R_inter. apply M2; intros; apply tpR. }
        cbn [app]. apply (ls_head i _ ""). constructor; [apply R_same|]. constructor; [apply eR|]. apply Forall2_app; [|lst].
        destruct tps; [constructor|exact A].
    Qed.
  End Step2.
  Lemma stmt_shows kw i q s : shows (dstmt kw (i + k) q s) (unp_stmt printable kw i (sub_stmt s)) (srows i q s).
  Proof.
    assert (X : forall N kw i q s, ssize s < N -> shows (dstmt kw (i + k) q s) (unp_stmt printable kw i (sub_stmt s)) (srows i q s)).
    { induction N as [|N IHN]; intros; [lia|]. apply (stmt_step N); auto; lia. }
    apply (X (S (ssize s))). lia.
  Qed.
  Lemma stmts_shows l : lshows (mapi (fun j => dstmt "if " k [(0, j)]) 0 l) (map (unp_stmt printable "if " 0) (map sub_stmt l)) (concat (mapi (fun j => srows 0 [(0, j)]) 0 l)).
  Proof. apply ls_mapi. intros. apply (stmt_shows "if " 0). Qed.
End Proofs.
