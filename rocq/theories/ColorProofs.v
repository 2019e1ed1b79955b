(** The text with colors against the text without. *)
From Verif Require Import Base Dict ShowModel UnparseModel DumpSpec UnparseToks ColorModel ColorSpec.
Open Scope string_scope.
Open Scope list_scope.

Lemma sapp_nil_r (s : string) : (s ++ "")%string = s.
Proof. induction s as [|c s IH]; cbn; [reflexivity|now rewrite IH]. Qed.
Lemma sapp_assoc' (a b c : string) : ((a ++ b) ++ c)%string = (a ++ b ++ c)%string.
Proof. induction a as [|x a IH]; cbn; [reflexivity|now rewrite IH]. Qed.
Lemma shown_app a b : shown (a ++ b) = (shown a ++ shown b)%string.
Proof. unfold shown. rewrite map_app. induction (map fst a) as [|x l IH]; cbn; [reflexivity|now rewrite IH]. Qed.
Lemma has_app c a b : has_char c (a ++ b) = has_char c a || has_char c b.
Proof. induction a as [|d a IH]; cbn; [reflexivity|]. rewrite IH. now rewrite orb_assoc. Qed.
Lemma fine_app a b : fine (a ++ b) = fine a && fine b.
Proof. unfold fine. rewrite !has_app. destruct (has_char esc a), (has_char esc b), (has_char lf a), (has_char lf b); reflexivity. Qed.

Lemma screen_app a : forall on code b, screen on code (a ++ b) =
  let (l, st) := screen on code a in let (l', st') := screen (fst st) (snd st) b in ((l ++ l')%list, st').
Proof.
  induction a as [|c a IH]; intros on code b; cbn [append screen].
  - cbn [fst snd]. destruct (screen on code b). reflexivity.
  - destruct code as [k|].
    + destruct (Ascii.eqb c "m"); apply IH.
    + destruct (Ascii.eqb c esc); [apply IH|]. rewrite IH. destruct (screen on None a) as [l [o k]]. cbn [fst snd]. destruct (screen o k b). reflexivity.
Qed.
Lemma screen_plain s : has_char esc s = false -> forall on, screen on None s = (map (fun c => (c, on)) (list_ascii_of_string s), (on, None)).
Proof.
  induction s as [|c s IH]; intros H on; [reflexivity|]. cbn [has_char] in H. apply orb_false_iff in H as [Hc H]. cbn [screen list_ascii_of_string map].
  rewrite Ascii.eqb_sym, Hc, IH by exact H. reflexivity.
Qed.
Lemma shown_map s (on : bool) : shown (map (fun c => (c, on)) (list_ascii_of_string s)) = s.
Proof. unfold shown. rewrite map_map. cbn [fst]. rewrite map_id. apply string_of_list_ascii_of_string. Qed.
Lemma lf_in s : has_char lf s = false -> ~ In lf (list_ascii_of_string s).
Proof.
  induction s as [|c s IH]; cbn [has_char list_ascii_of_string In]; [tauto|]. intros H. apply orb_false_iff in H as [H1 H2]. intros [->|Hi]; [|now apply IH]. rewrite Ascii.eqb_refl in H1. discriminate.
Qed.

Definition paints (s p : string) : Prop :=
  exists L, screen false None s = (L, (false, None)) /\ shown L = p /\ forall b, In (lf, b) L -> b = false.
Lemma paints_app s1 p1 s2 p2 : paints s1 p1 -> paints s2 p2 -> paints (s1 ++ s2) (p1 ++ p2).
Proof.
  intros (L1 & A1 & B1 & C1) (L2 & A2 & B2 & C2). exists (L1 ++ L2). rewrite screen_app, A1. cbn [fst snd]. rewrite A2. split; [reflexivity|]. split; [rewrite shown_app; congruence|].
  intros b Hi. apply in_app_iff in Hi as [Hi|Hi]; auto.
Qed.
Lemma paints_plain p : has_char esc p = false -> paints p p.
Proof.
  intros H. exists (map (fun c => (c, false)) (list_ascii_of_string p)). split; [now apply screen_plain|]. split; [apply shown_map|].
  intros b Hi. apply in_map_iff in Hi as (c & E & _). congruence.
Qed.
Lemma fine_esc p : fine p = true -> has_char esc p = false.
Proof. unfold fine. intros H. apply andb_true_iff in H as [H _]. now apply negb_true_iff. Qed.
Lemma fine_lf p : fine p = true -> has_char lf p = false.
Proof. unfold fine. intros H. apply andb_true_iff in H as [_ H]. now apply negb_true_iff. Qed.
(** A text with a style. *)
Lemma paints_styled T c p : style_works T c -> fine p = true -> paints ((p_reset (t_base T) ++ set_style c) ++ p ++ p_reset (t_base T)) p.
Proof.
  intros (on & A & B) F. exists (map (fun c => (c, on)) (list_ascii_of_string p)). rewrite screen_app, A. cbn [fst snd]. rewrite screen_app, screen_plain by now apply fine_esc. cbn [fst snd].
  rewrite B. rewrite app_nil_r. split; [reflexivity|]. split; [apply shown_map|]. intros b Hi. apply in_map_iff in Hi as (d & E & Hd). injection E as -> ->. apply fine_lf, lf_in in F. contradiction.
Qed.

(** ** Relations between results *)
Definition rel (same : bool) (x y : res string) : Prop :=
  match x, y with
  | Ok s, Ok p => if same then s = p else (fine p = true -> paints s p)
  | Err e, Err e' => e = e'
  | _, _ => False
  end.
Definition relS (same : bool) (x y : res string) : Prop :=
  match x, y with
  | Ok s, Ok p => if same then s = p else paints s p
  | Err e, Err e' => e = e'
  | _, _ => False
  end.
Lemma rel_cat m l l' : Forall2 (rel m) l l' -> rel m (cat l) (cat l').
Proof.
  induction 1 as [|x y l l' H F IH]; [destruct m; cbn; [reflexivity|intros _; now apply paints_plain]|]. cbn [cat]. destruct x as [s|e], y as [p|e']; cbn [rel] in H; try contradiction; [|exact H].
  destruct (cat l) as [t|], (cat l') as [q|]; cbn [rel] in IH; try contradiction; [|exact IH]. cbn [rel]. destruct m; [congruence|].
  intros Hf. rewrite fine_app in Hf. apply andb_true_iff in Hf as [H1 H2]. apply paints_app; auto.
Qed.
Lemma relS_cat m l l' : Forall2 (relS m) l l' -> relS m (cat l) (cat l').
Proof.
  induction 1 as [|x y l l' H F IH]; [destruct m; cbn; [reflexivity|now apply paints_plain]|]. cbn [cat]. destruct x as [s|e], y as [p|e']; cbn [relS] in H; try contradiction; [|exact H].
  destruct (cat l) as [t|], (cat l') as [q|]; cbn [relS] in IH; try contradiction; [|exact IH]. cbn [relS]. destruct m; [congruence|]. apply paints_app; auto.
Qed.
Lemma rel_same m x : rel m x x.
Proof. destruct x; cbn; [|reflexivity]. destruct m; [reflexivity|]. intros H. apply paints_plain. now apply fine_esc. Qed.
Lemma rel_w m s p : (m = true -> s = p) -> (m = false -> fine p = true -> paints s p) -> rel m (w s) (w p).
Proof. intros H1 H2. cbn. destruct m; auto. Qed.
Lemma rel_true x y : rel true x y -> x = y.
Proof. destruct x, y; cbn; try contradiction; congruence. Qed.
Lemma rel_inter m sep sep' l l' : rel m (w sep) (w sep') -> Forall2 (rel m) l l' -> Forall2 (rel m) (inter sep l) (inter sep' l').
Proof.
  intros Hs. induction 1 as [|x y l l' H F IH]; [constructor|]. destruct F as [|x' y' l l' H' F]; [constructor; [exact H|constructor]|].
  change (inter sep (x :: x' :: l)) with (x :: w sep :: inter sep (x' :: l)). change (inter sep' (y :: y' :: l')) with (y :: w sep' :: inter sep' (y' :: l')).
  constructor; [exact H|]. constructor; [exact Hs|exact IH].
Qed.
Lemma relS_inter m sep l l' : has_char esc sep = false -> Forall2 (relS m) l l' -> Forall2 (relS m) (inter sep l) (inter sep l').
Proof.
  intros Hs. assert (S : relS m (w sep) (w sep)) by (cbn; destruct m; [reflexivity|now apply paints_plain]).
  induction 1 as [|x y l l' H F IH]; [constructor|]. destruct F as [|x' y' l l' H' F]; [constructor; [exact H|constructor]|].
  change (inter sep (x :: x' :: l)) with (x :: w sep :: inter sep (x' :: l)). change (inter sep (y :: y' :: l')) with (y :: w sep :: inter sep (y' :: l')).
  constructor; [exact H|]. constructor; [exact S|exact IH].
Qed.
Lemma rel_tuple m l l' : Forall2 (rel m) l l' -> Forall2 (rel m) (tuple_items l) (tuple_items l').
Proof.
  intros H. inversion H as [|x y a b Hx F]; subst; [constructor|]. inversion F as [|x' y' a' b' Hx' F']; subst.
  - repeat constructor; [exact Hx|apply rel_same].
  - unfold tuple_items. apply rel_inter; [apply rel_same|exact H].
Qed.
Lemma F2_app {A B} (R : A -> B -> Prop) a b c d : Forall2 R a b -> Forall2 R c d -> Forall2 R (a ++ c) (b ++ d).
Proof. apply Forall2_app. Qed.
Lemma F2_map {A B C} (R : B -> C -> Prop) (f : A -> B) (g : A -> C) l : (forall x, In x l -> R (f x) (g x)) -> Forall2 R (map f l) (map g l).
Proof. induction l as [|x l IH]; intros H; cbn [map]; constructor; [apply H; now left|apply IH; intros y Hy; apply H; now right]. Qed.
Lemma F2_len {A B} (R : A -> B -> Prop) l l' : Forall2 R l l' -> List.length l = List.length l'.
Proof. induction 1; cbn; congruence. Qed.
Definition relo (m : bool) (x y : option (res string)) : Prop := match x, y with Some x, Some y => rel m x y | None, None => True | _, _ => False end.
Lemma rel_default m a b x y : rel m a b -> relo m x y -> rel m (with_default (a, x)) (with_default (b, y)).
Proof.
  intros H K. destruct x, y; cbn [relo] in K; try contradiction; cbn [with_default]; [|exact H]. apply rel_cat. repeat constructor; [exact H|apply rel_same|exact K].
Qed.
Lemma F2_zip m l l' (d d' : list (option (res string))) : Forall2 (rel m) l l' -> Forall2 (relo m) d d' -> Forall2 (rel m) (map with_default (zip l d)) (map with_default (zip l' d')).
Proof.
  intros H. revert d d'. induction H as [|x y l l' Hx F IH]; intros d d' K; [destruct d, d'; constructor|]. destruct K as [|u v d d' Hu K]; [constructor|].
  cbn [zip map]. constructor; [now apply rel_default|now apply IH].
Qed.
Lemma F2_firstn {A B} (R : A -> B -> Prop) n : forall a b, Forall2 R a b -> Forall2 R (firstn n a) (firstn n b).
Proof. induction n as [|n IH]; intros a b H; [constructor|]. destruct H; cbn [firstn]; constructor; auto. Qed.
Lemma F2_skipn {A B} (R : A -> B -> Prop) n : forall a b, Forall2 R a b -> Forall2 R (skipn n a) (skipn n b).
Proof. induction n as [|n IH]; intros a b H; [exact H|]. destruct H; cbn [skipn]; [constructor|auto]. Qed.
Lemma rel_args_text m pos pos' args args' va va' kwo kwo' kwd kwd' kwa kwa' ds ds' :
  Forall2 (rel m) pos pos' -> Forall2 (rel m) args args' -> relo m va va' -> Forall2 (rel m) kwo kwo' -> Forall2 (relo m) kwd kwd' -> relo m kwa kwa' -> Forall2 (rel m) ds ds' ->
  rel m (args_text pos args va kwo kwd kwa ds) (args_text pos' args' va' kwo' kwd' kwa' ds').
Proof.
  intros H1 H2 H3 H4 H5 H6 H7. unfold args_text. apply rel_cat. apply rel_inter; [apply rel_same|].
  rewrite <- (F2_len _ _ _ H1), <- (F2_len _ _ _ H2), <- (F2_len _ _ _ H7). set (n := List.length pos + List.length args - List.length ds).
  assert (D : Forall2 (relo m) (repeat None n ++ map Some ds) (repeat None n ++ map Some ds')).
  { apply F2_app; [induction n; constructor; [exact I|assumption]|]. induction H7; constructor; assumption. }
  assert (F : Forall2 (rel m) (map with_default (zip pos (firstn (List.length pos) (repeat None n ++ map Some ds)))) (map with_default (zip pos' (firstn (List.length pos) (repeat None n ++ map Some ds'))))).
  { apply F2_zip; [exact H1|]. now apply F2_firstn. }
  apply F2_app; [exact F|]. apply F2_app.
  { destruct F; constructor; [apply rel_same|constructor]. }
  apply F2_app; [apply F2_zip; [exact H2|now apply F2_skipn]|]. apply F2_app.
  { destruct va, va'; cbn [relo] in H3; try contradiction.
    - constructor; [|constructor]. apply rel_cat. repeat constructor; [apply rel_same|exact H3].
    - destruct H4; constructor; [apply rel_same|constructor]. }
  apply F2_app; [now apply F2_zip|]. destruct kwa, kwa'; cbn [relo] in H6; try contradiction; [|constructor]. constructor; [|constructor]. apply rel_cat. repeat constructor; [apply rel_same|exact H6].
Qed.

Section Proofs.
  Variable printable : ascii -> bool.
  Variable is_exception is_builtin is_macro : string -> bool.
  Variable T : theme.
  Variable color : bool.
  Hypothesis HT : color = true -> theme_works T.
  Notation mc := (mc T color).
  Notation kwd := (kwd T color).
  Notation cunp := (cunp printable is_exception is_builtin is_macro T color).
  Notation unp := (unp printable).
  Notation cpart := (cfstr_part printable is_exception is_builtin is_macro T color).
  Notation cargs := (cunp_args printable is_exception is_builtin is_macro T color).
  Notation carg := (cunp_arg printable is_exception is_builtin is_macro T color).
  Notation ccomp := (cunp_comp printable is_exception is_builtin is_macro T color).
  Notation ckw := (cunp_kw printable is_exception is_builtin is_macro T color).
  Definition same (ov : bool) : bool := ov || negb color.

  Lemma colorize_eq text c : colorize (t_base T) text [c] = ((p_reset (t_base T) ++ set_style c) ++ text ++ p_reset (t_base T))%string.
  Proof. unfold colorize, setcolor. cbn [set_style]. rewrite !sapp_nil_r. reflexivity. Qed.
  Lemma mc_same ov t c : same ov = true -> mc ov t c = t.
  Proof. unfold same, ColorModel.mc. destruct ov; [reflexivity|]. cbn. now intros ->. Qed.
  Lemma mc_paints ov t c : style_works T c -> same ov = false -> fine t = true -> paints (mc ov t c) t.
  Proof.
    unfold same, ColorModel.mc. intros Hc Hs Hf. apply orb_false_iff in Hs as [-> Hn]. rewrite Hn. rewrite colorize_eq. now apply paints_styled.
  Qed.
  Lemma works c : In c [t_keyword T; t_exception T; t_builtin T; t_defname T; t_decorator T; t_string T; t_number T; t_nameconstant T; t_macroname T] ->
    forall ov, same ov = false -> style_works T c.
  Proof.
    intros Hi ov Hs. assert (color = true) as Hc by (unfold same in Hs; destruct color, ov; auto; discriminate). specialize (HT Hc). unfold theme_works in HT. rewrite Forall_forall in HT. auto.
  Qed.
  Ltac inlist := repeat first [left; reflexivity | right].
  (** What is written before, with a style, and after. *)
  Lemma rel_mc ov a t b c : In c [t_keyword T; t_exception T; t_builtin T; t_defname T; t_decorator T; t_string T; t_number T; t_nameconstant T; t_macroname T] ->
    rel (same ov) (w (a ++ mc ov t c ++ b)) (w (a ++ t ++ b)).
  Proof.
    intros Hi. apply rel_w; [intros H; now rewrite mc_same|]. intros H F. rewrite !fine_app in F. apply andb_true_iff in F as [F1 F]. apply andb_true_iff in F as [F2 F3].
    apply paints_app; [apply paints_plain; now apply fine_esc|]. apply paints_app; [|apply paints_plain; now apply fine_esc]. apply mc_paints; auto. eapply works; eauto.
  Qed.
  Lemma rel_mc0 ov t c : In c [t_keyword T; t_exception T; t_builtin T; t_defname T; t_decorator T; t_string T; t_number T; t_nameconstant T; t_macroname T] ->
    rel (same ov) (w (mc ov t c)) (w t).
  Proof. intros Hi. assert (H := rel_mc ov "" t "" c Hi). cbn [append] in H. now rewrite !sapp_nil_r in H. Qed.
  Lemma rel_kwd ov t : rel (same ov) (w (kwd ov t)) (w t).
  Proof. apply rel_mc0. inlist. Qed.

  Lemma rel_name ov x : rel (same ov) (w (cname is_exception is_builtin is_macro T color ov x)) (w x).
  Proof. unfold cname. destruct (is_exception x); [apply rel_mc0; inlist|]. destruct (is_builtin x); [apply rel_mc0; inlist|]. destruct (is_macro x); [apply rel_mc0; inlist|apply rel_same]. Qed.
  Lemma rel_const ov c : rel (same ov) (w (cconst printable T color ov c)) (w (unp_const printable c)).
  Proof.
    destruct c as [| | | |n|r|u s|s]; cbn [cconst]; try (apply rel_mc0; inlist); [apply rel_same|]. cbn [unp_const].
    assert (H := rel_mc ov (if u then "u" else "") (repr_str printable s) "" (t_string T) ltac:(inlist)). now rewrite !sapp_nil_r in H.
  Qed.
  Lemma rel_cmp ov o : rel (same ov) (w (ccmp T color ov o)) (w (" " ++ cmpop_text o ++ " ")).
  Proof. destruct o; cbn [ccmp]; first [apply rel_same | apply (rel_mc ov " " _ " "); inlist]. Qed.
  Lemma rel_conv ov z : rel (same ov) (cconv T color ov z) (conversion_text z).
  Proof.
    unfold cconv. destruct (conversion_text z) as [s|e]; [|reflexivity]. destruct s as [|a s]; [apply (rel_same (same ov) (Ok ""))|]. apply rel_mc0. inlist.
  Qed.
  Lemma rel_formatted ov v v' c spec spec' : rel (same ov) v v' ->
    match spec, spec' with Some (Some l), Some (Some l') => Forall2 (rel (same ov)) l l' | Some None, Some None => True | None, None => True | _, _ => False end ->
    rel (same ov) (cformatted T color ov v c spec) (formatted v' c spec').
  Proof.
    intros Hv Hs. unfold cformatted, formatted. apply rel_cat. constructor; [apply rel_mc0; inlist|]. constructor; [exact Hv|]. constructor; [apply rel_conv|].
    constructor; [|constructor; [apply rel_mc0; inlist|constructor]].
    destruct spec as [[l|]|], spec' as [[l'|]|]; try contradiction; [|reflexivity|apply (rel_same (same ov) (w ""))]. apply rel_cat. constructor; [apply rel_mc0; inlist|exact Hs].
  Qed.
  Lemma cat2 a b l : cat (w a :: w b :: l) = cat (w (a ++ b) :: l).
  Proof. cbn [cat w]. destruct (cat l) as [t|]; [|reflexivity]. now rewrite sapp_assoc'. Qed.

  Section Step.
    Variable N : nat.
    Variable ov : bool.
    Hypothesis IH : forall e, size e < N -> rel (same ov) (cunp ov e) (unp e) /\ rel (same ov) (cpart ov e) (fstr_part printable e).
    Notation R := (rel (same ov)).
    Lemma IHe e : size e < N -> R (cunp ov e) (unp e).
    Proof. intros H. now apply IH. Qed.
    Lemma IHl l : list_sum (map size l) < N -> Forall2 R (map (cunp ov) l) (map unp l).
    Proof. intros H. apply F2_map. intros x Hx. apply IHe. apply (sum_in size) in Hx. lia. Qed.
    Lemma IHp l : list_sum (map size l) < N -> Forall2 R (map (cpart ov) l) (map (fstr_part printable) l).
    Proof. intros H. apply F2_map. intros x Hx. apply IH. apply (sum_in size) in Hx. lia. Qed.
    Lemma arg_rel a : size_arg a < N -> R (carg ov a) (unp_arg printable a).
    Proof.
      destruct a as [x o]. cbn [size_arg cunp_arg unp_arg]. intros H. apply rel_cat. apply F2_app; [constructor; [apply rel_same|constructor]|].
      destruct o; [|constructor]. constructor; [apply rel_same|]. constructor; [now apply IHe|constructor].
    Qed.
    Lemma args_rel a : size_args a < N -> R (cargs ov a) (unp_args printable a).
    Proof.
      destruct a as [pos args va kwo kwd kwa ds]. cbn [size_args cunp_args unp_args]. intros H. apply rel_args_text.
      - apply F2_map. intros x Hx. apply arg_rel. apply (sum_in size_arg) in Hx. lia.
      - apply F2_map. intros x Hx. apply arg_rel. apply (sum_in size_arg) in Hx. lia.
      - destruct va; cbn [relo]; [|exact I]. apply arg_rel. lia.
      - apply F2_map. intros x Hx. apply arg_rel. apply (sum_in size_arg) in Hx. lia.
      - apply F2_map. intros x Hx. apply (sum_in (fun d => match d with Some e => size e | None => 0 end)) in Hx. destruct x; cbn [relo]; [|exact I]. apply IHe. lia.
      - destruct kwa; cbn [relo]; [|exact I]. apply arg_rel. lia.
      - apply IHl. lia.
    Qed.
    Lemma comp_rel g : size_comp g < N -> R (ccomp ov g) (unp_comp printable g).
    Proof.
      destruct g as [t i ifs a]. cbn [size_comp cunp_comp unp_comp]. intros H. apply rel_cat. apply F2_app.
      - constructor; [destruct a; [apply rel_kwd|apply rel_same]|]. constructor; [apply rel_kwd|]. constructor; [apply IHe; lia|]. constructor; [apply rel_kwd|]. constructor; [apply IHe; lia|constructor].
      - apply F2_map. intros x Hx. apply (sum_in size) in Hx. apply rel_cat. constructor; [apply rel_kwd|]. constructor; [apply IHe; lia|constructor].
    Qed.
    Lemma kw_rel k : size_kw k < N -> R (ckw ov k) (unp_kw printable k).
    Proof. destruct k as [x e]. cbn [size_kw cunp_kw unp_kw]. intros H. apply rel_cat. constructor; [apply rel_same|]. constructor; [now apply IHe|constructor]. Qed.
    Lemma comps_rel g : list_sum (map size_comp g) < N -> Forall2 R (map (ccomp ov) g) (map (unp_comp printable) g).
    Proof. intros H. apply F2_map. intros x Hx. apply comp_rel. apply (sum_in size_comp) in Hx. lia. Qed.
    Lemma kws_rel g : list_sum (map size_kw g) < N -> Forall2 R (map (ckw ov) g) (map (unp_kw printable) g).
    Proof. intros H. apply F2_map. intros x Hx. apply kw_rel. apply (sum_in size_kw) in Hx. lia. Qed.
    Ltac sw := apply rel_same.
    Ltac lst := repeat first [apply Forall2_nil | apply Forall2_cons; [first [apply rel_same | apply rel_kwd | (apply IHe; lia) | idtac]|]].
    Lemma spec_rel spec : match spec with Some e => size e | None => 0 end < N ->
      match (match spec with Some (EJoined l) => Some (Some (map (cpart ov) l)) | Some _ => Some None | None => None end),
            (match spec with Some (EJoined l) => Some (Some (map (fstr_part printable) l)) | Some _ => Some None | None => None end) with
      | Some (Some l), Some (Some l') => Forall2 R l l' | Some None, Some None => True | None, None => True | _, _ => False end.
    Proof. intros H. destruct spec as [e|]; [|exact I]. destruct e; try exact I. apply IHp. cbn [size] in H. lia. Qed.
    Lemma part_step e : size e <= N -> R (cpart ov e) (fstr_part printable e).
    Proof.
      intros H. destruct e as [x|c|l o r|o e|o l|l r|b t o|a b|t v|l|l|l|l|e g|e g|e g|k v g|e x|e s|f a k|e|e|e|e|lo hi st|l|v c spec]; try reflexivity.
      - destruct c; try reflexivity. cbn [cfstr_part fstr_part]. apply rel_mc0. inlist.
      - cbn [size] in H. cbn [cfstr_part fstr_part]. apply rel_formatted; [apply IHe; lia|]. apply spec_rel. lia.
    Qed.
    Lemma expr_step e : size e <= N -> R (cunp ov e) (unp e).
    Proof.
      intros H. destruct e as [x|c|l o r|o e|o l|l r|b t o|a b|t v|l|l|l|l|e g|e g|e g|k v g|e x|e s|f a k|e|e|e|e|lo hi st|l|v c spec]; cbn [size] in H; cbn [ColorModel.cunp UnparseModel.unp].
      - apply rel_name.
      - apply rel_const.
      - apply rel_cat. lst.
      - apply rel_cat. lst. destruct o; try sw. cbn [unop_text]. apply (rel_mc ov "" "not" " "). inlist.
      - apply rel_cat. apply F2_app; [lst|]. apply F2_app; [|lst]. apply rel_inter; [apply (rel_mc ov " " _ " "); inlist|]. apply IHl. lia.
      - apply rel_cat. apply F2_app; [lst|]. apply F2_app; [|lst]. apply F2_map. intros [o e] Hx. apply (sum_in (fun p => match p with (_, e) => size e end)) in Hx. cbn in Hx.
        apply rel_cat. constructor; [apply rel_cmp|]. lst.
      - apply rel_cat. lst.
      - apply rel_cat. lst. apply args_rel. lia.
      - apply rel_cat. lst.
      - apply rel_cat. apply F2_app; [lst|]. apply F2_app; [|lst]. apply rel_tuple. apply IHl. lia.
      - apply rel_cat. apply F2_app; [lst|]. apply F2_app; [|lst]. apply rel_inter; [sw|]. apply IHl. lia.
      - destruct l as [|y l]; [reflexivity|]. apply rel_cat. apply F2_app; [lst|]. apply F2_app; [|lst]. apply rel_inter; [sw|]. apply IHl. lia.
      - apply rel_cat. apply F2_app; [lst|]. apply F2_app; [|lst]. apply rel_inter; [sw|]. apply F2_map. intros [k v] Hx.
        apply (sum_in (fun p => match p with (k, v) => match k with Some e => size e | None => 0 end + size v end)) in Hx. cbn in Hx. apply rel_cat. destruct k as [k|]; lst.
      - apply rel_cat. apply F2_app; [lst|]. apply F2_app; [|lst]. apply comps_rel. lia.
      - apply rel_cat. apply F2_app; [lst|]. apply F2_app; [|lst]. apply comps_rel. lia.
      - apply rel_cat. apply F2_app; [lst|]. apply F2_app; [|lst]. apply comps_rel. lia.
      - apply rel_cat. apply F2_app; [lst|]. apply F2_app; [|lst]. apply comps_rel. lia.
      - apply rel_cat. lst.
      - apply rel_cat. apply F2_app; [lst|]. apply F2_app; [|lst].
        assert (X : Forall2 R [cunp ov s] [unp s]) by lst. destruct s as [| | | | | | | | |l| | | | | | | | | | | | | | | | | ]; try exact X. apply rel_tuple. apply IHl. cbn [size] in H. lia.
      - apply rel_cat. apply F2_app; [lst|]. apply F2_app; [|lst]. apply rel_inter; [sw|]. apply F2_app; [apply IHl; lia|apply kws_rel; lia].
      - apply rel_cat. lst.
      - apply rel_cat. lst.
      - apply rel_cat. apply F2_app; [lst|]. apply F2_app; [|lst]. destruct e; lst.
      - apply rel_cat. lst.
      - apply rel_cat. apply F2_app; [destruct lo; lst|]. apply F2_app; [lst|]. apply F2_app; [destruct hi; lst|destruct st; lst].
      - match goal with |- rel _ _ ?y => assert (E : y = cat (w ("f" ++ "'")%string :: (map (fstr_part printable) l ++ [w "'"]))) by apply cat2 end. rewrite E. clear E.
        apply rel_cat. cbn [app]. constructor; [assert (X := rel_mc ov "f" "'" "" (t_string T) ltac:(inlist)); now rewrite !sapp_nil_r in X|].
        apply F2_app; [apply IHp; lia|]. constructor; [apply rel_mc0; inlist|constructor].
      - apply rel_cat. lst. apply rel_formatted; [apply IHe; lia|]. apply spec_rel. lia.
    Qed.
  End Step.
  Lemma both_rel ov e : rel (same ov) (cunp ov e) (unp e) /\ rel (same ov) (cpart ov e) (fstr_part printable e).
  Proof.
    assert (X : forall N e, size e < N -> rel (same ov) (cunp ov e) (unp e) /\ rel (same ov) (cpart ov e) (fstr_part printable e)).
    { induction N as [|N IHN]; intros e' H; [lia|]. split; [apply (expr_step N)|apply (part_step N)]; auto; lia. }
    apply (X (S (size e))). lia.
  Qed.
  Lemma expr_rel ov e : rel (same ov) (cunp ov e) (unp e).
  Proof. apply both_rel. Qed.
  Lemma kws_rel' ov k : rel (same ov) (ckw ov k) (unp_kw printable k).
  Proof. apply (kw_rel (S (size_kw k)) ov); [intros; apply both_rel|lia]. Qed.
  Lemma args_rel' ov k : rel (same ov) (cargs ov k) (unp_args printable k).
  Proof. apply (args_rel (S (size_args k)) ov); [intros; apply both_rel|lia]. Qed.
End Proofs.
