(** The unparser's text for a covered expression reads as the expression's tokens. *)
From Verif Require Import Base UnparseModel PyGrammar UnparseSpec UnparseLex UnparseToks UnparseFstr.
Open Scope string_scope.
Open Scope list_scope.

Definition sepd (s : string) : bool := sep s && nodot s.
(** After an item of a list. *)
Definition lf (s : string) : bool := sepd s && soft s.
Lemma lf_sepd s : lf s = true -> sepd s = true.
Proof. unfold lf. intros H. apply andb_true_iff in H. tauto. Qed.
Lemma lf_soft s : lf s = true -> soft s = true.
Proof. unfold lf. intros H. apply andb_true_iff in H. tauto. Qed.
Definition is_intc (e : expr) : bool := match e with EConst (CInt _) => true | _ => false end.
(** What may follow an expression. *)
Definition FE (e : expr) (s : string) : bool := sep s && (negb (is_intc e) || nodot s).
Definition EF (s : string) : bool := starts efirst s.
Definition idf (s : string) : bool := starts is_idstart s.

Lemma sepd_FE e s : sepd s = true -> FE e s = true.
Proof. unfold sepd, FE. intros H. apply andb_true_iff in H as [-> ->]. now rewrite orb_true_r. Qed.
Lemma EF_soft s : EF s = true -> soft s = true.
Proof.
  destruct s as [|c r]; [reflexivity|]. unfold EF. cbn [starts soft]. intros H. destruct (has_char c "=*/<>") eqn:E; [|reflexivity].
  apply has_char_in in E. cbn in E. destruct E as [<-|[<-|[<-|[<-|[<-|[]]]]]]; discriminate.
Qed.
Lemma idf_soft s : idf s = true -> soft s = true.
Proof. intros H. apply EF_soft. destruct s; [discriminate|]. unfold idf, EF in *. cbn [starts] in *. unfold efirst. now rewrite H. Qed.

Section Text.
  Variable read : string -> string.
  Variable printable : ascii -> bool.
  Notation step := (step read).
  Notation steps := (steps read).
  Notation unp := (unp printable).
  Notation ok := (ok read).
  Notation LT := (LT read).

  Lemma kw_step x rest : smem x keywords = true -> sep rest = true -> step (x ++ rest) = Some (Some (TKw x), rest).
  Proof.
    intros Hx Hr. apply andb_true_iff in Hr as [Hr1 Hr2]. apply negb_true_iff in Hr1, Hr2.
    assert (K : match x with "" => false | String c r => is_idstart c && all_chars is_idchar x end = true).
    { apply smem_In in Hx. cbn [keywords In] in Hx. repeat (destruct Hx as [<-|Hx]; [reflexivity|]). destruct Hx. }
    destruct x as [|c x]; [discriminate|]. apply andb_true_iff in K as [Hc K].
    assert (Hs : span is_idchar (String c x ++ rest) = (String c x, rest)) by (apply span_app; auto).
    unfold PyGrammar.step. cbn [append]. cbn [append] in Hs.
    assert (H1 : Ascii.eqb c " " = false). { destruct (Ascii.eqb_spec c " "); [subst; discriminate|reflexivity]. }
    assert (H2 : Nat.eqb (nat_of_ascii c) 10 = false).
    { destruct (Nat.eqb_spec (nat_of_ascii c) 10) as [E|]; [|reflexivity]. unfold is_idstart, between in Hc. rewrite E in Hc. discriminate. }
    rewrite H1, H2, Hc, Hs, Hr2, Hx. reflexivity.
  Qed.

  Lemma LT_lit x ts (F H : string -> bool) : (forall rest, F rest = true -> steps (x ++ rest) ts rest) -> (forall rest, H (x ++ rest)%string = true) -> LT (w x) ts F H.
  Proof. intros H1 H2. exists x. split; auto. Qed.
  Ltac litsteps :=
    first
      [ apply st_nil
      | apply st_sp; litsteps
      | match goal with
        | |- UnparseLex.steps _ _ (TOp ?x :: _) _ => eapply (st_tok read x (TOp x)); [discriminate| |]; cbn [append];
            [first [reflexivity | apply hard_step; reflexivity | apply soft_step; [reflexivity|assumption] | apply dstar_step; assumption | apply dot_step; assumption] | litsteps]
        | |- UnparseLex.steps _ _ (TKw ?x :: _) _ => eapply (st_tok read x (TKw x)); [discriminate| |];
            [first [reflexivity | apply kw_step; [reflexivity|assumption]] | litsteps]
        end ].
  Ltac lit := apply LT_lit; [intros rest HF; cbn [append]; litsteps | intros; reflexivity].

  Lemma LT_binop o H : (forall r, H (String " " r) = true) -> LT (w (" " ++ binop_text o ++ " ")) (op (binop_text o)) any H.
  Proof. intros HH. apply LT_lit; [|intros rest; apply HH]. intros rest _. destruct o; cbn [binop_text append]; unfold op; litsteps. Qed.
  Lemma LT_boolop o H : (forall r, H (String " " r) = true) -> LT (w (" " ++ boolop_text o ++ " ")) [TKw (boolop_text o)] any H.
  Proof. intros HH. apply LT_lit; [|intros rest; apply HH]. intros rest _. destruct o; cbn [boolop_text append]; litsteps. Qed.
  Lemma LT_cmpop o H : (forall r, H (String " " r) = true) -> LT (w (" " ++ cmpop_text o ++ " ")) (cmptoks o) any H.
  Proof. intros HH. apply LT_lit; [|intros rest; apply HH]. intros rest _. destruct o; cbn [cmpop_text append cmptoks]; litsteps. Qed.
  Lemma LT_ident x : is_identifier x = true -> LT (w x) [TId x] sep idf.
  Proof.
    intros H. exists x. split; auto. intros rest Hr. split.
    - apply steps_one; [now destruct x|]. now apply ident_step.
    - destruct x; [discriminate|]. cbn in H |- *. apply andb_true_iff in H as [H _]. apply andb_true_iff in H as [H _]. exact H.
  Qed.

  Lemma EF_app a b : starts efirst a = true -> EF (a ++ b) = true.
  Proof. apply starts_app. Qed.
  Lemma LT_const c : const_ok read c = true -> LT (w (unp_const printable c)) [ctok c] (FE (EConst c)) EF.
  Proof.
    intros H. exists (unp_const printable c). split; auto. intros rest Hr. unfold FE in Hr. apply andb_true_iff in Hr as [Hs Hd].
    destruct c as [| | | |n|r|u s|s]; cbn [unp_const ctok].
    1-3: split; [apply steps_one; [discriminate|]; apply kw_step; [reflexivity|exact Hs] | reflexivity].
    - split; [|reflexivity]. apply steps_one; [discriminate|]. reflexivity.
    - destruct (repr_int_ok n) as (_ & H2 & _ & _). cbn in Hd. split.
      + apply steps_one; [destruct (repr_int n); [discriminate|discriminate]|]. now apply int_step.
      + apply EF_app. destruct (repr_int n); [discriminate|]. cbn [starts] in *. unfold efirst. rewrite H2. now rewrite orb_true_r.
    - cbn in H. split.
      + apply steps_one; [|now apply float_step]. intros E. unfold num_ok in H. rewrite E in H. discriminate.
      + apply EF_app. unfold num_ok in H. destruct (replace_inf r) as [|c t]; [discriminate|]. unfold scan_number in H. cbn [span] in H.
        cbn [starts]. unfold efirst. destruct (is_digit c); [now rewrite orb_true_r|].
        destruct (scan_frac (String c t)) as [? ?]. destruct (scan_exp s0) as [? ?]. destruct (scan_imag s2) as [? ?]. discriminate.
    - destruct u.
      + split; [|reflexivity]. change ("u" ++ repr_str printable s)%string with (String "u" (repr_str printable s)). apply steps_one; [discriminate|]. now apply ustr_step.
      + cbn [append]. split.
        * apply steps_one; [unfold repr_str; discriminate|]. now apply str_step.
        * assert (X := repr_str_quote printable s rest). unfold EF. destruct ((repr_str printable s ++ rest)%string); [discriminate|]. cbn [starts] in *. unfold efirst. rewrite X. now rewrite orb_true_r.
    - split; [|reflexivity]. change ("b" ++ repr_str (fun _ => false) s)%string with (String "b" (repr_str (fun _ => false) s)). apply steps_one; [discriminate|]. now apply bytes_step.
  Qed.

  (** ** Lists *)
  Definition LTi (r : res string) (t : list tok) : Prop := LT r t lf any.
  Lemma LT_inter x t rs ts : LT (w x) [t] any lf -> Forall2 LTi rs ts -> LT (cat (inter x rs)) (seps t ts) lf any.
  Proof.
    intros Hx H. induction H as [|r u rs ts Hr H IH]; [eapply LT_weaken; [apply (LT_nil read any)| |]; reflexivity|].
    destruct H as [|r' u' rs ts Hr' H].
    - apply LT_one. exact Hr.
    - change (inter x (r :: r' :: rs)) with (r :: w x :: inter x (r' :: rs)). change (seps t (u :: u' :: ts)) with (u ++ [t] ++ seps t (u' :: ts)).
      eapply LT_cons; [exact Hr|]. eapply LT_cons; [exact Hx|exact IH].
  Qed.
  Lemma LT_comma : LT (w ", ") [TOp ","] any lf.
  Proof. lit. Qed.
  Lemma LT_tuple rs ts : Forall2 LTi rs ts -> LT (cat (tuple_items rs)) (tuple_toks ts) lf any.
  Proof.
    intros H. destruct H as [|r u rs ts Hr H].
    - apply (LT_inter ", " (TOp ",") [] []); [apply LT_comma|constructor].
    - destruct H as [|r' u' rs ts Hr' H].
      + cbn [tuple_items tuple_toks]. eapply LT_cons; [exact Hr|]. apply LT_one. unfold op. lit.
      + apply (LT_inter ", " (TOp ",") (r :: r' :: rs) (u :: u' :: ts)); [apply LT_comma|]. constructor; auto.
  Qed.
  (** Pieces one after the other, each of which begins with a blank. *)
  Lemma LT_flat {A} (f : A -> res string) (g : A -> list tok) l : Forall (fun x => LT (f x) (g x) sepd sepd) l -> LT (cat (map f l)) (flat_map g l) sepd sepd.
  Proof. induction 1 as [|x l Hx H IH]; cbn [map flat_map]; [apply LT_nil|]. eapply LT_cons; eauto. Qed.

  (** ** Arguments *)
  Section Param.
    Context {A A' B B' : Type}.
    Variables (R0 RV R1 : A -> A' -> Prop) (RB : B -> B' -> Prop).
    Variables (wd : A -> option B -> A) (wd' : A' -> option B' -> A') (slash star : A) (slash' star' : A') (st ds : A -> A) (st' ds' : A' -> A').
    Definition RO {X Y} (R : X -> Y -> Prop) (x : option X) (y : option Y) : Prop := match x, y with Some a, Some b => R a b | None, None => True | _, _ => False end.
    Hypothesis Hwd : forall a a' d d', R0 a a' -> RO RB d d' -> R1 (wd a d) (wd' a' d').
    Hypothesis Hslash : R1 slash slash'.
    Hypothesis Hstar : R1 star star'.
    Hypothesis Hst : forall a a', RV a a' -> R1 (st a) (st' a').
    Hypothesis Hds : forall a a', R0 a a' -> R1 (ds a) (ds' a').
    Lemma F2_zip l l' m m' : Forall2 R0 l l' -> Forall2 (RO RB) m m' ->
      Forall2 R1 (map (fun p => wd (fst p) (snd p)) (zip l m)) (map (fun p => wd' (fst p) (snd p)) (zip l' m')).
    Proof. intros H. revert m m'. induction H; intros m m' Hm; cbn; [constructor|]. destruct Hm; cbn; constructor; auto. Qed.
    Lemma F2_length {X Y} (R : X -> Y -> Prop) l l' : Forall2 R l l' -> List.length l = List.length l'.
    Proof. induction 1; cbn; auto. Qed.
    Lemma F2_firstn {X Y} (R : X -> Y -> Prop) n l l' : Forall2 R l l' -> Forall2 R (firstn n l) (firstn n l').
    Proof. intros H. revert n. induction H; intros [|n]; cbn; constructor; auto. Qed.
    Lemma F2_skipn {X Y} (R : X -> Y -> Prop) n l l' : Forall2 R l l' -> Forall2 R (skipn n l) (skipn n l').
    Proof. intros H. revert n. induction H; intros [|n]; cbn; auto. Qed.
    Lemma F2_repeat {X Y} (R : X -> Y -> Prop) n x y : R x y -> Forall2 R (repeat x n) (repeat y n).
    Proof. intros H. induction n; cbn; auto. Qed.
    Lemma F2_map_Some l l' : Forall2 RB l l' -> Forall2 (RO RB) (map Some l) (map Some l').
    Proof. induction 1; cbn; constructor; auto. Qed.
    Lemma args_pieces_R pos pos' args args' v v' ko ko' kd kd' ka ka' df df' :
      Forall2 R0 pos pos' -> Forall2 R0 args args' -> RO RV v v' -> Forall2 R0 ko ko' -> Forall2 (RO RB) kd kd' -> RO R0 ka ka' -> Forall2 RB df df' ->
      Forall2 R1 (args_pieces wd slash star st ds pos args v ko kd ka df) (args_pieces wd' slash' star' st' ds' pos' args' v' ko' kd' ka' df').
    Proof.
      intros H1 H2 H3 H4 H5 H6 H7. unfold args_pieces.
      rewrite (F2_length _ _ _ H1), (F2_length _ _ _ H2), (F2_length _ _ _ H7).
      set (dl := repeat None _ ++ map Some df). set (dl' := repeat None _ ++ map Some df').
      assert (HD : Forall2 (RO RB) dl dl'). { apply Forall2_app; [apply F2_repeat; exact I|now apply F2_map_Some]. }
      assert (X1 := F2_zip _ _ _ _ H1 (F2_firstn _ (List.length pos') _ _ HD)). assert (X2 := F2_zip _ _ _ _ H2 (F2_skipn _ (List.length pos') _ _ HD)).
      apply Forall2_app; [exact X1|]. apply Forall2_app. { destruct X1; repeat constructor; auto. }
      apply Forall2_app; [exact X2|]. apply Forall2_app. { destruct v, v'; cbn in H3; try tauto; [repeat constructor; auto|]. destruct H4; repeat constructor; auto. }
      apply Forall2_app; [now apply F2_zip|]. destruct ka, ka'; cbn in H6; try tauto; repeat constructor; auto.
    Qed.
  End Param.
  Lemma args_text_pieces pos args v ko kd ka df :
    args_text pos args v ko kd ka df =
    cat (inter ", " (args_pieces (fun a d => with_default (a, d)) (w "/") (w "*") (fun a => cat [w "*"; a]) (fun a => cat [w "**"; a]) pos args v ko kd ka df)).
  Proof.
    assert (E : forall l, map with_default l = map (fun p => with_default (fst p, snd p)) l) by (intros; apply map_ext; intros []; reflexivity).
    unfold args_text, args_pieces. rewrite !E. reflexivity.
  Qed.

  Definition LTe (e : expr) : Prop := LT (unp e) (toks e) (FE e) EF.
  Lemma LTe_d e H : (forall s, EF s = true -> H s = true) -> LTe e -> LT (unp e) (toks e) sepd H.
  Proof. intros HH X. eapply LT_weaken; [exact X|apply sepd_FE|exact HH]. Qed.
  Lemma to_any s (H : string -> bool) : H s = true -> any s = true.
  Proof. reflexivity. Qed.
  Lemma sepd_sep s : sepd s = true -> sep s = true.
  Proof. unfold sepd. intros H. apply andb_true_iff in H. tauto. Qed.
  Lemma Forall2_maps {X Y Z} (R : Y -> Z -> Prop) (f : X -> Y) (g : X -> Z) l : Forall (fun x => R (f x) (g x)) l -> Forall2 R (map f l) (map g l).
  Proof. induction 1; cbn; constructor; auto. Qed.
  Lemma forallb_Forall_In {X} (f : X -> bool) l : forallb f l = true -> Forall (fun x => f x = true /\ In x l) l.
  Proof. intros H. rewrite forallb_forall in H. apply Forall_forall. intros x Hx. auto. Qed.

  Ltac piece F := eapply (LT_cons read _ _ _ _ F).
  Ltac pieces F := eapply (LT_app read _ _ _ _ F).
  Section Step.
    Variable N : nat.
    Hypothesis IH : forall e, size e < N -> ok e = true -> LTe e.
    Lemma IHs e : size e < N -> ok e = true -> LT (unp e) (toks e) sepd soft.
    Proof. intros. apply LTe_d; [apply EF_soft|auto]. Qed.
    Lemma IHa e : size e < N -> ok e = true -> LTi (unp e) (toks e).
    Proof. intros. eapply LT_weaken; [now apply IHs|apply lf_sepd|reflexivity]. Qed.
    Lemma IHd e : size e < N -> ok e = true -> LT (unp e) (toks e) sepd any.
    Proof. intros. eapply LT_weaken; [now apply IHs|auto|reflexivity]. Qed.
    Lemma IHe e : size e < N -> ok e = true -> LT (unp e) (toks e) sepd EF.
    Proof. intros. apply LTe_d; auto. Qed.
    Lemma starred_text e : size e < N -> ok e = true -> LTi (unp (EStarred e)) (toks (EStarred e)).
    Proof. intros H Ho. unfold LTi. cbn [UnparseModel.unp toks]. unfold op. piece soft; [lit|]. apply LT_one. eapply LT_weaken; [now apply IHs|apply lf_sepd|auto]. Qed.
    Lemma star_text e : size e < N -> match e with EStarred x => ok x | _ => ok e end = true -> LTi (unp e) (toks e).
    Proof. intros H Ho. destruct e; try (apply IHa; assumption). apply starred_text; [cbn in H; lia|exact Ho]. Qed.
    Definition oko (o : option expr) : bool := match o with Some e => ok e | None => true end.
    Definition osize (o : option expr) : nat := match o with Some e => size e | None => 0 end.
    Lemma oslice_text o : osize o < N -> oko o = true ->
      LT (cat match o with Some e => [unp e] | None => [] end) match o with Some e => toks e | None => [] end lf (fun s => soft s || EF s).
    Proof.
      intros H Ho. destruct o as [e|].
      - eapply LT_weaken; [apply LT_one; apply (IHe e); auto|apply lf_sepd|]; cbn beta. intros s ->. apply orb_true_r.
      - eapply LT_weaken; [apply (LT_nil read soft)|apply lf_soft|]; cbn beta. intros s ->. reflexivity.
    Qed.
    Lemma soft_or s : soft s || EF s = true -> soft s = true.
    Proof. intros H. apply orb_true_iff in H as [H|H]; [exact H|now apply EF_soft]. Qed.
    Lemma slice_text a b c : osize a < N -> osize b < N -> osize c < N -> oko a = true -> oko b = true -> oko c = true ->
      LT (unp (ESlice a b c)) (toks (ESlice a b c)) lf any.
    Proof.
      intros Ha Hb Hc Oa Ob Oc. cbn [UnparseModel.unp toks]. pieces lf.
      - eapply LT_weaken; [apply (oslice_text a Ha Oa)| |]; auto.
      - pieces soft.
        + apply LT_one. unfold op. lit.
        + pieces lf.
          * eapply LT_weaken; [apply (oslice_text b Hb Ob)| |]; auto. apply soft_or.
          * destruct c as [e|]; [|apply LT_nil]. piece soft; [unfold op; lit|]. apply LT_one. eapply LT_weaken; [apply (IHs e Hc Oc)|apply lf_sepd|]; auto.
    Qed.
    Lemma starred_textd e : size e < N -> ok e = true -> LT (unp (EStarred e)) (toks (EStarred e)) sepd any.
    Proof. intros H Ho. cbn [UnparseModel.unp toks]. unfold op. piece soft; [lit|]. apply LT_one. now apply IHs. Qed.
    Lemma ann_textd e star : size e < N -> match e with EStarred x => star && ok x | _ => ok e end = true -> LT (unp e) (toks e) sepd any.
    Proof. intros H Ho. destruct e; try (apply IHd; assumption). apply starred_textd; [cbn in H; lia|]. apply andb_true_iff in Ho. tauto. Qed.
    Lemma arg_text ann star a : size_arg a < N -> ok_arg read ann star a = true -> LT (unp_arg printable a) (toks_arg a) sepd idf.
    Proof.
      intros H Ho. destruct a as [x [e|]]; cbn [unp_arg toks_arg] in *; cbn [UnparseSpec.ok_arg] in Ho.
      - apply andb_true_iff in Ho as [Ho Oe]. apply andb_true_iff in Ho as [Ox _]. cbn [size_arg] in H.
        piece sep; [now apply LT_ident|]. piece any; [unfold op; lit|]. apply LT_one.
        exact (ann_textd e star H Oe).
      - piece sepd; [|apply LT_nil]. eapply LT_weaken; [now apply LT_ident| |]; auto. apply sepd_sep.
    Qed.
    Lemma kw_text k : size_kw k < N -> ok_kw read k = true -> LTi (unp_kw printable k) (toks_kw k).
    Proof.
      intros H Ho. destruct k as [[x|] e]; cbn [unp_kw toks_kw size_kw] in *; cbn [UnparseSpec.ok_kw] in Ho; apply andb_true_iff in Ho as [Ox Oe].
      - piece soft; [|apply LT_one; eapply LT_weaken; [now apply IHs|apply lf_sepd|auto]].
        assert (X : LT (cat [w x; w "="]) ([TId x] ++ [TOp "="]) soft any).
        { piece sep; [eapply LT_weaken; [now apply LT_ident| |]; auto|]. apply LT_one. lit. }
        destruct X as (s & E & X). exists (x ++ "=")%string. split; [reflexivity|]. injection E as <-. exact X.
      - piece soft; [lit|]. apply LT_one. eapply LT_weaken; [now apply IHs|apply lf_sepd|auto].
    Qed.
    Lemma comp_text g : size_comp g < N -> ok_comp read g = true -> LT (unp_comp printable g) (toks_comp g) sepd sepd.
    Proof.
      intros H Ho. destruct g as [t i ifs a]; cbn [unp_comp toks_comp size_comp] in *; cbn [UnparseSpec.ok_comp] in Ho.
      apply andb_true_iff in Ho as [Ho Oifs]. apply andb_true_iff in Ho as [Ho Oi]. apply andb_true_iff in Ho as [Ot _].
      assert (X : LT (cat ([w " for "; unp t; w " in "; unp i] ++ map (fun c => cat [w " if "; unp c]) ifs))
        ([TKw "for"] ++ toks t ++ [TKw "in"] ++ toks i ++ flat_map (fun c => [TKw "if"] ++ toks c) ifs) sepd (fun s => sepd s && sep s)).
      { piece any; [lit|]. piece sepd; [apply IHd; [lia|auto]|]. piece any; [lit|]. piece sepd; [apply IHd; [lia|auto]|].
        apply LT_flat. apply forallb_Forall_In in Oifs. eapply Forall_impl; [|exact Oifs]. cbn beta. intros c [Oc Hc].
        piece any; [lit|]. apply LT_one. apply IHd; auto. apply (sum_in size) in Hc. lia. }
      destruct a.
      - piece sep; [lit|]. eapply LT_weaken; [exact X| |]; auto. cbn beta. intros s Hs. apply andb_true_iff in Hs. tauto.
      - apply LT_empty. eapply LT_weaken; [exact X| |]; auto. cbn beta. intros s Hs. apply andb_true_iff in Hs. tauto.
    Qed.
    Lemma comps_text g : list_sum (map size_comp g) < N -> forallb (ok_comp read) g = true -> LT (cat (map (unp_comp printable) g)) (flat_map toks_comp g) sepd sepd.
    Proof.
      intros H Ho. apply LT_flat. apply forallb_Forall_In in Ho. eapply Forall_impl; [|exact Ho]. cbn beta. intros c [Oc Hc]. apply comp_text; auto.
      apply (sum_in size_comp) in Hc. lia.
    Qed.
    Lemma args_text_ok ann a : size_args a < N -> ok_args read ann a = true -> LTi (unp_args printable a) (toks_args a).
    Proof.
      intros H Ho. destruct a as [pos args v ko kd ka df]. cbn [unp_args toks_args size_args] in *; cbn [UnparseSpec.ok_args] in Ho.
      repeat (apply andb_true_iff in Ho as [Ho ?]).
      rewrite args_text_pieces. apply LT_inter; [apply LT_comma|]. unfold args_toks.
      assert (AR : forall l, list_sum (map size_arg l) < N -> forallb (ok_arg read ann false) l = true ->
                     Forall2 (fun r t => LT r t sepd idf) (map (unp_arg printable) l) (map toks_arg l)).
      { intros l Hl Ol. apply Forall2_maps. apply forallb_Forall_In in Ol. eapply Forall_impl; [|exact Ol]. cbn beta. intros c [Oc Hc].
        apply (arg_text ann false); auto. apply (sum_in size_arg) in Hc. lia. }
      apply (args_pieces_R (fun r t => LT r t sepd idf) (fun r t => LT r t sepd idf) LTi (fun r t => LT r t sepd EF)).
      - intros a a' d d' Ha Hd. destruct d as [d|], d' as [d'|]; cbn in Hd; try tauto; cbn [with_default wd_toks].
        + unfold LTi. change (TOp "=" :: d') with ([TOp "="] ++ d'). piece sepd; [eapply LT_weaken; [exact Ha| |]; auto|].
          piece soft; [lit|]. apply LT_one. eapply LT_weaken; [exact Hd|apply lf_sepd|apply EF_soft].
        + eapply LT_weaken; [exact Ha|apply lf_sepd|auto].
      - unfold LTi, op. eapply (LT_weaken read _ _ soft any); [lit|apply lf_soft|auto].
      - unfold LTi, op. eapply (LT_weaken read _ _ soft any); [lit|apply lf_soft|auto].
      - intros a a' Ha. unfold LTi. change (TOp "*" :: a') with ([TOp "*"] ++ a'). piece soft; [lit|]. apply LT_one. eapply LT_weaken; [exact Ha|apply lf_sepd|apply idf_soft].
      - intros a a' Ha. unfold LTi. change (TOp "**" :: a') with ([TOp "**"] ++ a'). piece soft; [lit|]. apply LT_one. eapply LT_weaken; [exact Ha|apply lf_sepd|apply idf_soft].
      - apply AR; auto. lia.
      - apply AR; auto. lia.
      - destruct v as [a|]; cbn; auto. eapply arg_text; eauto. lia.
      - apply AR; auto. lia.
      - assert (Q : Forall (fun o => RO (fun r t => LT r t sepd EF) (match o with Some d => Some (unp d) | None => None end) (match o with Some d => Some (toks d) | None => None end)) kd).
        { match goal with X : forallb _ kd = true |- _ => apply forallb_Forall_In in X; eapply Forall_impl; [|exact X] end. cbn beta. intros [d|] [Od Hd]; cbn; auto.
          apply IHe; auto. apply (sum_in (fun d => match d with Some e => size e | None => 0 end)) in Hd. lia. }
        now apply Forall2_maps.
      - destruct ka as [a|]; cbn; auto. eapply arg_text; eauto. lia.
      - apply Forall2_maps. match goal with X : forallb _ df = true |- _ => apply forallb_Forall_In in X; eapply Forall_impl; [|exact X] end. cbn beta. intros d [Od Hd].
        apply IHe; auto. apply (sum_in size) in Hd. lia.
    Qed.
    Lemma list_text l : list_sum (map size l) < N -> forallb (fun e => match e with EStarred x => ok x | _ => ok e end) l = true -> Forall2 LTi (map unp l) (map toks l).
    Proof.
      intros H Ho. apply Forall2_maps. apply forallb_Forall_In in Ho. eapply Forall_impl; [|exact Ho]. cbn beta. intros c [Oc Hc].
      apply star_text; auto. apply (sum_in size) in Hc. lia.
    Qed.
    Lemma okslice_text e : size e < N ->
      match e with ESlice a b c => oko a && oko b && oko c | EStarred x => ok x | _ => ok e end = true -> LTi (unp e) (toks e).
    Proof.
      intros H Ho. destruct e; try (apply IHa; assumption); [apply starred_text; [cbn in H; lia|exact Ho]|].
      apply andb_true_iff in Ho as [Ho Oc]. apply andb_true_iff in Ho as [Oa Ob]. cbn [size] in H.
      apply slice_text; auto; unfold osize; lia.
    Qed.
    Lemma sub_text s : size s < N ->
      match s with
      | ETuple l => nonempty l && forallb (fun e => match e with ESlice a b c => oko a && oko b && oko c | EStarred x => ok x | _ => ok e end) l
      | ESlice _ _ _ => match s with ESlice a b c => oko a && oko b && oko c | EStarred x => ok x | _ => ok s end
      | _ => ok s
      end = true ->
      LT (cat (match s with ETuple l => tuple_items (map unp l) | _ => [unp s] end)) (match s with ETuple l => tuple_toks (map toks l) | _ => toks s end) lf any.
    Proof.
      intros H Ho. destruct s; try (apply LT_one; apply IHa; assumption).
      - apply andb_true_iff in Ho as [_ Ho]. apply LT_tuple. apply Forall2_maps. apply forallb_Forall_In in Ho. eapply Forall_impl; [|exact Ho]. cbn beta. intros c [Oc Hc].
        apply okslice_text; auto. apply (sum_in size) in Hc. cbn [size] in H. lia.
      - apply LT_one. apply (okslice_text (ESlice lo hi st)); auto.
    Qed.
    Lemma value_text v : size v < N -> ok v = true -> braced v = false -> exists s, unp v = Ok s /\ VT read s (toks v).
    Proof.
      intros Hs Ho Hb. destruct (IHe v Hs Ho) as (s & E & X). exists s. split; [exact E|].
      assert (V : forall r, vf r = true -> sepd r = true).
      { intros [|c r] Hr; [discriminate|]. unfold vf in Hr. cbn [starts] in Hr. apply has_char_in in Hr. cbn in Hr. destruct Hr as [<-|[<-|[<-|[]]]]; reflexivity. }
      split; [|split].
      - intros r Hr. now apply X, V.
      - eapply toks_drun; eauto.
      - intros r. destruct (X "}" eq_refl) as [S1 S2]. destruct s as [|c s]; [discriminate|]. cbn [append starts]. destruct (Ascii.eqb_spec "{" c) as [<-|]; [exfalso|reflexivity].
        destruct (toks_unbraced read v Ho Hb) as (t & ts & Et & Ht). rewrite Et in S1. apply Ht. cbn [append] in S1.
        remember (String "{" (s ++ "}")) as w0 eqn:Ew. remember (t :: ts) as tt eqn:Ett. destruct S1 as [|x t' r' ts' q Hx Hf _|]; [discriminate| |discriminate].
        injection Ett as <- <-. rewrite Ew in Hf. specialize (Hf _ (le_S _ _ (le_n _))). rewrite fstep_brace in Hf. congruence.
    Qed.
    Lemma conv_text z : conv_ok z = true -> conversion_text z = Ok (conv_txt z).
    Proof.
      unfold conv_ok, conversion_text, conv_txt. destruct (Z.eqb z 115); [reflexivity|]. destruct (Z.eqb z 114); [reflexivity|]. destruct (Z.eqb z 97); [reflexivity|].
      destruct (Z.eqb z (-1)); [reflexivity|discriminate].
    Qed.
    Lemma fstr_part_field v c spec : fstr_part printable (EFormatted v c spec) =
      formatted (unp v) c (match spec with Some (EJoined l) => Some (Some (map (fstr_part printable) l)) | Some _ => Some None | None => None end).
    Proof. reflexivity. Qed.
    Lemma parts_text : forall M l lvl, list_sum (map size l) < M -> M <= N -> forallb (ok_part read lvl) l = true -> alternating l = true ->
      exists s, cat (map (fstr_part printable) l) = Ok s /\ FT read lvl s (map toks_part l).
    Proof.
      induction M as [|M IHM]; [lia|]. intros l. induction l as [|e l IHl]; intros lvl Hs HM Ho Ha; [exists ""; split; [reflexivity|constructor]|].
      cbn [forallb] in Ho. apply andb_true_iff in Ho as [Oe Ol]. cbn [map list_sum fold_right] in Hs. change (fold_right Nat.add 0 (map size l)) with (list_sum (map size l)) in Hs.
      assert (Al : alternating l = true) by (cbn [alternating] in Ha; destruct e; try exact Ha; destruct l as [|[] ]; try exact Ha; discriminate).
      destruct (IHl lvl) as (s & Es & Fs); [lia|exact HM|exact Ol|exact Al|]. cbn [map cat].
      destruct e; try discriminate Oe.
      - destruct c as [| | | | | |u t|]; try discriminate Oe. destruct u; [discriminate|]. cbn [fstr_part w]. rewrite Es. eexists. split; [reflexivity|]. cbn [toks_part].
        apply FT_text; [exact Oe| |exact Fs]. destruct l as [|e' l]; [exact I|]. cbn [alternating] in Ha. cbn [forallb] in Ol. apply andb_true_iff in Ol as [O' _].
        destruct e'; try discriminate O'; [discriminate Ha|exact I].
      - rename e into v, conv into z. cbn [ok_part] in Oe. repeat (apply andb_true_iff in Oe as [Oe ?]). apply Nat.ltb_lt in Oe. cbn [size] in Hs.
        destruct (value_text v) as (tv & Ev & Vv); [lia|assumption|now apply negb_true_iff|].
        rewrite fstr_part_field, Ev. unfold formatted. rewrite conv_text by assumption. cbn [cat w]. destruct spec as [sp|].
        + destruct sp; try discriminate. rename l0 into m. match goal with X : nonempty m && _ && _ = true |- _ => apply andb_true_iff in X as [X Om]; apply andb_true_iff in X as [Nm Am] end.
          destruct (IHM m (S lvl)) as (sm & Em & Fm); [cbn [size] in Hs; lia|lia|exact Om|exact Am|].
          cbn [cat]. rewrite Em, Es. eexists. split; [reflexivity|]. destruct m as [|x m]; [discriminate|]. cbn [map toks_part] in Fm |- *.
          rewrite !sapp_nil. cbn [append]. rewrite !sapp_assoc. cbn [append]. rewrite ?sapp_assoc. cbn [append]. eapply FT_spec; eauto.
        + rewrite Es. eexists. split; [reflexivity|]. cbn [toks_part append]. rewrite !sapp_assoc. cbn [append]. eapply FT_field; eauto.
    Qed.
    Lemma text_step e : size e <= N -> ok e = true -> LTe e.
    Proof.
      intros Hs Ho. unfold LTe. destruct e; cbn [size] in Hs; cbn [UnparseSpec.ok] in Ho; cbn [UnparseModel.unp toks]; unfold op.
      - (* Name *) eapply LT_weaken; [now apply LT_ident| |].
        + intros s Hs'. unfold FE in Hs'. apply andb_true_iff in Hs'. tauto.
        + intros [|c s]; [discriminate|]. unfold idf, EF, efirst. cbn [starts]. now intros ->.
      - now apply LT_const.
      - (* BinOp *) apply andb_true_iff in Ho as [O1 O2]. piece any; [lit|]. piece sepd; [apply IHd; [lia|auto]|]. piece any; [apply LT_binop; reflexivity|].
        piece sepd; [apply IHd; [lia|auto]|]. apply LT_one. lit.
      - (* Unary *) piece any; [lit|]. destruct o; cbn [unop_text].
        1,3,4: piece soft; [lit|]; piece sepd; [apply IHs; [lia|auto]|]; apply LT_one; lit.
        piece any; [lit|]. piece sepd; [apply IHd; [lia|auto]|]. apply LT_one. lit.
      - (* Bool *) apply andb_true_iff in Ho as [_ Ho]. piece any; [lit|]. pieces lf; [|apply LT_one; lit].
        apply LT_inter; [apply LT_boolop; reflexivity|]. apply Forall2_maps. apply forallb_Forall_In in Ho. eapply Forall_impl; [|exact Ho]. cbn beta. intros c [Oc Hc].
        apply IHa; auto. apply (sum_in size) in Hc. lia.
      - (* Compare *) apply andb_true_iff in Ho as [Ho O3]. apply andb_true_iff in Ho as [O1 _]. piece any; [lit|]. piece sepd; [apply IHd; [lia|auto]|].
        pieces sepd; [|apply LT_one; lit]. apply LT_flat. apply forallb_Forall_In in O3. eapply Forall_impl; [|exact O3]. cbn beta. intros [o e'] [Oc Hc].
        piece any; [apply LT_cmpop; reflexivity|]. apply LT_one. apply IHd; auto. apply (sum_in (fun p => match p with (_, e) => size e end)) in Hc. lia.
      - (* IfExp *) apply andb_true_iff in Ho as [Ho O3]. apply andb_true_iff in Ho as [O1 O2]. piece any; [lit|]. piece sepd; [apply IHd; [lia|auto]|]. piece any; [lit|].
        piece sepd; [apply IHd; [lia|auto]|]. piece any; [lit|]. piece sepd; [apply IHd; [lia|auto]|]. apply LT_one. lit.
      - (* Lambda *) apply andb_true_iff in Ho as [O1 O2]. piece any; [lit|]. destruct (takes_arguments a) eqn:T.
        + piece sep; [lit|]. change (toks_args a ++ [TOp ":"] ++ toks e ++ [TOp ")"]) with ([] ++ (toks_args a ++ [TOp ":"] ++ toks e ++ [TOp ")"])). piece any; [lit|].
          piece lf; [apply (args_text_ok false); [lia|auto]|]. piece any; [lit|]. piece sepd; [apply IHd; [lia|auto]|]. apply LT_one. lit.
        + piece sep; [lit|]. apply LT_empty.
          assert (E1 : unp_args printable a = w "" /\ toks_args a = []).
          { destruct a as [[|] [|] [|] [|] kd [|] df]; try discriminate. cbn [unp_args toks_args map]. split; reflexivity. }
          destruct E1 as [E1 ->].
          assert (E2 : forall l, cat (unp_args printable a :: l) = cat (w "" :: l)) by (intros; now rewrite E1). change (LT (cat (unp_args printable a :: [w ": "; unp e; w ")"])) ([TOp ":"] ++ toks e ++ [TOp ")"]) (FE (ELambda a e)) sep).
          rewrite E2. apply LT_empty. piece any; [lit|]. piece sepd; [apply IHd; [lia|auto]|]. apply LT_one. lit.
      - (* Named *) apply andb_true_iff in Ho as [O1 O2]. destruct e1; try discriminate. piece any; [lit|].
        piece sepd; [apply IHd; [lia|auto]|]. piece any; [lit|]. piece sepd; [apply IHd; [lia|auto]|]. apply LT_one. lit.
      - (* Tuple *) piece any; [lit|]. pieces lf; [|apply LT_one; lit]. apply LT_tuple. apply list_text; [lia|auto].
      - (* List *) piece any; [lit|]. pieces lf; [|apply LT_one; lit]. apply LT_inter; [apply LT_comma|]. apply list_text; [lia|auto].
      - (* Set *) apply andb_true_iff in Ho as [O1 O2]. destruct l as [|x l]; [discriminate|].
        piece any; [lit|]. pieces lf; [|apply LT_one; lit]. apply LT_inter; [apply LT_comma|]. apply list_text; [lia|auto].
      - (* Dict *) piece any; [lit|]. pieces lf; [|apply LT_one; lit]. apply LT_inter; [apply LT_comma|]. apply Forall2_maps.
        apply forallb_Forall_In in Ho. eapply Forall_impl; [|exact Ho]. cbn beta. intros [[k|] v] [Oc Hc]; [|discriminate].
        apply (sum_in (fun p => match p with (k, v) => match k with Some e => size e | None => 0 end + size v end)) in Hc. apply andb_true_iff in Oc as [O1 O2].
        piece sepd; [apply IHd; [lia|auto]|]. piece any; [lit|]. apply LT_one. apply IHa; [lia|auto].
      - (* ListComp *) apply andb_true_iff in Ho as [Ho O3]. apply andb_true_iff in Ho as [O1 _]. piece any; [lit|]. piece sepd; [apply IHd; [lia|auto]|].
        pieces sepd; [apply comps_text; [lia|auto]|apply LT_one; lit].
      - apply andb_true_iff in Ho as [Ho O3]. apply andb_true_iff in Ho as [O1 _]. piece any; [lit|]. piece sepd; [apply IHd; [lia|auto]|].
        pieces sepd; [apply comps_text; [lia|auto]|apply LT_one; lit].
      - apply andb_true_iff in Ho as [Ho O3]. apply andb_true_iff in Ho as [O1 _]. piece any; [lit|]. piece sepd; [apply IHd; [lia|auto]|].
        pieces sepd; [apply comps_text; [lia|auto]|apply LT_one; lit].
      - apply andb_true_iff in Ho as [Ho O3]. apply andb_true_iff in Ho as [Ho _]. apply andb_true_iff in Ho as [O1 O2].
        piece any; [lit|]. piece sepd; [apply IHd; [lia|auto]|]. piece any; [lit|]. piece sepd; [apply IHd; [lia|auto]|].
        pieces sepd; [apply comps_text; [lia|auto]|apply LT_one; lit].
      - (* Attr *) apply andb_true_iff in Ho as [O1 O2].
        assert (X : LT (cat [w "."; w x]) ([TOp "."] ++ [TId x]) sep (fun s => match s with String c _ => Ascii.eqb c "." | "" => false end)).
        { piece idf; [lit|]. apply LT_one. now apply LT_ident. }
        assert (FX : forall s, FE (EAttr e x) s = true -> sep s = true). { intros s Hs'. unfold FE in Hs'. apply andb_true_iff in Hs'. tauto. }
        destruct (is_int e) eqn:I.
        + piece sepd; [apply IHe; [lia|auto]|]. change ([TOp "."] ++ [TId x]) with ([] ++ [TOp "."] ++ [TId x]).
          piece any; [lit|]. eapply LT_weaken; [exact X|exact FX|auto].
        + piece (FE e); [apply IH; [lia|auto]|]. apply LT_empty. eapply LT_weaken; [exact X|exact FX|].
          intros [|c s]; [discriminate|]. intros E. apply Ascii.eqb_eq in E as ->. unfold FE.
          destruct e; try reflexivity. destruct c; try reflexivity; discriminate.
      - (* Sub *) apply andb_true_iff in Ho as [O1 O2]. piece sepd; [apply IHe; [lia|auto]|]. piece any; [lit|].
        pieces lf; [|apply LT_one; lit]. apply sub_text; [lia|exact O2].
      - (* Call *) apply andb_true_iff in Ho as [Ho O3]. apply andb_true_iff in Ho as [O1 O2]. piece sepd; [apply IHe; [lia|auto]|]. piece any; [lit|].
        pieces lf; [|apply LT_one; lit]. apply LT_inter; [apply LT_comma|]. apply Forall2_app; [apply list_text; [lia|auto]|].
        apply Forall2_maps. apply forallb_Forall_In in O3. eapply Forall_impl; [|exact O3]. cbn beta. intros k [Ok Hk]. apply kw_text; auto.
        apply (sum_in size_kw) in Hk. lia.
      - discriminate.
      - (* Await *) piece any; [lit|]. piece sep; [lit|]. change (toks e ++ [TOp ")"]) with ([] ++ toks e ++ [TOp ")"]). piece any; [lit|].
        piece sepd; [apply IHd; [lia|auto]|]. apply LT_one. lit.
      - (* Yield *) piece any; [lit|]. destruct e as [e|].
        + piece sep; [lit|]. cbn [app]. change (toks e ++ [TOp ")"]) with ([] ++ toks e ++ [TOp ")"]). piece any; [lit|].
          piece lf; [apply star_text; [lia|exact Ho]|]. apply LT_one. lit.
        + piece sep; [lit|]. cbn [app]. apply LT_one. lit.
      - (* YieldFrom *) piece any; [lit|]. piece sep; [lit|]. change (toks e ++ [TOp ")"]) with ([] ++ toks e ++ [TOp ")"]). piece any; [lit|].
        piece sepd; [apply IHd; [lia|auto]|]. apply LT_one. lit.
      - discriminate.
      - (* JoinedStr *) apply andb_true_iff in Ho as [O1 O2]. destruct (parts_text (S (list_sum (map size l))) l 0) as (s & Es & Fs); [lia|lia|exact O2|exact O1|].
        exists (String "f" (String sq (s ++ one sq))). split.
        + change (cat (w "f" :: w "'" :: (map (fstr_part printable) l ++ [w "'"])) = Ok (String "f" (String sq (s ++ one sq)))). cbn [cat w]. rewrite cat_app, Es. cbn [cat w append]. reflexivity.
        + intros rest Hr. unfold FE in Hr. apply andb_true_iff in Hr as [Hr _]. split; [|reflexivity]. cbn [append]. rewrite sapp_assoc. cbn [append one]. now apply fstring_steps.
      - discriminate.
    Qed.
  End Step.
  Theorem text_ok e : ok e = true -> LTe e.
  Proof.
    assert (X : forall N e, size e <= N -> ok e = true -> LTe e).
    { induction N as [|N IH]; intros x Hs Ho; [destruct x; cbn in Hs; lia|]. apply (text_step (S N)); auto. intros y Hy. apply IH. lia. }
    intros. eapply X; eauto.
  Qed.
End Text.
