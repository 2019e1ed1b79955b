(** What the expander does at a node that invokes a macro, and at one that does not. *)
From Verif Require Import Base AstLib UtilsModel FixLocModel ExpanderModel ExpanderSpec ExpanderProofs ExpanderProofs2.

Section Next.
  Context {U : Type}.
  Variable E : env U.

  (** What is done with the outcome of [expand]. *)
  Definition same_name (x : string) (r : ltree) : bool :=
    match r with
    | Nd _ k' fs' => String.eqb k' "Name" && match str_attr "id" fs' with XOk y => String.eqb y x | _ => false end
    | _ => false
    end.
  Definition after (n : nat) (c : ltree) (x : string) (i : minput) : @comp U ltree :=
    if String.eqb (in_syntax i) "expr" then
      bnd (expand E n (visit E n) x i) (fun r => ret (if is_none r then dummy_expr (loc_of (in_target i)) else r))
    else if String.eqb (in_syntax i) "block" then
      bnd (expand E n (visit E n) x i) (fun r => of_res (insert_dummy (x_text E (loc_of (in_target i)) x) (loc_of (in_target i)) r))
    else if String.eqb (in_syntax i) "decorator" then
      bnd (expand E n (visit E n) x i) (fun r => of_res (insert_dummy (x_text E (loc_of c) x) (loc_of c) r))
    else
      bnd (with_mode false (expand E n (visit E n) x i)) (fun r =>
        if is_none r then ret (dummy_expr (loc_of (in_target i)))
        else if same_name x r then ret (done r)
        else fun s' => if s_rec s' then visit E n r s' else Some (XOk r, s')).

  Lemma shaped_items m fs items : shaped (Nd m "With" fs) -> getf "items" fs = Some (Ls items) ->
    Forall (fun it => exists mi fi c ov, it = Nd mi "withitem" fi /\ getf "context_expr" fi = Some c /\ getf "optional_vars" fi = Some ov /\ shaped c) items.
  Proof.
    intros Hs Hi. pose proof (Hs _ (pt_refl _)) as [_ Hw]. specialize (Hw eq_refl _ Hi). rewrite Forall_forall in Hw. apply Forall_forall. intros it Hit. specialize (Hw it Hit).
    destruct it as [mi ki fi| |]; try discriminate. cbn in Hw. subst ki.
    assert (Hsi : shaped (Nd mi "withitem" fi)). { apply (shaped_part _ _ Hs). eapply pt_field; [discriminate|apply getf_In; exact Hi|]. eapply pt_elem; [exact Hit|constructor]. }
    destruct (shaped_field _ _ _ "context_expr" FAny Hsi ltac:(gram)) as [c Hc]. destruct (shaped_field _ _ _ "optional_vars" FAny Hsi ltac:(gram)) as [ov Hov].
    exists mi, fi, c, ov. split; [reflexivity|]. split; [exact Hc|]. split; [exact Hov|]. eapply shaped_get; [exact Hsi|discriminate|exact Hc].
  Qed.
  Lemma shaped_decs m k fs ds : shaped (Nd m k fs) -> k <> "Done"%string -> getf "decorator_list" fs = Some (Ls ds) -> Forall shaped ds.
  Proof.
    intros Hs Hd Hi. apply Forall_forall. intros c Hc. apply (shaped_part _ _ Hs). eapply pt_field; [exact Hd|apply getf_In; exact Hi|]. eapply pt_elem; [exact Hc|constructor].
  Qed.
  Lemma item_macro_iff b it mi fi c : it = Nd mi "withitem" fi -> getf "context_expr" fi = Some c ->
    (item_macro E b true it <-> macro_item E b it).
  Proof.
    intros -> Hc. unfold item_macro, macro_item. cbn. rewrite (attr_ok _ _ _ Hc). split.
    - intros [c' [x [args [H1 H2]]]]. inversion H1; subst. exists mi, "withitem"%string, fi, c', x, args. auto.
    - intros [m [k [fs [c' [x [args [H1 [H2 H3]]]]]]]]. inversion H1; subst. exists c', x, args. split; [congruence|exact H3].
  Qed.
  Lemma dec_macro_iff b c : item_macro E b false c <-> macro_dec E b c.
  Proof.
    unfold item_macro, macro_dec. cbn. split.
    - intros [c' [x [args [H1 H2]]]]. inversion H1; subst. eauto.
    - intros [x [args H]]. exists c, x, args. auto.
  Qed.

  Lemma remove_at_app {A} (a : list A) x c : remove_at (List.length a) (a ++ x :: c) = a ++ c.
  Proof.
    unfold remove_at. induction a as [|y a IH]; [reflexivity|]. cbn in *. f_equal. exact IH.
  Qed.
  Lemma nth_mid {A} (a : list A) x c : nth_error (a ++ x :: c) (List.length a) = Some x.
  Proof. rewrite nth_error_app2 by lia. rewrite Nat.sub_diag. reflexivity. Qed.

  (** The position of the first macro item. *)
  Lemma flags_first {A} (Q : A -> Prop) items flags : Forall2 (fun it (f : bool) => f = true <-> Q it) items flags ->
    match first_true flags with
    | Some i => exists a it c, items = a ++ it :: c /\ List.length a = i /\ Forall (fun x => ~ Q x) a /\ Q it
    | None => Forall (fun x => ~ Q x) items
    end.
  Proof.
    induction 1 as [|it f items flags Hit _ IH]; cbn [first_true]; [constructor|]. destruct f.
    - exists [], it, items. split; [reflexivity|]. split; [reflexivity|]. split; [constructor|apply Hit; reflexivity].
    - assert (Hn : ~ Q it) by (intros Hq; apply Hit in Hq; discriminate).
      destruct (first_true flags) as [i|]; [|constructor; assumption]. destruct IH as [a [it' [c [-> [H1 [H2 H3]]]]]].
      exists (it :: a), it', c. cbn. split; [reflexivity|]. split; [congruence|]. split; [constructor; assumption|assumption].
  Qed.
  Lemma flags_last {A} (Q : A -> Prop) items flags : Forall2 (fun it (f : bool) => f = true <-> Q it) items flags ->
    match last_true flags with
    | Some i => exists a it c, items = a ++ it :: c /\ List.length a = i /\ Forall (fun x => ~ Q x) c /\ Q it
    | None => Forall (fun x => ~ Q x) items
    end.
  Proof.
    induction 1 as [|it f items flags Hit HF IH]; cbn [last_true]; [constructor|].
    destruct (last_true flags) as [i|].
    - destruct IH as [a [it' [c [-> [H1 [H2 H3]]]]]]. exists (it :: a), it', c. cbn. split; [reflexivity|]. split; [congruence|]. auto.
    - destruct f.
      + exists [], it, items. split; [reflexivity|]. split; [reflexivity|]. split; [exact IH|apply Hit; reflexivity].
      + constructor; [|exact IH]. intros Hq; apply Hit in Hq; discriminate.
  Qed.
  Lemma split_first_unique {A} (Q : A -> Prop) a x c a' x' c' :
    a ++ x :: c = a' ++ x' :: c' -> Forall (fun y => ~ Q y) a -> Forall (fun y => ~ Q y) a' -> Q x -> Q x' -> a = a' /\ x = x' /\ c = c'.
  Proof.
    revert a'. induction a as [|y a IH]; intros [|y' a'] H Ha Ha' Hx Hx'; cbn in H; inversion H; subst.
    - auto.
    - exfalso. inversion Ha'; subst. auto.
    - exfalso. inversion Ha; subst. auto.
    - inversion Ha; subst. inversion Ha'; subst. destruct (IH a' ltac:(assumption) ltac:(assumption) ltac:(assumption) Hx Hx') as [-> [-> ->]]. auto.
  Qed.
  Lemma split_last_unique {A} (Q : A -> Prop) (a : list A) x c a' x' c' :
    a ++ x :: c = a' ++ x' :: c' -> Forall (fun y => ~ Q y) c -> Forall (fun y => ~ Q y) c' -> Q x -> Q x' -> a = a' /\ x = x' /\ c = c'.
  Proof.
    revert a'. induction a as [|y a IH]; intros [|y' a'] H Hc Hc' Hx Hx'; cbn in H; inversion H; subst.
    - auto.
    - exfalso. rewrite Forall_forall in Hc. apply (Hc x'); [|assumption]. apply in_app_iff. right. left. reflexivity.
    - exfalso. rewrite Forall_forall in Hc'. apply (Hc' x); [|assumption]. apply in_app_iff. right. left. reflexivity.
    - destruct (IH a' ltac:(assumption) Hc Hc' Hx Hx') as [-> [-> ->]]. auto.
  Qed.
  Lemma names_macro_fun b c x args x' args' : shaped c -> names_macro E b c x args -> names_macro E b c x' args' -> x = x' /\ args = args'.
  Proof.
    intros Hs [H1 _] [H2 _]. destruct (destructure_spec c Hs) as [d [_ Hd]]. apply Hd in H1. apply Hd in H2. rewrite H1 in H2. inversion H2; auto.
  Qed.

  Lemma names_bound b c x args : names_macro E b c x args -> b <> [] /\ exists j, isbound b x = Some j.
  Proof.
    intros [_ [_ [i [Hb _]]]]. split; [|exists i; apply isbound_iff; exact Hb]. destruct Hb as [b1 [b2 [-> _]]]. destruct b1; discriminate.
  Qed.
  Lemma next_bound b t c x i : next_call E b t c x i -> b <> [] /\ exists j, isbound b x = Some j.
  Proof.
    intros H. inversion H; subst; try (eapply names_bound; eassumption).
    match goal with Hb : bound _ _ _ |- _ => split; [destruct Hb as [b1 [b2 [-> _]]]; destruct b1; discriminate|eexists; apply isbound_iff; exact Hb] end.
  Qed.
  Lemma next_kind b t c x i : next_call E b t c x i -> is_kind "Done" t = false /\ is_node t = true /\ in_target i = t.
  Proof. intros H. inversion H; subst; try (split; [reflexivity|split; reflexivity]). match goal with Hk : _ \/ _ |- _ => destruct Hk as [->| ->] end; split; auto. Qed.

  Lemma visit_next n s t c x i : shaped t -> next_call E (s_b s) t c x i ->
    (bad_call c -> visit E (S n) t s = Some (XRaise syntax_error, s)) /\
    (~ bad_call c -> visit E (S n) t s = after n c x i s).
  Proof.
    intros Hs Hnc. destruct (next_bound _ _ _ _ _ Hnc) as [Hne _]. destruct (next_kind _ _ _ _ _ Hnc) as [Hnd _].
    cbn [visit]. unfold visit_body. rewrite Hnd. replace (match s_b s with [] => true | _ => false end || false) with false by (destruct (s_b s); [contradiction|reflexivity]).
    inversion Hnc; subst; cbn [is_kind] in Hnd.
    - (* expr *)
      match goal with Hv : getf "value" fs = Some c, Hsl : getf "slice" fs = Some sl, Hm : names_macro _ _ _ _ _ |- _ => rename Hv into Hv0; rename Hsl into Hsl0; rename Hm into Hm0 end.
      cbn [String.eqb Ascii.eqb Bool.eqb]. unfold visit_Subscript. rewrite (attr_ok _ _ _ Hv0).
      pose proof (shaped_get _ _ _ _ _ Hs ltac:(discriminate) Hv0) as Hsc. destruct (destructure_spec c Hsc) as [d [E1 Hd]]. rewrite E1.
      pose proof (proj1 (names_macro_iff E (s_b s) c x args d "expr" ltac:(discriminate) Hd) Hm0) as [-> Hc]. rewrite Hc.
      destruct (destructure_validate c x args Hsc (proj1 Hm0)) as [V1 V2]. split; intros Hb.
      + rewrite (V1 Hb). reflexivity.
      + rewrite (V2 Hb), (attr_ok _ _ _ Hsl0). reflexivity.
    - (* block *)
      match goal with H1 : getf "items" fs = _, H2 : Forall _ before, H3 : getf "context_expr" fi = _, H4 : getf "optional_vars" fi = _, H5 : getf "body" fs = _, H6 : names_macro _ _ _ _ _ |- _ =>
        rename H1 into Hi; rename H2 into Hbef; rename H3 into Hce; rename H4 into Hov; rename H5 into Hbody; rename H6 into Hm0 end.
      cbn [String.eqb Ascii.eqb Bool.eqb]. unfold visit_With. rewrite (attr_ok _ _ _ Hi). cbn [elements].
      pose proof (shaped_items _ _ _ Hs Hi) as HI.
      destruct (detect_spec E (s_b s) true (before ++ Nd mi "withitem" fi :: after0)) as [fl [E1 HF2]].
      { eapply Forall_impl; [|exact HI]. intros it [mi' [fi' [c' [ov' [-> [Hc [_ Hsc]]]]]]]. exists c'. split; [|exact Hsc]. cbn. apply attr_ok. exact Hc. }
      rewrite E1. pose proof (flags_first _ _ _ HF2) as Hft.
      assert (Hit : item_macro E (s_b s) true (Nd mi "withitem" fi)).
      { apply (item_macro_iff _ _ _ _ _ eq_refl Hce). exists mi, "withitem"%string, fi, c, x, args. auto. }
      assert (Hbef' : Forall (fun y => ~ item_macro E (s_b s) true y) before).
      { rewrite Forall_forall in *. intros y Hy Hq. apply (Hbef y Hy). destruct (HI y ltac:(apply in_app_iff; auto)) as [mi' [fi' [c' [ov' [-> [Hc' _]]]]]].
        apply (item_macro_iff _ _ _ _ _ eq_refl Hc'). exact Hq. }
      destruct (first_true fl) as [j|].
      2: { exfalso. rewrite Forall_forall in Hft. eapply Hft; [apply in_app_iff; right; left; reflexivity|exact Hit]. }
      destruct Hft as [a [it [cc [Heq [Hlen [Ha Hq]]]]]]. destruct (split_first_unique _ _ _ _ _ _ _ Heq Hbef' Ha Hit Hq) as [<- [<- <-]]. subst j.
      rewrite nth_mid, (attr_ok _ _ _ Hce).
      assert (Hsc : shaped c). { rewrite Forall_forall in HI. destruct (HI (Nd mi "withitem" fi) ltac:(apply in_app_iff; right; left; reflexivity)) as [mi' [fi' [c' [ov' [Hx1 [Hc' [_ Hsc]]]]]]]. inversion Hx1; subst. assert (c' = c) by congruence. subst. exact Hsc. }
      destruct (destructure_validate c x args Hsc (proj1 Hm0)) as [V1 V2]. rewrite (attr_ok _ _ _ Hov), (attr_ok _ _ _ Hbody). split; intros Hb.
      + rewrite (V1 Hb). reflexivity.
      + rewrite (V2 Hb). cbv zeta. rewrite remove_at_app. unfold after. clear. destruct (before ++ after0); reflexivity.
    - (* decorator *)
      match goal with H1 : getf "decorator_list" fs = _, H2 : Forall _ after0, H5 : _ \/ _, H6 : names_macro _ _ _ _ _ |- _ =>
        rename H1 into Hi; rename H2 into Haft; rename H5 into Hk; rename H6 into Hm0 end.
      assert (Hkd : k <> "Done"%string) by (destruct Hk; subst; discriminate).
      replace (String.eqb k "Subscript") with false by (destruct Hk; subst; reflexivity). replace (String.eqb k "With") with false by (destruct Hk; subst; reflexivity).
      replace (String.eqb k "ClassDef" || String.eqb k "FunctionDef") with true by (destruct Hk; subst; reflexivity).
      unfold visit_Decorated. rewrite (attr_ok _ _ _ Hi). cbn [elements]. pose proof (shaped_decs _ _ _ _ Hs Hkd Hi) as HI.
      destruct (detect_spec E (s_b s) false (before ++ c :: after0)) as [fl [E1 HF2]].
      { eapply Forall_impl; [|exact HI]. intros y Hy. exists y. split; [reflexivity|exact Hy]. }
      rewrite E1. pose proof (flags_last _ _ _ HF2) as Hft.
      assert (Hit : item_macro E (s_b s) false c) by (apply dec_macro_iff; exists x, args; exact Hm0).
      assert (Haft' : Forall (fun y => ~ item_macro E (s_b s) false y) after0).
      { eapply Forall_impl; [|exact Haft]. intros y Hy Hq. apply Hy. apply dec_macro_iff. exact Hq. }
      destruct (last_true fl) as [j|].
      2: { exfalso. rewrite Forall_forall in Hft. eapply Hft; [apply in_app_iff; right; left; reflexivity|exact Hit]. }
      destruct Hft as [a [it [cc [Heq [Hlen [Ha Hq]]]]]]. destruct (split_last_unique _ _ _ _ _ _ _ Heq Haft' Ha Hit Hq) as [<- [<- <-]]. subst j.
      rewrite nth_mid. assert (Hsc : shaped c) by (rewrite Forall_forall in HI; apply HI; apply in_app_iff; right; left; reflexivity).
      destruct (destructure_validate c x args Hsc (proj1 Hm0)) as [V1 V2]. split; intros Hb.
      + rewrite (V1 Hb). reflexivity.
      + rewrite (V2 Hb). cbv zeta. rewrite remove_at_app. unfold after. reflexivity.
    - (* name *)
      match goal with H1 : getf "id" fs = _, H2 : _ <> ""%string, H3 : bound _ _ _, H4 : m_isname _ = true |- _ =>
        rename H1 into Hid; rename H2 into Hx0; rename H3 into Hb; rename H4 into Hn end.
      cbn [String.eqb Ascii.eqb Bool.eqb orb]. unfold visit_Name. rewrite (str_attr_ok _ _ _ Hid).
      rewrite (proj2 (ismacrocall_name_iff E (s_b s) x) (conj Hx0 (ex_intro _ _ (conj Hb Hn)))). split; intros Hbad.
      + destruct Hbad as [? [? [? [X _]]]]. discriminate.
      + unfold after. cbn [in_syntax in_target loc_of String.eqb Ascii.eqb Bool.eqb]. unfold bnd. destruct (with_mode false _ s) as [[[r|e] s1]|]; try reflexivity.
        destruct r as [m' k' fs'| |[]]; try reflexivity.
  Qed.

  Lemma visit_generic n s m k fs : shaped (Nd m k fs) -> k <> "Done"%string -> s_b s <> [] ->
    (forall c x i, ~ next_call E (s_b s) (Nd m k fs) c x i) ->
    visit E (S n) (Nd m k fs) s = if String.eqb k "Name" then Some (XOk (Nd m k fs), s) else xgeneric_visit (visit E n) (Nd m k fs) s.
  Proof.
    intros Hs Hd Hne Hno. cbn [visit]. unfold visit_body. cbn [is_kind].
    replace (match s_b s with [] => true | _ => false end || String.eqb k "Done") with false by (destruct (s_b s); [contradiction|destruct (String.eqb_spec k "Done"); [contradiction|reflexivity]]).
    destruct (String.eqb_spec k "Subscript") as [->|Hk1].
    { unfold visit_Subscript. destruct (shaped_field _ _ _ "value" FAny Hs ltac:(gram)) as [c Hc]. destruct (shaped_field _ _ _ "slice" FAny Hs ltac:(gram)) as [sl Hsl]. cbn [fst] in Hc, Hsl. rewrite (attr_ok _ _ _ Hc).
      destruct (destructure_spec c (shaped_get _ _ _ _ _ Hs Hd Hc)) as [d [E1 Hiff]]. rewrite E1.
      destruct (match d with Some (x, args) => _ | None => false end) eqn:Em; [|reflexivity]. exfalso.
      destruct d as [[x args]|]; [|discriminate]. eapply Hno. eapply nc_expr; [exact Hc|exact Hsl|].
      eapply (names_macro_iff E (s_b s) c x args _ "expr"); [discriminate|exact Hiff|]. auto. }
    destruct (String.eqb_spec k "With") as [->|Hk2].
    { unfold visit_With. destruct (shaped_field _ _ _ "items" FList Hs ltac:(gram)) as [items Hi]. destruct (shaped_field _ _ _ "body" FList Hs ltac:(gram)) as [body Hbody]. cbn [fst] in Hi, Hbody. rewrite (attr_ok _ _ _ Hi).
      pose proof (shaped_items _ _ _ Hs Hi) as HI.
      destruct (detect_spec E (s_b s) true items) as [fl [E1 HF2]].
      { eapply Forall_impl; [|exact HI]. intros it [mi' [fi' [c' [ov' [-> [Hc [_ Hsc]]]]]]]. exists c'. split; [|exact Hsc]. cbn. apply attr_ok. exact Hc. }
      cbn [elements]. rewrite E1. pose proof (flags_first _ _ _ HF2) as Hft. destruct (first_true fl) as [j|]; [|reflexivity]. exfalso.
      destruct Hft as [a [it [cc [-> [Hlen [Ha Hq]]]]]]. rewrite Forall_forall in HI.
      destruct (HI it ltac:(apply in_app_iff; right; left; reflexivity)) as [mi [fi [c [ov [-> [Hc [Hov _]]]]]]].
      destruct Hq as [c' [x [args [Hc' Hm]]]]. cbn in Hc'. rewrite (attr_ok _ _ _ Hc) in Hc'. inversion Hc'; subst c'.
      eapply Hno. eapply nc_block; eauto. rewrite Forall_forall in *. intros y Hy Hmi. apply (Ha y Hy).
      destruct (HI y ltac:(apply in_app_iff; auto)) as [mi' [fi' [c' [ov' [-> [Hcy _]]]]]]. apply (item_macro_iff _ _ _ _ _ eq_refl Hcy). exact Hmi. }
    destruct (String.eqb k "ClassDef" || String.eqb k "FunctionDef") eqn:Ek.
    { assert (Hkk : k = "ClassDef"%string \/ k = "FunctionDef"%string).
      { apply orb_true_iff in Ek. destruct Ek as [Ek|Ek]; apply String.eqb_eq in Ek; auto. }
      replace (String.eqb k "Name") with false by (destruct Hkk; subst; reflexivity).
      unfold visit_Decorated.
      assert (exists ds, getf "decorator_list" fs = Some (Ls ds)) as [ds Hi].
      { destruct Hkk as [->| ->]; destruct (shaped_field _ _ _ "decorator_list" FList Hs ltac:(gram)) as [ds Hds]; eauto. }
      rewrite (attr_ok _ _ _ Hi). cbn [elements]. pose proof (shaped_decs _ _ _ _ Hs Hd Hi) as HI.
      destruct (detect_spec E (s_b s) false ds) as [fl [E1 HF2]].
      { eapply Forall_impl; [|exact HI]. intros y Hy. exists y. split; [reflexivity|exact Hy]. }
      rewrite E1. pose proof (flags_last _ _ _ HF2) as Hft. destruct (last_true fl) as [j|]; [|reflexivity]. exfalso.
      destruct Hft as [a [it [cc [-> [Hlen [Ha Hq]]]]]]. apply dec_macro_iff in Hq. destruct Hq as [x [args Hm]].
      eapply Hno. eapply nc_dec; eauto. eapply Forall_impl; [|exact Ha]. intros y Hy Hmi. apply Hy. apply dec_macro_iff. exact Hmi. }
    destruct (String.eqb_spec k "Name") as [->|Hk4]; [|reflexivity].
    unfold visit_Name. destruct (shaped_field _ _ _ "id" FStr Hs ltac:(gram)) as [x Hx]. cbn [fst] in Hx. rewrite (str_attr_ok _ _ _ Hx).
    destruct (ismacrocall E (s_b s) x [] "name") eqn:Em; [|reflexivity]. exfalso. apply ismacrocall_name_iff in Em. destruct Em as [Hx0 [i [Hb Hn]]].
    eapply Hno. eapply nc_name; eauto.
  Qed.

  (** A node invokes a macro iff there is a next call. *)
  Lemma invokes_next b m k fs : shaped (Nd m k fs) -> k <> "Done"%string ->
    (exists c x i, next_call E b (Nd m k fs) c x i) <-> (exists x syn, invokes E b (Nd m k fs) x syn).
  Proof.
    intros Hs Hd. split.
    - intros [c [x [i H]]]. inversion H; subst.
      + exists x, "expr"%string. eapply inv_expr; eauto.
      + exists x, "block"%string. eapply inv_block; eauto. apply in_app_iff. right. left. reflexivity.
      + exists x, "decorator"%string. eapply inv_dec; eauto. apply in_app_iff. right. left. reflexivity.
      + exists x, "name"%string. eapply inv_name; eauto.
    - intros [x [syn H]]. inversion H; subst.
      + destruct (shaped_field _ _ _ "slice" FAny Hs ltac:(gram)) as [sl Hsl]. exists c, x. eexists. eapply nc_expr; eauto.
      + match goal with H1 : getf "items" fs = Some _ |- _ => rename H1 into Hi end.
        destruct (shaped_field _ _ _ "body" FList Hs ltac:(gram)) as [body Hbody]. cbn [fst] in Hbody. pose proof (shaped_items _ _ _ Hs Hi) as HI.
        destruct (detect_spec E b true items) as [fl [E1 HF2]].
        { eapply Forall_impl; [|exact HI]. intros it [mi' [fi' [c' [ov' [-> [Hc [_ Hsc]]]]]]]. exists c'. split; [|exact Hsc]. cbn. apply attr_ok. exact Hc. }
        pose proof (flags_first _ _ _ HF2) as Hft. rewrite Forall_forall in HI. destruct (first_true fl) as [j|].
        * destruct Hft as [a [it [cc [-> [Hlen [Ha Hq]]]]]].
          destruct (HI it ltac:(apply in_app_iff; right; left; reflexivity)) as [mi' [fi' [c' [ov [-> [Hc [Hov _]]]]]]].
          destruct Hq as [c'' [x' [args' [Hc' Hm]]]]. cbn in Hc'. rewrite (attr_ok _ _ _ Hc) in Hc'. inversion Hc'; subst c''.
          exists c', x'. eexists. eapply nc_block; eauto. rewrite Forall_forall in *. intros y Hy Hmi. apply (Ha y Hy).
          destruct (HI y ltac:(apply in_app_iff; auto)) as [mi'' [fi'' [c'' [ov' [-> [Hcy _]]]]]]. apply (item_macro_iff _ _ _ _ _ eq_refl Hcy). exact Hmi.
        * exfalso. rewrite Forall_forall in Hft. match goal with H2 : In (Nd mi ki fi) items |- _ => destruct (HI _ H2) as [mi' [fi' [c' [ov' [Heq [Hcy _]]]]]]; apply (Hft _ H2) end.
          apply (item_macro_iff _ _ _ _ _ Heq Hcy). exists mi, ki, fi, c, x, args. auto.
      + match goal with H1 : getf "decorator_list" fs = Some _ |- _ => rename H1 into Hi end.
        pose proof (shaped_decs _ _ _ _ Hs Hd Hi) as HI.
        destruct (detect_spec E b false ds) as [fl [E1 HF2]].
        { eapply Forall_impl; [|exact HI]. intros y Hy. exists y. split; [reflexivity|exact Hy]. }
        pose proof (flags_last _ _ _ HF2) as Hft. destruct (last_true fl) as [j|].
        * destruct Hft as [a [it [cc [-> [Hlen [Ha Hq]]]]]]. apply dec_macro_iff in Hq. destruct Hq as [x' [args' Hm]].
          exists it, x'. eexists. eapply nc_dec; eauto. eapply Forall_impl; [|exact Ha]. intros y Hy Hmi. apply Hy. apply dec_macro_iff. exact Hmi.
        * exfalso. rewrite Forall_forall in Hft. match goal with H2 : In c ds |- _ => apply (Hft _ H2) end. apply dec_macro_iff. exists x, args. assumption.
      + exists (Nd m "Name" fs), x. eexists. eapply nc_name; eauto.
  Qed.
  Lemma next_dec b m k fs : shaped (Nd m k fs) -> k <> "Done"%string ->
    (exists c x i, next_call E b (Nd m k fs) c x i) \/ (forall c x i, ~ next_call E b (Nd m k fs) c x i).
  Proof.
    intros Hs Hd.
    destruct (String.eqb_spec k "Subscript") as [->|Hk1].
    { destruct (shaped_field _ _ _ "value" FAny Hs ltac:(gram)) as [c Hc]. destruct (shaped_field _ _ _ "slice" FAny Hs ltac:(gram)) as [sl Hsl]. cbn [fst] in Hc, Hsl.
      destruct (destructure_spec c (shaped_get _ _ _ _ _ Hs Hd Hc)) as [d [E1 Hiff]].
      destruct (match d with Some (x, args) => ismacrocall E b x args "expr" | None => false end) eqn:Em.
      - left. destruct d as [[x args]|]; [|discriminate]. exists c, x. eexists. eapply nc_expr; [exact Hc|exact Hsl|].
        eapply (names_macro_iff E b c x args _ "expr"); [discriminate|exact Hiff|]. auto.
      - right. intros c' x i H. inversion H; subst; [|match goal with Hk : _ \/ _ |- _ => destruct Hk; discriminate end]. assert (c' = c) by congruence. subst.
        match goal with Hm : names_macro _ _ _ _ _ |- _ => apply (names_macro_iff E b c x args _ "expr" ltac:(discriminate) Hiff) in Hm; destruct Hm as [-> Hm]; congruence end. }
    destruct (String.eqb_spec k "With") as [->|Hk2].
    { destruct (shaped_field _ _ _ "items" FList Hs ltac:(gram)) as [items Hi]. destruct (shaped_field _ _ _ "body" FList Hs ltac:(gram)) as [body Hbody]. cbn [fst] in Hi, Hbody.
      pose proof (shaped_items _ _ _ Hs Hi) as HI.
      destruct (detect_spec E b true items) as [fl [E1 HF2]].
      { eapply Forall_impl; [|exact HI]. intros it [mi' [fi' [c' [ov' [-> [Hc [_ Hsc]]]]]]]. exists c'. split; [|exact Hsc]. cbn. apply attr_ok. exact Hc. }
      pose proof (flags_first _ _ _ HF2) as Hft. rewrite Forall_forall in HI. destruct (first_true fl) as [j|].
      - left. apply (invokes_next b m "With" fs Hs Hd). destruct Hft as [a [it [cc [-> [Hlen [Ha Hq]]]]]].
        destruct (HI it ltac:(apply in_app_iff; right; left; reflexivity)) as [mi' [fi' [c' [ov [-> [Hc [Hov _]]]]]]].
        destruct Hq as [c'' [x' [args' [Hc' Hm]]]]. cbn in Hc'. rewrite (attr_ok _ _ _ Hc) in Hc'. inversion Hc'; subst c''.
        exists x', "block"%string. eapply inv_block; eauto. apply in_app_iff. right. left. reflexivity.
      - right. intros c x i H. inversion H; subst; [|match goal with Hk : _ \/ _ |- _ => destruct Hk; discriminate end].
        match goal with H1 : getf "items" fs = Some (Ls (before ++ _)), H3 : getf "context_expr" _ = _ |- _ => rewrite Hi in H1; inversion H1; subst; rename H3 into Hce end.
        rewrite Forall_forall in Hft. apply (Hft (Nd mi "withitem" fi)); [apply in_app_iff; right; left; reflexivity|].
        apply (item_macro_iff _ _ _ _ _ eq_refl Hce). exists mi, "withitem"%string, fi, c, x, args. auto. }
    destruct (String.eqb k "ClassDef" || String.eqb k "FunctionDef") eqn:Ek.
    { assert (Hkk : k = "ClassDef"%string \/ k = "FunctionDef"%string).
      { apply orb_true_iff in Ek. destruct Ek as [Ek|Ek]; apply String.eqb_eq in Ek; auto. }
      assert (exists ds, getf "decorator_list" fs = Some (Ls ds)) as [ds Hi].
      { destruct Hkk as [->| ->]; destruct (shaped_field _ _ _ "decorator_list" FList Hs ltac:(gram)) as [ds Hds]; eauto. }
      pose proof (shaped_decs _ _ _ _ Hs Hd Hi) as HI.
      destruct (detect_spec E b false ds) as [fl [E1 HF2]].
      { eapply Forall_impl; [|exact HI]. intros y Hy. exists y. split; [reflexivity|exact Hy]. }
      pose proof (flags_last _ _ _ HF2) as Hft. destruct (last_true fl) as [j|].
      - left. destruct Hft as [a [it [cc [-> [Hlen [Ha Hq]]]]]]. apply dec_macro_iff in Hq. destruct Hq as [x' [args' Hm]].
        exists it, x'. eexists. eapply nc_dec; eauto. eapply Forall_impl; [|exact Ha]. intros y Hy Hmi. apply Hy. apply dec_macro_iff. exact Hmi.
      - right. intros c x i H. inversion H; subst; try (destruct Hkk; discriminate).
        match goal with H1 : getf "decorator_list" fs = Some (Ls (before ++ _)) |- _ => rewrite Hi in H1; inversion H1; subst end.
        rewrite Forall_forall in Hft. apply (Hft c); [apply in_app_iff; right; left; reflexivity|]. apply dec_macro_iff. exists x, args. assumption. }
    destruct (String.eqb_spec k "Name") as [->|Hk4].
    { destruct (shaped_field _ _ _ "id" FStr Hs ltac:(gram)) as [x Hx]. cbn [fst] in Hx.
      destruct (ismacrocall E b x [] "name") eqn:Em.
      - left. apply ismacrocall_name_iff in Em. destruct Em as [Hx0 [i [Hb Hn]]]. exists (Nd m "Name" fs), x. eexists. eapply nc_name; eauto.
      - right. intros c y i H. inversion H; subst; [match goal with Hk : _ \/ _ |- _ => destruct Hk; discriminate end|]. assert (y = x) by congruence. subst.
        assert (ismacrocall E b x [] "name" = true); [|congruence]. apply ismacrocall_name_iff. eauto. }
    right. intros c x i H. inversion H; subst; try contradiction. match goal with Hk : _ \/ _ |- _ => destruct Hk; subst; discriminate end.
  Qed.

  Lemma next_unique b t c x i c' x' i' : shaped t -> next_call E b t c x i -> next_call E b t c' x' i' -> c = c' /\ x = x' /\ i = i'.
  Proof.
    intros Hs H H'. inversion H; subst; inversion H'; subst; try (match goal with Hk : _ \/ _ |- _ => destruct Hk; discriminate end).
    - assert (c' = c) by congruence. subst. assert (sl0 = sl) by congruence. subst.
      match goal with H1 : names_macro _ _ c x args, H2 : names_macro _ _ c x' args0, Hv : getf "value" fs = Some c |- _ =>
        destruct (names_macro_fun _ _ _ _ _ _ (shaped_get _ _ _ _ _ Hs ltac:(discriminate) Hv) H1 H2) as [-> ->] end. auto.
    - match goal with H1 : getf "items" fs = Some (Ls (before ++ _)), H2 : getf "items" fs = Some (Ls (before0 ++ _)) |- _ =>
        pose proof (shaped_items _ _ _ Hs H1) as HI; rewrite H1 in H2; injection H2 as Heq end.
      assert (M1 : macro_item E b (Nd mi "withitem" fi)) by (exists mi, "withitem"%string, fi, c, x, args; auto).
      assert (M2 : macro_item E b (Nd mi0 "withitem" fi0)) by (exists mi0, "withitem"%string, fi0, c', x', args0; auto).
      destruct (split_first_unique _ _ _ _ _ _ _ Heq ltac:(eassumption) ltac:(eassumption) M1 M2) as [<- [Hfi <-]]. inversion Hfi; subst.
      assert (c' = c) by congruence. subst. assert (ov0 = ov) by congruence. assert (body0 = body) by congruence. subst.
      rewrite Forall_forall in HI. destruct (HI (Nd mi0 "withitem" fi0) ltac:(apply in_app_iff; right; left; reflexivity)) as [mi' [fi' [c'' [ov' [Hx1 [Hc' [_ Hsc]]]]]]]. inversion Hx1; subst.
      assert (c'' = c) by congruence. subst.
      match goal with H1 : names_macro _ _ c x args, H2 : names_macro _ _ c x' args0 |- _ => destruct (names_macro_fun _ _ _ _ _ _ Hsc H1 H2) as [-> ->] end. auto.
    - match goal with H1 : getf "decorator_list" fs = Some (Ls (before ++ _)), H2 : getf "decorator_list" fs = Some (Ls (before0 ++ _)) |- _ =>
        assert (HI : Forall shaped (before ++ c :: after0)) by (eapply shaped_decs; [exact Hs| |exact H1]; match goal with Hk : _ \/ _ |- _ => destruct Hk; subst; discriminate end);
        rewrite H1 in H2; injection H2 as Heq end.
      assert (M1 : macro_dec E b c) by (exists x, args; auto). assert (M2 : macro_dec E b c') by (exists x', args0; auto).
      destruct (split_last_unique _ _ _ _ _ _ _ Heq ltac:(eassumption) ltac:(eassumption) M1 M2) as [<- [<- <-]].
      rewrite Forall_forall in HI. assert (Hsc : shaped c) by (apply HI; apply in_app_iff; right; left; reflexivity).
      match goal with H1 : names_macro _ _ c x args, H2 : names_macro _ _ c x' args0 |- _ => destruct (names_macro_fun _ _ _ _ _ _ Hsc H1 H2) as [-> ->] end. auto.
    - assert (x' = x) by congruence. subst. auto.
  Qed.

  (** [expand] calls the macro function first. *)
  Lemma expand_first n x i s r s' j : isbound (s_b s) x = Some j -> expand E n (visit E n) x i s = Some (r, s') ->
    s_rec s' = s_rec s /\ exists d, s_log s' = s_log s ++ ECall x i (s_rec s) :: d.
  Proof.
    intros Hb H. unfold expand in H. rewrite Hb in H. destruct (apply_macro E n (visit E n) j x i s) as [[y s1]|] eqn:E1; [|discriminate].
    assert (H1 : s_rec s1 = s_rec s /\ exists d, s_log s1 = s_log s ++ ECall x i (s_rec s) :: d).
    { unfold apply_macro in E1. destruct (run _ _ _ _) as [[z s2]|] eqn:E2 in E1; [|discriminate]. inversion E1; subst.
      destruct (run_mode E _ _ _ _ _ _ E2) as [M1 [d [L _]]]. cbn in M1, L. split; [exact M1|]. exists (d ++ [ERet y]). cbn. rewrite L, <- !app_assoc. reflexivity. }
    destruct H1 as [R1 [d1 L1]].
    assert (H2 : mode_rel s1 s').
    { destruct y as [a|e]; [|inversion H; subst; apply mode_rel_refl]. destruct (typecheck a) as [v|]; [|inversion H; subst; apply mode_rel_refl].
      unfold bnd in H. destruct (visit_expansion E (visit E n) v (in_target i) s1) as [[[u|e] s2]|] eqn:E2; [| |discriminate].
      - apply expansion_mode in E2. cbn in H. inversion H; subst. eapply mode_rel_trans; [exact E2|].
        split; [reflexivity|]. exists [EOut x (in_syntax i) u]. split; [reflexivity|]. repeat constructor.
      - apply expansion_mode in E2. inversion H; subst. exact E2. }
    destruct H2 as [R2 [d2 [L2 _]]]. split; [congruence|]. exists (d1 ++ d2). rewrite L2, L1, <- app_assoc. reflexivity.
  Qed.
  Lemma after_first n c x i s r s' j : isbound (s_b s) x = Some j -> after n c x i s = Some (r, s') ->
    exists d, s_log s' = s_log s ++ (if smem (in_syntax i) ["expr"; "block"; "decorator"]%string then [ECall x i (s_rec s)] else [EMode false; ECall x i false]) ++ d.
  Proof.
    intros Hb H. unfold after in H. unfold smem. cbn [existsb].
    assert (G : forall f : ltree -> comp ltree, (forall a s1 r s', f a s1 = Some (r, s') -> mode_rel s1 s') -> bnd (expand E n (visit E n) x i) f s = Some (r, s') ->
              exists d, s_log s' = s_log s ++ [ECall x i (s_rec s)] ++ d).
    { intros f Hf Hh. unfold bnd in Hh. destruct (expand E n (visit E n) x i s) as [[[a|e] s1]|] eqn:E1; [| |discriminate].
      - destruct (expand_first _ _ _ _ _ _ _ Hb E1) as [_ [d L]]. destruct (Hf _ _ _ _ Hh) as [_ [d2 [L2 _]]]. exists (d ++ d2). rewrite L2, L, <- app_assoc. reflexivity.
      - destruct (expand_first _ _ _ _ _ _ _ Hb E1) as [_ [d L]]. inversion Hh; subst. exists d. exact L. }
    destruct (String.eqb (in_syntax i) "expr"); [eapply G; [|exact H]; intros a s1 r1 s2 Hx; inversion Hx; subst; apply mode_rel_refl|].
    destruct (String.eqb (in_syntax i) "block"); [eapply G; [|exact H]; intros a s1 r1 s2 Hx; inversion Hx; subst; apply mode_rel_refl|].
    destruct (String.eqb (in_syntax i) "decorator"); [eapply G; [|exact H]; intros a s1 r1 s2 Hx; inversion Hx; subst; apply mode_rel_refl|].
    cbn [orb]. unfold bnd at 1 in H. destruct (with_mode false _ s) as [[y s1]|] eqn:E1; [|discriminate].
    unfold with_mode in E1. destruct (expand _ _ _ _ _ _) as [[z s2]|] eqn:E2 in E1; [|discriminate]. inversion E1; subst.
    destruct (expand_first n x i (mkSt (s_b s) false (s_u s) (s_log s ++ [EMode false])) y s2 j Hb E2) as [_ [d L]]. cbn in L.
    assert (H2 : mode_rel {| s_b := s_b s2; s_rec := s_rec s; s_u := s_u s2; s_log := s_log s2 ++ [EModeEnd] |} s').
    { destruct y as [a|e]; [|inversion H; subst; apply mode_rel_refl]. destruct (is_none a); [inversion H; subst; apply mode_rel_refl|].
      destruct (same_name x a); [inversion H; subst; apply mode_rel_refl|]. destruct (s_rec _); [apply visit_mode in H; exact H|inversion H; subst; apply mode_rel_refl]. }
    destruct H2 as [_ [d2 [L2 _]]]. cbn in L2. rewrite L2, L. cbn [app]. exists (d ++ [EModeEnd] ++ d2). rewrite <- !app_assoc. reflexivity.
  Qed.
End Next.
