(** Property C30: MacroCollector. *)
From Verif Require Import Base AstLib FixLocModel ExpanderModel ExpanderSpec ExpanderProofs2 ExpanderProofs5 ExpanderExamples ExpanderCheck CollectorModel CollectorSpec CollectorProofs.

(** Checkers, to show that concrete trees meet the hypotheses. *)
Fixpoint parts (t : ltree) : list ltree :=
  t :: match t with
       | Nd _ k fs => if String.eqb k "Done" then [] else flat_map (fun p => parts (snd p)) fs
       | Ls l => flat_map parts l
       | At _ => []
       end.
Lemma parts_ok t u : part t u -> In u (parts t).
Proof.
  induction 1 as [t|m k fs f v u Hk Hin _ IH|l v u Hin _ IH]; [destruct t; left; reflexivity| |]; cbn [parts]; right.
  - destruct (String.eqb_spec k "Done"); [contradiction|]. apply in_flat_map. exists (f, v). auto.
  - apply in_flat_map. exists v. auto.
Qed.
Definition listed (fs : list (string * ltree)) (f : string) : list ltree := match getf f fs with Some (Ls l) => l | _ => [] end.
Definition typedb (u : ltree) : bool :=
  match u with
  | Nd m k fs =>
      (negb (String.eqb k "Subscript") || match getf "slice" fs with Some v => is_node v | None => true end) &&
      forallb (fun p => negb (String.eqb k (fst p)) || forallb is_node (listed fs (snd p)))
        [("Tuple", "elts"); ("Call", "args"); ("With", "body"); ("ClassDef", "decorator_list"); ("FunctionDef", "decorator_list")]%string
  | _ => true
  end.
Lemma typedb_ok t : forallb typedb (parts t) = true -> typed t.
Proof.
  intros H u Hu. rewrite forallb_forall in H. specialize (H u (parts_ok _ _ Hu)). destruct u as [m k fs| |]; try exact I. cbn [typedb] in H. apply andb_true_iff in H. destruct H as [H1 H2]. split.
  - intros -> v Hv. apply (impb_ok _ _ H1) in Hv as H3 || rewrite Hv in H1. cbn in H1. exact H1.
  - intros f l Hin Hl. rewrite forallb_forall in H2. specialize (H2 _ Hin). cbn [fst snd] in H2. rewrite String.eqb_refl in H2. unfold listed in H2. rewrite Hl in H2. cbn in H2. apply Forall_forall. rewrite forallb_forall in H2. exact H2.
Qed.
Definition good (c : option ltree) : bool := match c with Some c => match destructure true c with XOk _ => true | XRaise _ => false end | None => true end.
Definition harmlessb (u : ltree) : bool :=
  match u with
  | Nd m k fs =>
      (negb (String.eqb k "Subscript") || good (getf "value" fs)) &&
      (negb (String.eqb k "With") || forallb (fun it => match it with Nd _ _ fi => good (getf "context_expr" fi) | _ => true end) (listed fs "items")) &&
      (negb (String.eqb k "ClassDef" || String.eqb k "FunctionDef") || forallb (fun c => good (Some c)) (listed fs "decorator_list") &&
        forallb (fun p => smem (fst p) ["decorator_list"; "name"]%string || is_none (snd p) || is_node (snd p) ||
          match snd p with Ls l => forallb (fun e => is_none e || is_node e) l | _ => false end) fs)
  | _ => true
  end.
Lemma good_ok c x args : shaped c -> good (Some c) = true -> denotes c x args -> ~ bad_call c.
Proof. intros Hs Hg Hd Hb. destruct (destructure_validate c x args Hs Hd) as [V _]. unfold good in Hg. rewrite (V Hb) in Hg. discriminate. Qed.
Lemma harmlessb_ok {U} (E : env U) b t : shaped t -> forallb harmlessb (parts t) = true -> harmless E b t.
Proof.
  intros Hs H u Hu. rewrite forallb_forall in H. specialize (H u (parts_ok _ _ Hu)). destruct u as [m k fs| |]; try exact I. cbn [harmlessb] in H. apply andb_true_iff in H. destruct H as [H H3]. apply andb_true_iff in H. destruct H as [H1 H2].
  pose proof (shaped_part _ _ Hs Hu) as Hsu. split; [|split].
  - intros -> c x args Hc Hd. rewrite Hc in H1. cbn in H1. eapply good_ok; [eapply shaped_get; [exact Hsu|discriminate|exact Hc]|exact H1|exact Hd].
  - intros -> items mi ki fi c x args Hi Hin Hc Hn. cbn [String.eqb Ascii.eqb Bool.eqb negb orb] in H2. unfold listed in H2. rewrite Hi in H2. rewrite forallb_forall in H2. specialize (H2 _ Hin). cbn beta iota in H2. rewrite Hc in H2.
    assert (Hp : shaped c).
    { pose proof (proj2 (Hsu _ (pt_refl _)) eq_refl _ Hi) as Hw. rewrite Forall_forall in Hw. specialize (Hw _ Hin). cbn in Hw. subst ki. eapply (shaped_get mi "withitem" fi); [|discriminate|exact Hc]. apply (shaped_part _ _ Hsu). eapply item_part; eassumption. }
    eapply good_ok; [exact Hp|exact H2|exact (proj1 Hn)].
  - intros ds c x args Hk Hds Hin Hn. assert (Ek : String.eqb k "ClassDef" || String.eqb k "FunctionDef" = true) by (destruct Hk as [->| ->]; reflexivity). rewrite Ek in H3. cbn [negb orb] in H3. apply andb_true_iff in H3. destruct H3 as [H3 H4]. unfold listed in H3. rewrite Hds in H3. rewrite forallb_forall in H3.
    assert (Hkd : k <> "Done"%string) by (destruct Hk as [->| ->]; discriminate). split.
    + eapply good_ok; [apply (shaped_part _ _ Hsu); eapply dec_part; eassumption|exact (H3 _ Hin)|exact (proj1 Hn)].
    + intros f v Hf Hf1 Hf2. rewrite forallb_forall in H4. specialize (H4 _ Hf). cbn [fst snd] in H4.
      assert (Es : smem f ["decorator_list"; "name"]%string = false) by (unfold smem; cbn; destruct (String.eqb_spec f "decorator_list"), (String.eqb_spec f "name"); try contradiction; reflexivity). rewrite Es in H4. cbn [orb] in H4.
      apply orb_true_iff in H4. destruct H4 as [H4|H4]; [apply orb_true_iff in H4; destruct H4; auto|]. destruct v; try discriminate. right. right. eexists. split; [reflexivity|]. rewrite forallb_forall in H4. apply Forall_forall. intros e He. specialize (H4 e He). apply orb_true_iff in H4. exact H4.
Qed.

(** ** What is collected *)

(** Whenever the collector returns, it has collected exactly the macros that the source code invokes, each once. *)
Theorem C30_collected_exactly_invoked : forall U (E : env U) b n t l,
  tidy t -> cvisit E b n t [] = Some (XOk l) ->
  NoDup l /\ forall x syn, In (x, syn) l <-> invoked E b t x syn.
Proof.
  intros U E b n t l Ht H. destruct (cvisit_exact E b n t Ht _ _ H) as [H1 H2]. split; [apply H1; constructor|].
  intros x syn. rewrite H2. cbn. split; [intros [[]|Hi]; exact Hi|intros Hi; right; exact Hi].
Qed.
Print Assumptions C30_collected_exactly_invoked.

(** Visiting several trees one after another adds up, still without duplicates. *)
Theorem C30_collected_accumulates : forall U (E : env U) b n t l l',
  tidy t -> cvisit E b n t l = Some (XOk l') -> NoDup l ->
  NoDup l' /\ forall x syn, In (x, syn) l' <-> In (x, syn) l \/ invoked E b t x syn.
Proof. intros U E b n t l l' Ht H Hl. destruct (cvisit_exact E b n t Ht _ _ H) as [H1 H2]. split; [auto|]. intros x syn. exact (H2 (x, syn)). Qed.
Print Assumptions C30_collected_accumulates.

(** ** When it returns *)

(** The full claim is "the collector never fails on a tree the expander accepts". It returns on every tree without the
    three things excluded by [harmless]; the depth of recursion is bounded by the size of the tree. *)
Theorem C30_collector_returns_partial : forall U (E : env U) b t l,
  tidy t -> typed t -> harmless E b t -> is_node t = true ->
  exists n, forall n', n <= n' -> exists l', cvisit E b n' t l = Some (XOk l').
Proof.
  intros U E b t l Ht Hty Hh Hn. exists (S (tsize t)). intros n' Hle. apply cvisit_total; [lia|apply tidy_shaped; exact Ht|exact Hty|exact Hh|]. left. right. exact Hn.
Qed.
Print Assumptions C30_collector_returns_partial.

(** A subscript of a call without arguments, [foo()[x]], of a function that is not a macro: the expander leaves
    it alone and calls no macro, the collector raises SyntaxError. *)
Theorem C30_collector_fails_on_plain_call_refuted : exists (E : env unit) t (s : st unit),
  tidy t /\ typed t /\ visit E 10 t s = Some (XOk t, s) /\ forall n, cvisit E (s_b s) (S n) t [] = Some (XRaise syntax_error).
Proof.
  exists env0, (sub_ (call_ (name_ "foo") []) (name_ "x")), (st0 true).
  split; [apply tidyb_ok; vm_compute; reflexivity|]. split; [apply typedb_ok; vm_compute; reflexivity|]. split; [vm_compute; reflexivity|intros n; reflexivity].
Qed.
Print Assumptions C30_collector_fails_on_plain_call_refuted.

(** A decorator macro on a function with a type comment: the expander applies the macro, the collector raises
    AttributeError (it visits the string). *)
Theorem C30_collector_fails_on_type_comment_refuted : exists (E : env unit) t (s : st unit) t' s',
  tidy t /\ typed t /\ visit E 10 t s = Some (XOk t', s') /\ map fst (calls_of (s_log s')) = ["ident"%string] /\
  cvisit E (s_b s) 10 t [] = Some (XRaise (plain (attribute_error "_fields"))).
Proof.
  exists env0, (Nd (at_ 1 0) "FunctionDef" [("name"%string, At (AStr "f")); ("body"%string, Ls [pass_]); ("decorator_list"%string, Ls [name_ "ident"]); ("type_comment"%string, At (AStr "() -> int"))]), (st0 true).
  eexists. eexists. split; [apply tidyb_ok; vm_compute; reflexivity|]. split; [apply typedb_ok; vm_compute; reflexivity|]. split; [vm_compute; reflexivity|]. split; vm_compute; reflexivity.
Qed.
Print Assumptions C30_collector_fails_on_type_comment_refuted.

(** [with ident, other, par[nm]: two[x][nm]] with a decorated definition inside, all hypotheses met. *)
Example C30_example :
  let t := mod_ [with_ [item_ (name_ "ident"); item_ (name_ "other"); item_ (sub_ (name_ "par") (name_ "nm"))]
                   [expr_ (sub_ (sub_ (name_ "two") (name_ "x")) (name_ "nm")); def_ "FunctionDef" [name_ "d"; name_ "ident"; call_ (name_ "par") [name_ "z"]] [expr_ (sub_ (name_ "ident") (name_ "y"))]]] in
  tidy t /\ typed t /\ harmless env0 binds0 t /\
  cvisit env0 binds0 20 t [] = Some (XOk [("ident", "block"); ("par", "block"); ("nm", "name"); ("two", "expr"); ("ident", "decorator"); ("par", "decorator"); ("ident", "expr")]%string).
Proof.
  cbv zeta. split; [apply tidyb_ok; vm_compute; reflexivity|]. split; [apply typedb_ok; vm_compute; reflexivity|]. split; [apply harmlessb_ok; [apply shapedb_ok; vm_compute; reflexivity|vm_compute; reflexivity]|vm_compute; reflexivity].
Qed.
