(** Stepping through an expansion and expanding at once. *)
From Verif Require Import Base AstLib UtilsModel UtilsProofs FixLocModel ExpanderModel ExpanderSpec ExpanderProofs ExpanderProofs2 ExpanderProofs3 ExpanderProofs4 ExpanderProofs5 CollectorModel CollectorSpec CollectorProofs StepModel StepSpec.

Section Pure.
  Context {U : Type}.
  Variable E : env U.
  Variable b : binds.
  Hypothesis Hb : b <> [].
  Hypothesis HE : simple_macros E.

  Notation node := (fun x : ltree => is_node x = true).

  (** The result of the macro, postprocessed. *)
  Definition outcome_of (t : ltree) (x : string) (i : minput) (v2 : ltree) : Prop :=
    exists j v v1, bound b x j /\ m_run (x_macro E j) i = Ret v /\ accepted v v1 /\ (v1 = NoneT /\ v2 = NoneT \/ v1 <> NoneT /\ x_fix E v1 t = Ok v2).
  Definition quiet_node (t : ltree) : Prop := forall x syn, ~ invokes E b t x syn.
  Definition other_name (x : string) (r : ltree) : Prop := forall m fs, r = Nd m "Name" fs -> getf "id" fs <> Some (At (AStr x)).
  Definition own_name (x : string) (r : ltree) : Prop := exists m fs, r = Nd m "Name" fs /\ getf "id" fs = Some (At (AStr x)).

  (** Complete expansion. *)
  Inductive full : ltree -> ltree -> Prop :=
  | fu_none : full NoneT NoneT
  | fu_ls l ws : full_each l ws -> full (Ls l) (match flatten ws with [] => NoneT | r => Ls r end)
  | fu_done m fs : full (Nd m "Done" fs) (Nd m "Done" fs)
  | fu_call t c x i v2 v3 t' : shaped t -> next_call E b t c x i -> ~ bad_call c -> in_syntax i <> "name"%string -> outcome_of t x i v2 -> full v2 v3 ->
      lands E c x i v3 t' -> full t t'
  | fu_none_name t c x i : shaped t -> next_call E b t c x i -> ~ bad_call c -> in_syntax i = "name"%string -> outcome_of t x i NoneT -> full t (coverage_expr (loc_of t))
  | fu_self t c x i v2 : shaped t -> next_call E b t c x i -> ~ bad_call c -> in_syntax i = "name"%string -> outcome_of t x i v2 -> own_name x v2 -> full t (done v2)
  | fu_name t c x i v2 v3 : shaped t -> next_call E b t c x i -> ~ bad_call c -> in_syntax i = "name"%string -> outcome_of t x i v2 -> is_none v2 = false -> other_name x v2 ->
      full v2 v3 -> full t v3
  | fu_leaf m fs : shaped (Nd m "Name" fs) -> quiet_node (Nd m "Name" fs) -> full (Nd m "Name" fs) (Nd m "Name" fs)
  | fu_node m k fs fs' : shaped (Nd m k fs) -> k <> "Done"%string -> k <> "Name"%string -> quiet_node (Nd m k fs) -> full_fields fs fs' -> full (Nd m k fs) (Nd m k fs')
  with full_each : list ltree -> list ltree -> Prop :=
  | fe_nil : full_each [] []
  | fe_cons x w l ws : full x w -> full_each l ws -> full_each (x :: l) (w :: ws)
  with full_fields : list (string * ltree) -> list (string * ltree) -> Prop :=
  | ff_nil : full_fields [] []
  | ff_atom f a r r' : full_fields r r' -> full_fields ((f, At a) :: r) ((f, At a) :: r')
  | ff_list f l l' r r' : full_list l l' -> full_fields r r' -> full_fields ((f, Ls l) :: r) ((f, Ls l') :: r')
  | ff_node f t t' r r' : is_node t = true -> full t t' -> is_none t' = false -> full_fields r r' -> full_fields ((f, t) :: r) ((f, t') :: r')
  | ff_gone f t r r' : is_node t = true -> full t NoneT -> full_fields r r' -> full_fields ((f, t) :: r) r'
  with full_list : list ltree -> list ltree -> Prop :=
  | fl_nil : full_list [] []
  | fl_other v r r' : is_node v = false -> full_list r r' -> full_list (v :: r) (v :: r')
  | fl_node t v r r' : is_node t = true -> full t v -> full_list r r' -> full_list (t :: r) (members v ++ r').
  Scheme full_ind2 := Minimality for full Sort Prop
    with full_each_ind2 := Minimality for full_each Sort Prop
    with full_fields_ind2 := Minimality for full_fields Sort Prop
    with full_list_ind2 := Minimality for full_list Sort Prop.
  Combined Scheme full_mutind from full_ind2, full_each_ind2, full_fields_ind2, full_list_ind2.

  (** Results are None, nodes, and lists of nodes. *)
  Lemma full_ok : (forall t v, full t v -> res_ok v) /\ (forall l ws, full_each l ws -> Forall res_ok ws) /\
    (forall fs fs', full_fields fs fs' -> True) /\ (forall l l', full_list l l' -> Forall node l -> Forall node l').
  Proof.
    apply full_mutind; intros; auto; try (right; left; reflexivity).
    - left. reflexivity.
    - destruct (flatten ws) as [|w0 wr] eqn:Ew; [left; reflexivity|]. right. right. exists (w0 :: wr). split; [reflexivity|]. rewrite <- Ew, flatten_members by assumption.
      clear Ew H. induction H0 as [|w ws Hw Hws IH]; cbn [flat_map]; [constructor|]. apply Forall_app. split.
      + destruct Hw as [->|[Hw|[lx [-> Hlx]]]]; cbn [members]; [constructor| |exact Hlx]. destruct w; try discriminate. cbn. auto.
      + exact IH.
    - assert (Hmem : Forall node (members v3)).
      { destruct H5 as [->|[Hw|[lx [-> Hlx]]]]; cbn [members]; [constructor| |exact Hlx]. destruct v3; try discriminate. cbn. auto. }
      inversion H6; subst; auto; try (right; left; reflexivity). right. right. eexists. split; [reflexivity|]. constructor; [reflexivity|].
      destruct H5 as [->|[Hw|[lx [-> Hlx]]]]; [constructor| |exact Hlx]. destruct v3; try discriminate. auto.
    - match goal with H : Forall _ (_ :: _) |- _ => inversion H; congruence end.
    - match goal with H : Forall _ (_ :: _) |- _ => inversion H; subst end. apply Forall_app. split; [|auto]. match goal with H : res_ok v |- _ => rename H into Hv end. destruct Hv as [->|[Hw|[lx [-> Hlx]]]]; cbn [members]; [constructor| |exact Hlx]. destruct v; try discriminate. cbn. auto.
  Qed.

  (** Lists of nodes. *)
  Lemma full_list_each l : Forall node l -> forall r, full_list l r <-> exists ws, full_each l ws /\ r = flat_map members ws.
  Proof.
    induction 1 as [|x l Hx Hl IH]; intros r; split.
    - intros H. inversion H; subst. exists []. split; [constructor|reflexivity].
    - intros [ws [H ->]]. inversion H; subst. constructor.
    - intros H. inversion H; subst; [congruence|]. match goal with H : full_list l _ |- _ => apply IH in H; destruct H as [ws [Hw ->]] end. exists (v :: ws). split; [constructor; assumption|reflexivity].
    - intros [ws [H ->]]. inversion H; subst. cbn [flat_map]. constructor; auto. apply IH. eauto.
  Qed.
  Lemma full_suite l r : Forall node l -> full_list l r -> exists v, full (Ls l) v /\ members v = r.
  Proof.
    intros Hl H. apply (full_list_each l Hl) in H. destruct H as [ws [Hw ->]]. eexists. split; [apply fu_ls; exact Hw|]. rewrite <- flatten_members by exact (proj1 (proj2 full_ok) _ _ Hw).
    destruct (flatten ws); reflexivity.
  Qed.
  Lemma full_suite_inv l v : Forall node l -> full (Ls l) v -> full_list l (members v).
  Proof.
    intros Hl H. inversion H; subst. - apply (full_list_each l Hl). exists ws. split; [assumption|]. rewrite <- flatten_members by (eapply (proj1 (proj2 full_ok)); eassumption). destruct (flatten ws); reflexivity.
    - match goal with H : next_call _ _ (Ls _) _ _ _ |- _ => inversion H end.
    - match goal with H : next_call _ _ (Ls _) _ _ _ |- _ => inversion H end.
    - match goal with H : next_call _ _ (Ls _) _ _ _ |- _ => inversion H end.
    - match goal with H : next_call _ _ (Ls _) _ _ _ |- _ => inversion H end.
  Qed.
  Lemma full_list_app l1 l2 r : full_list (l1 ++ l2) r <-> exists r1 r2, full_list l1 r1 /\ full_list l2 r2 /\ r = r1 ++ r2.
  Proof.
    revert r. induction l1 as [|x l1 IH]; intros r; cbn [app]; split.
    - intros H. exists [], r. split; [constructor|auto].
    - intros [r1 [r2 [H1 [H2 ->]]]]. inversion H1; subst. exact H2.
    - intros H. inversion H; subst.
      + match goal with H : full_list (_ ++ _) _ |- _ => apply IH in H; destruct H as [r1 [r2 [H5 [H6 ->]]]] end. exists (x :: r1), r2. split; [apply fl_other; assumption|auto].
      + match goal with H : full_list (_ ++ _) _ |- _ => apply IH in H; destruct H as [r1 [r2 [H5 [H6 ->]]]] end. exists (members v ++ r1), r2. split; [apply fl_node; assumption|]. rewrite <- app_assoc. auto.
    - intros [r1 [r2 [H1 [H2 ->]]]]. inversion H1; subst.
      + cbn [app]. apply fl_other; [assumption|]. apply IH. eauto.
      + rewrite <- app_assoc. apply fl_node; auto. apply IH. eauto.
  Qed.

  (** An expression is not expanded to nothing. *)
  Lemma single_outcome t x i v2 : in_syntax i = "expr"%string \/ in_syntax i = "name"%string -> single (in_tree i) -> outcome_of t x i v2 -> v2 = NoneT \/ single v2.
  Proof.
    intros Hy Hs [j [v [v1 [_ [Hr [Ha Hf]]]]]]. destruct Hf as [[_ ->]|[Hn Hf]]; [left; reflexivity|]. right.
    destruct (sm_expr E HE j i v Hy Hs Hr) as [->|Hsv]; [inversion Ha; subst; contradiction|]. destruct Hsv as [m [k [fs [-> Hk]]]]. inversion Ha; subst.
    pose proof (sm_fix E HE _ _ _ Hf) as [m' [fs' ->]]. exists m', k, fs'. auto.
  Qed.
  Lemma full_some : forall t v, full t v -> single t -> is_none v = false.
  Proof.
    apply (full_ind2 (fun t v => single t -> is_none v = false) (fun _ _ => True) (fun _ _ => True) (fun _ _ => True)); intros; auto; try reflexivity.
    - match goal with H : single _ |- _ => destruct H as [m [k [fs [H0 _]]]]; discriminate end.
    - match goal with H : single _ |- _ => destruct H as [m [k [fs [H3 _]]]]; discriminate end.
    - match goal with H : lands _ _ _ _ _ _ |- _ => inversion H; subst; auto end; try reflexivity.
      exfalso. match goal with H : single t, H1 : next_call _ _ t _ _ _ |- _ => destruct H as [m0 [k0 [fs0 [-> Hk]]]]; inversion H1; subst end; cbn in *; try (destruct H8 as [[? _]|[? _]]; discriminate); try contradiction; try tauto.
      all: try (apply Hk; tauto). destruct H8 as [[? _]|[? _]]; try discriminate. match goal with Hk1 : _ \/ _ |- _ => destruct Hk1; subst; apply Hk; tauto end.
    - match goal with H : _ -> is_none v3 = false |- _ => apply H end.
      match goal with H : outcome_of _ _ _ _ |- _ => apply single_outcome in H end.
      + match goal with H : v2 = NoneT \/ _ |- _ => destruct H as [->|H]; [discriminate|exact H] end.
      + right. assumption.
      + match goal with H : next_call _ _ _ _ _ _ |- _ => inversion H; subst end; cbn in *; try discriminate. exists m, "Name"%string, fs. split; [reflexivity|]. cbn. intuition discriminate.
  Qed.

  (** One layer of expansion. *)
  Inductive layer : ltree -> ltree -> Prop :=
  | la_done m fs : layer (Nd m "Done" fs) (Nd m "Done" fs)
  | la_call t c x i v2 t' : next_call E b t c x i -> ~ bad_call c -> outcome_of t x i v2 -> lands E c x i v2 t' -> layer t t'
  | la_leaf m fs : layer (Nd m "Name" fs) (Nd m "Name" fs)
  | la_node m k fs fs' : k <> "Done"%string -> k <> "Name"%string -> quiet_node (Nd m k fs) -> quiet_node (Nd m k fs') -> layer_fields fs fs' -> layer (Nd m k fs) (Nd m k fs')
  with layer_fields : list (string * ltree) -> list (string * ltree) -> Prop :=
  | lf_nil : layer_fields [] []
  | lf_atom f a r r' : layer_fields r r' -> layer_fields ((f, At a) :: r) ((f, At a) :: r')
  | lf_list f l l' r r' : layer_list l l' -> layer_fields r r' -> layer_fields ((f, Ls l) :: r) ((f, Ls l') :: r')
  | lf_node f t t' r r' : is_node t = true -> layer t t' -> is_none t' = false -> layer_fields r r' -> layer_fields ((f, t) :: r) ((f, t') :: r')
  | lf_gone f t r r' : is_node t = true -> layer t NoneT -> layer_fields r r' -> layer_fields ((f, t) :: r) r'
  with layer_list : list ltree -> list ltree -> Prop :=
  | ll_nil : layer_list [] []
  | ll_other v r r' : is_node v = false -> layer_list r r' -> layer_list (v :: r) (v :: r')
  | ll_node t v r r' : is_node t = true -> layer t v -> layer_list r r' -> layer_list (t :: r) (members v ++ r').
  Scheme layer_ind2 := Minimality for layer Sort Prop
    with layer_fields_ind2 := Minimality for layer_fields Sort Prop
    with layer_list_ind2 := Minimality for layer_list Sort Prop.
  Combined Scheme layer_mutind from layer_ind2, layer_fields_ind2, layer_list_ind2.

  Lemma outcome_ok t x i v2 : outcome_of t x i v2 -> res_ok v2.
  Proof.
    intros [j [v [v1 [_ [_ [Ha Hf]]]]]]. destruct Hf as [[_ ->]|[Hn Hf]]; [left; reflexivity|]. pose proof (sm_fix E HE _ _ _ Hf) as G. inversion Ha; subst; try contradiction.
    - destruct G as [m' [fs' ->]]. right. left. reflexivity.
    - destruct (G H) as [l' [-> Hl']]. right. right. eauto.
    - destruct (G ltac:(constructor)) as [l' [-> Hl']]. right. right. eauto.
    - destruct (G ltac:(constructor)) as [l' [-> Hl']]. right. right. eauto.
  Qed.
  Lemma lands_ok c x i v t' : res_ok v -> lands E c x i v t' -> res_ok t'.
  Proof.
    intros Hv H. inversion H; subst; auto; try (right; left; reflexivity). right. right. eexists. split; [reflexivity|]. constructor; [reflexivity|].
    destruct Hv as [->|[Hw|[lx [-> Hlx]]]]; [constructor| |exact Hlx]. destruct v; try discriminate. auto.
  Qed.
  Lemma layer_ok t t' : layer t t' -> res_ok t'.
  Proof. intros H. inversion H; subst; try (right; left; reflexivity). eapply lands_ok; [|eassumption]. eapply outcome_ok. eassumption. Qed.

  Definition sg (t : ltree) : Prop :=
    shaped t /\ (forall m k fs f v, part t (Nd m k fs) -> k <> "Done"%string -> In (f, v) fs -> is_node v = true -> single v) /\
    (forall m fs v, part t (Nd m "Subscript" fs) -> getf "slice" fs = Some v -> is_node v = true).
  Lemma sg_part t u : sg t -> part t u -> sg u.
  Proof. intros [H1 [H2 H3]] Hp. split; [exact (shaped_part _ _ H1 Hp)|]. split; intros; [eapply H2|eapply H3]; try eassumption; eapply part_trans; eassumption. Qed.

  Lemma full_Done m fs r : full (Nd m "Done" fs) r -> r = Nd m "Done" fs.
  Proof.
    intros H. inversion H; subst; auto; try contradiction; exfalso; match goal with H : next_call _ _ _ _ _ _ |- _ => inversion H; subst; match goal with Hk : _ \/ _ |- _ => destruct Hk; discriminate end end.
  Qed.
  Lemma quiet_next m k fs : shaped (Nd m k fs) -> k <> "Done"%string -> quiet_node (Nd m k fs) -> forall c x i, ~ next_call E b (Nd m k fs) c x i.
  Proof. intros Hs Hd Hq c x i Hn. destruct (proj1 (invokes_next E b m k fs Hs Hd)) as [y [syn Hi]]; [eauto|]. exact (Hq _ _ Hi). Qed.
  Lemma full_single_list t r : is_node t = true -> full_list [t] r -> exists v, full t v /\ r = members v.
  Proof. intros Hn H. inversion H; subst; [congruence|]. match goal with H : full_list [] _ |- _ => inversion H; subst end. rewrite app_nil_r. eauto. Qed.

  Lemma getf_in' {M} f (fs : list (string * tree M)) v : getf f fs = Some v -> In (f, v) fs.
  Proof. induction fs as [|[g w] fs IH]; cbn; [discriminate|]. destruct (String.eqb_spec f g) as [->|]; [intros H; inversion H; auto|auto]. Qed.

  (** At an invocation. *)
  Lemma single_done m fs : single (Nd m "Done" fs).
  Proof. exists m, "Done"%string, fs. split; [reflexivity|]. cbn. intuition discriminate. Qed.
  Lemma call_single t c x i v2 t1 r : sg t -> next_call E b t c x i -> ~ bad_call c -> outcome_of t x i v2 -> lands E c x i v2 t1 ->
    in_syntax i = "expr"%string \/ in_syntax i = "name"%string -> single t1 /\ (full t1 r -> full t r).
  Proof.
    intros [Hs [Hg1 Hg2]] Hc Hbad Ho Hl Hy. destruct (next_kind E _ _ _ _ _ Hc) as [_ [_ Ht]].
    assert (Hin : single (in_tree i)).
    { inversion Hc; subst; cbn in *; try (destruct Hy; discriminate).
      - assert (is_node sl = true) by (eapply Hg2; [constructor|eassumption]). eapply Hg1; [constructor|discriminate|apply getf_in'; eassumption|assumption].
      - exists m, "Name"%string, fs. split; [reflexivity|]. cbn. intuition discriminate. }
    pose proof (single_outcome _ _ _ _ Hy Hin Ho) as Hv. inversion Hl; subst.
    - split; [apply single_done|]. intros Hf. apply full_Done in Hf. rewrite Hf. destruct Hy as [Hy|Hy].
      + eapply fu_call; eauto; [congruence|constructor]. 
      + eapply fu_none_name; eauto.
    - destruct Hv as [->|Hv]; [discriminate|]. split; [exact Hv|]. intros Hf. eapply fu_call; eauto; [congruence|]. apply ld_expr; [assumption|]. eapply full_some; eassumption.
    - split; [apply single_done|]. intros Hf. apply full_Done in Hf. rewrite Hf. eapply fu_self; eauto. exists m, fs. auto.
    - destruct Hv as [->|Hv]; [discriminate|]. split; [exact Hv|]. intros Hf. eapply fu_name; eauto.
    - exfalso. match goal with H : _ \/ _ |- _ => destruct H as [[? _]|[? _]]; destruct Hy; congruence end.
    - exfalso. match goal with H : _ /\ _ \/ _ |- _ => destruct H as [[? _]|[? _]]; destruct Hy; congruence end.
  Qed.
  Lemma expansion_list v2 r : res_ok v2 -> full_list (members v2) r -> exists v3, full v2 v3 /\ members v3 = r.
  Proof.
    intros Hv Hf. destruct Hv as [->|[Hw|[lx [-> Hlx]]]].
    - inversion Hf; subst. exists NoneT. split; [constructor|reflexivity].
    - destruct v2; try discriminate. apply full_single_list in Hf; [|reflexivity]. destruct Hf as [v3 [H3 ->]]. eauto.
    - exact (full_suite _ _ Hlx Hf).
  Qed.
  Lemma call_stmt t c x i v2 t1 r : shaped t -> next_call E b t c x i -> ~ bad_call c -> outcome_of t x i v2 -> lands E c x i v2 t1 ->
    in_syntax i = "block"%string \/ in_syntax i = "decorator"%string -> full_list (members t1) r -> exists v, full t v /\ members v = r.
  Proof.
    intros Hs Hc Hbad Ho Hl Hy Hf. pose proof (outcome_ok _ _ _ _ Ho) as Hv. assert (Hnn : in_syntax i <> "name"%string) by (destruct Hy; congruence).
    inversion Hl; subst; try (exfalso; destruct Hy; intuition congruence).
    - destruct (expansion_list _ _ Hv Hf) as [v3 [H3 Hm]]. exists v3. split; [|exact Hm]. eapply fu_call; eauto. eapply ld_stmt_noloc; eauto.
    - cbn [members] in Hf. inversion Hf; subst; [discriminate|]. match goal with H : full (coverage_stmt _ _) _ |- _ => apply full_Done in H; subst end.
      assert (Hm2 : match v2 with At ANone => [] | Ls l0 => l0 | _ => [v2] end = members v2) by (destruct Hv as [->|[Hw|[lx [-> Hlx]]]]; [reflexivity|destruct v2; try discriminate; reflexivity|reflexivity]).
      clear Hf. match goal with H : full_list _ r' |- _ => rewrite Hm2 in H; destruct (expansion_list _ _ Hv H) as [v3 [Hf3 Hm]] end.
      pose proof (proj1 full_ok _ _ Hf3) as Hv3.
      assert (Hm3 : match v3 with At ANone => [] | Ls l0 => l0 | _ => [v3] end = members v3) by (destruct Hv3 as [->|[Hw|[lx [-> Hlx]]]]; [reflexivity|destruct v3; try discriminate; reflexivity|reflexivity]).
      eexists. split; [eapply fu_call; eauto; eapply ld_stmt; eauto|]. cbn [members app]. rewrite Hm3, Hm. reflexivity.
  Qed.

  (** Expanding completely what one layer of expansion gives. *)
  Theorem layer_full :
    (forall t t1, layer t t1 -> sg t -> shaped t1 -> is_node t = true ->
       (single t -> single t1 /\ forall r, full t1 r -> full t r) /\ (forall r, full_list (members t1) r -> exists v, full t v /\ members v = r)) /\
    (forall fs fs1, layer_fields fs fs1 -> (forall f v, In (f, v) fs -> sg v /\ (is_node v = true -> single v)) -> (forall f v, In (f, v) fs1 -> shaped v) ->
       forall r, full_fields fs1 r -> full_fields fs r) /\
    (forall l l1, layer_list l l1 -> (forall v, In v l -> sg v) -> (forall v, In v l1 -> shaped v) -> forall r, full_list l1 r -> full_list l r).
  Proof.
    apply layer_mutind.
    - intros m fs Hg Hs1 Hn. split; [auto|]. intros r Hf. apply full_single_list in Hf; [|reflexivity]. destruct Hf as [v [H ->]]. eauto.
    - intros t c x i v2 t' Hc Hbad Ho Hl Hg Hs1 Hn.
      assert (Hy : (in_syntax i = "expr"%string \/ in_syntax i = "name"%string) \/ ((in_syntax i = "block"%string \/ in_syntax i = "decorator"%string) /\ ~ single t)).
      { inversion Hc; subst; cbn; auto.
        - right. split; [auto|]. intros [m0 [k0 [fs0 [He Hk]]]]. inversion He; subst. apply Hk. cbn. auto.
        - right. split; [auto|]. intros [m0 [k0 [fs0 [He Hk]]]]. inversion He; subst. apply Hk. match goal with H : _ \/ _ |- _ => destruct H; subst; cbn; auto end. }
      destruct Hy as [Hy|[Hy Hns]].
      + assert (G : forall r, single t' /\ (full t' r -> full t r)) by (intros r; eapply call_single; eassumption).
        split; [intros _; split; [exact (proj1 (G NoneT))|]; intros r; exact (proj2 (G r))|]. intros r Hf. destruct (G NoneT) as [[m0 [k0 [fs0 [-> _]]]] _]. apply full_single_list in Hf; [|reflexivity]. destruct Hf as [v [H ->]]. exists v. split; [|reflexivity]. apply G. exact H.
      + split; [intros Hsg; contradiction|]. intros r Hf. eapply call_stmt; try eassumption. exact (proj1 Hg).
    - intros m fs Hg Hs1 Hn. split; [auto|]. intros r Hf. apply full_single_list in Hf; [|reflexivity]. destruct Hf as [v [H ->]]. eauto.
    - intros m k fs fs' Hd Hk Hq Hq' _ IH Hg Hs1 Hn.
      assert (G : forall r, full (Nd m k fs') r -> full (Nd m k fs) r).
      { intros r Hf. pose proof (quiet_next _ _ _ Hs1 Hd Hq') as Hno. inversion Hf; subst; try contradiction; try (exfalso; eapply Hno; eassumption).
        apply fu_node; auto; [exact (proj1 Hg)|]. apply IH; [| |assumption].
        - intros f v Hin. split; [eapply sg_part; [exact Hg|]; eapply pt_field; [exact Hd|exact Hin|constructor]|]. intros Hv. eapply (proj1 (proj2 Hg)); [constructor|exact Hd|exact Hin|exact Hv].
        - intros f v Hin. apply (shaped_part _ _ Hs1). eapply pt_field; [exact Hd|exact Hin|constructor]. }
      split; [intros Hsi; split; [destruct Hsi as [m0 [k0 [fs0 [He Hk0]]]]; inversion He; subst; exists m0, k0, fs'; auto|exact G]|]. intros r Hf. apply full_single_list in Hf; [|reflexivity]. destruct Hf as [v [H ->]]. eauto.
    - intros _ _ r Hf. exact Hf.
    - intros f a r r' _ IH Hg Hs1 fr Hf. inversion Hf; subst; try discriminate. constructor. apply IH; auto; intros; [eapply Hg|eapply Hs1]; right; eassumption.
    - intros f l l' r r' _ IHl _ IH Hg Hs1 fr Hf. inversion Hf; subst; try discriminate. constructor.
      + apply IHl; [| |assumption].
        * intros v Hv. eapply sg_part; [eapply Hg; left; reflexivity|]. eapply pt_elem; [exact Hv|constructor].
        * intros v Hv. apply (shaped_part (Ls l') v); [eapply Hs1; left; reflexivity|]. eapply pt_elem; [exact Hv|constructor].
      + apply IH; auto; intros; [eapply Hg|eapply Hs1]; right; eassumption.
    - intros f t t' r r' Hn _ IHt Hnn _ IH Hg Hs1 fr Hf. destruct (Hg f t) as [Hgt Hst]; [left; reflexivity|]. specialize (Hst Hn). destruct (IHt Hgt (Hs1 f t' ltac:(left; reflexivity)) Hn) as [IH0 _]. destruct (IH0 Hst) as [Htn IH1]. clear IH0.
      assert (Hnn' : forall r0, full t' r0 -> is_none r0 = false) by (intros r0 Hr0; eapply full_some; [apply IH1; exact Hr0|exact Hst]).
      assert (Hrest : forall fr', full_fields r' fr' -> full_fields r fr') by (intros; apply IH; auto; intros; [eapply Hg|eapply Hs1]; right; eassumption).
      destruct Htn as [m' [k' [fs' [-> _]]]]. inversion Hf; subst.
      + apply ff_node; auto.
      + match goal with H : full _ NoneT |- _ => apply Hnn' in H; discriminate end.
    - intros f t r r' Hn _ IHt _ IH Hg Hs1 fr Hf. exfalso. destruct (Hg f t) as [Hgt Hst]; [left; reflexivity|]. destruct (IHt Hgt) as [IH1 _]; [intros u Hu; inversion Hu; subst; exact I|exact Hn|].
      destruct (IH1 (Hst Hn)) as [[? [? [? [X _]]]] _]. discriminate.
    - intros _ _ r Hf. exact Hf.
    - intros v r r' Hn _ IH Hg Hs1 fr Hf. inversion Hf; subst; [|congruence]. apply fl_other; [assumption|]. apply IH; auto; intros; [eapply Hg|eapply Hs1]; right; eassumption.
    - intros t v r r' Hn Hlay IHt _ IH Hg Hs1 fr Hf. apply full_list_app in Hf. destruct Hf as [r1 [r2 [H1 [H2 ->]]]].
      assert (Hsv : shaped v).
      { pose proof (layer_ok _ _ Hlay) as [->|[Hv|[lx [-> Hlx]]]].
        - intros u Hu. inversion Hu; subst. exact I.
        - destruct v; try discriminate. apply Hs1. left. reflexivity.
        - intros u Hu. inversion Hu; subst; [exact I|]. match goal with Hi : In ?w lx |- _ => apply (Hs1 w); [apply in_app_iff; left; exact Hi|assumption] end. }
      destruct (IHt (Hg t ltac:(left; reflexivity)) Hsv Hn) as [_ IH2]. destruct (IH2 _ H1) as [w [Hw <-]]. apply fl_node; auto. apply IH; auto; intros; [eapply Hg; right; eassumption|eapply Hs1; apply in_app_iff; right; eassumption].
  Qed.

  (** ** From visits to layers *)
  Lemma pure_keeps j i : keeps_binds (m_run (x_macro E j) i).
  Proof. destruct (sm_pure E HE j i) as [[v ->]|[e ->]]; constructor. Qed.
  Lemma kept n t s r s' : visit E n t s = Some (r, s') -> s_b s' = s_b s /\ s_rec s' = s_rec s.
  Proof. intros H. split; [exact (visit_binds E pure_keeps _ _ _ _ _ H)|]. exact (proj1 (visit_mode E _ _ _ _ _ H)). Qed.

  Lemma pure_outcome n s x i r s1 : macro_outcome E n s x i r s1 -> s1 = called_in x i s /\
    exists j, bound (s_b s) x j /\ ((exists v, m_run (x_macro E j) i = Ret v /\ r = XOk v) \/ (exists e, m_run (x_macro E j) i = Raise e /\ r = XRaise e)).
  Proof.
    intros [j [Hbj Hr]]. destruct n as [|n]; [discriminate|]. destruct (sm_pure E HE j i) as [[v Hv]|[e Hv]]; rewrite Hv in Hr; cbn [run] in Hr; inversion Hr; subst; split; auto; exists j; split; eauto.
  Qed.

  Definition stays (t : ltree) : Prop := forall u, part t u -> is_node u = true -> quiet_node u ->
      forall n s u1 s', s_b s = b -> s_rec s = false -> visit E n u s = Some (XOk u1, s') -> quiet_node u1.

  Lemma called_b x i s : s_b (called_in (U := U) x i s) = s_b s.
  Proof. unfold called_in. destruct (String.eqb _ _); reflexivity. Qed.
  Lemma called_r x i s : s_rec (called_in (U := U) x i s) = if String.eqb (in_syntax i) "name" then false else s_rec s.
  Proof. unfold called_in. destruct (String.eqb _ _); reflexivity. Qed.

  Lemma expanded_once n x i t v v1 s1 r2 s2 : accepted v v1 -> in_target i = t -> s_rec s1 = false -> expanded E n x i (XOk v) s1 = Some (XOk r2, s2) ->
    v1 = NoneT /\ r2 = NoneT \/ v1 <> NoneT /\ x_fix E v1 t = Ok r2.
  Proof.
    intros Ha Ht Hr Hx. apply typecheck_iff in Ha. unfold expanded in Hx. rewrite Ha, Ht in Hx. unfold bnd in Hx. destruct (is_none v1) eqn:En.
    - destruct v1 as [| |[]]; try discriminate. cbn in Hx. inversion Hx; subst. left. auto.
    - right. split; [intros ->; discriminate|]. unfold visit_expansion in Hx.
      destruct v1 as [| |[]]; try discriminate; unfold bnd, of_res, lift in Hx; destruct (x_fix E _ t); try discriminate; cbn [logged s_rec] in Hx; rewrite Hr in Hx; cbn in Hx; inversion Hx; subst; reflexivity.
  Qed.

  Lemma visit_layer_list n l : (forall t, In t l -> is_node t = true -> forall s t' s', s_b s = b -> s_rec s = false -> visit E n t s = Some (XOk t', s') -> layer t t') ->
    forall s l' s', s_b s = b -> s_rec s = false -> xgv_list (visit E n) l s = Some (XOk l', s') -> layer_list l l' /\ s_b s' = b /\ s_rec s' = false.
  Proof.
    induction l as [|x l IH]; intros Hl s l' s' Hsb Hsr H; cbn [xgv_list] in H; [inversion H; subst; split; [constructor|auto]|].
    assert (IH' : forall s l' s', s_b s = b -> s_rec s = false -> xgv_list (visit E n) l s = Some (XOk l', s') -> layer_list l l' /\ s_b s' = b /\ s_rec s' = false) by (apply IH; intros t Ht; apply Hl; right; exact Ht).
    clear IH. assert (Other : is_node x = false -> bnd (xgv_list (visit E n) l) (fun r' => ret (x :: r')) s = Some (XOk l', s') -> layer_list (x :: l) l' /\ s_b s' = b /\ s_rec s' = false).
    { intros Hnn H0. unfold bnd in H0. destruct (xgv_list (visit E n) l s) as [[[r'|e] s1]|] eqn:E1; try discriminate. inversion H0; subst. destruct (IH' _ _ _ Hsb Hsr E1) as [H1 H2]. split; [constructor; assumption|exact H2]. }
    destruct x as [m k fs|lx|a]; try (apply Other; [reflexivity|exact H]). clear Other. unfold bnd at 1 in H.
    destruct (visit E n (Nd m k fs) s) as [[[t'|e] s1]|] eqn:E1; try discriminate. pose proof (Hl _ (or_introl eq_refl) eq_refl _ _ _ Hsb Hsr E1) as Hlay. destruct (kept _ _ _ _ _ E1) as [K1 K2]. rewrite Hsb in K1. rewrite Hsr in K2.
    destruct t' as [m' k' fs'|lt|a].
    - unfold bnd in H. destruct (xgv_list (visit E n) l s1) as [[[r'|e] s2]|] eqn:E2; try discriminate. inversion H; subst. destruct (IH' _ _ _ K1 K2 E2) as [H1 H2]. split; [|exact H2]. change (Nd m' k' fs' :: r') with (members (Nd m' k' fs') ++ r'). constructor; auto.
    - unfold bnd in H. destruct (xgv_list (visit E n) l s1) as [[[r'|e] s2]|] eqn:E2; try discriminate. inversion H; subst. destruct (IH' _ _ _ K1 K2 E2) as [H1 H2]. split; [|exact H2]. change (lt ++ r') with (members (Ls lt) ++ r'). constructor; auto.
    - destruct a; try discriminate. destruct (IH' _ _ _ K1 K2 H) as [H1 H2]. split; [|exact H2]. change l' with (members NoneT ++ l'). constructor; auto.
  Qed.
  Lemma visit_layer_fields n fs : (forall f t, In (f, t) fs -> is_node t = true -> forall s t' s', s_b s = b -> s_rec s = false -> visit E n t s = Some (XOk t', s') -> layer t t') ->
    (forall f l t, In (f, Ls l) fs -> In t l -> is_node t = true -> forall s t' s', s_b s = b -> s_rec s = false -> visit E n t s = Some (XOk t', s') -> layer t t') ->
    forall s fs' s', s_b s = b -> s_rec s = false -> xgv_fields (visit E n) fs s = Some (XOk fs', s') -> layer_fields fs fs' /\ s_b s' = b /\ s_rec s' = false.
  Proof.
    induction fs as [|[f x] fs IH]; intros Hf Hl s fs' s' Hsb Hsr H; cbn [xgv_fields] in H; [inversion H; subst; split; [constructor|auto]|].
    assert (IH' : forall s fs' s', s_b s = b -> s_rec s = false -> xgv_fields (visit E n) fs s = Some (XOk fs', s') -> layer_fields fs fs' /\ s_b s' = b /\ s_rec s' = false).
    { apply IH; [intros g t Ht; apply (Hf g); right; exact Ht|intros g l t Ht; apply (Hl g l); right; exact Ht]. }
    clear IH. destruct x as [m k fx|lx|a].
    - unfold bnd at 1 in H. destruct (visit E n (Nd m k fx) s) as [[[t'|e] s1]|] eqn:E1; try discriminate. pose proof (Hf f _ (or_introl eq_refl) eq_refl _ _ _ Hsb Hsr E1) as Hlay.
      destruct (kept _ _ _ _ _ E1) as [K1 K2]. rewrite Hsb in K1. rewrite Hsr in K2. destruct (is_none t') eqn:Et.
      + destruct t' as [| |[]]; try discriminate. destruct (IH' _ _ _ K1 K2 H) as [H1 H2]. split; [|exact H2]. apply lf_gone; auto.
      + assert (H' : bnd (xgv_fields (visit E n) fs) (fun r' => ret ((f, t') :: r')) s1 = Some (XOk fs', s')) by (destruct t' as [| |[]]; try discriminate; exact H). clear H.
        unfold bnd in H'. destruct (xgv_fields (visit E n) fs s1) as [[[r'|e] s2]|] eqn:E2; try discriminate. inversion H'; subst. destruct (IH' _ _ _ K1 K2 E2) as [H1 H2]. split; [|exact H2]. apply lf_node; auto.
    - unfold bnd in H. destruct (xgv_list (visit E n) lx s) as [[[l'|e] s1]|] eqn:E1; try discriminate.
      destruct (visit_layer_list n lx (fun t Ht => Hl f lx t (or_introl eq_refl) Ht) _ _ _ Hsb Hsr E1) as [H1 [K1 K2]].
      destruct (xgv_fields (visit E n) fs s1) as [[[r'|e] s2]|] eqn:E2; try discriminate. inversion H; subst. destruct (IH' _ _ _ K1 K2 E2) as [H2 H3]. split; [constructor; assumption|exact H3].
    - unfold bnd in H. destruct (xgv_fields (visit E n) fs s) as [[[r'|e] s1]|] eqn:E1; try discriminate. inversion H; subst. destruct (IH' _ _ _ Hsb Hsr E1) as [H1 H2]. split; [constructor; assumption|exact H2].
  Qed.
  Lemma stays_part t u : stays t -> part t u -> stays u.
  Proof. intros H Hp v Hv. apply H. eapply part_trans; eassumption. Qed.

  Lemma visit_layer n : forall t, is_node t = true -> shaped t -> stays t -> forall s t' s', s_b s = b -> s_rec s = false -> visit E n t s = Some (XOk t', s') -> layer t t'.
  Proof.
    induction n as [|n IH]; intros t Hn Hs Hst s t' s' Hsb Hsr H; [discriminate|]. destruct t as [m k fs| |]; try discriminate.
    destruct (String.eqb_spec k "Done") as [->|Hd].
    { cbn [visit] in H. unfold visit_body in H. cbn [is_kind] in H. rewrite String.eqb_refl, orb_true_r in H. inversion H; subst. constructor. }
    pose proof H as H0. destruct (next_dec E b m k fs Hs Hd) as [[c [x [i Hc]]]|Hno].
    - rewrite <- Hsb in Hc. destruct (visit_next E n s _ c x i Hs Hc) as [V1 _].
      assert (Hbad : ~ bad_call c) by (intros Hbb; rewrite (V1 Hbb) in H; discriminate). clear V1.
      destruct (visit_has_outcome E n s _ c x i _ _ Hs Hc Hbad H) as [r [s1 Ho]]. rewrite (visit_outcome E n s _ c x i r s1 Hs Hc Hbad Ho) in H.
      destruct (pure_outcome _ _ _ _ _ _ Ho) as [Hs1 [j [Hbj Hr]]]. rewrite Hsb in Hbj, Hc. destruct (next_kind E _ _ _ _ _ Hc) as [_ [_ Ht]].
      assert (Hrec1 : s_rec s1 = false) by (rewrite Hs1, called_r, Hsr; destruct (String.eqb _ _); reflexivity). rewrite Hsr in H.
      assert (X : forall r2 s2, expanded E n x i r s1 = Some (XOk r2, s2) -> outcome_of (Nd m k fs) x i r2).
      { intros r2 s2 Hx. destruct Hr as [[v [Hv ->]]|[e [_ ->]]]; [|discriminate]. assert (exists v1, accepted v v1) as [v1 Ha].
        { unfold expanded in Hx. destruct (typecheck v) as [v1|] eqn:Ev; [|discriminate]. exists v1. apply typecheck_iff. exact Ev. }
        exists j, v, v1. split; [exact Hbj|]. split; [exact Hv|]. split; [exact Ha|]. eapply expanded_once; eassumption. }
      destruct (String.eqb_spec (in_syntax i) "name") as [Hy|Hy].
      + destruct (expanded E n x i r s1) as [[[r2|e] s2]|] eqn:Ex; try discriminate. cbv zeta in H. eapply la_call; [exact Hc|exact Hbad|exact (X _ _ eq_refl)|]. destruct (is_none r2) eqn:En.
        * inversion H; subst. destruct r2 as [| |[]]; try discriminate. assert (L0 : loc_of (Nd m k fs) = loc_of (in_target i)) by (rewrite Ht; reflexivity). cbn [loc_of] in L0. cbn [loc_of]. rewrite L0. apply ld_expr_none. auto.
        * destruct (same_name x r2) eqn:Es.
          -- inversion H; subst. apply same_name_iff in Es. destruct Es as [m' [fs' [-> Hid]]]. apply ld_self; auto.
          -- inversion H; subst. apply ld_name; auto. intros m' fs' -> Hid. assert (same_name x (Nd m' "Name" fs') = true); [apply same_name_iff; eauto|congruence].
      + destruct (expanded E n x i r s1) as [[[r2|e] s2]|] eqn:Ex; try discriminate. eapply la_call; [exact Hc|exact Hbad|exact (X _ _ eq_refl)|]. destruct (String.eqb_spec (in_syntax i) "expr") as [He|He].
        * inversion H; subst. destruct (is_none r2) eqn:En.
          -- destruct r2 as [| |[]]; try discriminate. assert (L0 : loc_of (Nd m k fs) = loc_of (in_target i)) by (rewrite Ht; reflexivity). cbn [loc_of] in L0. cbn [loc_of]. rewrite L0. apply ld_expr_none. auto.
          -- apply ld_expr; auto.
        * cbv zeta in H. inversion H; subst. destruct (String.eqb_spec (in_syntax i) "block") as [Hk|Hk].
          -- eapply insert_dummy_lands; [left; split; [exact Hk|rewrite Ht; reflexivity]|eassumption].
          -- eapply insert_dummy_lands; [right; split; [|reflexivity]|eassumption]. inversion Hc; subst; cbn in *; congruence.
    - assert (Hne : s_b s <> []) by (rewrite Hsb; exact Hb). rewrite <- Hsb in Hno. rewrite (visit_generic E n s m k fs Hs Hd Hne Hno) in H. rewrite Hsb in Hno.
      assert (Hq : quiet_node (Nd m k fs)).
      { intros x syn Hi. destruct (proj2 (invokes_next E b m k fs Hs Hd)) as [c [y [i Hc]]]; [eauto|]. exact (Hno _ _ _ Hc). }
      destruct (String.eqb_spec k "Name") as [->|Hk]; [inversion H; subst; constructor|].
      cbn [xgeneric_visit] in H. unfold bnd in H. destruct (xgv_fields (visit E n) fs s) as [[[fs'|e] s1]|] eqn:E1; try discriminate. inversion H; subst.
      apply la_node; auto; [exact (Hst _ (pt_refl _) eq_refl Hq _ _ _ _ Hsb Hsr H0)|]. eapply visit_layer_fields; [| |exact Hsb|exact Hsr|exact E1].
      + intros f t Hin Htn. assert (Hp : part (Nd m k fs) t) by (eapply pt_field; [exact Hd|exact Hin|constructor]). intros. eapply IH; eauto; [exact (shaped_part _ _ Hs Hp)|exact (stays_part _ _ Hst Hp)].
      + intros f l t Hin Hit Htn. assert (Hp : part (Nd m k fs) t) by (eapply pt_field; [exact Hd|exact Hin|]; eapply pt_elem; [exact Hit|constructor]). intros. eapply IH; eauto; [exact (shaped_part _ _ Hs Hp)|exact (stays_part _ _ Hst Hp)].
  Qed.

  (** ** From complete expansion to visits *)
  Definition visits (n : nat) (t v : ltree) : Prop := forall s, s_b s = b -> s_rec s = true -> exists s', visit E n t s = Some (XOk v, s').
  Lemma visits_le n n' t v : n <= n' -> visits n t v -> visits n' t v.
  Proof. intros Hle H s Hsb Hsr. destruct (H s Hsb Hsr) as [s' Hv]. exists s'. exact (visit_mono_le E n n' t Hle _ _ Hv). Qed.
  Lemma visits_kept n t v s : visits n t v -> s_b s = b -> s_rec s = true -> exists s', visit E n t s = Some (XOk v, s') /\ s_b s' = b /\ s_rec s' = true.
  Proof. intros H Hsb Hsr. destruct (H s Hsb Hsr) as [s' Hv]. exists s'. split; [exact Hv|]. destruct (kept _ _ _ _ _ Hv) as [K1 K2]. split; congruence. Qed.

  Lemma expanded_rec n x i t j v v1 v2 v3 s : bound b x j -> m_run (x_macro E j) i = Ret v -> accepted v v1 -> in_target i = t -> (v1 = NoneT /\ v2 = NoneT \/ v1 <> NoneT /\ x_fix E v1 t = Ok v2) ->
    s_b s = b -> (if s_rec s then full v2 v3 /\ visits n v2 v3 else v3 = v2) -> exists s2, expanded E n x i (XOk v) s = Some (XOk v3, s2) /\ s_b s2 = b /\ s_rec s2 = s_rec s.
  Proof.
    intros Hbj Hv Ha Ht Hf Hsb Hrec. apply typecheck_iff in Ha. unfold expanded. rewrite Ha, Ht. destruct Hf as [[-> ->]|[Hn Hf]].
    - assert (v3 = NoneT). { destruct (s_rec s); [|exact Hrec]. destruct Hrec as [Hrec _]. inversion Hrec; subst; auto; match goal with H : next_call _ _ _ _ _ _ |- _ => inversion H end. }
      subst v3. eexists. split; [reflexivity|]. split; [exact Hsb|reflexivity].
    - assert (G : visit_expansion E (visit E n) v1 t = bnd (of_res (lift (x_fix E v1 t))) (fun t => fun s => if s_rec s then visit E n t s else Some (XOk t, s))) by (destruct v1 as [| |[]]; try reflexivity; contradiction).
      rewrite G, Hf. unfold bnd, of_res, lift. cbn [logged s_rec]. destruct (s_rec s) eqn:Es.
      + destruct Hrec as [_ Hvis]. destruct (visits_kept n v2 v3 (logged (ERet (XOk v)) s) Hvis Hsb Es) as [s' [H1 [H2 H3]]]. rewrite H1. eexists. split; [reflexivity|]. split; [exact H2|exact H3].
      + subst v3. eexists. split; [reflexivity|]. split; [exact Hsb|exact Es].
  Qed.
  Lemma outcome_run n s x i j v : s_b s = b -> bound b x j -> m_run (x_macro E j) i = Ret v -> macro_outcome E (S n) s x i (XOk v) (called_in x i s).
  Proof. intros Hsb Hbj Hv. exists j. rewrite Hsb. split; [exact Hbj|]. rewrite Hv. reflexivity. Qed.

  Lemma lands_insert t c x i v t' : in_target i = t -> in_syntax i = "block"%string \/ in_syntax i = "decorator"%string -> lands E c x i v t' ->
    let m := if String.eqb (in_syntax i) "block" then loc_of t else loc_of c in insert_dummy (x_text E m x) m v = XOk t'.
  Proof.
    intros Ht Hy H m0. assert (Hm : forall m, (in_syntax i = "block"%string /\ m = loc_of (in_target i)) \/ (in_syntax i = "decorator"%string /\ m = loc_of c) -> m0 = m).
    { intros m [[H1 ->]|[H1 ->]]; unfold m0; rewrite H1; cbn; [rewrite Ht|]; reflexivity. }
    inversion H; subst; try (exfalso; destruct Hy; intuition congruence).
    - rewrite (Hm _ H0). unfold insert_dummy. rewrite H1, H2. reflexivity.
    - rewrite (Hm _ H0). unfold insert_dummy. rewrite H1. reflexivity.
  Qed.

  Definition visits_fields (n : nat) (fs fs' : list (string * ltree)) : Prop := forall s, s_b s = b -> s_rec s = true ->
    exists s', xgv_fields (visit E n) fs s = Some (XOk fs', s') /\ s_b s' = b /\ s_rec s' = true.
  Definition visits_list (n : nat) (l l' : list ltree) : Prop := forall s, s_b s = b -> s_rec s = true ->
    exists s', xgv_list (visit E n) l s = Some (XOk l', s') /\ s_b s' = b /\ s_rec s' = true.
  Definition visits_each (n : nat) (l l' : list ltree) : Prop := forall s, s_b s = b -> s_rec s = true ->
    exists s', xvisit_elts (visit E n) l s = Some (XOk l', s') /\ s_b s' = b /\ s_rec s' = true.

  Theorem full_visits :
    (forall t v, full t v -> exists n, forall n', n <= n' -> visits n' t v) /\
    (forall l ws, full_each l ws -> exists n, forall n', n <= n' -> visits_each n' l ws) /\
    (forall fs fs', full_fields fs fs' -> exists n, forall n', n <= n' -> visits_fields n' fs fs') /\
    (forall l l', full_list l l' -> exists n, forall n', n <= n' -> visits_list n' l l').
  Proof.
    assert (Nb : forall s : st U, s_b s = b -> match s_b s with [] => true | _ => false end = false) by (intros s ->; destruct b; [contradiction|reflexivity]).
    assert (Up : forall n t v, visits n t v -> exists n, forall n', n <= n' -> visits n' t v) by (intros n t v H; exists n; intros n' Hle; exact (visits_le _ _ _ _ Hle H)).
    apply full_mutind.
    - apply (Up 1). intros s Hsb Hsr. exists s. cbn [visit]. unfold visit_body. rewrite (Nb s Hsb). reflexivity.
    - intros l ws _ [n Hw]. apply (Up (S n)). intros s Hsb Hsr. destruct (Hw n ltac:(lia) s Hsb Hsr) as [s' [H1 _]]. exists s'. cbn [visit]. unfold visit_body. rewrite (Nb s Hsb). cbn [is_kind orb]. unfold bnd. rewrite H1. destruct (flatten ws); reflexivity.
    - intros m fs. apply (Up 1). intros s Hsb Hsr. exists s. cbn [visit]. unfold visit_body. cbn [is_kind]. rewrite String.eqb_refl, orb_true_r. reflexivity.
    - intros t c x i v2 v3 t' Hs Hc Hbad Hy [j [v [v1 [Hbj [Hv [Ha Hf]]]]]] Hfull [n Hvis] Hl. apply (Up (S (S n))). intros s Hsb Hsr.
      pose proof (outcome_run n s x i j v Hsb Hbj Hv) as Ho. destruct (next_kind E _ _ _ _ _ Hc) as [_ [_ Ht]]. assert (Hc' := Hc). rewrite <- Hsb in Hc'.
      rewrite (visit_outcome E (S n) s t c x i _ _ Hs Hc' Hbad Ho). destruct (String.eqb_spec (in_syntax i) "name"); [contradiction|].
      destruct (expanded_rec (S n) x i t j v v1 v2 v3 (called_in x i s) Hbj Hv Ha Ht Hf) as [s2 [-> [K1 K2]]].
      { rewrite called_b. exact Hsb. }
      { rewrite called_r. destruct (String.eqb_spec (in_syntax i) "name"); [contradiction|]. rewrite Hsr. split; [exact Hfull|apply Hvis; lia]. }
      exists s2. destruct (String.eqb_spec (in_syntax i) "expr") as [He|He].
      + inversion Hl; subst; try (exfalso; intuition congruence); [reflexivity|]. match goal with Hnn : is_none _ = false |- _ => rewrite Hnn end. reflexivity.
      + assert (Hyy : in_syntax i = "block"%string \/ in_syntax i = "decorator"%string) by (inversion Hc; subst; cbn in *; auto; contradiction).
        pose proof (lands_insert _ _ _ _ _ _ Ht Hyy Hl) as Hi. cbv zeta in *. rewrite Hi. reflexivity.
    - intros t c x i Hs Hc Hbad Hy [j [v [v1 [Hbj [Hv [Ha Hf]]]]]]. apply (Up 2). intros s Hsb Hsr.
      pose proof (outcome_run 0 s x i j v Hsb Hbj Hv) as Ho. destruct (next_kind E _ _ _ _ _ Hc) as [_ [_ Ht]]. assert (Hc' := Hc). rewrite <- Hsb in Hc'.
      rewrite (visit_outcome E 1 s t c x i _ _ Hs Hc' Hbad Ho), Hy. cbn [String.eqb Ascii.eqb Bool.eqb].
      destruct (expanded_rec 1 x i t j v v1 NoneT NoneT (called_in x i s) Hbj Hv Ha Ht Hf) as [s2 [-> [K1 K2]]]; [rewrite called_b; exact Hsb|rewrite called_r, Hy; reflexivity|].
      eexists. reflexivity.
    - intros t c x i v2 Hs Hc Hbad Hy [j [v [v1 [Hbj [Hv [Ha Hf]]]]]] [mo [fo [-> Hid]]]. apply (Up 2). intros s Hsb Hsr.
      pose proof (outcome_run 0 s x i j v Hsb Hbj Hv) as Ho. destruct (next_kind E _ _ _ _ _ Hc) as [_ [_ Ht]]. assert (Hc' := Hc). rewrite <- Hsb in Hc'.
      rewrite (visit_outcome E 1 s t c x i _ _ Hs Hc' Hbad Ho), Hy. cbn [String.eqb Ascii.eqb Bool.eqb].
      destruct (expanded_rec 1 x i t j v v1 (Nd mo "Name" fo) (Nd mo "Name" fo) (called_in x i s) Hbj Hv Ha Ht Hf) as [s2 [-> [K1 K2]]]; [rewrite called_b; exact Hsb|rewrite called_r, Hy; reflexivity|].
      cbv zeta. cbn [is_none]. rewrite (proj2 (same_name_iff x (Nd mo "Name" fo))) by eauto. eexists. reflexivity.
    - intros t c x i v2 v3 Hs Hc Hbad Hy [j [v [v1 [Hbj [Hv [Ha Hf]]]]]] Hnn Hother Hfull [n Hvis]. apply (Up (S (S n))). intros s Hsb Hsr.
      pose proof (outcome_run n s x i j v Hsb Hbj Hv) as Ho. destruct (next_kind E _ _ _ _ _ Hc) as [_ [_ Ht]]. assert (Hc' := Hc). rewrite <- Hsb in Hc'.
      rewrite (visit_outcome E (S n) s t c x i _ _ Hs Hc' Hbad Ho), Hy. cbn [String.eqb Ascii.eqb Bool.eqb].
      destruct (expanded_rec (S n) x i t j v v1 v2 v2 (called_in x i s) Hbj Hv Ha Ht Hf) as [s2 [-> [K1 K2]]]; [rewrite called_b; exact Hsb|rewrite called_r, Hy; reflexivity|].
      cbv zeta. rewrite Hnn, Hsr. destruct (same_name x v2) eqn:Es; [apply same_name_iff in Es; destruct Es as [m' [fs' [-> Hid]]]; exfalso; exact (Hother _ _ eq_refl Hid)|].
      apply (Hvis (S n)); [lia|exact K1|reflexivity].
    - intros m fs Hs Hq. apply (Up 1). intros s Hsb Hsr. exists s. rewrite (visit_generic E 0 s m "Name" fs Hs ltac:(discriminate)); [reflexivity|rewrite Hsb; exact Hb|]. rewrite Hsb. apply quiet_next; [exact Hs|discriminate|exact Hq].
    - intros m k fs fs' Hs Hd Hk Hq _ [n Hf]. apply (Up (S n)). intros s Hsb Hsr. destruct (Hf n ltac:(lia) s Hsb Hsr) as [s' [H1 _]]. exists s'.
      rewrite (visit_generic E n s m k fs Hs Hd); [|rewrite Hsb; exact Hb|rewrite Hsb; apply quiet_next; assumption]. destruct (String.eqb_spec k "Name"); [contradiction|]. cbn [xgeneric_visit]. unfold bnd. rewrite H1. reflexivity.
    - exists 0. intros n _ s Hsb Hsr. exists s. auto.
    - intros x w l ws _ [n1 H1] _ [n2 H2]. exists (Nat.max n1 n2). intros n Hle s Hsb Hsr. destruct (visits_kept n x w s (H1 n ltac:(lia)) Hsb Hsr) as [s1 [V1 [K1 K2]]].
      destruct (H2 n ltac:(lia) s1 K1 K2) as [s2 [V2 K3]]. exists s2. split; [|exact K3]. cbn [xvisit_elts]. unfold bnd. rewrite V1, V2. reflexivity.
    - exists 0. intros n _ s Hsb Hsr. exists s. auto.
    - intros f a r r' _ [n0 H]. exists n0. intros n Hle s Hsb Hsr. destruct (H n Hle s Hsb Hsr) as [s1 [V1 K]]. exists s1. split; [|exact K]. cbn [xgv_fields]. unfold bnd. rewrite V1. reflexivity.
    - intros f l l' r r' _ [n1 H1] _ [n2 H2]. exists (Nat.max n1 n2). intros n Hle s Hsb Hsr. destruct (H1 n ltac:(lia) s Hsb Hsr) as [s1 [V1 [K1 K2]]].
      destruct (H2 n ltac:(lia) s1 K1 K2) as [s2 [V2 K3]]. exists s2. split; [|exact K3]. cbn [xgv_fields]. unfold bnd. rewrite V1, V2. reflexivity.
    - intros f t t' r r' Hn _ [n1 H1] Hnn _ [n2 H2]. exists (Nat.max n1 n2). intros n Hle s Hsb Hsr. destruct (visits_kept n t t' s (H1 n ltac:(lia)) Hsb Hsr) as [s1 [V1 [K1 K2]]].
      destruct (H2 n ltac:(lia) s1 K1 K2) as [s2 [V2 K3]]. exists s2. split; [|exact K3]. destruct t as [m k fs| |]; try discriminate. cbn [xgv_fields]. unfold bnd. rewrite V1. destruct t' as [| |[]]; try discriminate; rewrite V2; reflexivity.
    - intros f t r r' Hn _ [n1 H1] _ [n2 H2]. exists (Nat.max n1 n2). intros n Hle s Hsb Hsr. destruct (visits_kept n t NoneT s (H1 n ltac:(lia)) Hsb Hsr) as [s1 [V1 [K1 K2]]].
      destruct (H2 n ltac:(lia) s1 K1 K2) as [s2 [V2 K3]]. exists s2. split; [|exact K3]. destruct t as [m k fs| |]; try discriminate. cbn [xgv_fields]. unfold bnd. rewrite V1. exact V2.
    - exists 0. intros n _ s Hsb Hsr. exists s. auto.
    - intros v r r' Hn _ [n0 H]. exists n0. intros n Hle s Hsb Hsr. destruct (H n Hle s Hsb Hsr) as [s1 [V1 K]]. exists s1. split; [|exact K]. destruct v; try discriminate; cbn [xgv_list]; unfold bnd; rewrite V1; reflexivity.
    - intros t v r r' Hn Hfull [n1 H1] _ [n2 H2]. exists (Nat.max n1 n2). intros n Hle s Hsb Hsr. destruct (visits_kept n t v s (H1 n ltac:(lia)) Hsb Hsr) as [s1 [V1 [K1 K2]]].
      destruct (H2 n ltac:(lia) s1 K1 K2) as [s2 [V2 K3]]. exists s2. split; [|exact K3]. destruct t as [m k fs| |]; try discriminate. cbn [xgv_list]. unfold bnd. rewrite V1.
      destruct (proj1 full_ok _ _ Hfull) as [->|[Hw|[lx [-> Hlx]]]]; [exact V2| |rewrite V2; reflexivity]. destruct v; try discriminate. rewrite V2. reflexivity.
  Qed.

  (** ** Code without invocations *)
  Lemma full_quiet t : shaped t -> (forall u, part t u -> quiet_node u) -> is_node t = true -> full t t.
  Proof.
    induction t as [m k fs IH|l IH|a] using tree_ind2; intros Hs Hq Hn; try discriminate. destruct (String.eqb_spec k "Done") as [->|Hd]; [constructor|].
    destruct (String.eqb_spec k "Name") as [->|Hk]; [apply fu_leaf; [exact Hs|apply Hq; constructor]|]. apply fu_node; auto; [apply Hq; constructor|].
    assert (G : forall f v, In (f, v) fs -> shaped v /\ (forall u, part v u -> quiet_node u)).
    { intros f v Hin. split; [apply (shaped_part _ _ Hs); eapply pt_field; [exact Hd|exact Hin|constructor]|]. intros u Hu. apply Hq. eapply pt_field; eassumption. }
    clear Hs Hq Hn. induction IH as [|[f v] fs Hv _ IHfs]; [constructor|].
    assert (Hrest : full_fields fs fs) by (apply IHfs; intros g w Hin; apply (G g); right; exact Hin). destruct (G f v (or_introl eq_refl)) as [Gs Gq]. cbn [snd] in Hv. destruct v as [m' k' fs'|l|a].
    - apply ff_node; auto; apply Hv; auto.
    - apply ff_list; [|exact Hrest]. destruct Hv as [_ Hv].
      assert (Gl : forall x, In x l -> shaped x /\ (forall u, part x u -> quiet_node u)).
      { intros x Hx. split; [apply (shaped_part _ _ Gs); eapply pt_elem; [exact Hx|constructor]|]. intros u Hu. apply Gq. eapply pt_elem; eassumption. }
      clear Gs Gq G IHfs. induction Hv as [|x l Hx _ IHl]; [constructor|]. assert (Hr : full_list l l) by (apply IHl; intros y Hy; apply Gl; right; exact Hy). destruct (Gl x (or_introl eq_refl)) as [Gs Gq]. destruct x as [mx kx fx|lx|ax].
      + change (Nd mx kx fx :: l) with (members (Nd mx kx fx) ++ l) at 2. apply fl_node; auto.
      + apply fl_other; auto.
      + apply fl_other; auto.
    - apply ff_atom. exact Hrest.
  Qed.

  Lemma full_quiet_list l : l <> [] -> (forall x, In x l -> shaped x /\ (forall u, part x u -> quiet_node u) /\ is_node x = true) -> full (Ls l) (Ls l).
  Proof.
    intros Hne H. assert (Hw : full_each l l) by (clear Hne; induction l as [|x l IH]; constructor; [destruct (H x (or_introl eq_refl)) as [H1 [H2 H3]]; apply full_quiet; assumption|apply IH; intros; apply H; right; assumption]).
    pose proof (fu_ls l l Hw) as Hf. rewrite flatten_fixed in Hf; [destruct l; [contradiction|exact Hf]|]. apply Forall_forall. intros x Hx. destruct (H x Hx) as [_ [_ Hn]]. destruct x; try discriminate. split; reflexivity.
  Qed.

  (** ** Suites *)
  Definition guarded (t : ltree) : Prop := sg t /\ stays t.
  Definition top_ok (t : ltree) : Prop := single t \/ exists l, t = Ls l /\ l <> [] /\ Forall node l.
  Lemma visit_elts_layer n l : (forall t, In t l -> is_node t = true /\ shaped t /\ stays t) -> forall s ws s', s_b s = b -> s_rec s = false ->
    xvisit_elts (visit E n) l s = Some (XOk ws, s') -> Forall2 layer l ws.
  Proof.
    induction l as [|x l IH]; intros Hl s ws s' Hsb Hsr H; cbn [xvisit_elts] in H; [inversion H; subst; constructor|]. unfold bnd in H.
    destruct (visit E n x s) as [[[w|e] s1]|] eqn:E1; try discriminate. destruct (xvisit_elts (visit E n) l s1) as [[[r|e] s2]|] eqn:E2; try discriminate. inversion H; subst. destruct (Hl x (or_introl eq_refl)) as [H1 [H2 H3]].
    destruct (kept _ _ _ _ _ E1) as [K1 K2]. constructor; [eapply visit_layer; eassumption|]. eapply IH; [intros t Ht; apply Hl; right; exact Ht| | |exact E2]; congruence.
  Qed.
  Lemma layer_each l ws : Forall2 layer l ws -> Forall node l -> (forall t, In t l -> sg t) -> (forall w, In w ws -> shaped w) -> forall r, full_list (flat_map members ws) r ->
    exists vs, full_each l vs /\ flat_map members vs = r.
  Proof.
    induction 1 as [|t w l ws Hlay _ IH]; intros Hn Hg Hs r Hf; cbn [flat_map] in *; [inversion Hf; subst; exists []; split; [constructor|reflexivity]|].
    apply full_list_app in Hf. destruct Hf as [r1 [r2 [H1 [H2 ->]]]]. inversion Hn; subst. destruct (proj1 layer_full _ _ Hlay (Hg t (or_introl eq_refl)) (Hs w (or_introl eq_refl)) ltac:(assumption)) as [_ G].
    destruct (G _ H1) as [v [Hv <-]]. destruct (IH ltac:(assumption) (fun t Ht => Hg t (or_intror Ht)) (fun w Hw => Hs w (or_intror Hw)) _ H2) as [vs [Hvs <-]]. exists (v :: vs). split; [constructor; assumption|reflexivity].
  Qed.

  (** One step. *)
  Lemma step_full n t s t1 s' r : top_ok t -> guarded t -> shaped t1 -> s_b s = b -> s_rec s = false -> visit E n t s = Some (XOk t1, s') -> full t1 r -> full t r.
  Proof.
    intros Htop [Hg Hst] Hs1 Hsb Hsr H Hf. destruct Htop as [Hsi|[l [-> [Hne Hl]]]].
    - assert (Hn : is_node t = true) by (destruct Hsi as [? [? [? [-> _]]]]; reflexivity). pose proof (visit_layer n t Hn (proj1 Hg) Hst s t1 s' Hsb Hsr H) as Hlay.
      destruct (proj1 layer_full _ _ Hlay Hg Hs1 Hn) as [G _]. apply (proj2 (G Hsi)). exact Hf.
    - destruct n as [|n]; [discriminate|]. cbn [visit] in H. unfold visit_body in H. replace (match s_b s with [] => true | _ => false end) with false in H by (rewrite Hsb; destruct b; [contradiction|reflexivity]). cbn [is_kind orb] in H.
      unfold bnd in H. destruct (xvisit_elts (visit E n) l s) as [[[ws|e] s1]|] eqn:E1; try discriminate.
      assert (Hlay : Forall2 layer l ws).
      { eapply visit_elts_layer; [|exact Hsb|exact Hsr|exact E1]. intros t Ht. assert (Hp : part (Ls l) t) by (eapply pt_elem; [exact Ht|constructor]). rewrite Forall_forall in Hl. split; [exact (Hl t Ht)|]. split; [exact (shaped_part _ _ (proj1 Hg) Hp)|exact (stays_part _ _ Hst Hp)]. }
      assert (Hok : Forall res_ok ws) by (clear - Hlay HE; induction Hlay; constructor; [eapply layer_ok; eassumption|assumption]).
      assert (Hfl : flatten ws = flat_map members ws) by (apply flatten_members; exact Hok).
      assert (Hfn : Forall node (flatten ws)).
      { rewrite Hfl. clear - Hok. induction Hok as [|w ws Hw _ IH]; cbn [flat_map]; [constructor|]. apply Forall_app. split; [|exact IH]. destruct Hw as [->|[Hw|[lx [-> Hlx]]]]; cbn [members]; [constructor| |exact Hlx]. destruct w; try discriminate. cbn. auto. }
      assert (Hws : forall w, In w ws -> shaped w).
      { intros w Hw u Hu. assert (Hm : forall y, In y (members w) -> In y (flatten ws)) by (intros y Hy; rewrite Hfl; apply in_flat_map; eauto).
        assert (Hall : forall y, In y (flatten ws) -> shaped y).
        { intros y Hy. destruct (flatten ws) as [|w0 wr] eqn:Ef; [destruct Hy|]. assert (t1 = Ls (w0 :: wr)) by (inversion H; reflexivity). subst t1. apply (shaped_part _ _ Hs1). eapply pt_elem; [exact Hy|constructor]. }
        rewrite Forall_forall in Hok. destruct (Hok w Hw) as [->|[Hn|[lx [-> Hlx]]]].
        - inversion Hu; subst. exact I.
        - destruct w; try discriminate. apply (Hall _ (Hm _ (or_introl eq_refl))). exact Hu.
        - inversion Hu; subst; [exact I|]. eapply Hall; [apply Hm; cbn [members]; eassumption|assumption]. }
      assert (Hmem : full_list (flatten ws) (members r) /\ (members r = [] -> r = NoneT) /\ (members r <> [] -> r = Ls (members r))).
      { destruct (flatten ws) as [|w0 wr] eqn:Ef.
        - inversion H; subst. inversion Hf; subst; try (match goal with H : next_call _ _ NoneT _ _ _ |- _ => inversion H end). cbn. split; [constructor|]. split; [auto|congruence].
        - assert (t1 = Ls (w0 :: wr)) by (inversion H; reflexivity). subst t1. split; [apply full_suite_inv; assumption|]. inversion Hf; subst; try (match goal with H : next_call _ _ (Ls _) _ _ _ |- _ => inversion H end).
          destruct (flatten ws0); cbn; split; auto; try congruence. }
      destruct Hmem as [Hm1 [Hm2 Hm3]]. rewrite Hfl in Hm1. destruct (layer_each _ _ Hlay Hl) with (r := members r) as [vs [Hvs Hmr]]; [|exact Hws|exact Hm1|].
      { intros t Ht. eapply sg_part; [exact Hg|]. eapply pt_elem; [exact Ht|constructor]. }
      pose proof (fu_ls _ _ Hvs) as G. rewrite flatten_members in G by exact (proj1 (proj2 full_ok) _ _ Hvs). rewrite Hmr in G. destruct (members r) as [|r0 rr] eqn:Er.
      + rewrite (Hm2 eq_refl). exact G.
      + rewrite (Hm3 ltac:(discriminate)). exact G.
  Qed.
  (** What one step gives can be stepped again. *)
  Lemma step_top n t s t1 s' : top_ok t -> guarded t -> s_b s = b -> s_rec s = false -> visit E n t s = Some (XOk t1, s') -> shaped t1 -> t1 = NoneT \/ top_ok t1.
  Proof.
    intros Htop [Hg Hst] Hsb Hsr H Hs1. destruct Htop as [Hsi|[l [-> [Hne Hl]]]].
    - assert (Hn : is_node t = true) by (destruct Hsi as [? [? [? [-> _]]]]; reflexivity). pose proof (visit_layer n t Hn (proj1 Hg) Hst s t1 s' Hsb Hsr H) as Hlay. right. left. exact (proj1 (proj1 (proj1 layer_full _ _ Hlay Hg Hs1 Hn) Hsi)).
    - destruct n as [|n]; [discriminate|]. cbn [visit] in H. unfold visit_body in H. replace (match s_b s with [] => true | _ => false end) with false in H by (rewrite Hsb; destruct b; [contradiction|reflexivity]). cbn [is_kind orb] in H.
      unfold bnd in H. destruct (xvisit_elts (visit E n) l s) as [[[ws|e] s1]|] eqn:E1; try discriminate.
      assert (Hlay : Forall2 layer l ws).
      { eapply visit_elts_layer; [|exact Hsb|exact Hsr|exact E1]. intros t Ht. assert (Hp : part (Ls l) t) by (eapply pt_elem; [exact Ht|constructor]). rewrite Forall_forall in Hl. split; [exact (Hl t Ht)|]. split; [exact (shaped_part _ _ (proj1 Hg) Hp)|exact (stays_part _ _ Hst Hp)]. }
      assert (Hok : Forall res_ok ws) by (clear - Hlay HE; induction Hlay; constructor; [eapply layer_ok; eassumption|assumption]).
      destruct (flatten ws) as [|w0 wr] eqn:Ef; [left; inversion H; reflexivity|]. right. right. exists (w0 :: wr). split; [inversion H; reflexivity|]. split; [discriminate|]. rewrite <- Ef, flatten_members by exact Hok.
      clear - Hok. induction Hok as [|w ws Hw _ IH]; cbn [flat_map]; [constructor|]. apply Forall_app. split; [|exact IH]. destruct Hw as [->|[Hw|[lx [-> Hlx]]]]; cbn [members]; [constructor| |exact Hlx]. destruct w; try discriminate. cbn. auto.
  Qed.
End Pure.

(** ** The collector *)
Lemma source_all {U} (E : env U) b t u : (forall v, source E b t v -> forall x syn, ~ invokes E b v x syn) -> part t u -> source E b t u.
Proof.
  intros H Hp. revert H. induction Hp as [t|m k fs f v u Hd Hin Hp IH|l v u Hin Hp IH]; intros H; [constructor| |].
  - assert (Hq : forall x syn, ~ invokes E b (Nd m k fs) x syn) by (apply H; constructor). eapply sr_field; [exact Hd|exact Hq|exact Hin|]. apply IH. intros w Hw. apply H. eapply sr_field; eassumption.
  - eapply sr_elem; [exact Hin|]. apply IH. intros w Hw. apply H. eapply sr_elem; eassumption.
Qed.
