(** Stepping ends where the expansion ends: complete expansion with the number of nested expansions. *)
From Verif Require Import Base AstLib UtilsModel UtilsProofs FixLocModel ExpanderModel ExpanderSpec ExpanderProofs ExpanderProofs2 ExpanderProofs3 ExpanderProofs4 ExpanderProofs5 CollectorModel CollectorSpec CollectorProofs StepModel StepSpec StepProofs.

(** ** The input of a macro has the shapes of Python's grammar *)
Lemma setf_same {M} f (v : tree M) fs : getf f (setf f v fs) = Some v.
Proof. induction fs as [|[g w] fs IH]; cbn; [rewrite String.eqb_refl; reflexivity|]. destruct (String.eqb_spec f g) as [->|Hn]; cbn; [rewrite String.eqb_refl; reflexivity|]. destruct (String.eqb_spec f g); [contradiction|exact IH]. Qed.
Lemma setf_other {M} f g (v : tree M) fs : f <> g -> getf f (setf g v fs) = getf f fs.
Proof.
  intros Hn. induction fs as [|[h w] fs IH]; cbn; [destruct (String.eqb_spec f g); [contradiction|reflexivity]|]. destruct (String.eqb_spec g h) as [->|]; cbn; destruct (String.eqb_spec f h); try reflexivity; try contradiction. exact IH.
Qed.
Lemma setf_mem {M} f (v : tree M) fs g w : In (g, w) (setf f v fs) -> In (g, w) fs \/ (g = f /\ w = v).
Proof.
  induction fs as [|[h y] fs IH]; cbn; [intros [H|[]]; inversion H; auto|]. destruct (String.eqb_spec f h) as [->|]; cbn; intros [H|H]; auto; [inversion H; auto|]. destruct (IH H) as [H'|H']; auto.
Qed.
Lemma fewer_shaped m k f l l' fs : shaped (Nd m k fs) -> k <> "Done"%string -> getf f fs = Some (Ls l) -> (forall y, In y l' -> In y l) -> shaped (Nd m k (setf f (Ls l') fs)).
Proof.
  intros Hs Hd Hf Hl u Hu. inversion Hu; subst.
  - pose proof (Hs _ (pt_refl _)) as [H1 H2]. split.
    + intros g Hg. specialize (H1 g Hg). eapply Forall_impl; [|exact H1]. intros [h ty] Hh. unfold has_field in *. cbn [fst snd] in *. destruct (String.eqb_spec h f) as [->|Hn]; [|rewrite setf_other by exact Hn; exact Hh].
      rewrite setf_same. rewrite Hf in Hh. destruct ty; [destruct Hh as [? Hh]; discriminate|eauto|eauto].
    + intros Hk li Hli. destruct (String.eqb_spec "items" f) as [<-|Hn].
      * rewrite setf_same in Hli. inversion Hli; subst. specialize (H2 eq_refl _ Hf). rewrite Forall_forall in *. auto.
      * rewrite setf_other in Hli by exact Hn. exact (H2 Hk _ Hli).
  - match goal with H : In _ (setf _ _ _) |- _ => apply setf_mem in H; destruct H as [H|[-> ->]] end.
    + apply Hs. eapply pt_field; eassumption.
    + match goal with H : part (Ls l') u |- _ => inversion H; subst end; [exact I|]. apply Hs. eapply pt_field; [exact Hd|apply getf_in'; exact Hf|]. eapply pt_elem; [apply Hl; eassumption|assumption].
Qed.
Lemma next_shaped {U} (E : env U) b t c x i : shaped t -> next_call E b t c x i -> shaped (in_tree i).
Proof.
  intros Hs Hc. inversion Hc; subst; cbn [in_tree].
  - apply (shaped_part _ _ Hs). eapply pt_field; [discriminate|apply getf_in'; eassumption|constructor].
  - assert (Hb : shaped body) by (apply (shaped_part _ _ Hs); eapply pt_field; [discriminate|apply getf_in'; eassumption|constructor]).
    destruct (before ++ after) as [|o others] eqn:Eo; [exact Hb|]. intros u Hu. inversion Hu; subst; [exact I|]. match goal with H : In _ [_] |- _ => destruct H as [<-|[]] end.
    eapply fewer_shaped; [exact Hs|discriminate|eassumption| |eassumption]. intros y Hy. rewrite <- Eo in Hy. apply in_app_iff in Hy. apply in_app_iff. destruct Hy; [left|right; right]; assumption.
  - eapply fewer_shaped; [exact Hs|match goal with H : _ \/ _ |- _ => destruct H; subst; discriminate end|eassumption|]. intros y Hy. apply in_app_iff in Hy. apply in_app_iff. destruct Hy; [left|right; right]; assumption.
  - exact Hs.
Qed.

Section Depth.
  Context {U : Type}.
  Variable E : env U.
  Variable b : binds.
  Hypothesis Hb : b <> [].
  Hypothesis HE : simple_macros E.
  Hypothesis Hout : shaped_macros E.

  Notation node := (fun x : ltree => is_node x = true).
  Notation outcome_of := (outcome_of E b).
  Notation quiet_node := (quiet_node E b).

  (** Complete expansion; the number bounds how many expansions are nested. *)
  Inductive fulld : nat -> ltree -> ltree -> Prop :=
  | gd_none d : fulld d NoneT NoneT
  | gd_ls d l ws : fulld_each d l ws -> fulld d (Ls l) (match flatten ws with [] => NoneT | r => Ls r end)
  | gd_done d m fs : fulld d (Nd m "Done" fs) (Nd m "Done" fs)
  | gd_call d t c x i v2 v3 t' : next_call E b t c x i -> ~ bad_call c -> in_syntax i <> "name"%string -> outcome_of t x i v2 -> fulld d v2 v3 ->
      lands E c x i v3 t' -> fulld (S d) t t'
  | gd_none_name d t c x i : next_call E b t c x i -> ~ bad_call c -> in_syntax i = "name"%string -> outcome_of t x i NoneT -> fulld (S d) t (coverage_expr (loc_of t))
  | gd_self d t c x i v2 : next_call E b t c x i -> ~ bad_call c -> in_syntax i = "name"%string -> outcome_of t x i v2 -> own_name x v2 -> fulld (S d) t (done v2)
  | gd_name d t c x i v2 v3 : next_call E b t c x i -> ~ bad_call c -> in_syntax i = "name"%string -> outcome_of t x i v2 -> is_none v2 = false -> other_name x v2 ->
      fulld d v2 v3 -> fulld (S d) t v3
  | gd_leaf d m fs : quiet_node (Nd m "Name" fs) -> fulld d (Nd m "Name" fs) (Nd m "Name" fs)
  | gd_node d m k fs fs' : k <> "Done"%string -> k <> "Name"%string -> quiet_node (Nd m k fs) -> fulld_fields d fs fs' -> fulld d (Nd m k fs) (Nd m k fs')
  with fulld_each : nat -> list ltree -> list ltree -> Prop :=
  | ge_nil d : fulld_each d [] []
  | ge_cons d x w l ws : fulld d x w -> fulld_each d l ws -> fulld_each d (x :: l) (w :: ws)
  with fulld_fields : nat -> list (string * ltree) -> list (string * ltree) -> Prop :=
  | gf_nil d : fulld_fields d [] []
  | gf_atom d f a r r' : fulld_fields d r r' -> fulld_fields d ((f, At a) :: r) ((f, At a) :: r')
  | gf_list d f l l' r r' : fulld_list d l l' -> fulld_fields d r r' -> fulld_fields d ((f, Ls l) :: r) ((f, Ls l') :: r')
  | gf_node d f t t' r r' : is_node t = true -> fulld d t t' -> is_none t' = false -> fulld_fields d r r' -> fulld_fields d ((f, t) :: r) ((f, t') :: r')
  | gf_gone d f t r r' : is_node t = true -> fulld d t NoneT -> fulld_fields d r r' -> fulld_fields d ((f, t) :: r) r'
  with fulld_list : nat -> list ltree -> list ltree -> Prop :=
  | gl_nil d : fulld_list d [] []
  | gl_other d v r r' : is_node v = false -> fulld_list d r r' -> fulld_list d (v :: r) (v :: r')
  | gl_node d t v r r' : is_node t = true -> fulld d t v -> fulld_list d r r' -> fulld_list d (t :: r) (members v ++ r').
  Scheme fulld_ind2 := Minimality for fulld Sort Prop
    with fulld_each_ind2 := Minimality for fulld_each Sort Prop
    with fulld_fields_ind2 := Minimality for fulld_fields Sort Prop
    with fulld_list_ind2 := Minimality for fulld_list Sort Prop.
  Combined Scheme fulld_mutind from fulld_ind2, fulld_each_ind2, fulld_fields_ind2, fulld_list_ind2.

  Lemma fulld_le : (forall d t v, fulld d t v -> forall d', d <= d' -> fulld d' t v) /\ (forall d l ws, fulld_each d l ws -> forall d', d <= d' -> fulld_each d' l ws) /\
    (forall d fs fs', fulld_fields d fs fs' -> forall d', d <= d' -> fulld_fields d' fs fs') /\ (forall d l l', fulld_list d l l' -> forall d', d <= d' -> fulld_list d' l l').
  Proof.
    apply fulld_mutind; intros; try (constructor; auto; fail); match goal with H : S _ <= ?d' |- _ => destruct d' as [|d']; [lia|] end.
    - eapply gd_call; eauto. match goal with H : forall _, _ -> _ |- _ => apply H; lia end.
    - eapply gd_none_name; eauto.
    - eapply gd_self; eauto.
    - eapply gd_name; eauto. match goal with H : forall _, _ -> fulld _ _ _ |- _ => apply H; lia end.
  Qed.
  Lemma fulld_some : forall d t v, fulld d t v -> single t -> is_none v = false.
  Proof.
    apply (fulld_ind2 (fun _ t v => single t -> is_none v = false) (fun _ _ _ => True) (fun _ _ _ => True) (fun _ _ _ => True)); intros; auto; try reflexivity.
    - match goal with H : single _ |- _ => destruct H as [m [k [fs [H0 _]]]]; discriminate end.
    - match goal with H : single _ |- _ => destruct H as [m [k [fs [H3 _]]]]; discriminate end.
    - match goal with H : lands _ _ _ _ _ _ |- _ => inversion H; subst; auto end; try reflexivity.
      exfalso. match goal with H : single t, H1 : next_call _ _ t _ _ _ |- _ => destruct H as [m0 [k0 [fs0 [-> Hk]]]]; inversion H1; subst end; cbn in *;
        match goal with H : _ /\ _ \/ _ /\ _ |- _ => destruct H as [[? _]|[? _]]; try discriminate end; try contradiction.
      + apply Hk. cbn. auto.
      + match goal with H : _ \/ _ |- _ => destruct H; subst; apply Hk; cbn; auto end.
    - match goal with H : _ -> is_none v3 = false |- _ => apply H end.
      match goal with H : StepProofs.outcome_of _ _ _ _ _ _ |- _ => apply (single_outcome E b HE) in H end.
      + match goal with H : v2 = NoneT \/ _ |- _ => destruct H as [->|H]; [discriminate|exact H] end.
      + right. assumption.
      + match goal with H : next_call _ _ _ _ _ _ |- _ => inversion H; subst end; cbn in *; try discriminate. exists m, "Name"%string, fs. split; [reflexivity|]. cbn. intuition discriminate.
  Qed.
  Lemma fulld_ok : (forall d t v, fulld d t v -> res_ok v) /\ (forall d l ws, fulld_each d l ws -> Forall res_ok ws) /\
    (forall d fs fs', fulld_fields d fs fs' -> True) /\ (forall d l l', fulld_list d l l' -> Forall node l -> Forall node l').
  Proof.
    apply fulld_mutind; intros; auto; try (right; left; reflexivity).
    - left. reflexivity.
    - destruct (flatten ws) as [|w0 wr] eqn:Ew; [left; reflexivity|]. right. right. exists (w0 :: wr). split; [reflexivity|]. rewrite <- Ew, flatten_members by assumption.
      clear Ew H. induction H0 as [|w ws Hw Hws IH]; cbn [flat_map]; [constructor|]. apply Forall_app. split.
      + destruct Hw as [->|[Hw|[lx [-> Hlx]]]]; cbn [members]; [constructor| |exact Hlx]. destruct w; try discriminate. cbn. auto.
      + exact IH.
    - eapply (lands_ok E); eassumption.
    - match goal with H : Forall _ (_ :: _) |- _ => inversion H; congruence end.
    - match goal with H : Forall _ (_ :: _) |- _ => inversion H; subst end. apply Forall_app. split; [|auto]. match goal with H : res_ok v |- _ => rename H into Hv end. destruct Hv as [->|[Hw|[lx [-> Hlx]]]]; cbn [members]; [constructor| |exact Hlx]. destruct v; try discriminate. cbn. auto.
  Qed.

  (** ** From visits to complete expansion *)
  Lemma expanded_in_rec n x i t v v1 s1 r2 s2 : accepted v v1 -> in_target i = t -> expanded E n x i (XOk v) s1 = Some (XOk r2, s2) ->
    v1 = NoneT /\ r2 = NoneT \/ v1 <> NoneT /\ exists v2, x_fix E v1 t = Ok v2 /\ (if s_rec s1 then exists s s', s_b s = s_b s1 /\ s_rec s = true /\ visit E n v2 s = Some (XOk r2, s') else r2 = v2).
  Proof.
    intros Ha Ht Hx. apply typecheck_iff in Ha. unfold expanded in Hx. rewrite Ha, Ht in Hx. unfold bnd in Hx. destruct (is_none v1) eqn:En.
    - destruct v1 as [| |[]]; try discriminate. cbn in Hx. inversion Hx; subst. left. auto.
    - assert (Hn : v1 <> NoneT) by (intros ->; discriminate). right. split; [exact Hn|].
      assert (G : visit_expansion E (visit E n) v1 t = bnd (of_res (lift (x_fix E v1 t))) (fun t => fun s => if s_rec s then visit E n t s else Some (XOk t, s))) by (destruct v1 as [| |[]]; try reflexivity; discriminate).
      rewrite G in Hx. clear G. unfold bnd, of_res, lift in Hx. destruct (x_fix E v1 t) as [v2|]; [|discriminate]. exists v2. split; [reflexivity|]. cbn [logged s_rec] in Hx. destruct (s_rec s1) eqn:Er.
      + destruct (visit E n v2 (logged (ERet (XOk v)) s1)) as [[[r3|e] s3]|] eqn:Ev; try discriminate. cbn in Hx. inversion Hx; subst. exists (logged (ERet (XOk v)) s1), s3. split; [reflexivity|]. split; [exact Er|exact Ev].
      + cbn in Hx. inversion Hx. reflexivity.
  Qed.

  Lemma outcome_shaped t c x i v2 : shaped t -> next_call E b t c x i -> outcome_of t x i v2 -> shaped v2.
  Proof.
    intros Hs Hc [j [v [v1 [_ [Hr [Ha [[_ ->]|[_ Hf]]]]]]]]; [intros u Hu; inversion Hu; subst; exact I|]. eapply Hout; try eassumption. eapply next_shaped; eassumption.
  Qed.

  Lemma rec_list n l : (forall t, In t l -> is_node t = true -> forall s t' s', s_b s = b -> s_rec s = true -> visit E n t s = Some (XOk t', s') -> exists d, fulld d t t') ->
    forall s l' s', s_b s = b -> s_rec s = true -> xgv_list (visit E n) l s = Some (XOk l', s') -> (exists d, fulld_list d l l') /\ s_b s' = b /\ s_rec s' = true.
  Proof.
    induction l as [|x l IH]; intros Hl s l' s' Hsb Hsr H; cbn [xgv_list] in H; [inversion H; subst; split; [exists 0; constructor|auto]|].
    assert (IH' : forall s l' s', s_b s = b -> s_rec s = true -> xgv_list (visit E n) l s = Some (XOk l', s') -> (exists d, fulld_list d l l') /\ s_b s' = b /\ s_rec s' = true) by (apply IH; intros t Ht; apply Hl; right; exact Ht).
    clear IH. assert (Other : is_node x = false -> bnd (xgv_list (visit E n) l) (fun r' => ret (x :: r')) s = Some (XOk l', s') -> (exists d, fulld_list d (x :: l) l') /\ s_b s' = b /\ s_rec s' = true).
    { intros Hnn H0. unfold bnd in H0. destruct (xgv_list (visit E n) l s) as [[[r'|e] s1]|] eqn:E1; try discriminate. inversion H0; subst. destruct (IH' _ _ _ Hsb Hsr E1) as [[d H1] H2]. split; [exists d; constructor; assumption|exact H2]. }
    destruct x as [m k fs|lx|a]; try (apply Other; [reflexivity|exact H]). clear Other. unfold bnd at 1 in H.
    destruct (visit E n (Nd m k fs) s) as [[[t'|e] s1]|] eqn:E1; try discriminate. destruct (Hl _ (or_introl eq_refl) eq_refl _ _ _ Hsb Hsr E1) as [d0 Hd0]. destruct (kept E HE _ _ _ _ _ E1) as [K1 K2]. rewrite Hsb in K1. rewrite Hsr in K2.
    assert (Join : forall d r', fulld_list d l r' -> exists d, fulld_list d (Nd m k fs :: l) (members t' ++ r')).
    { intros d r' Hr'. exists (Nat.max d0 d). constructor; [reflexivity|eapply (proj1 fulld_le); [exact Hd0|lia]|eapply (proj2 (proj2 (proj2 fulld_le))); [exact Hr'|lia]]. }
    destruct t' as [m' k' fs'|lt|a].
    - unfold bnd in H. destruct (xgv_list (visit E n) l s1) as [[[r'|e] s2]|] eqn:E2; try discriminate. inversion H; subst. destruct (IH' _ _ _ K1 K2 E2) as [[d H1] H2]. split; [|exact H2]. exact (Join _ _ H1).
    - unfold bnd in H. destruct (xgv_list (visit E n) l s1) as [[[r'|e] s2]|] eqn:E2; try discriminate. inversion H; subst. destruct (IH' _ _ _ K1 K2 E2) as [[d H1] H2]. split; [|exact H2]. exact (Join _ _ H1).
    - destruct a; try discriminate. destruct (IH' _ _ _ K1 K2 H) as [[d H1] H2]. split; [|exact H2]. exact (Join _ _ H1).
  Qed.
  Lemma rec_elts n l : (forall t, In t l -> forall s t' s', s_b s = b -> s_rec s = true -> visit E n t s = Some (XOk t', s') -> exists d, fulld d t t') ->
    forall s l' s', s_b s = b -> s_rec s = true -> xvisit_elts (visit E n) l s = Some (XOk l', s') -> exists d, fulld_each d l l'.
  Proof.
    induction l as [|x l IH]; intros Hl s ws s' Hsb Hsr H; cbn [xvisit_elts] in H; [inversion H; subst; exists 0; constructor|]. unfold bnd in H.
    destruct (visit E n x s) as [[[w|e] s1]|] eqn:E1; try discriminate. destruct (xvisit_elts (visit E n) l s1) as [[[r|e] s2]|] eqn:E2; try discriminate. inversion H; subst.
    destruct (kept E HE _ _ _ _ _ E1) as [K1 K2]. destruct (Hl x (or_introl eq_refl) _ _ _ Hsb Hsr E1) as [d1 H1]. destruct (IH (fun t Ht => Hl t (or_intror Ht)) s1 r s') as [d2 H2]; try congruence.
    exists (Nat.max d1 d2). constructor; [eapply (proj1 fulld_le); [exact H1|lia]|eapply (proj1 (proj2 fulld_le)); [exact H2|lia]].
  Qed.
  Lemma rec_fields n fs : (forall f t, In (f, t) fs -> is_node t = true -> forall s t' s', s_b s = b -> s_rec s = true -> visit E n t s = Some (XOk t', s') -> exists d, fulld d t t') ->
    (forall f l t, In (f, Ls l) fs -> In t l -> is_node t = true -> forall s t' s', s_b s = b -> s_rec s = true -> visit E n t s = Some (XOk t', s') -> exists d, fulld d t t') ->
    forall s fs' s', s_b s = b -> s_rec s = true -> xgv_fields (visit E n) fs s = Some (XOk fs', s') -> exists d, fulld_fields d fs fs'.
  Proof.
    induction fs as [|[f x] fs IH]; intros Hf Hl s fs' s' Hsb Hsr H; cbn [xgv_fields] in H; [inversion H; subst; exists 0; constructor|].
    assert (IH' : forall s fs' s', s_b s = b -> s_rec s = true -> xgv_fields (visit E n) fs s = Some (XOk fs', s') -> exists d, fulld_fields d fs fs').
    { apply IH; [intros g t Ht; apply (Hf g); right; exact Ht|intros g l t Ht; apply (Hl g l); right; exact Ht]. }
    clear IH. destruct x as [m k fx|lx|a].
    - unfold bnd at 1 in H. destruct (visit E n (Nd m k fx) s) as [[[t'|e] s1]|] eqn:E1; try discriminate. destruct (Hf f _ (or_introl eq_refl) eq_refl _ _ _ Hsb Hsr E1) as [d0 Hd0].
      destruct (kept E HE _ _ _ _ _ E1) as [K1 K2]. rewrite Hsb in K1. rewrite Hsr in K2. destruct (is_none t') eqn:Et.
      + destruct t' as [| |[]]; try discriminate. destruct (IH' _ _ _ K1 K2 H) as [d H1]. exists (Nat.max d0 d). apply gf_gone; [reflexivity|eapply (proj1 fulld_le); [exact Hd0|lia]|eapply (proj1 (proj2 (proj2 fulld_le))); [exact H1|lia]].
      + assert (H' : bnd (xgv_fields (visit E n) fs) (fun r' => ret ((f, t') :: r')) s1 = Some (XOk fs', s')) by (destruct t' as [| |[]]; try discriminate; exact H). clear H.
        unfold bnd in H'. destruct (xgv_fields (visit E n) fs s1) as [[[r'|e] s2]|] eqn:E2; try discriminate. inversion H'; subst. destruct (IH' _ _ _ K1 K2 E2) as [d H1].
        exists (Nat.max d0 d). apply gf_node; [reflexivity|eapply (proj1 fulld_le); [exact Hd0|lia]|exact Et|eapply (proj1 (proj2 (proj2 fulld_le))); [exact H1|lia]].
    - unfold bnd in H. destruct (xgv_list (visit E n) lx s) as [[[l'|e] s1]|] eqn:E1; try discriminate.
      destruct (rec_list n lx (fun t Ht => Hl f lx t (or_introl eq_refl) Ht) _ _ _ Hsb Hsr E1) as [[d0 H1] [K1 K2]].
      destruct (xgv_fields (visit E n) fs s1) as [[[r'|e] s2]|] eqn:E2; try discriminate. inversion H; subst. destruct (IH' _ _ _ K1 K2 E2) as [d H2].
      exists (Nat.max d0 d). apply gf_list; [eapply (proj2 (proj2 (proj2 fulld_le))); [exact H1|lia]|eapply (proj1 (proj2 (proj2 fulld_le))); [exact H2|lia]].
    - unfold bnd in H. destruct (xgv_fields (visit E n) fs s) as [[[r'|e] s1]|] eqn:E1; try discriminate. inversion H; subst. destruct (IH' _ _ _ Hsb Hsr E1) as [d H1]. exists d. constructor. exact H1.
  Qed.

  Lemma visit_fulld n : forall t, res_ok t -> shaped t -> forall s t' s', s_b s = b -> s_rec s = true -> visit E n t s = Some (XOk t', s') -> exists d, fulld d t t'.
  Proof.
    induction n as [|n IH]; intros t Hok Hs s t' s' Hsb Hsr H; [discriminate|].
    assert (Nb : match s_b s with [] => true | _ => false end = false) by (rewrite Hsb; destruct b; [contradiction|reflexivity]).
    destruct Hok as [->|[Hn|[l [-> Hl]]]].
    { cbn [visit] in H. unfold visit_body in H. rewrite Nb in H. cbn in H. inversion H; subst. exists 0. constructor. }
    2:{ cbn [visit] in H. unfold visit_body in H. rewrite Nb in H. cbn [is_kind orb] in H. unfold bnd in H. destruct (xvisit_elts (visit E n) l s) as [[[ws|e] s1]|] eqn:E1; try discriminate.
        assert (exists d, fulld_each d l ws) as [d Hd].
        { eapply rec_elts; [|exact Hsb|exact Hsr|exact E1]. intros t Ht s2 t2 s3 H2 H3 H4. rewrite Forall_forall in Hl. eapply IH; [right; left; exact (Hl t Ht)| |exact H2|exact H3|exact H4]. apply (shaped_part _ _ Hs). eapply pt_elem; [exact Ht|constructor]. }
        exists d. pose proof (gd_ls d l ws Hd) as G. destruct (flatten ws); inversion H; subst; exact G. }
    destruct t as [m k fs| |]; try discriminate.
    destruct (String.eqb_spec k "Done") as [->|Hd].
    { cbn [visit] in H. unfold visit_body in H. cbn [is_kind] in H. rewrite String.eqb_refl, orb_true_r in H. inversion H; subst. exists 0. constructor. }
    destruct (next_dec E b m k fs Hs Hd) as [[c [x [i Hc]]]|Hno].
    - rewrite <- Hsb in Hc. destruct (visit_next E n s _ c x i Hs Hc) as [V1 _].
      assert (Hbad : ~ bad_call c) by (intros Hbb; rewrite (V1 Hbb) in H; discriminate). clear V1.
      destruct (visit_has_outcome E n s _ c x i _ _ Hs Hc Hbad H) as [r [s1 Ho]]. rewrite (visit_outcome E n s _ c x i r s1 Hs Hc Hbad Ho) in H.
      destruct (pure_outcome E HE _ _ _ _ _ _ Ho) as [Hs1 [j [Hbj Hr]]]. rewrite Hsb in Hbj, Hc. destruct (next_kind E _ _ _ _ _ Hc) as [_ [_ Ht]].
      assert (Hrec1 : s_rec s1 = if String.eqb (in_syntax i) "name" then false else true) by (rewrite Hs1, called_r, Hsr; reflexivity). rewrite Hsr in H.
      assert (Hb1 : s_b s1 = b) by (rewrite Hs1, called_b; exact Hsb). clear Hs1.
      assert (X : forall r2 s2, expanded E n x i r s1 = Some (XOk r2, s2) -> exists v2, outcome_of (Nd m k fs) x i v2 /\ (v2 = NoneT /\ r2 = NoneT \/
                   (if s_rec s1 then exists s s', s_b s = b /\ s_rec s = true /\ visit E n v2 s = Some (XOk r2, s') else r2 = v2))).
      { intros r2 s2 Hx. destruct Hr as [[v [Hv ->]]|[e [_ ->]]]; [|discriminate]. assert (exists v1, accepted v v1) as [v1 Ha].
        { unfold expanded in Hx. destruct (typecheck v) as [v1|] eqn:Ev; [|discriminate]. exists v1. apply typecheck_iff. exact Ev. }
        destruct (expanded_in_rec n x i _ v v1 s1 r2 s2 Ha Ht Hx) as [[H1 H2]|[H1 [v2 [H2 H3]]]].
        - exists NoneT. split; [exists j, v, v1; auto 10|left; auto].
        - exists v2. split; [exists j, v, v1; auto 10|right]. destruct (s_rec s1); [rewrite Hb1 in H3|]; exact H3. }
      destruct (String.eqb_spec (in_syntax i) "name") as [Hy|Hy].
      + destruct (expanded E n x i r s1) as [[[r2|e] s2]|] eqn:Ex; try discriminate. cbv zeta in H. destruct (X _ _ eq_refl) as [v2 [Hv2 Hr2]]. rewrite Hrec1 in Hr2.
        assert (r2 = v2) by (destruct Hr2 as [[-> ->]|Hr2]; auto). subst r2. clear Hr2 X. destruct (is_none v2) eqn:En.
        * inversion H; subst. destruct v2 as [| |[]]; try discriminate. exists 1. exact (gd_none_name 0 (Nd m k fs) c x i Hc Hbad Hy Hv2).
        * destruct (same_name x v2) eqn:Es.
          -- inversion H; subst. apply same_name_iff in Es. exists 1. eapply gd_self; eauto.
          -- assert (Hk2 : s_b s2 = b).
             { unfold expanded in Ex. destruct Hr as [[v [Hv ->]]|[e [_ ->]]]; [|discriminate]. destruct (typecheck v) as [v1|]; [|discriminate]. unfold bnd in Ex.
               destruct (visit_expansion E (visit E n) v1 (in_target i) (logged (ERet (XOk v)) s1)) as [[[r3|e] s3]|] eqn:Ev; try discriminate. cbn in Ex. inversion Ex; subst. cbn [s_b].
               unfold visit_expansion in Ev. assert (Hlog : s_rec (logged (ERet (XOk v)) s1) = false) by exact Hrec1.
               destruct v1 as [| |[]]; unfold bnd, of_res, lift in Ev; try (destruct (x_fix E _ (in_target i)); [|discriminate]; rewrite Hlog in Ev); inversion Ev; subst; exact Hb1. }
             assert (exists d, fulld d v2 t') as [d Hd1] by (eapply IH; [exact (outcome_ok E b HE _ _ _ _ Hv2)|exact (outcome_shaped _ _ _ _ _ Hs Hc Hv2)| | |exact H]; [exact Hk2|reflexivity]).
             exists (S d). eapply gd_name; eauto. intros m' fs' -> Hid. assert (same_name x (Nd m' "Name" fs') = true); [apply same_name_iff; eauto|congruence].
      + destruct (expanded E n x i r s1) as [[[r2|e] s2]|] eqn:Ex; try discriminate. destruct (X _ _ eq_refl) as [v2 [Hv2 Hr2]]. rewrite Hrec1 in Hr2.
        assert (exists d, fulld d v2 r2) as [d Hfd].
        { destruct Hr2 as [[-> ->]|[s3 [s4 [H1 [H2 H3]]]]]; [exists 0; constructor|]. eapply IH; [exact (outcome_ok E b HE _ _ _ _ Hv2)|exact (outcome_shaped _ _ _ _ _ Hs Hc Hv2)|exact H1|exact H2|exact H3]. }
        exists (S d). eapply gd_call; [exact Hc|exact Hbad|exact Hy|exact Hv2|exact Hfd|]. destruct (String.eqb_spec (in_syntax i) "expr") as [He|He].
        * inversion H; subst. destruct (is_none r2) eqn:En.
          -- destruct r2 as [| |[]]; try discriminate. assert (L0 : loc_of (Nd m k fs) = loc_of (in_target i)) by (rewrite Ht; reflexivity). cbn [loc_of] in L0. cbn [loc_of]. rewrite L0. apply ld_expr_none. auto.
          -- apply ld_expr; auto.
        * cbv zeta in H. inversion H; subst. destruct (String.eqb_spec (in_syntax i) "block") as [Hk|Hk].
          -- eapply insert_dummy_lands; [left; split; [exact Hk|rewrite Ht; reflexivity]|eassumption].
          -- eapply insert_dummy_lands; [right; split; [|reflexivity]|eassumption]. inversion Hc; subst; cbn in *; congruence.
    - assert (Hne : s_b s <> []) by (rewrite Hsb; exact Hb). rewrite <- Hsb in Hno. rewrite (visit_generic E n s m k fs Hs Hd Hne Hno) in H. rewrite Hsb in Hno.
      assert (Hq : quiet_node (Nd m k fs)).
      { intros x syn Hi. destruct (proj2 (invokes_next E b m k fs Hs Hd)) as [c [y [i Hc]]]; [eauto|]. exact (Hno _ _ _ Hc). }
      destruct (String.eqb_spec k "Name") as [->|Hk]; [inversion H; subst; exists 0; constructor; exact Hq|].
      cbn [xgeneric_visit] in H. unfold bnd in H. destruct (xgv_fields (visit E n) fs s) as [[[fs'|e] s1]|] eqn:E1; try discriminate. inversion H; subst.
      assert (exists d, fulld_fields d fs fs') as [d Hfd]; [|exists d; apply gd_node; assumption]. eapply rec_fields; [| |exact Hsb|exact Hsr|exact E1].
      + intros f t Hin Htn. assert (Hp : part (Nd m k fs) t) by (eapply pt_field; [exact Hd|exact Hin|constructor]). intros. eapply IH; eauto; [right; left; exact Htn|exact (shaped_part _ _ Hs Hp)].
      + intros f l t Hin Hit Htn. assert (Hp : part (Nd m k fs) t) by (eapply pt_field; [exact Hd|exact Hin|]; eapply pt_elem; [exact Hit|constructor]). intros. eapply IH; eauto; [right; left; exact Htn|exact (shaped_part _ _ Hs Hp)].
  Qed.
End Depth.
