(** One layer of expansion brings the complete expansion one step nearer; stepping ends. *)
From Verif Require Import Base AstLib UtilsModel UtilsProofs FixLocModel ExpanderModel ExpanderSpec ExpanderProofs ExpanderProofs2 ExpanderProofs3 ExpanderProofs4 ExpanderProofs5 CollectorModel CollectorSpec CollectorProofs StepModel StepSpec StepProofs StepProofs2.

Section Nearer.
  Context {U : Type}.
  Variable E : env U.
  Variable b : binds.
  Variable u0 : U.
  Hypothesis Hb : b <> [].
  Hypothesis HE : simple_macros E.

  Notation node := (fun x : ltree => is_node x = true).
  Notation outcome_of := (outcome_of E b).
  Notation quiet_node := (quiet_node E b).
  Notation fulld := (fulld E b).
  Notation fulld_each := (fulld_each E b).
  Notation fulld_fields := (fulld_fields E b).
  Notation fulld_list := (fulld_list E b).

  Definition once (n : nat) (t v : ltree) : Prop := forall s, s_b s = b -> s_rec s = false -> exists s', visit E n t s = Some (XOk v, s').
  Lemma once_le n n' t v : n <= n' -> once n t v -> once n' t v.
  Proof. intros Hle H s Hsb Hsr. destruct (H s Hsb Hsr) as [s' Hv]. exists s'. exact (visit_mono_le E n n' t Hle _ _ Hv). Qed.
  Lemma once_kept n t v s : once n t v -> s_b s = b -> s_rec s = false -> exists s', visit E n t s = Some (XOk v, s') /\ s_b s' = b /\ s_rec s' = false.
  Proof. intros H Hsb Hsr. destruct (H s Hsb Hsr) as [s' Hv]. exists s'. split; [exact Hv|]. destruct (kept E HE _ _ _ _ _ Hv) as [K1 K2]. split; congruence. Qed.
  Definition once_fields (n : nat) (fs fs' : list (string * ltree)) : Prop := forall s, s_b s = b -> s_rec s = false ->
    exists s', xgv_fields (visit E n) fs s = Some (XOk fs', s') /\ s_b s' = b /\ s_rec s' = false.
  Definition once_list (n : nat) (l l' : list ltree) : Prop := forall s, s_b s = b -> s_rec s = false ->
    exists s', xgv_list (visit E n) l s = Some (XOk l', s') /\ s_b s' = b /\ s_rec s' = false.
  Definition once_each (n : nat) (l l' : list ltree) : Prop := forall s, s_b s = b -> s_rec s = false ->
    exists s', xvisit_elts (visit E n) l s = Some (XOk l', s') /\ s_b s' = b /\ s_rec s' = false.

  (** The expansion of one invocation. *)
  Lemma once_call t c x i v2 t1 : shaped t -> next_call E b t c x i -> ~ bad_call c -> outcome_of t x i v2 -> lands E c x i v2 t1 -> once 2 t t1.
  Proof.
    intros Hs Hc Hbad [j [v [v1 [Hbj [Hv [Ha Hf]]]]]] Hl s Hsb Hsr. pose proof (outcome_run E b 0 s x i j v Hsb Hbj Hv) as Ho. destruct (next_kind E _ _ _ _ _ Hc) as [_ [_ Ht]]. assert (Hc' := Hc). rewrite <- Hsb in Hc'.
    rewrite (visit_outcome E 1 s t c x i _ _ Hs Hc' Hbad Ho).
    destruct (expanded_rec E b HE 1 x i t j v v1 v2 v2 (called_in x i s) Hbj Hv Ha Ht Hf) as [s2 [-> [K1 K2]]].
    { rewrite called_b. exact Hsb. }
    { rewrite called_r, Hsr. destruct (String.eqb _ _); reflexivity. }
    destruct (String.eqb_spec (in_syntax i) "name") as [Hy|Hy].
    - cbv zeta. inversion Hl; subst; try (exfalso; intuition congruence).
      + eexists. reflexivity.
      + cbn [is_none]. rewrite (proj2 (same_name_iff x (Nd m "Name" fs))) by eauto. eexists. reflexivity.
      + match goal with H : is_none t1 = false |- _ => rewrite H end. destruct (same_name x t1) eqn:Es; [|rewrite Hsr; eexists; reflexivity]. apply same_name_iff in Es. destruct Es as [m' [fs' [-> Hid]]]. exfalso.
        match goal with H : forall m fs, Nd _ _ _ = Nd m _ fs -> _ |- _ => exact (H _ _ eq_refl Hid) end.
    - exists s2. destruct (String.eqb_spec (in_syntax i) "expr") as [He|He].
      + inversion Hl; subst; try (exfalso; intuition congruence); [reflexivity|]. match goal with Hnn : is_none _ = false |- _ => rewrite Hnn end. reflexivity.
      + assert (Hyy : in_syntax i = "block"%string \/ in_syntax i = "decorator"%string) by (inversion Hc; subst; cbn in *; auto; contradiction).
        pose proof (lands_insert E _ _ _ _ _ _ Ht Hyy Hl) as Hi. cbv zeta in *. rewrite Hi. reflexivity.
  Qed.

  Lemma fulld_list_app d l1 l2 r1 r2 : fulld_list d l1 r1 -> fulld_list d l2 r2 -> fulld_list d (l1 ++ l2) (r1 ++ r2).
  Proof.
    revert r1. induction l1 as [|x l1 IH]; intros r1 H1 H2; inversion H1; subst; cbn [app]; [exact H2|apply gl_other; auto|]. rewrite <- app_assoc. apply gl_node; auto.
  Qed.
  Lemma fulld_node_list d t v : is_node t = true -> fulld d t v -> fulld_list d [t] (members v).
  Proof. intros Hn H. rewrite <- (app_nil_r (members v)). apply gl_node; [exact Hn|exact H|constructor]. Qed.
  Lemma fulld_each_list d l ws : Forall node l -> fulld_each d l ws -> fulld_list d l (flat_map members ws).
  Proof. intros Hl H. revert Hl. induction H as [|d x w l ws Hx Hw IH]; intros Hl; [constructor|]. inversion Hl; subst. cbn [flat_map]. apply gl_node; auto. Qed.
  Lemma fulld_list_each d l : Forall node l -> forall r, fulld_list d l r -> exists ws, fulld_each d l ws /\ r = flat_map members ws.
  Proof.
    induction 1 as [|x l Hx Hl IH]; intros r H; inversion H; subst; [exists []; split; [constructor|reflexivity]|congruence|].
    match goal with H : StepProofs2.fulld_list _ _ _ l _ |- _ => apply IH in H; destruct H as [ws [Hw ->]] end. exists (v :: ws). split; [constructor; assumption|reflexivity].
  Qed.
  Lemma fulld_suite d l r : Forall node l -> fulld_list d l r -> fulld d (Ls l) (match r with [] => NoneT | _ => Ls r end).
  Proof.
    intros Hl H. destruct (fulld_list_each d l Hl r H) as [ws [Hw ->]]. pose proof (gd_ls E b d l ws Hw) as G. rewrite flatten_members in G by exact (proj1 (proj2 (fulld_ok E b)) _ _ _ Hw). destruct (flat_map members ws); exact G.
  Qed.
  Lemma fulld_members d v v' : res_ok v -> fulld d v v' -> fulld_list d (members v) (members v').
  Proof.
    intros [->|[Hn|[l [-> Hl]]]] H.
    - inversion H; subst; try (match goal with H : next_call _ _ NoneT _ _ _ |- _ => inversion H end). constructor.
    - destruct v; try discriminate. cbn [members]. apply fulld_node_list; [reflexivity|exact H].
    - inversion H; subst; try (match goal with H : next_call _ _ (Ls _) _ _ _ |- _ => inversion H end). cbn [members].
      match goal with H : StepProofs2.fulld_each _ _ _ _ _ |- _ => rename H into Hw end. replace (members (match flatten ws with [] => NoneT | r => Ls r end)) with (flat_map members ws); [apply fulld_each_list; assumption|].
      rewrite <- flatten_members by exact (proj1 (proj2 (fulld_ok E b)) _ _ _ Hw). destruct (flatten ws); reflexivity.
  Qed.
  Lemma members_lit (v : ltree) : res_ok v -> match v with At ANone => [] | Ls l0 => l0 | _ => [v] end = members v.
  Proof. intros [->|[Hw|[lx [-> Hlx]]]]; [reflexivity|destruct v; try discriminate; reflexivity|reflexivity]. Qed.
  Lemma members_ok (v : ltree) : res_ok v -> Forall node (members v).
  Proof. intros [->|[Hw|[lx [-> Hlx]]]]; cbn [members]; [constructor| |exact Hlx]. destruct v; try discriminate. cbn. auto. Qed.

  Definition nearer (d : nat) (t v : ltree) : Prop := exists t1 N, (forall n, N <= n -> once n t t1) /\ res_ok t1 /\
    (single t -> single t1 /\ fulld d t1 v) /\ fulld_list d (members t1) (members v).

  Lemma in_single t c x i : sg t -> next_call E b t c x i -> in_syntax i = "expr"%string \/ in_syntax i = "name"%string -> single (in_tree i).
  Proof.
    intros [Hs [Hg1 Hg2]] Hc Hy. inversion Hc; subst; cbn in *; try (destruct Hy; discriminate).
    - assert (is_node sl = true) by (eapply Hg2; [constructor|eassumption]). eapply Hg1; [constructor|discriminate|apply getf_in'; eassumption|assumption].
    - exists m, "Name"%string, fs. split; [reflexivity|]. cbn. intuition discriminate.
  Qed.
  Lemma nearer_call d t c x i v2 v3 t' t1 : sg t -> next_call E b t c x i -> ~ bad_call c -> outcome_of t x i v2 -> lands E c x i v2 t1 ->
    (single t -> single t1 /\ fulld d t1 t') -> fulld_list d (members t1) (members t') -> v3 = v2 -> nearer d t t'.
  Proof.
    intros Hg Hc Hbad Ho Hl H1 H2 _. exists t1, 2. split; [intros n Hn; eapply once_le; [exact Hn|]; eapply once_call; eauto; exact (proj1 Hg)|]. split; [eapply lands_ok; [|exact Hl]; exact (outcome_ok E b HE _ _ _ _ Ho)|auto].
  Qed.
  Lemma single_node (t : ltree) : single t -> is_node t = true.
  Proof. intros [m [k [fs [-> _]]]]. reflexivity. Qed.

  Theorem fulld_nearer :
    (forall d t v, fulld d t v -> forall d0, d = S d0 -> is_node t = true -> guarded E b t -> nearer d0 t v) /\
    (forall d l ws, fulld_each d l ws -> forall d0, d = S d0 -> (forall t, In t l -> is_node t = true /\ guarded E b t) ->
       exists ws1 N, (forall n, N <= n -> once_each n l ws1) /\ Forall res_ok ws1 /\ fulld_list d0 (flat_map members ws1) (flat_map members ws)) /\
    (forall d fs fs', fulld_fields d fs fs' -> forall d0, d = S d0 -> (forall f v, In (f, v) fs -> guarded E b v /\ (is_node v = true -> single v)) ->
       exists fs1 N, (forall n, N <= n -> once_fields n fs fs1) /\ fulld_fields d0 fs1 fs') /\
    (forall d l l', fulld_list d l l' -> forall d0, d = S d0 -> (forall v, In v l -> guarded E b v) ->
       exists l1 N, (forall n, N <= n -> once_list n l l1) /\ fulld_list d0 l1 l').
  Proof.
    assert (Same : forall d t, is_node t = true -> fulld d t t -> once 1 t t -> nearer d t t).
    { intros d t Hn Hf Ho. exists t, 1. split; [intros n Hle; eapply once_le; eassumption|]. split; [right; left; exact Hn|]. split; [intros Hsi; auto|]. destruct t; try discriminate. apply fulld_node_list; auto. }
    apply fulld_mutind; try (intros; discriminate).
    - intros d m fs d0 _ Hn Hg. apply Same; [reflexivity|constructor|]. intros s Hsb Hsr. exists s. cbn [visit]. unfold visit_body. cbn [is_kind]. rewrite String.eqb_refl, orb_true_r. reflexivity.
    - intros d t c x i v2 v3 t' Hc Hbad Hy Ho Hf _ Hl d0 Hd Hn [Hg _]. inversion Hd; subst d0. clear Hd. pose proof (outcome_ok E b HE _ _ _ _ Ho) as Hok2. pose proof (proj1 (fulld_ok E b) _ _ _ Hf) as Hok3.
      destruct (String.eqb_spec (in_syntax i) "expr") as [He|He].
      + destruct (single_outcome E b HE _ _ _ _ (or_introl He) (in_single _ _ _ _ Hg Hc (or_introl He)) Ho) as [->|Hsi].
        * assert (v3 = NoneT) by (inversion Hf; subst; auto; match goal with H : next_call _ _ NoneT _ _ _ |- _ => inversion H end). subst v3. inversion Hl; subst; try discriminate; try (exfalso; intuition congruence).
          eapply nearer_call; eauto; [split; [apply single_done|constructor]|]. cbn [members coverage_expr done]. apply fulld_node_list with (v := coverage_expr (loc_of (in_target i))); [reflexivity|constructor].
        * pose proof (fulld_some E b HE _ _ _ Hf Hsi) as Hn3. assert (t' = v3) by (inversion Hl; subst; try discriminate; try (exfalso; intuition congruence); reflexivity). subst t'.
          eapply (nearer_call d t c x i v2 v2 v3 v2); eauto. { apply ld_expr; [exact He|]. destruct Hsi as [? [? [? [-> _]]]]. reflexivity. } { apply fulld_members; assumption. }
      + assert (Hns : ~ single t).
        { intros [m0 [k0 [fs0 [-> Hk]]]]. inversion Hc; subst; cbn in *; try contradiction; [apply Hk; auto|]. match goal with H : _ \/ _ |- _ => destruct H; subst; apply Hk; auto end. }
        inversion Hl; subst; try (exfalso; intuition congruence).
        * eapply (nearer_call d t c x i v2 v2 t' v2); eauto; [eapply ld_stmt_noloc; eassumption|contradiction|apply fulld_members; assumption].
        * eapply (nearer_call d t c x i v2 v2); eauto; [eapply ld_stmt; eassumption|contradiction|]. cbn [members]. rewrite (members_lit _ Hok2), (members_lit _ Hok3).
          change (coverage_stmt (x_text E m x) m :: members v3) with (members (coverage_stmt (x_text E m x) m) ++ members v3). apply gl_node; [reflexivity|constructor|]. apply fulld_members; assumption.
    - intros d t c x i Hc Hbad Hy Ho d0 Hd Hn [Hg _]. destruct (next_kind E _ _ _ _ _ Hc) as [_ [_ Ht]]. rewrite <- Ht at 2. eapply (nearer_call d0 t c x i NoneT NoneT); eauto; [apply ld_expr_none; auto|intros _; split; [apply single_done|constructor]|].
      apply fulld_node_list with (v := coverage_expr (loc_of (in_target i))); [reflexivity|constructor].
    - intros d t c x i v2 Hc Hbad Hy Ho [mo [fo [-> Hid]]] d0 Hd Hn [Hg _]. eapply (nearer_call d0 t c x i (Nd mo "Name" fo) (Nd mo "Name" fo)); eauto; [apply ld_self; auto|intros _; split; [apply single_done|constructor]|].
      apply fulld_node_list with (v := done (Nd mo "Name" fo)); [reflexivity|constructor].
    - intros d t c x i v2 v3 Hc Hbad Hy Ho Hnn Hother Hf _ d0 Hd Hn [Hg _]. inversion Hd; subst d0. destruct (single_outcome E b HE _ _ _ _ (or_intror Hy) (in_single _ _ _ _ Hg Hc (or_intror Hy)) Ho) as [->|Hsi]; [discriminate|].
      eapply (nearer_call d t c x i v2 v2 v3 v2); eauto; [apply ld_name; auto|]. apply fulld_members; [exact (outcome_ok E b HE _ _ _ _ Ho)|exact Hf].
    - intros d m fs Hq d0 _ Hn [[Hs _] _]. apply Same; [reflexivity|constructor; exact Hq|]. intros s Hsb Hsr. exists s. rewrite (visit_generic E 0 s m "Name" fs Hs ltac:(discriminate)); [reflexivity|rewrite Hsb; exact Hb|]. rewrite Hsb. apply quiet_next; [exact Hs|discriminate|exact Hq].
    - intros d m k fs fs' Hd Hk Hq _ IH d0 Hd0 Hn [Hg Hst]. destruct (IH d0 Hd0) as [fs1 [N [HN Hf1]]].
      { intros f v Hin. assert (Hp : part (Nd m k fs) v) by (eapply pt_field; [exact Hd|exact Hin|constructor]). split; [split; [exact (sg_part _ _ Hg Hp)|exact (stays_part E b _ _ Hst Hp)]|]. intros Hv. eapply (proj1 (proj2 Hg)); [constructor|exact Hd|exact Hin|exact Hv]. }
      assert (Ho : forall n, S N <= n -> once n (Nd m k fs) (Nd m k fs1)).
      { intros n Hle s Hsb Hsr. destruct n as [|n]; [lia|]. destruct (HN n ltac:(lia) s Hsb Hsr) as [s' [H1 _]]. exists s'.
        rewrite (visit_generic E n s m k fs (proj1 Hg) Hd); [|rewrite Hsb; exact Hb|rewrite Hsb; apply quiet_next; [exact (proj1 Hg)|assumption|assumption]]. destruct (String.eqb_spec k "Name"); [contradiction|]. cbn [xgeneric_visit]. unfold bnd. rewrite H1. reflexivity. }
      assert (Hq1 : quiet_node (Nd m k fs1)).
      { destruct (Ho (S N) ltac:(lia) (mkSt b false u0 []) eq_refl eq_refl) as [s' Hv]. exact (Hst _ (pt_refl _) eq_refl Hq _ (mkSt b false u0 []) _ _ eq_refl eq_refl Hv). }
      assert (Hf : fulld d0 (Nd m k fs1) (Nd m k fs')) by (apply gd_node; assumption).
      exists (Nd m k fs1), (S N). split; [exact Ho|]. split; [right; left; reflexivity|]. split; [|apply fulld_node_list with (v := Nd m k fs'); [reflexivity|exact Hf]].
      intros Hsi. split; [destruct Hsi as [m0 [k0 [fs0 [He Hk0]]]]; inversion He; subst; exists m0, k0, fs1; auto|exact Hf].
    - intros d d0 _ _. exists [], 0. split; [intros n _ s Hsb Hsr; exists s; auto|]. split; constructor.
    - intros d x w l ws _ IH1 _ IH2 d0 Hd Hl. destruct (Hl x (or_introl eq_refl)) as [Hxn Hxg]. destruct (IH1 d0 Hd Hxn Hxg) as [x1 [N1 [H1 [Hok [_ Hf1]]]]]. destruct (IH2 d0 Hd (fun t Ht => Hl t (or_intror Ht))) as [l1 [N2 [H2 [Hok2 Hf2]]]].
      exists (x1 :: l1), (Nat.max N1 N2). split; [|split; [constructor; assumption|cbn [flat_map]; apply fulld_list_app; assumption]]. intros n Hle s Hsb Hsr.
      destruct (once_kept n x x1 s (H1 n ltac:(lia)) Hsb Hsr) as [s1 [V1 [K1 K2]]]. destruct (H2 n ltac:(lia) s1 K1 K2) as [s2 [V2 K3]]. exists s2. split; [|exact K3]. cbn [xvisit_elts]. unfold bnd. rewrite V1, V2. reflexivity.
    - intros d d0 _ _. exists [], 0. split; [intros n _ s Hsb Hsr; exists s; auto|]. constructor.
    - intros d f a r r' _ IH d0 Hd Hg. destruct (IH d0 Hd (fun g v Hin => Hg g v (or_intror Hin))) as [r1 [N [HN Hf]]]. exists ((f, At a) :: r1), N. split; [|constructor; exact Hf]. intros n Hle s Hsb Hsr.
      destruct (HN n Hle s Hsb Hsr) as [s1 [V1 K]]. exists s1. split; [|exact K]. cbn [xgv_fields]. unfold bnd. rewrite V1. reflexivity.
    - intros d f l l' r r' _ IHl _ IH d0 Hd Hg. destruct (Hg f (Ls l) (or_introl eq_refl)) as [[Hgl Hsl] _]. destruct (IHl d0 Hd) as [l1 [N1 [H1 Hf1]]].
      { intros v Hv. assert (Hp : part (Ls l) v) by (eapply pt_elem; [exact Hv|constructor]). split; [exact (sg_part _ _ Hgl Hp)|exact (stays_part E b _ _ Hsl Hp)]. }
      destruct (IH d0 Hd (fun g v Hin => Hg g v (or_intror Hin))) as [r1 [N2 [H2 Hf2]]]. exists ((f, Ls l1) :: r1), (Nat.max N1 N2). split; [|constructor; assumption]. intros n Hle s Hsb Hsr.
      destruct (H1 n ltac:(lia) s Hsb Hsr) as [s1 [V1 [K1 K2]]]. destruct (H2 n ltac:(lia) s1 K1 K2) as [s2 [V2 K3]]. exists s2. split; [|exact K3]. cbn [xgv_fields]. unfold bnd. rewrite V1, V2. reflexivity.
    - intros d f t t' r r' Hn _ IHt Hnn _ IH d0 Hd Hg. destruct (Hg f t (or_introl eq_refl)) as [Hgt Hst]. specialize (Hst Hn). destruct (IHt d0 Hd Hn Hgt) as [t1 [N1 [H1 [_ [Hf1 _]]]]]. destruct (Hf1 Hst) as [Hs1 Hft]. clear Hf1.
      destruct (IH d0 Hd (fun g v Hin => Hg g v (or_intror Hin))) as [r1 [N2 [H2 Hf2]]]. exists ((f, t1) :: r1), (Nat.max N1 N2). split; [|apply gf_node; auto; exact (single_node _ Hs1)]. intros n Hle s Hsb Hsr.
      destruct (once_kept n t t1 s (H1 n ltac:(lia)) Hsb Hsr) as [s1 [V1 [K1 K2]]]. destruct (H2 n ltac:(lia) s1 K1 K2) as [s2 [V2 K3]]. exists s2. split; [|exact K3]. destruct t as [m k fs| |]; try discriminate. destruct Hs1 as [m1 [k1 [fs1 [-> _]]]]. cbn [xgv_fields]. unfold bnd. rewrite V1, V2. reflexivity.
    - intros d f t r r' Hn Hf _ _ _ d0 Hd Hg. exfalso. destruct (Hg f t (or_introl eq_refl)) as [_ Hst]. pose proof (fulld_some E b HE _ _ _ Hf (Hst Hn)). discriminate.
    - intros d d0 _ _. exists [], 0. split; [intros n _ s Hsb Hsr; exists s; auto|]. constructor.
    - intros d v r r' Hn _ IH d0 Hd Hg. destruct (IH d0 Hd (fun w Hin => Hg w (or_intror Hin))) as [r1 [N [HN Hf]]]. exists (v :: r1), N. split; [|constructor; assumption]. intros n Hle s Hsb Hsr.
      destruct (HN n Hle s Hsb Hsr) as [s1 [V1 K]]. exists s1. split; [|exact K]. destruct v; try discriminate; cbn [xgv_list]; unfold bnd; rewrite V1; reflexivity.
    - intros d t v r r' Hn _ IHt _ IH d0 Hd Hg. destruct (IHt d0 Hd Hn (Hg t (or_introl eq_refl))) as [t1 [N1 [H1 [Hok [_ Hf1]]]]]. destruct (IH d0 Hd (fun w Hin => Hg w (or_intror Hin))) as [r1 [N2 [H2 Hf2]]].
      exists (members t1 ++ r1), (Nat.max N1 N2). split; [|apply fulld_list_app; assumption]. intros n Hle s Hsb Hsr.
      destruct (once_kept n t t1 s (H1 n ltac:(lia)) Hsb Hsr) as [s1 [V1 [K1 K2]]]. destruct (H2 n ltac:(lia) s1 K1 K2) as [s2 [V2 K3]]. exists s2. split; [|exact K3]. destruct t as [m k fs| |]; try discriminate. cbn [xgv_list]. unfold bnd. rewrite V1.
      destruct Hok as [->|[Hw|[lx [-> Hlx]]]]; [exact V2| |rewrite V2; reflexivity]. destruct t1; try discriminate. rewrite V2. reflexivity.
  Qed.

  (** ** Without invocations *)
  Lemma call_heard t c x i : shaped t -> next_call E b t c x i -> quiet_node t -> False.
  Proof.
    intros Hs Hc Hq. assert (exists m k fs, t = Nd m k fs /\ k <> "Done"%string) as [m [k [fs [-> Hk]]]].
    { inversion Hc; subst; do 3 eexists; (split; [reflexivity|]); try discriminate. match goal with H : _ \/ _ |- _ => destruct H; subst; discriminate end. }
    exact (quiet_next E b m k fs Hs Hk Hq _ _ _ Hc).
  Qed.
  Lemma fulld_quiet :
    (forall d t v, fulld d t v -> shaped t -> (forall u, part t u -> quiet_node u) -> is_node t = true -> v = t) /\
    (forall d l ws, fulld_each d l ws -> (forall t, In t l -> is_node t = true /\ shaped t /\ forall u, part t u -> quiet_node u) -> ws = l) /\
    (forall d fs fs', fulld_fields d fs fs' -> (forall f t, In (f, t) fs -> shaped t /\ forall u, part t u -> quiet_node u) -> fs' = fs) /\
    (forall d l l', fulld_list d l l' -> (forall t, In t l -> shaped t /\ forall u, part t u -> quiet_node u) -> l' = l).
  Proof.
    apply fulld_mutind; auto; try (intros; discriminate).
    - intros d t c x i v2 v3 t' Hc _ _ _ _ _ _ Hs Hq _. destruct (call_heard _ _ _ _ Hs Hc (Hq _ (pt_refl _))).
    - intros d t c x i Hc _ _ _ Hs Hq _. destruct (call_heard _ _ _ _ Hs Hc (Hq _ (pt_refl _))).
    - intros d t c x i v2 Hc _ _ _ _ Hs Hq _. destruct (call_heard _ _ _ _ Hs Hc (Hq _ (pt_refl _))).
    - intros d t c x i v2 v3 Hc _ _ _ _ _ _ _ Hs Hq _. destruct (call_heard _ _ _ _ Hs Hc (Hq _ (pt_refl _))).
    - intros d m k fs fs' Hd Hk _ _ IH Hs Hq _. rewrite IH; [reflexivity|]. intros f t Hin. split; [apply (shaped_part _ _ Hs); eapply pt_field; [exact Hd|exact Hin|constructor]|]. intros u Hu. apply Hq. eapply pt_field; eassumption.
    - intros d x w l ws _ IH1 _ IH2 H. destruct (H x (or_introl eq_refl)) as [H1 [H2 H3]]. rewrite IH1, IH2; auto. intros t Ht. apply H. right. exact Ht.
    - intros d f a r r' _ IH H. rewrite IH; [reflexivity|]. intros g t Ht. apply (H g). right. exact Ht.
    - intros d f l l' r r' _ IHl _ IH H. rewrite IH, IHl; [reflexivity| |intros g t Ht; apply (H g); right; exact Ht]. destruct (H f (Ls l) (or_introl eq_refl)) as [Hs Hq]. intros t Ht. split; [apply (shaped_part _ _ Hs); eapply pt_elem; [exact Ht|constructor]|]. intros u Hu. apply Hq. eapply pt_elem; eassumption.
    - intros d f t t' r r' Hn _ IHt _ _ IH H. destruct (H f t (or_introl eq_refl)) as [Hs Hq]. rewrite IH, IHt; auto. intros g v Hv. apply (H g). right. exact Hv.
    - intros d f t r r' Hn _ IHt _ _ H. destruct (H f t (or_introl eq_refl)) as [Hs Hq]. specialize (IHt Hs Hq Hn). subst t. discriminate.
    - intros d v r r' Hn _ IH H. rewrite IH; [reflexivity|]. intros t Ht. apply H. right. exact Ht.
    - intros d t v r r' Hn _ IHt _ IH H. destruct (H t (or_introl eq_refl)) as [Hs Hq]. rewrite IH, IHt; auto; [destruct t; try discriminate; reflexivity|]. intros w Hw. apply H. right. exact Hw.
  Qed.

  Lemma quiet_none : quiet_node NoneT.
  Proof. intros x syn H. inversion H. Qed.
  Lemma quiet_atom a : quiet_node (At a).
  Proof. intros x syn H. inversion H. Qed.
  Lemma quiet_ls l : quiet_node (Ls l).
  Proof. intros x syn H. inversion H. Qed.
  Lemma tidy_part t u : tidy t -> part t u -> tidy u.
  Proof. intros H Hp v Hv. apply H. eapply part_trans; eassumption. Qed.
  Lemma fulld_zero :
    (forall d t v, fulld d t v -> d = 0 -> tidy t -> forall u, part t u -> quiet_node u) /\
    (forall d l ws, fulld_each d l ws -> d = 0 -> (forall t, In t l -> tidy t) -> forall t u, In t l -> part t u -> quiet_node u) /\
    (forall d fs fs', fulld_fields d fs fs' -> d = 0 -> (forall f t, In (f, t) fs -> tidy t) -> forall f t u, In (f, t) fs -> part t u -> quiet_node u) /\
    (forall d l l', fulld_list d l l' -> d = 0 -> (forall t, In t l -> tidy t /\ is_list t = false) -> forall t u, In t l -> part t u -> quiet_node u).
  Proof.
    apply fulld_mutind; try (intros; discriminate); try (intros; match goal with H : In _ [] |- _ => destruct H end).
    - intros d _ _ u Hu. inversion Hu; subst. exact quiet_none.
    - intros d l ws _ IH Hd Ht u Hu. inversion Hu; subst; [apply quiet_ls|]. eapply IH; try eassumption; [reflexivity|]. intros t Hin. eapply tidy_part; [exact Ht|]. eapply pt_elem; [exact Hin|constructor].
    - intros d m fs _ _ u Hu. inversion Hu; subst; [|contradiction]. intros x syn H. inversion H; subst. match goal with H : _ \/ _ |- _ => destruct H; discriminate end.
    - intros d m fs Hq _ Ht u Hu. inversion Hu; subst; [exact Hq|]. pose proof (Ht _ (pt_refl _)) as [_ [_ [Hn _]]]. specialize (Hn eq_refl _ _ ltac:(eassumption)). destruct v as [mv kv [|? ?]| |]; try contradiction.
      + match goal with H : part (Nd mv kv []) u |- _ => inversion H; subst end; [|match goal with H : In _ [] |- _ => destruct H end]. intros x syn H. inversion H; subst; discriminate.
      + match goal with H : part (At _) u |- _ => inversion H; subst end. apply quiet_atom.
    - intros d m k fs fs' Hd Hk Hq _ IH H0 Ht u Hu. inversion Hu; subst; [exact Hq|]. eapply IH; try eassumption; [reflexivity|]. intros g t Hin. eapply tidy_part; [exact Ht|]. eapply pt_field; [exact Hd|exact Hin|constructor].
    - intros d x w l ws _ IH1 _ IH2 H0 Ht t u Hin Hu. destruct Hin as [<-|Hin]; [eapply IH1; eauto; apply Ht; left; reflexivity|]. eapply IH2; eauto. intros y Hy. apply Ht. right. exact Hy.
    - intros d f a r r' _ IH H0 Ht g t u Hin Hu. destruct Hin as [Hin|Hin]; [inversion Hin; subst; inversion Hu; subst; apply quiet_atom|]. eapply IH; eauto. intros h y Hy. apply (Ht h). right. exact Hy.
    - intros d f l l' r r' _ IHl _ IH H0 Ht g t u Hin Hu. destruct Hin as [Hin|Hin].
      + inversion Hin; subst. inversion Hu; subst; [apply quiet_ls|]. eapply IHl; try eassumption; [reflexivity|]. intros y Hy. pose proof (Ht g (Ls l) (or_introl eq_refl)) as Htl. split; [eapply tidy_part; [exact Htl|]; eapply pt_elem; [exact Hy|constructor]|].
        pose proof (Htl _ (pt_refl _)) as [_ Hl]. rewrite Forall_forall in Hl. exact (Hl y Hy).
      + eapply IH; eauto. intros h y Hy. apply (Ht h). right. exact Hy.
    - intros d f t t' r r' Hn _ IHt _ _ IH H0 Ht g y u Hin Hu. destruct Hin as [Hin|Hin]; [inversion Hin; subst; eapply IHt; eauto; apply (Ht g); left; reflexivity|]. eapply IH; eauto. intros h z Hz. apply (Ht h). right. exact Hz.
    - intros d f t r r' Hn _ IHt _ IH H0 Ht g y u Hin Hu. destruct Hin as [Hin|Hin]; [inversion Hin; subst; eapply IHt; eauto; apply (Ht g); left; reflexivity|]. eapply IH; eauto. intros h z Hz. apply (Ht h). right. exact Hz.
    - intros d v r r' Hn _ IH H0 Ht y u Hin Hu. destruct Hin as [<-|Hin]; [|eapply IH; eauto; intros z Hz; apply Ht; right; exact Hz]. destruct (Ht v (or_introl eq_refl)) as [_ Hl]. destruct v; try discriminate. inversion Hu; subst. apply quiet_atom.
    - intros d t v r r' Hn _ IHt _ IH H0 Ht y u Hin Hu. destruct Hin as [<-|Hin]; [eapply IHt; eauto; apply Ht; left; reflexivity|]. eapply IH; eauto. intros z Hz. apply Ht. right. exact Hz.
  Qed.
  Lemma quiet_source t : (forall u, part t u -> quiet_node u) -> forall u, source E b t u -> part t u.
  Proof.
    intros Hq u H. revert Hq. induction H; intros Hq; try (exfalso; eapply (Hq _ (pt_refl _)); first [eassumption | eapply inv_expr; eassumption | eapply inv_block; eassumption | eapply inv_dec; eassumption]).
    - constructor.
    - eapply pt_elem; [eassumption|]. apply IHsource. intros w Hw. apply Hq. eapply pt_elem; eassumption.
    - eapply pt_field; [eassumption|eassumption|]. apply IHsource. intros w Hw. apply Hq. eapply pt_field; eassumption.
  Qed.
  Lemma zero_not_invoked t v x syn : fulld 0 t v -> tidy t -> ~ invoked E b t x syn.
  Proof.
    intros Hf Ht [u [Hu Hi]]. pose proof (proj1 fulld_zero _ _ _ Hf eq_refl Ht) as Hq. exact (Hq u (quiet_source t Hq u Hu) _ _ Hi).
  Qed.

  (** ** One step *)
  Lemma step_nearer d t v : top_ok t -> guarded E b t -> fulld (S d) t v -> exists t1 N, (forall n, N <= n -> once n t t1) /\ fulld d t1 v /\ (t1 = NoneT \/ top_ok t1).
  Proof.
    intros Htop Hg Hf. destruct Htop as [Hsi|[l [-> [Hne Hl]]]].
    - destruct (proj1 fulld_nearer _ _ _ Hf d eq_refl (single_node _ Hsi) Hg) as [t1 [N [H1 [_ [H2 _]]]]]. destruct (H2 Hsi) as [H3 H4]. exists t1, N. split; [exact H1|]. split; [exact H4|]. right. left. exact H3.
    - inversion Hf; subst; try (match goal with H : next_call _ _ (Ls _) _ _ _ |- _ => inversion H end). match goal with H : StepProofs2.fulld_each _ _ _ _ _ |- _ => rename H into Hw end.
      destruct (proj1 (proj2 fulld_nearer) _ _ _ Hw d eq_refl) as [ws1 [N [H1 [Hok H2]]]].
      { intros t Ht. assert (Hp : part (Ls l) t) by (eapply pt_elem; [exact Ht|constructor]). rewrite Forall_forall in Hl. split; [exact (Hl t Ht)|]. split; [exact (sg_part _ _ (proj1 Hg) Hp)|exact (stays_part E b _ _ (proj2 Hg) Hp)]. }
      rewrite <- (flatten_members ws) in H2 by exact (proj1 (proj2 (fulld_ok E b)) _ _ _ Hw). rewrite <- (flatten_members ws1) in H2 by exact Hok.
      assert (Hn1 : Forall node (flatten ws1)).
      { rewrite flatten_members by exact Hok. clear - Hok. induction Hok as [|w ws Hw _ IH]; cbn [flat_map]; [constructor|]. apply Forall_app. split; [apply members_ok; exact Hw|exact IH]. }
      exists (match flatten ws1 with [] => NoneT | r => Ls r end), (S N). split; [|split].
      + intros n Hle s Hsb Hsr. destruct n as [|n]; [lia|]. destruct (H1 n ltac:(lia) s Hsb Hsr) as [s' [V _]]. exists s'. cbn [visit]. unfold visit_body. replace (match s_b s with [] => true | _ => false end) with false by (rewrite Hsb; destruct b; [contradiction|reflexivity]).
        cbn [is_kind orb]. unfold bnd. rewrite V. destruct (flatten ws1); reflexivity.
      + destruct (flatten ws1) as [|w0 wr] eqn:Ef; [inversion H2; subst; constructor|]. pose proof (fulld_suite d _ _ Hn1 H2) as G. destruct (flatten ws); exact G.
      + destruct (flatten ws1) as [|w0 wr] eqn:Ef; [left; reflexivity|]. right. right. exists (w0 :: wr). split; [reflexivity|]. split; [discriminate|exact Hn1].
  Qed.

  (** ** Stepping *)
  Definition fair (t : ltree) : Prop := forall u, reaches E b t u -> steady E b u /\ typed u /\ harmless E b u.
  Lemma reaches_trans t u w : reaches E b t u -> reaches E b u w -> reaches E b t w.
  Proof. intros H1 H2. induction H2; [exact H1|]. eapply rc_step; eassumption. Qed.
  Lemma steady_guarded t : steady E b t -> guarded E b t.
  Proof.
    intros H. split; [split; [apply tidy_shaped; eapply st_tidy; eassumption|]; split; intros; [eapply (st_field _ _ _ H)|eapply (st_slice _ _ _ H)]; eassumption|]. intros u Hu Hn Hq m s2 u1 s3 H1 H2 H3. exact (st_stays _ _ _ H u Hu Hn Hq m s2 u1 s3 H1 H2 H3).
  Qed.
  Lemma once_visit_once n t t1 s : once n t t1 -> s_b s = b -> exists s1, visit_once E n t s = Some (XOk (done t1), s1) /\ s_b s1 = b.
  Proof.
    intros H Hsb. destruct (once_kept n t t1 (mkSt (s_b s) false (s_u s) (s_log s ++ [EMode false])) H Hsb eq_refl) as [s' [H1 [H2 H3]]].
    unfold visit_once, call_expander, with_mode, bnd. rewrite H1. eexists. split; [reflexivity|]. exact H2.
  Qed.

  Lemma doit_ends dumps v : dumps = false \/ v <> NoneT -> forall d t, fulld d t v -> t = NoneT \/ top_ok t -> fair t ->
    exists N shown, forall s n k, s_b s = b -> N <= n -> N <= k -> exists s', doit E n k dumps t s = Some (XOk v, shown, s').
  Proof.
    intros Hdv. induction d as [d IH] using (well_founded_induction Nat.lt_wf_0). intros t Hf Htop Hfair.
    destruct (Hfair t (rc_start _ _ _)) as [Hst [Hty Hha]]. pose proof (st_tidy _ _ _ Hst) as Htidy. pose proof (tidy_shaped _ Htidy) as Hsh.
    assert (Hc : forall n, S (tsize t) <= n -> exists c, cvisit E b n t [] = Some (XOk c) /\ forall x syn, In (x, syn) c <-> invoked E b t x syn).
    { intros n Hn. destruct (cvisit_total E b n t ltac:(lia) Hsh Hty Hha) with (c := @nil (string * string)) as [c Hc].
      - destruct Htop as [->|[Hsi|[l [-> [_ Hl]]]]]; [left; left; reflexivity|left; right; exact (single_node _ Hsi)|]. right. exists l. split; [reflexivity|]. eapply Forall_impl; [|exact Hl]. intros y Hy. right. exact Hy.
      - exists c. split; [exact Hc|]. destruct (cvisit_exact E b n t Htidy _ _ Hc) as [_ H2]. intros x syn. rewrite H2. cbn. tauto. }
    destruct (Hc (S (tsize t)) (le_n _)) as [c0 [Hc0 Hin0]]. destruct c0 as [|[x0 syn0] c0].
    - assert (Hno : forall x syn, ~ invoked E b t x syn) by (intros x syn Hi; apply Hin0 in Hi; destruct Hi).
      assert (Hq : forall u, part t u -> quiet_node u).
      { intros u Hu x syn Hi. assert (Hall : forall w, source E b t w -> forall x syn, ~ invokes E b w x syn) by (intros w Hsw y sy Hiw; apply (Hno y sy); exists w; auto). exact (Hall _ (source_all _ _ _ _ Hall Hu) _ _ Hi). }
      assert (Hv : v = t).
      { destruct Htop as [->|[Hsi|[l [-> [Hne Hl]]]]].
        - inversion Hf; subst; auto; match goal with H : next_call _ _ NoneT _ _ _ |- _ => inversion H end.
        - exact (proj1 fulld_quiet _ _ _ Hf Hsh Hq (single_node _ Hsi)).
        - inversion Hf; subst; try (match goal with H : next_call _ _ (Ls _) _ _ _ |- _ => inversion H end). match goal with H : StepProofs2.fulld_each _ _ _ _ _ |- _ => rename H into Hw end.
          assert (ws = l). { apply (proj1 (proj2 fulld_quiet) _ _ _ Hw). intros t Ht. assert (Hp : part (Ls l) t) by (eapply pt_elem; [exact Ht|constructor]). rewrite Forall_forall in Hl. split; [exact (Hl t Ht)|]. split; [exact (shaped_part _ _ Hsh Hp)|]. intros u Hu. apply Hq. eapply part_trans; eassumption. }
          subst ws. rewrite flatten_fixed; [destruct l; [contradiction|reflexivity]|]. eapply Forall_impl; [|exact Hl]. intros y Hy. destruct y; try discriminate. split; reflexivity. }
      subst v. exists (S (tsize t)), []. intros s n k Hsb Hn Hk. destruct k as [|k]; [lia|]. cbn [doit]. rewrite Hsb. destruct (Hc n Hn) as [c [-> Hin]]. destruct c as [|[x syn] c]; [eauto|]. exfalso. apply (Hno x syn). apply Hin. left. reflexivity.
    - assert (Hi : invoked E b t x0 syn0) by (apply Hin0; left; reflexivity). destruct Htop as [->|Htop]; [exfalso; destruct Hi as [u [Hu Hiu]]; inversion Hu; subst; inversion Hiu|].
      destruct d as [|d]; [destruct (zero_not_invoked _ _ _ _ Hf Htidy Hi)|].
      destruct (step_nearer d t v Htop (steady_guarded _ Hst) Hf) as [t1 [N1 [Ho [Hf1 Htop1]]]].
      assert (Hr1 : reaches E b t t1).
      { destruct (once_visit_once N1 t t1 (mkSt b false u0 []) (Ho N1 (le_n _)) eq_refl) as [s1 [Hv1 _]]. eapply rc_step; [apply rc_start| |exact Hv1]. reflexivity. }
      destruct (IH d (Nat.lt_succ_diag_r d) t1 Hf1 Htop1) as [N2 [shown H2]]; [intros u Hu; apply Hfair; eapply reaches_trans; eassumption|].
      assert (Hrd : render dumps t1 = XOk tt).
      { destruct t1 as [| |a]; try reflexivity. destruct Htop1 as [He|[[? [? [? [He _]]]]|[? [He _]]]]; try discriminate. inversion He; subst a. cbn. destruct dumps; [|reflexivity]. exfalso. destruct Hdv as [Hdv|Hdv]; [discriminate|]. apply Hdv.
        inversion Hf1; subst; auto; match goal with H : next_call _ _ NoneT _ _ _ |- _ => inversion H end. }
      exists (S (Nat.max (S (tsize t)) (Nat.max N1 N2))), (t1 :: shown). intros s n k Hsb Hn Hk. destruct k as [|k]; [lia|]. cbn [doit]. rewrite Hsb. destruct (Hc n ltac:(lia)) as [c [-> Hin]].
      destruct c as [|p c]; [apply Hin in Hi; destruct Hi|]. destruct (once_visit_once n t t1 s (Ho n ltac:(lia)) Hsb) as [s1 [-> Hb1]]. cbn [body_of done attr getf String.eqb Ascii.eqb Bool.eqb]. rewrite Hrd.
      destruct (H2 s1 n k Hb1 ltac:(lia) ltac:(lia)) as [s' ->]. eauto.
  Qed.
End Nearer.
