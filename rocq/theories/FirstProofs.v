(** expand_first: the arguments, the bindings, and which macros are called. *)
From Verif Require Import Base AstLib UtilsModel FixLocModel ExpanderModel ExpanderSpec ExpanderProofs ExpanderProofs2 ExpanderProofs3 ExpanderProofs5 ExpanderExamples ExpanderProps ExpanderProps2 ExpanderProps3 NestModel NestProofs4 MetaModel.

(** [b'] has the bindings of [b] to the functions [fs], those in [cs], and no others. *)
Definition only (b b' : binds) (fs : list nat) (cs : binds) : Prop := forall x i, bound b' x i <-> bound b x i /\ (In i fs \/ In (x, i) cs).

Lemma bound_In b x i : NoDup (map fst b) -> (bound b x i <-> In (x, i) b).
Proof.
  intros Hd. split.
  - intros (b1 & b2 & -> & _). apply in_app_iff. right. left. reflexivity.
  - intros H. apply in_split in H. destruct H as (b1 & b2 & ->). exists b1, b2. split; [reflexivity|]. rewrite map_app in Hd. cbn in Hd. apply NoDup_remove_2 in Hd. intros H. apply Hd. apply in_app_iff. left. exact H.
Qed.
Lemma filter_nodup {A B} (g : A -> B) f l : NoDup (map g l) -> NoDup (map g (filter f l)).
Proof.
  induction l as [|x l IH]; [auto|]. cbn. intros H. inversion H; subst. destruct (f x); [|auto]. cbn. constructor; [|auto]. intros Hx. apply in_map_iff in Hx. destruct Hx as (y & Hy & Hin). apply filter_In in Hin. match goal with K : ~ In _ _ |- _ => apply K end. rewrite <- Hy. apply in_map. exact (proj1 Hin).
Qed.
Lemma bound_app b1 b2 x i : bound (b1 ++ b2) x i <-> bound b1 x i \/ (~ In x (map fst b1)) /\ bound b2 x i.
Proof.
  split.
  - intros (c1 & c2 & H & Hn). revert c1 H Hn. induction b1 as [|p b1 IH]; cbn [app map]; intros c1 H Hn.
    + right. split; [intros []|]. exists c1, c2. auto.
    + destruct c1 as [|p1 c1]; cbn in H; inversion H; subst.
      * left. exists [], b1. split; [reflexivity|intros []].
      * destruct (IH c1 H2) as [(d1 & d2 & -> & Hd)|[Hx Hb]]; [intros Hi; apply Hn; right; exact Hi| |].
        -- left. exists (p1 :: d1), d2. split; [reflexivity|]. cbn. intros [He|He]; [apply Hn; left; exact He|contradiction].
        -- right. split; [|exact Hb]. cbn. intros [He|He]; [apply Hn; left; exact He|contradiction].
  - intros [(c1 & c2 & -> & Hn)|[Hx (c1 & c2 & -> & Hn)]].
    + exists c1, (c2 ++ b2). split; [rewrite <- app_assoc; reflexivity|exact Hn].
    + exists (b1 ++ c1), c2. split; [rewrite <- app_assoc; reflexivity|]. rewrite map_app. intros H. apply in_app_iff in H. destruct H; contradiction.
Qed.
(** The captured macros are among the bindings. *)
Definition sub_dict (cs b : binds) : Prop := NoDup (map fst cs) /\ forall x i, In (x, i) cs -> bound b x i.
Lemma extract_only b fs cs : NoDup (map fst b) -> sub_dict cs b -> only b (extract_bindings b fs ++ cs) fs cs.
Proof.
  intros Hd [Hc Hs] x i. rewrite bound_app. unfold extract_bindings. pose proof (filter_nodup fst (fun p => existsb (Nat.eqb (snd p)) fs) b Hd) as Hf.
  assert (Q : forall j, In (x, j) (filter (fun p => existsb (Nat.eqb (snd p)) fs) b) <-> In (x, j) b /\ In j fs).
  { intros j. rewrite filter_In. cbn [snd]. rewrite existsb_exists. split; [intros [H (k & Hk & He)]; apply Nat.eqb_eq in He; subst; auto|intros [H Hi]; split; [exact H|]; exists j; split; [exact Hi|apply Nat.eqb_refl]]. }
  rewrite (bound_In _ _ _ Hf), (bound_In _ _ _ Hd), (bound_In _ _ _ Hc), Q. split.
  - intros [[H1 H2]|[H1 H2]]; [auto|]. split; [apply (bound_In _ _ _ Hd); exact (Hs _ _ H2)|auto].
  - intros [H1 [H2|H2]]; [auto|]. destruct (in_dec Nat.eq_dec i fs) as [Hi|Hi]; [left; auto|]. right. split; [|exact H2]. intros H3. apply in_map_iff in H3. destruct H3 as ([y j] & He & Hj). cbn in He. subst y.
    apply Q in Hj. destruct Hj as [Hj1 Hj2]. apply (bound_In _ _ _ Hd) in Hj1. apply (bound_In _ _ _ Hd) in H1. apply isbound_iff in Hj1. apply isbound_iff in H1. congruence.
Qed.

Section Calls.
  Context {U : Type}.
  Variable E : env U.
  Hypothesis Hmac : forall j i, keeps_binds (m_run (x_macro E j) i).
  (** What is called is bound. *)
  Definition bound_calls (b : binds) (d : list event) : Prop := forall x inp r, In (ECall x inp r) d -> exists i, bound b x i.
  Definition call_rel (s s' : st U) : Prop := s_b s' = s_b s /\ exists d, s_log s' = s_log s ++ d /\ bound_calls (s_b s) d.
  Lemma cr_refl s : call_rel s s.
  Proof. split; [reflexivity|]. exists []. rewrite app_nil_r. split; [reflexivity|]. intros x i r []. Qed.
  Lemma cr_trans a b c : call_rel a b -> call_rel b c -> call_rel a c.
  Proof.
    intros [H1 [d1 [L1 D1]]] [H2 [d2 [L2 D2]]]. split; [congruence|]. exists (d1 ++ d2). rewrite L2, L1, app_assoc. split; [reflexivity|].
    intros x i r H. apply in_app_iff in H. destruct H as [H|H]; [exact (D1 _ _ _ H)|]. rewrite H1 in D2. exact (D2 _ _ _ H).
  Qed.
  Lemma cr_event e s : (forall x i r, e <> ECall x i r) -> call_rel s (logged e s).
  Proof. intros He. split; [reflexivity|]. exists [e]. split; [reflexivity|]. intros x i r [H|[]]. destruct (He _ _ _ H). Qed.
  Lemma visit_calls n t s r s' : visit E n t s = Some (r, s') -> call_rel s s'.
  Proof.
    apply (visit_keeps E call_rel keeps_binds); try exact Hmac; try (intros; apply cr_refl); try exact cr_trans; try (intros; apply cr_event; discriminate);
      try (intros; match goal with H : keeps_binds _ |- _ => inversion H; subst end; auto; fail).
    - intros s0 s1 [H1 [d [L D]]]. split; [exact H1|]. exists (EUse HOnce :: EMode false :: d ++ [EModeEnd]). cbn in *. split; [rewrite L, <- !app_assoc; reflexivity|].
      intros x i r0 [H|[H|H]]; try discriminate. apply in_app_iff in H. destruct H as [H|[H|[]]]; [exact (D _ _ _ H)|discriminate].
    - intros s0 s1 [H1 [d [L D]]]. split; [exact H1|]. exists (EUse HRec :: EMode true :: d ++ [EModeEnd]). cbn in *. split; [rewrite L, <- !app_assoc; reflexivity|].
      intros x i r0 [H|[H|H]]; try discriminate. apply in_app_iff in H. destruct H as [H|[H|[]]]; [exact (D _ _ _ H)|discriminate].
    - intros s0 name inp s1 s2 x Hb Hn [H1 [d1 [L1 D1]]] [H2 [d2 [L2 D2]]]. unfold left_mode, in_mode, logged in *. cbn in *. split; [rewrite H2; exact H1|].
      exists (EMode false :: ECall name inp false :: (d1 ++ ERet x :: d2) ++ [EModeEnd]). split; [rewrite L2, L1; repeat (cbn; rewrite <- ?app_assoc); reflexivity|].
      intros y i r0 [H|[H|H]]; try discriminate.
      + inversion H; subst. destruct (isbound (s_b s0) y) as [j|] eqn:Ej; [|contradiction]. exists j. apply isbound_iff. exact Ej.
      + apply in_app_iff in H. destruct H as [H|[H|[]]]; [|discriminate]. apply in_app_iff in H. destruct H as [H|[H|H]]; [exact (D1 _ _ _ H)|discriminate|]. rewrite H1 in D2. exact (D2 _ _ _ H).
    - intros s0 name inp s1 x Hb [H1 [d1 [L1 D1]]]. unfold logged in *. cbn in *. split; [exact H1|]. exists (ECall name inp (s_rec s0) :: d1 ++ [ERet x]). split; [rewrite L1; repeat (cbn; rewrite <- ?app_assoc); reflexivity|].
      intros y i r0 [H|H].
      + inversion H; subst. destruct (isbound (s_b s0) y) as [j|] eqn:Ej; [|contradiction]. exists j. apply isbound_iff. exact Ej.
      + apply in_app_iff in H. destruct H as [H|[H|[]]]; [exact (D1 _ _ _ H)|discriminate].
    - intros k u H. inversion H; subst. split; [assumption|]. intros s0. split; [reflexivity|]. exists []. rewrite app_nil_r. split; [reflexivity|]. intros x i r0 [].
  Qed.
End Calls.

Section First.
  Variable E : env nat.
  Variable cs : binds.
  Notation first := (expand_first_prog cs).
  (** A bare name that is bound to the macro function [i], which is not a name macro. *)
  Definition bare (b : binds) (t : ltree) (i : nat) : Prop :=
    shaped t /\ exists m fs x, t = Nd m "Name" fs /\ getf "id" fs = Some (At (AStr x)) /\ bound b x i /\ m_isname (x_macro E i) = false.

  Lemma bare_visit b t i n rec u log : bare b t i -> visit E (S n) t (mkSt b rec u log) = Some (XOk t, mkSt b rec u log).
  Proof.
    intros (Hs & m & fs & x & -> & Hx & Hb & Hn).
    rewrite (C31_other_code_not_invoked nat E n (mkSt b rec u log) m "Name" fs Hs); [reflexivity|discriminate| |].
    - cbn. destruct Hb as (b1 & b2 & -> & _). destruct b1; discriminate.
    - cbn. intros y syn H. inversion H; subst; try (match goal with K : _ \/ _ |- _ => destruct K; discriminate end). rewrite Hx in *. match goal with K : Some _ = Some _ |- _ => inversion K; subst end.
      apply isbound_iff in Hb. match goal with K : bound b _ _ |- _ => apply isbound_iff in K; rewrite Hb in K; inversion K; subst end. congruence.
  Qed.
  Lemma bare_visited b n rec u log : forall l fs, Forall2 (bare b) l fs -> visited E (S n) l (mkSt b rec u log) l (mkSt b rec u log).
  Proof. intros l fs H. induction H as [|t i l fs Ht _ IH]; cbn [visited]; [reflexivity|]. eexists. split; [apply (bare_visit b t i); exact Ht|exact IH]. Qed.
  Lemma bare_nodes b l fs : Forall2 (bare b) l fs -> Forall (fun t => is_node t = true) l.
  Proof. intros H. induction H as [|t i l fs (_ & m & f & x & -> & _) _ IH]; constructor; auto. Qed.
  Lemma nodes_flat (l : list ltree) : Forall (fun t => is_node t = true) l -> flat_map (fun r => match r with Nd _ _ _ => [r] | Ls l => l | At _ => [] end) l = l.
  Proof. intros H. induction H as [|t l Ht _ IH]; [reflexivity|]. destruct t; try discriminate. cbn. rewrite IH. reflexivity. Qed.
  Lemma bare_list b n rec u log l fs : l <> [] -> Forall2 (bare b) l fs -> visit E (S (S n)) (Ls l) (mkSt b rec u log) = Some (XOk (Ls l), mkSt b rec u log).
  Proof.
    intros Hl H. pose proof (bare_nodes _ _ _ H) as Hn.
    rewrite (C27_suite_visited_as_list nat E (S n) l (mkSt b rec u log) l (mkSt b rec u log)).
    - rewrite (nodes_flat l Hn). destruct l; [contradiction|reflexivity].
    - cbn. destruct H as [|t i l fs (_ & m & f & x & _ & _ & (b1 & b2 & -> & _) & _)]; [contradiction|]. destruct b1; discriminate.
    - apply (bare_visited b n rec u log l fs H).
    - eapply Forall_impl; [|exact Hn]. auto.
  Qed.
  Lemma bare_macros b l fs : Forall2 (bare b) l fs -> macros_of b l = Some fs.
  Proof.
    intros H. induction H as [|t i l fs (_ & m & f & x & -> & Hx & Hb & _) _ IH]; [reflexivity|]. cbn [macros_of name_of String.eqb Ascii.eqb Bool.eqb].
    rewrite (str_attr_ok _ _ _ Hx). apply isbound_iff in Hb. rewrite Hb, IH. reflexivity.
  Qed.

  Definition first_log (log : list event) : list event := log ++ [EUse HRec; EMode true; EModeEnd; EUse HRec].

  (** One direction: what a run of expand_first is. *)
  Lemma first_inv b i l fs n k rec u log r s' :
    in_syntax i = "block"%string -> in_vars i = None \/ in_vars i = Some NoneT -> in_args i = Some l -> l <> [] -> Forall2 (bare b) l fs ->
    run (visit E n) k (first i) (mkSt b rec u log) = Some (r, s') ->
    exists s1, visit_recursively E n (in_tree i) (mkSt (extract_bindings b fs ++ cs) rec u (first_log log)) = Some (r, s1) /\ s' = mkSt b rec (s_u s1) (s_log s1).
  Proof.
    intros Hs Hv Ha Hl HF H. unfold expand_first_prog in H. rewrite Hs, Ha in H. cbn [String.eqb Ascii.eqb Bool.eqb negb] in H.
    replace (has_asname i) with false in H by (unfold has_asname; destruct Hv as [-> | ->]; reflexivity).
    destruct l as [|t0 l0]; [contradiction|]. set (l := t0 :: l0) in *. clearbody l. destruct k as [|k]; [discriminate|]. rewrite run_call in H.
    destruct (call_expander (visit E n) HRec (Ls l) _) as [[r1 s1]|] eqn:E1; [|discriminate]. cbn [call_expander] in E1. unfold with_mode, logged in E1. cbn [s_b s_rec s_u s_log] in E1.
    destruct (visit E n (Ls l) _) as [[r2 s2]|] eqn:E2 in E1; [|discriminate]. inversion E1; subst r2 s1; clear E1.
    pose proof (visit_det E n 2 _ _ _ _ E2 (bare_list b 0 true u _ l fs Hl HF)) as D. inversion D; subst r1 s2; clear D. cbn [s_b s_rec s_u s_log] in H.
    destruct k as [|k]; [discriminate|]. rewrite run_getb in H. cbn [s_b] in H. rewrite (bare_macros b l fs HF) in H.
    destruct k as [|k]; [discriminate|]. rewrite run_setb in H. cbn [s_b s_rec s_u s_log] in H.
    destruct k as [|k]; [discriminate|]. rewrite run_call in H.
    destruct (call_expander (visit E n) HRec (in_tree i) _) as [[r3 s3]|] eqn:E3; [|discriminate].
    destruct k as [|k]; [discriminate|]. rewrite run_setb in H.
    destruct k as [|k]; [discriminate|]. assert (A : run (visit E n) (S k) (answer r3) (mkSt b (s_rec s3) (s_u s3) (s_log s3)) = Some (r3, mkSt b (s_rec s3) (s_u s3) (s_log s3))) by (destruct r3; reflexivity).
    rewrite A in H. inversion H; subst. exists s3. unfold visit_recursively, first_log. unfold logged in E3. cbn [s_b s_rec s_u s_log] in E3.
    replace (log ++ [EUse HRec; EMode true; EModeEnd; EUse HRec]) with ((((log ++ [EUse HRec]) ++ [EMode true]) ++ [EModeEnd]) ++ [EUse HRec]) by (rewrite <- !app_assoc; reflexivity).
    split; [exact E3|]. f_equal. cbn [call_expander] in E3. unfold with_mode in E3. destruct (visit E n (in_tree i) _) as [[r4 s4]|] in E3; [|discriminate]. inversion E3; subst. reflexivity.
  Qed.
  (** The other. *)
  Lemma first_run b i l fs n k rec u log r s1 :
    in_syntax i = "block"%string -> in_vars i = None \/ in_vars i = Some NoneT -> in_args i = Some l -> l <> [] -> Forall2 (bare b) l fs -> 2 <= n -> 6 <= k ->
    visit_recursively E n (in_tree i) (mkSt (extract_bindings b fs ++ cs) rec u (first_log log)) = Some (r, s1) ->
    run (visit E n) k (first i) (mkSt b rec u log) = Some (r, mkSt b rec (s_u s1) (s_log s1)).
  Proof.
    intros Hs Hv Ha Hl HF Hn Hk H. unfold expand_first_prog. rewrite Hs, Ha. cbn [String.eqb Ascii.eqb Bool.eqb negb].
    replace (has_asname i) with false by (unfold has_asname; destruct Hv as [-> | ->]; reflexivity).
    destruct l as [|t0 l0]; [contradiction|]. set (l := t0 :: l0) in *. clearbody l. do 6 (destruct k as [|k]; [lia|]). rewrite run_call.
    destruct n as [|[|n]]; [lia|lia|]. cbn [call_expander]. unfold with_mode at 1. unfold logged. cbn [s_b s_rec s_u s_log]. rewrite (bare_list b n true u _ l fs Hl HF). cbn [s_b s_rec s_u s_log].
    rewrite run_getb. cbn [s_b]. rewrite (bare_macros b l fs HF), run_setb. cbn [s_b s_rec s_u s_log]. rewrite run_call. unfold logged. cbn [s_b s_rec s_u s_log].
    unfold visit_recursively, first_log in H. replace ((((log ++ [EUse HRec]) ++ [EMode true]) ++ [EModeEnd]) ++ [EUse HRec]) with (log ++ [EUse HRec; EMode true; EModeEnd; EUse HRec]) by (rewrite <- !app_assoc; reflexivity).
    rewrite H, run_setb.
    assert (Hr : s_rec s1 = rec). { cbn [call_expander] in H. unfold with_mode in H. destruct (visit E _ (in_tree i) _) as [[r4 s4]|] in H; [|discriminate]. inversion H; subst. reflexivity. }
    rewrite Hr. destruct r; reflexivity.
  Qed.
End First.
