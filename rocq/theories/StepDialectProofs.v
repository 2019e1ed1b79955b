(** Proofs for C73. *)
From Verif Require Import Base DialectModel StepDialectModel StepDialectSpec.
Open Scope string_scope.
Open Scope list_scope.

Section Proofs.
  Context {W Ob In_ C : Type}.
  Variable is_dialect : Ob -> bool.
  Variable instantiate : Ob -> W -> res In_ * W.
  Variable transform : In_ -> option (C -> W -> res (option C) * W).
  Variable is_empty : C -> bool.
  Variable kind method : string.
  Variable find : C -> W -> res (option (string * list (string * dcls Ob) * C)) * W.
  Hypothesis found_nonempty : forall c w m bs c1 w1, find c w = (Ok (Some (m, bs, c1)), w1) -> is_empty c1 = false.
  Notation dst := (@dst W C).
  Notation entry := (@entry C).
  Notation takes := (takes transform kind).
  Notation apply_dialect := (apply_dialect transform is_empty kind).

  Definition upd (s : dst) (l : list entry) (s' : dst) : Prop :=
    d_step s' = d_step s + List.length l /\ d_debug s' = d_debug s || enables l /\ d_log s' = d_log s ++ visible (d_debug s) (d_step s) l.
  Lemma visible_app (l1 l2 : list entry) : forall b n, visible b n (l1 ++ l2) = visible b n l1 ++ visible (b || enables l1) (n + List.length l1) l2.
  Proof.
    unfold enables. induction l1 as [|[[x st] c] l1 IH]; intros b n; cbn [visible app existsb fst snd List.length].
    - now rewrite orb_false_r, Nat.add_0_r.
    - rewrite <- Nat.add_succ_comm. destruct st; cbn [orb app].
      + rewrite orb_true_r. rewrite IH. reflexivity.
      + destruct b; rewrite IH; reflexivity.
  Qed.
  Lemma upd_nil s : upd s [] s.
  Proof. unfold upd. cbn. rewrite orb_false_r, app_nil_r, Nat.add_0_r. auto. Qed.
  Lemma upd_w s w s' l : upd (with_w w s) l s' <-> upd s l s'.
  Proof. reflexivity. Qed.
  Lemma upd_app s1 l1 s2 l2 s3 : upd s1 l1 s2 -> upd s2 l2 s3 -> upd s1 (l1 ++ l2) s3.
  Proof.
    unfold upd, enables. intros (A & B & D) (A' & B' & D'). rewrite app_length, existsb_app, visible_app. rewrite A', B', D', A, B, D. split; [lia|]. split; [now rewrite orb_assoc|]. now rewrite app_assoc.
  Qed.
  Lemma finish_user name c r s x s' : finish is_empty name c r s = (x, s') ->
    match x with
    | Ok c' => (r = None /\ c' = c /\ s' = s) \/ (r = Some c' /\ is_empty c' = false /\ upd s [(name, false, c')] s' /\ d_w s' = d_w s)
    | Err e => (exists c', r = Some c' /\ is_empty c' = true) /\ e = ierr "ImportError" /\ s' = s
    end.
  Proof.
    unfold finish. destruct r as [c'|]; [|intros H; injection H as <- <-; auto]. destruct (is_empty c') eqn:E; intros H; injection H as <- <-; [eauto|].
    right. split; [reflexivity|]. split; [exact E|]. unfold upd, say_if, enables. cbn. destruct (d_debug s); cbn; (split; [|reflexivity]); split; try lia; split; auto. now rewrite app_nil_r.
  Qed.
  Lemma apply_spec name d c s r s' : is_empty c = false -> apply_dialect name d c s = (r, s') ->
    match r with
    | Ok c' => exists l, takes name (d_debug s) d c l c' /\ upd s l s' /\ is_empty c' = false
    | Err _ => upd s [] s'
    end.
  Proof.
    intros Hc. unfold StepDialectModel.apply_dialect. destruct d as [i|].
    - destruct (transform i) as [f|] eqn:T; [|intros H; injection H as <- <-; apply upd_nil]. destruct (f c (d_w s)) as [[r0|e] w] eqn:F; [|intros H; injection H as <- <-; apply (upd_nil s)].
      intros H. apply finish_user in H. destruct r as [c'|e].
      + destruct H as [(-> & -> & ->)|(-> & E & U & _)]; [exists []; split; [eapply t_none; eassumption|]; split; [apply (upd_nil s)|exact Hc]|]. exists [(name, false, c')]. split; [eapply t_step; eassumption|]. split; [apply U|exact E].
      + destruct H as (_ & _ & ->). apply (upd_nil s).
    - unfold step_method. destruct (String.eqb_spec kind "source") as [Ks|Ks].
      { unfold finish. rewrite Hc. intros H. injection H as <- <-. exists [(name, true, c)]. split; [apply t_shown; now left|]. split; [|exact Hc].
        unfold upd, say_if, enables. cbn. rewrite orb_true_r. split; [lia|]. split; [reflexivity|]. now rewrite <- app_assoc. }
      destruct (String.eqb_spec kind "AST") as [Ka|Ka]; [destruct (d_debug s) eqn:Ds|]; cbn [finish].
      + intros H. injection H as <- <-. exists []. split; [apply t_silent; [assumption|congruence]|]. split; [apply upd_nil|exact Hc].
      + rewrite Hc. intros H. injection H as <- <-. exists [(name, true, c)]. split; [apply t_shown; right; split; [assumption|first [reflexivity|assumption]]|]. split; [|exact Hc].
        unfold upd, say_if, enables. cbn. rewrite Ds. split; [lia|]. split; [reflexivity|]. now rewrite <- app_assoc.
      + intros H. injection H as <- <-. exists []. split; [apply t_silent; [assumption|congruence]|]. split; [apply upd_nil|exact Hc].
  Qed.
  Notation make := (make is_dialect instantiate).
  Lemma make_spec cls s r s' : make cls s = (r, s') -> upd s [] s' /\ match r with Ok d => instance is_dialect instantiate cls d | Err _ => True end.
  Proof.
    unfold StepDialectModel.make. destruct cls as [o|]; [|intros H; injection H as <- <-; split; [apply upd_nil|constructor]]. destruct (is_dialect o) eqn:D; cbn [negb]; [|intros H; injection H as <- <-; split; [apply upd_nil|exact I]].
    destruct (instantiate o (d_w s)) as [[i|e] w] eqn:J; intros H; injection H as <- <-; (split; [apply (upd_nil s)|]); [econstructor; eassumption|exact I].
  Qed.
  Notation step_bindings := (step_bindings is_dialect instantiate transform is_empty kind method).
  Notation of_bindings := (of_bindings is_dialect instantiate transform kind method).
  Lemma bindings_spec m bs : forall c ds s r s', is_empty c = false -> step_bindings m bs c ds s = (r, s') ->
    exists l c', upd s l s' /\ match r with Ok (c2, _) => c2 = c' /\ of_bindings m true (d_debug s) bs c l c' /\ is_empty c' = false | Err _ => of_bindings m false (d_debug s) bs c l c' end.
  Proof.
    induction bs as [|[x cls] bs IH]; intros c ds s r s' Hc; cbn [StepDialectModel.step_bindings].
    - intros H. injection H as <- <-. exists [], c. split; [apply upd_nil|]. split; [reflexivity|]. split; [constructor|exact Hc].
    - destruct (make cls s) as [[d|e] s1] eqn:M; apply make_spec in M; destruct M as [U1 I1]; [|intros H; injection H as <- <-; exists [], c; split; [exact U1|apply b_cut]].
      destruct (apply_dialect (m ++ "." ++ x ++ "." ++ method)%string d c s1) as [[c1|e] s2] eqn:A; apply apply_spec in A; try exact Hc.
      + destruct A as (l1 & T & U2 & N). intros H. apply IH in H; [|exact N]. destruct H as (l2 & c2 & U3 & R). exists (l1 ++ l2), c2.
        assert (D1 : d_debug s1 = d_debug s) by (destruct U1 as (_ & -> & _); apply orb_false_r). assert (D2 : d_debug s2 = d_debug s || enables l1) by (destruct U2 as (_ & -> & _); now rewrite D1).
        split; [eapply upd_app; [|exact U3]; apply (upd_app s [] s1 l1 s2 U1 U2)|]. destruct r as [[c3 ds3]|e].
        * destruct R as (-> & R & N2). split; [reflexivity|]. split; [|exact N2]. eapply b_one; [exact I1|rewrite <- D1; exact T|rewrite <- D2; exact R].
        * eapply b_one; [exact I1|rewrite <- D1; exact T|rewrite <- D2; exact R].
      + intros H. injection H as <- <-. exists [], c. split; [apply (upd_app s [] s1 [] s2 U1 A)|apply b_cut].
  Qed.
  Notation step_loop := (step_loop is_dialect instantiate transform is_empty kind method find).
  Notation of_program := (of_program is_dialect instantiate transform kind method find).
  Lemma loop_spec n : forall c ds s r s', step_loop n c ds s = Some (r, s') ->
    exists l c', upd s l s' /\ match r with Ok (c2, _) => c2 = c' /\ of_program true (d_debug s) c l c' | Err _ => of_program false (d_debug s) c l c' end.
  Proof.
    induction n as [|n IH]; intros c ds s r s'; cbn [StepDialectModel.step_loop]; [discriminate|]. destruct (find c (d_w s)) as [[[[[m bs] c1]|]|e] w] eqn:F.
    - destruct (step_bindings m bs c1 ds (with_w w s)) as [[[c2 ds2]|e] s2] eqn:B; (apply bindings_spec in B; [|eapply found_nonempty; exact F]); destruct B as (l1 & c3 & U1 & R1).
      + destruct R1 as (-> & R1 & N1). intros H. apply IH in H. destruct H as (l2 & c4 & U2 & R2). exists (l1 ++ l2), c4. split; [eapply upd_app; [apply U1|exact U2]|].
        assert (D2 : d_debug s2 = d_debug s || enables l1) by (destruct U1 as (_ & -> & _); reflexivity).
        destruct r as [[c5 ds5]|e]; [destruct R2 as [-> R2]; split; [reflexivity|]|]; (eapply p_import; [exact F|exact R1|rewrite <- D2; exact R2]).
      + intros H. injection H as <- <-. exists l1, c3. split; [exact U1|]. eapply p_broken; eassumption.
    - intros H. injection H as <- <-. exists [], c. split; [apply (upd_nil s)|]. split; [reflexivity|]. eapply p_end; eassumption.
    - intros H. injection H as <- <-. exists [], c. split; [apply (upd_nil s)|]. apply p_cut.
  Qed.
  Section Post.
    Variable name_of : dobj In_ -> string.
    Lemma post_spec ds : forall c s r s', is_empty c = false -> step_post transform is_empty kind method name_of ds c s = (r, s') ->
      exists l c', upd s l s' /\ match r with Ok c2 => c2 = c' /\ of_objects transform kind method name_of true ds c l c' | Err _ => of_objects transform kind method name_of false ds c l c' end.
    Proof.
      induction ds as [|d ds IH]; intros c s r s' Hc; cbn [step_post].
      - intros H. injection H as <- <-. exists [], c. split; [apply upd_nil|]. split; [reflexivity|constructor].
      - destruct (apply_dialect (name_of d ++ "." ++ method)%string d c s) as [[c1|e] s2] eqn:A; apply apply_spec in A; try exact Hc.
        + destruct A as (l1 & T & U2 & N). intros H. apply IH in H; [|exact N]. destruct H as (l2 & c2 & U3 & R). exists (l1 ++ l2), c2. split; [eapply upd_app; eassumption|].
          destruct r as [c3|e]; [destruct R as [-> R]; split; [reflexivity|]|]; eapply o_one; eassumption.
        + intros H. injection H as <- <-. exists [], c. split; [exact A|apply o_cut].
    Qed.
  End Post.

  (** ** Without StepExpansion *)
  Notation run_bindings := (run_bindings is_dialect instantiate (method_of is_empty transform)).
  Lemma users_app a b : users (a ++ b) = @users In_ a ++ users b.
  Proof. apply flat_map_app. Qed.
  Lemma step_apply name c s : is_empty c = false -> exists s', apply_dialect name OStep c s = (Ok c, s') /\ d_w s' = d_w s.
  Proof.
    intros Hc. unfold StepDialectModel.apply_dialect, step_method, finish. destruct (String.eqb kind "source"); [|destruct (String.eqb kind "AST"); [destruct (d_debug s)|]]; try rewrite Hc; eexists; (split; [reflexivity|]);
      unfold say_if; cbn; try destruct (d_debug s); reflexivity.
  Qed.
  Lemma user_apply name i c s : match apply_dialect name (OUser i) c s with
    | (Ok c', s') => exists f, method_of is_empty transform i = Some f /\ (f c (d_w s) = (Ok TNotImplemented, d_w s') /\ c' = c \/ f c (d_w s) = (Ok (TContent c'), d_w s') /\ is_empty c' = false)
    | (Err e, s') => e = ierr "ImportError" /\ match method_of is_empty transform i with None => d_w s' = d_w s | Some f => f c (d_w s) = (Ok TEmpty, d_w s') \/ exists e', f c (d_w s) = (Err e', d_w s') end
    end.
  Proof.
    unfold StepDialectModel.apply_dialect, method_of. destruct (transform i) as [f|]; [|auto]. destruct (f c (d_w s)) as [[r|e] w] eqn:F; [|cbn beta iota; rewrite ?F; cbn; eauto].
    destruct (finish is_empty name c r (with_w w s)) as [x s'] eqn:H. apply finish_user in H. destruct x as [c'|e].
    - eexists. split; [reflexivity|]. cbn beta. rewrite ?F. destruct H as [(-> & -> & ->)|(-> & E & _ & Ew)]; [auto|]. right. rewrite E, Ew. auto.
    - destruct H as ((c' & -> & E) & -> & ->). split; [reflexivity|]. cbn beta. rewrite ?F, E. auto.
  Qed.
  Lemma bindings_neutral m bs : forall c ds s, is_empty c = false ->
    match step_bindings m bs c ds s with
    | (Ok (c', ds'), s') => run_bindings (user_bindings bs) c (users ds) (d_w s) = (Ok (c', users ds'), d_w s') /\ is_empty c' = false
    | (Err e, s') => run_bindings (user_bindings bs) c (users ds) (d_w s) = (Err e, d_w s')
    end.
  Proof.
    induction bs as [|[x cls] bs IH]; intros c ds s Hc; cbn [StepDialectModel.step_bindings]; [auto|]. unfold StepDialectModel.make. destruct cls as [o|].
    - cbn [user_bindings flat_map app]. cbn [DialectModel.run_bindings]. destruct (is_dialect o); cbn [negb]; [|reflexivity]. destruct (instantiate o (d_w s)) as [[i|e] w]; [|reflexivity].
      assert (U := user_apply (m ++ "." ++ x ++ "." ++ method)%string i c (with_w w s)). destruct (apply_dialect _ (OUser i) c (with_w w s)) as [[c1|e] s2]; cbn [with_w d_w] in U.
      + destruct U as (f & -> & U). assert (E : is_empty c1 = false) by (destruct U as [[_ ->]|[_ E]]; auto). specialize (IH c1 (ds ++ [OUser i]) s2 E). rewrite users_app in IH. cbn [users flat_map app] in IH.
        destruct U as [[-> ->]|[-> _]]; exact IH.
      + destruct U as [-> U]. destruct (method_of is_empty transform i) as [f|]; [|cbn in *; now rewrite U]. destruct U as [->|[e' ->]]; reflexivity.
    - cbn [user_bindings flat_map app]. destruct (step_apply (m ++ "." ++ x ++ "." ++ method)%string c s Hc) as (s' & -> & E). specialize (IH c (ds ++ [OStep]) s' Hc). rewrite users_app in IH. cbn [users flat_map app] in IH. rewrite app_nil_r, E in IH. exact IH.
  Qed.
  Notation transform_loop := (transform_loop is_dialect instantiate (method_of is_empty transform) (find_user find)).
  Definition forget (x : option (res (C * list (dobj In_)) * dst)) : option (res (C * list In_) * W) :=
    match x with None => None | Some (Ok (c, ds), s) => Some (Ok (c, users ds), d_w s) | Some (Err e, s) => Some (Err e, d_w s) end.
  Lemma loop_neutral n : forall c ds s, transform_loop n c (users ds) (d_w s) = forget (step_loop n c ds s).
  Proof.
    induction n as [|n IH]; intros c ds s; cbn [StepDialectModel.step_loop DialectModel.transform_loop]; [reflexivity|]. unfold find_user. destruct (find c (d_w s)) as [[[[[m bs] c1]|]|e] w] eqn:F; [|reflexivity|reflexivity].
    assert (B := bindings_neutral m bs c1 ds (with_w w s) (found_nonempty _ _ _ _ _ _ F)). cbn [with_w d_w] in B. destruct (step_bindings m bs c1 ds (with_w w s)) as [[[c2 ds2]|e] s2].
    - destruct B as [-> _]. apply IH.
    - rewrite B. reflexivity.
  Qed.
  Lemma post_neutral name_of ds : kind <> "source" -> kind <> "AST" -> forall c s, 
    DialectModel.postprocess_ast (method_of is_empty transform) (users ds) c (d_w s) = (let (r, s') := step_post transform is_empty kind method name_of ds c s in (r, d_w s')).
  Proof.
    intros K1 K2. induction ds as [|[i|] ds IH]; intros c s; cbn [step_post users flat_map app]; [reflexivity| |].
    - cbn [DialectModel.postprocess_ast]. assert (U := user_apply (name_of (OUser i) ++ "." ++ method)%string i c s). destruct (apply_dialect _ (OUser i) c s) as [[c1|e] s2].
      + destruct U as (f & -> & U). specialize (IH c1 s2). destruct U as [[-> ->]|[-> _]]; exact IH.
      + destruct U as [-> U]. destruct (method_of is_empty transform i) as [f|]; [|now rewrite U]. destruct U as [->|[e' ->]]; reflexivity.
    - unfold StepDialectModel.apply_dialect, step_method. apply String.eqb_neq in K1, K2. rewrite K1, K2. cbn [finish]. apply IH.
  Qed.
End Proofs.
