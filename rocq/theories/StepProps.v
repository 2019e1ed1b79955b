(** C51: stepping through an expansion. *)
From Verif Require Import Base AstLib UtilsModel FixLocModel ExpanderModel ExpanderSpec ExpanderProofs ExpanderProofs2 ExpanderProofs4 ExpanderProofs5 ExpanderCheck ExpanderExamples CollectorModel CollectorSpec CollectorProofs CollectorProps StepModel StepSpec StepProofs StepProofs2 StepProofs3.

(** ** What is shown *)

Lemma once_done {U} (E : env U) n t s d s1 : visit_once E n t s = Some (XOk d, s1) -> exists t1 s0, d = done t1 /\ visit E n t (mkSt (s_b s) false (s_u s) (s_log s ++ [EMode false])) = Some (XOk t1, s0) /\
  s1 = mkSt (s_b s0) (s_rec s) (s_u s0) (s_log s0 ++ [EModeEnd]).
Proof.
  unfold visit_once, call_expander, with_mode, bnd. destruct (visit E n t _) as [[[t1|e] s0]|]; try discriminate. cbn. intros H. inversion H; subst. eauto.
Qed.

Lemma doit_stepped {U} (E : env U) n dumps k : forall t s t' shown s', doit E n k dumps t s = Some (XOk t', shown, s') -> Forall tidy (t :: shown) -> stepped E n s t (t :: shown) t' s'.
Proof.
  induction k as [|k IH]; intros t s t' shown s' H Ht; cbn [doit] in H; [discriminate|]. inversion Ht; subst.
  destruct (cvisit E (s_b s) n t []) as [[c|e]|] eqn:Ec; try discriminate. destruct (C30_collected_exactly_invoked _ E (s_b s) n t c ltac:(assumption) Ec) as [_ Hc].
  destruct c as [|[x syn] c].
  - inversion H; subst. apply sd_end. intros x syn Hi. apply Hc in Hi. destruct Hi.
  - destruct (visit_once E n t s) as [[[d|e] s1]|] eqn:Ev; try discriminate. destruct (once_done _ _ _ _ _ _ Ev) as [t1 [s0 [-> _]]]. cbn in H. destruct (render dumps t1); [|discriminate].
    destruct (doit E n k dumps t1 s1) as [[[r sh] s2]|] eqn:Ed; [|discriminate]. inversion H; subst. eapply sd_step; [exists x, syn; apply Hc; left; reflexivity|exact Ev|]. apply IH; assumption.
Qed.
Lemma step_doit {U} (E : env U) n k syn args t s r shown s' : step_expansion E n k syn args t s = Some (r, shown, s') -> shown <> [] ->
  exists dumps sh, step_args args false = XOk dumps /\ shown = t :: sh /\ doit E n k dumps t s = Some (r, sh, s').
Proof.
  unfold step_expansion. destruct (negb _); [intros H; inversion H; contradiction|]. destruct (step_args args false) as [d|] eqn:Ea; [|intros H; inversion H; contradiction]. destruct (render d t); [|intros H; inversion H; contradiction].
  destruct (doit E n k d t s) as [[[r0 sh] s0]|] eqn:Ed; [|discriminate]. intros H _. inversion H; subst. eauto.
Qed.
Lemma step_shown {U} (E : env U) n k syn args t s t' shown s' : step_expansion E n k syn args t s = Some (XOk t', shown, s') -> shown <> [].
Proof.
  unfold step_expansion. destruct (negb _); [intros H; inversion H|]. destruct (step_args args false) as [d|]; [|intros H; inversion H]. destruct (render d t); [|intros H; inversion H].
  destruct (doit E n k d t s) as [[[r0 sh] s0]|] eqn:Ed; [|discriminate]. intros H. inversion H; subst. discriminate.
Qed.

(** Each intermediate step is shown exactly once, in order: the first tree shown is the input; as long as the tree shown last
    invokes a macro, the next one is that tree with one layer expanded; the last tree shown is the result. For any macros. *)
Theorem C51_shows_each_step_once : forall U (E : env U) n k syn args t s t' shown s',
  step_expansion E n k syn args t s = Some (XOk t', shown, s') -> Forall tidy shown ->
  stepped E n s t shown t' s'.
Proof.
  intros U E n k syn args t s t' shown s' H Ht. destruct (step_doit _ _ _ _ _ _ _ _ _ _ H (step_shown _ _ _ _ _ _ _ _ _ _ H)) as [d [sh [_ [-> Hd]]]]. eapply doit_stepped; eassumption.
Qed.
Print Assumptions C51_shows_each_step_once.

(** ** The result *)
Lemma stepped_full {U} (E : env U) b n s t shown t' s' : simple_macros E -> b <> [] -> stepped E n s t shown t' s' -> s_b s = b -> t = NoneT \/ top_ok t -> Forall (steady E b) shown -> full E b t t'.
Proof.
  intros HE Hb. induction 1 as [s t Hno|s t t1 s1 shown t' s' Hi Hv Hst IH]; intros Hsb Htop Hs.
  - inversion Hs; subst. assert (Hq : forall u, part t u -> quiet_node E (s_b s) u).
    { intros u Hu x syn Hi. assert (Hall : forall v, source E (s_b s) t v -> forall x syn, ~ invokes E (s_b s) v x syn) by (intros v Hsv y sy Hiv; apply (Hno y sy); exists v; auto). exact (Hall _ (source_all _ _ _ _ Hall Hu) _ _ Hi). }
    assert (Hsh : shaped t) by (apply tidy_shaped; eapply st_tidy; eassumption). destruct Htop as [->|[Hsi|[l [-> [Hne Hl]]]]]; [constructor| |].
    + apply full_quiet; auto. destruct Hsi as [? [? [? [-> _]]]]. reflexivity.
    + apply full_quiet_list; [exact Hne|]. intros x Hx. assert (Hp : part (Ls l) x) by (eapply pt_elem; [exact Hx|constructor]). split; [exact (shaped_part _ _ Hsh Hp)|]. split; [intros u Hu; apply Hq; eapply part_trans; eassumption|]. rewrite Forall_forall in Hl. exact (Hl x Hx).
  - inversion Hs as [|? ? Hst1 Hs']; subst. destruct (once_done _ _ _ _ _ _ Hv) as [t2 [s0 [Hd [Hvis Hs1]]]]. inversion Hd; subst t2. clear Hd.
    destruct (kept E HE _ _ _ _ _ Hvis) as [K1 K2]. cbn [s_b s_rec] in K1, K2.
    assert (Hsh1 : shaped t1). { inversion Hst; subst; inversion Hs'; subst; apply tidy_shaped; eapply st_tidy; eassumption. }
    destruct Htop as [->|Htop].
    { exfalso. destruct Hi as [x [syn [u [Hsu Hiu]]]]. inversion Hsu; subst. inversion Hiu. }
    assert (Hg : guarded E (s_b s) t).
    { split; [split; [apply tidy_shaped; eapply st_tidy; eassumption|]; split; intros; [eapply (st_field _ _ _ Hst1)|eapply (st_slice _ _ _ Hst1)]; eassumption|]. intros u Hu Hn Hq m s2 u1 s3 H1 H2 H3. exact (st_stays _ _ _ Hst1 u Hu Hn Hq m s2 u1 s3 H1 H2 H3). }
    assert (Hft : full E (s_b s) t1 t').
    { apply IH; [rewrite Hs1; cbn; exact K1| |exact Hs']. eapply (step_top E (s_b s) Hb HE); [exact Htop|exact Hg| | |exact Hvis|exact Hsh1]; reflexivity. }
    eapply (step_full E (s_b s) Hb HE); [exact Htop|exact Hg|exact Hsh1| | |exact Hvis|exact Hft]; reflexivity.
Qed.

(** The full claim is "the result is the one of the expander without it". Proved: for macros that compute a tree from their
    input (no use of the expander, the bindings or other state), and source code in which no expansion inside a node makes that
    node an invocation, if stepping ends with a result then [visit_recursively] ends with the same result.
    Missing: macros that use the expander, and code in which such an invocation appears (see the refutation). That stepping
    ends when the expander does is [C51_stepping_ends_partial]. *)
Theorem C51_same_expansion_partial : forall U (E : env U) n k syn args t s t' shown s',
  simple_macros E -> single t \/ (exists l, t = Ls l /\ l <> [] /\ Forall (fun x => is_node x = true) l) ->
  step_expansion E n k syn args t s = Some (XOk t', shown, s') -> Forall (steady E (s_b s)) shown ->
  exists N, forall n', N <= n' -> exists s'', visit_recursively E n' t s = Some (XOk t', s'').
Proof.
  intros U E n k syn args t s t' shown s' HE Htop H Hs. assert (Ht : Forall tidy shown) by (eapply Forall_impl; [|exact Hs]; intros u Hu; eapply st_tidy; exact Hu).
  pose proof (C51_shows_each_step_once _ _ _ _ _ _ _ _ _ _ _ H Ht) as Hst. destruct (s_b s) as [|b0 br] eqn:Eb.
  - assert (t' = t).
    { destruct (step_doit _ _ _ _ _ _ _ _ _ _ H (step_shown _ _ _ _ _ _ _ _ _ _ H)) as [d [sh [_ [_ Hd]]]]. destruct k as [|k]; [discriminate|]. cbn [doit] in Hd. rewrite Eb in Hd. destruct n as [|n]; [discriminate|]. cbn in Hd. inversion Hd. reflexivity. }
    subst. exists 1. intros n' Hn'. destruct n' as [|n']; [lia|]. unfold visit_recursively, call_expander, with_mode. cbn [visit]. unfold visit_body. cbn [s_b]. rewrite Eb. cbn. eauto.
  - rewrite <- Eb in *. assert (Hb : s_b s <> []) by (rewrite Eb; discriminate). pose proof (stepped_full E (s_b s) n s t shown t' s' HE Hb Hst eq_refl (or_intror Htop) Hs) as Hf.
    destruct (proj1 (full_visits E (s_b s) Hb HE) _ _ Hf) as [N HN]. exists N. intros n' Hn'. destruct (HN n' Hn' (mkSt (s_b s) true (s_u s) (s_log s ++ [EMode true])) eq_refl eq_refl) as [s2 Hv].
    unfold visit_recursively, call_expander, with_mode. rewrite Hv. eauto.
Qed.
Print Assumptions C51_same_expansion_partial.

(** The converse: for such macros and such code, also not containing what makes the collector fail (C30), if
    [visit_recursively] ends with a result, then stepping ends with the same result. *)
Theorem C51_stepping_ends_partial : forall U (E : env U) n syn args dumps t s t' s',
  simple_macros E -> shaped_macros E -> single t \/ (exists l, t = Ls l /\ l <> [] /\ Forall (fun x => is_node x = true) l) ->
  (forall u, reaches E (s_b s) t u -> steady E (s_b s) u /\ typed u /\ harmless E (s_b s) u) ->
  syn = "expr"%string \/ syn = "block"%string -> step_args args false = XOk dumps -> dumps = false \/ t' <> NoneT ->
  visit_recursively E n t s = Some (XOk t', s') ->
  exists N shown, forall n' k', N <= n' -> N <= k' -> exists s'', step_expansion E n' k' syn args t s = Some (XOk t', shown, s'').
Proof.
  intros U E n syn args dumps t s t' s' HE Hout Htop Hfair Hsyn Hargs Hd Hv.
  assert (Hstep : forall N shown, (forall n' k', N <= n' -> N <= k' -> exists s'', doit E n' k' dumps t s = Some (XOk t', shown, s'')) ->
            exists N shown, forall n' k', N <= n' -> N <= k' -> exists s'', step_expansion E n' k' syn args t s = Some (XOk t', shown, s'')).
  { intros N shown H. exists N, (t :: shown). intros n' k' Hn Hk. unfold step_expansion. replace (negb (smem syn ["expr"; "block"]%string)) with false by (destruct Hsyn; subst; reflexivity). rewrite Hargs.
    assert (Hr : render dumps t = XOk tt) by (destruct Htop as [[? [? [? [-> _]]]]|[? [-> _]]]; reflexivity). rewrite Hr. destruct (H n' k' Hn Hk) as [s'' ->]. eauto. }
  unfold visit_recursively, call_expander, with_mode in Hv. destruct (visit E n t _) as [[r s1]|] eqn:Ev; [|discriminate]. inversion Hv; subst. clear Hv. destruct (s_b s) as [|b0 br] eqn:Eb.
  - destruct n as [|n]; [discriminate|]. cbn [visit] in Ev. unfold visit_body in Ev. cbn in Ev. inversion Ev; subst. apply (Hstep 1 []). intros n' k' Hn Hk. destruct n' as [|n']; [lia|]. destruct k' as [|k']; [lia|]. cbn [doit]. rewrite Eb. cbn. eauto.
  - rewrite <- Eb in *. assert (Hb : s_b s <> []) by (rewrite Eb; discriminate).
    assert (Hok : res_ok t) by (destruct Htop as [[? [? [? [-> _]]]]|[l [-> [_ Hl]]]]; [right; left; reflexivity|right; right; eauto]).
    assert (Hsh : shaped t) by (apply tidy_shaped; eapply st_tidy; apply (Hfair t); constructor).
    destruct (visit_fulld E (s_b s) Hb HE Hout n t Hok Hsh (mkSt (s_b s) true (s_u s) (s_log s ++ [EMode true])) t' s1 eq_refl eq_refl Ev) as [d Hf].
    destruct (doit_ends E (s_b s) (s_u s) Hb HE dumps t' Hd d t Hf (or_intror Htop) Hfair) as [N [shown H]]. apply (Hstep N shown). intros n' k' Hn Hk. exact (H s n' k' eq_refl Hn Hk).
Qed.
Print Assumptions C51_stepping_ends_partial.

(** Examples: [ident] returns its input, [tom] the name [ident], [wrap] returns [ident[...]] around its input. *)
Definition smacros (j : nat) : mdef unit :=
  match j with
  | 0 => mkMac false false (fun i => Ret (in_tree i))
  | 1 => mkMac false false (fun _ => Ret (name_ "ident"))
  | _ => mkMac false false (fun i => Ret (match in_tree i with Nd _ _ _ => sub_ (name_ "ident") (in_tree i) | _ => in_tree i end))
  end.
Definition senv : env unit := mkEnv smacros (fun t _ => Ok t) (fun _ => "file.py:1"%string) (fun _ x => ("source line of " ++ x)%string) (fun _ => true).
Definition sbinds : binds := [("ident", 0); ("tom", 1); ("wrap", 2)]%string.
Definition sst : st unit := mkSt sbinds true tt [].
Lemma sub_single v i : single (sub_ v i).
Proof. unfold single, sub_. do 3 eexists. split; [reflexivity|]. cbn. intuition discriminate. Qed.
Lemma name_single x : single (name_ x).
Proof. unfold single, name_. do 3 eexists. split; [reflexivity|]. cbn. intuition discriminate. Qed.
Lemma senv_simple : simple_macros senv.
Proof.
  split.
  - intros [|[|j]] i; left; eexists; reflexivity.
  - intros [|[|j]] i v _ Hi H; cbn in H; inversion H; subst; right; [exact Hi|apply name_single|]. destruct Hi as [m [k [fs [-> Hk]]]]. apply sub_single.
  - intros v t v' H. cbn in H. inversion H; subst. destruct v' as [m k fs|l|a]; [eauto| |exact I]. intros Hl. eauto.
Qed.

(** A check of [steady]. *)
Definition singleb (t : ltree) : bool := match t with Nd _ k _ => negb (smem k ["With"; "ClassDef"; "FunctionDef"]%string) | _ => false end.
Lemma singleb_ok t : singleb t = true -> single t.
Proof. destruct t as [m k fs| |]; try discriminate. intros H. exists m, k, fs. split; [reflexivity|]. intros Hin. cbn [singleb] in H. apply smem_In in Hin. rewrite Hin in H. discriminate. Qed.
Definition placedb (u : ltree) : bool :=
  match u with
  | Nd _ k fs => String.eqb k "Done" || (forallb (fun p => negb (is_node (snd p)) || singleb (snd p)) fs && (negb (String.eqb k "Subscript") || match getf "slice" fs with Some v => is_node v | None => true end))
  | _ => true
  end.
Lemma steady_check (E : env unit) b t N : tidy t -> forallb placedb (parts t) = true ->
  (forall u, In u (parts t) -> is_node u = true -> (exists x syn, invokes E b u x syn) \/
     (exists u1, (forall l, exists s', visit E N u (mkSt b false tt l) = Some (XOk u1, s')) /\ forall x syn, ~ invokes E b u1 x syn)) ->
  steady E b t.
Proof.
  intros Ht Hp Hs. rewrite forallb_forall in Hp. split.
  - exact Ht.
  - intros m k fs f v Hu Hd Hin Hn. specialize (Hp _ (parts_ok _ _ Hu)). cbn [placedb] in Hp. destruct (String.eqb_spec k "Done"); [contradiction|]. cbn in Hp. apply andb_true_iff in Hp. destruct Hp as [Hp _]. rewrite forallb_forall in Hp. specialize (Hp _ Hin). cbn [snd] in Hp. rewrite Hn in Hp. apply singleb_ok. exact Hp.
  - intros m fs v Hu Hg. specialize (Hp _ (parts_ok _ _ Hu)). cbn [placedb] in Hp. apply andb_true_iff in Hp. destruct Hp as [_ Hp]. cbn in Hp. rewrite Hg in Hp. exact Hp.
  - intros u Hu Hn Hq n s u1 s' Hsb Hsr Hv. destruct (Hs u (parts_ok _ _ Hu) Hn) as [[x [syn Hi]]|[u2 [H1 H2]]]; [exfalso; exact (Hq _ _ Hi)|]. destruct s as [sb sr [] sl]. cbn in Hsb, Hsr. subst. destruct (H1 sl) as [s2 Hv2]. pose proof (visit_det E _ _ _ _ _ _ Hv Hv2) as He. inversion He; subst. exact H2.
Qed.
Ltac not_invoked := let x := fresh in let syn := fresh in let H := fresh in intros x syn H; inversion H; subst; clear H;
  repeat match goal with
  | H : bound _ _ _ |- _ => apply isbound_iff in H; vm_compute in H; discriminate
  | H : names_macro _ _ _ _ _ |- _ => destruct H as [H [_ [? [? [?|?]]]]]; subst
  | H : getf _ _ = Some _ |- _ => cbn in H; inversion H; subst; clear H
  | H : denotes _ _ _ |- _ => inversion H; subst; clear H
  | H : m_isparam (x_macro senv ?j) = true |- _ => destruct j as [|[|?]]; discriminate
  | H : m_isname (x_macro senv ?j) = true |- _ => destruct j as [|[|?]]; discriminate
  | H : _ \/ _ |- _ => destruct H; discriminate
  end.
Ltac is_invoked := eexists; eexists; eapply inv_expr; [reflexivity|]; split; [eapply dn_name; reflexivity|]; split; [discriminate|]; eexists; split; [apply isbound_iff; vm_compute; reflexivity|left; reflexivity].
Ltac steady_part := first [discriminate | left; is_invoked | right; eexists; split; [intros l; eexists; vm_compute; reflexivity|not_invoked]].
Ltac steady_parts := let u := fresh "u" in let Hu := fresh "Hu" in let Hn := fresh "Hn" in
  intros u Hu Hn; cbn in Hu; repeat match type of Hu with False => destruct Hu | _ \/ _ => destruct Hu as [<-|Hu]; [steady_part|] end.

(** [wrap[x] + ident[y]] as a statement: two steps, then [x + y]. *)
Example C51_example :
  let t0 := Ls [expr_ (plus_ (sub_ (name_ "wrap") (name_ "x")) (sub_ (name_ "ident") (name_ "y")))] in
  let t1 := Ls [expr_ (plus_ (sub_ (name_ "ident") (name_ "x")) (name_ "y"))] in
  let t2 := Ls [expr_ (plus_ (name_ "x") (name_ "y"))] in
  (exists s', step_expansion senv 20 20 "block" [] t0 sst = Some (XOk t2, [t0; t1; t2], s')) /\
  simple_macros senv /\ Forall (steady senv (s_b sst)) [t0; t1; t2].
Proof.
  cbv zeta. split; [eexists; vm_compute; reflexivity|]. split; [exact senv_simple|].
  apply Forall_cons; [|apply Forall_cons; [|apply Forall_cons; [|apply Forall_nil]]];
    (apply (steady_check senv sbinds _ 20); [apply tidyb_ok; vm_compute; reflexivity|vm_compute; reflexivity|steady_parts]).
Qed.

Lemma senv_shaped : shaped_macros senv.
Proof.
  assert (Hn : forall x, shaped (name_ x)) by (intros x; apply shapedb_ok; reflexivity).
  assert (Hl : shaped (Ls [])) by (intros u Hu; inversion Hu; subst; [exact I|contradiction]).
  intros j i v v1 t v2 Hi Hr Ha Hf. cbn in Hf. inversion Hf; subst v2. clear Hf.
  assert (Hv : shaped v).
  { destruct j as [|[|j]]; cbn in Hr; inversion Hr; subst; auto. destruct (in_tree i) as [m k fs|l|a] eqn:Ei; auto. intros u Hu. unfold sub_ in Hu. inversion Hu; subst.
    - split; [|discriminate]. intros g Hg. cbn in Hg. repeat match goal with H : _ \/ _ |- _ => destruct H as [H|H] end; try discriminate; try contradiction. inversion Hg; subst. repeat constructor; eexists; reflexivity.
    - match goal with H : In _ _ |- _ => cbn in H; repeat match type of H with _ \/ _ => destruct H as [H|H] | False => destruct H end; inversion H; subst end; auto; try (eapply Hn; eassumption).
      match goal with H : part _ u |- _ => inversion H; subst end; try exact I; try (match goal with H : In _ [] |- _ => destruct H end). apply (shapedb_ok (Nd noloc "Load" [])); [reflexivity|constructor]. }
  inversion Ha; subst; auto.
Qed.
(** The same statement: every tree it reaches by layers is one of the three. *)
Example C51_stepping_ends_example :
  let t0 := Ls [expr_ (plus_ (sub_ (name_ "wrap") (name_ "x")) (sub_ (name_ "ident") (name_ "y")))] in
  let t1 := Ls [expr_ (plus_ (sub_ (name_ "ident") (name_ "x")) (name_ "y"))] in
  let t2 := Ls [expr_ (plus_ (name_ "x") (name_ "y"))] in
  simple_macros senv /\ shaped_macros senv /\ (exists s', visit_recursively senv 20 t0 sst = Some (XOk t2, s')) /\
  (forall u, reaches senv (s_b sst) t0 u -> steady senv (s_b sst) u /\ typed u /\ harmless senv (s_b sst) u).
Proof.
  cbv zeta. split; [exact senv_simple|]. split; [exact senv_shaped|]. split; [eexists; vm_compute; reflexivity|].
  match goal with |- forall u, reaches _ _ ?t u -> _ => set (t0 := t) end.
  set (t1 := Ls [expr_ (plus_ (sub_ (name_ "ident") (name_ "x")) (name_ "y"))]). set (t2 := Ls [expr_ (plus_ (name_ "x") (name_ "y"))]).
  assert (V0 : forall l, exists s', visit senv 20 t0 (mkSt sbinds false tt l) = Some (XOk t1, s')) by (intros l; eexists; vm_compute; reflexivity).
  assert (V1 : forall l, exists s', visit senv 20 t1 (mkSt sbinds false tt l) = Some (XOk t2, s')) by (intros l; eexists; vm_compute; reflexivity).
  assert (V2 : forall l, exists s', visit senv 20 t2 (mkSt sbinds false tt l) = Some (XOk t2, s')) by (intros l; eexists; vm_compute; reflexivity).
  assert (Hr : forall u, reaches senv (s_b sst) t0 u -> u = t0 \/ u = t1 \/ u = t2).
  { induction 1 as [|n s u u1 s' _ IH Hsb Hv]; [left; reflexivity|]. destruct (once_done _ _ _ _ _ _ Hv) as [u2 [s0 [Hd [Hvis _]]]]. inversion Hd; subst u2. destruct s as [sb sr [] sl]. cbn in Hsb, Hvis. rewrite Hsb in Hvis.
    assert (D : forall w w1, (forall l, exists s', visit senv 20 w (mkSt sbinds false tt l) = Some (XOk w1, s')) -> u = w -> u1 = w1).
    { intros w w1 Hw ->. destruct (Hw (sl ++ [EMode false])) as [s2 Hv2]. pose proof (visit_det senv _ _ _ _ _ _ Hvis Hv2) as He. inversion He. reflexivity. }
    destruct IH as [IH|[IH|IH]]; [right; left; exact (D _ _ V0 IH)|right; right; exact (D _ _ V1 IH)|right; right; exact (D _ _ V2 IH)]. }
  intros u Hu. destruct (Hr u Hu) as [ -> | [ -> | -> ] ]; (split; [apply (steady_check senv sbinds _ 20); [apply tidyb_ok; vm_compute; reflexivity|vm_compute; reflexivity|unfold t0, t1, t2; steady_parts]|
    split; [apply typedb_ok; vm_compute; reflexivity|apply harmlessb_ok; [apply shapedb_ok; vm_compute; reflexivity|vm_compute; reflexivity]]]).
Qed.

(** ** Where the claim fails *)

(** A subscript of a call without arguments: the expander leaves it alone, stepping raises SyntaxError (see C30). *)
Theorem C51_same_expansion_refuted : exists (E : env unit) t (s : st unit) s',
  simple_macros E /\ single t /\ tidy t /\ visit_recursively E 10 t s = Some (XOk t, s') /\
  forall n k, step_expansion E (S n) (S k) "expr" [] t s = Some (XRaise syntax_error, [t], s).
Proof.
  exists senv, (sub_ (call_ (name_ "foo") []) (name_ "x")), sst. eexists. split; [exact senv_simple|]. split; [apply sub_single|]. split; [apply tidyb_ok; vm_compute; reflexivity|]. split; [vm_compute; reflexivity|]. intros n k. reflexivity.
Qed.
Print Assumptions C51_same_expansion_refuted.

(** [(tom[x])[y]]: the expansion of the inner invocation turns the outer subscript into an invocation, [ident[y]]. The
    expander has passed that node already and leaves it; stepping expands it, too, to [y]. *)
Theorem C51_new_invocation_refuted : exists (E : env unit) t (s : st unit) t1 t2 s1 s2,
  simple_macros E /\ single t /\ tidy t /\ t1 <> t2 /\
  visit_recursively E 10 t s = Some (XOk t1, s1) /\ step_expansion E 10 10 "expr" [] t s = Some (XOk t2, [t; t1; t2], s2).
Proof.
  exists senv, (sub_ (sub_ (name_ "tom") (name_ "x")) (name_ "y")), sst. do 4 eexists. split; [exact senv_simple|]. split; [apply sub_single|]. split; [apply tidyb_ok; vm_compute; reflexivity|]. split; [|split; vm_compute; reflexivity]. vm_compute. discriminate.
Qed.
Print Assumptions C51_new_invocation_refuted.

(** ** Exceptions *)

(** If stepping raises, the arguments were refused and nothing was shown, or the exception is the one that the collector or the
    expander raises on the tree shown last, or the tree after it is not shown because [dump] refuses it (None). *)
Lemma doit_errors {U} (E : env U) n dumps k : forall t s e sh s', doit E n k dumps t s = Some (XRaise e, sh, s') ->
  exists s1, cvisit E (s_b s1) n (last sh t) [] = Some (XRaise e) \/ (exists s2, visit_once E n (last sh t) s1 = Some (XRaise e, s2)) \/
    (dumps = true /\ e = plain type_error /\ exists a s2, visit_once E n (last sh t) s1 = Some (XOk (done (At a)), s2)).
Proof.
  induction k as [|k IH]; intros t s e sh s' H; cbn [doit] in H; [discriminate|]. destruct (cvisit E (s_b s) n t []) as [[c|e0]|] eqn:Ec; try discriminate.
  - destruct c as [|p c]; [discriminate|]. destruct (visit_once E n t s) as [[[d|e0] s1]|] eqn:Ev; try discriminate.
    + destruct (once_done _ _ _ _ _ _ Ev) as [t1 [s0 [-> _]]]. cbn in H. destruct (render dumps t1) as [|e0] eqn:Er.
      * destruct (doit E n k dumps t1 s1) as [[[r sh1] s2]|] eqn:Ed; [|discriminate]. inversion H; subst. destruct (IH _ _ _ _ _ Ed) as [s3 H3]. exists s3. replace (last (t1 :: sh1) t) with (last sh1 t1); [exact H3|]. clear. destruct sh1 as [|y l]; [reflexivity|]. change (last (t1 :: y :: l) t) with (last (y :: l) t). revert y. induction l as [|z l IHl]; intros y; [reflexivity|]. exact (IHl z).
      * inversion H; subst. destruct t1 as [| |a]; try discriminate. cbn in Er. destruct dumps; [|discriminate]. inversion Er; subst. exists s. right. right. cbn. eauto 8.
    + inversion H; subst. exists s. right. left. cbn. eauto.
  - inversion H; subst. exists s'. left. exact Ec.
Qed.
Theorem C51_errors : forall U (E : env U) n k syn args t s e shown s',
  step_expansion E n k syn args t s = Some (XRaise e, shown, s') ->
  (shown = [] /\ s' = s) \/
  exists s1, cvisit E (s_b s1) n (last shown t) [] = Some (XRaise e) \/ (exists s2, visit_once E n (last shown t) s1 = Some (XRaise e, s2)) \/
    (step_args args false = XOk true /\ e = plain type_error /\ exists a s2, visit_once E n (last shown t) s1 = Some (XOk (done (At a)), s2)).
Proof.
  intros U E n k syn args t s e shown s' H. destruct shown as [|t0 sh] eqn:Es.
  - left. split; [reflexivity|]. unfold step_expansion in H. destruct (negb _); [inversion H; reflexivity|]. destruct (step_args args false) as [d|]; [|inversion H; reflexivity]. destruct (render d t); [|inversion H; reflexivity]. destruct (doit E n k d t s) as [[[r0 sh] s0]|]; discriminate.
  - right. destruct (step_doit _ _ _ _ _ _ _ _ _ _ H ltac:(discriminate)) as [d [sh' [Ha [He Hd]]]]. inversion He; subst. destruct (doit_errors _ _ _ _ _ _ _ _ _ Hd) as [s1 H1]. exists s1. rewrite Ha.
    replace (last (t :: sh') t) with (last sh' t); [|destruct sh'; reflexivity]. destruct H1 as [H1|[H1|[-> H1]]]; auto.
Qed.
Print Assumptions C51_errors.

(** The options: string constants, one of four. *)
Definition good_option (a : ltree) : Prop := exists lc fs v, a = Nd lc "Constant" fs /\ attr "value" fs = XOk (At (AStr v)) /\ (v = "unparse" \/ v = "dump" \/ v = "detailed" \/ v = "summary")%string.
(** C51: with any other argument, or in any other position, step_expansion raises before anything is shown or done. *)
Theorem C51_bad_option_refused : forall U (E : env U) n k syn args t s,
  Exists (fun a => ~ good_option a) args \/ (syn <> "expr" /\ syn <> "block")%string -> exists e, step_expansion E n k syn args t s = Some (XRaise e, [], s).
Proof.
  intros U E n k syn args t s H. unfold step_expansion. destruct (negb (smem syn ["expr"; "block"]%string)) eqn:Es; [eauto|].
  assert (N : forall lc c fs r d, step_args (Nd lc c fs :: r) d =
    if String.eqb c "Constant" then
        match attr "value" fs with
        | XRaise e => XRaise e
        | XOk (At (AStr v)) => if smem v supported then step_args r (d || String.eqb v "dump") else XRaise (plain (mkExn "ValueError" []))
        | XOk _ => XRaise (plain (mkExn "ValueError" []))
        end else XRaise (plain type_error)).
  { intros lc c fs r d. cbn [step_args]. destruct (String.eqb_spec c "Constant") as [->|Hc]; [reflexivity|]. revert Hc. clear.
    repeat (match goal with |- context [match ?b with _ => _ end] => is_var b; destruct b; try reflexivity end). congruence. }
  assert (A : forall d, exists e, step_args args d = XRaise e).
  { destruct H as [H|[H1 H2]].
    - induction H as [a r Ha|a r Hr IH]; intros d; destruct a as [lc c fs|l|x]; try (eexists; reflexivity); rewrite N; (destruct (String.eqb_spec c "Constant") as [->|Hc]; [|eauto]);
        (destruct (attr "value" fs) as [v|e] eqn:Ev; [|eauto]); destruct v as [| |a]; eauto; destruct a; eauto; destruct (smem s0 supported) eqn:Em; eauto.
      destruct Ha. exists lc, fs, s0. split; [reflexivity|]. split; [exact Ev|]. apply smem_In in Em. cbn in Em. intuition congruence.
    - exfalso. apply negb_false_iff in Es. apply smem_In in Es. cbn in Es. intuition congruence. }
  destruct (A false) as [e ->]. eauto.
Qed.
Print Assumptions C51_bad_option_refused.
Example C51_bad_option_example : Exists (fun a => ~ good_option a) [Nd noloc "Constant" [("value", At (AStr "dump")); ("kind", NoneT)]; Nd noloc "Constant" [("value", At (AStr "verbose")); ("kind", NoneT)]]%string /\
  good_option (Nd noloc "Constant" [("value", At (AStr "dump")); ("kind", NoneT)])%string.
Proof.
  split.
  - apply Exists_cons_tl, Exists_cons_hd. intros (lc & fs & v & E & A & H). injection E as <- <-. vm_compute in A. injection A as <-. intuition discriminate.
  - eexists _, _, "dump"%string. split; [reflexivity|]. split; [reflexivity|auto].
Qed.
