(** Proofs about MacroCollector. *)
From Coq Require Import Permutation.
From Verif Require Import Base AstLib FixLocModel ExpanderModel ExpanderSpec ExpanderProofs2 ExpanderProofs3 ExpanderProofs5 CollectorModel CollectorSpec.

Lemma seen_iff k c : seen k c = true <-> In k c.
Proof.
  unfold seen. rewrite existsb_exists. split.
  - intros [[x y] [Hin H]]. apply andb_true_iff in H. destruct H as [H1 H2]. apply String.eqb_eq in H1, H2. cbn in *. destruct k; cbn in *; subst. exact Hin.
  - intros H. exists k. split; [exact H|]. rewrite !String.eqb_refl. reflexivity.
Qed.
(** From [c] to [c'], the keys [S] were added. *)
Definition K (S : string * string -> Prop) (c c' : coll) : Prop := (NoDup c -> NoDup c') /\ forall k, In k c' <-> In k c \/ S k.
Lemma K_record x syn c : K (fun k => k = (x, syn)) c (record x syn c).
Proof.
  unfold record. destruct (seen (x, syn) c) eqn:Es.
  - split; [auto|]. intros k. split; [auto|]. intros [H| ->]; [exact H|]. apply seen_iff, Es.
  - split.
    + intros H. apply Permutation_NoDup with ((x, syn) :: c); [apply Permutation_cons_append|]. constructor; [|exact H]. intros Hin. apply seen_iff in Hin. congruence.
    + intros k. rewrite in_app_iff. cbn. intuition.
Qed.
Lemma K_trans S1 S2 S c c1 c2 : K S1 c c1 -> K S2 c1 c2 -> (forall k, S k <-> S1 k \/ S2 k) -> K S c c2.
Proof. intros [H1 H2] [H3 H4] H. split; [auto|]. intros k. rewrite H4, H2, H. tauto. Qed.
Lemma K_seq S1 S2 c c1 c2 : K S1 c c1 -> K S2 c1 c2 -> K (fun k => S1 k \/ S2 k) c c2.
Proof. intros H1 H2. eapply K_trans; [exact H1|exact H2|intros k; reflexivity]. Qed.
Lemma K_none S c : (forall k, ~ S k) -> K S c c.
Proof. intros H. split; [auto|]. intros k. split; [auto|]. intros [X|X]; [exact X|]. destruct (H k X). Qed.
Lemma K_ext S S' c c' : K S c c' -> (forall k, S k <-> S' k) -> K S' c c'.
Proof. intros [H1 H2] H. split; [auto|]. intros k. rewrite H2, H. tauto. Qed.
Lemma cthen_ok f g c r : cthen f g c = Some (XOk r) -> exists c1, f c = Some (XOk c1) /\ g c1 = Some (XOk r).
Proof. unfold cthen. destruct (f c) as [[c1|]|]; try discriminate. eauto. Qed.

Lemma destructure_valid_same (c : ltree) d : destructure true c = XOk d -> destructure false c = XOk d.
Proof.
  destruct c as [m k fs| |]; auto. unfold destructure. repeat (match goal with |- context [if String.eqb k ?y then _ else _] => destruct (String.eqb k y) end; auto).
  destruct (attr "func" fs) as [[m' k' fs'| |]|]; auto. destruct (String.eqb k' "Name"); auto. destruct (attr "keywords" fs); auto. destruct (nonempty a); auto. destruct (attr "args" fs) as [al|]; auto. cbn [andb].
  destruct (negb (nonempty al) || existsb (is_kind "Starred") (elements al)); [discriminate|auto].
Qed.
Lemma destructure_none (c : ltree) : destructure false c = XOk None -> destructure true c = XOk None.
Proof.
  destruct c as [m k fs| |]; auto. unfold destructure. repeat (match goal with |- context [if String.eqb k ?y then _ else _] => destruct (String.eqb k y) end; auto).
  destruct (attr "func" fs) as [[m' k' fs'| |]|]; auto. destruct (String.eqb k' "Name"); auto. destruct (attr "keywords" fs); auto. destruct (nonempty a); auto. destruct (attr "args" fs) as [al|]; auto. cbn [andb].
  destruct (str_attr "id" fs'); discriminate.
Qed.
Section Collect.
  Context {U : Type}.
  Variable E : env U.
  Variable b : binds.
  Definition inv (t : ltree) (k : string * string) : Prop := invoked E b t (fst k) (snd k).

  Lemma inv_atom a k : ~ inv (At a) k.
  Proof. intros [u [Hs Hi]]. inversion Hs; subst. inversion Hi. Qed.
  Lemma inv_list l k : inv (Ls l) k <-> exists v, In v l /\ inv v k.
  Proof.
    split.
    - intros [u [Hs Hi]]. inversion Hs; subst; [inversion Hi|]. exists v. split; [assumption|]. exists u. auto.
    - intros [v [Hv [u [Hs Hi]]]]. exists u. split; [eapply sr_elem; eassumption|exact Hi].
  Qed.
  Lemma inv_done m fs k : ~ inv (Nd m "Done" fs) k.
  Proof.
    intros [u [Hs Hi]].
    assert (N : forall x syn, ~ invokes E b (Nd m "Done" fs) x syn) by (intros x syn H; inversion H; subst; match goal with Hk : _ \/ _ |- _ => destruct Hk; discriminate end).
    inversion Hs; subst; try contradiction; try (eapply N; eassumption); match goal with Hk : _ \/ _ |- _ => destruct Hk; discriminate end.
  Qed.
  Lemma inv_generic m k fs q : k <> "Done"%string -> (forall x syn, ~ invokes E b (Nd m k fs) x syn) ->
    (inv (Nd m k fs) q <-> exists f v, In (f, v) fs /\ inv v q).
  Proof.
    intros Hd Hno. split.
    - intros [u [Hs Hi]]. inversion Hs; subst; try (exfalso; eapply Hno; eassumption).
      + exists f, v. split; [assumption|]. exists u. auto.
      + exfalso. eapply Hno. eapply inv_expr; eassumption.
      + exfalso. eapply Hno. eapply inv_expr; eassumption.
      + exfalso. eapply Hno. eapply inv_block; eassumption.
      + exfalso. eapply Hno. eapply inv_dec; eassumption.
    - intros [f [v [Hin [u [Hs Hi]]]]]. exists u. split; [eapply sr_field; eassumption|exact Hi].
  Qed.
  Lemma inv_sub m fs c x args sl q : shaped (Nd m "Subscript" fs) -> getf "value" fs = Some c -> names_macro E b c x args -> getf "slice" fs = Some sl ->
    (inv (Nd m "Subscript" fs) q <-> q = (x, "expr"%string) \/ (exists a, In a args /\ inv a q) \/ inv sl q).
  Proof.
    intros Hsh Hc Hn Hsl. pose proof (shaped_get _ _ _ _ _ Hsh ltac:(discriminate) Hc) as Hshc. destruct q as [qx qs]. split.
    - intros [u [Hs Hi]]. cbn [fst snd] in Hi. inversion Hs; subst; try discriminate; try (match goal with H : invokes _ _ (Nd m "Subscript" fs) _ _ |- _ => inversion H; fail end).
      + left. inversion Hi; subst; [|match goal with Hk : _ \/ _ |- _ => destruct Hk; discriminate end].
        assert (c0 = c) by congruence. subst. match goal with H : names_macro _ _ c qx _ |- _ => destruct (names_macro_fun E _ _ _ _ _ _ Hshc H Hn) as [-> _] end. reflexivity.
      + exfalso. match goal with H : forall x syn, ~ _ |- _ => eapply H; eapply inv_expr; eassumption end.
      + right; left. assert (c0 = c) by congruence. subst. match goal with H : names_macro _ _ c ?y ?ar, Hin : In a ?ar |- _ => destruct (names_macro_fun E _ _ _ _ _ _ Hshc H Hn) as [-> ->] end. exists a. split; [assumption|]. exists u. auto.
      + right; right. assert (sl0 = sl) by congruence. subst. exists u. auto.
      + match goal with Hk : _ \/ _ |- _ => destruct Hk; discriminate end.
      + match goal with H : invokes _ _ (Nd m "Subscript" fs) _ _ |- _ => inversion H; subst; match goal with Hk : _ \/ _ |- _ => destruct Hk; discriminate end end.
      + match goal with H : invokes _ _ (Nd m "Subscript" fs) _ _ |- _ => inversion H; subst; match goal with Hk : _ \/ _ |- _ => destruct Hk; discriminate end end.
    - intros [Hq|[[a [Ha [u [Hs Hi]]]]|[u [Hs Hi]]]].
      + inversion Hq; subst. eexists. split; [apply sr_refl|]. cbn. eapply inv_expr; eassumption.
      + exists u. split; [eapply sr_expr_arg; eassumption|exact Hi].
      + exists u. split; [eapply sr_expr_body; eassumption|exact Hi].
  Qed.
  Lemma inv_with m fs items body y q : getf "items" fs = Some (Ls items) -> getf "body" fs = Some body -> invokes E b (Nd m "With" fs) y "block" ->
    (inv (Nd m "With" fs) q <-> (exists mi ki fi c x args, In (Nd mi ki fi) items /\ getf "context_expr" fi = Some c /\ names_macro E b c x args /\ (q = (x, "block"%string) \/ exists a, In a args /\ inv a q)) \/
       (exists it, In it items /\ ~ macro_item E b it /\ inv it q) \/ inv body q).
  Proof.
    intros Hit Hb Hy. destruct q as [qx qs]. split.
    - intros [u [Hs Hi]]. cbn [fst snd] in Hi. inversion Hs; subst; try discriminate; try (match goal with H : invokes _ _ (Nd m "With" fs) _ "decorator" |- _ => inversion H; subst end; match goal with Hk : _ \/ _ |- _ => destruct Hk; discriminate end).
      + left. inversion Hi; subst; [|match goal with Hk : _ \/ _ |- _ => destruct Hk; discriminate end]. assert (items0 = items) by congruence. subst. eauto 12.
      + exfalso. match goal with H : forall x syn, ~ _ |- _ => eapply H; eassumption end.
      + left. assert (items0 = items) by congruence. subst. do 6 eexists. split; [eassumption|]. split; [eassumption|]. split; [eassumption|]. right. exists a. split; [assumption|]. exists u. auto.
      + right; left. assert (items0 = items) by congruence. subst. exists it. split; [assumption|]. split; [assumption|]. exists u. auto.
      + right; right. assert (body0 = body) by congruence. subst. exists u. auto.
      + match goal with Hk : _ \/ _ |- _ => destruct Hk; discriminate end.
    - intros [[mi [ki [fi [c [x [args [Hin [Hc [Hn Hq]]]]]]]]]|[[it [Hin [Hnm [u [Hs Hi]]]]]|[u [Hs Hi]]]].
      + destruct Hq as [Hq|[a [Ha [u [Hs Hi]]]]].
        * inversion Hq; subst. eexists. split; [apply sr_refl|]. cbn. eapply inv_block; eassumption.
        * exists u. split; [eapply sr_block_arg; eassumption|exact Hi].
      + exists u. split; [eapply sr_block_other; eassumption|exact Hi].
      + exists u. split; [eapply sr_block_body; eassumption|exact Hi].
  Qed.
  Lemma inv_decorated m k fs ds y q : k = "ClassDef"%string \/ k = "FunctionDef"%string -> getf "decorator_list" fs = Some (Ls ds) -> invokes E b (Nd m k fs) y "decorator" ->
    (inv (Nd m k fs) q <-> (exists c x args, In c ds /\ names_macro E b c x args /\ (q = (x, "decorator"%string) \/ exists a, In a args /\ inv a q)) \/
       (exists c, In c ds /\ ~ macro_dec E b c /\ inv c q) \/ (exists f v, In (f, v) fs /\ f <> "decorator_list"%string /\ f <> "name"%string /\ inv v q)).
  Proof.
    intros Hk Hds Hy. destruct q as [qx qs]. split.
    - intros [u [Hs Hi]]. cbn [fst snd] in Hi. inversion Hs; subst; try (destruct Hk; discriminate).
      + left. inversion Hi; subst; try (destruct Hk; discriminate). assert (ds0 = ds) by congruence. subst. eauto 12.
      + exfalso. match goal with H : forall x syn, ~ _ |- _ => eapply H; eassumption end.
      + left. assert (ds0 = ds) by congruence. subst. do 3 eexists. split; [eassumption|]. split; [eassumption|]. right. exists a. split; [assumption|]. exists u. auto.
      + right; left. assert (ds0 = ds) by congruence. subst. exists c. split; [assumption|]. split; [assumption|]. exists u. auto.
      + right; right. exists f, v. split; [assumption|]. split; [assumption|]. split; [assumption|]. exists u. auto.
    - intros [[c [x [args [Hin [Hn Hq]]]]]|[[c [Hin [Hnm [u [Hs Hi]]]]]|[f [v [Hin [H1 [H2 [u [Hs Hi]]]]]]]]].
      + destruct Hq as [Hq|[a [Ha [u [Hs Hi]]]]].
        * inversion Hq; subst. eexists. split; [apply sr_refl|]. cbn. eapply inv_dec; eassumption.
        * exists u. split; [eapply sr_dec_arg; eassumption|exact Hi].
      + exists u. split; [eapply sr_dec_other; eassumption|exact Hi].
      + exists u. split; [eapply sr_dec_def; eassumption|exact Hi].
  Qed.

  (** ** Exactness *)
  Definition Kok (vis : ltree -> ccomp) (t : ltree) : Prop := forall c r, vis t c = Some (XOk r) -> K (inv t) c r.
  Section Combinators.
    Variable vis : ltree -> ccomp.
    Lemma all_ok l : (forall t, In t l -> Kok vis t) -> forall c r, cvisit_all vis l c = Some (XOk r) -> K (fun k => exists t, In t l /\ inv t k) c r.
    Proof.
      induction l as [|x l IH]; intros HF c r H; cbn [cvisit_all] in H.
      - inversion H; subst. apply K_none. intros k [t [[] _]].
      - apply cthen_ok in H. destruct H as [c1 [H1 H2]]. eapply K_trans; [apply (HF x (or_introl eq_refl)); exact H1|apply IH; [intros t Ht; apply HF; right; exact Ht|exact H2]|].
        intros k. split.
        + intros [t [[<-|Ht] Hk]]; [left; exact Hk|right; eauto].
        + intros [Hk|[t [Ht Hk]]]; [exists x; split; [left; reflexivity|exact Hk]|exists t; split; [right; exact Ht|exact Hk]].
    Qed.
    Lemma fields_ok fs : (forall f v, In (f, v) fs -> is_node v = true -> Kok vis v) ->
      (forall f l, In (f, Ls l) fs -> Forall (fun v => is_list v = false) l /\ forall v, In v l -> is_node v = true -> Kok vis v) ->
      forall c r, cgv_fields vis fs c = Some (XOk r) -> K (fun k => exists f v, In (f, v) fs /\ inv v k) c r.
    Proof.
      induction fs as [|[f v] fs IH]; intros H1 H2 c r H; cbn [cgv_fields] in H.
      - inversion H; subst. apply K_none. intros k [f [v [[] _]]].
      - apply cthen_ok in H. destruct H as [c1 [Ha Hb]].
        assert (Kv : K (inv v) c c1).
        { destruct v as [m k fv|l|a].
          - exact (H1 f _ (or_introl eq_refl) eq_refl _ _ Ha).
          - destruct (H2 f l (or_introl eq_refl)) as [Hfl Hl]. eapply K_ext; [apply (all_ok (filter is_node l)); [|exact Ha]|].
            + intros t Ht. apply filter_In in Ht. destruct Ht. apply Hl; assumption.
            + intros k. rewrite inv_list. split; intros [t [Ht Hk]]; exists t; split; try exact Hk; [apply filter_In in Ht; tauto|]. apply filter_In. split; [exact Ht|]. rewrite Forall_forall in Hfl. specialize (Hfl t Ht). destruct t; try discriminate; [reflexivity|]. destruct (inv_atom _ _ Hk).
          - inversion Ha; subst. apply K_none. intros k. apply inv_atom. }
        eapply K_trans; [exact Kv|apply IH; [intros g w Hin; apply (H1 g w (or_intror Hin))|intros g l Hin; apply (H2 g l (or_intror Hin))|exact Hb]|].
        intros k. split.
        + intros [g [w [[Heq|Hin] Hk]]]; [inversion Heq; subst; left; exact Hk|right; eauto].
        + intros [Hk|[g [w [Hin Hk]]]]; [exists f, v; split; [left; reflexivity|exact Hk]|exists g, w; split; [right; exact Hin|exact Hk]].
    Qed.
    Lemma macros_ok block l : Forall (fun it => exists cand x args, candidate_of block it = XOk cand /\ shaped cand /\ names_macro E b cand x args /\ forall a, In a args -> Kok vis a) l ->
      forall c r, cmacros vis block l c = Some (XOk r) ->
      K (fun k => exists it cand x args, In it l /\ candidate_of block it = XOk cand /\ names_macro E b cand x args /\ (k = (x, if block then "block" else "decorator")%string \/ exists a, In a args /\ inv a k)) c r.
    Proof.
      induction 1 as [|it l [cand [x [args [Hc [Hs [Hn Ha]]]]]] _ IH]; intros c r H; cbn [cmacros] in H.
      - inversion H; subst. apply K_none. intros k [it [? [? [? [[] _]]]]].
      - rewrite Hc in H. destruct (destructure_spec cand Hs) as [d [_ Hd]]. destruct (destructure true cand) as [[[y args']|]|e] eqn:Ed; try discriminate.
        assert (Hxy : y = x /\ args' = args).
        { destruct (destructure_validate cand x args Hs (proj1 Hn)) as [V1 V2]. assert (Hnb : ~ bad_call cand) by (intros Hbad; rewrite (V1 Hbad) in Ed; discriminate). rewrite (V2 Hnb) in Ed. inversion Ed; auto. }
        destruct Hxy as [-> ->]. apply cthen_ok in H. destruct H as [c1 [H1 H2]].
        assert (K1 : K (fun k => k = (x, if block then "block" else "decorator")%string \/ exists a, In a args /\ inv a k) c c1).
        { eapply K_trans; [apply K_record|apply (all_ok args Ha); exact H1|intros k; reflexivity]. }
        eapply K_trans; [exact K1|apply IH; exact H2|].
        intros k. cbn beta. split.
        + intros [it' [cand' [x' [args' [[<-|Hin] [Hc' [Hn' Hk]]]]]]].
          * left. rewrite Hc in Hc'. inversion Hc'; subst cand'. destruct (names_macro_fun E _ _ _ _ _ _ Hs Hn Hn') as [-> ->]. exact Hk.
          * right. eauto 8.
        + intros [Hk|[it' [cand' [x' [args' [Hin Hr]]]]]]; [exists it, cand, x, args; split; [left; reflexivity|auto]|]. exists it', cand', x', args'. split; [right; exact Hin|exact Hr].
    Qed.
  End Combinators.
  Lemma select_iff {Q : ltree -> Prop} l flags : Forall2 (fun it (f : bool) => f = true <-> Q it) l flags ->
    forall it, (In it (select true l flags) <-> In it l /\ Q it) /\ (In it (select false l flags) -> In it l /\ ~ Q it).
  Proof.
    induction 1 as [|x f l flags Hf _ IH]; intros it; [cbn; tauto|]. destruct (IH it) as [I1 I2]. cbn [select]. destruct f; cbn [Bool.eqb].
    - split.
      + cbn [In]. rewrite I1. assert (Q x) by (apply Hf; reflexivity). split; [intros [<-|]; tauto|tauto].
      + intros H. split; [right|]; apply I2; exact H.
    - assert (~ Q x) by (intros Hq; apply Hf in Hq; discriminate). split.
      + rewrite I1. cbn [In]. split; [tauto|]. intros [[<-|]]; tauto.
      + intros [<-|H1]; [split; [left; reflexivity|assumption]|]. split; [right|]; apply I2; exact H1.
  Qed.
  Lemma select_false {Q : ltree -> Prop} l flags : Forall2 (fun it (f : bool) => f = true <-> Q it) l flags ->
    forall it, In it l -> ~ Q it -> In it (select false l flags).
  Proof.
    induction 1 as [|x f l flags Hf _ IH]; intros it Hin Hq; [destruct Hin|]. cbn [select]. destruct f; cbn [Bool.eqb].
    - destruct Hin as [<-|Hin]; [exfalso; apply Hq, Hf; reflexivity|apply IH; assumption].
    - destruct Hin as [<-|Hin]; [left; reflexivity|right; apply IH; assumption].
  Qed.
  Lemma denotes_part (c : ltree) x args a : denotes c x args -> In a args -> part c a.
  Proof.
    intros Hd Ha. inversion Hd; subst.
    - destruct Ha.
    - destruct Ha as [<-|[]]. eapply pt_field; [discriminate|apply getf_In; eassumption|constructor].
    - eapply pt_field; [discriminate|apply getf_In; eassumption|]. eapply pt_field; [discriminate|apply getf_In; eassumption|]. eapply pt_elem; [exact Ha|constructor].
    - eapply pt_field; [discriminate|apply getf_In; eassumption|]. eapply pt_elem; [exact Ha|constructor].
  Qed.

  Lemma with_flags m fs items : shaped (Nd m "With" fs) -> getf "items" fs = Some (Ls items) ->
    exists flags, detect E b true items = XOk flags /\ Forall2 (fun it (f : bool) => f = true <-> macro_item E b it) items flags.
  Proof.
    intros Hs Hi. pose proof (shaped_items _ _ _ Hs Hi) as HI. destruct (detect_spec E b true items) as [flags [Hd HF]].
    - eapply Forall_impl; [|exact HI]. intros it [mi [fi [c [ov [-> [Hc [_ Hsc]]]]]]]. exists c. cbn. rewrite (attr_ok _ _ _ Hc). auto.
    - exists flags. split; [exact Hd|]. revert HI HF. generalize flags. clear. induction items as [|it items IH]; intros flags HI HF; inversion HF; subst; constructor; inversion HI; subst; [|auto].
      match goal with H : exists mi, _ |- _ => destruct H as [mi [fi [c [ov [Heq [Hc _]]]]]] end. rewrite <- (item_macro_iff E b _ mi fi c Heq Hc). assumption.
  Qed.
  Lemma dec_flags m k fs ds : shaped (Nd m k fs) -> k <> "Done"%string -> getf "decorator_list" fs = Some (Ls ds) ->
    exists flags, detect E b false ds = XOk flags /\ Forall2 (fun it (f : bool) => f = true <-> macro_dec E b it) ds flags.
  Proof.
    intros Hs Hk Hi. pose proof (shaped_decs _ _ _ _ Hs Hk Hi) as HI. destruct (detect_spec E b false ds) as [flags [Hd HF]].
    - eapply Forall_impl; [|exact HI]. intros c Hc. exists c. auto.
    - exists flags. split; [exact Hd|]. revert HF. generalize flags. clear. induction ds as [|it ds IH]; intros flags HF; inversion HF; subst; constructor; [|auto]. rewrite <- (dec_macro_iff E b it). assumption.
  Qed.
  Lemma item_part m fs items it : getf "items" fs = Some (Ls items) -> In it items -> part (Nd m "With" fs) it.
  Proof. intros Hi Hin. eapply pt_field; [discriminate|apply getf_In; exact Hi|]. eapply pt_elem; [exact Hin|constructor]. Qed.
  Lemma dec_part m k fs ds it : k <> "Done"%string -> getf "decorator_list" fs = Some (Ls ds) -> In it ds -> part (Nd m k fs) it.
  Proof. intros Hk Hi Hin. eapply pt_field; [exact Hk|apply getf_In; exact Hi|]. eapply pt_elem; [exact Hin|constructor]. Qed.
  Lemma ctx_part mi fi c : getf "context_expr" fi = Some c -> part (Nd mi "withitem" fi) c.
  Proof. intros Hi. eapply pt_field; [discriminate|apply getf_In; exact Hi|constructor]. Qed.

  Lemma body_ok vis t : b <> [] -> tidy t -> (forall u, part t u -> Kok vis u) -> Kok (cvisit_body E b vis) t.
  Proof.
    intros Hb Ht IH c r H. unfold cvisit_body in H. assert (Eb : match b with [] => true | _ => false end = false) by (destruct b; [contradiction|reflexivity]). rewrite Eb in H. cbn [orb] in H.
    destruct t as [m k fs|l|a].
    - cbn [is_kind] in H. destruct (String.eqb_spec k "Done") as [->|Hd]; [inversion H; subst; apply K_none; intros q; apply inv_done|].
      pose proof (tidy_shaped _ Ht) as Hs.
      assert (Gen : (forall x syn, ~ invokes E b (Nd m k fs) x syn) -> cgv_fields vis fs c = Some (XOk r) -> K (inv (Nd m k fs)) c r).
      { intros Hno Hg. eapply K_ext; [eapply fields_ok; [| |exact Hg]|].
        - intros f v Hin Hn. apply IH. eapply pt_field; [exact Hd|exact Hin|constructor].
        - intros f l Hin. split; [exact (proj2 (Ht (Ls l) ltac:(eapply pt_field; [exact Hd|exact Hin|constructor])))|]. intros v Hv _. apply IH. eapply pt_field; [exact Hd|exact Hin|]. eapply pt_elem; [exact Hv|constructor].
        - intros q. symmetry. apply inv_generic; assumption. }
      destruct (String.eqb_spec k "Subscript") as [->|Hk1].
      { destruct (shaped_field _ _ _ "value" FAny Hs ltac:(gram)) as [cand Hc]. destruct (shaped_field _ _ _ "slice" FAny Hs ltac:(gram)) as [sl Hsl]. cbn [fst] in Hc, Hsl.
        pose proof (shaped_get _ _ _ _ _ Hs Hd Hc) as Hsc. destruct (destructure_spec cand Hsc) as [d [Ed Hden]].
        unfold cvisit_Subscript in H. rewrite (attr_ok _ _ _ Hc) in H.
        destruct d as [[x args]|].
        - assert (Hdn : denotes cand x args) by (apply Hden; reflexivity). destruct (destructure_validate cand x args Hsc Hdn) as [V1 V2].
          assert (Hnb : ~ bad_call cand) by (intros Hbad; rewrite (V1 Hbad) in H; discriminate). rewrite (V2 Hnb) in H.
          destruct (ismacrocall E b x args "expr") eqn:Em.
          + assert (Hn : names_macro E b cand x args) by (apply (names_macro_iff E b cand x args _ "expr" ltac:(discriminate) Hden); auto).
            rewrite (attr_ok _ _ _ Hsl) in H. apply cthen_ok in H. destruct H as [c1 [H1 H2]].
            eapply K_ext; [eapply K_seq; [apply K_record|eapply K_seq; [eapply all_ok; [|exact H1]|apply IH; [eapply pt_field; [exact Hd|apply getf_In; exact Hsl|constructor]|exact H2]]]|intros q; symmetry; apply (inv_sub m fs cand x args sl q Hs Hc Hn Hsl)].
            intros a Ha. apply IH. eapply part_trans; [eapply pt_field; [exact Hd|apply getf_In; exact Hc|constructor]|]. eapply denotes_part; eassumption.
          + apply Gen; [|exact H]. intros y syn Hi. inversion Hi; subst; [|match goal with Hk : _ \/ _ |- _ => destruct Hk; discriminate end]. assert (c0 = cand) by congruence. subst.
            match goal with Hn : names_macro _ _ cand y _ |- _ => apply (names_macro_iff E b cand _ _ _ "expr" ltac:(discriminate) Hden) in Hn; destruct Hn as [Hx Hm] end. inversion Hx; subst. congruence.
        - assert (Hno : forall x syn, ~ invokes E b (Nd m "Subscript" fs) x syn).
          { intros y syn Hi. inversion Hi; subst; [|match goal with Hk : _ \/ _ |- _ => destruct Hk; discriminate end]. assert (c0 = cand) by congruence. subst. match goal with Hn : names_macro _ _ cand y _ |- _ => destruct Hn as [Hx _] end. apply Hden in Hx. discriminate. }
          destruct (destructure true cand) as [[[x args]|]|e] eqn:Et; try discriminate; [|apply Gen; assumption].
          destruct (ismacrocall E b x args "expr") eqn:Em; [|apply Gen; assumption].
          exfalso. assert (Hx : destructure false cand = XOk (Some (x, args))); [|congruence]. eapply destructure_valid_same; exact Et. }
      destruct (String.eqb_spec k "With") as [->|Hk2].
      { destruct (shaped_field _ _ _ "items" FList Hs ltac:(gram)) as [items Hi]. destruct (shaped_field _ _ _ "body" FList Hs ltac:(gram)) as [body Hbd]. cbn [fst] in Hi, Hbd.
        destruct (with_flags _ _ _ Hs Hi) as [flags [Ef HF]]. pose proof (shaped_items _ _ _ Hs Hi) as HI. rewrite Forall_forall in HI.
        unfold cvisit_With in H. rewrite (attr_ok _ _ _ Hi) in H. cbn [elements] in H. rewrite Ef in H.
        assert (Sel := select_iff _ _ HF). assert (SelF := select_false _ _ HF).
        destruct (select true items flags) as [|it0 ms] eqn:Es.
        - apply Gen; [|exact H]. intros y syn Hi'. inversion Hi'; subst; [|match goal with Hk : _ \/ _ |- _ => destruct Hk; discriminate end]. assert (items0 = items) by congruence. subst.
          eapply (in_nil (a := Nd mi ki fi)). apply Sel. split; [assumption|]. exists mi, ki, fi. eauto 8.
        - rewrite (attr_ok _ _ _ Hbd) in H. apply cthen_ok in H. destruct H as [c1 [H1 H]]. apply cthen_ok in H. destruct H as [c2 [H2 H3]].
          assert (Hcand : forall it, In it items -> exists cand, candidate_of true it = XOk cand /\ shaped cand /\ part (Nd m "With" fs) cand /\ exists mi fi, it = Nd mi "withitem" fi /\ getf "context_expr" fi = Some cand).
          { intros it Hin. destruct (HI it Hin) as [mi [fi [cand [ov [-> [Hc [_ Hsc]]]]]]]. exists cand. split; [cbn; rewrite (attr_ok _ _ _ Hc); reflexivity|]. split; [exact Hsc|]. split; [eapply part_trans; [eapply item_part; eassumption|apply ctx_part; exact Hc]|eauto]. }
          assert (Hy : exists y, invokes E b (Nd m "With" fs) y "block").
          { destruct (proj1 (proj1 (Sel it0)) (or_introl eq_refl)) as [Hin [mi [ki [fi [cand [x [args [-> [Hc Hn]]]]]]]]]. exists x. eapply inv_block; eassumption. }
          destruct Hy as [y Hy]. eapply K_ext; [eapply K_seq; [eapply macros_ok; [|exact H1]|eapply K_seq; [eapply all_ok; [|exact H2]|apply IH; [eapply pt_field; [exact Hd|apply getf_In; exact Hbd|constructor]|exact H3]]]|].
          + apply Forall_forall. intros it Hin. apply Sel in Hin. destruct Hin as [Hin [mi [ki [fi [cand [x [args [-> [Hc Hn]]]]]]]]]. destruct (Hcand _ Hin) as [cand' [Hc1 [Hc2 [Hc3 [mi' [fi' [Heq Hc4]]]]]]]. inversion Heq; subst. assert (cand' = cand) by congruence. subst. exists cand, x, args. split; [exact Hc1|]. split; [exact Hc2|]. split; [exact Hn|].
            intros a Ha. apply IH. eapply part_trans; [exact Hc3|]. eapply denotes_part; [exact (proj1 Hn)|exact Ha].
          + intros t Hin. apply IH. apply (proj2 (Sel t)) in Hin. eapply item_part; [exact Hi|tauto].
          + intros q. rewrite (inv_with m fs items (Ls body) y q Hi Hbd Hy). symmetry. split.
            * intros [[mi [ki [fi [cand [x [args [Hin [Hc [Hn Hq]]]]]]]]]|[[it [Hin [Hnm Hq]]]|Hq]]; [left|right; left|right; right; exact Hq].
              -- exists (Nd mi ki fi), cand, x, args. split; [apply Sel; split; [exact Hin|]; exists mi, ki, fi; eauto 8|]. split; [cbn; rewrite (attr_ok _ _ _ Hc); reflexivity|]. auto.
              -- exists it. split; [apply SelF; assumption|exact Hq].
            * intros [[it [cand [x [args [Hin [Hc [Hn Hq]]]]]]]|[[it [Hin Hq]]|Hq]]; [left|right; left|right; right; exact Hq].
              -- apply Sel in Hin. destruct Hin as [Hin _]. destruct (Hcand _ Hin) as [cand' [Hc1 [_ [_ [mi [fi [-> Hc4]]]]]]]. assert (cand' = cand) by congruence. subst. exists mi, "withitem"%string, fi, cand, x, args. auto.
              -- apply (proj2 (Sel it)) in Hin. exists it. tauto. }
      destruct (String.eqb k "ClassDef" || String.eqb k "FunctionDef") eqn:Ek.
      { assert (Hk : k = "ClassDef"%string \/ k = "FunctionDef"%string) by (apply orb_true_iff in Ek; destruct Ek as [Ek|Ek]; apply String.eqb_eq in Ek; auto).
        assert (Hds : exists ds, getf "decorator_list" fs = Some (Ls ds)) by (destruct Hk as [->| ->]; destruct (shaped_field _ _ _ "decorator_list" FList Hs ltac:(gram)) as [ds Hds]; eauto).
        destruct Hds as [ds Hds]. destruct (dec_flags _ _ _ _ Hs Hd Hds) as [flags [Ef HF]]. pose proof (shaped_decs _ _ _ _ Hs Hd Hds) as HI. rewrite Forall_forall in HI.
        unfold cvisit_Decorated in H. rewrite (attr_ok _ _ _ Hds) in H. cbn [elements] in H. rewrite Ef in H.
        assert (Sel := select_iff _ _ HF). assert (SelF := select_false _ _ HF).
        destruct (select true ds flags) as [|it0 ms] eqn:Es.
        - apply Gen; [|exact H]. intros y syn Hi'. inversion Hi'; subst; try (destruct Hk; discriminate). assert (ds0 = ds) by congruence. subst.
          eapply (in_nil (a := c0)). apply Sel. split; [assumption|]. eexists. eexists. eassumption.
        - apply cthen_ok in H. destruct H as [c1 [H1 H]]. apply cthen_ok in H. destruct H as [c2 [H2 H3]].
          assert (Hy : exists y, invokes E b (Nd m k fs) y "decorator").
          { destruct (proj1 (proj1 (Sel it0)) (or_introl eq_refl)) as [Hin [x [args Hn]]]. exists x. eapply inv_dec; eassumption. }
          destruct Hy as [y Hy]. eapply K_ext; [eapply K_seq; [eapply macros_ok; [|exact H1]|eapply K_seq; [eapply all_ok; [|exact H2]|eapply all_ok; [|exact H3]]]|].
          + apply Forall_forall. intros it Hin. apply Sel in Hin. destruct Hin as [Hin [x [args Hn]]]. exists it, x, args. split; [reflexivity|]. split; [exact (HI _ Hin)|]. split; [exact Hn|].
            intros a Ha. apply IH. eapply part_trans; [eapply dec_part; eassumption|]. eapply denotes_part; [exact (proj1 Hn)|exact Ha].
          + intros t Hin. apply IH. apply (proj2 (Sel t)) in Hin. eapply dec_part; [exact Hd|exact Hds|tauto].
          + intros t Hin. apply in_map_iff in Hin. destruct Hin as [[f v] [<- Hin]]. apply filter_In in Hin. apply IH. eapply pt_field; [exact Hd|exact (proj1 Hin)|constructor].
          + intros q. rewrite (inv_decorated m k fs ds y q Hk Hds Hy). symmetry. split.
            * intros [[cand [x [args [Hin [Hn Hq]]]]]|[[it [Hin [Hnm Hq]]]|[f [v [Hin [Hf1 [Hf2 Hq]]]]]]]; [left|right; left|right; right].
              -- exists cand, cand, x, args. split; [apply Sel; split; [exact Hin|]; exists x, args; exact Hn|]. auto.
              -- exists it. split; [apply SelF; assumption|exact Hq].
              -- exists v. split; [|exact Hq]. apply in_map_iff. exists (f, v). split; [reflexivity|]. apply filter_In. split; [exact Hin|]. cbn [fst]. apply negb_true_iff. unfold smem. cbn. destruct (String.eqb_spec f "decorator_list"), (String.eqb_spec f "name"); try contradiction; reflexivity.
            * intros [[it [cand [x [args [Hin [Hc [Hn Hq]]]]]]]|[[it [Hin Hq]]|[v [Hin Hq]]]]; [left|right; left|right; right].
              -- apply Sel in Hin. destruct Hin as [Hin _]. cbn in Hc. inversion Hc; subst. exists cand, x, args. auto.
              -- apply (proj2 (Sel it)) in Hin. exists it. tauto.
              -- apply in_map_iff in Hin. destruct Hin as [[f v'] [Heq Hin]]. cbn in Heq. subst v'. apply filter_In in Hin. destruct Hin as [Hin Hf]. cbn [fst] in Hf. apply negb_true_iff in Hf. unfold smem in Hf. cbn in Hf. destruct (String.eqb_spec f "decorator_list"), (String.eqb_spec f "name"); try discriminate. exists f, v. auto. }
      destruct (String.eqb_spec k "Name") as [->|Hk4].
      { destruct (shaped_field _ _ _ "id" FStr Hs ltac:(gram)) as [x Hx]. cbn [fst] in Hx. unfold cvisit_Name in H. rewrite (str_attr_ok _ _ _ Hx) in H.
        assert (Hi : forall y syn, invokes E b (Nd m "Name" fs) y syn <-> y = x /\ syn = "name"%string /\ ismacrocall E b x [] "name" = true).
        { intros y syn. rewrite ismacrocall_name_iff. split.
          - intros Hi. inversion Hi; subst; [match goal with Hk : _ \/ _ |- _ => destruct Hk; discriminate end|]. assert (y = x) by congruence. subst. eauto 8.
          - intros [-> [-> [Hne [i [Hbi Hm]]]]]. eapply inv_name; eassumption. }
        assert (Hsrc : forall u, source E b (Nd m "Name" fs) u -> u = Nd m "Name" fs \/ forall y syn, ~ invokes E b u y syn).
        { intros u Hu. inversion Hu; subst; auto; try (match goal with Hk : _ \/ _ |- _ => destruct Hk; discriminate end); try (match goal with Hv : invokes _ _ (Nd m "Name" fs) _ _ |- _ => apply Hi in Hv; destruct Hv as [_ [Hv _]]; discriminate end).
          right. match goal with Hin : In (f, v) fs |- _ => pose proof (proj1 (proj2 (proj2 (Ht _ (pt_refl _)))) eq_refl f v Hin) as Hv end. destruct v as [mv kv [|]| |av]; try contradiction.
          - intros y syn. match goal with Hp : source _ _ (Nd mv kv []) u |- _ => inversion Hp; subst; try discriminate end; try (match goal with Hin : In _ [] |- _ => destruct Hin end); try (intros Hz; inversion Hz; subst; discriminate).
            all: match goal with Hz : invokes _ _ (Nd _ _ []) _ _ |- _ => inversion Hz; discriminate end.
          - intros y syn. match goal with Hp : source _ _ (At av) u |- _ => inversion Hp; subst end. intros Hz. inversion Hz. }
        assert (Hq : forall q, inv (Nd m "Name" fs) q <-> q = (x, "name"%string) /\ ismacrocall E b x [] "name" = true).
        { intros [qx qs]. split.
          - intros [u [Hu Hv]]. destruct (Hsrc u Hu) as [->|Hno]; [cbn [fst snd] in Hv; apply Hi in Hv; destruct Hv as [-> [-> ?]]; auto|]. destruct (Hno _ _ Hv).
          - intros [Hqq Hm]. inversion Hqq; subst. eexists. split; [apply sr_refl|]. apply Hi. auto. }
        destruct (ismacrocall E b x [] "name").
        - inversion H; subst. eapply K_ext; [apply K_record|]. intros q. rewrite Hq. tauto.
        - inversion H; subst. apply K_none. intros q. rewrite Hq. intros [_ X]. discriminate. }
      apply Gen; [|exact H]. intros y syn Hi. inversion Hi; subst; try contradiction. match goal with Hk : _ \/ _ |- _ => destruct Hk; subst; discriminate end.
    - cbn [is_kind] in H. eapply K_ext; [eapply all_ok; [|exact H]|intros q; symmetry; apply inv_list]. intros t Hin. apply IH. eapply pt_elem; [exact Hin|constructor].
    - cbn [is_kind] in H. assert (r = c) by (destruct a; inversion H; reflexivity). subst. apply K_none. intros q. apply inv_atom.
  Qed.

  Theorem cvisit_exact n : forall t, tidy t -> Kok (cvisit E b n) t.
  Proof.
    induction n as [|n IH]; intros t Ht; [intros c r H; discriminate|]. cbn [cvisit].
    assert (Hcase : b = [] \/ b <> []) by (destruct b; [left; reflexivity|right; discriminate]). destruct Hcase as [Eb|Eb].
    - assert (B : forall x i, ~ bound b x i) by (rewrite Eb; intros x i [[|] [? [Hx _]]]; discriminate).
      intros c r H. unfold cvisit_body in H. assert (Er : match b with [] => true | _ => false end = true) by (rewrite Eb; reflexivity). rewrite Er in H. inversion H; subst. apply K_none. intros q [u [_ Hi]].
      inversion Hi; subst; try (match goal with Hn : names_macro _ _ _ _ _ |- _ => destruct Hn as [_ [_ [i0 [Hb0 _]]]] end); eapply B; eassumption.
    - apply body_ok; [exact Eb|exact Ht|]. intros u Hu. apply IH. exact (tidy_part _ _ Ht Hu).
  Qed.

  (** ** It does not fail on harmless trees *)
  Fixpoint tsize (t : ltree) : nat :=
    match t with
    | Nd _ _ fs => S (fold_right (fun p n => tsize (snd p) + n) 0 fs)
    | Ls l => S (fold_right (fun v n => tsize v + n) 0 l)
    | At _ => 1
    end.
  Lemma tsize_field m k (fs : list (string * ltree)) f v : In (f, v) fs -> tsize v < tsize (Nd m k fs).
  Proof. intros H. cbn [tsize]. induction fs as [|[g w] fs IH]; [destruct H|]. cbn [fold_right snd]. destruct H as [Heq|H]; [inversion Heq; subst; lia|]. specialize (IH H). lia. Qed.
  Lemma tsize_elem (l : list ltree) v : In v l -> tsize v < tsize (Ls l).
  Proof. intros H. cbn [tsize]. induction l as [|w l IH]; [destruct H|]. cbn [fold_right]. destruct H as [->|H]; [lia|]. specialize (IH H). lia. Qed.
  Lemma tsize_args (c : ltree) x args a : denotes c x args -> In a args -> tsize a < tsize c.
  Proof.
    intros Hd Ha. inversion Hd; subst.
    - destruct Ha.
    - destruct Ha as [<-|[]]. eapply tsize_field. apply getf_In. eassumption.
    - eapply Nat.lt_trans; [|eapply tsize_field; apply getf_In; eassumption]. eapply Nat.lt_trans; [|eapply tsize_field; apply getf_In; eassumption]. apply tsize_elem. exact Ha.
    - eapply Nat.lt_trans; [|eapply tsize_field; apply getf_In; eassumption]. apply tsize_elem. exact Ha.
  Qed.
  Definition Tok (vis : ltree -> ccomp) (t : ltree) : Prop := forall c, exists r, vis t c = Some (XOk r).
  Lemma then_tok (f g : ccomp) : (forall c, exists r, f c = Some (XOk r)) -> (forall c, exists r, g c = Some (XOk r)) -> forall c, exists r, cthen f g c = Some (XOk r).
  Proof. intros Hf Hg c. unfold cthen. destruct (Hf c) as [r ->]. apply Hg. Qed.
  Lemma all_tok vis l : (forall t, In t l -> Tok vis t) -> forall c, exists r, cvisit_all vis l c = Some (XOk r).
  Proof. induction l as [|x l IH]; intros HF; cbn [cvisit_all]; [intros c; exists c; reflexivity|]. apply then_tok; [apply HF; left; reflexivity|apply IH; intros t Ht; apply HF; right; exact Ht]. Qed.
  Lemma fields_tok vis fs : (forall f v, In (f, v) fs -> is_node v = true -> Tok vis v) -> (forall f l v, In (f, Ls l) fs -> In v l -> is_node v = true -> Tok vis v) ->
    forall c, exists r, cgv_fields vis fs c = Some (XOk r).
  Proof.
    induction fs as [|[f v] fs IH]; intros H1 H2; cbn [cgv_fields]; [intros c; exists c; reflexivity|]. apply then_tok; [|apply IH; [intros g w Hin; apply (H1 g w (or_intror Hin))|intros g l w Hin; apply (H2 g l w (or_intror Hin))]].
    destruct v as [m k fv|l|a]; [exact (H1 f _ (or_introl eq_refl) eq_refl)| |intros c; exists c; reflexivity].
    apply all_tok. intros t Ht. apply filter_In in Ht. destruct Ht. eapply (H2 f l t (or_introl eq_refl)); assumption.
  Qed.
  Lemma macros_tok vis block l : Forall (fun it => exists cand x args, candidate_of block it = XOk cand /\ shaped cand /\ names_macro E b cand x args /\ ~ bad_call cand /\ forall a, In a args -> Tok vis a) l ->
    forall c, exists r, cmacros vis block l c = Some (XOk r).
  Proof.
    induction 1 as [|it l [cand [x [args [Hc [Hs [Hn [Hbad Ha]]]]]]] _ IH]; cbn [cmacros]; [intros c; exists c; reflexivity|]. intros c. rewrite Hc.
    destruct (destructure_validate cand x args Hs (proj1 Hn)) as [_ V2]. rewrite (V2 Hbad). apply then_tok; [apply all_tok; exact Ha|exact IH].
  Qed.
  Lemma harmless_part t u : harmless E b t -> part t u -> harmless E b u.
  Proof. intros H Hp v Hv. apply H. eapply part_trans; eassumption. Qed.
  Definition visitable (t : ltree) : Prop := is_none t = true \/ is_node t = true.
  Lemma typed_args (c : ltree) x args : typed c -> denotes c x args -> Forall (fun v => is_node v = true) args.
  Proof.
    intros Ht Hd. pose proof (Ht _ (pt_refl _)) as Hc. inversion Hd; subst; cbn in Hc; destruct Hc as [Hc1 Hc2].
    - constructor.
    - repeat constructor. eapply Hc1; [reflexivity|eassumption].
    - assert (Hp : part (Nd m "Subscript" fs) (Nd mt "Tuple" fst)) by (eapply pt_field; [discriminate|apply getf_In; eassumption|constructor]). destruct (Ht _ Hp) as [_ Hc3]. eapply Hc3; [|eassumption]. cbn. auto.
    - eapply Hc2; [|eassumption]. cbn. auto.
  Qed.
  Lemma typed_part t u : typed t -> part t u -> typed u.
  Proof. intros H Hp v Hv. apply H. eapply part_trans; eassumption. Qed.

  Theorem cvisit_total n : forall t, tsize t < n -> shaped t -> typed t -> harmless E b t -> (visitable t \/ exists l, t = Ls l /\ Forall visitable l) -> Tok (cvisit E b n) t.
  Proof.
    induction n as [|n IH]; intros t Hn Hs Hty Hh Hv c; [lia|]. cbn [cvisit]. unfold cvisit_body.
    destruct (match b with [] => true | _ => false end || is_kind "Done" t) eqn:Ed; [exists c; reflexivity|]. apply orb_false_iff in Ed. destruct Ed as [_ Ed].
    assert (IHv : forall u, part t u -> tsize u < tsize t -> (visitable u \/ exists l, u = Ls l /\ Forall visitable l) -> Tok (cvisit E b n) u).
    { intros u Hp Hlt Hu. apply IH; [lia|exact (shaped_part _ _ Hs Hp)|exact (typed_part _ _ Hty Hp)|exact (harmless_part _ _ Hh Hp)|exact Hu]. }
    assert (IHn : forall u, part t u -> tsize u < tsize t -> is_node u = true -> Tok (cvisit E b n) u) by (intros u Hp Hlt Hu; apply IHv; [exact Hp|exact Hlt|left; right; exact Hu]).
    destruct t as [m k fs|l|a].
    - cbn [is_kind] in Ed. apply String.eqb_neq in Ed. rename Ed into Hd. clear Hv.
      assert (Gen : forall c, exists r, cgv_fields (cvisit E b n) fs c = Some (XOk r)).
      { apply fields_tok.
        - intros f v Hin Hv. apply IHn; [eapply pt_field; [exact Hd|exact Hin|constructor]|eapply tsize_field; exact Hin|exact Hv].
        - intros f l v Hin Hv Hnode. apply IHn; [eapply pt_field; [exact Hd|exact Hin|]; eapply pt_elem; [exact Hv|constructor]|eapply Nat.lt_trans; [eapply tsize_elem; exact Hv|eapply tsize_field; exact Hin]|exact Hnode]. }
      assert (Arg : forall cand x args a, part (Nd m k fs) cand -> tsize cand < tsize (Nd m k fs) -> denotes cand x args -> In a args -> Tok (cvisit E b n) a).
      { intros cand x args a Hp Hlt Hdn Ha. apply IHn; [eapply part_trans; [exact Hp|eapply denotes_part; eassumption]|eapply Nat.lt_trans; [eapply tsize_args; eassumption|exact Hlt]|].
        pose proof (typed_args _ _ _ (typed_part _ _ Hty Hp) Hdn) as HF. rewrite Forall_forall in HF. exact (HF a Ha). }
      pose proof (Hh _ (pt_refl _)) as [Hh1 [Hh2 Hh3]]. pose proof (Hty _ (pt_refl _)) as [Ht1 Ht2].
      destruct (String.eqb_spec k "Subscript") as [->|Hk1].
      { destruct (shaped_field _ _ _ "value" FAny Hs ltac:(gram)) as [cand Hc]. destruct (shaped_field _ _ _ "slice" FAny Hs ltac:(gram)) as [sl Hsl]. cbn [fst] in Hc, Hsl.
        pose proof (shaped_get _ _ _ _ _ Hs Hd Hc) as Hsc. destruct (destructure_spec cand Hsc) as [d [Edd Hden]].
        unfold cvisit_Subscript. rewrite (attr_ok _ _ _ Hc).
        destruct d as [[x args]|].
        - assert (Hdn : denotes cand x args) by (apply Hden; reflexivity). destruct (destructure_validate cand x args Hsc Hdn) as [_ V2].
          rewrite (V2 (Hh1 eq_refl _ _ _ Hc Hdn)). destruct (ismacrocall E b x args "expr"); [|apply Gen].
          rewrite (attr_ok _ _ _ Hsl). apply then_tok.
          + apply all_tok. intros a Ha. eapply Arg; [eapply pt_field; [exact Hd|apply getf_In; exact Hc|constructor]|eapply tsize_field; apply getf_In; exact Hc|exact Hdn|exact Ha].
          + apply IHn; [eapply pt_field; [exact Hd|apply getf_In; exact Hsl|constructor]|eapply tsize_field; apply getf_In; exact Hsl|exact (Ht1 eq_refl _ Hsl)].
        - rewrite (destructure_none cand Edd). apply Gen. }
      destruct (String.eqb_spec k "With") as [->|Hk2].
      { destruct (shaped_field _ _ _ "items" FList Hs ltac:(gram)) as [items Hi]. destruct (shaped_field _ _ _ "body" FList Hs ltac:(gram)) as [body Hbd]. cbn [fst] in Hi, Hbd.
        destruct (with_flags _ _ _ Hs Hi) as [flags [Ef HF]]. pose proof (shaped_items _ _ _ Hs Hi) as HI. rewrite Forall_forall in HI.
        unfold cvisit_With. rewrite (attr_ok _ _ _ Hi). cbn [elements]. rewrite Ef. assert (Sel := select_iff _ _ HF).
        assert (Hlt : forall it, In it items -> tsize it < tsize (Nd m "With" fs)) by (intros it Hin; eapply Nat.lt_trans; [eapply tsize_elem; exact Hin|eapply tsize_field; apply getf_In; exact Hi]).
        destruct (select true items flags) as [|it0 ms] eqn:Es; [apply Gen|]. rewrite (attr_ok _ _ _ Hbd). apply then_tok; [|apply then_tok].
        - apply macros_tok. apply Forall_forall. intros it Hin. apply Sel in Hin. destruct Hin as [Hin [mi [ki [fi [cand [x [args [-> [Hc Hnm]]]]]]]]]. destruct (HI _ Hin) as [mi' [fi' [c' [ov [Heq [Hc' [_ Hsc]]]]]]]. inversion Heq; subst. assert (c' = cand) by congruence. subst.
          exists cand, x, args. split; [cbn; rewrite (attr_ok _ _ _ Hc); reflexivity|]. split; [exact Hsc|]. split; [exact Hnm|]. split; [eapply (Hh2 eq_refl); eassumption|].
          intros a Ha. eapply Arg; [eapply part_trans; [eapply item_part; eassumption|apply ctx_part; exact Hc]|eapply Nat.lt_trans; [eapply tsize_field; apply getf_In; exact Hc|apply Hlt; exact Hin]|exact (proj1 Hnm)|exact Ha].
        - apply all_tok. intros t Hin. apply (proj2 (Sel t)) in Hin. destruct Hin as [Hin _]. apply IHn; [eapply item_part; eassumption|apply Hlt; exact Hin|]. destruct (HI _ Hin) as [mi' [fi' [c' [ov [-> _]]]]]. reflexivity.
        - apply IHv; [eapply pt_field; [exact Hd|apply getf_In; exact Hbd|constructor]|eapply tsize_field; apply getf_In; exact Hbd|]. right. exists body. split; [reflexivity|]. eapply Forall_impl; [|eapply Ht2; [|exact Hbd]; cbn; auto]. intros a Ha. right. exact Ha. }
      destruct (String.eqb k "ClassDef" || String.eqb k "FunctionDef") eqn:Ek.
      { assert (Hk : k = "ClassDef"%string \/ k = "FunctionDef"%string) by (apply orb_true_iff in Ek; destruct Ek as [Ek|Ek]; apply String.eqb_eq in Ek; auto).
        assert (Hds : exists ds, getf "decorator_list" fs = Some (Ls ds)) by (destruct Hk as [->| ->]; destruct (shaped_field _ _ _ "decorator_list" FList Hs ltac:(gram)) as [ds Hds]; eauto).
        destruct Hds as [ds Hds]. destruct (dec_flags _ _ _ _ Hs Hd Hds) as [flags [Ef HF]]. pose proof (shaped_decs _ _ _ _ Hs Hd Hds) as HI. rewrite Forall_forall in HI.
        unfold cvisit_Decorated. rewrite (attr_ok _ _ _ Hds). cbn [elements]. rewrite Ef. assert (Sel := select_iff _ _ HF).
        assert (Hlt : forall it, In it ds -> tsize it < tsize (Nd m k fs)) by (intros it Hin; eapply Nat.lt_trans; [eapply tsize_elem; exact Hin|eapply tsize_field; apply getf_In; exact Hds]).
        assert (Hdn : Forall (fun v => is_node v = true) ds) by (eapply Ht2; [|exact Hds]; destruct Hk as [->| ->]; cbn; auto 7). rewrite Forall_forall in Hdn.
        destruct (select true ds flags) as [|it0 ms] eqn:Es; [apply Gen|]. apply then_tok; [|apply then_tok].
        - apply macros_tok. apply Forall_forall. intros it Hin. apply Sel in Hin. destruct Hin as [Hin [x [args Hnm]]]. exists it, x, args. split; [reflexivity|]. split; [exact (HI _ Hin)|]. split; [exact Hnm|]. split; [eapply Hh3; eassumption|].
          intros a Ha. eapply Arg; [eapply dec_part; eassumption|apply Hlt; exact Hin|exact (proj1 Hnm)|exact Ha].
        - apply all_tok. intros t Hin. apply (proj2 (Sel t)) in Hin. destruct Hin as [Hin _]. apply IHn; [eapply dec_part; eassumption|apply Hlt; exact Hin|apply Hdn; exact Hin].
        - apply all_tok. intros t Hin. apply in_map_iff in Hin. destruct Hin as [[f v] [<- Hin]]. apply filter_In in Hin. destruct Hin as [Hin Hf]. cbn [fst] in Hf. apply negb_true_iff in Hf. unfold smem in Hf. cbn in Hf. destruct (String.eqb_spec f "decorator_list"), (String.eqb_spec f "name"); try discriminate. cbn [snd].
          apply IHv; [eapply pt_field; [exact Hd|exact Hin|constructor]|eapply tsize_field; exact Hin|].
          destruct (proj1 (proj1 (Sel it0)) (or_introl eq_refl)) as [Hin0 [x [args Hnm]]]. destruct (Hh3 ds it0 x args Hk Hds Hin0 Hnm) as [_ Hf']. destruct (Hf' f v Hin ltac:(assumption) ltac:(assumption)) as [H1|[H1|H1]]; [left; left; exact H1|left; right; exact H1|right; exact H1]. }
      destruct (String.eqb_spec k "Name") as [->|Hk4]; [|apply Gen].
      destruct (shaped_field _ _ _ "id" FStr Hs ltac:(gram)) as [x Hx]. cbn [fst] in Hx. unfold cvisit_Name. rewrite (str_attr_ok _ _ _ Hx). destruct (ismacrocall E b x [] "name"); eexists; reflexivity.
    - destruct Hv as [[Hv|Hv]|[l' [Heq Hv]]]; try discriminate. inversion Heq; subst l'. apply all_tok. intros t Hin. rewrite Forall_forall in Hv. apply IHv; [eapply pt_elem; [exact Hin|constructor]|apply tsize_elem; exact Hin|left; exact (Hv t Hin)].
    - destruct Hv as [[Hv|Hv]|[l' [Heq Hv]]]; try discriminate. destruct a; try discriminate. exists c. reflexivity.
  Qed.
End Collect.
