(** Proofs about macros that always raise. *)
From Verif Require Import Base AstLib FixLocModel ExpanderModel ExpanderSpec ExpanderProofs ExpanderProofs2 ExpanderProofs3 ExpanderProofs4 ExpanderProofs5 MisplacedModel.

(** A macro function that raises SyntaxError, whatever it is given. *)
Definition refuses {U} (M : mdef U) : Prop := forall i, exists msg, m_run M i = Raise (refusal msg).

(** [exposed E b t u]: [u] occurs in [t], outside Done, and no node around it is an invocation. *)
Inductive exposed {U} (E : env U) (b : binds) : ltree -> ltree -> Prop :=
| xp_here t : exposed E b t t
| xp_node m k fs f v u : k <> "Done"%string -> k <> "Name"%string -> (forall x syn, ~ invokes E b (Nd m k fs) x syn) -> In (f, v) fs -> is_node v = true ->
    exposed E b v u -> exposed E b (Nd m k fs) u
| xp_list m k fs f l v u : k <> "Done"%string -> k <> "Name"%string -> (forall x syn, ~ invokes E b (Nd m k fs) x syn) -> In (f, Ls l) fs -> In v l -> is_node v = true ->
    exposed E b v u -> exposed E b (Nd m k fs) u
| xp_elem l v u : In v l -> exposed E b v u -> exposed E b (Ls l) u.

(** What the refusal of [x] looks like: MacroApplicationError with the place of the invocation, caused by the SyntaxError; or, for a call without
    arguments or with starred ones, the SyntaxError of the expander itself. *)
Definition refused_with {U} (E : env U) (b : binds) (t : ltree) (e : xerr) : Prop :=
  exists u c x i, part t u /\ next_call E b u c x i /\
    ((bad_call c /\ e = syntax_error) \/
     (~ bad_call c /\ exists j msg, bound b x j /\ m_run (x_macro E j) i = Raise (refusal msg) /\ e = XErr (mkExn mae [site E i x]) (Some (refusal msg)))).

Section Refused.
  Context {U : Type}.
  Variable E : env U.
  Hypothesis Hexc : forall e, x_isexc E e = true.

  Lemma bad_call_dec {M} (c : tree M) : bad_call c \/ ~ bad_call c.
  Proof.
    unfold bad_call. destruct c as [m k fs|l|a]; try (right; intros (? & ? & ? & H & _); discriminate).
    destruct (String.eqb_spec k "Call") as [->|Hk]; [|right; intros (? & ? & ? & H & _); congruence].
    destruct (getf "args" fs) as [[?|l|?]|] eqn:Ea; try (right; intros (? & ? & ? & H & Ha & _); inversion H; subst; congruence).
    destruct l as [|a l]; [left; exists m, fs, []; auto|].
    destruct (existsb (is_kind "Starred") (a :: l)) eqn:Es.
    - left. exists m, fs, (a :: l). split; [reflexivity|]. split; [exact Ea|]. right. now apply existsb_starred.
    - right. intros (m' & fs' & args & H & Ha & Hx). inversion H; subst. rewrite Ea in Ha. inversion Ha; subst. destruct Hx as [Hx|Hx]; [discriminate|].
      apply existsb_starred in Hx. congruence.
  Qed.

  Lemma refused_here n s t c x i j : shaped t -> next_call E (s_b s) t c x i -> bound (s_b s) x j -> refuses (x_macro E j) ->
    exists e s', visit E (S (S n)) t s = Some (XRaise e, s') /\ refused_with E (s_b s) t e.
  Proof.
    intros Hs Hn Hb Hr. destruct (bad_call_dec c) as [Hbad|Hbad].
    - exists syntax_error, s. split; [now apply (visit_next E (S n) s t c x i Hs Hn)|]. exists t, c, x, i. split; [constructor|]. auto.
    - destruct (Hr i) as [msg Hm].
      assert (Ho : macro_outcome E (S n) s x i (XRaise (refusal msg)) (called_in x i s)).
      { exists j. split; [exact Hb|]. rewrite Hm. reflexivity. }
      rewrite (visit_outcome E (S n) s t c x i _ _ Hs Hn Hbad Ho). unfold expanded. 
      assert (R : forall e', report E e' (refusal msg) = XErr (mkExn mae [e']) (Some (refusal msg))) by (intros e'; unfold report, refusal, plain; rewrite Hexc; reflexivity).
      exists (XErr (mkExn mae [site E i x]) (Some (refusal msg))).
      destruct (String.eqb (in_syntax i) "name"); cbn; rewrite ?R, ?Hexc; cbn [negb]; eexists; (split; [reflexivity|]); exists t, c, x, i; (split; [constructor|]); split; auto; right; split; auto; exists j, msg; auto.
  Qed.

  (** ** Never a result *)
  Section Never.
    Hypothesis Hmac : forall j i, keeps_binds (m_run (x_macro E j) i).
    Definition never (n : nat) (b : binds) (t : ltree) : Prop := forall s t' s', s_b s = b -> visit E n t s <> Some (XOk t', s').
    Lemma never_list n b l v : In v l -> is_node v = true -> never n b v -> forall s l' s', s_b s = b -> xgv_list (visit E n) l s <> Some (XOk l', s').
    Proof.
      intros Hin Hn Hv. induction l as [|x l IH]; [destruct Hin|]. intros s l' s' Hs. cbn [xgv_list]. destruct Hin as [->|Hin].
      - destruct v; try discriminate. unfold bnd. destruct (visit E n (Nd m k fs) s) as [[[t'|e] s1]|] eqn:Ev; try discriminate. intros _. exact (Hv s t' s1 Hs Ev).
      - specialize (IH Hin). assert (G : forall s1 (f : list ltree -> list ltree), s_b s1 = b -> bnd (xgv_list (visit E n) l) (fun r' => ret (f r')) s1 <> Some (XOk l', s')).
        { intros s1 f Hb. unfold bnd. destruct (xgv_list (visit E n) l s1) as [[[r|e] s2]|] eqn:Er; try discriminate. intros _. exact (IH s1 r s2 Hb Er). }
        destruct x as [m k fs|y|a]; [|exact (G s (fun r => Ls y :: r) Hs)|exact (G s (fun r => At a :: r) Hs)].
        unfold bnd at 1. destruct (visit E n (Nd m k fs) s) as [[[t'|e] s1]|] eqn:Ev; try discriminate. pose proof (visit_binds E Hmac _ _ _ _ _ Ev) as Hb1. rewrite Hs in Hb1.
        destruct t' as [m' k' fs'|y|[]]; try discriminate; [exact (G s1 (fun r => Nd m' k' fs' :: r) Hb1)|exact (G s1 (fun r => (y ++ r)%list) Hb1)|exact (IH s1 l' s' Hb1)].
    Qed.
    Lemma list_binds n l : forall s r s', xgv_list (visit E n) l s = Some (r, s') -> s_b s' = s_b s.
    Proof.
      induction l as [|x l IH]; intros s r s' H; [inversion H; reflexivity|]. cbn [xgv_list] in H.
      assert (G : forall s1 (f : list ltree -> list ltree), bnd (xgv_list (visit E n) l) (fun r' => ret (f r')) s1 = Some (r, s') -> s_b s' = s_b s1).
      { intros s1 f H1. unfold bnd in H1. destruct (xgv_list (visit E n) l s1) as [[[r1|e] s2]|] eqn:Er; try discriminate; apply IH in Er; inversion H1; subst; exact Er. }
      destruct x as [m k fs|y|a]; [|exact (G s (fun r => Ls y :: r) H)|exact (G s (fun r => At a :: r) H)].
      unfold bnd in H at 1. destruct (visit E n (Nd m k fs) s) as [[[t'|e] s1]|] eqn:Ev; try discriminate; pose proof (visit_binds E Hmac _ _ _ _ _ Ev) as Hb1; [|inversion H; subst; exact Hb1].
      rewrite <- Hb1. destruct t' as [m' k' fs'|y|[]]; try (inversion H; subst; reflexivity); [exact (G s1 (fun r => Nd m' k' fs' :: r) H)|exact (G s1 (fun r => (y ++ r)%list) H)|exact (IH _ _ _ H)].
    Qed.
    Lemma never_fields n b fs (P : string * ltree -> Prop) :
      (exists f v, In (f, v) fs /\ ((is_node v = true /\ never n b v) \/ exists l w, v = Ls l /\ In w l /\ is_node w = true /\ never n b w)) ->
      forall s fs' s', s_b s = b -> xgv_fields (visit E n) fs s <> Some (XOk fs', s').
    Proof.
      intros (f & v & Hin & Hv). induction fs as [|[g y] fs IH]; [destruct Hin|]. intros s fs' s' Hs. cbn [xgv_fields].
      assert (G : In (f, v) fs -> forall s1 (h : list (string * ltree) -> list (string * ltree)), s_b s1 = b -> bnd (xgv_fields (visit E n) fs) (fun r' => ret (h r')) s1 <> Some (XOk fs', s')).
      { intros Hi s1 h Hb. unfold bnd. destruct (xgv_fields (visit E n) fs s1) as [[[r|e] s2]|] eqn:Er; try discriminate. intros _. exact (IH Hi s1 r s2 Hb Er). }
      destruct Hin as [Heq|Hin].
      - inversion Heq; subst g y. destruct Hv as [[Hn Hv]|(l & w & -> & Hw & Hn & Hv)].
        + destruct v; try discriminate. unfold bnd at 1. destruct (visit E n (Nd m k fs0) s) as [[[t'|e] s1]|] eqn:Ev; try discriminate. intros _. exact (Hv s t' s1 Hs Ev).
        + unfold bnd at 1. destruct (xgv_list (visit E n) l s) as [[[l'|e] s1]|] eqn:El; try discriminate. intros _. exact (never_list n b l w Hw Hn Hv s l' s1 Hs El).
      - destruct y as [m k gs|l|a]; [| |exact (G Hin s (fun r => (g, At a) :: r) Hs)].
        + unfold bnd at 1. destruct (visit E n (Nd m k gs) s) as [[[t'|e] s1]|] eqn:Ev; try discriminate. pose proof (visit_binds E Hmac _ _ _ _ _ Ev) as Hb1. rewrite Hs in Hb1.
          destruct t' as [m' k' fs''|l|[]]; try exact (G Hin s1 (fun r => (g, _) :: r) Hb1). exact (IH Hin s1 fs' s' Hb1).
        + unfold bnd at 1. destruct (xgv_list (visit E n) l s) as [[[l'|e] s1]|] eqn:El; try discriminate. pose proof (list_binds _ _ _ _ _ El) as Hb1. rewrite Hs in Hb1.
          exact (G Hin s1 (fun r => (g, Ls l') :: r) Hb1).
    Qed.
    Lemma exposed_never b t u c x i j : exposed E b t u -> shaped t -> next_call E b u c x i -> bound b x j -> refuses (x_macro E j) -> forall n, never n b t.
    Proof.
      intros Hx Hs Hn Hb Hr. destruct (next_bound E _ _ _ _ _ Hn) as [Hne _]. induction Hx as [t|m k fs f v u Hd Hnm Hno Hin Hv _ IH|m k fs f l v u Hd Hnm Hno Hin Hl Hv _ IH|l v u Hin _ IH].
      - intros n s t' s' Es H. rewrite <- Es in *. destruct (refused_here n s t c x i j Hs Hn Hb Hr) as (e & s1 & Hv & _).
        apply (visit_mono_le E n (S (S n)) t) in H; [|lia]. rewrite Hv in H. discriminate.
      - assert (Hsv : shaped v) by (eapply shaped_part; [exact Hs|]; eapply pt_field; [exact Hd|exact Hin|constructor]). specialize (IH Hsv Hn).
        intros [|n] s t' s' Es; [discriminate|]. rewrite <- Es in *. rewrite (visit_generic E n s m k fs Hs Hd Hne).
        2:{ intros c' x' i' H. destruct (proj1 (invokes_next E (s_b s) m k fs Hs Hd)) as (y & syn & Hi); [eauto|]. exact (Hno _ _ Hi). }
        destruct (String.eqb_spec k "Name") as [->|_]; [congruence|]. unfold xgeneric_visit, bnd. destruct (xgv_fields (visit E n) fs s) as [[[r|e] s1]|] eqn:Ef; try discriminate. intros _.
        refine (never_fields n (s_b s) fs (fun _ => True) _ s r s1 eq_refl Ef). exists f, v. split; [exact Hin|]. left. split; [exact Hv|apply IH].
      - assert (Hsv : shaped v) by (eapply shaped_part; [exact Hs|]; eapply pt_field; [exact Hd|exact Hin|]; eapply pt_elem; [exact Hl|constructor]). specialize (IH Hsv Hn).
        intros [|n] s t' s' Es; [discriminate|]. rewrite <- Es in *. rewrite (visit_generic E n s m k fs Hs Hd Hne).
        2:{ intros c' x' i' H. destruct (proj1 (invokes_next E (s_b s) m k fs Hs Hd)) as (y & syn & Hi); [eauto|]. exact (Hno _ _ Hi). }
        destruct (String.eqb_spec k "Name") as [->|_]; [congruence|]. unfold xgeneric_visit, bnd. destruct (xgv_fields (visit E n) fs s) as [[[r|e] s1]|] eqn:Ef; try discriminate. intros _.
        refine (never_fields n (s_b s) fs (fun _ => True) _ s r s1 eq_refl Ef). exists f, (Ls l). split; [exact Hin|]. right. exists l, v. repeat split; auto.
      - assert (Hsv : shaped v) by (eapply shaped_part; [exact Hs|]; eapply pt_elem; [exact Hin|constructor]). specialize (IH Hsv Hn).
        intros [|n] s t' s' Es; [discriminate|]. rewrite <- Es in *. cbn [visit]. unfold visit_body. cbn [is_kind]. rewrite orb_false_r. destruct (s_b s) eqn:Eb; [congruence|]. rewrite <- Eb in *. clear Eb.
        unfold bnd. destruct (xvisit_elts (visit E n) l s) as [[[r|e] s1]|] eqn:El; try discriminate. intros _. clear Es Hs. revert s r s1 El IH Hne Hn Hb.
        induction l as [|y l IHl]; intros s r s1 El IH Hne Hn Hb; [destruct Hin|]. cbn [xvisit_elts] in El. unfold bnd in El. destruct (visit E n y s) as [[[y'|e] s2]|] eqn:Ev; try discriminate.
        destruct Hin as [->|Hin]; [exact (IH n s y' s2 eq_refl Ev)|]. destruct (xvisit_elts (visit E n) l s2) as [[[r2|e] s3]|] eqn:El2; try discriminate.
        pose proof (visit_binds E Hmac _ _ _ _ _ Ev) as Hb1. apply (IHl Hin s2 r2 s3 El2); rewrite Hb1; assumption.
    Qed.
  End Never.

  (** ** The error, where nothing else is invoked *)
  Section Only.
    Variable s : st U.
    Hypothesis Hne : s_b s <> [].
    Definition raises (t : ltree) (e : xerr) (n : nat) : Prop := forall n', n <= n' -> exists s', visit E n' t s = Some (XRaise e, s').
    Definition settled (t : ltree) : Prop := quiet E (s_b s) t \/ exists e n, raises t e n /\ refused_with E (s_b s) t e.
    Lemma quiet_same' t : shaped t -> quiet E (s_b s) t -> is_node t = true -> exists n, forall n', n <= n' -> visit E n' t s = Some (XOk t, s).
    Proof. intros A B C. destruct (quiet_same E s t A B C) as [n H]. exists n. intros n' Hle. exact (same_le E n n' s t Hle H). Qed.
    Lemma refused_part t u e : part t u -> refused_with E (s_b s) u e -> refused_with E (s_b s) t e.
    Proof. intros Hp (v & c & x & i & Hv & H). exists v, c, x, i. split; [eapply part_trans; eauto|exact H]. Qed.

    Lemma settled_list l : (forall v, In v l -> is_node v = true -> shaped v /\ settled v) ->
      (forall v, In v l -> is_node v = true -> quiet E (s_b s) v) /\ (exists n, forall n', n <= n' -> xgv_list (visit E n') l s = Some (XOk l, s)) \/
      exists v e n, In v l /\ refused_with E (s_b s) v e /\ forall n', n <= n' -> exists s', xgv_list (visit E n') l s = Some (XRaise e, s').
    Proof.
      induction l as [|x l IH]; intros H; [left; split; [intros v []|exists 0; reflexivity]|]. specialize (IH (fun v Hv => H v (or_intror Hv))).
      assert (X : (is_node x = false \/ is_node x = true /\ quiet E (s_b s) x /\ exists n, forall n', n <= n' -> visit E n' x s = Some (XOk x, s)) \/
                  exists e n, is_node x = true /\ raises x e n /\ refused_with E (s_b s) x e).
      { destruct (is_node x) eqn:En; [|auto]. destruct (H x (or_introl eq_refl) En) as [Hsx [Hq|(e & n & Hr)]]; [left; right; auto using quiet_same'|right; eauto]. }
      destruct X as [X|(e & n & En & Hr & Hw)].
      - destruct IH as [[Q (n & Hn)]|(v & e & n & Hin & Hw & Hn)].
        + left. split.
          * intros v [<-|Hv] Hnv; [destruct X as [X|X]; [congruence|tauto]|auto].
          * destruct X as [X|(X & _ & n1 & H1)]; [exists n|exists (Nat.max n n1)]; intros n' Hle; cbn [xgv_list]; unfold bnd.
            -- destruct x; try discriminate; rewrite Hn by lia; reflexivity.
            -- destruct x; try discriminate. rewrite H1, Hn by lia. reflexivity.
        + right. exists v, e. destruct X as [X|(X & _ & n1 & H1)]; [exists n|exists (Nat.max n n1)]; (split; [right; exact Hin|]); (split; [exact Hw|]); intros n' Hle; cbn [xgv_list]; unfold bnd.
          * destruct (Hn n') as [s' Hs']; [lia|]. exists s'. destruct x; try discriminate; rewrite Hs'; reflexivity.
          * destruct (Hn n') as [s' Hs']; [lia|]. exists s'. destruct x; try discriminate. rewrite H1, Hs' by lia. reflexivity.
      - right. exists x, e, n. split; [left; reflexivity|]. split; [exact Hw|]. intros n' Hle. destruct (Hr n' Hle) as [s' Hs']. exists s'. destruct x; try discriminate. cbn [xgv_list]. unfold bnd. rewrite Hs'. reflexivity.
    Qed.
    Definition quiet_value (v : ltree) : Prop := (is_node v = true -> quiet E (s_b s) v) /\ forall l w, v = Ls l -> In w l -> is_node w = true -> quiet E (s_b s) w.
    Definition within (w v : ltree) : Prop := w = v \/ exists l, v = Ls l /\ In w l.
    Lemma settled_fields fs : (forall f v, In (f, v) fs -> (is_node v = true -> shaped v /\ settled v) /\ forall l w, v = Ls l -> In w l -> is_node w = true -> shaped w /\ settled w) ->
      (forall f v, In (f, v) fs -> quiet_value v) \/
      exists f v w e n, In (f, v) fs /\ within w v /\ refused_with E (s_b s) w e /\ forall n', n <= n' -> exists s', xgv_fields (visit E n') fs s = Some (XRaise e, s').
    Proof.
      intros H. assert (G : (forall f v, In (f, v) fs -> quiet_value v) /\ (exists n, forall n', n <= n' -> xgv_fields (visit E n') fs s = Some (XOk fs, s)) \/
        exists f v w e n, In (f, v) fs /\ within w v /\ refused_with E (s_b s) w e /\ forall n', n <= n' -> exists s', xgv_fields (visit E n') fs s = Some (XRaise e, s')); [|tauto].
      induction fs as [|[g y] fs IH]; [left; split; [intros f v []|exists 0; reflexivity]|]. specialize (IH (fun f v Hv => H f v (or_intror Hv))). destruct (H g y (or_introl eq_refl)) as [H1 H2]. clear H.
      assert (X : quiet_value y /\ (exists n, forall n' , n <= n' -> forall A (k : ltree -> comp A), match y with Ls l => bnd (xgv_list (visit E n') l) (fun l' => k (Ls l')) s | Nd _ _ _ => bnd (visit E n' y) k s | At _ => k y s end = k y s) \/
        exists w e n, within w y /\ refused_with E (s_b s) w e /\ forall n', n <= n' -> exists s', forall A (k : ltree -> @comp U A), match y with Ls l => bnd (xgv_list (visit E n') l) (fun l' => k (Ls l')) s | Nd _ _ _ => bnd (visit E n' y) k s | At _ => k y s end = Some (XRaise e, s')).
      { destruct y as [m k gs|l|a].
        - destruct (H1 eq_refl) as [Hsy [Hq|(e & n & Hr & Hw)]].
          + left. split; [split; [auto|discriminate]|]. destruct (quiet_same' _ Hsy Hq eq_refl) as [n Hn]. exists n. intros n' Hle A k'. unfold bnd. rewrite Hn by exact Hle. reflexivity.
          + right. exists (Nd m k gs), e, n. split; [left; reflexivity|]. split; [exact Hw|]. intros n' Hle. destruct (Hr n' Hle) as [s' Hs']. exists s'. intros A k'. unfold bnd. rewrite Hs'. reflexivity.
        - destruct (settled_list l (fun v Hv Hnv => H2 l v eq_refl Hv Hnv)) as [[Q (n & Hn)]|(v & e & n & Hin & Hw & Hn)].
          + left. split; [split; [discriminate|intros l' w E' Hw Hnw; inversion E'; subst; auto]|]. exists n. intros n' Hle A k'. unfold bnd. rewrite Hn by exact Hle. reflexivity.
          + right. exists v, e, n. split; [right; eauto|]. split; [exact Hw|]. intros n' Hle. destruct (Hn n' Hle) as [s' Hs']. exists s'. intros A k'. unfold bnd. rewrite Hs'. reflexivity.
        - left. split; [split; discriminate|]. exists 0. reflexivity. }
      destruct X as [[Q (n & Hn)]|(w & e & n & Hin & Hw & Hn)].
      - destruct IH as [[Qs (n1 & Hn1)]|(f & v & w & e & n1 & Hin & Hiw & Hw & Hn1)].
        + left. split; [intros f v [Heq|Hv]; [inversion Heq; subst; exact Q|exact (Qs f v Hv)]|]. exists (Nat.max n n1). intros n' Hle. cbn [xgv_fields].
          specialize (Hn n' ltac:(lia) _ (fun v' => match v' with At ANone => match y with Nd _ _ _ => xgv_fields (visit E n') fs | _ => bnd (xgv_fields (visit E n') fs) (fun r' => ret ((g, v') :: r')) end | _ => bnd (xgv_fields (visit E n') fs) (fun r' => ret ((g, v') :: r')) end)).
          destruct y as [m k gs|l|a]; (etransitivity; [exact Hn || (destruct a; reflexivity)|]); unfold bnd; rewrite Hn1 by lia; try destruct a; reflexivity.
        + right. exists f, v, w, e, (Nat.max n n1). split; [right; exact Hin|]. split; [exact Hiw|]. split; [exact Hw|]. intros n' Hle. destruct (Hn1 n') as [s' Hs']; [lia|]. exists s'. cbn [xgv_fields].
          specialize (Hn n' ltac:(lia) _ (fun v' => match v' with At ANone => match y with Nd _ _ _ => xgv_fields (visit E n') fs | _ => bnd (xgv_fields (visit E n') fs) (fun r' => ret ((g, v') :: r')) end | _ => bnd (xgv_fields (visit E n') fs) (fun r' => ret ((g, v') :: r')) end)).
          destruct y as [m k gs|l|a]; (etransitivity; [exact Hn || (destruct a; reflexivity)|]); unfold bnd; rewrite Hs'; try destruct a; reflexivity.
      - right. exists g, y, w, e, n. split; [left; reflexivity|]. split; [exact Hin|]. split; [exact Hw|]. intros n' Hle. destruct (Hn n' Hle) as [s' Hs']. exists s'. cbn [xgv_fields].
        specialize (Hs' _ (fun v' => match v' with At ANone => match y with Nd _ _ _ => xgv_fields (visit E n') fs | _ => bnd (xgv_fields (visit E n') fs) (fun r' => ret ((g, v') :: r')) end | _ => bnd (xgv_fields (visit E n') fs) (fun r' => ret ((g, v') :: r')) end)).
        destruct y as [m k gs|l|a]; (etransitivity; [|exact Hs']); try reflexivity; destruct a; reflexivity.
    Qed.

    Lemma only_settled t : tidy t -> is_node t = true ->
      (forall u x syn, part t u -> invokes E (s_b s) u x syn -> exists j, bound (s_b s) x j /\ refuses (x_macro E j)) -> settled t.
    Proof.
      induction t as [m k fs IH|l IH|a] using tree_ind2; intros Ht Hn Ho; try discriminate. pose proof (tidy_shaped _ Ht) as Hs.
      destruct (String.eqb_spec k "Done") as [->|Hd].
      { left. intros u x syn Hp Hi. inversion Hp; subst; [|congruence]. inversion Hi; subst; try congruence; repeat match goal with H : _ \/ _ |- _ => destruct H end; try discriminate; congruence. }
      destruct (next_dec E (s_b s) m k fs Hs Hd) as [(c & x & i & Hc)|Hno].
      - right. assert (Hj : exists j, bound (s_b s) x j /\ refuses (x_macro E j)).
        { assert (Hi : exists syn, invokes E (s_b s) (Nd m k fs) x syn).
          { inversion Hc; subst; eexists; [eapply inv_expr|eapply inv_block|eapply inv_dec|eapply inv_name]; eauto; apply in_or_app; right; left; reflexivity. }
          destruct Hi as [syn Hi]. exact (Ho _ x syn (pt_refl _) Hi). }
        destruct Hj as (j & Hb & Hr). destruct (refused_here 0 s _ c x i j Hs Hc Hb Hr) as (e & s' & Hv & Hw). exists e, 2. split; [|exact Hw].
        intros n' Hle. exists s'. exact (visit_mono_le E 2 n' _ Hle s _ Hv).
      - assert (Hni : forall x syn, ~ invokes E (s_b s) (Nd m k fs) x syn).
        { intros x syn Hi. destruct (proj2 (invokes_next E (s_b s) m k fs Hs Hd)) as (c & y & i & Hc); [eauto|]. exact (Hno c y i Hc). }
        destruct (String.eqb_spec k "Name") as [->|Hnm].
        { left. intros u x syn Hp Hi. inversion Hp as [|? ? ? f v ? ? Hin Hp'|]; subst; [exact (Hni _ _ Hi)|].
          destruct (Ht _ (pt_refl _)) as [_ (_ & HN & _)]. specialize (HN eq_refl f v Hin). destruct v as [m' k' [|? ?]|l|a]; try contradiction.
          - inversion Hp' as [|? ? ? ? ? ? ? Hin'|]; subst; [|destruct Hin']. inversion Hi; subst; discriminate.
          - inversion Hp'; subst. inversion Hi. }
        rewrite Forall_forall in IH.
        destruct (settled_fields fs) as [Q|(f & v & w & e & n & Hin & Hw & He & Hr)].
        + intros f v Hin. assert (Hp : forall u, part v u -> part (Nd m k fs) u) by (intros u Hu; eapply pt_field; eauto).
          destruct (IH _ Hin) as [IH1 IH2]. cbn [snd] in *. split.
          * intros Hnv. assert (Htv : tidy v) by (apply (tidy_part _ _ Ht), Hp; constructor). split; [now apply tidy_shaped|]. apply IH1; auto. intros u x syn Hu. apply Ho. auto.
          * intros l w -> Hw Hnw. assert (Hpw : forall u, part w u -> part (Nd m k fs) u) by (intros u Hu; apply Hp; eapply pt_elem; eauto).
            assert (Htw : tidy w) by (apply (tidy_part _ _ Ht), Hpw; constructor). split; [now apply tidy_shaped|]. 
            rewrite Forall_forall in IH2. apply (IH2 w Hw); auto. intros u x syn Hu. apply Ho. auto.
        + left. intros u x syn Hp Hi. inversion Hp as [|? ? ? f v ? ? Hin Hp'|]; subst; [exact (Hni _ _ Hi)|]. destruct (Q f v Hin) as [Q1 Q2]. destruct v as [m' k' fs'|l|a].
          * exact (Q1 eq_refl u x syn Hp' Hi).
          * inversion Hp' as [| |? w ? Hw Hp'']; subst; [inversion Hi|]. destruct w as [m' k' fs'|l'|a]; [exact (Q2 l _ eq_refl Hw eq_refl u x syn Hp'' Hi)| |inversion Hp''; subst; inversion Hi].
            assert (Htl : tidy_node (Ls l)) by (apply Ht; eapply pt_field; [exact Hd|exact Hin|constructor]). destruct Htl as [_ Htl]. rewrite Forall_forall in Htl. specialize (Htl _ Hw). discriminate.
          * inversion Hp'; subst; inversion Hi.
        + right. exists e, (S n). split.
          * intros [|n'] Hle; [lia|]. destruct (Hr n') as [s' Hs']; [lia|]. exists s'. rewrite (visit_generic E n' s m k fs Hs Hd Hne Hno). destruct (String.eqb_spec k "Name"); [congruence|].
            unfold xgeneric_visit, bnd. rewrite Hs'. reflexivity.
          * apply (refused_part _ w); [|exact He]. eapply pt_field; [exact Hd|exact Hin|]. destruct Hw as [->|(l & -> & Hw)]; [constructor|]. eapply pt_elem; [exact Hw|constructor].
    Qed.
  End Only.
End Refused.
