(** Proofs for C58. *)
From Verif Require Import Base AstLib UtilsModel FixLocModel MarkersModel QuoteModel HygieneModel ExpanderModel ExpanderSpec ExpanderProofs NestModel NestProofs4 NestProofs10 MetaModel StepModel StepProps RuntimeModel RuntimeSpec.

Section Snapshot.
  Variable dumps : nat -> res string.
  Variable loads : string -> option nat.
  (** Every bound macro function can be pickled, and comes back. *)
  Definition picklable (b : binds) : Prop := forall x i, In (x, i) b -> exists s, dumps i = Ok s /\ loads s = Some i.
  Lemma lookup_value_inj y s y' s' : lookup_value_ast y s = lookup_value_ast y' s' -> s = s'.
  Proof. intros H. unfold lookup_value_ast, p_call, nd, p_const, str in H. inversion H. reflexivity. Qed.
  Lemma captured_dict b : NoDup (map fst b) -> picklable b -> exists vs, captured_functions dumps b = Ok vs /\ dict_of loads (map (fun p => p_const (str (fst p))) b) vs b.
  Proof.
    induction b as [|[x i] b IH]; intros Hd Hp; [exists []; split; [reflexivity|constructor]|]. cbn [map fst] in *. inversion Hd; subst.
    destruct (IH H2 (fun y j H => Hp y j (or_intror H))) as (vs & E1 & D). destruct (Hp x i (or_introl eq_refl)) as (s & E2 & E3).
    exists (lookup_value_ast x s :: vs). split; [cbn [captured_functions]; rewrite E2, E1; reflexivity|]. constructor; assumption.
  Qed.
  Lemma dict_of_fun ks vs b : dict_of loads ks vs b -> forall b', dict_of loads ks vs b' -> b' = b.
  Proof.
    induction 1 as [|x y s i ks vs b H1 H2 H3 IH]; intros b' H.
    - inversion H. reflexivity.
    - remember (p_const (str x) :: ks) as K. remember (lookup_value_ast y s :: vs) as V. destruct H as [|x' y' s' i' ks' vs' b' G1 G2 G3]; [discriminate|].
      assert (x' = x) by (inversion HeqK; reflexivity). assert (Hk : ks' = ks) by exact (f_equal (@tl pv) HeqK). assert (Hv : vs' = vs) by exact (f_equal (@tl pv) HeqV).
      assert (Hs : s' = s) by exact (lookup_value_inj _ _ _ _ (f_equal (hd (PA ANone)) HeqV)). subst. rewrite (IH _ G3). congruence.
  Qed.
  Lemma bindings_ok b : NoDup (map fst b) -> picklable b -> exists ks vs, bindings_code dumps b = Ok (nd "Dict" [("keys"%string, PL ks); ("values"%string, PL vs)]) /\ dict_of loads ks vs b.
  Proof. intros Hd Hp. destruct (captured_dict b Hd Hp) as (vs & E1 & D). unfold bindings_code. rewrite E1. eauto. Qed.
  Lemma dict_tp ks vs b : dict_of loads ks vs b -> to_pv (of_pv (nd "Dict" [("keys"%string, PL ks); ("values"%string, PL vs)])) = nd "Dict" [("keys"%string, PL ks); ("values"%string, PL vs)].
  Proof.
    intros D. assert (K : (forall v, In v ks -> to_pv (of_pv v) = v) /\ (forall v, In v vs -> to_pv (of_pv v) = v)).
    { induction D as [|x y s i ks vs b H1 H2 H3 [K1 K2]]; [split; intros v []|]. split; intros v [<-|Hv]; auto. }
    apply tp_nd. intros f v [H|[H|[]]]; inversion H; subst; apply tp_pl; apply K.
  Qed.
  Lemma unpicklable_fails b x i e : In (x, i) b -> dumps i = Err e -> exists e', bindings_code dumps b = Err e'.
  Proof.
    intros Hin He. assert (K : exists e', captured_functions dumps b = Err e').
    { induction b as [|[y j] b IH]; [destruct Hin|]. cbn [captured_functions]. destruct (dumps j) as [s|e1] eqn:Ej; [|eauto]. destruct Hin as [H|H]; [inversion H; subst; congruence|].
      destruct (IH H) as [e' ->]. eauto. }
    destruct K as [e' K]. exists e'. unfold bindings_code. rewrite K. reflexivity.
  Qed.
End Snapshot.

Section Code.
  Variable filename : string.
  Variable dumps : nat -> res string.
  Variable loads : string -> option nat.
  Variables (E : string -> env nat) (ev : pv -> res pv).
  (** The call that the macros make, when it is run. *)
  Lemma code_runs once ks vs b tc z r : dict_of loads ks vs b -> ev tc = Ok z ->
    (runs_to loads E ev (expandr_code filename once (nd "Dict" [("keys"%string, PL ks); ("values"%string, PL vs)]) tc) r <-> exists n, runtime_expand (E filename) n once b (of_pv z) = Some r).
  Proof.
    intros D He. split.
    - intros (once' & ks' & vs' & b' & f & tc' & v & n & Hc & D' & He' & H). unfold expandr_code, p_call, p_kw, nd, p_const, str in Hc.
      assert (Ho : once' = once) by (destruct once, once'; [reflexivity|exfalso; inversion Hc..|reflexivity]).
      assert (Hk : ks' = ks /\ vs' = vs /\ f = filename /\ tc' = tc) by (inversion Hc; auto). destruct Hk as (-> & -> & -> & ->). subst once'.
      rewrite (dict_of_fun loads _ _ _ D _ D') in H. rewrite He in He'. inversion He'; subst. eauto.
    - intros [n H]. exists once, ks, vs, b, filename, tc, z, n. auto.
  Qed.
  Lemma code_tp once d tc : to_pv (of_pv d) = d -> to_pv (of_pv tc) = tc -> to_pv (of_pv (expandr_code filename once d tc)) = expandr_code filename once d tc.
  Proof.
    intros H1 H2. apply tp_call; [destruct once; reflexivity|intros v []|]. intros v [<-|[<-|[<-|[]]]]; [|reflexivity|]; apply tp_nd; intros f v [H|[H|[]]]; inversion H; subst; auto.
  Qed.
End Code.

Lemma runtime_expands E once b t r : (exists n, runtime_expand E n once b t = Some r) <-> expands E once b t r.
Proof.
  unfold runtime_expand, expands. split.
  - intros [n H]. exists n. destruct once.
    + destruct (visit_once E n t (mkSt b true 0 [])) as [[[d|e] s]|] eqn:Ev; [|inversion H; eauto|discriminate]. destruct (once_done _ _ _ _ _ _ Ev) as (u & s0 & -> & _).
      inversion H. eexists. reflexivity.
    + destruct (visit_recursively E n t (mkSt b true 0 [])) as [[[d|e] s]|]; [| |discriminate]; inversion H; eauto.
  - intros (n & s & H). exists n. destruct once; rewrite H; destruct r; reflexivity.
Qed.
