From Coq Require Import Permutation.
From Verif Require Import Base AstLib HeapAst CtxModel CtxSpec CtxProofs CtxProofs2 CtxProofs3 CtxProofs4 CtxProofs5.

Lemma region_step2 h ov seen (F0 F1 S1 F2 S2 G H : nat -> Prop) h1 ov1 seen1 h2 ov2 seen2 :
  post h ov seen F1 S1 h1 ov1 seen1 -> post h1 ov1 seen1 F2 S2 h2 ov2 seen2 ->
  (forall i, F0 i \/ S1 i \/ F2 i \/ S2 i -> i < h_next h) ->
  (forall i, F0 i -> ~ F2 i /\ ~ S2 i) -> (forall i, S1 i -> ~ F2 i) ->
  (forall i, F0 i -> G i) -> (forall i, S1 i -> H i) ->
  forall i, region h h1 F0 S1 i -> region h h2 G H i /\ h_obj h2 i = h_obj h1 i.
Proof.
  intros P1 P2 HB HF HS HG HH i Hr.
  pose proof (p_next _ _ _ _ _ _ _ _ P1) as Hn1. pose proof (p_next _ _ _ _ _ _ _ _ P2) as Hn2.
  assert (E : h_obj h2 i = h_obj h1 i).
  { destruct Hr as [Hr|[Hr|[Hr|Hr]]].
    - apply (p_frame _ _ _ _ _ _ _ _ P2).
      + specialize (HB i (or_introl Hr)). lia.
      + apply (HF i Hr).
      + left. apply (HF i Hr).
    - apply (p_frame _ _ _ _ _ _ _ _ P2).
      + assert (i < h_next h) by (apply HB; auto). lia.
      + apply (HS i Hr).
      + right. apply (p_seen3 _ _ _ _ _ _ _ _ P1 i Hr).
    - apply (p_frame _ _ _ _ _ _ _ _ P2).
      + lia.
      + intros Hf. assert (i < h_next h) by (apply HB; auto). lia.
      + left. intros Hs. assert (i < h_next h) by (apply HB; auto). lia.
    - apply (p_leaf _ _ _ _ _ _ _ _ P2 i Hr). }
  split; [|exact E]. destruct Hr as [Hr|[Hr|[Hr|Hr]]].
  - left; auto.
  - right; left; auto.
  - right; right; left. lia.
  - right; right; right. destruct Hr as [k [Hk1 Hk2]]. exists k. rewrite E. auto.
Qed.

Lemma rep_fields_keys h k c fs gs F S : rep_fields h k c fs gs F S -> map fst gs = map fst fs.
Proof. induction 1; simpl; congruence. Qed.
Lemma head_tail {A} k (l : list A) : head_fields k l ++ tail_fields k l = l.
Proof. unfold head_fields, tail_fields. destruct (smem k ["For"; "AsyncFor"]%string); [apply firstn_skipn|apply app_nil_r]. Qed.
Lemma rep_node_keys h k c fs gs F1 S1 F2 S2 :
  rep_fields h k c (head_fields k fs) (head_fields k gs) F1 S1 ->
  rep_fields h k c (tail_fields k fs) (tail_fields k gs) F2 S2 -> map fst gs = map fst fs.
Proof.
  intros H1 H2. apply rep_fields_keys in H1, H2. rewrite <- (head_tail k fs), <- (head_tail k gs), !map_app. congruence.
Qed.

Lemma gv_keys_app visit i a b s :
  gv_keys visit i (a ++ b) s = match gv_keys visit i a s with Rt s1 => gv_keys visit i b s1 | Ex e => Ex e | NoFuel => NoFuel end.
Proof.
  revert s. induction a as [|f a IH]; intros s; [reflexivity|]. cbn [app gv_keys].
  destruct (h_obj (w_heap s) i) as [[k fs|l]|]; try reflexivity.
  destruct (vget f fs) as [[j|at_]|]; try apply IH.
  destruct (h_obj (w_heap s) j) as [[k' fs'|l]|]; try reflexivity.
  - destruct (visit (VRef j) s) as [|e|[v' s1]]; try reflexivity.
    destruct (h_obj (w_heap s1) i) as [[k2 fs2|l2]|]; try reflexivity. apply IH.
  - destruct (gv_elts visit l s) as [|e|[l' s1]]; try reflexivity. apply IH.
Qed.

Lemma setup_bare k : fields_ok k [] = true -> setup k = [].
Proof.
  intros H. destruct (setup k) as [|[[f c] g] r] eqn:E; [reflexivity|].
  exfalso. apply (fields_ok_setup k [] H f c g). rewrite E. left; reflexivity.
Qed.

Lemma ctxname_fields c : ctxname c -> fields_ok c [] = true /\ setup c = [].
Proof. intros [H|[H|H]]; subst; split; reflexivity. Qed.

Lemma visit_bare copy n cur h ov seen i k :
  h_obj h i = Some (ONode k []) -> ctx_class k = false -> setup k = [] ->
  visit copy (S n) cur (VRef i) (mkWst h ov seen) = Rt (VRef i, mkWst h (ov_del (VRef i) ov) seen).
Proof.
  intros Ho Hk Hs. cbn [visit w_heap w_ov w_seen]. rewrite Ho. unfold fix_one. rewrite has_ctx_class, Hk.
  cbn [w_heap]. rewrite Ho, Hs. reflexivity.
Qed.

Section Node.
  Variable copy : bool.
  Notation VOK := (VOK copy).

  Lemma vok_bare k : ctx_class k = false -> VOK (Nd tt k []).
  Proof.
    intros Hk n cur c v h ov seen F S Hc Hr Hs _ Hh Hcp Hn Hi Hpre.
    assert (Hv : exists i, v = VRef i /\ h_obj h i = Some (ONode k []) /\ F = [] /\ S = []).
    { inversion Hr; subst.
      - eauto.
      - match goal with H : [] = _ \/ _ |- _ => destruct H as [H|[? H]]; discriminate end.
      - exfalso. 
        assert (Hk' : map fst fs = []) by (symmetry; eapply (rep_node_keys h k c fs []); eassumption).
        assert (fs = []) by (destruct fs; [reflexivity|discriminate]).
        match goal with H : ctx_class k = true \/ fs <> [] |- _ => destruct H; congruence end. }
    destruct Hv as [i [-> [Ho [-> ->]]]].
    destruct n as [|n]; [simpl in Hh; lia|].
    assert (Hst : setup k = []). { apply setup_bare. cbn [sound map] in Hs. apply andb_true_iff in Hs. destruct Hs as [Hs _]. apply andb_true_iff in Hs. apply Hs. }
    exists (VRef i), h, (ov_del (VRef i) ov), seen. split; [apply (visit_bare copy n cur h ov seen i k Ho Hk Hst)|].
    assert (Hl : leaf h i) by (exists k; auto).
    assert (Hov : forall x, ovg (ov_del (VRef i) ov) x = ovg ov x).
    { intros x. rewrite ov_get_del, val_eqb_ref. destruct (Nat.eqb i x) eqn:E; [|reflexivity]. apply Nat.eqb_eq in E; subst.
      symmetry. apply (i_ovl _ _ _ _ _ Hi). exact Hl. }
    split; [|split; [|intros _; split; [reflexivity|apply keep_refl]]].
    - constructor; simpl; try tauto.
      + lia.
      + apply (i_wf _ _ _ _ _ Hi).
      + apply incl_refl.
      + intros x _ _. apply Hov.
    - cbn [set_ctx]. rewrite Hk. cbn [map rdt]. exists i, []. split; [reflexivity|]. split; [right; right; right; exact Hl|].
      split; [exact Ho|exact I].
  Qed.

  (** A shared Name. *)
  Lemma vok_shared n cur c i a gs h ov seen :
    ctxname c -> name_obj h i a ->
    (gs = [("id", At a)] \/ exists kc, gs = [("id", At a); ("ctx", Nd tt kc [])])%string ->
    2 <= n -> copy = true ->
    inv h ov seen noids (eq i) ->
    eff cur ov i = c ->
    exists v' h' ov' seen',
      visit copy n cur (VRef i) (mkWst h ov seen) = Rt (v', mkWst h' ov' seen') /\
      post h ov seen noids (eq i) h' ov' seen' /\
      rdt (region h h' noids (eq i)) h' (set_ctx c (Nd tt "Name" gs)) v'.
  Proof.
    intros Hc Hno Hgs Hn Hcp Hi He.
    assert (Hilt : i < h_next h) by (apply (i_S _ _ _ _ _ Hi); reflexivity).
    assert (Hfs : exists fs, h_obj h i = Some (ONode "Name" fs) /\
              forall w, vset "ctx" w fs = [("id", VAt a); ("ctx", w)]%string).
    { destruct Hno as [Ho|[c0 [kc [Ho _]]]]; rewrite Ho; eexists; split; reflexivity. }
    destruct Hfs as [fs [Ho Hset]].
    assert (Hnl : ~ leaf h i) by (intros [k [Hk Hk2]]; rewrite Ho in Hk; inversion Hk; subst; discriminate).
    assert (Htree : set_ctx c (Nd tt "Name" gs) = Nd tt "Name" [("id", At a); ("ctx", Nd tt c [])]%string).
    { destruct Hgs as [->|[kc ->]]; reflexivity. }
    rewrite Htree. clear Htree Hgs.
    destruct n as [|[|n]]; try lia.
    set (dup := copy && existsb (Nat.eqb i) seen).
    set (j := if dup then h_next h else i).
    set (h1 := if dup then snd (halloc h (ONode "Name" fs)) else h).
    set (c0 := h_next h1).
    set (h2 := hset (snd (halloc h1 (ONode c []))) j (ONode "Name" [("id", VAt a); ("ctx", VRef c0)]%string)).
    assert (Hj1 : j < h_next h1) by (unfold j, h1; destruct dup; simpl; lia).
    assert (Hc0 : h_obj h2 c0 = Some (ONode c [])).
    { unfold h2. rewrite hset_other by (unfold c0; lia). apply halloc_new. }
    assert (Hj2 : h_obj h2 j = Some (ONode "Name" [("id", VAt a); ("ctx", VRef c0)])%string) by apply hset_same.
    set (ov1 := ov_del (VRef c0) (ov_del (VRef i) ov)).
    set (h3 := hset h2 j (ONode "Name" [("id", VAt a); ("ctx", VRef c0)]%string)).
    exists (VRef j), h3, ov1, (j :: seen).
    destruct (ctxname_fields c Hc) as [_ Hst].
    split.
    { remember (S n) as n1. cbn [visit w_heap w_ov w_seen]. rewrite Ho. fold (eff cur ov i). rewrite He.
      unfold fix_one. rewrite has_ctx_class. change (ctx_class "Name") with true. cbv iota. cbn [w_heap w_seen w_ov].
      fold dup.
      replace (if dup then halloc h (ONode "Name" fs) else (i, h)) with (j, h1)
        by (unfold j, h1; destruct dup; reflexivity).
      cbn [halloc]. rewrite Hset.
      change (hset {| h_next := S (h_next h1); h_obj := fun j0 : nat => if Nat.eqb (h_next h1) j0 then Some (ONode c []) else h_obj h1 j0 |} j
               (ONode "Name" [("id"%string, VAt a); ("ctx"%string, VRef (h_next h1))])) with h2.
      cbn [w_heap]. rewrite Hj2. change (setup "Name") with (@nil (string * string * bool)). cbn [run_setup map fst gv_keys w_heap].
      rewrite !Hj2. cbn [vget]. rewrite !String.eqb_refl. cbn [String.eqb Ascii.eqb Bool.eqb].
      rewrite Hc0. subst n1. rewrite (visit_bare copy n c h2 _ _ c0 c Hc0 (ctxname_bare _ Hc) Hst). cbn [w_heap]. rewrite Hj2.
      reflexivity. }
    assert (Hdup : dup = true <-> In i seen).
    { unfold dup. rewrite Hcp. cbn [andb]. rewrite existsb_exists. split.
      - intros [x [Hx E]]. apply Nat.eqb_eq in E. subst; exact Hx.
      - intros Hx. exists i. split; [exact Hx|apply Nat.eqb_refl]. }
    assert (Hnext3 : h_next h3 = S (h_next h1)) by reflexivity.
    assert (Hn1 : h_next h <= h_next h1) by (unfold h1; destruct dup; simpl; lia).
    assert (Hold : forall x, x < h_next h -> x <> j -> h_obj h3 x = h_obj h x).
    { intros x Hx Hxj. unfold h3. rewrite hset_other by auto. unfold h2. rewrite hset_other by auto.
      rewrite halloc_old by lia. unfold h1. destruct dup; [apply halloc_old; exact Hx|reflexivity]. }
    assert (Hj3 : h_obj h3 j = Some (ONode "Name" [("id", VAt a); ("ctx", VRef c0)])%string) by apply hset_same.
    assert (Hc3 : h_obj h3 c0 = Some (ONode c [])).
    { unfold h3. rewrite hset_other by (unfold c0; lia). exact Hc0. }
    assert (Hjold : j < h_next h -> j = i).
    { unfold j. destruct dup; [lia|reflexivity]. }
    assert (Hlf : forall x, leaf h x -> h_obj h3 x = h_obj h x).
    { intros x Hx. apply Hold.
      - destruct Hx as [k [Hk _]]. apply (i_wf _ _ _ _ _ Hi). congruence.
      - intros E. subst x. destruct (Nat.lt_ge_cases j (h_next h)) as [Hlt|Hge].
        + rewrite (Hjold Hlt) in Hx. contradiction.
        + destruct Hx as [k [Hk _]]. assert (j < h_next h) by (apply (i_wf _ _ _ _ _ Hi); congruence). lia. }
    assert (Hovi : ovg ov1 i = None).
    { unfold ov1. rewrite !ov_get_del, !val_eqb_ref, Nat.eqb_refl. destruct (Nat.eqb c0 i); reflexivity. }
    split.
    - constructor.
      + lia.
      + intros x Hx. destruct (Nat.eq_dec j x) as [E|E]; [subst; lia|]. unfold h3, h2 in Hx.
        rewrite !hset_other in Hx by exact E. simpl in Hx. destruct (Nat.eqb (h_next h1) x) eqn:E2; [apply Nat.eqb_eq in E2; lia|].
        unfold h1 in Hx |- *. rewrite Hnext3. unfold h1. destruct dup.
        * simpl in Hx |- *. destruct (Nat.eqb (h_next h) x) eqn:E3; [apply Nat.eqb_eq in E3; lia|].
          pose proof (i_wf _ _ _ _ _ Hi x Hx). lia.
        * pose proof (i_wf _ _ _ _ _ Hi x Hx). lia.
      + exact Hlf.
      + intros x Hx _ Hs. apply Hold; [exact Hx|]. intros E. subst x. pose proof (Hjold Hx) as Eji.
        destruct Hs as [Hs|Hs]; [congruence|]. rewrite Eji in Hs. apply Hdup in Hs. unfold j in Hx. rewrite Hs in Hx. lia.
      + intros x b Hx _ Hnb. destruct (Nat.eq_dec x j) as [E|E].
        * subst x. pose proof (Hjold Hx) as Eji. rewrite Eji in Hnb.
          assert (b = a). { destruct Hnb as [Hb|[c1 [k1 [Hb _]]]], Hno as [Ha|[c2 [k2 [Ha _]]]]; rewrite Ha in Hb; inversion Hb; reflexivity. }
          subst b. right. exists c0, c. split; [exact Hj3|]. split; [exact Hc3|apply ctxname_bare, Hc].
        * destruct Hnb as [Hb|[c1 [k1 [Hb [Hb1 Hb2]]]]].
          -- left. rewrite Hold; auto.
          -- right. exists c1, k1. rewrite Hold by auto. split; [exact Hb|]. split; [|exact Hb2].
             rewrite Hlf; [exact Hb1|]. exists k1; auto.
      + intros x Hx. right; exact Hx.
      + intros x [Hx|Hx]; [|auto]. subst x. unfold j. destruct dup; [|auto].
        right; right; right. rewrite Hnext3. lia.
      + intros x Hx. subst x. unfold j. destruct dup eqn:D; [right; apply Hdup; reflexivity|left; reflexivity].
      + intros x _ Hx. unfold ov1. rewrite !ov_get_del, !val_eqb_ref.
        destruct (Nat.eqb i x) eqn:E2; [apply Nat.eqb_eq in E2; congruence|].
        destruct (Nat.eqb c0 x) eqn:E1; [|reflexivity]. apply Nat.eqb_eq in E1. symmetry. apply (i_ovb _ _ _ _ _ Hi).
        subst x. unfold c0. lia.
      + intros x [[]|Hx]. subst x. exact Hovi.
    - cbn [rdt]. exists j. eexists. split; [reflexivity|]. split.
      + unfold j. destruct dup; [right; right; left; lia|right; left; reflexivity].
      + split; [exact Hj3|]. cbn [all2 fst snd rdt]. split; [split; reflexivity|]. split; [|exact I]. split; [reflexivity|].
        exists c0, []. split; [reflexivity|]. split; [right; right; left; unfold c0; lia|]. split; [exact Hc3|exact I].
  Qed.
End Node.
