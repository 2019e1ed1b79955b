From Coq Require Import Permutation.
From Verif Require Import Base AstLib HeapAst CtxModel CtxSpec CtxProofs CtxProofs2 CtxProofs3 CtxProofs4 CtxProofs5 CtxProofs6.

Lemma sf_direct2 h k c fs gs js sl f v i : sf h k c fs gs js sl -> In (f, v) fs -> direct h v i ->
  exists s, In s sl /\ s_v s = VRef i /\ s_c s = demand k f c /\
    rep h (s_c s) (s_v s) (s_t s) (s_F s) (s_S s) /\
    (In (f, s_t s) gs \/ exists ts, In (f, Ls ts) gs /\ In (s_t s) ts).
Proof.
  induction 1 as [|f' a fs gs js sl H IH|f' v' t fs gs F S js sl Hr H IH|f' j vs ts fs gs js sl1 sl2 Ho He H IH];
    intros Hin Hd.
  - destruct Hin.
  - destruct Hin as [Hin|Hin].
    + inversion Hin; subst. destruct Hd as [[E _]|[j [l [E _]]]]; discriminate.
    + destruct (IH Hin Hd) as [s [A [B [C [D E]]]]]. exists s. repeat split; auto.
      destruct E as [E|[ts [E1 E2]]]; [left; right; exact E|right; exists ts; split; [right; exact E1|exact E2]].
  - destruct Hin as [Hin|Hin].
    + inversion Hin; subst. eexists. split; [left; reflexivity|]. cbn [s_v s_c s_t s_F s_S]. split; [|split; [reflexivity|split; [exact Hr|left; left; reflexivity]]].
      destruct Hd as [[E _]|[j [l [E [Hl _]]]]]; [exact E|]. exfalso. exact (rep_not_list _ _ _ _ _ _ _ _ Hr E Hl).
    + destruct (IH Hin Hd) as [s [A [B [C [D E]]]]]. exists s. repeat split; auto; [right; exact A|].
      destruct E as [E|[ts [E1 E2]]]; [left; right; exact E|right; exists ts; split; [right; exact E1|exact E2]].
  - destruct Hin as [Hin|Hin].
    + inversion Hin; subst. destruct Hd as [[E Hn]|[j' [l [E [Hl Hx]]]]].
      * inversion E; subst. exfalso. exact (Hn _ Ho).
      * inversion E; subst j'. rewrite Ho in Hl. inversion Hl; subst.
        destruct (se_direct _ _ _ _ _ _ He Hx) as [s [A [B C]]]. exists s.
        destruct (se_in _ _ _ _ _ _ He A) as [D1 [D2 [D3 D4]]].
        split; [apply in_or_app; auto|]. split; [exact B|]. split; [exact C|]. split; [rewrite C; exact D4|].
        right. exists ts. split; [left; reflexivity|exact D3].
    + destruct (IH Hin Hd) as [s [A [B [C [D E]]]]]. exists s. repeat split; auto; [apply in_or_app; auto|].
      destruct E as [E|[ts' [E1 E2]]]; [left; right; exact E|right; exists ts'; split; [right; exact E1|exact E2]].
Qed.

Lemma vget_In f fs v : vget f fs = Some v -> In (f, v) fs.
Proof.
  induction fs as [|[g w] fs IH]; [discriminate|]. simpl. destruct (String.eqb f g) eqn:E.
  - intros H; inversion H; subst. apply String.eqb_eq in E; subst. left; reflexivity.
  - intros H; right; auto.
Qed.
Lemma In_vget f fs v : NoDup (map fst fs) -> In (f, v) fs -> vget f fs = Some v.
Proof.
  induction fs as [|[g w] fs IH]; intros Hn H; [destruct H|]. destruct H as [H|H].
  - inversion H; subst. simpl. rewrite String.eqb_refl. reflexivity.
  - simpl in *. inversion Hn; subst. destruct (String.eqb f g) eqn:E; [|auto].
    apply String.eqb_eq in E; subst. exfalso. apply H2. change g with (fst (g, v)). apply in_map; exact H.
Qed.
Lemma vget_key f fs : In f (map fst fs) -> exists v, vget f fs = Some v.
Proof.
  induction fs as [|[g w] fs IH]; [intros []|]. simpl. intros H. destruct (String.eqb f g) eqn:E; [eauto|].
  destruct H as [H|H]; [subst; rewrite String.eqb_refl in E; discriminate|auto].
Qed.

(** What [sound] says about the fields. *)
Definition fieldsound (k c : string) (p : string * tree unit) : Prop :=
  let (f, v) := p in
  (if ctx_class k && String.eqb f "ctx" then bare v && sound "Load" v
   else if at_pos identifier_positions k f then negb (is_node v || is_list v)
   else match v with
        | Ls l => forallb (fun x => negb (is_list x) &&
                                    negb (at_pos expr_positions k f && bare x) &&
                                    sound (demand k f c) x) l
        | _ => negb (at_pos expr_positions k f && bare v) && sound (demand k f c) v
        end) = true.

Lemma expr_not_ctx k f : at_pos expr_positions k f = true -> ctx_class k && String.eqb f "ctx" = false.
Proof.
  intros H. apply at_pos_In in H. simpl in H. repeat (destruct H as [H|H]; [inversion H; subst; reflexivity|]). contradiction.
Qed.
Lemma expr_not_id k f : at_pos expr_positions k f = true -> at_pos identifier_positions k f = false.
Proof.
  intros H. apply at_pos_In in H. simpl in H. repeat (destruct H as [H|H]; [inversion H; subst; reflexivity|]). contradiction.
Qed.

Lemma child_not_bare k c gs f t : Forall (fieldsound k c) gs -> at_pos expr_positions k f = true ->
  (In (f, t) gs \/ exists ts, In (f, Ls ts) gs /\ In t ts) -> is_node t = true -> bare t = false.
Proof.
  intros HF He Hin Hnode. rewrite Forall_forall in HF.
  destruct Hin as [Hin|[ts [Hin Ht]]]; apply HF in Hin; cbn [fieldsound] in Hin;
    rewrite (expr_not_ctx _ _ He), (expr_not_id _ _ He), He in Hin.
  - destruct t; try discriminate. apply andb_true_iff in Hin. destruct Hin as [Hin _].
    apply negb_true_iff in Hin. exact Hin.
  - rewrite forallb_forall in Hin. apply Hin in Ht. apply andb_true_iff in Ht. destruct Ht as [Ht _].
    apply andb_true_iff in Ht. destruct Ht as [_ Ht]. apply negb_true_iff in Ht. exact Ht.
Qed.

Lemma child_inherits k c ks gs f t : fields_ok k ks = true -> In f ks -> Forall (fieldsound k c) gs ->
  (c = "Load"%string \/ ctx_class k = true) -> at_pos expr_positions k f = false ->
  (In (f, t) gs \/ exists ts, In (f, Ls ts) gs /\ In t ts) -> is_node t = true -> bare t = false ->
  demand k f c = c.
Proof.
  intros Hok Hf HF Hc He Hin Hnode Hb. rewrite Forall_forall in HF.
  assert (Hctx : ctx_class k && String.eqb f "ctx" = false).
  { destruct (ctx_class k && String.eqb f "ctx") eqn:E; [|reflexivity]. exfalso.
    destruct Hin as [Hin|[ts [Hin Ht]]]; apply HF in Hin; cbn [fieldsound] in Hin; rewrite E in Hin; [rewrite Hb in Hin|]; discriminate. }
  destruct (unregistered_demand k ks f c Hok Hf He Hc Hctx) as [H|H]; [exact H|]. exfalso.
  assert (Hid : at_pos identifier_positions k f = true) by (destruct H as [[-> ->]|[-> ->]]; reflexivity).
  destruct Hin as [Hin|[ts [Hin Ht]]]; apply HF in Hin; cbn [fieldsound] in Hin; rewrite Hctx, Hid in Hin.
  - rewrite Hnode in Hin. discriminate.
  - discriminate.
Qed.

Lemma rep_bare_nil h c v t F S : rep h c v t F S -> bare t = true -> F = [] /\ S = [].
Proof.
  intros Hr Hb. destruct t as [[] k [|p gs]| |]; try discriminate.
  inversion Hr; subst.
  - auto.
  - match goal with H : [] = _ \/ _ |- _ => destruct H as [H|[? H]]; discriminate end.
  - exfalso. simpl in Hb. apply negb_true_iff in Hb.
    assert (Hk' : map fst fs = []) by (symmetry; eapply (rep_node_keys h k c fs []); eassumption).
    assert (fs = []) by (destruct fs; [reflexivity|discriminate]).
    match goal with H : ctx_class k = true \/ fs <> [] |- _ => destruct H; congruence end.
Qed.

Lemma rep_notbare_root h c v t F S i : rep h c v t F S -> v = VRef i -> bare t = false -> In i F \/ In (i, c) S.
Proof.
  intros Hr -> Hb. inversion Hr; subst.
  - simpl in Hb. match goal with H : ctx_class _ = false |- _ => rewrite H in Hb end. discriminate.
  - right; left; reflexivity.
  - left; left; reflexivity.
Qed.

Lemma filter_len1 (x : nat) (S : list (nat * string)) e e' :
  List.length (filter (fun p => Nat.eqb x (fst p)) S) = 1 -> In (x, e) S -> In (x, e') S -> e = e'.
Proof.
  intros HL H1 H2.
  assert (A : In (x, e) (filter (fun p => Nat.eqb x (fst p)) S)) by (apply filter_In; split; [exact H1|simpl; apply Nat.eqb_refl]).
  assert (B : In (x, e') (filter (fun p => Nat.eqb x (fst p)) S)) by (apply filter_In; split; [exact H2|simpl; apply Nat.eqb_refl]).
  destruct (filter (fun p => Nat.eqb x (fst p)) S) as [|p [|q r]]; try discriminate.
  destruct A as [A|[]], B as [B|[]]. congruence.
Qed.

Section Ready.
  Variables (h : heap) (k c : string) (ks : list string).
  Variables (fs : list (string * val)) (gs : list (string * tree unit)) (js : list nat) (sl : list slot).
  Variables (ov0 ov2 : list (val * string)).
  Hypothesis Hsf : sf h k c fs gs js sl.
  Hypothesis Hok : fields_ok k ks = true.
  Hypothesis Hks : incl (map fst fs) ks.
  Hypothesis Hsnd : Forall (fieldsound k c) gs.
  Hypothesis Hc : c = "Load"%string \/ ctx_class k = true.
  Hypothesis Hnd : NoDup (flat_map s_F sl).
  Hypothesis HFS : forall x, slotF sl x -> ~ slotS sl x.
  Hypothesis HF0 : forall x, slotF sl x -> ovg ov0 x = None.
  Hypothesis HS0 : forall x e, In (x, e) (flat_map s_S sl) -> ovg ov0 x = None \/ ovg ov0 x = Some e.

  (** Slots at a registered position. *)
  Lemma reg_slot f c' g v x : In (f, c', g) (setup k) -> In (f, v) fs -> direct h v x ->
    exists s, In s sl /\ s_v s = VRef x /\ s_c s = c' /\ (In x (s_F s) \/ In (x, c') (s_S s)).
  Proof.
    intros H1 H2 H3. destruct (sf_direct2 _ _ _ _ _ _ _ _ _ _ Hsf H2 H3) as [s [A [B [C [D E]]]]].
    destruct (setup_positions _ _ _ _ H1) as [He Hd]. rewrite Hd in C.
    exists s. repeat split; auto.
    pose proof (rep_is_node _ _ _ _ _ _ D) as Hnode.
    pose proof (child_not_bare _ _ _ _ _ Hsnd He E Hnode) as Hb.
    rewrite <- C. apply (rep_notbare_root _ _ _ _ _ _ _ D B Hb).
  Qed.

  Lemma unreg_slot s x : In s sl -> s_v s = VRef x -> (In x (s_F s) \/ In (x, s_c s) (s_S s)) ->
    (forall f c' g v, In (f, c', g) (setup k) -> In (f, v) fs -> ~ direct h v x) -> s_c s = c.
  Proof.
    intros Hin Hv Hx Hun. destruct (sf_in _ _ _ _ _ _ _ _ Hsf Hin) as [f [v [i [A [B [D [E [G H]]]]]]]].
    rewrite Hv in B. inversion B; subst i.
    assert (He : at_pos expr_positions k f = false).
    { destruct (at_pos expr_positions k f) eqn:He; [|reflexivity]. exfalso.
      destruct (positions_setup _ _ He) as [c' [g Hs]]. exact (Hun f c' g v Hs A D). }
    rewrite E. apply (child_inherits k c ks gs f (s_t s)); auto.
    - apply Hks. change f with (fst (f, v)). apply in_map; exact A.
    - apply (rep_is_node _ _ _ _ _ _ G).
    - destruct (bare (s_t s)) eqn:Hb; [|reflexivity]. exfalso.
      destruct (rep_bare_nil _ _ _ _ _ _ G Hb) as [E1 E2]. rewrite E1, E2 in Hx. destruct Hx as [[]|[]].
  Qed.

  Lemma in_slotF s x : In s sl -> In x (s_F s) -> slotF sl x.
  Proof. intros A B. apply in_flat_map. eauto. Qed.
  Lemma in_slotS s x e : In s sl -> In (x, e) (s_S s) -> In (x, e) (flat_map s_S sl) /\ slotS sl x.
  Proof.
    intros A B. assert (In (x, e) (flat_map s_S sl)) by (apply in_flat_map; eauto).
    split; [assumption|]. eapply in_map_fst; eauto.
  Qed.

  Hypothesis Hnc : no_conflict h k c fs (flat_map s_S sl).
  Hypothesis Hov : forall x,
    (ovg ov2 x = ovg ov0 x /\ forall f c' g v, In (f, c', g) (setup k) -> In (f, v) fs -> ~ direct h v x) \/
    (exists f c' g v, In (f, c', g) (setup k) /\ In (f, v) fs /\ direct h v x /\ ovg ov2 x = Some c').

  Lemma head_ready : ready c ov2 sl.
  Proof.
    constructor.
    - exact Hnd.
    - exact HFS.
    - intros s x Hin Hx Hv. destruct (Hov x) as [[E _]|[f [c' [g [v [A [B [D E]]]]]]]].
      + rewrite E. apply HF0. eapply in_slotF; eauto.
      + exfalso. destruct (reg_slot _ _ _ _ _ A B D) as [s' [A' [B' [_ [D'|D']]]]].
        * rewrite (slot_unique sl s s' x Hnd Hin A' Hx D') in Hv. contradiction.
        * apply (HFS x); [exact (in_slotF s x Hin Hx)|exact (proj2 (in_slotS s' x c' A' D'))].
    - intros s x e Hin Hx. destruct (in_slotS _ _ _ Hin Hx) as [Hx1 Hx2].
      destruct (Hov x) as [[E _]|[f [c' [g [v [A [B [D E]]]]]]]].
      + rewrite E. apply HS0. exact Hx1.
      + right. rewrite E. f_equal. destruct (reg_slot _ _ _ _ _ A B D) as [s' [A' [B' [C' [D'|D']]]]].
        * exfalso. apply (HFS x); [eapply in_slotF; eauto|exact Hx2].
        * destruct (in_slotS _ _ _ A' D') as [Hy1 _].
          destruct (setup_positions _ _ _ _ A) as [He Hd].
          destruct (Hnc f v x c' B He D Hy1) as [HL|[_ HL]].
          -- eapply filter_len1; eauto.
          -- rewrite (HL _ Hy1), (HL _ Hx1). reflexivity.
    - intros s x Hin Hv Hx. unfold eff. destruct (Hov x) as [[E Hun]|[f [c' [g [v [A [B [D E]]]]]]]].
      + rewrite E, HF0 by (eapply in_slotF; eauto). symmetry. apply (unreg_slot s x); auto.
      + rewrite E. destruct (reg_slot _ _ _ _ _ A B D) as [s' [A' [B' [C' [D'|D']]]]].
        * rewrite (slot_unique sl s s' x Hnd Hin A' Hx D'). congruence.
        * exfalso. apply (HFS x); [exact (in_slotF s x Hin Hx)|exact (proj2 (in_slotS s' x c' A' D'))].
    - intros s x Hin Hv Hx. destruct (in_slotS _ _ _ Hin Hx) as [Hx1 Hx2].
      destruct (Hov x) as [[E Hun]|[f [c' [g [v [A [B [D E]]]]]]]].
      + left. apply (unreg_slot s x); auto.
      + destruct (reg_slot _ _ _ _ _ A B D) as [s' [A' [B' [C' [D'|D']]]]].
        * exfalso. apply (HFS x); [eapply in_slotF; eauto|exact Hx2].
        * destruct (in_slotS _ _ _ A' D') as [Hy1 _].
          destruct (setup_positions _ _ _ _ A) as [He Hd].
          destruct (Hnc f v x c' B He D Hy1) as [HL|[Hcl HL]].
          -- right. split; [|exact HL]. rewrite E. f_equal. eapply filter_len1; eauto.
          -- left. rewrite Hcl. apply (HL _ Hx1).
  Qed.
End Ready.

(** Fields without registration: overrides as before. *)
Lemma tail_ready h k c ks fs gs js sl ov :
  sf h k c fs gs js sl -> fields_ok k ks = true -> incl (map fst fs) ks -> Forall (fieldsound k c) gs ->
  (c = "Load"%string \/ ctx_class k = true) -> NoDup (flat_map s_F sl) ->
  (forall x, slotF sl x -> ~ slotS sl x) -> (forall x, slotF sl x -> ovg ov x = None) ->
  (forall x e, In (x, e) (flat_map s_S sl) -> ovg ov x = None \/ ovg ov x = Some e) ->
  (forall f c' g, In (f, c', g) (setup k) -> ~ In f (map fst fs)) ->
  ready c ov sl.
Proof.
  intros Hsf Hok Hks Hsnd Hc Hnd HFS HF0 HS0 Hun.
  assert (Hun' : forall x f c' g v, In (f, c', g) (setup k) -> In (f, v) fs -> ~ direct h v x).
  { intros x f c' g v H1 H2. exfalso. apply (Hun _ _ _ H1). change f with (fst (f, v)). apply in_map; exact H2. }
  apply (head_ready h k c ks fs gs js sl ov ov); auto.
  - intros f v x e H1 H2. exfalso. destruct (positions_setup _ _ H2) as [c' [g Hs]].
    apply (Hun _ _ _ Hs). change f with (fst (f, v)). apply in_map; exact H1.
  - intros x. left. split; [reflexivity|]. intros f c' g v H1 H2. exact (Hun' x f c' g v H1 H2).
Qed.

(** ** Replacing the ctx *)
Lemma fields_ok_vset k fs w : ctx_class k = true -> fields_ok k (map fst fs) = true ->
  fields_ok k (map fst (vset "ctx" w fs)) = true.
Proof.
  intros Hk. unfold ctx_class in Hk. apply smem_In in Hk. simpl in Hk.
  repeat (destruct Hk as [Hk|Hk]; [subst k|]); try contradiction;
  unfold fields_ok, list_eqb; cbn -[list_eq_dec]; intros H;
  repeat match type of H with context [list_eq_dec string_dec ?a ?b] =>
     let D := fresh "D" in destruct (list_eq_dec string_dec a b) as [D|D]; [clear H|] end;
  try discriminate H;
  repeat match goal with D : map fst fs = _ |- _ =>
     destruct fs as [|[? ?] fs]; simpl in D; [try discriminate D|inversion D; subst; clear D] end;
  repeat match goal with D : _ = map fst fs |- _ => symmetry in D end;
  repeat match goal with D : map fst ?l = _ |- _ =>
     destruct l as [|[? ?] ?]; simpl in D; [try discriminate D|inversion D; subst; clear D] end;
  try reflexivity.
Qed.

Lemma setf_vset_keys fs w (gs : list (string * tree unit)) u :
  map fst gs = map fst fs -> map fst (setf "ctx" u gs) = map fst (vset "ctx" w fs).
Proof.
  revert gs. induction fs as [|[f v] fs IH]; intros [|[g t] gs] H; try discriminate; [reflexivity|].
  simpl in H. inversion H as [[H1 H2]]. cbn [setf vset]. destruct (String.eqb "ctx" f); cbn [map fst]; f_equal; [exact H2|apply IH; exact H2].
Qed.

Lemma rep_fields_vset h k c fs gs F S c0 kc :
  rep_fields h k c fs gs F S -> NoDup (map fst fs) ->
  (forall t, In ("ctx"%string, t) gs -> bare t = true) ->
  h_obj h c0 = Some (ONode kc []) -> ctx_class kc = false ->
  rep_fields h k c (vset "ctx" (VRef c0) fs) (setf "ctx" (Nd tt kc []) gs) F S.
Proof.
  intros H Hn Hb Ho Hk.
  assert (Hnew : forall d, rep h d (VRef c0) (Nd tt kc []) [] []) by (intros d; apply rp_bare; assumption).
  induction H as [k c|k c f a fs gs F S H IH|k c f v t fs gs F1 S1 F2 S2 H1 H2 IH
                 |k c f j vs ts fs gs F1 S1 F2 S2 H1 H2 H3 IH].
  - simpl. apply (rf_node h k c "ctx" _ _ [] [] [] [] [] []); [apply Hnew|constructor].
  - cbn [vset setf]. destruct (String.eqb "ctx" f) eqn:E.
    + apply String.eqb_eq in E. subst f. specialize (Hb (At a) (or_introl eq_refl)). discriminate.
    + constructor. apply IH; [inversion Hn; assumption|]. intros t Ht. apply Hb. right; exact Ht.
  - cbn [vset setf]. destruct (String.eqb "ctx" f) eqn:E.
    + apply String.eqb_eq in E. subst f. specialize (Hb t (or_introl eq_refl)).
      destruct (rep_bare_nil _ _ _ _ _ _ H1 Hb) as [-> ->].
      apply (rf_node h k c "ctx" _ _ fs gs [] []); [apply Hnew|exact H2].
    + constructor; [exact H1|]. apply IH; [inversion Hn; assumption|]. intros t' Ht. apply Hb. right; exact Ht.
  - cbn [vset setf]. destruct (String.eqb "ctx" f) eqn:E.
    + apply String.eqb_eq in E. subst f. specialize (Hb (Ls ts) (or_introl eq_refl)). discriminate.
    + apply rf_list with (vs := vs); [exact H1|exact H2|]. apply IH; [inversion Hn; assumption|]. intros t' Ht. apply Hb. right; exact Ht.
Qed.

Lemma Forall_setf {P : string * tree unit -> Prop} f v gs :
  Forall P gs -> P (f, v) -> Forall P (setf f v gs).
Proof.
  induction gs as [|[g t] gs IH]; intros H Hp; simpl.
  - constructor; [exact Hp|constructor].
  - inversion H; subst. destruct (String.eqb f g) eqn:E.
    + apply String.eqb_eq in E; subst. constructor; assumption.
    + constructor; [assumption|apply IH; assumption].
Qed.

Lemma setfs_setf k c kc gs : ctx_class kc = false ->
  setfs k c (setf "ctx" (Nd tt kc []) gs) = setf "ctx" (Nd tt kc []) (setfs k c gs).
Proof.
  intros Hk. unfold setfs. induction gs as [|[g t] gs IH].
  - cbn [setf map set_ctx]. rewrite Hk. reflexivity.
  - cbn [setf map]. destruct (String.eqb "ctx" g) eqn:E; cbn [map]; [|f_equal; exact IH].
    cbn [set_ctx]. rewrite Hk. reflexivity.
Qed.

(** Registered fields are among the head fields. *)
Lemma setup_head k fs f c g v : fields_ok k (map fst fs) = true -> In (f, c, g) (setup k) ->
  vget f fs = Some v -> In (f, v) (head_fields k fs) /\ ~ In f (map fst (tail_fields (A := string * val) k fs)).
Proof.
  intros Hok Hin Hv. unfold head_fields, tail_fields.
  destruct (smem k ["For"; "AsyncFor"]%string) eqn:E; [|split; [apply vget_In; exact Hv|intros []]].
  pose proof (fields_ok_nodup _ _ Hok) as Hn.
  assert (Hk : setup k = [("target", "Store", false); ("iter", "Load", false)]%string /\
               grammar k = Some ["target"; "iter"; "body"; "orelse"; "type_comment"]%string /\ ctx_class k = false).
  { apply smem_In in E. destruct E as [E|[E|[]]]; subst k; auto. }
  destruct Hk as [Hs [Hg Hcc]]. unfold fields_ok in Hok. rewrite Hg, Hcc in Hok. cbn [andb] in Hok. rewrite orb_false_r in Hok.
  unfold list_eqb in Hok. destruct (list_eq_dec string_dec (map fst fs) _) as [D|D]; [|discriminate].
  destruct fs as [|[f1 v1] [|[f2 v2] r]]; try discriminate. cbn [map fst] in D. inversion D; subst.
  rewrite Hs in Hin. cbn [firstn skipn]. rewrite H2.
  destruct Hin as [Hin|[Hin|[]]]; inversion Hin; subst; cbn in Hv; inversion Hv; subst; simpl; split; auto; intuition discriminate.
Qed.
