(** Proofs about expand_macros. *)
From Verif Require Import Base AstLib UtilsModel UtilsProofs FixLocModel MarkersModel MarkersSpec MarkersProofs HeapAst CtxModel CtxSpec ExpanderModel ExpanderSpec ExpanderProofs ExpanderProofs2 PostModel
  PostProps ExpandModel ExpandSpec.

(** ** Deleting markers: whenever it returns *)
Section Del.
  Context {M : Type}.
  Variable iscls : string -> bool.
  Notation del := (@delete_markers M iscls).
  Notation gd := (good iscls).

  Lemma elts_ok_good (l : list (tree M)) : Forall (fun x => forall x', del x = Ok x' -> gd x x') l ->
    forall l', visit_elts del l = Ok l' -> Forall (fun x => exists x', del x = Ok x' /\ gd x x') l.
  Proof.
    induction 1 as [|x l Hx _ IH]; intros l' H; [constructor|]. cbn [visit_elts] in H. destruct (del x) as [x'|e] eqn:Ex; [|discriminate].
    destruct (visit_elts del l) as [r'|e] eqn:El; [|discriminate]. constructor; [exists x'; auto|]. exact (IH _ eq_refl).
  Qed.
  Lemma gv_list_ok_good (l : list (tree M)) : Forall (fun x => is_node x = true -> forall x', del x = Ok x' -> gd x x') l ->
    forall l', gv_list del l = Ok l' -> Forall (fun x => is_node x = true -> exists x', del x = Ok x' /\ gd x x') l.
  Proof.
    induction 1 as [|x l Hx _ IH]; intros l' H; [constructor|]. cbn [gv_list] in H. destruct x as [m k fs|sub|a].
    - destruct (del (Nd m k fs)) as [x'|e] eqn:Ex; [|discriminate].
      assert (exists r', gv_list del l = Ok r') as [r' Er].
      { destruct x' as [? ? ?|?|[]]; try discriminate; destruct (gv_list del l) as [r'|e]; try discriminate; eauto. }
      constructor; [|exact (IH _ Er)]. intros Hn. exists x'. auto.
    - constructor; [discriminate|]. destruct (gv_list del l) as [r'|e] eqn:Er; [|discriminate]. exact (IH _ eq_refl).
    - constructor; [discriminate|]. destruct (gv_list del l) as [r'|e] eqn:Er; [|discriminate]. exact (IH _ eq_refl).
  Qed.

  Lemma delete_ok_good t : wf t = true -> forall t', del t = Ok t' -> gd t t'.
  Proof.
    induction t as [m k fs IH|l IH|a] using tree_ind2; intros Hw t' H; [| |discriminate].
    - cbn [delete_markers] in H. destruct (iscls k) eqn:Ek.
      + rewrite with_field_getf in H. destruct (getf "body" fs) as [b|] eqn:Eb; [|discriminate].
        apply getf_In in Eb as Hin. rewrite Forall_forall in IH. destruct (IH _ Hin) as [IHb _]. cbn [snd] in IHb.
        destruct (IHb (wf_field _ _ _ _ _ Hw Hin) _ H) as [G1 G2]. split; [|exact G2]. cbn [events]. rewrite Ek, with_field_getf, Eb. exact G1.
      + destruct (gv_fields del fs) as [fs'|e] eqn:Ef; [|discriminate]. inversion H; subst t'. clear H.
        assert (X : flat_map (fun p => EvField (fst p) :: events (fun _ => false) (snd p)) fs' = flat_map (fun p => EvField (fst p) :: events iscls (snd p)) fs /\
            existsb (fun q => has_kind iscls (snd q)) fs' = false).
        { cbn [wf] in Hw. revert fs' Ef. induction fs as [|[f v] fs IHf]; intros fs' Ef; [inversion Ef; auto|].
          inversion IH as [|? ? [IHv IHl] IHr]; subst. cbn [forallb snd] in *. apply andb_true_iff in Hw. destruct Hw as [Hw1 Hw2]. specialize (IHf IHr Hw2).
          cbn [gv_fields] in Ef. destruct v as [m' k' fs''|l|a].
          - destruct (del (Nd m' k' fs'')) as [v'|e] eqn:Ev; [|discriminate]. destruct (IHv Hw1 _ eq_refl) as [G1 [G2 G3]].
            destruct v' as [m2 k2 fs2|l2|a2].
            + destruct (gv_fields del fs) as [r'|e] eqn:Er; [|discriminate]. destruct (IHf _ eq_refl) as [E1 E2]. inversion Ef; subst. cbn [flat_map existsb fst snd]. rewrite G1, G2, E1, E2. auto.
            + destruct (gv_fields del fs) as [r'|e] eqn:Er; [|discriminate]. destruct (IHf _ eq_refl) as [E1 E2]. inversion Ef; subst. cbn [flat_map existsb fst snd]. rewrite G1, G2, E1, E2. auto.
            + destruct G3 as [G3|[l3 [G3 _]]]; discriminate.
          - destruct (gv_list del l) as [l'|e] eqn:El; [|discriminate]. destruct (gv_fields del fs) as [r'|e] eqn:Er; [|discriminate]. destruct (IHf _ eq_refl) as [E1 E2]. inversion Ef; subst.
            assert (HF : Forall (fun x => is_node x = true -> exists x', del x = Ok x' /\ gd x x') l).
            { eapply gv_list_ok_good; [|exact El]. rewrite Forall_forall in IHl |- *. intros x Hx _. rewrite forallb_forall in Hw1. specialize (Hw1 x Hx). apply andb_true_iff in Hw1. apply (IHl x Hx). tauto. }
            destruct (gv_list_good iscls l HF Hw1) as [l2 [L1 [L2 L3]]]. rewrite L1 in El. inversion El; subst l2.
            cbn [flat_map existsb fst snd events]. rewrite has_kind_Ls, L3, E2, E1, L2. auto.
          - destruct (gv_fields del fs) as [r'|e] eqn:Er; [|discriminate]. destruct (IHf _ eq_refl) as [E1 E2]. inversion Ef; subst. cbn [flat_map existsb fst snd]. rewrite E1, E2. auto. }
        destruct X as [F2 F3]. split; [|split].
        * cbn [events]. rewrite Ek, F2. reflexivity.
        * rewrite has_kind_Nd, Ek, F3. reflexivity.
        * left; reflexivity.
    - cbn [delete_markers] in H. unfold visit_list in H. destruct (visit_elts del l) as [l'|e] eqn:El; [|discriminate]. inversion H; subst t'. clear H.
      assert (HF : Forall (fun x => exists x', del x = Ok x' /\ gd x x') l).
      { eapply elts_ok_good; [|exact El]. rewrite Forall_forall in IH |- *. intros x Hx. apply (IH x Hx). cbn [wf] in Hw. rewrite forallb_forall in Hw. auto. }
      destruct (visit_elts_good iscls l HF) as [l2 [E [E1 [E2 E3]]]]. rewrite E in El. inversion El; subst l2. split; [|split].
      + cbn [events]. rewrite flatten_flat_map; [exact E1|reflexivity|exact E3].
      + rewrite has_kind_Ls.
        assert (G : forall l : list (tree M), existsb (has_kind iscls) l = existsb (fun n => iscls (kind_of n)) (flat_map (@preorder M) l)).
        { clear. intros l. induction l as [|x l IHl]; [reflexivity|]. simpl. rewrite existsb_app, IHl. reflexivity. }
        rewrite G, flatten_flat_map; [rewrite <- G; exact E2|reflexivity|exact E3].
      + right. exists (flatten l'). split; [reflexivity|apply flatten_nodes; exact E3].
  Qed.
End Del.

(** ** ctx *)
Lemma skel_setf {M} f (v : tree M) fs : map (fun p => (fst p, skel (snd p))) (setf f v fs) = setf f (skel v) (map (fun p => (fst p, skel (snd p))) fs).
Proof. induction fs as [|[g w] fs IH]; [reflexivity|]. cbn. destruct (String.eqb _ _); cbn; [reflexivity|]. rewrite IH. reflexivity. Qed.
Lemma skel_ctx_fixed t : forall c, skel (ctx_fixed c t) = set_ctx c (skel t).
Proof.
  induction t as [m k fs IH|l IH|a] using tree_ind'; intros c; [| |reflexivity].
  - cbn [ctx_fixed skel set_ctx].
    assert (X : map (fun p => (fst p, skel (snd p))) (map (fun p : string * ltree => let (f, v) := p in (f, ctx_fixed (demand k f c) v)) fs) =
                map (fun p : string * tree unit => let (f, v) := p in (f, set_ctx (demand k f c) v)) (map (fun p => (fst p, skel (snd p))) fs)).
    { rewrite !map_map. apply map_ext_in. intros [f v] Hin. cbn [fst snd]. rewrite Forall_forall in IH. rewrite (IH _ Hin). reflexivity. }
    f_equal. destruct (ctx_class k); [|exact X]. rewrite skel_setf, X. reflexivity.
  - cbn [ctx_fixed skel set_ctx]. f_equal. rewrite !map_map. apply map_ext_in. intros x Hx. rewrite Forall_forall in IH. exact (IH x Hx c).
Qed.
Lemma getf_setf_eq {M} f (v : tree M) fs : getf f (setf f v fs) = Some v.
Proof. induction fs as [|[g w] fs IH]; cbn; [rewrite String.eqb_refl; reflexivity|]. destruct (String.eqb f g) eqn:Eg; cbn; rewrite Eg; [reflexivity|exact IH]. Qed.
Lemma in_setf {M} f (v : tree M) fs g w : In (g, w) (setf f v fs) -> In (g, w) fs \/ (g = f /\ w = v).
Proof.
  induction fs as [|[h u] fs IH]; cbn; [intros [H|[]]; inversion H; auto|]. destruct (String.eqb f h) eqn:Eh; cbn.
  - apply String.eqb_eq in Eh. subst. intros [H|H]; [inversion H; auto|auto].
  - intros [H|H]; [auto|]. destruct (IH H); auto.
Qed.
Lemma demand_cases k f c : In c ["Load"; "Store"; "Del"]%string -> In (demand k f c) ["Load"; "Store"; "Del"]%string.
Proof. intros H. unfold demand. repeat (destruct (at_pos _ k f); [cbn; tauto|]). cbn; tauto. Qed.
Lemma fixed_right t : forall c, In c ["Load"; "Store"; "Del"]%string -> right_ctx c (ctx_fixed c t).
Proof.
  induction t as [m k fs IH|l IH|a] using tree_ind'; intros c Hc; cbn [ctx_fixed]; [| |constructor].
  - rewrite Forall_forall in IH.
    assert (H0 : forall f v, In (f, v) (map (fun p : string * ltree => let (f, v) := p in (f, ctx_fixed (demand k f c) v)) fs) -> right_ctx (demand k f c) v).
    { intros f v Hin. apply in_map_iff in Hin. destruct Hin as [[g w] [Heq Hin]]. inversion Heq; subst. apply (IH _ Hin). apply demand_cases, Hc. }
    constructor.
    + intros Hk. rewrite Hk. apply getf_setf_eq.
    + intros f v Hin. destruct (ctx_class k) eqn:Hk; [|exact (H0 _ _ Hin)]. apply in_setf in Hin. destruct Hin as [Hin|[-> ->]]; [exact (H0 _ _ Hin)|].
      constructor; [|intros ? ? []]. intros Hx. destruct Hc as [<-|[<-|[<-|[]]]]; discriminate.
  - constructor. intros v Hv. apply in_map_iff in Hv. destruct Hv as [x [<- Hx]]. rewrite Forall_forall in IH. exact (IH x Hx c Hc).
Qed.
Lemma filter_setf {M} (v : tree M) fs : filter (fun p => negb (String.eqb (fst p) "ctx")) (setf "ctx" v fs) = filter (fun p => negb (String.eqb (fst p) "ctx")) fs.
Proof.
  induction fs as [|[g w] fs IH]; [reflexivity|]. cbn [setf]. destruct (String.eqb "ctx" g) eqn:Eg.
  - apply String.eqb_eq in Eg. subst. reflexivity.
  - cbn [filter fst]. rewrite IH. reflexivity.
Qed.
Lemma fixed_without t : forall c, without_ctx (ctx_fixed c t) = without_ctx t.
Proof.
  induction t as [m k fs IH|l IH|a] using tree_ind'; intros c; cbn [ctx_fixed without_ctx]; [| |reflexivity].
  - rewrite Forall_forall in IH.
    assert (X : map (fun p : string * ltree => let (f, v) := p in (f, without_ctx v)) (map (fun p : string * ltree => let (f, v) := p in (f, ctx_fixed (demand k f c) v)) fs) =
                map (fun p : string * ltree => let (f, v) := p in (f, without_ctx v)) fs).
    { rewrite map_map. apply map_ext_in. intros [f v] Hin. f_equal. exact (IH _ Hin _). }
    f_equal. destruct (ctx_class k); [|exact X]. rewrite <- X.
    assert (Y : forall gs : list (string * ltree), map (fun p : string * ltree => let (f, v) := p in (f, without_ctx v)) (setf "ctx" (Nd noloc c []) gs) =
                setf "ctx" (without_ctx (Nd noloc c [])) (map (fun p : string * ltree => let (f, v) := p in (f, without_ctx v)) gs)).
    { clear. induction gs as [|[g w] gs IH]; [reflexivity|]. cbn [setf map]. destruct (String.eqb "ctx" g); cbn [map]; [reflexivity|]. rewrite IH. reflexivity. }
    rewrite Y. apply filter_setf.
  - f_equal. rewrite map_map. apply map_ext_in. intros x Hx. rewrite Forall_forall in IH. exact (IH x Hx c).
Qed.
Lemma fixed_clean p t : p "Load"%string = false -> p "Store"%string = false -> p "Del"%string = false ->
  forall c, In c ["Load"; "Store"; "Del"]%string -> has_kind p t = false -> has_kind p (ctx_fixed c t) = false.
Proof.
  intros P1 P2 P3. induction t as [m k fs IH|l IH|a] using tree_ind'; intros c Hc H; cbn [ctx_fixed]; [| |exact H].
  - rewrite has_kind_Nd in *. apply orb_false_iff in H. destruct H as [Hk H]. rewrite Hk. cbn [orb].
    assert (X : existsb (fun q => has_kind p (snd q)) (map (fun p : string * ltree => let (f, v) := p in (f, ctx_fixed (demand k f c) v)) fs) = false).
    { clear Hk. induction fs as [|[f v] fs IHf]; [reflexivity|]. inversion IH; subst. cbn [map existsb snd] in *. apply orb_false_iff in H. destruct H as [Ha Hb]. rewrite (IHf H3 Hb), orb_false_r. apply H2; [apply demand_cases, Hc|exact Ha]. }
    destruct (ctx_class k); [|exact X]. apply not_true_is_false. intros Hx. apply existsb_exists in Hx. destruct Hx as [[f v] [Hin Hv]]. cbn [snd] in Hv.
    apply in_setf in Hin. destruct Hin as [Hin|[-> ->]].
    + assert (Y : existsb (fun q => has_kind p (snd q)) (map (fun p : string * ltree => let (f, v) := p in (f, ctx_fixed (demand k f c) v)) fs) = true) by (apply existsb_exists; exists (f, v); auto). congruence.
    + destruct Hc as [<-|[<-|[<-|[]]]]; cbn in Hv; rewrite ?P1, ?P2, ?P3 in Hv; discriminate.
  - rewrite has_kind_Ls in *. induction l as [|x l IHl]; [reflexivity|]. inversion IH; subst. cbn [map existsb] in *. apply orb_false_iff in H. destruct H as [Ha Hb]. rewrite (IHl H3 Hb), orb_false_r. apply H2; auto.
Qed.
(** A tree whose ctx is right is not changed. *)
Lemma setf_same {M} f (v : tree M) fs : getf f fs = Some v -> setf f v fs = fs.
Proof. induction fs as [|[g w] fs IH]; [discriminate|]. cbn. destruct (String.eqb f g) eqn:Eg; [intros H; inversion H; subst; apply String.eqb_eq in Eg; subst; reflexivity|]. intros H. rewrite IH by exact H. reflexivity. Qed.
Lemma right_fixed t : forall c, right_ctx c t -> ctx_fixed c t = t.
Proof.
  induction t as [m k fs IH|l IH|a] using tree_ind'; intros c H; cbn [ctx_fixed]; [| |reflexivity].
  - inversion H as [? ? ? ? Hk Hf| |]; subst. rewrite Forall_forall in IH.
    assert (X : map (fun p : string * ltree => let (f, v) := p in (f, ctx_fixed (demand k f c) v)) fs = fs).
    { rewrite <- (map_id fs) at 2. apply map_ext_in. intros [f v] Hin. f_equal. apply (IH _ Hin). exact (Hf _ _ Hin). }
    rewrite X. destruct (ctx_class k) eqn:Ek; [|reflexivity]. rewrite setf_same; auto.
  - inversion H as [|? ? Hl|]; subst. f_equal. rewrite <- (map_id l) at 2. apply map_ext_in. intros x Hx. rewrite Forall_forall in IH. apply (IH x Hx), Hl, Hx.
Qed.
