From Coq Require Import Permutation.
From Verif Require Import Base AstLib HeapAst CtxModel CtxSpec.

Notation ovg ov i := (ov_get (VRef i) ov).

Lemma val_eqb_ref i j : val_eqb (VRef i) (VRef j) = Nat.eqb i j.
Proof. reflexivity. Qed.
Lemma val_eqb_eq u v : val_eqb u v = true <-> u = v.
Proof.
  destruct u as [i|a], v as [j|b]; simpl; split; intros H; try discriminate.
  - apply Nat.eqb_eq in H; subst; reflexivity.
  - inversion H; apply Nat.eqb_refl.
  - apply atom_eqb_eq in H; subst; reflexivity.
  - inversion H; apply atom_eqb_eq; reflexivity.
Qed.

Lemma ov_get_del v u ov : ov_get u (ov_del v ov) = if val_eqb v u then None else ov_get u ov.
Proof.
  induction ov as [|[w c] r IH]; simpl.
  - destruct (val_eqb v u); reflexivity.
  - destruct (val_eqb v w) eqn:E; simpl.
    + apply val_eqb_eq in E; subst w. rewrite IH. destruct (val_eqb v u) eqn:E2; [reflexivity|].
      destruct (val_eqb u v) eqn:E3; [|reflexivity].
      apply val_eqb_eq in E3; subst. assert (val_eqb v v = true) by (apply val_eqb_eq; reflexivity). congruence.
    + rewrite IH. destruct (val_eqb u w) eqn:E2; [|reflexivity].
      apply val_eqb_eq in E2; subst w. rewrite E. reflexivity.
Qed.
Lemma ov_get_put v c u ov : ov_get u (ov_put v c ov) = if val_eqb u v then Some c else ov_get u ov.
Proof.
  unfold ov_put. simpl. destruct (val_eqb u v) eqn:E; [reflexivity|].
  rewrite ov_get_del. destruct (val_eqb v u) eqn:E2; [|reflexivity].
  apply val_eqb_eq in E2; subst. assert (val_eqb u u = true) by (apply val_eqb_eq; reflexivity). congruence.
Qed.

(** ** The specification's vocabulary and the model's agree *)
Lemma has_ctx_class k : has_ctx k = ctx_class k.
Proof. reflexivity. Qed.

Definition ctxname (c : string) : Prop := c = "Load"%string \/ c = "Store"%string \/ c = "Del"%string.

Lemma demand_ctxname k f c : ctxname c -> ctxname (demand k f c).
Proof.
  unfold demand, ctxname. intros H.
  destruct (at_pos store_positions k f); [auto|]. destruct (at_pos del_positions k f); [auto|].
  destruct (at_pos inherit_positions k f); auto.
Qed.
Lemma ctxname_bare c : ctxname c -> ctx_class c = false.
Proof. intros [H|[H|H]]; subst; reflexivity. Qed.

Lemma at_pos_In ps k f : at_pos ps k f = true <-> In (k, f) ps.
Proof.
  unfold at_pos. rewrite existsb_exists. split.
  - intros [[a b] [Hi H]]. apply andb_true_iff in H. destruct H as [H1 H2]. simpl in *.
    apply String.eqb_eq in H1, H2. subst; exact Hi.
  - intros H. exists (k, f). split; [exact H|]. simpl. rewrite !String.eqb_refl. reflexivity.
Qed.

Ltac kcase k s :=
  let E := fresh "E" in destruct (String.eqb k s) eqn:E;
  [apply String.eqb_eq in E; subst k|].

Lemma setup_positions k f c g : In (f, c, g) (setup k) ->
  at_pos expr_positions k f = true /\ (forall d, demand k f d = c).
Proof.
  unfold setup, smem. cbn [existsb].
  kcase k "Assign"%string; [|kcase k "AnnAssign"%string; [|kcase k "NamedExpr"%string;
  [|kcase k "AugAssign"%string; [|kcase k "Attribute"%string; [|kcase k "Subscript"%string;
  [|kcase k "comprehension"%string; [|kcase k "For"%string; [|kcase k "AsyncFor"%string;
  [|kcase k "withitem"%string; [|kcase k "Delete"%string; [|kcase k "TypeAlias"%string]]]]]]]]]]];
  cbn [orb]; intros H; repeat (destruct H as [H|H]); try contradiction; inversion H; subst;
  split; try reflexivity; intros d; reflexivity.
Qed.

Lemma positions_setup k f : at_pos expr_positions k f = true -> exists c g, In (f, c, g) (setup k).
Proof.
  intros H. apply at_pos_In in H. unfold expr_positions in H. repeat (destruct H as [H|H]; [inversion H; subst; cbn; eauto 8|]).
  contradiction.
Qed.

Lemma fields_ok_nodup k ks : fields_ok k ks = true -> NoDup ks.
Proof.
  unfold fields_ok. destruct (grammar k) as [g|] eqn:G.
  - intros H. assert (NG : NoDup g).
    { unfold grammar in G.
      repeat match type of G with (if ?b then _ else _) = _ => destruct b end;
      inversion G; subst; repeat constructor; simpl; intuition discriminate. }
    apply orb_true_iff in H. destruct H as [H|H].
    + unfold list_eqb in H. destruct (list_eq_dec string_dec ks g); [subst; exact NG|discriminate].
    + apply andb_true_iff in H. destruct H as [_ H]. unfold list_eqb in H.
      destruct (list_eq_dec string_dec ks (removelast g)); [|discriminate]. subst ks.
      destruct g as [|x g] using rev_ind; [constructor|]. rewrite removelast_last.
      apply NoDup_remove_1 in NG. rewrite app_nil_r in NG. exact NG.
  - clear G. induction ks as [|x r IH]; [constructor|]. simpl. intros H.
    apply andb_true_iff in H. destruct H as [H1 H2]. constructor; [|apply IH; exact H2].
    apply negb_true_iff in H1. intros Hin. apply smem_In in Hin. congruence.
Qed.

(** All [withstate] calls find their field. *)
Lemma fields_ok_setup k ks : fields_ok k ks = true -> forall f c g, In (f, c, g) (setup k) -> In f ks.
Proof.
  intros H f c g Hin. unfold setup, smem in Hin. cbn [existsb] in Hin.
  revert H Hin.
  kcase k "Assign"%string; [|kcase k "AnnAssign"%string; [|kcase k "NamedExpr"%string;
  [|kcase k "AugAssign"%string; [|kcase k "Attribute"%string; [|kcase k "Subscript"%string;
  [|kcase k "comprehension"%string; [|kcase k "For"%string; [|kcase k "AsyncFor"%string;
  [|kcase k "withitem"%string; [|kcase k "Delete"%string; [|kcase k "TypeAlias"%string]]]]]]]]]]];
  cbn [orb]; unfold fields_ok, list_eqb; cbn -[list_eq_dec]; intros H Hin;
  repeat match type of H with context [list_eq_dec string_dec ?a ?b] =>
     let D := fresh "D" in destruct (list_eq_dec string_dec a b) as [D|D]; [subst ks; clear H|] end;
  try discriminate H;
  repeat (destruct Hin as [Hin|Hin]); try contradiction; inversion Hin; subst; simpl; auto.
Qed.

(** Field of a class without an override there, below a binding position: the ctx is inherited. *)
Lemma unregistered_demand k ks f c : fields_ok k ks = true -> In f ks ->
  at_pos expr_positions k f = false -> (c = "Load"%string \/ ctx_class k = true) ->
  (ctx_class k && String.eqb f "ctx") = false -> 
  demand k f c = c \/ (k = "Name"%string /\ f = "id"%string) \/ (k = "Attribute"%string /\ f = "attr"%string).
Proof.
  intros Hok Hin Hpos Hc Hctx.
  destruct (ctx_class k) eqn:Ek.
  - unfold ctx_class in Ek. apply smem_In in Ek. 
    simpl in Ek.
    repeat (destruct Ek as [Ek|Ek]; [subst k|]); try contradiction;
    unfold fields_ok, list_eqb in Hok; cbn -[list_eq_dec] in Hok;
    repeat match type of Hok with context [list_eq_dec string_dec ?a ?b] =>
     let D := fresh "D" in destruct (list_eq_dec string_dec a b) as [D|D]; [subst ks; clear Hok|] end;
    try discriminate Hok;
    simpl in Hin; repeat (destruct Hin as [Hin|Hin]; [subst f|]); try contradiction;
    try discriminate Hpos; try discriminate Hctx; auto.
  - destruct Hc as [Hc|Hc]; [|discriminate]. subst c. left. unfold demand.
    destruct (at_pos store_positions k f) eqn:E1.
    { exfalso. apply at_pos_In in E1. simpl in E1.
      repeat (destruct E1 as [E1|E1]; [inversion E1; subst; discriminate Hpos|]). contradiction. }
    destruct (at_pos del_positions k f) eqn:E2.
    { exfalso. apply at_pos_In in E2. simpl in E2.
      repeat (destruct E2 as [E2|E2]; [inversion E2; subst; discriminate Hpos|]). contradiction. }
    destruct (at_pos inherit_positions k f); reflexivity.
Qed.

(** ** Reading a tree inside a region of memory *)
Section All2.
  Context {A B : Type} (R : A -> B -> Prop).
  Fixpoint all2 (l : list A) (m : list B) : Prop :=
    match l, m with
    | [], [] => True
    | x :: l', y :: m' => R x y /\ all2 l' m'
    | _, _ => False
    end.
End All2.

Section Rd.
  Variable P : nat -> Prop.
  Variable h : heap.
  Fixpoint rdt (t : tree unit) : val -> Prop :=
    match t with
    | At a => fun v => v = VAt a
    | Ls ts => fun v => exists i vs, v = VRef i /\ P i /\ h_obj h i = Some (OList vs) /\
                         all2 rdt ts vs
    | Nd _ k gs => fun v => exists i fs, v = VRef i /\ P i /\ h_obj h i = Some (ONode k fs) /\
                         all2 (fun (p : string * tree unit) (q : string * val) =>
                                 let (f, t) := p in f = fst q /\ rdt t (snd q)) gs fs
    end.
End Rd.
Definition rdf (P : nat -> Prop) (h : heap) : list (string * tree unit) -> list (string * val) -> Prop :=
  all2 (fun (p : string * tree unit) (q : string * val) => let (f, t) := p in f = fst q /\ rdt P h t (snd q)).

Lemma rdt_mono (P Q : nat -> Prop) h h' t v :
  (forall i, P i -> Q i /\ h_obj h' i = h_obj h i) -> rdt P h t v -> rdt Q h' t v.
Proof.
  intros HPQ. revert v. induction t as [m k fs IH|l IH|a] using tree_ind'; intros v; cbn [rdt].
  - intros [i [gs [E [Hp [Ho Ha]]]]]. exists i, gs. destruct (HPQ _ Hp) as [Hq Hh]. rewrite Hh.
    repeat split; try assumption. clear Ho. revert gs Ha.
    induction IH as [|[f t] fs Hx Hr IHf]; intros [|[g w] gs]; cbn [all2]; auto.
    intros [[H1 H2] H3]. split; [split; [exact H1|apply Hx; exact H2]|apply IHf; exact H3].
  - intros [i [gs [E [Hp [Ho Ha]]]]]. exists i, gs. destruct (HPQ _ Hp) as [Hq Hh]. rewrite Hh.
    repeat split; try assumption. clear Ho. revert gs Ha.
    induction IH as [|t l Hx Hr IHf]; intros [|w gs]; cbn [all2]; auto.
    intros [H1 H3]. split; [apply Hx; exact H1|apply IHf; exact H3].
  - auto.
Qed.

Lemma rdt_reads P h t v : rdt P h t v -> reads h v t.
Proof.
  revert v. induction t as [[] k fs IH|l IH|a] using tree_ind'; intros v; cbn [rdt].
  - intros [i [gs [E [Hp [Ho Ha]]]]]. subst v. apply rd_node with (fs := gs); [exact Ho|].
    clear Ho. revert gs Ha. induction IH as [|[f t] fs Hx Hr IHf]; intros [|[g w] gs]; cbn [all2]; intros Ha; try contradiction.
    + constructor.
    + destruct Ha as [[H1 H2] H3]. simpl in H1. subst g. constructor; [apply Hx; exact H2|apply IHf; exact H3].
  - intros [i [gs [E [Hp [Ho Ha]]]]]. subst v. apply rd_list with (vs := gs); [exact Ho|].
    clear Ho. revert gs Ha. induction IH as [|t l Hx Hr IHf]; intros [|w gs]; cbn [all2]; intros Ha; try contradiction.
    + constructor.
    + destruct Ha as [H1 H3]. constructor; [apply Hx; exact H1|apply IHf; exact H3].
  - intros ->. constructor.
Qed.

Definition leaf (h : heap) (i : nat) : Prop := exists k, h_obj h i = Some (ONode k []) /\ ctx_class k = false.

(** ** What a visit may do *)
Record post (h : heap) (ov : list (val * string)) (seen : list nat) (F S : nat -> Prop)
            (h' : heap) (ov' : list (val * string)) (seen' : list nat) : Prop := mkPost {
  p_next : h_next h <= h_next h';
  p_wf : forall i, h_obj h' i <> None -> i < h_next h';
  p_leaf : forall i, leaf h i -> h_obj h' i = h_obj h i;
  p_frame : forall i, i < h_next h -> ~ F i -> (~ S i \/ In i seen) -> h_obj h' i = h_obj h i;
  p_name : forall x a, x < h_next h -> ~ F x -> name_obj h x a -> name_obj h' x a;
  p_seen1 : incl seen seen';
  p_seen2 : forall i, In i seen' -> In i seen \/ F i \/ S i \/ (h_next h <= i < h_next h');
  p_seen3 : forall i, S i -> In i seen';
  p_ov : forall i, ~ F i -> ~ S i -> ovg ov' i = ovg ov i;
  p_ovF : forall i, F i \/ S i -> ovg ov' i = None }.

Record inv (h : heap) (ov : list (val * string)) (seen : list nat) (F S : nat -> Prop) : Prop := mkInv {
  i_wf : forall i, h_obj h i <> None -> i < h_next h;
  i_F : forall i, F i -> i < h_next h;
  i_S : forall i, S i -> i < h_next h;
  i_ovb : forall i, h_next h <= i -> ovg ov i = None;
  i_ovl : forall i, leaf h i -> ovg ov i = None;
  i_seenb : forall i, In i seen -> i < h_next h;
  i_seenF : forall i, In i seen -> ~ F i;
  i_FS : forall i, F i -> ~ S i }.

Lemma post_trans h ov seen (F1 S1 : nat -> Prop) h1 ov1 seen1 (F2 S2 : nat -> Prop) h2 ov2 seen2 :
  post h ov seen F1 S1 h1 ov1 seen1 -> post h1 ov1 seen1 F2 S2 h2 ov2 seen2 ->
  (forall i, F1 i -> F2 i \/ (~ F2 i /\ ~ S2 i)) -> (forall i, S1 i -> ~ F2 i) ->
  post h ov seen (fun i => F1 i \/ F2 i) (fun i => S1 i \/ S2 i) h2 ov2 seen2.
Proof.
  intros P1 P2 HF HS. constructor.
  - pose proof (p_next _ _ _ _ _ _ _ _ P1); pose proof (p_next _ _ _ _ _ _ _ _ P2); lia.
  - apply (p_wf _ _ _ _ _ _ _ _ P2).
  - intros i Hl. pose proof (p_leaf _ _ _ _ _ _ _ _ P1 i Hl) as E1. rewrite <- E1.
    apply (p_leaf _ _ _ _ _ _ _ _ P2). destruct Hl as [k [Hk1 Hk2]]. exists k. rewrite E1. auto.
  - intros i Hi HnF HnS.
    rewrite (p_frame _ _ _ _ _ _ _ _ P2).
    + apply (p_frame _ _ _ _ _ _ _ _ P1); [exact Hi|tauto|]. destruct HnS as [HnS|HnS]; [left; tauto|right; exact HnS].
    + pose proof (p_next _ _ _ _ _ _ _ _ P1); lia.
    + tauto.
    + destruct HnS as [HnS|HnS]; [left; tauto|right; apply (p_seen1 _ _ _ _ _ _ _ _ P1); exact HnS].
  - intros x a Hx HnF Hn. apply (p_name _ _ _ _ _ _ _ _ P2).
    + pose proof (p_next _ _ _ _ _ _ _ _ P1); lia.
    + tauto.
    + apply (p_name _ _ _ _ _ _ _ _ P1); tauto.
  - intros i Hi. apply (p_seen1 _ _ _ _ _ _ _ _ P2), (p_seen1 _ _ _ _ _ _ _ _ P1), Hi.
  - intros i Hi. pose proof (p_next _ _ _ _ _ _ _ _ P1); pose proof (p_next _ _ _ _ _ _ _ _ P2).
    destruct (p_seen2 _ _ _ _ _ _ _ _ P2 i Hi) as [H1|[H1|[H1|H1]]]; [|tauto|tauto|right; right; right; lia].
    destruct (p_seen2 _ _ _ _ _ _ _ _ P1 i H1) as [H2|[H2|[H2|H2]]]; [tauto|tauto|tauto|right; right; right; lia].
  - intros i [Hi|Hi].
    + apply (p_seen1 _ _ _ _ _ _ _ _ P2), (p_seen3 _ _ _ _ _ _ _ _ P1), Hi.
    + apply (p_seen3 _ _ _ _ _ _ _ _ P2), Hi.
  - intros i HnF HnS. rewrite (p_ov _ _ _ _ _ _ _ _ P2) by tauto. apply (p_ov _ _ _ _ _ _ _ _ P1); tauto.
  - intros i H.
    destruct H as [[H|H]|[H|H]].
    + destruct (HF i H) as [Hf|[Hf Hs]].
      * apply (p_ovF _ _ _ _ _ _ _ _ P2); auto.
      * rewrite (p_ov _ _ _ _ _ _ _ _ P2) by assumption. apply (p_ovF _ _ _ _ _ _ _ _ P1); auto.
    + apply (p_ovF _ _ _ _ _ _ _ _ P2); auto.
    + destruct (ovg ov2 i) eqn:E; [|reflexivity]. exfalso.
      assert (~ S2 i) by (intros Hs; rewrite (p_ovF _ _ _ _ _ _ _ _ P2 i (or_intror Hs)) in E; discriminate).
      rewrite (p_ov _ _ _ _ _ _ _ _ P2) in E by auto.
      rewrite (p_ovF _ _ _ _ _ _ _ _ P1) in E by auto. discriminate.
    + apply (p_ovF _ _ _ _ _ _ _ _ P2); auto.
Qed.

Lemma post_refl h ov seen : (forall i, h_obj h i <> None -> i < h_next h) ->
  post h ov seen (fun _ => False) (fun _ => False) h ov seen.
Proof. intros H. constructor; auto; try tauto. apply incl_refl. Qed.

Lemma post_equiv h ov seen (F S F' S' : nat -> Prop) h' ov' seen' :
  post h ov seen F S h' ov' seen' -> (forall i, F i <-> F' i) -> (forall i, S i <-> S' i) ->
  post h ov seen F' S' h' ov' seen'.
Proof.
  intros P HF HS. constructor; try apply P.
  - intros i H1 H2 H3. apply (p_frame _ _ _ _ _ _ _ _ P); [exact H1|rewrite HF; exact H2|rewrite HS; exact H3].
  - intros x a H1 H2 H3. apply (p_name _ _ _ _ _ _ _ _ P); [exact H1|rewrite HF; exact H2|exact H3].
  - intros i Hi. rewrite <- HF, <- HS. apply (p_seen2 _ _ _ _ _ _ _ _ P i Hi).
  - intros i Hi. apply (p_seen3 _ _ _ _ _ _ _ _ P). rewrite HS; exact Hi.
  - intros i H1 H2. apply (p_ov _ _ _ _ _ _ _ _ P); [rewrite HF|rewrite HS]; assumption.
  - intros i H. apply (p_ovF _ _ _ _ _ _ _ _ P). rewrite HF, HS. exact H.
Qed.

(** The invariant for the rest of the work after a step. *)
Lemma inv_step h ov seen (F S F1 S1 F2 S2 : nat -> Prop) h1 ov1 seen1 :
  inv h ov seen F S -> post h ov seen F1 S1 h1 ov1 seen1 ->
  (forall i, F1 i -> F i) -> (forall i, S1 i -> S i) ->
  (forall i, F2 i -> F i) -> (forall i, S2 i -> S i) ->
  (forall i, F2 i -> ~ F1 i) ->
  inv h1 ov1 seen1 F2 S2.
Proof.
  intros I P HF1 HS1 HF2 HS2 HD. pose proof (p_next _ _ _ _ _ _ _ _ P) as Hn.
  constructor.
  - apply (p_wf _ _ _ _ _ _ _ _ P).
  - intros i Hi. pose proof (i_F _ _ _ _ _ I i (HF2 i Hi)). lia.
  - intros i Hi. pose proof (i_S _ _ _ _ _ I i (HS2 i Hi)). lia.
  - intros i Hi. rewrite (p_ov _ _ _ _ _ _ _ _ P).
    + apply (i_ovb _ _ _ _ _ I). lia.
    + intros Hf. pose proof (i_F _ _ _ _ _ I i (HF1 i Hf)). lia.
    + intros Hs. pose proof (i_S _ _ _ _ _ I i (HS1 i Hs)). lia.
  - intros i Hl. destruct (ovg ov1 i) as [c|] eqn:E; [|reflexivity]. exfalso.
    assert (HnF : ~ F1 i) by (intros Hf; rewrite (p_ovF _ _ _ _ _ _ _ _ P) in E by auto; discriminate).
    assert (HnS : ~ S1 i) by (intros Hf; rewrite (p_ovF _ _ _ _ _ _ _ _ P) in E by auto; discriminate).
    rewrite (p_ov _ _ _ _ _ _ _ _ P) in E by assumption.
    assert (Hlt : i < h_next h).
    { destruct (le_lt_dec (h_next h) i) as [Hle|Hlt]; [|exact Hlt].
      rewrite (i_ovb _ _ _ _ _ I i Hle) in E. discriminate. }
    assert (Hl' : leaf h i).
    { destruct Hl as [k [Hk1 Hk2]]. exists k. rewrite <- Hk1. split; [|exact Hk2]. symmetry.
      apply (p_frame _ _ _ _ _ _ _ _ P); auto. }
    rewrite (i_ovl _ _ _ _ _ I i Hl') in E. discriminate.
  - intros i Hi. destruct (p_seen2 _ _ _ _ _ _ _ _ P i Hi) as [H|[H|[H|H]]].
    + pose proof (i_seenb _ _ _ _ _ I i H). lia.
    + pose proof (i_F _ _ _ _ _ I i (HF1 i H)). lia.
    + pose proof (i_S _ _ _ _ _ I i (HS1 i H)). lia.
    + lia.
  - intros i Hi Hf. destruct (p_seen2 _ _ _ _ _ _ _ _ P i Hi) as [H|[H|[H|H]]].
    + apply (i_seenF _ _ _ _ _ I i H). apply HF2, Hf.
    + apply (HD i Hf H).
    + apply (i_FS _ _ _ _ _ I i (HF2 i Hf)). apply HS1, H.
    + pose proof (i_F _ _ _ _ _ I i (HF2 i Hf)). lia.
  - intros i Hf Hs. apply (i_FS _ _ _ _ _ I i (HF2 i Hf) (HS2 i Hs)).
Qed.

(** What has been processed. *)
Definition region (h h' : heap) (F S : nat -> Prop) (i : nat) : Prop :=
  F i \/ S i \/ (h_next h <= i < h_next h') \/ leaf h' i.

Lemma region_step h ov seen (F1 S1 F2 S2 G H : nat -> Prop) h1 ov1 seen1 h2 ov2 seen2 :
  post h ov seen F1 S1 h1 ov1 seen1 -> post h1 ov1 seen1 F2 S2 h2 ov2 seen2 ->
  (forall i, F1 i \/ S1 i \/ F2 i \/ S2 i -> i < h_next h) ->
  (forall i, F1 i -> ~ F2 i /\ ~ S2 i) -> (forall i, S1 i -> ~ F2 i) ->
  (forall i, F1 i -> G i) -> (forall i, S1 i -> H i) ->
  forall i, region h h1 F1 S1 i -> region h h2 G H i /\ h_obj h2 i = h_obj h1 i.
Proof.
  intros P1 P2 HB HF HS HG HH i Hr.
  pose proof (p_next _ _ _ _ _ _ _ _ P1) as Hn1. pose proof (p_next _ _ _ _ _ _ _ _ P2) as Hn2.
  assert (E : h_obj h2 i = h_obj h1 i).
  { destruct Hr as [Hr|[Hr|[Hr|Hr]]].
    - apply (p_frame _ _ _ _ _ _ _ _ P2).
      + specialize (HB i (or_introl Hr)). lia.
      + apply (HF i Hr).
      + left. apply (HF i Hr).
    - apply (p_frame _ _ _ _ _ _ _ _ P2).
      + assert (i < h_next h) by (apply HB; auto). lia.
      + apply (HS i Hr).
      + right. apply (p_seen3 _ _ _ _ _ _ _ _ P1 i Hr).
    - apply (p_frame _ _ _ _ _ _ _ _ P2).
      + lia.
      + intros Hf. assert (i < h_next h) by (apply HB; auto). lia.
      + left. intros Hs. assert (i < h_next h) by (apply HB; auto). lia.
    - apply (p_leaf _ _ _ _ _ _ _ _ P2 i Hr). }
  split; [|exact E]. destruct Hr as [Hr|[Hr|[Hr|Hr]]].
  - left; auto.
  - right; left; auto.
  - right; right; left. lia.
  - right; right; right. destruct Hr as [k [Hk1 Hk2]]. exists k. rewrite E. auto.
Qed.

Lemma region_weaken h h1 h2 (F S G H : nat -> Prop) i :
  h_next h <= h_next h1 -> (forall i, F i -> G i) -> (forall i, S i -> H i) ->
  region h1 h2 F S i -> region h h2 G H i.
Proof.
  intros Hn HF HS [Hr|[Hr|[Hr|Hr]]].
  - left; auto.
  - right; left; auto.
  - right; right; left; lia.
  - right; right; right; exact Hr.
Qed.

(** ** Nothing but ctx fields is written *)
Definition same_shape (h' : heap) (o o' : obj) : Prop :=
  o' = o \/
  exists k fs c0, o = ONode k fs /\ ctx_class k = true /\ leaf h' c0 /\ o' = ONode k (vset "ctx" (VRef c0) fs).
Definition keep (h h' : heap) : Prop :=
  (forall i, leaf h i -> h_obj h' i = h_obj h i) /\
  forall i o, h_obj h i = Some o -> exists o', h_obj h' i = Some o' /\ same_shape h' o o'.

Lemma vset_vset f v w fs : vset f w (vset f v fs) = vset f w fs.
Proof.
  induction fs as [|[g u] fs IH]; cbn [vset].
  - rewrite String.eqb_refl. reflexivity.
  - destruct (String.eqb f g) eqn:E; cbn [vset]; rewrite E; [reflexivity|]. rewrite IH. reflexivity.
Qed.

Lemma keep_refl h : keep h h.
Proof. split; [auto|]. intros i o H. exists o. split; [exact H|left; reflexivity]. Qed.
Lemma keep_trans h h1 h2 : keep h h1 -> keep h1 h2 -> keep h h2.
Proof.
  intros [L1 K1] [L2 K2]. split.
  { intros i Hi. rewrite <- (L1 i Hi). apply L2. destruct Hi as [k [Hk Hc]]. exists k. rewrite (L1 i); [auto|]. exists k; auto. }
  intros i o H. destruct (K1 i o H) as [o1 [E1 S1]]. destruct (K2 i o1 E1) as [o2 [E2 S2]].
  exists o2. split; [exact E2|].
  assert (HL : forall c, leaf h1 c -> leaf h2 c).
  { intros c Hc. destruct Hc as [k [Hk Hc]]. exists k. rewrite L2; [auto|]. exists k; auto. }
  destruct S1 as [S1|[k [fs [c0 [S1 [Hk [Hl S1']]]]]]]; subst.
  - exact S2.
  - right. exists k, fs. destruct S2 as [S2|[k' [fs' [c1 [S2 [Hk2 [Hl2 S2']]]]]]]; subst.
    + exists c0. auto.
    + inversion S2; subst. exists c1. rewrite vset_vset. auto.
Qed.
Lemma keep_hset_same h i o : h_obj h i = Some o -> keep h (hset h i o).
Proof.
  intros H. assert (E : forall j, h_obj (hset h i o) j = h_obj h j).
  { intros j. simpl. destruct (Nat.eqb i j) eqn:Ej; [|reflexivity]. apply Nat.eqb_eq in Ej. subst. auto. }
  split; [intros j _; apply E|]. intros j p Hj. exists p. rewrite E. split; [exact Hj|left; reflexivity].
Qed.
Lemma keep_alloc h o : (forall j, h_obj h j <> None -> j < h_next h) -> keep h (snd (halloc h o)).
Proof.
  intros Hw. assert (E : forall j, h_obj h j <> None -> h_obj (snd (halloc h o)) j = h_obj h j).
  { intros j Hj. specialize (Hw j Hj). simpl. destruct (Nat.eqb (h_next h) j) eqn:Ej; [apply Nat.eqb_eq in Ej; lia|reflexivity]. }
  split.
  - intros j [k [Hk _]]. apply E. congruence.
  - intros j p Hj. exists p. rewrite E by congruence. split; [exact Hj|left; reflexivity].
Qed.
Lemma keep_ctx h i k fs c0 : h_obj h i = Some (ONode k fs) -> ctx_class k = true -> leaf h c0 -> 
  keep h (hset h i (ONode k (vset "ctx" (VRef c0) fs))).
Proof.
  intros H Hk Hl. assert (Hne : forall j, leaf h j -> i <> j).
  { intros j [kj [Hj Hc]] E. subst j. rewrite H in Hj. inversion Hj; subst. congruence. }
  assert (Ho : forall j, i <> j -> h_obj (hset h i (ONode k (vset "ctx" (VRef c0) fs))) j = h_obj h j).
  { intros j Hj. simpl. apply Nat.eqb_neq in Hj. rewrite Hj. reflexivity. }
  split; [intros j Hj; apply Ho, Hne, Hj|].
  intros j o Hj. destruct (Nat.eq_dec i j) as [E|E].
  - subst j. rewrite H in Hj. inversion Hj; subst. exists (ONode k (vset "ctx" (VRef c0) fs)). split.
    + simpl. rewrite Nat.eqb_refl. reflexivity.
    + right. exists k, fs, c0. destruct Hl as [kl [Hl Hc]].
      split; [reflexivity|]. split; [exact Hk|]. split; [|reflexivity].
      exists kl. rewrite Ho; [auto|]. apply Hne. exists kl; auto.
  - exists o. rewrite Ho by exact E. split; [exact Hj|left; reflexivity].
Qed.
