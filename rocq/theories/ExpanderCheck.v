(** A checker for [tidy] (hence [shaped]), used to show that concrete trees meet the hypotheses of theorems. *)
From Verif Require Import Base AstLib FixLocModel ExpanderModel ExpanderSpec ExpanderProofs5 ExpanderExamples.

Definition has_fieldb {M} (fs : list (string * tree M)) (p : string * ftype) : bool :=
  match snd p, getf (fst p) fs with
  | FStr, Some (At (AStr _)) => true
  | FAny, Some _ => true
  | FList, Some (Ls _) => true
  | _, _ => false
  end.
Fixpoint nodupb (l : list string) : bool := match l with [] => true | x :: r => negb (smem x r) && nodupb r end.
Definition kindb (k : string) (t : ltree) : bool := String.eqb (kind_of t) k.
Definition tidy_nodeb (t : ltree) : bool :=
  match t with
  | Nd _ k fs =>
      forallb (fun p => negb (String.eqb k (fst p)) || forallb (has_fieldb fs) (snd p)) grammar &&
      (negb (String.eqb k "With") || match getf "items" fs with Some (Ls l) => forallb (kindb "withitem") l | _ => true end) &&
      nodupb (map fst fs) &&
      (negb (String.eqb k "Name") || forallb (fun p => match snd p with Nd _ _ [] => true | At _ => true | _ => false end) fs) &&
      (negb (String.eqb k "Call") || match getf "keywords" fs with Some (Ls l) => forallb (kindb "keyword") l | _ => true end)
  | Ls l => forallb (fun v => negb (is_list v)) l
  | At _ => true
  end.
Fixpoint tidyb (t : ltree) : bool :=
  tidy_nodeb t &&
  match t with
  | Nd _ k fs => String.eqb k "Done" || forallb (fun p => tidyb (snd p)) fs
  | Ls l => forallb tidyb l
  | At _ => true
  end.

Lemma has_fieldb_ok {M} (fs : list (string * tree M)) p : has_fieldb fs p = true -> has_field fs p.
Proof. unfold has_fieldb, has_field. destruct (snd p); destruct (getf (fst p) fs) as [[| |[]]|]; try discriminate; eauto. Qed.
Lemma nodupb_ok l : nodupb l = true -> NoDup l.
Proof.
  induction l as [|x l IH]; cbn; intros H; constructor; apply andb_true_iff in H; destruct H as [H1 H2]; [|auto].
  intros Hin. apply negb_true_iff in H1. assert (smem x l = true) by (unfold smem; apply existsb_exists; exists x; split; [exact Hin|apply String.eqb_refl]). congruence.
Qed.
Lemma impb_ok (a b : bool) : negb a || b = true -> a = true -> b = true.
Proof. destruct a, b; auto. Qed.
Lemma tidy_nodeb_ok t : tidy_nodeb t = true -> tidy_node t.
Proof.
  destruct t as [m k fs|l|a]; intros H; unfold tidy_nodeb in H; unfold tidy_node.
  - do 4 (apply andb_true_iff in H; destruct H as [H ?]). rewrite forallb_forall in H. split; [split|split; [apply nodupb_ok; assumption|split]].
    + intros g Hin. specialize (H _ Hin). cbn [fst snd] in H. rewrite String.eqb_refl in H. cbn in H. rewrite forallb_forall in H. apply Forall_forall. intros p Hp. apply has_fieldb_ok. exact (H p Hp).
    + intros -> l Hl. match goal with Hx : negb (String.eqb _ "With") || _ = true |- _ => pose proof (impb_ok _ _ Hx (String.eqb_refl _)) as Hy end. rewrite Hl in Hy. rewrite forallb_forall in Hy. apply Forall_forall. intros it Hit. apply String.eqb_eq. exact (Hy it Hit).
    + intros -> f v Hin. match goal with Hx : negb (String.eqb _ "Name") || _ = true |- _ => pose proof (impb_ok _ _ Hx (String.eqb_refl _)) as Hy end. rewrite forallb_forall in Hy. specialize (Hy _ Hin). cbn in Hy. destruct v as [? ? []| |]; try discriminate; exact I.
    + intros -> l Hl. match goal with Hx : negb (String.eqb _ "Call") || _ = true |- _ => pose proof (impb_ok _ _ Hx (String.eqb_refl _)) as Hy end. rewrite Hl in Hy. rewrite forallb_forall in Hy. apply Forall_forall. intros it Hit. apply String.eqb_eq. exact (Hy it Hit).
  - split; [exact I|]. rewrite forallb_forall in H. apply Forall_forall. intros v Hv. specialize (H v Hv). destruct v; try discriminate; reflexivity.
  - split; exact I.
Qed.
Lemma tidyb_ok t : tidyb t = true -> tidy t.
Proof.
  intros H u Hu. revert H. induction Hu as [t|m k fs f v u Hk Hin Hp IH|l v u Hin Hp IH]; intros H.
  - apply tidy_nodeb_ok. destruct t; cbn [tidyb] in H; apply andb_true_iff in H; exact (proj1 H).
  - apply IH. cbn [tidyb] in H. apply andb_true_iff in H. destruct H as [_ H]. apply orb_true_iff in H. destruct H as [H|H]; [apply String.eqb_eq in H; contradiction|]. rewrite forallb_forall in H. exact (H _ Hin).
  - apply IH. cbn [tidyb] in H. apply andb_true_iff in H. destruct H as [_ H]. rewrite forallb_forall in H. exact (H _ Hin).
Qed.
Lemma shapedb_ok t : tidyb t = true -> shaped t.
Proof. intros H. apply tidy_shaped, tidyb_ok, H. Qed.

(** The macros of the examples do not change the bindings. *)
Lemma macros_keep j i : keeps_binds (m_run (x_macro env0 j) i).
Proof.
  assert (G : forall h t f, (forall r, keeps_binds (f r)) -> @keeps_binds unit (CallX h t f)) by (intros; constructor; assumption).
  do 10 (destruct j as [|j]; [cbn; try (constructor; fail); apply G; intros []; constructor|]). cbn. constructor. intros b. apply G. intros []; constructor.
Qed.
