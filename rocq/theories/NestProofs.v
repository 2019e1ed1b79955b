(** Facts about trees with markers, for C55. *)
From Verif Require Import Base AstLib UtilsModel FixLocModel MarkersModel QuoteModel ExpanderModel ExpanderSpec ExpanderProofs ExpanderProofs2 ExpanderProofs3 NestModel NestSpec.

(** ** Fields *)
Lemma with_field_getf {M A} f (d : A) (g : tree M -> A) fs : with_field f d g fs = match getf f fs with Some v => g v | None => d end.
Proof. induction fs as [|[f' v] r IH]; [reflexivity|]. cbn [with_field getf]. destruct (String.eqb f f'); [reflexivity|exact IH]. Qed.
Lemma setf_In {M} f (v : tree M) fs p : In p (setf f v fs) -> p = (f, v) \/ In p fs.
Proof.
  induction fs as [|[f' w] r IH]; cbn [setf].
  - intros [<-|[]]. auto.
  - destruct (String.eqb_spec f f') as [<-|Hn]; intros [<-|H]; [auto|right; right; exact H|right; left; reflexivity|].
    destruct (IH H); [auto|right; right; assumption].
Qed.
Lemma setf_getf_other {M} f g (v : tree M) fs : f <> g -> getf g (setf f v fs) = getf g fs.
Proof.
  intros Hn. induction fs as [|[f' w] r IH]; cbn [setf getf].
  - destruct (String.eqb_spec g f); [congruence|reflexivity].
  - destruct (String.eqb_spec f f') as [<-|H1]; cbn [getf].
    + destruct (String.eqb_spec g f); [congruence|reflexivity].
    + destruct (String.eqb g f'); [reflexivity|exact IH].
Qed.

(** ** Trees without quasiquote markers *)
Fixpoint nomark (t : ltree) : bool :=
  match t with
  | Nd _ k fs => negb (is_quasi k) && (if String.eqb k "Done" then Nat.eqb (List.length fs) 1 else true) && forallb (fun p : string * ltree => let (_, v) := p in nomark v) fs
  | Ls l => forallb nomark l
  | At _ => true
  end.
Lemma nomark_node m k fs : nomark (Nd m k fs) = true -> is_quasi k = false /\ (k = "Done"%string -> List.length fs = 1) /\ (forall f v, In (f, v) fs -> nomark v = true).
Proof.
  cbn [nomark]. intros H. apply andb_true_iff in H. destruct H as [H H3]. apply andb_true_iff in H. destruct H as [H1 H2].
  split; [apply negb_true_iff; exact H1|]. split.
  - intros ->. cbn in H2. apply Nat.eqb_eq. exact H2.
  - intros f v Hin. rewrite forallb_forall in H3. exact (H3 _ Hin).
Qed.
Lemma nomark_intro m k fs : is_quasi k = false -> k <> "Done"%string -> (forall f v, In (f, v) fs -> nomark v = true) -> nomark (Nd m k fs) = true.
Proof.
  intros H1 H2 H3. cbn [nomark]. rewrite H1. destruct (String.eqb_spec k "Done"); [contradiction|]. cbn. apply forallb_forall. intros [f v] Hin. exact (H3 f v Hin).
Qed.
Lemma relabel_not_done m k fs : k <> "Done"%string -> relabel (Nd m k fs) = Nd m k (map (fun p : string * ltree => let (f, v) := p in (f, relabel v)) fs).
Proof.
  intros Hk. cbn [relabel]. destruct (map _ fs) as [|[f v] [|[g [| |[]]] [|]]]; try reflexivity. destruct (String.eqb_spec k "Done"); [contradiction|reflexivity].
Qed.
Lemma relabel_nomark t : nomark t = true -> relabel t = t.
Proof.
  induction t as [m k fs IH|l IH|a] using tree_ind2; intros H.
  - apply nomark_node in H. destruct H as (H1 & H2 & H3).
    assert (Hm : map (fun p : string * ltree => let (f, v) := p in (f, relabel v)) fs = fs).
    { clear H2. induction fs as [|[f v] fs IHf]; [reflexivity|]. inversion IH as [|? ? [Hv _] HIH]; subst. cbn [map]. f_equal.
      - f_equal. apply Hv. exact (H3 f v (or_introl eq_refl)).
      - apply IHf; [exact HIH|]. intros g w Hw. exact (H3 g w (or_intror Hw)). }
    destruct (String.eqb_spec k "Done") as [->|Hk].
    + cbn [relabel]. rewrite Hm. specialize (H2 eq_refl). destruct fs as [|? [|]]; try discriminate. destruct p. reflexivity.
    + rewrite (relabel_not_done _ _ _ Hk), Hm. reflexivity.
  - cbn [relabel]. f_equal. cbn [nomark] in H. rewrite forallb_forall in H. rewrite Forall_forall in IH. rewrite <- (map_id l) at 2. apply map_ext_in. intros x Hx. auto.
  - reflexivity.
Qed.
Lemma is_quasi_search k : is_quasi k = false -> is_search k = false.
Proof. intros H. unfold is_search. destruct (String.eqb_spec k "QuasiquoteSearchDone") as [->|]; [discriminate|reflexivity]. Qed.

(** ** Deleting the markers of nested quotes *)
Definition del (t : ltree) : res ltree := delete_markers is_search (relabel t).
Lemma gv_list_same (l : list ltree) : Forall (fun x => is_node x = true -> delete_markers is_search x = Ok x) l -> gv_list (delete_markers is_search) l = Ok l.
Proof.
  induction 1 as [|x l Hx _ IH]; [reflexivity|]. cbn [gv_list]. destruct x as [m k fs|l'|a]; [|rewrite IH; reflexivity ..]. rewrite (Hx eq_refl), IH. reflexivity.
Qed.
Lemma delete_nomark t : nomark t = true -> is_node t = true -> delete_markers is_search t = Ok t.
Proof.
  induction t as [m k fs IH|l IH|a] using tree_ind2; intros H Hn; try discriminate. apply nomark_node in H. destruct H as (H1 & _ & H3).
  cbn [delete_markers]. rewrite (is_quasi_search _ H1).
  assert (G : gv_fields (delete_markers is_search) fs = Ok fs).
  { clear Hn. induction fs as [|[f v] fs IHf]; [reflexivity|]. inversion IH as [|? ? [Hv Hl] HIH]; subst. cbn [snd] in Hv, Hl. cbn [gv_fields].
    rewrite (IHf HIH) by (intros g w Hw; exact (H3 g w (or_intror Hw))). pose proof (H3 f v (or_introl eq_refl)) as Hvm. destruct v as [m' k' fs'|l|a].
    - rewrite (Hv Hvm eq_refl). reflexivity.
    - rewrite gv_list_same; [reflexivity|]. rewrite Forall_forall in *. cbn [nomark] in Hvm. rewrite forallb_forall in Hvm. intros x Hx. apply Hl; auto.
    - reflexivity. }
  rewrite G. reflexivity.
Qed.
Lemma del_nomark t : nomark t = true -> is_node t = true -> del t = Ok t.
Proof. intros H Hn. unfold del. rewrite (relabel_nomark _ H). apply delete_nomark; assumption. Qed.
Lemma relabel_is_node t : is_node (relabel t) = is_node t.
Proof.
  destruct t as [m k fs| |]; try reflexivity. cbn [relabel]. destruct (map _ fs) as [|[f v] [|[g [| |[]]] [|]]]; try reflexivity. destruct (_ && _); reflexivity.
Qed.

(** [dl x y]: [y] is [x] without those markers; both are nodes, or the same atom. *)
Definition dl (x y : ltree) : Prop := (is_node x = true /\ is_node y = true /\ del x = Ok y) \/ (exists a, x = At a /\ y = At a).
Lemma dl_list xs ys : Forall2 dl xs ys -> gv_list (delete_markers is_search) (map relabel xs) = Ok ys.
Proof.
  induction 1 as [|x y xs ys H _ IH]; [reflexivity|]. cbn [map gv_list]. destruct H as [(H1 & H2 & H3)|(a & -> & ->)].
  - unfold del in H3. pose proof (relabel_is_node x) as Hr. rewrite H1 in Hr. destruct (relabel x) as [m k fs| |]; try discriminate. rewrite H3. destruct y; try discriminate. rewrite IH. reflexivity.
  - cbn [relabel]. rewrite IH. reflexivity.
Qed.
(** The values of a field: [vl x y]. *)
Definition vl (x y : ltree) : Prop := dl x y \/ exists xs ys, x = Ls xs /\ y = Ls ys /\ Forall2 dl xs ys.
Lemma vl_fields fs gs : Forall2 (fun p q : string * ltree => fst p = fst q /\ vl (snd p) (snd q)) fs gs ->
  gv_fields (delete_markers is_search) (map (fun p : string * ltree => let (f, v) := p in (f, relabel v)) fs) = Ok gs.
Proof.
  induction 1 as [|[f x] [g y] fs gs [Hf H] _ IH]; [reflexivity|]. cbn [fst snd] in Hf, H. subst g. cbn [map gv_fields]. destruct H as [[(H1 & H2 & H3)|(a & -> & ->)]|(xs & ys & -> & -> & H)].
  - unfold del in H3. pose proof (relabel_is_node x) as Hr. rewrite H1 in Hr. destruct (relabel x) as [m k fs'| |]; try discriminate. rewrite H3. destruct y; try discriminate. rewrite IH. reflexivity.
  - cbn [relabel]. rewrite IH. reflexivity.
  - cbn [relabel]. rewrite (dl_list _ _ H), IH. reflexivity.
Qed.
Lemma del_node m k fs gs : k <> "Done"%string -> is_quasi k = false -> Forall2 (fun p q : string * ltree => fst p = fst q /\ vl (snd p) (snd q)) fs gs -> del (Nd m k fs) = Ok (Nd m k gs).
Proof. intros H1 H2 H3. unfold del. rewrite (relabel_not_done _ _ _ H1). cbn [delete_markers]. rewrite (is_quasi_search _ H2), (vl_fields _ _ H3). reflexivity. Qed.
Lemma del_search x y : del x = Ok y -> del (search_done x) = Ok y.
Proof. intros H. unfold del, search_done. cbn. exact H. Qed.
Lemma nomark_dl x : nomark x = true -> is_list x = false -> dl x x.
Proof. intros H Hl. destruct x as [m k fs|l|a]; [left|discriminate|right; eauto]. split; [reflexivity|]. split; [reflexivity|]. apply del_nomark; [exact H|reflexivity]. Qed.
Lemma setf_vl f v w fs : (forall g z, In (g, z) fs -> vl z z) -> vl v w -> Forall2 (fun p q : string * ltree => fst p = fst q /\ vl (snd p) (snd q)) (setf f v fs) (setf f w fs).
Proof.
  intros H Hv. assert (R : forall fs, (forall g z, In (g, z) fs -> vl z z) -> Forall2 (fun p q : string * ltree => fst p = fst q /\ vl (snd p) (snd q)) fs fs).
  { clear. intros fs H. induction fs as [|[g z] fs IH]; [constructor|]. constructor; [split; [reflexivity|exact (H g z (or_introl eq_refl))]|]. apply IH. intros g' z' Hz. exact (H g' z' (or_intror Hz)). }
  induction fs as [|[g z] fs IH]; cbn [setf]; [constructor; [split; [reflexivity|exact Hv]|constructor]|]. destruct (String.eqb f g).
  - constructor; [split; [reflexivity|exact Hv]|]. apply R. intros g' z' Hz. exact (H g' z' (or_intror Hz)).
  - constructor; [split; [reflexivity|exact (H g z (or_introl eq_refl))]|]. apply IH. intros g' z' Hz. exact (H g' z' (or_intror Hz)).
Qed.
