(** A checker for [source], used to show that concrete trees meet the hypotheses of theorems. It refuses more than [source] does. *)
From Verif Require Import Base AstLib FixLocModel QuoteModel ExpanderModel ExpanderSpec ExpanderProofs5 ExpanderExamples ExpanderCheck NestModel NestSpec.

Definition simpleb (c : ltree) : bool := negb (String.eqb (kind_of c) "Subscript") && negb (String.eqb (kind_of c) "Call").
Definition source_nodeb (t : ltree) : bool :=
  match t with
  | Nd m k fs =>
      negb (String.eqb k "Done") && (negb (is_quasi k) &&
      (forallb (fun p => match snd p with Ls l => forallb (fun x => negb (is_list x)) l | _ => true end) fs &&
      ((negb (String.eqb k "Name") || forallb (fun p => match snd p with At _ => true | Nd _ k' [] => smem k' ["Load"; "Store"; "Del"]%string | _ => false end) fs) &&
      ((negb (String.eqb k "Subscript") || match getf "value" fs, getf "slice" fs with Some c, Some sl => simpleb c && is_node sl | _, _ => false end) &&
      ((negb (String.eqb k "With") ||
        match getf "items" fs, getf "body" fs with
        | Some (Ls [Nd _ _ fi]), Some (Ls (x :: l)) =>
            match getf "context_expr" fi with Some c => simpleb c | None => false end && match ln m, co m with None, Some _ => false | _, _ => true end && forallb is_node (x :: l)
        | _, _ => false
        end) &&
      (negb (String.eqb k "ClassDef" || String.eqb k "FunctionDef") || match getf "decorator_list" fs with Some (Ls (_ :: _)) => false | _ => true end))))))
  | _ => true
  end.
Fixpoint sourceb (t : ltree) : bool :=
  source_nodeb t &&
  match t with
  | Nd _ k fs => forallb (fun p => sourceb (snd p)) fs
  | Ls l => forallb sourceb l
  | At _ => true
  end.
Lemma smem_In x l : smem x l = true -> In x l.
Proof. unfold smem. intros H. apply existsb_exists in H. destruct H as (y & Hy & E). apply String.eqb_eq in E. subst. exact Hy. Qed.
Lemma simple_name (c : ltree) x : simpleb c = true -> denotes c x [] -> kind_of c = "Name"%string.
Proof. intros H D. inversion D; subst; [reflexivity|discriminate H|discriminate H]. Qed.
Lemma source_nodeb_ok opn t : source_nodeb t = true -> source_node opn t.
Proof.
  destruct t as [m k fs|l|a]; intros H; try exact I. unfold source_nodeb in H.
  apply andb_true_iff in H. destruct H as [H1 H]. apply andb_true_iff in H. destruct H as [H2 H]. apply andb_true_iff in H. destruct H as [H3 H]. apply andb_true_iff in H. destruct H as [H4 H].
  apply andb_true_iff in H. destruct H as [H5 H]. apply andb_true_iff in H. destruct H as [H6 H7]. cbn [source_node].
  refine (conj _ (conj _ (conj _ (conj _ (conj _ (conj _ _)))))).
  - apply negb_true_iff, String.eqb_neq in H1. exact H1.
  - apply negb_true_iff in H2. exact H2.
  - rewrite forallb_forall in H3. apply Forall_forall. intros p Hp. specialize (H3 p Hp). destruct (snd p) as [|l|]; try exact I. rewrite forallb_forall in H3. apply Forall_forall. intros x Hx. apply negb_true_iff. exact (H3 x Hx).
  - intros ->. cbn [negb String.eqb Ascii.eqb Bool.eqb orb] in H4. rewrite forallb_forall in H4. apply Forall_forall. intros p Hp. specialize (H4 p Hp). destruct (snd p) as [? ? [|? ?]| |]; try discriminate; [apply smem_In; exact H4|exact I].
  - intros -> c x Hc D _. cbn [negb String.eqb Ascii.eqb Bool.eqb orb] in H5. rewrite Hc in H5. destruct (getf "slice" fs) as [sl|]; [|discriminate]. apply andb_true_iff in H5. destruct H5 as [Hs Hn]. split; [exact (simple_name _ _ Hs D)|eauto].
  - intros -> items it mi fi c x Hi Hin -> Hc D _. cbn [negb String.eqb Ascii.eqb Bool.eqb orb] in H6. rewrite Hi in H6. destruct items as [|[m0 k0 fi0| |] [|? ?]]; try discriminate. destruct Hin as [Hin|[]]. inversion Hin; subst.
    destruct (getf "body" fs) as [[|[|y l]|]|]; try discriminate. rewrite Hc in H6. apply andb_true_iff in H6. destruct H6 as [H6 Hb]. apply andb_true_iff in H6. destruct H6 as [Hs Hl].
    split; [reflexivity|]. split; [exact (simple_name _ _ Hs D)|]. split; [intros Hln; rewrite Hln in Hl; destruct (co m); [discriminate|reflexivity]|]. exists (y :: l). split; [reflexivity|]. split; [discriminate|]. rewrite forallb_forall in Hb. apply Forall_forall. exact Hb.
  - intros Hk ds c x Hds Hin _. exfalso. assert (Hk' : String.eqb k "ClassDef" || String.eqb k "FunctionDef" = true) by (destruct Hk as [-> | ->]; reflexivity). rewrite Hk' in H7. cbn [negb orb] in H7. rewrite Hds in H7. destruct ds; [destruct Hin|discriminate].
Qed.
Lemma sourceb_ok opn t : tidyb t = true -> sourceb t = true -> source opn t.
Proof.
  intros H1 H. split; [apply shapedb_ok; exact H1|]. clear H1. intros u Hu. revert H. induction Hu as [t|m k fs f v u Hk Hin Hp IH|l v u Hin Hp IH]; intros H.
  - apply source_nodeb_ok. destruct t; cbn [sourceb] in H; apply andb_true_iff in H; exact (proj1 H).
  - apply IH. cbn [sourceb] in H. apply andb_true_iff in H. destruct H as [_ H]. rewrite forallb_forall in H. exact (H _ Hin).
  - apply IH. cbn [sourceb] in H. apply andb_true_iff in H. destruct H as [_ H]. rewrite forallb_forall in H. exact (H _ Hin).
Qed.
