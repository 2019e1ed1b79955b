From Verif Require Import Base AstLib HeapAst CtxModel CtxSpec CtxProofs CtxProofs2 CtxProofs4 CtxProofs5 CtxProofs6 CtxProofs7 CtxProofs8 CtxProofs9.

Scheme owns_ind3 := Induction for owns Sort Prop
  with owns_list_ind3 := Induction for owns_list Sort Prop
  with owns_fields_ind3 := Induction for owns_fields Sort Prop.
Combined Scheme owns_mut from owns_ind3, owns_list_ind3, owns_fields_ind3.

Lemma owns_fields_app h fs1 fs2 : forall gs1 gs2 F, List.length fs1 = List.length gs1 ->
  owns_fields h (fs1 ++ fs2) (gs1 ++ gs2) F ->
  exists F1 F2, F = F1 ++ F2 /\ owns_fields h fs1 gs1 F1 /\ owns_fields h fs2 gs2 F2.
Proof.
  induction fs1 as [|[f v] fs1 IH]; intros [|[g t] gs1] gs2 F HL H; try discriminate.
  - exists [], F. repeat split; [constructor|exact H].
  - simpl in H. inversion H; subst. destruct (IH gs1 gs2 F2) as [Fa [Fb [E [A B]]]]; [simpl in HL; lia|assumption|].
    subst F2. exists (F1 ++ Fa), Fb. rewrite app_assoc. repeat split; [constructor; assumption|exact B].
Qed.

Lemma owns_fields_len h fs gs F : owns_fields h fs gs F -> map fst fs = map fst gs.
Proof. induction 1; simpl; congruence. Qed.

(** A sound unshared tree is represented without shared Names. *)
Lemma owns_rep h :
  (forall v t F, owns h v t F -> forall c,
     (is_node t = true -> sound c t = true -> rep h c v t F []) /\
     (forall l, t = Ls l -> forallb (fun x => negb (is_list x) && sound c x) l = true ->
        exists j vs F', v = VRef j /\ F = j :: F' /\ h_obj h j = Some (OList vs) /\ rep_elts h c vs l F' [])) /\
  (forall vs ts F, owns_list h vs ts F -> forall c,
     forallb (fun x => negb (is_list x) && sound c x) ts = true -> rep_elts h c vs ts F []) /\
  (forall fs gs F, owns_fields h fs gs F -> forall k c, Forall (fieldsound k c) gs -> rep_fields h k c fs gs F []).
Proof.
  apply owns_mut.
  - intros a c. split; [intros H|intros l H]; discriminate.
  - intros i k Ho Hk c. split; [|intros l H; discriminate]. intros _ _. apply rp_bare; assumption.
  - intros i vs ts F Ho H IH c. split; [intros Hn; discriminate|]. intros l E Hl. inversion E; subst. exists i, vs, F. auto.
  - intros i k fs gs F Ho Hne H IH c. split; [|intros l E; discriminate]. intros _ Hs.
    cbn [sound] in Hs. apply andb_true_iff in Hs. destruct Hs as [_ Hs].
    assert (Hfs : Forall (fieldsound k c) gs).
    { apply Forall_forall. intros [f t] Hin. rewrite forallb_forall in Hs. apply Hs in Hin. exact Hin. }
    pose proof (IH k c Hfs) as R.
    assert (Hsplit : forall a b a' b' F, List.length a = List.length a' -> rep_fields h k c (a ++ b) (a' ++ b') F [] ->
              exists F1 F2, F = F1 ++ F2 /\ rep_fields h k c a a' F1 [] /\ rep_fields h k c b b' F2 []).
    { clear. induction a as [|[f v] a IHa]; intros b [|[g t] a'] b' F HL R; try discriminate.
      - exists [], F. repeat split; [constructor|exact R].
      - simpl in HL, R. inversion R; subst.
        + match goal with HH : rep_fields _ _ _ (a ++ b) _ _ _ |- _ => destruct (IHa b a' b' F) as [Fa [Fb [E [A B]]]]; [lia|exact HH|] end.
          exists Fa, Fb. repeat split; [exact E|constructor; exact A|exact B].
        + match goal with HH : _ ++ _ = [] |- _ => apply app_eq_nil in HH; destruct HH; subst end.
          match goal with HH : rep_fields _ _ _ (a ++ b) _ ?F2 _ |- _ => destruct (IHa b a' b' F2) as [Fa [Fb [E [A B]]]]; [lia|exact HH|subst F2] end.
          exists (F1 ++ Fa), Fb. rewrite app_assoc. split; [reflexivity|]. split; [|exact B].
          change (@nil (nat * string)) with (@nil (nat * string) ++ []). constructor; assumption.
        + match goal with HH : _ ++ _ = [] |- _ => apply app_eq_nil in HH; destruct HH; subst end.
          match goal with HH : rep_fields _ _ _ (a ++ b) _ ?F2 _ |- _ => destruct (IHa b a' b' F2) as [Fa [Fb [E [A B]]]]; [lia|exact HH|subst F2] end.
          exists (j :: F1 ++ Fa), Fb. rewrite app_assoc. split; [reflexivity|]. split; [|exact B].
          change (@nil (nat * string)) with (@nil (nat * string) ++ []). eapply rf_list; eassumption. }
    rewrite <- (head_tail k fs), <- (head_tail k gs) in R.
    assert (HL : List.length fs = List.length gs).
    { pose proof (owns_fields_len _ _ _ _ H) as E. rewrite <- (map_length fst fs), E, map_length. reflexivity. }
    apply Hsplit in R.
    + destruct R as [F1 [F2 [E [A B]]]]. subst F. change (@nil (nat * string)) with (@nil (nat * string) ++ []).
      apply rp_node with (fs := fs); auto. intros f v x e _ _ _ [].
    + unfold head_fields. destruct (smem k ["For"; "AsyncFor"]%string); [rewrite !firstn_length; lia|exact HL].
  - intros c _. constructor.
  - intros v vs t ts F1 F2 H IH H2 IH2 c Hs. cbn [forallb] in Hs. apply andb_true_iff in Hs. destruct Hs as [Ha Hb].
    apply andb_true_iff in Ha. destruct Ha as [Hl Hs]. specialize (IH2 c Hb).
    destruct t as [m k gs|l|a].
    + change (@nil (nat * string)) with (@nil (nat * string) ++ []). constructor; [|exact IH2]. apply IH; [reflexivity|exact Hs].
    + discriminate.
    + inversion H; subst. constructor. exact IH2.
  - intros k c _. constructor.
  - intros f v fs t gs F1 F2 H IH H2 IH2 k c Hf. inversion Hf as [|? ? Ha Hb]; subst. specialize (IH2 k c Hb).
    destruct t as [m kt gt|l|a].
    + change (@nil (nat * string)) with (@nil (nat * string) ++ []). constructor; [|exact IH2]. apply IH; [reflexivity|].
      assert (Hok : Forall (fld_ok (height (Nd m kt gt)) k c) [(f, Nd m kt gt)]).
      { apply fieldsound_fld_ok; [constructor; [exact Ha|constructor]|]. intros f' t' [E|[]]. inversion E; subst. lia. }
      inversion Hok as [|? ? Hq _]; subst. unfold fld_ok in Hq. cbn [fst snd] in Hq. apply Hq. reflexivity.
    + assert (Hl : forallb (fun x => negb (is_list x) && sound (demand k f c) x) l = true).
      { cbn [fieldsound] in Ha. destruct (ctx_class k && String.eqb f "ctx"); [discriminate|].
        destruct (at_pos identifier_positions k f); [discriminate|].
        rewrite forallb_forall in Ha |- *. intros x Hx. specialize (Ha x Hx). apply andb_true_iff in Ha. destruct Ha as [Ha Hs].
        apply andb_true_iff in Ha. destruct Ha as [Hl _]. rewrite Hl, Hs. reflexivity. }
      destruct (IH (demand k f c)) as [_ IHl]. destruct (IHl l eq_refl Hl) as [j [vs [F' [-> [-> [Hj Hr]]]]]].
      change (@nil (nat * string)) with (@nil (nat * string) ++ []). change ((j :: F') ++ F2) with (j :: F' ++ F2). eapply rf_list; eassumption.
    + inversion H; subst. constructor. exact IH2.
Qed.

(** ** set_ctx *)
Lemma setf_setf (f : string) (u v : tree unit) fs : setf f v (setf f u fs) = setf f v fs.
Proof.
  induction fs as [|[g w] fs IH]; cbn [setf].
  - rewrite String.eqb_refl. reflexivity.
  - destruct (String.eqb f g) eqn:E; cbn [setf]; rewrite E; [reflexivity|]. rewrite IH. reflexivity.
Qed.

Lemma set_ctx_idem t : forall c, ctxname c -> set_ctx c (set_ctx c t) = set_ctx c t.
Proof.
  induction t as [m k fs IH|l IH|a] using tree_ind'; intros c Hc.
  - cbn [set_ctx]. f_equal.
    set (g := fun p : string * tree unit => let (f, v) := p in (f, set_ctx (demand k f c) v)).
    assert (E : map g (map g fs) = map g fs).
    { rewrite map_map. apply map_ext_in. intros [f v] Hin. unfold g. f_equal. rewrite Forall_forall in IH.
      apply (IH _ Hin). apply demand_ctxname, Hc. }
    destruct (ctx_class k); [|exact E].
    assert (E2 : forall l, map g (setf "ctx" (Nd tt c []) l) = setf "ctx" (Nd tt c []) (map g l)).
    { intros l. apply (setfs_setf k c c l), ctxname_bare, Hc. }
    rewrite E2, E, setf_setf. reflexivity.
  - cbn [set_ctx]. f_equal. rewrite map_map. apply map_ext_in. intros x Hx. rewrite Forall_forall in IH. apply (IH x Hx c Hc).
  - reflexivity.
Qed.

Lemma filter_setf (v : tree unit) fs :
  filter (fun p : string * tree unit => negb (String.eqb (fst p) "ctx")) (setf "ctx" v fs)
  = filter (fun p : string * tree unit => negb (String.eqb (fst p) "ctx")) fs.
Proof.
  induction fs as [|[g w] fs IH]; cbn [setf].
  - reflexivity.
  - destruct (String.eqb "ctx" g) eqn:E.
    + apply String.eqb_eq in E. subst g. reflexivity.
    + cbn [filter fst]. rewrite IH. reflexivity.
Qed.

Lemma map_setf (g : tree unit -> tree unit) f v fs :
  map (fun p : string * tree unit => let (f, v) := p in (f, g v)) (setf f v fs)
  = setf f (g v) (map (fun p : string * tree unit => let (f, v) := p in (f, g v)) fs).
Proof.
  induction fs as [|[h w] fs IH]; cbn [setf map]; [reflexivity|].
  destruct (String.eqb f h); cbn [map]; [reflexivity|]. rewrite IH. reflexivity.
Qed.

Lemma strip_set_ctx t : forall c, strip_ctx (set_ctx c t) = strip_ctx t.
Proof.
  induction t as [m k fs IH|l IH|a] using tree_ind'; intros c.
  - cbn [set_ctx strip_ctx]. f_equal.
    set (g := fun p : string * tree unit => let (f, v) := p in (f, set_ctx (demand k f c) v)).
    assert (E : map (fun p : string * tree unit => let (f, v) := p in (f, strip_ctx v)) (map g fs)
                = map (fun p : string * tree unit => let (f, v) := p in (f, strip_ctx v)) fs).
    { rewrite map_map. apply map_ext_in. intros [f v] Hin. unfold g. f_equal. rewrite Forall_forall in IH. apply (IH _ Hin). }
    destruct (ctx_class k); [|exact E]. rewrite map_setf, filter_setf, E. reflexivity.
  - cbn [set_ctx strip_ctx]. f_equal. rewrite map_map. apply map_ext_in. intros x Hx. rewrite Forall_forall in IH. apply (IH x Hx c).
  - reflexivity.
Qed.

Lemma fields_ctx_last k (fs : list (string * tree unit)) v : ctx_class k = true -> fields_ok k (map fst fs) = true ->
  setf "ctx" v (filter (fun p : string * tree unit => negb (String.eqb (fst p) "ctx")) fs) = setf "ctx" v fs.
Proof.
  intros Hk. unfold ctx_class in Hk. apply smem_In in Hk. simpl in Hk.
  repeat (destruct Hk as [Hk|Hk]; [subst k|]); try contradiction;
  unfold fields_ok, list_eqb; cbn -[list_eq_dec]; intros H;
  repeat match type of H with context [list_eq_dec string_dec ?a ?b] =>
     let D := fresh "D" in destruct (list_eq_dec string_dec a b) as [D|D]; [clear H|] end;
  try discriminate H;
  repeat match goal with D : map fst ?l = _ |- _ =>
     destruct l as [|[? ?] ?]; simpl in D; [try discriminate D|inversion D; subst; clear D] end;
  try reflexivity.
Qed.

Lemma set_ctx_strip t : forall c, sound c t = true -> set_ctx c (strip_ctx t) = set_ctx c t.
Proof.
  induction t as [m k fs IH|l IH|a] using tree_ind2; intros c Hs.
  - cbn [strip_ctx set_ctx]. f_equal.
    cbn [sound] in Hs. apply andb_true_iff in Hs. destruct Hs as [Hs1 Hs]. apply andb_true_iff in Hs1. destruct Hs1 as [Hok _].
    set (g := fun p : string * tree unit => let (f, v) := p in (f, set_ctx (demand k f c) v)).
    assert (E : forall p, In p fs -> (ctx_class k && String.eqb (fst p) "ctx" = false) -> g (fst p, strip_ctx (snd p)) = g p).
    { intros [f v] Hin Hf. unfold g. cbn [fst snd] in *. f_equal. rewrite Forall_forall in IH. destruct (IH _ Hin) as [IH1 IH2]. cbn [snd] in *.
      rewrite forallb_forall in Hs. specialize (Hs _ Hin). cbv beta iota in Hs. rewrite Hf in Hs.
      destruct (at_pos identifier_positions k f).
      - destruct v; try discriminate. reflexivity.
      - destruct v as [m' k' f'|l|a].
        + apply andb_true_iff in Hs. apply IH1, Hs.
        + cbn [strip_ctx set_ctx]. f_equal. rewrite map_map. apply map_ext_in. intros x Hx. rewrite Forall_forall in IH2.
          apply IH2; [exact Hx|]. rewrite forallb_forall in Hs. specialize (Hs x Hx). apply andb_true_iff in Hs. apply Hs.
        + reflexivity. }
    destruct (ctx_class k) eqn:Hk.
    + set (fl := filter (fun p : string * tree unit => negb (String.eqb (fst p) "ctx"))) in *.
      assert (E1 : map g (fl (map (fun p : string * tree unit => let (f, v) := p in (f, strip_ctx v)) fs)) = fl (map g fs)).
      { assert (Hsub : forall p, In p fs -> In p fs) by auto. revert Hsub. generalize fs at 1 3 4. intros l. induction l as [|[f v] l IHl]; intros Hsub; [reflexivity|].
        unfold fl in *. cbn [map filter fst g]. unfold g at 2. cbn [filter fst]. destruct (String.eqb f "ctx") eqn:Ef; cbn [negb].
        - apply IHl. intros p Hp. apply Hsub. right; exact Hp.
        - cbn [map]. f_equal; [|apply IHl; intros p Hp; apply Hsub; right; exact Hp].
          specialize (E (f, v) (Hsub _ (or_introl eq_refl))). cbn [fst snd andb] in E. apply E. exact Ef. }
      rewrite E1. apply (fields_ctx_last k); [exact Hk|]. rewrite map_map.
      rewrite (map_ext _ fst); [exact Hok|]. intros [f v]; reflexivity.
    + rewrite map_map. apply map_ext_in. intros [f v] Hin. apply (E (f, v) Hin). reflexivity.
  - cbn [strip_ctx set_ctx]. f_equal. rewrite map_map. apply map_ext_in. intros x Hx. rewrite Forall_forall in IH. apply IH; [exact Hx|].
    cbn [sound] in Hs. rewrite forallb_forall in Hs. specialize (Hs x Hx). apply andb_true_iff in Hs. apply Hs.
  - reflexivity.
Qed.
