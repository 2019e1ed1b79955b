From Verif Require Import Base AstLib HeapAst CtxModel CtxSpec CtxProofs CtxProofs2 CtxProofs4 CtxProofs5 CtxProofs6 CtxProofs7 CtxProofs8 CtxProofs9 CtxProofs10.

Scheme reads_ind3 := Induction for reads Sort Prop
  with reads_list_ind3 := Induction for reads_list Sort Prop
  with reads_fields_ind3 := Induction for reads_fields Sort Prop.
Combined Scheme reads_mut from reads_ind3, reads_list_ind3, reads_fields_ind3.

Lemma reads_fun h :
  (forall v t, reads h v t -> forall u, reads h v u -> u = t) /\
  (forall vs ts, reads_list h vs ts -> forall us, reads_list h vs us -> us = ts) /\
  (forall fs gs, reads_fields h fs gs -> forall us, reads_fields h fs us -> us = gs).
Proof.
  apply reads_mut.
  - intros a u H. inversion H; reflexivity.
  - intros i vs ts Ho _ IH u H. inversion H; subst.
    + f_equal. apply IH. congruence.
    + congruence.
  - intros i k fs gs Ho _ IH u H. inversion H; subst; [congruence|].
    match goal with A : h_obj h i = Some (ONode _ ?f), B : reads_fields h ?f _ |- _ => rewrite Ho in A; inversion A; subst; rewrite (IH _ B); reflexivity end.
  - intros us H. inversion H; reflexivity.
  - intros v vs t ts _ IH1 _ IH2 us H. inversion H; subst. f_equal; auto.
  - intros us H. inversion H; reflexivity.
  - intros f v fs t gs _ IH1 _ IH2 us H. inversion H; subst. f_equal; [f_equal|]; auto.
Qed.

Lemma owns_reads h :
  (forall v t F, owns h v t F -> reads h v t) /\
  (forall vs ts F, owns_list h vs ts F -> reads_list h vs ts) /\
  (forall fs gs F, owns_fields h fs gs F -> reads_fields h fs gs).
Proof.
  apply owns_mut; intros; try (econstructor; eassumption); try constructor; auto.
  eapply rd_node; [eassumption|constructor].
Qed.

Lemma owns_fields_ctx h fs gs F c0 kc : owns_fields h fs gs F ->
  h_obj h c0 = Some (ONode kc []) -> ctx_class kc = false ->
  (forall t, In ("ctx"%string, t) gs -> bare t = true) ->
  owns_fields h (vset "ctx" (VRef c0) fs) (setf "ctx" (Nd tt kc []) gs) F.
Proof.
  intros H Ho Hk. induction H as [|f v fs t gs F1 F2 Hv H IH]; intros Hb.
  - cbn [vset setf]. change (@nil nat) with (@nil nat ++ []). constructor; [|constructor]. apply ow_bare; assumption.
  - cbn [vset setf]. destruct (String.eqb "ctx" f) eqn:E.
    + apply String.eqb_eq in E. subst f. specialize (Hb t (or_introl eq_refl)).
      assert (F1 = []). { destruct Hv as [| | |i k fs' gs' F' Hi Hne Hfs]; try reflexivity; [discriminate|].
        destruct gs'; [|discriminate]. inversion Hfs; subst. simpl in Hb. destruct Hne as [Hne|Hne]; [rewrite Hne in Hb; discriminate|congruence]. }
      subst F1. change F2 with ([] ++ F2). constructor; [|exact H]. apply ow_bare; assumption.
    + constructor; [exact Hv|]. apply IH. intros t' Ht'. apply Hb. right; exact Ht'.
Qed.

Lemma bare_leaf t : bare t = true -> exists m k, t = Nd m k [] /\ ctx_class k = false.
Proof. destruct t as [m k [|? ?]|l|a]; try discriminate. simpl. intros H. exists m, k. destruct (ctx_class k); [discriminate|auto]. Qed.

Lemma owns_keep h h' : keep h h' ->
  (forall v t F, owns h v t F -> forall c,
     (sound c t = true -> exists t', owns h' v t' F /\ (bare t = true -> bare t' = true)) /\
     (forall l, t = Ls l -> forallb (fun x => negb (is_list x) && sound c x) l = true -> exists t', owns h' v t' F)) /\
  (forall vs ts F, owns_list h vs ts F -> forall c,
     forallb (fun x => sound c x) ts = true -> exists ts', owns_list h' vs ts' F) /\
  (forall fs gs F, owns_fields h fs gs F -> forall k c, Forall (fieldsound k c) gs ->
     exists gs', owns_fields h' fs gs' F /\ (ctx_class k = true -> forall t, In ("ctx"%string, t) gs' -> bare t = true)).
Proof.
  intros [KL K]. apply owns_mut.
  - intros a c. split.
    + intros _. exists (At a). split; [constructor|discriminate].
    + intros l E; discriminate.
  - intros i k Ho Hk c. split; [|intros l E; discriminate]. intros _. exists (Nd tt k []). split; [|auto].
    apply ow_bare; [|exact Hk]. rewrite KL; [exact Ho|]. exists k; auto.
  - intros i vs ts F Ho H IH c.
    assert (HO : h_obj h' i = Some (OList vs)).
    { destruct (K i _ Ho) as [o' [E [E'|[? [? [? [E' _]]]]]]]; [congruence|discriminate]. }
    split.
    + intros Hs. destruct (IH c) as [ts' H'].
      { cbn [sound] in Hs. rewrite forallb_forall in *. intros x Hx. specialize (Hs x Hx). apply andb_true_iff in Hs. apply Hs. }
      exists (Ls ts'). split; [|discriminate]. econstructor; eassumption.
    + intros l E Hl. inversion E; subst. destruct (IH c) as [ts' H'].
      { rewrite forallb_forall in *. intros x Hx. specialize (Hl x Hx). apply andb_true_iff in Hl. apply Hl. }
      exists (Ls ts'). econstructor; eassumption.
  - intros i k fs gs F Ho Hne H IH c. split; [|intros l E; discriminate]. intros Hs.
    cbn [sound] in Hs. apply andb_true_iff in Hs. destruct Hs as [_ Hs].
    assert (Hfs : Forall (fieldsound k c) gs).
    { apply Forall_forall. intros [f t] Hin. rewrite forallb_forall in Hs. apply Hs in Hin. exact Hin. }
    destruct (IH k c Hfs) as [gs' [H' Hb]].
    destruct (K i _ Ho) as [o' [E [E'|[k1 [fs1 [c0 [E' [Hk [[kl [Hl Hkl]] E2]]]]]]]]].
    + subst o'. exists (Nd tt k gs'). split; [apply ow_node with (fs := fs); assumption|].
      intros HB. exfalso. destruct gs; [|discriminate]. inversion H; subst. simpl in HB. destruct Hne as [Hne|Hne]; [rewrite Hne in HB; discriminate|congruence].
    + inversion E'; subst k1 fs1 o'. exists (Nd tt k (setf "ctx" (Nd tt kl []) gs')). split.
      * apply ow_node with (fs := vset "ctx" (VRef c0) fs); [exact E|left; exact Hk|].
        apply owns_fields_ctx; auto.
      * intros HB. exfalso. destruct gs; [|discriminate]. inversion H; subst. simpl in HB. rewrite Hk in HB; discriminate.
  - intros c _. exists []. constructor.
  - intros v vs t ts F1 F2 H1 IH1 H2 IH2 c Hs. cbn [forallb] in Hs. apply andb_true_iff in Hs. destruct Hs as [Hs1 Hs2].
    destruct (IH1 c) as [A _]. destruct (A Hs1) as [t' [Ht _]]. destruct (IH2 c Hs2) as [ts' Hts]. exists (t' :: ts'). constructor; assumption.
  - intros k c _. exists []. split; [constructor|]. intros _ t [].
  - intros f v fs t gs F1 F2 H1 IH1 H2 IH2 k c Hs. inversion Hs as [|p q Ha Hr]; subst.
    destruct (IH2 k c Hr) as [gs' [Hgs Hb]].
    assert (A : exists t', owns h' v t' F1 /\ (ctx_class k && String.eqb f "ctx" = true -> bare t' = true)).
    { unfold fieldsound in Ha. destruct (ctx_class k && String.eqb f "ctx") eqn:Ef.
      - apply andb_true_iff in Ha. destruct Ha as [Ha1 Ha2]. destruct (IH1 "Load"%string) as [A _]. destruct (A Ha2) as [t' [Ht Hbt]].
        exists t'. auto.
      - destruct (at_pos identifier_positions k f).
        + destruct t as [m kk ff|l|a]; try discriminate. destruct (IH1 "Load"%string) as [A _]. destruct A as [t' [Ht _]]; [reflexivity|]. exists t'; split; [exact Ht|discriminate].
        + destruct t as [m kk ff|l|a].
          * apply andb_true_iff in Ha. destruct Ha as [_ Ha]. destruct (IH1 (demand k f c)) as [A _]. destruct (A Ha) as [t' [Ht _]]. exists t'; split; [exact Ht|discriminate].
          * destruct (IH1 (demand k f c)) as [_ A]. destruct (A l eq_refl) as [t' Ht]; [|exists t'; split; [exact Ht|discriminate]].
            rewrite forallb_forall in *. intros x Hx. specialize (Ha x Hx). apply andb_true_iff in Ha. destruct Ha as [Ha1 Ha2]. apply andb_true_iff in Ha1. destruct Ha1 as [Ha1 _]. rewrite Ha1, Ha2. reflexivity.
          * destruct (IH1 "Load"%string) as [A _]. destruct A as [t' [Ht _]]; [reflexivity|]. exists t'; split; [exact Ht|discriminate]. }
    destruct A as [t' [Ht Hbt]]. exists ((f, t') :: gs'). split; [constructor; assumption|].
    intros Hk u [E|Hu]; [|apply Hb; assumption]. inversion E; subst. apply Hbt. rewrite Hk. reflexivity.
Qed.

(** The result is again a sound tree of the same height. *)
Lemma bare_set_ctx c t : bare (set_ctx c t) = bare t.
Proof.
  destruct t as [m k fs|l|a]; try reflexivity. cbn [set_ctx bare]. destruct (ctx_class k) eqn:Hk.
  - destruct fs as [|[f v] fs]; [reflexivity|]. cbn [map setf]. destruct (String.eqb "ctx" f); reflexivity.
  - destruct fs as [|[f v] fs]; simpl; rewrite ?Hk; reflexivity.
Qed.
Lemma is_node_set_ctx c t : is_node (set_ctx c t) = is_node t.
Proof. destruct t; reflexivity. Qed.
Lemma is_list_set_ctx c t : is_list (set_ctx c t) = is_list t.
Proof. destruct t; reflexivity. Qed.

Lemma sound_bare c k : ctx_class k = false -> grammar k = None -> c = "Load"%string -> sound c (Nd tt k []) = true.
Proof. intros H G ->. cbn [sound map forallb]. unfold fields_ok. rewrite G. reflexivity. Qed.

Lemma In_setf (p : string * tree unit) f v fs : In p (setf f v fs) -> p = (f, v) \/ (In p fs).
Proof.
  induction fs as [|[g w] fs IH]; cbn [setf].
  - intros [H|[]]; auto.
  - destruct (String.eqb f g) eqn:E.
    + apply String.eqb_eq in E. subst g. intros [H|H]; [left; congruence|right; right; exact H].
    + intros [H|H]; [right; left; exact H|]. destruct (IH H) as [A|A]; [left; exact A|right; right; exact A].
Qed.

Lemma fieldsound_set k c f v : ctxname c ->
  (forall c, ctxname c -> sound c v = true -> sound c (set_ctx c v) = true) ->
  (forall l, v = Ls l -> Forall (fun x => forall c, ctxname c -> sound c x = true -> sound c (set_ctx c x) = true) l) ->
  (ctx_class k && String.eqb f "ctx" = false) ->
  fieldsound k c (f, v) -> fieldsound k c (f, set_ctx (demand k f c) v).
Proof.
  intros Hc IH IHl Hf Hs. unfold fieldsound in *. rewrite Hf in *. destruct (at_pos identifier_positions k f).
  - rewrite is_node_set_ctx, is_list_set_ctx. exact Hs.
  - pose proof (demand_ctxname k f c Hc) as Hd. destruct v as [m kk ff|l|a].
    + assert (E : forall t, t = set_ctx (demand k f c) (Nd m kk ff) -> negb (at_pos expr_positions k f && bare t) && sound (demand k f c) t = true).
      { intros t ->. rewrite bare_set_ctx. apply andb_true_iff in Hs. destruct Hs as [H1 H2]. rewrite H1. apply (IH _ Hd H2). }
      specialize (E _ eq_refl). cbn [set_ctx] in *. exact E.
    + cbn [set_ctx]. rewrite forallb_forall in *. intros x Hx. apply in_map_iff in Hx. destruct Hx as [y [<- Hy]].
      specialize (Hs y Hy). rewrite is_list_set_ctx, bare_set_ctx. apply andb_true_iff in Hs. destruct Hs as [H1 H2]. rewrite H1. simpl.
      specialize (IHl l eq_refl). rewrite Forall_forall in IHl. apply (IHl y Hy _ Hd H2).
    + exact Hs.
Qed.

Lemma sound_set_ctx t : forall c, ctxname c -> sound c t = true -> sound c (set_ctx c t) = true.
Proof.
  induction t as [m k fs IH|l IH|a] using tree_ind2; intros c Hc Hs.
  - cbn [set_ctx]. cbn [sound] in Hs. apply andb_true_iff in Hs. destruct Hs as [Hs1 Hs]. apply andb_true_iff in Hs1. destruct Hs1 as [Hok Hck].
    set (fs' := map (fun p : string * tree unit => let (f, v) := p in (f, set_ctx (demand k f c) v)) fs).
    assert (Hn : map fst fs' = map fst fs). { unfold fs'. rewrite map_map. apply map_ext. intros [f v]; reflexivity. }
    assert (Hb : sound "Load" (Nd tt c []) = true). { destruct Hc as [Hc|[Hc|Hc]]; rewrite Hc; reflexivity. }
    assert (Hb2 : bare (Nd tt c []) = true). { destruct Hc as [Hc|[Hc|Hc]]; rewrite Hc; reflexivity. }
    assert (Hfs : forall p, In p fs' -> ctx_class k && String.eqb (fst p) "ctx" = false -> fieldsound k c p).
    { intros p Hp Hpf. unfold fs' in Hp. apply in_map_iff in Hp. destruct Hp as [[f v] [<- Hin]]. cbn [fst] in Hpf.
      rewrite Forall_forall in IH. destruct (IH _ Hin) as [IH1 IH2]. cbn [snd] in *.
      apply fieldsound_set; auto.
      - intros l ->. exact IH2.
      - rewrite forallb_forall in Hs. exact (Hs _ Hin). }
    cbn [sound]. apply andb_true_iff. split; [rewrite Hck, andb_true_r|].
    + destruct (ctx_class k) eqn:Hk; [|rewrite Hn; exact Hok].
      rewrite (setf_vset_keys (map (fun s => (s, VRef 0)) (map fst fs)) (VRef 0)).
      * apply fields_ok_vset; [exact Hk|]. rewrite map_map, map_id. exact Hok.
      * rewrite Hn. rewrite map_map, map_id. reflexivity.
    + rewrite forallb_forall. intros p Hp.
      assert (HH : fieldsound k c p); [|destruct p as [f v]; exact HH].
      destruct (ctx_class k) eqn:Hk.
      * assert (HB : forall v, In ("ctx"%string, v) (setf "ctx" (Nd tt c []) fs') -> v = Nd tt c []).
        { intros v Hv.
          assert (ND : NoDup (map fst (setf "ctx" (Nd tt c []) fs'))).
          { rewrite (setf_vset_keys (map (fun s => (s, VRef 0)) (map fst fs)) (VRef 0)).
            - apply (fields_ok_nodup k). apply fields_ok_vset; [exact Hk|]. rewrite map_map, map_id. exact Hok.
            - rewrite Hn. rewrite map_map, map_id. reflexivity. }
          assert (IN : In ("ctx"%string, Nd tt c []) (setf "ctx" (Nd tt c []) fs')).
          { clear. induction fs' as [|[g w] l IHl]; cbn [setf]; [left; reflexivity|].
            destruct (String.eqb "ctx" g) eqn:E; [apply String.eqb_eq in E; subst; left; reflexivity|right; exact IHl]. }
          clear -ND Hv IN. induction (setf "ctx" (Nd tt c []) fs') as [|[g w] l IHl]; [contradiction|].
          simpl in ND. inversion ND as [|? ? N1 N2]; subst. destruct Hv as [Hv|Hv], IN as [IN|IN].
          - congruence.
          - inversion Hv; subst. exfalso. apply N1. apply in_map_iff. eexists; split; [|exact IN]; reflexivity.
          - inversion IN; subst. exfalso. apply N1. apply in_map_iff. eexists; split; [|exact Hv]; reflexivity.
          - apply IHl; assumption. }
        destruct p as [f v]. destruct (String.eqb f "ctx") eqn:Ef.
        -- apply String.eqb_eq in Ef. subst f. specialize (HB v Hp). subst v. unfold fieldsound. rewrite Hk. cbn [andb String.eqb Ascii.eqb Bool.eqb].
           rewrite Hb, Hb2. reflexivity.
        -- apply In_setf in Hp. destruct Hp as [Hp|Hp]; [inversion Hp; subst; discriminate|]. apply Hfs; [exact Hp|]. exact Ef.
      * apply Hfs; [exact Hp|reflexivity].
  - cbn [set_ctx sound] in *. rewrite forallb_forall in *. intros x Hx. apply in_map_iff in Hx. destruct Hx as [y [<- Hy]].
    specialize (Hs y Hy). apply andb_true_iff in Hs. rewrite is_node_set_ctx. destruct Hs as [H1 H2]. rewrite H1. simpl. rewrite Forall_forall in IH. apply (IH y Hy c Hc H2).
  - reflexivity.
Qed.

Lemma fold_max_setf (n0 : nat) v fs : height v <= n0 ->
  fold_right (fun p n => Nat.max (height (snd p)) n) n0 (setf "ctx" v fs) <=
  fold_right (fun p n => Nat.max (height (snd p)) n) n0 fs.
Proof.
  intros Hv. induction fs as [|[g w] fs IH]; cbn [setf fold_right snd]; [lia|].
  destruct (String.eqb "ctx" g); cbn [fold_right snd]; [|lia].
  assert (n0 <= fold_right (fun p n => Nat.max (height (snd p)) n) n0 fs).
  { clear. induction fs; simpl; lia. }
  lia.
Qed.

Lemma height_set_ctx t : forall c, ctxname c -> height (set_ctx c t) <= height t.
Proof.
  induction t as [m k fs IH|l IH|a] using tree_ind'; intros c Hc.
  - cbn [set_ctx height]. apply le_n_S.
    assert (E : forall n0, fold_right (fun p n => Nat.max (height (snd p)) n) n0 (map (fun p : string * tree unit => let (f, v) := p in (f, set_ctx (demand k f c) v)) fs)
       <= fold_right (fun p n => Nat.max (height (snd p)) n) n0 fs).
    { intros n0. induction IH as [|[f v] fs Hv _ IHf]; [simpl; lia|]. cbn [map fold_right snd] in *. specialize (Hv _ (demand_ctxname k f c Hc)). lia. }
    destruct (ctx_class k); [|apply E]. etransitivity; [apply fold_max_setf|apply E].
    cbn [height fold_right]. rewrite (ctxname_bare c Hc). lia.
  - cbn [set_ctx height]. induction IH as [|x l Hx _ IHl]; [simpl; lia|]. cbn [map fold_right]. specialize (Hx c Hc). lia.
  - simpl. lia.
Qed.
