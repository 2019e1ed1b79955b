(** Proofs about macro-imports. *)
From Verif Require Import Base AstLib FixLocModel ExpanderModel Dict ImportsModel ImportsSpec.

Section Proofs.
  Context {W Ob : Type}.
  Variable P : world W Ob.
  Variable ispy : bool.
  Variable self : option string.
  Variable transform : bool.
  Variable text : loc -> string.

  Definition asname_of (n : string * option string) : string := match snd n with Some y => if String.eqb y "" then fst n else y | None => fst n end.
  Lemma asname_eq x a : match a with Some (String c y) => String c y | _ => x end = asname_of (x, a).
  Proof. destruct a as [[|c y]|]; reflexivity. Qed.
  Lemma get_names_spec w o l d : match get_names P w o l d with
    | Ok d' => exists ps, named_objects P w o l ps /\ d' = supd d ps
    | Err _ => forall ps, ~ named_objects P w o l ps
    end.
  Proof.
    revert d. induction l as [|[x a] l IH]; intros d; cbn [get_names]; [exists []; split; [constructor|reflexivity]|].
    destruct (w_getattr P w o x) as [f|e] eqn:Eg.
    - destruct (w_callable P f) eqn:Ec.
      + rewrite asname_eq. specialize (IH (sset (asname_of (x, a)) f d)). destruct (get_names P w o l _) as [d'|e].
        * destruct IH as [ps [Hn ->]]. exists ((asname_of (x, a), f) :: ps). split; [|reflexivity]. constructor; [|exact Hn]. cbn. auto.
        * intros ps Hn. inversion Hn; subst. eapply IH. eassumption.
      + intros ps Hn. inversion Hn; subst. match goal with H : _ /\ _ /\ _ |- _ => destruct H as [_ [H1 H2]] end. cbn in H1. congruence.
    - intros ps Hn. inversion Hn; subst. match goal with H : _ /\ _ /\ _ |- _ => destruct H as [_ [H1 H2]] end. cbn in H1. congruence.
  Qed.
  Lemma sget_supd_nil x (d : sdict Ob) e : sget x (supd d e) = match sget x (supd [] e) with Some v => Some v | None => sget x d end.
  Proof.
    induction e as [|[k v] e IH] using rev_ind; [reflexivity|]. rewrite !supd_app. cbn [supd fold_left fst snd]. rewrite !sget_sset. destruct (String.eqb x k); [reflexivity|exact IH].
  Qed.
  Lemma sget_supd_nodup x (d : sdict Ob) e : NoDup (map fst e) -> sget x (supd d e) = match sget x e with Some v => Some v | None => sget x d end.
  Proof.
    revert d. induction e as [|[k v] e IH]; intros d Hd; [reflexivity|]. inversion Hd; subst. cbn [supd fold_left fst snd sget]. change (sget x (supd (sset k v d) e) = match (if String.eqb x k then Some v else sget x e) with Some u => Some u | None => sget x d end).
    rewrite IH by assumption. rewrite sget_sset. destruct (String.eqb_spec x k) as [->|]; [|reflexivity]. match goal with H : ~ In _ _ |- _ => apply sget_none in H; rewrite H end. reflexivity.
  Qed.
  Lemma supd_nodup (e : sdict Ob) ps : NoDup (map fst e) -> NoDup (map fst (supd e ps)).
  Proof. revert e. induction ps as [|p ps IH]; intros e He; [exact He|]. cbn. apply IH. apply sset_nodup, He. Qed.
  Lemma supd_of_supd (d : sdict Ob) ps : forall x, sget x (supd d (supd [] ps)) = sget x (supd d ps).
  Proof. intros x. rewrite sget_supd_nodup by (apply supd_nodup; constructor). symmetry. apply sget_supd_nil. Qed.

  Lemma get_macros_sound i w absname d w' : get_macros P ispy self i w = (Ok (absname, d), w') ->
    exists o ps, loaded P ispy self i w w' o absname /\ named_objects P w' o (tl (i_names i)) ps /\ d = supd [] ps.
  Proof.
    unfold get_macros. intros H.
    assert (Hpk : forall pkg, (if negb (Nat.eqb (i_level i) 0) && ispy then match w_package P w with Ok p => Ok (Some p) | Err e => Err (if is_cls "ValueError" e || is_cls "ImportError" e then err "ImportError" else e) end else Ok None) = Ok pkg ->
      ((i_level i <> 0 /\ ispy = true /\ exists p, w_package P w = Ok p /\ pkg = Some p) \/ ((i_level i = 0 \/ ispy = false) /\ pkg = None))).
    { intros pkg. destruct (Nat.eqb_spec (i_level i) 0) as [E0|E0]; cbn [negb andb]; [intros Hq; inversion Hq; right; auto|]. destruct ispy; cbn; [|intros Hq; inversion Hq; right; auto]. destruct (w_package P w) as [p|e]; [|discriminate]. intros Hq; inversion Hq. left; eauto 6. }
    destruct (if negb (Nat.eqb (i_level i) 0) && ispy then _ else _) as [pkg|e]; [|discriminate]. specialize (Hpk pkg eq_refl).
    destruct (i_module i) as [m|] eqn:Em; [|discriminate]. destruct (String.eqb_spec m "__self__") as [->|Hm].
    - destruct (Nat.eqb_spec (i_level i) 0) as [E0|E0]; cbn [negb] in H; [|discriminate]. destruct (w_sysmod P w self) as [o|] eqn:Es; [|discriminate].
      pose proof (get_names_spec w o (tl (i_names i)) []) as HG. destruct (get_names P w o _ []) as [d1|e]; [|discriminate]. inversion H; subst.
      destruct HG as [ps [Hn ->]]. exists o, ps. split; [apply lo_self; assumption|]. auto.
    - destruct (w_resolve P (i_level i) m pkg) as [an|e] eqn:Er; [|discriminate]. destruct (w_import P an w) as [[o|e] w1] eqn:Ei; [|discriminate].
      pose proof (get_names_spec w1 o (tl (i_names i)) []) as HG. destruct (get_names P w1 o _ []) as [d1|e]; [|discriminate]. inversion H; subst.
      destruct HG as [ps [Hn ->]]. exists o, ps. split; [eapply lo_module; eassumption|]. auto.
  Qed.
  Lemma named_objects_det w o names ps ps' : named_objects P w o names ps -> named_objects P w o names ps' -> ps = ps'.
  Proof.
    intros H. revert ps'. induction H as [|n [y f] names ps [H1 [H2 H3]] H IH]; intros ps' H'; inversion H'; subst; [reflexivity|].
    destruct y0 as [z g]. match goal with K : _ /\ _ /\ _ |- _ => destruct K as [K1 [K2 K3]] end. cbn [fst snd] in *. f_equal; [congruence|]. apply IH. assumption.
  Qed.
  Lemma get_names_complete w o l ps : named_objects P w o l ps -> get_names P w o l [] = Ok (supd [] ps).
  Proof. intros H. pose proof (get_names_spec w o l []) as HG. destruct (get_names P w o l []) as [d|e]; [|destruct (HG _ H)]. destruct HG as [ps' [Hn ->]]. rewrite (named_objects_det _ _ _ _ _ Hn H). reflexivity. Qed.
  Lemma get_macros_complete i w w' o absname ps : loaded P ispy self i w w' o absname -> named_objects P w' o (tl (i_names i)) ps ->
    get_macros P ispy self i w = (Ok (absname, supd [] ps), w').
  Proof.
    intros Hl Hn. apply get_names_complete in Hn. unfold get_macros. destruct Hl as [o Em E0 Es|m pkg absname o w' Em Hm Hpk Er Ei].
    - rewrite E0, Em. cbn. rewrite Es, Hn. reflexivity.
    - replace (if negb (Nat.eqb (i_level i) 0) && ispy then match w_package P w with Ok p => Ok (Some p) | Err e => Err (if is_cls "ValueError" e || is_cls "ImportError" e then err "ImportError" else e) end else Ok None) with (@Ok (option string) pkg).
      + rewrite Em. apply String.eqb_neq in Hm. rewrite Hm, Er, Ei, Hn. reflexivity.
      + destruct Hpk as [[H0 [H1 [p [H2 ->]]]]|[[H|H] ->]].
        * apply Nat.eqb_neq in H0. rewrite H0, H1. cbn. rewrite H2. reflexivity.
        * rewrite H. reflexivity.
        * rewrite H, andb_false_r. reflexivity.
  Qed.

  (* statements looked at, each with a mark telling that it is to be deleted *)
  Definition live (marks : list (bool * ltree)) : list ltree := map snd (filter (fun p => negb (fst p)) marks).
  Fixpoint dels (n : nat) (marks : list (bool * ltree)) : list nat :=
    match marks with [] => [] | (b, _) :: r => (if b then [n] else []) ++ dels (S n) r end.
  Lemma dels_app n a c : dels n (a ++ c) = dels n a ++ dels (n + length a) c.
  Proof. revert n. induction a as [|[b t] a IH]; intros n; cbn [dels app length]; [rewrite Nat.add_0_r; reflexivity|]. rewrite IH, <- app_assoc. replace (n + S (length a)) with (S n + length a) by lia. reflexivity. Qed.
  Lemma pops marks tail : fold_left (fun b i => pop_nth i b) (rev (dels 0 marks)) (map snd marks ++ tail) = live marks ++ tail.
  Proof.
    revert tail. induction marks as [|[b t] marks IH] using rev_ind; intros tail; [reflexivity|].
    unfold live. rewrite dels_app, filter_app, !map_app, rev_app_distr. cbn [dels app plus filter fst]. destruct b; cbn [negb app map snd rev fold_left].
    - rewrite app_nil_r. replace (pop_nth (length marks) ((map snd marks ++ [t]) ++ tail)) with (map snd marks ++ tail); [apply IH|]. unfold pop_nth. replace (firstn (length marks) ((map snd marks ++ [t]) ++ tail)) with (map snd marks).
      + replace (skipn (S (length marks)) ((map snd marks ++ [t]) ++ tail)) with tail; [reflexivity|].
        replace (S (length marks)) with (length (map snd marks ++ [t])) by (rewrite app_length, map_length; cbn; lia). rewrite skipn_app, skipn_all, Nat.sub_diag. reflexivity.
      + rewrite <- app_assoc. rewrite firstn_app, map_length, Nat.sub_diag. cbn [firstn]. rewrite app_nil_r. symmetry. rewrite <- (map_length snd marks). apply firstn_all.
    - rewrite <- !app_assoc. apply IH.
  Qed.
  Lemma replace_app a t x r : replace_nth (length a) t (a ++ x :: r) = a ++ t :: r.
  Proof. induction a as [|y a IH]; cbn; [reflexivity|]. f_equal. exact IH. Qed.

  Definition selfish_b (i : imp) : bool := match self with Some (String _ _) => true | _ => false end && match i_module i with Some m => String.eqb m "__self__" | None => false end.
  Lemma selfish_b_spec i : if selfish_b i then selfish self i else ~ selfish self i.
  Proof.
    unfold selfish_b. destruct self as [[|c s]|] eqn:Es; cbn [andb].
    - intros [_ [s [Hs Hne]]]. inversion Hs; subst. apply Hne; reflexivity.
    - destruct (i_module i) as [m|] eqn:Em.
      + destruct (String.eqb_spec m "__self__") as [->|Hne]; [split; [exact Em|]|]. * exists (String c s). split; [reflexivity|discriminate]. * intros [H _]. congruence.
      + intros [H _]. congruence.
    - intros [_ [s [Hs Hne]]]. discriminate.
  Qed.

  (* the outcome for one statement: marks it with what takes its place, or fails *)
  Inductive one (w : W) (t : ltree) : list (string * Ob) -> bool -> ltree -> W -> Prop :=
  | on_other : other_stmt t -> one w t [] false t w
  | on_macros i rest w1 o absname ps (b : bool) (t' : ltree) : macro_import t i rest -> loaded P ispy self i w w1 o absname -> named_objects P w1 o rest ps ->
      replaced self transform text t i absname (if b then [] else [t']) -> one w t ps b t' w1.

  Lemma one_macros w w1 t i rest ps out absname o : macro_import t i rest -> loaded P ispy self i w w1 o absname -> named_objects P w1 o rest ps ->
    replaced self transform text t i absname out -> exists (b : bool) (t' : ltree), one w t ps b t' w1 /\ out = (if b then [] else [t']).
  Proof.
    intros Hm Hl Hn Hr. destruct Hr.
    - exists false, t. split; [|reflexivity]. eapply on_macros; eauto. apply rp_keep; assumption.
    - eexists false, _. split; [|reflexivity]. eapply on_macros; eauto. apply rp_import; assumption.
    - exists true, t. split; [|reflexivity]. eapply on_macros; eauto. apply rp_self_gone; assumption.
    - eexists false, _. split; [|reflexivity]. eapply on_macros; eauto. eapply rp_self_dummy; eassumption.
  Qed.

  Definition same_lookup (d d' : sdict Ob) : Prop := forall x, sget x d = sget x d'.
  Lemma same_supd d d' e : same_lookup d d' -> same_lookup (supd d e) (supd d' e).
  Proof.
    intros H x. destruct (sget x (supd d' e)) as [v|] eqn:E'.
    - apply sget_supd. apply sget_supd in E'. rewrite H. exact E'.
    - destruct (sget x (supd d e)) as [v|] eqn:E; [|reflexivity]. apply sget_supd in E. rewrite H in E. apply sget_supd in E. congruence.
  Qed.

  Lemma loop_step t r marks d w :
    match find_loop P ispy self transform text (length marks) (t :: r) (map snd marks ++ t :: r) (dels 0 marks) d w with
    | res0 => (exists ps (b : bool) (t' : ltree) w1 d1, one w t ps b t' w1 /\ same_lookup d1 (supd d ps) /\
                 res0 = find_loop P ispy self transform text (length (marks ++ [(b, if b then t else t')])) r (map snd (marks ++ [(b, if b then t else t')]) ++ r) (dels 0 (marks ++ [(b, if b then t else t')])) d1 w1) \/
              (unusable P ispy self transform t w /\ exists e w1, res0 = (Err e, map snd marks ++ t :: r, w1))
    end.
  Proof.
    assert (Hlen : forall x, length (marks ++ [x]) = S (length marks)) by (intros x; rewrite app_length; cbn; lia).
    assert (Hd : forall x, dels 0 (marks ++ [(false, x)]) = dels 0 marks) by (intros x; rewrite dels_app; apply app_nil_r).
    assert (Hd' : forall x, dels 0 (marks ++ [(true, x)]) = dels 0 marks ++ [length marks]) by (intros x; rewrite dels_app; reflexivity).
    assert (Hs : forall b x, map snd (marks ++ [(b, x)]) ++ r = map snd marks ++ x :: r) by (intros b x; rewrite map_app, <- app_assoc; reflexivity).
    assert (Hrep : forall x, replace_nth (length marks) x (map snd marks ++ t :: r) = map snd marks ++ x :: r) by (intros x; rewrite <- (map_length snd marks); apply replace_app).
    assert (Hother : other_stmt t -> exists ps b t' w1 d1, one w t ps b t' w1 /\ same_lookup d1 (supd d ps) /\
                 find_loop P ispy self transform text (S (length marks)) r (map snd marks ++ t :: r) (dels 0 marks) d w = find_loop P ispy self transform text (length (marks ++ [(b, if b then t else t')])) r (map snd (marks ++ [(b, if b then t else t')]) ++ r) (dels 0 (marks ++ [(b, if b then t else t')])) d1 w1).
    { intros Ho. exists [], false, t, w, d. split; [apply on_other, Ho|]. split; [intros x; reflexivity|]. rewrite Hlen, Hd, Hs. reflexivity. }
    cbn [find_loop]. destruct (view_import t) as [i|] eqn:Ev; [|left; apply Hother; left; exact Ev].
    destruct (ismacroimport i) as [[]|e] eqn:Em.
    - assert (Hmac : macro_import t i (tl (i_names i))).
      { split; [exact Ev|]. unfold ismacroimport in Em. destruct (i_names i) as [|[x a] rest]; [discriminate|]. inversion Em as [Hx]. apply andb_true_iff in Hx. destruct Hx as [Hx Ha]. apply String.eqb_eq in Hx. subst x. destruct a; [discriminate|reflexivity]. }
      destruct (get_macros P ispy self i w) as [[[absname d']|e] w'] eqn:Eg.
      + apply get_macros_sound in Eg. destruct Eg as [o [ps [Hl [Hn ->]]]].
        assert (Hgo : forall (b : bool) (t' : ltree), replaced self transform text t i absname (if b then [] else [t']) -> exists ps0 b' t'' w1 d1, one w t ps0 b' t'' w1 /\ same_lookup d1 (supd d ps0) /\
                 find_loop P ispy self transform text (S (length marks)) r (map snd marks ++ (if b then t else t') :: r) (dels 0 marks ++ if b then [length marks] else []) (supd d (supd [] ps)) w' = find_loop P ispy self transform text (length (marks ++ [(b', if b' then t else t'')])) r (map snd (marks ++ [(b', if b' then t else t'')]) ++ r) (dels 0 (marks ++ [(b', if b' then t else t'')])) d1 w1).
        { intros b t' Hr. exists ps, b, t', w', (supd d (supd [] ps)). split; [eapply on_macros; eassumption|]. split; [exact (supd_of_supd d ps)|]. rewrite Hlen, Hs. destruct b; [rewrite Hd'|rewrite Hd, app_nil_r]; reflexivity. }
        pose proof (selfish_b_spec i) as Hsb. fold (selfish_b i). destruct transform eqn:Et.
        * destruct (selfish_b i).
          -- unfold insert_dummy. destruct (ln (loc_of t)) as [l|] eqn:El; [|destruct (co (loc_of t)) as [c|] eqn:Ec].
             ++ left. rewrite Hrep. specialize (Hgo false (done (dummy_stmt (text (loc_of t)) (loc_of t)))). cbn in Hgo. rewrite app_nil_r in Hgo. apply Hgo. eapply rp_self_dummy; eauto.
             ++ right. split; [|eexists _, _; reflexivity]. right. exists i, (tl (i_names i)). split; [exact Hmac|]. right. repeat split; auto; try (apply Hsb). rewrite Ec. discriminate.
             ++ left. specialize (Hgo true t). cbn in Hgo. apply Hgo. apply rp_self_gone; auto.
          -- left. rewrite Hrep. specialize (Hgo false (plain_import (loc_of t) absname)). cbn iota in Hgo. rewrite app_nil_r in Hgo. apply Hgo. apply rp_import; auto.
        * left. specialize (Hgo false t). cbn in Hgo. rewrite app_nil_r in Hgo. apply Hgo. apply rp_keep. reflexivity.
      + right. split; [|eexists _, _; reflexivity]. right. exists i, (tl (i_names i)). split; [exact Hmac|]. left. intros w1 o absname ps Hl Hn.
        pose proof (get_macros_complete _ _ _ _ _ _ Hl Hn). congruence.
    - left. apply Hother. right. unfold ismacroimport in Em. destruct (i_names i) as [|[x a] rest] eqn:En; [discriminate|]. exists i, x, a, rest. split; [exact Ev|]. split; [exact En|].
      apply (f_equal (fun r => match r with Ok b => b | Err _ => true end)) in Em. rename Em into Hx. cbv beta iota in Hx. apply andb_false_iff in Hx. destruct Hx as [Hx|Hx]; [left; apply String.eqb_neq, Hx|right; destruct a; [discriminate|discriminate Hx]].
    - right. split; [|eexists _, _; reflexivity]. left. exists i. split; [exact Ev|]. unfold ismacroimport in Em. destruct (i_names i) as [|[x a] rest]; [reflexivity|discriminate].
  Qed.

  Lemma imports_cons w t r ps b t' w1 ps' out w' : one w t ps b t' w1 -> imports P ispy self transform text w1 r ps' out w' ->
    imports P ispy self transform text w (t :: r) (ps ++ ps') ((if b then [] else [t']) ++ out) w'.
  Proof.
    intros H. destruct H; intros Hi.
    - apply im_other; assumption.
    - eapply im_macros; eassumption.
  Qed.

  Lemma loop_spec r : forall marks d w, let '(res0, body', w') := find_loop P ispy self transform text (length marks) r (map snd marks ++ r) (dels 0 marks) d w in
    match res0 with
    | Ok (d', del) => exists ps out, imports P ispy self transform text w r ps out w' /\ same_lookup d' (supd d ps) /\
                      fold_left (fun b i => pop_nth i b) (rev del) body' = live marks ++ out
    | Err e => exists p t q ps out w1 marks', r = p ++ t :: q /\ imports P ispy self transform text w p ps out w1 /\ unusable P ispy self transform t w1 /\
                  body' = map snd marks ++ map snd marks' ++ t :: q /\ live marks' = out /\
                  (forall x, In (true, x) marks' -> exists i rest, macro_import x i rest)
    end.
  Proof.
    induction r as [|t r IH]; intros marks d w.
    - cbn [find_loop]. exists [], []. split; [constructor|]. split; [intros x; reflexivity|]. apply pops.
    - pose proof (loop_step t r marks d w) as HS. cbv zeta beta in HS. destruct HS as [[ps [b [t' [w1 [d1 [H1 [Hd HE]]]]]]]|[Hu [e [w1 HE]]]]; rewrite HE.
      + specialize (IH (marks ++ [(b, if b then t else t')]) d1 w1). destruct (find_loop _ _ _ _ _ (length (marks ++ _)) _ _ _ _ _) as [[[[d' del]|e] body'] w'].
        * destruct IH as [ps' [out [Hi [Hd' Hf]]]]. exists (ps ++ ps'), ((if b then [] else [t']) ++ out). split; [eapply imports_cons; eassumption|]. split.
          -- intros x. rewrite Hd', supd_app. apply same_supd. exact Hd.
          -- rewrite Hf. unfold live. rewrite filter_app, map_app, <- app_assoc. destruct b; reflexivity.
        * destruct IH as [p [t0 [q [ps' [out [w2 [marks' [-> [Hi [Hu [Hb [Hl Hm]]]]]]]]]]]]. exists (t :: p), t0, q, (ps ++ ps'), ((if b then [] else [t']) ++ out), w2, ((b, if b then t else t') :: marks').
          split; [reflexivity|]. split; [eapply imports_cons; eassumption|]. split; [exact Hu|]. split; [rewrite Hb, map_app, <- !app_assoc; reflexivity|]. split.
          -- rewrite <- Hl. destruct b; reflexivity.
          -- intros x [Hx|Hx]; [|apply Hm, Hx]. inversion Hx; subst. inversion H1; subst. eauto.
      + exists [], t, r, [], [], w, []. repeat split; auto using im_nil. intros x [].
  Qed.

  Lemma find_macros_ok body w d body' w' : find_macros P ispy self transform text body w = (Ok d, body', w') ->
    exists ps, imports P ispy self transform text w body ps body' w' /\ forall x v, sget x d = Some v <-> last_bound x v ps.
  Proof.
    unfold find_macros. intros H. pose proof (loop_spec body [] [] w) as HL. cbn [length map app dels] in HL. destruct (find_loop _ _ _ _ _ _ _ _ _ _ _) as [[[[d' del]|e] b] w1]; [|discriminate].
    destruct HL as [ps [out [Hi [Hd Hf]]]]. inversion H; subst. exists ps. rewrite Hf. split; [exact Hi|]. intros x v. rewrite Hd, sget_supd. cbn. intuition discriminate.
  Qed.
  Lemma find_macros_err body w e body' w' : find_macros P ispy self transform text body w = (Err e, body', w') ->
    exists p t q ps out w1 marks', body = p ++ t :: q /\ imports P ispy self transform text w p ps out w1 /\ unusable P ispy self transform t w1 /\
                  body' = map snd marks' ++ t :: q /\ out = map snd (filter (fun p => negb (fst p)) marks') /\
                  (forall x, In (true, x) marks' -> exists i rest, macro_import x i rest).
  Proof.
    unfold find_macros. intros H. pose proof (loop_spec body [] [] w) as HL. cbn [length map app dels] in HL. destruct (find_loop _ _ _ _ _ _ _ _ _ _ _) as [[[[d' del]|e'] b] w1]; [discriminate|].
    inversion H; subst. destruct HL as [p [t [q [ps [out [w2 [marks' [H1 [H2 [H3 [H4 [H5 H6]]]]]]]]]]]]. exists p, t, q, ps, out, w2, marks'. repeat split; auto.
  Qed.

  (* the relation is functional, and find_macros follows it *)
  Lemma loaded_named_det i w w1 w1' o o' a a' rest ps ps' : i_names i = ("macros"%string, None) :: rest ->
    loaded P ispy self i w w1 o a -> named_objects P w1 o rest ps -> loaded P ispy self i w w1' o' a' -> named_objects P w1' o' rest ps' ->
    w1 = w1' /\ a = a'.
  Proof.
    intros Hr H1 H2 H3 H4. replace rest with (tl (i_names i)) in * by (rewrite Hr; reflexivity). pose proof (get_macros_complete _ _ _ _ _ _ H1 H2). pose proof (get_macros_complete _ _ _ _ _ _ H3 H4). split; congruence.
  Qed.
  Lemma imports_not_unusable p t q w ps out w' : imports P ispy self transform text w (p ++ t :: q) ps out w' ->
    forall ps0 out0 w0, imports P ispy self transform text w p ps0 out0 w0 -> ~ unusable P ispy self transform t w0.
  Proof.
    revert w ps out. induction p as [|x p IH]; intros w ps out H ps0 out0 w0 H0 Hu; cbn [app] in H.
    - inversion H0; subst. inversion H; subst.
      + destruct Hu as [[i [Hv Hn]]|[i [rest [[Hv Hn] _]]]]; match goal with Ho : other_stmt _ |- _ => destruct Ho as [Ho|[j [y [a [rest' [Hj [Hn' Hy]]]]]]] end; try congruence.
        * rewrite Hv in Hj. inversion Hj; subst. rewrite Hn in Hn'. inversion Hn'; subst. destruct Hy as [Hy|Hy]; apply Hy; reflexivity.
      + match goal with Hm : macro_import _ _ _ |- _ => destruct Hm as [Hv Hn] end. destruct Hu as [[j [Hv' Hn']]|[j [rest' [[Hv' Hn'] Hu]]]].
        * rewrite Hv in Hv'. inversion Hv'; subst. congruence.
        * rewrite Hv in Hv'. inversion Hv'; subst. rewrite Hn in Hn'. inversion Hn'; subst. destruct Hu as [Hu|[Ht [Hs [Hl Hc]]]]; [eapply Hu; eassumption|].
          match goal with Hr : replaced _ _ _ _ _ _ _ |- _ => inversion Hr; subst end; try congruence; contradiction.
    - inversion H0; subst; inversion H; subst.
      + eapply IH; eassumption.
      + match goal with Ho : other_stmt _, Hm : macro_import _ _ _ |- _ => destruct Hm as [Hv Hn]; destruct Ho as [Ho|[j [y [a [rest' [Hj [Hn' Hy]]]]]]] end; [congruence|].
        rewrite Hv in Hj. inversion Hj; subst. rewrite Hn in Hn'. inversion Hn'; subst. destruct Hy as [Hy|Hy]; apply Hy; reflexivity.
      + match goal with Ho : other_stmt _, Hm : macro_import _ _ _ |- _ => destruct Hm as [Hv Hn]; destruct Ho as [Ho|[j [y [a [rest' [Hj [Hn' Hy]]]]]]] end; [congruence|].
        rewrite Hv in Hj. inversion Hj; subst. rewrite Hn in Hn'. inversion Hn'; subst. destruct Hy as [Hy|Hy]; apply Hy; reflexivity.
      + repeat match goal with Hm : macro_import _ _ _ |- _ => destruct Hm as [? ?] end.
        match goal with A : view_import x = Some ?i, B : view_import x = Some ?j |- _ => assert (i = j) by congruence; subst j end.
        match goal with A : i_names ?i = _ :: ?r1, B : i_names ?i = _ :: ?r2 |- _ => assert (r1 = r2) by congruence; subst r2 end.
        match goal with A : i_names ?i = _ :: ?r1, L1 : loaded _ _ _ ?i _ ?w1 ?o1 ?a1, N1 : named_objects _ ?w1 ?o1 ?r1 _, L2 : loaded _ _ _ ?i _ ?w2 ?o2 ?a2, N2 : named_objects _ ?w2 ?o2 ?r1 _ |- _ =>
          lazymatch w1 with w2 => fail | _ => destruct (loaded_named_det _ _ _ _ _ _ _ _ _ _ _ A L1 N1 L2 N2) as [-> _] end end.
        eapply IH; eassumption.
  Qed.
  Lemma other_not_macro t i rest : other_stmt t -> macro_import t i rest -> False.
  Proof.
    intros [Ho|[j [y [a [rest' [Hj [Hn' Hy]]]]]]] [Hv Hn]; [congruence|]. rewrite Hv in Hj. inversion Hj; subst. rewrite Hn in Hn'. inversion Hn'; subst. destruct Hy as [Hy|Hy]; apply Hy; reflexivity.
  Qed.
  Lemma replaced_det t i absname out out' : replaced self transform text t i absname out -> replaced self transform text t i absname out' -> out = out'.
  Proof. intros H1 H2. destruct H1; inversion H2; subst; try congruence; try contradiction. Qed.
  Lemma imports_det w r ps out w' ps' out' w'' : imports P ispy self transform text w r ps out w' -> imports P ispy self transform text w r ps' out' w'' -> ps' = ps /\ out' = out /\ w'' = w'.
  Proof.
    intros H. revert ps' out' w''. induction H as [w|w t r ps out w' Ho Hi IH|w t i rest w1 o absname ps1 out1 r ps out w' Hm Hl Hn Hr Hi IH]; intros ps' out' w'' H'.
    - inversion H'; subst. auto.
    - inversion H'; subst.
      + destruct (IH _ _ _ ltac:(eassumption)) as [-> [-> ->]]. auto.
      + exfalso. eapply other_not_macro; eassumption.
    - inversion H' as [|? ? ? ? ? ? Ho' Hi'|? ? i' rest' w1' o' absname' ps1' out1' ? ps2 out2 ? Hm' Hl' Hn' Hr' Hi']; subst.
      + exfalso. eapply other_not_macro; eassumption.
      + destruct Hm as [Hv Hnm]. destruct Hm' as [Hv' Hnm']. assert (i' = i) by congruence. subst i'. assert (rest' = rest) by congruence. subst rest'.
        destruct (loaded_named_det _ _ _ _ _ _ _ _ _ _ _ Hnm Hl Hn Hl' Hn') as [<- <-].
        assert (o' = o).
        { inversion Hl; subst; inversion Hl'; subst; try congruence.  }
        subst o'. rewrite (named_objects_det _ _ _ _ _ Hn' Hn). rewrite (replaced_det _ _ _ _ _ Hr' Hr). destruct (IH _ _ _ Hi') as [-> [-> ->]]. auto.
  Qed.
  Lemma find_macros_returns body w ps out w' : imports P ispy self transform text w body ps out w' ->
    exists d, find_macros P ispy self transform text body w = (Ok d, out, w') /\ forall x v, sget x d = Some v <-> last_bound x v ps.
  Proof.
    intros Hi. destruct (find_macros P ispy self transform text body w) as [[[d|e] body'] w1] eqn:E.
    - apply find_macros_ok in E. destruct E as [ps' [Hi' Hd]]. destruct (imports_det _ _ _ _ _ _ _ _ Hi Hi') as [-> [-> ->]]. exists d. auto.
    - exfalso. apply find_macros_err in E. destruct E as [p [t [q [ps' [out' [w2 [marks' [-> [H2 [H3 _]]]]]]]]]]. exact (imports_not_unusable _ _ _ _ _ _ _ Hi _ _ _ H2 H3).
  Qed.
  (* nothing to find: no macro-imports *)
  Lemma no_imports body w : Forall other_stmt body -> imports P ispy self transform text w body [] body w.
  Proof. induction 1; constructor; assumption. Qed.
  Lemma imports_clean body w ps out w' : transform = true -> imports P ispy self transform text w body ps out w' -> Forall other_stmt out.
  Proof.
    intros Ht Hi. induction Hi as [|w t r ps out w' Ho Hi IH|w t i rest w1 o absname ps1 out1 r ps out w' Hm Hl Hn Hr Hi IH]; [constructor|constructor; assumption|].
    apply Forall_app. split; [|exact IH]. destruct Hr; [congruence| |constructor|]; (constructor; [|constructor]); left; reflexivity.
  Qed.
End Proofs.
