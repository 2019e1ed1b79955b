From Coq Require Import FinFun.
From Verif Require Import Base UtilsModel UtilsSpec.

(** ** flatten *)
Section Flatten.
  Context {M : Type}.
  Implicit Types t : tree M.
  Implicit Types l : list (tree M).

  Lemma erase_app (a b : list (tok M)) :
    erase_brackets (a ++ b) = erase_brackets a ++ erase_brackets b.
  Proof.
    induction a as [|x a IH]; [reflexivity|].
    destruct x as [| |[m k fs|sub|[]]]; simpl; rewrite ?IH; reflexivity.
  Qed.

  Lemma flatten_acc_spec t : forall out,
    flatten_acc out t = out ++ erase_brackets (print t).
  Proof.
    induction t as [m k fs _|l IH|a] using tree_ind'; intros out.
    - reflexivity.
    - simpl. f_equal.
      assert (H : forall acc, fold_left flatten_acc l acc
                  = acc ++ erase_brackets (flat_map print l)).
      { induction IH as [|x l Hx Hl IHl]; intros acc; simpl.
        - rewrite app_nil_r; reflexivity.
        - rewrite IHl, Hx, erase_app, app_assoc; reflexivity. }
      rewrite H, erase_app. simpl. rewrite app_nil_r. reflexivity.
    - destruct a; simpl; try reflexivity. rewrite app_nil_r; reflexivity.
  Qed.

  Lemma flatten_print l : flatten l = erase_brackets (flat_map print l).
  Proof.
    unfold flatten.
    assert (H : forall acc, fold_left flatten_acc l acc
                = acc ++ erase_brackets (flat_map print l)).
    { induction l as [|x l IHl]; intros acc; simpl.
      - rewrite app_nil_r; reflexivity.
      - rewrite IHl, flatten_acc_spec, erase_app, app_assoc; reflexivity. }
    apply H.
  Qed.

  Lemma erase_flat (ts : list (tok M)) :
    (forall x, In (TLeaf x) ts -> is_list x = false) ->
    Forall (fun t => is_list t = false /\ is_none t = false) (erase_brackets ts).
  Proof.
    induction ts as [|y ts IH]; intros H; [constructor|].
    assert (IH' : Forall (fun t => is_list t = false /\ is_none t = false) (erase_brackets ts))
      by (apply IH; intros x Hx; apply H; right; exact Hx).
    destruct y as [| |x]; simpl; [exact IH'|exact IH'|].
    assert (Hx : is_list x = false) by (apply H; left; reflexivity).
    destruct x as [m k fs|sub|[]]; simpl in *; try discriminate; try exact IH';
      constructor; auto.
  Qed.

  Lemma print_leaf t : forall x, In (TLeaf x) (print t) -> is_list x = false.
  Proof.
    induction t as [m k fs _|l IH|a] using tree_ind'; intros x Hx.
    - destruct Hx as [Hx|[]]; inversion Hx; reflexivity.
    - destruct Hx as [Hx|Hx]; [discriminate|].
      apply in_app_or in Hx. destruct Hx as [Hx|[Hx|[]]]; [|discriminate].
      apply in_flat_map in Hx. destruct Hx as [y [Hy Hx]].
      rewrite Forall_forall in IH. exact (IH y Hy x Hx).
    - destruct Hx as [Hx|[]]; inversion Hx; reflexivity.
  Qed.

  Lemma flatten_flat l :
    Forall (fun t => is_list t = false /\ is_none t = false) (flatten l).
  Proof.
    rewrite flatten_print. apply erase_flat.
    intros x Hx. apply in_flat_map in Hx. destruct Hx as [y [_ Hy]].
    exact (print_leaf y x Hy).
  Qed.

  Lemma flatten_fixed l :
    Forall (fun t => is_list t = false /\ is_none t = false) l -> flatten l = l.
  Proof.
    intros H; rewrite flatten_print.
    induction H as [|x l [Hl Hn] H IH]; [reflexivity|].
    destruct x as [m k fs|sub|[]]; simpl in *; try discriminate; rewrite IH; reflexivity.
  Qed.

  Lemma erase_in (ts : list (tok M)) x :
    In x (erase_brackets ts) <-> (In (TLeaf x) ts /\ is_none x = false).
  Proof.
    induction ts as [|y ts IH]; simpl; [tauto|].
    destruct y as [| |z]; simpl.
    - rewrite IH; intuition discriminate.
    - rewrite IH; intuition discriminate.
    - destruct (is_none z) eqn:Ez.
      + destruct z as [m k fs|sub|[]]; simpl in Ez; try discriminate.
        rewrite IH. split.
        * tauto.
        * intros [[H|H] Hn]; [|tauto]. inversion H; subst; discriminate.
      + assert (E : erase_brackets (TLeaf z :: ts) = z :: erase_brackets ts)
          by (destruct z as [m k fs|sub|[]]; simpl in Ez; try discriminate; reflexivity).
        change (In x (erase_brackets (TLeaf z :: ts)) <->
                (TLeaf z = TLeaf x \/ In (TLeaf x) ts) /\ is_none x = false).
        rewrite E. simpl. rewrite IH. split.
        * intros [H|[H1 H2]]; [subst; auto|tauto].
        * intros [[H|H] Hn]; [left; inversion H; reflexivity|tauto].
  Qed.

  Lemma print_elem_at l x : is_list x = false ->
    In (TLeaf x) (flat_map print l) <-> exists path, elem_at l path = Some x.
  Proof.
    intros Hx. split.
    - intros H. apply in_flat_map in H. destruct H as [y [Hy H]].
      assert (G : forall t, In (TLeaf x) (print t) ->
                  t = x \/ exists sub path, t = Ls sub /\ elem_at sub path = Some x).
      { induction t as [m k fs _|sub IH|a] using tree_ind'; intros Ht.
        - destruct Ht as [Ht|[]]; inversion Ht; auto.
        - right. destruct Ht as [Ht|Ht]; [discriminate|].
          apply in_app_or in Ht. destruct Ht as [Ht|[Ht|[]]]; [|discriminate].
          apply in_flat_map in Ht. destruct Ht as [z [Hz Ht]].
          rewrite Forall_forall in IH. destruct (In_nth_error _ _ Hz) as [i Hi].
          destruct (IH z Hz Ht) as [E|[sub' [path [E Hp]]]].
          + subst z. exists sub, [i]. split; [reflexivity|exact Hi].
          + exists sub, (i :: path). split; [reflexivity|].
            destruct path as [|j path]; [discriminate|].
            cbn [elem_at]. rewrite Hi, E. exact Hp.
        - destruct Ht as [Ht|[]]; inversion Ht; auto. }
      destruct (In_nth_error _ _ Hy) as [i Hi].
      destruct (G y H) as [E|[sub [path [E Hp]]]].
      + exists [i]. subst; exact Hi.
      + exists (i :: path). destruct path as [|j path]; [discriminate|].
        cbn [elem_at]. rewrite Hi, E. exact Hp.
    - intros [path H]. revert l H. induction path as [|i path IH]; intros l H; [discriminate|].
      destruct path as [|j path].
      + cbn [elem_at] in H. apply in_flat_map. exists x. split.
        * eapply nth_error_In; exact H.
        * destruct x; simpl in Hx; try discriminate; left; reflexivity.
      + cbn [elem_at] in H. destruct (nth_error l i) as [[m k fs|sub|a]|] eqn:E; try discriminate.
        apply in_flat_map. exists (Ls sub). split; [eapply nth_error_In; exact E|].
        simpl. right. apply in_or_app. left. apply (IH sub). exact H.
  Qed.

  Lemma flatten_complete l x :
    In x (flatten l) <->
    (is_list x = false /\ is_none x = false /\ exists path, elem_at l path = Some x).
  Proof.
    rewrite flatten_print, erase_in. split.
    - intros [H Hn]. assert (Hl : is_list x = false).
      { apply in_flat_map in H. destruct H as [y [_ H]]. exact (print_leaf y x H). }
      rewrite print_elem_at in H by exact Hl. auto.
    - intros [Hl [Hn H]]. rewrite print_elem_at by exact Hl. auto.
  Qed.

  Lemma flatten_idem l : flatten (flatten l) = flatten l.
  Proof. apply flatten_fixed, flatten_flat. Qed.

  (** one-level flattening *)
  Lemma flatten1_concat l :
    flatten1 l = concat (map (fun t => match t with
                                       | Ls sub => sub
                                       | _ => if is_none t then [] else [t]
                                       end) l).
  Proof.
    unfold flatten1.
    assert (H : forall acc, fold_left flatten1_acc l acc
      = acc ++ concat (map (fun t => match t with
                                       | Ls sub => sub
                                       | _ => if is_none t then [] else [t]
                                       end) l)).
    { induction l as [|x l IH]; intros acc; simpl; [rewrite app_nil_r; reflexivity|].
      rewrite IH, app_assoc. f_equal.
      destruct x as [m k fs|sub|[]]; simpl; rewrite ?app_nil_r; reflexivity. }
    apply H.
  Qed.
End Flatten.

(** ** gensym *)
Lemma filter_all {A} (f : A -> bool) l : (forall x, In x l -> f x = true) -> filter f l = l.
Proof.
  induction l as [|x l IH]; intros H; [reflexivity|]. simpl.
  rewrite (H x (or_introl eq_refl)), IH; [reflexivity|]. intros y Hy; apply H; right; exact Hy.
Qed.

Lemma lower_hex_not_dash c : is_lower_hex c = true -> c <> "-"%char.
Proof. intros H E; subst; discriminate. Qed.
Lemma lower_hex_not_underscore c : is_lower_hex c = true -> c <> "_"%char.
Proof. intros H E; subst; discriminate. Qed.

Lemma uuid_str_undash d : wf_uuid d -> remove_char "-"%char (uuid_str d) = d.
Proof.
  intros [Hlen Hall]. unfold uuid_str, remove_char.
  rewrite !filter_app. simpl (filter _ ["-"%char]). rewrite !app_nil_l.
  assert (F : forall l, incl l d -> filter (fun x => negb (Ascii.eqb x "-")) l = l).
  { intros l Hl. apply filter_all. intros x Hx.
    rewrite Forall_forall in Hall. specialize (Hall x (Hl x Hx)).
    destruct (Ascii.eqb x "-") eqn:E; [|reflexivity].
    apply Ascii.eqb_eq in E. subst; discriminate. }
  do 32 (destruct d as [|? d]; [discriminate Hlen|]).
  destruct d; [|discriminate Hlen]. cbn [firstn skipn] in *.
  rewrite !F by (intros x Hx; simpl in *; tauto). reflexivity.
Qed.

Section Gensym.
  Variable uuids : nat -> list ascii.
  Hypothesis Hwf : forall n, wf_uuid (uuids n).

  Lemma gensym_loop_spec fuel base : forall st s st',
    gensym_loop uuids fuel base st = Some (s, st') ->
    ~ In s (g_prev st) /\ g_prev st' = s :: g_prev st /\
    exists u, wf_uuid u /\ s = (base ++ str_of_list u)%string.
  Proof.
    induction fuel as [|fuel IH]; intros st s st' H; [discriminate|].
    cbn [gensym_loop] in H.
    destruct (smem _ (g_prev st)) eqn:E.
    - apply IH in H. exact H.
    - inversion H; subst; clear H. split; [|split].
      + intros Hin. apply smem_In in Hin. rewrite Hin in E; discriminate.
      + reflexivity.
      + exists (uuids (g_pos st)). split; [apply Hwf|].
        rewrite uuid_str_undash by apply Hwf. reflexivity.
  Qed.

  Lemma string_length_0 s : Nat.ltb 0 (String.length s) = negb (String.eqb s "").
  Proof. destruct s; reflexivity. Qed.

  Lemma append_assoc_s a b c : ((a ++ b) ++ c)%string = (a ++ (b ++ c))%string.
  Proof. induction a as [|x a IH]; simpl; [reflexivity|rewrite IH; reflexivity]. Qed.

  Lemma gensym_spec fuel b st r st' :
    gensym uuids fuel b st = Some (r, st') ->
    gensym_result_ok b r /\
    (forall s, r = Ok s -> ~ In s (g_prev st) /\ g_prev st' = s :: g_prev st) /\
    (forall e, r = Err e -> g_prev st' = g_prev st).
  Proof.
    unfold gensym. destruct b as [|s|].
    - destruct (gensym_loop _ _ _ _) as [[s' st'']|] eqn:E; intros H; inversion H; subst; clear H.
      apply gensym_loop_spec in E. destruct E as [H1 [H2 [u [Hu E]]]]. repeat split.
      + exists u; split; [exact Hu|subst; reflexivity].
      + inversion H; subst; exact H1.
      + inversion H; subst; exact H2.
      + intros e He; discriminate.
    - rewrite string_length_0. intros H.
      destruct (gensym_loop uuids fuel (if negb (String.eqb s "") then (s ++ "_")%string else s) st)
        as [[s' st'']|] eqn:E.
      + assert (Hr : r = Ok s' /\ st' = st'').
        { destruct (negb (String.eqb s "")); rewrite E in H; inversion H; auto. }
        destruct Hr as [Hr Hst]; subst r st'. clear H.
        apply gensym_loop_spec in E. destruct E as [H1 [H2 [u [Hu E]]]]. repeat split.
        * exists u; split; [exact Hu|]. subst s'. destruct (String.eqb s "") eqn:Es; simpl.
          -- apply String.eqb_eq in Es; subst; reflexivity.
          -- rewrite append_assoc_s; reflexivity.
        * inversion H; subst; exact H1.
        * inversion H; subst; exact H2.
        * intros e He; discriminate.
      + exfalso. destruct (negb (String.eqb s "")); rewrite E in H; discriminate.
    - intros H; inversion H; subst; clear H. repeat split.
      + exists (mkExn "TypeError" []); auto.
      + discriminate.
      + discriminate.
  Qed.

  Lemma gensym_history_spec calls : forall st rs st',
    gensym_history uuids calls st = Some (rs, st') ->
    NoDup (oks rs) /\
    (forall s, In s (oks rs) -> ~ In s (g_prev st)) /\
    Forall2 (fun c r => gensym_result_ok (snd c) r) calls rs.
  Proof.
    induction calls as [|[fuel b] calls IH]; intros st rs st' H; cbn [gensym_history] in H.
    - inversion H; subst; repeat split; [constructor|intros s []|constructor].
    - destruct (gensym uuids fuel b st) as [[r st1]|] eqn:E; [|discriminate].
      destruct (gensym_history uuids calls st1) as [[rs1 st2]|] eqn:E2; [|discriminate].
      inversion H; subst; clear H.
      apply gensym_spec in E. destruct E as [Hok [Hs He]].
      destruct (IH _ _ _ E2) as [Hnd [Hfresh Hall]].
      destruct r as [s|e].
      + destruct (Hs s eq_refl) as [Hn Hp]. repeat split.
        * simpl. constructor; [|exact Hnd]. intros Hin.
          apply (Hfresh s Hin). rewrite Hp; left; reflexivity.
        * intros x [Hx|Hx]; [subst; exact Hn|]. intros Hin.
          apply (Hfresh x Hx). rewrite Hp; right; exact Hin.
        * constructor; [exact Hok|exact Hall].
      + specialize (He e eq_refl). repeat split.
        * exact Hnd.
        * intros x Hx. simpl in Hx. rewrite <- He. apply Hfresh. exact Hx.
        * constructor; [exact Hok|exact Hall].
  Qed.

  Lemma append_inj_r base a b : (base ++ a)%string = (base ++ b)%string -> a = b.
  Proof. induction base as [|c base IH]; simpl; intros H; [exact H|]. inversion H; auto. Qed.

  Lemma str_of_list_inj a b : str_of_list a = str_of_list b -> a = b.
  Proof.
    intros H. rewrite <- (list_ascii_of_string_of_list_ascii a),
                      <- (list_ascii_of_string_of_list_ascii b).
    unfold str_of_list in H. rewrite H. reflexivity.
  Qed.

  (** With a collision-free uuid source every call returns. *)
  Hypothesis Hinj : forall i j, uuids i = uuids j -> i = j.

  Let name base i := (base ++ str_of_list (uuids i))%string.

  Lemma name_inj base i j : name base i = name base j -> i = j.
  Proof. unfold name; intros H. apply Hinj, str_of_list_inj, (append_inj_r base), H. Qed.

  Lemma loop_none fuel base : forall st,
    gensym_loop uuids fuel base st = None ->
    forall i, i < fuel -> In (name base (g_pos st + i)) (g_prev st).
  Proof.
    induction fuel as [|fuel IH]; intros st H i Hi; [lia|].
    cbn [gensym_loop] in H. rewrite uuid_str_undash in H by apply Hwf.
    fold (name base (g_pos st)) in H.
    destruct (smem (name base (g_pos st)) (g_prev st)) eqn:E; [|discriminate].
    destruct i as [|i].
    - rewrite Nat.add_0_r. apply smem_In. exact E.
    - specialize (IH _ H i). cbn [g_pos g_prev] in IH.
      replace (g_pos st + S i) with (S (g_pos st) + i) by lia. apply IH. lia.
  Qed.

  Lemma gensym_loop_terminates base st fuel :
    List.length (g_prev st) < fuel -> gensym_loop uuids fuel base st <> None.
  Proof.
    intros Hf H.
    set (names := map (fun i => name base (g_pos st + i)) (seq 0 fuel)).
    assert (Hnd : NoDup names).
    { apply FinFun.Injective_map_NoDup; [|apply seq_NoDup].
      intros i j Hij. apply name_inj in Hij. lia. }
    assert (Hincl : incl names (g_prev st)).
    { intros x Hx. apply in_map_iff in Hx. destruct Hx as [i [Hi Hin]]. subst x.
      apply in_seq in Hin. eapply loop_none; [exact H|lia]. }
    pose proof (NoDup_incl_length Hnd Hincl) as Hl.
    unfold names in Hl. rewrite map_length, seq_length in Hl. lia.
  Qed.

  Lemma gensym_terminates b st fuel :
    List.length (g_prev st) < fuel -> gensym uuids fuel b st <> None.
  Proof.
    intros Hf. unfold gensym. destruct b as [|s|]; [| |discriminate].
    - pose proof (gensym_loop_terminates "gensym_" st fuel Hf) as H.
      destruct (gensym_loop _ _ _ _) as [[? ?]|]; [discriminate|congruence].
    - destruct (Nat.ltb 0 (String.length s)).
      + pose proof (gensym_loop_terminates (s ++ "_") st fuel Hf) as H.
        destruct (gensym_loop _ _ _ _) as [[? ?]|]; [discriminate|congruence].
      + pose proof (gensym_loop_terminates s st fuel Hf) as H.
        destruct (gensym_loop _ _ _ _) as [[? ?]|]; [discriminate|congruence].
  Qed.
End Gensym.

(** ** scrub_uuid *)
Lemma rfind_none c s : rfind c s = None <-> ~ In c s.
Proof.
  induction s as [|x s IH]; simpl; [tauto|].
  destruct (rfind c s) as [i|] eqn:E.
  - split; [discriminate|]. intros H. exfalso. apply H. right.
    destruct (in_dec ascii_dec c s) as [Hin|Hn]; [exact Hin|].
    apply IH in Hn. discriminate.
  - destruct (Ascii.eqb x c) eqn:Ex.
    + apply Ascii.eqb_eq in Ex. split; [discriminate|]. intros H; exfalso; apply H; auto.
    + split; [|reflexivity]. intros _ [H|H].
      * subst. rewrite Ascii.eqb_refl in Ex; discriminate.
      * apply IH in H; auto.
Qed.

Lemma rfind_app c p u : ~ In c u -> rfind c (p ++ c :: u) = Some (List.length p).
Proof.
  intros Hn. induction p as [|x p IH]; simpl.
  - apply rfind_none in Hn. rewrite Hn, Ascii.eqb_refl. reflexivity.
  - rewrite IH. reflexivity.
Qed.

Lemma rfind_some c s i : rfind c s = Some i ->
  exists p u, s = p ++ c :: u /\ ~ In c u /\ List.length p = i.
Proof.
  revert i. induction s as [|x s IH]; intros i H; [discriminate|]. simpl in H.
  destruct (rfind c s) as [j|] eqn:E.
  - inversion H; subst. destruct (IH j eq_refl) as [p [u [Hs [Hn Hl]]]].
    exists (x :: p), u. subst. auto.
  - destruct (Ascii.eqb x c) eqn:Ex; [|discriminate]. inversion H; subst.
    apply Ascii.eqb_eq in Ex; subst. exists [], s. repeat split.
    apply rfind_none; exact E.
Qed.

Lemma skipn_app_cons {A} (p : list A) c u : skipn (List.length p + 1) (p ++ c :: u) = u.
Proof. induction p as [|x p IH]; [reflexivity|exact IH]. Qed.
Lemma firstn_app_exact {A} (p q : list A) : firstn (List.length p) (p ++ q) = p.
Proof. induction p as [|x p IH]; simpl; [reflexivity|rewrite IH; reflexivity]. Qed.

Lemma scrub_yes s p u : has_uuid_suffix s p u -> scrub_uuid s = p.
Proof.
  intros [Hs [Hn [Hl Hi]]]. subst s. unfold scrub_uuid. rewrite rfind_app by exact Hn.
  cbv zeta. rewrite skipn_app_cons, Hl, Hi, firstn_app_exact. reflexivity.
Qed.

Lemma scrub_no s : (forall p u, ~ has_uuid_suffix s p u) -> scrub_uuid s = s.
Proof.
  intros H. unfold scrub_uuid. destruct (rfind "_"%char s) as [i|] eqn:E; [|reflexivity].
  apply rfind_some in E. destruct E as [p [u [Hs [Hn Hl]]]]. subst s i.
  cbv zeta. rewrite skipn_app_cons.
  destruct (Nat.eqb (List.length u) 32) eqn:E1; [|reflexivity].
  destruct (int16_accepts u) eqn:E2; [|reflexivity].
  exfalso. apply (H p u). repeat split; auto. apply Nat.eqb_eq; exact E1.
Qed.

Lemma hex_not_space c : is_lower_hex c = true -> is_space c = false.
Proof. destruct c as [[] [] [] [] [] [] [] []]; vm_compute; congruence. Qed.

Lemma lstrip_hex l : Forall (fun c => is_lower_hex c = true) l -> lstrip l = l.
Proof. intros H; destruct H as [|c l Hc _]; simpl; [reflexivity|]. rewrite hex_not_space by exact Hc. reflexivity. Qed.

Lemma int16_accepts_hex u : u <> [] -> Forall (fun c => is_lower_hex c = true) u ->
  int16_accepts u = true.
Proof.
  intros Hne H. unfold int16_accepts, strip.
  rewrite (lstrip_hex u H), (lstrip_hex (rev u)) by (apply Forall_rev; exact H).
  rewrite rev_involutive.
  assert (D : forall v b, Forall (fun c => is_lower_hex c = true) v -> (b = true -> v <> []) ->
              hex_digits_from b v = true).
  { clear. induction v as [|c v IH]; intros b Hv Hb.
    - destruct b; [exfalso; apply Hb; reflexivity|reflexivity].
    - inversion Hv; subst. simpl. unfold is_hex. rewrite H1. simpl.
      apply IH; [assumption|discriminate]. }
  assert (S1 : strip_sign u = u).
  { destruct H as [|c l Hc Hl]; [reflexivity|]. simpl.
    destruct (Ascii.eqb c "+") eqn:E1; [apply Ascii.eqb_eq in E1; subst; discriminate|].
    destruct (Ascii.eqb c "-") eqn:E2; [apply Ascii.eqb_eq in E2; subst; discriminate|].
    reflexivity. }
  assert (S2 : strip_prefix u = u).
  { destruct H as [|a l Ha [|b l' Hb Hl]]; [reflexivity|reflexivity|]. simpl.
    destruct (Ascii.eqb b "x") eqn:E1; [apply Ascii.eqb_eq in E1; subst; discriminate|].
    destruct (Ascii.eqb b "X") eqn:E2; [apply Ascii.eqb_eq in E2; subst; discriminate|].
    simpl. rewrite andb_false_r. reflexivity. }
  rewrite S1, S2. apply D; auto.
Qed.

Lemma wf_uuid_suffix p u : wf_uuid u -> has_uuid_suffix (p ++ "_"%char :: u) p u.
Proof.
  intros [Hl Hall]. repeat split; auto.
  - intros Hin. rewrite Forall_forall in Hall. specialize (Hall _ Hin). discriminate.
  - apply int16_accepts_hex; [|exact Hall]. intros E; subst; discriminate.
Qed.

Lemma list_of_str_app a b : list_of_str (a ++ b)%string = list_of_str a ++ list_of_str b.
Proof. induction a as [|c a IH]; simpl; [reflexivity|]. unfold list_of_str in *. simpl. rewrite IH. reflexivity. Qed.

Lemma scrub_gensym_lemma uuids (Hwf : forall n, wf_uuid (uuids n)) fuel s st r st' :
  s <> ""%string -> gensym uuids fuel (BStr s) st = Some (Ok r, st') ->
  scrub_uuid (list_of_str r) = list_of_str s.
Proof.
  intros Hs H. apply (gensym_spec uuids Hwf) in H. destruct H as [[u [Hu Hr]] _].
  destruct (String.eqb s "") eqn:E; [apply String.eqb_eq in E; congruence|].
  inversion Hr; subst r. rewrite !list_of_str_app. simpl.
  unfold str_of_list, list_of_str. rewrite list_ascii_of_string_of_list_ascii.
  eapply scrub_yes. apply wf_uuid_suffix. exact Hu.
Qed.

(** ** extract_bindings *)
Lemma extract_in b fs n f :
  In (n, f) (extract_bindings b fs) <-> In (n, f) b /\ In f fs.
Proof.
  unfold extract_bindings. rewrite filter_In. simpl. rewrite existsb_exists. split.
  - intros [H [y [Hy E]]]. apply Nat.eqb_eq in E. subst. auto.
  - intros [H1 H2]. split; [exact H1|]. exists f. split; [exact H2|apply Nat.eqb_refl].
Qed.

Inductive sublist {A} : list A -> list A -> Prop :=
| sub_nil : sublist [] []
| sub_skip x a b : sublist a b -> sublist a (x :: b)
| sub_keep x a b : sublist a b -> sublist (x :: a) (x :: b).

Lemma filter_sublist {A} (f : A -> bool) l : sublist (filter f l) l.
Proof. induction l as [|x l IH]; simpl; [constructor|]. destruct (f x); constructor; exact IH. Qed.

(** ** getdocstring *)
Lemma getdocstring_sound {M} (body : list (tree M)) s :
  getdocstring (Ls body) = Ok (At (AStr s)) ->
  (forall m fs m' fs' rest, body = Nd m "Expr" fs :: rest ->
      getf "value" fs <> Some (Nd m' "Str" fs')) ->
  is_docstring_of body s.
Proof.
  intros H Hstr. destruct body as [|[m k fs|l|a] rest]; simpl in H; try discriminate.
  destruct (String.eqb k "Expr") eqn:Ek; [|discriminate]. apply String.eqb_eq in Ek; subst.
  destruct (getf "value" fs) as [[m' k' fs'|l|a]|] eqn:Ev; try discriminate.
  destruct (String.eqb k' "Constant") eqn:Ek'.
  - apply String.eqb_eq in Ek'; subst.
    destruct (getf "value" fs') as [v|] eqn:Ev'; [|discriminate]. inversion H; subst.
    exists m, fs, m', fs', rest. auto.
  - destruct (String.eqb k' "Str") eqn:Ek''; [|discriminate].
    apply String.eqb_eq in Ek''; subst. exfalso. eapply Hstr; [reflexivity|exact Ev].
Qed.

Lemma getdocstring_complete {M} (body : list (tree M)) s :
  is_docstring_of body s -> getdocstring (Ls body) = Ok (At (AStr s)).
Proof.
  intros [m [fs [m' [fs' [rest [E [H1 H2]]]]]]]. subst. simpl. rewrite H1. simpl. rewrite H2. reflexivity.
Qed.

(** ** NestingLevelTracker *)
Lemma tracker_refines p : forall level rest env log,
  run p (mkT (level :: rest) env log) =
  let r := sem p level (mkS env log) in
  (mkT (level :: rest) (s_env (fst r)) (s_log (fst r)), snd r).
Proof.
  induction p as [|p IHp q IHq| |c p IHp|n p IHp|e|p IHp h IHh]; intros level rest env log;
    cbn [run sem t_stack t_env t_log s_env s_log t_value hd_error].
  - reflexivity.
  - rewrite IHp. cbv zeta. destruct (sem p level (mkS env log)) as [s' o]. cbn [fst snd].
    destruct o; [|reflexivity]. rewrite IHq. destruct s'; reflexivity.
  - reflexivity.
  - destruct c as [v|d|]; cbn [eval_cm t_value hd_error]; cbv zeta.
    + destruct (v <? 0)%Z; [reflexivity|].
      rewrite IHp. cbv zeta. destruct (sem p level _) as [s' o]. reflexivity.
    + destruct (level + d <? 0)%Z; [reflexivity|].
      rewrite IHp. cbv zeta. destruct (sem p level _) as [s' o]. reflexivity.
    + reflexivity.
  - destruct (nth_error env n) as [[v|]|]; [|reflexivity|reflexivity].
    rewrite IHp. cbv zeta. destruct (sem p v _) as [s' o]. reflexivity.
  - reflexivity.
  - rewrite IHp. cbv zeta. destruct (sem p level _) as [s' o]. cbn [fst snd].
    destruct o; [reflexivity|]. rewrite IHh. destruct s'; reflexivity.
Qed.

Definition nonneg_env (env : cmenv) : Prop := Forall (fun o => forall v, o = Some v -> (0 <= v)%Z) env.
Definition nonneg_log (log : list Z) : Prop := Forall (fun v => (0 <= v)%Z) log.

Lemma set_nth_nonneg n env : nonneg_env env -> nonneg_env (set_nth n None env).
Proof.
  unfold nonneg_env. intros H; revert n. induction H as [|o env Ho H IH]; intros n; [constructor|].
  destruct n as [|n]; simpl; constructor; auto. discriminate.
Qed.

Lemma sem_nonneg p : forall level env log,
  (0 <= level)%Z -> nonneg_env env -> nonneg_log log ->
  let r := sem p level (mkS env log) in nonneg_env (s_env (fst r)) /\ nonneg_log (s_log (fst r)).
Proof.
  induction p as [|p IHp q IHq| |c p IHp|n p IHp|e|p IHp h IHh]; intros level env log Hl He Hg;
    cbn [sem s_env s_log]; cbv zeta.
  - auto.
  - specialize (IHp level env log Hl He Hg). cbv zeta in IHp.
    destruct (sem p level (mkS env log)) as [[env' log'] o]. cbn [fst snd s_env s_log] in *.
    destruct IHp as [H1 H2]. destruct o; [|auto]. apply IHq; auto.
  - split; [exact He|]. constructor; auto.
  - assert (E : forall v, nonneg_env env -> nonneg_log log ->
       nonneg_env (s_env (fst (if (v <? 0)%Z then (mkS env log, Raised "ValueError") else
         (mkS (tl (s_env (fst (sem p level (mkS (Some v :: env) log)))))
              (s_log (fst (sem p level (mkS (Some v :: env) log)))),
          snd (sem p level (mkS (Some v :: env) log))))))
       /\ nonneg_log (s_log (fst (if (v <? 0)%Z then (mkS env log, Raised "ValueError") else
         (mkS (tl (s_env (fst (sem p level (mkS (Some v :: env) log)))))
              (s_log (fst (sem p level (mkS (Some v :: env) log)))),
          snd (sem p level (mkS (Some v :: env) log))))))).
    { intros v _ _. destruct (v <? 0)%Z eqn:Ev; [auto|]. apply Z.ltb_ge in Ev.
      assert (He' : nonneg_env (Some v :: env)).
      { constructor; [|exact He]. intros w Hw; inversion Hw; subst; exact Ev. }
      specialize (IHp level (Some v :: env) log Hl He' Hg). cbv zeta in IHp.
      destruct (sem p level _) as [[env' log'] o]. cbn [fst snd s_env s_log] in *.
      destruct IHp as [H1 H2]. split; [|exact H2]. destruct H1; [constructor|assumption]. }
    destruct c as [v|d|]; [apply E; auto|apply E; auto|auto].
  - destruct (nth_error env n) as [[v|]|] eqn:En; [|auto|auto].
    apply IHp; [|apply set_nth_nonneg; exact He|exact Hg].
    apply nth_error_In in En. unfold nonneg_env in He. rewrite Forall_forall in He.
    exact (He _ En v eq_refl).
  - auto.
  - specialize (IHp level env log Hl He Hg). cbv zeta in IHp.
    destruct (sem p level (mkS env log)) as [[env' log'] o]. cbn [fst snd s_env s_log] in *.
    destruct IHp as [H1 H2]. destruct o; [auto|]. apply IHh; auto.
Qed.
