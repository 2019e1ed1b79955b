(** Proofs about multi-phase compilation. *)
From Verif Require Import Base AstLib UtilsModel FixLocModel ExpanderModel SpliceModel Dict ModulesModel PhaseModel PhaseSpec.

Lemma getf_setf_same {M} f (v : tree M) fs : getf f (setf f v fs) = Some v.
Proof. induction fs as [|[g w] fs IH]; cbn [setf getf]; [rewrite String.eqb_refl; reflexivity|]. destruct (String.eqb f g) eqn:Eg; cbn [getf]; rewrite Eg; [reflexivity|exact IH]. Qed.
Lemma getf_setf_other {M} f g (v : tree M) fs : f <> g -> getf f (setf g v fs) = getf f fs.
Proof.
  intros H. apply String.eqb_neq in H. induction fs as [|[h w] fs IH]; cbn [setf getf]; [rewrite H; reflexivity|]. destruct (String.eqb g h) eqn:Eg; cbn [getf].
  - apply String.eqb_eq in Eg. subst h. rewrite H. reflexivity.
  - destruct (String.eqb f h); [reflexivity|exact IH].
Qed.

Lemma literal_number sl n : literal sl n -> phase_number sl = Ok (Some n).
Proof.
  intros [m [fa [-> H]]]. unfold phase_number. cbn [String.eqb]. change (String.eqb "Constant" "Constant") with true. cbv iota. destruct H as [[-> Hn]|[-> ->]]; [|reflexivity]. apply Z.leb_le in Hn. rewrite Hn. reflexivity.
Qed.
Lemma number_literal sl n : phase_number sl = Ok (Some n) -> literal sl n.
Proof.
  unfold phase_number. destruct sl as [m k fa| |]; try discriminate. destruct (String.eqb_spec k "Constant") as [->|]; [|discriminate]. intros H. exists m, fa. split; [reflexivity|].
  destruct (getf "value" fa) as [[| |a]|] eqn:Ev; try discriminate. destruct a as [| |[]| | | | | |]; try discriminate.
  - inversion H; subst. auto.
  - destruct (Z.leb_spec 1 z) as [Hz|]; [|discriminate]. inversion H; subst. auto.
Qed.
Lemma literal_not_tuple sl n : literal sl n -> forall m fs, sl <> Nd m "Tuple" fs.
Proof. intros [m [fa [-> _]]] m' fs H. discriminate. Qed.

Lemma block_iswithphase t n b : phase_block t n b -> iswithphase t = Ok (Some n) /\ block_body t = Ok b.
Proof.
  intros [sl [[m [fs [mi [ki [fi [mc [fc [mv [fv [-> [Hi [Ho [Hc [Hv [Hid [Hs Hb]]]]]]]]]]]]]]]] Hsl]]. split.
  - unfold iswithphase. change (negb (String.eqb "With" "With")) with false. cbv iota. rewrite Hi, Ho. cbn [is_none negb]. rewrite Hc. cbn [is_kind]. change (negb (String.eqb "Subscript" "Subscript")) with false. cbv iota.
    unfold destructure. change (String.eqb "Subscript" "Name") with false. change (String.eqb "Subscript" "Subscript") with true. cbv iota. unfold attr at 1. rewrite Hv. change (String.eqb "Name" "Name") with true. cbv iota. unfold attr at 1. rewrite Hs. unfold str_attr. rewrite Hid.
    destruct Hsl as [Hl|[ms [gs [c [-> [He Hl]]]]]].
    + pose proof (literal_number _ _ Hl) as Hn. destruct sl as [ms ks gs| |]; try exact Hn. destruct (String.eqb_spec ks "Tuple") as [->|Hne]; [destruct (literal_not_tuple _ _ Hl ms gs eq_refl)|exact Hn].
    + change (String.eqb "Tuple" "Tuple") with true. cbv iota. unfold attr. rewrite He. cbn [elements]. apply literal_number, Hl.
  - cbn [block_body]. rewrite Hb. reflexivity.
Qed.
Lemma iswithphase_block t n b : iswithphase t = Ok (Some n) -> block_body t = Ok b -> phase_block t n b.
Proof.
  intros H Hb. unfold iswithphase in H. destruct t as [m k fs| |]; try discriminate. destruct (String.eqb_spec k "With") as [->|]; [|discriminate]. cbn [negb] in H.
  cbn [block_body] in Hb. destruct (getf "body" fs) as [[|b0|]|] eqn:Eb; try discriminate. inversion Hb; subst b0; clear Hb.
  destruct (getf "items" fs) as [[|its|]|] eqn:Ei; try discriminate. destruct its as [|it its]; [discriminate|]. destruct its; [|destruct it; discriminate]. destruct it as [mi ki fi| |]; try discriminate.
  destruct (getf "optional_vars" fi) as [ov|] eqn:Eo; [|discriminate]. destruct (is_none ov) eqn:En; [|discriminate]. assert (ov = NoneT) by (destruct ov as [| |[]]; try discriminate; reflexivity). subst ov. cbn [negb] in H.
  destruct (getf "context_expr" fi) as [c|] eqn:Ec; [|discriminate]. destruct c as [mc kc fc| |]; cbn [is_kind negb] in H; try discriminate. destruct (String.eqb_spec kc "Subscript") as [->|]; [|discriminate]. cbn [negb] in H.
  unfold destructure in H. change (String.eqb "Subscript" "Name") with false in H. change (String.eqb "Subscript" "Subscript") with true in H. cbv iota in H. unfold attr at 1 in H.
  destruct (getf "value" fc) as [v|] eqn:Ev; [|cbn in H; discriminate]. destruct v as [mv kv fv| |]; try discriminate. destruct (String.eqb_spec kv "Name") as [->|]; [|discriminate]. unfold attr at 1 in H. destruct (getf "slice" fc) as [sl|] eqn:Es; [|cbn in H; discriminate].
  unfold str_attr in H. destruct (getf "id" fv) as [[| |[]]|] eqn:Ex; cbn in H; try discriminate.
  assert (Hh : forall x, s = x -> x = "phase"%string -> header (Nd m "With" fs) sl b).
  { intros x -> ->. exists m, fs, mi, ki, fi, mc, fc, mv, fv. repeat split; auto. }
  exists sl. destruct sl as [ms ks gs| |].
  - destruct (String.eqb_spec ks "Tuple") as [->|Hne].
    + unfold attr in H. destruct (getf "elts" gs) as [el|] eqn:El; [|cbn in H; discriminate]. destruct el as [| l|]; cbn [elements] in H; try discriminate. destruct l as [|c l]; [discriminate|]. destruct l; [|discriminate].
      destruct (String.eqb_spec s "phase") as [Hx|]; [|discriminate]. split; [exact (Hh _ eq_refl Hx)|]. right. exists ms, gs, c. split; [reflexivity|]. split; [exact El|]. apply number_literal, H.
    + destruct (String.eqb_spec s "phase") as [Hx|]; [|discriminate]. split; [exact (Hh _ eq_refl Hx)|]. left. apply number_literal, H.
  - destruct (String.eqb_spec s "phase") as [Hx|]; [|discriminate]. discriminate.
  - destruct (String.eqb_spec s "phase") as [Hx|]; [|discriminate]. discriminate.
Qed.
Lemma proper_value t : has_value t -> exists p, phase_number t = Ok p.
Proof.
  intros H. unfold phase_number. destruct t as [m k fs| |]; eauto. destruct (String.eqb_spec k "Constant") as [->|]; eauto. destruct (H m fs eq_refl) as [v ->]. destruct v as [| |[| |[]| | | | | |]]; eauto.
Qed.
Lemma proper_with t : proper t -> (exists p, iswithphase t = Ok p) /\ (forall n, iswithphase t = Ok (Some n) -> exists b, block_body t = Ok b).
Proof.
  intros Hp. split.
  - unfold iswithphase. destruct t as [m k fs| |]; eauto. destruct (String.eqb_spec k "With") as [->|]; cbn [negb]; eauto. destruct (Hp m fs eq_refl) as [its [b [Hi [Hb HF]]]]. rewrite Hi.
    destruct its as [|it its]; eauto. inversion HF as [|? ? Hit _]; subst. destruct Hit as [mi [ki [fi [ov [c [-> [Ho [Hc Hsub]]]]]]]]. destruct its; eauto. rewrite Ho. destruct (negb (is_none ov)); eauto. rewrite Hc.
    destruct c as [mc kc fc| |]; cbn [is_kind negb]; eauto. destruct (String.eqb_spec kc "Subscript") as [->|]; cbn [negb]; eauto. destruct (Hsub mc fc eq_refl) as [v [sl [Hv [Hs [Hn [Hval Htup]]]]]].
    unfold destructure. change (String.eqb "Subscript" "Name") with false. change (String.eqb "Subscript" "Subscript") with true. cbv iota. unfold attr at 1. rewrite Hv. destruct v as [mv kv fv| |]; eauto. destruct (String.eqb_spec kv "Name") as [->|]; eauto.
    unfold attr at 1. rewrite Hs. destruct (Hn mv fv eq_refl) as [x Hx]. unfold str_attr. rewrite Hx. destruct (proper_value sl Hval) as [p Hpv]. destruct sl as [ms ks gs| |].
    + destruct (String.eqb_spec ks "Tuple") as [->|]; [|destruct (String.eqb x "phase"); eauto]. destruct (Htup ms gs eq_refl) as [l [Hl HFl]]. unfold attr. rewrite Hl. cbn [elements]. destruct l as [|c l]; eauto. destruct l; eauto. inversion HFl; subst. destruct (proper_value c) as [q Hq]; [assumption|]. destruct (String.eqb x "phase"); eauto.
    + destruct (String.eqb x "phase"); eauto.
    + destruct (String.eqb x "phase"); eauto.
  - intros n H. unfold iswithphase in H. destruct t as [m k fs| |]; try discriminate. destruct (String.eqb_spec k "With") as [->|]; [|discriminate]. destruct (Hp m fs eq_refl) as [its [b [_ [Hb _]]]]. exists b. cbn. rewrite Hb. reflexivity.
Qed.
Lemma not_block_spec t : proper t -> iswithphase t = Ok None <-> not_block t.
Proof.
  intros Hp. destruct (proper_with t Hp) as [[p H1] H2]. split.
  - intros H n b Hb. apply block_iswithphase in Hb. destruct Hb. congruence.
  - intros H. rewrite H1. destruct p as [n|]; [|reflexivity]. exfalso. destruct (H2 n H1) as [b Hb]. exact (H n b (iswithphase_block _ _ _ H1 Hb)).
Qed.
Lemma isfuture_spec t : isfutureimport t = true <-> future_import t.
Proof.
  unfold isfutureimport, future_import, str_field. split.
  - destruct t as [m k fs| |]; try discriminate. intros H. apply andb_true_iff in H. destruct H as [H1 H2]. apply String.eqb_eq in H1. subst k. exists m, fs. split; [reflexivity|]. destruct (getf "module" fs) as [[| |[]]|]; try discriminate. apply String.eqb_eq in H2. subst. reflexivity.
  - intros [m [fs [-> ->]]]. reflexivity.
Qed.
Lemma future_not_block t : future_import t -> not_block t.
Proof. intros [m [fs [-> _]]] n b [sl [[m' [fs' [? [? [? [? [? [? [? [H _]]]]]]]]]] _]]. discriminate. Qed.

Lemma lower_block t n b : simple_block t n b -> (2 <= n)%Z -> simple_block (lower t) (n - 1) b /\ proper (lower t).
Proof.
  intros [sl [[m [fs [mi [ki [fi [mc [fc [mv [fv [-> [Hi [Ho [Hc [Hv [Hid [Hs Hb]]]]]]]]]]]]]]]] Hl]] Hn.
  destruct Hl as [ml [fa [-> Hl]]]. destruct Hl as [[Hval _]|[_ Hn1]]; [|lia].
  set (sl' := Nd ml "Constant" (setf "value" (At (AInt (n - 1))) fa)).
  assert (Hlow : lower (Nd m "With" fs) = Nd m "With" (setf "items" (Ls [Nd mi ki (setf "context_expr" (Nd mc "Subscript" (setf "slice" sl' fc)) fi)]) fs)).
  { unfold lower, on_node, with_field_. rewrite Hi, Hc, Hs. unfold lower_slice. change (String.eqb "Constant" "Constant") with true. cbv iota. rewrite Hval. reflexivity. }
  rewrite Hlow. assert (Hh : simple_block (Nd m "With" (setf "items" (Ls [Nd mi ki (setf "context_expr" (Nd mc "Subscript" (setf "slice" sl' fc)) fi)]) fs)) (n - 1) b).
  { exists sl'. split.
    - do 9 eexists. split; [reflexivity|]. split; [apply getf_setf_same|]. split; [rewrite getf_setf_other by discriminate; exact Ho|]. split; [apply getf_setf_same|]. split; [rewrite getf_setf_other by discriminate; exact Hv|]. split; [exact Hid|]. split; [apply getf_setf_same|]. rewrite getf_setf_other by discriminate. exact Hb.
    - exists ml. eexists. split; [reflexivity|]. left. split; [apply getf_setf_same|lia]. }
  split; [exact Hh|]. intros m' fs' Heq. inversion Heq; subst. eexists _, b. split; [apply getf_setf_same|]. split; [rewrite getf_setf_other by discriminate; exact Hb|]. constructor; [|constructor].
  do 5 eexists. split; [reflexivity|]. split; [rewrite getf_setf_other by discriminate; exact Ho|]. split; [apply getf_setf_same|]. intros mc' fc' Hq. inversion Hq; subst. eexists _, _. split; [rewrite getf_setf_other by discriminate; exact Hv|]. split; [apply getf_setf_same|].
  split; [intros mv' fv' Hq'; inversion Hq'; subst; eauto|]. split; [intros mm ff Hm; inversion Hm; subst; eexists; apply getf_setf_same|]. intros ms gs Hx. discriminate.
Qed.
Lemma simple_is_block t n b : simple_block t n b -> phase_block t n b.
Proof. intros [sl [Hh Hl]]. exists sl. auto. Qed.

(** ** One extraction after the other *)

(* what has become of a statement before phase k is extracted: blocks of higher phases have been lowered to phase k *)
Inductive at_phase (k : Z) : list ltree -> list ltree -> Prop :=
| ap_nil : at_phase k [] []
| ap_low t n b r out : phase_block t n b -> proper t -> (n <= k)%Z -> (n = 1%Z \/ simple_block t n b) -> at_phase k r out -> at_phase k (t :: r) (t :: out)
| ap_high t n b t' r out : phase_block t n b -> (k < n)%Z -> simple_block t' k b -> proper t' -> at_phase k r out -> at_phase k (t :: r) (t' :: out)
| ap_other t r out : not_block t -> proper t -> at_phase k r out -> at_phase k (t :: r) (t :: out).

Lemma block_fun t n b n' b' : phase_block t n b -> phase_block t n' b' -> n' = n /\ b' = b.
Proof. intros H H'. apply block_iswithphase in H, H'. destruct H, H'. split; congruence. Qed.
Lemma block_not_future t n b : phase_block t n b -> ~ future_import t.
Proof. intros H Hf. exact (future_not_block t Hf n b H). Qed.

Lemma extract_at k body cur : (1 <= k)%Z -> at_phase k body cur ->
  exists this rem, extract k cur = Ok (this, rem) /\ phase_contents k body this /\ (if Z.eqb k 1 then final_contents body rem else at_phase (k - 1) body rem).
Proof.
  intros Hk H. induction H as [|t n b r out Hb Hp Hn Hs H IH|t n b t' r out Hb Hn Hs Hp H IH|t r out Hb Hp H IH].
  - exists [], []. split; [reflexivity|]. split; [constructor|]. destruct (Z.eqb k 1); constructor.
  - destruct IH as [this [rem [He [Hc Hr]]]]. cbn [extract]. destruct (block_iswithphase _ _ _ Hb) as [E1 E2]. rewrite E1. destruct (Z.eqb_spec n k) as [->|Hne].
    + rewrite E2, He. eexists _, _. split; [reflexivity|]. split; [eapply pc_block; [exact Hb|lia|exact Hc]|]. destruct (Z.eqb_spec k 1) as [->|Hk1].
      * eapply fc_block; eassumption.
      * destruct Hs as [Hs|Hs]; [contradiction|]. destruct (lower_block _ _ _ Hs) as [Hl Hpl]; [lia|]. cbn [app]. eapply ap_high; try eassumption. lia.
    + rewrite He. assert (Hf : isfutureimport t = false) by (destruct (isfutureimport t) eqn:Ef; [|reflexivity]; apply isfuture_spec in Ef; destruct (block_not_future _ _ _ Hb Ef)). rewrite Hf. eexists _, _. split; [reflexivity|]. split.
      * apply pc_other; [exact (block_not_future _ _ _ Hb)| |exact Hc]. intros n' b' Hb'. destruct (block_fun _ _ _ _ _ Hb Hb') as [-> _]. lia.
      * destruct (Z.eqb_spec k 1) as [->|Hk1].
        -- exfalso. destruct Hb as [sl [_ [[? [? [_ [[_ ?]|[_ ?]]]]]|[? [? [c [_ [_ [? [? [_ [[_ ?]|[_ ?]]]]]]]]]]]]]; lia.
        -- eapply ap_low; try eassumption. lia.
  - destruct IH as [this [rem [He [Hc Hr]]]]. cbn [extract]. pose proof (simple_is_block _ _ _ Hs) as Hb'. destruct (block_iswithphase _ _ _ Hb') as [E1 E2]. rewrite E1, Z.eqb_refl, E2, He. eexists _, _. split; [reflexivity|]. split; [eapply pc_block; [exact Hb|lia|exact Hc]|]. destruct (Z.eqb_spec k 1) as [->|Hk1].
    + eapply fc_block; eassumption.
    + destruct (lower_block _ _ _ Hs) as [Hl Hpl]; [lia|]. cbn [app]. eapply ap_high; try eassumption. lia.
  - destruct IH as [this [rem [He [Hc Hr]]]]. cbn [extract]. apply (not_block_spec t Hp) in Hb as E1. rewrite E1, He. eexists _, _. split; [reflexivity|]. split.
    + destruct (isfutureimport t) eqn:Ef; cbn [app].
      * apply pc_future; [apply isfuture_spec, Ef|exact Hc].
      * apply pc_other; [intros Hf; apply isfuture_spec in Hf; congruence| |exact Hc]. intros n b Hq. destruct (Hb n b Hq).
    + destruct (Z.eqb k 1); [apply fc_other|apply ap_other]; assumption.
Qed.

(* the beginning: all blocks have numbers up to N *)
Definition readable (t : ltree) : Prop := proper t /\ forall n b, phase_block t n b -> n = 1%Z \/ simple_block t n b.
Lemma at_start N body : Forall readable body -> (forall t n b, In t body -> phase_block t n b -> (n <= N)%Z) -> at_phase N body body.
Proof.
  intros HF HN. induction HF as [|t r [Hp Hs] HF IH]; [constructor|]. destruct (proper_with t Hp) as [[p H1] H2]. destruct p as [n|].
  - destruct (H2 n H1) as [b Hb]. pose proof (iswithphase_block _ _ _ H1 Hb) as Hpb. eapply ap_low; eauto; [eapply HN; [left; reflexivity|exact Hpb]|]. apply IH. intros t' n' b' Hin. apply HN. right. exact Hin.
  - apply ap_other; [apply (not_block_spec t Hp), H1|exact Hp|]. apply IH. intros t' n' b' Hin. apply HN. right. exact Hin.
Qed.
Lemma no_blocks_final body : (forall t n b, In t body -> ~ phase_block t n b) -> final_contents body body.
Proof.
  induction body as [|t r IH]; intros H; [constructor|]. apply fc_other; [intros n b; apply H; left; reflexivity|]. apply IH. intros t' n b Hin. apply H. right. exact Hin.
Qed.
Lemma block_pos t n b : phase_block t n b -> (1 <= n)%Z.
Proof. intros [sl [_ [[? [? [_ [[_ ?]|[_ ?]]]]]|[? [? [c [_ [_ [? [? [_ [[_ ?]|[_ ?]]]]]]]]]]]]]; lia. Qed.

Section Loop.
  Context {U E : Type}.
  Variable run : list ltree -> nat -> mst U -> res unit * mst U.
  Variable single : list ltree -> mst U -> res E * mst U.
  Lemma phases_compile body module N : forall cur s, (match N with O => final_contents body cur | S _ => at_phase (Z.of_nat N) body cur end) ->
    match phases run single (countdown N) cur module s with
    | (Ok (Some x), s') => compiles run single body module (countdown N) s (Ok x) s'
    | (Err e, s') => compiles run single body module (countdown N) s (Err e) s'
    | (Ok None, s') => final_contents body []
    end.
  Proof.
    induction N as [|N IH]; intros cur s Hcur; cbn [countdown phases].
    - cbn [extract_phase]. destruct cur as [|t cur]; [exact Hcur|]. destruct (inject 0 (t :: cur)) as [code|e] eqn:Ei.
      + destruct (single code s) as [[x|e] s'] eqn:Es; eapply co_final; eassumption.
      + eapply co_final_inject_raises; eassumption.
    - cbn [extract_phase]. destruct (extract_at (Z.of_nat (S N)) body cur ltac:(lia) Hcur) as [this [rem [He [Hc Hr]]]]. rewrite He.
      assert (Hrem : match N with O => final_contents body rem | S _ => at_phase (Z.of_nat N) body rem end).
      { destruct N as [|N']; [exact Hr|]. destruct (Z.eqb_spec (Z.of_nat (S (S N'))) 1) as [Hz|Hz]; [lia|]. replace (Z.of_nat (S N')) with (Z.of_nat (S (S N')) - 1)%Z by lia. exact Hr. }
      destruct this as [|t this].
      + specialize (IH rem s Hrem). destruct (phases run single (countdown N) rem module s) as [[[x|]|e] s']; try exact IH; eapply co_empty; eauto.
      + destruct (inject (S N) (t :: this)) as [code|e] eqn:Ei; [|eapply co_inject_raises; eassumption].
        destruct (run code module s) as [[[]|e] s1] eqn:Er; [|eapply co_run_raises; try eassumption; discriminate].
        specialize (IH rem s1 Hrem). destruct (phases run single (countdown N) rem module s1) as [[[x|]|e] s']; try exact IH; eapply co_run; try eassumption; discriminate.
  Qed.
End Loop.

Lemma detect_loop_spec body : forall maxn r, detect_loop maxn body = Ok r -> (0 <= pyn_z maxn)%Z -> maxn <> PNone -> (match maxn with PInt z => (1 <= z)%Z | _ => True end) ->
  r <> PNone /\ (match r with PInt z => (1 <= z)%Z | _ => True end) /\ (pyn_z maxn <= pyn_z r)%Z /\ (r = maxn \/ exists t, In t body /\ iswithphase t = Ok (Some (pyn_z r)) /\ r = PInt (pyn_z r)) /\
  (forall t n, In t body -> iswithphase t = Ok (Some n) -> (n <= pyn_z r)%Z).
Proof.
  induction body as [|t body IH]; intros maxn r H Hpos Hnn Hsane; cbn [detect_loop] in H.
  - inversion H; subst. repeat split; auto; [lia|]. intros t n [].
  - destruct (iswithphase t) as [p|e] eqn:Ep; [|discriminate]. set (n := match p with Some z => PInt z | None => PFalse end) in *.
    assert (Hn : match n with PInt z => (1 <= z)%Z | _ => True end /\ n <> PNone /\ (0 <= pyn_z n)%Z).
    { subst n. destruct p as [z|]; [|repeat split; try discriminate; cbn; lia]. assert (1 <= z)%Z; [|repeat split; try discriminate; cbn; lia].
      unfold iswithphase in Ep. clear - Ep. destruct t as [m k fs| |]; try discriminate. destruct (negb (String.eqb k "With")); [discriminate|]. destruct (getf "items" fs) as [[|its|]|]; try discriminate. destruct its as [|it its]; [discriminate|]. destruct its; [|destruct it; discriminate]. destruct it as [mi ki fi| |]; try discriminate.
      destruct (getf "optional_vars" fi); [|discriminate]. destruct (negb (is_none t)); [discriminate|]. destruct (getf "context_expr" fi) as [c|]; [|discriminate]. destruct (negb (is_kind "Subscript" c)); [discriminate|]. destruct (destructure false c) as [[[x [|a [|]]]|]|[]]; try discriminate. destruct (String.eqb x "phase"); [|discriminate].
      apply number_literal in Ep. destruct Ep as [? [? [_ [[_ ?]|[_ ?]]]]]; lia. }
    destruct Hn as [Hn1 [Hn2 Hn3]].
    assert (Hnext : exists mx, (match maxn with PNone => n | _ => if (pyn_z maxn <? pyn_z n)%Z then n else maxn end) = mx /\ (mx = n \/ mx = maxn) /\ (pyn_z n <= pyn_z mx)%Z /\ (pyn_z maxn <= pyn_z mx)%Z).
    { eexists. split; [reflexivity|]. destruct (Z.ltb_spec (pyn_z maxn) (pyn_z n)); (destruct maxn; [congruence| |]); repeat split; auto; lia. }
    destruct Hnext as [mx [Hmx [Hor [Hle1 Hle2]]]]. rewrite Hmx in H.
    destruct (IH mx r H) as [K1 [K2 [K3 [K4 K5]]]]; [destruct Hor as [->| ->]; assumption|destruct Hor as [->| ->]; assumption|destruct Hor as [->| ->]; assumption|].
    split; [exact K1|]. split; [exact K2|]. split; [lia|]. split.
    + destruct K4 as [->|[t' [Hin [Hw Hr]]]].
      * destruct Hor as [->| ->]; [|left; reflexivity]. destruct p as [z|].
        -- right. exists t. split; [left; reflexivity|]. split; [exact Ep|reflexivity].
        -- cbn in *. destruct maxn as [| |z]; [congruence|left; reflexivity|]. cbn in *. lia.
      * right. exists t'. split; [right; exact Hin|]. auto.
    + intros t' m [->|Hin] Hw; [|eapply K5; eassumption]. rewrite Ep in Hw. inversion Hw; subst. cbn in *. lia.
Qed.
