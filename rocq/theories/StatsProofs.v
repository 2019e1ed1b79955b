(** Proofs about path_stats. *)
From Verif Require Import Base AstLib FixLocModel ExpanderModel Dict ImportsModel PhaseModel DialectModel StatsModel StatsSpec.

(** ** Scanning *)
Lemma scan_stmt_eq m k fs : scan_stmt (Nd m k fs) =
  match import_named "macros" (Nd m k fs) with
  | Err e => Err e
  | Ok (Some i) => Ok ([i], [])
  | Ok None => match import_named "dialects" (Nd m k fs) with
               | Err e => Err e
               | Ok (Some i) => Ok ([], [i])
               | Ok None => match iswithphase (Nd m k fs) with
                            | Err e => Err e
                            | Ok None => Ok ([], [])
                            | Ok (Some _) => match getf "body" fs with
                                             | Some (Ls b) => scan b
                                             | Some _ => Err AstLib.type_error
                                             | None => Err (attribute_error "body")
                                             end
                            end
               end
  end.
Proof.
  cbn [scan_stmt]. destruct (import_named "macros" (Nd m k fs)) as [[i|]|e]; try reflexivity.
  destruct (import_named "dialects" (Nd m k fs)) as [[i|]|e]; try reflexivity.
  destruct (iswithphase (Nd m k fs)) as [[n|]|e]; try reflexivity.
  induction fs as [|[x v] r IH]; [reflexivity|]. cbn [getf]. destruct (String.eqb "body" x); [|exact IH].
  destruct v as [? ? ?|b|a]; try reflexivity. 
Qed.
Lemma import_named_some magic t i : import_named magic t = Ok (Some i) -> view_import t = Some i /\ exists rest, i_names i = (magic, None) :: rest.
Proof.
  unfold import_named. destruct (view_import t) as [j|]; [|discriminate]. destruct (i_names j) as [|[x [a|]] rest] eqn:En; try discriminate.
  destruct (String.eqb_spec x magic) as [->|]; [|discriminate]. intros [= ->]. split; [reflexivity|exists rest; exact En].
Qed.
Lemma import_named_complete magic t i rest : view_import t = Some i -> i_names i = (magic, None) :: rest -> import_named magic t = Ok (Some i).
Proof. intros H1 H2. unfold import_named. rewrite H1, H2, String.eqb_refl. reflexivity. Qed.
Lemma withphase_kind m k fs n : iswithphase (Nd m k fs) = Ok (Some n) -> k = "With"%string.
Proof. cbn [iswithphase]. destruct (String.eqb_spec k "With") as [->|]; [reflexivity|discriminate]. Qed.
Lemma has_import_cons t r i : has_import (t :: r) i <-> has_import [t] i \/ has_import r i.
Proof.
  split.
  - intros H. inversion H as [body t' j Hin Hm|body m k fs n b j Hin Hw Hg Hb]; subst; destruct Hin as [->|Hin].
    + left. eapply hi_here; [left; reflexivity|exact Hm].
    + right. eapply hi_here; eauto.
    + left. eapply hi_phase; [left; reflexivity|eauto..].
    + right. eapply hi_phase; eauto.
  - intros [H|H]; inversion H as [body t' j Hin Hm|body m k fs n b j Hin Hw Hg Hb]; subst.
    + destruct Hin as [->|[]]. eapply hi_here; [left; reflexivity|exact Hm].
    + destruct Hin as [->|[]]. eapply hi_phase; [left; reflexivity|eauto..].
    + eapply hi_here; [right; exact Hin|exact Hm].
    + eapply hi_phase; [right; exact Hin|eauto..].
Qed.
Lemma has_import_one t i : has_import [t] i <-> magic_import t i \/ exists m k fs n b, t = Nd m k fs /\ iswithphase t = Ok (Some n) /\ getf "body" fs = Some (Ls b) /\ has_import b i.
Proof.
  split.
  - intros H. inversion H as [body t' j Hin Hm|body m k fs n b j Hin Hw Hg Hb]; subst; destruct Hin as [->|[]]; [left; exact Hm|right].
    exists m, k, fs, n, b. repeat split; assumption.
  - intros [H|(m & k & fs & n & b & -> & Hw & Hg & Hb)]; [eapply hi_here; [left; reflexivity|exact H]|eapply hi_phase; [left; reflexivity|eauto..]].
Qed.
Lemma in_found i f g : In i (fst (found_app f g) ++ snd (found_app f g)) <-> In i (fst f ++ snd f) \/ In i (fst g ++ snd g).
Proof. unfold found_app. cbn [fst snd]. rewrite !in_app_iff. tauto. Qed.
Lemma scan_from_stmts b : Forall (fun t => forall f, scan_stmt t = Ok f -> forall i, In i (fst f ++ snd f) <-> has_import [t] i) b ->
  forall f, scan b = Ok f -> forall i, In i (fst f ++ snd f) <-> has_import b i.
Proof.
  induction 1 as [|t r Ht Hr IH]; intros f; cbn [scan].
  - intros [= <-] i. cbn [fst snd app In]. split; [tauto|]. intros H. inversion H; subst; match goal with Hin : In _ [] |- _ => destruct Hin end.
  - destruct (scan_stmt t) as [f1|e] eqn:E1; [|discriminate]. destruct (scan r) as [f2|e] eqn:E2; [|discriminate].
    intros [= <-] i. rewrite in_found, has_import_cons, (Ht f1 eq_refl), (IH f2 eq_refl). tauto.
Qed.
Lemma scan_stmt_iff : forall t f, scan_stmt t = Ok f -> forall i, In i (fst f ++ snd f) <-> has_import [t] i.
Proof.
  induction t as [m k fs IH|l IH|a] using tree_ind2; intros f H i.
  - rewrite scan_stmt_eq in H. rewrite has_import_one. destruct (import_named "macros" (Nd m k fs)) as [[j|]|e] eqn:Em; [| |discriminate].
    { assert (Em' := Em). apply import_named_some in Em. destruct Em as (Ev & rest & En). injection H as <-. cbn [fst snd app In]. split.
      - intros [<-|[]]. left. split; [exact Ev|exists "macros"%string, rest; auto].
      - intros [[Hv _]|(m' & k' & fs' & n & b & [= -> -> ->] & Hw & _)]; [left; congruence|]. apply withphase_kind in Hw. subst k'. discriminate. }
    destruct (import_named "dialects" (Nd m k fs)) as [[j|]|e] eqn:Ed; [| |discriminate].
    { assert (Ed' := Ed). apply import_named_some in Ed. destruct Ed as (Ev & rest & En). injection H as <-. cbn [fst snd app In]. split.
      - intros [<-|[]]. left. split; [exact Ev|exists "dialects"%string, rest; auto].
      - intros [[Hv _]|(m' & k' & fs' & n & b & [= -> -> ->] & Hw & _)]; [left; congruence|]. apply withphase_kind in Hw. subst k'. discriminate. }
    assert (Hno : ~ magic_import (Nd m k fs) i).
    { intros (Hv & x & rest & En & [->| ->]); [pose proof (import_named_complete _ _ _ _ Hv En)|pose proof (import_named_complete _ _ _ _ Hv En)]; congruence. }
    destruct (iswithphase (Nd m k fs)) as [[n|]|e] eqn:Ew; [| |discriminate].
    + destruct (getf "body" fs) as [[? ? ?|b|?]|] eqn:Eg; try discriminate.
      assert (Hb : Forall (fun t => forall f, scan_stmt t = Ok f -> forall i, In i (fst f ++ snd f) <-> has_import [t] i) b).
      { apply getf_In in Eg. rewrite Forall_forall in IH. exact (proj2 (IH _ Eg)). }
      rewrite (scan_from_stmts b Hb f H i). split.
      * intros Hi. right. exists m, k, fs, n, b. repeat split; assumption.
      * intros [Hm|(m' & k' & fs' & n' & b' & [= <- <- <-] & _ & Hg & Hi)]; [contradiction|]. congruence.
    + injection H as <-. cbn [fst snd app In]. split; [tauto|]. intros [Hm|(m' & k' & fs' & n' & b' & _ & Hw & _)]; [contradiction|discriminate].
  - cbn in H. injection H as <-. rewrite has_import_one. cbn [fst snd app In]. split; [tauto|].
    intros [[Hv _]|(m' & k' & fs' & n' & b' & Hq & _)]; discriminate.
  - cbn in H. injection H as <-. rewrite has_import_one. cbn [fst snd app In]. split; [tauto|].
    intros [[Hv _]|(m' & k' & fs' & n' & b' & Hq & _)]; discriminate.
Qed.
Lemma scan_iff body f : scan body = Ok f -> forall i, In i (fst f ++ snd f) <-> has_import body i.
Proof. apply scan_from_stmts. apply Forall_forall. intros t _. apply scan_stmt_iff. Qed.

Lemma any_relative_iff l : any_relative l = true <-> exists i, In i l /\ i_level i <> 0.
Proof.
  unfold any_relative. rewrite existsb_exists. split; intros (i & Hi & H); exists i; (split; [exact Hi|]).
  - destruct (Nat.eqb_spec (i_level i) 0); [discriminate|assumption].
  - destruct (Nat.eqb_spec (i_level i) 0); [contradiction|reflexivity].
Qed.

Section P.
  Variable E : env.
  Variable fs : string -> option file.

  Lemma file_imports_ok p f c imps rel c1 : fs p = Some f -> coherent fs c -> file_imports E p f c = (Ok (imps, rel), c1) ->
    exists body ms ds, f_text f = Ok body /\ scan body = Ok (ms, ds) /\ imps = ms ++ ds /\ rel = any_relative imps.
  Proof.
    intros Hf Hc H. unfold file_imports in H.
    assert (K : match f_text f with
        | Err e => (Err e, c)
        | Ok body => match scan body with
            | Err e => (Err e, c)
            | Ok (ms, ds) => (Ok (ms ++ ds, any_relative (ms ++ ds)), if e_writes E p then cset p (mkEntry (f_mtime f) ms ds (any_relative (ms ++ ds))) c else c)
            end end = (Ok (imps, rel), c1) ->
      exists body ms ds, f_text f = Ok body /\ scan body = Ok (ms, ds) /\ imps = ms ++ ds /\ rel = any_relative imps).
    { destruct (f_text f) as [body|e]; [|discriminate]. destruct (scan body) as [[ms ds]|e] eqn:Es; [|discriminate].
      intros [= <- <- _]. exists body, ms, ds. auto. }
    destruct (c p) as [e|] eqn:Ec; [|exact (K H)]. destruct (Z.eqb_spec (ce_mtime e) (f_mtime f)) as [Em|]; [|exact (K H)].
    injection H as <- <- <-. destruct (Hc p f e Hf Ec Em) as (body & H1 & H2 & H3). exists body, (ce_macros e), (ce_dialects e). auto.
  Qed.
  Lemma file_imports_coherent p f c r c1 : fs p = Some f -> coherent fs c -> file_imports E p f c = (r, c1) -> coherent fs c1.
  Proof.
    intros Hf Hc H. unfold file_imports in H.
    assert (K : match f_text f with
        | Err e => (Err e, c)
        | Ok body => match scan body with
            | Err e => (Err e, c)
            | Ok (ms, ds) => (Ok (ms ++ ds, any_relative (ms ++ ds)), if e_writes E p then cset p (mkEntry (f_mtime f) ms ds (any_relative (ms ++ ds))) c else c)
            end end = (r, c1) -> coherent fs c1).
    { destruct (f_text f) as [body|e] eqn:Et; [|intros [= _ <-]; exact Hc]. destruct (scan body) as [[ms ds]|e] eqn:Es; [|intros [= _ <-]; exact Hc].
      destruct (e_writes E p); intros [= _ <-]; [|exact Hc]. intros q g e Hg. unfold cset. destruct (String.eqb_spec q p) as [->|]; [|apply Hc; exact Hg].
      intros [= <-] _. assert (g = f) as -> by congruence. exists body. auto. }
    destruct (c p) as [e|] eqn:Ec; [|exact (K H)]. destruct (Z.eqb_spec (ce_mtime e) (f_mtime f)) as [Em|]; [|exact (K H)].
    injection H as _ <-. exact Hc.
  Qed.
  (** The cache does not matter. *)
  Lemma file_imports_same p f c1 c2 : fs p = Some f -> coherent fs c1 -> coherent fs c2 -> fst (file_imports E p f c1) = fst (file_imports E p f c2).
  Proof.
    intros Hf.
    assert (K : forall c, coherent fs c -> fst (file_imports E p f c) = match f_text f with
        | Err e => Err e
        | Ok body => match scan body with Err e => Err e | Ok (ms, ds) => Ok (ms ++ ds, any_relative (ms ++ ds)) end end).
    { intros c Hc. unfold file_imports.
      assert (K0 : fst match f_text f with
        | Err e => (Err e, c)
        | Ok body => match scan body with
            | Err e => (Err e, c)
            | Ok (ms, ds) => (Ok (ms ++ ds, any_relative (ms ++ ds)), if e_writes E p then cset p (mkEntry (f_mtime f) ms ds (any_relative (ms ++ ds))) c else c)
            end end = match f_text f with
        | Err e => Err e
        | Ok body => match scan body with Err e => Err e | Ok (ms, ds) => Ok (ms ++ ds, any_relative (ms ++ ds)) end end).
      { destruct (f_text f) as [body|e]; [|reflexivity]. destruct (scan body) as [[ms ds]|e]; reflexivity. }
      destruct (c p) as [e|] eqn:Ec; [|exact K0]. destruct (Z.eqb_spec (ce_mtime e) (f_mtime f)) as [Em|]; [|exact K0].
      destruct (Hc p f e Hf Ec Em) as (body & H1 & H2 & H3). rewrite H1, H2, H3. reflexivity. }
    intros H1 H2. rewrite (K c1 H1), (K c2 H2). reflexivity.
  Qed.

  Definition good (memo : sdict Z) : Prop := forall q x, sget q memo = Some x -> newest E fs q x /\ acyclic_from E fs q.

  Lemma reach_step p q r : dep E fs p q -> reach E fs q r -> reach E fs p r. Proof. apply re_dep. Qed.

  (** One file, given what its dependencies give. *)
  Lemma newest_from_deps p f xs : fs p = Some f ->
    (forall q, dep E fs p q -> exists x, In x xs /\ newest E fs q x) -> (forall x, In x xs -> exists q, dep E fs p q /\ newest E fs q x) ->
    newest E fs p (fold_right Z.max (e_float E (f_mtime f)) xs).
  Proof.
    intros Hf H1 H2.
    assert (Hmax : forall x, In x xs -> (x <= fold_right Z.max (e_float E (f_mtime f)) xs)%Z).
    { induction xs as [|y ys IH]; intros x Hx; [destruct Hx|]. cbn [fold_right]. destruct Hx as [->|Hx]; [lia|].
      assert (G : (x <= fold_right Z.max (e_float E (f_mtime f)) ys)%Z); [|lia].
      clear - Hx. induction ys as [|z zs IH]; [destruct Hx|]. cbn [fold_right]. destruct Hx as [->|Hx]; [lia|]. specialize (IH Hx). lia. }
    assert (Hself : (e_float E (f_mtime f) <= fold_right Z.max (e_float E (f_mtime f)) xs)%Z).
    { clear. induction xs as [|y ys IH]; cbn [fold_right]; lia. }
    assert (Hin : fold_right Z.max (e_float E (f_mtime f)) xs = e_float E (f_mtime f) \/ In (fold_right Z.max (e_float E (f_mtime f)) xs) xs).
    { clear. induction xs as [|y ys IH]; [left; reflexivity|]. cbn [fold_right]. destruct (Z.max_spec y (fold_right Z.max (e_float E (f_mtime f)) ys)) as [[_ ->]|[_ ->]].
      - destruct IH as [->|IH]; [left; reflexivity|right; right; exact IH].
      - right. left. reflexivity. }
    split.
    - destruct Hin as [Hin|Hin].
      + exists p, f. split; [constructor|]. split; [exact Hf|exact Hin].
      + destruct (H2 _ Hin) as (q & Hd & (r & g & Hr & Hg & Hx) & _). exists r, g. split; [exact (re_dep _ _ p q r Hd Hr)|]. split; [exact Hg|exact Hx].
    - intros q Hq. inversion Hq as [|r ? Hd Hr]; subst.
      + exists f. split; [exact Hf|exact Hself].
      + destruct (H1 r Hd) as (x & Hx & _ & Hall). destruct (Hall q Hr) as (g & Hg & Hle). exists g. split; [exact Hg|]. specialize (Hmax x Hx). lia.
  Qed.

  Definition rec_ok (rec : string -> sdict Z -> cache -> option (res Z * sdict Z * cache)) : Prop :=
    forall p memo c r memo' c', coherent fs c -> good memo -> rec p memo c = Some (r, memo', c') ->
      coherent fs c' /\ good memo' /\ (forall x, r = Ok x -> newest E fs p x /\ acyclic_from E fs p).

  Lemma loop_ok rec pkg : rec_ok rec -> forall l memo c r memo' c', coherent fs c -> good memo -> stats_loop E rec pkg l memo c = Some (r, memo', c') ->
    coherent fs c' /\ good memo' /\ forall xs, r = Ok xs ->
      (forall i m absname q, In i l -> i_module i = Some m -> e_resolve E (i_level i) m pkg = Ok absname -> e_spec E absname = Ok (Some (Some q)) ->
         exists x, In x xs /\ newest E fs q x /\ acyclic_from E fs q) /\
      (forall x, In x xs -> exists i m absname q, In i l /\ i_module i = Some m /\ e_resolve E (i_level i) m pkg = Ok absname /\ e_spec E absname = Ok (Some (Some q)) /\ newest E fs q x).
  Proof.
    intros Hrec. induction l as [|i l IH]; intros memo c r memo' c' Hc Hg; cbn [stats_loop].
    - intros [= <- <- <-]. split; [exact Hc|]. split; [exact Hg|]. intros xs [= <-]. split; [intros ? ? ? ? []|intros ? []].
    - destruct (i_module i) as [m|] eqn:Em; [|intros [= <- <- <-]; split; [exact Hc|]; split; [exact Hg|]; discriminate].
      destruct (e_resolve E (i_level i) m pkg) as [absname|e] eqn:Er; [|intros [= <- <- <-]; split; [exact Hc|]; split; [exact Hg|]; discriminate].
      destruct (e_spec E absname) as [[[origin|]|]|e] eqn:Es.
      + destruct (rec origin memo c) as [[[[x|e] memo1] c1]|] eqn:Eo; [| |discriminate].
        * destruct (Hrec _ _ _ _ _ _ Hc Hg Eo) as (Hc1 & Hg1 & Hx). destruct (Hx x eq_refl) as [Hn Ha].
          destruct (stats_loop E rec pkg l memo1 c1) as [[[[xs|e] memo2] c2]|] eqn:El; [| |discriminate].
          -- intros [= <- <- <-]. destruct (IH _ _ _ _ _ Hc1 Hg1 El) as (Hc2 & Hg2 & Hxs). destruct (Hxs xs eq_refl) as [H1 H2].
             split; [exact Hc2|]. split; [exact Hg2|]. intros ys [= <-]. split.
             ++ intros j m' absname' q [->|Hj] Hm Hr Hs.
                ** assert (m' = m) as -> by congruence. assert (absname' = absname) as -> by congruence. assert (q = origin) as -> by congruence.
                   exists x. split; [left; reflexivity|]. split; assumption.
                ** destruct (H1 j m' absname' q Hj Hm Hr Hs) as (y & Hy & Hy'). exists y. split; [right; exact Hy|exact Hy'].
             ++ intros y [<-|Hy].
                ** exists i, m, absname, origin. split; [left; reflexivity|]. auto.
                ** destruct (H2 y Hy) as (j & m' & absname' & q & Hj & Hrest). exists j, m', absname', q. split; [right; exact Hj|exact Hrest].
          -- intros [= <- <- <-]. destruct (IH _ _ _ _ _ Hc1 Hg1 El) as (Hc2 & Hg2 & _). split; [exact Hc2|]. split; [exact Hg2|]. discriminate.
        * intros [= <- <- <-]. destruct (Hrec _ _ _ _ _ _ Hc Hg Eo) as (Hc1 & Hg1 & _). split; [exact Hc1|]. split; [exact Hg1|]. discriminate.
      + intros [= <- <- <-]; split; [exact Hc|]; split; [exact Hg|]; discriminate.
      + intros H. destruct (IH _ _ _ _ _ Hc Hg H) as (Hc2 & Hg2 & Hxs). split; [exact Hc2|]. split; [exact Hg2|].
        intros xs Hr. destruct (Hxs xs Hr) as [H1 H2]. split.
        * intros j m' absname' q [->|Hj] Hm Hr' Hs; [exfalso; congruence|]. exact (H1 j m' absname' q Hj Hm Hr' Hs).
        * intros y Hy. destruct (H2 y Hy) as (j & m' & absname' & q & Hj & Hrest). exists j, m', absname', q. split; [right; exact Hj|exact Hrest].
      + intros [= <- <- <-]; split; [exact Hc|]; split; [exact Hg|]; discriminate.
  Qed.

  (** The package that is used, and the dependencies. *)
  Lemma dep_iff p f body ms ds pkg : fs p = Some f -> f_text f = Ok body -> scan body = Ok (ms, ds) ->
    (if any_relative (ms ++ ds) then exists s, e_package E p = Ok s /\ pkg = Some s else pkg = None) -> forall q,
    dep E fs p q <-> exists i m absname, In i (ms ++ ds) /\ i_module i = Some m /\ e_resolve E (i_level i) m pkg = Ok absname /\ e_spec E absname = Ok (Some (Some q)).
  Proof.
    intros Hf Ht Hs Hp q. pose proof (scan_iff body _ Hs) as Hi. cbn [fst snd] in Hi.
    pose proof (any_relative_iff (ms ++ ds)) as Hr. split.
    - intros (f' & body' & i & m & pkg' & absname & Hf' & Ht' & Hi' & Hm & Hpk & Hrs & Hsp).
      assert (f' = f) as -> by congruence. assert (body' = body) as -> by congruence. exists i, m, absname. split; [apply Hi; exact Hi'|]. split; [exact Hm|].
      assert (pkg' = pkg) as <-; [|auto]. destruct Hpk as [(j & s & Hj & Hl & Hs' & ->)|[Hall ->]].
      + apply Hi in Hj. destruct (any_relative (ms ++ ds)).
        * destruct Hp as (s' & Hs'' & ->). congruence.
        * exfalso. assert (false = true) by (apply Hr; exists j; auto). discriminate.
      + destruct (any_relative (ms ++ ds)); [|congruence]. destruct (proj1 Hr eq_refl) as (j & Hj & Hl). apply Hi in Hj. exfalso. exact (Hl (Hall j Hj)).
    - intros (i & m & absname & Hin & Hm & Hrs & Hsp). exists f, body, i, m, pkg, absname. repeat split; auto; [apply Hi; exact Hin|].
      destruct (any_relative (ms ++ ds)).
      + left. destruct (proj1 Hr eq_refl) as (j & Hj & Hl). destruct Hp as (s & Hs' & ->). exists j, s. split; [apply Hi; exact Hj|]. auto.
      + right. split; [|exact Hp]. intros j Hj. apply Hi in Hj. destruct (Nat.eq_dec (i_level j) 0) as [|N]; [assumption|].
        assert (false = true) by (apply Hr; exists j; auto). discriminate.
  Qed.

  Lemma path_stats_ok : forall n, rec_ok (path_stats_ E fs n).
  Proof.
    induction n as [|n IH]; intros p memo c r memo' c' Hc Hg; cbn [path_stats_]; [discriminate|].
    destruct (sget p memo) as [x|] eqn:Em.
    { intros [= <- <- <-]. split; [exact Hc|]. split; [exact Hg|]. intros y [= <-]. exact (Hg p x Em). }
    destruct (fs p) as [f|] eqn:Ef; [|intros [= <- <- <-]; split; [exact Hc|]; split; [exact Hg|]; discriminate].
    destruct (file_imports E p f c) as [[[imps rel]|e] c1] eqn:Ei.
    2:{ intros [= <- <- <-]. split; [exact (file_imports_coherent _ _ _ _ _ Ef Hc Ei)|]. split; [exact Hg|]. discriminate. }
    pose proof (file_imports_coherent _ _ _ _ _ Ef Hc Ei) as Hc1.
    destruct (file_imports_ok _ _ _ _ _ _ Ef Hc Ei) as (body & ms & ds & Ht & Hs & -> & ->).
    match goal with |- context [match ?X with Ok pkg => _ | Err e => _ end] => destruct X as [pkg|e] eqn:Ep end.
    2:{ intros [= <- <- <-]. split; [exact Hc1|]. split; [exact Hg|]. discriminate. }
    assert (Hpk : if any_relative (ms ++ ds) then exists s, e_package E p = Ok s /\ pkg = Some s else pkg = None).
    { destruct (any_relative (ms ++ ds)); [|congruence]. destruct (e_package E p) as [s|e]; [|discriminate]. exists s. split; [reflexivity|congruence]. }
    destruct (stats_loop E (path_stats_ E fs n) pkg (ms ++ ds) memo c1) as [[[[xs|e] memo1] c2]|] eqn:El; [| |discriminate].
    2:{ intros [= <- <- <-]. destruct (loop_ok _ pkg IH _ _ _ _ _ _ Hc1 Hg El) as (Hc2 & Hg2 & _). split; [exact Hc2|]. split; [exact Hg2|]. discriminate. }
    intros [= <- <- <-]. destruct (loop_ok _ pkg IH _ _ _ _ _ _ Hc1 Hg El) as (Hc2 & Hg2 & Hxs). destruct (Hxs xs eq_refl) as [H1 H2].
    pose proof (dep_iff p f body ms ds pkg Ef Ht Hs Hpk) as Hd.
    assert (Hn : newest E fs p (fold_right Z.max (e_float E (f_mtime f)) xs)).
    { apply newest_from_deps; [exact Ef| |].
      - intros q Hq. apply Hd in Hq. destruct Hq as (i & m & absname & Hin & Hm & Hr & Hsp). destruct (H1 i m absname q Hin Hm Hr Hsp) as (x & Hx & Hx' & _). exists x. auto.
      - intros x Hx. destruct (H2 x Hx) as (i & m & absname & q & Hin & Hm & Hr & Hsp & Hx'). exists q. split; [apply Hd; exists i, m, absname; auto|exact Hx']. }
    assert (Ha : acyclic_from E fs p).
    { constructor. intros q Hq. apply Hd in Hq. destruct Hq as (i & m & absname & Hin & Hm & Hr & Hsp). destruct (H1 i m absname q Hin Hm Hr Hsp) as (x & _ & _ & Hx). exact Hx. }
    split; [exact Hc2|]. split.
    - intros q y. rewrite sget_sset. destruct (String.eqb_spec q p) as [->|]; [|apply Hg2]. intros [= <-]. split; assumption.
    - intros y [= <-]. split; assumption.
  Qed.

  (** ** The caches do not matter *)
  Definition same_res {A : Type} (a b : option (res A * sdict Z * cache)) : Prop :=
    match a, b with
    | None, None => True
    | Some (r, m, c), Some (r', m', c') => r = r' /\ m = m' /\ coherent fs c /\ coherent fs c'
    | _, _ => False
    end.
  Lemma loop_same rec pkg : (forall p memo c1 c2, coherent fs c1 -> coherent fs c2 -> same_res (rec p memo c1) (rec p memo c2)) ->
    forall l memo c1 c2, coherent fs c1 -> coherent fs c2 -> same_res (stats_loop E rec pkg l memo c1) (stats_loop E rec pkg l memo c2).
  Proof.
    intros Hrec. induction l as [|i l IH]; intros memo c1 c2 H1 H2; cbn [stats_loop]; [cbn; auto|].
    destruct (i_module i) as [m|]; [|cbn; auto]. destruct (e_resolve E (i_level i) m pkg) as [absname|e]; [|cbn; auto].
    destruct (e_spec E absname) as [[[origin|]|]|e]; [|cbn; auto|apply IH; assumption|cbn; auto].
    specialize (Hrec origin memo c1 c2 H1 H2). destruct (rec origin memo c1) as [[[r1 m1] d1]|], (rec origin memo c2) as [[[r2 m2] d2]|]; cbn in Hrec; try contradiction; [|exact I].
    destruct Hrec as (-> & -> & Hd1 & Hd2). destruct r2 as [x|e]; [|cbn; auto].
    specialize (IH m2 d1 d2 Hd1 Hd2).
    destruct (stats_loop E rec pkg l m2 d1) as [[[r3 m3] d3]|], (stats_loop E rec pkg l m2 d2) as [[[r4 m4] d4]|]; cbn in IH; try contradiction; [|exact I].
    destruct IH as (-> & -> & Hd3 & Hd4). destruct r4 as [xs|e]; cbn; auto.
  Qed.
  Lemma path_stats_same : forall n p memo c1 c2, coherent fs c1 -> coherent fs c2 -> same_res (path_stats_ E fs n p memo c1) (path_stats_ E fs n p memo c2).
  Proof.
    induction n as [|n IH]; intros p memo c1 c2 H1 H2; cbn [path_stats_]; [exact I|].
    destruct (sget p memo); [cbn; auto|]. destruct (fs p) as [f|] eqn:Ef; [|cbn; auto].
    pose proof (file_imports_same p f c1 c2 Ef H1 H2) as Hi.
    destruct (file_imports E p f c1) as [r1 d1] eqn:E1. destruct (file_imports E p f c2) as [r2 d2] eqn:E2. cbn [fst] in Hi. subst r2.
    pose proof (file_imports_coherent _ _ _ _ _ Ef H1 E1) as Hd1. pose proof (file_imports_coherent _ _ _ _ _ Ef H2 E2) as Hd2.
    destruct r1 as [[imps rel]|e]; [|cbn; auto].
    match goal with |- context [match ?X with Ok pkg => _ | Err e => _ end] => destruct X as [pkg|e] end; [|cbn; auto].
    pose proof (loop_same _ pkg IH imps memo d1 d2 Hd1 Hd2) as Hl.
    destruct (stats_loop E (path_stats_ E fs n) pkg imps memo d1) as [[[r3 m3] d3]|], (stats_loop E (path_stats_ E fs n) pkg imps memo d2) as [[[r4 m4] d4]|]; cbn in Hl; try contradiction; [|exact I].
    destruct Hl as (-> & -> & Hd3 & Hd4). destruct r4 as [xs|e]; cbn; auto.
  Qed.

  (** ** Termination *)
  Definition mono_from (rec rec' : string -> sdict Z -> cache -> option (res Z * sdict Z * cache)) : Prop :=
    forall p memo c r, rec p memo c = Some r -> rec' p memo c = Some r.
  Lemma loop_mono rec rec' pkg : mono_from rec rec' -> forall l memo c r, stats_loop E rec pkg l memo c = Some r -> stats_loop E rec' pkg l memo c = Some r.
  Proof.
    intros H. induction l as [|i l IH]; intros memo c r; cbn [stats_loop]; [auto|].
    destruct (i_module i) as [m|]; [|auto]. destruct (e_resolve E (i_level i) m pkg) as [absname|e]; [|auto].
    destruct (e_spec E absname) as [[[origin|]|]|e]; auto.
    destruct (rec origin memo c) as [[[r1 m1] d1]|] eqn:E1; [|discriminate]. rewrite (H _ _ _ _ E1). destruct r1 as [x|e]; [|auto].
    destruct (stats_loop E rec pkg l m1 d1) as [[[r2 m2] d2]|] eqn:E2; [|discriminate]. rewrite (IH _ _ _ E2). auto.
  Qed.
  Lemma path_stats_eq n p memo c : path_stats_ E fs (S n) p memo c =
        match sget p memo with
        | Some x => Some (Ok x, memo, c)
        | None =>
            match fs p with
            | None => Some (Err (ierr "FileNotFoundError"), memo, c)
            | Some f =>
                match file_imports E p f c with
                | (Err e, c1) => Some (Err e, memo, c1)
                | (Ok (imps, rel), c1) =>
                    match (if rel then match e_package E p with
                                       | Ok s => Ok (Some s)
                                       | Err e => Err (if is_cls "ValueError" e || is_cls "ImportError" e then ierr "ImportError" else e)
                                       end
                           else Ok None) with
                    | Err e => Some (Err e, memo, c1)
                    | Ok pkg =>
                        match stats_loop E (path_stats_ E fs n) pkg imps memo c1 with
                        | None => None
                        | Some (Err e, memo1, c2) => Some (Err e, memo1, c2)
                        | Some (Ok xs, memo1, c2) => let x := fold_right Z.max (e_float E (f_mtime f)) xs in Some (Ok x, sset p x memo1, c2)
                        end
                    end
                end
            end
        end.
  Proof. reflexivity. Qed.
  Lemma path_stats_mono1 : forall n, mono_from (path_stats_ E fs n) (path_stats_ E fs (S n)).
  Proof.
    induction n as [|n IH]; intros p memo c r; [discriminate|].
    rewrite (path_stats_eq n), (path_stats_eq (S n)).
    destruct (sget p memo); [auto|]. destruct (fs p) as [f|]; [|auto]. destruct (file_imports E p f c) as [[[imps rel]|e] c1]; [|auto].
    match goal with |- context [match ?X with Ok pkg => _ | Err e => _ end] => destruct X as [pkg|e] end; [|auto].
    destruct (stats_loop E (path_stats_ E fs n) pkg imps memo c1) as [r1|] eqn:El; [|discriminate]. rewrite (loop_mono _ _ pkg IH _ _ _ _ El). auto.
  Qed.
  Lemma path_stats_mono n n' : n <= n' -> mono_from (path_stats_ E fs n) (path_stats_ E fs n').
  Proof. induction 1 as [|n' _ IH]; intros p memo c r H; [exact H|]. apply path_stats_mono1, IH, H. Qed.

  Lemma loop_returns pkg (Q : string -> Prop) : (forall q, Q q -> forall memo c, coherent fs c -> good memo -> exists n, path_stats_ E fs n q memo c <> None) ->
    forall l, (forall i m absname q, In i l -> i_module i = Some m -> e_resolve E (i_level i) m pkg = Ok absname -> e_spec E absname = Ok (Some (Some q)) -> Q q) ->
    forall memo c, coherent fs c -> good memo -> exists n, stats_loop E (path_stats_ E fs n) pkg l memo c <> None.
  Proof.
    intros HQ. induction l as [|i l IH]; intros Hl memo c Hc Hg; cbn [stats_loop]; [exists 0; discriminate|].
    destruct (i_module i) as [m|] eqn:Em; [|exists 0; discriminate]. destruct (e_resolve E (i_level i) m pkg) as [absname|e] eqn:Er; [|exists 0; discriminate].
    assert (Hl' : forall j m absname q, In j l -> i_module j = Some m -> e_resolve E (i_level j) m pkg = Ok absname -> e_spec E absname = Ok (Some (Some q)) -> Q q)
      by (intros j m' a' q Hj; apply (Hl j m' a' q); right; exact Hj).
    destruct (e_spec E absname) as [[[origin|]|]|e] eqn:Es; [|exists 0; discriminate|exact (IH Hl' memo c Hc Hg)|exists 0; discriminate].
    assert (Hq : Q origin) by (apply (Hl i m absname origin); auto; left; reflexivity).
    destruct (HQ origin Hq memo c Hc Hg) as (n1 & Hn1). destruct (path_stats_ E fs n1 origin memo c) as [[[r1 m1] d1]|] eqn:E1; [|congruence].
    destruct (path_stats_ok n1 _ _ _ _ _ _ Hc Hg E1) as (Hc1 & Hg1 & _).
    destruct r1 as [x|e]; [|exists n1; rewrite E1; discriminate].
    destruct (IH Hl' m1 d1 Hc1 Hg1) as (n2 & Hn2).
    destruct (stats_loop E (path_stats_ E fs n2) pkg l m1 d1) as [[[r2 m2] d2]|] eqn:E2; [|congruence].
    exists (n1 + n2). rewrite (path_stats_mono n1 (n1 + n2) ltac:(lia) _ _ _ _ E1).
    rewrite (loop_mono _ _ pkg (path_stats_mono n2 (n1 + n2) ltac:(lia)) _ _ _ _ E2). destruct r2; discriminate.
  Qed.
  Lemma path_stats_returns : forall p, acyclic_from E fs p -> forall memo c, coherent fs c -> good memo -> exists n, path_stats_ E fs n p memo c <> None.
  Proof.
    induction 1 as [p _ IH]. intros memo c Hc Hg.
    destruct (sget p memo) as [x|] eqn:Em; [exists 1; cbn [path_stats_]; rewrite Em; discriminate|].
    destruct (fs p) as [f|] eqn:Ef; [|exists 1; cbn [path_stats_]; rewrite Em, Ef; discriminate].
    destruct (file_imports E p f c) as [[[imps rel]|e] c1] eqn:Ei; [|exists 1; cbn [path_stats_]; rewrite Em, Ef, Ei; discriminate].
    pose proof (file_imports_coherent _ _ _ _ _ Ef Hc Ei) as Hc1.
    destruct (file_imports_ok _ _ _ _ _ _ Ef Hc Ei) as (body & ms & ds & Ht & Hs & -> & ->).
    assert (K : (exists e, (if any_relative (ms ++ ds) then match e_package E p with Ok s => Ok (Some s) | Err e => Err (if is_cls "ValueError" e || is_cls "ImportError" e then ierr "ImportError" else e) end else Ok None) = Err e) \/
                (exists pkg, (if any_relative (ms ++ ds) then match e_package E p with Ok s => Ok (Some s) | Err e => Err (if is_cls "ValueError" e || is_cls "ImportError" e then ierr "ImportError" else e) end else Ok None) = Ok pkg /\
                  (if any_relative (ms ++ ds) then exists s, e_package E p = Ok s /\ pkg = Some s else pkg = None))).
    { destruct (any_relative (ms ++ ds)); [|right; exists None; auto]. destruct (e_package E p) as [s|e]; [right; exists (Some s); split; [reflexivity|exists s; auto]|left; eexists; reflexivity]. }
    destruct K as [(e & Ke)|(pkg & Kp & Hpk)].
    { exists 1. cbn [path_stats_]. rewrite Em, Ef, Ei, Ke. discriminate. }
    pose proof (dep_iff p f body ms ds pkg Ef Ht Hs Hpk) as Hd.
    destruct (loop_returns pkg (fun q => dep E fs p q) (fun q Hq => IH q Hq) (ms ++ ds)) with (memo := memo) (c := c1) as (n & Hn); auto.
    { intros i m absname q Hin Hm Hr Hsp. apply Hd. exists i, m, absname. auto. }
    exists (S n). cbn [path_stats_]. rewrite Em, Ef, Ei, Kp.
    destruct (stats_loop E (path_stats_ E fs n) pkg (ms ++ ds) memo c1) as [[[[xs|e] memo1] c2]|]; congruence.
  Qed.
End P.

(** ** Histories *)
(** What file_imports preserves, path_stats preserves. *)
Lemma cache_inv E fs (I : cache -> Prop) : (forall p f c r c1, fs p = Some f -> I c -> file_imports E p f c = (r, c1) -> I c1) ->
  forall n p memo c r memo' c', I c -> path_stats_ E fs n p memo c = Some (r, memo', c') -> I c'.
Proof.
  intros Hfi.
  assert (Hlp : forall rec pkg, (forall p memo c r memo' c', I c -> rec p memo c = Some (r, memo', c') -> I c') ->
            forall l memo c r memo' c', I c -> stats_loop E rec pkg l memo c = Some (r, memo', c') -> I c').
  { intros rec pkg Hrec. induction l as [|i l IH]; intros memo c r memo' c' Hc; cbn [stats_loop]; [intros [= _ _ <-]; exact Hc|].
    destruct (i_module i) as [m|]; [|intros [= _ _ <-]; exact Hc]. destruct (e_resolve E (i_level i) m pkg) as [absname|e]; [|intros [= _ _ <-]; exact Hc].
    destruct (e_spec E absname) as [[[origin|]|]|e]; [|intros [= _ _ <-]; exact Hc|apply IH; exact Hc|intros [= _ _ <-]; exact Hc].
    destruct (rec origin memo c) as [[[[x|e] memo1] c1]|] eqn:Eo; [| |discriminate].
    - pose proof (Hrec _ _ _ _ _ _ Hc Eo) as Hc1.
      destruct (stats_loop E rec pkg l memo1 c1) as [[[[xs|e] memo2] c2]|] eqn:El; [| |discriminate]; intros [= _ _ <-]; exact (IH _ _ _ _ _ Hc1 El).
    - intros [= _ _ <-]. exact (Hrec _ _ _ _ _ _ Hc Eo). }
  induction n as [|n IH]; intros p memo c r memo' c' Hc; cbn [path_stats_]; [discriminate|].
  destruct (sget p memo); [intros [= _ _ <-]; exact Hc|]. destruct (fs p) as [f|] eqn:Ef; [|intros [= _ _ <-]; exact Hc].
  destruct (file_imports E p f c) as [[[imps rel]|e] c1] eqn:Ei; [|intros [= _ _ <-]; exact (Hfi _ _ _ _ _ Ef Hc Ei)].
  pose proof (Hfi _ _ _ _ _ Ef Hc Ei) as Hc1.
  match goal with |- context [match ?X with Ok pkg => _ | Err e => _ end] => destruct X as [pkg|e] end; [|intros [= _ _ <-]; exact Hc1].
  destruct (stats_loop E (path_stats_ E fs n) pkg imps memo c1) as [[[[xs|e] memo1] c2]|] eqn:El; [| |discriminate]; intros [= _ _ <-];
    exact (Hlp _ pkg IH _ _ _ _ _ _ Hc1 El).
Qed.
Lemma file_imports_cases E p f c r c1 : file_imports E p f c = (r, c1) ->
  c1 = c \/ exists body ms ds, f_text f = Ok body /\ scan body = Ok (ms, ds) /\ c1 = cset p (mkEntry (f_mtime f) ms ds (any_relative (ms ++ ds))) c.
Proof.
  unfold file_imports. intros H.
  destruct (match c p with Some e => if Z.eqb (ce_mtime e) (f_mtime f) then Some e else None | None => None end); [left; congruence|].
  destruct (f_text f) as [body|e] eqn:Et; [|left; congruence]. destruct (scan body) as [[ms ds]|e] eqn:Es; [|left; congruence].
  destruct (e_writes E p); [|left; congruence]. right. exists body, ms, ds. split; [reflexivity|]. split; [exact Es|congruence].
Qed.
Lemma cache_of_versions E fs (V : string -> file -> Prop) : (forall p f, fs p = Some f -> V p f) ->
  forall n p memo c r memo' c', (forall q e, c q = Some e -> exists f, V q f /\ ce_mtime e = f_mtime f /\ describes e f) ->
  path_stats_ E fs n p memo c = Some (r, memo', c') -> forall q e, c' q = Some e -> exists f, V q f /\ ce_mtime e = f_mtime f /\ describes e f.
Proof.
  intros HV n p memo c r memo' c' Hc H.
  refine (cache_inv E fs (fun c : cache => forall q e, c q = Some e -> exists f, V q f /\ ce_mtime e = f_mtime f /\ describes e f) _ n p memo c r memo' c' Hc H).
  clear - HV. intros p f c r c1 Hf Hc H. apply file_imports_cases in H. destruct H as [->|(body & ms & ds & Ht & Hs & ->)]; [exact Hc|].
  intros q e. unfold cset. destruct (String.eqb_spec q p) as [->|]; [|apply Hc].
  intros [= <-]. exists f. split; [exact (HV p f Hf)|]. split; [reflexivity|]. exists body. auto.
Qed.
(** A valid entry stays. *)
Definition valid_entry (fs : string -> option file) (c : cache) (p : string) : Prop :=
  exists f e, fs p = Some f /\ c p = Some e /\ ce_mtime e = f_mtime f /\ describes e f.
Lemma valid_entry_stays E fs q n p memo c r memo' c' : valid_entry fs c q -> path_stats_ E fs n p memo c = Some (r, memo', c') -> valid_entry fs c' q.
Proof.
  intros Hv H. refine (cache_inv E fs (fun c => valid_entry fs c q) _ n p memo c r memo' c' Hv H).
  clear. intros p f c r c1 Hf (f0 & e & Hf0 & He & Hm & Hd) H. apply file_imports_cases in H. destruct H as [->|(body & ms & ds & Ht & Hs & ->)].
  - exists f0, e. auto.
  - unfold valid_entry, cset. destruct (String.eqb_spec q p) as [->|].
    + exists f, (mkEntry (f_mtime f) ms ds (any_relative (ms ++ ds))). split; [exact Hf|]. split; [reflexivity|]. split; [reflexivity|]. exists body. auto.
    + exists f0, e. auto.
Qed.
Lemma loop_valid_stays E fs q n pkg : forall l memo c r memo' c', valid_entry fs c q -> stats_loop E (path_stats_ E fs n) pkg l memo c = Some (r, memo', c') -> valid_entry fs c' q.
Proof.
  induction l as [|i l IH]; intros memo c r memo' c' Hc; cbn [stats_loop]; [intros [= _ _ <-]; exact Hc|].
  destruct (i_module i) as [m|]; [|intros [= _ _ <-]; exact Hc]. destruct (e_resolve E (i_level i) m pkg) as [absname|e]; [|intros [= _ _ <-]; exact Hc].
  destruct (e_spec E absname) as [[[origin|]|]|e]; [|intros [= _ _ <-]; exact Hc|apply IH; exact Hc|intros [= _ _ <-]; exact Hc].
  destruct (path_stats_ E fs n origin memo c) as [[[[x|e] memo1] c1]|] eqn:Eo; [| |discriminate].
  - pose proof (valid_entry_stays _ _ _ _ _ _ _ _ _ _ Hc Eo) as Hc1.
    destruct (stats_loop E (path_stats_ E fs n) pkg l memo1 c1) as [[[[xs|e] memo2] c2]|] eqn:El; [| |discriminate]; intros [= _ _ <-]; exact (IH _ _ _ _ _ Hc1 El).
  - intros [= _ _ <-]. exact (valid_entry_stays _ _ _ _ _ _ _ _ _ _ Hc Eo).
Qed.
Lemma entry_written E fs n p c x memo' c' : coherent fs c -> e_writes E p = true -> path_stats_ E fs n p [] c = Some (Ok x, memo', c') -> valid_entry fs c' p.
Proof.
  intros Hc Hw. destruct n as [|n]; [discriminate|]. rewrite path_stats_eq. cbn [sget]. destruct (fs p) as [f|] eqn:Ef; [|discriminate].
  destruct (file_imports E p f c) as [[[imps rel]|e] c1] eqn:Ei; [|discriminate].
  assert (Hv : valid_entry fs c1 p).
  { unfold file_imports in Ei.
    destruct (c p) as [e|] eqn:Ec.
    - destruct (Z.eqb_spec (ce_mtime e) (f_mtime f)) as [Em|].
      + injection Ei as _ _ <-. exists f, e. split; [exact Ef|]. split; [exact Ec|]. split; [exact Em|]. exact (Hc p f e Ef Ec Em).
      + destruct (f_text f) as [body|e'] eqn:Et; [|discriminate]. destruct (scan body) as [[ms ds]|e'] eqn:Es; [|discriminate]. rewrite Hw in Ei. injection Ei as _ _ <-.
        exists f, (mkEntry (f_mtime f) ms ds (any_relative (ms ++ ds))). unfold cset. rewrite String.eqb_refl. split; [exact Ef|]. split; [reflexivity|]. split; [reflexivity|]. exists body. auto.
    - destruct (f_text f) as [body|e'] eqn:Et; [|discriminate]. destruct (scan body) as [[ms ds]|e'] eqn:Es; [|discriminate]. rewrite Hw in Ei. injection Ei as _ _ <-.
      exists f, (mkEntry (f_mtime f) ms ds (any_relative (ms ++ ds))). unfold cset. rewrite String.eqb_refl. split; [exact Ef|]. split; [reflexivity|]. split; [reflexivity|]. exists body. auto. }
  match goal with |- context [match ?X with Ok pkg => _ | Err e => _ end] => destruct X as [pkg|e] end; [|discriminate].
  destruct (stats_loop E (path_stats_ E fs n) pkg imps [] c1) as [[[[xs|e] memo1] c2]|] eqn:El; [|discriminate|discriminate]. cbv zeta.
  intros [= _ _ <-]. exact (loop_valid_stays _ _ _ _ _ _ _ _ _ _ _ Hv El).
Qed.
(** ** No errors when everything reachable is usable *)
Section Usable.
  Variable E : env.
  Variable fs : string -> option file.
  (** The file can be read and scanned, and its imports resolved. *)
  Definition usable (p : string) : Prop := exists f body ms ds, fs p = Some f /\ f_text f = Ok body /\ scan body = Ok (ms, ds) /\
    exists pkg, (if any_relative (ms ++ ds) then exists s, e_package E p = Ok s /\ pkg = Some s else pkg = None) /\
    forall i, has_import body i -> exists m absname, i_module i = Some m /\ e_resolve E (i_level i) m pkg = Ok absname /\
      (e_spec E absname = Ok None \/ exists q, e_spec E absname = Ok (Some (Some q))).
  Lemma path_stats_usable : forall n p memo c r memo' c', coherent fs c -> good E fs memo -> (forall q, reach E fs p q -> usable q) ->
    path_stats_ E fs n p memo c = Some (r, memo', c') -> exists x, r = Ok x.
  Proof.
    induction n as [|n IH]; intros p memo c r memo' c' Hc Hg Hu; [discriminate|]. rewrite path_stats_eq.
    destruct (sget p memo) as [x|]; [intros [= <- _ _]; exists x; reflexivity|].
    destruct (Hu p (re_here E fs p)) as (f & body & ms & ds & Hf & Ht & Hs & pkg & Hpk & Hi). rewrite Hf.
    destruct (file_imports E p f c) as [r1 c1] eqn:Ei.
    pose proof (file_imports_coherent E fs _ _ _ _ _ Hf Hc Ei) as Hc1.
    assert (r1 = Ok (ms ++ ds, any_relative (ms ++ ds))) as ->.
    { change r1 with (fst (r1, c1)). rewrite <- Ei. rewrite (file_imports_same E fs p f c (fun _ => None) Hf Hc) by (intros ? ? ? _ ?; discriminate).
      unfold file_imports. rewrite Ht, Hs. reflexivity. }
    assert ((if any_relative (ms ++ ds) then match e_package E p with Ok s => Ok (Some s) | Err e => Err (if is_cls "ValueError" e || is_cls "ImportError" e then ierr "ImportError" else e) end else Ok None) = Ok pkg) as ->.
    { destruct (any_relative (ms ++ ds)); [destruct Hpk as (s & -> & ->)|rewrite Hpk]; reflexivity. }
    pose proof (dep_iff E fs p f body ms ds pkg Hf Ht Hs Hpk) as Hd. pose proof (scan_iff body _ Hs) as Hsc. cbn [fst snd] in Hsc.
    assert (L : forall l memo c r memo' c', (forall i, In i l -> In i (ms ++ ds)) -> coherent fs c -> good E fs memo -> stats_loop E (path_stats_ E fs n) pkg l memo c = Some (r, memo', c') -> exists xs, r = Ok xs).
    { clear Hc Hg Hc1 Ei c c1 memo memo' c'. induction l as [|i l IHl]; intros memo c r0 memo' c' Hl Hc Hg; cbn [stats_loop]; [intros [= <- _ _]; eexists; reflexivity|].
      destruct (Hi i (proj1 (Hsc i) (Hl i (or_introl eq_refl)))) as (m & absname & Hm & Hr & Hsp). rewrite Hm, Hr.
      assert (Hl' : forall j, In j l -> In j (ms ++ ds)) by (intros j Hj; apply Hl; right; exact Hj).
      destruct Hsp as [-> |(q & Hsp)]; [exact (IHl _ _ _ _ _ Hl' Hc Hg)|]. rewrite Hsp.
      destruct (path_stats_ E fs n q memo c) as [[[r2 memo1] c1]|] eqn:Eq; [|discriminate].
      destruct (path_stats_ok E fs n _ _ _ _ _ _ Hc Hg Eq) as (Hc1 & Hg1 & _).
      assert (Hdq : dep E fs p q) by (apply Hd; exists i, m, absname; split; [apply Hl; left; reflexivity|auto]).
      destruct (IH q memo c r2 memo1 c1 Hc Hg) as (x & ->); [|exact Eq|].
      { intros q' Hq'. apply Hu. exact (re_dep E fs p q q' Hdq Hq'). }
      destruct (stats_loop E (path_stats_ E fs n) pkg l memo1 c1) as [[[r3 memo2] c2]|] eqn:El; [|discriminate].
      destruct (IHl _ _ _ _ _ Hl' Hc1 Hg1 El) as (xs & ->). intros [= <- _ _]. eexists. reflexivity. }
    destruct (stats_loop E (path_stats_ E fs n) pkg (ms ++ ds) memo c1) as [[[r2 memo1] c2]|] eqn:El; [|discriminate].
    destruct (L _ _ _ _ _ _ (fun i H => H) Hc1 Hg El) as (xs & ->). cbv zeta. intros [= <- _ _]. eexists. reflexivity.
  Qed.
End Usable.
Lemma history_inv ver fs c : history ver fs c ->
  (forall p f, fs p = Some f -> ver p f) /\ (forall p f g, ver p f -> ver p g -> f_mtime f = f_mtime g -> f = g) /\
  (forall q e, c q = Some e -> exists f, ver q f /\ ce_mtime e = f_mtime f /\ describes e f).
Proof.
  induction 1 as [fs|ver fs c p f Hh (H1 & H2 & H3) Hfresh|ver fs c p Hh (H1 & H2 & H3)|ver fs c E n p r c' Hh (H1 & H2 & H3) Hq|ver fs c p Hh (H1 & H2 & H3)].
  - split; [auto|]. split; [intros p f g Hf Hg _; congruence|discriminate].
  - split; [|split].
    + intros q g. unfold fset. destruct (String.eqb_spec q p) as [->|]; [intros [= <-]; right; auto|intros H; left; auto].
    + intros q g h [Hg|[-> ->]] [Hh'|[Eq ->]] Hm.
      * exact (H2 q g h Hg Hh' Hm).
      * subst q. exfalso. exact (Hfresh g Hg Hm).
      * exfalso. exact (Hfresh h Hh' (eq_sym Hm)).
      * reflexivity.
    + intros q e He. destruct (H3 q e He) as (g & Hg & Hrest). exists g. split; [left; exact Hg|exact Hrest].
  - split; [|split; assumption]. intros q g. unfold fset. destruct (String.eqb q p); [discriminate|apply H1].
  - split; [exact H1|]. split; [exact H2|]. unfold path_stats in Hq. destruct (path_stats_ E fs n p [] c) as [[[r0 m0] c0]|] eqn:Ep; [|discriminate].
    injection Hq as _ <-. exact (cache_of_versions E fs ver H1 n p [] c r0 m0 c0 H3 Ep).
  - split; [exact H1|]. split; [exact H2|]. intros q e. destruct (String.eqb q p); [discriminate|apply H3].
Qed.
Lemma history_coherent ver fs c : history ver fs c -> coherent fs c.
Proof.
  intros H. destruct (history_inv _ _ _ H) as (H1 & H2 & H3). intros p f e Hf He Hm. destruct (H3 p e He) as (g & Hg & Em & Hd).
  assert (g = f) as <-; [|exact Hd]. apply (H2 p); [exact Hg|apply H1; exact Hf|congruence].
Qed.
