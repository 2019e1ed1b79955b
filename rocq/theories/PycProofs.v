(** Proofs for C59. *)
From Verif Require Import Base AstLib FixLocModel ExpanderModel Dict ImportsModel PhaseModel DialectModel StatsModel StatsSpec StatsProofs StatsProps PycModel PycSpec.

Lemma fset_cases p g fs q : (q = p /\ fset p g fs q = g) \/ fset p g fs q = fs q.
Proof. unfold fset. destruct (String.eqb_spec q p) as [->|]; auto. Qed.
Lemma newest_unique E fs p x y : newest E fs p x -> newest E fs p y -> x = y.
Proof.
  intros ((q & f & R1 & F1 & ->) & A) ((r & g & R2 & F2 & ->) & B). destruct (B _ R1) as (f' & F1' & L1). destruct (A _ R2) as (g' & F2' & L2). rewrite F1 in F1'. rewrite F2 in F2'. inversion F1'; inversion F2'; subst. lia.
Qed.
(** What is reached depends only on the files that are reached. *)
Lemma reach_agree E fs fs' p : (forall q, reach E fs p q -> fs q = fs' q) -> forall q, reach E fs p q <-> reach E fs' p q.
Proof.
  intros H q. split; intros R.
  - induction R as [|p q r D R IH]; [constructor|]. assert (D' : dep E fs' p q) by (unfold dep in *; rewrite <- (H p (re_here E fs p)); exact D).
    apply (re_dep E fs' p q r D'). apply IH. intros s Hs. apply H. exact (re_dep E fs p q s D Hs).
  - induction R as [|p q r D R IH]; [constructor|]. assert (D' : dep E fs p q) by (unfold dep in *; rewrite (H p (re_here E fs p)); exact D).
    apply (re_dep E fs p q r D'). apply IH. intros s Hs. apply H. exact (re_dep E fs p q s D' Hs).
Qed.
Lemma newest_agree E fs fs' p x : (forall q, reach E fs p q -> fs q = fs' q) -> newest E fs p x -> newest E fs' p x.
Proof.
  intros H ((q & f & R & F & Hx) & A). pose proof (reach_agree E fs fs' p H) as K. split.
  - exists q, f. split; [apply K; exact R|]. split; [rewrite <- (H q R); exact F|exact Hx].
  - intros r Hr. apply K in Hr. rewrite <- (H r Hr). exact (A r Hr).
Qed.

Section Inv.
  Context {code : Type}.
  Variable E : env.
  Variable stamp : Z -> Z.
  Variables (is_stdlib ispy : string -> bool) (std : (string -> option file) -> string -> res Z).
  Variable compile : string -> (string -> option file) -> res code.
  Notation lives := (lives E stamp is_stdlib ispy std compile).
  Notation get_code := (get_code E stamp is_stdlib ispy std compile).
  Notation hooked p := (is_stdlib p || negb (ispy p) = false).
  (** A bytecode file was made from the files as they were at some time; files that changed since then are newer than all files were then. *)
  Definition made (now : Z) (fs : string -> option file) (p : string) (e : pyc code) : Prop :=
    exists fs0 then_ x0, (then_ <= now)%Z /\ in_range then_ /\ newest E fs0 p x0 /\ pc_stamp e = stamp x0 /\ compile p fs0 = Ok (pc_code e) /\
      (forall q f, fs0 q = Some f -> (0 <= f_mtime f <= then_)%Z) /\
      (forall q, fs q = fs0 q \/ fs q = None \/ exists f, fs q = Some f /\ (then_ + 2 * second <= f_mtime f)%Z /\ in_range (f_mtime f)).
  Definition inv (now : Z) (fs : string -> option file) (c : cache) (k : pycs code) : Prop :=
    in_range now /\ (forall q f, fs q = Some f -> (0 <= f_mtime f <= now)%Z) /\
    (exists ver, history ver fs c /\ forall q g, ver q g -> (f_mtime g <= now)%Z) /\
    (forall p e, hooked p -> k p = Some e -> made now fs p e).

  Lemma stats_query now fs n p c r c' : (exists ver, history ver fs c /\ forall q g, ver q g -> (f_mtime g <= now)%Z) ->
    path_xstats E fs is_stdlib ispy (std fs) n p c = Some (r, c') -> exists ver, history ver fs c' /\ forall q g, ver q g -> (f_mtime g <= now)%Z.
  Proof.
    intros (ver & H & V) Hx. unfold path_xstats in Hx. destruct (is_stdlib p || negb (ispy p)); [inversion Hx; subst; eauto|].
    exists ver. split; [exact (h_query _ _ _ E n p r c' H Hx)|exact V].
  Qed.
  Lemma lives_inv now fs c k : lives now fs c k -> inv now fs c k.
  Proof.
    induction 1 as [now fs Hr Hm|now fs c k p f H (I1 & I2 & (ver & I3 & I4) & I5) Ht Hf|now fs c k p H (I1 & I2 & (ver & I3 & I4) & I5)|now fs c k writes n p r c' k' H (I1 & I2 & I3 & I5) Hg
                   |now fs c k p H (I1 & I2 & (ver & I3 & I4) & I5)|now fs c k p H (I1 & I2 & I3 & I5)].
    - split; [exact Hr|]. split; [exact Hm|]. split; [|discriminate]. exists (fun p f => fs p = Some f). split; [constructor|]. intros q g Hg. exact (proj2 (Hm q g Hg)).
    - unfold second in *. split; [exact Hf|]. split; [|split].
      + intros q g Hq. destruct (fset_cases p (Some f) fs q) as [[-> K]|K]; rewrite K in Hq; [inversion Hq; subst; destruct Hf; lia|]. pose proof (I2 q g Hq). lia.
      + exists (fun q g => ver q g \/ (q = p /\ g = f)). split; [apply h_edit; [exact I3|]; intros g Hg; pose proof (I4 p g Hg); lia|]. intros q g [Hg|[_ ->]]; [pose proof (I4 q g Hg); lia|lia].
      + intros p' e Hh Hk. destruct (I5 p' e Hh Hk) as (fs0 & t0 & x0 & A & R & B & C & D & F & G). exists fs0, t0, x0. split; [lia|]. repeat (split; [assumption|]). intros q.
        destruct (fset_cases p (Some f) fs q) as [[-> K]|K]; rewrite K; [|exact (G q)]. right. right. exists f. split; [reflexivity|]. split; [unfold second; lia|exact Hf].
    - split; [exact I1|]. split; [|split].
      + intros q g Hq. destruct (fset_cases p None fs q) as [[-> K]|K]; rewrite K in Hq; [discriminate|exact (I2 q g Hq)].
      + exists ver. split; [apply h_delete; exact I3|exact I4].
      + intros p' e Hh Hk. destruct (I5 p' e Hh Hk) as (fs0 & t0 & x0 & A & R & B & C & D & F & G). exists fs0, t0, x0. repeat (split; [assumption|]). intros q.
        destruct (fset_cases p None fs q) as [[-> K]|K]; rewrite K; [auto|exact (G q)].
    - unfold PycModel.get_code in Hg. destruct (path_xstats E fs is_stdlib ispy (std fs) n p c) as [[[x|e] c1]|] eqn:Ex; [| |discriminate].
      2: { inversion Hg; subst. split; [exact I1|]. split; [exact I2|]. split; [exact (stats_query _ _ _ _ _ _ _ I3 Ex)|exact I5]. }
      assert (I3' := stats_query _ _ _ _ _ _ _ I3 Ex).
      destruct (match k p with Some e => _ | None => None end); [inversion Hg; subst; split; [exact I1|]; split; [exact I2|]; split; [exact I3'|exact I5]|].
      destruct (compile p fs) as [o|e] eqn:Eo; [|inversion Hg; subst; split; [exact I1|]; split; [exact I2|]; split; [exact I3'|exact I5]].
      inversion Hg; subst. split; [exact I1|]. split; [exact I2|]. split; [exact I3'|]. destruct writes; [|exact I5].
      intros p' e' Hh Hk. unfold kset in Hk. destruct (String.eqb_spec p' p) as [->|]; [|exact (I5 p' e' Hh Hk)]. inversion Hk; subst. exists fs, now, x. destruct I3 as (ver & I3 & I4).
      split; [lia|]. split; [exact I1|]. split.
      { pose proof (C37_import_hook E fs is_stdlib ispy (std fs) n p c x c' (history_coherent _ _ _ I3) Ex) as K. rewrite Hh in K. exact K. }
      split; [reflexivity|]. split; [exact Eo|]. split; [exact I2|]. auto.
    - split; [exact I1|]. split; [exact I2|]. split; [|exact I5]. exists ver. split; [apply h_lose; exact I3|exact I4].
    - split; [exact I1|]. split; [exact I2|]. split; [exact I3|]. intros p' e Hh Hk. cbn in Hk. destruct (String.eqb p' p); [discriminate|]. exact (I5 p' e Hh Hk).
  Qed.

  (** A bytecode file whose time is right was made from the present files. *)
  Lemma made_fresh now fs p e x : clock_ok E stamp -> only_deps E compile -> (forall q f, fs q = Some f -> (0 <= f_mtime f <= now)%Z) -> in_range now ->
    made now fs p e -> newest E fs p x -> pc_stamp e = stamp x -> compile p fs = Ok (pc_code e).
  Proof.
    intros [C1 C2] HD I2 I1 (fs0 & t0 & x0 & A & R0 & ((q0 & f0 & R & F0 & Hx0) & _) & C & D & F & G) ((q1 & f1 & R1 & F1 & Hx1) & N) Hs. rewrite <- D. apply HD. intros q Hq.
    destruct (N q Hq) as (f & Fq & L). destruct (G q) as [H|[H|(f' & H & T & Rf)]]; [exact H|congruence|exfalso]. rewrite Fq in H. inversion H; subst f'.
    assert (P0 : in_range (f_mtime f0)) by (pose proof (F q0 f0 F0); unfold in_range in *; lia).
    assert (P1 : in_range (f_mtime f1)) by (pose proof (I2 q1 f1 F1); unfold in_range in *; lia).
    pose proof (F q0 f0 F0) as M0. pose proof (C2 (f_mtime f0) (f_mtime f) P0 Rf ltac:(lia)) as K1. rewrite Hx1 in L. pose proof (C1 (f_mtime f) (f_mtime f1) Rf P1 L) as K2. subst x0 x. lia.
  Qed.
End Inv.
