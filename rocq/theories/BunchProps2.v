(** C05: when two bunches are equal. *)
From Verif Require Import Base BunchModel BunchSpec BunchProofs BunchProps.

(** Two dictionaries with the same keys and, under each key, equal values; in whatever order. *)
Definition same_items {V} (veq : V -> V -> bool) (d e : dict V) : Prop :=
  forall k, match dget k d, dget k e with Some v, Some w => veq v w = true | None, None => True | _, _ => False end.

Lemma dget_in {V} k (d : dict V) v : dget k d = Some v -> In (k, v) d.
Proof.
  induction d as [|[k' w] d IH]; [discriminate|]. cbn [dget]. destruct (key_eqb k k') eqn:E; [apply key_eqb_eq in E; intros H; inversion H; subst; left; reflexivity|right; auto].
Qed.
Lemma in_dget {V} k (d : dict V) v : NoDup (dk d) -> In (k, v) d -> dget k d = Some v.
Proof.
  induction d as [|[k' w] d IH]; intros N H; [destruct H|]. cbn [dget]. inversion N as [|? ? Hn N']; subst. destruct H as [H|H]; [inversion H; subst; rewrite key_eqb_refl; reflexivity|].
  destruct (key_eqb k k') eqn:E; [|auto]. apply key_eqb_eq in E. subst. exfalso. apply Hn. exact (in_map fst _ _ H).
Qed.
Lemma deq_same {V} (none : V) (veq : V -> V -> bool) (d e : dict V) : NoDup (dk d) -> NoDup (dk e) -> deq veq d e = true <-> same_items veq d e.
Proof.
  intros Nd Ne. unfold deq. rewrite andb_true_iff, Nat.eqb_eq, forallb_forall. split.
  - intros [L F] k. assert (I : incl (dk d) (dk e)).
    { intros x Hx. apply in_map_iff in Hx. destruct Hx as [[x' v] [<- Hx]]. specialize (F _ Hx). cbn [fst] in *. destruct (dget x' e) as [w|] eqn:G; [|discriminate].
      apply dget_in in G. exact (in_map fst _ _ G). }
    assert (J : incl (dk e) (dk d)) by (apply NoDup_length_incl; [exact Nd|unfold dk; rewrite !map_length; lia|exact I]).
    destruct (dget k d) as [v|] eqn:G.
    + specialize (F _ (dget_in _ _ _ G)). cbn [fst snd] in F. destruct (dget k e); [exact F|discriminate].
    + apply (dget_None none veq) in G. destruct (dget k e) as [w|] eqn:G'; [|exact Logic.I]. apply G, J. exact (in_map fst _ _ (dget_in _ _ _ G')).
  - intros S. assert (K : forall k, In k (dk d) <-> In k (dk e)).
    { intros k. specialize (S k). destruct (dget k d) as [v|] eqn:G; destruct (dget k e) as [w|] eqn:G'; try contradiction.
      - split; intros _; [exact (in_map fst _ _ (dget_in _ _ _ G'))|exact (in_map fst _ _ (dget_in _ _ _ G))].
      - apply (dget_None none veq) in G, G'. tauto. }
    split.
    + assert (A : length (dk d) <= length (dk e)) by (apply NoDup_incl_length; [exact Nd|intros x; apply K]).
      assert (B : length (dk e) <= length (dk d)) by (apply NoDup_incl_length; [exact Ne|intros x; apply K]). unfold dk in A, B. rewrite !map_length in A, B. lia.
    + intros [k v] H. cbn [fst snd]. specialize (S k). rewrite (in_dget k d v Nd H) in S. destruct (dget k e); [exact S|contradiction].
Qed.

(** After any program as in C05: two bunches (or a bunch and itself) are equal if and only if they have the same keys, with equal values; and they are
    different if and only if they are not equal. Comparing changes nothing. *)
Theorem C05_equality : forall (V : Type) (none : V) (veq : V -> V -> bool) (class_attrs : list string) (l : list (op V)) b c d e,
  ops_ok none veq class_attrs l [] = true ->
  let m := snd (run_ops none veq class_attrs l bmem0) in
  nth_error (contents m) b = Some (Some d) -> nth_error (contents m) c = Some (Some e) ->
  exists x, run_op none veq class_attrs (OEq b c) m = (RBool x, m) /\ run_op none veq class_attrs (ONe b c) m = (RBool (negb x), m) /\ (x = true <-> same_items veq d e).
Proof.
  intros V none veq class_attrs l b c d e H m Hb Hc. destruct (ops_rel none veq class_attrs l bmem0 [] (rel0 class_attrs) H) as [_ R]. fold m in R.
  rewrite (rel_contents class_attrs _ _ R) in Hb, Hc. set (ds := snd (dict_ops none veq l [])) in *.
  rewrite nth_error_map in Hb, Hc. destruct (nth_error ds b) as [d'|] eqn:Eb; [|discriminate]. inversion Hb; subst d'. destruct (nth_error ds c) as [e'|] eqn:Ec; [|discriminate]. inversion Hc; subst e'.
  exists (deq veq d e). pose proof (op_rel none veq class_attrs m ds (OEq b c) R eq_refl) as [E1 _]. pose proof (op_rel none veq class_attrs m ds (ONe b c) R eq_refl) as [E2 _].
  cbn [run_op dict_op] in *. rewrite Eb, Ec in E1, E2. destruct (data_of b m) as [[i d1]|]; [|discriminate]. destruct (data_of c m) as [[j e1]|]; [|discriminate]. cbn [fst] in E1, E2.
  split; [rewrite <- E1; reflexivity|]. split; [rewrite <- E2; reflexivity|]. apply (deq_same none); eapply (rel_nodup class_attrs); eauto.
Qed.
Print Assumptions C05_equality.

Example C05_equality_example :
  let l := [ONew [("cat", 1); ("dog", 2)]; ONew [("dog", 2); ("cat", 1)]; ONew [("cat", 1)]]%string in
  let m := snd (run_ops 0 Nat.eqb attrs0 l bmem0) in
  ops_ok 0 Nat.eqb attrs0 l [] = true /\ fst (run_op 0 Nat.eqb attrs0 (OEq 0 1) m) = RBool true /\ fst (run_op 0 Nat.eqb attrs0 (OEq 2 0) m) = RBool false.
Proof. vm_compute. repeat split. Qed.
