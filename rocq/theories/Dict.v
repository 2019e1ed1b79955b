(** Python dicts with string keys, in insertion order. *)
From Verif Require Import Base.

Section Dict.
  Context {V : Type}.
  Definition sdict : Type := list (string * V).
  Fixpoint sget (k : string) (d : sdict) : option V :=
    match d with
    | [] => None
    | (k', v) :: r => if String.eqb k k' then Some v else sget k r
    end.
  (** [d[k] = v] *)
  Fixpoint sset (k : string) (v : V) (d : sdict) : sdict :=
    match d with
    | [] => [(k, v)]
    | (k', w) :: r => if String.eqb k k' then (k', v) :: r else (k', w) :: sset k v r
    end.
  (** [del d[k]]; no effect on a missing key (the callers check) *)
  Fixpoint sdel (k : string) (d : sdict) : sdict :=
    match d with
    | [] => []
    | (k', w) :: r => if String.eqb k k' then r else (k', w) :: sdel k r
    end.
  (** [d.update(e)] *)
  Definition supd (d e : sdict) : sdict := fold_left (fun d p => sset (fst p) (snd p) d) e d.

  Lemma sget_sset k k' v d : sget k (sset k' v d) = if String.eqb k k' then Some v else sget k d.
  Proof.
    induction d as [|[j w] d IH]; cbn [sset sget]; [reflexivity|].
    destruct (String.eqb_spec k' j) as [->|Hne]; cbn [sget].
    - destruct (String.eqb_spec k j); reflexivity.
    - rewrite IH. destruct (String.eqb_spec k j) as [->|]; [|reflexivity]. destruct (String.eqb_spec j k') as [->|]; [contradiction|reflexivity].
  Qed.
  Lemma sset_keys k v d : map fst (sset k v d) = if match sget k d with Some _ => true | None => false end then map fst d else map fst d ++ [k].
  Proof. induction d as [|[j w] d IH]; cbn; [reflexivity|]. destruct (String.eqb k j) eqn:Ek; cbn; [reflexivity|]. rewrite IH. destruct (sget k d); reflexivity. Qed.
  Lemma sget_none k d : sget k d = None <-> ~ In k (map fst d).
  Proof.
    induction d as [|[j w] d IH]; cbn; [tauto|]. destruct (String.eqb_spec k j) as [->|Hne].
    - split; [discriminate|]. intros H. exfalso. apply H. left. reflexivity.
    - rewrite IH. split; [intros H [H1|H1]; congruence|tauto].
  Qed.
  Lemma sset_nodup k v d : NoDup (map fst d) -> NoDup (map fst (sset k v d)).
  Proof.
    intros H. rewrite sset_keys. destruct (sget k d) eqn:Eg; [exact H|]. apply sget_none in Eg. apply NoDup_rev in H. rewrite <- (rev_involutive (map fst d ++ [k])). apply NoDup_rev. rewrite rev_app_distr. cbn. constructor; [rewrite <- in_rev; exact Eg|exact H].
  Qed.
  Lemma sget_sdel k k' d : NoDup (map fst d) -> sget k (sdel k' d) = if String.eqb k k' then None else sget k d.
  Proof.
    induction d as [|[j w] d IH]; intros Hd; cbn [sdel sget]; [destruct (String.eqb k k'); reflexivity|]. inversion Hd; subst. destruct (String.eqb_spec k' j) as [->|Hne]; cbn [sget].
    - destruct (String.eqb_spec k j) as [->|]; [|reflexivity]. apply sget_none. assumption.
    - rewrite IH by assumption. destruct (String.eqb_spec k j) as [->|]; [|reflexivity]. destruct (String.eqb_spec j k') as [->|]; [contradiction|reflexivity].
  Qed.
  Lemma supd_app d e e' : supd d (e ++ e') = supd (supd d e) e'.
  Proof. apply fold_left_app. Qed.
  (** The last binding of a key in a list of bindings. *)
  Definition last_bound (k : string) (v : V) (e : list (string * V)) : Prop := exists a c, e = a ++ (k, v) :: c /\ ~ In k (map fst c).
  Lemma sget_supd d e k v : sget k (supd d e) = Some v <-> last_bound k v e \/ ~ In k (map fst e) /\ sget k d = Some v.
  Proof.
    revert d. induction e as [|[j w] e IH]; intros d; cbn [supd fold_left].
    - split; [auto|]. intros [[a [c [H _]]]|[_ H]]; [destruct a; discriminate|exact H].
    - change (fold_left _ e ?d0) with (supd d0 e). rewrite IH. cbn [fst snd map In]. rewrite sget_sset. split.
      + intros [[a [c [-> H]]]|[H1 H2]]; [left; exists ((j, w) :: a), c; auto|]. destruct (String.eqb_spec k j) as [->|Hne].
        * left. inversion H2; subst. exists [], e. auto.
        * right. split; [|exact H2]. intros [H3|H3]; [congruence|contradiction].
      + intros [[a [c [Heq H]]]|[H1 H2]].
        * destruct a as [|p a]; inversion Heq; subst.
          -- right. split; [exact H|]. rewrite String.eqb_refl. reflexivity.
          -- left. exists a, c. auto.
        * right. split; [tauto|]. destruct (String.eqb_spec k j) as [->|]; [exfalso; apply H1; left; reflexivity|exact H2].
  Qed.
End Dict.
Arguments sdict : clear implicits.
