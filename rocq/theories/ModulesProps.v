(** Theorems about create_module and temporary_module. *)
From Verif Require Import Base Dict ModulesModel.

(** What a dotted name is: parent package and last component. *)
Definition child_of (x pkg final : string) : Prop := x = (pkg ++ "." ++ final)%string /\ ~ In "."%char (list_ascii_of_string final).
Definition top_level (x : string) : Prop := ~ In "."%char (list_ascii_of_string x).

Lemma rsplit_spec x : match rsplit_dot x with Some (p, f) => child_of x p f | None => top_level x end.
Proof.
  unfold child_of, top_level. induction x as [|c x IH]; cbn; [tauto|]. destruct (rsplit_dot x) as [[p f]|].
  - destruct IH as [-> H]. auto.
  - destruct (Ascii.eqb_spec c ".") as [->|Hne]; [auto|]. intros [H|H]; [congruence|]. contradiction.
Qed.
Lemma child_rsplit x p f : child_of x p f -> rsplit_dot x = Some (p, f).
Proof.
  intros [-> Hf]. assert (Hn : rsplit_dot f = None).
  { pose proof (rsplit_spec f) as H. destruct (rsplit_dot f) as [[q g]|]; [|reflexivity]. destruct H as [-> _]. exfalso. apply Hf. clear. induction q; cbn; auto. }
  induction p as [|c p IH]; cbn; [rewrite Hn; reflexivity|]. cbn in IH. rewrite IH. reflexivity.
Qed.
Lemma top_rsplit x : top_level x -> rsplit_dot x = None.
Proof.
  intros H. pose proof (rsplit_spec x) as Hx. destruct (rsplit_dot x) as [[p f]|]; [|reflexivity]. destruct Hx as [-> _]. exfalso. apply H. clear. induction p; cbn; auto.
Qed.

Section Theorems.
  Context {U : Type}.
  Variable isidentifier : string -> bool.
  Variable truthy : nat -> bool.
  Variable gen : nat -> string.

  (** The components of a dotted name. *)
  Definition well_named (x : string) : Prop := Forall (fun c => isidentifier c = true) (split_dots x).
  (** The name under which the module is to be entered. *)
  Definition target_name (dotted : arg) (s : mst U) (x : string) : Prop :=
    match dotted with
    | ArgNone => x = gen (m_uuid s)
    | ArgStr y => (y = ""%string /\ x = gen (m_uuid s)) \/ (y <> ""%string /\ x = y /\ well_named y)
    | ArgOther => False
    end.
  Definition str_or_none (a : arg) : Prop := match a with ArgOther => False | _ => True end.
  Definition parent_ok (x : string) (s : mst U) : Prop := forall pkg final, child_of x pkg final -> exists p, sget pkg (m_sys s) = Some p /\ truthy p = true.

  Lemma create_cases dotted filename up s : 
    (exists x, target_name dotted s x /\ str_or_none filename /\ parent_ok x s /\
       create_module isidentifier truthy gen dotted filename up s =
         (Ok (m_next s), mkMst (sset x (m_next s) (m_sys s))
            (match rsplit_dot x with Some (pkg, final) => match sget pkg (m_sys s) with Some p => if up then attr_set (p, final) (m_next s) (m_attr s) else m_attr s | None => m_attr s end | None => m_attr s end)
            (S (m_next s)) (S (m_uuid s)) (m_user s))) \/
    ((forall x, target_name dotted s x -> str_or_none filename -> ~ parent_ok x s) /\
     exists e s', create_module isidentifier truthy gen dotted filename up s = (Err e, s') /\ m_sys s' = m_sys s /\ m_attr s' = m_attr s /\ m_user s' = m_user s /\
       ((((forall x, ~ target_name dotted s x) \/ ~ str_or_none filename) /\ e_cls e = "TypeError"%string) \/ ((exists x, target_name dotted s x) /\ str_or_none filename /\ e_cls e = "ModuleNotFoundError"%string))).
  Proof.
    unfold create_module.
    destruct (match dotted with ArgOther => true | ArgStr x => negb (String.eqb x "") && negb (forallb isidentifier (split_dots x)) | ArgNone => false end) eqn:E1.
    - assert (Hno : forall x, ~ target_name dotted s x).
      { intros x Hx. destruct dotted as [|y|]; cbn in Hx; [discriminate| |exact Hx]. apply andb_true_iff in E1. destruct E1 as [E1 E2]. apply negb_true_iff in E1, E2. apply String.eqb_neq in E1.
        destruct Hx as [[-> _]|[_ [_ Hw]]]; [congruence|]. rewrite (proj2 (forallb_forall _ _)) in E2; [discriminate|]. apply Forall_forall. exact Hw. }
      right. split; [|eexists _, _; split; [reflexivity|]; cbn; auto 10]. intros x Hx _. destruct (Hno x Hx).
    - destruct (match filename with ArgOther => true | _ => false end) eqn:E2.
      + assert (Hno : ~ str_or_none filename) by (destruct filename; try discriminate; exact (fun H => H)).
        right. split; [|eexists _, _; split; [reflexivity|]; cbn; auto 10]. intros x _ Hs. destruct (Hno Hs).
      + assert (Hfn : str_or_none filename) by (destruct filename; try discriminate; exact I).
        set (name := match dotted with ArgStr x => if String.eqb x "" then gen (m_uuid s) else x | _ => gen (m_uuid s) end).
        assert (Hname : target_name dotted s name).
        { destruct dotted as [|y|]; cbn; [reflexivity| |discriminate]. subst name. cbn. destruct (String.eqb_spec y "") as [->|Hne]; [auto|]. right. split; [exact Hne|]. split; [reflexivity|]. cbn in E1. apply negb_false_iff in E1. apply Forall_forall. apply forallb_forall. exact E1. }
        assert (Huniq : forall x, target_name dotted s x -> x = name).
        { intros x Hx. destruct dotted as [|y|]; cbn in Hx; [exact Hx| |destruct Hx]. subst name. cbn. destruct (String.eqb_spec y "") as [->|Hne]; destruct Hx as [[H1 H2]|[H1 [H2 _]]]; congruence. }
        clearbody name. cbv zeta. destruct (rsplit_dot name) as [[pkg final]|] eqn:Er.
        * pose proof (rsplit_spec name) as Hc. rewrite Er in Hc. destruct (sget pkg (m_sys s)) as [p|] eqn:Ep; [destruct (truthy p) eqn:Et|].
          -- left. exists name. split; [exact Hname|]. split; [exact Hfn|]. split; [|rewrite Er, Ep; reflexivity]. intros q g Hq. apply child_rsplit in Hq. rewrite Er in Hq. inversion Hq; subst. eauto.
          -- right. split; [|eexists _, _; split; [reflexivity|]; cbn; eauto 12]. intros x Hx _ Hp. rewrite (Huniq x Hx) in Hp. destruct (Hp pkg final Hc) as [p' [H1 H2]]. congruence.
          -- right. split; [|eexists _, _; split; [reflexivity|]; cbn; eauto 12]. intros x Hx _ Hp. rewrite (Huniq x Hx) in Hp. destruct (Hp pkg final Hc) as [p' [H1 H2]]. congruence.
        * left. exists name. split; [exact Hname|]. split; [exact Hfn|]. split; [|rewrite Er; reflexivity]. intros q g Hq. apply child_rsplit in Hq. congruence.
  Qed.

  Lemma attr_del_get k k' l : attr_get k (attr_del k' l) = if key_eqb k k' then None else attr_get k l.
  Proof.
    unfold attr_get, attr_del. induction l as [|[j v] l IH]; cbn; [destruct (key_eqb k k'); reflexivity|].
    assert (Hk : forall a b, key_eqb a b = true <-> a = b).
    { intros [a1 a2] [b1 b2]. unfold key_eqb. cbn. rewrite andb_true_iff, Nat.eqb_eq, String.eqb_eq. split; [intros [-> ->]; reflexivity|intros H; inversion H; auto]. }
    destruct (key_eqb k' j) eqn:E1; cbn [negb].
    - apply Hk in E1. subst j. rewrite IH. destruct (key_eqb k k') eqn:E2; [reflexivity|]. reflexivity.
    - cbn. destruct (key_eqb k j) eqn:E3; [|exact IH]. apply Hk in E3. subst j. destruct (key_eqb k k') eqn:E2; [|reflexivity]. apply Hk in E2. subst k'. assert (key_eqb k k = true) by (apply Hk; reflexivity). congruence.
  Qed.
  Lemma attr_set_get k k' v l : attr_get k (attr_set k' v l) = if key_eqb k k' then Some v else attr_get k l.
  Proof.
    unfold attr_set. pose proof (attr_del_get k k' l) as H. unfold attr_get in *. cbn. destruct (key_eqb k k'); [reflexivity|exact H].
  Qed.

  (** C40. create_module succeeds exactly if the arguments are strings or None, the components of the name are identifiers, and
      the parent package (if the name has a dot) is loaded. Then it has entered a new module under the name and changed no other
      entry; no other attribute than that of the parent for the module, if asked for; *)
  Theorem C40_create_module_success dotted filename up (s : mst U) m s' :
    create_module isidentifier truthy gen dotted filename up s = (Ok m, s') ->
    m = m_next s /\ m_user s' = m_user s /\ exists x, target_name dotted s x /\ parent_ok x s /\
    (forall y, sget y (m_sys s') = if String.eqb y x then Some m else sget y (m_sys s)) /\
    (forall k, attr_get k (m_attr s') <> attr_get k (m_attr s) ->
       up = true /\ attr_get k (m_attr s') = Some m /\ exists pkg, child_of x pkg (snd k) /\ sget pkg (m_sys s) = Some (fst k)) /\
    (up = true -> forall pkg final p, child_of x pkg final -> sget pkg (m_sys s) = Some p -> attr_get (p, final) (m_attr s') = Some m).
  Proof.
    intros H. destruct (create_cases dotted filename up s) as [[x [Hx [Hf [Hp Hc]]]]|[_ [e [s1 [Hc _]]]]]; rewrite Hc in H; [|discriminate].
    inversion H; subst; clear H. split; [reflexivity|]. split; [reflexivity|]. exists x. split; [exact Hx|]. split; [exact Hp|]. split; [intros y; apply sget_sset|]. split.
    2: { intros -> pkg final p Hch Ep. apply child_rsplit in Hch. cbn [m_attr]. rewrite Hch, Ep, attr_set_get. unfold key_eqb. cbn [fst snd]. rewrite Nat.eqb_refl, String.eqb_refl. reflexivity. }
    cbn [m_attr]. intros k Hk. destruct (rsplit_dot x) as [[pkg final]|] eqn:Er; [|congruence]. pose proof (rsplit_spec x) as Hch. rewrite Er in Hch. destruct (sget pkg (m_sys s)) as [p|] eqn:Ep; [|congruence].
    destruct up; [|congruence]. split; [reflexivity|]. rewrite attr_set_get in *. destruct (key_eqb k (p, final)) eqn:Ek; [|congruence].
    destruct k as [k1 k2]. unfold key_eqb in Ek. cbn in Ek. apply andb_true_iff in Ek. destruct Ek as [E1 E2]. apply Nat.eqb_eq in E1. apply String.eqb_eq in E2. subst. split; [reflexivity|]. exists pkg. auto.
  Qed.
  Theorem C40_create_module_succeeds dotted filename up s x :
    target_name dotted s x -> str_or_none filename -> parent_ok x s ->
    exists s', create_module isidentifier truthy gen dotted filename up s = (Ok (m_next s), s').
  Proof.
    intros Hx Hf Hp. destruct (create_cases dotted filename up s) as [[y [_ [_ [_ Hc]]]]|[Hn _]]; [rewrite Hc; eauto|]. destruct (Hn x Hx Hf Hp).
  Qed.
  (** ... and on failure it has changed nothing. Arguments of a wrong kind: TypeError; no such package: ModuleNotFoundError. *)
  Theorem C40_create_module_failure dotted filename up (s : mst U) e s' :
    create_module isidentifier truthy gen dotted filename up s = (Err e, s') ->
    m_sys s' = m_sys s /\ m_attr s' = m_attr s /\ m_user s' = m_user s /\
    ((((forall x, ~ target_name dotted s x) \/ ~ str_or_none filename) /\ e_cls e = "TypeError"%string) \/ ((exists x, target_name dotted s x) /\ str_or_none filename /\ e_cls e = "ModuleNotFoundError"%string)).
  Proof.
    intros H. destruct (create_cases dotted filename up s) as [[x [_ [_ [_ Hc]]]]|[_ [e' [s1 [Hc H1]]]]]; rewrite Hc in H; [discriminate|]. inversion H; subst. exact H1.
  Qed.

  (** The attribute of the parent package for the module, if asked for, unless the block has removed the module or the package. *)
  Definition detached (x : string) (up : bool) (s : mst U) (k : nat * string) : Prop :=
    up = true /\ sget x (m_sys s) <> None /\ exists pkg, child_of x pkg (snd k) /\ sget pkg (m_sys s) = Some (fst k).
  Lemma child_longer x pkg final : child_of x pkg final -> pkg <> x.
  Proof. intros [-> _] H. apply (f_equal String.length) in H. revert H. induction pkg as [|c q IH]; cbn in *; [lia|]. intros H. apply IH. lia. Qed.
  Lemma exit_attr x up (s2 : mst U) k : NoDup (map fst (m_sys s2)) ->
    (detached x up s2 k -> attr_get k (m_attr (temporary_exit (ArgStr x) up s2)) = None) /\
    (~ detached x up s2 k -> attr_get k (m_attr (temporary_exit (ArgStr x) up s2)) = attr_get k (m_attr s2)).
  Proof.
    intros Hd. destruct k as [p f]. unfold temporary_exit, detached. destruct (sget x (m_sys s2)) as [o|] eqn:Eo; [|split; [intros (_ & H & _); congruence|reflexivity]].
    destruct up; [|split; [intros (H & _); congruence|reflexivity]]. pose proof (rsplit_spec x) as Hc. destruct (rsplit_dot x) as [[pkg final]|] eqn:Er.
    - cbn [m_sys m_attr]. rewrite sget_sdel by exact Hd. rewrite (proj2 (String.eqb_neq pkg x) (child_longer _ _ _ Hc)). destruct (sget pkg (m_sys s2)) as [q|] eqn:Eq; cbn [m_attr fst snd].
      + rewrite attr_del_get. unfold key_eqb. cbn [fst snd]. split.
        * intros (_ & _ & pkg' & Hc' & Hp). apply child_rsplit in Hc'. rewrite Er in Hc'. injection Hc' as <- <-. rewrite Eq in Hp. injection Hp as ->. rewrite Nat.eqb_refl, String.eqb_refl. reflexivity.
        * intros Hn. destruct (Nat.eqb_spec p q) as [->|]; [|reflexivity]. destruct (String.eqb_spec f final) as [->|]; [|reflexivity]. destruct Hn. split; [reflexivity|]. split; [discriminate|]. exists pkg. auto.
      + split; [|reflexivity]. intros (_ & _ & pkg' & Hc' & Hp). apply child_rsplit in Hc'. rewrite Er in Hc'. injection Hc' as <- <-. congruence.
    - split; [|reflexivity]. cbn [m_attr fst snd]. intros (_ & _ & pkg' & Hc' & _). apply child_rsplit in Hc'. congruence.
  Qed.
  (** C40. temporary_module, called with a name that is not in sys.modules: afterwards sys.modules is what the block has made of
      it, without the name, however the block ends; the attribute of the parent package is gone, and no other is changed; if the block
      changes nothing, sys.modules is as before. *)
  Theorem C40_temporary_module_partial {A} x filename up (block : nat -> mst U -> res A * mst U) s r s' :
    x <> ""%string -> sget x (m_sys s) = None -> NoDup (map fst (m_sys s)) ->
    (forall m s1 r s2, block m s1 = (r, s2) -> NoDup (map fst (m_sys s1)) -> NoDup (map fst (m_sys s2))) ->
    temporary_module isidentifier truthy gen (ArgStr x) filename up block s = (r, s') ->
    sget x (m_sys s') = None /\
    ((exists s1 s2, create_module isidentifier truthy gen (ArgStr x) filename up s = (Ok (m_next s), s1) /\ block (m_next s) s1 = (r, s2) /\
        (forall y, y <> x -> sget y (m_sys s') = sget y (m_sys s2)) /\
        (forall k, detached x up s2 k -> attr_get k (m_attr s') = None) /\
        (forall k, ~ detached x up s2 k -> attr_get k (m_attr s') = attr_get k (m_attr s2)) /\
        (m_sys s2 = m_sys s1 -> forall y, sget y (m_sys s') = sget y (m_sys s))) \/
     (exists e s1, create_module isidentifier truthy gen (ArgStr x) filename up s = (Err e, s1) /\ r = Err e /\ m_sys s' = m_sys s /\ m_attr s' = m_attr s)).
  Proof.
    intros Hx Hnew Hnd Hblk H. unfold temporary_module in H.
    assert (Hexit : forall s2 : mst U, NoDup (map fst (m_sys s2)) -> forall y, sget y (m_sys (temporary_exit (ArgStr x) up s2)) = if String.eqb y x then None else sget y (m_sys s2)).
    { intros s2 Hd y. unfold temporary_exit. destruct (sget x (m_sys s2)) as [o|] eqn:Eo.
      - assert (Hs : sget y (sdel x (m_sys s2)) = if String.eqb y x then None else sget y (m_sys s2)) by (apply sget_sdel, Hd).
        destruct up; [|exact Hs]. destruct (rsplit_dot x) as [[pkg final]|]; [|exact Hs]. cbn [m_sys]. destruct (sget pkg (sdel x (m_sys s2))); exact Hs.
      - destruct (String.eqb_spec y x) as [->|]; [exact Eo|reflexivity]. }
    destruct (create_module isidentifier truthy gen (ArgStr x) filename up s) as [[m|e] s1] eqn:Ec.
    - pose proof (C40_create_module_success _ _ _ _ _ _ Ec) as (-> & _ & z & Hz & _ & Hs & _).
      destruct (block (m_next s) s1) as [r2 s2] eqn:Eb. assert (r2 = r /\ temporary_exit (ArgStr x) up s2 = s') as [-> <-] by (split; congruence).
      assert (Hd1 : NoDup (map fst (m_sys s1))).
      { destruct (create_cases (ArgStr x) filename up s) as [[y [_ [_ [_ Hc]]]]|[_ [e' [s3 [Hc _]]]]]; rewrite Hc in Ec; [|discriminate]. inversion Ec; subst. cbn. apply sset_nodup, Hnd. }
      pose proof (Hblk _ _ _ _ Eb Hd1) as Hd2. split; [rewrite Hexit, String.eqb_refl by exact Hd2; reflexivity|]. left. exists s1, s2. split; [reflexivity|]. split; [exact Eb|]. split.
      + intros y Hy. rewrite Hexit by exact Hd2. apply String.eqb_neq in Hy. rewrite Hy. reflexivity.
      + split; [intros k; apply (exit_attr x up s2 k Hd2)|]. split; [intros k; apply (exit_attr x up s2 k Hd2)|]. intros He y. rewrite Hexit by exact Hd2. rewrite He, Hs. destruct Hz as [[Hz _]|[_ [-> _]]]; [contradiction|]. destruct (String.eqb_spec y x) as [->|]; [symmetry; exact Hnew|reflexivity].
    - pose proof (C40_create_module_failure _ _ _ _ _ _ Ec) as (He & Ha & _). assert (Err e = r /\ temporary_exit (ArgStr x) up s1 = s') as [<- <-] by (split; congruence). assert (Hs : temporary_exit (ArgStr x) up s1 = s1) by (unfold temporary_exit; rewrite He, Hnew; reflexivity).
      rewrite Hs. rewrite He. split; [exact Hnew|]. right. eexists _, _. split; [reflexivity|]. auto.
  Qed.
End Theorems.
Print Assumptions C40_create_module_success.
Print Assumptions C40_create_module_succeeds.
Print Assumptions C40_create_module_failure.
Print Assumptions C40_temporary_module_partial.

Definition ident (x : string) : bool := negb (String.eqb x "") && negb (String.eqb x "1").
Definition gen0 (n : nat) : string := "dynamically_created_module_X".
Definition st0 : mst unit := mkMst [("os"%string, 1); ("pkg"%string, 2)] [] 10 0 tt.
Definition idle (m : nat) (s : mst unit) : res unit * mst unit := (Ok tt, s).

(** C40, false: without a name, the temporary module stays in sys.modules. *)
Theorem C40_unnamed_temporary_module_leaks_refuted : exists (s s' : mst unit) x,
  temporary_module ident (fun _ => true) gen0 ArgNone ArgNone true idle s = (Ok tt, s') /\ sget x (m_sys s) = None /\ sget x (m_sys s') <> None.
Proof. exists st0. eexists _, (gen0 0). split; [vm_compute; reflexivity|]. split; [reflexivity|]. vm_compute. discriminate. Qed.
Print Assumptions C40_unnamed_temporary_module_leaks_refuted.
(** C40, false: a module that had the name before is gone afterwards, not restored. *)
Theorem C40_existing_module_lost_refuted : exists (s s' : mst unit) x o,
  temporary_module ident (fun _ => true) gen0 (ArgStr x) ArgNone true idle s = (Ok tt, s') /\ sget x (m_sys s) = Some o /\ sget x (m_sys s') = None.
Proof. exists st0. eexists _, "os"%string, 1. split; [vm_compute; reflexivity|]. split; reflexivity. Qed.
Print Assumptions C40_existing_module_lost_refuted.
(** C40, false: if create_module refuses the arguments, an existing module of the name is deleted nevertheless (here: the file
    name is not a string). *)
Theorem C40_refused_temporary_module_deletes_refuted : exists (s s' : mst unit) x o e,
  temporary_module ident (fun _ => true) gen0 (ArgStr x) ArgOther true idle s = (Err e, s') /\ sget x (m_sys s) = Some o /\ sget x (m_sys s') = None.
Proof. exists st0. eexists _, "os"%string, 1, _. split; [vm_compute; reflexivity|]. split; reflexivity. Qed.
Print Assumptions C40_refused_temporary_module_deletes_refuted.

Example C40_example :
  let '(r, s') := temporary_module ident (fun _ => true) gen0 (ArgStr "pkg.sub") ArgNone true (fun m s => (@Err unit (mkExn "ValueError" []), s)) st0 in
  r = Err (mkExn "ValueError" []) /\ m_sys s' = m_sys st0 /\ m_attr s' = [] /\ target_name ident gen0 (ArgStr "pkg.sub") st0 "pkg.sub" /\ parent_ok (fun _ => true) "pkg.sub" st0.
Proof.
  vm_compute. repeat split; auto.
  - right. repeat split; try discriminate. repeat constructor.
  - intros pkg final Hc. apply (child_rsplit "pkg.sub") in Hc. vm_compute in Hc. inversion Hc; subst. exists 2. split; reflexivity.
Qed.
Example C40_example_failure : fst (create_module ident (fun _ => true) gen0 (ArgStr "nopkg.sub") ArgNone true st0) = Err (mkExn "ModuleNotFoundError" []) /\
  fst (create_module ident (fun _ => true) gen0 (ArgStr "pkg.1") ArgNone true st0) = Err (mkExn "TypeError" []).
Proof. split; reflexivity. Qed.
