(** Property theorems about Bunch: C05, C06. *)
From Verif Require Import Base BunchModel BunchSpec BunchProofs.

(** C05. Any program over any number of bunches, run from scratch, gives the same results (values,
    KeyErrors, iteration orders) as the same program on plain dictionaries that share nothing, and
    leaves the same contents, provided ([ops_ok]) it passes no keyword called self, copies only
    contents whose keys are strings other than "self", and reads or assigns attributes under names
    that are not attributes of the class. Partial: the proviso on [copy] and [replace] is needed,
    see below. *)
Theorem C05_refines_dict_partial :
  forall (V : Type) (none : V) (veq : V -> V -> bool) (class_attrs : list string) (l : list (op V)),
  ops_ok none veq class_attrs l [] = true ->
  fst (run_ops none veq class_attrs l bmem0) = fst (dict_ops none veq l []) /\
  contents (snd (run_ops none veq class_attrs l bmem0)) = map Some (snd (dict_ops none veq l [])).
Proof.
  intros V none veq class_attrs l H. destruct (ops_rel none veq class_attrs l bmem0 [] (rel0 class_attrs) H) as [E R].
  split; [exact E|]. apply (rel_contents class_attrs). exact R.
Qed.
Print Assumptions C05_refines_dict_partial.

(** Attribute reads and item reads agree, at any time, for every name that is not reserved. *)
Theorem C05_attribute_is_item :
  forall (V : Type) (none : V) veq class_attrs (l : list (op V)) b s,
  forallb public l = true -> reserved class_attrs s = false ->
  let m := snd (run_ops none veq class_attrs l bmem0) in
  run_op none veq class_attrs (OGetAttr b s) m = run_op none veq class_attrs (OGetItem b (KStr s)) m.
Proof.
  intros V none veq class_attrs l b s Hp Hr m.
  assert (H : intact class_attrs m) by (apply intact_ops; [constructor|exact Hp]).
  cbn [run_op]. unfold bunch_getattr. destruct (nth_error (m_objs m) b) as [o|] eqn:E.
  - unfold intact in H. rewrite Forall_forall in H. destruct (H o (nth_error_In _ _ E)) as [i [d [Eo _]]]. subst o.
    unfold reserved in Hr. apply orb_false_iff in Hr. destruct Hr as [H1 H2].
    assert (Es : sget s (bobj (V := V) class_attrs i) = None).
    { unfold bobj. cbn [sget]. unfold smem in H2. cbn [existsb] in H2. apply orb_false_iff in H2. destruct H2 as [H2 H3]. rewrite H2.
      apply orb_false_iff in H3. destruct H3 as [H3 _]. rewrite H3. reflexivity. }
    rewrite Es, H1. reflexivity.
  - unfold peek, data_of. rewrite E. reflexivity.
Qed.
Print Assumptions C05_attribute_is_item.

(** A program with all sorts of operations. *)
Definition attrs0 : list string := ["copy"; "get"; "pop"; "keys"; "update"; "__init__"]%string.
Definition ex05 : list (op nat) :=
  [ONew [("cat", 1); ("dog", 2)]; OSetAttr 0 "bird" 3; OCopy 0; ODelItem 0 (KStr "cat");
   OGetAttr 1 "cat"; OGetAttr 0 "cat"; OReplace 0 1; OPopItem 0; OIter 0; OEq 0 1;
   OSetItem 1 (KStr "get") 7; OSetDefault 0 (KStr "emu") None; OPop 1 (KStr "nix") (Some 9); OItems 1]%string.
Example C05_example : ops_ok 0 Nat.eqb attrs0 ex05 [] = true /\
  fst (run_ops 0 Nat.eqb attrs0 ex05 bmem0) =
  [RNew 0; RUnit; RNew 1; RUnit; RVal 1; RKeyError (KStr "cat"); RUnit; RItem (KStr "bird", 3);
   RKeys [KStr "cat"; KStr "dog"]; RBool false; RUnit; RVal 0; RVal 9;
   RItems [(KStr "cat", 1); (KStr "dog", 2); (KStr "bird", 3); (KStr "get", 7)]]%string.
Proof. split; vm_compute; reflexivity. Qed.

(** C05 in full is false: [b["self"] = 1; b.copy()] raises TypeError, because copy passes the items
    as keyword arguments; so does a key that is not a string; dict.copy does not. *)
Theorem C05_copy_refuted : exists (l : list (op nat)) class_attrs,
  forallb public l = true /\
  fst (run_ops 0 Nat.eqb class_attrs l bmem0) <> fst (dict_ops 0 Nat.eqb l []) /\
  fst (run_ops 0 Nat.eqb class_attrs l bmem0) = [RNew 0; RUnit; RTypeError; RNew 1; RUnit; RTypeError].
Proof.
  exists [ONew []; OSetItem 0 (KStr "self") 1; OCopy 0; ONew []; OSetItem 1 (KObj 5) 1; OReplace 0 1], attrs0.
  split; [reflexivity|]. split; [|vm_compute; reflexivity]. vm_compute. discriminate.
Qed.
Print Assumptions C05_copy_refuted.

(** C06. After any program that does not assign the two private attributes: reading a class
    attribute yields the class's attribute, never data. *)
Theorem C06_methods_stay : forall (V : Type) (none : V) veq class_attrs (l : list (op V)) b s,
  forallb public l = true -> In s class_attrs -> ~ In s ["_data"; "_reserved_names"]%string ->
  let m := snd (run_ops none veq class_attrs l bmem0) in
  b < List.length (m_objs m) ->
  run_op none veq class_attrs (OGetAttr b s) m = (RMethod s, m).
Proof.
  intros V none veq class_attrs l b s Hp Hs Hn m Hb.
  assert (H : intact class_attrs m) by (apply intact_ops; [constructor|exact Hp]).
  cbn [run_op]. unfold bunch_getattr. destruct (nth_error (m_objs m) b) as [o|] eqn:E; [|apply nth_error_None in E; lia].
  unfold intact in H. rewrite Forall_forall in H. destruct (H o (nth_error_In _ _ E)) as [i [d [Eo _]]]. subst o.
  assert (Es : sget s (bobj (V := V) class_attrs i) = None).
  { unfold bobj. cbn [sget]. destruct (String.eqb s "_data") eqn:E1; [apply String.eqb_eq in E1; subst; exfalso; apply Hn; simpl; auto|].
    destruct (String.eqb s "_reserved_names") eqn:E2; [apply String.eqb_eq in E2; subst; exfalso; apply Hn; simpl; auto|]. reflexivity. }
  rewrite Es. apply smem_In in Hs. rewrite Hs. reflexivity.
Qed.
Print Assumptions C06_methods_stay.

(** Assigning to a class attribute raises AttributeError and changes nothing at all. *)
Theorem C06_reserved_assignment_raises : forall (V : Type) (none : V) veq class_attrs (l : list (op V)) b s v,
  forallb public l = true -> In s class_attrs -> ~ In s ["_data"; "_reserved_names"]%string ->
  let m := snd (run_ops none veq class_attrs l bmem0) in
  b < List.length (m_objs m) ->
  run_op none veq class_attrs (OSetAttr b s v) m = (RAttributeError s, m).
Proof.
  intros V none veq class_attrs l b s v Hp Hs Hn m Hb.
  assert (H : intact class_attrs m) by (apply intact_ops; [constructor|exact Hp]).
  cbn [run_op]. unfold bunch_setattr, names_of. destruct (nth_error (m_objs m) b) as [o|] eqn:E; [|apply nth_error_None in E; lia].
  unfold intact in H. rewrite Forall_forall in H. destruct (H o (nth_error_In _ _ E)) as [i [d [Eo _]]]. subst o.
  destruct (smem s ["_data"; "_reserved_names"]%string) eqn:E1; [apply smem_In in E1; contradiction|].
  change (sget "_reserved_names" (bobj (V := V) class_attrs i)) with (Some (@SNames V (class_attrs ++ ["_data"; "_reserved_names"]%string))).
  cbv iota. rewrite smem_app. apply smem_In in Hs. rewrite Hs. reflexivity.
Qed.
Print Assumptions C06_reserved_assignment_raises.

(** Data stored by item access is reachable by item access, whatever its name, and item access
    to other keys is not affected. *)
Theorem C06_items_reachable : forall (V : Type) (none : V) veq class_attrs (l : list (op V)) b k v,
  forallb public l = true ->
  let m := snd (run_ops none veq class_attrs l bmem0) in
  b < List.length (m_objs m) ->
  let m' := snd (run_op none veq class_attrs (OSetItem b k v) m) in
  fst (run_op none veq class_attrs (OSetItem b k v) m) = RUnit /\
  run_op none veq class_attrs (OGetItem b k) m' = (RVal v, m') /\
  forall k', k' <> k -> fst (run_op none veq class_attrs (OGetItem b k') m') = fst (run_op none veq class_attrs (OGetItem b k') m).
Proof.
  intros V none veq class_attrs l b k v Hp m Hb.
  assert (H : intact class_attrs m) by (apply intact_ops; [constructor|exact Hp]).
  cbn [run_op]. destruct (nth_error (m_objs m) b) as [o|] eqn:E; [|apply nth_error_None in E; lia].
  unfold intact in H. rewrite Forall_forall in H. destruct (H o (nth_error_In _ _ E)) as [i [d [Eo [Hd _]]]]. subst o.
  assert (Dm : data_of b m = Some (i, d)) by (unfold data_of; rewrite E; simpl; rewrite Hd; reflexivity).
  unfold poke. rewrite Dm. cbn [fst snd].
  assert (Dm' : data_of b (set_dict i (dset k v d) m) = Some (i, dset k v d)).
  { unfold data_of, set_dict. cbn [m_objs m_dicts]. rewrite E. simpl. rewrite nth_upd_same; [reflexivity|]. apply nth_error_Some. congruence. }
  unfold peek. rewrite Dm', Dm. cbn [fst]. split; [reflexivity|]. split.
  - f_equal. unfold d_getitem. assert (G : dget k (dset k v d) = Some v); [|rewrite G; reflexivity].
    clear. induction d as [|[k' w] d IH]; simpl; [rewrite key_eqb_refl; reflexivity|].
    destruct (key_eqb k k') eqn:E; simpl; rewrite E; auto.
  - intros k' Hk. unfold d_getitem. assert (G : dget k' (dset k v d) = dget k' d); [|rewrite G; reflexivity].
    clear - Hk. induction d as [|[k2 w] d IH]; simpl.
    + destruct (key_eqb k' k) eqn:E; [apply key_eqb_eq in E; contradiction|reflexivity].
    + destruct (key_eqb k k2) eqn:E; simpl.
      * apply key_eqb_eq in E. subst k2. destruct (key_eqb k' k) eqn:E2; [apply key_eqb_eq in E2; contradiction|reflexivity].
      * destruct (key_eqb k' k2); auto.
Qed.
Print Assumptions C06_items_reachable.

Definition ex06 : list (op nat) :=
  [ONew [("cat", 1); ("pop", 2)]; OSetAttr 0 "get" 3; OSetItem 0 (KStr "get") 4; OGetItem 0 (KStr "get");
   OGetAttr 0 "get"; OGetAttr 0 "pop"; ODelAttr 0 "get"; OItems 0]%string.
Example C06_example : forallb public ex06 = true /\
  fst (run_ops 0 Nat.eqb attrs0 ex06 bmem0) =
  [RNew 0; RAttributeError "get"; RUnit; RVal 4; RMethod "get"; RMethod "pop"; RUnit; RItems [(KStr "cat", 1); (KStr "pop", 2)]]%string.
Proof. split; vm_compute; reflexivity. Qed.
