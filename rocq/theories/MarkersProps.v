(** Property theorems about markers.py: C07, C08. *)
From Verif Require Import Base AstLib UtilsModel MarkersModel MarkersSpec MarkersProofs.

(** *** C07 *)
Theorem C07_delete_markers_exact : forall (M : Type) (iscls : string -> bool) (t : tree M),
  wf t = true -> nodes_only t = true -> markers_ok iscls t = true ->
  exists t', delete_markers iscls t = Ok t' /\
    has_kind iscls t' = false /\
    events (fun _ => false) t' = events iscls t.
Proof.
  intros M iscls t Hw Hn Hm. destruct (delete_good iscls t Hw Hm Hn) as [t' [E [G1 [G2 _]]]].
  exists t'; auto.
Qed.
Print Assumptions C07_delete_markers_exact.

Theorem C07_delete_markers_identity : forall (M : Type) (iscls : string -> bool) (t : tree M),
  wf t = true -> has_kind iscls t = false ->
  (is_node t = true \/ exists l, t = Ls l /\ forallb is_node l = true) ->
  delete_markers iscls t = Ok t.
Proof. intros M iscls t Hw Hk Hs. exact (delete_identity iscls t Hw Hk Hs). Qed.
Print Assumptions C07_delete_markers_identity.

(** The hypothesis on marker bodies is needed: an empty marker makes the call raise. *)
Theorem C07_empty_marker_raises : forall (M : Type) (iscls : string -> bool) (m : M) k,
  iscls k = true ->
  delete_markers iscls (Nd m k [("body"%string, NoneT)]) = Err (attribute_error "_fields").
Proof. intros M iscls m k H. cbn. rewrite H. reflexivity. Qed.
Print Assumptions C07_empty_marker_raises.

(** A statement suite with a marker holding a suite, with a marker inside, beside a plain node. *)
Definition is_done (k : string) : bool := String.eqb k "Done".
Definition nm (s : string) : tree unit := Nd tt "Name" [("id"%string, At (AStr s))].
Definition done (b : tree unit) : tree unit := Nd tt "Done" [("body"%string, b)].
Definition ex07 : tree unit :=
  Nd tt "Module" [("body"%string, Ls [nm "x"; done (Ls [nm "y"; done (nm "z")]); nm "w"])].
Example C07_example :
  wf ex07 = true /\ nodes_only ex07 = true /\ markers_ok is_done ex07 = true /\
  delete_markers is_done ex07
  = Ok (Nd tt "Module" [("body"%string, Ls [nm "x"; nm "y"; nm "z"; nm "w"])]).
Proof. repeat split. Qed.

(** *** C08 *)
Theorem C08_get_markers_order : forall (M : Type) (iscls : string -> bool) (t : tree M),
  wf t = true -> nodes_only t = true ->
  get_markers iscls t = Ok (filter (fun n => iscls (kind_of n)) (preorder t)).
Proof. intros M iscls t Hw Hn. exact (get_markers_preorder iscls t Hw Hn). Qed.
Print Assumptions C08_get_markers_order.

Theorem C08_get_markers_complete : forall (M : Type) (iscls : string -> bool) (t x : tree M),
  wf t = true -> is_node t = true ->
  exists found, get_markers iscls t = Ok found /\
  (In x found <-> (iscls (kind_of x) = true /\ exists path, node_at t path = Some x)).
Proof.
  intros M iscls t x Hw Hn. eexists. split.
  - apply get_markers_preorder; [exact Hw|]. destruct t; try discriminate; reflexivity.
  - rewrite filter_In, (node_at_preorder t x Hw Hn). tauto.
Qed.
Print Assumptions C08_get_markers_complete.

Theorem C08_check_exact : forall (M : Type) (iscls : string -> bool) (t : tree M),
  wf t = true -> is_node t = true ->
  ((exists path x, node_at t path = Some x /\ iscls (kind_of x) = true) <->
   check_no_markers_remaining iscls t = Err (mkExn "MacroExpansionError" [])) /\
  ((forall path x, node_at t path = Some x -> iscls (kind_of x) = false) <->
   check_no_markers_remaining iscls t = Ok tt).
Proof.
  intros M iscls t Hw Hn.
  assert (Hno : nodes_only t = true) by (destruct t; try discriminate; reflexivity).
  rewrite (check_exact iscls t Hw Hno).
  assert (E : (exists path x, node_at t path = Some x /\ iscls (kind_of x) = true)
              <-> has_kind iscls t = true).
  { unfold has_kind. rewrite existsb_exists. split.
    - intros [path [x [Hp Hx]]]. exists x. split; [|exact Hx].
      apply (node_at_preorder t x Hw Hn). exists path; exact Hp.
    - intros [x [Hin Hx]]. apply (node_at_preorder t x Hw Hn) in Hin. destruct Hin as [path Hp].
      exists path, x; auto. }
  destruct (has_kind iscls t) eqn:Hk; split; split; intros H; try discriminate; try reflexivity.
  - apply E; reflexivity.
  - destruct (proj2 E eq_refl) as [path [x [Hp Hx]]]. rewrite (H path x Hp) in Hx. discriminate.
  - apply E in H; discriminate.
  - intros path x Hp. destruct (iscls (kind_of x)) eqn:Ex; [|reflexivity].
    assert (false = true) as F; [apply E; exists path, x; auto|discriminate].
Qed.
Print Assumptions C08_check_exact.

Example C08_example :
  get_markers is_done ex07 = Ok [done (Ls [nm "y"; done (nm "z")]); done (nm "z")] /\
  check_no_markers_remaining is_done ex07 = Err (mkExn "MacroExpansionError" []).
Proof. split; reflexivity. Qed.
