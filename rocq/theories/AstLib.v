(** Model of the parts of the standard library module [ast] that mcpyrate builds on
    (CPython Lib/ast.py). *)
From Verif Require Import Base.

Definition attribute_error (a : string) : exn := mkExn "AttributeError" [a].
Definition type_error : exn := mkExn "TypeError" [].

(** [g(tree.f)] when the attribute exists, [d] otherwise. (Written as a recursion so that
    structurally recursive functions can call themselves on a field.) *)
Section WithField.
  Context {M A : Type}.
  Variable (f : string) (d : A) (g : tree M -> A).
  Fixpoint with_field (fs : list (string * tree M)) : A :=
    match fs with
    | [] => d
    | (f', v) :: r => if String.eqb f f' then g v else with_field r
    end.
End WithField.

(** Assignment [tree.f = v] for an existing field; a new field is appended. *)
Fixpoint setf {M} (f : string) (v : tree M) (fs : list (string * tree M)) : list (string * tree M) :=
  match fs with
  | [] => [(f, v)]
  | (f', w) :: r => if String.eqb f f' then (f', v) :: r else (f', w) :: setf f v r
  end.

(** ast.NodeTransformer.generic_visit, where [visit] may raise:
    - in a list field, each AST element is visited; None drops it, a list is spliced, a node
      replaces it; elements that are not AST nodes are kept;
    - an AST field is visited; None deletes the attribute, anything else replaces it;
    - other values are kept. *)
Section GenericVisit.
  Context {M : Type}.
  Variable visit : tree M -> res (tree M).

  Fixpoint gv_list (l : list (tree M)) : res (list (tree M)) :=
    match l with
    | [] => Ok []
    | v :: r =>
        match v with
        | Nd _ _ _ =>
            match visit v with
            | Err e => Err e
            | Ok (At ANone) => gv_list r
            | Ok (Ls l') => match gv_list r with Ok r' => Ok (l' ++ r') | Err e => Err e end
            | Ok (Nd m' k' fs') =>
                match gv_list r with Ok r' => Ok (Nd m' k' fs' :: r') | Err e => Err e end
            | Ok (At _) => Err type_error (* new_values.extend(value); a str is not modelled *)
            end
        | _ => match gv_list r with Ok r' => Ok (v :: r') | Err e => Err e end
        end
    end.

  Fixpoint gv_fields (fs : list (string * tree M)) : res (list (string * tree M)) :=
    match fs with
    | [] => Ok []
    | (f, v) :: r =>
        match v with
        | Ls l =>
            match gv_list l with
            | Err e => Err e
            | Ok l' => match gv_fields r with Ok r' => Ok ((f, Ls l') :: r') | Err e => Err e end
            end
        | Nd _ _ _ =>
            match visit v with
            | Err e => Err e
            | Ok (At ANone) => gv_fields r
            | Ok v' => match gv_fields r with Ok r' => Ok ((f, v') :: r') | Err e => Err e end
            end
        | At _ => match gv_fields r with Ok r' => Ok ((f, v) :: r') | Err e => Err e end
        end
    end.

  (** [NodeTransformer.generic_visit(node)]; on something without [_fields] it raises. *)
  Definition generic_visit (t : tree M) : res (tree M) :=
    match t with
    | Nd m k fs => match gv_fields fs with Ok fs' => Ok (Nd m k fs') | Err e => Err e end
    | _ => Err (attribute_error "_fields")
    end.
End GenericVisit.

(** ast.iter_child_nodes: the AST nodes that are fields or elements of list fields. *)
Definition list_nodes {M} (l : list (tree M)) : list (tree M) := filter is_node l.
Definition field_nodes {M} (v : tree M) : list (tree M) :=
  match v with
  | Nd _ _ _ => [v]
  | Ls l => list_nodes l
  | At _ => []
  end.
Definition iter_child_nodes {M} (t : tree M) : list (tree M) :=
  match t with
  | Nd _ _ fs => flat_map (fun p => field_nodes (snd p)) fs
  | _ => []
  end.

(** ** Specification vocabulary *)

(** Python ASTs never hold a list directly inside a list field. *)
Fixpoint wf {M} (t : tree M) : bool :=
  match t with
  | Nd _ _ fs => forallb (fun p : string * tree M => let (_, v) := p in
                                   match v with
                                   | Ls l => forallb (fun x => negb (is_list x) && wf x) l
                                   | _ => wf v
                                   end) fs
  | Ls l => forallb wf l
  | At _ => true
  end.

(** All nodes of a tree, depth first, parents before children. *)
Fixpoint preorder {M} (t : tree M) : list (tree M) :=
  match t with
  | Nd m k fs => t :: flat_map (fun p => preorder (snd p)) fs
  | Ls l => flat_map preorder l
  | At _ => []
  end.

Definition kind_of {M} (t : tree M) : string :=
  match t with Nd _ k _ => k | _ => ""%string end.

(** Does some node of the tree have a class satisfying [p]? *)
Definition has_kind {M} (p : string -> bool) (t : tree M) : bool :=
  existsb (fun n => p (kind_of n)) (preorder t).

(** The tree without its metadata. *)
Fixpoint skel {M} (t : tree M) : tree unit :=
  match t with
  | Nd _ k fs => Nd tt k (map (fun p => (fst p, skel (snd p))) fs)
  | Ls l => Ls (map skel l)
  | At a => At a
  end.

(** Following child indices, in the order of [iter_child_nodes]. *)
Fixpoint node_at {M} (t : tree M) (path : list nat) : option (tree M) :=
  match path with
  | [] => if is_node t then Some t else None
  | i :: p => match nth_error (iter_child_nodes t) i with
              | Some c => node_at c p
              | None => None
              end
  end.

(** ** Basic facts *)
Lemma with_field_getf {M A} f (d : A) (g : tree M -> A) fs :
  with_field f d g fs = match getf f fs with Some v => g v | None => d end.
Proof.
  induction fs as [|[f' v] r IH]; [reflexivity|]. simpl. destruct (String.eqb f f'); auto.
Qed.

Lemma getf_In {M} f (fs : list (string * tree M)) v : getf f fs = Some v -> In (f, v) fs.
Proof.
  induction fs as [|[f' w] r IH]; simpl; [discriminate|].
  destruct (String.eqb f f') eqn:E.
  - intros H; inversion H; subst. apply String.eqb_eq in E; subst; auto.
  - auto.
Qed.

Lemma has_kind_Ls {M} p (l : list (tree M)) : has_kind p (Ls l) = existsb (has_kind p) l.
Proof.
  unfold has_kind. simpl. induction l as [|x l IH]; [reflexivity|]. simpl.
  rewrite existsb_app, IH. reflexivity.
Qed.

Lemma has_kind_Nd {M} p (m : M) k fs :
  has_kind p (Nd m k fs) = p k || existsb (fun q => has_kind p (snd q)) fs.
Proof.
  unfold has_kind. simpl. f_equal. induction fs as [|[f x] l IH]; [reflexivity|]. simpl.
  rewrite existsb_app, IH. reflexivity.
Qed.

Section WfFacts.
  Context {M : Type}.
  Lemma wf_field f v (fs : list (string * tree M)) m k :
    wf (Nd m k fs) = true -> In (f, v) fs -> wf v = true.
  Proof.
    intros Hw Hin. simpl in Hw. rewrite forallb_forall in Hw. specialize (Hw _ Hin). simpl in Hw.
    destruct v as [| l |]; try exact Hw. simpl. apply forallb_forall. intros x Hx.
    rewrite forallb_forall in Hw. specialize (Hw x Hx). apply andb_true_iff in Hw. tauto.
  Qed.

  Lemma filter_flat_map {A B} (p : B -> bool) (g : A -> list B) l :
    filter p (flat_map g l) = flat_map (fun x => filter p (g x)) l.
  Proof. induction l as [|x l IH]; [reflexivity|]. simpl. rewrite filter_app, IH. reflexivity. Qed.

  (** Nodes reachable by child indices are exactly those of [preorder], in well-formed trees. *)
  Lemma wf_child (t c : tree M) : wf t = true -> In c (iter_child_nodes t) -> wf c = true /\ is_node c = true.
  Proof.
    destruct t as [m k fs|l|a]; [|intros _ []|intros _ []]. cbn [iter_child_nodes]. intros Hw Hc.
    apply in_flat_map in Hc. destruct Hc as [[f v] [Hin Hc]]. simpl in Hc.
    pose proof (wf_field _ _ _ _ _ Hw Hin) as Hv. destruct v as [m' k' fs'|l|a].
    - destruct Hc as [Hc|[]]; subst; auto.
    - simpl in Hc. unfold list_nodes in Hc. apply filter_In in Hc. destruct Hc as [H1 H2].
      simpl in Hv. rewrite forallb_forall in Hv. auto.
    - destruct Hc.
  Qed.

  Lemma preorder_children (t : tree M) : wf t = true -> is_node t = true ->
    preorder t = t :: flat_map preorder (iter_child_nodes t).
  Proof.
    destruct t as [m k fs|l|a]; try discriminate. intros Hw _. cbn [preorder iter_child_nodes].
    f_equal. simpl in Hw. induction fs as [|[f v] fs IH]; [reflexivity|]. simpl in *.
    apply andb_true_iff in Hw. destruct Hw as [Hw1 Hw2]. rewrite flat_map_app, IH by exact Hw2.
    f_equal. destruct v as [m' k' fs'|l|a]; simpl.
    - rewrite app_nil_r. reflexivity.
    - unfold list_nodes. clear - Hw1. induction l as [|x l IH]; [reflexivity|]. simpl in *.
      apply andb_true_iff in Hw1. destruct Hw1 as [Hw1 Hw2]. rewrite IH by exact Hw2.
      destruct x; [reflexivity|discriminate|reflexivity].
    - reflexivity.
  Qed.

  Lemma node_at_preorder (t x : tree M) : wf t = true -> is_node t = true ->
    (In x (preorder t) <-> exists path, node_at t path = Some x).
  Proof.
    intros Hw Hn. split.
    - revert Hw Hn.
      assert (G : forall n (t : tree M), (forall u, In u (preorder t) -> True) -> List.length (preorder t) <= n ->
                wf t = true -> is_node t = true -> In x (preorder t) ->
                exists path, node_at t path = Some x).
      { clear. induction n as [|n IH]; intros t _ Hlen Hw Hn Hin.
        - rewrite preorder_children in Hlen by assumption. simpl in Hlen. lia.
        - rewrite preorder_children in Hin by assumption. destruct Hin as [Hin|Hin].
          + exists []. simpl. rewrite Hn. subst; reflexivity.
          + apply in_flat_map in Hin. destruct Hin as [c [Hc Hin]].
            destruct (wf_child _ _ Hw Hc) as [Hwc Hnc].
            assert (Hlc : List.length (preorder c) <= n).
            { rewrite preorder_children in Hlen by assumption. simpl in Hlen.
              assert (List.length (preorder c) <= List.length (flat_map preorder (iter_child_nodes t))).
              { clear - Hc. induction (iter_child_nodes t) as [|y l IHl]; [destruct Hc|]. simpl.
                rewrite app_length. destruct Hc as [Hc|Hc]; [subst; lia|]. specialize (IHl Hc). lia. }
              lia. }
            destruct (IH c (fun _ _ => I) Hlc Hwc Hnc Hin) as [path Hp].
            destruct (In_nth_error _ _ Hc) as [i Hi].
            exists (i :: path). cbn [node_at]. rewrite Hi. exact Hp. }
      intros Hw Hn. apply (G (List.length (preorder t)) t (fun _ _ => I) (le_n _) Hw Hn).
    - intros [path Hp]. revert t Hw Hn Hp. induction path as [|i path IH]; intros t Hw Hn Hp.
      + simpl in Hp. rewrite Hn in Hp. inversion Hp; subst.
        rewrite preorder_children by assumption. left; reflexivity.
      + cbn [node_at] in Hp. destruct (nth_error (iter_child_nodes t) i) as [c|] eqn:E; [|discriminate].
        apply nth_error_In in E. destruct (wf_child _ _ Hw E) as [Hwc Hnc].
        rewrite preorder_children by assumption. right. apply in_flat_map. exists c. split; [exact E|].
        apply IH; assumption.
  Qed.
End WfFacts.
