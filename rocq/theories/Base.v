(** Shared definitions: Python results, the generic AST, induction principles. *)
From Coq Require Export String ZArith Bool Lia Arith Ascii.
From Coq Require Export List.
Export ListNotations.
Open Scope list_scope.

(** A raised Python exception: class name and argument texts. *)
Record exn : Type := mkExn { e_cls : string; e_args : list string }.

(** Result of a Python call: a value or a raised exception. *)
Inductive res (A : Type) : Type :=
| Ok (a : A)
| Err (e : exn).
Arguments Ok {A} a.
Arguments Err {A} e.

Definition bind_res {A B} (r : res A) (f : A -> res B) : res B :=
  match r with Ok a => f a | Err e => Err e end.

(** Python values that are not AST nodes and not lists. Floats, complex numbers and other
    objects are opaque: all that the modelled code does with them is to test their type or
    to pass them along. *)
Inductive atom : Type :=
| ANone
| AEllipsis
| ABool (b : bool)
| AInt (z : Z)
| AFloat (r : string)
| AComplex (r : string)
| AStr (s : string)
| ABytes (s : string)
| AObj (n : nat).

(** Python ASTs as [ast.iter_fields] sees them (CPython Lib/ast.py, iter_fields and
    NodeTransformer.generic_visit): a node has a class (its name [k]), and an ordered list of
    the fields that are present; a field holds a node, a list or another value. [M] is the
    metadata the code at hand looks at: locations, identity, or unit. *)
Inductive tree (M : Type) : Type :=
| Nd (m : M) (k : string) (fs : list (string * tree M))
| Ls (l : list (tree M))
| At (a : atom).
Arguments Nd {M} m k fs.
Arguments Ls {M} l.
Arguments At {M} a.

Notation NoneT := (At ANone).

(** Induction principle with hypotheses for the nested lists. *)
Section TreeInd.
  Variable M : Type.
  Variable P : tree M -> Prop.
  Hypothesis HNd : forall m k fs, Forall (fun p => P (snd p)) fs -> P (Nd m k fs).
  Hypothesis HLs : forall l, Forall P l -> P (Ls l).
  Hypothesis HAt : forall a, P (At a).

  Fixpoint tree_ind' (t : tree M) : P t :=
    match t with
    | Nd m k fs =>
        HNd m k fs
          ((fix go (fs : list (string * tree M)) : Forall (fun p => P (snd p)) fs :=
              match fs with
              | [] => Forall_nil _
              | p :: fs' => Forall_cons _ (tree_ind' (snd p)) (go fs')
              end) fs)
    | Ls l =>
        HLs l
          ((fix go (l : list (tree M)) : Forall P l :=
              match l with
              | [] => Forall_nil _
              | x :: l' => Forall_cons _ (tree_ind' x) (go l')
              end) l)
    | At a => HAt a
    end.
End TreeInd.

Definition is_node {M} (t : tree M) : bool :=
  match t with Nd _ _ _ => true | _ => false end.
Definition is_list {M} (t : tree M) : bool :=
  match t with Ls _ => true | _ => false end.
Definition is_none {M} (t : tree M) : bool :=
  match t with At ANone => true | _ => false end.

(** Equality tests. *)
Definition atom_eqb (a b : atom) : bool :=
  match a, b with
  | ANone, ANone => true
  | AEllipsis, AEllipsis => true
  | ABool x, ABool y => Bool.eqb x y
  | AInt x, AInt y => Z.eqb x y
  | AFloat x, AFloat y => String.eqb x y
  | AComplex x, AComplex y => String.eqb x y
  | AStr x, AStr y => String.eqb x y
  | ABytes x, ABytes y => String.eqb x y
  | AObj x, AObj y => Nat.eqb x y
  | _, _ => false
  end.

(** Field access (first match). *)
Fixpoint getf {M} (f : string) (fs : list (string * tree M)) : option (tree M) :=
  match fs with
  | [] => None
  | (g, v) :: r => if String.eqb f g then Some v else getf f r
  end.

Definition smem (x : string) (l : list string) : bool := existsb (String.eqb x) l.

Lemma smem_In x l : smem x l = true <-> In x l.
Proof.
  unfold smem; rewrite existsb_exists; split.
  - intros [y [Hy He]]; apply String.eqb_eq in He; subst; exact Hy.
  - intros H; exists x; split; [exact H | apply String.eqb_refl].
Qed.

Lemma atom_eqb_eq a b : atom_eqb a b = true <-> a = b.
Proof.
  destruct a, b; simpl; split; intros H; try discriminate; try reflexivity;
    try (inversion H; subst);
    repeat match goal with
    | H : Bool.eqb _ _ = true |- _ => apply Bool.eqb_prop in H; subst
    | H : Z.eqb _ _ = true |- _ => apply Z.eqb_eq in H; subst
    | H : String.eqb _ _ = true |- _ => apply String.eqb_eq in H; subst
    | H : Nat.eqb _ _ = true |- _ => apply Nat.eqb_eq in H; subst
    end; try reflexivity.
  - apply Bool.eqb_reflx.
  - apply Z.eqb_refl.
  - apply String.eqb_refl.
  - apply String.eqb_refl.
  - apply String.eqb_refl.
  - apply String.eqb_refl.
  - apply Nat.eqb_refl.
Qed.

(** Like [tree_ind'], but a node's hypothesis also covers the elements of its list fields. *)
Lemma tree_ind2 (M : Type) (P : tree M -> Prop)
  (HNd : forall m k fs,
      Forall (fun p => P (snd p) /\ match snd p with Ls l => Forall P l | _ => True end) fs ->
      P (Nd m k fs))
  (HLs : forall l, Forall P l -> P (Ls l))
  (HAt : forall a, P (At a)) : forall t, P t.
Proof.
  intros t.
  assert (H : P t /\ match t with Ls l => Forall P l | _ => True end).
  { induction t as [m k fs IH|l IH|a] using tree_ind'.
    - split; [|exact I]. apply HNd. exact IH.
    - assert (HF : Forall P l).
      { eapply Forall_impl; [|exact IH]. intros x Hx. exact (proj1 Hx). }
      split; [apply HLs; exact HF|exact HF].
    - split; [apply HAt|exact I]. }
  exact (proj1 H).
Qed.
