(** Specification vocabulary for C75. *)
From Verif Require Import Base AstLib FixLocModel QuoteModel.

Section Kinds.
  (** [marker]: the classes of AST markers; [cls]: the classes of one kind of nodes (expressions, or statements). *)
  Variables marker cls : string -> bool.
  (** A node of the kind, possibly inside markers; a suite inside a marker consists of such nodes. *)
  Inductive ast_of : pv -> Prop :=
  | ao_node m k fs : marker k = false -> cls k = true -> ast_of (PN m k fs)
  | ao_marked m k f v fs : marker k = true -> ast_of v -> ast_of (PN m k ((f, v) :: fs))
  | ao_suite m k f l fs : marker k = true -> Forall ast_of l -> ast_of (PN m k ((f, PL l) :: fs)).
End Kinds.

(** The items that iterating over a value gives. *)
Inductive iterates : pv -> list pv -> Prop :=
| it_list l : iterates (PL l) l
| it_tuple l : iterates (PT l) l
| it_set l : iterates (PS l) l
| it_dict l : iterates (PD l) (map fst l)
| it_no_chars : iterates (str "") []
| it_char c r l : iterates (str r) l -> iterates (str (String c r)) (str (String c "") :: l)
| it_no_bytes : iterates (PA (ABytes "")) []
| it_byte c r l : iterates (PA (ABytes r)) l -> iterates (PA (ABytes (String c r))) (PA (AInt (Z.of_nat (nat_of_ascii c))) :: l).

(** [unnested l r]: [r] has the members of [l], of its sublists, and so on, in order, without None. *)
Inductive unnested : list pv -> list pv -> Prop :=
| un_nil : unnested [] []
| un_none l r : unnested l r -> unnested (PA ANone :: l) r
| un_list l1 l r1 r : unnested l1 r1 -> unnested l r -> unnested (PL l1 :: l) (r1 ++ r)
| un_item x l r : (forall l1, x <> PL l1) -> x <> PA ANone -> unnested l r -> unnested (x :: l) (x :: r).
