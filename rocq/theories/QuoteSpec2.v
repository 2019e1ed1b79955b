(** Specification vocabulary for C42 and C43: where splices may be, and what a quasiquote should give. *)
From Verif Require Import Base AstLib FixLocModel QuoteModel QuoteSpec.

(** ** Placement of splice nodes *)
Definition no_splice (x : pv) : Prop := ~ occurs "SpliceNodes" x.
Definition is_glob (k : string) : bool := String.eqb k "Global" || String.eqb k "Nonlocal".
Definition node_or_list (x : pv) : Prop := match x with PN _ _ _ | PL _ => True | _ => False end.
(** Splice nodes only in lists that are reached from the top through lists and list-valued fields only, and such lists hold nodes only. *)
Inductive placed : pv -> Prop :=
| pl_list l : placed_items l -> placed (PL l)
| pl_glob m k fs : is_glob k = true -> no_splice (PN m k fs) -> placed (PN m k fs)
| pl_node m k fs : is_glob k = false -> k <> "SpliceNodes"%string -> placed_fields fs -> placed (PN m k fs)
with placed_items : list pv -> Prop :=
| pi_nil : placed_items []
| pi_splice m f b r : placed_items b -> placed_items r -> placed_items (PN m "SpliceNodes" [(f, PL b)] :: r)
| pi_item x r : node_or_list x -> placed x -> placed_items r -> placed_items (x :: r)
with placed_fields : list (string * pv) -> Prop :=
| pf_nil : placed_fields []
| pf_list f l r : placed (PL l) -> placed_fields r -> placed_fields ((f, PL l) :: r)
| pf_other f v r : (match v with PL _ => False | _ => True end) -> no_splice v -> placed_fields r -> placed_fields ((f, v) :: r).
Scheme placed_ind2 := Minimality for placed Sort Prop
  with placed_items_ind2 := Minimality for placed_items Sort Prop
  with placed_fields_ind2 := Minimality for placed_fields Sort Prop.
Combined Scheme placed_mutind from placed_ind2, placed_items_ind2, placed_fields_ind2.

(** ** What a quasiquote should give *)
Section Subst.
  Variables (is_expr is_stmt user_marker : string -> bool) (has_attr : string -> string -> bool).
  Variable parse_expr : string -> res pv.
  (** The value of an expression. *)
  Variable ev : pv -> res pv.
  Notation is_marker := (is_marker user_marker).

  (** Code without quasiquote markers: the expression given to an unquote. *)
  Definition unmarked (b : pv) : Prop := (match b with PN _ _ _ => True | _ => False end) /\ forall k, In k quasi_markers -> ~ occurs k b.
  (** An AST that is given to an unquote; [r]: splices are processed at this place. *)
  Definition inert (r : bool) (t : pv) : Prop := (match t with PN _ _ _ => True | _ => False end) /\ no_splice t /\ (r = true -> placed t).
  Definition of_class (iscls : string -> bool) (t : pv) : Prop := match t with PN _ k _ => is_marker k = false /\ iscls k = true | _ => False end.
  Definition class_of (syn : string) : string -> bool := if String.eqb syn "expr" then is_expr else is_stmt.
  (** The nodes of nested lists, in order. *)
  Inductive nodes_of : pv -> list pv -> Prop :=
  | no_node m k fs : nodes_of (PN m k fs) [PN m k fs]
  | no_list l lss : Forall2 nodes_of l lss -> nodes_of (PL l) (concat lss).

  Definition marker (k : string) (fs : list (string * pv)) : pv := nd k fs.
  Inductive subst : bool -> pv -> pv -> Prop :=
  | su_atom a : (forall r, a <> AComplex r) -> (forall n, a <> AObj n) -> subst false (PA a) (PA a)
  | su_list r l l' : subst_items r l l' -> subst r (PL l) (PL l')
  | su_node r m k fs fs' : is_marker k = false \/ k = "Done"%string -> subst_fields (r && negb (is_glob k)) fs fs' -> subst r (PN m k fs) (PN noloc k fs')
  (** u[body]: an AST that is the code for the value of the expression. *)
  | su_u r body v c : unmarked body -> ev body = Ok v -> quotable user_marker v -> astify user_marker has_attr (fun _ => None) v = Ok c ->
      subst r (nd "Unquote" [("body"%string, body)]) c
  (** n[body]: the string, parsed. *)
  | su_n r body fn s t : unmarked body -> ev body = Ok (PA (AStr s)) -> parse_expr s = Ok t -> inert r t ->
      subst r (nd "LiftSourcecode" [("body"%string, body); ("filename"%string, str fn)]) t
  (** a[body]: the AST. *)
  | su_a r body t : unmarked body -> ev body = Ok t -> of_class is_expr t -> inert r t ->
      subst r (nd "ASTLiteral" [("body"%string, body); ("syntax"%string, str "expr")]) t
  (** s[body], t[body]: a list, a tuple of the ASTs. *)
  | su_s r body l ts : unmarked body -> ev body = Ok (PL l) \/ ev body = Ok (PT l) -> nodes_of (PL l) ts -> Forall (of_class is_expr) ts -> Forall (inert r) ts ->
      subst r (nd "ASTList" [("body"%string, body)]) (nd "List" [("elts"%string, PL ts)])
  | su_t r body l ts : unmarked body -> ev body = Ok (PL l) \/ ev body = Ok (PT l) -> nodes_of (PL l) ts -> Forall (of_class is_expr) ts -> Forall (inert r) ts ->
      subst r (nd "ASTTuple" [("body"%string, body)]) (nd "Tuple" [("elts"%string, PL ts)])
  with subst_items : bool -> list pv -> list pv -> Prop :=
  | ss_nil r : subst_items r [] []
  | ss_item r x x' l l' : (r = true -> node_or_list x) -> subst r x x' -> subst_items r l l' -> subst_items r (x :: l) (x' :: l')
  (** a[body] with a list of ASTs: all of them, in this place. Only where splices are processed. *)
  | ss_splice body syn l ts rest rest' : unmarked body -> syn = "expr"%string \/ syn = "block"%string -> ev body = Ok (PL l) -> nodes_of (PL l) ts ->
      Forall (of_class (class_of syn)) ts -> Forall (inert true) ts -> subst_items true rest rest' ->
      subst_items true (nd "ASTLiteral" [("body"%string, body); ("syntax"%string, str syn)] :: rest) (ts ++ rest')
  with subst_fields : bool -> list (string * pv) -> list (string * pv) -> Prop :=
  | sfl_nil r : subst_fields r [] []
  | sfl_list r f l v' fs fs' : subst r (PL l) v' -> subst_fields r fs fs' -> subst_fields r ((f, PL l) :: fs) ((f, v') :: fs')
  | sfl_other r f v v' fs fs' : (match v with PL _ => False | _ => True end) -> subst false v v' -> subst_fields r fs fs' -> subst_fields r ((f, v) :: fs) ((f, v') :: fs').
End Subst.
Scheme subst_ind2 := Minimality for subst Sort Prop
  with subst_items_ind2 := Minimality for subst_items Sort Prop
  with subst_fields_ind2 := Minimality for subst_fields Sort Prop.
Combined Scheme subst_mutind from subst_ind2, subst_items_ind2, subst_fields_ind2.
