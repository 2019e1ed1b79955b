(** Specification vocabulary for C41-C43. *)
From Verif Require Import Base AstLib FixLocModel QuoteModel.

(** The value without source locations. *)
Fixpoint strip (x : pv) : pv :=
  match x with
  | PA a => PA a
  | PL l => PL (map strip l)
  | PT l => PT (map strip l)
  | PS l => PS (map strip l)
  | PD l => PD (map (fun kv : pv * pv => let (k, v) := kv in (strip k, strip v)) l)
  | PN _ k fs => PN noloc k (map (fun p : string * pv => let (f, v) := p in (f, strip v)) fs)
  end.

(** Induction with hypotheses for everything inside. *)
Lemma pv_ind2 (P : pv -> Prop)
  (HA : forall a, P (PA a)) (HL : forall l, Forall P l -> P (PL l)) (HT : forall l, Forall P l -> P (PT l)) (HS : forall l, Forall P l -> P (PS l))
  (HD : forall l, Forall (fun kv => P (fst kv) /\ P (snd kv)) l -> P (PD l))
  (HN : forall m k fs, Forall (fun p => P (snd p)) fs -> P (PN m k fs)) : forall x, P x.
Proof.
  fix IH 1. intros [a|l|l|l|l|m k fs].
  - apply HA.
  - apply HL. induction l; constructor; [apply IH|assumption].
  - apply HT. induction l; constructor; [apply IH|assumption].
  - apply HD. induction l as [|[k v] l IHl]; constructor; [split; apply IH|assumption].
  - apply HS. induction l; constructor; [apply IH|assumption].
  - apply HN. induction fs as [|[f v] fs IHl]; constructor; [apply IH|assumption].
Qed.

Section Spec.
  Variables (is_expr is_stmt user_marker : string -> bool) (has_attr : string -> string -> bool).
  Notation is_marker := (is_marker user_marker).
  (** A value without unquotes, whose constants are of the types int, float, str, bytes, bool, None and Ellipsis. *)
  Inductive quotable : pv -> Prop :=
  | qt_atom a : (forall r, a <> AComplex r) -> (forall n, a <> AObj n) -> quotable (PA a)
  | qt_list l : Forall quotable l -> quotable (PL l)
  | qt_tuple l : Forall quotable l -> quotable (PT l)
  | qt_set l : Forall quotable l -> quotable (PS l)
  | qt_dict l : Forall (fun kv => quotable (fst kv) /\ quotable (snd kv)) l -> quotable (PD l)
  | qt_node m k fs : is_marker k = false \/ k = "Done"%string -> Forall (fun p => quotable (snd p)) fs -> quotable (PN m k fs).
  (** Location attributes only where the class has them. *)
  Inductive located : pv -> Prop :=
  | lc_atom a : located (PA a)
  | lc_list l : Forall located l -> located (PL l)
  | lc_tuple l : Forall located l -> located (PT l)
  | lc_set l : Forall located l -> located (PS l)
  | lc_dict l : Forall (fun kv => located (fst kv) /\ located (snd kv)) l -> located (PD l)
  | lc_node m k fs :
      (has_attr k "lineno" = false -> ln m = None) -> (has_attr k "col_offset" = false -> co m = None) ->
      (has_attr k "end_lineno" = false -> eln m = None) -> (has_attr k "end_col_offset" = false -> eco m = None) ->
      Forall (fun p => located (snd p)) fs -> located (PN m k fs).

  (** A node of the given class, anywhere in the value (also in lists of lists). *)
  Inductive occurs (c : string) : pv -> Prop :=
  | oc_here m fs : occurs c (PN m c fs)
  | oc_field m k fs f v : In (f, v) fs -> occurs c v -> occurs c (PN m k fs)
  | oc_elt l x : In x l -> occurs c x -> occurs c (PL l).

  (** Fields hold no lists of lists (as in every AST). *)
  Inductive flatlists : pv -> Prop :=
  | fl_atom a : flatlists (PA a)
  | fl_list l : Forall flatlists l -> flatlists (PL l)
  | fl_tuple l : flatlists (PT l)
  | fl_set l : flatlists (PS l)
  | fl_dict l : flatlists (PD l)
  | fl_node m k fs : Forall (fun p => flatlists (snd p) /\ match snd p with PL l => Forall (fun x => match x with PL _ => False | _ => True end) l | _ => True end) fs -> flatlists (PN m k fs).

  (** What splicing should do: in lists, a splice node is replaced by its items, in their place. [spliced] goes everywhere. *)
  Inductive spliced : pv -> pv -> Prop :=
  | sp_atom a : spliced (PA a) (PA a)
  | sp_tuple l : spliced (PT l) (PT l)
  | sp_set l : spliced (PS l) (PS l)
  | sp_dict l : spliced (PD l) (PD l)
  | sp_list l l' : spliced_items l l' -> spliced (PL l) (PL l')
  | sp_node m k fs fs' : k <> "SpliceNodes"%string -> spliced_fields fs fs' -> spliced (PN m k fs) (PN m k fs')
  with spliced_items : list pv -> list pv -> Prop :=
  | si_nil : spliced_items [] []
  | si_splice m b b' r r' f : spliced_items b b' -> spliced_items r r' -> spliced_items (PN m "SpliceNodes" [(f, PL b)] :: r) (b' ++ r')
  | si_item x x' r r' : spliced x x' -> spliced_items r r' -> spliced_items (x :: r) (x' :: r')
  with spliced_fields : list (string * pv) -> list (string * pv) -> Prop :=
  | sf_nil : spliced_fields [] []
  | sf_cons f v v' r r' : spliced v v' -> spliced_fields r r' -> spliced_fields ((f, v) :: r) ((f, v') :: r').
End Spec.
Scheme spliced_ind2 := Minimality for spliced Sort Prop
  with spliced_items_ind2 := Minimality for spliced_items Sort Prop
  with spliced_fields_ind2 := Minimality for spliced_fields Sort Prop.
Combined Scheme spliced_mutind from spliced_ind2, spliced_items_ind2, spliced_fields_ind2.
