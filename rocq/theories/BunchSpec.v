(** Specification for Bunch: the same program run on plain dictionaries. *)
From Verif Require Import Base BunchModel.

Section Spec.
  Context {V : Type}.
  Variables (none : V) (veq : V -> V -> bool).

  (** One dict per bunch, by value: no two of them share anything. *)
  Definition on (b : nat) (ds : list (dict V)) (f : dict V -> rslt V * dict V) : rslt V * list (dict V) :=
    match nth_error ds b with
    | Some d => let (r, d') := f d in (r, upd_nth b d' ds)
    | None => (RNoBunch, ds)
    end.
  Definition look (b : nat) (ds : list (dict V)) (f : dict V -> rslt V) : rslt V * list (dict V) :=
    on b ds (fun d => (f d, d)).

  (** The corresponding dict operation: attribute access is item access, [copy] copies, [replace]
      replaces the contents. *)
  Definition dict_op (o : op V) (ds : list (dict V)) : rslt V * list (dict V) :=
    match o with
    | ONew kw => (RNew (List.length ds), ds ++ [kwdict kw])
    | OCopy b => match nth_error ds b with
                 | Some d => (RNew (List.length ds), ds ++ [d])
                 | None => (RNoBunch, ds)
                 end
    | OReplace b c => match nth_error ds b, nth_error ds c with
                      | Some _, Some e => (RUnit, upd_nth b e ds)
                      | _, _ => (RNoBunch, ds)
                      end
    | OGetAttr b s => look b ds (d_getitem (KStr s))
    | OSetAttr b s v => on b ds (fun d => (RUnit, dset (KStr s) v d))
    | ODelAttr b s => on b ds (d_delitem (KStr s))
    | OContains b k => look b ds (fun d => RBool (dhas k d))
    | OIter b | OKeys b => look b ds (fun d => RKeys (map fst d))
    | OLen b => look b ds (fun d => RInt (List.length d))
    | OGetItem b k => look b ds (d_getitem k)
    | OSetItem b k v => on b ds (fun d => (RUnit, dset k v d))
    | ODelItem b k => on b ds (d_delitem k)
    | OItems b => look b ds (fun d => RItems d)
    | OValues b => look b ds (fun d => RVals (map snd d))
    | OGet b k dflt => look b ds (d_get none k dflt)
    | OEq b c => match nth_error ds b, nth_error ds c with
                 | Some d, Some e => (RBool (deq veq d e), ds)
                 | _, _ => (RNoBunch, ds)
                 end
    | ONe b c => match nth_error ds b, nth_error ds c with
                 | Some d, Some e => (RBool (negb (deq veq d e)), ds)
                 | _, _ => (RNoBunch, ds)
                 end
    | OPop b k dflt => on b ds (d_pop k dflt)
    | OPopItem b => on b ds d_popitem
    | OClear b => on b ds (fun _ => (RUnit, []))
    | OUpdate b kw => on b ds (fun d => (RUnit, dupd d (kwdict kw)))
    | OSetDefault b k dflt => on b ds (d_setdefault none k dflt)
    end.

  Fixpoint dict_ops (l : list (op V)) (ds : list (dict V)) : list (rslt V) * list (dict V) :=
    match l with
    | [] => ([], ds)
    | o :: r => let (x, d1) := dict_op o ds in
                let (xs, d2) := dict_ops r d1 in (x :: xs, d2)
    end.

  (** All keys are strings other than "self". *)
  Definition plain (d : dict V) : bool :=
    forallb (fun p => match fst p with KStr s => negb (String.eqb s "self") | KObj _ => false end) d.

  (** Names that are attributes of the class or of the instance. *)
  Definition reserved (class_attrs : list string) (s : string) : bool :=
    smem s class_attrs || smem s ["_data"; "_reserved_names"]%string.

  (** What the refinement asks of an operation: keyword arguments are not called self, what is
      copied has plain keys, and names read or assigned as attributes are not reserved. *)
  Definition op_ok (class_attrs : list string) (o : op V) (ds : list (dict V)) : bool :=
    match o with
    | ONew kw | OUpdate _ kw => forallb (fun p => negb (String.eqb (fst p) "self")) kw
    | OCopy b | OReplace _ b => match nth_error ds b with Some d => plain d | None => true end
    | OGetAttr _ s | OSetAttr _ s _ => negb (reserved class_attrs s)
    | _ => true
    end.
  Fixpoint ops_ok (class_attrs : list string) (l : list (op V)) (ds : list (dict V)) : bool :=
    match l with
    | [] => true
    | o :: r => op_ok class_attrs o ds && ops_ok class_attrs r (snd (dict_op o ds))
    end.

  (** The contents of the bunches. *)
  Definition contents (m : bmem V) : list (option (dict V)) :=
    map (fun b => match data_of b m with Some (_, d) => Some d | None => None end)
        (seq 0 (List.length (m_objs m))).

  (** Programs that do not write the private attributes. *)
  Definition public (o : op V) : bool :=
    match o with
    | OSetAttr _ s _ => negb (smem s ["_data"; "_reserved_names"]%string)
    | _ => true
    end.
End Spec.
