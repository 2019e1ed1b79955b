(** Model of mcpyrate/bunch.py. *)
From Verif Require Import Base.

(** Dictionary keys, up to Python's [==]: strings, and other hashable objects. *)
Inductive key : Type :=
| KStr (s : string)
| KObj (n : nat).

Definition key_eqb (a b : key) : bool :=
  match a, b with
  | KStr s, KStr t => String.eqb s t
  | KObj m, KObj n => Nat.eqb m n
  | _, _ => false
  end.

Section Bunch.
  (** Values; [none] is Python's None, [veq] is "identical or equal". *)
  Context {V : Type}.
  Variables (none : V) (veq : V -> V -> bool).

  (** ** dict (builtin): an association list in insertion order *)
  Definition dict : Type := list (key * V).

  Fixpoint dget (k : key) (d : dict) : option V :=
    match d with
    | [] => None
    | (k', v) :: r => if key_eqb k k' then Some v else dget k r
    end.
  Fixpoint dset (k : key) (v : V) (d : dict) : dict :=
    match d with
    | [] => [(k, v)]
    | (k', w) :: r => if key_eqb k k' then (k', v) :: r else (k', w) :: dset k v r
    end.
  Fixpoint ddel (k : key) (d : dict) : dict :=
    match d with
    | [] => []
    | (k', w) :: r => if key_eqb k k' then r else (k', w) :: ddel k r
    end.
  Definition dhas (k : key) (d : dict) : bool :=
    match dget k d with Some _ => true | None => false end.
  Definition dupd (d e : dict) : dict := fold_left (fun d p => dset (fst p) (snd p) d) e d.
  (** [d == e] *)
  Definition deq (d e : dict) : bool :=
    Nat.eqb (List.length d) (List.length e) &&
    forallb (fun p => match dget (fst p) e with Some w => veq (snd p) w | None => false end) d.

  (** A keyword argument dictionary. *)
  Definition kwdict (kw : list (string * V)) : dict := dupd [] (map (fun p => (KStr (fst p), snd p)) kw).

  (** ** Results of operations *)
  Inductive rslt : Type :=
  | RVal (v : V)
  | RBool (b : bool)
  | RInt (n : nat)
  | RKeys (l : list key)
  | RVals (l : list V)
  | RItems (l : list (key * V))
  | RItem (p : key * V)
  | RMethod (name : string)      (* a bound method or other attribute of the class *)
  | RUnit                        (* None *)
  | RNew (b : nat)               (* a new Bunch; bunches are numbered in order of creation *)
  | RInternal                    (* the value of b._data or b._reserved_names *)
  | RKeyError (k : key)
  | REmptyError                  (* KeyError: 'popitem(): dictionary is empty' *)
  | RAttributeError (name : string)
  | RTypeError
  | RNoBunch.                    (* not a Python result: there is no such bunch *)

  (** ** Objects: dictionaries in memory, and bunches with their instance __dict__ *)
  Inductive slot : Type :=
  | SDict (d : nat)              (* a reference to a dict object *)
  | SNames (l : list string)
  | SVal (v : V).
  Record bmem : Type := mkMem { m_dicts : list dict; m_objs : list (list (string * slot)) }.

  Fixpoint sget (f : string) (l : list (string * slot)) : option slot :=
    match l with
    | [] => None
    | (g, s) :: r => if String.eqb f g then Some s else sget f r
    end.
  Fixpoint sset (f : string) (s : slot) (l : list (string * slot)) : list (string * slot) :=
    match l with
    | [] => [(f, s)]
    | (g, t) :: r => if String.eqb f g then (g, s) :: r else (g, t) :: sset f s r
    end.
  Fixpoint upd_nth {A} (n : nat) (x : A) (l : list A) : list A :=
    match l, n with
    | [], _ => []
    | _ :: r, O => x :: r
    | y :: r, S m => y :: upd_nth m x r
    end.

  (** The attributes of the class Bunch, inherited ones included: what [dir] lists besides the
      instance attributes. Any list. *)
  Variable class_attrs : list string.

  Definition new_dict (d : dict) (m : bmem) : nat * bmem :=
    (List.length (m_dicts m), mkMem (m_dicts m ++ [d]) (m_objs m)).
  Definition set_dict (i : nat) (d : dict) (m : bmem) : bmem :=
    mkMem (upd_nth i d (m_dicts m)) (m_objs m).
  Definition set_obj (b : nat) (o : list (string * slot)) (m : bmem) : bmem :=
    mkMem (m_dicts m) (upd_nth b o (m_objs m)).

  (** bunch.py:20-23, [__init__]: [_data] is the keyword dict; then [_reserved_names = dir(self)],
      which lists the class attributes and the two instance attributes. *)
  Definition bunch_init (kw : dict) (m : bmem) : nat * bmem :=
    let (d, m1) := new_dict kw m in
    (List.length (m_objs m1),
     mkMem (m_dicts m1)
           (m_objs m1 ++ [[("_data"%string, SDict d);
                           ("_reserved_names"%string,
                            SNames (class_attrs ++ ["_data"; "_reserved_names"]%string))]])).

  (** Calling a method with keyword arguments: [self] may not be one of them. Dict keys that are
      passed as keywords must be strings. *)
  Definition kw_ok (d : dict) : bool :=
    forallb (fun p => match fst p with KStr s => negb (String.eqb s "self") | KObj _ => false end) d.

  (** [self._data]: from the instance __dict__. *)
  Definition data_of (b : nat) (m : bmem) : option (nat * dict) :=
    match nth_error (m_objs m) b with
    | Some o => match sget "_data" o with
                | Some (SDict i) => match nth_error (m_dicts m) i with Some d => Some (i, d) | None => None end
                | _ => None
                end
    | None => None
    end.
  Definition names_of (b : nat) (m : bmem) : list string :=
    match nth_error (m_objs m) b with
    | Some o => match sget "_reserved_names" o with Some (SNames l) => l | _ => [] end
    | None => []
    end.

  (** The operations of a program that uses bunches. *)
  Inductive op : Type :=
  | ONew (kw : list (string * V))           (* Bunch with keyword arguments *)
  | OCopy (b : nat)                         (* b.copy() *)
  | OReplace (b c : nat)                    (* b.replace(c) *)
  | OGetAttr (b : nat) (s : string)         (* b.s *)
  | OSetAttr (b : nat) (s : string) (v : V) (* b.s = v *)
  | ODelAttr (b : nat) (s : string)         (* del b.s *)
  | OContains (b : nat) (k : key)
  | OIter (b : nat)
  | OLen (b : nat)
  | OGetItem (b : nat) (k : key)
  | OSetItem (b : nat) (k : key) (v : V)
  | ODelItem (b : nat) (k : key)
  | OKeys (b : nat)
  | OItems (b : nat)
  | OValues (b : nat)
  | OGet (b : nat) (k : key) (d : option V)
  | OEq (b c : nat)
  | ONe (b c : nat)
  | OPop (b : nat) (k : key) (d : option V)
  | OPopItem (b : nat)
  | OClear (b : nat)
  | OUpdate (b : nat) (kw : list (string * V))
  | OSetDefault (b : nat) (k : key) (d : option V).

  (** ** dict methods (builtin): result and new contents *)
  Definition d_getitem (k : key) (d : dict) : rslt :=
    match dget k d with Some v => RVal v | None => RKeyError k end.
  Definition d_delitem (k : key) (d : dict) : rslt * dict :=
    if dhas k d then (RUnit, ddel k d) else (RKeyError k, d).
  Definition d_pop (k : key) (dflt : option V) (d : dict) : rslt * dict :=
    match dget k d with
    | Some v => (RVal v, ddel k d)
    | None => (match dflt with Some v => RVal v | None => RKeyError k end, d)
    end.
  Definition d_popitem (d : dict) : rslt * dict :=
    match rev d with
    | [] => (REmptyError, d)
    | p :: r => (RItem p, rev r)
    end.
  Definition d_setdefault (k : key) (dflt : option V) (d : dict) : rslt * dict :=
    match dget k d with
    | Some v => (RVal v, d)
    | None => let v := match dflt with Some v => v | None => none end in (RVal v, dset k v d)
    end.
  Definition d_get (k : key) (dflt : option V) (d : dict) : rslt :=
    match dget k d with
    | Some v => RVal v
    | None => RVal (match dflt with Some v => v | None => none end)
    end.

  (** Read-only and mutating use of [self._data]. *)
  Definition peek (b : nat) (m : bmem) (f : dict -> rslt) : rslt * bmem :=
    match data_of b m with
    | Some (_, d) => (f d, m)
    | None => (RNoBunch, m)
    end.
  Definition poke (b : nat) (m : bmem) (f : dict -> rslt * dict) : rslt * bmem :=
    match data_of b m with
    | Some (i, d) => let (r, d') := f d in (r, set_dict i d' m)
    | None => (RNoBunch, m)
    end.

  (** bunch.py:25-27, [copy]: builds a dict from the items and passes it as keyword arguments. *)
  Definition bunch_copy (b : nat) (m : bmem) : rslt * bmem :=
    match data_of b m with
    | Some (_, d) =>
        let kw := dupd [] d in
        if kw_ok kw then let (c, m1) := bunch_init kw m in (RNew c, m1) else (RTypeError, m)
    | None => (RNoBunch, m)
    end.

  (** bunch.py:34-35 and the attribute protocol of [object]: instance __dict__, then class
      attributes (all of Bunch's are non-data descriptors or plain values as far as the names
      are concerned), then [__getattr__], which looks into [_data]. *)
  Definition bunch_getattr (b : nat) (s : string) (m : bmem) : rslt * bmem :=
    match nth_error (m_objs m) b with
    | None => (RNoBunch, m)
    | Some o =>
        match sget s o with
        | Some (SVal v) => (RVal v, m)
        | Some _ => (RInternal, m)
        | None => if smem s class_attrs then (RMethod s, m)
                  else peek b m (d_getitem (KStr s))
        end
    end.

  (** bunch.py:36-41, [__setattr__]. Assigning to [_data] or [_reserved_names] from outside is
      kept out of the model's programs; here it would write the instance __dict__. *)
  Definition bunch_setattr (b : nat) (s : string) (v : V) (m : bmem) : rslt * bmem :=
    match nth_error (m_objs m) b with
    | None => (RNoBunch, m)
    | Some o =>
        if smem s ["_data"; "_reserved_names"]%string then (RUnit, set_obj b (sset s (SVal v) o) m)
        else if smem s (names_of b m) then (RAttributeError s, m)
        else poke b m (fun d => (RUnit, dset (KStr s) v d))
    end.

  Definition run_op (o : op) (m : bmem) : rslt * bmem :=
    match o with
    | ONew kw =>
        if kw_ok (kwdict kw) then let (b, m1) := bunch_init (kwdict kw) m in (RNew b, m1)
        else (RTypeError, m)
    | OCopy b => bunch_copy b m
    | OReplace b c =>                                     (* bunch.py:28-32 *)
        match data_of b m with
        | None => (RNoBunch, m)
        | Some _ =>
            match bunch_copy c m with
            | (RNew n, m1) =>
                match data_of n m1, nth_error (m_objs m) b with
                | Some (i, _), Some o =>                  (* the temporary bunch is gone *)
                    (RUnit, mkMem (m_dicts m1) (upd_nth b (sset "_data" (SDict i) o) (m_objs m)))
                | _, _ => (RNoBunch, m)
                end
            | (r, m1) => (r, m1)
            end
        end
    | OGetAttr b s => bunch_getattr b s m
    | OSetAttr b s v => bunch_setattr b s v m
    | ODelAttr b s => poke b m (d_delitem (KStr s))       (* bunch.py:42-43 *)
    | OContains b k => peek b m (fun d => RBool (dhas k d))   (* 46-47 *)
    | OIter b => peek b m (fun d => RKeys (map fst d))        (* 48-49 *)
    | OLen b => peek b m (fun d => RInt (List.length d))      (* 50-51 *)
    | OGetItem b k => peek b m (d_getitem k)                  (* 54-55 *)
    | OSetItem b k v => poke b m (fun d => (RUnit, dset k v d))   (* 56-57 *)
    | ODelItem b k => poke b m (d_delitem k)                  (* 58-59 *)
    | OKeys b => peek b m (fun d => RKeys (map fst d))        (* 60-61 *)
    | OItems b => peek b m (fun d => RItems d)                (* 62-63 *)
    | OValues b => peek b m (fun d => RVals (map snd d))      (* 64-65 *)
    | OGet b k dflt =>                                        (* 66-67 *)
        peek b m (fun d => if dhas k d then d_getitem k d
                           else RVal (match dflt with Some v => v | None => none end))
    | OEq b c =>                                              (* 68-69: other == self._data, and
                                                                 again in other's __eq__ *)
        match data_of b m, data_of c m with
        | Some (_, d), Some (_, e) => (RBool (deq d e), m)
        | _, _ => (RNoBunch, m)
        end
    | ONe b c =>                                              (* 70-71 *)
        match data_of b m, data_of c m with
        | Some (_, d), Some (_, e) => (RBool (negb (deq d e)), m)
        | _, _ => (RNoBunch, m)
        end
    | OPop b k dflt => poke b m (d_pop k dflt)                (* 74-75 *)
    | OPopItem b => poke b m d_popitem                        (* 76-77 *)
    | OClear b => poke b m (fun _ => (RUnit, []))             (* 78-79 *)
    | OUpdate b kw =>                                         (* 80-81 *)
        match data_of b m with
        | None => (RNoBunch, m)
        | Some _ => if kw_ok (kwdict kw) then poke b m (fun d => (RUnit, dupd d (kwdict kw)))
                    else (RTypeError, m)
        end
    | OSetDefault b k dflt => poke b m (d_setdefault k dflt)  (* 82-83 *)
    end.

  Fixpoint run_ops (l : list op) (m : bmem) : list rslt * bmem :=
    match l with
    | [] => ([], m)
    | o :: r => let (x, m1) := run_op o m in
                let (xs, m2) := run_ops r m1 in (x :: xs, m2)
    end.

  Definition bmem0 : bmem := mkMem [] [].
End Bunch.
Arguments rslt : clear implicits.
Arguments op : clear implicits.
Arguments bmem : clear implicits.
Arguments dict : clear implicits.
Arguments slot : clear implicits.
