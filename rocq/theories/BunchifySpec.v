(** Specification of bunchify: dictionaries to which bunches and program variables refer. *)
From Verif Require Import Base BunchModel BunchSpec BunchifyModel.

Section Spec.
  Context {V : Type}.
  Variables (none : V) (veq : V -> V -> bool).
  Variable isident : string -> bool.

  (** The dictionaries there are; for each bunch, and each dict the program has made, which of them it is. *)
  Record view : Type := mkView { v_cells : list (dict V); v_bunches : list nat; v_dicts : list nat }.

  Definition cell (c : option nat) (v : view) : option (nat * dict V) :=
    match c with
    | Some i => match nth_error (v_cells v) i with Some d => Some (i, d) | None => None end
    | None => None
    end.
  Definition bunch (b : nat) (v : view) : option (nat * dict V) := cell (nth_error (v_bunches v) b) v.
  Definition dictionary (h : nat) (v : view) : option (nat * dict V) := cell (nth_error (v_dicts v) h) v.

  (** A dict operation on a cell. *)
  Definition at_cell (c : option (nat * dict V)) (v : view) (f : dict V -> rslt V * dict V) : rslt V * view :=
    match c with
    | Some (i, d) => let (r, d') := f d in (r, mkView (upd_nth i d' (v_cells v)) (v_bunches v) (v_dicts v))
    | None => (RNoBunch, v)
    end.
  Definition see (b : nat) (v : view) (f : dict V -> rslt V) : rslt V * view := at_cell (bunch b v) v (fun d => (f d, d)).
  Definition act (b : nat) (v : view) (f : dict V -> rslt V * dict V) : rslt V * view := at_cell (bunch b v) v f.
  Definition both (b c : nat) (v : view) (f : dict V -> dict V -> rslt V) : rslt V * view :=
    match bunch b v, bunch c v with
    | Some (_, d), Some (_, e) => (f d e, v)
    | _, _ => (RNoBunch, v)
    end.

  (** Operations on bunches are those on the dictionary the bunch refers to. [copy] makes a new one; after [replace] the bunch
      refers to a new one. *)
  Definition view_op (o : op V) (v : view) : rslt V * view :=
    match o with
    | ONew kw => (RNew (List.length (v_bunches v)),
                  mkView (v_cells v ++ [kwdict kw]) (v_bunches v ++ [List.length (v_cells v)]) (v_dicts v))
    | OCopy b => match bunch b v with
                 | Some (_, d) => (RNew (List.length (v_bunches v)),
                                   mkView (v_cells v ++ [d]) (v_bunches v ++ [List.length (v_cells v)]) (v_dicts v))
                 | None => (RNoBunch, v)
                 end
    | OReplace b c => match bunch b v, bunch c v with
                      | Some _, Some (_, e) =>
                          (RUnit, mkView (v_cells v ++ [e]) (upd_nth b (List.length (v_cells v)) (v_bunches v)) (v_dicts v))
                      | _, _ => (RNoBunch, v)
                      end
    | OGetAttr b s => see b v (d_getitem (KStr s))
    | OSetAttr b s x => act b v (fun d => (RUnit, dset (KStr s) x d))
    | ODelAttr b s => act b v (d_delitem (KStr s))
    | OContains b k => see b v (fun d => RBool (dhas k d))
    | OIter b | OKeys b => see b v (fun d => RKeys (map fst d))
    | OLen b => see b v (fun d => RInt (List.length d))
    | OGetItem b k => see b v (d_getitem k)
    | OSetItem b k x => act b v (fun d => (RUnit, dset k x d))
    | ODelItem b k => act b v (d_delitem k)
    | OItems b => see b v (fun d => RItems d)
    | OValues b => see b v (fun d => RVals (map snd d))
    | OGet b k dflt => see b v (d_get none k dflt)
    | OEq b c => both b c v (fun d e => RBool (deq veq d e))
    | ONe b c => both b c v (fun d e => RBool (negb (deq veq d e)))
    | OPop b k dflt => act b v (d_pop k dflt)
    | OPopItem b => act b v d_popitem
    | OClear b => act b v (fun _ => (RUnit, []))
    | OUpdate b kw => act b v (fun d => (RUnit, dupd d (kwdict kw)))
    | OSetDefault b k dflt => act b v (d_setdefault none k dflt)
    end.

  Definition good_key (k : key) : bool := match k with KStr s => isident s | KObj _ => false end.
  (** bunchify as documented: a bunch is returned as it is; a dict whose keys are identifiers gets a new bunch that refers to it;
      otherwise ValueError, or TypeError if it is no mapping. *)
  Definition view_bunchify (a : barg) (v : view) : bres V * view :=
    match a with
    | ABunch b => match nth_error (v_bunches v) b with Some _ => (BBunch b, v) | None => (BNone, v) end
    | AOther => (BTypeError, v)
    | ADict h =>
        match dictionary h v with
        | None => (BNone, v)
        | Some (i, d) =>
            if forallb good_key (map fst d)
            then (BBunch (List.length (v_bunches v)), mkView (v_cells v) (v_bunches v ++ [i]) (v_dicts v))
            else (BValueError (filter (fun k => negb (good_key k)) (map fst d)), v)
        end
    end.

  Definition view_bop (o : bop V) (v : view) : bres V * view :=
    match o with
    | BOp o => let (r, v') := view_op o v in (BRes r, v')
    | BNewDict l => (BDict (List.length (v_dicts v)),
                     mkView (v_cells v ++ [dupd [] l]) (v_bunches v) (v_dicts v ++ [List.length (v_cells v)]))
    | BOnDict h f => match dictionary h v with
                     | Some c => let (r, v') := at_cell (Some c) v f in (BRes r, v')
                     | None => (BNone, v)
                     end
    | BBunchify a => view_bunchify a v
    | BHasAttr b s => (BRes (fst (see b v (fun d => RBool (dhas (KStr s) d)))), v)
    | BGetAttr b s dflt => (BRes (fst (see b v (d_get none (KStr s) (Some dflt)))), v)
    end.
  Fixpoint view_bops (l : list (bop V)) (v : view) : list (bres V) * view :=
    match l with
    | [] => ([], v)
    | o :: r => let (x, v1) := view_bop o v in
                let (xs, v2) := view_bops r v1 in (x :: xs, v2)
    end.

  Definition strings (d : dict V) : bool := forallb (fun p => match fst p with KStr _ => true | KObj _ => false end) d.

  (** What the theorem asks of an operation: as for C05 (keyword arguments are not called self, what is copied has plain keys, names
      read or assigned as attributes are not reserved); operations on dicts keep keys distinct; the keys of a dict given to bunchify
      are strings; hasattr and getattr are used on names that are there. *)
  Definition bop_ok (class_attrs : list string) (o : bop V) (v : view) : Prop :=
    match o with
    | BOp (ONew kw) | BOp (OUpdate _ kw) => forallb (fun p => negb (String.eqb (fst p) "self")) kw = true
    | BOp (OCopy b) | BOp (OReplace _ b) => match bunch b v with Some (_, d) => plain d = true | None => True end
    | BOp (OGetAttr _ s) | BOp (OSetAttr _ s _) => reserved class_attrs s = false
    | BOnDict _ f => forall d, NoDup (map fst d) -> NoDup (map fst (snd (f d)))
    | BBunchify (ADict h) => match dictionary h v with Some (_, d) => strings d = true | None => True end
    | BHasAttr b s | BGetAttr b s _ =>
        reserved class_attrs s = false /\ match bunch b v with Some (_, d) => dhas (KStr s) d = true | None => True end
    | _ => True
    end.
  Fixpoint bops_ok (class_attrs : list string) (l : list (bop V)) (v : view) : Prop :=
    match l with
    | [] => True
    | o :: r => bop_ok class_attrs o v /\ bops_ok class_attrs r (snd (view_bop o v))
    end.
  Definition view0 : view := mkView [] [] [].

  (** The contents of all bunches and dicts. *)
  Definition view_contents (v : view) : list (option (dict V)) * list (option (dict V)) :=
    (map (fun b => option_map snd (bunch b v)) (seq 0 (List.length (v_bunches v))),
     map (fun h => option_map snd (dictionary h v)) (seq 0 (List.length (v_dicts v)))).
  Definition mem_contents (s : bst V) : list (option (dict V)) * list (option (dict V)) :=
    (contents (s_mem s),
     map (fun h => match nth_error (s_handles s) h with Some i => nth_error (m_dicts (s_mem s)) i | None => None end)
         (seq 0 (List.length (s_handles s)))).
End Spec.
Arguments view : clear implicits.
