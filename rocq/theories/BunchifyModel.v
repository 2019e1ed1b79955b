(** Model of bunchify, mcpyrate/bunch.py:97-134, and of programs that use dicts and bunches together. *)
From Verif Require Import Base BunchModel.

Section Bunchify.
  Context {V : Type}.
  Variables (none : V) (veq : V -> V -> bool) (class_attrs : list string).
  (** [str.isidentifier]. *)
  Variable isident : string -> bool.

  (** The argument of bunchify: a bunch, a dict (numbered in order of creation), or an object that does not declare the
      mapping APIs. Mappings other than dict are not modelled. *)
  Inductive barg : Type := ABunch (b : nat) | ADict (h : nat) | AOther.
  Inductive bres : Type :=
  | BRes (r : rslt V)             (* of an operation on a bunch or a dict *)
  | BDict (h : nat)               (* a new dict *)
  | BBunch (b : nat)              (* what bunchify returned *)
  | BTypeError
  | BValueError (ks : list key)   (* ... keys that are not valid identifiers: ks *)
  | BAttributeError               (* the object has no attribute 'isidentifier' *)
  | BNone.                        (* not a Python result: there is no such object *)
  Inductive bop : Type :=
  | BOp (o : op V)                                   (* an operation on bunches *)
  | BNewDict (l : list (key * V))                    (* a dict display *)
  | BOnDict (h : nat) (f : dict V -> rslt V * dict V) (* any operation on a dict: its result, and the new contents *)
  | BBunchify (a : barg)
  | BHasAttr (b : nat) (s : string)                  (* hasattr(b, s) *)
  | BGetAttr (b : nat) (s : string) (dflt : V).      (* getattr(b, s, dflt) *)

  (** Memory, and the dicts the program has made: their addresses. *)
  Record bst : Type := mkBst { s_mem : bmem V; s_handles : list nat }.

  (** [x.isidentifier()]: only strings have it. [None]: AttributeError. *)
  Definition key_ident (k : key) : option bool :=
    match k with KStr s => Some (isident s) | KObj _ => None end.
  (** The generator expression of bunch.py:128: [all] stops at the first false item. *)
  Fixpoint all_ident (ks : list key) : option bool :=
    match ks with
    | [] => Some true
    | k :: r => match key_ident k with
                | None => None
                | Some false => Some false
                | Some true => all_ident r
                end
    end.
  (** The list comprehension of bunch.py:129. *)
  Fixpoint invalid_keys (ks : list key) : option (list key) :=
    match ks with
    | [] => Some []
    | k :: r => match key_ident k with
                | None => None
                | Some b => match invalid_keys r with
                            | None => None
                            | Some l => Some (if b then l else k :: l)
                            end
                end
    end.

  (** bunch.py:124-134. [b = Bunch()] makes an empty dict first, which is then dropped. *)
  Definition bunchify (a : barg) (s : bst) : bres * bst :=
    match a with
    | ABunch b => (match nth_error (m_objs (s_mem s)) b with Some _ => BBunch b | None => BNone end, s)
    | AOther => (BTypeError, s)
    | ADict h =>
        match nth_error (s_handles s) h with
        | None => (BNone, s)
        | Some i =>
            match nth_error (m_dicts (s_mem s)) i with
            | None => (BNone, s)
            | Some d =>
                match all_ident (map fst d) with
                | None => (BAttributeError, s)
                | Some false => match invalid_keys (map fst d) with
                                | None => (BAttributeError, s)
                                | Some l => (BValueError l, s)
                                end
                | Some true =>
                    let (b, m1) := bunch_init class_attrs [] (s_mem s) in
                    match nth_error (m_objs m1) b with
                    | None => (BNone, s)
                    | Some o => (BBunch b, mkBst (set_obj b (sset "_data" (SDict i) o) m1) (s_handles s))
                    end
                end
            end
        end
    end.

  Definition with_mem (r : rslt V * bmem V) (s : bst) : bres * bst := (BRes (fst r), mkBst (snd r) (s_handles s)).

  (** [hasattr] and [getattr] with a default (builtin): only AttributeError means that there is none. *)
  Definition hasattr (r : rslt V) : rslt V :=
    match r with
    | RAttributeError _ => RBool false
    | RKeyError k => RKeyError k
    | RNoBunch => RNoBunch
    | _ => RBool true
    end.
  Definition getattr_default (dflt : V) (r : rslt V) : rslt V :=
    match r with RAttributeError _ => RVal dflt | _ => r end.

  Definition run_bop (o : bop) (s : bst) : bres * bst :=
    match o with
    | BOp o => with_mem (run_op none veq class_attrs o (s_mem s)) s
    | BNewDict l =>
        let (i, m) := new_dict (dupd [] l) (s_mem s) in
        (BDict (List.length (s_handles s)), mkBst m (s_handles s ++ [i]))
    | BOnDict h f =>
        match nth_error (s_handles s) h with
        | None => (BNone, s)
        | Some i => match nth_error (m_dicts (s_mem s)) i with
                    | None => (BNone, s)
                    | Some d => let (r, d') := f d in (BRes r, mkBst (set_dict i d' (s_mem s)) (s_handles s))
                    end
        end
    | BBunchify a => bunchify a s
    | BHasAttr b n => (BRes (hasattr (fst (bunch_getattr class_attrs b n (s_mem s)))), s)
    | BGetAttr b n dflt => (BRes (getattr_default dflt (fst (bunch_getattr class_attrs b n (s_mem s)))), s)
    end.
  Fixpoint run_bops (l : list bop) (s : bst) : list bres * bst :=
    match l with
    | [] => ([], s)
    | o :: r => let (x, s1) := run_bop o s in
                let (xs, s2) := run_bops r s1 in (x :: xs, s2)
    end.
  Definition bst0 : bst := mkBst bmem0 [].
End Bunchify.
Arguments bop : clear implicits.
Arguments bres : clear implicits.
Arguments bst : clear implicits.
