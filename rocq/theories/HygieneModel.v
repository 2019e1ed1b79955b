(** Model of hygienic capture, mcpyrate/quotes.py:260-411, as a machine that runs sequences of captures and lookups in one process. *)
From Verif Require Import Base Dict UtilsModel QuoteModel.

(** ** Traces *)
Section Trace.
  Context {S O R : Type}.
  (** [None]: the operation is not possible in this state. *)
  Variable step : S -> O -> option (S * R).
  Fixpoint run (ops : list O) (st : S) : option (S * list R) :=
    match ops with
    | [] => Some (st, [])
    | o :: r => match step st o with
                | None => None
                | Some (st', x) => match run r st' with Some (st'', xs) => Some (st'', x :: xs) | None => None end
                end
    end.
End Trace.

(** ** Captured values, quotes.py:260-338 *)
Section Values.
  (** Values, the contents of [bytes] objects, and pickling. Loading makes a new object each time. *)
  Context {val bytes : Type}.
  Variable dumps : val -> res bytes.
  Variable loads : bytes -> res val.

  (** An object: its identity, and its value. *)
  Record obj : Type := mkO { o_id : nat; o_val : val }.
  (** A bytes object: its address, which is what [id] gives; the content; whether it is still alive. *)
  Record bobj : Type := mkB { b_addr : Z; b_bytes : bytes; b_live : bool }.
  (** All bytes objects there ever were (a reference to one is its index); [_lookup_cache] (quotes.py:305) with keys (name, id);
      the number of objects made. *)
  Record hst : Type := mkH { h_heap : list bobj; h_cache : list ((string * Z) * obj); h_objs : nat }.
  Definition key_eqb (x y : string * Z) : bool := String.eqb (fst x) (fst y) && Z.eqb (snd x) (snd y).
  Fixpoint cget (k : string * Z) (c : list ((string * Z) * obj)) : option obj :=
    match c with [] => None | (k', o) :: r => if key_eqb k k' then Some o else cget k r end.

  Inductive hop : Type :=
  | OCapture (name : string) (v : obj) (addr : Z) (* capture_value(v, name); the new bytes object gets the address *)
  | OLoad (b : bytes) (addr : Z) (* a bytes constant of a .pyc file, or of code compiled from the AST *)
  | OLookup (name : string) (frozen : option nat) (* lookup_value((name, frozen)) *)
  | ODrop (h : nat). (* the bytes object is deallocated *)
  Inductive hout : Type := RRef (h : nat) | RObj (o : obj) | RErr (e : exn) | RUnit.

  (** The address of a live object is not given to another one. *)
  Definition addr_free (a : Z) (l : list bobj) : bool := negb (existsb (fun b => b_live b && Z.eqb (b_addr b) a) l).
  Fixpoint kill (h : nat) (l : list bobj) : list bobj :=
    match l, h with
    | [], _ => []
    | b :: r, O => mkB (b_addr b) (b_bytes b) false :: r
    | b :: r, S h' => b :: kill h' r
    end.
  Definition alloc (b : bytes) (addr : Z) (st : hst) : option (hst * hout) :=
    if addr_free addr (h_heap st) then Some (mkH (h_heap st ++ [mkB addr b true]) (h_cache st) (h_objs st), RRef (List.length (h_heap st))) else None.
  (** quotes.py:260-302 (the AST holds the name and the bytes object) and 305-338. *)
  Definition hstep (st : hst) (o : hop) : option (hst * hout) :=
    match o with
    | OCapture name v addr => match dumps (o_val v) with Ok b => alloc b addr st | Err e => Some (st, RErr e) end
    | OLoad b addr => alloc b addr st
    | OLookup name None => Some (st, RErr (mkExn "ValueError" []))
    | OLookup name (Some h) =>
        match nth_error (h_heap st) h with
        | Some b =>
            if b_live b then
              match cget (name, b_addr b) (h_cache st) with
              | Some o => Some (st, RObj o)
              | None => match loads (b_bytes b) with
                        | Err e => Some (st, RErr e)
                        | Ok v => let o := mkO (h_objs st) v in Some (mkH (h_heap st) (((name, b_addr b), o) :: h_cache st) (S (h_objs st)), RObj o)
                        end
              end
            else None
        | None => None
        end
    | ODrop h => match nth_error (h_heap st) h with Some b => if b_live b then Some (mkH (kill h (h_heap st)) (h_cache st) (h_objs st), RUnit) else None | None => None end
    end.
  Definition hrun := run hstep.
End Values.
Arguments obj : clear implicits.
Arguments bobj : clear implicits.
Arguments hst : clear implicits.
Arguments hop : clear implicits.
Arguments hout : clear implicits.

(** ** Captured macros, quotes.py:340-411 *)
Section Macros.
  (** Macro functions are numbers; each has a module and a qualified name, and a [__name__]. *)
  Variables (fn_ref : nat -> string * string) (fn_name : nat -> string).
  Variable uuids : nat -> list ascii.
  (** What the modules hold under a qualified name (importing a module as needed). *)
  Definition world := string * string -> option nat.
  (** pickle of a function: by reference, and only if the reference leads to that same object. *)
  Definition dumps_fn (w : world) (f : nat) : res (string * string) :=
    match w (fn_ref f) with Some g => if Nat.eqb f g then Ok (fn_ref f) else Err (mkExn "PicklingError" []) | None => Err (mkExn "PicklingError" []) end.
  Definition loads_fn (w : world) (r : string * string) : res nat := match w r with Some g => Ok g | None => Err (mkExn "AttributeError" []) end.

  Record mkey : Type := mkK { k_name : string; k_unique : string; k_ref : string * string }.
  (** The global macro bindings (core.py:24), the local bindings of the expander at the use site, the state of gensym, the modules. *)
  Record mst : Type := mkM { m_global : @sdict nat; m_local : @sdict nat; m_gs : gstate; m_world : world }.
  Inductive mop : Type :=
  | MCapture (f : nat) (name : string) (fuel : nat) (* capture_macro *)
  | MCaptureAs (f : nat) (fuel : nat) (* capture_as_macro *)
  | MLookup (k : mkey) (* lookup_macro *)
  | MBind (x : string) (f : nat) | MUnbind (x : string) (* the local bindings change *)
  | MIsbound (x : string) (* expander.isbound, core.py:349-354 *)
  | MWorld (w : world). (* modules are imported, reloaded, changed *)
  Inductive mout : Type := QKey (k : mkey) | QName (x : string) | QBound (f : option nat) | QErr (e : exn) | QUnit.
  Definition set_global (st : mst) g := mkM g (m_local st) (m_gs st) (m_world st).
  Definition set_local (st : mst) l := mkM (m_global st) l (m_gs st) (m_world st).
  Definition set_gs (st : mst) g := mkM (m_global st) (m_local st) g (m_world st).
  (** quotes.py:397-411 *)
  Definition lookup_macro (st : mst) (k : mkey) : mst * mout :=
    match sget (k_unique k) (m_global st) with
    | Some _ => (st, QName (k_unique k))
    | None => match loads_fn (m_world st) (k_ref k) with
              | Ok f => (set_global st (sset (k_unique k) f (m_global st)), QName (k_unique k))
              | Err e => (st, QErr e)
              end
    end.
  (** core.py:98 and 349-354: ChainMap(local_bindings, global_bindings). *)
  Definition isbound_m (st : mst) (x : string) : option nat :=
    match sget x (m_local st) with Some f => Some f | None => sget x (m_global st) end.
  Definition mstep (st : mst) (o : mop) : option (mst * mout) :=
    match o with
    | MCapture f name fuel => (* 340-375 *)
        match dumps_fn (m_world st) f with
        | Err e => Some (st, QErr e)
        | Ok r =>
            let name' := str_of_list (scrub_uuid (list_of_str name)) in
            match gensym uuids fuel (BStr name') (m_gs st) with
            | None => None
            | Some (Ok u, gs) => Some (set_gs st gs, QKey (mkK name' u r))
            | Some (Err e, gs) => Some (set_gs st gs, QErr e)
            end
        end
    | MCaptureAs f fuel => (* 378-394 *)
        match dumps_fn (m_world st) f with
        | Err e => Some (st, QErr e)
        | Ok r =>
            match gensym uuids fuel (BStr (fn_name f)) (m_gs st) with
            | None => None
            | Some (Ok u, gs) => Some (lookup_macro (set_gs st gs) (mkK (fn_name f) u r))
            | Some (Err e, gs) => Some (set_gs st gs, QErr e)
            end
        end
    | MLookup k => Some (lookup_macro st k)
    | MBind x f => Some (set_local st (sset x f (m_local st)), QUnit)
    | MUnbind x => Some (set_local st (sdel x (m_local st)), QUnit)
    | MIsbound x => Some (st, QBound (isbound_m st x))
    | MWorld w => Some (mkM (m_global st) (m_local st) (m_gs st) w, QUnit)
    end.
  Definition mrun := run mstep.
End Macros.

(** ** Recognising captures, quotes.py:413-604 *)
(** coreutils.py:202-252 with force_import. *)
Definition import_call : pv :=
  p_call (p_name "__import__")
    [p_const (str "mcpyrate.quotes"); p_call (p_name "globals") [] []; p_const (PA ANone); nd "Tuple" [("elts"%string, PL [])]; p_const (PA (AInt 0))] [].
Definition quotes_attr_import (a : string) : pv := p_attr (p_attr import_call "quotes") a.
(** quotes.py:298-302, for a pickle [b]. *)
Definition lookup_value_ast (name b : string) : pv := p_call (quotes_attr_import "lookup_value") [nd "Tuple" [("elts"%string, PL [p_const (str name); p_const (PA (ABytes b))])]] [].
(** quotes.py:370-375. *)
Definition lookup_macro_ast (name unique b : string) : pv :=
  p_call (quotes_attr "lookup_macro") [nd "Tuple" [("elts"%string, PL [p_const (str name); p_const (str unique); p_const (PA (ABytes b))])]] [].
(** quotes.py:703-707: what astify makes of a Capture of a value. *)
Definition capture_value_ast (body : pv) (name : string) : pv := p_call (quotes_attr "capture_value") [body; p_const (str name)] [].

Definition get_field (f : string) (t : pv) : option pv :=
  match t with PN _ _ fs => match find (fun p => String.eqb (fst p) f) fs with Some (_, v) => Some v | None => None end | _ => None end.
Definition node_is (k : string) (t : pv) : bool := match t with PN _ k' _ => String.eqb k' k | _ => false end.
Definition field_str (f : string) (t : pv) : option string := match get_field f t with Some (PA (AStr s)) => Some s | _ => None end.
Definition arg (n : nat) (t : pv) : option pv := match get_field "args" t with Some (PL l) => nth_error l n | _ => None end.
Definition const_of (t : pv) : option pv := if node_is "Constant" t then get_field "value" t else None.
(** quotes.py:583-604. *)
Definition is_quotes_reference (t : pv) : res bool :=
  if node_is "Attribute" t && (match field_str "attr" t with Some s => String.eqb s "quotes" | None => false end) then
    match get_field "value" t with
    | Some m =>
        if node_is "Name" m && match field_str "id" m with Some s => String.eqb s "mcpyrate" | None => false end then Ok true
        else if node_is "Call" m &&
                match get_field "func" m with Some f => node_is "Name" f && (match field_str "id" f with Some s => String.eqb s "__import__" | None => false end) | None => false end
        then match arg 0 m with Some a => Ok (match const_of a with Some (PA (AStr s)) => String.eqb s "mcpyrate.quotes" | _ => false end) | None => Err (mkExn "IndexError" []) end
        else Ok false
    | None => Ok false
    end
  else Ok false.
Definition callee_is (names : list string) (t : pv) : res (option string) :=
  if node_is "Call" t then
    match get_field "func" t with
    | Some c => if node_is "Attribute" c then
                  match field_str "attr" c, get_field "value" c with
                  | Some a, Some v => if smem a names then match is_quotes_reference v with Ok true => Ok (Some a) | Ok false => Ok None | Err e => Err e end else Ok None
                  | _, _ => Ok None
                  end
                else Ok None
    | None => Ok None
    end
  else Ok None.
(** quotes.py:413-514. [Ok None]: False. The errors: a call of the function with other arguments. *)
Definition is_captured_value (t : pv) : res (option (string * option string)) :=
  match callee_is ["capture_value"; "lookup_value"]%string t with
  | Err e => Err e
  | Ok None => Ok None
  | Ok (Some f) =>
      if String.eqb f "capture_value" then
        match arg 1 t with
        | None => Err (mkExn "IndexError" [])
        | Some n => match const_of n with Some (PA (AStr s)) => Ok (Some (s, None)) | _ => Err (mkExn "AssertionError" []) end
        end
      else
        match arg 0 t with
        | None => Err (mkExn "IndexError" [])
        | Some k => match get_field "elts" k with
                    | Some (PL [n; b]) => match const_of n, const_of b with
                                          | Some (PA (AStr s)), Some (PA (ABytes x)) => Ok (Some (s, Some x))
                                          | _, _ => Err (mkExn "AssertionError" [])
                                          end
                    | Some (PL _) => Err (mkExn "ValueError" [])
                    | _ => Err (mkExn "AttributeError" [])
                    end
        end
  end.
(** quotes.py:517-580. *)
Definition is_captured_macro (t : pv) : res (option (string * string * string)) :=
  match callee_is ["lookup_macro"]%string t with
  | Err e => Err e
  | Ok None => Ok None
  | Ok (Some _) =>
      match arg 0 t with
      | None => Err (mkExn "IndexError" [])
      | Some k => match get_field "elts" k with
                  | Some (PL [n; u; b]) => match const_of n, const_of u, const_of b with
                                           | Some (PA (AStr s)), Some (PA (AStr y)), Some (PA (ABytes x)) => Ok (Some (s, y, x))
                                           | _, _, _ => Err (mkExn "AssertionError" [])
                                           end
                  | Some (PL _) => Err (mkExn "ValueError" [])
                  | _ => Err (mkExn "AttributeError" [])
                  end
      end
  end.
