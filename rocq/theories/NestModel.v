(** Model of the quasiquote macros q, u, n, a, s, t, h and of quote levels, mcpyrate/quotes.py:935-1219, as macro programs for the
    expander of ExpanderModel.v. The shared state of the macros is the quote level ([_quotelevel], quotes.py:935; see UtilsModel.v for
    NestingLevelTracker).

    Simplifications: the local postprocessing of an expansion (missing source locations and contexts) is left out here; the second
    expander (quotes.py:937-944) sees the quasiquote macros only, and not the hygienically captured macros of the process. *)
From Verif Require Import Base AstLib UtilsModel FixLocModel MarkersModel QuoteModel ExpanderModel.

(** The quasiquote operators. *)
Inductive op : Type := Oq | Ou | On | Oa | Os | Ot | Oh.
Definition ops : list op := [Oq; Ou; On; Oa; Os; Ot; Oh].

(** quotes.py:56, QuasiquoteSearchDone, a subclass of Done: here a Done node that knows the name of its class. *)
Definition search_done (t : ltree) : ltree :=
  Nd noloc "Done" [("body"%string, t); ("__class__"%string, At (AStr "QuasiquoteSearchDone"))].
(** Each node with its own class. *)
Fixpoint relabel (t : ltree) : ltree :=
  match t with
  | Nd m k fs =>
      let fs' := map (fun p : string * ltree => let (f, v) := p in (f, relabel v)) fs in
      match fs' with
      | [(f, v); (g, At (AStr c))] => if String.eqb k "Done" && String.eqb g "__class__" then Nd m c [(f, v)] else Nd m k fs'
      | _ => Nd m k fs'
      end
  | Ls l => Ls (map relabel l)
  | At a => At a
  end.
Definition is_search (k : string) : bool := String.eqb k "QuasiquoteSearchDone".

(** Trees as Python values, and back. (The second is used on values that are made of atoms, lists and nodes only.) *)
Fixpoint to_pv (t : ltree) : pv :=
  match t with
  | Nd m k fs => PN m k (map (fun p : string * ltree => let (f, v) := p in (f, to_pv v)) fs)
  | Ls l => PL (map to_pv l)
  | At a => PA a
  end.
Fixpoint of_pv (x : pv) : ltree :=
  match x with
  | PN m k fs => Nd m k (map (fun p : string * pv => let (f, v) := p in (f, of_pv v)) fs)
  | PL l => Ls (map of_pv l)
  | PA a => At a
  | _ => At ANone
  end.

Section Nest.
  (** Classes, as in QuoteModel.v. *)
  Variables (user_marker : string -> bool) (has_attr : string -> string -> bool).
  (** [expander.filename]; [unparse]; the function objects of the operators; all other macros; for captured macros, [gensym] and [pickle.dumps]. *)
  Variables (filename : string) (unparse : ltree -> string) (idx : op -> nat) (others : nat -> mdef nat).
  Variables (unique : string -> string) (pickled : nat -> string).
  Definition op_of (i : nat) : option op := find (fun o => Nat.eqb (idx o) i) ops.

  (** quotes.py:940-943: [extract_bindings(expander.bindings, q, u, n, a, s, t, h)]. *)
  Definition quasi_only (b : binds) : binds := extract_bindings b (map idx ops).

  (** quotes.py:342-369, capture_macro. *)
  Definition capture_macro (x : string) (i : nat) : pv :=
    p_call (quotes_attr "lookup_macro")
      [nd "Tuple" [("elts"%string, PL [p_const (str x); p_const (str (unique x)); p_const (PA (ABytes (pickled i)))])]] [].
  Definition captures_in (b : binds) : captures := fun x => match isbound b x with Some i => Some (Ok (capture_macro x i)) | None => None end.

  (** quotes.py:947-966, _replace_tree_in_macro_invocation, Python 3.9 or later. *)
  Definition replace_tree (invocation new : ltree) : xres ltree :=
    match invocation with
    | Nd m k fs =>
        if String.eqb k "Subscript" then XOk (search_done (Nd m k (setf "slice" new fs)))
        else if String.eqb k "With" then XOk (search_done (Nd m k (setf "body" new fs)))
        else XRaise (plain (mkExn "NotImplementedError" []))
    | _ => XRaise (plain (mkExn "NotImplementedError" []))
    end.

  (** quotes.py:981-1019: the end of [q], at level 1; [b] are the bindings of the expander that called it. *)
  Definition compile (b : binds) (syntax : string) (vars : option ltree) (t : ltree) : xres ltree :=
    match delete_markers is_search (relabel t) with
    | Err e => XRaise (plain e)
    | Ok t1 =>
        match QuoteModel.q user_marker has_attr (captures_in b) filename (to_pv t1) with
        | Err e => XRaise (plain e)
        | Ok c =>
            if String.eqb syntax "block" then
              match vars with
              | Some (Nd m k fs) =>
                  if String.eqb k "Name" then XOk (Nd noloc "Assign" [("targets"%string, Ls [Nd m k fs]); ("value"%string, of_pv c)])
                  else XRaise syntax_error
              | _ => XRaise syntax_error
              end
            else XOk (of_pv c)
        end
    end.

  Definition answer (r : xres ltree) : prog nat := match r with XOk v => Ret v | XRaise e => Raise e end.

  (** quotes.py:969-1019, q. The second expander is this one with other bindings, in recursive mode. *)
  Definition q_prog (i : minput) : prog nat :=
    if negb (String.eqb (in_syntax i) "expr" || String.eqb (in_syntax i) "block") then Raise syntax_error
    else
      GetU (fun lv => SetU (S lv) (GetB (fun b => SetB (quasi_only b) (CallX HRec (in_tree i) (fun r => SetB b
        (match r with
         | XRaise e => SetU lv (Raise e)
         | XOk t => GetU (fun lv1 => SetU lv
             (if Nat.ltb 1 lv1 then answer (replace_tree (in_target i) t)
              else answer (compile b (in_syntax i) (in_vars i) t)))
         end)))))).

  (** quotes.py:1141-1146: the expressions in the body of [with a]. *)
  Fixpoint expr_values (l : list ltree) : xres (list ltree) :=
    match l with
    | [] => XOk []
    | Nd _ k fs :: r =>
        if String.eqb k "Expr" then
          match attr "value" fs with
          | XRaise e => XRaise e
          | XOk v => match expr_values r with XOk vs => XOk (v :: vs) | XRaise e => XRaise e end
          end
        else XRaise syntax_error
    | _ :: _ => XRaise syntax_error
    end.

  (** What an unquote operator returns at level 0: a marker. *)
  Definition marker_of (o : op) (syntax name : string) (t : ltree) : xres ltree :=
    match o with
    | Ou => XOk (Nd noloc "Unquote" [("body"%string, t)])
    | On => XOk (Nd noloc "LiftSourcecode" [("body"%string, t); ("filename"%string, At (AStr filename))])
    | Oa =>
        if String.eqb syntax "expr" then XOk (Nd noloc "ASTLiteral" [("body"%string, t); ("syntax"%string, At (AStr syntax))])
        else match expr_values (elements t) with
             | XOk vs => XOk (Nd noloc "ASTLiteral" [("body"%string, Nd noloc "List" [("elts"%string, Ls vs)]); ("syntax"%string, At (AStr syntax))])
             | XRaise e => XRaise e
             end
    | Os => XOk (Nd noloc "ASTList" [("body"%string, t)])
    | Ot => XOk (Nd noloc "ASTTuple" [("body"%string, t)])
    | Oh => XOk (Nd noloc "Capture" [("body"%string, t); ("name"%string, At (AStr name))])
    | Oq => XRaise syntax_error (* not used *)
    end.

  (** quotes.py:1204-1214: [h] does not expand the name of a name macro. *)
  Definition is_name_macro (b : binds) (t : ltree) : bool :=
    match t with
    | Nd _ k fs =>
        String.eqb k "Name" &&
        match str_attr "id" fs with
        | XOk x => match isbound b x with
                   | Some i => match op_of i with Some _ => false | None => m_isname (others i) end
                   | None => false
                   end
        | XRaise _ => false
        end
    | _ => false
    end.
  Definition is_block_a (o : op) (syntax : string) : bool := match o with Oa => String.eqb syntax "block" | _ => false end.

  (** quotes.py:1022-1035 (u), 1038-1064 (n), 1067-1146 (a), 1149-1159 (s), 1162-1172 (t), 1175-1219 (h). *)
  Definition unquote_prog (o : op) (i : minput) : prog nat :=
    if negb (String.eqb (in_syntax i) "expr" || is_block_a o (in_syntax i)) then Raise syntax_error
    else
      GetU (fun lv =>
        if Nat.ltb lv 1 then Raise syntax_error
        else if is_block_a o (in_syntax i) && match in_vars i with None | Some (At ANone) => false | Some _ => true end then Raise syntax_error
        else
          SetU (pred lv) (
            let finish (t : ltree) := GetU (fun lv1 => SetU lv
              (if Nat.ltb 0 lv1 then answer (replace_tree (in_target i) t)
               else answer (marker_of o (in_syntax i) (unparse (in_tree i)) t))) in
            let expanded := CallX HRec (in_tree i) (fun r => match r with XRaise e => SetU lv (Raise e) | XOk t => finish t end) in
            match o with
            | Oh => GetB (fun b => if is_name_macro b (in_tree i) then finish (in_tree i) else expanded)
            | _ => expanded
            end)).

  Definition quasi_macro (o : op) : mdef nat :=
    mkMac false false (match o with Oq => q_prog | _ => unquote_prog o end).

  (** The texts of reports and of coverage dummies; which exceptions are instances of Exception. *)
  Variables (loc_text : ltree -> string) (cov_text : loc -> string -> string) (isexc : exn -> bool).
  Definition nest_env : env nat :=
    mkEnv (fun i => match op_of i with Some o => quasi_macro o | None => others i end) (fun t _ => Ok t) loc_text cov_text isexc.

  (** The state in which a macro is called. *)
  Definition at_level (b : binds) (rec : bool) (lv : nat) (log : list event) : st nat := mkSt b rec lv log.
End Nest.
