(** Model of mcpyrate/metatools.py: run-time expansion (62-82), macro_bindings (85-105), expand1r, expandr, expand1rq, expandrq (288-420), as macro programs for the
    expander of ExpanderModel.v, with the quasiquote operators of NestModel.v.

    Simplifications: as in NestModel.v. *)
From Verif Require Import Base AstLib UtilsModel FixLocModel MarkersModel QuoteModel HygieneModel ExpanderModel NestModel MetaModel.

(** metatools.py:56-58 with coreutils.py:202-252, not force_import. *)
Definition metatools_attr (a : string) : pv := p_attr (p_attr (p_name "mcpyrate") "metatools") a.

Section Runtime.
  Variables (user_marker : string -> bool) (has_attr : string -> string -> bool).
  Variables (filename : string) (idx : op -> nat).
  Variables (unique : string -> string) (pickled : nat -> string).
  (** [pickle.dumps] of a macro function. *)
  Variable dumps : nat -> res string.
  Notation q := (q_prog user_marker has_attr filename idx unique pickled).

  (** metatools.py:103-104: quotes.py:262-302, capture_value, for each binding. *)
  Fixpoint captured_functions (b : binds) : res (list pv) :=
    match b with
    | [] => Ok []
    | (x, i) :: r =>
        match dumps i with
        | Err e => Err e
        | Ok s => match captured_functions r with Ok vs => Ok (lookup_value_ast x s :: vs) | Err e => Err e end
        end
    end.
  Definition bindings_code (b : binds) : res pv :=
    match captured_functions b with
    | Ok vs => Ok (nd "Dict" [("keys"%string, PL (map (fun p => p_const (str (fst p))) b)); ("values"%string, PL vs)])
    | Err e => Err e
    end.
  (** metatools.py:85-105, macro_bindings. *)
  Definition macro_bindings_prog (i : minput) : prog nat :=
    if negb (String.eqb (in_syntax i) "name") then Raise syntax_error
    else GetB (fun b => match bindings_code b with Ok d => Ret (of_pv d) | Err e => Raise (plain e) end).

  (** metatools.py:399-420, _expandr_impl; [once]: expand1r. *)
  Definition expandr_code (once : bool) (d t : pv) : pv :=
    p_call (metatools_attr (if once then "runtime_expand1" else "runtime_expand")%string) [] [p_kw "bindings" d; p_kw "filename" (p_const (str filename)); p_kw "tree" t].
  (** metatools.py:363-396, expand1r ([once]) and expandr. *)
  Definition expandr_prog (once : bool) (i : minput) : prog nat :=
    if String.eqb (in_syntax i) "block" && has_asname i then Raise syntax_error
    else if negb (String.eqb (in_syntax i) "expr" || String.eqb (in_syntax i) "block") then Raise syntax_error
    else GetB (fun b => match bindings_code b with Ok d => Ret (of_pv (expandr_code once d (to_pv (in_tree i)))) | Err e => Raise (plain e) end).

  (** metatools.py:288-321, expand1rq ([once]), and 324-360, expandrq. (The assertion that [q] has made an Assign cannot fail outside a quote; inside one, it does.) *)
  Definition expandrq_prog (once : bool) (i : minput) : prog nat :=
    if negb (String.eqb (in_syntax i) "expr" || String.eqb (in_syntax i) "block") then Raise syntax_error
    else
      bindp (q i) (fun r =>
        match r with
        | XRaise e => Raise e
        | XOk t =>
            if String.eqb (in_syntax i) "expr" then expandr_prog once (mkIn (in_syntax i) t (in_args i) (in_vars i) (in_target i))
            else
              match t with
              | Nd m k fs =>
                  if String.eqb k "Assign" then
                    match attr "value" fs with
                    | XRaise e => Raise e
                    | XOk v =>
                        bindp (expandr_prog once (mkIn (in_syntax i) v (in_args i) None (in_target i))) (fun r =>
                          match r with
                          | XRaise e => Raise e
                          | XOk c => Ret (Nd m k (setf "value" c fs))
                          end)
                    end
                  else Raise (plain (mkExn "AssertionError" []))
              | _ => Raise (plain (mkExn "AssertionError" []))
              end
        end).
End Runtime.

(** metatools.py:62-70, runtime_expand1 ([once]), and 73-82, runtime_expand: a new expander, which is in recursive mode (core.py:99), outside any quote. *)
Definition runtime_expand (E : env nat) (n : nat) (once : bool) (b : binds) (t : ltree) : option (xres ltree) :=
  match (if once then visit_once E n else visit_recursively E n) t (mkSt b true 0 []) with
  | None => None
  | Some (XRaise e, _) => Some (XRaise e)
  | Some (XOk d, _) => Some (if once then body_of d else XOk d)
  end.
