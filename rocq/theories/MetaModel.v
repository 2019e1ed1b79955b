(** Model of mcpyrate/metatools.py: the macros that expand quoted code at macro expansion time (167-284), and expand_first (456-527), as
    macro programs for the expander of ExpanderModel.v, with the quasiquote operators of NestModel.v.

    Simplifications: as in NestModel.v. *)
From Verif Require Import Base AstLib UtilsModel FixLocModel MarkersModel QuoteModel ExpanderModel NestModel.

(** A macro function that calls another one, and goes on with what that returned or raised. *)
CoFixpoint bindp {U} (p : prog U) (g : xres ltree -> prog U) : prog U :=
  match p with
  | Ret t => g (XOk t)
  | Raise e => g (XRaise e)
  | CallX h t k => CallX h t (fun r => bindp (k r) g)
  | GetMode k => GetMode (fun r => bindp (k r) g)
  | GetB k => GetB (fun r => bindp (k r) g)
  | SetB b k => SetB b (bindp k g)
  | GetU k => GetU (fun r => bindp (k r) g)
  | SetU u k => SetU u (bindp k g)
  end.

(** [kw['optional_vars'] is not None] *)
Definition has_asname (i : minput) : bool := match in_vars i with None | Some (At ANone) => false | Some _ => true end.
(** [tree.body] *)
Definition body_of (t : ltree) : xres ltree := match t with Nd _ _ fs => attr "body" fs | _ => XRaise (plain (mkExn "AttributeError" [])) end.

Section Meta.
  Variables (user_marker : string -> bool) (has_attr : string -> string -> bool).
  Variables (filename : string) (idx : op -> nat).
  Variables (unique : string -> string) (pickled : nat -> string).
  Notation q := (q_prog user_marker has_attr filename idx unique pickled).

  (** metatools.py:221-255, expand1s ([once]), and 258-284, expands. A tuple, set or dict that [unastify] returns counts as None here: the
      expander refuses all of them. *)
  Definition expands_prog (once : bool) (i : minput) : prog nat :=
    if negb (String.eqb (in_syntax i) "expr" || String.eqb (in_syntax i) "block") then Raise syntax_error
    else if String.eqb (in_syntax i) "block" && has_asname i then Raise syntax_error
    else
      CallX HOnce (in_tree i) (fun r =>
        match r with
        | XRaise e => Raise e
        | XOk d =>
            match body_of d with
            | XRaise e => Raise e
            | XOk u =>
                match unastify has_attr (to_pv u) with
                | Err e => Raise (plain e)
                | Ok x =>
                    CallX (if once then HOnce else HRec) (of_pv x) (fun r =>
                      match r with
                      | XRaise e => Raise e
                      | XOk t =>
                          match (if once then body_of t else XOk t) with
                          | XRaise e => Raise e
                          | XOk t => q (mkIn (in_syntax i) t (in_args i) (in_vars i) (in_target i))
                          end
                      end)
                end
            end
        end).

  (** metatools.py:167-190, expand1sq ([once]), and 193-218, expandsq. *)
  Definition expandsq_prog (once : bool) (i : minput) : prog nat :=
    if negb (String.eqb (in_syntax i) "expr" || String.eqb (in_syntax i) "block") then Raise syntax_error
    else
      bindp (q i) (fun r =>
        match r with
        | XRaise e => Raise e
        | XOk t => expands_prog once (mkIn (in_syntax i) t (in_args i) None (in_target i))
        end).

  (** metatools.py:499-500, 510-511: [type(node) is ast.Name]; the name. *)
  Definition name_of (t : ltree) : option string :=
    match t with
    | Nd _ k fs => if String.eqb k "Name" then match str_attr "id" fs with XOk x => Some x | XRaise _ => None end else None
    | _ => None
    end.
  Fixpoint macros_of (b : binds) (l : list ltree) : option (list nat) :=
    match l with
    | [] => Some []
    | t :: r => match name_of t with
                | None => None
                | Some x => match isbound b x, macros_of b r with Some i, Some is => Some (i :: is) | _, _ => None end
                end
    end.

  (** metatools.py:456-527, expand_first. Both expanders are the one at hand with other bindings; the first one has the same dict, so that
      what macros in the arguments do to the bindings stays. [captured]: the hygienically captured macros, core.py:24, which every expander sees
      (core.py:98); the bindings of the expander at hand include them, and they do not change here. ([args] that expand to nothing: iterating over None.) *)
  Definition expand_first_prog (captured : binds) (i : minput) : prog nat :=
    if negb (String.eqb (in_syntax i) "block") then Raise syntax_error
    else if has_asname i then Raise syntax_error
    else
      match in_args i with
      | None | Some [] => Raise syntax_error
      | Some l =>
          CallX HRec (Ls l) (fun r =>
            match r with
            | XRaise e => Raise e
            | XOk (Ls l') =>
                GetB (fun b =>
                  match macros_of b l' with
                  | None => Raise syntax_error
                  | Some fs => SetB (extract_bindings b fs ++ captured) (CallX HRec (in_tree i) (fun r => SetB b (answer r)))
                  end)
            | XOk _ => Raise (plain (mkExn "TypeError" []))
            end)
      end.
End Meta.
