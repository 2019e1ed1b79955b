(** Model of the dialect expander with its debug output, and of the dialect StepExpansion, mcpyrate/dialects.py:120-332.

    Exceptions raised by dialects are taken to be subclasses of [Exception], as in DialectModel.v. User dialects are taken to leave the expander's [debugmode] and
    [_step] alone. *)
From Verif Require Import Base DialectModel.
Open Scope string_scope.

(** A message on stderr, with the number of steps in it, and the program that is shown below it. The program is shown as text, or by unparse_with_fallbacks (C71, C72). *)
Inductive msg (C : Type) : Type :=
| MEnabled (step : nat)
| MBefore (kind : string) (steps : nat) (c : C)
| MAfter (name : string) (step : nat) (c : C)
| MDone (kind : string) (steps : nat).
Arguments MEnabled {C}. Arguments MBefore {C}. Arguments MAfter {C}. Arguments MDone {C}.
(** A dialect class, and an instance: StepExpansion, or any other. *)
Inductive dcls (Ob : Type) : Type := CUser (o : Ob) | CStep.
Arguments CUser {Ob}. Arguments CStep {Ob}.
Inductive dobj (In_ : Type) : Type := OUser (i : In_) | OStep.
Arguments OUser {In_}. Arguments OStep {In_}.

Section StepDialect.
  Context {W Ob In_ C : Type}.
  (** What the expander remembers (dialects.py:187-191), what was printed, and the process. *)
  Record dst : Type := DSt { d_debug : bool; d_step : nat; d_log : list (msg C); d_w : W }.
  Variable is_dialect : Ob -> bool.
  Variable instantiate : Ob -> W -> res In_ * W.
  (** The method; [None]: the dialect object does not have it. It returns NotImplemented ([None]) or a program. *)
  Variable transform : In_ -> option (C -> W -> res (option C) * W).
  (** [not result]. *)
  Variable is_empty : C -> bool.
  (** [kind] is "source", "AST" or "AST postprocessors"; [method] is the name of the method. *)
  Variable kind method : string.

  Definition say (m : msg C) (s : dst) : dst := DSt (d_debug s) (d_step s) (d_log s ++ [m])%list (d_w s).
  Definition say_if (m : nat -> msg C) (s : dst) : dst := if d_debug s then say (m (d_step s)) s else s.
  Definition with_w (w : W) (s : dst) : dst := DSt (d_debug s) (d_step s) (d_log s) w.
  (** dialects.py:159-163. *)
  Definition enable (s : dst) : dst := say (MEnabled (S (d_step s))) (DSt true (d_step s) (d_log s) (d_w s)).
  (** dialects.py:142-157; postprocess_ast is inherited (120-122). *)
  Definition step_method (c : C) (s : dst) : option C * dst :=
    if String.eqb kind "source" then (Some c, enable s)
    else if String.eqb kind "AST" then if d_debug s then (None, s) else (Some c, enable s)
    else (None, s).
  (** dialects.py:270-279, 313-325: the result [r] of a method, before which the program was [c]. *)
  Definition finish (name : string) (c : C) (r : option C) (s : dst) : res C * dst :=
    match r with
    | None => (Ok c, s)
    | Some c' =>
        if is_empty c' then (Err (ierr "ImportError"), s)
        else (Ok c', say_if (fun k => MAfter name k c') (DSt (d_debug s) (S (d_step s)) (d_log s) (d_w s)))
    end.
  (** dialects.py:258-266, 305-311: the call of the method of an object. *)
  Definition apply_dialect (name : string) (d : dobj In_) (c : C) (s : dst) : res C * dst :=
    match d with
    | OStep => let (r, s1) := step_method c s in finish name c r s1
    | OUser i =>
        match transform i with
        | None => (Err (ierr "ImportError"), s)
        | Some f => match f c (d_w s) with
                    | (Err _, w) => (Err (ierr "ImportError"), with_w w s)
                    | (Ok r, w) => finish name c r (with_w w s)
                    end
        end
    end.
  (** dialects.py:247-256. *)
  Definition make (cls : dcls Ob) (s : dst) : res (dobj In_) * dst :=
    match cls with
    | CStep => (Ok OStep, s)
    | CUser o =>
        if negb (is_dialect o) then (Err (ierr "TypeError"), s)
        else match instantiate o (d_w s) with (Err _, w) => (Err (ierr "ImportError"), with_w w s) | (Ok i, w) => (Ok (OUser i), with_w w s) end
    end.
  (** dialects.py:243-283: the bindings of one dialect-import from the module [m]. *)
  Fixpoint step_bindings (m : string) (bs : list (string * dcls Ob)) (c : C) (ds : list (dobj In_)) (s : dst) : res (C * list (dobj In_)) * dst :=
    match bs with
    | [] => (Ok (c, ds), s)
    | (x, cls) :: r =>
        match make cls s with
        | (Err e, s1) => (Err e, s1)
        | (Ok d, s1) =>
            match apply_dialect (m ++ "." ++ x ++ "." ++ method) d c s1 with
            | (Err e, s2) => (Err e, s2)
            | (Ok c', s2) => step_bindings m r c' (ds ++ [d])%list s2
            end
        end
    end.
  (** The search for a dialect-import: the absolute name of the module, the bindings and the program (changed in place), or None. *)
  Variable find : C -> W -> res (option (string * list (string * dcls Ob) * C)) * W.
  (** dialects.py:236-242. [None]: not returned after [n] rounds. *)
  Fixpoint step_loop (n : nat) (c : C) (ds : list (dobj In_)) (s : dst) : option (res (C * list (dobj In_)) * dst) :=
    match n with
    | O => None
    | S n' =>
        match find c (d_w s) with
        | (Err e, w) => Some (Err e, with_w w s)
        | (Ok None, w) => Some (Ok (c, ds), with_w w s)
        | (Ok (Some (m, bs, c1)), w) =>
            match step_bindings m bs c1 ds (with_w w s) with
            | (Err e, s2) => Some (Err e, s2)
            | (Ok (c2, ds2), s2) => step_loop n' c2 ds2 s2
            end
        end
    end.
  (** dialects.py:218-290, _transform. *)
  Definition step_transform (n : nat) (c : C) (s : dst) : option (res (C * list (dobj In_)) * dst) :=
    match step_loop n c [] (say_if (fun k => MBefore kind k c) s) with
    | Some (Ok r, s1) => Some (Ok r, say_if (MDone kind) s1)
    | x => x
    end.

  (** dialects.py:292-332, postprocess_ast; [name_of]: [format_macrofunction(dialect)]. *)
  Variable name_of : dobj In_ -> string.
  Fixpoint step_post (ds : list (dobj In_)) (c : C) (s : dst) : res C * dst :=
    match ds with
    | [] => (Ok c, s)
    | d :: r => match apply_dialect (name_of d ++ "." ++ method) d c s with (Err e, s1) => (Err e, s1) | (Ok c', s1) => step_post r c' s1 end
    end.
  Definition step_postprocess (ds : list (dobj In_)) (c : C) (s : dst) : res C * dst :=
    match step_post ds c (say_if (fun k => MBefore kind k c) s) with
    | (Ok c', s1) => (Ok c', say_if (MDone kind) s1)
    | x => x
    end.
End StepDialect.
