(** Model of the registry of global postprocessors (mcpyrate/core.py:360-419). *)
From Verif Require Import Base.

Section Post.
  (** [F]: the registered callables, compared by identity (a callable with its own [__eq__] is not modelled).
      [T]: trees. [U]: the rest of the process, which hooks may change. *)
  Context {F T U : Type}.
  Variable feq : F -> F -> bool.

  (** core.py:382-411, add_postprocessor. *)
  Definition add_postprocessor (f : F) (reg : list F) : list F := if existsb (feq f) reg then reg else reg ++ [f].
  (** list.remove: removes the first element that is equal. *)
  Fixpoint list_remove (f : F) (reg : list F) : list F :=
    match reg with [] => [] | g :: r => if feq f g then r else g :: list_remove f r end.
  (** core.py:413-420, remove_postprocessor. *)
  Definition remove_postprocessor (f : F) (reg : list F) : list F := if existsb (feq f) reg then list_remove f reg else reg.

  Record pst : Type := mkPst { p_reg : list F; p_user : U }.
  (** Calling a hook: user code; it may return a tree or raise, and may change anything, the registry included. *)
  Variable call : F -> T -> pst -> res T * pst.
  (** core.py:370-375: the deletion of the expander's markers and fix_ctx (modelled in MarkersModel.v and CtxModel.v). *)
  Variable prepare : T -> res T.

  (** core.py:378-379: [for custom_postprocessor in global_postprocessors: tree = custom_postprocessor(tree)]. Python's list
      iterator keeps an index into the list, which is read anew at each step. [None]: has not returned within [n] steps. *)
  Fixpoint run_hooks (n i : nat) (t : T) (s : pst) : option (res T * pst) :=
    match n with
    | O => None
    | S n' => match nth_error (p_reg s) i with
              | None => Some (Ok t, s)
              | Some f => match call f t s with
                          | (Ok t', s') => run_hooks n' (S i) t' s'
                          | (Err e, s') => Some (Err e, s')
                          end
              end
    end.
  (** core.py:360-380, global_postprocess. *)
  Definition global_postprocess (n : nat) (t : T) (s : pst) : option (res T * pst) :=
    match prepare t with
    | Ok t' => run_hooks n 0 t' s
    | Err e => Some (Err e, s)
    end.

  Inductive rop : Type := Add (f : F) | Remove (f : F).
  Definition do_op (o : rop) (reg : list F) : list F := match o with Add f => add_postprocessor f reg | Remove f => remove_postprocessor f reg end.
  Definition do_ops (l : list rop) (reg : list F) : list F := fold_left (fun r o => do_op o r) l reg.
End Post.
Arguments Add {F}. Arguments Remove {F}. Arguments mkPst {F U}. Arguments p_reg {F U}. Arguments p_user {F U}.
