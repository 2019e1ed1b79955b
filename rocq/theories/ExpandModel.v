(** Model of expand_macros (mcpyrate/expander.py:563-581), the entry point of the macro expander: the walk of the expander
    (ExpanderModel.v), then global_postprocess (mcpyrate/core.py:360-380; PostModel.v). *)
From Verif Require Import Base AstLib FixLocModel MarkersModel CtxSpec ExpanderModel PostModel.

(** core.py:71-79: the markers of the expander. [Done] is the only subclass of [MacroExpanderMarker] in mcpyrate; subclasses made by
    users are not modelled. *)
Definition expander_marker (k : string) : bool := String.eqb k "Done".

(** astfixers.py:93-104, fix_ctx, on a tree in which no node object occurs twice, and which is [sound]: by C10 each expression
    gets the ctx which its position demands. The new ctx objects have no location. (fix_ctx as a program over node objects is in
    CtxModel.v; that this is its result is theorem C74_ctx_step.) *)
Fixpoint ctx_fixed (c : string) (t : ltree) : ltree :=
  match t with
  | Nd m k fs =>
      let fs' := map (fun p : string * ltree => let (f, v) := p in (f, ctx_fixed (demand k f c) v)) fs in
      Nd m k (if ctx_class k then setf "ctx" (Nd noloc c []) fs' else fs')
  | Ls l => Ls (map (ctx_fixed c) l)
  | At a => At a
  end.

Section Expand.
  (** [F]: postprocessors. [W]: the rest of the process. Macros and postprocessors may change both [W] and the registry. *)
  Context {F W : Type}.
  Variable E : env (@pst F W).
  Variable call : F -> ltree -> @pst F W -> res ltree * @pst F W.
  (** What fix_ctx does to a tree that is not [sound] (a tree outside Python's grammar): anything. *)
  Variable ctx_other : ltree -> res ltree.

  (** core.py:369-375. *)
  Definition prepare (t : ltree) : res ltree :=
    match delete_markers expander_marker t with
    | Ok t' => if sound "Load" (skel t') then Ok (ctx_fixed "Load" t') else ctx_other t'
    | Err e => Err e
    end.

  (** expander.py:579-581. A new expander starts in recursive mode (core.py:96-101). [b]: the given bindings, followed by the
      global ones. [n]: steps. The log of the expander is returned, too. *)
  Definition expand_macros (n : nat) (b : binds) (t : ltree) (p : @pst F W) : option (xres ltree * @pst F W * list event) :=
    match visit E n t (mkSt b true p []) with
    | None => None
    | Some (XRaise e, s) => Some (XRaise e, s_u s, s_log s)
    | Some (XOk t', s) =>
        match global_postprocess call prepare n t' (s_u s) with
        | None => None
        | Some (r, p') => Some (lift r, p', s_log s)
        end
    end.
End Expand.
