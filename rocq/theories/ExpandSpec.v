(** Vocabulary for the statements about expand_macros. *)
From Verif Require Import Base AstLib FixLocModel CtxSpec ExpanderModel.

(** Every expression in the tree has the ctx its position demands; the tree itself stands at a position of ctx [c]. *)
Inductive right_ctx : string -> ltree -> Prop :=
| rc_node c m k fs : (ctx_class k = true -> getf "ctx" fs = Some (Nd noloc c [])) ->
    (forall f v, In (f, v) fs -> right_ctx (demand k f c) v) -> right_ctx c (Nd m k fs)
| rc_list c l : (forall v, In v l -> right_ctx c v) -> right_ctx c (Ls l)
| rc_atom c a : right_ctx c (At a).

(** The tree without its ctx fields. *)
Fixpoint without_ctx (t : ltree) : ltree :=
  match t with
  | Nd m k fs =>
      let fs' := map (fun p : string * ltree => let (f, v) := p in (f, without_ctx v)) fs in
      Nd m k (if ctx_class k then filter (fun p => negb (String.eqb (fst p) "ctx")) fs' else fs')
  | Ls l => Ls (map without_ctx l)
  | At a => At a
  end.

(** A list inside a list, directly, does not occur; what stands alone may be a list. *)
Definition well_formed (t : ltree) : Prop :=
  match t with Ls l => Forall (fun x => is_list x = false /\ wf x = true) l | _ => wf t = true end.
