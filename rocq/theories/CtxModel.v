(** Model of fix_ctx, mcpyrate/astfixers.py:14-104, with the walker machinery it uses
    (walkers.py:64-91 and 179-194). *)
From Verif Require Import Base AstLib HeapAst.

(** ["ctx" in type(tree)._fields] (CPython grammar, Parser/Python.asdl). *)
Definition has_ctx (k : string) : bool :=
  smem k ["Attribute"; "Subscript"; "Starred"; "Name"; "List"; "Tuple"]%string.

(** State of the walker: memory, [self._subtree_overrides] (keyed by identity; the stored state has
    the single entry [ctxclass], so it is never falsy), [self._seen]. The stack's top is passed as
    an argument: it is pushed at the start of [visit] and popped in its [finally]. *)
Record wst : Type := mkWst { w_heap : heap; w_ov : list (val * string); w_seen : list nat }.

Definition set_heap (s : wst) (h : heap) : wst := mkWst h (w_ov s) (w_seen s).

Fixpoint ov_get (v : val) (ov : list (val * string)) : option string :=
  match ov with
  | [] => None
  | (u, c) :: r => if val_eqb v u then Some c else ov_get v r
  end.
(** [dict.pop(id(tree), False)]. *)
Definition ov_del (v : val) (ov : list (val * string)) : list (val * string) :=
  filter (fun p => negb (val_eqb v (fst p))) ov.
(** [d[id(tree)] = newstate]. *)
Definition ov_put (v : val) (c : string) (ov : list (val * string)) : list (val * string) :=
  (v, c) :: ov_del v ov.

(** walkers.py:64-91, [withstate(tree, ctxclass=c)]: for a list, each element. *)
Definition withstate (v : val) (c : string) (s : wst) : wst :=
  let keys := match v with
              | VRef i => match h_obj (w_heap s) i with
                          | Some (OList l) => l
                          | _ => [v]
                          end
              | _ => [v]
              end in
  mkWst (w_heap s) (fold_left (fun ov u => ov_put u c ov) keys (w_ov s)) (w_seen s).

(** astfixers.py:41-90, [_setup_subtree_contexts]: for each class, the calls of [withstate]:
    field, ctx class, and whether the call is guarded by [if tree.<field>:]. *)
Definition setup (k : string) : list (string * string * bool) :=
  (if String.eqb k "Assign" then [("targets", "Store", false); ("value", "Load", false)]
   else if String.eqb k "AnnAssign" then
     [("target", "Store", false); ("annotation", "Load", false); ("value", "Load", true)]
   else if String.eqb k "NamedExpr" then [("target", "Store", false); ("value", "Load", false)]
   else if String.eqb k "AugAssign" then [("target", "Store", false); ("value", "Load", false)]
   else if String.eqb k "Attribute" then [("value", "Load", false)]
   else if String.eqb k "Subscript" then [("value", "Load", false); ("slice", "Load", false)]
   else if String.eqb k "comprehension" then
     [("target", "Store", false); ("iter", "Load", false); ("ifs", "Load", false)]
   else if smem k ["For"; "AsyncFor"] then [("target", "Store", false); ("iter", "Load", false)]
   else if String.eqb k "withitem" then
     [("context_expr", "Load", false); ("optional_vars", "Store", false)]
   else if String.eqb k "Delete" then [("targets", "Del", false)]
   else if String.eqb k "TypeAlias" then [("name", "Store", false)]
   else [])%string.

Definition truthy (v : val) : bool := match v with VAt ANone => false | _ => true end.

Fixpoint run_setup (calls : list (string * string * bool)) (fs : list (string * val)) (s : wst) : res wst :=
  match calls with
  | [] => Ok s
  | (f, c, guarded) :: r =>
      match vget f fs with
      | None => Err (attribute_error f)
      | Some v => run_setup r fs (if guarded && negb (truthy v) then s else withstate v c s)
      end
  end.

Section Fix.
  Variable copy_seen_nodes : bool.

  (** astfixers.py:28-39, [_fix_one] on node [i] of class [k]. [copy] is a shallow copy: a new node
      with the same field values. [ctxclass()] makes a new instance. Returns the node to go on with. *)
  Definition fix_one (cur : string) (i : nat) (k : string) (fs : list (string * val)) (s : wst) : nat * wst :=
    if has_ctx k then
      let (j, h1) := if copy_seen_nodes && existsb (Nat.eqb i) (w_seen s)
                     then halloc (w_heap s) (ONode k fs)
                     else (i, w_heap s) in
      let (c, h2) := halloc h1 (ONode cur []) in
      (j, mkWst (hset h2 j (ONode k (vset "ctx" (VRef c) fs))) (w_ov s) (j :: w_seen s))
    else (i, s).

  Definition is_node_val (h : heap) (v : val) : bool :=
    match v with
    | VRef i => match h_obj h i with Some (ONode _ _) => true | _ => false end
    | _ => false
    end.

  Section Generic.
    Variable visit : val -> wst -> out (val * wst).

    (** The loop over a list field in ast.NodeTransformer.generic_visit. [transform] always returns
        a node here, so nothing is dropped or spliced. *)
    Fixpoint gv_elts (l : list val) (s : wst) : out (list val * wst) :=
      match l with
      | [] => Rt ([], s)
      | v :: r =>
          if is_node_val (w_heap s) v then
            match visit v s with
            | Rt (v', s1) =>
                match gv_elts r s1 with
                | Rt (r', s2) => Rt (v' :: r', s2)
                | Ex e => Ex e
                | NoFuel => NoFuel
                end
            | Ex e => Ex e
            | NoFuel => NoFuel
            end
          else match gv_elts r s with
               | Rt (r', s2) => Rt (v :: r', s2)
               | Ex e => Ex e
               | NoFuel => NoFuel
               end
      end.

    (** ast.NodeTransformer.generic_visit(node), node [i], remaining field names [keys]. Each field
        is read when its turn comes (iter_fields is a generator). A list field is updated in place:
        [old_value[:] = new_values]. *)
    Fixpoint gv_keys (i : nat) (keys : list string) (s : wst) : out wst :=
      match keys with
      | [] => Rt s
      | f :: r =>
          match h_obj (w_heap s) i with
          | Some (ONode k fs) =>
              match vget f fs with
              | None => gv_keys i r s
              | Some v =>
                  match v with
                  | VRef j =>
                      match h_obj (w_heap s) j with
                      | Some (OList l) =>
                          match gv_elts l s with
                          | Rt (l', s1) => gv_keys i r (set_heap s1 (hset (w_heap s1) j (OList l')))
                          | Ex e => Ex e
                          | NoFuel => NoFuel
                          end
                      | Some (ONode _ _) =>
                          match visit v s with
                          | Rt (v', s1) =>
                              match h_obj (w_heap s1) i with
                              | Some (ONode k' fs') =>
                                  gv_keys i r (set_heap s1 (hset (w_heap s1) i (ONode k' (vset f v' fs'))))
                              | _ => Ex (attribute_error "_fields")
                              end
                          | Ex e => Ex e
                          | NoFuel => NoFuel
                          end
                      | None => Ex (attribute_error "_fields")
                      end
                  | VAt _ => gv_keys i r s
                  end
              end
          | _ => Ex (attribute_error "_fields")
          end
      end.
  End Generic.

  (** walkers.py:179-194 with astfixers.py:23-26. A list is visited element by element and updated
      in place; [flatten] has no effect, as each element's visit returns a node. *)
  Fixpoint visit (fuel : nat) (cur : string) (v : val) (s : wst) : out (val * wst) :=
    match fuel with
    | O => NoFuel
    | S n =>
        let cur' := match ov_get v (w_ov s) with Some c => c | None => cur end in
        let s0 := mkWst (w_heap s) (ov_del v (w_ov s)) (w_seen s) in
        match v with
        | VAt _ => Ex (attribute_error "_fields")
        | VRef i =>
            match h_obj (w_heap s0) i with
            | None => Ex (attribute_error "_fields")
            | Some (OList l) =>
                match (fix go (l : list val) (s : wst) : out (list val * wst) :=
                         match l with
                         | [] => Rt ([], s)
                         | x :: r =>
                             match visit n cur' x s with
                             | Rt (x', s1) =>
                                 match go r s1 with
                                 | Rt (r', s2) => Rt (x' :: r', s2)
                                 | Ex e => Ex e
                                 | NoFuel => NoFuel
                                 end
                             | Ex e => Ex e
                             | NoFuel => NoFuel
                             end
                         end) l s0 with
                | Rt (l', s1) => Rt (v, set_heap s1 (hset (w_heap s1) i (OList l')))
                | Ex e => Ex e
                | NoFuel => NoFuel
                end
            | Some (ONode k fs) =>
                let (j, s1) := fix_one cur' i k fs s0 in
                match h_obj (w_heap s1) j with
                | Some (ONode k1 fs1) =>
                    match run_setup (setup k1) fs1 s1 with
                    | Err e => Ex e
                    | Ok s2 =>
                        match gv_keys (visit n cur') j (map fst fs1) s2 with
                        | Rt s3 => Rt (VRef j, s3)
                        | Ex e => Ex e
                        | NoFuel => NoFuel
                        end
                    end
                | _ => Ex (attribute_error "_fields")
                end
            end
        end
    end.

  (** astfixers.py:93-104, [fix_ctx]; astfixers.py:15-21: the initial state. *)
  Definition fix_ctx (fuel : nat) (h : heap) (v : val) : out (val * heap) :=
    match visit fuel "Load" v (mkWst h [] []) with
    | Rt (v', s) => Rt (v', w_heap s)
    | Ex e => Ex e
    | NoFuel => NoFuel
    end.
End Fix.
