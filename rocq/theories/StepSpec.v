(** Specification vocabulary for C51. *)
From Verif Require Import Base AstLib FixLocModel ExpanderModel ExpanderSpec CollectorSpec.

Section StepSpec.
  Context {U : Type}.
  Variable E : env U.

  (** [stepped n s t shown t' s']: stepping through the expansion of [t] shows the trees [shown], beginning with [t], and ends
      with [t']. As long as the source code shown last invokes a macro, the next tree is that code with one layer of macros
      expanded. *)
  Inductive stepped (n : nat) : st U -> ltree -> list ltree -> ltree -> st U -> Prop :=
  | sd_end s t : (forall x syn, ~ invoked E (s_b s) t x syn) -> stepped n s t [t] t s
  | sd_step s t t1 s1 shown t' s' : (exists x syn, invoked E (s_b s) t x syn) -> visit_once E n t s = Some (XOk (done t1), s1) ->
      stepped n s1 t1 shown t' s' -> stepped n s t (t :: shown) t' s'.

  (** A node that is not one of the statements macros can be applied to. *)
  Definition single (t : ltree) : Prop := exists m k fs, t = Nd m k fs /\ ~ In k ["With"; "ClassDef"; "FunctionDef"]%string.

  (** Macros that only compute a tree from their input; an expression macro that is applied to an expression returns an
      expression or None. Postprocessing an expansion changes no kinds of nodes at the top. *)
  Record simple_macros : Prop := {
    sm_pure : forall j i, (exists v, m_run (x_macro E j) i = Ret v) \/ (exists e, m_run (x_macro E j) i = Raise e);
    sm_expr : forall j i v, in_syntax i = "expr"%string \/ in_syntax i = "name"%string -> single (in_tree i) -> m_run (x_macro E j) i = Ret v ->
      v = NoneT \/ single v;
    sm_fix : forall v t v', x_fix E v t = Ok v' ->
      match v with
      | Nd _ k _ => exists m' fs', v' = Nd m' k fs'
      | Ls l => Forall (fun x => is_node x = true) l -> exists l', v' = Ls l' /\ Forall (fun x => is_node x = true) l'
      | At _ => True
      end }.

  (** Given a tree of Python's grammar, macros return one, and postprocessing keeps it so. *)
  Definition shaped_macros : Prop := forall j i v v1 t v2, shaped (in_tree i) -> m_run (x_macro E j) i = Ret v -> accepted v v1 -> x_fix E v1 t = Ok v2 -> shaped v2.

  (** A tree of Python's grammar, in which such statements stand only in lists, and in which no node becomes a macro
      invocation by an expansion inside it. *)
  Variable b : binds.
  Record steady (t : ltree) : Prop := {
    st_tidy : tidy t;
    st_field : forall m k fs f v, part t (Nd m k fs) -> k <> "Done"%string -> In (f, v) fs -> is_node v = true -> single v;
    st_slice : forall m fs v, part t (Nd m "Subscript" fs) -> getf "slice" fs = Some v -> is_node v = true;
    st_stays : forall u, part t u -> is_node u = true -> (forall x syn, ~ invokes E b u x syn) ->
      forall n s u1 s', s_b s = b -> s_rec s = false -> visit E n u s = Some (XOk u1, s') -> forall x syn, ~ invokes E b u1 x syn }.

  (** [u] results from [t] by expanding one layer at a time, any number of times. *)
  Inductive reaches (t : ltree) : ltree -> Prop :=
  | rc_start : reaches t t
  | rc_step n s u u1 s' : reaches t u -> s_b s = b -> visit_once E n u s = Some (XOk (done u1), s') -> reaches t u1.
End StepSpec.
