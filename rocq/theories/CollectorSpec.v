(** Specification vocabulary for MacroCollector. *)
From Verif Require Import Base AstLib FixLocModel ExpanderModel ExpanderSpec.

Section Source.
  Context {U : Type}.
  Variables (E : env U) (b : binds).

  (** [source t u]: [u] is a part of the source code [t], outside Done, that is code of its own: not the name part of an
      invocation, nor the as-part of a block macro. In an invocation, these are the macro arguments and what the macro is
      applied to; elsewhere, the fields. *)
  Inductive source : ltree -> ltree -> Prop :=
  | sr_refl t : source t t
  | sr_elem l v u : In v l -> source v u -> source (Ls l) u
  | sr_field m k fs f v u : k <> "Done"%string -> (forall x syn, ~ invokes E b (Nd m k fs) x syn) ->
      In (f, v) fs -> source v u -> source (Nd m k fs) u
  | sr_expr_arg m fs c x args a u : getf "value" fs = Some c -> names_macro E b c x args -> In a args -> source a u ->
      source (Nd m "Subscript" fs) u
  | sr_expr_body m fs c x args sl u : getf "value" fs = Some c -> names_macro E b c x args -> getf "slice" fs = Some sl ->
      source sl u -> source (Nd m "Subscript" fs) u
  | sr_block_arg m fs items mi ki fi c x args a u : getf "items" fs = Some (Ls items) -> In (Nd mi ki fi) items ->
      getf "context_expr" fi = Some c -> names_macro E b c x args -> In a args -> source a u -> source (Nd m "With" fs) u
  | sr_block_other m fs items y it u : invokes E b (Nd m "With" fs) y "block" -> getf "items" fs = Some (Ls items) -> In it items ->
      ~ macro_item E b it -> source it u -> source (Nd m "With" fs) u
  | sr_block_body m fs y body u : invokes E b (Nd m "With" fs) y "block" -> getf "body" fs = Some body -> source body u ->
      source (Nd m "With" fs) u
  | sr_dec_arg m k fs ds c x args a u : k = "ClassDef"%string \/ k = "FunctionDef"%string -> getf "decorator_list" fs = Some (Ls ds) ->
      In c ds -> names_macro E b c x args -> In a args -> source a u -> source (Nd m k fs) u
  | sr_dec_other m k fs y ds c u : invokes E b (Nd m k fs) y "decorator" -> getf "decorator_list" fs = Some (Ls ds) ->
      In c ds -> ~ macro_dec E b c -> source c u -> source (Nd m k fs) u
  | sr_dec_def m k fs y f v u : invokes E b (Nd m k fs) y "decorator" -> In (f, v) fs -> f <> "decorator_list"%string -> f <> "name"%string ->
      source v u -> source (Nd m k fs) u.

  (** The source code invokes macro [x] in the given syntax. *)
  Definition invoked (t : ltree) (x syn : string) : Prop := exists u, source t u /\ invokes E b u x syn.

  (** What makes the collector fail: a subscript of a call [f()] or [f(..., *a, ...)] of any name [f], a macro named with
      such a call, and a definition with a decorator macro that has a field with a plain value, such as a type comment. *)
  Definition harmless_node (u : ltree) : Prop :=
    match u with
    | Nd m k fs =>
        (k = "Subscript"%string -> forall c x args, getf "value" fs = Some c -> denotes c x args -> ~ bad_call c) /\
        (k = "With"%string -> forall items mi ki fi c x args, getf "items" fs = Some (Ls items) -> In (Nd mi ki fi) items ->
           getf "context_expr" fi = Some c -> names_macro E b c x args -> ~ bad_call c) /\
        (forall ds c x args, k = "ClassDef"%string \/ k = "FunctionDef"%string -> getf "decorator_list" fs = Some (Ls ds) -> In c ds ->
           names_macro E b c x args -> ~ bad_call c /\
           forall f v, In (f, v) fs -> f <> "decorator_list"%string -> f <> "name"%string -> 
             is_none v = true \/ is_node v = true \/ exists l, v = Ls l /\ Forall (fun e => is_none e = true \/ is_node e = true) l)
    | _ => True
    end.
  (** Fields that hold nodes in Python's grammar. *)
  Definition typed_node (u : ltree) : Prop :=
    match u with
    | Nd m k fs =>
        (k = "Subscript"%string -> forall v, getf "slice" fs = Some v -> is_node v = true) /\
        (forall f l, In (k, f) [("Tuple", "elts"); ("Call", "args"); ("With", "body"); ("ClassDef", "decorator_list"); ("FunctionDef", "decorator_list")]%string ->
           getf f fs = Some (Ls l) -> Forall (fun v => is_node v = true) l)
    | _ => True
    end.
  Definition typed (t : ltree) : Prop := forall u, part t u -> typed_node u.
  Definition harmless (t : ltree) : Prop := forall u, part t u -> harmless_node u.
End Source.
