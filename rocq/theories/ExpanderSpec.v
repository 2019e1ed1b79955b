(** Specification vocabulary for the macro expander. *)
From Verif Require Import Base AstLib FixLocModel ExpanderModel.

(** ** Macro invocations, as documented *)

(** [denotes t x args]: [t] has the form [x], [x[a0, ...]] or [x(a0, ...)]. *)
Inductive denotes {M} : tree M -> string -> list (tree M) -> Prop :=
| dn_name m fs x : getf "id" fs = Some (At (AStr x)) -> denotes (Nd m "Name" fs) x []
| dn_one m fs m' fs' x a :
    getf "value" fs = Some (Nd m' "Name" fs') -> getf "id" fs' = Some (At (AStr x)) ->
    getf "slice" fs = Some a -> kind_of a <> "Tuple"%string -> denotes (Nd m "Subscript" fs) x [a]
| dn_many m fs m' fs' x mt fst args :
    getf "value" fs = Some (Nd m' "Name" fs') -> getf "id" fs' = Some (At (AStr x)) ->
    getf "slice" fs = Some (Nd mt "Tuple" fst) -> getf "elts" fst = Some (Ls args) -> denotes (Nd m "Subscript" fs) x args
| dn_call m fs m' fs' x args :
    getf "func" fs = Some (Nd m' "Name" fs') -> getf "id" fs' = Some (At (AStr x)) ->
    getf "keywords" fs = Some (Ls []) -> getf "args" fs = Some (Ls args) -> denotes (Nd m "Call" fs) x args.

Definition bound (b : binds) (x : string) (i : nat) : Prop :=
  exists b1 b2, b = b1 ++ (x, i) :: b2 /\ ~ In x (map fst b1).

Section Invocations.
  Context {U : Type}.
  Variables (E : env U) (b : binds).

  (** The expression [c], in a position where a macro may be named, names the macro [x] with [args]. *)
  Definition names_macro (c : ltree) (x : string) (args : list ltree) : Prop :=
    denotes c x args /\ x <> ""%string /\ exists i, bound b x i /\ (args = [] \/ m_isparam (x_macro E i) = true).

  (** The node is an invocation of macro [x]. *)
  Inductive invokes : ltree -> string -> string -> Prop :=
  | inv_expr m fs c x args : getf "value" fs = Some c -> names_macro c x args -> invokes (Nd m "Subscript" fs) x "expr"
  | inv_block m fs items mi ki fi c x args :
      getf "items" fs = Some (Ls items) -> In (Nd mi ki fi) items -> getf "context_expr" fi = Some c ->
      names_macro c x args -> invokes (Nd m "With" fs) x "block"
  | inv_dec m k fs ds c x args :
      k = "ClassDef"%string \/ k = "FunctionDef"%string ->
      getf "decorator_list" fs = Some (Ls ds) -> In c ds -> names_macro c x args -> invokes (Nd m k fs) x "decorator"
  | inv_name m fs x i :
      getf "id" fs = Some (At (AStr x)) -> x <> ""%string -> bound b x i -> m_isname (x_macro E i) = true ->
      invokes (Nd m "Name" fs) x "name".
End Invocations.

(** [part t u]: [u] occurs in [t], outside [Done]. *)
Inductive part : ltree -> ltree -> Prop :=
| pt_refl t : part t t
| pt_field m k fs f v u : k <> "Done"%string -> In (f, v) fs -> part v u -> part (Nd m k fs) u
| pt_elem l v u : In v l -> part v u -> part (Ls l) u.

(** ** Shape of the nodes the expander looks at (Python's abstract grammar) *)
Inductive ftype : Type := FStr | FAny | FList.
Definition has_field {M} (fs : list (string * tree M)) (p : string * ftype) : Prop :=
  match snd p with
  | FStr => exists s, getf (fst p) fs = Some (At (AStr s))
  | FAny => exists v, getf (fst p) fs = Some v
  | FList => exists l, getf (fst p) fs = Some (Ls l)
  end.
Definition grammar : list (string * list (string * ftype)) :=
  [("Name", [("id", FStr)]); ("Subscript", [("value", FAny); ("slice", FAny)]); ("Tuple", [("elts", FList)]);
   ("Call", [("func", FAny); ("args", FList); ("keywords", FList)]); ("With", [("items", FList); ("body", FList)]);
   ("withitem", [("context_expr", FAny); ("optional_vars", FAny)]);
   ("ClassDef", [("decorator_list", FList)]); ("FunctionDef", [("decorator_list", FList)])]%string.
Definition node_ok (t : ltree) : Prop :=
  match t with
  | Nd _ k fs =>
      (forall g, In (k, g) grammar -> Forall (has_field fs) g) /\
      (k = "With"%string -> forall l, getf "items" fs = Some (Ls l) -> Forall (fun it => kind_of it = "withitem"%string) l)
  | _ => True
  end.
Definition shaped (t : ltree) : Prop := forall u, part t u -> node_ok u.

(** ** Modes *)

(** A trace in which the mode is the one asked for by the innermost call: [disciplined b d]: [d] starts and
    ends in mode [b]; [visit_once] switches to False, [visit_recursively] to True, the expansion of a name macro
    to False, and each switch is undone. *)
Inductive disciplined : bool -> list event -> Prop :=
| ds_nil b : disciplined b []
| ds_once b d r : disciplined false d -> disciplined b r -> disciplined b (EUse HOnce :: EMode false :: d ++ EModeEnd :: r)
| ds_rec b d r : disciplined true d -> disciplined b r -> disciplined b (EUse HRec :: EMode true :: d ++ EModeEnd :: r)
| ds_visit b r : disciplined b r -> disciplined b (EUse HVisit :: r)
| ds_gen b r : disciplined b r -> disciplined b (EUse HGen :: r)
| ds_name b name i d r : in_syntax i = "name"%string -> disciplined false (ECall name i false :: d) -> disciplined b r ->
    disciplined b (EMode false :: ECall name i false :: d ++ EModeEnd :: r)
| ds_see b r : disciplined b r -> disciplined b (ESee b :: r)
| ds_call b name i d x r : disciplined b d -> disciplined b r -> disciplined b (ECall name i b :: d ++ ERet x :: r)
| ds_out b name syn t r : disciplined b r -> disciplined b (EOut name syn t :: r).

(** ** The next expansion at a node *)
Section NextCall.
  Context {U : Type}.
  Variables (E : env U) (b : binds).

  (** A with-item / a decorator that invokes a macro. *)
  Definition macro_item (it : ltree) : Prop :=
    exists m k fs c x args, it = Nd m k fs /\ getf "context_expr" fs = Some c /\ names_macro E b c x args.
  Definition macro_dec (c : ltree) : Prop := exists x args, names_macro E b c x args.

  (** [next_call t c x i]: the node [t] invokes a macro; the macro to apply next is [x], named by the expression
      [c]; it gets the input [i]. In a [with], the first macro item is next, and it gets the rest of the statement:
      the body if no other item is left, otherwise the [with] statement without the item. Among decorators,
      the innermost macro is next, and it gets the definition without that decorator. *)
  Inductive next_call : ltree -> ltree -> string -> minput -> Prop :=
  | nc_expr m fs c x args sl :
      getf "value" fs = Some c -> getf "slice" fs = Some sl -> names_macro E b c x args ->
      next_call (Nd m "Subscript" fs) c x (mkIn "expr" sl (Some args) None (Nd m "Subscript" fs))
  | nc_block m fs before mi fi after c x args ov body :
      getf "items" fs = Some (Ls (before ++ Nd mi "withitem" fi :: after)) -> Forall (fun it => ~ macro_item it) before ->
      getf "context_expr" fi = Some c -> getf "optional_vars" fi = Some ov -> getf "body" fs = Some body ->
      names_macro E b c x args ->
      next_call (Nd m "With" fs) c x
        (mkIn "block" (match before ++ after with
                       | [] => body
                       | others => Ls [Nd m "With" (setf "items" (Ls others) fs)]
                       end) (Some args) (Some ov) (Nd m "With" fs))
  | nc_dec m k fs before c after x args :
      k = "ClassDef"%string \/ k = "FunctionDef"%string ->
      getf "decorator_list" fs = Some (Ls (before ++ c :: after)) -> Forall (fun d => ~ macro_dec d) after ->
      names_macro E b c x args ->
      next_call (Nd m k fs) c x
        (mkIn "decorator" (Nd m k (setf "decorator_list" (Ls (before ++ after)) fs)) (Some args) None (Nd m k fs))
  | nc_name m fs x i :
      getf "id" fs = Some (At (AStr x)) -> x <> ""%string -> bound b x i -> m_isname (x_macro E i) = true ->
      next_call (Nd m "Name" fs) (Nd m "Name" fs) x (mkIn "name" (Nd m "Name" fs) None None (Nd m "Name" fs)).
End NextCall.

(** A call without arguments, or with a starred argument: refused in macro position. *)
Definition bad_call {M} (c : tree M) : Prop :=
  exists m fs args, c = Nd m "Call" fs /\ getf "args" fs = Some (Ls args) /\
    (args = [] \/ exists a, In a args /\ kind_of a = "Starred"%string).

(** ** Outcomes of macro functions *)

(** The macro function bound to [x], called with [i] from state [s], returns or raises [r] and leaves state [s1]. *)
Definition called_in {U} (x : string) (i : minput) (s : st U) : st U :=
  if String.eqb (in_syntax i) "name" then mkSt (s_b s) false (s_u s) (s_log s ++ [EMode false; ECall x i false])
  else mkSt (s_b s) (s_rec s) (s_u s) (s_log s ++ [ECall x i (s_rec s)]).
Definition macro_outcome {U} (E : env U) (n : nat) (s : st U) (x : string) (i : minput) (r : xres ltree) (s1 : st U) : Prop :=
  exists j, bound (s_b s) x j /\ run (visit E n) n (m_run (x_macro E j) i) (called_in x i s) = Some (r, s1).

(** What the expander accepts as the result of a macro function, as the value it stands for: a node, None, or
    an iterable of nodes (an empty string is one). *)
Inductive accepted : ltree -> ltree -> Prop :=
| ac_none : accepted NoneT NoneT
| ac_node m k fs : accepted (Nd m k fs) (Nd m k fs)
| ac_list l : Forall (fun t => is_node t = true) l -> accepted (Ls l) (Ls l)
| ac_empty_str : accepted (At (AStr "")) (Ls [])
| ac_empty_bytes : accepted (At (ABytes "")) (Ls []).

(** What stands for an expression that was deleted, [(lambda: None)()], and what keeps the line of a macro invocation
    covered, [_mcpyrate_coverage = <text>]; both at the place of the invocation, and marked as done. *)
Definition coverage_expr (m : loc) : ltree :=
  Nd noloc "Done" [("body", Nd m "Call"
    [("func", Nd m "Lambda"
        [("args", Nd noloc "arguments" [("posonlyargs", Ls []); ("args", Ls []); ("vararg", NoneT); ("kwonlyargs", Ls []);
                                        ("kw_defaults", Ls []); ("kwarg", NoneT); ("defaults", Ls [])]);
         ("body", Nd m "Constant" [("value", NoneT)])]);
     ("args", Ls []); ("keywords", Ls [])])]%string.
Definition coverage_stmt (text : string) (m : loc) : ltree :=
  Nd noloc "Done" [("body", Nd m "Assign"
    [("targets", Ls [Nd m "Name" [("id", At (AStr "_mcpyrate_coverage")); ("ctx", Nd noloc "Store" [])]]);
     ("value", Nd m "Constant" [("value", At (AStr text))])])]%string.

(** [lands c x i r t']: the result [r] of the expansion takes the place of the invocation as [t'].
    An expression: the result, or a dummy expression. A statement: the results, after a dummy statement for coverage
    if the invocation has a location. A name macro that returns its own name: marked, not to be expanded again. *)
Inductive lands {U} (E : env U) (c : ltree) (x : string) (i : minput) : ltree -> ltree -> Prop :=
| ld_expr_none : in_syntax i = "expr"%string \/ in_syntax i = "name"%string ->
    lands E c x i NoneT (coverage_expr (loc_of (in_target i)))
| ld_expr r : in_syntax i = "expr"%string -> is_none r = false -> lands E c x i r r
| ld_self m fs : in_syntax i = "name"%string -> getf "id" fs = Some (At (AStr x)) ->
    lands E c x i (Nd m "Name" fs) (done (Nd m "Name" fs))
| ld_name r : in_syntax i = "name"%string -> is_none r = false -> (forall m fs, r = Nd m "Name" fs -> getf "id" fs <> Some (At (AStr x))) ->
    lands E c x i r r
| ld_stmt_noloc r m : (in_syntax i = "block"%string /\ m = loc_of (in_target i)) \/ (in_syntax i = "decorator"%string /\ m = loc_of c) ->
    ln m = None -> co m = None -> lands E c x i r r
| ld_stmt r m l : (in_syntax i = "block"%string /\ m = loc_of (in_target i)) \/ (in_syntax i = "decorator"%string /\ m = loc_of c) ->
    ln m = Some l ->
    lands E c x i r (Ls (coverage_stmt (x_text E m x) m :: match r with At ANone => [] | Ls l => l | _ => [r] end)).

(** ** One layer of expansion *)
Definition mcall : Type := string * minput * xres ltree.
(** The calls of macro functions at the top level of a trace, with their outcomes. *)
Inductive tops : list event -> list mcall -> Prop :=
| tp_nil : tops [] []
| tp_call x i b d r rest L : disciplined b d -> tops rest L -> tops (ECall x i b :: d ++ ERet r :: rest) ((x, i, r) :: L)
| tp_out x syn t rest L : tops rest L -> tops (EOut x syn t :: rest) L
| tp_mode b d rest L1 L2 : tops d L1 -> tops rest L2 -> tops (EMode b :: d ++ EModeEnd :: rest) (L1 ++ L2).

Section Once.
  Context {U : Type}.
  Variable E : env U.
  (** [once b t L t' b']: [t'] is [t] with its outermost invocations replaced by what their macros returned; [L] are those
      invocations in order. Nothing else changes. (The bindings go from [b] to [b'], since a macro may change them.) *)
  Inductive once : binds -> ltree -> list mcall -> ltree -> binds -> Prop :=
  | on_done b m fs : once b (Nd m "Done" fs) [] (Nd m "Done" fs) b
  | on_nobinds t : once [] t [] t []
  | on_call b t c x i v v1 v2 t' b' :
      next_call E b t c x i -> ~ bad_call c -> accepted v v1 ->
      (v1 = NoneT /\ v2 = NoneT \/ v1 <> NoneT /\ x_fix E v1 t = Ok v2) -> lands E c x i v2 t' ->
      once b t [(x, i, XOk v)] t' b'
  | on_name b m fs : (forall x syn, ~ invokes E b (Nd m "Name" fs) x syn) -> once b (Nd m "Name" fs) [] (Nd m "Name" fs) b
  | on_node b m k fs L fs' b' : k <> "Done"%string -> k <> "Name"%string -> (forall x syn, ~ invokes E b (Nd m k fs) x syn) ->
      once_fields b fs L fs' b' -> once b (Nd m k fs) L (Nd m k fs') b'
  with once_fields : binds -> list (string * ltree) -> list mcall -> list (string * ltree) -> binds -> Prop :=
  | of_nil b : once_fields b [] [] [] b
  | of_atom b f a r L r' b' : once_fields b r L r' b' -> once_fields b ((f, At a) :: r) L ((f, At a) :: r') b'
  | of_list b f l L1 l' b1 r L2 r' b2 : once_list b l L1 l' b1 -> once_fields b1 r L2 r' b2 ->
      once_fields b ((f, Ls l) :: r) (L1 ++ L2) ((f, Ls l') :: r') b2
  | of_node b f t L1 t' b1 r L2 r' b2 : is_node t = true -> once b t L1 t' b1 -> is_none t' = false -> once_fields b1 r L2 r' b2 ->
      once_fields b ((f, t) :: r) (L1 ++ L2) ((f, t') :: r') b2
  | of_gone b f t L1 b1 r L2 r' b2 : is_node t = true -> once b t L1 NoneT b1 -> once_fields b1 r L2 r' b2 ->
      once_fields b ((f, t) :: r) (L1 ++ L2) r' b2
  with once_list : binds -> list ltree -> list mcall -> list ltree -> binds -> Prop :=
  | ol_nil b : once_list b [] [] [] b
  | ol_other b v r L r' b' : is_node v = false -> once_list b r L r' b' -> once_list b (v :: r) L (v :: r') b'
  | ol_node b t L1 t' b1 r L2 r' b2 : is_node t = true -> once b t L1 t' b1 -> is_node t' = true -> once_list b1 r L2 r' b2 ->
      once_list b (t :: r) (L1 ++ L2) (t' :: r') b2
  | ol_splice b t L1 l b1 r L2 r' b2 : is_node t = true -> once b t L1 (Ls l) b1 -> once_list b1 r L2 r' b2 ->
      once_list b (t :: r) (L1 ++ L2) (l ++ r') b2
  | ol_gone b t L1 b1 r L2 r' b2 : is_node t = true -> once b t L1 NoneT b1 -> once_list b1 r L2 r' b2 ->
      once_list b (t :: r) (L1 ++ L2) r' b2.
End Once.

(** ** Reports *)

(** The text of a report for the given use sites, outermost first. *)
Definition report_text (sites : list string) : string :=
  match sites with
  | [s] => s
  | _ => join_nl (["An exception occurred during macro expansion."; ""; "Macro use site (most recent macro application last):"]%string ++ sites)
  end.
Definition site {U} (E : env U) (i : minput) (x : string) : string :=
  (x_loc E (in_target i) ++ nl ++ "in " ++ in_syntax i ++ " macro invocation for '" ++ x ++ "'")%string.
(** [fails sites root err]: an execution in which a macro raised [root], and the exception went through the macro
    functions applied at the use [sites], outermost first; the outermost invocation raised [err]. Between two sites the
    error may pass any code (the expander, or the outer macro). *)
Inductive fails {U} (E : env U) : list string -> xerr -> xerr -> Prop :=
| fl_root n (s : st U) t c x i root s1 err s2 :
    shaped t -> next_call E (s_b s) t c x i -> ~ bad_call c -> macro_outcome E n s x i (XRaise root) s1 ->
    visit E (S n) t s = Some (XRaise err, s2) -> fails E [site E i x] root err
| fl_outer sites root err0 n (s : st U) t c x i s1 err s2 :
    fails E sites root err0 ->
    shaped t -> next_call E (s_b s) t c x i -> ~ bad_call c -> macro_outcome E n s x i (XRaise err0) s1 ->
    visit E (S n) t s = Some (XRaise err, s2) -> fails E (site E i x :: sites) root err.

(** ** Complete expansion *)

(** A macro function that does not change the bindings. *)
CoInductive keeps_binds {U} : prog U -> Prop :=
| kb_ret v : keeps_binds (Ret v)
| kb_raise e : keeps_binds (Raise e)
| kb_call h t k : (forall r, keeps_binds (k r)) -> keeps_binds (CallX h t k)
| kb_mode k : (forall b, keeps_binds (k b)) -> keeps_binds (GetMode k)
| kb_getb k : (forall b, keeps_binds (k b)) -> keeps_binds (GetB k)
| kb_getu k : (forall u, keeps_binds (k u)) -> keeps_binds (GetU k)
| kb_setu u k : keeps_binds k -> keeps_binds (SetU u k).

(** The members of a result: a node, or the nodes of a list. *)
Definition members (t : ltree) : list ltree := match t with Nd _ _ _ => [t] | Ls l => l | At _ => [] end.

Section Complete.
  Context {U : Type}.
  Variables (E : env U) (b : binds).

  (** The node is an invocation in a form the expander accepts. *)
  Inductive expandable : ltree -> Prop :=
  | ex_expr m fs c x args : getf "value" fs = Some c -> names_macro E b c x args -> ~ bad_call c -> expandable (Nd m "Subscript" fs)
  | ex_block m fs items mi ki fi c x args :
      getf "items" fs = Some (Ls items) -> In (Nd mi ki fi) items -> getf "context_expr" fi = Some c ->
      names_macro E b c x args -> ~ bad_call c -> expandable (Nd m "With" fs)
  | ex_dec m k fs ds c x args :
      k = "ClassDef"%string \/ k = "FunctionDef"%string ->
      getf "decorator_list" fs = Some (Ls ds) -> In c ds -> names_macro E b c x args -> ~ bad_call c -> expandable (Nd m k fs)
  | ex_name m fs x i :
      getf "id" fs = Some (At (AStr x)) -> x <> ""%string -> bound b x i -> m_isname (x_macro E i) = true ->
      expandable (Nd m "Name" fs).

  (** A bound name, or a call of one. *)
  Definition mention (t : ltree) : Prop :=
    exists x args i, denotes t x args /\ bound b x i /\ kind_of t <> "Subscript"%string.
End Complete.

(** Trees of Python's grammar, as far as it matters here: [shaped], and no field twice, no list in a list, the fields of a
    Name have no parts, and the keywords of a Call are keywords. *)
Definition tidy_node (t : ltree) : Prop :=
  node_ok t /\
  match t with
  | Nd _ k fs =>
      NoDup (map fst fs) /\
      (k = "Name"%string -> forall f v, In (f, v) fs -> match v with Nd _ _ [] => True | At _ => True | _ => False end) /\
      (k = "Call"%string -> forall l, getf "keywords" fs = Some (Ls l) -> Forall (fun w => kind_of w = "keyword"%string) l)
  | Ls l => Forall (fun v => is_list v = false) l
  | At _ => True
  end.
Definition tidy (t : ltree) : Prop := forall u, part t u -> tidy_node u.
