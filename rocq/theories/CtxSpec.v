(** Specification of fix_ctx: which ctx each position demands. *)
From Verif Require Import Base AstLib HeapAst.

(** The expression classes that carry a ctx. *)
Definition ctx_class (k : string) : bool :=
  smem k ["Attribute"; "Subscript"; "Starred"; "Name"; "List"; "Tuple"]%string.

(** Positions that bind names, positions of del targets, positions that inherit from the parent. *)
Definition store_positions : list (string * string) :=
  [("Assign", "targets"); ("AugAssign", "target"); ("AnnAssign", "target"); ("NamedExpr", "target");
   ("For", "target"); ("AsyncFor", "target"); ("comprehension", "target");
   ("withitem", "optional_vars"); ("TypeAlias", "name")]%string.
Definition del_positions : list (string * string) := [("Delete", "targets")]%string.
Definition inherit_positions : list (string * string) :=
  [("Tuple", "elts"); ("List", "elts"); ("Starred", "value")]%string.

Definition at_pos (ps : list (string * string)) (k f : string) : bool :=
  existsb (fun p => String.eqb k (fst p) && String.eqb f (snd p)) ps.

(** The ctx of what stands in field [f] of a [k] node which itself stands at a position of ctx [c]. *)
Definition demand (k f c : string) : string :=
  if at_pos store_positions k f then "Store"
  else if at_pos del_positions k f then "Del"
  else if at_pos inherit_positions k f then c
  else "Load"%string.

(** The tree in which every expression has the ctx its position demands. *)
Fixpoint set_ctx (c : string) (t : tree unit) : tree unit :=
  match t with
  | Nd m k fs =>
      let fs' := map (fun p : string * tree unit => let (f, v) := p in (f, set_ctx (demand k f c) v)) fs in
      Nd m k (if ctx_class k then setf "ctx" (Nd tt c []) fs' else fs')
  | Ls l => Ls (map (set_ctx c) l)
  | At a => At a
  end.

(** ** Python's grammar, as far as it matters here *)

(** Fields of the classes that set or carry a ctx. *)
Definition grammar (k : string) : option (list string) :=
  (if String.eqb k "Assign" then Some ["targets"; "value"; "type_comment"]
   else if String.eqb k "AugAssign" then Some ["target"; "op"; "value"]
   else if String.eqb k "AnnAssign" then Some ["target"; "annotation"; "value"; "simple"]
   else if String.eqb k "NamedExpr" then Some ["target"; "value"]
   else if String.eqb k "For" then Some ["target"; "iter"; "body"; "orelse"; "type_comment"]
   else if String.eqb k "AsyncFor" then Some ["target"; "iter"; "body"; "orelse"; "type_comment"]
   else if String.eqb k "comprehension" then Some ["target"; "iter"; "ifs"; "is_async"]
   else if String.eqb k "withitem" then Some ["context_expr"; "optional_vars"]
   else if String.eqb k "Delete" then Some ["targets"]
   else if String.eqb k "TypeAlias" then Some ["name"; "type_params"; "value"]
   else if String.eqb k "Attribute" then Some ["value"; "attr"; "ctx"]
   else if String.eqb k "Subscript" then Some ["value"; "slice"; "ctx"]
   else if String.eqb k "Starred" then Some ["value"; "ctx"]
   else if String.eqb k "Name" then Some ["id"; "ctx"]
   else if String.eqb k "List" then Some ["elts"; "ctx"]
   else if String.eqb k "Tuple" then Some ["elts"; "ctx"]
   else None)%string.

Definition list_eqb (a b : list string) : bool :=
  if list_eq_dec string_dec a b then true else false.

Fixpoint nodupb (l : list string) : bool :=
  match l with
  | [] => true
  | x :: r => negb (smem x r) && nodupb r
  end.

(** The fields are those of the class; [ctx] may be missing (macros often leave it out). *)
Definition fields_ok (k : string) (ks : list string) : bool :=
  match grammar k with
  | Some g => list_eqb ks g || (ctx_class k && list_eqb ks (removelast g))
  | None => nodupb ks
  end.

(** A node without fields that carries no ctx: operators, Load, Store, Del, Pass... *)
Definition bare (t : tree unit) : bool :=
  match t with Nd _ k [] => negb (ctx_class k) | _ => false end.

(** Expressions that stand directly at these positions always have fields. *)
Definition expr_positions : list (string * string) :=
  [("Assign", "targets"); ("Assign", "value"); ("AugAssign", "target"); ("AugAssign", "value");
   ("AnnAssign", "target"); ("AnnAssign", "annotation"); ("AnnAssign", "value");
   ("NamedExpr", "target"); ("NamedExpr", "value"); ("For", "target"); ("For", "iter");
   ("AsyncFor", "target"); ("AsyncFor", "iter"); ("comprehension", "target");
   ("comprehension", "iter"); ("comprehension", "ifs"); ("withitem", "context_expr");
   ("withitem", "optional_vars"); ("Delete", "targets"); ("TypeAlias", "name");
   ("Attribute", "value"); ("Subscript", "value"); ("Subscript", "slice")]%string.

(** Fields that hold a str. *)
Definition identifier_positions : list (string * string) := [("Name", "id"); ("Attribute", "attr")]%string.

(** A syntactically possible tree: fields as in the grammar, only expressions that can be bound
    (or deleted) stand at positions that bind (or delete), [ctx] fields hold bare nodes, no list
    directly inside a list. *)
Fixpoint sound (c : string) (t : tree unit) : bool :=
  match t with
  | Nd _ k fs =>
      fields_ok k (map fst fs) &&
      (String.eqb c "Load" || ctx_class k) &&
      forallb (fun p : string * tree unit =>
                 let (f, v) := p in
                 if ctx_class k && String.eqb f "ctx" then bare v && sound "Load" v
                 else if at_pos identifier_positions k f then negb (is_node v || is_list v)
                 else match v with
                      | Ls l => forallb (fun x => negb (is_list x) &&
                                                  negb (at_pos expr_positions k f && bare x) &&
                                                  sound (demand k f c) x) l
                      | _ => negb (at_pos expr_positions k f && bare v) && sound (demand k f c) v
                      end) fs
  | Ls l => forallb (fun x => is_node x && sound c x) l
  | At _ => true
  end.

(** ** Sharing *)

(** A Name object, wherever it is used; its ctx is unspecified. *)
Definition name_obj (h : heap) (i : nat) (a : atom) : Prop :=
  h_obj h i = Some (ONode "Name" [("id", VAt a)])%string \/
  exists c kc, h_obj h i = Some (ONode "Name" [("id", VAt a); ("ctx", VRef c)])%string /\
               h_obj h c = Some (ONode kc []) /\ ctx_class kc = false.

(** The fields of a For loop that are evaluated together with its target; other classes: all. *)
Definition head_fields {A} (k : string) (fs : list A) : list A :=
  if smem k ["For"; "AsyncFor"]%string then firstn 2 fs else fs.
Definition tail_fields {A} (k : string) (fs : list A) : list A :=
  if smem k ["For"; "AsyncFor"]%string then skipn 2 fs else [].

(** [i] stands directly in field value [v] (as the value or as an element). *)
Definition direct (h : heap) (v : val) (i : nat) : Prop :=
  (v = VRef i /\ forall l, h_obj h i <> Some (OList l)) \/
  exists j l, v = VRef j /\ h_obj h j = Some (OList l) /\ In (VRef i) l.

(** Inside one construct that sets ctx for its parts, a shared Name standing directly in it may
    not stand anywhere else in the construct, unless all of it is in Load. [S]: the occurrences. *)
Definition no_conflict (h : heap) (k c : string) (fs : list (string * val)) (S : list (nat * string)) : Prop :=
  forall f v x e, In (f, v) fs -> at_pos expr_positions k f = true -> direct h v x -> In (x, e) S ->
    List.length (filter (fun p => Nat.eqb x (fst p)) S) = 1 \/
    (c = "Load"%string /\ forall e', In (x, e') S -> e' = "Load"%string).

(** [rep h c v t F S]: value [v], standing at a position of ctx [c], denotes the tree [t] (up to the
    ctx of shared Names); [F] lists the objects that must not be shared (everything but bare nodes
    and shared Names), once per occurrence; [S] lists the occurrences of shared Names with the ctx
    their position demands. No sharing at all: [S = []] and [NoDup F]. *)
Inductive rep (h : heap) : string -> val -> tree unit -> list nat -> list (nat * string) -> Prop :=
| rp_bare c i k : h_obj h i = Some (ONode k []) -> ctx_class k = false ->
    rep h c (VRef i) (Nd tt k []) [] []
| rp_shared c i a gs : name_obj h i a ->
    (gs = [("id", At a)] \/ exists kc, gs = [("id", At a); ("ctx", Nd tt kc [])])%string ->
    rep h c (VRef i) (Nd tt "Name" gs) [] [(i, c)]
| rp_node c i k fs gs F1 S1 F2 S2 :
    h_obj h i = Some (ONode k fs) -> (ctx_class k = true \/ fs <> []) ->
    rep_fields h k c (head_fields k fs) (head_fields k gs) F1 S1 ->
    rep_fields h k c (tail_fields k fs) (tail_fields k gs) F2 S2 ->
    no_conflict h k c (head_fields k fs) S1 ->
    rep h c (VRef i) (Nd tt k gs) (i :: F1 ++ F2) (S1 ++ S2)
with rep_elts (h : heap) : string -> list val -> list (tree unit) -> list nat -> list (nat * string) -> Prop :=
| re_nil c : rep_elts h c [] [] [] []
| re_atom c a vs ts F S : rep_elts h c vs ts F S -> rep_elts h c (VAt a :: vs) (At a :: ts) F S
| re_cons c v t vs ts F1 S1 F2 S2 : rep h c v t F1 S1 -> rep_elts h c vs ts F2 S2 ->
    rep_elts h c (v :: vs) (t :: ts) (F1 ++ F2) (S1 ++ S2)
with rep_fields (h : heap) : string -> string -> list (string * val) -> list (string * tree unit) ->
                              list nat -> list (nat * string) -> Prop :=
| rf_none k c : rep_fields h k c [] [] [] []
| rf_atom k c f a fs gs F S : rep_fields h k c fs gs F S ->
    rep_fields h k c ((f, VAt a) :: fs) ((f, At a) :: gs) F S
| rf_node k c f v t fs gs F1 S1 F2 S2 : rep h (demand k f c) v t F1 S1 -> rep_fields h k c fs gs F2 S2 ->
    rep_fields h k c ((f, v) :: fs) ((f, t) :: gs) (F1 ++ F2) (S1 ++ S2)
| rf_list k c f j vs ts fs gs F1 S1 F2 S2 :
    h_obj h j = Some (OList vs) -> rep_elts h (demand k f c) vs ts F1 S1 -> rep_fields h k c fs gs F2 S2 ->
    rep_fields h k c ((f, VRef j) :: fs) ((f, Ls ts) :: gs) (j :: F1 ++ F2) (S1 ++ S2).

(** Nesting depth of the nodes; a node that carries a ctx has the ctx below it. *)
Fixpoint height (t : tree unit) : nat :=
  match t with
  | Nd _ k fs => S (fold_right (fun p n => Nat.max (height (snd p)) n) (if ctx_class k then 1 else 0) fs)
  | Ls l => fold_right (fun x n => Nat.max (height x) n) 0 l
  | At _ => 0
  end.

(** ** No sharing *)

(** [owns h v t F]: [v] denotes [t]; [F] lists the objects it consists of, once per occurrence
    (nodes without fields that carry no ctx, such as [Load()] or [Add()], may be shared, as
    ast.parse does). *)
Inductive owns (h : heap) : val -> tree unit -> list nat -> Prop :=
| ow_at a : owns h (VAt a) (At a) []
| ow_bare i k : h_obj h i = Some (ONode k []) -> ctx_class k = false -> owns h (VRef i) (Nd tt k []) []
| ow_list i vs ts F : h_obj h i = Some (OList vs) -> owns_list h vs ts F -> owns h (VRef i) (Ls ts) (i :: F)
| ow_node i k fs gs F : h_obj h i = Some (ONode k fs) -> (ctx_class k = true \/ fs <> []) ->
    owns_fields h fs gs F -> owns h (VRef i) (Nd tt k gs) (i :: F)
with owns_list (h : heap) : list val -> list (tree unit) -> list nat -> Prop :=
| ol_nil : owns_list h [] [] []
| ol_cons v vs t ts F1 F2 : owns h v t F1 -> owns_list h vs ts F2 -> owns_list h (v :: vs) (t :: ts) (F1 ++ F2)
with owns_fields (h : heap) : list (string * val) -> list (string * tree unit) -> list nat -> Prop :=
| of_nil : owns_fields h [] [] []
| of_cons f v fs t gs F1 F2 : owns h v t F1 -> owns_fields h fs gs F2 ->
    owns_fields h ((f, v) :: fs) ((f, t) :: gs) (F1 ++ F2).

(** References point to allocated objects. *)
Definition bounded (h : heap) : Prop := forall i, h_obj h i <> None -> i < h_next h.

(** The tree without its ctx fields. *)
Fixpoint strip_ctx (t : tree unit) : tree unit :=
  match t with
  | Nd m k fs =>
      let fs' := map (fun p : string * tree unit => let (f, v) := p in (f, strip_ctx v)) fs in
      Nd m k (if ctx_class k then filter (fun p => negb (String.eqb (fst p) "ctx")) fs' else fs')
  | Ls l => Ls (map strip_ctx l)
  | At a => At a
  end.
