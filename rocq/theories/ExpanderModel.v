(** Model of the macro expander: mcpyrate/core.py:82-354 and mcpyrate/expander.py:99-391, 510-558.

    Trees are values: a macro gets a tree and returns a tree. (In the code a macro may also edit the tree it
    got in place; that is modelled as returning the edited tree. Two places of a program that share one node
    object are not modelled here.) Python 3.9 or later (no [ast.Index]).

    Macro functions are arbitrary programs, see [prog]. *)
From Verif Require Import Base AstLib UtilsModel FixLocModel.

Notation ltree := (tree loc).

(** A raised exception with its [__cause__]. *)
Inductive xerr : Type := XErr (e : exn) (cause : option xerr).
Inductive xres (A : Type) : Type := XOk (a : A) | XRaise (e : xerr).
Arguments XOk {A} a.
Arguments XRaise {A} e.
Definition plain (e : exn) : xerr := XErr e None.
Definition lift {A} (r : res A) : xres A := match r with Ok a => XOk a | Err e => XRaise (plain e) end.
Definition attr {M} (f : string) (fs : list (string * tree M)) : xres (tree M) :=
  match getf f fs with Some v => XOk v | None => XRaise (plain (attribute_error f)) end.
Definition syntax_error : xerr := plain (mkExn "SyntaxError" []).

(** ** Recognising macro invocations *)

Definition is_kind {M} (k : string) (t : tree M) : bool :=
  match t with Nd _ k' _ => String.eqb k' k | _ => false end.
Definition str_attr {M} (f : string) (fs : list (string * tree M)) : xres string :=
  match getf f fs with Some (At (AStr s)) => XOk s | _ => XRaise (plain (attribute_error f)) end.
Definition elements {M} (t : tree M) : list (tree M) := match t with Ls l => l | _ => [] end.
(** Truth value of a field that holds a list (or None). *)
Definition nonempty {M} (t : tree M) : bool := match t with Ls [] => false | At ANone => false | _ => true end.

(** expander.py:99-136, destructure_candidate. [None]: [(None, None)]. The check of the call syntax is the
    one at 124-132; the texts of its errors are left out. *)
Definition destructure {M} (validate : bool) (t : tree M) : xres (option (string * list (tree M))) :=
  match t with
  | Nd _ k fs =>
      if String.eqb k "Name" then
        match str_attr "id" fs with XOk x => XOk (Some (x, [])) | XRaise e => XRaise e end
      else if String.eqb k "Subscript" then
        match attr "value" fs with
        | XRaise e => XRaise e
        | XOk (Nd _ k' fs') =>
            if String.eqb k' "Name" then
              match attr "slice" fs with
              | XRaise e => XRaise e
              | XOk sl =>
                  match str_attr "id" fs' with
                  | XRaise e => XRaise e
                  | XOk x =>
                      match sl with
                      | Nd _ ks fss =>
                          if String.eqb ks "Tuple"
                          then match attr "elts" fss with XOk el => XOk (Some (x, elements el)) | XRaise e => XRaise e end
                          else XOk (Some (x, [sl]))
                      | _ => XOk (Some (x, [sl]))
                      end
                  end
              end
            else XOk None
        | XOk _ => XOk None
        end
      else if String.eqb k "Call" then
        match attr "func" fs with
        | XRaise e => XRaise e
        | XOk (Nd _ k' fs') =>
            if String.eqb k' "Name" then
              match attr "keywords" fs with
              | XRaise e => XRaise e
              | XOk kws =>
                  if nonempty kws then XOk None
                  else match attr "args" fs with
                       | XRaise e => XRaise e
                       | XOk al =>
                           if validate && (negb (nonempty al) || existsb (is_kind "Starred") (elements al))
                           then XRaise syntax_error
                           else match str_attr "id" fs' with XOk x => XOk (Some (x, elements al)) | XRaise e => XRaise e end
                       end
              end
            else XOk None
        | XOk _ => XOk None
        end
      else XOk None
  | _ => XOk None
  end.

(** ** Macro functions *)

(** What a macro function receives: [syntax], [tree], [args] (None for a name macro), [optional_vars] (block
    macros), [invocation]. *)
Record minput : Type := mkIn {
  in_syntax : string;
  in_tree : ltree;
  in_args : option (list ltree);
  in_vars : option ltree;
  in_target : ltree
}.

(** The entry points of the expander a macro may call: [visit], [visit_once], [visit_recursively],
    [generic_visit]. *)
Inductive how : Type := HVisit | HOnce | HRec | HGen.

Definition binds : Type := list (string * nat).

Section Prog.
  (** [U]: whatever state macros share with each other and with the rest of the process. *)
  Variable U : Type.
  (** The body of a macro function: it returns a value or raises, or calls the expander and goes on with
      the outcome (a result or a caught exception), or reads the mode, or reads and writes the bindings or
      the shared state. Infinite programs are included (a macro may loop). *)
  CoInductive prog : Type :=
  | Ret (v : ltree)
  | Raise (e : xerr)
  | CallX (h : how) (t : ltree) (k : xres ltree -> prog)
  | GetMode (k : bool -> prog)
  | GetB (k : binds -> prog)
  | SetB (b : binds) (k : prog)
  | GetU (k : U -> prog)
  | SetU (u : U) (k : prog).
End Prog.
Arguments Ret {U} v.
Arguments Raise {U} e.
Arguments CallX {U} h t k.
Arguments GetMode {U} k.
Arguments GetB {U} k.
Arguments SetB {U} b k.
Arguments GetU {U} k.
Arguments SetU {U} u k.

(** A macro function object: [isnamemacro], [isparametricmacro], and its code. *)
Record mdef (U : Type) : Type := mkMac { m_isname : bool; m_isparam : bool; m_run : minput -> prog U }.
Arguments mkMac {U} _ _ _.
Arguments m_isname {U} _.
Arguments m_isparam {U} _.
Arguments m_run {U} _ _.

(** What does not change: the macro function objects; the local postprocessing of an expansion
    ([fix_locations] with the target as the reference, then [fix_ctx]; core.py:342-343); the text
    [format_location(...)] of a use site; the text of the coverage dummy; which exceptions are instances of
    [Exception]. *)
Record env (U : Type) : Type := mkEnv {
  x_macro : nat -> mdef U;
  x_fix : ltree -> ltree -> res ltree;
  x_loc : ltree -> string;
  x_text : loc -> string -> string;
  x_isexc : exn -> bool
}.
Arguments mkEnv {U} _ _ _ _ _.
Arguments x_macro {U} _ _.
Arguments x_fix {U} _ _ _.
Arguments x_loc {U} _ _.
Arguments x_text {U} _ _ _.
Arguments x_isexc {U} _ _.

(** What happened, for the specification. [EMode b] ... [EModeEnd]: extent of [_recursive_mode(b)].
    [ECall name i b] ... [ERet r]: extent of the call of a macro function, in mode [b].
    [EUse h]: a macro function called the expander; [ESee b]: a macro function looked at the mode.
    [EOut name syntax t]: [expand] returned [t]. *)
Inductive event : Type :=
| EMode (b : bool)
| EModeEnd
| ECall (name : string) (i : minput) (b : bool)
| ERet (r : xres ltree)
| EUse (h : how)
| ESee (b : bool)
| EOut (name syntax : string) (t : ltree).

(** The expander object and the shared state. [s_b]: [self.bindings], a ChainMap, seen as one list. *)
Record st (U : Type) : Type := mkSt { s_b : binds; s_rec : bool; s_u : U; s_log : list event }.
Arguments mkSt {U} _ _ _ _.
Arguments s_b {U} _.
Arguments s_rec {U} _.
Arguments s_u {U} _.
Arguments s_log {U} _.

Definition isbound (b : binds) (x : string) : option nat :=
  match find (fun p => String.eqb (fst p) x) b with Some p => Some (snd p) | None => None end.

(** ** Text of the reports *)
Definition nl : string := String (ascii_of_nat 10) EmptyString.
(** [s.split("\n")] *)
Fixpoint split_nl (s : string) : list string :=
  match s with
  | EmptyString => [EmptyString]
  | String c r =>
      if Ascii.eqb c (ascii_of_nat 10) then EmptyString :: split_nl r
      else match split_nl r with
           | [] => [String c EmptyString]
           | x :: l => String c x :: l
           end
  end.
(** ["\n".join(l)] *)
Fixpoint join_nl (l : list string) : string :=
  match l with
  | [] => EmptyString
  | [x] => x
  | x :: r => (x ++ nl ++ join_nl r)%string
  end.
Definition hint_lines : list string :=
  ["An exception occurred during macro expansion."%string; ""%string;
   "Macro use site (most recent macro application last):"%string].
Definition hint : string := join_nl hint_lines.
Definition mae : string := "MacroApplicationError".
Definition site_text (loctext syntax name : string) : string :=
  (loctext ++ nl ++ "in " ++ syntax ++ " macro invocation for '" ++ name ++ "'")%string.

(** core.py:274-302: what [expand] raises when the macro application raised [err]. *)
Definition report {U} (E : env U) (msg : string) (err : xerr) : xerr :=
  match err with
  | XErr e cause =>
      if negb (x_isexc E e) then err
      else match String.eqb (e_cls e) mae, cause with
           | true, Some c =>
               match e_args e with
               | [] => plain (mkExn "IndexError" [])
               | oldmsg :: _ =>
                   let lines := split_nl oldmsg in
                   let oldmsg' := if String.eqb (hd EmptyString lines) (hd EmptyString hint_lines)
                                  then join_nl (skipn (List.length hint_lines) lines) else oldmsg in
                   XErr (mkExn mae [(hint ++ nl ++ msg ++ nl ++ oldmsg')%string]) (Some c)
               end
           | _, _ => XErr (mkExn mae [msg]) (Some err)
           end
  end.

(** core.py:255-272: convert an iterable to a list, check that the result is a node, None, or a list of
    nodes. (A str or bytes is an iterable, too; an empty one gives the empty list.) *)
Definition typecheck (v : ltree) : option ltree :=
  match v with
  | Nd _ _ _ => Some v
  | At ANone => Some v
  | Ls l => if forallb is_node l then Some v else None
  | At (AStr "") | At (ABytes "") => Some (Ls [])
  | At _ => None
  end.

(** expander.py:510-535, _insert_coverage_dummy_stmt. [copy_location] copies all of the location, since both
    kinds of nodes have all four attributes. *)
Definition done (t : ltree) : ltree := Nd noloc "Done" [("body"%string, t)].
Definition dummy_stmt (text : string) (m : loc) : ltree :=
  Nd m "Assign"
     [("targets"%string, Ls [Nd m "Name" [("id"%string, At (AStr "_mcpyrate_coverage")); ("ctx"%string, Nd noloc "Store" [])]]);
      ("value"%string, Nd m "Constant" [("value"%string, At (AStr text))])].
Definition insert_dummy (text : string) (m : loc) (t : ltree) : xres ltree :=
  match ln m, co m with
  | None, None => XOk t
  | None, Some _ => XRaise (plain (attribute_error "lineno"))
  | Some _, _ =>
      XOk (Ls (done (dummy_stmt text m) :: match t with
                                           | At ANone => []
                                           | Ls l => l
                                           | _ => [t]
                                           end))
  end.
(** expander.py:538-558, _make_coverage_dummy_expr. *)
Definition dummy_expr (m : loc) : ltree :=
  done (Nd m "Call"
     [("func"%string, Nd m "Lambda"
         [("args"%string, Nd noloc "arguments"
             [("posonlyargs"%string, Ls []); ("args"%string, Ls []); ("vararg"%string, NoneT); ("kwonlyargs"%string, Ls []);
              ("kw_defaults"%string, Ls []); ("kwarg"%string, NoneT); ("defaults"%string, Ls [])]);
          ("body"%string, Nd m "Constant" [("value"%string, NoneT)])]);
      ("args"%string, Ls []); ("keywords"%string, Ls [])]).
Definition loc_of (t : ltree) : loc := match t with Nd m _ _ => m | _ => noloc end.

(** ** The expander *)
Section Expander.
  Context {U : Type}.
  Variable E : env U.

  (** A call: it may not return within the available steps (None), or it returns or raises. *)
  Definition comp (A : Type) : Type := st U -> option (xres A * st U).
  Definition ret {A} (a : A) : comp A := fun s => Some (XOk a, s).
  Definition raise {A} (e : xerr) : comp A := fun s => Some (XRaise e, s).
  Definition of_res {A} (r : xres A) : comp A := fun s => Some (r, s).
  Definition bnd {A B} (c : comp A) (f : A -> comp B) : comp B := fun s =>
    match c s with
    | None => None
    | Some (XOk a, s') => f a s'
    | Some (XRaise e, s') => Some (XRaise e, s')
    end.
  Definition logged (e : event) (s : st U) : st U := mkSt (s_b s) (s_rec s) (s_u s) (s_log s ++ [e]).
  Definition emit (e : event) : comp unit := fun s => Some (XOk tt, logged e s).

  (** core.py:151-161, _recursive_mode: set the mode, and restore the old one in any case. *)
  Definition with_mode {A} (b : bool) (c : comp A) : comp A := fun s =>
    match c (mkSt (s_b s) b (s_u s) (s_log s ++ [EMode b])) with
    | None => None
    | Some (r, s') => Some (r, mkSt (s_b s') (s_rec s) (s_u s') (s_log s' ++ [EModeEnd]))
    end.

  (** expander.py:142-152, ismacrocall, for a candidate that was recognised. *)
  Definition ismacrocall (b : binds) (x : string) (args : list ltree) (syntax : string) : bool :=
    match x with
    | EmptyString => false
    | _ => match isbound b x with
           | None => false
           | Some i =>
               if String.eqb syntax "name" then m_isname (x_macro E i)
               else match args with [] => true | _ => m_isparam (x_macro E i) end
           end
    end.

  (** expander.py:322-353, _detect_macro_items: which items are macro invocations. (The warning is left out.) *)
  Definition candidate_of (block : bool) (item : ltree) : xres ltree :=
    if block then match item with Nd _ _ fs => attr "context_expr" fs | _ => XRaise (plain (attribute_error "context_expr")) end
    else XOk item.
  Fixpoint detect (b : binds) (block : bool) (items : list ltree) : xres (list bool) :=
    match items with
    | [] => XOk []
    | it :: r =>
        match candidate_of block it with
        | XRaise e => XRaise e
        | XOk c =>
            match destructure false c with
            | XRaise e => XRaise e
            | XOk d =>
                match detect b block r with
                | XRaise e => XRaise e
                | XOk l => XOk (match d with
                                | Some (x, args) => ismacrocall b x args (if block then "block" else "decorator")
                                | None => false
                                end :: l)
                end
            end
        end
    end.
  (** Position of the first / last macro item. *)
  Fixpoint first_true (l : list bool) : option nat :=
    match l with
    | [] => None
    | true :: _ => Some 0
    | false :: r => match first_true r with Some i => Some (S i) | None => None end
    end.
  Fixpoint last_true (l : list bool) : option nat :=
    match l with
    | [] => None
    | x :: r => match last_true r with
                | Some i => Some (S i)
                | None => if x then Some 0 else None
                end
    end.
  Definition remove_at {A} (i : nat) (l : list A) : list A := firstn i l ++ skipn (S i) l.

  Section Visit.
    (** The recursive calls of [visit], and the number of steps left for macro programs. *)
    Variable n : nat.
    Variable visit : ltree -> comp ltree.

    (** NodeTransformer.generic_visit (CPython Lib/ast.py), see AstLib. *)
    Fixpoint xgv_list (l : list ltree) : comp (list ltree) :=
      match l with
      | [] => ret []
      | v :: r =>
          match v with
          | Nd _ _ _ => bnd (visit v) (fun v' =>
              match v' with
              | At ANone => xgv_list r
              | Ls l' => bnd (xgv_list r) (fun r' => ret (l' ++ r'))
              | Nd _ _ _ => bnd (xgv_list r) (fun r' => ret (v' :: r'))
              | At _ => raise (plain type_error)
              end)
          | _ => bnd (xgv_list r) (fun r' => ret (v :: r'))
          end
      end.
    Fixpoint xgv_fields (fs : list (string * ltree)) : comp (list (string * ltree)) :=
      match fs with
      | [] => ret []
      | (f, v) :: r =>
          match v with
          | Ls l => bnd (xgv_list l) (fun l' => bnd (xgv_fields r) (fun r' => ret ((f, Ls l') :: r')))
          | Nd _ _ _ => bnd (visit v) (fun v' =>
              match v' with
              | At ANone => xgv_fields r
              | _ => bnd (xgv_fields r) (fun r' => ret ((f, v') :: r'))
              end)
          | At _ => bnd (xgv_fields r) (fun r' => ret ((f, v) :: r'))
          end
      end.
    Definition xgeneric_visit (t : ltree) : comp ltree :=
      match t with
      | Nd m k fs => bnd (xgv_fields fs) (fun fs' => ret (Nd m k fs'))
      | _ => raise (plain (attribute_error "_fields"))
      end.

    (** [self.visit(elt) for elt in tree] (core.py:118). *)
    Fixpoint xvisit_elts (l : list ltree) : comp (list ltree) :=
      match l with
      | [] => ret []
      | x :: r => bnd (visit x) (fun x' => bnd (xvisit_elts r) (fun r' => ret (x' :: r')))
      end.

    (** core.py:125-149, visit_recursively and visit_once. *)
    Definition call_expander (h : how) (t : ltree) : comp ltree :=
      match h with
      | HVisit => visit t
      | HOnce => with_mode false (bnd (visit t) (fun t' => ret (done t')))
      | HRec => with_mode true (visit t)
      | HGen => xgeneric_visit t
      end.

    (** Execution of the macro function. *)
    Fixpoint run (k : nat) (p : prog U) (s : st U) : option (xres ltree * st U) :=
      match k with
      | O => None
      | S k' =>
          match p with
          | Ret v => Some (XOk v, s)
          | Raise e => Some (XRaise e, s)
          | CallX h t c => match call_expander h t (logged (EUse h) s) with None => None | Some (r, s') => run k' (c r) s' end
          | GetMode c => run k' (c (s_rec s)) (logged (ESee (s_rec s)) s)
          | GetB c => run k' (c (s_b s)) s
          | SetB b c => run k' c (mkSt b (s_rec s) (s_u s) (s_log s))
          | GetU c => run k' (c (s_u s)) s
          | SetU u c => run k' c (mkSt (s_b s) (s_rec s) u (s_log s))
          end
      end.

    (** core.py:306-330, _apply_macro, without a debug hook. *)
    Definition apply_macro (i : nat) (name : string) (inp : minput) : comp ltree := fun s =>
      match run n (m_run (x_macro E i) inp) (logged (ECall name inp (s_rec s)) s) with
      | None => None
      | Some (r, s') => Some (r, logged (ERet r) s')
      end.

    (** core.py:332-347, _visit_expansion. *)
    Definition visit_expansion (expansion target : ltree) : comp ltree :=
      match expansion with
      | At ANone => ret NoneT
      | _ => bnd (of_res (lift (x_fix E expansion target))) (fun t =>
               fun s => if s_rec s then visit t s else Some (XOk t, s))
      end.

    (** core.py:187-304, expand. *)
    Definition expand (name : string) (inp : minput) : comp ltree := fun s =>
      let msg := site_text (x_loc E (in_target inp)) (in_syntax inp) name in
      match isbound (s_b s) name with
      | None => Some (XRaise (report E msg (plain (mkExn mae ["not bound to a macro"%string]))), s)
      | Some i =>
          match apply_macro i name inp s with
          | None => None
          | Some (XRaise e, s') => Some (XRaise (report E msg e), s')
          | Some (XOk v, s') =>
              match typecheck v with
              | None => Some (XRaise (report E msg (plain (mkExn mae ["unexpected return value"%string]))), s')
              | Some v' => bnd (visit_expansion v' (in_target inp)) (fun t => bnd (emit (EOut name (in_syntax inp) t)) (fun _ => ret t)) s'
              end
          end
      end.

    (** expander.py:154-188, visit_Subscript. *)
    Definition visit_Subscript (m : loc) (fs : list (string * ltree)) : comp ltree := fun s =>
      let t := Nd m "Subscript" fs in
      match attr "value" fs with
      | XRaise e => Some (XRaise e, s)
      | XOk c =>
          match destructure false c with
          | XRaise e => Some (XRaise e, s)
          | XOk d =>
              if match d with Some (x, args) => ismacrocall (s_b s) x args "expr" | None => false end then
                match destructure true c with
                | XOk (Some (x, args)) =>
                    match attr "slice" fs with
                    | XRaise e => Some (XRaise e, s)
                    | XOk sl =>
                        bnd (expand x (mkIn "expr" sl (Some args) None t))
                            (fun r => ret (if is_none r then dummy_expr m else r)) s
                    end
                | XOk None => Some (XOk t, s) (* not reached *)
                | XRaise e => Some (XRaise e, s)
                end
              else xgeneric_visit t s
          end
      end.

    (** expander.py:190-268, visit_With. *)
    Definition visit_With (m : loc) (fs : list (string * ltree)) : comp ltree := fun s =>
      let t := Nd m "With" fs in
      match attr "items" fs with
      | XRaise e => Some (XRaise e, s)
      | XOk items =>
          match detect (s_b s) true (elements items) with
          | XRaise e => Some (XRaise e, s)
          | XOk flags =>
              match first_true flags with
              | None => xgeneric_visit t s
              | Some i =>
                  match nth_error (elements items) i with
                  | Some (Nd _ _ ifs) =>
                      match attr "context_expr" ifs with
                      | XRaise e => Some (XRaise e, s)
                      | XOk c =>
                          match destructure true c, attr "optional_vars" ifs, attr "body" fs with
                          | XRaise e, _, _ => Some (XRaise e, s)
                          | _, XRaise e, _ => Some (XRaise e, s)
                          | _, _, XRaise e => Some (XRaise e, s)
                          | XOk None, _, _ => Some (XOk t, s) (* not reached *)
                          | XOk (Some (x, args)), XOk ov, XOk body =>
                              let rest := remove_at i (elements items) in
                              let inner := match rest with [] => body | _ => Ls [Nd m "With" (setf "items" (Ls rest) fs)] end in
                              bnd (expand x (mkIn "block" inner (Some args) (Some ov) t))
                                  (fun r => of_res (insert_dummy (x_text E m x) m r)) s
                          end
                      end
                  | _ => Some (XOk t, s) (* not reached *)
                  end
              end
          end
      end.

    (** expander.py:276-320, _visit_Decorated; [k] is ClassDef or FunctionDef. *)
    Definition visit_Decorated (m : loc) (k : string) (fs : list (string * ltree)) : comp ltree := fun s =>
      let t := Nd m k fs in
      match attr "decorator_list" fs with
      | XRaise e => Some (XRaise e, s)
      | XOk ds =>
          match detect (s_b s) false (elements ds) with
          | XRaise e => Some (XRaise e, s)
          | XOk flags =>
              match last_true flags with
              | None => xgeneric_visit t s
              | Some i =>
                  match nth_error (elements ds) i with
                  | None => Some (XOk t, s) (* not reached *)
                  | Some c =>
                      match destructure true c with
                      | XRaise e => Some (XRaise e, s)
                      | XOk None => Some (XOk t, s) (* not reached *)
                      | XOk (Some (x, args)) =>
                          let inner := Nd m k (setf "decorator_list" (Ls (remove_at i (elements ds))) fs) in
                          bnd (expand x (mkIn "decorator" inner (Some args) None t))
                              (fun r => of_res (insert_dummy (x_text E (loc_of c) x) (loc_of c) r)) s
                      end
                  end
              end
          end
      end.

    (** expander.py:355-391, visit_Name. *)
    Definition visit_Name (m : loc) (fs : list (string * ltree)) : comp ltree := fun s =>
      let t := Nd m "Name" fs in
      match str_attr "id" fs with
      | XRaise e => Some (XRaise e, s)
      | XOk x =>
          if ismacrocall (s_b s) x [] "name" then
            bnd (with_mode false (expand x (mkIn "name" t None None t)))
              (fun r =>
                 match r with
                 | At ANone => ret (dummy_expr m)
                 | _ => if match r with
                           | Nd _ k' fs' => String.eqb k' "Name" && match str_attr "id" fs' with XOk y => String.eqb y x | _ => false end
                           | _ => false
                           end
                        then ret (done r)
                        else fun s' => if s_rec s' then visit r s' else Some (XOk r, s')
                 end) s
          else Some (XOk t, s)
      end.

    (** core.py:103-123, BaseMacroExpander.visit, and NodeVisitor.visit (dispatch on the class name). *)
    Definition visit_body (t : ltree) : comp ltree := fun s =>
      if match s_b s with [] => true | _ => false end || is_kind "Done" t then Some (XOk t, s)
      else match t with
           | At ANone => Some (XOk NoneT, s)
           | At _ => Some (XRaise (plain (attribute_error "_fields")), s)
           | Ls l => bnd (xvisit_elts l) (fun l' => match flatten l' with [] => ret NoneT | r => ret (Ls r) end) s
           | Nd m k fs =>
               if String.eqb k "Subscript" then visit_Subscript m fs s
               else if String.eqb k "With" then visit_With m fs s
               else if String.eqb k "ClassDef" || String.eqb k "FunctionDef" then visit_Decorated m k fs s
               else if String.eqb k "Name" then visit_Name m fs s
               else xgeneric_visit t s
           end.
  End Visit.

  Fixpoint visit (n : nat) (t : ltree) : comp ltree :=
    match n with
    | O => fun _ => None
    | S n' => visit_body n' (visit n') t
    end.

  (** The entry points. *)
  Definition visit_once (n : nat) : ltree -> comp ltree := call_expander (visit n) HOnce.
  Definition visit_recursively (n : nat) : ltree -> comp ltree := call_expander (visit n) HRec.
End Expander.
