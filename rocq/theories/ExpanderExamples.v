(** Small programs and macros for the examples about the expander. *)
From Verif Require Import Base AstLib FixLocModel ExpanderModel.

Definition at_ (l c : Z) : loc := mkLoc (Some l) (Some c) (Some l) (Some (c + 1)%Z).
Definition name_ (x : string) : ltree := Nd (at_ 1 0) "Name" [("id"%string, At (AStr x)); ("ctx"%string, Nd noloc "Load" [])].
Definition sub_ (v i : ltree) : ltree := Nd (at_ 1 0) "Subscript" [("value"%string, v); ("slice"%string, i); ("ctx"%string, Nd noloc "Load" [])].
Definition tuple_ (l : list ltree) : ltree := Nd (at_ 1 0) "Tuple" [("elts"%string, Ls l); ("ctx"%string, Nd noloc "Load" [])].
Definition call_ (f : ltree) (args : list ltree) : ltree :=
  Nd (at_ 1 0) "Call" [("func"%string, f); ("args"%string, Ls args); ("keywords"%string, Ls [])].
Definition star_ (v : ltree) : ltree := Nd (at_ 1 0) "Starred" [("value"%string, v); ("ctx"%string, Nd noloc "Load" [])].
Definition plus_ (a b : ltree) : ltree := Nd (at_ 1 0) "BinOp" [("left"%string, a); ("op"%string, Nd noloc "Add" []); ("right"%string, b)].
Definition expr_ (v : ltree) : ltree := Nd (at_ 1 0) "Expr" [("value"%string, v)].
Definition pass_ : ltree := Nd (at_ 1 0) "Pass" [].
Definition item_ (c : ltree) : ltree := Nd noloc "withitem" [("context_expr"%string, c); ("optional_vars"%string, NoneT)].
Definition with_ (items body : list ltree) : ltree :=
  Nd (at_ 1 0) "With" [("items"%string, Ls items); ("body"%string, Ls body); ("type_comment"%string, NoneT)].
Definition def_ (k : string) (ds body : list ltree) : ltree :=
  Nd (at_ 1 0) k [("name"%string, At (AStr "f")); ("body"%string, Ls body); ("decorator_list"%string, Ls ds)].
Definition mod_ (body : list ltree) : ltree := Nd noloc "Module" [("body"%string, Ls body); ("type_ignores"%string, Ls [])].

(** 0: [ident], returns its input. 1: [outer], expands [inner] in its input by calling [expander.visit]. 2:
    [fails], raises ValueError. 3: [none], returns None. 4: [two], returns a list of two nodes. 5: [num], returns
    an int. 6: [par], parametric, returns the tuple of its arguments. 7: [nm], a name macro, returns another
    name. 8: [tom2], returns the name [ident]. 9: [once], calls [visit_once]. *)
Definition macros (i : nat) : mdef unit :=
  match i with
  | 0 => mkMac false false (fun i => Ret (in_tree i))
  | 1 => mkMac false false (fun i => CallX HVisit (in_tree i) (fun r => match r with XOk t => Ret t | XRaise e => Raise e end))
  | 2 => mkMac false false (fun _ => Raise (plain (mkExn "ValueError" ["boom"%string])))
  | 3 => mkMac false false (fun _ => Ret NoneT)
  | 4 => mkMac false false (fun i => Ret (Ls [expr_ (name_ "a"); expr_ (name_ "b")]))
  | 5 => mkMac false false (fun _ => Ret (At (AInt 42)))
  | 6 => mkMac false true (fun i => Ret (tuple_ (match in_args i with Some l => l | None => [] end)))
  | 7 => mkMac true false (fun i => Ret (match in_syntax i with "name"%string => name_ "other" | _ => in_tree i end))
  | 8 => mkMac false false (fun _ => Ret (name_ "ident"))
  | 9 => mkMac false false (fun i => CallX HOnce (in_tree i) (fun r => match r with XOk t => Ret t | XRaise e => Raise e end))
  | _ => mkMac false false (fun i => GetMode (fun b => CallX HRec (in_tree i) (fun r => match r with XOk t => Ret t | XRaise _ => Ret (in_tree i) end)))
  end.
Definition env0 : env unit :=
  mkEnv macros (fun t _ => Ok t) (fun _ => "file.py:1"%string) (fun _ x => ("source line of " ++ x)%string) (fun _ => true).
Definition binds0 : binds :=
  [("ident", 0); ("outer", 1); ("fails", 2); ("none", 3); ("two", 4); ("num", 5); ("par", 6); ("nm", 7); ("tom2", 8); ("once", 9); ("rec", 10)]%string.
Definition st0 (b : bool) : st unit := mkSt binds0 b tt [].

(** The calls of macro functions recorded in a log. *)
Definition calls_of (l : list event) : list (string * minput) :=
  flat_map (fun e => match e with ECall x i _ => [(x, i)] | _ => [] end) l.
Definition outcome {A} (r : option (xres A * st unit)) : option (xres A * list (string * ltree)) :=
  match r with
  | Some (x, s) => Some (x, map (fun p => (fst p, in_tree (snd p))) (calls_of (s_log s)))
  | None => None
  end.
