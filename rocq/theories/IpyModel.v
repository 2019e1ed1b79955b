(** Model of the IPython extension, mcpyrate/repl/iconsole.py:44-222, and of the function [macro] that it puts into the
    session, mcpyrate/repl/utils.py:80-97. *)
From Verif Require Import Base Dict.

Section Ipy.
  (** Trees of cells, and macro functions. *)
  Context {T fn : Type}.
  (** Values of session variables: an expander (the one of extension object [i]), the function [macro], a function, anything else. *)
  Inductive val : Type := VExpander (i : nat) | VMacro | VFn (f : fn) | VOther (n : nat).
  (** AST transformers of the shell: the [macro_transformer] of extension object [i] (iconsole.py:162-163), or one of another tool. *)
  Inductive tf : Type := Mine (i : nat) | Other (o : nat).
  (** An extension object: the local bindings of its expander (126), and [_macro_bindings_changed] (156). [src] is only ever written. *)
  Record ext : Type := mkExt { x_bind : sdict fn; x_changed : bool }.
  (** What happens during a session, for the statements: find_macros is called (138), with the namespace of the magic module; the expander is
      called (143), with the bindings it sees; a cell is run. *)
  Inductive event : Type :=
  | EFind (i : nat) (self : sdict val) (t : T)
  | EExpand (i : nat) (local global : sdict fn) (t : T)
  | ERun (t : T) (ns : sdict val).
  (** [shell.user_ns], [shell.ast_transformers], the callbacks of the event post_run_cell (as indices of extension objects), the global [_instance] (46),
      the extension objects in order of creation, the global bindings of all expanders, the namespace of the magic module if it exists in
      [sys.modules], whether the magics of [AstMagics] exist, and the events so far. *)
  Record ses : Type := mkSes {
    s_ns : sdict val; s_tf : list tf; s_cb : list nat; s_inst : option nat; s_exts : list ext; s_glob : sdict fn;
    s_mod : option (sdict val); s_magics : bool; s_log : list event }.

  (** The contents of a new magic module (168-169): the same for each extension object. *)
  Variable metadata : sdict val.
  (** find_macros, with a given namespace of the magic module: the bindings, and the tree without the macro-imports. It imports modules; what
      this does to the session is not modelled. *)
  Variable find_macros : sdict val -> T -> res (sdict fn * T).
  (** MacroExpander.visit. Macros may change the bindings of the expander, the local and the global ones, also when they fail. *)
  Variable expand : sdict fn -> sdict fn -> T -> sdict fn * sdict fn * res T.
  Variable postprocess : T -> res T.
  (** The transformers of other tools. *)
  Variable other : nat -> T -> res T.
  (** isinstance(err, Exception): not so for KeyboardInterrupt and SystemExit. *)
  Variable is_exc : exn -> bool.
  (** The effect of the code of a cell: the variables afterwards, and the calls of [macro] it makes with a named function. *)
  Variable run : T -> sdict val -> sdict val * list (string * fn).
  (** [__module__] and [__qualname__] of a macro function; [None] if it is skipped at 216-219. *)
  Variable fn_ref : fn -> option (string * string).
  (** What [from module import qualname] gives; [None] if it fails (with an ImportError, which 86 ignores, or with anything else, which IPython shows). *)
  Variable import : string -> string -> option val.

  Definition set_ns (v : sdict val) (s : ses) : ses := mkSes v (s_tf s) (s_cb s) (s_inst s) (s_exts s) (s_glob s) (s_mod s) (s_magics s) (s_log s).
  Definition set_tf (v : list tf) (s : ses) : ses := mkSes (s_ns s) v (s_cb s) (s_inst s) (s_exts s) (s_glob s) (s_mod s) (s_magics s) (s_log s).
  Definition set_inst (v : option nat) (s : ses) : ses := mkSes (s_ns s) (s_tf s) (s_cb s) v (s_exts s) (s_glob s) (s_mod s) (s_magics s) (s_log s).
  Definition set_exts (v : list ext) (s : ses) : ses := mkSes (s_ns s) (s_tf s) (s_cb s) (s_inst s) v (s_glob s) (s_mod s) (s_magics s) (s_log s).
  Definition set_glob (v : sdict fn) (s : ses) : ses := mkSes (s_ns s) (s_tf s) (s_cb s) (s_inst s) (s_exts s) v (s_mod s) (s_magics s) (s_log s).
  Definition set_mod (v : option (sdict val)) (s : ses) : ses := mkSes (s_ns s) (s_tf s) (s_cb s) (s_inst s) (s_exts s) (s_glob s) v (s_magics s) (s_log s).
  Definition add_log (e : event) (s : ses) : ses := mkSes (s_ns s) (s_tf s) (s_cb s) (s_inst s) (s_exts s) (s_glob s) (s_mod s) (s_magics s) (s_log s ++ [e]).
  Fixpoint upd_nth {A} (n : nat) (f : A -> A) (l : list A) : list A :=
    match l, n with [], _ => [] | x :: r, O => f x :: r | x :: r, S m => x :: upd_nth m f r end.
  Definition get_ext (i : nat) (s : ses) : ext := nth i (s_exts s) (mkExt [] false).
  Definition upd_ext (i : nat) (f : ext -> ext) (s : ses) : ses := set_exts (upd_nth i f (s_exts s)) s.

  (** iconsole.py:129-146. *)
  Definition visit_body (i : nat) (t : T) (s : ses) : ses * res T :=
    match s_mod s with
    | None => (s, Err (mkExn "KeyError" ["__mcpyrate_repl_self__"%string]))                (* 130 *)
    | Some _ =>
        let self := supd (s_ns s) metadata in                                              (* 130-136 *)
        let s1 := add_log (EFind i self t) (set_mod (Some self) s) in
        match find_macros self t with                                                      (* 138 *)
        | Err e => (s1, Err e)
        | Ok (b, t1) =>
            let s2 := match b with
                      | [] => s1
                      | _ => upd_ext i (fun x => mkExt (supd (x_bind x) b) true) s1        (* 140-142; a ChainMap writes into its first dict *)
                      end in
            let s3 := add_log (EExpand i (x_bind (get_ext i s2)) (s_glob s2) t1) s2 in
            match expand (x_bind (get_ext i s2)) (s_glob s2) t1 with                       (* 143 *)
            | (l, g, o) =>
                let s4 := set_glob g (upd_ext i (fun x => mkExt l (x_changed x)) s3) in
                match o with
                | Err e => (s4, Err e)
                | Ok t2 => (s4, postprocess t2)                                            (* 144 *)
                end
            end
        end
    end.
  (** iconsole.py:128-149. *)
  Definition visit (i : nat) (t : T) (s : ses) : ses * res T :=
    match visit_body i t s with
    | (s', Ok t') => (s', Ok t')
    | (s', Err e) => (s', Err (if is_exc e then mkExn "InputRejected" (e_args e) else e))
    end.

  Definition tf_eqb (a b : tf) : bool :=
    match a, b with Mine i, Mine j => Nat.eqb i j | Other i, Other j => Nat.eqb i j | _, _ => false end.
  Fixpoint remove_tf (x : tf) (l : list tf) : list tf :=
    match l with [] => [] | y :: r => if tf_eqb x y then r else y :: remove_tf x r end.
  (** IPython's InteractiveShell.transform_ast: an InputRejected goes to the caller, which then does not run the cell; a transformer that raises another
      Exception is removed from the list (over which the loop is running: so the next transformer is skipped). *)
  Definition call_tf (x : tf) (t : T) (s : ses) : ses * res T :=
    match x with Mine i => visit i t s | Other o => (s, other o t) end.
  Fixpoint transform (l : list tf) (t : T) (s : ses) : ses * res T :=
    match l with
    | [] => (s, Ok t)
    | x :: r =>
        match call_tf x t s with
        | (s', Ok t') => transform r t' s'
        | (s', Err e) =>
            if String.eqb (e_cls e) "InputRejected" then (s', Err e)
            else if is_exc e then match r with [] => (set_tf (remove_tf x (s_tf s')) s', Ok t) | _ :: r' => transform r' t (set_tf (remove_tf x (s_tf s')) s') end
            else (s', Err e)
        end
    end.

  (** The function [macro], utils.py:89-96, called with a named function: binds it in the expander that the session variable
      [__macro_expander__] holds ([env]: the variables when the cell begins to run). *)
  Definition macro_bind (env : sdict val) (s : ses) (p : string * fn) : ses :=
    match sget "__macro_expander__" env with
    | Some (VExpander i) => upd_ext i (fun x => mkExt (sset (fst p) (snd p) (x_bind x)) (x_changed x)) s
    | _ => s
    end.
  Definition exec (t : T) (s : ses) : ses :=
    fold_left (macro_bind (s_ns s)) (snd (run t (s_ns s))) (set_ns (fst (run t (s_ns s))) (add_log (ERun t (s_ns s)) s)).

  (** [expander.bindings.items()]: a ChainMap of the local and the global bindings; its iterator goes through the global names first. *)
  Definition chain_items (local global : sdict fn) : sdict fn := supd global local.
  (** iconsole.py:213-222. The little cells that do the imports contain no macro invocation, and are not sent through the transformers here. *)
  Definition refresh_one (ns : sdict val) (p : string * fn) : sdict val :=
    match fn_ref (snd p) with
    | None => ns
    | Some (m, q) => match import m q with Some v => sset (fst p) v ns | None => ns end
    end.
  (** iconsole.py:199-222. *)
  Definition refresh (s : ses) (i : nat) : ses :=
    if x_changed (get_ext i s)
    then set_ns (fold_left refresh_one (chain_items (x_bind (get_ext i s)) (s_glob s)) (s_ns s)) (upd_ext i (fun x => mkExt (x_bind x) false) s)
    else s.

  (** IPython's run_cell of a cell that the user enters: AST transformers; the code, unless rejected; the callbacks of post_run_cell, in any case. *)
  Definition cell (t : T) (s : ses) : ses :=
    let r := transform (s_tf s) t s in
    let s2 := match snd r with Ok t' => exec t' (fst r) | Err _ => fst r end in
    fold_left refresh (s_cb s2) s2.

  (** iconsole.py:48-66 and 155-181. The source code of [macro] goes to the shell as a cell (171); here it only binds the variable. *)
  Definition load (s : ses) : ses :=
    match s_inst s with
    | Some _ => s
    | None =>
        let i := length (s_exts s) in
        mkSes (sset "macro" VMacro (sset "__macro_expander__" (VExpander i) (s_ns s))) (s_tf s ++ [Mine i]) (s_cb s ++ [i]) (Some i)
          (s_exts s ++ [mkExt [] false]) (s_glob s) (Some metadata) true (s_log s)
    end.
  (** iconsole.py:69-71. The transformer, which the shell still holds, has a reference to the extension object (125), so its [__del__] does not run. *)
  Definition unload (s : ses) : ses := set_inst None s.
  (** iconsole.py:89-93: the bindings that [%macros] prints. [format_bindings] leaves out the global ones. *)
  Definition macros (s : ses) : res (sdict fn) :=
    match s_inst s with
    | None => Err (mkExn "AttributeError" ["'NoneType' object has no attribute 'macro_transformer'"%string])
    | Some i => Ok (x_bind (get_ext i s))
    end.

  (** What the user does. *)
  Inductive cmd : Type := CLoad | CUnload | CCell (t : T).
  Definition step (s : ses) (c : cmd) : ses := match c with CLoad => load s | CUnload => unload s | CCell t => cell t s end.
  Definition session (cs : list cmd) (s : ses) : ses := fold_left step cs s.
  (** A shell in which the extension has not been loaded. *)
  Definition fresh (ns : sdict val) (tfs : list tf) (glob : sdict fn) : ses := mkSes ns tfs [] None [] glob None false [].
End Ipy.
Arguments val : clear implicits.
Arguments ses : clear implicits.
Arguments event : clear implicits.
Arguments cmd : clear implicits.
