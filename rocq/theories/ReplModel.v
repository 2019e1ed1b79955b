(** Model of the interactive console, mcpyrate/repl/console.py:100-212. *)
From Verif Require Import Base Dict.

(** str.endswith, and source[:-n]. *)
Definition ends_with (suf s : string) : bool :=
  (String.length suf <=? String.length s)%nat && String.eqb (substring (String.length s - String.length suf) (String.length suf) s) suf.
Definition drop_last (n : nat) (s : string) : string := substring 0 (String.length s - n) s.

(** What is written to the terminal. *)
Inductive outp : Type :=
| WBindings (* format_bindings(self.expander), console.py:136 *)
| WSyntax (e : exn) (* self.showsyntaxerror(filename), 174 *)
| WText (e : exn). (* the class and message of the exception, 181 and 184 *)

Section Repl.
  (** Macro functions, values of variables, ASTs, code objects, and the rest of the process (loaded modules, ...). *)
  Context {fn val ast code world : Type}.
  (** The macro bindings (console.py:42; the global bindings, into which [update] never writes, are not kept apart), the flag of
      console.py:43, the variables of the session, the namespace of the magic module (console.py:91), the rest. *)
  Record ses : Type := mkSes { s_bind : @sdict fn; s_changed : bool; s_locals : @sdict val; s_magic : @sdict val; s_world : world }.
  (** The constant [magic_module_metadata], console.py:92. *)
  Variable metadata : @sdict val.
  (** [codeop.CommandCompiler.__call__]: [Ok None]: incomplete input. *)
  Variable compile_cmd : string -> res (option code).
  (** [ast.parse], [compile] of an [ast.Interactive], [textwrap.dedent]. *)
  Variables (parse : string -> res ast) (compile_ast : ast -> res code) (dedent : string -> string).
  (** find_macros (gives the bindings and the tree without the macro-imports), MacroExpander.visit, global_postprocess. They run user code
      (modules, macros), which may have any effect. *)
  Variable find_macros : ast -> ses -> ses * res (@sdict fn * ast).
  Variables (expand postprocess : ast -> ses -> ses * res ast).
  (** [code.InteractiveInterpreter.runcode]: shows exceptions, except SystemExit, which it lets through. *)
  Variable exec : code -> ses -> ses * option exn.
  (** [__module__] and [__qualname__] of a macro function; [None] if it is skipped at console.py:204-207. *)
  Variable fn_ref : fn -> option (string * string).
  (** isinstance of an exception. *)
  Variable isa : exn -> string -> bool.

  Definition isa_any (e : exn) (cs : list string) : bool := existsb (isa e) cs.
  (** console.py:100-116. *)
  Definition internal_execute (source : string) (st : ses) : ses * res unit :=
    match parse (dedent source) with
    | Err e => (st, Err e)
    | Ok t => match compile_ast t with
              | Err e => (st, Err e)
              | Ok c => let (st', x) := exec c st in (st', match x with None => Ok tt | Some e => Err e end)
              end
    end.
  (** console.py:201-212. *)
  Definition refresh_source (asname : string) (r : string * string) : string := ("from " ++ fst r ++ " import " ++ snd r ++ " as " ++ asname)%string.
  Fixpoint refresh_all (l : @sdict fn) (st : ses) : ses * res unit :=
    match l with
    | [] => (st, Ok tt)
    | (asname, f) :: r =>
        match fn_ref f with
        | None => refresh_all r st
        | Some ref =>
            match internal_execute (refresh_source asname ref) st with
            | (st', Err e) => if isa_any e ["ModuleNotFoundError"; "ImportError"]%string then refresh_all r st' else (st', Err e)
            | (st', Ok _) => refresh_all r st'
            end
        end
    end.
  (** console.py:191-200. *)
  Definition refresh (st : ses) : ses * res unit :=
    if s_changed st then refresh_all (s_bind st) (mkSes (s_bind st) false (s_locals st) (s_magic st) (s_world st)) else (st, Ok tt).

  (** console.py:157-162: clear, then update from the variables, then from the metadata. *)
  Definition set_magic (st : ses) : ses := mkSes (s_bind st) (s_changed st) (s_locals st) (supd (supd [] (s_locals st)) metadata) (s_world st).
  (** console.py:165-167. *)
  Definition add_bindings (b : @sdict fn) (st : ses) : ses :=
    match b with [] => st | _ :: _ => mkSes (supd (s_bind st) b) true (s_locals st) (s_magic st) (s_world st) end.
  (** The [try] block, console.py:151-172. *)
  Definition to_code (source : string) (st : ses) : ses * res code :=
    match parse source with
    | Err e => (st, Err e)
    | Ok t =>
        match find_macros t (set_magic st) with
        | (st1, Err e) => (st1, Err e)
        | (st1, Ok (b, t1)) =>
            match expand t1 (add_bindings b st1) with
            | (st2, Err e) => (st2, Err e)
            | (st2, Ok t2) =>
                match postprocess t2 st2 with
                | (st3, Err e) => (st3, Err e)
                | (st3, Ok t3) => (st3, compile_ast t3)
                end
            end
        end
    end.
  Definition parse_errors : list string := ["OverflowError"; "SyntaxError"; "ValueError"]%string.
  Definition caught : list string := (parse_errors ++ ["MacroExpansionError"; "ModuleNotFoundError"; "ImportError"])%list%string.
  (** What console.py:173-185 write. *)
  Definition report (e : exn) : outp := if isa_any e (parse_errors ++ ["MacroExpansionError"])%list%string then WSyntax e else WText e.
  Definition of_unit (r : res unit) : res bool := match r with Ok _ => Ok false | Err e => Err e end.
  (** console.py:151-189. *)
  Definition run_rest (source : string) (st : ses) : ses * list outp * res bool :=
    match to_code source st with
    | (st', Err e) => if isa_any e caught then (st', [report e], Ok false) else (st', [], Err e)
    | (st', Ok c) =>
        match exec c st' with
        | (st'', Some e) => (st'', [], Err e)
        | (st'', None) => let (st3, r) := refresh st'' in (st3, [], of_unit r)
        end
    end.
  (** console.py:133-149. [True]: more input is needed. The special commands give None, which the caller treats like False. *)
  Definition runsource (source : string) (st : ses) : ses * list outp * res bool :=
    if String.eqb source "macros?" then (st, [WBindings], Ok false)
    else if ends_with "??" source then
      let (st', r) := internal_execute ("mcpyrate.repl.utils.sourcecode(" ++ drop_last 2 source ++ ")")%string st in (st', [], of_unit r)
    else if ends_with "?" source then
      let (st', r) := internal_execute ("mcpyrate.repl.utils.doc(" ++ drop_last 1 source ++ ")")%string st in (st', [], of_unit r)
    else
      match compile_cmd source with
      | Ok None => (st, [], Ok true)
      | Ok (Some _) => run_rest source st
      | Err e => if isa_any e parse_errors then run_rest source st else (st, [], Err e)
      end.
  (** A session: inputs one after the other. An exception ends it (it goes through [code.InteractiveConsole.push] and [interact]). *)
  Fixpoint session (inputs : list string) (st : ses) : ses * list outp * res unit :=
    match inputs with
    | [] => (st, [], Ok tt)
    | i :: r => match runsource i st with
                | (st', o, Err e) => (st', o, Err e)
                | (st', o, Ok _) => match session r st' with (st'', o', x) => (st'', o ++ o', x) end
                end
    end.
End Repl.
Arguments ses : clear implicits.
