(** Model of the command-line program macropython: repl/macropython.py:173-283, what main does with the parsed options.

    The parsing of the command line itself (argparse, 146-171), readline and its history file (183-184, 194-207) are left out. Running a program
    (import_module_as_main) is modelled in MainModel.v, the console in ReplModel.v; here they are arbitrary functions. *)
From Verif Require Import Base Dict ModulesModel SyspathModel MainModel PycacheModel.

(** What argparse returns. None: not given. *)
Record options : Type := mkOpts { o_file : option string; o_module : option string; o_interactive : bool; o_pylab : bool; o_clean : option string; o_dry : bool }.
(** What is printed: the help text, or the path of a directory. *)
Inductive line : Type := Help | Dir (p : fpath).
(** The file system, sys.path, what has been printed, and the rest of the process. *)
Record world (U : Type) : Type := mkW { w_fs : node; w_path : list string; w_out : list line; w_user : U }.
Arguments mkW {U}. Arguments w_fs {U}. Arguments w_path {U}. Arguments w_out {U}. Arguments w_user {U}.
(** How main ends: it returns, by [sys.exit(n)], or by an exception. *)
Inductive ending : Type := Returned | Exit (n : nat) | Raised (e : exn).

(** [if s:] for an optional string. *)
Definition given (s : option string) : option string := match s with Some "" | None => None | Some x => Some x end%string.

Section Cli.
  Context {U : Type}.
  Notation W := (world U).
  (** import_module_as_main(name, script_mode). The program may do anything. *)
  Variable run : string -> bool -> W -> res nat * W.
  (** Lines 188-193, the imports for -p; [MacroConsole(...).interact()]. *)
  Variables (pylab interact : W -> res unit * W).
  (** A path on the command line, for [os]; [pathlib.Path(s).expanduser().resolve()]; the current directory. *)
  Variable topath : string -> fpath.
  Variable resolve : string -> path.
  Variable cwd : path.
  (** [is_file()] and [is_dir()]. *)
  Variables isfile isdir : path -> bool.

  Definition set_syspath (p : list string) (w : W) : W := mkW (w_fs w) p (w_out w) (w_user w).
  Definition print (l : list line) (w : W) : W := mkW (w_fs w) (w_path w) (w_out w ++ l) (w_user w).
  Definition ended {A} (r : res A * W) : ending * W := match r with (Ok _, w) => (Returned, w) | (Err e, w) => (Raised e, w) end.

  (** macropython.py:173-180. *)
  Definition do_clean (dir : string) (dry : bool) (w : W) : ending * W :=
    if dry then
      match getpycachedirs (w_fs w) (topath dir) with
      | Err e => (Raised e, w)
      | Ok l => (Exit 0, print (map Dir l) w)
      end
    else
      match deletepycachedirs (topath dir) (w_fs w) with
      | (Some e, fs) => (Raised e, mkW fs (w_path w) (w_out w) (w_user w))
      | (None, fs) => (Exit 0, mkW fs (w_path w) (w_out w) (w_user w))
      end.
  (** macropython.py:182-213. *)
  Definition do_interactive (py : bool) (w : W) : ending * W :=
    match (if py then pylab w else (Ok tt, w)) with
    | (Err e, w1) => (Raised e, w1)
    | (Ok _, w1) =>
        match w_path w1 with
        | [] => (Raised (mkExn "IndexError" []), w1)
        | x :: _ => ended (interact (if String.eqb x "" then w1 else set_syspath (""%string :: w_path w1) w1))
        end
    end.
  (** macropython.py:144-283. *)
  Definition main (o : options) (w : W) : ending * W :=
    match given (o_clean o) with
    | Some dir => do_clean dir (o_dry o) w
    | None =>
        if o_interactive o then do_interactive (o_pylab o) w
        else match given (o_file o), given (o_module o) with
             | None, None => (Exit 0, print [Help] w)
             | Some _, Some _ => (Raised (mkExn "ValueError" ["Please specify just one main program to run (either filename.py or -m module, not both)."%string]), w)
             | None, Some m =>
                 match module_syspath isdir cwd (w_path w) with
                 | Err e => (Raised e, w)
                 | Ok p => ended (run m false (set_syspath p w))
                 end
             | Some f, None =>
                 match script_module resolve isfile isdir f (w_path w) with
                 | Err e => (Raised e, w)
                 | Ok (p, name) => ended (run name true (set_syspath p w))
                 end
             end
    end.
End Cli.
