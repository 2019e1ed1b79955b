(** Model of mcpyrate/activate.py:34-62, and of what it does to imports: the hooks of [SourceFileLoader] and the bytecode files, with and without mcpyrate. *)
From Verif Require Import Base.

Section Activate.
  (** Source texts (of all files), paths, and bytecode. *)
  Context {code : Type}.
  (** A function that may be installed as [source_to_code] or [path_stats]: the standard one, mcpyrate's, or another tool's. *)
  Inductive hook : Type := Std | Mc | Tool (n : nat).
  (** The files: contents are left implicit. What compiling a file gives, with each of the hooks ([Std]: no macro expansion). *)
  Variable compiled : hook -> string -> code.
  (** The modification time that each [path_stats] reports for a file (importer.py:59: mcpyrate's takes the macro-imports into account, recursively), and the
      size, if it reports one (mcpyrate's does not: importer.py:222). *)
  Variable mtime : hook -> string -> Z.
  Variable size : hook -> string -> option Z.
  (** The true size of a source file. *)
  Variable filesize : string -> Z.

  (** A bytecode file: recorded time and size of the source (timestamp based). *)
  Record pyc : Type := mkPyc { p_mtime : Z; p_size : Z; p_code : code }.
  (** The process and the disk: the attributes [SourceFileLoader.source_to_code] and [SourceFileLoader.path_stats]; what activate.py:60-61 saved, once the
      module [mcpyrate.activate] has been imported; the bytecode files; [sys.dont_write_bytecode]; the imports so far, with the code they ran. *)
  Record proc : Type := mkProc { h_code : hook; h_stats : hook; saved : option (hook * hook); pycs : string -> option pyc; nowrite : bool; log : list (string * code) }.

  Definition set_hooks (c s : hook) (p : proc) : proc := mkProc c s (saved p) (pycs p) (nowrite p) (log p).
  (** activate.py:34-47. *)
  Definition activate (p : proc) : proc := set_hooks Mc Mc p.
  (** activate.py:50-57. The function exists only once the module has been imported. *)
  Definition deactivate (p : proc) : proc := match saved p with Some (c, s) => set_hooks c s p | None => p end.
  (** [import mcpyrate.activate]: runs activate.py:60-62 the first time. *)
  Definition import_activate (p : proc) : proc :=
    match saved p with Some _ => p | None => activate (mkProc (h_code p) (h_stats p) (Some (h_code p, h_stats p)) (pycs p) (nowrite p) (log p)) end.
  (** SourceLoader.get_code of the standard library (Lib/importlib/_bootstrap_external.py), with timestamp based bytecode files; then the module runs. *)
  Definition fresh_pyc (p : proc) (f : string) : option code :=
    match pycs p f with
    | Some e => if Z.eqb (p_mtime e) (mtime (h_stats p) f) && match size (h_stats p) f with Some z => Z.eqb (p_size e) z | None => true end then Some (p_code e) else None
    | None => None
    end.
  Definition import (f : string) (p : proc) : proc :=
    match fresh_pyc p f with
    | Some c => mkProc (h_code p) (h_stats p) (saved p) (pycs p) (nowrite p) (log p ++ [(f, c)])
    | None =>
        let c := compiled (h_code p) f in
        mkProc (h_code p) (h_stats p) (saved p)
          (if nowrite p then pycs p else fun g => if String.eqb g f then Some (mkPyc (mtime (h_stats p) f) (filesize f) c) else pycs p g)
          (nowrite p) (log p ++ [(f, c)])
    end.
  (** What a program does. [CPatch]: another tool installs its own functions. *)
  Inductive cmd : Type := CLoad | CActivate | CDeactivate | CImport (f : string) | CPatch (c s : hook).
  Definition step (p : proc) (c : cmd) : proc :=
    match c with
    | CLoad => import_activate p
    | CActivate => match saved p with Some _ => activate p | None => p end
    | CDeactivate => deactivate p
    | CImport f => import f p
    | CPatch c s => set_hooks c s p
    end.
  Definition run (cs : list cmd) (p : proc) : proc := fold_left step cs p.
End Activate.
Arguments pyc : clear implicits.
Arguments proc : clear implicits.
