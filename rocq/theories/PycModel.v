(** Model of importing a source file with the hooks of mcpyrate installed (mcpyrate/activate.py:34-49, importer.py:22-28, 59-80): which bytecode is used. *)
From Verif Require Import Base AstLib FixLocModel ExpanderModel Dict ImportsModel PhaseModel DialectModel StatsModel.

(** A bytecode file: the modification time recorded in it, and the code. *)
Record pyc {code : Type} : Type := mkPyc { pc_stamp : Z; pc_code : code }.
Arguments pyc : clear implicits.
(** By the path of the source file. *)
Definition pycs (code : Type) : Type := string -> option (pyc code).
Definition kset {code} (p : string) (e : pyc code) (k : pycs code) : pycs code := fun q => if String.eqb q p then Some e else k q.

(** [except OSError] *)
Definition is_oserror (e : exn) : bool := is_cls "OSError" e || is_cls "FileNotFoundError" e.

Section Import.
  Context {code : Type}.
  Variable E : env.
  (** [int(st['mtime']) & 0xFFFFFFFF], for the representation of floats used in [E]. *)
  Variable stamp : Z -> Z.
  Variables (is_stdlib ispy : string -> bool) (std : (string -> option file) -> string -> res Z).
  (** importer.py:22-28, source_to_xcode: what compiling the file gives, for given contents of all source files. *)
  Variable compile : string -> (string -> option file) -> res code.
  (** SourceLoader.get_code of the standard library (Lib/importlib/_bootstrap_external.py), with timestamp based pycs, with path_xstats as [path_stats], whose
      [size] is None, so that the size of the source is not compared (importer.py:222). The result, and the caches. [writes]: bytecode is written. *)
  Definition get_code (fs : string -> option file) (writes : bool) (n : nat) (p : string) (c : cache) (k : pycs code) : option (res code * cache * pycs code) :=
    match path_xstats E fs is_stdlib ispy (std fs) n p c with
    | None => None
    | Some (Err e, c') => Some (if is_oserror e then compile p fs else Err e, c', k)
    | Some (Ok x, c') =>
        match (match k p with Some e => if Z.eqb (pc_stamp e) (stamp x) then Some e else None | None => None end) with
        | Some e => Some (Ok (pc_code e), c', k)
        | None =>
            match compile p fs with
            | Err e => Some (Err e, c', k)
            | Ok o => Some (Ok o, c', if writes then kset p (mkPyc _ (stamp x) o) k else k)
            end
        end
    end.
End Import.
