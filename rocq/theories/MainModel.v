(** Model of mcpyrate/repl/macropython.py: import_module_as_main (31-142), and how main (144-283) finds the program to run.

    Left out: command-line parsing, the interactive console (ReplModel.v), cleaning (PycacheModel.v), and the tracebacks of macro expansion errors
    (macropython.py:110-119; the exception itself is raised again). *)
From Verif Require Import Base Dict ModulesModel SyspathModel ReplModel.

(** What the code looks at in a module spec. [sp_loader]: the loader, if not None. *)
Record mspec (L : Type) : Type := mkSpec { sp_origin : option string; sp_loader : option L; sp_locations : option (list string) }.
Arguments mkSpec {L}. Arguments sp_origin {L}. Arguments sp_loader {L}. Arguments sp_locations {L}.

(** [x in s] *)
Fixpoint contains (x s : string) : bool := String.prefix x s || match s with EmptyString => false | String _ r => contains x r end.

Section Main.
  Context {U L : Type}.
  Notation st := (mst U).
  Notation spec := (mspec L).
  (** importlib.import_module (normal imports); [m.__spec__.submodule_search_locations]. *)
  Variable import_module : string -> st -> res nat * st.
  Variable locations : nat -> st -> res (option (list string)).
  (** sys.meta_path. None: a finder without [find_spec]. *)
  Variable finders : list (option (string -> option (list string) -> st -> res (option spec) * st)).
  (** importlib.util.module_from_spec, after the spec and its loader have been renamed to __main__; setting [__package__] and [__path__]. *)
  Variable module_from_spec : spec -> st -> res nat * st.
  Variable set_package : nat -> string -> st -> st.
  Variable set_path : nat -> option (list string) -> st -> st.
  (** [loader.exec_module(m)]. *)
  Variable exec_module : L -> nat -> st -> res unit * st.
  (** isinstance(e, Exception); isinstance(e, ImportError); [e.msg] (None if there is no message). *)
  Variables (isexc isimport : exn -> bool) (msg : exn -> option string).
  (** _macropython_module. *)
  Variable boot : nat.

  (** [sys.modules["__main__"] = m]. *)
  Definition set_main (m : nat) (s : st) : st := mkMst (sset "__main__" m (m_sys s)) (m_attr s) (m_next s) (m_uuid s) (m_user s).
  (** macropython.py:71-80. *)
  Fixpoint find_spec (fs : list (option (string -> option (list string) -> st -> res (option spec) * st))) (name : string) (path : option (list string)) (s : st) : res spec * st :=
    match fs with
    | [] => (Err (mkExn "ModuleNotFoundError" ["No module named " ++ name])%string, s)
    | None :: r => find_spec r name path s
    | Some f :: r =>
        match f name path s with
        | (Err e, s1) => (Err e, s1)
        | (Ok (Some sp), s1) => (Ok sp, s1)
        | (Ok None, s1) => find_spec r name path s1
        end
    end.
  (** macropython.py:129-140. *)
  Definition run_mainpy (name : string) (m : nat) (s : st) : res nat * st :=
    match import_module (name ++ ".__main__") s with
    | (Ok _, s1) => (Ok m, s1)
    | (Err e, s1) =>
        if isimport e then
          match msg e with
          | None => (Err type_error, s1)
          | Some t => if contains "No module named" t then (Err (mkExn "ImportError" ["No module named " ++ name ++ ".__main__; '" ++ name ++ "' is a package and cannot be directly executed"])%string, s1)
                      else (Err e, s1)
          end
        else (Err e, s1)
    end.
  Definition nonempty (p : option (list string)) : bool := match p with Some (_ :: _) => true | _ => false end.
  (** macropython.py:71-142. [parent]: the name of the parent package, if there is one. *)
  Definition as_main (name : string) (script : bool) (parent : string) (path : option (list string)) (s : st) : res nat * st :=
    match find_spec finders name path s with
    | (Err e, s1) => (Err e, s1)
    | (Ok sp, s1) =>
        match module_from_spec sp s1 with
        | (Err e, s2) => (Err e, s2)
        | (Ok m, s2) =>
            match (if script then Ok (set_package m "" s2, false)
                   else if nonempty path then Ok (set_package m parent s2, false)
                   else match sp_origin sp with
                        | None => Err (mkExn "AttributeError" [])
                        | Some o => if ends_with "__init__.py" o then Ok (set_package m name s2, true) else Ok (s2, false)
                        end) with
            | Err e => (Err e, s2)
            | Ok (s3, mainpy) =>
                let s4 := if match sp_origin sp with Some o => String.eqb o "namespace" | None => false end then set_path m (sp_locations sp) s3 else s3 in
                if mainpy : bool then
                  match import_module name s4 with
                  | (Err e, s5) => (Err e, s5)
                  | (Ok _, s5) => run_mainpy name m s5
                  end
                else
                  match sp_loader sp with
                  | Some ld =>
                      match exec_module ld m (set_main m s4) with
                      | (Ok _, s5) => (Ok m, s5)
                      | (Err e, s5) => (Err e, if isexc e then set_main boot s5 else s5)
                      end
                  | None => run_mainpy name m s4
                  end
            end
        end
    end.
  (** macropython.py:31-69. [importlib.util.resolve_name(name, None)] refuses relative names. *)
  Definition import_module_as_main (name : string) (script : bool) (s : st) : res nat * st :=
    if String.prefix "." name then (Err (mkExn "ImportError" []), s)
    else
      match rsplit_dot name with
      | None => as_main name script "" None s
      | Some (parent, _) =>
          if script then (Err (mkExn "ValueError" []), s)
          else
            match import_module parent s with
            | (Err e, s1) => (Err e, s1)
            | (Ok p, s1) => match locations p s1 with Err e => (Err e, s1) | Ok path => as_main name script parent path s1 end
            end
      end.
End Main.

Section Script.
  (** [pathlib.Path(s).expanduser().resolve()]; which paths are files and directories. *)
  Variable resolve : string -> path.
  Variables (isfile isdir : path -> bool).
  (** [s[:-n]] *)
  Definition drop_end (n : nat) (s : string) : string := substring 0 (String.length s - n) s.
  (** macropython.py:238-240, 255-257: [sys.path[0]] becomes this directory. *)
  Definition first_entry (dir : path) (syspath : list string) : res (list string) :=
    match syspath with
    | [] => Err (mkExn "IndexError" [])
    | x :: _ => Ok (if String.eqb x (render dir) then syspath else render dir :: syspath)
    end.
  (** macropython.py:242-246, 259-263: the local packages come second. *)
  Definition local_packages (dir : path) (syspath : list string) : list string :=
    let d := dir ++ ["__pypackages__"%string] in
    if isdir d then match syspath with x :: r => x :: render d :: r | [] => [render d] end else syspath.
  (** macropython.py:235-246: for [-m]; the new [sys.path]. *)
  Definition module_syspath (cwd : path) (syspath : list string) : res (list string) :=
    match first_entry cwd syspath with Ok p => Ok (local_packages cwd p) | Err e => Err e end.
  (** macropython.py:250-281: for a file; the new [sys.path], and the name of the module to import. *)
  Definition script_module (filename : string) (syspath : list string) : res (list string * string) :=
    let file := resolve filename in
    if isfile file then
      match first_entry (removelast file) syspath with
      | Err e => Err e
      | Ok p =>
          let syspath' := local_packages (removelast file) p in
          match relativize resolve syspath' file with
          | Err e => Err e
          | Ok (_, rel) =>
              let name := dots rel in
              Ok (syspath', if ends_with ".__init__.py" name then drop_end 12 name else if ends_with ".py" name then drop_end 3 name else name)
          end
      end
    else Err (mkExn "FileNotFoundError" []).
End Script.
