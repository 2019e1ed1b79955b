(** Model of path_xstats and path_stats (mcpyrate/importer.py:59-80, 97-224). *)
From Verif Require Import Base AstLib FixLocModel ExpanderModel Dict ImportsModel PhaseModel DialectModel.

(** ** Scanning a source file for macro-imports and dialect-imports *)
(** coreutils.py:75-88, for both magic names. *)
Definition import_named (magic : string) (t : ltree) : res (option imp) :=
  match view_import t with
  | None => Ok None
  | Some i => match i_names i with
              | [] => Err (ierr "IndexError")
              | (x, None) :: _ => Ok (if String.eqb x magic then Some i else None)
              | (_, Some _) :: _ => Ok None
              end
  end.
Definition found := (list imp * list imp)%type.
Definition found_app (a b : found) : found := (fst a ++ fst b, snd a ++ snd b).
(** importer.py:158-168: the nested function scan. The macro-imports and the dialect-imports, each in order. *)
Fixpoint scan_stmt (t : ltree) : res found :=
  match import_named "macros" t with
  | Err e => Err e
  | Ok (Some i) => Ok ([i], [])
  | Ok None =>
      match import_named "dialects" t with
      | Err e => Err e
      | Ok (Some i) => Ok ([], [i])
      | Ok None =>
          match iswithphase t with
          | Err e => Err e
          | Ok None => Ok ([], [])
          | Ok (Some _) =>
              match t with
              | Nd _ _ fs =>
                  (fix in_fields (l : list (string * ltree)) : res found :=
                     match l with
                     | [] => Err (attribute_error "body")
                     | (x, v) :: r =>
                         if String.eqb "body" x then
                           match v with
                           | Ls b => (fix in_list (b : list ltree) : res found :=
                                        match b with
                                        | [] => Ok ([], [])
                                        | t' :: r' => match scan_stmt t' with
                                                      | Err e => Err e
                                                      | Ok f => match in_list r' with Err e => Err e | Ok g => Ok (found_app f g) end
                                                      end
                                        end) b
                           | _ => Err AstLib.type_error
                           end
                         else in_fields r
                     end) fs
              | _ => Ok ([], [])
              end
          end
      end
  end.
Fixpoint scan (body : list ltree) : res found :=
  match body with
  | [] => Ok ([], [])
  | t :: r => match scan_stmt t with
              | Err e => Err e
              | Ok f => match scan r with Err e => Err e | Ok g => Ok (found_app f g) end
              end
  end.

(** ** The file system and the caches *)
(** A source file: st_mtime_ns, and what parsing the text gives. *)
Record file : Type := mkFile { f_mtime : Z; f_text : res (list ltree) }.
(** The contents of a [.mcpyrate.pickle] file. *)
Record centry : Type := mkEntry { ce_mtime : Z; ce_macros : list imp; ce_dialects : list imp; ce_relative : bool }.
(** The pickle files, by the path of the source file (importlib.util.cache_from_source is taken as one-to-one); [None]: there is none,
    or it is unreadable (importer.py:139-147: any Exception is ignored). *)
Definition cache := string -> option centry.
Definition cset (p : string) (e : centry) (c : cache) : cache := fun q => if String.eqb q p then Some e else c q.

(** The configuration of the running Python: sys.path and so on. [e_spec]: importlib.util.find_spec and its [origin]. [e_writes]: the
    cache file is written ([sys.dont_write_bytecode] is off, and no Exception). [e_float]: [st_mtime_ns * 1e-9]; floats are represented by
    integers of the same order. The functions are taken to have no effects: importing parent packages in find_spec is not followed. *)
Record env : Type := mkEnv {
  e_package : string -> res string;
  e_resolve : nat -> string -> option string -> res string;
  e_spec : string -> res (option (option string));
  e_writes : string -> bool;
  e_float : Z -> Z
}.

Definition any_relative (l : list imp) : bool := existsb (fun i => negb (Nat.eqb (i_level i) 0)) l.

Section Stats.
  Variable E : env.
  Variable fs : string -> option file.

  (** importer.py:139-187: the imports of one file, from the pickle file if that is valid. *)
  Definition file_imports (p : string) (f : file) (c : cache) : res (list imp * bool) * cache :=
    match (match c p with Some e => if Z.eqb (ce_mtime e) (f_mtime f) then Some e else None | None => None end) with
    | Some e => (Ok (ce_macros e ++ ce_dialects e, ce_relative e), c)
    | None =>
        match f_text f with
        | Err e => (Err e, c)
        | Ok body =>
            match scan body with
            | Err e => (Err e, c)
            | Ok (ms, ds) =>
                let rel := any_relative (ms ++ ds) in
                (Ok (ms ++ ds, rel), if e_writes E p then cset p (mkEntry (f_mtime f) ms ds rel) c else c)
            end
        end
    end.

  (** importer.py:202-213: the loop over the imports. [rec]: path_stats. [None]: not returned. *)
  Fixpoint stats_loop (rec : string -> sdict Z -> cache -> option (res Z * sdict Z * cache)) (pkg : option string) (l : list imp) (memo : sdict Z) (c : cache)
    : option (res (list Z) * sdict Z * cache) :=
    match l with
    | [] => Some (Ok [], memo, c)
    | i :: r =>
        match i_module i with
        | None => Some (Err (ierr "SyntaxError"), memo, c)
        | Some m =>
            match e_resolve E (i_level i) m pkg with
            | Err e => Some (Err e, memo, c)
            | Ok absname =>
                match e_spec E absname with
                | Err e => Some (Err e, memo, c)
                | Ok None => stats_loop rec pkg r memo c
                | Ok (Some None) => Some (Err (ierr "TypeError"), memo, c)
                | Ok (Some (Some origin)) =>
                    match rec origin memo c with
                    | None => None
                    | Some (Err e, memo1, c1) => Some (Err e, memo1, c1)
                    | Some (Ok x, memo1, c1) =>
                        match stats_loop rec pkg r memo1 c1 with
                        | Some (Ok xs, memo2, c2) => Some (Ok (x :: xs), memo2, c2)
                        | other => other
                        end
                    end
                end
            end
        end
    end.

  (** importer.py:97-224, path_stats: ["mtime"] of the result (["size"] is always None); [memo]: _stats_cache. [None]: deeper than [n]. *)
  Fixpoint path_stats_ (n : nat) (p : string) (memo : sdict Z) (c : cache) : option (res Z * sdict Z * cache) :=
    match n with
    | O => None
    | S n' =>
        match sget p memo with
        | Some x => Some (Ok x, memo, c)
        | None =>
            match fs p with
            | None => Some (Err (ierr "FileNotFoundError"), memo, c)
            | Some f =>
                match file_imports p f c with
                | (Err e, c1) => Some (Err e, memo, c1)
                | (Ok (imps, rel), c1) =>
                    match (if rel then match e_package E p with
                                       | Ok s => Ok (Some s)
                                       | Err e => Err (if is_cls "ValueError" e || is_cls "ImportError" e then ierr "ImportError" else e)
                                       end
                           else Ok None) with
                    | Err e => Some (Err e, memo, c1)
                    | Ok pkg =>
                        match stats_loop (path_stats_ n') pkg imps memo c1 with
                        | None => None
                        | Some (Err e, memo1, c2) => Some (Err e, memo1, c2)
                        | Some (Ok xs, memo1, c2) => let x := fold_right Z.max (e_float E (f_mtime f)) xs in Some (Ok x, sset p x memo1, c2)
                        end
                    end
                end
            end
        end
    end.
  Definition path_stats (n : nat) (p : string) (c : cache) : option (res Z * cache) :=
    match path_stats_ n p [] c with Some (r, _, c') => Some (r, c') | None => None end.
  (** importer.py:59-80, path_xstats, installed as SourceFileLoader.path_stats. [is_stdlib]: [path in _stdlib_sourcefile_paths]; [std]: the
      original method. *)
  Definition path_xstats (is_stdlib : string -> bool) (ispy : string -> bool) (std : string -> res Z) (n : nat) (p : string) (c : cache) : option (res Z * cache) :=
    if is_stdlib p || negb (ispy p) then Some (std p, c) else path_stats n p c.
End Stats.
