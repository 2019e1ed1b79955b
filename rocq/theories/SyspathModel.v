(** Model of resolve_package, relativize and match_syspath (mcpyrate/coreutils.py:19-71), on a system where [os.path.sep] is a slash. *)
From Verif Require Import Base.

(** An absolute path, as the list of its components. *)
Definition path := list string.
(** [str] of an absolute path. *)
Fixpoint slashed (p : path) : string := match p with [] => "" | c :: r => String "/" (c ++ slashed r) end.
Definition render (p : path) : string := match p with [] => "/"%string | _ => slashed p end.
Fixpoint drop (n : nat) (s : string) : string :=
  match n, s with S n', String _ r => drop n' r | _, _ => s end.
Fixpoint count_sep (s : string) : nat :=
  match s with EmptyString => 0 | String c r => (if Ascii.eqb c "/" then 1 else 0) + count_sep r end.
(** Order of strings, by characters. *)
Definition str_leb (a b : string) : bool := match String.compare a b with Gt => false | _ => true end.
(** coreutils.py:63-64, sortkey: more separators first; then by characters. *)
Definition key_leb (a b : string) : bool :=
  Nat.ltb (count_sep b) (count_sep a) || (Nat.eqb (count_sep a) (count_sep b) && str_leb a b).
(** [sorted], by insertion. *)
Fixpoint insert (a : string) (l : list string) : list string :=
  match l with [] => [a] | b :: r => if key_leb a b then a :: l else b :: insert a r end.
Definition sorted_ (l : list string) : list string := fold_right insert [] l.

Section Syspath.
  (** [pathlib.Path(s).expanduser().resolve()]. *)
  Variable resolve : string -> path.
  (** [sys.path]. *)
  Variable syspath : list string.

  (** coreutils.py:52-71, match_syspath, on an absolute file name. *)
  Fixpoint first_match (l : list string) (file : string) : res path :=
    match l with
    | [] => Err (mkExn "ValueError" [])
    | s :: r => if String.prefix (render (resolve s)) file then Ok (resolve s) else first_match r file
    end.
  Definition match_syspath (file : path) : res path := first_match (sorted_ syspath) (render file).
  (** coreutils.py:35-49, relativize. *)
  Definition relativize (file : path) : res (path * string) :=
    match match_syspath file with
    | Err e => Err e
    | Ok root =>
        let rel := drop (String.length (render root)) (render file) in
        Ok (root, if String.prefix "/" rel then drop 1 rel else rel)
    end.
  (** [relative_path.replace(os.path.sep, ".")] *)
  Fixpoint dots (s : string) : string :=
    match s with EmptyString => "" | String c r => String (if Ascii.eqb c "/" then "."%char else c) (dots r) end.
  (** coreutils.py:19-32, resolve_package; [dir]: the directory of the file. *)
  Definition resolve_package (dir : path) : res string :=
    match relativize dir with
    | Err e => Err e
    | Ok (_, ""%string) => Err (mkExn "ImportError" [])
    | Ok (_, rel) => Ok (dots rel)
    end.
End Syspath.
