(** Model of the bytecode cache cleaner (mcpyrate/pycachecleaner.py:10-57) and of the parts of [os] it uses.

    Permissions and other processes are not modelled. *)
From Verif Require Import Base.

(** A file, a directory, or a symbolic link with its target as a path from the root. *)
Inductive node : Type := F | D (l : list (string * node)) | L (target : list string).
Definition fpath := list string.
Fixpoint assoc (c : string) (l : list (string * node)) : option node :=
  match l with [] => None | (d, x) :: r => if String.eqb c d then Some x else assoc c r end.
Fixpoint unassoc (c : string) (l : list (string * node)) : list (string * node) :=
  match l with [] => [] | (d, x) :: r => if String.eqb c d then r else (d, x) :: unassoc c r end.
Fixpoint reassoc (c : string) (y : node) (l : list (string * node)) : list (string * node) :=
  match l with [] => [] | (d, x) :: r => if String.eqb c d then (d, y) :: r else (d, x) :: reassoc c y r end.
(** No symbolic link is followed. *)
Fixpoint lookup (nd : node) (p : fpath) : option node :=
  match p with
  | [] => Some nd
  | c :: r => match nd with D l => match assoc c l with Some x => lookup x r | None => None end | _ => None end
  end.
Fixpoint put (nd : node) (p : fpath) (y : node) : node :=
  match p with
  | [] => y
  | c :: r => match nd with D l => match assoc c l with Some x => D (reassoc c (put x r y) l) | None => nd end | _ => nd end
  end.
(** Following symbolic links, at most [n]: the path without links of what [cur / rest] denotes, if that exists. *)
Fixpoint canon (n : nat) (fs : node) (cur rest : fpath) {struct n} : option fpath :=
  (fix go (cur rest : fpath) {struct rest} : option fpath :=
     match rest with
     | [] => Some cur
     | c :: r => match lookup fs (cur ++ [c]) with
                 | None => None
                 | Some (L t) => match n with O => None | S n' => canon n' fs [] (t ++ r) end
                 | Some _ => go (cur ++ [c]) r
                 end
     end) cur rest.
Definition max_links : nat := 40.
Definition follow (fs : node) (p : fpath) : option (fpath * node) :=
  match canon max_links fs [] p with
  | Some q => match lookup fs q with Some x => Some (q, x) | None => None end
  | None => None
  end.
(** [os.path.isdir]. *)
Definition isdir (fs : node) (p : fpath) : bool := match follow fs p with Some (_, D _) => true | _ => false end.

Definition oserr (c : string) : exn := mkExn c [].
(** [os.unlink(dir/c)] and [os.rmdir(dir/c)], where FileNotFoundError is ignored (pycachecleaner.py:41-57). *)
Definition unlink (dir : fpath) (c : string) (fs : node) : res node :=
  match follow fs dir with
  | None => Ok fs
  | Some (q, D l) => match assoc c l with
                     | None => Ok fs
                     | Some (D _) => Err (oserr "IsADirectoryError")
                     | Some _ => Ok (put fs q (D (unassoc c l)))
                     end
  | Some _ => Err (oserr "NotADirectoryError")
  end.
Definition rmdir (dir : fpath) (c : string) (fs : node) : res node :=
  match follow fs dir with
  | None => Ok fs
  | Some (q, D l) => match assoc c l with
                     | None => Ok fs
                     | Some (D []) => Ok (put fs q (D (unassoc c l)))
                     | Some (D _) => Err (oserr "OSError")
                     | Some _ => Err (oserr "NotADirectoryError")
                     end
  | Some _ => Err (oserr "NotADirectoryError")
  end.
(** An effect that may fail: the state afterwards in either case. *)
Definition outcome := (option exn * node)%type.
Definition step (f : node -> res node) (o : outcome) : outcome :=
  match o with
  | (Some e, fs) => (Some e, fs)
  | (None, fs) => match f fs with Ok fs' => (None, fs') | Err e => (Some e, fs) end
  end.

(** [os.walk]: an entry goes among the directories if it is one, following links. *)
Definition entry_isdir (fs : node) (p : fpath) (e : string * node) : bool :=
  match snd e with F => false | D _ => true | L _ => isdir fs (p ++ [fst e]) end.

(** pycachecleaner.py:10-22, getpycachedirs. The walk goes down into directories, not into links to directories. [nd]: the directory [p]. *)
Fixpoint find_pycache (fs : node) (p : fpath) (nd : node) {struct nd} : list fpath :=
  match nd with
  | D l =>
      (if existsb (fun e => String.eqb (fst e) "__pycache__" && entry_isdir fs p e) l then [p ++ ["__pycache__"%string]] else []) ++
      (fix go (l : list (string * node)) : list fpath :=
         match l with
         | [] => []
         | (c, x) :: r => (match x with D _ => find_pycache fs (p ++ [c]) x | _ => [] end) ++ go r
         end) l
  | _ => []
  end.
Definition getpycachedirs (fs : node) (p : fpath) : res (list fpath) :=
  match follow fs p with
  | Some (_, D l) => Ok (find_pycache fs p (D l))
  | _ => Err (oserr "OSError")
  end.

(** pycachecleaner.py:35-57, _delete_directory_recursively: the walk from the bottom up, with the deletions. [nd]: the directory [p], when the
    walk comes to it. *)
Fixpoint delete_contents (p : fpath) (nd : node) (o : outcome) {struct nd} : outcome :=
  match nd with
  | D l =>
      match o with
      | (Some e, fs) => o
      | (None, fs) =>
          let files := filter (fun e => negb (entry_isdir fs p e)) l in
          let dirs := filter (entry_isdir fs p) l in
          let o1 := (fix go (l : list (string * node)) (o : outcome) : outcome :=
                       match l with
                       | [] => o
                       | (c, x) :: r => go r (match x with D _ => delete_contents (p ++ [c]) x o | _ => o end)
                       end) l o in
          let o2 := fold_left (fun o e => step (unlink p (fst e)) o) files o1 in
          fold_left (fun o e => step (rmdir p (fst e)) o) dirs o2
      end
  | _ => o
  end.
Definition delete_directory (p : fpath) (o : outcome) : outcome :=
  match o with
  | (Some _, _) => o
  | (None, fs) =>
      let o1 := match follow fs p with Some (_, D l) => delete_contents p (D l) o | _ => o end in
      step (rmdir (removelast p) (last p ""%string)) o1
  end.
(** pycachecleaner.py:25-32, deletepycachedirs. *)
Definition deletepycachedirs (p : fpath) (fs : node) : outcome :=
  match getpycachedirs fs p with
  | Err e => (Some e, fs)
  | Ok l => fold_left (fun o x => delete_directory x o) l (None, fs)
  end.
