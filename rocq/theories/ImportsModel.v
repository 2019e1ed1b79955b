(** Model of the macro-imports: ismacroimport, get_macros (mcpyrate/coreutils.py:75-199) and find_macros
    (mcpyrate/expander.py:584-658). *)
From Verif Require Import Base AstLib FixLocModel ExpanderModel Dict.

(** [from module import name as asname, ...] with [level] leading dots, as found in an ImportFrom node. A node of another
    shape does not come from the parser; it is taken as "not an ImportFrom". *)
Record imp : Type := mkImp { i_module : option string; i_names : list (string * option string); i_level : nat }.
Definition view_alias (t : ltree) : option (string * option string) :=
  match t with
  | Nd _ "alias" fs =>
      match getf "name" fs, getf "asname" fs with
      | Some (At (AStr x)), Some (At (AStr y)) => Some (x, Some y)
      | Some (At (AStr x)), Some (At ANone) => Some (x, None)
      | _, _ => None
      end
  | _ => None
  end.
Fixpoint view_aliases (l : list ltree) : option (list (string * option string)) :=
  match l with
  | [] => Some []
  | t :: r => match view_alias t, view_aliases r with Some a, Some l' => Some (a :: l') | _, _ => None end
  end.
Definition view_import (t : ltree) : option imp :=
  match t with
  | Nd _ "ImportFrom" fs =>
      match getf "module" fs, getf "names" fs, getf "level" fs with
      | Some mt, Some (Ls l), Some lt =>
          match (match mt with At (AStr s) => Some (Some s) | At ANone => Some None | _ => None end), view_aliases l,
                (match lt with At (AInt z) => Some (Z.to_nat z) | At ANone => Some 0 | _ => None end) with
          | Some m, Some ns, Some lv => Some (mkImp m ns lv)
          | _, _, _ => None
          end
      | _, _, _ => None
      end
  | _ => None
  end.

(** The rest of the process. [W]: everything that importing a module may change; [Ob]: Python objects.
    [w_package]: the package of the file (resolve_package, coreutils.py:19-32); [w_resolve]: importlib.util.resolve_name;
    [w_import]: importlib.import_module followed, if asked for, by importlib.reload: any effect, any exception;
    [w_sysmod]: sys.modules; [w_getattr]: getattr on a module; [w_callable]. *)
Record world (W Ob : Type) : Type := mkWorld {
  w_package : W -> res string;
  w_resolve : nat -> string -> option string -> res string;
  w_import : string -> W -> res Ob * W;
  w_sysmod : W -> option string -> option Ob;
  w_getattr : W -> Ob -> string -> res Ob;
  w_callable : Ob -> bool
}.
Arguments mkWorld {W Ob}.
Arguments w_package {W Ob}. Arguments w_resolve {W Ob}. Arguments w_import {W Ob}.
Arguments w_sysmod {W Ob}. Arguments w_getattr {W Ob}. Arguments w_callable {W Ob}.

Definition err (c : string) : exn := mkExn c [].
Definition is_cls (c : string) (e : exn) : bool := String.eqb (e_cls e) c.

Section Imports.
  Context {W Ob : Type}.
  Variable P : world W Ob.
  (** [filename.endswith(".py")]; [self_module]. *)
  Variable ispy : bool.
  Variable self : option string.

  (** coreutils.py:75-88, ismacroimport; an import without names does not come from the parser, and raises. *)
  Definition ismacroimport (i : imp) : res bool :=
    match i_names i with
    | [] => Err (err "IndexError")
    | (x, a) :: _ => Ok (String.eqb x "macros" && match a with None => true | Some _ => false end)
    end.

  (** coreutils.py:174-197: the loop over the names. *)
  Fixpoint get_names (w : W) (m : Ob) (l : list (string * option string)) (d : sdict Ob) : res (sdict Ob) :=
    match l with
    | [] => Ok d
    | (x, a) :: r =>
        match w_getattr P w m x with
        | Err e => Err (if is_cls "AttributeError" e then err "ImportError" else e)
        | Ok f => if w_callable P f
                  then get_names w m r (sset (match a with Some (String c y) => String c y | _ => x end) f d)
                  else Err (err "ImportError")
        end
    end.

  (** coreutils.py:91-199, get_macros with [allow_asname]. Where the dotted name of the module is None, it is
      represented by None, too. *)
  Definition get_macros (i : imp) (w : W) : res (option string * sdict Ob) * W :=
    match (if negb (Nat.eqb (i_level i) 0) && ispy
           then match w_package P w with
                | Ok p => Ok (Some p)
                | Err e => Err (if is_cls "ValueError" e || is_cls "ImportError" e then err "ImportError" else e)
                end
           else Ok None) with
    | Err e => (Err e, w)
    | Ok pkg =>
        match i_module i with
        | None => (Err (err "SyntaxError"), w)
        | Some m =>
            if String.eqb m "__self__" then
              if negb (Nat.eqb (i_level i) 0) then (Err (err "SyntaxError"), w)
              else match w_sysmod P w self with
                   | None => (Err (err "ModuleNotFoundError"), w)
                   | Some o => match get_names w o (tl (i_names i)) [] with
                               | Ok d => (Ok (self, d), w)
                               | Err e => (Err e, w)
                               end
                   end
            else match w_resolve P (i_level i) m pkg with
                 | Err e => (Err e, w)
                 | Ok absname =>
                     match w_import P absname w with
                     | (Err e, w') => (Err (if is_cls "ModuleNotFoundError" e then err "ModuleNotFoundError" else e), w')
                     | (Ok o, w') => match get_names w' o (tl (i_names i)) [] with
                                     | Ok d => (Ok (Some absname, d), w')
                                     | Err e => (Err e, w')
                                     end
                     end
                 end
        end
    end.

  (** [import name], at the location of the statement (expander.py:651-654). *)
  Definition plain_import (m : loc) (name : option string) : ltree :=
    Nd m "Import" [("names"%string, Ls [Nd m "alias" [("name"%string, At (match name with Some s => AStr s | None => ANone end)); ("asname"%string, NoneT)]])].
  Fixpoint replace_nth (n : nat) (t : ltree) (l : list ltree) : list ltree :=
    match l, n with
    | [], _ => []
    | _ :: r, O => t :: r
    | x :: r, S n' => x :: replace_nth n' t r
    end.
  Definition pop_nth (n : nat) (l : list ltree) : list ltree := firstn n l ++ skipn (S n) l.

  Variable transform : bool.
  (** Text of the coverage dummy for a self-macro-import. *)
  Variable text : loc -> string.

  (** expander.py:627-655: the loop. [todo]: the statements still to be looked at, from [index] on; [body]: [tree.body], which
      is changed in place. *)
  Fixpoint find_loop (index : nat) (todo : list ltree) (body : list ltree) (del : list nat) (d : sdict Ob) (w : W)
    : res (sdict Ob * list nat) * list ltree * W :=
    match todo with
    | [] => (Ok (d, del), body, w)
    | t :: r =>
        match view_import t with
        | None => find_loop (S index) r body del d w
        | Some i =>
            match ismacroimport i with
            | Err e => (Err e, body, w)
            | Ok false => find_loop (S index) r body del d w
            | Ok true =>
                match get_macros i w with
                | (Err e, w') => (Err e, body, w')
                | (Ok (absname, d'), w') =>
                    let d2 := supd d d' in
                    if transform then
                      if match self with Some (String _ _) => true | _ => false end && match i_module i with Some m => String.eqb m "__self__" | None => false end then
                        match insert_dummy (text (loc_of t)) (loc_of t) NoneT with
                        | XOk (Ls (dummy :: _)) => find_loop (S index) r (replace_nth index dummy body) del d2 w'
                        | XOk _ => find_loop (S index) r body (del ++ [index]) d2 w'
                        | XRaise (XErr e _) => (Err e, body, w')
                        end
                      else find_loop (S index) r (replace_nth index (plain_import (loc_of t) absname) body) del d2 w'
                    else find_loop (S index) r body del d2 w'
                end
            end
        end
    end.
  (** expander.py:584-658, find_macros: the bindings or an exception, [tree.body] afterwards, and the state of the process. *)
  Definition find_macros (body : list ltree) (w : W) : res (sdict Ob) * list ltree * W :=
    match find_loop 0 body body [] [] w with
    | (Ok (d, del), body', w') => (Ok d, fold_left (fun b i => pop_nth i b) (rev del) body', w')
    | (Err e, body', w') => (Err e, body', w')
    end.
End Imports.
