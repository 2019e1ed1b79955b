(** Model of create_module and temporary_module (mcpyrate/compiler.py:441-586). *)
From Verif Require Import Base Dict.

(** Module objects are numbers. [m_sys]: sys.modules; [m_attr]: the namespaces of module objects (only the attributes set or
    deleted here matter); [m_next]: number of the next new object; [m_uuid]: the names gensym will give. [m_user]: the rest
    of the process. A number in sys.modules may stand for an object that is false as a condition, such as None. *)
Record mst (U : Type) : Type := mkMst { m_sys : sdict nat; m_attr : list ((nat * string) * nat); m_next : nat; m_uuid : nat; m_user : U }.
Arguments mkMst {U}. Arguments m_sys {U}. Arguments m_attr {U}. Arguments m_next {U}. Arguments m_uuid {U}. Arguments m_user {U}.

(** [s.split(".")]. *)
Fixpoint split_dots_ (s : string) (cur : string) : list string :=
  match s with
  | EmptyString => [cur]
  | String c r => if Ascii.eqb c "." then cur :: split_dots_ r EmptyString else split_dots_ r (cur ++ String c EmptyString)
  end.
Definition split_dots (s : string) : list string := split_dots_ s EmptyString.
(** [s.rsplit(".", maxsplit=1)] where it has a dot: what precedes and what follows the last one. *)
Fixpoint rsplit_dot (s : string) : option (string * string) :=
  match s with
  | EmptyString => None
  | String c r => match rsplit_dot r with
                  | Some (p, f) => Some (String c p, f)
                  | None => if Ascii.eqb c "." then Some (EmptyString, r) else None
                  end
  end.

(** An argument given as None, as a str, or as something else. *)
Inductive arg : Type := ArgNone | ArgStr (s : string) | ArgOther.

Definition key_eqb (a b : nat * string) : bool := Nat.eqb (fst a) (fst b) && String.eqb (snd a) (snd b).
Definition attr_get (k : nat * string) (l : list ((nat * string) * nat)) : option nat :=
  match find (fun p => key_eqb k (fst p)) l with Some p => Some (snd p) | None => None end.
Definition attr_del (k : nat * string) (l : list ((nat * string) * nat)) : list ((nat * string) * nat) := filter (fun p => negb (key_eqb k (fst p))) l.
Definition attr_set (k : nat * string) (v : nat) (l : list ((nat * string) * nat)) : list ((nat * string) * nat) := (k, v) :: attr_del k l.

Section Modules.
  Context {U : Type}.
  (** [str.isidentifier]; the truth value of an object in sys.modules; the name made from a new uuid. *)
  Variable isidentifier : string -> bool.
  Variable truthy : nat -> bool.
  Variable gen : nat -> string.

  Definition type_error : exn := mkExn "TypeError" [].
  (** compiler.py:441-547, create_module. The attributes of the new module ([__name__], [__file__], [__package__]) are not
      modelled. [setattr(package, ...)] is taken to succeed. *)
  Definition create_module (dotted filename : arg) (update_parent : bool) (s : mst U) : res nat * mst U :=
    if match dotted with ArgOther => true | ArgStr x => negb (String.eqb x "") && negb (forallb isidentifier (split_dots x)) | ArgNone => false end
    then (Err type_error, s)
    else if match filename with ArgOther => true | _ => false end then (Err type_error, s)
    else
      let u := m_uuid s in
      let s1 := mkMst (m_sys s) (m_attr s) (m_next s) (S u) (m_user s) in
      let name := match dotted with ArgStr x => if String.eqb x "" then gen u else x | _ => gen u end in
      let m := m_next s in
      let s2 := mkMst (m_sys s) (m_attr s) (S m) (S u) (m_user s) in
      match rsplit_dot name with
      | Some (pkg, final) =>
          match sget pkg (m_sys s) with
          | Some p => if truthy p
                      then (Ok m, mkMst (sset name m (m_sys s)) (if update_parent then attr_set (p, final) m (m_attr s) else m_attr s) (S m) (S u) (m_user s))
                      else (Err (mkExn "ModuleNotFoundError" []), s2)
          | None => (Err (mkExn "ModuleNotFoundError" []), s2)
          end
      | None => (Ok m, mkMst (sset name m (m_sys s)) (m_attr s) (S m) (S u) (m_user s))
      end.

  (** compiler.py:576-586: the finally clause. [del sys.modules[dotted_name]] raises for a name that is not there, or that is not
      a str; [delattr] raises if there is no such attribute (or if the package is None); all these are suppressed. *)
  Definition temporary_exit (dotted : arg) (update_parent : bool) (s : mst U) : mst U :=
    match dotted with
    | ArgStr x =>
        match sget x (m_sys s) with
        | None => s
        | Some _ =>
            let s' := mkMst (sdel x (m_sys s)) (m_attr s) (m_next s) (m_uuid s) (m_user s) in
            if update_parent then
              match rsplit_dot x with
              | Some (pkg, final) => match sget pkg (m_sys s') with
                                     | Some p => mkMst (m_sys s') (attr_del (p, final) (m_attr s')) (m_next s') (m_uuid s') (m_user s')
                                     | None => s'
                                     end
              | None => s'
              end
            else s'
        end
    | _ => s
    end.
  (** compiler.py:550-586, [with temporary_module(...) as m: block]; the block is any code, which may raise. *)
  Definition temporary_module {A} (dotted filename : arg) (update_parent : bool) (block : nat -> mst U -> res A * mst U) (s : mst U) : res A * mst U :=
    match create_module dotted filename update_parent s with
    | (Ok m, s1) => let (r, s2) := block m s1 in (r, temporary_exit dotted update_parent s2)
    | (Err e, s1) => (Err e, temporary_exit dotted update_parent s1)
    end.
End Modules.
