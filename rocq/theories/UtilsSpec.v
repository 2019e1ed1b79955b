(** Specifications for UtilsModel, independent of the model's functions. *)
From Verif Require Import Base UtilsModel.

(** *** flatten: print the nested list with brackets, erase brackets and None. *)
Inductive tok (M : Type) : Type := TOpen | TClose | TLeaf (t : tree M).
Arguments TOpen {M}. Arguments TClose {M}. Arguments TLeaf {M} t.

Fixpoint print {M} (t : tree M) : list (tok M) :=
  match t with
  | Ls l => TOpen :: flat_map print l ++ [TClose]
  | x => [TLeaf x]
  end.

Fixpoint erase_brackets {M} (ts : list (tok M)) : list (tree M) :=
  match ts with
  | [] => []
  | TLeaf (At ANone) :: r => erase_brackets r
  | TLeaf x :: r => x :: erase_brackets r
  | _ :: r => erase_brackets r
  end.

(** Element found by following a path of list indices. *)
Fixpoint elem_at {M} (l : list (tree M)) (path : list nat) : option (tree M) :=
  match path with
  | [] => None
  | [i] => nth_error l i
  | i :: p => match nth_error l i with
              | Some (Ls sub) => elem_at sub p
              | _ => None
              end
  end.

(** *** gensym *)
Definition wf_uuid (d : list ascii) : Prop :=
  List.length d = 32 /\ Forall (fun c => is_lower_hex c = true) d.

Definition oks {A} (rs : list (res A)) : list A :=
  flat_map (fun r => match r with Ok a => [a] | Err _ => [] end) rs.

(** What the documentation promises for one call. *)
Definition gensym_result_ok (b : basename_arg) (r : res string) : Prop :=
  match b with
  | BOther => exists e, r = Err e /\ e_cls e = "TypeError"%string
  | BNone => exists u, wf_uuid u /\ r = Ok ("gensym_" ++ str_of_list u)%string
  | BStr s => exists u, wf_uuid u /\
                r = Ok (if String.eqb s "" then str_of_list u
                        else s ++ "_" ++ str_of_list u)%string
  end.

(** *** scrub_uuid *)
Definition has_uuid_suffix (s p u : list ascii) : Prop :=
  s = p ++ "_"%char :: u /\ ~ In "_"%char u /\ List.length u = 32 /\ int16_accepts u = true.

(** *** getdocstring: Python's rule. *)
Definition is_docstring_of {M} (body : list (tree M)) (s : string) : Prop :=
  exists m fs m' fs' rest,
    body = Nd m "Expr" fs :: rest /\
    getf "value" fs = Some (Nd m' "Constant" fs') /\
    getf "value" fs' = Some (At (AStr s)).

(** *** NestingLevelTracker: lexical scoping without a stack. The level is a parameter; only the
    environment of manager objects and the log are threaded. *)
Record sstate : Type := mkS { s_env : cmenv; s_log : list Z }.

Fixpoint sem (p : prog) (level : Z) (s : sstate) : sstate * outcome :=
  match p with
  | Skip => (s, Normal)
  | Seq p q => match sem p level s with
               | (s', Normal) => sem q level s'
               | r => r
               end
  | Read => (mkS (s_env s) (level :: s_log s), Normal)
  | LetCm c p =>
      let enter v :=
        if (v <? 0)%Z then (s, Raised "ValueError")
        else let r := sem p level (mkS (Some v :: s_env s) (s_log s)) in
             (mkS (tl (s_env (fst r))) (s_log (fst r)), snd r) in
      match c with
      | SetTo v => enter v
      | ChangedBy d => enter (level + d)%Z
      | SetToBad => (s, Raised "TypeError")
      end
  | WithVar n p =>
      match nth_error (s_env s) n with
      | None => (s, Raised "NameError")
      | Some None => (s, Raised "RuntimeError")
      | Some (Some v) => sem p v (mkS (set_nth n None (s_env s)) (s_log s))
      end
  | Raise e => (s, Raised e)
  | TryExcept p h => match sem p level s with
                     | (s', Normal) => (s', Normal)
                     | (s', Raised _) => sem h level s'
                     end
  end.
