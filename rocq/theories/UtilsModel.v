(** Model of parts of mcpyrate/utils.py: flatten, gensym, scrub_uuid, extract_bindings,
    getdocstring, NestingLevelTracker. *)
From Verif Require Import Base.

(** ** flatten *)

(** utils.py:69-81, [flatten(lst, recursive=True)]: the loop appends to [out]; the recursive
    call [flatten(elt)] uses the default recursive=True. *)
Fixpoint flatten_acc {M} (out : list (tree M)) (elt : tree M) : list (tree M) :=
  match elt with
  | Ls sub => out ++ fold_left flatten_acc sub []
  | At ANone => out
  | _ => out ++ [elt]
  end.
Definition flatten {M} (lst : list (tree M)) : list (tree M) :=
  fold_left flatten_acc lst [].

(** utils.py:69-81 with recursive=False: [sublst = elt]. *)
Definition flatten1_acc {M} (out : list (tree M)) (elt : tree M) : list (tree M) :=
  match elt with
  | Ls sub => out ++ sub
  | At ANone => out
  | _ => out ++ [elt]
  end.
Definition flatten1 {M} (lst : list (tree M)) : list (tree M) :=
  fold_left flatten1_acc lst [].

(** ** gensym and scrub_uuid *)

Definition str_of_list (l : list ascii) : string := string_of_list_ascii l.
Definition list_of_str (s : string) : list ascii := list_ascii_of_string s.

(** CPython Lib/uuid.py, UUID.__str__: 32 hex digits with dashes after digits 8, 12, 16, 20.
    A uuid is modelled as the list of its 32 hex digits. *)
Definition uuid_str (d : list ascii) : list ascii :=
  firstn 8 d ++ ["-"%char] ++ firstn 4 (skipn 8 d) ++ ["-"%char] ++ firstn 4 (skipn 12 d)
  ++ ["-"%char] ++ firstn 4 (skipn 16 d) ++ ["-"%char] ++ skipn 20 d.

(** [s.replace(c, '')]: str.replace with a one-character pattern and empty replacement. *)
Definition remove_char (c : ascii) (s : list ascii) : list ascii :=
  filter (fun x => negb (Ascii.eqb x c)) s.

(** The [basename] argument: None, a str, or some other truthy object. (Falsy non-str objects
    slip through the type check on line 34; they are not modelled.) *)
Inductive basename_arg : Type := BNone | BStr (s : string) | BOther.

(** The state of the module: [_previous_gensyms] (utils.py:19) and how many uuids have been
    drawn from the source. *)
Record gstate : Type := mkG { g_prev : list string; g_pos : nat }.

(** utils.py:43-49, [generate] and the [while] loop. [uuids] is the uuid4 source: the n-th value
    it delivers in this process. [None]: the loop has not ended within [fuel] draws. *)
Fixpoint gensym_loop (uuids : nat -> list ascii) (fuel : nat) (base : string) (st : gstate)
  : option (string * gstate) :=
  match fuel with
  | O => None
  | S fuel' =>
      let unique := str_of_list (remove_char "-"%char (uuid_str (uuids (g_pos st)))) in
      let sym := (base ++ unique)%string in
      let st' := mkG (g_prev st) (S (g_pos st)) in
      if smem sym (g_prev st) then gensym_loop uuids fuel' base st'
      else Some (sym, mkG (sym :: g_prev st') (g_pos st'))
  end.

(** utils.py:20-51. *)
Definition gensym (uuids : nat -> list ascii) (fuel : nat) (b : basename_arg) (st : gstate)
  : option (res string * gstate) :=
  let go base := match gensym_loop uuids fuel base st with
                 | Some (s, st') => Some (Ok s, st')
                 | None => None
                 end in
  match b with
  | BOther => Some (Err (mkExn "TypeError" []), st)
  | BNone => go "gensym_"%string
  | BStr s => if Nat.ltb 0 (String.length s) then go (s ++ "_")%string else go s
  end.

(** A history of calls; [None] if some call did not return. *)
Fixpoint gensym_history (uuids : nat -> list ascii) (calls : list (nat * basename_arg))
         (st : gstate) : option (list (res string) * gstate) :=
  match calls with
  | [] => Some ([], st)
  | (fuel, b) :: cs =>
      match gensym uuids fuel b st with
      | None => None
      | Some (r, st') =>
          match gensym_history uuids cs st' with
          | None => None
          | Some (rs, st'') => Some (r :: rs, st'')
          end
      end
  end.

(** str.rfind of a character: index of the last occurrence. *)
Fixpoint rfind (c : ascii) (s : list ascii) : option nat :=
  match s with
  | [] => None
  | x :: r => match rfind c r with
              | Some i => Some (S i)
              | None => if Ascii.eqb x c then Some O else None
              end
  end.

Definition is_lower_hex (c : ascii) : bool :=
  let n := nat_of_ascii c in
  (Nat.leb 48 n && Nat.leb n 57) || (Nat.leb 97 n && Nat.leb n 102).
Definition is_hex (c : ascii) : bool :=
  is_lower_hex c || (let n := nat_of_ascii c in Nat.leb 65 n && Nat.leb n 70).
(** ASCII characters for which str.isspace() is true. *)
Definition is_space (c : ascii) : bool :=
  let n := nat_of_ascii c in
  (Nat.leb 9 n && Nat.leb n 13) || (Nat.leb 28 n && Nat.leb n 32).

Fixpoint lstrip (s : list ascii) : list ascii :=
  match s with
  | [] => []
  | c :: r => if is_space c then lstrip r else s
  end.
Definition strip (s : list ascii) : list ascii := rev (lstrip (rev (lstrip s))).

(** Does [int(s, base=16)] accept [s]? (Python reference, integer literals and int():
    surrounding whitespace, one sign, an optional 0x prefix, then hex digits, single underscores
    between digits and after the prefix.) ASCII only; other Unicode digits are not modelled. *)
Fixpoint hex_digits_from (need_digit : bool) (s : list ascii) : bool :=
  match s with
  | [] => negb need_digit
  | c :: r => if is_hex c then hex_digits_from false r
              else if Ascii.eqb c "_"%char then (if need_digit then false else hex_digits_from true r)
              else false
  end.
Definition strip_sign (s : list ascii) : list ascii :=
  match s with
  | c :: r => if Ascii.eqb c "+"%char || Ascii.eqb c "-"%char then r else s
  | [] => []
  end.
Definition strip_prefix (s : list ascii) : list ascii :=
  match s with
  | a :: b :: r =>
      if Ascii.eqb a "0"%char && (Ascii.eqb b "x"%char || Ascii.eqb b "X"%char)
      then match r with
           | c :: r' => if Ascii.eqb c "_"%char then r' else r
           | [] => r
           end
      else s
  | _ => s
  end.
Definition int16_accepts (s : list ascii) : bool :=
  hex_digits_from true (strip_prefix (strip_sign (strip s))).

(** utils.py:54-66. *)
Definition scrub_uuid (string : list ascii) : list ascii :=
  match rfind "_"%char string with
  | None => string
  | Some idx =>
      let maybe_uuid := skipn (idx + 1) string in
      if Nat.eqb (List.length maybe_uuid) 32 then
        if int16_accepts maybe_uuid then firstn idx string else string
      else string
  end.

(** ** extract_bindings *)

(** utils.py:150-172. Functions are compared by identity (a number). The keyword parameter
    [global_only] is not used by the code. *)
Definition extract_bindings (bindings : list (string * nat)) (functions : list nat)
  : list (string * nat) :=
  filter (fun p => existsb (Nat.eqb (snd p)) functions) bindings.

(** ** getdocstring *)

(** utils.py:175-196. [body] is None, a list, or (TypeError) something else. Returns the
    [value] of the constant whatever its type. *)
Definition getdocstring {M} (body : tree M) : res (tree M) :=
  match body with
  | At ANone => Ok NoneT
  | Ls [] => Ok NoneT
  | Ls (Nd _ k fs :: _) =>
      if String.eqb k "Expr" then
        match getf "value" fs with
        | Some (Nd _ k' fs') =>
            if String.eqb k' "Constant" then
              match getf "value" fs' with
              | Some v => Ok v
              | None => Err (mkExn "AttributeError" ["value"%string])
              end
            else if String.eqb k' "Str" then
              match getf "s" fs' with
              | Some v => Ok v
              | None => Err (mkExn "AttributeError" ["s"%string])
              end
            else Ok NoneT
        | Some _ => Ok NoneT
        | None => Err (mkExn "AttributeError" ["value"%string])
        end
      else Ok NoneT
  | Ls (_ :: _) => Ok NoneT
  | _ => Err (mkExn "TypeError" [])
  end.

(** ** NestingLevelTracker *)

(** Programs over the tracker API (utils.py:285-345) with exceptions. [LetCm] evaluates
    [cm = t.set_to(v)] or [cm = t.changed_by(d)] and pushes the context manager object on the
    environment; [WithVar n body] is [with cm_n: body]; [Read] observes [t.value]. [SetToBad]
    is [t.set_to(x)] with a non-integer. Objects made by contextlib.contextmanager are one-shot:
    entering one a second time raises (the exception class depends on the Python version). *)
Inductive cmexpr : Type := SetTo (v : Z) | ChangedBy (d : Z) | SetToBad.
Inductive prog : Type :=
| Skip
| Seq (p q : prog)
| Read
| LetCm (c : cmexpr) (p : prog)
| WithVar (n : nat) (p : prog)
| Raise (e : string)
| TryExcept (p h : prog).

Inductive outcome : Type := Normal | Raised (e : string).

(** Environment of context manager objects: the level captured by [_set_to]'s closure, or None
    if already used. *)
Definition cmenv := list (option Z).
Fixpoint set_nth {A} (n : nat) (x : A) (l : list A) {struct l} : list A :=
  match l, n with
  | [], _ => []
  | _ :: r, O => x :: r
  | y :: r, S n' => y :: set_nth n' x r
  end.

(** State: the stack ([self.stack], last element first here), the environment, and the log of
    observed values (most recent first). *)
Record tstate : Type := mkT { t_stack : list Z; t_env : cmenv; t_log : list Z }.

(** utils.py:300-302, [value] is [self.stack[-1]]; IndexError on an empty stack. *)
Definition t_value (s : list Z) : option Z := hd_error s.

(** utils.py:304-328 and 330-345: evaluation of the argument and the two checks. *)
Definition eval_cm (c : cmexpr) (stack : list Z) : Z + string :=
  let set_to v := if Z.ltb v 0 then inr "ValueError"%string else inl v in
  match c with
  | SetTo v => set_to v
  | ChangedBy d => match t_value stack with
                   | Some x => set_to (x + d)%Z
                   | None => inr "IndexError"%string
                   end
  | SetToBad => inr "TypeError"%string
  end.

Fixpoint run (p : prog) (s : tstate) : tstate * outcome :=
  match p with
  | Skip => (s, Normal)
  | Seq p q => match run p s with
               | (s', Normal) => run q s'
               | r => r
               end
  | Read => match t_value (t_stack s) with
            | Some v => (mkT (t_stack s) (t_env s) (v :: t_log s), Normal)
            | None => (s, Raised "IndexError")
            end
  | LetCm c p =>
      match eval_cm c (t_stack s) with
      | inr e => (s, Raised e)
      | inl v =>
          (* the variable goes out of scope at the end of the LetCm *)
          match run p (mkT (t_stack s) (Some v :: t_env s) (t_log s)) with
          | (s', o) => (mkT (t_stack s') (tl (t_env s')) (t_log s'), o)
          end
      end
  | WithVar n p =>
      match nth_error (t_env s) n with
      | None => (s, Raised "NameError")
      | Some None => (s, Raised "RuntimeError")
      | Some (Some v) =>
          (* self.stack.append(value); try: yield; finally: self.stack.pop(); assert self.stack *)
          match run p (mkT (v :: t_stack s) (set_nth n None (t_env s)) (t_log s)) with
          | (s', o) =>
              match t_stack s' with
              | [] => (s', Raised "IndexError")
              | [_] => (mkT [] (t_env s') (t_log s'), Raised "AssertionError")
              | _ :: rest => (mkT rest (t_env s') (t_log s'), o)
              end
          end
      end
  | Raise e => (s, Raised e)
  | TryExcept p h => match run p s with
                     | (s', Normal) => (s', Normal)
                     | (s', Raised _) => run h s'
                     end
  end.
