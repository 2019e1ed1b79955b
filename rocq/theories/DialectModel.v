(** Model of the dialect expander (mcpyrate/dialects.py:167-443).

    Debug output is left out. Exceptions raised by dialects are taken to be subclasses of [Exception] (a KeyboardInterrupt
    would not be wrapped). *)
From Verif Require Import Base AstLib FixLocModel ExpanderModel Dict ImportsModel.

(** What a transformer method returns: NotImplemented, something that is false as a condition, or the new program. *)
Inductive tresult (C : Type) : Type := TNotImplemented | TEmpty | TContent (c : C).
Arguments TNotImplemented {C}. Arguments TEmpty {C}. Arguments TContent {C}.

Section Dialects.
  (** [W]: the process, including the expander object, which dialects may change; [Ob]: what is imported; [In_]: dialect objects. *)
  Context {W Ob In_ C : Type}.
  Definition ierr (c : string) : exn := mkExn c [].

  (** User code. [is_dialect]: the class is a subclass of Dialect. [instantiate]: [cls(expander=self)]. [transform]: the method;
      [None]: the dialect object does not have it. *)
  Variable is_dialect : Ob -> bool.
  Variable instantiate : Ob -> W -> res In_ * W.
  Variable transform : In_ -> option (C -> W -> res (tresult C) * W).

  (** dialects.py:239-279: the bindings of one dialect-import. *)
  Fixpoint run_bindings (bs : list (string * Ob)) (c : C) (is_ : list In_) (w : W) : res (C * list In_) * W :=
    match bs with
    | [] => (Ok (c, is_), w)
    | (_, cls) :: r =>
        if negb (is_dialect cls) then (Err (ierr "TypeError"), w)
        else match instantiate cls w with
             | (Err _, w1) => (Err (ierr "ImportError"), w1)
             | (Ok d, w1) =>
                 match transform d with
                 | None => (Err (ierr "ImportError"), w1)
                 | Some f =>
                     match f c w1 with
                     | (Err _, w2) => (Err (ierr "ImportError"), w2)
                     | (Ok TNotImplemented, w2) => run_bindings r c (is_ ++ [d]) w2
                     | (Ok TEmpty, w2) => (Err (ierr "ImportError"), w2)
                     | (Ok (TContent c'), w2) => run_bindings r c' (is_ ++ [d]) w2
                     end
                 end
             end
    end.

  (** The search for a dialect-import: its bindings and the program (changed in place), or None. *)
  Variable find_dialectimport : C -> W -> res (option (list (string * Ob) * C)) * W.
  (** dialects.py:218-286, _transform. [None]: not returned after [n] rounds. *)
  Fixpoint transform_loop (n : nat) (c : C) (is_ : list In_) (w : W) : option (res (C * list In_) * W) :=
    match n with
    | O => None
    | S n' =>
        match find_dialectimport c w with
        | (Err e, w1) => Some (Err e, w1)
        | (Ok None, w1) => Some (Ok (c, is_), w1)
        | (Ok (Some (bs, c1)), w1) =>
            match run_bindings bs c1 is_ w1 with
            | (Err e, w2) => Some (Err e, w2)
            | (Ok (c2, is'), w2) => transform_loop n' c2 is' w2
            end
        end
    end.

  (** dialects.py:288-332, postprocess_ast. *)
  Variable postprocess : In_ -> option (C -> W -> res (tresult C) * W).
  Fixpoint postprocess_ast (is_ : list In_) (c : C) (w : W) : res C * W :=
    match is_ with
    | [] => (Ok c, w)
    | d :: r =>
        match postprocess d with
        | None => (Err (ierr "ImportError"), w)
        | Some f =>
            match f c w with
            | (Err _, w1) => (Err (ierr "ImportError"), w1)
            | (Ok TNotImplemented, w1) => postprocess_ast r c w1
            | (Ok TEmpty, w1) => (Err (ierr "ImportError"), w1)
            | (Ok (TContent c'), w1) => postprocess_ast r c' w1
            end
        end
    end.
End Dialects.

(** ** The search in an AST *)
Section Ast.
  Context {W Ob : Type}.
  (** [get_macros(statement, ..., allow_asname=False)]: absolute module name and bindings. *)
  Variable load : imp -> W -> res (option string * list (string * Ob)) * W.

  (** [ismacroimport(statement, magicname="dialects")] (coreutils.py:75-88). *)
  Definition isdialectimport (t : ltree) : res (option imp) :=
    match view_import t with
    | None => Ok None
    | Some i => match i_names i with
                | [] => Err (ierr "IndexError")
                | (x, None) :: _ => Ok (if String.eqb x "dialects" then Some i else None)
                | (_, Some _) :: _ => Ok None
                end
    end.
  (** dialects.py:394-443, find_dialectimport_ast. The program is [tree.body]. *)
  Fixpoint scan_ast (before todo : list ltree) : res (option (list ltree * ltree * imp * list ltree)) :=
    match todo with
    | [] => Ok None
    | t :: r => match isdialectimport t with
                | Err e => Err e
                | Ok (Some i) => Ok (Some (before, t, i, r))
                | Ok None => scan_ast (before ++ [t]) r
                end
    end.
  Definition find_ast (body : list ltree) (w : W) : res (option (list (string * Ob) * list ltree)) * W :=
    match scan_ast [] body with
    | Err e => (Err e, w)
    | Ok None => (Ok None, w)
    | Ok (Some (before, t, i, after)) =>
        match load i w with
        | (Err e, w1) => (Err e, w1)
        | (Ok (absname, bs), w1) => (Ok (Some (bs, before ++ plain_import (loc_of t) absname :: after)), w1)
        end
    end.
End Ast.

(** ** The search in source text *)
Local Open Scope char_scope.
(** [\s] in a Python str pattern, for characters up to 255. *)
Definition is_space (c : ascii) : bool :=
  let n := nat_of_ascii c in (Nat.leb 9 n && Nat.leb n 13) || (Nat.leb 28 n && Nat.leb n 32) || Nat.eqb n 133 || Nat.eqb n 160.
Definition nl : ascii := ascii_of_nat 10.
(** [[.0-9a-zA-z_]]; note [A-z]. *)
Definition is_modchar (c : ascii) : bool :=
  let n := nat_of_ascii c in Ascii.eqb c "." || (Nat.leb 48 n && Nat.leb n 57) || (Nat.leb 65 n && Nat.leb n 122).
(** [[^(\\]]. *)
Definition is_nameschar (c : ascii) : bool := negb (Ascii.eqb c "(") && negb (Ascii.eqb c "\").

Section Regex.
  Context {A : Type}.
  (** Number of characters at the beginning that satisfy [p]. *)
  Fixpoint run_length (p : ascii -> bool) (s : list ascii) : nat :=
    match s with c :: r => if p c then S (run_length p r) else 0 | [] => 0 end.
  (** Greedy repetition: tries [j], [j-1], ..., [low]. *)
  Fixpoint try_down (low j : nat) (k : nat -> option A) : option A :=
    match k j with
    | Some x => Some x
    | None => match j with
              | O => None
              | S j' => if Nat.leb j low then None else try_down low j' k
              end
    end.
  Definition plus (p : ascii -> bool) (k : list ascii -> option A) (s : list ascii) : option A :=
    match run_length p s with O => None | n => try_down 1 n (fun j => k (skipn j s)) end.
  Definition star (p : ascii -> bool) (k : list ascii -> option A) (s : list ascii) : option A :=
    try_down 0 (run_length p s) (fun j => k (skipn j s)).
  Fixpoint lit (l : list ascii) (k : list ascii -> option A) (s : list ascii) : option A :=
    match l, s with
    | [], _ => k s
    | c :: l', d :: s' => if Ascii.eqb c d then lit l' k s' else None
    | _ :: _, [] => None
    end.
End Regex.
(** [$] with MULTILINE. *)
Definition eol (s : list ascii) : option (list ascii) := match s with [] => Some s | c :: _ => if Ascii.eqb c nl then Some s else None end.
(** dialects.py:167: [^from\s+([.0-9a-zA-z_]+)\s+import dialects,\s+([^(\\]+)\s*$] at the beginning of a line; what is left after the
    match. *)
Definition match_at (s : list ascii) : option (list ascii) :=
  lit (list_ascii_of_string "from")
    (plus is_space (plus is_modchar (plus is_space (lit (list_ascii_of_string "import dialects,")
       (plus is_space (plus is_nameschar (star is_space eol))))))) s.
(** [_dialectimport.finditer(text)]: the matched texts. [skip]: characters still to be passed, because they belong to a match. *)
Fixpoint finditer_ (bol : bool) (skip : nat) (s : list ascii) : list (list ascii) :=
  match s with
  | [] => []
  | c :: r =>
      match skip with
      | S k => finditer_ (Ascii.eqb c nl) k r
      | O => match (if bol then match_at s else None) with
             | Some rest => let len := length s - length rest in firstn len s :: finditer_ (Ascii.eqb c nl) (pred len) r
             | None => finditer_ (Ascii.eqb c nl) 0 r
             end
      end
  end.
Definition finditer (text : list ascii) : list (list ascii) := finditer_ true 0 text.
(** [str.strip()]. *)
Fixpoint lstrip (s : list ascii) : list ascii := match s with c :: r => if is_space c then lstrip r else s | [] => [] end.
Definition strip (s : list ascii) : list ascii := rev (lstrip (rev (lstrip s))).

Definition ascii_list_eqb (a b : list ascii) : bool := String.eqb (string_of_list_ascii a) (string_of_list_ascii b).
Section Source.
  Context {W Ob : Type}.
  (** [ast.parse(statement)] and its first statement as an import; [get_macros]. *)
  Variable parse : list ascii -> res imp.
  Variable load : imp -> W -> res (option string * list (string * Ob)) * W.
  (** [self._seen]: a part of the process. *)
  Variable seen : W -> list (list ascii).
  Variable add_seen : list ascii -> W -> W.
  Fixpoint first_unseen (sn : list (list ascii)) (ms : list (list ascii)) : option (list ascii) :=
    match ms with
    | [] => None
    | m :: r => if existsb (ascii_list_eqb (strip m)) sn then first_unseen sn r else Some (strip m)
    end.
  (** dialects.py:334-392, find_dialectimport_source. *)
  Definition find_source (text : list ascii) (w : W) : res (option (list (string * Ob) * list ascii)) * W :=
    match first_unseen (seen w) (finditer text) with
    | None => (Ok None, w)
    | Some statement =>
        let w1 := add_seen statement w in
        match parse statement with
        | Err e => (Err e, w1)
        | Ok i => match load i w1 with
                  | (Err e, w2) => (Err e, w2)
                  | (Ok (_, bs), w2) => (Ok (Some (bs, text)), w2)
                  end
        end
    end.
End Source.
