(** What a dump is read against: Python's reading of its text as an expression, and the value of that expression when the names of the node
    classes are in scope. Also the layout of a text, and its escape sequences for terminals. *)
From Verif Require Import Base UnparseModel PyGrammar UnparseSpec.
Open Scope string_scope.
Open Scope list_scope.

(** ** Reading *)
(** Inside brackets, the end of a line is no token (Python reference, 2.1.6, implicit line joining). *)
Fixpoint join_lines (depth : nat) (ts : list tok) : list tok :=
  match ts with
  | [] => []
  | TNl k :: r => match depth with O => TNl k :: join_lines depth r | S _ => join_lines depth r end
  | TOp x :: r =>
      TOp x :: join_lines (if smem x ["("; "["; "{"] then S depth else if smem x [")"; "]"; "}"] then pred depth else depth) r
  | t :: r => t :: join_lines depth r
  end.
(** The text is that of the expression [e]. *)
Definition reads_expr (read : string -> string) (s : string) (e : expr) : Prop :=
  exists ts, lex read s = Some ts /\ exists N, forall n, N <= n -> p n LExpr (join_lines 0 ts) = Some (e, []).

(** ** Values *)
Fixpoint ends_j (s : string) : bool := match s with "" => false | String c "" => Ascii.eqb c "j" | String _ r => ends_j r end.
Fixpoint sequence {A} (l : list (option A)) : option (list A) :=
  match l with [] => Some [] | o :: r => match o, sequence r with Some a, Some l' => Some (a :: l') | _, _ => None end end.
Fixpoint distinct (l : list string) : bool := match l with [] => true | x :: r => negb (smem x r) && distinct r end.
Definition const_value (c : const) : atom :=
  match c with
  | CNone => ANone | CTrue => ABool true | CFalse => ABool false | CEllipsis => AEllipsis
  | CInt n => AInt (Z.of_N n)
  | CNum r => if ends_j r then AComplex r else AFloat r
  | CStr _ s => AStr s
  | CBytes s => ABytes s
  end.
(** The value of an expression: literals, lists, the name Ellipsis, a minus sign before a number, and a call of a node class with keyword
    arguments. Anything else has none here. *)
Fixpoint value_of (e : expr) : option (tree unit) :=
  match e with
  | EConst c => Some (At (const_value c))
  | EName x => if String.eqb x "Ellipsis" then Some (At AEllipsis) else None
  | EUnary o (EConst c) =>
      match o, c with
      | USub, CInt n => Some (At (AInt (- Z.of_N n)))
      | USub, CNum r => if ends_j r then None else Some (At (AFloat ("-" ++ r)))
      | _, _ => None
      end
  | EList l => match sequence (map value_of l) with Some l' => Some (Ls l') | None => None end
  | ECall f args kws =>
      match f, args, sequence (map value_kw kws) with
      | EName k, [], Some fs => if distinct (map fst fs) then Some (Nd tt k fs) else None
      | _, _, _ => None
      end
  | _ => None
  end
with value_kw (k : keyword) : option (string * tree unit) :=
  match k with Kw x e => match x, value_of e with Some f, Some v => Some (f, v) | _, _ => None end end.

(** The tree that a dump describes: without identities, with the attributes as further fields if they were asked for. *)
Section Shape.
  Context {M : Type}.
  Variable attributes : M -> string -> list (string * atom).
  Variable include_attributes : bool.
  Fixpoint shape (t : tree M) : tree unit :=
    match t with
    | Nd m k fs =>
        Nd tt k (map (fun p => match p with (f, v) => (f, shape v) end) fs ++
                 (if include_attributes then map (fun p => match p with (f, a) => (f, At a) end) (attributes m k) else []))
    | Ls l => Ls (map shape l)
    | At a => At a
    end.
End Shape.

(** The trees covered: finite numbers, strings and constants; names that are identifiers, no field twice. *)
Section Covered.
  (** The [repr] of the value of a float or imaginary literal. *)
  Variable read : string -> string.

  Definition literal (r : string) : bool := num_ok read r && String.eqb (replace_inf r) r.
  Definition negative (r : string) : bool := starts (Ascii.eqb "-") r.
  Definition unsigned (r : string) : string := match r with String c r' => if Ascii.eqb "-" c then r' else r | "" => "" end.
  Definition atom_ok (a : atom) : bool :=
    match a with
    | AFloat r => literal (unsigned r) && negb (ends_j (unsigned r))
    | AComplex r => literal r && ends_j r
    | AObj _ => false
    | _ => true
    end.
  Fixpoint dumpable (t : tree unit) : bool :=
    match t with
    | Nd _ k fs => is_identifier k && forallb (fun p => match p with (f, v) => is_identifier f && dumpable v end) fs && distinct (map fst fs)
    | Ls l => forallb dumpable l
    | At a => atom_ok a
    end.
End Covered.

(** ** Layout *)
(** Reads a text from left to right, knowing the columns that follow the open brackets (innermost first). A line that begins inside brackets
    must be indented to the column that follows the innermost open bracket. Brackets and blanks in string literals do not count. *)
Inductive mode : Type := Plain | Quoted (q : ascii) | Escaped (q : ascii) | Indent.
Definition at_char (st : list nat * nat * mode) (c : ascii) : option (list nat * nat * mode) :=
  match st with
  | (cols, col, m) =>
      let plain :=
        if has_char c "([{" then Some (S col :: cols, S col, Plain)
        else if has_char c ")]}" then match cols with _ :: r => Some (r, S col, Plain) | [] => None end
        else if Nat.eqb (nat_of_ascii c) 10 then Some (cols, 0, Indent)
        else if is_quote c then Some (cols, S col, Quoted c)
        else Some (cols, S col, Plain) in
      match m with
      | Plain => plain
      | Quoted q => if Nat.eqb (nat_of_ascii c) 10 then None else Some (cols, S col, if Ascii.eqb c q then Plain else if Ascii.eqb c bs then Escaped q else Quoted q)
      | Escaped q => Some (cols, S col, Quoted q)
      | Indent =>
          if Ascii.eqb c " " then Some (cols, S col, Indent)
          else match cols with i :: _ => if Nat.eqb col i then plain else None | [] => plain end
      end
  end.
Fixpoint scan_layout (st : list nat * nat * mode) (s : string) : option (list nat * nat * mode) :=
  match s with "" => Some st | String c r => match at_char st c with Some st' => scan_layout st' r | None => None end end.
(** All brackets are closed, and every line that begins inside brackets is indented as said. *)
Definition aligned (s : string) : Prop := exists col, scan_layout ([], 0, Plain) s = Some ([], col, Plain).

(** ** Escape sequences for terminals *)
Definition esc : ascii := ascii_of_nat 27.
(** The text without the sequences that begin with ESC and end with the letter m; and whether it ends within such a sequence. *)
Fixpoint strip (inside : bool) (s : string) : string * bool :=
  match s with
  | "" => ("", inside)
  | String c r =>
      if inside then strip (negb (Ascii.eqb c "m")) r
      else if Ascii.eqb c esc then strip true r
      else let (t, b) := strip false r in (String c t, b)
  end.
(** Nothing but such sequences. *)
Definition codes (s : string) : Prop := strip false s = ("", false).
Definition no_esc (s : string) : bool := all_chars (fun c => negb (Ascii.eqb c esc)) s.
