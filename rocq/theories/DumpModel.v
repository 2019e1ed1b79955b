(** [dump] (mcpyrate/astdumper.py:16-83) and [colorize] (mcpyrate/colorizer.py:36-95). *)
From Verif Require Import Base UnparseModel.
Open Scope string_scope.

(** The colors, as the codes that switch them on (colorizer.py:98-179); a compound style counts as the concatenation of its codes, which is
    all that [setcolor] does with one (colorizer.py:60-66). *)
Record scheme : Type := Scheme { reset_all : string; nodetype : string; fieldname : string; barevalue : string }.

(** colorizer.py:69-95: [setcolor(colors)], the text, [setcolor()]; each [setcolor] resets first. *)
Definition colorize (cs : scheme) (text color : string) : string := (reset_all cs ++ color) ++ text ++ reset_all cs.

(** [str.isspace] on Latin-1, and [str.lstrip]. *)
Definition is_space (c : ascii) : bool :=
  let n := nat_of_ascii c in (Nat.leb 9 n && Nat.leb n 13) || (Nat.leb 28 n && Nat.leb n 32) || Nat.eqb n 133 || Nat.eqb n 160.
Fixpoint lstrip (s : string) : string := match s with String c r => if is_space c then lstrip r else s | "" => "" end.
Definition starts_bracket (s : string) : bool := match s with String "[" _ => true | _ => false end.

(** [repr] of a value that is neither a node nor a list (astdumper.py:79). Floats and complex numbers are represented by their [repr]. *)
Definition repr_atom (printable : ascii -> bool) (repr_obj : nat -> string) (a : atom) : string :=
  match a with
  | ANone => "None"
  | AEllipsis => "Ellipsis"
  | ABool b => if b then "True" else "False"
  | AInt z => if Z.ltb z 0 then "-" ++ repr_int (Z.abs_N z) else repr_int (Z.abs_N z)
  | AFloat r | AComplex r => r
  | AStr s => repr_str printable s
  | ABytes s => "b" ++ repr_str (fun _ => false) s
  | AObj n => repr_obj n
  end.

Section Dump.
  Context {M : Type}.
  (** [str.isprintable], and the [repr] of objects of other types. *)
  Variable printable : ascii -> bool.
  Variable repr_obj : nat -> string.
  (** The node's [_attributes], each with its value, [None] if it is missing (astdumper.py:58-60). The values are taken not to be nodes or
      lists. *)
  Variable attributes : M -> string -> list (string * atom).
  Variable include_attributes multiline color : bool.
  Variable cs : scheme.

  (** astdumper.py:35-38. *)
  Definition maybe_colorize (text c : string) : string := if color then colorize cs text c else text.
  (** astdumper.py:40-46; the argument is what [recurse] returned, always a string. *)
  Definition maybe_colorize_value (v : string) : string := if starts_bracket v then v else maybe_colorize v (barevalue cs).
  (** astdumper.py:49-52, for [previndent + moreindent] = [n]. *)
  Definition separator (n : nat) : string := if multiline then "," ++ nl ++ spaces n else ", ".

  (** astdumper.py:48-79. *)
  Fixpoint recurse (previndent : nat) (t : tree M) : string :=
    match t with
    | Nd m k fs =>
        let n := previndent + (String.length k + 1) in
        let fields :=
          (map (fun p => match p with (f, v) => (f, recurse (n + (String.length f + 1)) v) end) fs ++
           (if include_attributes then map (fun p => match p with (f, a) => (f, repr_atom printable repr_obj a) end) (attributes m k) else []))%list in
        maybe_colorize k (nodetype cs) ++ "(" ++
        String.concat (separator n) (map (fun p => match p with (f, v) => maybe_colorize f (fieldname cs) ++ "=" ++ maybe_colorize_value v end) fields) ++ ")"
    | Ls l =>
        match map (recurse (previndent + 1)) l with
        | [] => "[]"
        | x :: items => String.concat (separator (previndent + 1)) (("[" ++ lstrip x) :: items) ++ "]"
        end
    | At a => repr_atom printable repr_obj a
    end.

  (** astdumper.py:81-83. *)
  Definition dump (t : tree M) : res string :=
    match t with At _ => Err (mkExn "TypeError" []) | _ => Ok (recurse 0 t) end.
End Dump.
