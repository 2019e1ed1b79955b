(** Model of the tools that say where something is: get_lineno, format_location, format_context (mcpyrate/utils.py:200-227, 229-252, 269-282), and
    SourceLocationInfoValidator (debug.py:212-266). *)
From Verif Require Import Base UnparseModel ExpanderModel ShowModel.
Open Scope string_scope.

(** ** get_lineno *)
(** Metadata of a node: the attribute [lineno]: absent; or its value, which may be None. *)
Definition lno : Type := option (option Z).
Section Lineno.
  (** Classes of AST markers. *)
  Variable is_marker : string -> bool.
  (** [if lineno:] *)
  Definition truthy (r : option Z) : bool := match r with Some z => negb (Z.eqb z 0) | None => false end.
  (** utils.py:211-226. A node has the field [body] if it is among its fields. *)
  Fixpoint get_lineno (t : tree lno) : option Z :=
    match t with
    | Nd (Some v) _ _ => v                                                                     (* 211 *)
    | Nd None k fs =>
        match (if is_marker k then (fix body (l : list (string * tree lno)) : option (option Z) :=
                                      match l with [] => None | (f, v) :: r => if String.eqb "body" f then Some (get_lineno v) else body r end) fs
               else None) with
        | Some r => r                                                                          (* 213 *)
        | None => (fix go (l : list (string * tree lno)) : option Z :=
                     match l with [] => None | (_, v) :: r => let z := get_lineno v in if truthy z then z else go r end) fs          (* 215-221 *)
        end
    | Ls l => (fix go (l : list (tree lno)) : option Z := match l with [] => None | v :: r => let z := get_lineno v in if truthy z then z else go r end) l   (* 222-225 *)
    | At _ => None
    end.
End Lineno.

(** ** Texts *)
Definition has_nl (s : string) : bool := existsb (fun c => Ascii.eqb c (ascii_of_nat 10)) (list_ascii_of_string s).
(** [str] of a line number. *)
Definition show_lineno (r : option Z) : string :=
  match r with None => "None" | Some z => if Z.ltb z 0 then "-" ++ repr_int (Z.abs_N z) else repr_int (Z.abs_N z) end.
(** utils.py:246-252; [None] and the empty string are treated alike. *)
Definition format_location (P : palette) (is_marker : string -> bool) (filename : string) (t : tree lno) (source : option string) : string :=
  colorize P filename [p_filename P] ++ ":" ++ show_lineno (get_lineno is_marker t) ++ ":" ++
  match source with
  | None => ""
  | Some s => if String.eqb s "" then "" else (if has_nl s then newline else " ") ++ s
  end.
(** utils.py:277-281, for [n >= 0]; [text] is what unparse_with_fallbacks gives for the tree. *)
Definition format_context (P : palette) (text : string) (n : nat) : string :=
  let lines := split_nl text in
  join_nl (firstn n lines) ++ (if Nat.ltb n (List.length lines) then newline ++ colorize P "..." [p_greyed P] else "").

(** ** The validator *)
(** Metadata: the identity of the node, and the names of the attributes it has besides its fields. *)
Definition idm : Type := (nat * list string)%type.
Section Validator.
  (** Attributes that the class has a default for (such as end_lineno, since Python 3.8). *)
  Variable class_attrs : string -> list string.
  (** unparse_with_fallbacks(tree, debug=True, color=True), unparser.py:1201-1220: never raises. *)
  Variable unparse : tree idm -> string.
  Variable P : palette.
  (** The arguments of the constructor, debug.py:239-256; [ignore] by identity, as nodes are hashed. *)
  Variables (ignore : list nat) (n : nat) (check_fields : list string).
  Definition hasattr (m : idm) (k : string) (fs : list (string * tree idm)) (x : string) : bool := smem x (map fst fs) || smem x (snd m) || smem x (class_attrs k).
  (** debug.py:258-266 and ASTVisitor.visit, walkers.py:138-151, NodeVisitor.generic_visit: what is collected, in order. The walker has no state. *)
  Fixpoint examine (t : tree idm) : list (tree idm * string * list string) :=
    match t with
    | Nd m k fs =>
        (if existsb (Nat.eqb (fst m)) ignore then []
         else if forallb (hasattr m k fs) check_fields then []
         else [(t, format_context P (unparse t) n, filter (fun x => negb (hasattr m k fs x)) check_fields)]) ++
        flat_map (fun p => match snd p with
                           | Nd _ _ _ => examine (snd p)
                           | Ls l => flat_map (fun x => match x with Nd _ _ _ => examine x | _ => [] end) l
                           | At _ => [] end) fs
    | _ => []
    end.
  (** [visit] of a node or of a list of nodes (walkers.py:144-148). *)
  Definition validate (t : tree idm) : list (tree idm * string * list string) :=
    match t with Ls l => flat_map examine l | _ => examine t end.
End Validator.
