(** Model of the report of macro bindings (mcpyrate/debug.py:146-209), of [format_macrofunction] (utils.py:255-266), and of [setcolor] and [colorize] with
    compound styles (colorizer.py:36-95). *)
From Verif Require Import Base Dict.
Open Scope string_scope.

(** A style: a code, or a tuple or list of styles, arbitrarily nested. *)
Inductive style : Type := SCode (s : string) | STup (l : list style).
(** colorizer.py:60-63. *)
Fixpoint set_style (c : style) : string :=
  match c with SCode s => s | STup l => (fix go (l : list style) : string := match l with [] => "" | x :: r => set_style x ++ go r end) l end.
(** The color scheme, as far as it matters here (colorizer.py:119-179), and [Style.RESET_ALL]. *)
Record palette : Type := Palette { p_reset : string; p_heading1 : style; p_filename : style; p_greyed : style; p_macro : style }.
(** colorizer.py:36-66. *)
Definition setcolor (P : palette) (colors : list style) (reset : bool) : string := (if reset then p_reset P else "") ++ set_style (STup colors).
(** colorizer.py:69-95. *)
Definition colorize (P : palette) (text : string) (colors : list style) : string := setcolor P [STup colors] true ++ text ++ setcolor P [] true.

(** What may be bound as a macro: an object without [__module__] or [__qualname__], of which only the [repr] matters; or one that has both
    ([None]: the module is None). *)
Inductive mfn : Type := Broken (repr : string) | Fn (module : option string) (qualname : string).
(** utils.py:255-266. *)
Definition format_macrofunction (f : mfn) : string :=
  match f with
  | Broken r => r
  | Fn None q => q
  | Fn (Some m) q => if String.eqb m "" then q else m ++ "." ++ q
  end.

(** [str.__le__]; strings stand for sequences of characters, compared by their numbers. *)
Fixpoint str_le (a b : string) : bool :=
  match a, b with
  | "", _ => true
  | _, "" => false
  | String c a', String d b' => if Nat.ltb (nat_of_ascii c) (nat_of_ascii d) then true else Nat.eqb (nat_of_ascii c) (nat_of_ascii d) && str_le a' b'
  end.
(** [sorted(bindings.items())]: the keys of a dict are distinct, so that the values are never compared. *)
Fixpoint insert_item (p : string * mfn) (l : list (string * mfn)) : list (string * mfn) :=
  match l with [] => [p] | q :: r => if str_le (fst p) (fst q) then p :: l else q :: insert_item p r end.
Fixpoint sort_items (l : list (string * mfn)) : list (string * mfn) := match l with [] => [] | p :: r => insert_item p (sort_items r) end.

Definition newline : string := String (ascii_of_nat 10) "".
(** An expander: [filename], [local_bindings], [global_bindings]; [bindings] is a ChainMap of the two (core.py:96-101). *)
Record expander : Type := Expander { x_file : string; x_local : sdict mfn; x_global : sdict mfn }.
Definition all_bindings (e : expander) : sdict mfn := supd (x_global e) (x_local e).

(** debug.py:179-209. *)
Definition format_bindings (P : palette) (e : expander) (globals_too color : bool) : string :=
  let c := fun colors => if color then setcolor P colors true else "" in
  let maybe_colorize := fun text colors => if color then colorize P text colors else text in
  let bindings := if globals_too then all_bindings e else x_local e in
  c [p_heading1 P] ++ "Macro bindings for " ++ c [p_filename P] ++ x_file e ++ c [p_heading1 P] ++ ":" ++ c [] ++ newline ++
  match bindings with
  | [] => maybe_colorize ("    <no bindings>" ++ newline) [p_greyed P]
  | _ => String.concat "" (map (fun p => "    " ++ maybe_colorize (fst p) [p_macro P] ++ ": " ++ format_macrofunction (snd p) ++ newline) (sort_items bindings))
  end.
(** debug.py:146-176: the text printed (with a newline of [print]) or the exception. *)
Definition show_bindings (P : palette) (e : expander) (syntax : string) : res string :=
  if String.eqb syntax "name" then Ok (format_bindings P e false true ++ newline) else Err (mkExn "SyntaxError" ["`show_bindings` is an identifier macro only"]).
