(** Which trees the round-trip theorems cover: those that the parser makes, but for double-starred items of dict displays, subscripts by an
    empty tuple, f-strings with a brace or a backslash in their text, and f-strings with a field whose expression begins with a brace. *)
From Verif Require Import Base UnparseModel PyGrammar.
Open Scope string_scope.
Open Scope list_scope.

Definition nonempty {A} (l : list A) : bool := match l with [] => false | _ => true end.

(** Characters that the unparser does not escape in the text of an f-string and should; a carriage return and a null character, too. *)
Definition ftext_ok (s : string) : bool :=
  match s with "" => false | _ => all_chars (fun c => negb (has_char c "{}" || Ascii.eqb c bs || Nat.eqb (nat_of_ascii c) 13 || Nat.eqb (nat_of_ascii c) 0)) s end.
(** No two texts one after the other: the parser makes one text of them. *)
Fixpoint alternating (l : list expr) : bool :=
  match l with EConst _ :: (EConst _ :: _) => false | _ :: r => alternating r | [] => true end.
(** The text begins with a brace. *)
Fixpoint braced (e : expr) : bool :=
  match e with ESet _ | EDict _ | ESetComp _ _ | EDictComp _ _ _ => true | EAttr e _ | ESub e _ | ECall e _ _ => braced e | _ => false end.
(** The conversions that the parser makes: none, !s, !r, !a. *)
Definition conv_ok (z : Z) : bool := Z.eqb z (-1) || Z.eqb z 115 || Z.eqb z 114 || Z.eqb z 97.

Section Covered.
  (** The [repr] of the value of a float or imaginary literal. *)
  Variable read : string -> string.

  (** A float or imaginary number as a literal can give it: its [repr], with inf replaced, is a literal that has this [repr]. *)
  Definition num_ok (r : string) : bool :=
    match scan_number (replace_inf r) with
    | (String _ _, String _ _, "") => String.eqb (read (replace_inf r)) r
    | _ => false
    end.
  Definition const_ok (c : const) : bool := match c with CNum r => num_ok r | _ => true end.

  Fixpoint ok (e : expr) : bool :=
    let ok_star e := match e with EStarred x => ok x | _ => ok e end in
    let ok_opt o := match o with Some e => ok e | None => true end in
    let ok_slice e := match e with ESlice a b c => ok_opt a && ok_opt b && ok_opt c | EStarred x => ok x | _ => ok e end in
    match e with
    | EName x => is_identifier x
    | EConst c => const_ok c
    | EBinOp l _ r => ok l && ok r
    | EUnary _ e => ok e
    | EBool _ l => Nat.leb 2 (List.length l) && forallb ok l
    | ECompare l r => ok l && nonempty r && forallb (fun p => match p with (_, e) => ok e end) r
    | EIfExp b t o => ok b && ok t && ok o
    | ELambda a b => ok_args false a && ok b
    | ENamed t v => match t with EName x => is_identifier x | _ => false end && ok v
    | ETuple l | EList l => forallb ok_star l
    | ESet l => nonempty l && forallb ok_star l
    | EDict l => forallb (fun p => match p with (Some k, v) => ok k && ok v | (None, _) => false end) l
    | EListComp e g | ESetComp e g | EGen e g => ok e && nonempty g && forallb ok_comp g
    | EDictComp k v g => ok k && ok v && nonempty g && forallb ok_comp g
    | EAttr e x => ok e && is_identifier x
    | ESub e s => ok e && match s with ETuple l => nonempty l && forallb ok_slice l | ESlice _ _ _ => ok_slice s | _ => ok s end
    | ECall f a k => ok f && forallb ok_star a && forallb ok_kw k
    | EAwait e | EYieldFrom e => ok e
    | EYield e => match e with Some e => ok_star e | None => true end
    | EJoined l => alternating l && forallb (ok_part 0) l
    | EStarred _ | ESlice _ _ _ | EFormatted _ _ _ => false
    end
  (** A part of an f-string, or of a format specification in a field of level [lvl - 1]. *)
  with ok_part (lvl : nat) (e : expr) : bool :=
    match e with
    | EConst (CStr false s) => ftext_ok s
    | EFormatted v c spec =>
        Nat.ltb lvl 2 && ok v && negb (braced v) && conv_ok c &&
        match spec with None => true | Some (EJoined l) => nonempty l && alternating l && forallb (ok_part (S lvl)) l | Some _ => false end
    | _ => false
    end
  with ok_args (ann : bool) (a : arguments) : bool :=
    match a with
    | Args pos args vararg kwonly kwd kwarg ds =>
        forallb (ok_arg ann false) pos && forallb (ok_arg ann false) args && match vararg with Some a => ok_arg ann true a | None => true end &&
        forallb (ok_arg ann false) kwonly && forallb (fun d => match d with Some d => ok d | None => true end) kwd &&
        match kwarg with Some a => ok_arg ann false a | None => true end && forallb ok ds &&
        Nat.leb (List.length ds) (List.length pos + List.length args) && Nat.eqb (List.length kwd) (List.length kwonly)
    end
  with ok_arg (ann star : bool) (a : arg) : bool :=
    match a with
    | Arg x None => is_identifier x
    | Arg x (Some e) => is_identifier x && ann && match e with EStarred e => star && ok e | _ => ok e end
    end
  with ok_comp (g : comp) : bool := match g with Comp t i ifs _ => ok t && is_target t && ok i && forallb ok ifs end
  with ok_kw (k : keyword) : bool := match k with Kw x e => match x with Some x => is_identifier x | None => true end && ok e end.
End Covered.
