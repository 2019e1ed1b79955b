(** What a terminal shows of a text with color codes; which trees the theorems about colors cover. *)
From Verif Require Import Base Dict ShowModel UnparseModel DumpSpec ColorModel.
Open Scope string_scope.

Definition lf : ascii := ascii_of_nat 10.
(** The terminal reads a text: a code begins with ESC and ends with the letter m; ESC[0m switches all styles off, any other code switches one on; other
    characters are shown. The result: each character shown, and whether some style was on then; whether one is on at the end; and the beginning of
    the code, if the text ends within one. *)
Fixpoint screen (on : bool) (code : option string) (s : string) : list (ascii * bool) * (bool * option string) :=
  match s with
  | "" => ([], (on, code))
  | String c r =>
      match code with
      | Some k => if Ascii.eqb c "m" then screen (negb (String.eqb k "[0")) None r else screen on (Some (k ++ one c)) r
      | None => if Ascii.eqb c esc then screen on (Some "") r else let (l, st) := screen on None r in ((c, on) :: l, st)
      end
  end.
Definition shown (l : list (ascii * bool)) : string := string_of_list_ascii (map fst l).

(** A style works: with it on, a reset switches it off again. This holds of ESC sequences, and of empty texts (no terminal). *)
Definition style_works (T : theme) (c : style) : Prop :=
  exists on, screen false None (p_reset (t_base T) ++ set_style c) = ([], (on, None)) /\ screen on None (p_reset (t_base T)) = ([], (false, None)).
Definition theme_works (T : theme) : Prop :=
  Forall (style_works T) [t_keyword T; t_exception T; t_builtin T; t_defname T; t_decorator T; t_string T; t_number T; t_nameconstant T; t_macroname T].

(** No ESC, no line end. *)
Definition fine (s : string) : bool := negb (has_char esc s) && negb (has_char lf s).
Section Clean.
  Variable printable : ascii -> bool.
  (** The text of an expression, or of a pattern: on one line, without ESC. *)
  Definition fine_r (r : res string) : bool := match r with Ok s => fine s | Err _ => true end.
  Definition fine_e (e : expr) : bool := fine_r (unp printable e).
  Definition fine_o (o : option expr) : bool := match o with Some e => fine_e e | None => true end.
  Definition fine_n (o : option string) : bool := match o with Some x => fine x | None => true end.
  Definition fine_alias (a : alias) : bool := match a with Alias x y => fine x && fine_n y end.
  Definition fine_tp (t : type_param) : bool := match t with TypeVar x b => fine x && fine_o b | ParamSpec x | TypeVarTuple x => fine x end.
  Fixpoint clean (s : stmt) : bool :=
    match s with
    | SExpr e => fine_e e
    | SImport l => forallb fine_alias l
    | SImportFrom m l _ => fine_n m && forallb fine_alias l
    | SAssign ts v => forallb fine_e ts && fine_e v
    | SAnnAssign t a v _ => fine_e t && fine_e a && fine_o v
    | SAugAssign t _ v => fine_e t && fine_e v
    | SReturn e => fine_o e
    | SPass | SBreak | SContinue => true
    | SDelete l => forallb fine_e l
    | SAssert t m => fine_e t && fine_o m
    | SGlobal l | SNonlocal l => forallb fine l
    | SRaise e c => fine_o e && fine_o c
    | STry _ b hs o f => forallb clean b && forallb clean_handler hs && forallb clean o && forallb clean f
    | SClass x _ bases kws b ds => fine x && forallb fine_e bases && forallb (fun k => fine_r (unp_kw printable k)) kws && forallb clean b && forallb fine_e ds
    | SFunction _ x _ a b ds r => fine x && fine_r (unp_args printable a) && forallb clean b && forallb fine_e ds && fine_o r
    | SFor _ t it b o => fine_e t && fine_e it && forallb clean b && forallb clean o
    | SIf t b o | SWhile t b o => fine_e t && forallb clean b && forallb clean o
    | SWith _ items b => forallb (fun p => fine_e (fst p) && fine_o (snd p)) items && forallb clean b
    | SMatch e cs => fine_e e && forallb clean_case cs
    | STypeAlias x tps v => fine_e x && forallb fine_tp tps && fine_e v
    end
  with clean_handler (h : handler) : bool := match h with Handler t x b => fine_o t && fine_n x && forallb clean b end
  with clean_case (c : mcase) : bool := match c with Case p g b => fine_r (unp_pattern printable p) && fine_o g && forallb clean b end.
  Definition clean_top (t : top) : bool :=
    match t with TModule l | TStmts l => forallb clean l | TStmt s => clean s | TExpression _ => true | TExpr e => fine_e e end.
End Clean.
