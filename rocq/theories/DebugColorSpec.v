(** Which trees the theorems about colors in debug mode cover. *)
From Verif Require Import Base Dict ShowModel UnparseModel DumpSpec ColorModel ColorSpec DebugModel DebugColorModel.
Open Scope string_scope.

Definition dtheme_works (D : dtheme) : Prop := theme_works (d_theme D) /\ Forall (style_works (d_theme D)) [t_linenumber D; t_invisible D; t_marker D].
Section Clean.
  Variable printable : ascii -> bool.
  (** As in ColorSpec.v, for the texts in debug mode. *)
  Definition dfine_e (e : expr) : bool := fine_r (dunp printable e).
  Definition dfine_o (o : option expr) : bool := match o with Some e => dfine_e e | None => true end.
  Definition dfine_tp (t : type_param) : bool := match t with TypeVar x b => fine x && dfine_o b | ParamSpec x | TypeVarTuple x => fine x end.
  Fixpoint dclean (s : stmt) : bool :=
    match s with
    | SExpr e => dfine_e e
    | SImport l => forallb fine_alias l
    | SImportFrom m l _ => fine_n m && forallb fine_alias l
    | SAssign ts v => forallb dfine_e ts && dfine_e v
    | SAnnAssign t a v _ => dfine_e t && dfine_e a && dfine_o v
    | SAugAssign t _ v => dfine_e t && dfine_e v
    | SReturn e => dfine_o e
    | SPass | SBreak | SContinue => true
    | SDelete l => forallb dfine_e l
    | SAssert t m => dfine_e t && dfine_o m
    | SGlobal l | SNonlocal l => forallb fine l
    | SRaise e c => dfine_o e && dfine_o c
    | STry _ b hs o f => forallb dclean b && forallb dclean_handler hs && forallb dclean o && forallb dclean f
    | SClass x _ bases kws b ds => fine x && forallb dfine_e bases && forallb (fun k => fine_r (dunp_kw printable k)) kws && forallb dclean b && forallb dfine_e ds
    | SFunction _ x _ a b ds r => fine x && fine_r (dunp_args printable a) && forallb dclean b && forallb dfine_e ds && dfine_o r
    | SFor _ t it b o => dfine_e t && dfine_e it && forallb dclean b && forallb dclean o
    | SIf t b o | SWhile t b o => dfine_e t && forallb dclean b && forallb dclean o
    | SWith _ items b => forallb (fun p => dfine_e (fst p) && dfine_o (snd p)) items && forallb dclean b
    | SMatch e cs => dfine_e e && forallb dclean_case cs
    | STypeAlias x tps v => dfine_e x && forallb dfine_tp tps && dfine_e v
    end
  with dclean_handler (h : handler) : bool := match h with Handler t x b => dfine_o t && fine_n x && forallb dclean b end
  with dclean_case (c : mcase) : bool := match c with Case p g b => fine_r (dunp_pattern printable p) && dfine_o g && forallb dclean b end.
  Definition dclean_top (t : top) : bool :=
    match t with TModule l | TStmts l => forallb dclean l | TStmt s => dclean s | TExpression _ => true | TExpr e => dfine_e e end.
End Clean.
