(** What the code made by stepr and fill_location does when it is run. *)
From Verif Require Import Base AstLib UtilsModel FixLocModel MarkersModel QuoteModel HygieneModel ExpanderModel CollectorModel NestModel MetaModel StepModel RuntimeModel RuntimeSpec.

Section Run.
  Variable loads : string -> option nat.
  (** The expander for a file (at run time); evaluation of the other expressions. *)
  Variables (E : string -> env nat) (ev : pv -> res pv).
  (** Running the call [c] of [step_expansion], with a new expander, shows the trees [shown] and gives the tree [r], or raises. *)
  Definition runs_steps (c : pv) (r : xres ltree) (shown : list ltree) : Prop :=
    exists ks vs b f tc v ac args syn n k s,
      c = p_call (p_attr (p_attr (p_name "mcpyrate") "metatools") "step_expansion") [tc]
            [p_kw "args" ac; p_kw "syntax" (p_const (str syn));
             p_kw "expander" (p_call (p_attr (p_attr (p_name "mcpyrate") "metatools") "MacroExpander") []
               [p_kw "bindings" (nd "Dict" [("keys"%string, PL ks); ("values"%string, PL vs)]); p_kw "filename" (p_const (str f))])] /\
      dict_of loads ks vs b /\ ev tc = Ok v /\ ev ac = Ok (PL args) /\
      step_expansion (E f) n k syn (map of_pv args) (of_pv v) (mkSt b true 0 []) = Some (r, shown, s).

  Variable has_attr : string -> string -> bool.
  (** Running the call [c] of [fix_locations], with a new node [ast.Constant(..., lineno=l, col_offset=k)] as the reference. *)
  Definition runs_fill (c : pv) (r : res ltree) : Prop :=
    exists tc v value kind l k,
      c = p_call (p_attr (p_attr (p_name "mcpyrate") "metatools") "fix_locations")
            [tc; p_call (p_attr (p_attr (p_attr (p_name "mcpyrate") "quotes") "ast") "Constant") []
                   [p_kw "value" (p_const value); p_kw "kind" (p_const kind); p_kw "lineno" (p_const (PA (AInt l))); p_kw "col_offset" (p_const (PA (AInt k)))]]
            [p_kw "mode" (p_const (str "reference"))] /\
      ev tc = Ok v /\ r = fix_locations has_attr MReference (of_pv v) (mkLoc (Some l) (Some k) None None).
End Run.
