(** What the code made by expandr and its relatives does when it is run. *)
From Verif Require Import Base AstLib UtilsModel FixLocModel MarkersModel QuoteModel HygieneModel ExpanderModel NestModel MetaModel RuntimeModel.

Section Run.
  (** [pickle.loads], for macro functions. *)
  Variable loads : string -> option nat.
  (** The dict display with these keys and values gives the bindings [b]: each value is the unpickled macro function; no key occurs twice. *)
  Inductive dict_of : list pv -> list pv -> binds -> Prop :=
  | do_nil : dict_of [] [] []
  | do_cons x y s i ks vs b : loads s = Some i -> ~ In x (map fst b) -> dict_of ks vs b -> dict_of (p_const (str x) :: ks) (lookup_value_ast y s :: vs) ((x, i) :: b).
  (** The expander for a file (at run time); evaluation of the other expressions. *)
  Variables (E : string -> env nat) (ev : pv -> res pv).
  (** Running the call [c] of [runtime_expand] or [runtime_expand1] gives the tree [r], or raises. *)
  Definition runs_to (c : pv) (r : xres ltree) : Prop :=
    exists once ks vs b f tc v n,
      c = p_call (p_attr (p_attr (p_name "mcpyrate") "metatools") (if once : bool then "runtime_expand1" else "runtime_expand")%string) []
            [p_kw "bindings" (nd "Dict" [("keys"%string, PL ks); ("values"%string, PL vs)]); p_kw "filename" (p_const (str f)); p_kw "tree" tc] /\
      dict_of ks vs b /\ ev tc = Ok v /\ runtime_expand (E f) n once b (of_pv v) = Some r.
End Run.

(** What an expander with the bindings [b] makes of [t]: all layers of macros, or one layer ([once]), without the mark that [visit_once] puts on its result. *)
Definition expands (E : env nat) (once : bool) (b : binds) (t : ltree) (r : xres ltree) : Prop :=
  exists n s, if once then visit_once E n t (mkSt b true 0 []) = Some (match r with XOk u => XOk (Nd noloc "Done" [("body"%string, u)]) | XRaise e => XRaise e end, s)
              else visit_recursively E n t (mkSt b true 0 []) = Some (r, s).
