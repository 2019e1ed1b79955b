(** Specification of the dialect expander. *)
From Verif Require Import Base AstLib FixLocModel ExpanderModel Dict ImportsModel DialectModel.

(** [from ... import dialects, ...] *)
Definition dialect_import (t : ltree) (i : imp) : Prop :=
  view_import t = Some i /\ exists rest, i_names i = ("dialects"%string, None) :: rest.
(** Any other statement. *)
Definition plain_stmt (t : ltree) : Prop :=
  view_import t = None \/ exists i x a rest, view_import t = Some i /\ i_names i = (x, a) :: rest /\ (x <> "dialects"%string \/ a <> None).
(** The dialect-imports of a program, in order. *)
Inductive imports_of : list ltree -> list imp -> Prop :=
| io_nil : imports_of [] []
| io_plain t r is_ : plain_stmt t -> imports_of r is_ -> imports_of (t :: r) is_
| io_import t i r is_ : dialect_import t i -> imports_of r is_ -> imports_of (t :: r) (i :: is_).

Section Spec.
  Context {W Ob In_ C : Type}.
  Variable is_dialect : Ob -> bool.
  Variable instantiate : Ob -> W -> res In_ * W.
  Variable transform : In_ -> option (C -> W -> res (tresult C) * W).
  (** The dialects of one import: each is instantiated and given the program in turn. *)
  Inductive applying : list (string * Ob) -> C -> W -> list In_ -> C -> W -> Prop :=
  | ap_nil c w : applying [] c w [] c w
  | ap_unchanged x cls d f bs c w w1 w2 ds c' w' : is_dialect cls = true -> instantiate cls w = (Ok d, w1) -> transform d = Some f ->
      f c w1 = (Ok TNotImplemented, w2) -> applying bs c w2 ds c' w' -> applying ((x, cls) :: bs) c w (d :: ds) c' w'
  | ap_changed x cls d f bs c c1 w w1 w2 ds c' w' : is_dialect cls = true -> instantiate cls w = (Ok d, w1) -> transform d = Some f ->
      f c w1 = (Ok (TContent c1), w2) -> applying bs c1 w2 ds c' w' -> applying ((x, cls) :: bs) c w (d :: ds) c' w'.
  (** The postprocessors, in order. *)
  Inductive postprocessed (post : In_ -> option (C -> W -> res (tresult C) * W)) : list In_ -> C -> W -> C -> W -> Prop :=
  | pp_nil c w : postprocessed post [] c w c w
  | pp_unchanged d f ds c w w1 c' w' : post d = Some f -> f c w = (Ok TNotImplemented, w1) ->
      postprocessed post ds c w1 c' w' -> postprocessed post (d :: ds) c w c' w'
  | pp_changed d f ds c c1 w w1 c' w' : post d = Some f -> f c w = (Ok (TContent c1), w1) ->
      postprocessed post ds c1 w1 c' w' -> postprocessed post (d :: ds) c w c' w'.
End Spec.

Section SpecAst.
  Context {W Ob In_ : Type}.
  Variable is_dialect : Ob -> bool.
  Variable instantiate : Ob -> W -> res In_ * W.
  Variable transform : In_ -> option (list ltree -> W -> res (tresult (list ltree)) * W).
  Variable load : imp -> W -> res (option string * list (string * Ob)) * W.
  (** [dialects_run body w is ds body' w']: as long as there is a dialect-import in the program as it is now, the first one is
      loaded and replaced by an [import] of its module, and its dialects are applied. [is]: the imports in the order of
      loading, [ds]: the dialect objects in the order of their creation. *)
  Inductive dialects_run : list ltree -> W -> list imp -> list In_ -> list ltree -> W -> Prop :=
  | dr_done body w : Forall plain_stmt body -> dialects_run body w [] [] body w
  | dr_step pre t i post w absname bs w1 ds1 c w2 is_ ds body' w' : Forall plain_stmt pre -> dialect_import t i ->
      load i w = (Ok (absname, bs), w1) ->
      applying is_dialect instantiate transform bs (pre ++ plain_import (loc_of t) absname :: post) w1 ds1 c w2 ->
      dialects_run c w2 is_ ds body' w' -> dialects_run (pre ++ t :: post) w (i :: is_) (ds1 ++ ds) body' w'.
End SpecAst.
