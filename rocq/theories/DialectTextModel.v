(** The search for dialect-imports in source text, with the line number that it gives to the dialect. *)
From Verif Require Import Base AstLib FixLocModel ExpanderModel Dict ImportsModel DialectModel.

(** [_dialectimport.finditer(text)] (dialects.py:167, 375), as DialectModel.finditer, with [match.start()]. [pos]: the number of characters before [s]. *)
Fixpoint spans_ (bol : bool) (pos skip : nat) (s : list ascii) : list (nat * list ascii) :=
  match s with
  | [] => []
  | c :: r =>
      match skip with
      | S k => spans_ (Ascii.eqb c nl) (S pos) k r
      | O => match (if bol then match_at s else None) with
             | Some rest => let len := length s - length rest in (pos, firstn len s) :: spans_ (Ascii.eqb c nl) (S pos) (pred len) r
             | None => spans_ (Ascii.eqb c nl) (S pos) 0 r
             end
      end
  end.
Definition spans (text : list ascii) : list (nat * list ascii) := spans_ true 0 0 text.
(** [s.count("\n")]. *)
Fixpoint count_nl (s : list ascii) : nat := match s with [] => 0 | c :: r => (if Ascii.eqb c nl then 1 else 0) + count_nl r end.
(** dialects.py:375-386: the first statement that is not in [self._seen], and its line. The column is always 0 (383). Adding it to [self._seen]
    (381) is in DialectModel.find_source. *)
Fixpoint source_import_ (text : list ascii) (sn : list (list ascii)) (ms : list (nat * list ascii)) : option (list ascii * nat) :=
  match ms with
  | [] => None
  | (start, m) :: r => if existsb (ascii_list_eqb (strip m)) sn then source_import_ text sn r else Some (strip m, 1 + count_nl (firstn start text))
  end.
Definition source_import (sn : list (list ascii)) (text : list ascii) : option (list ascii * nat) := source_import_ text sn (spans text).
