(** C14: rename. *)
From Verif Require Import Base AstLib UtilsModel MarkersModel RenameModel RenameSpec RenameProofs.

Definition replace (old new s : string) : string := if String.eqb s old then new else s.

(** Sample: [def f(x): global x; return g(x, k="x")]. *)
Definition nm (s : string) : tree unit := Nd tt "Name" [("id", At (AStr s))]%string.
Definition sample : tree unit :=
  Nd tt "FunctionDef"
    [("name", At (AStr "f"));
     ("args", Nd tt "arguments" [("args", Ls [Nd tt "arg" [("arg", At (AStr "x"))]])]);
     ("body", Ls [Nd tt "Global" [("names", Ls [At (AStr "x"); At (AStr "y")])];
                  Nd tt "Return" [("value",
                    Nd tt "Call" [("func", nm "g"); ("args", Ls [nm "x"]);
                                  ("keywords", Ls [Nd tt "keyword"
                                     [("arg", At (AStr "k")); ("value", Nd tt "Constant" [("value", At (AStr "x"))])]])])]])]%string.

Section Theorems.
  Context {M : Type}.

  (** Exactly the strings at the name positions that equal [old] become [new]; nothing else in the
      tree changes. *)
  Theorem C14_rename_exact (old new : string) (t : tree M) :
    wf t = true -> shaped t = true -> is_node t = true ->
    rename old new t = Ok (map_names name_positions (replace old new) t).
  Proof. intros; apply rename_node; assumption. Qed.

  Theorem C14_rename_list (old new : string) (l : list (tree M)) :
    wf (Ls l) = true -> shaped (Ls l) = true -> forallb is_node l = true ->
    rename old new (Ls l) = Ok (Ls (map (map_names name_positions (replace old new)) l)).
  Proof. intros; apply rename_list; assumption. Qed.

  (** The names of the result are the names of the input, in order, with [old] replaced; in
      particular [old] is gone. *)
  Theorem C14_rename_names (old new : string) (t : tree M) :
    wf t = true -> shaped t = true -> is_node t = true -> old <> new ->
    exists t', rename old new t = Ok t' /\
      names_in name_positions t' = map (replace old new) (names_in name_positions t) /\
      ~ In old (names_in name_positions t').
  Proof.
    intros Hw Hs Hn Hne. eexists. split; [apply rename_node; assumption|].
    assert (E : names_in name_positions (map_names name_positions (sub old new) t)
                = map (replace old new) (names_in name_positions t)) by apply names_in_mn.
    split; [exact E|]. rewrite E. intros H. apply in_map_iff in H. destruct H as [s [Hr _]].
    unfold replace in Hr. destruct (String.eqb s old) eqn:Eq; [congruence|].
    subst s. rewrite String.eqb_refl in Eq. discriminate.
  Qed.

  (** A name that does not occur: nothing happens. *)
  Theorem C14_rename_absent (old new : string) (t : tree M) :
    wf t = true -> shaped t = true -> is_node t = true ->
    ~ In old (names_in name_positions t) -> rename old new t = Ok t.
  Proof.
    intros Hw Hs Hn Ha. rewrite rename_node by assumption. f_equal. apply mn_ext_id.
    intros s Hin. unfold sub. destruct (String.eqb s old) eqn:E; [|reflexivity].
    apply String.eqb_eq in E; subst; contradiction.
  Qed.

  (** Renaming to a fresh name loses nothing: renaming back gives the original tree. *)
  Theorem C14_rename_back (old new : string) (t : tree M) :
    wf t = true -> shaped t = true -> is_node t = true ->
    ~ In new (names_in name_positions t) ->
    exists t', rename old new t = Ok t' /\ rename new old t' = Ok t.
  Proof.
    intros Hw Hs Hn Ha. eexists. split; [apply rename_node; assumption|].
    rewrite rename_node.
    - f_equal. rewrite mn_comp. apply mn_ext_id. intros s Hin. unfold sub.
      destruct (String.eqb s old) eqn:E.
      + rewrite String.eqb_refl. apply String.eqb_eq in E. congruence.
      + destruct (String.eqb s new) eqn:E2; [|reflexivity]. apply String.eqb_eq in E2; subst; contradiction.
    - rewrite wf_mn; assumption.
    - rewrite shaped_mn; assumption.
    - rewrite is_node_mn; assumption.
  Qed.
End Theorems.

Example sample_ok : wf sample = true /\ shaped sample = true /\ is_node sample = true
  /\ names_in name_positions sample = ["f"; "x"; "x"; "y"; "g"; "x"; "k"]%string.
Proof. repeat split; reflexivity. Qed.
Example sample_renamed : rename "x" "z" sample = Ok
  (Nd tt "FunctionDef"
    [("name", At (AStr "f"));
     ("args", Nd tt "arguments" [("args", Ls [Nd tt "arg" [("arg", At (AStr "z"))]])]);
     ("body", Ls [Nd tt "Global" [("names", Ls [At (AStr "z"); At (AStr "y")])];
                  Nd tt "Return" [("value",
                    Nd tt "Call" [("func", nm "g"); ("args", Ls [nm "z"]);
                                  ("keywords", Ls [Nd tt "keyword"
                                     [("arg", At (AStr "k")); ("value", Nd tt "Constant" [("value", At (AStr "x"))])]])])]])])%string.
Proof. reflexivity. Qed.

(** The documentation says that [rename] covers all places in the AST where names occur. Some
    identifiers of the grammar are missed: [case {**rest}], [case C(kw=...)] and the parameters of
    generic functions (here: [match d: case {**rest}: rest]). *)
Theorem C14_all_places_refuted :
  exists (old new : string) (t t' : tree unit),
    wf t = true /\ shaped t = true /\ is_node t = true /\ old <> new /\
    rename old new t = Ok t' /\ In old (names_in grammar_identifier_positions t').
Proof.
  exists "rest"%string, "z"%string,
    (Nd tt "Match" [("subject", nm "d");
       ("cases", Ls [Nd tt "match_case"
          [("pattern", Nd tt "MatchMapping" [("keys", Ls []); ("patterns", Ls []); ("rest", At (AStr "rest"))]);
           ("guard", NoneT);
           ("body", Ls [Nd tt "Expr" [("value", nm "rest")]])]])])%string.
  eexists. repeat split; try reflexivity; try discriminate. simpl. auto.
Qed.

Print Assumptions C14_rename_exact.
Print Assumptions C14_rename_list.
Print Assumptions C14_rename_names.
Print Assumptions C14_rename_absent.
Print Assumptions C14_rename_back.
Print Assumptions C14_all_places_refuted.
