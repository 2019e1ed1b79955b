(** Theorems about macro-imports (find_macros). *)
From Verif Require Import Base AstLib FixLocModel ExpanderModel ExpanderSpec Dict ImportsModel ImportsSpec ImportsProofs.

Lemma alias_read t a : view_alias t = Some a <-> alias_node t a.
Proof.
  split.
  - destruct t as [m k fs| |]; try discriminate. intros H. assert (Hk : k = "alias"%string).
    { destruct (String.eqb_spec k "alias"); [assumption|exfalso]. revert H n. clear. unfold view_alias.
      repeat match goal with |- context [match ?x with _ => _ end] => destruct x; try discriminate end; congruence. }
    subst k. cbn [view_alias] in H. destruct (getf "name" fs) as [[| |[]]|] eqn:E1; try discriminate.
    destruct (getf "asname" fs) as [[| |[]]|] eqn:E2; try discriminate; inversion H; subst; econstructor; eauto.
  - intros [m fs x y H1 H2|m fs x H1 H2]; cbn [view_alias]; rewrite H1, H2; reflexivity.
Qed.
Lemma aliases_read l : forall ns, view_aliases l = Some ns <-> Forall2 alias_node l ns.
Proof.
  induction l as [|t l IH]; intros ns; cbn [view_aliases].
  - split; [intros H; inversion H; constructor|intros H; inversion H; reflexivity].
  - split.
    + destruct (view_alias t) as [a|] eqn:E1; [|discriminate]. destruct (view_aliases l) as [r|] eqn:E2; [|discriminate]. intros H. inversion H. subst.
      constructor; [apply alias_read, E1|apply IH; reflexivity].
    + intros H. inversion H as [|? a ? r H1 H2]; subst. apply alias_read in H1. apply IH in H2. rewrite H1, H2. reflexivity.
Qed.
(** C21. What counts as an import statement with which names: exactly the nodes that Python's parser makes for [from ... import ...]. *)
Theorem C21_statements_read t i : view_import t = Some i <-> import_from t i.
Proof.
  split.
  - destruct t as [m k fs| |]; try discriminate. intros H. assert (Hk : k = "ImportFrom"%string).
    { destruct (String.eqb_spec k "ImportFrom"); [assumption|exfalso]. revert H n. clear. unfold view_import.
      repeat match goal with |- context [match ?x with _ => _ end] => destruct x; try discriminate end; congruence. }
    subst k. cbn [view_import] in H. destruct (getf "module" fs) as [mt|] eqn:E1; [|discriminate]. destruct (getf "names" fs) as [[|names|]|] eqn:E2; try discriminate.
    destruct (getf "level" fs) as [lt|] eqn:E3; [|discriminate].
    destruct (match mt with At (AStr s) => Some (Some s) | At ANone => Some None | _ => None end) as [md|] eqn:F1; [|discriminate].
    destruct (view_aliases names) as [ns|] eqn:F2; [|discriminate]. apply aliases_read in F2.
    destruct (match lt with At (AInt z) => Some (Z.to_nat z) | At ANone => Some 0 | _ => None end) as [lv|] eqn:F3; [|discriminate]. inversion H. subst.
    destruct lt as [| |a]; try discriminate. apply (import_from_node m fs names (match a with AInt z => z | _ => 0%Z end) a); cbn [i_module i_names i_level].
    + rewrite E1. destruct mt as [| |[]]; try discriminate; inversion F1; reflexivity.
    + exact E2.
    + exact F2.
    + exact E3.
    + destruct a; try discriminate; inversion F3; auto.
  - intros [m fs names l lv j H1 H2 H3 H4 H5]. cbn [view_import]. rewrite H1, H2, H4. apply aliases_read in H3. rewrite H3. destruct j as [md ns n]. cbn [i_module i_names i_level] in *.
    destruct md; destruct H5 as [[-> ->]|[-> ->]]; reflexivity.
Qed.
Print Assumptions C21_statements_read.
Example C21_statement_example :
  import_from (Nd noloc "ImportFrom" [("module"%string, At (AStr "m")); ("names"%string, Ls [Nd noloc "alias" [("name"%string, At (AStr "macros")); ("asname"%string, At ANone)]]); ("level"%string, At (AInt 2))])
              (mkImp (Some "m"%string) [("macros"%string, None)] 2).
Proof. apply C21_statements_read. reflexivity. Qed.

(** C21. When find_macros returns: every macro-import loaded its module, and the module gave a callable for every name; a
    looked-up name gives what the last import of it (in the order of the text) imported, and names that were not imported
    are not bound; the statements of the body are, in order, the old ones, with each macro-import replaced as [replaced]
    says. *)
Theorem C21_find_macros_exact {W Ob} (P : world W Ob) ispy self transform text body w d body' w' :
  find_macros P ispy self transform text body w = (Ok d, body', w') ->
  exists ps, imports P ispy self transform text w body ps body' w' /\ forall x v, sget x d = Some v <-> last_bound x v ps.
Proof. apply find_macros_ok. Qed.
Print Assumptions C21_find_macros_exact.

(** It returns whenever all modules load and have the names. *)
Theorem C21_find_macros_returns {W Ob} (P : world W Ob) ispy self transform text body w ps body' w' :
  imports P ispy self transform text w body ps body' w' ->
  exists d, find_macros P ispy self transform text body w = (Ok d, body', w') /\ forall x v, sget x d = Some v <-> last_bound x v ps.
Proof. apply find_macros_returns. Qed.
Print Assumptions C21_find_macros_returns.

(** Running it on the result finds nothing, changes nothing, and imports nothing: in any process, with any options. *)
Theorem C21_again_finds_nothing {W Ob} (P : world W Ob) ispy self text body w d body' w' :
  find_macros P ispy self true text body w = (Ok d, body', w') ->
  forall W2 Ob2 (P2 : world W2 Ob2) ispy2 self2 transform2 text2 w2, find_macros P2 ispy2 self2 transform2 text2 body' w2 = (Ok [], body', w2).
Proof.
  intros H W2 Ob2 P2 ispy2 self2 transform2 text2 w2. apply find_macros_ok in H. destruct H as [ps [Hi _]]. apply (imports_clean P ispy self true text _ _ _ _ _ eq_refl) in Hi.
  destruct (find_macros_returns P2 ispy2 self2 transform2 text2 body' w2 [] body' w2 (no_imports P2 ispy2 self2 transform2 text2 _ _ Hi)) as [[|[x v] d2] [Hf Hd]]; [exact Hf|].
  exfalso. assert (last_bound x v []) as [a [c [Hx _]]] by (apply Hd; cbn; rewrite String.eqb_refl; reflexivity). destruct a; discriminate.
Qed.
Print Assumptions C21_again_finds_nothing.

(** With [transform=False] the body is left as it is. *)
Theorem C21_untransformed_body {W Ob} (P : world W Ob) ispy self text body w d body' w' :
  find_macros P ispy self false text body w = (Ok d, body', w') -> body' = body.
Proof.
  intros H. apply find_macros_ok in H. destruct H as [ps [Hi _]].
  induction Hi as [|w t r ps out w' Ho Hi IH|w t i rest w1 o absname ps1 out1 r ps out w' Hm Hl Hn Hr Hi IH]; [reflexivity|f_equal; exact IH|].
  inversion Hr; subst; try discriminate; cbn; f_equal; exact IH.
Qed.
Print Assumptions C21_untransformed_body.

(** A failure: no bindings are returned; the failing statement is the first one that cannot be used; it and what follows it are
    still there; what precedes it has been treated as in the case of success (self-macro-imports without a location are
    still there, since they are only deleted at the end). *)
Theorem C21_failure {W Ob} (P : world W Ob) ispy self transform text body w e body' w' :
  find_macros P ispy self transform text body w = (Err e, body', w') ->
  exists p t q ps out w1 marks, body = p ++ t :: q /\ imports P ispy self transform text w p ps out w1 /\ unusable P ispy self transform t w1 /\
    body' = map snd marks ++ t :: q /\ out = map snd (filter (fun p => negb (fst p)) marks) /\
    (forall x, In (true, x) marks -> exists i rest, macro_import x i rest).
Proof. apply find_macros_err. Qed.
Print Assumptions C21_failure.

(** Objects: strings (a module is its name; an attribute is "module.name"); the state is the list of modules imported so far. *)
Definition toy : world (list string) string :=
  mkWorld (fun _ => Ok "pkg"%string)
          (fun lv m p => match lv, p with O, _ => Ok m | _, Some q => Ok (q ++ "." ++ m)%string | _, None => Err (err "ImportError") end)
          (fun n w => if String.eqb n "missing" then (Err (err "ModuleNotFoundError"), w) else (Ok n, w ++ [n]))
          (fun _ _ => Some "self"%string)
          (fun _ m x => if String.eqb x "nope" then Err (err "AttributeError") else Ok (m ++ "." ++ x)%string)
          (fun _ => true).
Definition at_ (n : Z) : loc := mkLoc (Some n) (Some 0%Z) (Some n) (Some 9%Z).
Definition imp_alias (x : string) (a : option string) : ltree := Nd noloc "alias" [("name"%string, At (AStr x)); ("asname"%string, At (match a with Some y => AStr y | None => ANone end))].
Definition imp_from (n : Z) (m : string) (lv : Z) (l : list (string * option string)) : ltree :=
  Nd (at_ n) "ImportFrom" [("module"%string, At (AStr m)); ("names"%string, Ls (map (fun p => imp_alias (fst p) (snd p)) l)); ("level"%string, At (AInt lv))].
Definition pass_at (n : Z) : ltree := Nd (at_ n) "Pass" [].
(** from a import macros, f, g as h; pass; from .b import macros, k as f; from c import x, y *)
Definition ex_body : list ltree :=
  [imp_from 1 "a" 0 [("macros"%string, None); ("f"%string, None); ("g"%string, Some "h"%string)]; pass_at 2;
   imp_from 3 "b" 1 [("macros"%string, None); ("k"%string, Some "f"%string)]; imp_from 4 "c" 0 [("x"%string, None); ("y"%string, None)]].
Example C21_example :
  let '(r, body', w') := find_macros toy true None true (fun _ => ""%string) ex_body [] in
  (exists d, r = Ok d /\ sget "f" d = Some "pkg.b.k"%string /\ sget "h" d = Some "a.g"%string /\ sget "g" d = None /\ sget "macros" d = None /\ sget "x" d = None) /\
  body' = [plain_import (at_ 1) (Some "a"%string); pass_at 2; plain_import (at_ 3) (Some "pkg.b"%string); imp_from 4 "c" 0 [("x"%string, None); ("y"%string, None)]] /\
  w' = ["a"%string; "pkg.b"%string].
Proof. vm_compute. split; [eexists; repeat split; reflexivity|split; reflexivity]. Qed.
(** The third import fails: the first is already replaced, the rest is left. *)
Example C21_example_failure :
  exists e w', find_macros toy true None true (fun _ => ""%string) (firstn 2 ex_body ++ [imp_from 5 "d" 0 [("macros"%string, None); ("nope"%string, None)]] ++ skipn 2 ex_body) []
  = (Err e, [plain_import (at_ 1) (Some "a"%string); pass_at 2; imp_from 5 "d" 0 [("macros"%string, None); ("nope"%string, None)]] ++ skipn 2 ex_body, w').
Proof. eexists _, _. vm_compute. reflexivity. Qed.
(** A self-macro-import becomes a coverage dummy, or disappears if it has no location. *)
Example C21_example_self :
  exists d, find_macros toy true (Some "me"%string) true (fun _ => "text"%string) [imp_from 1 "__self__" 0 [("macros"%string, None); ("f"%string, None)]; pass_at 2; Nd noloc "ImportFrom" (match imp_from 1 "__self__" 0 [("macros"%string, None); ("g"%string, None)] with Nd _ _ fs => fs | _ => [] end)] []
  = (Ok d, [done (dummy_stmt "text" (at_ 1)); pass_at 2], []) /\ sget "g" d = Some "self.g"%string.
Proof. eexists. vm_compute. split; reflexivity. Qed.
