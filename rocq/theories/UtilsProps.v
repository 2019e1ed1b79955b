(** Property theorems about utils.py: C01-C04, C15, C17. *)
From Verif Require Import Base UtilsModel UtilsSpec UtilsProofs.

(** *** C01 *)
Theorem C01_flatten_is_leaf_sequence : forall (M : Type) (lst : list (tree M)),
  flatten lst = erase_brackets (flat_map print lst).
Proof. intros M lst. exact (flatten_print lst). Qed.
Print Assumptions C01_flatten_is_leaf_sequence.

Theorem C01_flatten_exact : forall (M : Type) (lst : list (tree M)) (x : tree M),
  In x (flatten lst) <->
  (is_list x = false /\ is_none x = false /\ exists path, elem_at lst path = Some x).
Proof. intros M lst x. exact (flatten_complete lst x). Qed.
Print Assumptions C01_flatten_exact.

Theorem C01_flatten_idempotent : forall (M : Type) (lst : list (tree M)),
  flatten (flatten lst) = flatten lst.
Proof. intros M lst. exact (flatten_idem lst). Qed.
Print Assumptions C01_flatten_idempotent.

Theorem C01_flatten_one_level : forall (M : Type) (lst : list (tree M)),
  flatten1 lst = concat (map (fun t => match t with
                                       | Ls sub => sub
                                       | _ => if is_none t then [] else [t]
                                       end) lst).
Proof. intros M lst. exact (flatten1_concat lst). Qed.
Print Assumptions C01_flatten_one_level.

Example C01_example :
  let a := At (AInt 1) in let b := Nd tt "Pass" [] in
  flatten [Ls [a; NoneT; Ls [b; Ls []]]; NoneT; b : tree unit] = [a; b; b] /\
  flatten1 [Ls [a; NoneT; Ls [b]]; NoneT; b : tree unit] = [a; NoneT; Ls [b]; b].
Proof. split; reflexivity. Qed.

(** *** C02 *)
Theorem C02_gensym_unique : forall uuids calls st rs st',
  (forall n, wf_uuid (uuids n)) ->
  gensym_history uuids calls st = Some (rs, st') ->
  NoDup (oks rs) /\
  (forall s, In s (oks rs) -> ~ In s (g_prev st)) /\
  Forall2 (fun c r => gensym_result_ok (snd c) r) calls rs.
Proof. intros uuids calls st rs st' Hwf H. exact (gensym_history_spec uuids Hwf calls st rs st' H). Qed.
Print Assumptions C02_gensym_unique.

(** With a uuid source that never repeats, every call returns: after [n] earlier names it needs
    at most [n + 1] draws. *)
Theorem C02_gensym_returns : forall uuids b st fuel,
  (forall n, wf_uuid (uuids n)) -> (forall i j, uuids i = uuids j -> i = j) ->
  List.length (g_prev st) < fuel -> gensym uuids fuel b st <> None.
Proof. intros uuids b st fuel Hwf Hinj Hf. exact (gensym_terminates uuids Hwf Hinj b st fuel Hf). Qed.
Print Assumptions C02_gensym_returns.

(** A source that delivers the same uuid twice in a row: the hypotheses are met, and the second
    call still gets a fresh name. *)
Definition zeros : list ascii := repeat "0"%char 32.
Definition ones : list ascii := repeat "1"%char 32.
Definition colliding_source (n : nat) : list ascii := if Nat.ltb n 2 then zeros else ones.
Example C02_example :
  (forall n, wf_uuid (colliding_source n)) /\
  exists rs st', gensym_history colliding_source [(1, BStr "x"); (5, BStr "x"); (5, BOther)] (mkG [] 0)
    = Some (rs, st') /\
    rs = [Ok ("x_" ++ str_of_list zeros)%string; Ok ("x_" ++ str_of_list ones)%string;
          Err (mkExn "TypeError" [])].
Proof.
  split.
  - intros n. unfold colliding_source. destruct (Nat.ltb n 2).
    + split; [reflexivity|repeat constructor].
    + split; [reflexivity|repeat constructor].
  - eexists. eexists. split; vm_compute; reflexivity.
Qed.

(** *** C03 *)
Theorem C03_scrub_gensym : forall uuids fuel s st r st',
  (forall n, wf_uuid (uuids n)) -> s <> ""%string ->
  gensym uuids fuel (BStr s) st = Some (Ok r, st') ->
  scrub_uuid (list_of_str r) = list_of_str s.
Proof. intros uuids fuel s st r st' Hwf Hs H. exact (scrub_gensym_lemma uuids Hwf fuel s st r st' Hs H). Qed.
Print Assumptions C03_scrub_gensym.

Theorem C03_scrub_removes_one_suffix : forall s p u,
  has_uuid_suffix s p u -> scrub_uuid s = p.
Proof. intros s p u H. exact (scrub_yes s p u H). Qed.
Print Assumptions C03_scrub_removes_one_suffix.

Theorem C03_scrub_else_unchanged : forall s,
  (forall p u, ~ has_uuid_suffix s p u) -> scrub_uuid s = s.
Proof. intros s H. exact (scrub_no s H). Qed.
Print Assumptions C03_scrub_else_unchanged.

(** Scrubbing a gensym of a gensym-like basename removes only the outer uuid. *)
Example C03_example :
  let b := ("a_" ++ str_of_list zeros)%string in
  scrub_uuid (list_of_str (b ++ "_" ++ str_of_list ones)%string) = list_of_str b /\
  scrub_uuid (list_of_str "some_name") = list_of_str "some_name".
Proof. split; vm_compute; reflexivity. Qed.

(** *** C04 *)
(** Refinement to lexical scoping: same observations, same outcome, same stack afterwards. *)
Theorem C04_tracker_lexical : forall p level rest env log,
  run p (mkT (level :: rest) env log) =
  (let r := sem p level (mkS env log) in
   (mkT (level :: rest) (s_env (fst r)) (s_log (fst r)), snd r)).
Proof. intros p level rest env log. exact (tracker_refines p level rest env log). Qed.
Print Assumptions C04_tracker_lexical.

Theorem C04_levels_never_negative : forall p level,
  (0 <= level)%Z ->
  Forall (fun v => (0 <= v)%Z) (t_log (fst (run p (mkT [level] [] [])))).
Proof.
  intros p level H. rewrite tracker_refines. cbn [fst t_log].
  exact (proj2 (sem_nonneg p level [] [] H (Forall_nil _) (Forall_nil _))).
Qed.
Print Assumptions C04_levels_never_negative.

(** A negative request raises ValueError and leaves level and log alone. *)
Theorem C04_negative_rejected : forall c p level rest env log,
  match c with SetTo v => (v < 0)%Z | ChangedBy d => (level + d < 0)%Z | SetToBad => False end ->
  run (LetCm c p) (mkT (level :: rest) env log) = (mkT (level :: rest) env log, Raised "ValueError").
Proof.
  intros c p level rest env log H. rewrite tracker_refines.
  destruct c as [v|d|]; [| |destruct H]; cbn [sem];
    match goal with |- context [(?x <? 0)%Z] => destruct (Z.ltb_spec x 0) as [_|Hx]; [reflexivity|lia] end.
Qed.
Print Assumptions C04_negative_rejected.

(** with t.changed_by(+21): (raise inside a nested set_to(5), caught); read; afterwards read. *)
Example C04_example :
  let body := LetCm (ChangedBy 21) (WithVar 0
                (Seq (TryExcept (LetCm (SetTo 5) (WithVar 0 (Seq Read (Raise "boom")))) Skip) Read)) in
  run (Seq body Read) (mkT [0%Z] [] []) = (mkT [0%Z] [] [0; 21; 5]%Z, Normal).
Proof. reflexivity. Qed.

(** *** C15 *)
Theorem C15_extract_bindings_exact : forall b fs,
  sublist (extract_bindings b fs) b /\
  (forall n f, In (n, f) (extract_bindings b fs) <-> In (n, f) b /\ In f fs).
Proof. intros b fs. split; [exact (filter_sublist _ b)|exact (extract_in b fs)]. Qed.
Print Assumptions C15_extract_bindings_exact.

Example C15_example :
  extract_bindings [("a", 1); ("b", 2); ("c", 1)]%string [1; 7] = [("a", 1); ("c", 1)]%string.
Proof. reflexivity. Qed.

(** *** C17 *)
(** What holds: a docstring in Python's sense is returned, and a returned string is a docstring in
    Python's sense (unless the deprecated node type ast.Str is used). *)
Theorem C17_getdocstring_partial : forall (M : Type) (body : list (tree M)) (s : string),
  (is_docstring_of body s -> getdocstring (Ls body) = Ok (At (AStr s))) /\
  ((forall m fs m' fs' rest, body = Nd m "Expr" fs :: rest ->
      getf "value" fs <> Some (Nd m' "Str" fs')) ->
   getdocstring (Ls body) = Ok (At (AStr s)) -> is_docstring_of body s).
Proof.
  intros M body s. split; [exact (getdocstring_complete body s)|].
  intros H1 H2. exact (getdocstring_sound body s H2 H1).
Qed.
Print Assumptions C17_getdocstring_partial.

(** Missing: the return value is None when there is no docstring. False: a module that starts with
    the expression statement 42 yields 42. *)
Theorem C17_getdocstring_refuted : exists (body : list (tree unit)) (v : tree unit),
  (forall s, ~ is_docstring_of body s) /\ getdocstring (Ls body) = Ok v /\ v <> NoneT.
Proof.
  exists [Nd tt "Expr" [("value", Nd tt "Constant" [("value", At (AInt 42))])]]%string, (At (AInt 42)).
  split; [|split; [reflexivity|discriminate]].
  intros s [m [fs [m' [fs' [rest [E [H1 H2]]]]]]].
  inversion E; subst. simpl in H1. inversion H1; subst. simpl in H2. discriminate.
Qed.
Print Assumptions C17_getdocstring_refuted.
Example C17_example :
  is_docstring_of [Nd tt "Expr" [("value", Nd tt "Constant" [("value", At (AStr "doc"))])]]%string "doc".
Proof. do 5 eexists; repeat split. Qed.
