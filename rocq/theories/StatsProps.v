(** C37: the modification time accounts for the dependencies. C38: the import statement cache does not matter. C39: termination. *)
From Verif Require Import Base AstLib FixLocModel ExpanderModel Dict ImportsModel PhaseModel DialectModel StatsModel StatsSpec StatsProofs.

Lemma good_nil E fs : good E fs []. Proof. intros q x H. discriminate. Qed.

(** Whatever the dependency graph, if there is a result, it is the newest modification time of all files reachable through macro-imports and
    dialect-imports, including those in [with phase] blocks. *)
Theorem C37_mtime_is_newest : forall E fs n p c x c', coherent fs c -> path_stats E fs n p c = Some (Ok x, c') -> newest E fs p x.
Proof.
  intros E fs n p c x c' Hc H. unfold path_stats in H. destruct (path_stats_ E fs n p [] c) as [[[r m] c1]|] eqn:Ep; [|discriminate]. injection H as -> <-.
  destruct (path_stats_ok E fs n _ _ _ _ _ _ Hc (good_nil E fs) Ep) as (_ & _ & H). exact (proj1 (H x eq_refl)).
Qed.
Print Assumptions C37_mtime_is_newest.
(** On an acyclic graph of usable files there is a result. *)
Theorem C37_returns_on_acyclic_graph : forall E fs p c, coherent fs c -> acyclic_from E fs p -> (forall q, reach E fs p q -> usable E fs q) ->
  exists n x c', path_stats E fs n p c = Some (Ok x, c') /\ newest E fs p x.
Proof.
  intros E fs p c Hc Ha Hu. destruct (path_stats_returns E fs p Ha [] c Hc (good_nil E fs)) as (n & Hn).
  destruct (path_stats_ E fs n p [] c) as [[[r m] c1]|] eqn:Ep; [|congruence].
  destruct (path_stats_usable E fs n p [] c r m c1 Hc (good_nil E fs) Hu Ep) as (x & ->).
  assert (H : path_stats E fs n p c = Some (Ok x, c1)) by (unfold path_stats; rewrite Ep; reflexivity).
  exists n, x, c1. split; [exact H|]. exact (C37_mtime_is_newest E fs n p c x c1 Hc H).
Qed.
Print Assumptions C37_returns_on_acyclic_graph.
(** The import hook: the standard library and files that are not Python source are left to the standard method. *)
Theorem C37_import_hook : forall E fs is_stdlib ispy std n p c x c', coherent fs c -> path_xstats E fs is_stdlib ispy std n p c = Some (Ok x, c') ->
  if is_stdlib p || negb (ispy p) then std p = Ok x else newest E fs p x.
Proof.
  intros E fs is_stdlib ispy std n p c x c' Hc H. unfold path_xstats in H. destruct (is_stdlib p || negb (ispy p)); [congruence|].
  exact (C37_mtime_is_newest E fs n p c x c' Hc H).
Qed.
Print Assumptions C37_import_hook.
(** For these, the standard method's answer (or its exception) is what the hook gives, whatever they contain and whatever was cached; and the caches stay. *)
Theorem C37_others_untouched : forall E fs is_stdlib ispy std n p c, is_stdlib p = true \/ ispy p = false ->
  path_xstats E fs is_stdlib ispy std n p c = Some (std p, c).
Proof. intros E fs is_stdlib ispy std n p c H. unfold path_xstats. destruct H as [->| ->]; [reflexivity|rewrite orb_true_r; reflexivity]. Qed.
Print Assumptions C37_others_untouched.

(** The result is the same with any two coherent caches, in particular with an empty one. *)
Theorem C38_cache_transparent : forall E fs n p c1 c2, coherent fs c1 -> coherent fs c2 ->
  option_map fst (path_stats E fs n p c1) = option_map fst (path_stats E fs n p c2).
Proof.
  intros E fs n p c1 c2 H1 H2. pose proof (path_stats_same E fs n p [] c1 c2 H1 H2) as H. unfold path_stats, same_res in *.
  destruct (path_stats_ E fs n p [] c1) as [[[r1 m1] d1]|], (path_stats_ E fs n p [] c2) as [[[r2 m2] d2]|]; cbn in *; try contradiction; [|reflexivity].
  destruct H as (-> & _). reflexivity.
Qed.
Print Assumptions C38_cache_transparent.
(** After any history of edits, deletions, queries and lost cache files, in which each edit gives the file a new modification time, a query
    gives what it would give without any cache. *)
Theorem C38_history_transparent : forall ver fs c, history ver fs c -> forall E n p,
  option_map fst (path_stats E fs n p c) = option_map fst (path_stats E fs n p (fun _ => None)).
Proof.
  intros ver fs c H E n p. apply C38_cache_transparent; [exact (history_coherent _ _ _ H)|]. intros q f e _ He. discriminate.
Qed.
Print Assumptions C38_history_transparent.
(** After a query, an up-to-date entry is there, if it could be written: stale ones are replaced. *)
Theorem C38_stale_entry_replaced : forall E fs n p c x c', coherent fs c -> e_writes E p = true -> path_stats E fs n p c = Some (Ok x, c') ->
  exists f e, fs p = Some f /\ c' p = Some e /\ ce_mtime e = f_mtime f /\ describes e f.
Proof.
  intros E fs n p c x c' Hc Hw H. unfold path_stats in H. destruct (path_stats_ E fs n p [] c) as [[[r m] c1]|] eqn:Ep; [|discriminate]. injection H as -> <-.
  exact (entry_written E fs n p c x m c1 Hc Hw Ep).
Qed.
Print Assumptions C38_stale_entry_replaced.

(** ** Examples *)
Definition s_imp (magic m : string) : ltree :=
  Nd noloc "ImportFrom" [("module"%string, At (AStr m)); ("names"%string, Ls [Nd noloc "alias" [("name"%string, At (AStr magic)); ("asname"%string, NoneT)]; Nd noloc "alias" [("name"%string, At (AStr "f")); ("asname"%string, NoneT)]]); ("level"%string, At (AInt 0))].
Definition s_phase (b : list ltree) : ltree :=
  Nd noloc "With" [("items"%string, Ls [Nd noloc "withitem" [("context_expr"%string, Nd noloc "Subscript" [("value"%string, Nd noloc "Name" [("id"%string, At (AStr "phase"))]); ("slice"%string, Nd noloc "Constant" [("value"%string, At (AInt 1))])]); ("optional_vars"%string, NoneT)]]); ("body"%string, Ls b)].
Definition s_env : env := mkEnv (fun _ => Ok "pkg"%string) (fun _ m _ => Ok m) (fun m => Ok (if String.eqb m "__self__" then None else Some (Some m))) (fun _ => true) (fun z => z).
(** a macro-imports from b; and in a phase, from c and from the dialect d; b from d. *)
Definition s_fs (p : string) : option file :=
  if String.eqb p "a" then Some (mkFile 5 (Ok [s_imp "macros" "b"; s_phase [s_imp "macros" "c"; s_imp "dialects" "d"]; s_imp "macros" "__self__"]))
  else if String.eqb p "b" then Some (mkFile 7 (Ok [s_imp "macros" "d"]))
  else if String.eqb p "c" then Some (mkFile 3 (Ok []))
  else if String.eqb p "d" then Some (mkFile 9 (Ok []))
  else None.
Example C37_example : exists c', path_stats s_env s_fs 4 "a" (fun _ => None) = Some (Ok 9%Z, c') /\ coherent s_fs (fun _ => None).
Proof. eexists. split; [vm_compute; reflexivity|]. intros p f e _ H. discriminate. Qed.
(** Without the dialect, which is the newest, the result is smaller. *)
Example C37_example_smaller : exists c', path_stats s_env (fset "d" (Some (mkFile 1 (Ok []))) s_fs) 4 "a" (fun _ => None) = Some (Ok 7%Z, c').
Proof. eexists. vm_compute. reflexivity. Qed.
Example C37_example_acyclic : acyclic_from s_env s_fs "b" /\ forall q, reach s_env s_fs "b" q -> usable s_env s_fs q.
Proof.
  assert (Hd : forall q, ~ dep s_env s_fs "d" q).
  { intros q (f & body & i & m & pkg & absname & Hf & Ht & Hi & _). injection Hf as <-. injection Ht as <-. inversion Hi; subst; match goal with H : In _ [] |- _ => destruct H end. }
  assert (Hb : forall q, dep s_env s_fs "b" q -> q = "d"%string).
  { intros q (f & body & i & m & pkg & absname & Hf & Ht & Hi & Hm & _ & Hr & Hs). injection Hf as <-. injection Ht as <-.
    assert (H : In i (fst ([mkImp (Some "d"%string) [("macros"%string, None); ("f"%string, None)] 0], @nil imp) ++ snd ([mkImp (Some "d"%string) [("macros"%string, None); ("f"%string, None)] 0], @nil imp))) by (apply (scan_iff [s_imp "macros" "d"]); [reflexivity|exact Hi]).
    destruct H as [<-|[]]. cbn in Hm, Hr, Hs. injection Hm as <-. injection Hr as <-. cbn in Hs. injection Hs as <-. reflexivity. }
  assert (Ad : acyclic_from s_env s_fs "d") by (constructor; intros q Hq; destruct (Hd q Hq)).
  assert (Ud : usable s_env s_fs "d").
  { exists (mkFile 9 (Ok [])), [], [], []. repeat split. exists None. split; [reflexivity|]. intros i Hi. inversion Hi; subst; match goal with H : In _ [] |- _ => destruct H end. }
  assert (Ub : usable s_env s_fs "b").
  { exists (mkFile 7 (Ok [s_imp "macros" "d"])), [s_imp "macros" "d"], [mkImp (Some "d"%string) [("macros"%string, None); ("f"%string, None)] 0], []. repeat split.
    exists None. split; [reflexivity|]. intros i Hi. apply (scan_iff [s_imp "macros" "d"] ([mkImp (Some "d"%string) [("macros"%string, None); ("f"%string, None)] 0], []) eq_refl) in Hi.
    destruct Hi as [<-|[]]. exists "d"%string, "d"%string. repeat split. right. exists "d"%string. reflexivity. }
  split.
  - constructor. intros q Hq. rewrite (Hb q Hq). exact Ad.
  - intros q Hq. inversion Hq as [|r ? Hr Hrq]; subst; [exact Ub|]. rewrite (Hb r Hr) in Hrq. inversion Hrq as [|r' ? Hr' _]; subst; [exact Ud|]. destruct (Hd r' Hr').
Qed.
(** A history: query, edit so that another file is imported, query with the stale entry still there. *)
Example C38_example : exists ver c, history ver (fset "b" (Some (mkFile 8 (Ok []))) s_fs) c /\
  option_map (fun e => ce_mtime e) (c "b"%string) = Some 7%Z /\ option_map fst (path_stats s_env (fset "b" (Some (mkFile 8 (Ok []))) s_fs) 4 "b" c) = Some (Ok 8%Z).
Proof.
  destruct (path_stats s_env s_fs 4 "b" (fun _ => None)) as [[r c]|] eqn:Eq; [|discriminate].
  exists (fun q g => s_fs q = Some g \/ (q = "b"%string /\ g = mkFile 8 (Ok []))), c. split; [|split].
  - apply h_edit; [|intros g [= <-]; discriminate]. exact (h_query _ _ _ s_env 4 "b" r c (h_start s_fs) Eq).
  - vm_compute in Eq. injection Eq as _ <-. vm_compute. reflexivity.
  - vm_compute in Eq. injection Eq as _ <-. vm_compute. reflexivity.
Qed.
(** The condition on the modification times is needed: a file edited twice so that it gets back the time of an entry made earlier is
    taken for the old text. *)
Theorem C38_reused_mtime_refuted : exists c f1 f2 c1, path_stats s_env s_fs 4 "b" (fun _ => None) = Some (Ok 9%Z, c) /\
  f_mtime f1 <> 7%Z /\ f_mtime f2 <> f_mtime f1 /\
  let fs2 := fset "b" (Some f2) (fset "b" (Some f1) s_fs) in
  path_stats s_env fs2 4 "b" c = Some (Ok 9%Z, c1) /\ newest s_env fs2 "b" 7%Z.
Proof.
  destruct (path_stats s_env s_fs 4 "b" (fun _ => None)) as [[r c]|] eqn:Eq; [|discriminate]. vm_compute in Eq. injection Eq as <- <-.
  set (fs2 := fset "b" (Some (mkFile 7 (Ok []))) (fset "b" (Some (mkFile 8 (Ok []))) s_fs)).
  assert (H : exists c', path_stats s_env fs2 4 "b" (fun _ => None) = Some (Ok 7%Z, c')) by (eexists; vm_compute; reflexivity). destruct H as (c' & H).
  eexists _, (mkFile 8 (Ok [])), (mkFile 7 (Ok [])), _. split; [reflexivity|]. split; [discriminate|]. split; [discriminate|]. cbv zeta. fold fs2. split; [vm_compute; reflexivity|].
  eapply C37_mtime_is_newest; [|exact H]. intros p f e _ He. discriminate.
Qed.
Print Assumptions C38_reused_mtime_refuted.

(** ** C39 *)
(** Two files that import macros from each other: no result, whatever the recursion depth. *)
Definition cyc_fs (p : string) : option file :=
  if String.eqb p "a" then Some (mkFile 1 (Ok [s_imp "macros" "b"])) else if String.eqb p "b" then Some (mkFile 2 (Ok [s_imp "macros" "a"])) else None.
Theorem C39_terminates_refuted : exists E fs p, forall n, path_stats E fs n p (fun _ => None) = None.
Proof.
  exists s_env, cyc_fs, "a"%string. intros n. unfold path_stats.
  assert (K : forall n p c, p = "a"%string \/ p = "b"%string -> coherent cyc_fs c -> path_stats_ s_env cyc_fs n p [] c = None).
  { clear n. induction n as [|n IH]; intros p c Hp Hc; [reflexivity|]. rewrite path_stats_eq. cbn [sget].
    destruct Hp as [-> | ->].
    - change (cyc_fs "a") with (Some (mkFile 1 (Ok [s_imp "macros" "b"]))). cbv iota beta.
      destruct (file_imports s_env "a" (mkFile 1 (Ok [s_imp "macros" "b"])) c) as [r c1] eqn:Ei.
      assert (Hc1 : coherent cyc_fs c1) by (eapply (file_imports_coherent s_env cyc_fs); [|exact Hc|exact Ei]; reflexivity).
      assert (r = Ok ([mkImp (Some "b"%string) [("macros"%string, None); ("f"%string, None)] 0], false)) as ->.
      { change r with (fst (r, c1)). rewrite <- Ei. rewrite (file_imports_same s_env cyc_fs "a" (mkFile 1 (Ok [s_imp "macros" "b"])) c (fun _ => None) eq_refl Hc) by (intros ? ? ? _ ?; discriminate). reflexivity. }
      cbn [stats_loop i_module s_env e_resolve e_spec]. change (String.eqb "b" "__self__") with false. cbv iota beta. fold s_env. rewrite (IH "b"%string c1); auto.
    - change (cyc_fs "b") with (Some (mkFile 2 (Ok [s_imp "macros" "a"]))). cbv iota beta.
      destruct (file_imports s_env "b" (mkFile 2 (Ok [s_imp "macros" "a"])) c) as [r c1] eqn:Ei.
      assert (Hc1 : coherent cyc_fs c1) by (eapply (file_imports_coherent s_env cyc_fs); [|exact Hc|exact Ei]; reflexivity).
      assert (r = Ok ([mkImp (Some "a"%string) [("macros"%string, None); ("f"%string, None)] 0], false)) as ->.
      { change r with (fst (r, c1)). rewrite <- Ei. rewrite (file_imports_same s_env cyc_fs "b" (mkFile 2 (Ok [s_imp "macros" "a"])) c (fun _ => None) eq_refl Hc) by (intros ? ? ? _ ?; discriminate). reflexivity. }
      cbn [stats_loop i_module s_env e_resolve e_spec]. change (String.eqb "a" "__self__") with false. cbv iota beta. fold s_env. rewrite (IH "a"%string c1); auto. }
  rewrite (K n "a"%string (fun _ => None)); auto. intros q f e _ He. discriminate.
Qed.
Print Assumptions C39_terminates_refuted.
(** PARTIAL: it returns (a result or an exception) if no infinite chain of imports starts in the file; and it returns a result only then.
    Missing: cyclic graphs, for which there is no result. *)
Theorem C39_returns_if_acyclic_partial : forall E fs p c, coherent fs c -> acyclic_from E fs p -> exists n, path_stats E fs n p c <> None.
Proof.
  intros E fs p c Hc Ha. destruct (path_stats_returns E fs p Ha [] c Hc (good_nil E fs)) as (n & Hn). exists n. unfold path_stats.
  destruct (path_stats_ E fs n p [] c) as [[[r m] c1]|]; [discriminate|congruence].
Qed.
Print Assumptions C39_returns_if_acyclic_partial.
Theorem C39_result_only_if_acyclic : forall E fs n p c x c', coherent fs c -> path_stats E fs n p c = Some (Ok x, c') -> acyclic_from E fs p.
Proof.
  intros E fs n p c x c' Hc H. unfold path_stats in H. destruct (path_stats_ E fs n p [] c) as [[[r m] c1]|] eqn:Ep; [|discriminate]. injection H as -> <-.
  destruct (path_stats_ok E fs n _ _ _ _ _ _ Hc (good_nil E fs) Ep) as (_ & _ & H). exact (proj2 (H x eq_refl)).
Qed.
Print Assumptions C39_result_only_if_acyclic.
Example C39_example : coherent s_fs (fun _ => None) /\ acyclic_from s_env s_fs "b".
Proof. split; [intros p f e _ H; discriminate|exact (proj1 C37_example_acyclic)]. Qed.
