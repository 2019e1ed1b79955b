(** C76: what macropython does with its options. *)
From Verif Require Import Base Dict ModulesModel ModulesProps SyspathModel SyspathProps MainModel MainProps PycacheModel PycacheProps CliModel.

Lemma assoc_reassoc_other c d y l : c <> d -> assoc c (reassoc d y l) = assoc c l.
Proof.
  intros N. induction l as [|[e x] l IH]; [reflexivity|]. cbn [reassoc]. destruct (String.eqb_spec d e) as [->|]; cbn [assoc].
  - destruct (String.eqb_spec c e); [contradiction|reflexivity].
  - destruct (String.eqb c e); [reflexivity|exact IH].
Qed.
Lemma assoc_reassoc_same c y l x : assoc c l = Some x -> assoc c (reassoc c y l) = Some y.
Proof.
  induction l as [|[e z] l IH]; [discriminate|]. cbn [reassoc assoc]. destruct (String.eqb c e) eqn:E; cbn [assoc]; rewrite E; [reflexivity|exact IH].
Qed.
(** What is not under a directory is there afterwards if it was there before, whatever the directory becomes. *)
Lemma lookup_put_other y : forall p fs q, (forall r, q <> p ++ r) -> lookup (put fs p y) q = None <-> lookup fs q = None.
Proof.
  induction p as [|c p IH]; intros fs q Hq; [contradiction (Hq q); reflexivity|]. destruct q as [|d q]; [cbn; split; discriminate|].
  destruct fs as [|l|t]; [reflexivity| |reflexivity]. cbn [put]. destruct (assoc c l) as [x|] eqn:Ea; [|reflexivity]. cbn [lookup].
  destruct (String.eqb_spec d c) as [->|N].
  - rewrite (assoc_reassoc_same _ _ _ _ Ea), Ea. apply IH. intros r ->. apply (Hq r). reflexivity.
  - rewrite (assoc_reassoc_other _ _ _ _ N). reflexivity.
Qed.

Section Statements.
  Context {U : Type}.
  Variables (topath : string -> fpath) (resolve : string -> path) (cwd : path) (isfile isdir : path -> bool).
  Notation W := (world U).
  (** [run]: what the program does; [pylab], [interact]: what -p and the console do. *)
  Notation main run pylab interact := (CliModel.main (U := U) run pylab interact topath resolve cwd isfile isdir).

  (** A path is there. *)
  Definition there (w : W) (q : fpath) : Prop := lookup (w_fs w) q <> None.
  (** There is a directory. *)
  Definition directory (w : W) (p : fpath) : Prop := exists l, lookup (w_fs w) p = Some (D l).

  (** C76 a: -c wins over everything else, and -i over a file and -m: no other option makes a difference, and no program is run. *)
  Theorem C76_clean_runs_nothing run run' pylab pylab' interact interact' dir o o' w : dir <> ""%string -> o_clean o = Some dir -> o_clean o' = Some dir -> o_dry o = o_dry o' ->
    main run pylab interact o w = main run' pylab' interact' o' w /\ w_path (snd (main run pylab interact o w)) = w_path w /\ w_user (snd (main run pylab interact o w)) = w_user w.
  Proof.
    intros Hd H H' Hdry. unfold CliModel.main. rewrite H, H', <- Hdry. destruct dir as [|c dir]; [congruence|]. cbn [given]. split; [reflexivity|].
    unfold do_clean. destruct (o_dry o).
    - destruct (getpycachedirs _ _); split; reflexivity.
    - destruct (deletepycachedirs _ _) as [[e|] fs]; split; reflexivity.
  Qed.

  (** C76 b: the dry run changes nothing and tells the truth: what it prints are the __pycache__ directories under the path; and when -c is then given
      without -n, what disappears is exactly what is in the directories that it printed. For file systems without symbolic links (see C50). *)
  Theorem C76_dry_run_tells_partial run pylab interact dir o o' w : dir <> ""%string -> o_clean o = Some dir -> o_clean o' = Some dir -> o_dry o = true -> o_dry o' = false ->
    plain (w_fs w) -> directory w (topath dir) ->
    exists printed w',
      main run pylab interact o w = (Exit 0, mkW (w_fs w) (w_path w) (w_out w ++ map Dir printed) (w_user w)) /\
      main run pylab interact o' w = (Exit 0, w') /\ w_out w' = w_out w /\
      (forall d, In d printed <-> exists r, d = topath dir ++ r /\ last r ""%string = "__pycache__"%string /\ r <> [] /\ directory w d) /\
      (forall q, there w q -> (~ there w' q <-> exists d r, In d printed /\ q = d ++ r)) /\
      (forall q, there w' q -> there w q).
  Proof.
    intros Hd H H' Hdry Hdry' Hp [l Hl]. destruct dir as [|c0 dir0] eqn:Edir; [congruence|]. rewrite <- Edir in *.
    assert (Hg : given (Some dir) = Some dir) by (rewrite Edir; reflexivity). clear Edir Hd.
    destruct (C50_lists_exactly_pycache_partial (w_fs w) (topath dir) l Hp Hl) as (qs & Hqs & Hiff). pose proof (C50_deletes_exactly_pycache_partial (w_fs w) (topath dir) l Hp Hl) as Hdel.
    set (p := topath dir) in *. assert (Hpl : plain (D l)) by exact (plain_lookup _ _ _ Hp Hl).
    exists qs, (mkW (put (w_fs w) p (clean (D l))) (w_path w) (w_out w) (w_user w)).
    unfold CliModel.main. rewrite H, H', Hdry, Hdry', Hg. unfold do_clean. fold p. rewrite Hqs, Hdel. split; [reflexivity|]. split; [reflexivity|]. split; [reflexivity|].
    assert (Hcache : forall r, cache_dir (D l) r <-> last r ""%string = "__pycache__"%string /\ r <> [] /\ directory w (p ++ r)).
    { intros r. unfold cache_dir, directory. rewrite lookup_app, Hl. split.
      - intros (r' & l' & -> & E). rewrite last_last. split; [reflexivity|]. split; [intros E'; destruct r'; discriminate|]. exists l'. exact E.
      - intros (E & N & l' & E'). exists (removelast r), l'. split; [|exact E']. rewrite (app_removelast_last ""%string N) at 1. rewrite E. reflexivity. }
    split.
    { intros d. rewrite Hiff. split; intros (r & -> & G); exists r; (split; [reflexivity|]); apply Hcache; exact G. }
    unfold there. cbn [w_fs].
    assert (Hunder : forall r, lookup (put (w_fs w) p (clean (D l))) (p ++ r) = lookup (clean (D l)) r) by (intros r; rewrite lookup_app, (lookup_put _ _ _ _ Hl); reflexivity).
    assert (Hunder0 : forall r, lookup (w_fs w) (p ++ r) = lookup (D l) r) by (intros r; rewrite lookup_app, Hl; reflexivity).
    assert (Hdec : forall q : fpath, (exists r, q = p ++ r) \/ (forall r, q <> p ++ r)).
    { clear. generalize p. clear p. intros p. induction p as [|c p IH]; intros q; [left; exists q; reflexivity|]. destruct q as [|d q]; [right; discriminate|].
      destruct (String.eqb_spec d c) as [->|N]; [|right; intros r E; injection E; contradiction]. destruct (IH q) as [[r ->]|N]; [left; exists r; reflexivity|right]. intros r E. injection E as E. exact (N r E). }
    split.
    - intros q Hq. destruct (Hdec q) as [[r ->]|N].
      + rewrite Hunder. rewrite Hunder0 in Hq. destruct (lookup (D l) r) as [y|] eqn:Ey; [|congruence]. destruct (C50_what_is_left_partial r (D l) Hpl) as [_ G]. specialize (G y Ey). split.
        * intros E. assert (E' : lookup (clean (D l)) r = None) by (destruct (lookup (clean (D l)) r); [exfalso; apply E; discriminate|reflexivity]).
          apply G in E'. destruct E' as (a & b & -> & Ha). exists (p ++ a), b. split; [apply Hiff; exists a; auto|]. apply app_assoc.
        * intros (d & b & Hin & E). apply Hiff in Hin. destruct Hin as (a & -> & Ha). rewrite <- app_assoc in E. apply app_inv_head in E. subst r. assert (E : lookup (clean (D l)) (a ++ b) = None) by (apply G; exists a, b; auto). rewrite E. auto.
      + split.
        * intros E. exfalso. apply E. intros E'. apply Hq. apply (lookup_put_other (clean (D l)) p _ _ N). exact E'.
        * intros (d & b & Hin & ->). apply Hiff in Hin. destruct Hin as (a & -> & _). exfalso. apply (N (a ++ b)). symmetry. apply app_assoc.
    - intros q Hq. destruct (Hdec q) as [[r ->]|N].
      + rewrite Hunder in Hq. rewrite Hunder0. destruct (C50_what_is_left_partial r (D l) Hpl) as [G _]. destruct (lookup (clean (D l)) r) as [x|] eqn:Ex; [|congruence]. destruct (G x eq_refl) as (y & -> & _). discriminate.
      + intros E. apply Hq. apply (lookup_put_other (clean (D l)) p _ _ N). exact E.
  Qed.

  (** C76 c: what is no directory cannot be cleaned: OSError, nothing happens. *)
  Theorem C76_clean_no_directory run pylab interact dir o w : dir <> ""%string -> o_clean o = Some dir -> plain (w_fs w) -> ~ directory w (topath dir) ->
    main run pylab interact o w = (Raised (mkExn "OSError" []), w).
  Proof.
    intros Hd H Hp N. unfold CliModel.main. rewrite H. destruct dir as [|c dir]; [congruence|]. cbn [given]. unfold do_clean, deletepycachedirs, getpycachedirs. rewrite (follow_plain _ _ Hp).
    unfold directory in N. destruct (lookup (w_fs w) (topath (String c dir))) as [[|l|t]|]; try (exfalso; apply N; eexists; reflexivity);
      destruct (o_dry o); destruct w; reflexivity.
  Qed.

  (** C76 d: -i: a console, whatever file and module are given, and no program is run; the current directory can be imported from. *)
  Theorem C76_interactive run run' pylab interact o o' w : o_clean o = None -> o_clean o' = None -> o_interactive o = true -> o_interactive o' = true -> o_pylab o = o_pylab o' ->
    main run pylab interact o w = main run' pylab interact o' w /\
    (o_pylab o = false -> w_path w <> [] -> exists w1, w_fs w1 = w_fs w /\ w_out w1 = w_out w /\ w_user w1 = w_user w /\ (exists r, w_path w1 = ""%string :: r) /\ incl (w_path w) (w_path w1) /\
       forall r w2, interact w1 = (r, w2) -> main run pylab interact o w = (match r with Ok _ => Returned | Err e => Raised e end, w2)).
  Proof.
    intros H H' Hi Hi' Hpy. unfold CliModel.main. rewrite H, H', Hi, Hi', <- Hpy. cbn [given]. split; [reflexivity|]. intros Hn Hne. rewrite Hn. unfold do_interactive.
    destruct (w_path w) as [|x r] eqn:E; [congruence|]. destruct (String.eqb_spec x "") as [->|N].
    - exists w. rewrite E. repeat split; eauto using incl_refl. intros rr w2 ->. destruct rr; reflexivity.
    - exists (set_syspath (""%string :: x :: r) w). repeat split; cbn; eauto using incl_tl, incl_refl. intros rr w2 ->. destruct rr; reflexivity.
  Qed.

  (** C76 e: without -c and -i: a file or a module. With both, nothing is run; with none, the help text is printed. *)
  Theorem C76_one_program run pylab interact o w : o_clean o = None -> o_interactive o = false ->
    (forall f m, f <> ""%string -> m <> ""%string -> o_file o = Some f -> o_module o = Some m ->
       main run pylab interact o w = (Raised (mkExn "ValueError" ["Please specify just one main program to run (either filename.py or -m module, not both)."%string]), w)) /\
    (o_file o = None -> o_module o = None -> main run pylab interact o w = (Exit 0, mkW (w_fs w) (w_path w) (w_out w ++ [Help]) (w_user w))).
  Proof.
    intros H Hi. unfold CliModel.main. rewrite H, Hi. cbn [given]. split.
    - intros f m Hf Hm -> ->. destruct f; [congruence|]. destruct m; [congruence|]. reflexivity.
    - intros -> ->. reflexivity.
  Qed.

  (** C76 f: -m mod: the module is run, once, as a module; the current directory comes first in sys.path; what it raises is propagated. *)
  Theorem C76_module run pylab interact o m w : o_clean o = None -> o_interactive o = false -> o_file o = None -> o_module o = Some m -> m <> ""%string -> w_path w <> [] ->
    exists w1, w_fs w1 = w_fs w /\ w_out w1 = w_out w /\ w_user w1 = w_user w /\ (exists r, w_path w1 = render cwd :: r) /\ incl (w_path w) (w_path w1) /\
      forall r w2, run m false w1 = (r, w2) -> main run pylab interact o w = (match r with Ok _ => Returned | Err e => Raised e end, w2).
  Proof.
    intros H Hi Hf Hm Hne Hp. destruct (C62_module_syspath isdir cwd (w_path w) Hp) as (r & Hr & Hincl). exists (set_syspath (render cwd :: r) w).
    repeat split; cbn; eauto. intros rr w2 E. unfold CliModel.main. rewrite H, Hi, Hf, Hm. cbn [given]. destruct m; [congruence|]. rewrite Hr, E. destruct rr; reflexivity.
  Qed.

  (** C76 g: a file: the module of that file is run, once, as a script; a file that is not there is refused and nothing happens. *)
  Theorem C76_file run pylab interact o f w : o_clean o = None -> o_interactive o = false -> o_module o = None -> o_file o = Some f -> f <> ""%string ->
    (isfile (resolve f) = false -> main run pylab interact o w = (Raised (mkExn "FileNotFoundError" []), w)) /\
    (forall p n, script_module resolve isfile isdir f (w_path w) = Ok (p, n) ->
       exists w1, w_fs w1 = w_fs w /\ w_out w1 = w_out w /\ w_user w1 = w_user w /\ w_path w1 = p /\
         forall r w2, run n true w1 = (r, w2) -> main run pylab interact o w = (match r with Ok _ => Returned | Err e => Raised e end, w2)).
  Proof.
    intros H Hi Hm Hf Hne. unfold CliModel.main. rewrite H, Hi, Hf, Hm. cbn [given]. destruct f as [|c f]; [congruence|]. split.
    - intros N. rewrite (C62_no_such_file _ _ _ _ _ N). reflexivity.
    - intros p n E. exists (set_syspath p w). repeat split. intros r w2 E'. rewrite E, E'. destruct r; reflexivity.
  Qed.
  (** C76 h, PARTIAL: for the script [n.py] in the directory [dir], this means: the module [n] is run, once, as a script, with that directory first in sys.path. Missing: the entries of sys.path that
      C62_script_module_partial excludes; see C62_script_refuted. *)
  Theorem C76_script_partial run pylab interact o f dir n w : o_clean o = None -> o_interactive o = false -> o_module o = None -> o_file o = Some f -> f <> ""%string ->
    resolve f = dir ++ [(n ++ ".py")%string] -> isfile (resolve f) = true -> Forall component (resolve f) -> top_level n -> resolve (render dir) = dir -> w_path w <> [] ->
    (forall s, In s (render dir :: render (dir ++ ["__pypackages__"%string]) :: w_path w) ->
       resolve s <> [] /\ resolve s <> resolve f /\ (String.prefix (render (resolve s)) (render (resolve f)) = true -> ancestor (resolve s) (resolve f)) /\
       forall s', In s' (render dir :: render (dir ++ ["__pypackages__"%string]) :: w_path w) -> ancestor (resolve s) (resolve f) -> ancestor (resolve s') (resolve f) ->
         count_sep s <= count_sep s' -> List.length (resolve s) <= List.length (resolve s')) ->
    exists w1, w_fs w1 = w_fs w /\ w_out w1 = w_out w /\ w_user w1 = w_user w /\ (exists r, w_path w1 = render dir :: r) /\
      forall r w2, run n true w1 = (r, w2) -> main run pylab interact o w = (match r with Ok _ => Returned | Err e => Raised e end, w2).
  Proof.
    intros H Hi Hm Hf Hne Hr Hfile Hc Hn Hd Hp He. destruct (C76_file run pylab interact o f w H Hi Hm Hf Hne) as [_ G].
    assert (I : forall s, In s (render dir :: (if isdir (dir ++ ["__pypackages__"%string]) then [render (dir ++ ["__pypackages__"%string])] else []) ++ w_path w) -> In s (render dir :: render (dir ++ ["__pypackages__"%string]) :: w_path w)).
    { intros s. destruct (isdir _); cbn [In app]; intuition. }
    rewrite Hr in Hfile, Hc, He. destruct (C62_script_module_partial resolve isfile isdir f dir n (w_path w) Hr Hfile Hc Hn Hd Hp) as [r Hs].
    - intros s Hs. apply (He s (I s Hs)).
    - intros s Hs. apply (He s (I s Hs)).
    - intros s Hs. apply (He s (I s Hs)).
    - intros s s' Hs Hs'. apply (He s (I s Hs)). exact (I s' Hs').
    - destruct (G _ _ Hs) as (w1 & A & B & C & D & E). exists w1. repeat (split; [assumption|]). split; [rewrite D; eauto|exact E].
  Qed.
End Statements.
Print Assumptions C76_clean_runs_nothing.
Print Assumptions C76_dry_run_tells_partial.
Print Assumptions C76_clean_no_directory.
Print Assumptions C76_interactive.
Print Assumptions C76_one_program.
Print Assumptions C76_module.
Print Assumptions C76_file.
Print Assumptions C76_script_partial.

(** ** Examples *)
(** The process keeps a log of what is run. *)
Definition k_run (name : string) (script : bool) (w : world (list string)) : res nat * world (list string) :=
  (Ok 1, mkW (w_fs w) (w_path w) (w_out w) (w_user w ++ [((if script then "script " else "module ") ++ name)%string])).
Definition k_console (w : world (list string)) : res unit * world (list string) := (Ok tt, mkW (w_fs w) (w_path w) (w_out w) (w_user w ++ ["console"%string])).
Definition k_fs : node := D [("src"%string, D [("__pycache__"%string, D [("m.pyc"%string, F)]); ("m.py"%string, F)]); ("__pycache__"%string, D [])].
Definition k_w (fs : node) : world (list string) := mkW fs ["/usr/bin"%string] [] [].
Definition k_resolve (s : string) : path := if String.eqb s "/home" then ["home"%string] else if String.eqb s "/usr/bin" then ["usr"; "bin"]%string else ["home"%string; s].
Definition k_main := main k_run (fun w => (Ok tt, w)) k_console (fun s => [s]) k_resolve ["home"%string] (fun p => smem "prog.py" p) (fun _ => false).
Example C76_clean_example :
  k_main (mkOpts (Some "prog.py") (Some "mod") true false (Some "src") true)%string (k_w k_fs) = (Exit 0, mkW k_fs ["/usr/bin"%string] [Dir ["src"; "__pycache__"]%string] []) /\
  k_main (mkOpts (Some "prog.py") None true false (Some "src") false)%string (k_w k_fs) =
    (Exit 0, mkW (D [("src"%string, D [("m.py"%string, F)]); ("__pycache__"%string, D [])]) ["/usr/bin"%string] [] []) /\
  plain k_fs /\ directory (k_w k_fs) ["src"%string] /\
  k_main (mkOpts None None false false (Some "lib") false)%string (k_w k_fs) = (Raised (mkExn "OSError" []), k_w k_fs) /\ ~ directory (k_w k_fs) ["lib"%string].
Proof.
  split; [vm_compute; reflexivity|]. split; [vm_compute; reflexivity|]. split.
  { cbn. repeat split; repeat constructor; cbn; intros H; repeat (destruct H as [H|H]; [discriminate|]); destruct H. }
  split; [eexists; reflexivity|]. split; [vm_compute; reflexivity|]. intros [l H]. discriminate H.
Qed.
Example C76_run_example :
  k_main (mkOpts (Some "prog.py") (Some "mod") true false None true)%string (k_w k_fs) = (Returned, mkW k_fs [""; "/usr/bin"]%string [] ["console"%string]) /\
  k_main (mkOpts None (Some "mod") false false None false)%string (k_w k_fs) = (Returned, mkW k_fs ["/home"; "/usr/bin"]%string [] ["module mod"%string]) /\
  k_main (mkOpts (Some "prog.py") None false false None false)%string (k_w k_fs) = (Returned, mkW k_fs ["/home"; "/usr/bin"]%string [] ["script prog"%string]) /\
  k_main (mkOpts (Some "nosuch.py") None false false None false)%string (k_w k_fs) = (Raised (mkExn "FileNotFoundError" []), k_w k_fs) /\
  k_main (mkOpts (Some "prog.py") (Some "mod") false false None false)%string (k_w k_fs) =
    (Raised (mkExn "ValueError" ["Please specify just one main program to run (either filename.py or -m module, not both)."%string]), k_w k_fs) /\
  k_main (mkOpts None None false false None false)%string (k_w k_fs) = (Exit 0, mkW k_fs ["/usr/bin"%string] [Help] []).
Proof. repeat split; vm_compute; reflexivity. Qed.

(** macropython prog.py in /home/me. *)
Example C76_script_example : forall (run : string -> bool -> world unit -> res nat * world unit) pylab interact fs, exists w1, (exists r, w_path w1 = "/home/me"%string :: r) /\ forall r w2, run "prog"%string true w1 = (r, w2) ->
  CliModel.main run pylab interact (fun s => [s]) z_resolve ["home"; "me"]%string (fun _ => true) (fun _ => false) (mkOpts (Some "prog.py") None false false None false)%string (mkW fs ["/usr/lib"%string] [] tt) =
    (match r with Ok _ => Returned | Err e => Raised e end, w2).
Proof.
  intros run pylab interact fs. assert (A : ancestor ["home"; "me"]%string ["home"; "me"; "prog.py"]%string) by (exists ["prog.py"%string]; reflexivity).
  destruct (C76_script_partial (fun s => [s]) z_resolve ["home"; "me"]%string (fun _ => true) (fun _ => false) run pylab interact (mkOpts (Some "prog.py") None false false None false)%string "prog.py" ["home"; "me"]%string "prog"
    (mkW fs ["/usr/lib"%string] [] tt)) as (w1 & _ & _ & _ & P & H); [reflexivity|reflexivity|reflexivity|reflexivity|discriminate|reflexivity|reflexivity| | |reflexivity|discriminate| |exists w1; split; [exact P|exact H]].
  - repeat (constructor; [split; [vm_compute; discriminate|reflexivity]|]). constructor.
  - unfold top_level. cbn. intuition discriminate.
  - intros s Hs. split; [|split; [|split]].
    + destruct Hs as [<-|[<-|[<-|[]]]]; vm_compute; discriminate.
    + destruct Hs as [<-|[<-|[<-|[]]]]; vm_compute; discriminate.
    + destruct Hs as [<-|[<-|[<-|[]]]]; [intros _; exact A|vm_compute; discriminate|vm_compute; discriminate].
    + intros s' Hs' Ha Ha'. destruct Hs as [<-|[<-|[<-|[]]]], Hs' as [<-|[<-|[<-|[]]]]; vm_compute; intros; try lia; exfalso; destruct Ha, Ha'; discriminate.
Qed.

(** ** Refuted *)
(** With -c and an empty string (an unset variable of the shell), the option is as good as not given: the program is run, and nothing is cleaned; without
    a program, the help text is printed and the exit code says that all went well. *)
Theorem C76_clean_empty_refuted : exists o o', o_clean o = Some ""%string /\ o_clean o' = Some ""%string /\
  k_main o (k_w k_fs) = (Returned, mkW k_fs ["/home"; "/usr/bin"]%string [] ["script prog"%string]) /\
  k_main o' (k_w k_fs) = (Exit 0, mkW k_fs ["/usr/bin"%string] [Help] []).
Proof.
  exists (mkOpts (Some "prog.py") None false false (Some "") false)%string, (mkOpts None None false false (Some "") false)%string. repeat split; vm_compute; reflexivity.
Qed.
(** Symbolic links: the dry run prints a link to a directory that is named __pycache__; the deletion fails at it, after it has deleted what is in the linked directory. *)
Theorem C76_dry_run_tells_refuted : exists fs o o' fs' e, o_clean o = o_clean o' /\ o_dry o = true /\ o_dry o' = false /\
  k_main o (k_w fs) = (Exit 0, mkW fs ["/usr/bin"%string] [Dir ["src"; "__pycache__"]%string] []) /\
  k_main o' (k_w fs) = (Raised e, mkW fs' ["/usr/bin"%string] [] []) /\
  lookup fs ["keep"; "a.txt"]%string = Some F /\ lookup fs' ["keep"; "a.txt"]%string = None /\ lookup fs' ["src"; "__pycache__"]%string = Some (L ["keep"%string]).
Proof.
  exists (D [("src"%string, D [("__pycache__"%string, L ["keep"%string])]); ("keep"%string, D [("a.txt"%string, F)])]),
    (mkOpts None None false false (Some "src") true)%string, (mkOpts None None false false (Some "src") false)%string.
  eexists. eexists. split; [reflexivity|]. split; [reflexivity|]. split; [reflexivity|]. split; [vm_compute; reflexivity|]. split; [vm_compute; reflexivity|]. repeat split.
Qed.
Print Assumptions C76_clean_empty_refuted.
Print Assumptions C76_dry_run_tells_refuted.
