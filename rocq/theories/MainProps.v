(** C62: macropython. *)
From Verif Require Import Base Dict ModulesModel ModulesProps SyspathModel SyspathProps ReplModel CompileProps MainModel MainSpec.

Lemma prefix_app (x q : string) : String.prefix x (x ++ q) = true.
Proof. induction x as [|a x IH]; cbn; [destruct q; reflexivity|]. destruct (ascii_dec a a); [exact IH|contradiction]. Qed.
Lemma prefix_split (x t : string) : String.prefix x t = true -> exists q, t = (x ++ q)%string.
Proof.
  revert t. induction x as [|a x IH]; intros t H; [exists t; reflexivity|]. destruct t as [|c t]; cbn in H; [discriminate|]. destruct (ascii_dec a c) as [->|]; [|discriminate]. destruct (IH t H) as [q ->]. exists q. reflexivity.
Qed.
Lemma contains_iff (x t : string) : contains x t = true <-> exists p q, t = (p ++ x ++ q)%string.
Proof.
  split.
  - induction t as [|c t IH]; cbn [contains]; intros H; apply orb_true_iff in H; destruct H as [H|H].
    + destruct (prefix_split _ _ H) as [q Hq]. exists ""%string, q. exact Hq.
    + discriminate.
    + destruct (prefix_split _ _ H) as [q Hq]. exists ""%string, q. exact Hq.
    + destruct (IH H) as (p & q & ->). exists (String c p), q. reflexivity.
  - intros (p & q & ->). induction p as [|c p IH]; cbn [String.append].
    + destruct (x ++ q)%string eqn:E; cbn [contains]; rewrite <- E, prefix_app; reflexivity.
    + cbn [contains]. rewrite IH. apply orb_true_r.
Qed.
Section Statements.
  Context {U L : Type}.
  Notation st := (mst U).
  Variable import_module : string -> st -> res nat * st.
  Variable locations : nat -> st -> res (option (list string)).
  Variable finders : list (option (string -> option (list string) -> st -> res (option (mspec L)) * st)).
  Variable module_from_spec : mspec L -> st -> res nat * st.
  Variable set_package : nat -> string -> st -> st.
  Variable set_path : nat -> option (list string) -> st -> st.
  Variable exec_module : L -> nat -> st -> res unit * st.
  Variables (isexc isimport : exn -> bool) (msg : exn -> option string).
  Variable boot : nat.
  Notation main := (import_module_as_main import_module locations finders module_from_spec set_package set_path exec_module isexc isimport msg boot).
  Notation as_main := (as_main import_module finders module_from_spec set_package set_path exec_module isexc isimport msg boot).
  Notation located := (located import_module locations).

  Lemma main_located name script s parent path s0 : String.prefix "." name = false -> located name s parent path s0 -> (script = true -> top_level name) ->
    main name script s = as_main name script parent path s0.
  Proof.
    intros Hr H Hs. unfold import_module_as_main. rewrite Hr. destruct H as [Ht|parent child p path s1 Hc Hi Hl].
    - rewrite (top_rsplit _ Ht). reflexivity.
    - rewrite (child_rsplit _ _ _ Hc). destruct script; [exfalso; pose proof (top_rsplit _ (Hs eq_refl)) as N; rewrite (child_rsplit _ _ _ Hc) in N; discriminate|]. rewrite Hi, Hl. reflexivity.
  Qed.
  Lemma found_spec name path fs (s : st) (sp : mspec L) s1 : first_spec name path fs s sp s1 -> find_spec fs name path s = (Ok sp, s1).
  Proof. induction 1 as [f r s sp s1 H|f r s s1 sp s2 H H0 IH|r s sp s1 H IH]; cbn [find_spec]; [rewrite H; reflexivity|rewrite H; exact IH|exact IH]. Qed.

  (** A program that is no package (a module, or a script): it is executed once, as sys.modules["__main__"], with its package set such that relative imports
      work (a script is in no package). If it raises, so does macropython; if it raises an Exception, sys.modules["__main__"] is macropython again. *)
  Theorem C62_program_runs name script s parent path s0 sp s1 m s2 ld s3 : String.prefix "." name = false -> located name s parent path s0 -> (script = true -> top_level name) ->
    first_spec name path finders s0 sp s1 -> module_from_spec sp s1 = (Ok m, s2) -> sp_loader sp = Some ld -> sp_origin sp <> Some "namespace"%string ->
    (script = true /\ s3 = set_package m "" s2 \/
     script = false /\ (exists d ds, path = Some (d :: ds)) /\ s3 = set_package m parent s2 \/
     script = false /\ (path = None \/ path = Some []) /\ (exists o, sp_origin sp = Some o /\ ~ exists p, o = (p ++ "__init__.py")%string) /\ s3 = s2) ->
    exists s4, sget "__main__" (m_sys s4) = Some m /\ (forall k, k <> "__main__"%string -> sget k (m_sys s4) = sget k (m_sys s3)) /\ m_user s4 = m_user s3 /\ m_attr s4 = m_attr s3 /\
      (forall s5, exec_module ld m s4 = (Ok tt, s5) -> main name script s = (Ok m, s5)) /\
      (forall e s5, exec_module ld m s4 = (Err e, s5) -> exists s6, main name script s = (Err e, s6) /\ m_user s6 = m_user s5 /\
        (forall k, k <> "__main__"%string -> sget k (m_sys s6) = sget k (m_sys s5)) /\ (isexc e = true -> sget "__main__" (m_sys s6) = Some boot)).
  Proof.
    intros Hr Hl Hs Hf Hm Hld Hns Hk. rewrite (main_located _ _ _ _ _ _ Hr Hl Hs). exists (set_main m s3).
    assert (Hmain : forall x (y : st) k, sget k (m_sys (set_main x y)) = if String.eqb k "__main__" then Some x else sget k (m_sys y)) by (intros x y k; unfold set_main; cbn [m_sys]; apply sget_sset).
    split; [rewrite Hmain; reflexivity|]. split; [intros k Hne; rewrite Hmain; destruct (String.eqb_spec k "__main__"); [contradiction|reflexivity]|]. split; [reflexivity|]. split; [reflexivity|].
    assert (Q : as_main name script parent path s0 = match exec_module ld m (set_main m s3) with (Ok _, s5) => (Ok m, s5) | (Err e, s5) => (Err e, if isexc e then set_main boot s5 else s5) end).
    { unfold MainModel.as_main. rewrite (found_spec _ _ _ _ _ _ Hf), Hm, Hld.
      assert (N : (match sp_origin sp with Some o => String.eqb o "namespace" | None => false end) = false). { destruct (sp_origin sp) as [o|]; [|reflexivity]. apply String.eqb_neq. congruence. }
      rewrite N. destruct Hk as [(-> & ->)|[(-> & (d & ds & ->) & ->)|(-> & Hp & (o & Ho & Hne) & ->)]]; [reflexivity|reflexivity|].
      rewrite Ho. assert (En : ends_with "__init__.py" o = false). { destruct (ends_with "__init__.py" o) eqn:Ee; [|reflexivity]. apply ends_with_iff in Ee. contradiction. }
      rewrite En. destruct Hp as [->| ->]; reflexivity. }
    split; [intros s5 He; rewrite Q, He; reflexivity|]. intros e s5 He. rewrite Q, He. eexists. split; [reflexivity|]. destruct (isexc e); [|split; [reflexivity|]; split; [reflexivity|discriminate]].
    split; [reflexivity|]. split; [intros k Hne; rewrite Hmain; destruct (String.eqb_spec k "__main__"); [contradiction|reflexivity]|]. intros _. rewrite Hmain. reflexivity.
  Qed.

  (** A top-level package with an [__init__.py]: the package is imported, then its [__main__], each once, in this order. Other exceptions than ImportError are propagated, and so are
      ImportErrors with another message than that a module is missing; if that is the message, it is replaced by one that says that the package cannot be run. *)
  Theorem C62_package_runs name s sp s1 m s2 : String.prefix "." name = false -> top_level name -> first_spec name None finders s sp s1 -> module_from_spec sp s1 = (Ok m, s2) ->
    (exists p, sp_origin sp = Some (p ++ "__init__.py")%string) ->
    (forall e s4, import_module name (set_package m name s2) = (Err e, s4) -> main name false s = (Err e, s4)) /\
    (forall p s4, import_module name (set_package m name s2) = (Ok p, s4) ->
      (forall q s5, import_module (name ++ ".__main__") s4 = (Ok q, s5) -> main name false s = (Ok m, s5)) /\
      (forall e s5, import_module (name ++ ".__main__") s4 = (Err e, s5) -> exists e', main name false s = (Err e', s5) /\ (isimport e = false -> e' = e) /\
         (isimport e = true -> forall t, msg e = Some t ->
            ((exists p q, t = p ++ "No module named" ++ q)%string -> e' = mkExn "ImportError" ["No module named " ++ name ++ ".__main__; '" ++ name ++ "' is a package and cannot be directly executed"]%string) /\
            ((forall p q, t <> p ++ "No module named" ++ q)%string -> e' = e)))).
  Proof.
    intros Hr Ht Hf Hm [p Ho]. rewrite (main_located name false s "" None s Hr (lc_top _ _ _ _ Ht) ltac:(discriminate)).
    assert (En : ends_with "__init__.py" (p ++ "__init__.py") = true) by (apply ends_with_iff; eauto).
    assert (N : String.eqb (p ++ "__init__.py") "namespace" = false).
    { apply String.eqb_neq. intros H. assert (X : String.length (p ++ "__init__.py") = 9) by (rewrite H; reflexivity). rewrite len_append in X. cbn in X. lia. }
    unfold MainModel.as_main. rewrite (found_spec _ _ _ _ _ _ Hf), Hm. cbn [nonempty]. rewrite Ho, En, N. split; [intros e s4 ->; reflexivity|]. intros q s4 ->. unfold run_mainpy. split; [intros q' s5 ->; reflexivity|].
    intros e s5 ->. destruct (isimport e); [|eexists; split; [reflexivity|]; split; [auto|discriminate]]. destruct (msg e) as [t|]; [|eexists; split; [reflexivity|]; split; [discriminate|discriminate]].
    destruct (contains "No module named" t) eqn:Ec; eexists; (split; [reflexivity|]; split; [discriminate|]); intros _ t' Ht'; inversion Ht'; subst t'; split; intros H; try reflexivity.
    - exfalso. apply contains_iff in Ec. destruct Ec as (a & z & Ec). exact (H a z Ec).
    - exfalso. apply contains_iff in H. congruence.
  Qed.

  (** What cannot be found, or is refused: nothing is executed, and sys.modules["__main__"] stays. *)
  Theorem C62_not_found name script s parent path s0 s1 : String.prefix "." name = false -> located name s parent path s0 -> (script = true -> top_level name) -> no_spec name path finders s0 s1 ->
    exists e, main name script s = (Err e, s1) /\ e_cls e = "ModuleNotFoundError"%string.
  Proof.
    intros Hr Hl Hs Hn. rewrite (main_located _ _ _ _ _ _ Hr Hl Hs). unfold MainModel.as_main.
    assert (Q : exists e, find_spec finders name path s0 = (Err e, s1) /\ e_cls e = "ModuleNotFoundError"%string).
    { clear Hl. induction Hn as [s'|f r s' s1' s2' H H0 IH|r s' s1' H IH]; cbn [find_spec]; [eexists; split; reflexivity|rewrite H; exact IH|exact IH]. }
    destruct Q as (e & -> & He). exists e. auto.
  Qed.
  Theorem C62_refused name s : (String.prefix "." name = true -> forall script, main name script s = (Err (mkExn "ImportError" []), s)) /\
    (forall parent child, String.prefix "." name = false -> child_of name parent child -> main name true s = (Err (mkExn "ValueError" []), s)).
  Proof.
    split; unfold import_module_as_main; [intros -> script; reflexivity|]. intros parent child -> Hc. rewrite (child_rsplit _ _ _ Hc). reflexivity.
  Qed.
End Statements.
Print Assumptions C62_program_runs.
Print Assumptions C62_package_runs.
Print Assumptions C62_not_found.
Print Assumptions C62_refused.

(** ** Scripts *)
Section ScriptName.
  Variable resolve : string -> path.
  Variables (isfile isdir : path -> bool).
  Variables (filename : string) (dir : path) (n : string) (syspath : list string).
  Notation entries := (render dir :: (if isdir (dir ++ ["__pypackages__"%string]) then [render (dir ++ ["__pypackages__"%string])] else []) ++ syspath).
  Notation file := (dir ++ [(n ++ ".py")%string]).
  (** The script [n.py] in a directory. *)
  Hypothesis Hres : resolve filename = file.
  Hypothesis Hfile : isfile file = true.
  Hypothesis Hcomp : Forall component file.
  Hypothesis Hn : top_level n.
  Hypothesis Hdir : resolve (render dir) = dir.
  Hypothesis Hne : syspath <> [].
  (** As in C46; and no entry is the script itself. *)
  Hypothesis Hent : forall s, In s entries -> resolve s <> [].
  Hypothesis Hself : forall s, In s entries -> resolve s <> file.
  Hypothesis Hclear : forall s, In s entries -> String.prefix (render (resolve s)) (render file) = true -> ancestor (resolve s) file.
  Hypothesis Hdepth : forall s s', In s entries -> In s' entries -> ancestor (resolve s) file -> ancestor (resolve s') file -> count_sep s <= count_sep s' -> length (resolve s) <= length (resolve s').

  Lemma new_path : exists p, first_entry dir syspath = Ok p /\ exists r, p = render dir :: r /\ (forall s, In s (local_packages isdir dir p) -> In s entries) /\ exists r', local_packages isdir dir p = render dir :: r'.
  Proof.
    unfold first_entry, local_packages. destruct syspath as [|x q] eqn:Es; [congruence|]. destruct (String.eqb_spec x (render dir)) as [->|Hx]; eexists; (split; [reflexivity|]); eexists; (split; [reflexivity|]);
      destruct (isdir (dir ++ ["__pypackages__"%string])); (split; [|eexists; reflexivity]); cbn [In app]; intuition.
  Qed.
  Lemma sub_prefix a b : substring 0 (String.length a) (a ++ b) = a.
  Proof. induction a as [|c a IH]; cbn; [destruct b; reflexivity|]. rewrite IH. reflexivity. Qed.
  Lemma drop_end_app a b : drop_end (String.length b) (a ++ b) = a.
  Proof. unfold drop_end. rewrite len_append. replace (String.length a + String.length b - String.length b) with (String.length a) by lia. apply sub_prefix. Qed.
  (** PARTIAL: the module is [n], and its directory comes first in sys.path. Missing: the entries of sys.path that C46 excludes, and a script that is itself an entry (a zip file). *)
  Theorem C62_script_module_partial : exists r, script_module resolve isfile isdir filename syspath = Ok (render dir :: r, n).
  Proof.
    unfold script_module. rewrite Hres, Hfile. rewrite removelast_last. destruct new_path as (p & -> & r & Hp & Hin & (r' & Hr')). cbv zeta.
    assert (Hfc : Forall component file /\ file <> []) by (split; [exact Hcomp|destruct dir; discriminate]).
    pose proof (C46_deepest_directory_partial resolve (local_packages isdir dir p) file (fun s H => Hent s (Hin s H)) Hfc (fun s H => Hclear s (Hin s H)) (fun s s' H H' => Hdepth s s' (Hin s H) (Hin s' H'))) as H.
    assert (Hd : In (render dir) (local_packages isdir dir p)) by (rewrite Hr'; left; reflexivity).
    destruct (relativize resolve (local_packages isdir dir p) file) as [[root rel]|e].
    - destruct H as ((s & Hs & ->) & Hmax & q & Hq & ->). specialize (Hmax _ Hd). rewrite Hdir in Hmax. specialize (Hmax ltac:(eexists; reflexivity)).
      assert (Q : resolve s = dir /\ q = [(n ++ ".py")%string]).
      { destruct (exists_last (l := q)) as (q0 & c & ->); [intros ->; rewrite app_nil_r in Hq; exact (Hself s (Hin s Hs) (eq_sym Hq))|]. rewrite app_assoc in Hq. apply app_inj_tail in Hq. destruct Hq as [Hq <-].
        destruct q0 as [|c0 q0]; [rewrite app_nil_r in Hq; auto|]. exfalso. rewrite Hq, app_length in Hmax. cbn in Hmax. lia. }
      destruct Q as [_ ->]. exists r'. rewrite Hr'. f_equal. f_equal. cbn [joined].
      assert (Hc : component (n ++ ".py")) by (rewrite Forall_forall in Hcomp; apply Hcomp; apply in_or_app; right; left; reflexivity).
      rewrite (dots_joined [(n ++ ".py")%string] ltac:(constructor; [exact Hc|constructor])) || (pose proof (dots_joined [(n ++ ".py")%string] ltac:(constructor; [exact Hc|constructor])) as D; cbn [joined] in D; rewrite D).
      destruct (ends_with ".__init__.py" (n ++ ".py")) eqn:E1.
      + exfalso. apply ends_with_iff in E1. destruct E1 as [q Eq]. assert (Eq2 : n = (q ++ ".__init__")%string).
        { change ".__init__.py"%string with (".__init__" ++ ".py")%string in Eq. rewrite <- append_assoc in Eq. rewrite <- (drop_end_app n ".py"), Eq. apply drop_end_app. }
        apply Hn. rewrite Eq2. clear. induction q as [|c q IH]; cbn; auto.
      + assert (E2 : ends_with ".py" (n ++ ".py") = true) by (apply ends_with_iff; eauto). rewrite E2. apply (drop_end_app n ".py").
    - exfalso. destruct H as [_ H]. apply (H _ Hd). rewrite Hdir. eexists. reflexivity.
  Qed.
End ScriptName.
Print Assumptions C62_script_module_partial.
(** What is no file is refused. *)
Theorem C62_no_such_file : forall resolve isfile isdir filename syspath, isfile (resolve filename) = false -> script_module resolve isfile isdir filename syspath = Err (mkExn "FileNotFoundError" []).
Proof. intros resolve isfile isdir filename syspath H. unfold script_module. rewrite H. reflexivity. Qed.
(** With [-m], the current directory comes first. *)
Theorem C62_module_syspath : forall isdir cwd syspath, syspath <> [] -> exists r, module_syspath isdir cwd syspath = Ok (render cwd :: r) /\ incl syspath (render cwd :: r).
Proof.
  intros isdir cwd syspath H. unfold module_syspath, first_entry, local_packages. destruct syspath as [|x q]; [congruence|].
  destruct (String.eqb_spec x (render cwd)) as [->|]; destruct (isdir _); eexists; (split; [reflexivity|]); intros y; cbn [In]; intuition.
Qed.
Print Assumptions C62_no_such_file.
Print Assumptions C62_module_syspath.

(** ** Examples *)
(** A process in which the modules [prog], [pkg], [pkg.mod], [pkg.sub] (a package) and [space] (a namespace package) can be found; macropython is module 1. The log: what has been imported and executed. *)
Definition z_log (e : string) (s : mst (list string)) : mst (list string) := mkMst (m_sys s) (m_attr s) (m_next s) (m_uuid s) (m_user s ++ [e]).
Definition z_import (fails : string -> option exn) (x : string) (s : mst (list string)) : res nat * mst (list string) :=
  match fails x with Some e => (Err e, z_log ("import " ++ x) s) | None => (Ok 7, z_log ("import " ++ x) s) end.
Definition z_spec (x : string) : option (mspec string) :=
  if String.eqb x "prog" then Some (mkSpec (Some "/home/prog.py"%string) (Some "prog"%string) None)
  else if String.eqb x "pkg" then Some (mkSpec (Some "/home/pkg/__init__.py"%string) (Some "pkg"%string) (Some ["/home/pkg"%string]))
  else if String.eqb x "pkg.mod" then Some (mkSpec (Some "/home/pkg/mod.py"%string) (Some "pkg.mod"%string) None)
  else if String.eqb x "pkg.sub" then Some (mkSpec (Some "/home/pkg/sub/__init__.py"%string) (Some "pkg.sub"%string) (Some ["/home/pkg/sub"%string]))
  else if String.eqb x "space" then Some (mkSpec None None (Some ["/home/space"%string]))
  else None.
Definition z_finders : list (option (string -> option (list string) -> mst (list string) -> res (option (mspec string)) * mst (list string))) :=
  [None; Some (fun _ _ s => (Ok None, s)); Some (fun x _ s => (Ok (z_spec x), s))].
Definition z_new (sp : mspec string) (s : mst (list string)) : res nat * mst (list string) := (Ok (m_next s), mkMst (m_sys s) (m_attr s) (S (m_next s)) (m_uuid s) (m_user s)).
Definition z_exec (raises : option exn) (ld : string) (m : nat) (s : mst (list string)) : res unit * mst (list string) :=
  (match raises with Some e => Err e | None => Ok tt end, z_log ("run " ++ ld) s).
Definition z_isexc (e : exn) : bool := negb (String.eqb (e_cls e) "SystemExit").
Definition z_isimport (e : exn) : bool := String.eqb (e_cls e) "ImportError" || String.eqb (e_cls e) "ModuleNotFoundError".
Definition z_msg (e : exn) : option string := match e_args e with x :: _ => Some x | [] => None end.
Definition z_main (fails : string -> option exn) (raises : option exn) :=
  import_module_as_main (z_import fails) (fun _ _ => Ok (Some ["/home/pkg"%string])) z_finders z_new (fun _ p s => z_log ("package " ++ p) s) (fun _ _ s => s) (z_exec raises) z_isexc z_isimport z_msg 1.
Definition z_s : mst (list string) := mkMst [("__main__"%string, 1)] [] 10 0 [].
Definition z_ok (_ : string) : option exn := None.
Example C62_example : (let (r, s) := z_main z_ok None "pkg.mod" false z_s in (r, m_sys s, m_user s)) = (Ok 10, [("__main__"%string, 10)], ["import pkg"; "package pkg"; "run pkg.mod"]%string) /\
  (let (r, s) := z_main z_ok (Some (mkExn "ValueError" [])) "prog" true z_s in (r, m_sys s, m_user s)) = (Err (mkExn "ValueError" []), [("__main__"%string, 1)], ["package "; "run prog"]%string) /\
  (let (r, s) := z_main z_ok None "pkg" false z_s in (r, m_user s)) = (Ok 10, ["package pkg"; "import pkg"; "import pkg.__main__"]%string).
Proof. repeat split; vm_compute; reflexivity. Qed.
Example C62_example_hypotheses : exists s1 s2 sp, located (z_import z_ok) (fun _ _ => Ok (Some ["/home/pkg"%string])) "pkg.mod" z_s "pkg" (Some ["/home/pkg"%string]) s1 /\
  first_spec "pkg.mod" (Some ["/home/pkg"%string]) z_finders s1 sp s2 /\ sp_loader sp = Some "pkg.mod"%string.
Proof.
  eexists _, _, _. split; [|split].
  - apply (lc_child _ _ _ _ "pkg" "mod" 7); [split; [reflexivity|]; cbn; intuition discriminate|reflexivity|reflexivity].
  - apply fs_skip. eapply fs_next; [reflexivity|]. apply fs_found. reflexivity.
  - reflexivity.
Qed.
(** A script: /home/me/prog.py, with /usr/lib in sys.path. *)
Definition z_resolve (s : string) : path := if String.eqb s "prog.py" then ["home"; "me"; "prog.py"]%string else if String.eqb s "/home/me" then ["home"; "me"]%string else ["usr"; "lib"]%string.
Example C62_example_script : exists r, script_module z_resolve (fun _ => true) (fun _ => false) "prog.py" ["/usr/lib"%string] = Ok ("/home/me"%string :: r, "prog"%string).
Proof.
  assert (A : ancestor ["home"; "me"]%string ["home"; "me"; "prog.py"]%string) by (exists ["prog.py"%string]; reflexivity).
  apply (C62_script_module_partial z_resolve (fun _ => true) (fun _ => false) "prog.py" ["home"; "me"]%string "prog" ["/usr/lib"%string]); [reflexivity|reflexivity| | |reflexivity|discriminate| | | |].
  - repeat (constructor; [split; [vm_compute; discriminate|reflexivity]|]). constructor.
  - unfold top_level. cbn. intuition discriminate.
  - intros s [<-|[<-|[]]]; vm_compute; discriminate.
  - intros s [<-|[<-|[]]]; vm_compute; discriminate.
  - intros s [<-|[<-|[]]]; [intros _; exact A|vm_compute; discriminate].
  - intros s s' [<-|[<-|[]]] [<-|[<-|[]]]; vm_compute; intros; lia.
Qed.

(** ** Refuted *)
(** "Upon success, replaces sys.modules["__main__"] with the module that was imported": not for a package. *)
Theorem C62_main_replaced_refuted : exists s', z_main z_ok None "pkg" false z_s = (Ok 10, s') /\ sget "__main__" (m_sys s') = Some 1.
Proof. eexists. split; vm_compute; reflexivity. Qed.
Print Assumptions C62_main_replaced_refuted.
(** [-m pkg.sub], "like python -m mod": the [__init__.py] of the package is executed as the main program, its [__main__.py] is not run; and [__package__] is that of the parent. *)
Theorem C62_subpackage_refuted : exists s', z_main z_ok None "pkg.sub" false z_s = (Ok 10, s') /\ m_user s' = ["import pkg"; "package pkg"; "run pkg.sub"]%string /\
  exists p, z_spec "pkg.sub" = Some (mkSpec (Some (p ++ "__init__.py")%string) (Some "pkg.sub"%string) (Some ["/home/pkg/sub"%string])).
Proof. eexists. split; [vm_compute; reflexivity|]. split; [reflexivity|]. exists "/home/pkg/sub/"%string. reflexivity. Qed.
Print Assumptions C62_subpackage_refuted.
(** [-m space], a namespace package (its spec has neither an origin nor a loader): AttributeError, its [__main__.py] is not run. *)
Theorem C62_namespace_package_refuted : exists s', z_main z_ok None "space" false z_s = (Err (mkExn "AttributeError" []), s') /\ m_user s' = [].
Proof. eexists. split; vm_compute; reflexivity. Qed.
Print Assumptions C62_namespace_package_refuted.
(** "Upon failure, propagates any exception raised": if the [__main__.py] of the package imports a missing module, it is claimed that there is no [__main__.py]. *)
Theorem C62_propagates_refuted : exists e s', z_main (fun x => if String.eqb x "pkg.__main__" then Some (mkExn "ModuleNotFoundError" ["No module named 'numpy'"%string]) else None) None "pkg" false z_s =
  (Err (mkExn "ImportError" ["No module named pkg.__main__; 'pkg' is a package and cannot be directly executed"%string]), s') /\
  e = mkExn "ModuleNotFoundError" ["No module named 'numpy'"%string] /\ In "import pkg.__main__"%string (m_user s').
Proof. eexists _, _. split; [vm_compute; reflexivity|]. split; [reflexivity|]. cbn. auto. Qed.
Print Assumptions C62_propagates_refuted.
(** After sys.exit in the program, sys.modules["__main__"] is not macropython. *)
Theorem C62_exit_refuted : exists s', z_main z_ok (Some (mkExn "SystemExit" [])) "prog" true z_s = (Err (mkExn "SystemExit" []), s') /\ sget "__main__" (m_sys s') = Some 10.
Proof. eexists. split; vm_compute; reflexivity. Qed.
Print Assumptions C62_exit_refuted.
(** The script /a/bc.py, with the directory /a/b in sys.path: the module [c] is run instead. *)
Theorem C62_script_refuted : exists resolve syspath, Forall (fun s => render (resolve s) = s) ("/a/bc.py" :: "/a" :: syspath)%string /\
  script_module resolve (fun _ => true) (fun _ => false) "/a/bc.py" syspath = Ok ("/a" :: syspath, "c")%string.
Proof.
  exists (fun s => if String.eqb s "/a/bc.py" then ["a"; "bc.py"] else if String.eqb s "/a" then ["a"] else ["a"; "b"])%string, ["/a/b"%string]. split; [repeat constructor|]. vm_compute. reflexivity.
Qed.
Print Assumptions C62_script_refuted.
(** A script with a dot in its name is refused, as it is taken for a module in a package. *)
Theorem C62_dotted_script_refuted : exists p n, script_module (fun s => if String.eqb s "/a" then ["a"] else ["a"; "my.prog.py"])%string (fun _ => true) (fun _ => false) "my.prog.py" ["/a"%string] = Ok (p, n) /\
  z_main z_ok None n true z_s = (Err (mkExn "ValueError" []), z_s).
Proof. eexists _, _. split; vm_compute; reflexivity. Qed.
Print Assumptions C62_dotted_script_refuted.
