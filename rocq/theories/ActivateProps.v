(** C67: activating and deactivating mcpyrate. *)
From Verif Require Import Base ActivateModel.

Section Spec.
  Context {code : Type}.
  Variable compiled : hook -> string -> code.
  Variable mtime : hook -> string -> Z.
  Variable size : hook -> string -> option Z.
  Variable filesize : string -> Z.
  Notation run := (run compiled mtime size filesize).

  (** mcpyrate has been switched on, by the first [import mcpyrate.activate] or by calling [activate] later, and not off since. *)
  Definition active (cs : list cmd) : Prop :=
    exists a c b, cs = a ++ c :: b /\ (c = CLoad /\ ~ In CLoad a \/ c = CActivate /\ In CLoad a) /\ ~ In CDeactivate b.
  (** A process in which [mcpyrate.activate] has not been imported. *)
  Definition before (p : proc code) : Prop := saved p = None.
  Definition no_patch (cs : list cmd) : Prop := forall c s, ~ In (CPatch c s) cs.

  Lemma run_snoc cs c p : run (cs ++ [c]) p = step compiled mtime size filesize (run cs p) c.
  Proof. unfold ActivateModel.run. rewrite fold_left_app. reflexivity. Qed.
  Lemma active_snoc cs c : (c = CDeactivate -> ~ active (cs ++ [c])) /\
    ((c = CLoad /\ ~ In CLoad cs \/ c = CActivate /\ In CLoad cs) -> active (cs ++ [c])) /\
    (c <> CDeactivate -> ~ (c = CLoad /\ ~ In CLoad cs \/ c = CActivate /\ In CLoad cs) -> (active (cs ++ [c]) <-> active cs)).
  Proof.
    assert (S : forall a x b, cs ++ [c] = a ++ x :: b -> (b = [] /\ a = cs /\ x = c) \/ exists b', b = b' ++ [c] /\ cs = a ++ x :: b').
    { intros a x b E. destruct b as [|y b _] using rev_ind; [left; apply app_inj_tail in E as [-> ->]; auto|right]. exists b. rewrite app_comm_cons, app_assoc in E. apply app_inj_tail in E as [-> ->]. auto. }
    split; [|split].
    - intros -> (a & x & b & E & Hx & Hb). destruct (S a x b E) as [(-> & -> & ->)|(b' & -> & ->)]; [destruct Hx as [[H _]|[H _]]; discriminate|]. apply Hb. apply in_or_app. right. left. reflexivity.
    - intros H. exists cs, c, []. split; [reflexivity|]. split; [exact H|intros []].
    - intros Hc Hn. split.
      + intros (a & x & b & E & Hx & Hb). destruct (S a x b E) as [(-> & -> & ->)|(b' & -> & ->)]; [contradiction|]. exists a, x, b'. split; [reflexivity|]. split; [exact Hx|]. intros Hi. apply Hb. apply in_or_app. left. exact Hi.
      + intros (a & x & b & -> & Hx & Hb). exists a, x, (b ++ [c]). split; [rewrite <- app_assoc; reflexivity|]. split; [exact Hx|]. intros Hi. apply in_app_or in Hi as [Hi|[Hi|[]]]; [contradiction|congruence].
  Qed.
  Definition hooks_are (c s : hook) (p : proc code) : Prop := h_code p = c /\ h_stats p = s.
  Lemma cmd_load_dec (cs : list cmd) : {In CLoad cs} + {~ In CLoad cs}.
  Proof. induction cs as [|c cs IH]; [right; intros []|]. destruct c; try (destruct IH as [IH|IH]; [left; right; exact IH|right; intros [H|H]; [discriminate|contradiction]]). left. left. reflexivity. Qed.

  Lemma run_inv cs p : before p -> no_patch cs ->
    (saved (run cs p) = if cmd_load_dec cs then Some (h_code p, h_stats p) else None) /\
    ((active cs /\ hooks_are Mc Mc (run cs p)) \/ (~ active cs /\ hooks_are (h_code p) (h_stats p) (run cs p))) /\ (active cs -> In CLoad cs).
  Proof.
    intros Hp. induction cs as [|c cs IH] using rev_ind; intros Hn.
    - cbn. split; [destruct (cmd_load_dec []) as [[]|]; exact Hp|]. split; [right; split; [intros (a & x & b & E & _); destruct a; discriminate|split; reflexivity]|intros (a & x & b & E & _); destruct a; discriminate].
    - destruct IH as (I1 & I2 & I3); [intros c' s' Hi; apply (Hn c' s'); apply in_or_app; left; exact Hi|]. destruct (active_snoc cs c) as (A1 & A2 & A3).
      assert (L : In CLoad (cs ++ [c]) <-> In CLoad cs \/ c = CLoad) by (rewrite in_app_iff; cbn; intuition congruence).
      rewrite run_snoc. destruct c as [| | |f|hc hs].
      + cbn [step]. unfold import_activate. destruct (cmd_load_dec (cs ++ [CLoad])) as [H|H]; [|exfalso; apply H; apply L; right; reflexivity].
        destruct (cmd_load_dec cs) as [K|K]; rewrite I1.
        * split; [exact I1|]. assert (Q : active (cs ++ [CLoad]) <-> active cs) by (apply A3; [discriminate|intros [[_ X]|[X _]]; [contradiction|discriminate]]). rewrite Q. split; [exact I2|]. intros _. exact H.
        * cbn. destruct I2 as [[X _]|[_ [X1 X2]]]; [exfalso; apply K, I3, X|]. rewrite X1, X2. split; [reflexivity|]. split; [left; split; [apply A2; left; auto|split; reflexivity]|intros _; exact H].
      + cbn [step]. destruct (cmd_load_dec cs) as [K|K]; rewrite I1; destruct (cmd_load_dec (cs ++ [CActivate])) as [H|H].
        * cbn. split; [exact I1|]. split; [left; split; [apply A2; right; auto|split; reflexivity]|intros _; exact H].
        * exfalso. apply H, L. left. exact K.
        * exfalso. apply L in H as [H|H]; [contradiction|discriminate].
        * assert (Q : active (cs ++ [CActivate]) <-> active cs) by (apply A3; [discriminate|intros [[X _]|[_ X]]; [discriminate|contradiction]]). rewrite Q. split; [exact I1|]. split; [exact I2|]. intros X. exfalso. apply K, I3, X.
      + cbn [step]. unfold deactivate. destruct (cmd_load_dec cs) as [K|K]; rewrite I1; destruct (cmd_load_dec (cs ++ [CDeactivate])) as [H|H].
        * cbn. split; [exact I1|]. split; [right; split; [apply A1; reflexivity|split; reflexivity]|intros _; exact H].
        * exfalso. apply H, L. left. exact K.
        * exfalso. apply L in H as [H|H]; [contradiction|discriminate].
        * split; [exact I1|]. destruct I2 as [[X _]|[_ X]]; [exfalso; apply K, I3, X|]. split; [right; split; [apply A1; reflexivity|exact X]|]. intros Y. exfalso. apply (A1 eq_refl Y).
      + assert (Q : active (cs ++ [CImport f]) <-> active cs) by (apply A3; [discriminate|intros [[X _]|[X _]]; discriminate]). rewrite Q.
        assert (E : saved (step compiled mtime size filesize (run cs p) (CImport f)) = saved (run cs p) /\ h_code (step compiled mtime size filesize (run cs p) (CImport f)) = h_code (run cs p) /\ h_stats (step compiled mtime size filesize (run cs p) (CImport f)) = h_stats (run cs p)).
        { cbn [step]. unfold import. destruct (fresh_pyc _ _ _ f); repeat split. }
        destruct E as (-> & E1 & E2). unfold hooks_are. rewrite E1, E2. split; [|split; [exact I2|intros X; apply L; left; apply I3, X]].
        rewrite I1. destruct (cmd_load_dec cs) as [K|K]; destruct (cmd_load_dec (cs ++ [CImport f])) as [H|H]; try reflexivity; exfalso; [apply H, L; left; exact K|apply L in H as [H|H]; [contradiction|discriminate]].
      + exfalso. apply (Hn hc hs). apply in_or_app. right. left. reflexivity.
  Qed.

  (** The hooks are mcpyrate's exactly while it is active; otherwise they are what they were before it was first imported. *)
  Theorem C67_hooks cs p : before p -> no_patch cs ->
    (active cs -> hooks_are Mc Mc (run cs p)) /\ (~ active cs -> hooks_are (h_code p) (h_stats p) (run cs p)).
  Proof. intros Hp Hn. destruct (run_inv cs p Hp Hn) as (_ & [[H1 H2]|[H1 H2]] & _); split; intros H; first [exact H2|contradiction]. Qed.

  (** Without bytecode files, a module is macro-expanded exactly if it is imported while mcpyrate is active. *)
  Lemma nowrite_inv cs p : nowrite p = true -> (forall f, pycs p f = None) -> nowrite (run cs p) = true /\ forall f, pycs (run cs p) f = None.
  Proof.
    intros H1 H2. induction cs as [|c cs [I1 I2]] using rev_ind; [split; assumption|]. rewrite run_snoc. destruct c as [| | |f|hc hs]; cbn [step].
    - unfold import_activate. destruct (saved (run cs p)); split; assumption.
    - destruct (saved (run cs p)); split; assumption.
    - unfold deactivate. destruct (saved (run cs p)) as [[]|]; split; assumption.
    - unfold import, fresh_pyc. rewrite I2. cbn. rewrite I1. split; [reflexivity|exact I2].
    - split; assumption.
  Qed.
  Theorem C67_imports_without_bytecode cs p f : before p -> no_patch cs -> nowrite p = true -> (forall g, pycs p g = None) ->
    (active cs -> log (run (cs ++ [CImport f]) p) = log (run cs p) ++ [(f, compiled Mc f)]) /\
    (~ active cs -> log (run (cs ++ [CImport f]) p) = log (run cs p) ++ [(f, compiled (h_code p) f)]).
  Proof.
    intros Hp Hn H1 H2. destruct (nowrite_inv cs p H1 H2) as [_ N]. destruct (C67_hooks cs p Hp Hn) as [A B]. rewrite run_snoc. cbn [step]. unfold import, fresh_pyc. rewrite N. cbn.
    split; intros H; [destruct (A H) as [-> _]|destruct (B H) as [-> _]]; reflexivity.
  Qed.

  (** With bytecode files: if mcpyrate is never deactivated, and all bytecode files there are were made with it, every import runs expanded code. *)
  Theorem C67_imports_always_active cs p : before p -> no_patch cs -> ~ In CDeactivate cs -> log p = [] ->
    (forall f e, pycs p f = Some e -> p_code e = compiled Mc f) ->
    forall f c, In (f, c) (log (run (CLoad :: cs) p)) -> c = compiled Mc f.
  Proof.
    intros Hp Hn Hd Hl Hk. change (run (CLoad :: cs) p) with (run cs (import_activate p)). unfold import_activate. rewrite Hp.
    set (q := activate _). assert (Q : hooks_are Mc Mc q /\ saved q <> None /\ log q = [] /\ forall f e, pycs q f = Some e -> p_code e = compiled Mc f) by (repeat split; [discriminate|exact Hl|exact Hk]).
    clearbody q. assert (G : hooks_are Mc Mc (run cs q) /\ saved (run cs q) <> None /\ (forall f e, pycs (run cs q) f = Some e -> p_code e = compiled Mc f) /\ forall f c, In (f, c) (log (run cs q)) -> c = compiled Mc f).
    { destruct Q as (Q1 & Q2 & Q3 & Q4). induction cs as [|c cs IH] using rev_ind; [cbn; rewrite Q3; repeat split; try apply Q1; try assumption; intros f c []|].
      destruct IH as ([I1 I1'] & I2 & I3 & I4); [intros c' s' Hi; apply (Hn c' s'); apply in_or_app; left; exact Hi|intros Hi; apply Hd; apply in_or_app; left; exact Hi|].
      rewrite run_snoc. destruct c as [| | |f|hc hs]; cbn [step].
      - unfold import_activate. destruct (saved (run cs q)) eqn:Es; [|contradiction]. split; [split; assumption|]. split; [rewrite Es; discriminate|]. split; [exact I3|exact I4].
      - destruct (saved (run cs q)) eqn:Es; [|contradiction]. unfold activate, set_hooks. cbn. rewrite Es. split; [split; reflexivity|]. split; [discriminate|]. split; [exact I3|exact I4].
      - exfalso. apply Hd. apply in_or_app. right. left. reflexivity.
      - unfold import. destruct (fresh_pyc mtime size (run cs q) f) as [c|] eqn:Ef; cbn.
        + split; [split; assumption|]. split; [exact I2|]. split; [exact I3|]. intros g c' Hi. apply in_app_or in Hi as [Hi|[Hi|[]]]; [apply I4; exact Hi|]. inversion Hi; subst. unfold fresh_pyc in Ef. destruct (pycs (run cs q) g) as [e|] eqn:Ep; [|discriminate].
          destruct (Z.eqb _ _ && _); [|discriminate]. inversion Ef; subst. apply I3. exact Ep.
        + rewrite I1. split; [split; [reflexivity|assumption]|]. split; [exact I2|]. split.
          * intros g e. destruct (nowrite (run cs q)); [apply I3|]. destruct (String.eqb_spec g f) as [->|]; [intros E; inversion E; reflexivity|apply I3].
          * intros g c' Hi. apply in_app_or in Hi as [Hi|[Hi|[]]]; [apply I4; exact Hi|]. inversion Hi; subst. reflexivity.
      - exfalso. apply (Hn hc hs). apply in_or_app. right. left. reflexivity. }
    apply G.
  Qed.
End Spec.
Print Assumptions C67_hooks.
Print Assumptions C67_imports_without_bytecode.
Print Assumptions C67_imports_always_active.

(** ** Examples: code is the hook that made it. The macro definitions of b.py are newer than b.py itself. *)
Definition t_compiled (h : hook) (f : string) : hook := h.
Definition t_mtime (h : hook) (f : string) : Z := match h with Mc => if String.eqb f "b.py" then 200 else 100 | _ => 100 end.
Definition t_size (h : hook) (f : string) : option Z := match h with Mc => None | _ => Some 10%Z end.
Definition t_start (nowr : bool) : proc hook := mkProc Std Std None (fun _ => None) nowr [].
Definition t_run (nowr : bool) (cs : list cmd) : proc hook := run t_compiled t_mtime t_size (fun _ => 10%Z) cs (t_start nowr).
Example C67_example :
  let cs := [CImport "a.py"; CLoad; CImport "a.py"; CDeactivate; CImport "b.py"; CLoad; CImport "c.py"; CActivate; CImport "b.py"] in
  log (t_run true cs) = [("a.py", Std); ("a.py", Mc); ("b.py", Std); ("c.py", Std); ("b.py", Mc)]%string /\
  active cs /\ ~ active [CLoad; CDeactivate; CLoad] /\ h_code (t_run true [CLoad; CDeactivate; CLoad]) = Std /\
  log (t_run false [CLoad; CImport "a.py"; CImport "b.py"; CActivate; CImport "a.py"]) = [("a.py", Mc); ("b.py", Mc); ("a.py", Mc)]%string.
Proof.
  split; [vm_compute; reflexivity|]. split.
  - eexists. eexists CActivate. eexists. split; [exact (eq_refl ([CImport "a.py"; CLoad; CImport "a.py"; CDeactivate; CImport "b.py"; CLoad; CImport "c.py"] ++ CActivate :: [CImport "b.py"]))|].
    split; [right; split; [reflexivity|right; left; reflexivity]|cbn; intuition discriminate].
  - split; [|split; vm_compute; reflexivity]. intros (a & c & b & E & Hc & Hb).
    destruct a as [|x [|y [|z [|w a]]]]; inversion E; subst; cbn in *.
    + apply Hb. left. reflexivity.
    + destruct Hc as [[H _]|[H _]]; discriminate.
    + destruct Hc as [[_ H]|[H _]]; [apply H; left; reflexivity|discriminate].
Qed.

(** Refuted, with bytecode files: a module imported while mcpyrate is active is macro-expanded. If it was imported once without mcpyrate, and its macro
    definitions are not newer than itself, its old bytecode is used; even though the import while inactive usually fails, for want of a module [macros]. *)
Theorem C67_mixed_bytecode_refuted : exists cs f, active cs /\ no_patch cs /\ before (t_start false) /\ log (t_run false (cs ++ [CImport f])) = [(f, Std); (f, Std)] /\ t_compiled Mc f <> Std.
Proof.
  exists [CLoad; CDeactivate; CImport "a.py"; CActivate], "a.py"%string. split; [|split; [intros c s; cbn; intuition discriminate|split; [reflexivity|split; [vm_compute; reflexivity|discriminate]]]].
  exists [CLoad; CDeactivate; CImport "a.py"], CActivate, []. split; [reflexivity|]. split; [right; split; [reflexivity|left; reflexivity]|intros []].
Qed.
Print Assumptions C67_mixed_bytecode_refuted.
(** Refuted: deactivating restores what the other tools have installed. What they install after mcpyrate was first imported is lost. *)
Theorem C67_other_tools_refuted : exists cs, cs = [CLoad; CDeactivate; CPatch (Tool 1) (Tool 2); CActivate; CDeactivate] /\
  hooks_are (Tool 1) (Tool 2) (t_run false (firstn 3 cs)) /\ hooks_are Std Std (t_run false cs).
Proof. eexists. split; [reflexivity|]. vm_compute. repeat split. Qed.
Print Assumptions C67_other_tools_refuted.
