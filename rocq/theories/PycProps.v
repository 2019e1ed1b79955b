(** C59: importing a module does not use outdated bytecode. *)
From Verif Require Import Base AstLib FixLocModel ExpanderModel Dict ImportsModel PhaseModel DialectModel StatsModel StatsSpec StatsProofs StatsProps PycModel PycSpec PycProofs.

Section Statements.
  Context {code : Type}.
  Variable E : env.
  Variable stamp : Z -> Z.
  Variables (is_stdlib ispy : string -> bool) (std : (string -> option file) -> string -> res Z).
  Variable compile : string -> (string -> option file) -> res code.
  Notation lives := (lives E stamp is_stdlib ispy std compile).
  Notation get_code compile := (get_code E stamp is_stdlib ispy std compile).

  (** After any history of changes (two seconds apart, with a clock that runs forward), deletions, imports and lost cache files, importing a source file gives the code
      made from the present contents of the file and of everything it imports macros or dialects from, recursively. *)
  Theorem C59_never_outdated_partial now fs c k writes n p o c' k' : clock_ok E stamp -> only_deps E compile -> lives now fs c k -> is_stdlib p || negb (ispy p) = false ->
    get_code compile fs writes n p c k = Some (Ok o, c', k') -> compile p fs = Ok o.
  Proof.
    intros HC HD HL Hp Hg. destruct (lives_inv E stamp is_stdlib ispy std compile _ _ _ _ HL) as (I1 & I2 & (ver & I3 & I4) & I5). unfold PycModel.get_code in Hg.
    destruct (path_xstats E fs is_stdlib ispy (std fs) n p c) as [[[x|e] c1]|] eqn:Ex; [| |discriminate].
    - pose proof (C37_import_hook E fs is_stdlib ispy (std fs) n p c x c1 (history_coherent _ _ _ I3) Ex) as K. rewrite Hp in K.
      destruct (k p) as [e|] eqn:Ek; [|destruct (compile p fs); inversion Hg; subst; reflexivity].
      destruct (Z.eqb_spec (pc_stamp e) (stamp x)) as [Hs|]; [|destruct (compile p fs); inversion Hg; subst; reflexivity]. inversion Hg; subst.
      exact (made_fresh E stamp compile now fs p e x HC HD I2 I1 (I5 p e Hp Ek) K Hs).
    - destruct (is_oserror e); [|discriminate]. inversion Hg; subst. congruence.
  Qed.

  (** After an import that wrote bytecode, the file is not compiled again as long as it and what it depends on stay as they are: whatever else changes, and whatever the
      compiler would give now. *)
  Theorem C59_cache_used fs n p c x c1 k o c' k' : coherent fs c -> is_stdlib p || negb (ispy p) = false -> path_stats E fs n p c = Some (Ok x, c1) ->
    get_code compile fs true n p c k = Some (Ok o, c', k') ->
    forall compile2 fs2 n2 c2 x2 c3 writes, coherent fs2 c2 -> (forall q, reach E fs p q -> fs q = fs2 q) -> path_stats E fs2 n2 p c2 = Some (Ok x2, c3) ->
    get_code compile2 fs2 writes n2 p c2 k' = Some (Ok o, c3, k').
  Proof.
    intros Hc Hp Hx Hg compile2 fs2 n2 c2 x2 c3 writes Hc2 Ha Hx2.
    assert (Hxx : x2 = x). { apply (newest_unique E fs2 p); [exact (C37_mtime_is_newest E fs2 n2 p c2 x2 c3 Hc2 Hx2)|]. apply (newest_agree E fs fs2 p x Ha). exact (C37_mtime_is_newest E fs n p c x c1 Hc Hx). }
    subst x2. unfold PycModel.get_code, path_xstats in *. rewrite Hp in *. rewrite Hx in Hg. rewrite Hx2.
    assert (K : exists e, k' p = Some e /\ pc_stamp e = stamp x /\ pc_code e = o).
    { destruct (k p) as [e|] eqn:Ek; [destruct (Z.eqb_spec (pc_stamp e) (stamp x)) as [Hs|]|].
      - inversion Hg; subst. eauto.
      - destruct (compile p fs) as [o'|]; [|discriminate]. inversion Hg; subst. unfold kset. rewrite String.eqb_refl. eauto.
      - destruct (compile p fs) as [o'|]; [|discriminate]. inversion Hg; subst. unfold kset. rewrite String.eqb_refl. eauto. }
    destruct K as (e & -> & Hs & <-). rewrite Hs, Z.eqb_refl. reflexivity.
  Qed.
End Statements.
Print Assumptions C59_never_outdated_partial.
Print Assumptions C59_cache_used.

(** ** Examples *)
Definition k_stamp (z : Z) : Z := Z.land (z / second) (Z.ones 32).
Lemma k_range z : in_range z -> k_stamp z = (z / second)%Z.
Proof.
  intros [H1 H2]. unfold k_stamp. rewrite Z.land_ones by lia. apply Z.mod_small. split; [apply Z.div_pos; [exact H1|reflexivity]|].
  apply Z.div_lt_upper_bound; [reflexivity|]. unfold second in *. lia.
Qed.
Lemma k_clock : clock_ok s_env k_stamp.
Proof.
  split; cbn [e_float s_env]; intros a b Ha Hb H; rewrite !k_range by assumption.
  - apply Z.div_le_mono; [reflexivity|exact H].
  - unfold second in *. pose proof (Z.div_mod a 1000000000 ltac:(lia)). pose proof (Z.div_mod b 1000000000 ltac:(lia)).
    pose proof (Z.mod_pos_bound a 1000000000 ltac:(lia)). pose proof (Z.mod_pos_bound b 1000000000 ltac:(lia)). lia.
Qed.
(** A compiler whose output shows the file and the files that it imports macros and dialects from. *)
Definition k_code : Type := list ltree * list (option (res (list ltree))).
Definition k_dep (fs : string -> option file) (i : imp) : option (res (list ltree)) :=
  match i_module i with Some m => if String.eqb m "__self__" then None else option_map f_text (fs m) | None => None end.
Definition k_compile (p : string) (fs : string -> option file) : res k_code :=
  match fs p with
  | None => Err (ierr "FileNotFoundError")
  | Some f => match f_text f with
              | Err e => Err e
              | Ok body => match scan body with Err e => Err e | Ok (ms, ds) => Ok (body, map (k_dep fs) (ms ++ ds)) end
              end
  end.
Lemma k_only : only_deps s_env k_compile.
Proof.
  intros p fs fs' H. unfold k_compile. rewrite <- (H p (re_here _ _ _)). destruct (fs p) as [f|] eqn:Ef; [|reflexivity]. destruct (f_text f) as [body|] eqn:Et; [|reflexivity].
  destruct (scan body) as [[ms ds]|] eqn:Es; [|reflexivity]. f_equal. f_equal. apply map_ext_in. intros i Hi. unfold k_dep. destruct (i_module i) as [m|] eqn:Em; [|reflexivity].
  destruct (String.eqb m "__self__") eqn:Eq; [reflexivity|]. rewrite (H m); [reflexivity|]. apply (re_dep _ _ p m m); [|constructor].
  pose proof (proj1 (scan_iff body (ms, ds) Es i) Hi) as Hh. exists f, body, i, m.
  destruct (any_relative (ms ++ ds)) eqn:Er.
  - apply any_relative_iff in Er. destruct Er as (j & Hj & Hl). exists (Some "pkg"%string), m. repeat split; try assumption.
    + left. exists j, "pkg"%string. split; [apply (scan_iff body (ms, ds) Es); exact Hj|]. auto.
    + cbn. rewrite Eq. reflexivity.
  - exists None, m. repeat split; try assumption.
    + right. split; [|reflexivity]. intros j Hj. apply (scan_iff body (ms, ds) Es) in Hj. destruct (Nat.eq_dec (i_level j) 0) as [|Hn]; [assumption|].
      assert (any_relative (ms ++ ds) = true) by (apply any_relative_iff; exists j; auto). congruence.
    + cbn. rewrite Eq. reflexivity.
Qed.
(** The file a imports macros from b. *)
Definition k_fs (ta tb : Z) (b : list ltree) (p : string) : option file :=
  if String.eqb p "a" then Some (mkFile ta (Ok [s_imp "macros" "b"])) else if String.eqb p "b" then Some (mkFile tb (Ok b)) else None.
Definition k_pass : ltree := Nd noloc "Pass" [].
Definition k_get := get_code s_env k_stamp (fun _ => false) (fun _ => true) (fun _ _ => Ok 0%Z) k_compile.
Notation ka := "a"%string (only parsing).
Definition k_old : k_code := ([s_imp "macros" "b"], [Some (Ok [])]).
Definition k_new : k_code := ([s_imp "macros" "b"], [Some (Ok [k_pass])]).
Definition k_first (ta tb : Z) := k_get (k_fs ta tb []) true 5 ka (fun _ => None) (fun _ => None).
(** Import a, change b after two seconds, import a again: the new contents are used. Without the change, the bytecode is used. *)
Example C59_example : exists c k, k_first (5 * second) (7 * second) = Some (Ok k_old, c, k) /\
  lives s_env k_stamp (fun _ => false) (fun _ => true) (fun _ _ => Ok 0%Z) k_compile (9 * second) (fset "b" (Some (mkFile (9 * second) (Ok [k_pass]))) (k_fs (5 * second) (7 * second) [])) c k /\
  (exists c' k', k_get (fset "b" (Some (mkFile (9 * second) (Ok [k_pass]))) (k_fs (5 * second) (7 * second) [])) true 5 ka c k = Some (Ok k_new, c', k')) /\
  (exists e, k ka = Some e /\ pc_stamp e = 7%Z).
Proof.
  destruct (k_first (5 * second) (7 * second)) as [[[r c] k]|] eqn:Eq; [|vm_compute in Eq; discriminate]. assert (Hr : r = Ok k_old) by (vm_compute in Eq; inversion Eq; reflexivity). subst r.
  exists c, k. split; [reflexivity|]. split; [|split].
  - refine (li_edit _ _ _ _ _ _ (7 * second)%Z _ _ _ "b"%string (mkFile (9 * second) (Ok [k_pass])) _ _ _); [|unfold second; cbn; lia|unfold in_range, second; cbn; lia].
    eapply li_import; [|exact Eq]. apply li_start; [unfold in_range, second; lia|]. intros p f. unfold k_fs, second. destruct (String.eqb p "a"); [intros H; inversion H; cbn; lia|]. destruct (String.eqb p "b"); [intros H; inversion H; cbn; lia|discriminate].
  - vm_compute in Eq. inversion Eq; subst. eexists _, _. vm_compute. reflexivity.
  - vm_compute in Eq. inversion Eq; subst. eexists. split; vm_compute; reflexivity.
Qed.

(** ** Refuted *)
(** The documented claim is that every change of a macro definition file is noticed. It is not, within the second of the newest modification time, although the size of the file changed, too. *)
Theorem C59_same_second_refuted : exists ta tb t c k c' k', k_first ta tb = Some (Ok k_old, c, k) /\ (ta < tb < t)%Z /\
  let fs := fset "b" (Some (mkFile t (Ok [k_pass]))) (k_fs ta tb []) in k_compile ka fs = Ok k_new /\ k_get fs true 5 ka c k = Some (Ok k_old, c', k').
Proof.
  exists (5 * second)%Z, (7 * second)%Z, (7 * second + 500000000)%Z. destruct (k_first (5 * second) (7 * second)) as [[[r c] k]|] eqn:Eq; [|vm_compute in Eq; discriminate].
  assert (Hr : r = Ok k_old) by (vm_compute in Eq; inversion Eq; reflexivity). subst r. vm_compute in Eq. inversion Eq; subst. eexists _, _, _, _. split; [reflexivity|]. split; [unfold second; lia|]. split; vm_compute; reflexivity.
Qed.
Print Assumptions C59_same_second_refuted.
(** Nor is a change that leaves another file of the dependencies newer, such as another version of the file put there with its own modification time. *)
Theorem C59_older_version_refuted : exists ta tb t c k c' k', k_first ta tb = Some (Ok k_old, c, k) /\ (tb + 2 * second <= t)%Z /\ (t + 2 * second <= ta)%Z /\
  let fs := fset "b" (Some (mkFile t (Ok [k_pass]))) (k_fs ta tb []) in k_compile ka fs = Ok k_new /\ k_get fs true 5 ka c k = Some (Ok k_old, c', k').
Proof.
  exists (20 * second)%Z, (7 * second)%Z, (12 * second)%Z. destruct (k_first (20 * second) (7 * second)) as [[[r c] k]|] eqn:Eq; [|vm_compute in Eq; discriminate].
  assert (Hr : r = Ok k_old) by (vm_compute in Eq; inversion Eq; reflexivity). subst r. vm_compute in Eq. inversion Eq; subst. eexists _, _, _, _. split; [reflexivity|]. split; [unfold second; lia|]. split; [unfold second; lia|]. split; vm_compute; reflexivity.
Qed.
Print Assumptions C59_older_version_refuted.
