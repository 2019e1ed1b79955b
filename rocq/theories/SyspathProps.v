(** C46: match_syspath, relativize, resolve_package. *)
From Verif Require Import Base SyspathModel.
From Coq Require Import Permutation Sorted.

(** A file name component. *)
Definition component (c : string) : Prop := c <> ""%string /\ count_sep c = 0.
Definition ancestor (root file : path) : Prop := exists r, file = root ++ r.

(** Refuted: an entry that only shares a name prefix with the directory of the file is taken. *)
Theorem C46_root_contains_file_refuted : exists resolve syspath file root rel,
  relativize resolve syspath file = Ok (root, rel) /\ ~ ancestor root file /\ Forall (fun s => render (resolve s) = s) syspath.
Proof.
  exists (fun _ => ["a"; "b"]%string), ["/a/b"%string], ["a"; "bc"; "x.py"]%string, ["a"; "b"]%string, "c/x.py"%string.
  split; [vm_compute; reflexivity|]. split; [intros (r & H); discriminate|repeat constructor].
Qed.
Print Assumptions C46_root_contains_file_refuted.
(** Refuted: the depth is that of the text of the entry, not of the directory that it denotes: the entry for the current directory comes last. *)
Theorem C46_deepest_refuted : exists resolve syspath file root rel deeper,
  relativize resolve syspath file = Ok (root, rel) /\ In deeper syspath /\ ancestor (resolve deeper) file /\ length root < length (resolve deeper).
Proof.
  exists (fun s => if String.eqb s "" then ["home"; "me"; "project"] else ["home"])%string, [""; "/home"]%string, ["home"; "me"; "project"; "m.py"]%string, ["home"]%string, "me/project/m.py"%string, ""%string.
  split; [vm_compute; reflexivity|]. split; [left; reflexivity|]. split; [exists ["m.py"%string]; reflexivity|cbn; lia].
Qed.
Print Assumptions C46_deepest_refuted.
(** Refuted: the root directory has as many separators as a directory directly under it. *)
Theorem C46_filesystem_root_refuted : exists resolve syspath file rel,
  Forall (fun s => render (resolve s) = s) syspath /\ In "/srv"%string syspath /\ ancestor (resolve "/srv"%string) file /\ relativize resolve syspath file = Ok ([], rel) /\ length (resolve "/srv"%string) = 1.
Proof.
  exists (fun s => if String.eqb s "/srv" then ["srv"] else [])%string, ["/srv"; "/"]%string, ["srv"; "m.py"]%string, "srv/m.py"%string.
  split; [repeat constructor|]. split; [left; reflexivity|]. split; [exists ["m.py"%string]; reflexivity|]. split; [vm_compute; reflexivity|reflexivity].
Qed.
Print Assumptions C46_filesystem_root_refuted.

(** ** Sorting *)
Lemma insert_perm a l : Permutation (a :: l) (insert a l).
Proof.
  induction l as [|b r IH]; cbn [insert]; [reflexivity|]. destruct (key_leb a b); [reflexivity|].
  rewrite perm_swap. apply perm_skip. exact IH.
Qed.
Lemma sorted_perm l : Permutation l (sorted_ l).
Proof. induction l as [|a l IH]; [reflexivity|]. cbn [sorted_ fold_right]. rewrite <- insert_perm. apply perm_skip. exact IH. Qed.
Definition deeper_first (a b : string) : Prop := count_sep b <= count_sep a.
Lemma insert_sorted a l : StronglySorted deeper_first l -> StronglySorted deeper_first (insert a l).
Proof.
  induction 1 as [|b r Hr IH Hb]; cbn [insert]; [repeat constructor|].
  destruct (key_leb a b) eqn:Ek.
  - assert (count_sep b <= count_sep a).
    { unfold key_leb in Ek. apply orb_true_iff in Ek. destruct Ek as [Ek|Ek]; [apply Nat.ltb_lt in Ek; lia|]. apply andb_true_iff in Ek. destruct Ek as [Ek _]. apply Nat.eqb_eq in Ek. lia. }
    constructor; [constructor; assumption|]. constructor; [exact H|]. eapply Forall_impl; [|exact Hb]. unfold deeper_first. intros x Hx. lia.
  - constructor; [exact IH|]. apply (Permutation_Forall (insert_perm a r)). constructor; [|exact Hb].
    unfold deeper_first, key_leb in *. apply orb_false_iff in Ek. destruct Ek as [E1 _]. apply Nat.ltb_ge in E1. exact E1.
Qed.
Lemma sorted_sorted l : StronglySorted deeper_first (sorted_ l).
Proof. induction l as [|a l IH]; [constructor|]. cbn [sorted_ fold_right]. apply insert_sorted. exact IH. Qed.

(** ** Paths as text *)
Lemma count_app a b : count_sep (a ++ b) = count_sep a + count_sep b.
Proof. induction a as [|c a IH]; [reflexivity|]. cbn [String.append count_sep]. rewrite IH. lia. Qed.
Lemma slashed_app a b : slashed (a ++ b) = (slashed a ++ slashed b)%string.
Proof. induction a as [|c a IH]; [reflexivity|]. cbn [app slashed String.append]. rewrite IH. f_equal. clear. induction c as [|x c IH]; [reflexivity|]. cbn [String.append]. rewrite IH. reflexivity. Qed.
Lemma count_slashed p : Forall component p -> count_sep (slashed p) = length p.
Proof. induction 1 as [|c p [_ Hc] Hp IH]; [reflexivity|]. cbn [slashed count_sep length]. rewrite count_app, Hc, IH. reflexivity. Qed.
Lemma prefix_app a b : String.prefix a (a ++ b) = true.
Proof. induction a as [|x a IH]; [destruct b; reflexivity|]. cbn [String.append String.prefix]. destruct (ascii_dec x x); [exact IH|congruence]. Qed.
Lemma drop_app a b : drop (String.length a) (a ++ b) = b.
Proof. induction a as [|x a IH]; [destruct b; reflexivity|]. exact IH. Qed.
Lemma append_nil s : (s ++ "")%string = s.
Proof. induction s as [|x s IH]; [reflexivity|]. cbn [String.append]. rewrite IH. reflexivity. Qed.

(** The relative path of the remaining components. *)
Fixpoint joined (sep : ascii) (p : path) : string := match p with [] => "" | [c] => c | c :: r => c ++ String sep (joined sep r) end.
Lemma slashed_joined c p : slashed (c :: p) = String "/" (joined "/" (c :: p)).
Proof.
  revert c. induction p as [|d p IH]; intros c; [cbn [slashed joined]; rewrite append_nil; reflexivity|].
  change (slashed (c :: d :: p)) with (String "/" (c ++ slashed (d :: p))). rewrite IH. reflexivity.
Qed.

Section C46.
  Variable resolve : string -> path.
  Variable syspath : list string.
  Variable file : path.
  (** No entry denotes the root directory. *)
  Hypothesis Hent : forall s, In s syspath -> resolve s <> [].
  Hypothesis Hfile : Forall component file /\ file <> [].
  (** No entry shares only a name prefix with an ancestor of the file. *)
  Hypothesis Hclear : forall s, In s syspath -> String.prefix (render (resolve s)) (render file) = true -> ancestor (resolve s) file.
  (** Of two entries that contain the file, the one with more separators is the deeper one (as is the case if both are absolute and in
      normal form). *)
  Hypothesis Hdepth : forall s s', In s syspath -> In s' syspath -> ancestor (resolve s) file -> ancestor (resolve s') file ->
    count_sep s <= count_sep s' -> length (resolve s) <= length (resolve s').

  Lemma ancestor_prefix e r : e <> [] -> file = e ++ r -> render file = (render e ++ slashed r)%string.
  Proof.
    intros He ->. destruct e as [|c e]; [congruence|]. cbn [app render]. change (c :: e ++ r) with ((c :: e) ++ r). rewrite slashed_app. reflexivity.
  Qed.
  Lemma entry_of s : In s (sorted_ syspath) <-> In s syspath.
  Proof. split; apply Permutation_in; [symmetry|]; apply sorted_perm. Qed.
  Definition right_root (root : path) : Prop :=
    (exists s, In s syspath /\ root = resolve s) /\ forall s, In s syspath -> ancestor (resolve s) file -> length (resolve s) <= length root.
  Lemma first_match_ok : forall l, StronglySorted deeper_first l -> (forall s, In s l -> In s syspath) ->
    match first_match resolve l (render file) with
    | Ok root => (exists s, In s l /\ root = resolve s) /\ ancestor root file /\ forall s, In s l -> ancestor (resolve s) file -> length (resolve s) <= length root
    | Err e => e = mkExn "ValueError" [] /\ forall s, In s l -> ~ ancestor (resolve s) file
    end.
  Proof.
    induction 1 as [|s l Hl IH Hs]; intros Hin; cbn [first_match]; [split; [reflexivity|intros s []]|].
    assert (He := Hin s (or_introl eq_refl)).
    assert (Hin' : forall s, In s l -> In s syspath) by (intros s' H'; apply Hin; right; exact H'). specialize (IH Hin').
    destruct (String.prefix (render (resolve s)) (render file)) eqn:Ep.
    - split; [exists s; split; [left; reflexivity|reflexivity]|]. assert (Ha := Hclear s He Ep). split; [exact Ha|]. intros s' [<-|Hs'] Ha'; [lia|].
      rewrite Forall_forall in Hs. apply (Hdepth s' s (Hin' s' Hs') He Ha' Ha). exact (Hs s' Hs').
    - assert (Hne : ~ ancestor (resolve s) file). { intros (r & Hf). rewrite (ancestor_prefix _ r (Hent s He) Hf), prefix_app in Ep. discriminate. }
      destruct (first_match resolve l (render file)) as [root|x].
      + destruct IH as ((s0 & H1 & H1') & H2 & H3). split; [exists s0; split; [right; exact H1|exact H1']|]. split; [exact H2|]. intros s' [<-|Hs'] Ha; [contradiction|exact (H3 s' Hs' Ha)].
      + destruct IH as (H1 & H2). split; [exact H1|]. intros s' [<-|Hs'] Ha; [contradiction|exact (H2 s' Hs' Ha)].
  Qed.
  Lemma match_ok : match match_syspath resolve syspath file with
    | Ok root => right_root root /\ ancestor root file
    | Err e => e = mkExn "ValueError" [] /\ forall s, In s syspath -> ~ ancestor (resolve s) file
    end.
  Proof.
    pose proof (first_match_ok (sorted_ syspath) (sorted_sorted syspath) (fun s => proj1 (entry_of s))) as H. unfold match_syspath.
    destruct (first_match resolve (sorted_ syspath) (render file)) as [root|x].
    - destruct H as ((s0 & H1 & H1') & H2 & H3). split; [|exact H2]. split; [exists s0; split; [apply entry_of; exact H1|exact H1']|]. intros s Hs. apply H3. apply entry_of. exact Hs.
    - destruct H as (H1 & H2). split; [exact H1|]. intros s Hs. apply H2. apply entry_of. exact Hs.
  Qed.
  (** PARTIAL: the deepest directory denoted by an entry that contains the file, and the rest of the path; ValueError if and only if no entry
      contains it. Missing: entries that share a name prefix with an ancestor of the file, that denote the root directory, or whose text
      has a misleading number of separators (all refuted). *)
  Theorem C46_deepest_directory_partial :
    match relativize resolve syspath file with
    | Ok (root, rel) => (exists s, In s syspath /\ root = resolve s) /\ (forall s, In s syspath -> ancestor (resolve s) file -> length (resolve s) <= length root) /\
                        exists r, file = root ++ r /\ rel = joined "/" r
    | Err e => e = mkExn "ValueError" [] /\ forall s, In s syspath -> ~ ancestor (resolve s) file
    end.
  Proof.
    unfold relativize. pose proof match_ok as H. destruct (match_syspath resolve syspath file) as [root|x]; [|exact H].
    destruct H as ((H1 & H3) & (r & Hr)). cbv zeta. split; [exact H1|]. split; [exact H3|]. exists r. split; [exact Hr|].
    assert (Hn : root <> []) by (destruct H1 as (s & Hs & ->); exact (Hent s Hs)).
    rewrite (ancestor_prefix root r Hn Hr), drop_app. destruct r as [|c r]; [reflexivity|]. rewrite slashed_joined.
    cbn [String.prefix drop]. destruct (ascii_dec "/" "/") as [_|N]; [|congruence]. destruct (joined "/" (c :: r)); reflexivity.
  Qed.
  Lemma dots_joined : forall r, Forall component r -> dots (joined "/" r) = joined "." r.
  Proof.
    assert (Hd : forall a b, dots (a ++ b) = (dots a ++ dots b)%string) by (induction a as [|x a IH]; intros b; [reflexivity|]; cbn [String.append dots]; rewrite IH; reflexivity).
    assert (Hc : forall a, count_sep a = 0 -> dots a = a).
    { induction a as [|x a IH]; intros H; [reflexivity|]. cbn [count_sep dots] in *. destruct (Ascii.eqb x "/"); [lia|]. rewrite IH; [reflexivity|lia]. }
    induction 1 as [|c r [_ H] Hr IH]; [reflexivity|]. destruct r as [|d r]; [cbn [joined]; apply Hc; exact H|].
    change (joined "/" (c :: d :: r)) with (c ++ String "/" (joined "/" (d :: r)))%string. rewrite Hd, (Hc c H). cbn [dots]. rewrite IH. reflexivity.
  Qed.
  (** The package of the files in this directory: the components below the deepest entry, with dots; ImportError in an entry itself. *)
  Theorem C46_package_name_partial :
    match resolve_package resolve syspath file with
    | Ok name => exists root r, (exists s, In s syspath /\ root = resolve s) /\ (forall s, In s syspath -> ancestor (resolve s) file -> length (resolve s) <= length root) /\
                   file = root ++ r /\ r <> [] /\ name = joined "." r
    | Err e => ((exists s, In s syspath /\ file = resolve s) /\ e = mkExn "ImportError" []) \/ (e = mkExn "ValueError" [] /\ forall s, In s syspath -> ~ ancestor (resolve s) file)
    end.
  Proof.
    unfold resolve_package. pose proof C46_deepest_directory_partial as H. destruct (relativize resolve syspath file) as [[root rel]|e]; [|right; exact H].
    destruct H as (H1 & H2 & r & Hf & ->). destruct r as [|c r].
    - left. rewrite app_nil_r in Hf. subst root. split; [exact H1|reflexivity].
    - assert (Hr : Forall component (c :: r)) by (destruct Hfile as [Hc _]; rewrite Hf in Hc; apply Forall_app in Hc; exact (proj2 Hc)).
      assert (Hne : exists x s, joined "/" (c :: r) = String x s).
      { inversion Hr as [|? ? [Hc _] _]; subst. destruct c as [|x c]; [congruence|]. destruct r; eexists _, _; reflexivity. }
      destruct Hne as (x & s & Hne). rewrite Hne. rewrite <- Hne. exists root, (c :: r). split; [exact H1|]. split; [exact H2|]. split; [exact Hf|]. split; [discriminate|]. apply dots_joined. exact Hr.
  Qed.
End C46.
Print Assumptions C46_deepest_directory_partial.
Print Assumptions C46_package_name_partial.

(** A case that meets the hypotheses, with nested entries, one of them the current directory. *)
Definition c46_resolve (s : string) : path :=
  if String.eqb s "" then ["home"; "me"]%string else if String.eqb s "/u/lib" then ["u"; "lib"]%string else if String.eqb s "~/x/../py" then ["u"; "lib"; "py"; "site"]%string else ["opt"%string].
Example C46_example : let syspath := [""; "/u/lib"; "/opt"; "~/x/../py"]%string in let file := ["u"; "lib"; "py"; "site"; "pkg"; "sub"]%string in
  (forall s, In s syspath -> c46_resolve s <> []) /\ Forall component file /\
  (forall s, In s syspath -> String.prefix (render (c46_resolve s)) (render file) = true -> ancestor (c46_resolve s) file) /\
  (forall s s', In s syspath -> In s' syspath -> ancestor (c46_resolve s) file -> ancestor (c46_resolve s') file ->
    count_sep s <= count_sep s' -> length (c46_resolve s) <= length (c46_resolve s')) /\
  relativize c46_resolve syspath file = Ok (["u"; "lib"; "py"; "site"], "pkg/sub")%string /\ resolve_package c46_resolve syspath file = Ok "pkg.sub"%string /\
  relativize c46_resolve syspath ["home"; "me"; "m.py"]%string = Ok (["home"; "me"], "m.py")%string.
Proof.
  cbv zeta. split; [|split; [|split; [|split; [|split; [|split]]]]].
  - intros s [<-|[<-|[<-|[<-|[]]]]]; discriminate.
  - repeat constructor; discriminate.
  - intros s [<-|[<-|[<-|[<-|[]]]]] H; [discriminate|exists ["py"; "site"; "pkg"; "sub"]%string; reflexivity|discriminate|exists ["pkg"; "sub"]%string; reflexivity].
  - intros s s' [<-|[<-|[<-|[<-|[]]]]] [<-|[<-|[<-|[<-|[]]]]] (r & H) (r' & H') L; vm_compute in H, H', L |- *; first [discriminate|lia].
  - vm_compute. reflexivity.
  - vm_compute. reflexivity.
  - vm_compute. reflexivity.
Qed.
