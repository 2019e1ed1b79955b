(** Property theorems about bunchify: C63. *)
From Verif Require Import Base BunchModel BunchSpec BunchProofs BunchProps BunchifyModel BunchifySpec BunchifyProofs.

(** C63. Any program that uses dicts and bunches together gives the same results, and leaves the same contents, as the same program
    on dictionaries to which the bunches merely refer: what bunchify returns is another name of the dict it was given. Partial: the
    conditions of [bops_ok]; some of them are needed, see below. *)
Theorem C63_view_partial :
  forall (V : Type) (none : V) (veq : V -> V -> bool) (class_attrs : list string) (isident : string -> bool) (l : list (bop V)),
  bops_ok none veq isident class_attrs l view0 ->
  fst (run_bops none veq class_attrs isident l bst0) = fst (view_bops none veq isident l view0) /\
  mem_contents (snd (run_bops none veq class_attrs isident l bst0)) = view_contents (snd (view_bops none veq isident l view0)).
Proof.
  intros V none veq ca isident l H. destruct (bops_rel none veq ca isident l [] bst0 view0 (vrel0 ca) H) as [E [adr R]].
  split; [exact E|]. eapply vrel_contents. exact R.
Qed.
Print Assumptions C63_view_partial.

(** Identifiers, roughly: no digit or hyphen at the beginning. *)
Definition ident0 (s : string) : bool :=
  match s with String c _ => negb (existsb (Ascii.eqb c) ["0"; "1"; "2"; "-"]%char) | EmptyString => false end.
Definition put (k : string) (n : nat) (d : dict nat) : rslt nat * dict nat := (RUnit, dset (KStr k) n d).
(** A dict, seen through two bunches, changed through each and directly; a copy that stays apart. *)
Definition ex63 : list (bop nat) :=
  [BNewDict [(KStr "foo", 1); (KStr "bar", 2)]; BBunchify (ADict 0); BOp (OSetAttr 0 "foo" 10); BOnDict 0 (put "qux" 4);
   BOp (OCopy 0); BBunchify (ADict 0); BOp (ODelItem 2 (KStr "bar")); BOp (OItems 0); BOp (OItems 1); BOnDict 0 (fun d => (RItems d, d));
   BBunchify (ABunch 2); BOp (OClear 1); BHasAttr 0 "qux"; BGetAttr 2 "qux" 0; BOnDict 0 (put "1st" 5); BBunchify (ADict 0); BBunchify AOther]%string.
Example C63_example : bops_ok 0 Nat.eqb ident0 attrs0 ex63 view0 /\
  fst (run_bops 0 Nat.eqb attrs0 ident0 ex63 bst0) =
  [BDict 0; BBunch 0; BRes RUnit; BRes RUnit; BRes (RNew 1); BBunch 2; BRes RUnit;
   BRes (RItems [(KStr "foo", 10); (KStr "qux", 4)]); BRes (RItems [(KStr "foo", 10); (KStr "bar", 2); (KStr "qux", 4)]);
   BRes (RItems [(KStr "foo", 10); (KStr "qux", 4)]); BBunch 2; BRes RUnit; BRes (RBool true); BRes (RVal 4); BRes RUnit;
   BValueError [KStr "1st"]; BTypeError]%string.
Proof.
  split; [|vm_compute; reflexivity].
  assert (P : forall k n d, NoDup (map fst d) -> NoDup (map fst (snd (put k n d)))).
  { intros k n d H. unfold put. cbn [snd]. apply (nodup_dset 0 Nat.eqb). exact H. }
  pose proof (P "qux"%string 4) as P1. pose proof (P "1st"%string 5) as P2. clear P. vm_compute in P1, P2. vm_compute.
  repeat (split; [first [exact I | exact P1 | exact P2 | (intros d Hd; exact Hd) | auto]|]). exact I.
Qed.

(** What is found under a bunch and under a dict. *)
Definition in_bunch {V} (b : nat) (s : bst V) : option (dict V) := option_map snd (data_of b (s_mem s)).
Definition in_dict {V} (h : nat) (s : bst V) : option (dict V) :=
  match nth_error (s_handles s) h with Some i => nth_error (m_dicts (s_mem s)) i | None => None end.

(** Operations that do not make the bunch use another dict: all but b.replace(...) and assignments to its private attributes. *)
Definition keeps {V} (b : nat) (o : bop V) : bool :=
  match o with
  | BOp (OReplace c _) => negb (Nat.eqb b c)
  | BOp (OSetAttr c s _) => negb (Nat.eqb b c && smem s ["_data"; "_reserved_names"]%string)
  | _ => true
  end.

Section Shared.
  Context {V : Type}.
  Variables (none : V) (veq : V -> V -> bool) (class_attrs : list string) (isident : string -> bool).

  Definition tied (b h i : nat) (s : bst V) : Prop :=
    (exists o, nth_error (m_objs (s_mem s)) b = Some o /\ sget "_data" o = Some (SDict i)) /\
    nth_error (s_handles s) h = Some i /\ i < List.length (m_dicts (s_mem s)).

  Lemma tied_same b h i s : tied b h i s -> in_bunch b s = in_dict h s /\ in_dict h s <> None.
  Proof.
    intros [[o [E1 E2]] [E3 E4]]. unfold in_bunch, in_dict, data_of. rewrite E1, E2, E3.
    destruct (nth_error (m_dicts (s_mem s)) i) eqn:E; [cbn; split; [reflexivity|discriminate]|]. apply nth_error_None in E. lia.
  Qed.

  Definition grows (b : nat) (m m' : bmem V) : Prop :=
    List.length (m_dicts m) <= List.length (m_dicts m') /\
    forall o, nth_error (m_objs m) b = Some o -> nth_error (m_objs m') b = Some o.
  Lemma grows_refl b m : grows b m m.
  Proof. split; [lia|auto]. Qed.
  Lemma grows_poke b c m f : grows b m (snd (poke c m f)).
  Proof.
    unfold poke. destruct (data_of c m) as [[i d]|]; [|apply grows_refl]. destruct (f d). cbn [snd]. split; [cbn; rewrite upd_nth_length; lia|auto].
  Qed.
  Lemma grows_peek b c m f : grows b m (snd (peek c m f)).
  Proof. unfold peek. destruct (data_of c m) as [[i d]|]; apply grows_refl. Qed.
  Lemma grows_init b d m : grows b m (snd (bunch_init class_attrs d m)).
  Proof. unfold bunch_init, new_dict. cbn [snd]. split; [cbn; rewrite app_length; lia|]. intros o H. cbn. apply nth_error_app_lt, H. Qed.
  Lemma grows_copy b c m : grows b m (snd (bunch_copy class_attrs c m)).
  Proof.
    unfold bunch_copy. destruct (data_of c m) as [[i d]|]; [|apply grows_refl]. destruct (kw_ok _); [|apply grows_refl].
    pose proof (grows_init b (dupd [] d) m) as H. destruct (bunch_init _ _ _). exact H.
  Qed.
  Lemma grows_op b o m : keeps b (BOp o) = true -> grows b m (snd (run_op none veq class_attrs o m)).
  Proof.
    intros K. destruct o as [kw|c|c e|c s|c s x|c s|c k|c|c|c k|c k x|c k|c|c|c|c k d|c e|c e|c k d|c|c|c kw|c k d]; cbn [run_op]; try apply grows_poke; try apply grows_peek.
    - destruct (kw_ok _); [|apply grows_refl]. pose proof (grows_init b (kwdict kw) m) as H. destruct (bunch_init _ _ _). exact H.
    - apply grows_copy.
    - cbn [keeps] in K. apply negb_true_iff, Nat.eqb_neq in K. destruct (data_of c m); [|apply grows_refl].
      pose proof (grows_copy b e m) as [G1 G2]. destruct (bunch_copy class_attrs e m) as [r m1]. cbn [snd] in *.
      destruct r; cbn [snd]; try (split; assumption). destruct (data_of b0 m1) as [[i d]|]; [|apply grows_refl].
      destruct (nth_error (m_objs m) c); [|apply grows_refl]. cbn [snd]. split; [exact G1|]. intros o Ho. cbn [m_objs]. rewrite nth_upd_other by congruence. exact Ho.
    - unfold bunch_getattr. destruct (nth_error _ c); [|apply grows_refl]. destruct (sget s l) as [[| |]|]; try apply grows_refl.
      destruct (smem s class_attrs); [apply grows_refl|apply grows_peek].
    - cbn [keeps] in K. unfold bunch_setattr. destruct (nth_error (m_objs m) c) eqn:E; [|apply grows_refl].
      destruct (smem s ["_data"; "_reserved_names"]%string) eqn:Es.
      + rewrite andb_true_r in K. apply negb_true_iff, Nat.eqb_neq in K. cbn [snd]. split; [cbn; lia|]. intros o Ho. unfold set_obj. cbn [m_objs]. rewrite nth_upd_other by congruence. exact Ho.
      + destruct (smem s (names_of c m)); [apply grows_refl|apply grows_poke].
    - destruct (data_of c m) as [[? ?]|]; [|apply grows_refl]. destruct (data_of e m) as [[? ?]|]; apply grows_refl.
    - destruct (data_of c m) as [[? ?]|]; [|apply grows_refl]. destruct (data_of e m) as [[? ?]|]; apply grows_refl.
    - destruct (data_of c m); [|apply grows_refl]. destruct (kw_ok _); [apply grows_poke|apply grows_refl].
  Qed.
  Lemma tied_grows b h i m m' hs : tied b h i (mkBst m hs) -> grows b m m' -> tied b h i (mkBst m' hs).
  Proof.
    intros [[o [E1 E2]] [E3 E4]] [G1 G2]. cbn [s_mem s_handles] in *. split; [exists o; split; [apply G2, E1|exact E2]|]. split; [exact E3|]. cbn [s_mem]. lia.
  Qed.
  Lemma tied_bop b h i o s : tied b h i s -> keeps b o = true -> tied b h i (snd (run_bop none veq class_attrs isident o s)).
  Proof.
    intros T K. destruct s as [m hs]. destruct o as [o|l|g f|a|c n|c n x]; cbn [run_bop].
    - unfold with_mem. cbn [snd s_mem s_handles]. eapply tied_grows; [exact T|]. apply grows_op, K.
    - unfold new_dict. cbn [snd s_mem s_handles]. destruct T as [[o [E1 E2]] [E3 E4]]. cbn [s_mem s_handles] in *.
      split; [exists o; auto|]. cbn [s_mem s_handles m_dicts]. split; [apply nth_error_app_lt, E3|]. rewrite app_length. lia.
    - cbn [s_mem s_handles]. destruct (nth_error hs g) as [j|]; [|exact T]. destruct (nth_error (m_dicts m) j) as [d|]; [|exact T]. destruct (f d) as [r d']. cbn [snd].
      eapply tied_grows; [exact T|]. split; [cbn; rewrite upd_nth_length; lia|auto].
    - destruct a as [c|g|]; cbn [bunchify snd]; try exact T. cbn [s_mem s_handles]. destruct (nth_error hs g) as [j|]; [|exact T].
      destruct (nth_error (m_dicts m) j) as [d|]; [|exact T]. destruct (all_ident isident (map fst d)) as [[|]|]; [|destruct (invalid_keys isident (map fst d)); exact T|exact T].
      destruct (bunch_init class_attrs [] m) as [nb m1] eqn:Ei. destruct (nth_error (m_objs m1) nb) as [o|] eqn:Eo; [|exact T]. cbn [snd].
      eapply tied_grows; [exact T|]. unfold bunch_init, new_dict in Ei. inversion Ei; subst nb m1. clear Ei. split; [cbn; rewrite app_length; lia|].
      intros o' Ho'. unfold set_obj. cbn [m_objs] in *. rewrite nth_upd_other; [apply nth_error_app_lt, Ho'|].
      assert (b < List.length (m_objs m)) by (apply nth_error_Some; congruence). lia.
    - exact T.
    - exact T.
  Qed.
  Lemma tied_bops b h i l : forall s, tied b h i s -> forallb (keeps b) l = true -> tied b h i (snd (run_bops none veq class_attrs isident l s)).
  Proof.
    induction l as [|o l IH]; intros s T K; cbn [run_bops forallb] in *; [exact T|]. apply andb_true_iff in K. destruct K as [K1 K2].
    pose proof (tied_bop b h i o s T K1) as T1. destruct (run_bop none veq class_attrs isident o s) as [x s1]. cbn [snd] in T1.
    specialize (IH s1 T1 K2). destruct (run_bops none veq class_attrs isident l s1). exact IH.
  Qed.
  Lemma tied_new b h s s1 : bunchify class_attrs isident (ADict h) s = (BBunch b, s1) -> exists i, tied b h i s1.
  Proof.
    cbn [bunchify]. destruct (nth_error (s_handles s) h) as [i|] eqn:Eh; [|discriminate]. destruct (nth_error (m_dicts (s_mem s)) i) as [d|] eqn:Ed; [|discriminate].
    destruct (all_ident isident (map fst d)) as [[|]|]; [|destruct (invalid_keys isident (map fst d)); discriminate|discriminate].
    destruct (bunch_init class_attrs [] (s_mem s)) as [nb m1] eqn:Ei. destruct (nth_error (m_objs m1) nb) as [o|] eqn:Eo; [|discriminate].
    intros E. inversion E; subst b s1. clear E. exists i. unfold bunch_init, new_dict in Ei. inversion Ei; subst nb m1. clear Ei.
    cbn [m_objs m_dicts] in *. unfold tied. cbn [s_mem s_handles]. split; [|split; [exact Eh|]].
    - exists (sset "_data" (SDict i) o). split.
      + unfold set_obj. cbn [m_objs]. apply nth_upd_same. rewrite app_length. simpl. lia.
      + clear. induction o as [|[g t] o IH]; cbn [sset]; [reflexivity|]. destruct (String.eqb "_data" g) eqn:E; cbn [sget]; rewrite E; [reflexivity|exact IH].
    - unfold set_obj. cbn [m_dicts]. rewrite app_length. assert (i < List.length (m_dicts (s_mem s))) by (apply nth_error_Some; congruence). lia.
  Qed.
End Shared.

(** In any state whatever: after b = bunchify(d), the contents of b are those of d, and stay so whatever the program does with either of
    them, except for b.replace(...). *)
Theorem C63_shared : forall (V : Type) (none : V) veq class_attrs isident (s s1 : bst V) h b l,
  bunchify class_attrs isident (ADict h) s = (BBunch b, s1) -> forallb (keeps b) l = true ->
  let s2 := snd (run_bops none veq class_attrs isident l s1) in
  in_bunch b s2 = in_dict h s2 /\ in_dict h s2 <> None.
Proof.
  intros V none veq ca isident s s1 h b l E K s2. destruct (tied_new ca isident b h s s1 E) as [i T]. eapply tied_same. apply tied_bops; eassumption.
Qed.
Print Assumptions C63_shared.
Example C63_shared_example :
  let s := snd (run_bops 0 Nat.eqb attrs0 ident0 [BNewDict [(KStr "foo", 1)]; BOp (ONew [("x"%string, 3)])] bst0) in
  exists s1, bunchify attrs0 ident0 (ADict 0) s = (BBunch 1, s1) /\
  let l := [BOp (OReplace 0 1); BOnDict 0 (put "y" 2); BOp (OPopItem 1); BOp (OSetItem 1 (KObj 3) 9)]%string in
  forallb (keeps 1) l = true /\ in_dict 0 (snd (run_bops 0 Nat.eqb attrs0 ident0 l s1)) = Some [(KStr "foo"%string, 1); (KObj 3, 9)].
Proof. eexists. split; [vm_compute; reflexivity|]. split; vm_compute; reflexivity. Qed.

(** What bunchify accepts, in any state: a bunch, which it returns; a dict all of whose keys are identifiers. For a dict of strings the
    ValueError lists exactly the keys that are none. Refusals change nothing. *)
Theorem C63_accepts : forall (V : Type) class_attrs isident (s : bst V) a,
  let r := fst (bunchify class_attrs isident a s) in
  match a with
  | ABunch b => b < List.length (m_objs (s_mem s)) -> r = BBunch b
  | AOther => r = BTypeError
  | ADict h => forall d, in_dict h s = Some d ->
      ((exists b, r = BBunch b) <-> (forall k, In k (map fst d) -> exists n, k = KStr n /\ isident n = true)) /\
      ((forall k, In k (map fst d) -> exists n, k = KStr n) -> forall ks, r = BValueError ks ->
        forall k, In k ks <-> In k (map fst d) /\ exists n, k = KStr n /\ isident n = false)
  end /\ ((forall b, r <> BBunch b) -> snd (bunchify class_attrs isident a s) = s).
Proof.
  intros V ca isident s a r. subst r. destruct a as [b|h|].
  - split.
    + intros H. cbn [bunchify fst]. destruct (nth_error (m_objs (s_mem s)) b) eqn:E; [reflexivity|]. apply nth_error_None in E. lia.
    + intros _. reflexivity.
  - split.
    + intros d Hd. unfold in_dict in Hd. cbn [bunchify]. destruct (nth_error (s_handles s) h) as [i|]; [|discriminate]. rewrite Hd.
      assert (A : forall ks, all_ident isident ks = Some true <-> forall k, In k ks -> exists n, k = KStr n /\ isident n = true).
      { induction ks as [|k ks IH]; cbn [all_ident]; [split; [intros _ k []|reflexivity]|]. destruct k as [n|n]; cbn [key_ident].
        - destruct (isident n) eqn:En.
          + rewrite IH. split; [intros H k [<-|Hk]; [exists n; auto|apply H, Hk]|intros H k Hk; apply H; right; exact Hk].
          + split; [discriminate|]. intros H. destruct (H (KStr n) (or_introl eq_refl)) as [n' [E1 E2]]. inversion E1; subst. congruence.
        - split; [discriminate|]. intros H. destruct (H (KObj n) (or_introl eq_refl)) as [n' [E1 E2]]. discriminate. }
      specialize (A (map fst d)).
      assert (N : exists m1 o, bunch_init ca [] (s_mem s) = (List.length (m_objs (s_mem s)), m1) /\ nth_error (m_objs m1) (List.length (m_objs (s_mem s))) = Some o).
      { unfold bunch_init, new_dict. do 2 eexists. split; [reflexivity|]. cbn [m_objs]. rewrite nth_error_app2 by lia. rewrite Nat.sub_diag. reflexivity. }
      destruct N as [m1 [o [N1 N2]]]. rewrite N1, N2. split.
      * rewrite <- A. destruct (all_ident isident (map fst d)) as [[|]|]; cbn [fst].
        -- split; [reflexivity|intros _; eauto].
        -- split; [|discriminate]. intros [b Hb]. destruct (invalid_keys isident (map fst d)); discriminate.
        -- split; [|discriminate]. intros [b Hb]. discriminate.
      * intros HS ks. clear A N1 N2. destruct (all_ident isident (map fst d)) as [[|]|]; cbn [fst]; try discriminate.
        destruct (invalid_keys isident (map fst d)) as [l|] eqn:El; [|discriminate]. intros E. inversion E; subst ks. clear E.
        revert l El HS. generalize (map fst d) as ks. induction ks as [|k ks IH]; intros l El HS; cbn [invalid_keys] in El.
        -- inversion El; subst. intros k. simpl. tauto.
        -- destruct (HS k (or_introl eq_refl)) as [n ->]. cbn [key_ident] in El. destruct (invalid_keys isident ks) as [l'|]; [|discriminate].
           inversion El; subst l. clear El. specialize (IH l' eq_refl (fun k Hk => HS k (or_intror Hk))). intros k. destruct (isident n) eqn:En.
           ++ rewrite IH. simpl. split; [tauto|]. intros [[<-|Hk] [n' [E1 E2]]]; [inversion E1; subst; congruence|eauto].
           ++ simpl. rewrite IH. split; [intros [<-|[H1 H2]]; [eauto|tauto]|]. intros [[<-|Hk] H2]; [left; reflexivity|right; auto].
    + cbn [bunchify]. destruct (nth_error (s_handles s) h) as [i|]; [|reflexivity]. destruct (nth_error (m_dicts (s_mem s)) i) as [d|]; [|reflexivity].
      destruct (all_ident isident (map fst d)) as [[|]|]; [|destruct (invalid_keys isident (map fst d)); reflexivity|reflexivity].
      destruct (bunch_init ca [] (s_mem s)) as [nb m1]. destruct (nth_error (m_objs m1) nb); [|reflexivity]. cbn [fst]. intros H. exfalso. eapply H. reflexivity.
  - split; [reflexivity|]. intros _. reflexivity.
Qed.
Print Assumptions C63_accepts.
Example C63_accepts_example :
  let s := snd (run_bops 0 Nat.eqb attrs0 ident0 [BNewDict [(KStr "a", 1); (KStr "1a", 2); (KStr "b", 3); (KStr "-", 4)]] bst0)%string in
  fst (bunchify attrs0 ident0 (ADict 0) s) = BValueError [KStr "1a"; KStr "-"]%string.
Proof. vm_compute. reflexivity. Qed.

(** False of the code: an identifier that is the name of a method is accepted as a key, but cannot be reached as an attribute:
    bunchify of a dict with the key keys. *)
Theorem C63_reserved_key_refuted : exists (l : list (bop nat)),
  fst (run_bops 0 Nat.eqb attrs0 ident0 l bst0) =
    [BDict 0; BBunch 0; BRes (RMethod "keys"); BRes (RAttributeError "keys"); BRes (RVal 1)]%string /\
  fst (view_bops 0 Nat.eqb ident0 l view0) = [BDict 0; BBunch 0; BRes (RVal 1); BRes RUnit; BRes (RVal 7)]%string.
Proof.
  exists [BNewDict [(KStr "keys", 1)]; BBunchify (ADict 0); BOp (OGetAttr 0 "keys"); BOp (OSetAttr 0 "keys" 7); BOp (OGetItem 0 (KStr "keys"))]%string.
  split; vm_compute; reflexivity.
Qed.
Print Assumptions C63_reserved_key_refuted.

(** A key that is no string: AttributeError instead of the ValueError that lists the keys. *)
Theorem C63_other_key_refuted : exists (l : list (bop nat)),
  fst (run_bops 0 Nat.eqb attrs0 ident0 l bst0) = [BDict 0; BAttributeError] /\
  fst (view_bops 0 Nat.eqb ident0 l view0) = [BDict 0; BValueError [KStr "1a"; KObj 5]]%string.
Proof.
  exists [BNewDict [(KStr "1a", 1); (KStr "b", 2); (KObj 5, 3)]; BBunchify (ADict 0)]%string. split; vm_compute; reflexivity.
Qed.
Print Assumptions C63_other_key_refuted.

(** hasattr, and getattr with a default, raise KeyError for every name that is neither a key nor reserved, in every state. *)
Theorem C63_hasattr_missing : forall (V : Type) (none : V) veq class_attrs isident (s : bst V) b d n x,
  in_bunch b s = Some d -> dget (KStr n) d = None ->
  (forall o, nth_error (m_objs (s_mem s)) b = Some o -> sget n o = None) -> ~ In n class_attrs ->
  run_bop none veq class_attrs isident (BHasAttr b n) s = (BRes (RKeyError (KStr n)), s) /\
  run_bop none veq class_attrs isident (BGetAttr b n x) s = (BRes (RKeyError (KStr n)), s).
Proof.
  intros V none veq ca isident s b d n x Hd Hn Ho Hc.
  assert (E : fst (bunch_getattr ca b n (s_mem s)) = RKeyError (KStr n)).
  { unfold in_bunch in Hd. unfold bunch_getattr. destruct (nth_error (m_objs (s_mem s)) b) as [o|] eqn:E1; [|unfold data_of in Hd; rewrite E1 in Hd; discriminate].
    rewrite (Ho o eq_refl). destruct (smem n ca) eqn:E2.
    - exfalso. apply Hc. unfold smem in E2. apply existsb_exists in E2. destruct E2 as [y [Hy Ey]]. apply String.eqb_eq in Ey. subst. exact Hy.
    - unfold peek. destruct (data_of b (s_mem s)) as [[i e]|]; [|discriminate]. cbn in Hd. inversion Hd; subst e. cbn [fst]. unfold d_getitem. rewrite Hn. reflexivity. }
  cbn [run_bop]. rewrite E. split; reflexivity.
Qed.
Print Assumptions C63_hasattr_missing.
(** Hence hasattr is no test for a name: an instance, beside what the corresponding program on dicts gives. *)
Theorem C63_hasattr_refuted : exists (l : list (bop nat)),
  fst (run_bops 0 Nat.eqb attrs0 ident0 l bst0) = [BRes (RNew 0); BRes (RBool true); BRes (RKeyError (KStr "dog")); BRes (RKeyError (KStr "dog"))]%string /\
  fst (view_bops 0 Nat.eqb ident0 l view0) = [BRes (RNew 0); BRes (RBool true); BRes (RBool false); BRes (RVal 5)].
Proof.
  exists [BOp (ONew [("cat", 1)]); BHasAttr 0 "cat"; BHasAttr 0 "dog"; BGetAttr 0 "dog" 5]%string. split; vm_compute; reflexivity.
Qed.
Print Assumptions C63_hasattr_refuted.

(** After b.replace(c) the bunch no longer refers to the dict: writes do not reach it. *)
Theorem C63_replace_refuted : exists (l : list (bop nat)),
  let s := snd (run_bops 0 Nat.eqb attrs0 ident0 l bst0) in
  in_bunch 0 s = Some [(KStr "b", 2); (KStr "c", 3)]%string /\ in_dict 0 s = Some [(KStr "a", 1)]%string.
Proof.
  exists [BNewDict [(KStr "a", 1)]; BBunchify (ADict 0); BOp (ONew [("b", 2)]); BOp (OReplace 0 1); BOp (OSetAttr 0 "c" 3)]%string.
  split; vm_compute; reflexivity.
Qed.
Print Assumptions C63_replace_refuted.
