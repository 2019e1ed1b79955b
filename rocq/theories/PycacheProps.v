(** C50: the bytecode cache cleaner. *)
From Verif Require Import Base PycacheModel.

(** Refuted: a symbolic link named __pycache__ to a directory elsewhere: the files there are deleted, and then there is an error. *)
Theorem C50_deletes_only_pycache_refuted : exists fs p fs' e,
  deletepycachedirs p fs = (Some e, fs') /\ e_cls e = "NotADirectoryError"%string /\
  lookup fs ["data"; "precious"]%string = Some F /\ lookup fs' ["data"; "precious"]%string = None /\ lookup fs' ["src"; "__pycache__"]%string = Some (L ["data"%string]) /\ p = ["src"%string].
Proof.
  exists (D [("data"%string, D [("precious"%string, F)]); ("src"%string, D [("m.py"%string, F); ("__pycache__"%string, L ["data"%string])])]), ["src"%string].
  eexists _, _. vm_compute. repeat split; reflexivity.
Qed.
Print Assumptions C50_deletes_only_pycache_refuted.

(** ** Without symbolic links *)
Fixpoint plain (nd : node) : Prop :=
  match nd with
  | F => True
  | D l => NoDup (map fst l) /\ (fix all (l : list (string * node)) : Prop := match l with [] => True | (_, x) :: r => plain x /\ all r end) l
  | L _ => False
  end.
(** The directory without its cache directories, at any depth. *)
Fixpoint clean (nd : node) : node :=
  match nd with
  | D l => D ((fix go (l : list (string * node)) : list (string * node) :=
                 match l with
                 | [] => []
                 | (c, x) :: r => match x with D _ => if String.eqb c "__pycache__" then go r else (c, clean x) :: go r | _ => (c, x) :: go r end
                 end) l)
  | x => x
  end.

Lemma node_ind2 (P : node -> Prop) : P F -> (forall t, P (L t)) -> (forall l, Forall (fun e => P (snd e)) l -> P (D l)) -> forall x, P x.
Proof.
  intros HF HL HD. fix IH 1. intros [|l|t]; [exact HF| |apply HL]. apply HD. induction l as [|[c x] l IHl]; constructor; [apply IH|exact IHl].
Qed.
Lemma plain_D l : plain (D l) <-> NoDup (map fst l) /\ Forall (fun e => plain (snd e)) l.
Proof.
  cbn [plain]. split; intros [H1 H2]; (split; [exact H1|]).
  - clear H1. induction l as [|[c x] l IH]; constructor; [exact (proj1 H2)|exact (IH (proj2 H2))].
  - clear H1. induction H2 as [|[c x] l Hx Hl IH]; [exact I|split; assumption].
Qed.
Lemma assoc_In c l x : assoc c l = Some x -> In (c, x) l.
Proof. induction l as [|[d y] l IH]; cbn [assoc]; [discriminate|]. destruct (String.eqb_spec c d) as [->|]; [intros [= ->]; left; reflexivity|intros H; right; exact (IH H)]. Qed.
Lemma assoc_None c l : assoc c l = None <-> ~ In c (map fst l).
Proof.
  induction l as [|[d y] l IH]; cbn [assoc map fst In]; [tauto|]. destruct (String.eqb_spec c d) as [->|N]; [split; [discriminate|tauto]|]. rewrite IH. split; [intros H [H'|H']; congruence|tauto].
Qed.
Lemma plain_assoc l c x : plain (D l) -> assoc c l = Some x -> plain x.
Proof. intros H E. apply plain_D in H. destruct H as [_ H]. rewrite Forall_forall in H. exact (H _ (assoc_In _ _ _ E)). Qed.
Lemma plain_lookup : forall p fs x, plain fs -> lookup fs p = Some x -> plain x.
Proof.
  induction p as [|c p IH]; intros fs x Hp H; cbn [lookup] in H; [congruence|]. destruct fs as [|l|t]; try discriminate.
  destruct (assoc c l) as [y|] eqn:E; [|discriminate]. exact (IH y x (plain_assoc l c y Hp E) H).
Qed.
Lemma lookup_app : forall p fs q, lookup fs (p ++ q) = match lookup fs p with Some x => lookup x q | None => None end.
Proof.
  induction p as [|c p IH]; intros fs q; cbn [app lookup]; [reflexivity|]. destruct fs as [|l|t]; try reflexivity. destruct (assoc c l); [apply IH|reflexivity].
Qed.
(** Where there are no links, paths denote themselves. *)
Lemma canon_plain fs n : plain fs -> forall rest cur, canon n fs cur rest = if lookup fs cur then match lookup fs (cur ++ rest) with Some _ => Some (cur ++ rest) | None => None end else canon n fs cur rest.
Proof.
  intros Hp rest. induction rest as [|c rest IH]; intros cur.
  - destruct (lookup fs cur) eqn:E; [|reflexivity]. rewrite app_nil_r, E. destruct n; reflexivity.
  - destruct (lookup fs cur) eqn:E; [|reflexivity].
    assert (U : canon n fs cur (c :: rest) = match lookup fs (cur ++ [c]) with None => None | Some (L t) => match n with O => None | S n' => canon n' fs [] (t ++ rest) end | Some _ => canon n fs (cur ++ [c]) rest end) by (destruct n; reflexivity).
    rewrite U. replace (cur ++ c :: rest) with ((cur ++ [c]) ++ rest) by (rewrite <- app_assoc; reflexivity).
    specialize (IH (cur ++ [c])). destruct (lookup fs (cur ++ [c])) as [x|] eqn:Ex.
    + destruct x as [|l|t]; [exact IH|exact IH|]. pose proof (plain_lookup _ _ _ Hp Ex) as []. 
    + rewrite lookup_app, Ex. reflexivity.
Qed.
Lemma follow_plain fs p : plain fs -> follow fs p = match lookup fs p with Some x => Some (p, x) | None => None end.
Proof.
  intros Hp. unfold follow. rewrite (canon_plain fs max_links Hp p []). cbn [lookup app]. destruct (lookup fs p) as [x|] eqn:E; [rewrite E; reflexivity|reflexivity].
Qed.

(** ** put *)
Lemma assoc_reassoc c d y l : assoc c (reassoc d y l) = if String.eqb c d then (match assoc c l with Some _ => Some y | None => None end) else assoc c l.
Proof.
  induction l as [|[e x] l IH]; cbn [reassoc assoc]; [destruct (String.eqb c d); reflexivity|].
  destruct (String.eqb_spec d e) as [->|N]; cbn [assoc].
  - destruct (String.eqb_spec c e) as [->|]; [reflexivity|reflexivity].
  - rewrite IH. destruct (String.eqb_spec c e) as [->|].
    + destruct (String.eqb_spec e d) as [->|]; [congruence|reflexivity].
    + reflexivity.
Qed.
Lemma reassoc_twice c y z l : reassoc c y (reassoc c z l) = reassoc c y l.
Proof. induction l as [|[e x] l IH]; cbn [reassoc]; [reflexivity|]. destruct (String.eqb_spec c e) as [->|N]; cbn [reassoc]; [rewrite String.eqb_refl; reflexivity|]. destruct (String.eqb_spec c e); [congruence|]. rewrite IH. reflexivity. Qed.
Lemma reassoc_same c x l : assoc c l = Some x -> reassoc c x l = l.
Proof. induction l as [|[e y] l IH]; cbn [assoc reassoc]; [discriminate|]. destruct (String.eqb_spec c e) as [->|]; [intros [= ->]; reflexivity|intros H; rewrite (IH H); reflexivity]. Qed.
Lemma map_fst_reassoc c y l : map fst (reassoc c y l) = map fst l.
Proof. induction l as [|[e x] l IH]; cbn [reassoc map fst]; [reflexivity|]. destruct (String.eqb c e); cbn [map fst]; [reflexivity|rewrite IH; reflexivity]. Qed.
Lemma lookup_put p : forall fs x y, lookup fs p = Some x -> lookup (put fs p y) p = Some y.
Proof.
  induction p as [|c p IH]; intros fs x y H; cbn [lookup put] in *; [reflexivity|]. destruct fs as [|l|t]; try discriminate.
  destruct (assoc c l) as [z|] eqn:E; [|discriminate]. rewrite assoc_reassoc, String.eqb_refl, E. exact (IH z x y H).
Qed.
Lemma put_put p : forall fs y z, put (put fs p y) p z = put fs p z.
Proof.
  induction p as [|c p IH]; intros fs y z; cbn [put]; [reflexivity|]. destruct fs as [|l|t]; try reflexivity.
  destruct (assoc c l) as [x|] eqn:E; [|rewrite E; reflexivity]. rewrite assoc_reassoc, String.eqb_refl, E, reassoc_twice, IH. reflexivity.
Qed.
Lemma put_app p : forall fs q x y, lookup fs p = Some x -> put fs (p ++ q) y = put fs p (put x q y).
Proof.
  induction p as [|c p IH]; intros fs q x y H; cbn [app put lookup] in *; [congruence|]. destruct fs as [|l|t]; try discriminate.
  destruct (assoc c l) as [z|]; [|discriminate]. rewrite (IH z q x y H). reflexivity.
Qed.
Lemma put_same p : forall fs x, lookup fs p = Some x -> put fs p x = fs.
Proof.
  induction p as [|c p IH]; intros fs x H; cbn [put lookup] in *; [congruence|]. destruct fs as [|l|t]; try discriminate.
  destruct (assoc c l) as [z|] eqn:E; [|discriminate]. rewrite (IH z x H), (reassoc_same c z l E). reflexivity.
Qed.
Lemma reassoc_plain c y l : Forall (fun e => plain (snd e)) l -> plain y -> Forall (fun e => plain (snd e)) (reassoc c y l).
Proof. induction 1 as [|[e x] l Hx Hl IH]; intros Hy; cbn [reassoc]; [constructor|]. destruct (String.eqb c e); constructor; auto. Qed.
Lemma put_plain p : forall fs y, plain fs -> plain y -> plain (put fs p y).
Proof.
  induction p as [|c p IH]; intros fs y Hf Hy; cbn [put]; [exact Hy|]. destruct fs as [|l|t]; try exact Hf. destruct (assoc c l) as [x|] eqn:E; [|exact Hf].
  pose proof (plain_assoc l c x Hf E) as Hx. apply plain_D in Hf. destruct Hf as [H1 H2]. apply plain_D. rewrite map_fst_reassoc. split; [exact H1|]. apply reassoc_plain; auto.
Qed.
Lemma unassoc_plain c l : plain (D l) -> plain (D (unassoc c l)).
Proof.
  rewrite !plain_D. intros [H1 H2]. split.
  - induction l as [|[e x] l IH]; cbn [unassoc map fst]; [constructor|]. inversion H1 as [|? ? Hn Hd]; subst. inversion H2; subst. destruct (String.eqb c e); [exact Hd|]. cbn [map fst]. constructor; [|apply IH; assumption].
    intros Hin. apply Hn. clear - Hin. induction l as [|[f y] l IH]; [exact Hin|]. cbn [unassoc map fst] in *. destruct (String.eqb c f); [right; exact Hin|]. destruct Hin as [<-|Hin]; [left; reflexivity|right; exact (IH Hin)].
  - clear H1. induction H2 as [|[e x] l Hx Hl IH]; cbn [unassoc]; [constructor|]. destruct (String.eqb c e); [exact Hl|constructor; assumption].
Qed.

(** ** Deleting a directory *)
Lemma unlink_at fs p l c x : plain fs -> lookup fs p = Some (D l) -> assoc c l = Some x -> (match x with D _ => False | _ => True end) ->
  unlink p c fs = Ok (put fs p (D (unassoc c l))).
Proof. intros Hp Hl Ha Hx. unfold unlink. rewrite (follow_plain fs p Hp), Hl, Ha. destruct x; [reflexivity|destruct Hx|reflexivity]. Qed.
Lemma rmdir_at fs p l c : plain fs -> lookup fs p = Some (D l) -> assoc c l = Some (D []) -> rmdir p c fs = Ok (put fs p (D (unassoc c l))).
Proof. intros Hp Hl Ha. unfold rmdir. rewrite (follow_plain fs p Hp), Hl, Ha. reflexivity. Qed.

Definition emptied (x : node) : node := match x with D _ => D [] | y => y end.
Definition del_dirs (p : fpath) := (fix go (l : list (string * node)) (o : outcome) : outcome :=
                       match l with
                       | [] => o
                       | (c, x) :: r => go r (match x with D _ => delete_contents (p ++ [c]) x o | _ => o end)
                       end).
Lemma del_dirs_cons p c x r o : del_dirs p ((c, x) :: r) o = del_dirs p r (match x with D _ => delete_contents (p ++ [c]) x o | _ => o end).
Proof. reflexivity. Qed.
Lemma delete_contents_eq p l fs : delete_contents p (D l) (None, fs) =
  fold_left (fun o e => step (rmdir p (fst e)) o) (filter (entry_isdir fs p) l)
    (fold_left (fun o e => step (unlink p (fst e)) o) (filter (fun e => negb (entry_isdir fs p e)) l) (del_dirs p l (None, fs))).
Proof. reflexivity. Qed.
Lemma assoc_first (l1 : list (string * node)) c x l2 : ~ In c (map fst l1) -> assoc c (l1 ++ (c, x) :: l2) = Some x.
Proof.
  induction l1 as [|[d y] l1 IH]; intros H; cbn [app assoc map fst In] in *; [rewrite String.eqb_refl; reflexivity|].
  destruct (String.eqb_spec c d) as [->|]; [tauto|apply IH; tauto].
Qed.
Lemma reassoc_first (l1 : list (string * node)) c x y l2 : ~ In c (map fst l1) -> reassoc c y (l1 ++ (c, x) :: l2) = l1 ++ (c, y) :: l2.
Proof.
  induction l1 as [|[d z] l1 IH]; intros H; cbn [app reassoc map fst In] in *; [rewrite String.eqb_refl; reflexivity|].
  destruct (String.eqb_spec c d) as [->|]; [tauto|rewrite IH; [reflexivity|tauto]].
Qed.
Lemma unassoc_first (l1 : list (string * node)) c x l2 : ~ In c (map fst l1) -> unassoc c (l1 ++ (c, x) :: l2) = l1 ++ l2.
Proof.
  induction l1 as [|[d z] l1 IH]; intros H; cbn [app unassoc map fst In] in *; [rewrite String.eqb_refl; reflexivity|].
  destruct (String.eqb_spec c d) as [->|]; [tauto|rewrite IH; [reflexivity|tauto]].
Qed.
Definition empty_entry (e : string * node) : string * node := (fst e, emptied (snd e)).
Lemma map_fst_empty l : map fst (map empty_entry l) = map fst l.
Proof. rewrite map_map. apply map_ext. reflexivity. Qed.
Lemma plain_emptied x : plain x -> plain (emptied x).
Proof. destruct x; [auto|intros _; cbn; split; [constructor|exact I]|auto]. Qed.
Lemma nodup_mid (l1 : list (string * node)) c x l2 : NoDup (map fst (l1 ++ (c, x) :: l2)) -> ~ In c (map fst l1).
Proof. rewrite map_app. cbn [map fst]. intros H Hin. apply NoDup_remove_2 in H. apply H. apply in_or_app. left. exact Hin. Qed.

Lemma delete_contents_ok : forall nd p fs, plain fs -> lookup fs p = Some nd -> (match nd with D _ => True | _ => False end) -> delete_contents p nd (None, fs) = (None, put fs p (D [])).
Proof.
  induction nd as [|t|l IH] using node_ind2; intros p fs Hp Hl Hd; try contradiction. rewrite delete_contents_eq.
  pose proof (plain_lookup _ _ _ Hp Hl) as Hpl. apply plain_D in Hpl. destruct Hpl as [Hnd Hall].
  assert (Hdirs : forall e, In e l -> entry_isdir fs p e = match snd e with D _ => true | _ => false end).
  { intros [c x] Hin. rewrite Forall_forall in Hall. specialize (Hall _ Hin). destruct x; [reflexivity|reflexivity|destruct Hall]. }
  (* the subdirectories *)
  assert (S1 : forall l2 l1, l = l1 ++ l2 -> del_dirs p l2 (None, put fs p (D (map empty_entry l1 ++ l2))) = (None, put fs p (D (map empty_entry l)))).
  { induction l2 as [|[c x] l2 IH2]; intros l1 E.
    - rewrite app_nil_r in *. subst. reflexivity.
    - assert (Hn : ~ In c (map fst (map empty_entry l1))) by (rewrite map_fst_empty; rewrite E in Hnd; exact (nodup_mid _ _ _ _ Hnd)).
      assert (Step : (match x with D _ => delete_contents (p ++ [c]) x (None, put fs p (D (map empty_entry l1 ++ (c, x) :: l2))) | _ => (None, put fs p (D (map empty_entry l1 ++ (c, x) :: l2))) end)
                     = (None, put fs p (D (map empty_entry (l1 ++ [(c, x)]) ++ l2)))).
      { rewrite map_app, <- app_assoc. cbn [map app empty_entry fst snd].
        destruct x as [|l'|t]; [reflexivity| |reflexivity].
        assert (Hpi : plain (put fs p (D (map empty_entry l1 ++ (c, D l') :: l2)))).
        { apply put_plain; [exact Hp|]. apply plain_D. rewrite map_app, map_fst_empty. rewrite E in Hnd, Hall. rewrite map_app in Hnd. split; [exact Hnd|].
          apply Forall_app in Hall. destruct Hall as [Ha Hb]. apply Forall_app. split; [|exact Hb]. apply Forall_map. eapply Forall_impl; [|exact Ha]. intros e He. apply plain_emptied. exact He. }
        assert (Hli : lookup (put fs p (D (map empty_entry l1 ++ (c, D l') :: l2))) (p ++ [c]) = Some (D l')).
        { rewrite lookup_app, (lookup_put _ _ _ _ Hl). cbn [lookup]. rewrite (assoc_first _ _ _ _ Hn). reflexivity. }
        assert (IHx : forall p fs, plain fs -> lookup fs p = Some (D l') -> delete_contents p (D l') (None, fs) = (None, put fs p (D []))).
        { rewrite Forall_forall in IH. intros p0 fs0 H1 H2. apply (IH (c, D l')); [rewrite E; apply in_or_app; right; left; reflexivity|exact H1|exact H2|exact I]. }
        rewrite (IHx _ _ Hpi Hli). f_equal. rewrite (put_app p _ [c] _ _ (lookup_put _ _ _ _ Hl)). cbn [put]. rewrite (assoc_first _ _ _ _ Hn), (reassoc_first _ _ _ _ _ Hn), put_put. reflexivity. }
      rewrite del_dirs_cons. etransitivity; [exact (f_equal (del_dirs p l2) Step)|]. apply IH2. rewrite <- app_assoc. exact E. }
  specialize (S1 l [] eq_refl). cbn [map app] in S1. rewrite (put_same _ _ _ Hl) in S1. rewrite S1. clear S1.
  (* the files *)
  assert (S2 : forall l2 l1, l = l1 ++ l2 ->
     fold_left (fun o e => step (unlink p (fst e)) o) (filter (fun e => negb (entry_isdir fs p e)) l2) (None, put fs p (D (filter (entry_isdir fs p) (map empty_entry l1) ++ map empty_entry l2)))
     = (None, put fs p (D (filter (entry_isdir fs p) (map empty_entry l))))).
  { induction l2 as [|[c x] l2 IH2]; intros l1 E.
    - cbn [filter fold_left map]. rewrite !app_nil_r in *. subst. reflexivity.
    - assert (Hn : ~ In c (map fst (filter (entry_isdir fs p) (map empty_entry l1)))).
      { rewrite E in Hnd. pose proof (nodup_mid _ _ _ _ Hnd) as Hn. intros Hin. apply Hn. rewrite <- map_fst_empty. apply in_map_iff in Hin. destruct Hin as (e & <- & He). apply filter_In in He. apply in_map. exact (proj1 He). }
      assert (Hin : In (c, x) l) by (rewrite E; apply in_or_app; right; left; reflexivity).
      assert (Ex : entry_isdir fs p (c, x) = match x with D _ => true | _ => false end) by (exact (Hdirs _ Hin)).
      assert (Ex' : entry_isdir fs p (empty_entry (c, x)) = match x with D _ => true | _ => false end).
      { rewrite Forall_forall in Hall. specialize (Hall _ Hin). destruct x; [reflexivity|reflexivity|destruct Hall]. }
      specialize (IH2 (l1 ++ [(c, x)])). rewrite <- app_assoc in IH2. specialize (IH2 E). rewrite map_app, filter_app in IH2. cbn [map filter] in IH2. rewrite Ex' in IH2.
      cbn [filter]. rewrite Ex. cbn [map].
      destruct x as [|l'|t]; cbn [negb].
      + cbn [fold_left]. rewrite app_nil_r in IH2. rewrite <- IH2. clear IH2. f_equal. cbn [step fst].
        rewrite (unlink_at _ p (filter (entry_isdir fs p) (map empty_entry l1) ++ empty_entry (c, F) :: map empty_entry l2) c F); [|shelve|exact (lookup_put _ _ _ _ Hl)|exact (assoc_first _ _ _ _ Hn)|exact I].
        change (empty_entry (c, F)) with (c, F). rewrite (unassoc_first _ _ _ _ Hn), put_put. reflexivity.
        Unshelve. apply put_plain; [exact Hp|]. apply plain_D. split.
        * assert (Hsub : NoDup (map fst (map empty_entry (l1 ++ (c, F) :: l2)))) by (rewrite map_fst_empty, <- E; exact Hnd).
          rewrite map_app, map_app in Hsub. rewrite map_app. clear - Hsub. induction l1 as [|e l1 IH]; [exact Hsub|]. cbn [map filter app] in *. inversion Hsub as [|? ? Hx Hy]; subst. specialize (IH Hy).
          destruct (entry_isdir fs p (empty_entry e)); [|exact IH]. cbn [map app]. constructor; [|exact IH]. intros Hin. apply Hx. apply in_app_iff in Hin. apply in_app_iff. destruct Hin as [Hin|Hin]; [left|right; exact Hin].
          apply in_map_iff in Hin. destruct Hin as (e' & He1 & He'). change (fst e) with (fst (empty_entry e)). rewrite <- He1. apply filter_In in He'. apply in_map. exact (proj1 He').
        * rewrite Forall_forall in *. intros e He. apply in_app_iff in He. assert (He' : In e (map empty_entry l)).
          { rewrite E, map_app. apply in_or_app. destruct He as [He|He]; [left; apply filter_In in He; exact (proj1 He)|right; exact He]. }
          apply in_map_iff in He'. destruct He' as (e0 & <- & He0). apply plain_emptied. exact (Hall _ He0).
      + rewrite <- app_assoc in IH2. exact IH2.
      + rewrite Forall_forall in Hall. destruct (Hall _ Hin). }
  specialize (S2 l [] eq_refl). cbn [map app filter] in S2. rewrite S2. clear S2.
  (* the directories, now empty *)
  assert (S3 : forall l2, (forall e, In e l2 -> In e l) -> NoDup (map fst l2) ->
     fold_left (fun o e => step (rmdir p (fst e)) o) (filter (entry_isdir fs p) l2) (None, put fs p (D (filter (entry_isdir fs p) (map empty_entry l2)))) = (None, put fs p (D []))).
  { induction l2 as [|[c x] l2 IH2]; intros Hsub Hn2; [reflexivity|]. cbn [filter map].
    assert (Hin : In (c, x) l) by (apply Hsub; left; reflexivity).
    assert (Ex : entry_isdir fs p (c, x) = match x with D _ => true | _ => false end) by (exact (Hdirs _ Hin)).
    assert (Ex' : entry_isdir fs p (empty_entry (c, x)) = match x with D _ => true | _ => false end).
    { rewrite Forall_forall in Hall. specialize (Hall _ Hin). destruct x; [reflexivity|reflexivity|destruct Hall]. }
    rewrite Ex, Ex'. inversion Hn2 as [|? ? Hc Hn2']; subst. assert (Hsub' : forall e, In e l2 -> In e l) by (intros e He; apply Hsub; right; exact He).
    specialize (IH2 Hsub' Hn2'). destruct x as [|l'|t]; [exact IH2| |exact IH2]. cbn [fold_left fst]. rewrite <- IH2. f_equal. cbn [step].
    rewrite (rmdir_at _ p (empty_entry (c, D l') :: filter (entry_isdir fs p) (map empty_entry l2)) c); [|shelve|exact (lookup_put _ _ _ _ Hl)|cbn; rewrite String.eqb_refl; reflexivity].
    cbn [empty_entry fst snd emptied unassoc]. rewrite String.eqb_refl, put_put. reflexivity.
    Unshelve. apply put_plain; [exact Hp|]. apply plain_D. split.
    - cbn [map fst empty_entry]. assert (Hni : forall d, In d (map fst (filter (entry_isdir fs p) (map empty_entry l2))) -> In d (map fst l2)).
      { intros d Hd'. rewrite <- map_fst_empty. apply in_map_iff in Hd'. destruct Hd' as (e & <- & He). apply filter_In in He. apply in_map. exact (proj1 He). }
      constructor; [intros Hx; exact (Hc (Hni _ Hx))|]. clear - Hn2'. induction l2 as [|e l2 IH]; [constructor|]. cbn [map filter] in *. inversion Hn2' as [|? ? Ha Hb]; subst. destruct (entry_isdir fs p (empty_entry e)); [|exact (IH Hb)].
      cbn [map]. constructor; [|exact (IH Hb)]. intros Hx. apply Ha. apply in_map_iff in Hx. destruct Hx as (e' & He1 & He'). apply filter_In in He'. destruct He' as [He' _]. apply in_map_iff in He'. destruct He' as (e0 & <- & He0). cbn [fst empty_entry] in He1. rewrite <- He1. apply in_map. exact He0.
    - constructor; [cbn; split; [constructor|exact I]|]. rewrite Forall_forall in *. intros e He. apply filter_In in He. destruct He as [He _]. apply in_map_iff in He. destruct He as (e0 & <- & He0). apply plain_emptied. exact (Hall _ (Hsub' _ He0)). }
  exact (S3 l (fun e He => He) Hnd).
Qed.

Lemma delete_directory_ok fs p c l l' : plain fs -> lookup fs p = Some (D l) -> assoc c l = Some (D l') ->
  delete_directory (p ++ [c]) (None, fs) = (None, put fs p (D (unassoc c l))).
Proof.
  intros Hp Hl Ha. unfold delete_directory. assert (Hlc : lookup fs (p ++ [c]) = Some (D l')) by (rewrite lookup_app, Hl; cbn [lookup]; rewrite Ha; reflexivity).
  rewrite (follow_plain fs _ Hp), Hlc. rewrite (delete_contents_ok _ _ _ Hp Hlc I). rewrite removelast_last, last_last. cbn [step].
  rewrite (put_app p fs [c] _ _ Hl). cbn [put]. rewrite Ha.
  assert (Hd : NoDup (map fst l)) by (pose proof (plain_lookup _ _ _ Hp Hl) as H; apply plain_D in H; exact (proj1 H)).
  rewrite (rmdir_at _ p (reassoc c (D []) l) c).
  - rewrite put_put. do 2 f_equal. f_equal. clear - Hd. induction l as [|[d x] l IH]; [reflexivity|]. cbn [reassoc unassoc]. destruct (String.eqb_spec c d) as [->|N]; cbn [unassoc].
    + rewrite String.eqb_refl. reflexivity.
    + destruct (String.eqb_spec c d); [congruence|]. inversion Hd; subst. rewrite IH; auto.
  - apply put_plain; [exact Hp|]. pose proof (plain_lookup _ _ _ Hp Hl) as H. apply plain_D in H. apply plain_D. rewrite map_fst_reassoc. split; [exact (proj1 H)|].
    apply reassoc_plain; [exact (proj2 H)|cbn; split; [constructor|exact I]].
  - exact (lookup_put _ _ _ _ Hl).
  - rewrite assoc_reassoc, String.eqb_refl, Ha. reflexivity.
Qed.
Lemma delete_missing fs p c : plain fs -> lookup fs (p ++ [c]) = None -> (lookup fs p = None \/ exists l, lookup fs p = Some (D l)) -> delete_directory (p ++ [c]) (None, fs) = (None, fs).
Proof.
  intros Hp Hl Hpp. unfold delete_directory. rewrite (follow_plain fs _ Hp), Hl, removelast_last, last_last. cbn [step]. unfold rmdir.
  rewrite (follow_plain fs _ Hp). destruct Hpp as [->|(l & Hl')]; [reflexivity|]. rewrite Hl'. rewrite lookup_app, Hl' in Hl. cbn [lookup] in Hl. destruct (assoc c l) as [x|]; [discriminate|reflexivity].
Qed.

(** ** The list of directories *)
Definition find_in (fs : node) (p : fpath) := (fix go (l : list (string * node)) : list fpath :=
         match l with
         | [] => []
         | (c, x) :: r => (match x with D _ => find_pycache fs (p ++ [c]) x | _ => [] end) ++ go r
         end).
Lemma find_pycache_eq fs p l : find_pycache fs p (D l) =
  (if existsb (fun e => String.eqb (fst e) "__pycache__" && entry_isdir fs p e) l then [p ++ ["__pycache__"%string]] else []) ++ find_in fs p l.
Proof. reflexivity. Qed.
Definition has_cache (l : list (string * node)) : bool := existsb (fun e => String.eqb (fst e) "__pycache__" && match snd e with D _ => true | _ => false end) l.
Lemma existsb_plain fs p l : Forall (fun e => plain (snd e)) l -> existsb (fun e => String.eqb (fst e) "__pycache__" && entry_isdir fs p e) l = has_cache l.
Proof.
  unfold has_cache. induction 1 as [|[c x] l Hx Hl IH]; [reflexivity|]. cbn [existsb fst snd]. rewrite IH. f_equal. f_equal. destruct x; [reflexivity|reflexivity|destruct Hx].
Qed.
Lemma has_cache_assoc l : NoDup (map fst l) -> has_cache l = true <-> exists l', assoc "__pycache__" l = Some (D l').
Proof.
  intros Hn. unfold has_cache. induction l as [|[c x] l IH]; [split; [discriminate|intros (? & H); discriminate]|]. inversion Hn as [|? ? Hc Hl]; subst.
  cbn [existsb fst snd assoc]. rewrite (String.eqb_sym "__pycache__" c). destruct (String.eqb_spec c "__pycache__") as [->|N]; cbn [andb orb].
  - destruct x as [|l'|t]; cbn [orb].
    + split; [|intros (? & H); discriminate]. intros H. exfalso. apply Hc. apply existsb_exists in H. destruct H as ([d y] & Hin & H). apply andb_true_iff in H. destruct H as [H _]. apply String.eqb_eq in H. cbn [fst] in H. subst d. apply in_map_iff. exists ("__pycache__"%string, y). auto.
    + split; [intros _; exists l'; reflexivity|reflexivity].
    + split; [|intros (? & H); discriminate]. intros H. exfalso. apply Hc. apply existsb_exists in H. destruct H as ([d y] & Hin & H). apply andb_true_iff in H. destruct H as [H _]. apply String.eqb_eq in H. cbn [fst] in H. subst d. apply in_map_iff. exists ("__pycache__"%string, y). auto.
  - exact (IH Hl).
Qed.
(** Exactly the directories named __pycache__, at any depth under the path. *)
Definition cache_dir (nd : node) (q : fpath) : Prop := exists r l, q = r ++ ["__pycache__"%string] /\ lookup nd q = Some (D l).
Lemma find_pycache_iff fs : forall nd p, plain nd -> forall q, In q (find_pycache fs p nd) <-> exists r, q = p ++ r /\ cache_dir nd r.
Proof.
  induction nd as [|t|l IH] using node_ind2; intros p Hp q.
  - cbn [find_pycache In]. split; [tauto|]. intros (r & _ & r' & l & -> & H). destruct r'; discriminate.
  - destruct Hp.
  - rewrite find_pycache_eq. apply plain_D in Hp. destruct Hp as [Hn Hall]. rewrite (existsb_plain fs p l Hall), in_app_iff.
    assert (Hhere : In q (if has_cache l then [p ++ ["__pycache__"%string]] else []) <-> q = p ++ ["__pycache__"%string] /\ exists l', assoc "__pycache__" l = Some (D l')).
    { rewrite <- (has_cache_assoc l Hn). destruct (has_cache l); cbn [In]; [split; [intros [<-|[]]; auto|intros [-> _]; auto]|split; [tauto|intros [_ H]; discriminate]]. }
    rewrite Hhere. clear Hhere.
    assert (Hsub : In q (find_in fs p l) <-> exists c x r, In (c, x) l /\ q = p ++ c :: r /\ cache_dir x r).
    { clear Hn. induction l as [|[c x] l IHl]; cbn [find_in].
      - split; [intros []|intros (c & x & r & [] & _)].
      - inversion IH as [|? ? Hx Hr]; subst. inversion Hall as [|? ? Hpx Hpr]; subst. fold (find_in fs p). rewrite in_app_iff, (IHl Hr Hpr). cbn [snd] in *.
        assert (K : In q (match x with D _ => find_pycache fs (p ++ [c]) x | _ => [] end) <-> exists r, q = p ++ c :: r /\ cache_dir x r).
        { destruct x as [|l'|t].
          - split; [intros []|]. intros (r & _ & r' & l' & -> & H). destruct r'; discriminate.
          - rewrite (Hx (p ++ [c]) Hpx q). split; intros (r & -> & H); exists r; (split; [rewrite <- app_assoc; reflexivity|exact H]).
          - destruct Hpx. }
        rewrite K. split.
        + intros [(r & -> & H)|(c' & x' & r & Hin & H)]; [exists c, x, r; split; [left; reflexivity|auto]|exists c', x', r; split; [right; exact Hin|exact H]].
        + intros (c' & x' & r & Hin & Hq & Hc). destruct Hin as [He|Hin]; [injection He as <- <-; left; exists r; auto|right; exists c', x', r; auto]. }
    rewrite Hsub. clear Hsub. split.
    + intros [(-> & l' & H)|(c & x & r & Hin & -> & (r' & l' & -> & H))].
      * exists ["__pycache__"%string]. split; [reflexivity|]. exists [], l'. split; [reflexivity|]. cbn [lookup]. rewrite H. reflexivity.
      * exists (c :: r' ++ ["__pycache__"%string]). split; [reflexivity|]. exists (c :: r'), l'. split; [reflexivity|]. cbn [lookup].
        assert (Ea : assoc c l = Some x).
        { apply in_split in Hin. destruct Hin as (l1 & l2 & ->). apply assoc_first. exact (nodup_mid _ _ _ _ Hn). }
        rewrite Ea. exact H.
    + intros (r & -> & (r' & l' & -> & H)). destruct r' as [|c r']; cbn [app lookup] in H.
      * left. split; [reflexivity|]. exists l'. destruct (assoc "__pycache__" l) as [x|]; [|discriminate]. congruence.
      * right. destruct (assoc c l) as [x|] eqn:Ea; [|discriminate]. exists c, x, (r' ++ ["__pycache__"%string]). split; [exact (assoc_In _ _ _ Ea)|]. split; [reflexivity|]. exists r', l'. auto.
Qed.

(** ** The whole *)
Definition run (qs : list fpath) (o : outcome) : outcome := fold_left (fun o x => delete_directory x o) qs o.
Lemma run_app a b o : run (a ++ b) o = run b (run a o). Proof. apply fold_left_app. Qed.
Lemma find_shape fs0 : forall nd p q, plain nd -> In q (find_pycache fs0 p nd) -> exists r, q = p ++ r ++ ["__pycache__"%string].
Proof.
  intros nd p q Hp H. apply (find_pycache_iff fs0 nd p Hp) in H. destruct H as (r & -> & r' & l & -> & _). exists r'. reflexivity.
Qed.
(** Nothing happens for directories under a directory that is no longer there. *)
Lemma run_missing fs p : plain fs -> lookup fs p = None -> forall qs, (forall q, In q qs -> exists r, q = p ++ r ++ ["__pycache__"%string]) -> run qs (None, fs) = (None, fs).
Proof.
  intros Hp Hl. induction qs as [|q qs IH]; intros Hq; [reflexivity|]. destruct (Hq q (or_introl eq_refl)) as (r & ->). unfold run. cbn [fold_left].
  rewrite app_assoc, delete_missing; [apply IH; intros q' H'; apply Hq; right; exact H'|exact Hp| |].
  - rewrite <- app_assoc, lookup_app, Hl. reflexivity.
  - left. rewrite lookup_app, Hl. reflexivity.
Qed.
Definition clean_list := (fix go (l : list (string * node)) : list (string * node) :=
                 match l with
                 | [] => []
                 | (c, x) :: r => match x with D _ => if String.eqb c "__pycache__" then go r else (c, clean x) :: go r | _ => (c, x) :: go r end
                 end).
Definition is_cache (e : string * node) : bool := String.eqb (fst e) "__pycache__" && match snd e with D _ => true | _ => false end.
Definition live : list (string * node) -> list (string * node) := filter (fun e => negb (is_cache e)).
Lemma live_no l : ~ In "__pycache__"%string (map fst l) -> live l = l /\ has_cache l = false.
Proof.
  induction l as [|[c x] l IH]; intros H; [split; reflexivity|]. cbn [map fst In] in H. destruct (IH (fun h => H (or_intror h))) as [H1 H2].
  assert (E : String.eqb c "__pycache__" = false) by (apply String.eqb_neq; intros ->; apply H; left; reflexivity).
  unfold live, has_cache in *. cbn [filter existsb]. unfold is_cache at 1. cbn [fst snd]. rewrite E. cbn [andb negb orb]. rewrite H1. auto.
Qed.
Lemma live_ok l : NoDup (map fst l) -> (has_cache l = true -> unassoc "__pycache__" l = live l) /\ (has_cache l = false -> live l = l).
Proof.
  induction l as [|[c x] l IH]; intros Hn; [split; [discriminate|reflexivity]|]. inversion Hn as [|? ? Hc Hn']; subst. destruct (IH Hn') as [H1 H2].
  change (has_cache ((c, x) :: l)) with (is_cache (c, x) || has_cache l). change (live ((c, x) :: l)) with (if negb (is_cache (c, x)) then (c, x) :: live l else live l).
  cbn [unassoc]. rewrite (String.eqb_sym "__pycache__" c). unfold is_cache. cbn [fst snd]. destruct (String.eqb_spec c "__pycache__") as [->|N].
  - destruct (live_no l Hc) as [E1 E2]. rewrite E1, E2. destruct x; cbn; split; intros; congruence.
  - cbn [andb negb orb]. split; intros H; [rewrite (H1 H)|rewrite (H2 H)]; reflexivity.
Qed.
Lemma clean_list_in c x l : In (c, x) (clean_list l) -> In c (map fst l).
Proof.
  induction l as [|[d y] l IH]; cbn [clean_list map fst In]; [tauto|]. fold clean_list. destruct y as [|l'|t].
  - intros [[= <- _]|H]; auto.
  - destruct (String.eqb d "__pycache__"); [auto|]. intros [[= <- _]|H]; auto.
  - intros [[= <- _]|H]; auto.
Qed.
Lemma clean_plain : forall nd, plain nd -> plain (clean nd).
Proof.
  induction nd as [|t|l IH] using node_ind2; intros Hp; [exact I|destruct Hp|]. change (clean (D l)) with (D (clean_list l)). apply plain_D in Hp. destruct Hp as [Hn Hall]. apply plain_D. split.
  - clear IH Hall. induction l as [|[c x] l IHl]; cbn [clean_list map]; [constructor|]. fold clean_list. inversion Hn as [|? ? Hc Hn']; subst. specialize (IHl Hn').
    assert (Hc' : ~ In c (map fst (clean_list l))). { intros H. apply Hc. apply in_map_iff in H. destruct H as ([d y] & <- & H). exact (clean_list_in _ _ _ H). }
    destruct x as [|l'|t]; [constructor; assumption| |constructor; assumption]. destruct (String.eqb c "__pycache__"); [exact IHl|constructor; assumption].
  - clear Hn. induction l as [|[c x] l IHl]; cbn [clean_list]; [constructor|]. fold clean_list. inversion Hall as [|? ? Hx Hr]; subst. inversion IH as [|? ? IHx IHr]; subst. specialize (IHl IHr Hr). cbn [snd] in *.
    destruct x as [|l'|t]; [constructor; assumption| |destruct Hx]. destruct (String.eqb c "__pycache__"); [exact IHl|constructor; [exact (IHx Hx)|exact IHl]].
Qed.
Lemma run_find fs0 : forall nd p fs, plain fs -> lookup fs p = Some nd -> (match nd with D _ => True | _ => False end) -> run (find_pycache fs0 p nd) (None, fs) = (None, put fs p (clean nd)).
Proof.
  induction nd as [|t|l IH] using node_ind2; intros p fs Hp Hl Hd; try contradiction. clear Hd.
  pose proof (plain_lookup _ _ _ Hp Hl) as Hpl. pose proof Hpl as Hpl'. apply plain_D in Hpl'. destruct Hpl' as [Hn Hall].
  rewrite find_pycache_eq, run_app, (existsb_plain fs0 p l Hall).
  destruct (live_ok l Hn) as [Hl1 Hl2].
  assert (First : run (if has_cache l then [p ++ ["__pycache__"%string]] else []) (None, fs) = (None, put fs p (D (live l)))).
  { destruct (has_cache l) eqn:Eh.
    - destruct (proj1 (has_cache_assoc l Hn) Eh) as (l' & Ha). unfold run. cbn [fold_left]. rewrite (delete_directory_ok fs p _ l l' Hp Hl Ha), (Hl1 eq_refl). reflexivity.
    - rewrite (Hl2 eq_refl), (put_same _ _ _ Hl). reflexivity. }
  etransitivity; [exact (f_equal (run (find_in fs0 p l)) First)|]. clear First.
  assert (Hsubplain : forall l1 l2, l = l1 ++ l2 -> plain (put fs p (D (clean_list l1 ++ live l2)))).
  { intros l1 l2 E. apply put_plain; [exact Hp|]. apply plain_D. rewrite E in Hn, Hall. apply Forall_app in Hall. destruct Hall as [Ha Hb]. rewrite map_app in Hn.
    assert (P1 : plain (D l1)). { apply plain_D. split; [|exact Ha]. clear - Hn. induction (map fst l1) as [|x m IH]; [constructor|]. inversion Hn as [|? ? H1 H2]; subst. constructor; [intros H; apply H1, in_or_app; left; exact H|exact (IH H2)]. }
    pose proof (clean_plain _ P1) as P2. change (clean (D l1)) with (D (clean_list l1)) in P2. apply plain_D in P2. destruct P2 as [P2 P3]. split.
    - rewrite map_app.
      assert (Hin2 : forall c, In c (map fst (live l2)) -> In c (map fst l2)) by (intros c H; apply in_map_iff in H; destruct H as (e & <- & He); apply filter_In in He; apply in_map; exact (proj1 He)).
      assert (Hin1 : forall c, In c (map fst (clean_list l1)) -> In c (map fst l1)) by (intros c H; apply in_map_iff in H; destruct H as ([d y] & <- & He); exact (clean_list_in _ _ _ He)).
      assert (N2 : NoDup (map fst (live l2))).
      { assert (N : NoDup (map fst l2)) by (clear - Hn; induction (map fst l1) as [|x m IH]; [exact Hn|inversion Hn; auto]). clear - N. induction l2 as [|e l2 IH]; [constructor|]. cbn [live filter map] in *. inversion N as [|? ? H1 H2]; subst.
        destruct (negb (is_cache e)); [|exact (IH H2)]. cbn [map]. constructor; [|exact (IH H2)]. intros H. apply H1. apply in_map_iff in H. destruct H as (e' & He & He'). rewrite <- He. apply filter_In in He'. apply in_map. exact (proj1 He'). }
      assert (Dis : forall c, In c (map fst l1) -> In c (map fst l2) -> False).
      { clear - Hn. induction (map fst l1) as [|x m IH]; intros c H1 H2; [destruct H1|]. inversion Hn as [|? ? Ha Hb]; subst. destruct H1 as [->|H1]; [apply Ha, in_or_app; right; exact H2|exact (IH Hb c H1 H2)]. }
      clear - P2 N2 Hin1 Hin2 Dis. induction (map fst (clean_list l1)) as [|x m IH]; [exact N2|]. cbn [app]. inversion P2 as [|? ? Ha Hb]; subst. constructor.
      + intros H. apply in_app_iff in H. destruct H as [H|H]; [exact (Ha H)|]. exact (Dis x (Hin1 x (or_introl eq_refl)) (Hin2 x H)).
      + apply IH; [exact Hb|]. intros c H. apply Hin1. right. exact H.
    - apply Forall_app. split; [exact P3|]. rewrite Forall_forall in *. intros e He. apply filter_In in He. exact (Hb e (proj1 He)). }
  assert (S : forall l2 l1, l = l1 ++ l2 -> run (find_in fs0 p l2) (None, put fs p (D (clean_list l1 ++ live l2))) = (None, put fs p (clean (D l)))).
  { induction l2 as [|[c x] l2 IH2]; intros l1 E.
    - cbn [find_in live filter]. rewrite app_nil_r in *. subst l1. reflexivity.
    - cbn [find_in]. fold (find_in fs0 p). rewrite run_app.
      assert (Hin : In (c, x) l) by (rewrite E; apply in_or_app; right; left; reflexivity).
      pose proof (Hsubplain l1 ((c, x) :: l2) E) as Hpi.
      specialize (IH2 (l1 ++ [(c, x)])). rewrite <- app_assoc in IH2. specialize (IH2 E).
      assert (Hcl : clean_list (l1 ++ [(c, x)]) = clean_list l1 ++ clean_list [(c, x)]).
      { clear. induction l1 as [|[d y] l1 IH]; [reflexivity|]. cbn [app clean_list]. fold clean_list. rewrite IH. destruct y; [reflexivity| |reflexivity]. destruct (String.eqb d "__pycache__"); reflexivity. }
      rewrite Hcl in IH2.
      assert (Hnc : ~ In c (map fst (clean_list l1))).
      { intros H. apply in_map_iff in H. destruct H as ([d y] & <- & H). rewrite E in Hn. exact (nodup_mid _ _ _ _ Hn (clean_list_in _ _ _ H)). }
      destruct x as [|l'|t].
      + assert (EL : live ((c, F) :: l2) = (c, F) :: live l2) by (unfold live; cbn [filter]; unfold is_cache at 1; cbn [fst snd]; rewrite Bool.andb_false_r; reflexivity).
        rewrite EL. cbn [clean_list] in IH2. rewrite <- app_assoc in IH2. exact IH2.
      + assert (EL : live ((c, D l') :: l2) = if String.eqb c "__pycache__" then live l2 else (c, D l') :: live l2)
          by (unfold live; cbn [filter]; unfold is_cache at 1; cbn [fst snd]; rewrite Bool.andb_true_r; destruct (String.eqb c "__pycache__"); reflexivity).
        rewrite EL in *. clear EL. cbn [clean_list] in IH2.
        destruct (String.eqb_spec c "__pycache__") as [->|N]; cbn [negb] in *.
        * rewrite app_nil_r in IH2. rewrite (run_missing _ (p ++ ["__pycache__"%string]) Hpi); [exact IH2| |].
          -- rewrite lookup_app, (lookup_put _ _ _ _ Hl). cbn [lookup].
             assert (Hno : assoc "__pycache__" (clean_list l1 ++ live l2) = None).
             { apply assoc_None. rewrite map_app. intros H. apply in_app_iff in H. destruct H as [H|H]; [exact (Hnc H)|]. apply in_map_iff in H. destruct H as ([d y] & Hd & Hy). cbn [fst] in Hd. subst d. apply filter_In in Hy. destruct Hy as [Hy _].
               rewrite E, map_app in Hn. cbn [map fst] in Hn. apply NoDup_remove_2 in Hn. apply Hn. apply in_or_app. right. apply in_map_iff. exists ("__pycache__"%string, y). auto. }
             fold (live l2). rewrite Hno. reflexivity.
          -- intros q Hq. apply (find_shape fs0 (D l')) in Hq; [exact Hq|]. rewrite Forall_forall in Hall. exact (Hall _ Hin).
        * assert (IHx : forall p fs, plain fs -> lookup fs p = Some (D l') -> run (find_pycache fs0 p (D l')) (None, fs) = (None, put fs p (clean (D l')))).
          { rewrite Forall_forall in IH. intros p0 fs1 H1 H2. exact (IH (c, D l') Hin p0 fs1 H1 H2 I). }
          rewrite (IHx _ _ Hpi).
          -- rewrite (put_app p _ [c] _ _ (lookup_put _ _ _ _ Hl)). cbn [put]. rewrite (assoc_first _ _ _ _ Hnc), (reassoc_first _ _ _ _ _ Hnc), put_put. rewrite <- app_assoc in IH2. exact IH2.
          -- rewrite lookup_app, (lookup_put _ _ _ _ Hl). cbn [lookup]. rewrite (assoc_first _ _ _ _ Hnc). reflexivity.
      + rewrite Forall_forall in Hall. destruct (Hall _ Hin). }
  exact (S l [] eq_refl).
Qed.

(** PARTIAL: in a file system without symbolic links, exactly the directories named __pycache__ under the path are deleted, with their contents, and
    everything else is left as it was. Missing: symbolic links (refuted). *)
Theorem C50_deletes_exactly_pycache_partial : forall fs p l, plain fs -> lookup fs p = Some (D l) ->
  deletepycachedirs p fs = (None, put fs p (clean (D l))).
Proof.
  intros fs p l Hp Hl. unfold deletepycachedirs, getpycachedirs. rewrite (follow_plain fs p Hp), Hl. exact (run_find fs (D l) p fs Hp Hl I).
Qed.
Print Assumptions C50_deletes_exactly_pycache_partial.
(** getpycachedirs lists exactly these. *)
Theorem C50_lists_exactly_pycache_partial : forall fs p l, plain fs -> lookup fs p = Some (D l) ->
  exists qs, getpycachedirs fs p = Ok qs /\ forall q, In q qs <-> exists r, q = p ++ r /\ cache_dir (D l) r.
Proof.
  intros fs p l Hp Hl. unfold getpycachedirs. rewrite (follow_plain fs p Hp), Hl. eexists. split; [reflexivity|]. intros q. apply find_pycache_iff. exact (plain_lookup _ _ _ Hp Hl).
Qed.
Print Assumptions C50_lists_exactly_pycache_partial.
(** What [clean] keeps, in terms of paths: everything that has no __pycache__ directory on its way. *)
Lemma assoc_clean c : forall l, NoDup (map fst l) -> assoc c (clean_list l) = match assoc c l with
  | Some (D l') => if String.eqb c "__pycache__" then None else Some (clean (D l')) | other => other end.
Proof.
  induction l as [|[d y] l IH]; intros Hn; [reflexivity|]. inversion Hn as [|? ? Hc Hn']; subst. cbn [clean_list assoc]. fold clean_list. specialize (IH Hn').
  destruct y as [|l'|t].
  - cbn [assoc]. destruct (String.eqb c d); [reflexivity|exact IH].
  - destruct (String.eqb_spec d "__pycache__") as [->|N].
    + rewrite IH. destruct (String.eqb_spec c "__pycache__") as [->|]; [|reflexivity]. rewrite (proj2 (assoc_None _ _) Hc). reflexivity.
    + cbn [assoc]. destruct (String.eqb_spec c d) as [->|]; [|exact IH]. destruct (String.eqb_spec d "__pycache__"); [congruence|reflexivity].
  - cbn [assoc]. destruct (String.eqb c d); [reflexivity|exact IH].
Qed.
Theorem C50_what_is_left_partial : forall r nd, plain nd ->
  (forall x, lookup (clean nd) r = Some x -> exists y, lookup nd r = Some y /\ x = clean y) /\
  (forall y, lookup nd r = Some y -> (lookup (clean nd) r = None <-> exists a b, r = a ++ b /\ cache_dir nd a)).
Proof.
  induction r as [|c r IH]; intros nd Hp.
  - split; [intros x [= <-]; exists nd; auto|]. intros y _. split; [discriminate|]. intros (a & b & Hab & r' & l & -> & _). destruct r'; discriminate.
  - destruct nd as [|l|t]; [split; [discriminate|discriminate]| |destruct Hp]. pose proof Hp as Hp'. apply plain_D in Hp'. destruct Hp' as [Hn _].
    change (clean (D l)) with (D (clean_list l)). cbn [lookup]. rewrite (assoc_clean c l Hn).
    destruct (assoc c l) as [x|] eqn:Ea; [|split; [discriminate|discriminate]]. pose proof (plain_assoc _ _ _ Hp Ea) as Hx. destruct (IH x Hx) as [I1 I2].
    assert (Hcons : forall a, cache_dir (D l) (c :: a) <-> (a = [] /\ c = "__pycache__"%string /\ exists l', x = D l') \/ cache_dir x a).
    { intros a. split.
      - intros (r' & l' & E & H). cbn [lookup] in H. rewrite Ea in H. destruct r' as [|c' r']; cbn [app] in E; injection E as -> ->.
        + left. split; [reflexivity|]. split; [reflexivity|]. exists l'. cbn [lookup] in H. congruence.
        + right. exists r', l'. auto.
      - intros [(-> & -> & l' & ->)|(r' & l' & -> & H)].
        + exists [], l'. split; [reflexivity|]. cbn [lookup]. rewrite Ea. reflexivity.
        + exists (c :: r'), l'. split; [reflexivity|]. cbn [lookup]. rewrite Ea. exact H. }
    assert (Hex : (exists a b, c :: r = a ++ b /\ cache_dir (D l) a) <-> (c = "__pycache__"%string /\ exists l', x = D l') \/ exists a b, r = a ++ b /\ cache_dir x a).
    { split.
      - intros (a & b & E & H). destruct a as [|c' a]; [destruct H as (r' & ? & E' & _); destruct r'; discriminate|]. cbn [app] in E. injection E as <- ->. apply Hcons in H. destruct H as [(-> & H)|H]; [left; exact H|right; exists a, b; auto].
      - intros [(-> & H)|(a & b & -> & H)]; [exists ["__pycache__"%string], r; split; [reflexivity|]; apply Hcons; left; auto|exists (c :: a), b; split; [reflexivity|]; apply Hcons; right; exact H]. }
    destruct x as [|l'|t].
    + split; [exact I1|]. intros y Hy. rewrite Hex. change (clean F) with F in I2. rewrite (I2 y Hy). split; [intros H; right; exact H|intros [(_ & ? & H)|H]; [discriminate|exact H]].
    + destruct (String.eqb_spec c "__pycache__") as [->|N].
      * split; [discriminate|]. intros y Hy. rewrite Hex. split; [intros _; left; split; [reflexivity|exists l'; reflexivity]|reflexivity].
      * split; [exact I1|]. intros y Hy. rewrite Hex. rewrite (I2 y Hy). split; [intros H; right; exact H|intros [(H & _)|H]; [congruence|exact H]].
    + destruct Hx.
Qed.
Print Assumptions C50_what_is_left_partial.
Example C50_example : let fs := D [("src"%string, D [("__pycache__"%string, D [("m.pyc"%string, F); ("__pycache__"%string, D [])]); ("m.py"%string, F); ("sub"%string, D [("__pycache__"%string, F); ("x"%string, D [("__pycache__"%string, D [("a"%string, D [])])])])]); ("__pycache__"%string, D [])] in
  plain fs /\ deletepycachedirs ["src"%string] fs = (None, D [("src"%string, D [("m.py"%string, F); ("sub"%string, D [("__pycache__"%string, F); ("x"%string, D [])])]); ("__pycache__"%string, D [])]) /\
  getpycachedirs fs ["src"%string] = Ok [["src"; "__pycache__"]; ["src"; "__pycache__"; "__pycache__"]; ["src"; "sub"; "x"; "__pycache__"]]%string.
Proof.
  cbv zeta. split; [|split; vm_compute; reflexivity]. cbn.
  repeat split; repeat constructor; cbn; intros H; repeat (destruct H as [H|H]; [discriminate|]); destruct H.
Qed.
