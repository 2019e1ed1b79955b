(** Theorems about multi-phase compilation. *)
From Verif Require Import Base AstLib UtilsModel FixLocModel ExpanderModel SpliceModel Dict ModulesModel ModulesProps PhaseModel PhaseSpec PhaseProofs.

Lemma detect_cases body : Forall proper body -> exists r, detect_highest_phase body = Ok r /\ (r = PNone <-> body = []) /\
  (r <> PNone -> match r with PInt n => highest body n | _ => forall t n b, In t body -> ~ phase_block t n b end).
Proof.
  intros HF. assert (Hret : forall l mx, Forall proper l -> exists r, detect_loop mx l = Ok r).
  { induction l as [|t l IH]; intros mx Hl; cbn [detect_loop]; [eauto|]. inversion Hl as [|? ? Hp Hl']; subst. destruct (proper_with t Hp) as [[p ->] _]. apply IH. exact Hl'. }
  unfold detect_highest_phase. destruct body as [|t body]; [exists PNone; split; [reflexivity|]; split; [split; reflexivity|intros H; congruence]|].
  inversion HF as [|? ? Hp HF']; subst. destruct (proper_with t Hp) as [[p Ep] Hbody]. cbn [detect_loop]. rewrite Ep. destruct p as [z|].
  - destruct (Hbody z Ep) as [b Hb]. pose proof (iswithphase_block _ _ _ Ep Hb) as Hblk. pose proof (block_pos _ _ _ Hblk) as Hz.
    destruct (Hret body (PInt z) HF') as [r Hr]. exists r. split; [exact Hr|]. destruct (detect_loop_spec body (PInt z) r Hr) as [K1 [K2 [K3 [K4 K5]]]]; [cbn; lia|discriminate|exact Hz|].
    split; [split; [intros; contradiction|discriminate]|]. intros _. cbn [pyn_z] in K3. destruct r as [| |n]; [contradiction|cbn in K3; lia|]. cbn [pyn_z] in *. split.
    + destruct K4 as [K4|[t' [Hin [Hw _]]]]; [inversion K4; subst; exists t, b; split; [left; reflexivity|exact Hblk]|].
      rewrite Forall_forall in HF'. destruct (proper_with t' (HF' t' Hin)) as [_ Hb']. destruct (Hb' n Hw) as [b' Hb2]. exists t', b'. split; [right; exact Hin|]. apply iswithphase_block; assumption.
    + intros t' m b' [<-|Hin] Hm; [destruct (block_fun _ _ _ _ _ Hblk Hm); lia|]. eapply K5; [exact Hin|]. apply (block_iswithphase _ _ _ Hm).
  - destruct (Hret body PFalse HF') as [r Hr]. exists r. split; [exact Hr|]. destruct (detect_loop_spec body PFalse r Hr) as [K1 [K2 [K3 [K4 K5]]]]; [cbn; lia|discriminate|exact I|].
    split; [split; [intros; contradiction|discriminate]|]. intros _. assert (Ht : not_block t) by (apply (not_block_spec t Hp), Ep). destruct r as [| |n]; [contradiction| |].
    + cbn [pyn_z] in K5. intros t' n b' [<-|Hin] Hm; [exact (Ht n b' Hm)|]. pose proof (block_pos _ _ _ Hm). assert (n <= 0)%Z; [|lia]. eapply K5; [exact Hin|]. apply (block_iswithphase _ _ _ Hm).
    + cbn [pyn_z] in *. split.
      * destruct K4 as [K4|[t' [Hin [Hw _]]]]; [discriminate|]. rewrite Forall_forall in HF'. destruct (proper_with t' (HF' t' Hin)) as [_ Hb']. destruct (Hb' n Hw) as [b' Hb2]. exists t', b'. split; [right; exact Hin|]. apply iswithphase_block; assumption.
      * intros t' m b' [<-|Hin] Hm; [destruct (Ht m b' Hm)|]. eapply K5; [exact Hin|]. apply (block_iswithphase _ _ _ Hm).
Qed.

(** ** C34: the number of phases *)

(** For a program whose [with] statements have their fields: the answer is a number exactly if there is a phase block, and then
    it is the highest phase number. *)
Theorem C34_detect_highest_partial body : Forall proper body -> exists r, detect_highest_phase body = Ok r /\
  (forall n, r = PInt n <-> highest body n) /\ ((forall t n b, In t body -> ~ phase_block t n b) <-> (r = PFalse \/ r = PNone)) /\ (r = PNone <-> body = []).
Proof.
  intros HF. destruct (detect_cases body HF) as [r [Hr [Hnone Hc]]]. exists r. split; [exact Hr|]. destruct r as [| |n].
  - assert (body = []) by (apply Hnone; reflexivity). subst. split; [|split; [split; [auto|intros _ t n b []]|exact Hnone]]. intros n. split; [discriminate|]. intros [[t [b [[] _]]] _].
  - assert (Hc' : forall t n b, In t body -> ~ phase_block t n b) by (apply Hc; discriminate). split; [|split; [split; [auto|intros _; exact Hc']|exact Hnone]].
    intros n. split; [discriminate|]. intros [[t [b [Hin Hb]]] _]. destruct (Hc' t n b Hin Hb).
  - assert (Hc' : highest body n) by (apply Hc; discriminate). split; [|split; [|exact Hnone]].
    + intros m. split; [intros H; inversion H; subst; exact Hc'|]. intros [[t [b [Hin Hb]]] Hm]. destruct Hc' as [[t' [b' [Hin' Hb']]] Hm']. f_equal. pose proof (Hm t' n b' Hin' Hb'). pose proof (Hm' t m b Hin Hb). lia.
    + destruct Hc' as [[t [b [Hin Hb]]] _]. split; [intros H; destruct (H t n b Hin Hb)|intros [H|H]; discriminate].
Qed.
Print Assumptions C34_detect_highest_partial.

Definition pass_ : ltree := Nd noloc "Pass" [].
(** C34, false: a (non-empty) program without phase blocks gives False, not None. (As a number of phases it works as 0.) *)
Theorem C34_no_phase_gives_false_refuted : exists body, (forall t n b, In t body -> ~ phase_block t n b) /\ detect_highest_phase body = Ok PFalse.
Proof.
  exists [pass_]. split; [|reflexivity]. intros t n b [<-|[]] [sl [[m [fs [? [? [? [? [? [? [? [H _]]]]]]]]]] _]]. discriminate.
Qed.
Print Assumptions C34_no_phase_gives_false_refuted.

(** ** C32, C34: what is compiled *)

Section Multi.
  Context {U E : Type}.
  Variable isidentifier : string -> bool.
  Variable truthy : nat -> bool.
  Variable gen : nat -> string.
  Variable run : list ltree -> nat -> mst U -> res unit * mst U.
  Variable single : list ltree -> mst U -> res E * mst U.
  Notation create self s := (create_module isidentifier truthy gen (ArgStr self) (ArgStr "file.py") false s).
  Notation multi := (multiphase_expand isidentifier truthy gen run single).

  (** The number of phases of a program. *)
  Definition top_phase (body : list ltree) (N : nat) : Prop :=
    (1 <= N /\ highest body (Z.of_nat N)) \/ (N = 0 /\ forall t n b, In t body -> ~ phase_block t n b).

  Lemma multi_cases body self s r s' : Forall readable body -> body <> [] -> multi body self s = (r, s') ->
    (exists e, create self s = (Err e, s') /\ r = Err e) \/
    (exists m s1 s2, create self s = (Ok m, s1) /\
       ((exists N, top_phase body N /\ compiles run single body m (countdown N) s1 r s2 /\
          s' = match r with Ok _ => restore truthy self (sget self (m_sys s)) s2 | Err _ => s2 end) \/
        (final_contents body [] /\ (r = Err (mkExn "UnboundLocalError" []) /\ s' = restore truthy self (sget self (m_sys s)) s2)))).
  Proof.
    intros HF Hne H. assert (HP : Forall proper body) by (eapply Forall_impl; [|exact HF]; intros t [Hp _]; exact Hp).
    destruct (detect_cases body HP) as [n [Hd [Hnone Hc]]]. unfold multiphase_expand in H. rewrite Hd in H.
    destruct (create self s) as [[m|e] s1] eqn:Ec; [|left; exists e; inversion H; subst; auto]. right. exists m, s1.
    assert (Hn : n <> PNone) by (intros ->; apply Hne, Hnone; reflexivity). specialize (Hc Hn).
    assert (HN : exists N, Z.to_nat (pyn_z n) = N /\ top_phase body N /\ match N with O => final_contents body body | S _ => at_phase (Z.of_nat N) body body end).
    { exists (Z.to_nat (pyn_z n)). split; [reflexivity|]. destruct n as [| |n]; [contradiction| |].
      - cbn. split; [right; auto|]. apply no_blocks_final, Hc.
      - assert (1 <= n)%Z by (destruct Hc as [[t [b [_ Hb]]] _]; exact (block_pos _ _ _ Hb)). cbn [pyn_z]. split.
        + left. split; [lia|]. rewrite Z2Nat.id by lia. exact Hc.
        + destruct (Z.to_nat n) as [|N] eqn:EN; [lia|]. replace (Z.of_nat (S N)) with n by lia. apply at_start; [exact HF|]. apply Hc. }
    destruct HN as [N [HN [Htop Hat]]]. rewrite HN in H. pose proof (phases_compile run single body m N body s1 Hat) as HC.
    assert (HH : match phases run single (countdown N) body m s1 with (Err e, s2) => (Err e, s2) | (Ok (Some x), s2) => (Ok x, restore truthy self (sget self (m_sys s)) s2) | (Ok None, s2) => (Err (mkExn "UnboundLocalError" []), restore truthy self (sget self (m_sys s)) s2) end = (r, s')) by (destruct n; [contradiction|exact H|exact H]).
    clear H. destruct (phases run single (countdown N) body m s1) as [[[x|]|e] s2]; injection HH as <- <-; exists s2; (split; [reflexivity|]).
    - left. exists N. auto.
    - right. auto.
    - left. exists N. auto.
  Qed.

  (** C32 and C34. For a non-empty program in which the number of every block of phase 2 or higher is written as a plain number:
      phases are compiled from the highest down to 0, each once; the code of phase [k >= 1] consists of the future-imports and the
      bodies of the blocks of phase [k] and higher (plus [__phase__ = k]), in the order of the program; that of phase 0 is the
      whole program with the blocks replaced by their bodies. It stops at the first failure. *)
  Theorem C32_phases_compiled_partial body self s r s' : Forall readable body -> body <> [] -> ~ final_contents body [] -> multi body self s = (r, s') ->
    (exists e, create self s = (Err e, s') /\ r = Err e) \/
    exists m s1 s2 N, create self s = (Ok m, s1) /\ top_phase body N /\ compiles run single body m (countdown N) s1 r s2.
  Proof.
    intros HF Hne Hfin H. destruct (multi_cases body self s r s' HF Hne H) as [Hl|[m [s1 [s2 [Hc [[N [Ht [Hco _]]]|[Hf _]]]]]]]; [left; exact Hl| |contradiction]. right. exists m, s1, s2, N. auto.
  Qed.

  (** C33. If multi-phase compilation succeeds, the module that had the name before is back, or the name is gone if there was none;
      other entries are as compilation (macro expansion, and the code that was run) left them. *)
  Theorem C33_restored_on_success_partial body self s x s' : Forall readable body -> body <> [] ->
    (forall o, sget self (m_sys s) = Some o -> truthy o = true) -> NoDup (map fst (m_sys s)) ->
    (forall code m s1 r s2, run code m s1 = (r, s2) -> NoDup (map fst (m_sys s1)) -> NoDup (map fst (m_sys s2))) ->
    (forall code s1 r s2, single code s1 = (r, s2) -> NoDup (map fst (m_sys s1)) -> NoDup (map fst (m_sys s2))) ->
    multi body self s = (Ok x, s') ->
    sget self (m_sys s') = sget self (m_sys s) /\
    exists m N s1 s2, create self s = (Ok m, s1) /\ compiles run single body m (countdown N) s1 (Ok x) s2 /\ forall y, y <> self -> sget y (m_sys s') = sget y (m_sys s2).
  Proof.
    intros HF Hne Htr Hnd Hrun Hsing H. destruct (multi_cases body self s _ s' HF Hne H) as [[e [_ Hr]]|[m [s1 [s2 [Hc [[N [Ht [Hco Hs]]]|[_ [Hr _]]]]]]]]; [discriminate| |discriminate].
    assert (Hd1 : NoDup (map fst (m_sys s1))).
    { destruct (create_cases isidentifier truthy gen (ArgStr self) (ArgStr "file.py") false s) as [[y [_ [_ [_ Hy]]]]|[_ [e' [s3 [Hy _]]]]]; rewrite Hy in Hc; [|discriminate]. inversion Hc; subst. cbn. apply sset_nodup, Hnd. }
    assert (Hd2 : NoDup (map fst (m_sys s2))).
    { clear - Hco Hd1 Hrun Hsing. induction Hco; eauto. }
    assert (HR : forall y, sget y (m_sys s') = if String.eqb y self then sget self (m_sys s) else sget y (m_sys s2)).
    { intros y. rewrite Hs. unfold restore. destruct (sget self (m_sys s)) as [o|] eqn:Eo.
      - rewrite (Htr o eq_refl). cbn. rewrite sget_sset. reflexivity.
      - cbn. rewrite sget_sdel by exact Hd2. reflexivity. }
    split; [rewrite HR, String.eqb_refl; reflexivity|]. exists m, N, s1, s2. split; [exact Hc|]. split; [exact Hco|]. intros y Hy. rewrite HR. apply String.eqb_neq in Hy. rewrite Hy. reflexivity.
  Qed.
End Multi.
Print Assumptions C32_phases_compiled_partial.
Print Assumptions C33_restored_on_success_partial.

(** ** Examples and counterexamples *)

(** [with phase[slice]: body] *)
Definition with_phase (sl : ltree) (b : list ltree) : ltree :=
  Nd noloc "With" [("items"%string, Ls [Nd noloc "withitem" [("context_expr"%string, Nd noloc "Subscript" [("value"%string, Nd noloc "Name" [("id"%string, At (AStr "phase"))]); ("slice"%string, sl)]); ("optional_vars"%string, NoneT)]]); ("body"%string, Ls b)].
Definition num (n : Z) : ltree := Nd noloc "Constant" [("value"%string, At (AInt n))].
Definition stmt (x : string) : ltree := Nd noloc "Expr" [("value"%string, Nd noloc "Name" [("id"%string, At (AStr x))])].
Definition future_ : ltree := Nd noloc "ImportFrom" [("module"%string, At (AStr "__future__"))].

Lemma with_phase_readable n b : (1 <= n)%Z -> readable (with_phase (num n) b) /\ simple_block (with_phase (num n) b) n b.
Proof.
  intros Hn. assert (Hs : simple_block (with_phase (num n) b) n b).
  { exists (num n). split; [do 9 eexists; repeat split; reflexivity|]. eexists _, _. split; [reflexivity|]. left. split; [reflexivity|exact Hn]. }
  split; [|exact Hs]. split.
  - intros m fs H. inversion H; subst. eexists _, _. split; [reflexivity|]. split; [reflexivity|]. constructor; [|constructor]. do 5 eexists. split; [reflexivity|]. split; [reflexivity|]. split; [reflexivity|].
    intros mc fc Hc. inversion Hc; subst. eexists _, _. split; [reflexivity|]. split; [reflexivity|]. split; [intros mv fv Hv; inversion Hv; subst; eexists; reflexivity|]. split; [intros mm ff Hm; inversion Hm; subst; eexists; reflexivity|]. intros ms gs Hx. discriminate.
  - intros m b' Hb. right. destruct (block_fun _ _ _ _ _ (simple_is_block _ _ _ Hs) Hb) as [-> ->]. exact Hs.
Qed.
Lemma plain_readable (t : ltree) : (forall m fs, t <> Nd m "With" fs) -> readable t.
Proof.
  intros H. split; [intros m fs Ht; destruct (H m fs Ht)|]. intros n b [sl [[m [fs [? [? [? [? [? [? [? [Ht _]]]]]]]]]] _]]. destruct (H m fs Ht).
Qed.

(** with phase[1]: a; from __future__ ...; with phase[3]: b; c; with phase[2]: d; e *)
Definition ex_prog : list ltree :=
  [with_phase (num 1) [stmt "a"]; future_; with_phase (num 3) [stmt "b"]; stmt "c"; with_phase (num 2) [stmt "d"; stmt "e"]].
(** Record what is run. *)
Definition recorder (code : list ltree) (m : nat) (s : mst (list (list ltree))) : res unit * mst (list (list ltree)) :=
  (Ok tt, mkMst (m_sys s) (m_attr s) (m_next s) (m_uuid s) (m_user s ++ [code])).
Definition recorder0 (code : list ltree) (s : mst (list (list ltree))) : res (list ltree) * mst (list (list ltree)) := (Ok code, s).
Example C32_example : Forall readable ex_prog /\
  let '(r, s') := multiphase_expand ident (fun _ => true) gen0 recorder recorder0 ex_prog "me" (mkMst [("me"%string, 5)] [] 10 0 []) in
  r = Ok (phase_assign 0 :: [stmt "a"; future_; stmt "b"; stmt "c"; stmt "d"; stmt "e"]) /\
  m_user s' = [[future_; phase_assign 3; stmt "b"]; [future_; phase_assign 2; stmt "b"; stmt "d"; stmt "e"];
               phase_assign 1 :: [stmt "a"; future_; stmt "b"; stmt "d"; stmt "e"]] /\
  m_sys s' = [("me"%string, 5)].
Proof.
  split; [|vm_compute; repeat split; reflexivity].
  repeat first [apply Forall_nil | apply Forall_cons]; first [apply with_phase_readable; lia|apply plain_readable; intros m fs H; discriminate].
Qed.

(** C32, false in general: the block [with phase[2,]:] (the number in a tuple of one element) counts as a block of phase 2, but is not
    lifted: phase 1 does not contain it, and it is still there, as a block, in the final program. *)
Theorem C32_tuple_phase_number_refuted : exists t b, phase_block t 2 b /\ b <> [] /\
  exists r2 r1, extract_phase 2 [t] = Ok (b, r2) /\ extract_phase 1 r2 = Ok ([], r1) /\ r1 = [t].
Proof.
  exists (with_phase (Nd noloc "Tuple" [("elts"%string, Ls [num 2])]) [stmt "a"]), [stmt "a"]. split.
  - eexists. split; [do 9 eexists; repeat split; reflexivity|]. right. do 3 eexists. split; [reflexivity|]. split; [reflexivity|]. eexists _, _. split; [reflexivity|]. left. split; [reflexivity|lia].
  - split; [discriminate|]. eexists _, _. split; [vm_compute; reflexivity|]. split; vm_compute; reflexivity.
Qed.
Print Assumptions C32_tuple_phase_number_refuted.

(** C33, false on failure: when the code of a phase raises, the temporary module stays in sys.modules, in place of the module that was
    there. *)
Definition raising (code : list ltree) (m : nat) (s : mst unit) : res unit * mst unit := (Err (mkExn "ValueError" []), s).
Theorem C33_failed_phase_leaves_module_refuted : exists body (s s' : mst unit) e,
  Forall readable body /\ multiphase_expand ident (fun _ => true) gen0 raising (fun code s => (Ok code, s)) body "me" s = (Err e, s') /\
  sget "me" (m_sys s) = Some 5 /\ sget "me" (m_sys s') = Some 10.
Proof.
  exists [with_phase (num 1) [stmt "a"]], (mkMst [("me"%string, 5)] [] 10 0 tt). eexists _, _. split; [constructor; [apply with_phase_readable; lia|constructor]|]. split; [vm_compute; reflexivity|]. split; reflexivity.
Qed.
Print Assumptions C33_failed_phase_leaves_module_refuted.
