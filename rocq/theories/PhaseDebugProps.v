(** C77: the debug mode of the multi-phase compiler. *)
From Verif Require Import Base AstLib UtilsModel FixLocModel ExpanderModel SpliceModel Dict ImportsModel ModulesModel ModulesProps PhaseModel PhaseSpec PhaseProofs PhaseProps DialectModel StatsModel PhaseDebugModel CompileSpec CompileProps.

(** [from mcpyrate.debug import macros, ..., step_phases, ...]; the name may be given another one by [as]. *)
Definition debug_import (t : ltree) : Prop :=
  exists i rest a, view_import t = Some i /\ i_module i = Some "mcpyrate.debug"%string /\ i_level i = 0 /\ i_names i = ("macros"%string, None) :: rest /\ In ("step_phases"%string, a) rest.

(** C77 a: debug mode is on exactly if step_phases is macro-imported from mcpyrate.debug, in the top level. *)
Theorem C77_debug_mode : forall body, Forall sane_import body -> exists b, isdebug body = Ok b /\ (b = true <-> exists t, In t body /\ debug_import t).
Proof.
  induction body as [|t r IH]; intros H; [exists false; split; [reflexivity|]; split; [discriminate|intros (t & [] & _)]|]. inversion H as [|? ? H2 H3]; subst. destruct (IH H3) as (b & Hb & Hiff). cbn [isdebug].
  assert (K : (debug_import t /\ exists i, import_named "macros" t = Ok (Some i) /\ match i_module i with Some m => String.eqb m "mcpyrate.debug" | None => false end && Nat.eqb (i_level i) 0 && existsb (fun p => String.eqb (fst p) "step_phases") (tl (i_names i)) = true) \/
    (~ debug_import t /\ (import_named "macros" t = Ok None \/ exists i, import_named "macros" t = Ok (Some i) /\ match i_module i with Some m => String.eqb m "mcpyrate.debug" | None => false end && Nat.eqb (i_level i) 0 && existsb (fun p => String.eqb (fst p) "step_phases") (tl (i_names i)) = false))).
  { destruct (import_named "macros" t) as [[i|]|e] eqn:Ei.
    - destruct (named_spec _ _ _ Ei) as (Hv & r' & Hr).
      destruct (match i_module i with Some m => String.eqb m "mcpyrate.debug" | None => false end && Nat.eqb (i_level i) 0 && existsb (fun p => String.eqb (fst p) "step_phases") (tl (i_names i))) eqn:Ec.
      + left. split; [|exists i; auto]. apply andb_true_iff in Ec. destruct Ec as [Ec E3]. apply andb_true_iff in Ec. destruct Ec as [E1 E2]. apply Nat.eqb_eq in E2.
        apply existsb_exists in E3. destruct E3 as ([x a] & Hin & Hx). apply String.eqb_eq in Hx. cbn [fst] in Hx. subst x. rewrite Hr in Hin. cbn [tl] in Hin.
        destruct (i_module i) as [m|] eqn:Em; [|discriminate]. apply String.eqb_eq in E1. subst m. exists i, r', a. auto.
      + right. split; [|right; exists i; auto]. intros (j & r2 & a & Hv' & Hm & Hl & Hn & Hin). rewrite Hv in Hv'. inversion Hv'; subst j. rewrite Hm, Hl, Hn in Ec. cbn [tl] in Ec.
        rewrite String.eqb_refl in Ec. cbn [andb Nat.eqb] in Ec. assert (existsb (fun p : string * option string => String.eqb (fst p) "step_phases") r2 = true); [|congruence]. apply existsb_exists. eexists. split; [exact Hin|]. apply String.eqb_refl.
    - right. split; [|auto]. intros (j & r2 & a & Hv' & Hm & Hl & Hn & Hin). unfold import_named in Ei. rewrite Hv', Hn in Ei. rewrite String.eqb_refl in Ei. discriminate.
    - exfalso. unfold import_named in Ei. destruct (view_import t) as [j|] eqn:Ev; [|discriminate]. specialize (H2 j Ev). destruct (i_names j) as [|[x [y|]] r2]; [congruence|discriminate|discriminate]. }
  destruct K as [(Hp & i & -> & ->)|(Hp & K)].
  - exists true. split; [reflexivity|]. split; [intros _|reflexivity]. exists t. split; [left; reflexivity|exact Hp].
  - exists b. split; [destruct K as [->|(i & -> & ->)]; exact Hb|]. rewrite Hiff. split; intros (t' & Hin & Ht'); [exists t'; split; [right|]; assumption|]. destruct Hin as [->|Hin]; [contradiction|]. eauto.
Qed.
Print Assumptions C77_debug_mode.

Section Statements.
  Context {U E : Type}.
  Variables (isidentifier : string -> bool) (truthy : nat -> bool) (gen : nat -> string).
  Notation shown_by run single := (multiphase_shown (U := U) (E := E) isidentifier truthy gen run single).

  Lemma phases_fst run single debug ks : forall body m (s : mst U), fst (phases_shown (E := E) run single debug ks body m s) = phases run single ks body m s.
  Proof.
    induction ks as [|k ks IH]; intros body m s; [reflexivity|]. cbn [phases_shown phases]. destruct (extract_phase k body) as [[this body']|e]; [|reflexivity].
    destruct this as [|t this].
    - rewrite <- IH. destruct (phases_shown run single debug ks body' m s) as [[x s1] out]. reflexivity.
    - destruct (inject k (t :: this)) as [code|e]; [|reflexivity]. destruct k as [|k].
      + destruct (single code s) as [[x|e] s1]; reflexivity.
      + destruct (run code m s) as [[x|e] s1]; [|reflexivity]. rewrite <- IH. destruct (phases_shown run single debug ks body' m s1) as [[y s2] out]. reflexivity.
  Qed.
  (** C77 b: debug mode changes nothing but what is printed. *)
  Theorem C77_only_prints run single body self (s : mst U) : Forall sane_import body -> fst (shown_by run single body self s) = multiphase_expand isidentifier truthy gen run single body self s.
  Proof.
    intros H. destruct (C77_debug_mode body H) as (b & Hb & _). unfold multiphase_shown, multiphase_expand. rewrite Hb. destruct (detect_highest_phase body) as [n|e]; [|reflexivity].
    destruct (create_module _ _ _ _ _ _ _) as [[m|e] s1]; [|reflexivity].
    assert (P := phases_fst run single b (countdown (Z.to_nat (pyn_z n))) body m s1). destruct (phases_shown run single b (countdown (Z.to_nat (pyn_z n))) body m s1) as [[x s2] out]. cbn [fst] in P. rewrite <- P.
    destruct n; destruct x as [[x|]|e]; reflexivity.
  Qed.

  Lemma phases_quiet run single ks : forall body m (s : mst U), snd (phases_shown (E := E) run single false ks body m s) = [].
  Proof.
    induction ks as [|k ks IH]; intros body m s; [reflexivity|]. cbn [phases_shown]. destruct (extract_phase k body) as [[this body']|e]; [|reflexivity].
    destruct this as [|t this].
    - specialize (IH body' m s). destruct (phases_shown run single false ks body' m s) as [[x s1] out]. exact IH.
    - destruct (inject k (t :: this)) as [code|e]; [|reflexivity]. destruct k as [|k].
      + destruct (single code s) as [[x|e] s1]; reflexivity.
      + destruct (run code m s) as [[x|e] s1]; [|reflexivity]. specialize (IH body' m s1). destruct (phases_shown run single false ks body' m s1) as [[y s2] out]. exact IH.
  Qed.
  (** C77 c: without it, nothing is printed. *)
  Theorem C77_quiet run single body self (s : mst U) : Forall sane_import body -> (forall t, In t body -> ~ debug_import t) -> snd (shown_by run single body self s) = [].
  Proof.
    intros H N. destruct (C77_debug_mode body H) as (b & Hb & Hiff). assert (b = false) by (destruct b; [|reflexivity]; destruct (proj1 Hiff eq_refl) as (t & Hin & Ht); destruct (N t Hin Ht)). subst b.
    unfold multiphase_shown. rewrite Hb. destruct (detect_highest_phase body) as [n|e]; [|reflexivity]. destruct (create_module _ _ _ _ _ _ _) as [[m|e] s1]; [|reflexivity].
    assert (P := phases_quiet run single (countdown (Z.to_nat (pyn_z n))) body m s1). destruct (phases_shown run single false (countdown (Z.to_nat (pyn_z n))) body m s1) as [[x s2] out]. cbn [snd] in P. subst out.
    destruct n; destruct x as [[x|]|e]; reflexivity.
  Qed.
End Statements.
Print Assumptions C77_only_prints.
Print Assumptions C77_quiet.

(** The programs and the phase numbers among what is printed. *)
Definition codes (l : list shown) : list (list ltree) := flat_map (fun x => match x with ShCode c => [c] | _ => [] end) l.
Definition numbers (l : list shown) : list nat := flat_map (fun x => match x with ShPhase k => [k] | _ => [] end) l.
Lemma codes_app a b : codes (a ++ b) = codes a ++ codes b.
Proof. apply flat_map_app. Qed.
Lemma numbers_app a b : numbers (a ++ b) = numbers a ++ numbers b.
Proof. apply flat_map_app. Qed.

Section Truth.
  Context {V E : Type}.
  Variables (isidentifier : string -> bool) (truthy : nat -> bool) (gen : nat -> string).
  (** Any compiler and any user code, made to keep a log of the programs that they get. *)
  Notation U := (list (list ltree) * V)%type.
  Variable run : list ltree -> nat -> mst V -> res unit * mst V.
  Variable single : list ltree -> mst V -> res E * mst V.
  Definition without (s : mst U) : mst V := mkMst (m_sys s) (m_attr s) (m_next s) (m_uuid s) (snd (m_user s)).
  Definition with_log (l : list (list ltree)) (s : mst V) : mst U := mkMst (m_sys s) (m_attr s) (m_next s) (m_uuid s) (l, m_user s).
  Definition run_logged (code : list ltree) (m : nat) (s : mst U) : res unit * mst U := let (r, s1) := run code m (without s) in (r, with_log (fst (m_user s) ++ [code]) s1).
  Definition single_logged (code : list ltree) (s : mst U) : res E * mst U := let (r, s1) := single code (without s) in (r, with_log (fst (m_user s) ++ [code]) s1).

  Lemma phases_truth ks : forall body m (s : mst U), let '(x, s1, out) := phases_shown run_logged single_logged true ks body m s in
    fst (m_user s1) = fst (m_user s) ++ codes out /\ (exists l, ks = numbers out ++ l /\ (forall y, x = Ok y -> l = [] \/ exists l1, numbers out = l1 ++ [0])).
  Proof.
    induction ks as [|k ks IH]; intros body m s; cbn [phases_shown]; [cbn; rewrite app_nil_r; split; [reflexivity|]; exists []; auto|].
    assert (Hfail : forall e : exn, exists l, k :: ks = numbers [ShPhase k] ++ l /\ (forall y, @Err (option E) e = Ok y -> l = [] \/ exists l1, numbers [ShPhase k] = l1 ++ [0])) by (intros e; exists ks; split; [reflexivity|discriminate]).
    destruct (extract_phase k body) as [[this body']|e]; [|cbn [codes flat_map]; rewrite app_nil_r; split; [reflexivity|apply Hfail]].
    destruct this as [|t this].
    - specialize (IH body' m s). destruct (phases_shown _ _ true ks body' m s) as [[x s1] out]. destruct IH as (H1 & l & H2 & H3).
      rewrite codes_app, numbers_app. split; [exact H1|]. exists l. split; [cbn; rewrite <- H2; reflexivity|]. intros z Hz. destruct (H3 z Hz) as [->|[l1 Hl]]; [left; reflexivity|right]. rewrite Hl. exists (k :: l1). reflexivity.
    - destruct (inject k (t :: this)) as [code|e]; [|cbn [codes flat_map]; rewrite app_nil_r; split; [reflexivity|apply Hfail]].
      destruct k as [|k].
      + unfold single_logged. destruct (single code (without s)) as [[x|e] s1]; (split; [reflexivity|]); exists ks; (split; [reflexivity|]); [intros z _; right; exists []; reflexivity|discriminate].
      + unfold run_logged at 1. destruct (run code m (without s)) as [[x|e] s1]; [|split; [reflexivity|]; exists ks; split; [reflexivity|discriminate]].
        specialize (IH body' m (with_log (fst (m_user s) ++ [code]) s1)). destruct (phases_shown _ _ true ks body' m _) as [[y s2] out]. destruct IH as (H1 & l & H2 & H3).
        rewrite codes_app, numbers_app. split; [rewrite H1; cbn; rewrite <- app_assoc; reflexivity|]. exists l. split; [cbn; rewrite <- H2; reflexivity|]. intros z Hz. destruct (H3 z Hz) as [->|[l1 Hl]]; [left; reflexivity|right]. rewrite Hl. exists (S k :: l1). reflexivity.
  Qed.

  (** C77 d: in debug mode, the programs that are printed are exactly those that are compiled, in the same order; the one that fails to compile or to run, if any, is the last. *)
  Theorem C77_shows_what_is_compiled body self (s : mst U) r s' out : Forall sane_import body -> (exists t, In t body /\ debug_import t) ->
    multiphase_shown isidentifier truthy gen run_logged single_logged body self s = (r, s', out) -> fst (m_user s') = fst (m_user s) ++ codes out.
  Proof.
    intros H Hd. destruct (C77_debug_mode body H) as (b & Hb & Hiff). apply Hiff in Hd. subst b. unfold multiphase_shown. rewrite Hb.
    destruct (detect_highest_phase body) as [n|e]; [|intros [= <- <- <-]; cbn; rewrite app_nil_r; reflexivity].
    destruct (create_module isidentifier truthy gen (ArgStr self) (ArgStr "file.py") false s) as [[m|e] s1] eqn:Ec.
    - apply C40_create_module_success in Ec. destruct Ec as (_ & Hu & _). assert (P := phases_truth (countdown (Z.to_nat (pyn_z n))) body m s1).
      destruct (phases_shown _ _ true (countdown (Z.to_nat (pyn_z n))) body m s1) as [[x s2] out']. destruct P as (P & _). rewrite Hu in P.
      assert (HR : forall o, m_user (restore truthy self o s2) = m_user s2) by (intros o; unfold restore; destruct (match o with Some _ => _ | None => _ end); reflexivity).
      destruct n; [intros [= <- <- <-]; cbn; rewrite Hu, app_nil_r; reflexivity| |]; (destruct x as [[x|]|e]; intros [= <- <- <-]; cbn [codes app flat_map]; rewrite ?HR; exact P).
    - apply C40_create_module_failure in Ec. destruct Ec as (_ & _ & Hu & _). intros [= <- <- <-]. rewrite Hu. cbn. rewrite app_nil_r. reflexivity.
  Qed.

  Lemma countdown_end N : forall l1 l, countdown N = (l1 ++ [0]) ++ l -> l = [].
  Proof.
    induction N as [|N IH]; intros l1 l H; cbn [countdown] in H.
    - destruct l1 as [|a l1]; cbn in H; [congruence|]. injection H as _ H. destruct l1; discriminate.
    - destruct l1 as [|a l1]; cbn in H; [discriminate|]. injection H as _ H. exact (IH l1 l H).
  Qed.
  (** C77 e: when the module is compiled successfully, its heading is printed first, and then that of each phase, from the highest down to 0. *)
  Theorem C77_headings body self (s : mst U) x s' out : Forall sane_import body -> (exists t, In t body /\ debug_import t) -> Forall readable body ->
    multiphase_shown isidentifier truthy gen run_logged single_logged body self s = (Ok x, s', out) ->
    exists N rest, top_phase body N /\ out = ShModule self :: rest /\ numbers rest = countdown N.
  Proof.
    intros H Hd HF. destruct (C77_debug_mode body H) as (b & Hb & Hiff). destruct Hd as (t0 & Hin0 & Ht0). assert (b = true) by (apply Hiff; eauto). subst b. unfold multiphase_shown. rewrite Hb.
    assert (HP : Forall proper body) by (eapply Forall_impl; [|exact HF]; intros t [Hp _]; exact Hp). destruct (detect_cases body HP) as [n [Hdet [Hnone Hc]]]. rewrite Hdet.
    assert (Hn : n <> PNone) by (intros ->; rewrite (proj1 Hnone eq_refl) in Hin0; destruct Hin0). specialize (Hc Hn).
    destruct (create_module isidentifier truthy gen (ArgStr self) (ArgStr "file.py") false s) as [[m|e] s1]; [|discriminate].
    assert (P := phases_truth (countdown (Z.to_nat (pyn_z n))) body m s1). destruct (phases_shown _ _ true (countdown (Z.to_nat (pyn_z n))) body m s1) as [[y s2] out']. destruct P as (_ & l & P1 & P2).
    assert (Hx : (match n with PNone => (Err (mkExn "TypeError" []), s1, [ShModule self]) | _ => match y with Err e => (Err e, s2, [ShModule self] ++ out') | Ok (Some x0) => (Ok x0, restore truthy self (sget self (m_sys s)) s2, [ShModule self] ++ out')
        | Ok None => (Err (mkExn "UnboundLocalError" []), restore truthy self (sget self (m_sys s)) s2, [ShModule self] ++ out') end end) = (Ok x, s', out) -> exists z, y = Ok z /\ out = ShModule self :: out').
    { destruct n as [| |nz]; [discriminate| |]; (destruct y as [[z|]|e]; [|discriminate|discriminate]; intros [= <- <- <-]; eauto). }
    intros E0. assert (E1 : exists z, y = Ok z /\ out = ShModule self :: out').
    { apply Hx. rewrite <- E0. destruct n as [| |nz]; [reflexivity| |]; (destruct y as [[z|]|e]; reflexivity). }
    destruct E1 as (z & Ey & ->). exists (Z.to_nat (pyn_z n)), out'. split.
    - unfold top_phase. destruct n as [| |n]; [contradiction|right; auto|]. left. assert (1 <= n)%Z by (destruct Hc as [[t [b' [_ Hb']]] _]; exact (block_pos _ _ _ Hb')). cbn [pyn_z]. split; [lia|]. rewrite Z2Nat.id by lia. exact Hc.
    - split; [reflexivity|]. destruct (P2 z Ey) as [->|[l1 Hl]]; [rewrite app_nil_r in P1; symmetry; exact P1|]. rewrite Hl in P1. pose proof (countdown_end _ _ _ P1) as ->. rewrite app_nil_r in P1. rewrite Hl. symmetry. exact P1.
  Qed.
End Truth.
Print Assumptions C77_headings.
Print Assumptions C77_shows_what_is_compiled.

(** ** Example *)
(** from mcpyrate.debug import macros, step_phases as sp; with phase[2]: b; c. Phase 1 has the contents of phase 2, too. *)
Definition d_import (m : string) : ltree :=
  Nd noloc "ImportFrom" [("module"%string, At (AStr m)); ("names"%string, Ls [Nd noloc "alias" [("name"%string, At (AStr "macros")); ("asname"%string, At ANone)]; Nd noloc "alias" [("name"%string, At (AStr "step_phases")); ("asname"%string, At (AStr "sp"))]]); ("level"%string, At (AInt 0))].
Definition d_prog (m : string) : list ltree := [d_import m; with_phase (num 2) [stmt "b"]; stmt "c"].
Definition d_run : list ltree -> nat -> mst unit -> res unit * mst unit := fun _ _ s => (Ok tt, s).
Definition d_single : list ltree -> mst unit -> res (list ltree) * mst unit := fun code s => (Ok code, s).
Definition d_multi (m : string) := multiphase_shown ident (fun _ => true) gen0 (run_logged d_run) (single_logged d_single) (d_prog m) "me" (mkMst [("me"%string, 5)] [] 10 0 ([], tt)).
Example C77_example :
  snd (d_multi "mcpyrate.debug") = [ShModule "me"; ShPhase 2; ShCode [phase_assign 2; stmt "b"]; ShPhase 1; ShCode [phase_assign 1; stmt "b"]; ShPhase 0; ShCode [phase_assign 0; d_import "mcpyrate.debug"; stmt "b"; stmt "c"]] /\
  fst (m_user (snd (fst (d_multi "mcpyrate.debug")))) = codes (snd (d_multi "mcpyrate.debug")) /\
  fst (fst (d_multi "mcpyrate.debug")) = Ok [phase_assign 0; d_import "mcpyrate.debug"; stmt "b"; stmt "c"] /\
  snd (d_multi "other") = [] /\ fst (fst (d_multi "other")) = Ok [phase_assign 0; d_import "other"; stmt "b"; stmt "c"] /\
  Forall sane_import (d_prog "mcpyrate.debug") /\ Forall readable (d_prog "mcpyrate.debug") /\ debug_import (d_import "mcpyrate.debug").
Proof.
  split; [vm_compute; reflexivity|]. split; [vm_compute; reflexivity|]. split; [vm_compute; reflexivity|]. split; [vm_compute; reflexivity|]. split; [vm_compute; reflexivity|]. split; [|split].
  - constructor; [intros i H; vm_compute in H; inversion H; discriminate|]. repeat constructor; intros i H; vm_compute in H; discriminate.
  - repeat first [apply Forall_nil | apply Forall_cons]; first [apply with_phase_readable; lia|apply plain_readable; intros m fs H; discriminate].
  - do 3 eexists. split; [vm_compute; reflexivity|]. repeat split. left. reflexivity.
Qed.
