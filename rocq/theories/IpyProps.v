(** C64: macros in an IPython session. *)
From Verif Require Import Base Dict IpyModel IpyProofs.

Section Spec.
  Context {T fn : Type}.
  Variable metadata : sdict (val fn).
  Variable find_macros : sdict (val fn) -> T -> res (sdict fn * T).
  Variable expand : sdict fn -> sdict fn -> T -> sdict fn * sdict fn * res T.
  Variable postprocess : T -> res T.
  Variable other : nat -> T -> res T.
  Variable is_exc : exn -> bool.
  Variable run : T -> sdict (val fn) -> sdict (val fn) * list (string * fn).
  Variable fn_ref : fn -> option (string * string).
  Variable import : string -> string -> option (val fn).
  Notation ses := (ses T fn).
  Notation cell := (cell metadata find_macros expand postprocess other is_exc run fn_ref import).
  Notation session := (session metadata find_macros expand postprocess other is_exc run fn_ref import).

  (** A shell in which the extension was loaded, and then the user did [cs]. *)
  Notation loaded ns g cs := (session (CLoad :: cs) (fresh ns [] g)).
  (** The namespace that [from __self__ import macros, ...] sees in a cell: the session's variables, but for the module's own metadata. *)
  Definition sees_session (ns self : sdict (val fn)) : Prop :=
    forall x, sget x self = match sget x metadata with Some v => Some v | None => sget x ns end.
  (** [d'] is [d] with the items of [b] added. *)
  Definition adds (d b d' : sdict fn) : Prop := forall x, sget x d' = match sget x b with Some f => Some f | None => sget x d end.

  (** Whatever other tools do, and whatever the user does: once the extension has been loaded, its transformer stays. *)
  Lemma transform_inst l t (s : ses) : s_inst (fst (transform metadata find_macros expand postprocess other is_exc l t s)) = s_inst s.
  Proof.
    assert (G : forall n l, length l <= n -> forall t (s : ses), s_inst (fst (transform metadata find_macros expand postprocess other is_exc l t s)) = s_inst s).
    { intros n. induction n as [|n IH]; intros l' Hl t' s'; destruct l' as [|x r]; cbn [IpyModel.transform fst]; try reflexivity; cbn in Hl; [lia|].
      assert (Hs : s_inst (fst (call_tf metadata find_macros expand postprocess other is_exc x t' s')) = s_inst s').
      { destruct x; cbn; [|reflexivity]. destruct (visit_same metadata find_macros expand postprocess is_exc i t' s') as (_ & _ & _ & -> & _). reflexivity. }
      destruct (call_tf metadata find_macros expand postprocess other is_exc x t' s') as [s2 [t2|e]]; cbn [fst] in Hs; [rewrite IH by lia; exact Hs|].
      destruct (String.eqb (e_cls e) "InputRejected"); [exact Hs|]. destruct (is_exc e); [|exact Hs]. destruct r as [|y r']; [exact Hs|]. rewrite IH by (cbn in Hl; lia). exact Hs. }
    apply (G (length l) l). lia.
  Qed.
  Lemma cell_inst t (s : ses) : s_inst (cell t s) = s_inst s.
  Proof.
    unfold IpyModel.cell. pose proof (transform_inst (s_tf s) t s) as H. destruct (transform metadata find_macros expand postprocess other is_exc (s_tf s) t s) as [s1 [t'|e]]; cbn [fst snd] in *.
    - destruct (refresh_same fn_ref import (s_cb (exec run t' s1)) (exec run t' s1)) as (_ & _ & -> & _). unfold exec.
      destruct (macro_bind_same (s_ns s1) (snd (run t' (s_ns s1))) (set_ns (fst (run t' (s_ns s1))) (add_log (ERun t' (s_ns s1)) s1))) as (_ & _ & _ & -> & _). exact H.
    - destruct (refresh_same fn_ref import (s_cb s1) s1) as (_ & _ & -> & _). exact H.
  Qed.
  Definition inst_ok (s : ses) : Prop := forall i, s_inst s = Some i -> In (Mine i) (s_tf s).
  Lemma session_inst_ok cs (s : ses) : inst_ok s -> inst_ok (session cs s).
  Proof.
    revert s. induction cs as [|c cs IH]; intros s H; [exact H|]. apply IH. destruct c as [| |t]; cbn.
    - unfold load. destruct (s_inst s) eqn:E; [exact H|]. intros i Hi. inversion Hi; subst. cbn. apply in_or_app. right. left. reflexivity.
    - intros i Hi. discriminate.
    - intros i Hi. rewrite cell_inst in Hi. apply cell_mine. apply H. exact Hi.
  Qed.
  (** Loading: what the user has stays, but for the two variables; the extension's transformer comes after those of other tools; no macro is bound yet. *)
  Theorem C64_loaded ns tfs g : let s := session [CLoad] (fresh ns tfs g) in
    (exists i, s_inst s = Some i /\ s_tf s = tfs ++ [Mine i] /\ sget "__macro_expander__" (s_ns s) = Some (VExpander i)) /\ sget "macro" (s_ns s) = Some VMacro /\
    (forall x, x <> "macro"%string -> x <> "__macro_expander__"%string -> sget x (s_ns s) = sget x ns) /\ macros s = Ok [] /\ s_glob s = g.
  Proof.
    cbv zeta. cbn [IpyModel.session fold_left]. cbn. split; [exists 0; split; [reflexivity|]; split; [reflexivity|]|].
    - rewrite !sget_sset. reflexivity.
    - rewrite !sget_sset. split; [reflexivity|]. split; [|split; reflexivity]. intros x H1 H2. rewrite !sget_sset. apply String.eqb_neq in H1, H2. rewrite H1, H2. reflexivity.
  Qed.
  Theorem C64_stays_installed ns tfs g cs1 cs2 : exists i, In (Mine i) (s_tf (session (cs1 ++ CLoad :: cs2) (fresh ns tfs g))).
  Proof.
    rewrite session_app. assert (H : inst_ok (session cs1 (fresh ns tfs g))) by (apply session_inst_ok; intros i Hi; discriminate).
    set (s := session cs1 (fresh ns tfs g)) in *. change (session (CLoad :: cs2) s) with (session cs2 (load metadata s)).
    assert (G : exists i, In (Mine i) (s_tf (load metadata s))).
    { unfold load. destruct (s_inst s) as [i|] eqn:E; [exists i; apply H; exact E|]. eexists. cbn. apply in_or_app. right. left. reflexivity. }
    destruct G as [i G]. exists i. apply session_mine. exact G.
  Qed.

  (** Each cell entered after loading: the macro-imports are looked for in the cell, with the session itself as [__self__]; then the cell is expanded, with
      the macros of the session and those that the cell imports. *)
  Theorem C64_cell_expanded ns g cs t l : no_unload cs -> NoDup (map fst metadata) -> macros (loaded ns g cs) = Ok l ->
    exists self rest, s_log (cell t (loaded ns g cs)) = s_log (loaded ns g cs) ++ EFind 0 self t :: rest /\ sees_session (s_ns (loaded ns g cs)) self /\
    (forall b t1, find_macros self t = Ok (b, t1) -> NoDup (map fst b) -> exists l' rest', rest = EExpand 0 l' (s_glob (loaded ns g cs)) t1 :: rest' /\ adds l b l').
  Proof.
    intros Hn Hd Hl. pose proof (loaded_steady metadata find_macros expand postprocess other is_exc run fn_ref import ns g cs Hn) as Hs. set (s := loaded ns g cs) in *.
    pose proof Hs as (_ & _ & Hi & [x Hx] & _). pose proof (cell_steady metadata find_macros expand postprocess other is_exc run fn_ref import t s x Hs Hx) as F.
    unfold macros, get_ext in Hl. rewrite Hi, Hx in Hl. cbn [nth] in Hl. inversion Hl; subst. eexists. eexists. split; [exact (cf_log _ _ _ _ _ _ _ _ _ _ _ _ F)|]. split.
    - intros k. apply sget_supd_nodup. exact Hd.
    - intros b t1 Hf Hb. rewrite Hf. eexists. eexists. split; [reflexivity|]. intros k. apply sget_supd_nodup. exact Hb.
  Qed.

  (** The cell fails to expand: importing the macros, expanding, or postprocessing raises. *)
  Definition fails_to_expand (self : sdict (val fn)) (l g : sdict fn) (t : T) : Prop :=
    (exists e, find_macros self t = Err e) \/
    exists b t1, find_macros self t = Ok (b, t1) /\
      ((exists e, snd (expand (supd l b) g t1) = Err e) \/ exists t2 e, snd (expand (supd l b) g t1) = Ok t2 /\ postprocess t2 = Err e).
  Definition expands_to (self : sdict (val fn)) (l g : sdict fn) (t t' : T) : Prop :=
    exists b t1 t2, find_macros self t = Ok (b, t1) /\ snd (expand (supd l b) g t1) = Ok t2 /\ postprocess t2 = Ok t'.
  (** Names of macros, local or global. *)
  Definition macro_name (s : ses) (x : string) : Prop := (exists l, macros s = Ok l /\ In x (map fst l)) \/ In x (map fst (s_glob s)).

  Lemma supd_keys (d e : sdict fn) x : In x (map fst (supd d e)) -> In x (map fst d) \/ In x (map fst e).
  Proof.
    intros H. destruct (in_dec string_dec x (map fst e)) as [|Hn]; [right; assumption|left]. destruct (sget x d) eqn:E; [apply sget_In in E; apply in_map_iff; eexists; split; [|exact E]; reflexivity|].
    exfalso. rewrite <- (supd_notin d e x Hn) in E. apply sget_none in E. contradiction.
  Qed.

  (** A cell that does not expand is not run, and the session goes on: no variable changes, except that those with the name of a macro may be refreshed. *)
  Theorem C64_rejected_cell ns g cs t l : no_unload cs -> macros (loaded ns g cs) = Ok l ->
    fails_to_expand (supd (s_ns (loaded ns g cs)) metadata) l (s_glob (loaded ns g cs)) t ->
    (exists new, s_log (cell t (loaded ns g cs)) = s_log (loaded ns g cs) ++ new /\ forall t' ns', ~ In (ERun t' ns') new) /\
    (forall x, sget x (s_ns (cell t (loaded ns g cs))) = sget x (s_ns (loaded ns g cs)) \/ macro_name (cell t (loaded ns g cs)) x) /\
    s_tf (cell t (loaded ns g cs)) = s_tf (loaded ns g cs).
  Proof.
    intros Hn Hl Hf. pose proof (loaded_steady metadata find_macros expand postprocess other is_exc run fn_ref import ns g cs Hn) as Hs. set (s := loaded ns g cs) in *.
    pose proof Hs as (Ht & _ & Hi & [x Hx] & _). pose proof (cell_steady metadata find_macros expand postprocess other is_exc run fn_ref import t s x Hs Hx) as F.
    unfold macros, get_ext in Hl. rewrite Hi, Hx in Hl. cbn [nth] in Hl. inversion Hl; subst. clear Hl.
    assert (Hr : result metadata find_macros expand postprocess (s_ns s) (x_bind x) (s_glob s) t = None).
    { unfold result, self_of. destruct Hf as [[e ->]|(b & t1 & -> & [[e ->]|(t2 & e & -> & ->)])]; reflexivity. }
    split; [|split].
    - eexists. split; [exact (cf_log _ _ _ _ _ _ _ _ _ _ _ _ F)|]. intros t' ns'. unfold cell_events, self_of. destruct Hf as [[e ->]|(b & t1 & -> & [[e ->]|(t2 & e & -> & ->)])]; cbn; intuition discriminate.
    - intros k. pose proof (cf_ns _ _ _ _ _ _ _ _ _ _ _ _ F) as En. cbn zeta in En. rewrite Hr in En. rewrite En. destruct (x_changed x || _); [|left; reflexivity].
      destruct (in_dec string_dec k (map fst (chain_items (x_bind (get_ext 0 (cell t s))) (s_glob (cell t s))))) as [Hk|Hk]; [right|left; apply refresh_only; exact Hk].
      apply supd_keys in Hk. destruct Hk as [Hk|Hk]; [right; exact Hk|left]. pose proof (cf_steady _ _ _ _ _ _ _ _ _ _ _ _ F) as (_ & _ & Hi' & _). unfold macros. rewrite Hi'. eexists. split; [reflexivity|exact Hk].
    - pose proof (cf_steady _ _ _ _ _ _ _ _ _ _ _ _ F) as (Ht' & _). congruence.
  Qed.
  (** A cell that expands is run, once, in the session's variables, as what it expands to. *)
  Theorem C64_accepted_cell ns g cs t l t' : no_unload cs -> macros (loaded ns g cs) = Ok l ->
    expands_to (supd (s_ns (loaded ns g cs)) metadata) l (s_glob (loaded ns g cs)) t t' ->
    (exists new, s_log (cell t (loaded ns g cs)) = s_log (loaded ns g cs) ++ new ++ [ERun t' (s_ns (loaded ns g cs))] /\ forall t0 ns', ~ In (ERun t0 ns') new) /\
    (forall x, sget x (s_ns (cell t (loaded ns g cs))) = sget x (fst (run t' (s_ns (loaded ns g cs)))) \/ macro_name (cell t (loaded ns g cs)) x).
  Proof.
    intros Hn Hl (b & t1 & t2 & H1 & H2 & H3). pose proof (loaded_steady metadata find_macros expand postprocess other is_exc run fn_ref import ns g cs Hn) as Hs. set (s := loaded ns g cs) in *.
    pose proof Hs as (Ht & _ & Hi & [x Hx] & _). pose proof (cell_steady metadata find_macros expand postprocess other is_exc run fn_ref import t s x Hs Hx) as F.
    unfold macros, get_ext in Hl. rewrite Hi, Hx in Hl. cbn [nth] in Hl. inversion Hl; subst. clear Hl.
    assert (Hr : result metadata find_macros expand postprocess (s_ns s) (x_bind x) (s_glob s) t = Some t').
    { unfold result, self_of. rewrite H1, H2, H3. reflexivity. }
    split.
    - exists [EFind 0 (supd (s_ns s) metadata) t; EExpand 0 (supd (x_bind x) b) (s_glob s) t1]. split.
      + rewrite (cf_log _ _ _ _ _ _ _ _ _ _ _ _ F). unfold cell_events, self_of. rewrite H1, H2, H3. reflexivity.
      + intros t0 ns'. cbn. intuition discriminate.
    - intros k. pose proof (cf_ns _ _ _ _ _ _ _ _ _ _ _ _ F) as En. cbn zeta in En. rewrite Hr in En. rewrite En. destruct (x_changed x || _); [|left; reflexivity].
      destruct (in_dec string_dec k (map fst (chain_items (x_bind (get_ext 0 (cell t s))) (s_glob (cell t s))))) as [Hk|Hk]; [right|left; apply refresh_only; exact Hk].
      apply supd_keys in Hk. destruct Hk as [Hk|Hk]; [right; exact Hk|left]. pose proof (cf_steady _ _ _ _ _ _ _ _ _ _ _ _ F) as (_ & _ & Hi' & _). unfold macros. rewrite Hi'. eexists. split; [reflexivity|exact Hk].
  Qed.

  (** A macro of the session stays, through any number of cells, also rejected ones, as long as none of them binds its name anew. *)
  Definition keeps (x : string) : Prop :=
    (forall l g t, sget x (fst (fst (expand l g t))) = sget x l) /\ (forall t ns, ~ In x (map fst (snd (run t ns)))).
  Theorem C64_macros_stay ns g cs1 cs2 l x f : no_unload cs1 -> no_unload cs2 -> macros (loaded ns g cs1) = Ok l -> sget x l = Some f ->
    keeps x -> (forall t self b t1, In (CCell t) cs2 -> find_macros self t = Ok (b, t1) -> ~ In x (map fst b)) ->
    (exists new, s_log (loaded ns g (cs1 ++ cs2)) = s_log (loaded ns g cs1) ++ new /\ forall i l' g' t, In (EExpand i l' g' t) new -> sget x l' = Some f) /\
    (exists l', macros (loaded ns g (cs1 ++ cs2)) = Ok l' /\ sget x l' = Some f).
  Proof.
    intros Hn1 Hn2 Hl Hx [K1 K2] Hb. pose proof (loaded_steady metadata find_macros expand postprocess other is_exc run fn_ref import ns g cs1 Hn1) as Hs.
    replace (loaded ns g (cs1 ++ cs2)) with (session cs2 (loaded ns g cs1)) by (symmetry; apply (session_app metadata find_macros expand postprocess other is_exc run fn_ref import (CLoad :: cs1) cs2)).
    set (s := loaded ns g cs1) in *. clearbody s. revert s l Hs Hl Hx. induction cs2 as [|c cs2 IH]; intros s l Hs Hl Hx.
    - split; [exists []; split; [rewrite app_nil_r; reflexivity|intros ? ? ? ? []]|]. exists l. split; assumption.
    - assert (Hn : no_unload cs2) by (intros H; apply Hn2; right; exact H). assert (Hb' : forall t self b t1, In (CCell t) cs2 -> find_macros self t = Ok (b, t1) -> ~ In x (map fst b)) by (intros t self b t1 Hi; apply (Hb t self b t1); right; exact Hi).
      specialize (IH Hn Hb'). destruct c as [| |t].
      + change (session (CLoad :: cs2) s) with (session cs2 (load metadata s)). assert (E : load metadata s = s) by (destruct Hs as (_ & _ & Hi & _); unfold load; rewrite Hi; reflexivity). rewrite E. apply (IH s l Hs Hl Hx).
      + exfalso. apply Hn2. left. reflexivity.
      + change (session (CCell t :: cs2) s) with (session cs2 (cell t s)).
        pose proof Hs as (_ & _ & Hi & [y Hy] & _). pose proof (cell_steady metadata find_macros expand postprocess other is_exc run fn_ref import t s y Hs Hy) as F.
        unfold macros, get_ext in Hl. rewrite Hi, Hy in Hl. cbn [nth] in Hl. inversion Hl; subst. clear Hl.
        assert (Hbb : sget x (bound_by metadata find_macros expand (s_ns s) (x_bind y) (s_glob s) t) = Some f).
        { unfold bound_by. destruct (find_macros _ t) as [[b t1]|] eqn:Ef; [|exact Hx]. rewrite K1. rewrite supd_notin; [exact Hx|]. exact (Hb t _ b t1 (or_introl eq_refl) Ef). }
        pose proof (cf_steady _ _ _ _ _ _ _ _ _ _ _ _ F) as Hs'. pose proof Hs' as (_ & _ & Hi' & _).
        destruct (IH (cell t s) (x_bind (get_ext 0 (cell t s))) Hs') as [[new [E1 E2]] G]; [unfold macros; rewrite Hi'; reflexivity| |].
        * unfold get_ext. rewrite (cf_exts _ _ _ _ _ _ _ _ _ _ _ _ F). cbn [nth x_bind]. destruct (result _ _ _ _ _ _ _ t) as [t'|]; [|exact Hbb].
          unfold macro_calls. destruct (sget _ (s_ns s)) as [[[|i]| | |]|]; try exact Hbb. rewrite supd_notin; [exact Hbb|apply K2].
        * split; [|exact G]. rewrite (cf_log _ _ _ _ _ _ _ _ _ _ _ _ F), <- app_assoc in E1. eexists. split; [exact E1|]. intros i l' g' t0 H0. apply in_app_or in H0. destruct H0 as [H0|H0]; [|apply (E2 i l' g' t0 H0)].
          unfold cell_events in H0. destruct (find_macros _ t) as [[b t1]|] eqn:Ef; [|destruct H0 as [H0|[]]; discriminate]. destruct H0 as [H0|[H0|H0]]; [discriminate| |].
          -- inversion H0; subst. rewrite supd_notin; [exact Hx|]. exact (Hb t _ b t0 (or_introl eq_refl) Ef).
          -- destruct (snd (expand _ _ t1)) as [t2|]; [|destruct H0]. destruct (postprocess t2); [|destruct H0]. destruct H0 as [H0|[]]. discriminate.
  Qed.

  (** After a cell with a macro-import, also if the cell fails: each macro of the session that can be imported from its module is a variable, for [name?]. *)
  Definition makes_dicts : Prop :=
    (forall self t b t1, find_macros self t = Ok (b, t1) -> NoDup (map fst b)) /\
    (forall l g t, NoDup (map fst l) -> NoDup (map fst g) -> NoDup (map fst (fst (fst (expand l g t)))) /\ NoDup (map fst (snd (fst (expand l g t))))).
  Lemma dicts_stay t s x : makes_dicts -> steady s -> s_exts s = [x] -> NoDup (map fst (x_bind x)) -> NoDup (map fst (s_glob s)) ->
    (forall y, s_exts (cell t s) = [y] -> NoDup (map fst (x_bind y))) /\ NoDup (map fst (s_glob (cell t s))).
  Proof.
    intros [D1 D2] Hs Hx N1 N2. pose proof (cell_steady metadata find_macros expand postprocess other is_exc run fn_ref import t s x Hs Hx) as F. split.
    - intros y Hy. rewrite (cf_exts _ _ _ _ _ _ _ _ _ _ _ _ F) in Hy. inversion Hy; subst. cbn [x_bind].
      assert (B : NoDup (map fst (bound_by metadata find_macros expand (s_ns s) (x_bind x) (s_glob s) t))).
      { unfold bound_by. destruct (find_macros _ t) as [[b t1]|] eqn:Ef; [|exact N1]. apply D2; [apply supd_nodup; exact N1|exact N2]. }
      destruct (result _ _ _ _ _ _ _ t); [|exact B]. unfold macro_calls. destruct (sget _ (s_ns s)) as [[[|i]| | |]|]; try exact B. apply supd_nodup. exact B.
    - rewrite (cf_glob _ _ _ _ _ _ _ _ _ _ _ _ F). unfold glob_by. destruct (find_macros _ t) as [[b t1]|] eqn:Ef; [|exact N2]. apply D2; [apply supd_nodup; exact N1|exact N2].
  Qed.
  Lemma dicts_session ns g cs : makes_dicts -> no_unload cs -> NoDup (map fst g) ->
    (forall y, s_exts (loaded ns g cs) = [y] -> NoDup (map fst (x_bind y))) /\ NoDup (map fst (s_glob (loaded ns g cs))).
  Proof.
    intros HD Hn Hg. change (loaded ns g cs) with (session cs (load metadata (fresh ns [] g))). pose proof (load_steady metadata ns g : steady (T:=T) (load metadata (fresh ns [] g))) as Hs.
    assert (N1 : forall y, s_exts (load (T:=T) metadata (fresh ns [] g)) = [y] -> NoDup (map fst (x_bind y))) by (intros y Hy; cbn in Hy; inversion Hy; subst; constructor).
    assert (N2 : NoDup (map fst (s_glob (load (T:=T) metadata (fresh ns [] g))))) by exact Hg.
    set (s := load metadata (fresh ns [] g)) in *. clearbody s. revert s Hs N1 N2. induction cs as [|c cs IH]; intros s Hs N1 N2; [split; assumption|].
    assert (Hn' : no_unload cs) by (intros H; apply Hn; right; exact H). destruct c as [| |t].
    - change (session (CLoad :: cs) s) with (session cs (load metadata s)). assert (E : load metadata s = s) by (destruct Hs as (_ & _ & Hi & _); unfold load; rewrite Hi; reflexivity). rewrite E. apply IH; assumption.
    - exfalso. apply Hn. left. reflexivity.
    - change (session (CCell t :: cs) s) with (session cs (cell t s)). pose proof Hs as (_ & _ & _ & [x Hx] & _).
      destruct (dicts_stay t s x HD Hs Hx (N1 x Hx) N2) as [A B]. apply IH; [exact Hn'| |exact A|exact B]. exact (cf_steady _ _ _ _ _ _ _ _ _ _ _ _ (cell_steady metadata find_macros expand postprocess other is_exc run fn_ref import t s x Hs Hx)).
  Qed.
  Theorem C64_help ns g cs t b t1 l x f m q v : makes_dicts -> NoDup (map fst g) -> no_unload cs ->
    find_macros (supd (s_ns (loaded ns g cs)) metadata) t = Ok (b, t1) -> b <> [] ->
    macros (cell t (loaded ns g cs)) = Ok l -> sget x l = Some f -> fn_ref f = Some (m, q) -> import m q = Some v ->
    sget x (s_ns (cell t (loaded ns g cs))) = Some v.
  Proof.
    intros HD Hg Hn Hf Hb Hl Hx Hr Hi. pose proof (loaded_steady metadata find_macros expand postprocess other is_exc run fn_ref import ns g cs Hn) as Hs. destruct (dicts_session ns g cs HD Hn Hg) as [N1 N2]. set (s := loaded ns g cs) in *.
    pose proof Hs as (_ & _ & _ & [y Hy] & _). pose proof (cell_steady metadata find_macros expand postprocess other is_exc run fn_ref import t s y Hs Hy) as F.
    destruct (dicts_stay t s y HD Hs Hy (N1 y Hy) N2) as [A B]. pose proof (cf_steady _ _ _ _ _ _ _ _ _ _ _ _ F) as (_ & _ & Hi' & [z Hz] & _).
    unfold macros in Hl. rewrite Hi' in Hl. inversion Hl; subst. pose proof (cf_ns _ _ _ _ _ _ _ _ _ _ _ _ F) as En. cbn zeta in En. rewrite En.
    assert (Him : imports_macros metadata find_macros (s_ns s) t = true) by (unfold imports_macros, self_of; rewrite Hf; destruct b; [contradiction|reflexivity]).
    rewrite Him, orb_true_r. assert (Nz : NoDup (map fst (x_bind (get_ext 0 (cell t s))))) by (unfold get_ext; rewrite Hz; exact (A z Hz)).
    rewrite refresh_get by (apply supd_nodup; exact B). unfold chain_items. rewrite sget_supd_nodup by exact Nz. rewrite Hx, Hr, Hi. reflexivity.
  Qed.

  (** Loading the extension again, without unloading, does nothing. *)
  Theorem C64_load_again ns tfs g cs : session (cs ++ [CLoad; CLoad]) (fresh ns tfs g) = session (cs ++ [CLoad]) (fresh ns tfs g).
  Proof. rewrite !session_app. cbn. unfold load at 1. unfold load at 1. destruct (s_inst (session cs (fresh ns tfs g))) eqn:E; [rewrite E; reflexivity|]. cbn. unfold load. rewrite E. reflexivity. Qed.
End Spec.
Print Assumptions C64_loaded.
Print Assumptions C64_stays_installed.
Print Assumptions C64_cell_expanded.
Print Assumptions C64_rejected_cell.
Print Assumptions C64_accepted_cell.
Print Assumptions C64_macros_stay.
Print Assumptions C64_help.
Print Assumptions C64_load_again.

(** A little language of cells: a macro-import (asname, module, name), a macro invocation, an assignment of a number, and what an invocation expands to.
    The module [mod] has the macros [m], [k] and [bad]; [bad] always fails. *)
Inductive stm : Type := SImp (x m q : string) | SUse (x : string) | SVar (x : string) (n : nat) | SRes (f : string * string).
Definition x_fn : Type := (string * string)%type.
Definition x_meta : sdict (val x_fn) := [("__name__"%string, VOther 0)].
Fixpoint x_find (self : sdict (val x_fn)) (t : list stm) : res (sdict x_fn * list stm) :=
  match t with
  | [] => Ok ([], [])
  | SImp x m q :: r =>
      match x_find self r with
      | Err e => Err e
      | Ok (b, t') =>
          if String.eqb m "mod" && smem q ["m"; "k"; "bad"]%string then Ok (sset x (m, q) b, t')
          else match String.eqb m "__self__", sget q self with true, Some (VFn f) => Ok (sset x f b, t') | _, _ => Err (mkExn "ImportError" [q]) end
      end
  | c :: r => match x_find self r with Err e => Err e | Ok (b, t') => Ok (b, c :: t') end
  end.
Fixpoint x_exp (l : sdict x_fn) (t : list stm) : res (list stm) :=
  match t with
  | [] => Ok []
  | c :: r =>
      match x_exp l r with
      | Err e => Err e
      | Ok r' => match c with
                 | SUse x => match sget x l with
                             | Some f => if String.eqb (snd f) "bad" then Err (mkExn "MacroExpansionError" []) else Ok (SRes f :: r')
                             | None => Ok (c :: r') end
                 | _ => Ok (c :: r') end
      end
  end.
Definition x_expand (l g : sdict x_fn) (t : list stm) : sdict x_fn * sdict x_fn * res (list stm) := (l, g, x_exp (supd g l) t).
Definition x_run (t : list stm) (ns : sdict (val x_fn)) : sdict (val x_fn) * list (string * x_fn) :=
  (fold_left (fun ns c => match c with SVar x n => sset x (VOther n) ns | _ => ns end) t ns, []).
Definition x_import (m q : string) : option (val x_fn) := if String.eqb m "mod" then Some (VFn (m, q)) else None.
Definition x_other (o : nat) (t : list stm) : res (list stm) := Err (mkExn "ValueError" []).
Definition x_session := session x_meta x_find x_expand (fun t => Ok t) x_other (fun _ => true) x_run (fun f => Some f) x_import.
Definition x_start : ses (list stm) x_fn := fresh [("__name__"%string, VOther 1); ("v"%string, VFn ("__main__", "v")%string)] [] [].
Definition imp_m : list stm := [SImp "m" "mod" "m"].
Definition imp_k : list stm := [SImp "k" "mod" "k"].

(** A macro of an earlier cell is used after a cell that failed; then one that is defined in the session; a name that is not bound; help. *)
Definition x_events (s : ses (list stm) x_fn) : list (list stm) := flat_map (fun e => match e with ERun t _ => [t] | _ => [] end) (s_log s).
Example C64_example :
  let s := x_session [CLoad; CCell imp_m; CCell [SImp "z" "mod" "z"]; CCell [SUse "m"; SUse "w"]; CCell [SImp "w" "__self__" "v"; SUse "w"]; CCell [SImp "b" "mod" "bad"; SVar "y" 1; SUse "b"]; CCell [SVar "y" 2]] x_start in
  x_events s = [[]; [SRes ("mod", "m"); SUse "w"]; [SRes ("__main__", "v")]; [SVar "y" 2]]%string /\
  macros s = Ok [("m", ("mod", "m")); ("w", ("__main__", "v")); ("b", ("mod", "bad"))]%string /\
  map (fun x => sget x (s_ns s)) ["m"; "b"; "w"; "y"; "v"; "__name__"]%string = [Some (VFn ("mod", "m")); Some (VFn ("mod", "bad")); None; Some (VOther 2); Some (VFn ("__main__", "v")); Some (VOther 1)]%string /\
  s_tf s = [Mine 0].
Proof. vm_compute. repeat split; reflexivity. Qed.
Lemma x_find_dict self t b t1 : x_find self t = Ok (b, t1) -> NoDup (map fst b).
Proof.
  revert b t1. induction t as [|c t IH]; cbn [x_find]; intros b t1 H; [inversion H; constructor|].
  destruct c as [x m q| | |]; destruct (x_find self t) as [[b0 t0]|]; try discriminate; try (inversion H; subst; apply (IH b t0); reflexivity).
  specialize (IH b0 t0 eq_refl). destruct (String.eqb m "mod" && smem q _); [inversion H; subst; apply sset_nodup; exact IH|].
  destruct (String.eqb m "__self__"); [|discriminate]. destruct (sget q self) as [[]|]; try discriminate. inversion H; subst. apply sset_nodup. exact IH.
Qed.
(** The hypotheses of the theorems are met by it. *)
Example C64_example_hypotheses :
  keeps x_expand x_run "m" /\ makes_dicts x_find x_expand /\
  fails_to_expand x_find x_expand (fun t => Ok t) (supd (s_ns (x_session [CLoad] x_start)) x_meta) [] [] [SImp "b" "mod" "bad"; SUse "b"] /\
  expands_to x_find x_expand (fun t => Ok t) (supd (s_ns (x_session [CLoad] x_start)) x_meta) [] [] [SImp "k" "mod" "m"; SUse "k"] [SRes ("mod", "m")%string].
Proof.
  split; [split; [intros l g t; reflexivity|intros t ns []]|]. split; [split; [exact x_find_dict|intros l g t H1 H2; split; assumption]|]. split.
  - right. eexists. eexists. split; [vm_compute; reflexivity|]. left. eexists. vm_compute. reflexivity.
  - eexists. eexists. eexists. split; [vm_compute; reflexivity|]. split; vm_compute; reflexivity.
Qed.
(** Transformers of other tools: the first one fails and is removed by IPython; the extension stays, and works from the next cell on. *)
Example C64_example_other :
  let s := x_session [CLoad; CCell imp_m; CCell (imp_m ++ [SUse "m"])] (fresh [] [Other 3] []) in
  s_tf s = [Mine 0] /\ x_events s = [imp_m; [SRes ("mod", "m")%string]].
Proof. vm_compute. split; reflexivity. Qed.

(** Refuted: a cell changes no variable that it does not mention. The user's [m = 7] is lost when a later cell imports the macro [k]. *)
Theorem C64_variables_kept_refuted : exists cs, cs = [CLoad; CCell imp_m; CCell [SVar "m" 7]] /\
  sget "m" (s_ns (x_session cs x_start)) = Some (VOther 7) /\ sget "m" (s_ns (x_session (cs ++ [CCell imp_k]) x_start)) = Some (VFn ("mod", "m")%string).
Proof. eexists. split; [reflexivity|]. vm_compute. split; reflexivity. Qed.
Print Assumptions C64_variables_kept_refuted.
(** Refuted: after unloading the extension, cells are not expanded any more. They are; and [%macros], which still exists, raises AttributeError. *)
Theorem C64_unload_refuted : exists cs, cs = [CLoad; CCell imp_m; CUnload; CCell [SUse "m"]] /\
  x_events (x_session cs x_start) = [[]; [SRes ("mod", "m")%string]] /\ s_magics (x_session cs x_start) = true /\ (exists e, macros (x_session cs x_start) = Err e /\ e_cls e = "AttributeError"%string).
Proof. eexists. split; [reflexivity|]. vm_compute. repeat split. eexists. split; reflexivity. Qed.
Print Assumptions C64_unload_refuted.
(** Refuted: [%macros] lists the macros that cells can use. After reloading the extension, it lists none, though [m] is expanded; and each cell is
    expanded twice. *)
Theorem C64_reload_refuted : exists cs, cs = [CLoad; CCell imp_m; CUnload; CLoad; CCell [SUse "m"]] /\
  x_events (x_session cs x_start) = [[]; [SRes ("mod", "m")%string]] /\ macros (x_session cs x_start) = Ok [] /\ s_tf (x_session cs x_start) = [Mine 0; Mine 1].
Proof. eexists. split; [reflexivity|]. vm_compute. repeat split. Qed.
Print Assumptions C64_reload_refuted.
