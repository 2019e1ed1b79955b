(** Proofs about the IPython extension. *)
From Verif Require Import Base Dict IpyModel.

Section D.
  Context {V : Type}.
  Lemma sget_In_nodup (k : string) (v : V) (e : sdict V) : NoDup (map fst e) -> In (k, v) e -> sget k e = Some v.
  Proof.
    induction e as [|[j w] e IH]; cbn [In sget map fst]; intros Hd Hi; [destruct Hi|]. inversion Hd; subst. destruct Hi as [Hi|Hi].
    - inversion Hi; subst. rewrite String.eqb_refl. reflexivity.
    - destruct (String.eqb_spec k j) as [->|]; [|apply IH; assumption]. exfalso. apply H1. apply in_map_iff. exists (j, v). split; [reflexivity|exact Hi].
  Qed.
  Lemma sget_In (k : string) (v : V) (e : sdict V) : sget k e = Some v -> In (k, v) e.
  Proof.
    induction e as [|[j w] e IH]; cbn [sget]; intros H; [discriminate|]. destruct (String.eqb_spec k j) as [->|]; [inversion H; subst; left; reflexivity|right; apply IH; exact H].
  Qed.
  Lemma sget_supd_nodup (d e : sdict V) k : NoDup (map fst e) -> sget k (supd d e) = match sget k e with Some v => Some v | None => sget k d end.
  Proof.
    revert d. induction e as [|[j w] e IH]; intros d Hd; [reflexivity|]. inversion Hd; subst. change (supd d ((j, w) :: e)) with (supd (sset j w d) e).
    rewrite IH by assumption. rewrite sget_sset. cbn [sget]. destruct (String.eqb_spec k j) as [->|]; [|reflexivity]. apply sget_none in H1. rewrite H1. reflexivity.
  Qed.
  Lemma supd_nodup (d e : sdict V) : NoDup (map fst d) -> NoDup (map fst (supd d e)).
  Proof. revert d. induction e as [|[j w] e IH]; intros d Hd; [exact Hd|]. apply (IH (sset j w d)). apply sset_nodup. exact Hd. Qed.
  Lemma supd_notin (d e : sdict V) k : ~ In k (map fst e) -> sget k (supd d e) = sget k d.
  Proof.
    revert d. induction e as [|[j w] e IH]; intros d Hn; [reflexivity|]. change (supd d ((j, w) :: e)) with (supd (sset j w d) e). rewrite IH; [|intros H; apply Hn; right; exact H].
    rewrite sget_sset. destruct (String.eqb_spec k j) as [->|]; [exfalso; apply Hn; left; reflexivity|reflexivity].
  Qed.
End D.

Section P.
  Context {T fn : Type}.
  Variable metadata : sdict (val fn).
  Variable find_macros : sdict (val fn) -> T -> res (sdict fn * T).
  Variable expand : sdict fn -> sdict fn -> T -> sdict fn * sdict fn * res T.
  Variable postprocess : T -> res T.
  Variable other : nat -> T -> res T.
  Variable is_exc : exn -> bool.
  Variable run : T -> sdict (val fn) -> sdict (val fn) * list (string * fn).
  Variable fn_ref : fn -> option (string * string).
  Variable import : string -> string -> option (val fn).

  Notation ses := (ses T fn).
  Notation visit := (visit metadata find_macros expand postprocess is_exc).
  Notation visit_body := (visit_body metadata find_macros expand postprocess).
  Notation transform := (transform metadata find_macros expand postprocess other is_exc).
  Notation cell := (cell metadata find_macros expand postprocess other is_exc run fn_ref import).
  Notation step := (step metadata find_macros expand postprocess other is_exc run fn_ref import).
  Notation session := (session metadata find_macros expand postprocess other is_exc run fn_ref import).
  Notation refresh := (refresh fn_ref import).
  Notation load := (load metadata).

  Lemma upd_nth_length {A} n (f : A -> A) l : length (upd_nth n f l) = length l.
  Proof. revert n. induction l as [|x l IH]; intros [|n]; cbn; auto. Qed.

  (** What a visit leaves alone. *)
  Definition same (s s' : ses) : Prop :=
    s_ns s' = s_ns s /\ s_tf s' = s_tf s /\ s_cb s' = s_cb s /\ s_inst s' = s_inst s /\ length (s_exts s') = length (s_exts s) /\ (s_mod s <> None -> s_mod s' <> None).
  Lemma visit_same i t s : same s (fst (visit i t s)).
  Proof.
    unfold IpyModel.visit, IpyModel.visit_body, same. destruct (s_mod s) eqn:Em.
    2:{ cbn. repeat split. intros H. contradiction. }
    destruct (find_macros _ t) as [[b t1]|e]; [|cbn; repeat split; discriminate].
    destruct b; cbn -[supd]; destruct (expand _ _ t1) as [[l g] [t2|e]]; try destruct (postprocess t2); cbn -[supd]; rewrite ?upd_nth_length; repeat split; discriminate.
  Qed.
  Lemma visit_err i t s e : snd (visit i t s) = Err e -> e_cls e = "InputRejected"%string \/ is_exc e = false.
  Proof.
    unfold IpyModel.visit. destruct (visit_body i t s) as [s' [t'|e']]; cbn [snd]; [discriminate|]. destruct (is_exc e') eqn:Ee; intros H; inversion H; subst; [left; reflexivity|right; exact Ee].
  Qed.

  Lemma remove_mine o i l : In (Mine i) l -> In (Mine i) (remove_tf (Other o) l).
  Proof. induction l as [|y l IH]; cbn; [tauto|]. intros [->|H]; [left; reflexivity|]. destruct y; cbn; [right; auto|]. destruct (Nat.eqb o o0); [exact H|right; auto]. Qed.

  Lemma transform_mine l t s i : In (Mine i) (s_tf s) -> In (Mine i) (s_tf (fst (transform l t s))).
  Proof.
    revert t s. assert (G : forall n l, length l <= n -> forall t s, In (Mine i) (s_tf s) -> In (Mine i) (s_tf (fst (transform l t s)))).
    { intros n. induction n as [|n IH]; intros l' Hl t s H; destruct l' as [|x r]; cbn [IpyModel.transform fst]; try exact H; cbn in Hl; [lia|].
      assert (Hs : In (Mine i) (s_tf (fst (call_tf metadata find_macros expand postprocess other is_exc x t s)))).
      { destruct x; cbn; [|exact H]. destruct (visit_same i0 t s) as [_ [-> _]]. exact H. }
      destruct (call_tf metadata find_macros expand postprocess other is_exc x t s) as [s' [t'|e]] eqn:Ec; cbn [fst] in Hs; [apply IH; [lia|exact Hs]|].
      destruct (String.eqb (e_cls e) "InputRejected") eqn:Er; [exact Hs|]. destruct (is_exc e) eqn:Ee; [|exact Hs].
      destruct x as [j|o].
      - exfalso. cbn in Ec. destruct (visit_err j t s e) as [H1|H1]; [rewrite Ec; reflexivity| |congruence]. rewrite H1 in Er. rewrite String.eqb_refl in Er. discriminate.
      - assert (Hr : In (Mine i) (s_tf (set_tf (remove_tf (Other o) (s_tf s')) s'))) by (cbn; apply remove_mine; exact Hs).
        destruct r as [|y r']; [exact Hr|]. apply IH; [cbn in Hl; lia|exact Hr]. }
    intros t s. apply (G (length l) l). lia.
  Qed.

  (** What running the code of a cell, and refreshing, leave alone. *)
  Lemma macro_bind_same (env : sdict (val fn)) ms (s : ses) :
    let s' := fold_left (macro_bind env) ms s in
    s_ns s' = s_ns s /\ s_tf s' = s_tf s /\ s_cb s' = s_cb s /\ s_inst s' = s_inst s /\ length (s_exts s') = length (s_exts s) /\ s_mod s' = s_mod s /\ s_log s' = s_log s /\ s_glob s' = s_glob s.
  Proof.
    revert s. induction ms as [|p ms IH]; intros s; cbn [fold_left]; [repeat split|]. specialize (IH (macro_bind env s p)). cbn zeta in *.
    assert (H : s_ns (macro_bind env s p) = s_ns s /\ s_tf (macro_bind env s p) = s_tf s /\ s_cb (macro_bind env s p) = s_cb s /\ s_inst (macro_bind env s p) = s_inst s /\ length (s_exts (macro_bind env s p)) = length (s_exts s) /\ s_mod (macro_bind env s p) = s_mod s /\ s_log (macro_bind env s p) = s_log s /\ s_glob (macro_bind env s p) = s_glob s).
    { unfold macro_bind. destruct (sget _ env) as [[]|]; cbn; rewrite ?upd_nth_length; repeat split. }
    destruct H as (-> & -> & -> & -> & -> & -> & -> & ->) in IH. exact IH.
  Qed.
  Lemma refresh_same l (s : ses) :
    let s' := fold_left refresh l s in
    s_tf s' = s_tf s /\ s_cb s' = s_cb s /\ s_inst s' = s_inst s /\ length (s_exts s') = length (s_exts s) /\ s_mod s' = s_mod s /\ s_log s' = s_log s /\ s_glob s' = s_glob s.
  Proof.
    revert s. induction l as [|i l IH]; intros s; cbn [fold_left]; [repeat split|]. specialize (IH (refresh s i)). cbn zeta in *.
    assert (H : s_tf (refresh s i) = s_tf s /\ s_cb (refresh s i) = s_cb s /\ s_inst (refresh s i) = s_inst s /\ length (s_exts (refresh s i)) = length (s_exts s) /\ s_mod (refresh s i) = s_mod s /\ s_log (refresh s i) = s_log s /\ s_glob (refresh s i) = s_glob s).
    { unfold IpyModel.refresh. destruct (x_changed _); cbn; rewrite ?upd_nth_length; repeat split. }
    destruct H as (-> & -> & -> & -> & -> & -> & ->) in IH. exact IH.
  Qed.

  Lemma cell_mine t s i : In (Mine i) (s_tf s) -> In (Mine i) (s_tf (cell t s)).
  Proof.
    intros H. unfold IpyModel.cell. apply (transform_mine (s_tf s) t s i) in H. destruct (transform (s_tf s) t s) as [s1 [t'|e]]; cbn [fst snd] in *.
    - destruct (refresh_same (s_cb (exec run t' s1)) (exec run t' s1)) as [-> _]. unfold exec. destruct (macro_bind_same (s_ns s1) (snd (run t' (s_ns s1))) (set_ns (fst (run t' (s_ns s1))) (add_log (ERun t' (s_ns s1)) s1))) as [_ [-> _]]. exact H.
    - destruct (refresh_same (s_cb s1) s1) as [-> _]. exact H.
  Qed.
  Lemma session_mine cs s i : In (Mine i) (s_tf s) -> In (Mine i) (s_tf (session cs s)).
  Proof.
    revert s. induction cs as [|c cs IH]; intros s H; [exact H|]. apply IH. destruct c as [| |t]; cbn.
    - unfold IpyModel.load. destruct (s_inst s); cbn; [exact H|]. apply in_or_app. left. exact H.
    - exact H.
    - apply cell_mine. exact H.
  Qed.

  (** A shell in which the extension is loaded once, and no other tool transforms ASTs. *)
  Definition steady (s : ses) : Prop :=
    s_tf s = [Mine 0] /\ s_cb s = [0] /\ s_inst s = Some 0 /\ (exists x, s_exts s = [x]) /\ s_mod s <> None.

  (** The events of a cell. *)
  Definition self_of (ns : sdict (val fn)) : sdict (val fn) := supd ns metadata.
  Definition cell_events (ns : sdict (val fn)) (l g : sdict fn) (t : T) : list (event T fn) :=
    EFind 0 (self_of ns) t ::
    match find_macros (self_of ns) t with
    | Err _ => []
    | Ok (b, t1) =>
        EExpand 0 (supd l b) g t1 ::
        match snd (expand (supd l b) g t1) with
        | Err _ => []
        | Ok t2 => match postprocess t2 with Err _ => [] | Ok t3 => [ERun t3 ns] end
        end
    end.
  (** The bindings when the cell begins to run, whether the flag is then set, and the global bindings. *)
  Definition bound_by (ns : sdict (val fn)) (l g : sdict fn) (t : T) : sdict fn :=
    match find_macros (self_of ns) t with Err _ => l | Ok (b, t1) => fst (fst (expand (supd l b) g t1)) end.
  Definition glob_by (ns : sdict (val fn)) (l g : sdict fn) (t : T) : sdict fn :=
    match find_macros (self_of ns) t with Err _ => g | Ok (b, t1) => snd (fst (expand (supd l b) g t1)) end.
  Definition imports_macros (ns : sdict (val fn)) (t : T) : bool :=
    match find_macros (self_of ns) t with Ok (_ :: _, _) => true | _ => false end.
  Definition result (ns : sdict (val fn)) (l g : sdict fn) (t : T) : option T :=
    match find_macros (self_of ns) t with
    | Err _ => None
    | Ok (b, t1) => match snd (expand (supd l b) g t1) with Err _ => None | Ok t2 => match postprocess t2 with Err _ => None | Ok t3 => Some t3 end end
    end.

  Lemma visit_steady t s x : s_exts s = [x] -> s_mod s <> None ->
    let s' := fst (visit 0 t s) in
    let ns := s_ns s in let l := x_bind x in let g := s_glob s in
    s_exts s' = [mkExt (bound_by ns l g t) (x_changed x || imports_macros ns t)] /\ s_glob s' = glob_by ns l g t /\
    s_log s' = s_log s ++ (EFind 0 (self_of ns) t :: match find_macros (self_of ns) t with Err _ => [] | Ok (b, t1) => [EExpand 0 (supd l b) g t1] end) /\
    match snd (visit 0 t s) with Ok t' => result ns l g t = Some t' | Err _ => result ns l g t = None end.
  Proof.
    intros Hx Hm. unfold IpyModel.visit, IpyModel.visit_body, bound_by, glob_by, imports_macros, result, self_of. destruct (s_mod s) eqn:Em; [|contradiction].
    destruct x as [l c]. cbn zeta. cbn [x_bind x_changed]. destruct (find_macros _ t) as [[b t1]|e].
    2:{ cbn [fst snd s_exts s_glob s_log add_log set_mod]. rewrite Hx. rewrite orb_false_r. repeat split. }
    destruct b as [|p b].
    - unfold get_ext, upd_ext. cbn [s_exts s_glob add_log set_mod set_exts set_glob]. rewrite Hx. cbn [upd_nth nth x_bind]. change (supd l []) with l.
      destruct (expand l (s_glob s) t1) as [[l' g'] [t2|e]]; cbn [fst snd]; [destruct (postprocess t2); cbn [fst snd]|]; cbn; rewrite ?Hx; cbn; rewrite orb_false_r, <- app_assoc; repeat split.
    - unfold get_ext, upd_ext. cbn [s_exts s_glob add_log set_mod set_exts set_glob]. rewrite Hx. cbn [upd_nth nth x_bind].
      destruct (expand (supd l (p :: b)) (s_glob s) t1) as [[l' g'] [t2|e]]; cbn [fst snd]; [destruct (postprocess t2); cbn [fst snd]|]; cbn -[supd]; rewrite orb_true_r, <- app_assoc; repeat split.
  Qed.

  Lemma transform_steady t s : fst (transform [Mine 0] t s) = fst (visit 0 t s) /\ snd (transform [Mine 0] t s) = snd (visit 0 t s).
  Proof.
    cbn [IpyModel.transform call_tf]. destruct (visit 0 t s) as [s' [t'|e]] eqn:Ev; [split; reflexivity|].
    destruct (String.eqb (e_cls e) "InputRejected") eqn:Er; [split; reflexivity|]. destruct (is_exc e) eqn:Ee; [|split; reflexivity].
    exfalso. destruct (visit_err 0 t s e) as [H|H]; [rewrite Ev; reflexivity|rewrite H, String.eqb_refl in Er; discriminate|congruence].
  Qed.

  (** The bindings after the calls of [macro]. *)
  Definition macro_calls (ns : sdict (val fn)) (ms : list (string * fn)) (l : sdict fn) : sdict fn :=
    match sget "__macro_expander__" ns with Some (VExpander 0) => supd l ms | _ => l end.
  Lemma macro_bind_exts (env : sdict (val fn)) ms (s : ses) x : s_exts s = [x] -> s_exts (fold_left (macro_bind env) ms s) = [mkExt (macro_calls env ms (x_bind x)) (x_changed x)].
  Proof.
    unfold macro_calls. revert s x. induction ms as [|p ms IH]; intros s x Hx; cbn [fold_left].
    - rewrite Hx. destruct x. cbn. destruct (sget _ env) as [[[|i]| | |]|]; reflexivity.
    - unfold macro_bind at 2. destruct (sget "__macro_expander__" env) as [[[|i]| | |]|].
      + erewrite IH; [|unfold upd_ext; cbn [s_exts set_exts]; rewrite Hx; cbn [upd_nth]; reflexivity]. cbn [x_bind x_changed]. reflexivity.
      + erewrite IH; [reflexivity|]. unfold upd_ext; cbn [s_exts set_exts]; rewrite Hx. destruct i; reflexivity.
      + apply IH. exact Hx.
      + apply IH. exact Hx.
      + apply IH. exact Hx.
      + apply IH. exact Hx.
  Qed.

  Lemma refresh_one_step (s : ses) x : s_exts s = [x] ->
    s_exts (refresh s 0) = [mkExt (x_bind x) false] /\
    s_ns (refresh s 0) = if x_changed x then fold_left (refresh_one fn_ref import) (chain_items (x_bind x) (s_glob s)) (s_ns s) else s_ns s.
  Proof. intros Hx. unfold IpyModel.refresh, get_ext, upd_ext. rewrite Hx. cbn [nth]. destruct x as [l [|]]; cbn; rewrite ?Hx; split; reflexivity. Qed.

  (** Everything about a cell in a steady session. *)
  Record cell_facts (t : T) (s : ses) (x : ext) : Prop := {
    cf_log : s_log (cell t s) = s_log s ++ cell_events (s_ns s) (x_bind x) (s_glob s) t;
    cf_exts : s_exts (cell t s) = [mkExt (match result (s_ns s) (x_bind x) (s_glob s) t with
                                          | Some t' => macro_calls (s_ns s) (snd (run t' (s_ns s))) (bound_by (s_ns s) (x_bind x) (s_glob s) t)
                                          | None => bound_by (s_ns s) (x_bind x) (s_glob s) t end) false];
    cf_glob : s_glob (cell t s) = glob_by (s_ns s) (x_bind x) (s_glob s) t;
    cf_ns : s_ns (cell t s) =
            let ns' := match result (s_ns s) (x_bind x) (s_glob s) t with Some t' => fst (run t' (s_ns s)) | None => s_ns s end in
            if x_changed x || imports_macros (s_ns s) t
            then fold_left (refresh_one fn_ref import) (chain_items (x_bind (get_ext 0 (cell t s))) (s_glob (cell t s))) ns' else ns';
    cf_steady : steady (cell t s) }.

  Lemma cell_steady t s x : steady s -> s_exts s = [x] -> cell_facts t s x.
  Proof.
    intros (Ht & Hc & Hi & _ & Hm) Hx.
    pose proof (visit_steady t s x Hx Hm) as (V1 & V2 & V3 & V4). pose proof (visit_same 0 t s) as (N1 & N2 & N3 & N4 & _ & N6). specialize (N6 Hm).
    pose proof (transform_steady t s) as [E1 E2].
    assert (Hcell : cell t s = fold_left refresh (s_cb (match snd (visit 0 t s) with Ok t' => exec run t' (fst (visit 0 t s)) | Err _ => fst (visit 0 t s) end)) (match snd (visit 0 t s) with Ok t' => exec run t' (fst (visit 0 t s)) | Err _ => fst (visit 0 t s) end)).
    { unfold IpyModel.cell. rewrite Ht, E1, E2. reflexivity. }
    set (s1 := fst (visit 0 t s)) in *. set (y := mkExt (bound_by (s_ns s) (x_bind x) (s_glob s) t) (x_changed x || imports_macros (s_ns s) t)) in *.
    destruct (snd (visit 0 t s)) as [t'|e].
    - pose proof (macro_bind_same (s_ns s1) (snd (run t' (s_ns s1))) (set_ns (fst (run t' (s_ns s1))) (add_log (ERun t' (s_ns s1)) s1))) as (M1 & M2 & M3 & M4 & _ & M6 & M7 & M8).
      assert (Me : s_exts (exec run t' s1) = [mkExt (macro_calls (s_ns s) (snd (run t' (s_ns s))) (x_bind y)) (x_changed y)]).
      { unfold exec. rewrite (macro_bind_exts (s_ns s1) (snd (run t' (s_ns s1))) _ y) by exact V1. rewrite N1. reflexivity. }
      fold (exec run t' s1) in M1, M2, M3, M4, M6, M7, M8. cbn [s_ns s_tf s_cb s_inst s_mod s_log s_glob set_ns add_log] in M1, M2, M3, M4, M6, M7, M8.
      set (s2 := exec run t' s1) in *.
      rewrite M3, N3, Hc in Hcell. cbn [fold_left] in Hcell.
      pose proof (refresh_one_step s2 _ Me) as [R1 R2]. cbn [x_bind x_changed] in R1, R2.
      pose proof (refresh_same [0] s2) as (Q1 & Q2 & Q3 & _ & Q5 & Q6 & Q7). cbn [fold_left] in Q1, Q2, Q3, Q5, Q6, Q7. rewrite <- Hcell in *.
      constructor.
      + rewrite Q6, M7, V3, N1. unfold cell_events. unfold result in V4. rewrite <- app_assoc. f_equal. cbn [app]. f_equal. destruct (find_macros _ t) as [[b t1]|]; [|discriminate].
        cbn [app]. f_equal. destruct (snd (expand _ _ t1)) as [t2|]; [|discriminate]. destruct (postprocess t2); [|discriminate]. inversion V4; subst. reflexivity.
      + rewrite R1, V4. reflexivity.
      + rewrite Q7, M8, V2. reflexivity.
      + cbn zeta. rewrite R2, V4. unfold get_ext. rewrite R1. cbn [nth x_bind]. rewrite Q7, M1, N1. reflexivity.
      + unfold steady. rewrite Q1, Q2, Q3, Q5, M2, M3, M4, M6, N2, N3, N4, Ht, Hc, Hi. repeat split; [eexists; exact R1|exact N6].
    - rewrite N3, Hc in Hcell. cbn [fold_left] in Hcell.
      pose proof (refresh_one_step s1 _ V1) as [R1 R2]. cbn [x_bind x_changed] in R1, R2.
      pose proof (refresh_same [0] s1) as (Q1 & Q2 & Q3 & _ & Q5 & Q6 & Q7). cbn [fold_left] in Q1, Q2, Q3, Q5, Q6, Q7. rewrite <- Hcell in *.
      constructor.
      + rewrite Q6, V3. unfold cell_events. unfold result in V4. f_equal. f_equal. destruct (find_macros _ t) as [[b t1]|]; [|reflexivity].
        f_equal. destruct (snd (expand _ _ t1)) as [t2|]; [|reflexivity]. destruct (postprocess t2); [discriminate|reflexivity].
      + rewrite R1, V4. reflexivity.
      + rewrite Q7, V2. reflexivity.
      + cbn zeta. rewrite R2, V4. unfold get_ext. rewrite R1. cbn [nth x_bind]. rewrite Q7, N1. reflexivity.
      + unfold steady. rewrite Q1, Q2, Q3, Q5, N2, N3, N4, Ht, Hc, Hi. repeat split; [eexists; exact R1|exact N6].
  Qed.

  Definition no_unload (cs : list (cmd T)) : Prop := ~ In CUnload cs.
  Lemma session_steady cs s : steady s -> no_unload cs -> steady (session cs s).
  Proof.
    revert s. induction cs as [|c cs IH]; intros s Hs Hn; [exact Hs|]. apply IH; [|intros H; apply Hn; right; exact H]. destruct c as [| |t]; cbn.
    - unfold IpyModel.load. destruct Hs as (? & ? & Hi & ?). rewrite Hi. repeat split; tauto.
    - exfalso. apply Hn. left. reflexivity.
    - destruct (Hs) as (_ & _ & _ & [x Hx] & _). exact (cf_steady _ _ _ (cell_steady t s x Hs Hx)).
  Qed.
  Lemma load_steady ns g : steady (load (fresh ns [] g)).
  Proof. unfold steady. cbn. repeat split; [eexists; reflexivity|discriminate]. Qed.
  Lemma loaded_steady ns g cs : no_unload cs -> steady (session (CLoad :: cs) (fresh ns [] g)).
  Proof. intros H. change (session (CLoad :: cs) (fresh ns [] g)) with (session cs (load (fresh ns [] g))). apply session_steady; [apply load_steady|exact H]. Qed.
  Lemma session_app cs cs' s : session (cs ++ cs') s = session cs' (session cs s).
  Proof. apply fold_left_app. Qed.

  (** Lookups after refreshing. *)
  Lemma refresh_get items ns k : NoDup (map fst items) ->
    sget k (fold_left (refresh_one fn_ref import) items ns) =
    match sget k items with
    | Some f => match fn_ref f with Some (m, q) => match import m q with Some v => Some v | None => sget k ns end | None => sget k ns end
    | None => sget k ns
    end.
  Proof.
    revert ns. induction items as [|[j f] items IH]; intros ns Hd; [reflexivity|]. inversion Hd; subst. cbn [fold_left]. rewrite IH by assumption. cbn [sget].
    assert (Hj : sget k (refresh_one fn_ref import ns (j, f)) = if String.eqb k j then match fn_ref f with Some (m, q) => match import m q with Some v => Some v | None => sget k ns end | None => sget k ns end else sget k ns).
    { unfold refresh_one. cbn [fst snd]. destruct (fn_ref f) as [[m q]|]; [|destruct (String.eqb k j); reflexivity]. destruct (import m q); [|destruct (String.eqb k j); reflexivity]. rewrite sget_sset. destruct (String.eqb k j); reflexivity. }
    rewrite Hj. destruct (String.eqb_spec k j) as [->|]; [|reflexivity]. apply sget_none in H1. rewrite H1. reflexivity.
  Qed.
  (** Refreshing binds names of macros only (no assumption on the dicts). *)
  Lemma refresh_only items ns k : ~ In k (map fst items) -> sget k (fold_left (refresh_one fn_ref import) items ns) = sget k ns.
  Proof.
    revert ns. induction items as [|[j f] items IH]; intros ns Hn; [reflexivity|]. cbn [fold_left]. rewrite IH; [|intros H; apply Hn; right; exact H].
    unfold refresh_one. cbn [fst snd]. destruct (fn_ref f) as [[m q]|]; [|reflexivity]. destruct (import m q); [|reflexivity]. rewrite sget_sset.
    destruct (String.eqb_spec k j) as [->|]; [exfalso; apply Hn; left; reflexivity|reflexivity].
  Qed.
End P.
