(** Property C74: expand_macros, the entry point of the macro expander. *)
From Verif Require Import Base AstLib UtilsModel FixLocModel MarkersModel MarkersSpec MarkersProofs HeapAst CtxModel CtxSpec CtxProps ExpanderModel ExpanderSpec ExpanderProps ExpanderExamples PostModel PostProps
  ExpandModel ExpandSpec ExpandProofs ExpandProofs2.

Lemma run_hooks_mono {F T U} (call : F -> T -> @pst F U -> res T * @pst F U) n : forall n' i t s x, n <= n' -> run_hooks call n i t s = Some x -> run_hooks call n' i t s = Some x.
Proof.
  induction n as [|n IH]; intros n' i t s x Hle H; [discriminate|]. destruct n' as [|n']; [lia|]. cbn [run_hooks] in *. destruct (nth_error (p_reg s) i); [|exact H].
  destruct (call f t s) as [[t'|e] s']; [|exact H]. apply IH; [lia|exact H].
Qed.

(** The full claim: whenever expand_macros returns, its result is what the expander's walk made of the input, without Done markers, with the ctx of
    each expression as its position demands, and passed through the registered postprocessors in their order (those which macros
    registered during the walk included). Proved for postprocessors that do not change the registry, for inputs and macro results
    without a list directly inside a list; and, for the part on ctx, for trees of Python's grammar ([sound]). *)
Theorem C74_result_partial : forall F W (E : env (@pst F W)) call ctx_other n b t p r p' log,
  (forall f u s x s', call f u s = (x, s') -> p_reg s' = p_reg s) ->
  (forall v tg v', well_formed v -> x_fix E v tg = Ok v' -> well_formed v') ->
  well_formed t -> (forall v, In (ERet (XOk v)) log -> well_formed v) ->
  expand_macros E call ctx_other n b t p = Some (XOk r, p', log) ->
  exists t1 s1 t2, visit E n t (mkSt b true p []) = Some (XOk t1, s1) /\ s_log s1 = log /\
    has_kind (String.eqb "Done") t2 = false /\ MarkersSpec.events (fun _ => false) t2 = MarkersSpec.events (String.eqb "Done") t1 /\
    (sound "Load" (skel t2) = true ->
     exists t0, right_ctx "Load" t0 /\ without_ctx t0 = without_ctx t2 /\ has_kind (String.eqb "Done") t0 = false /\
       chain call (p_reg (s_u s1)) t0 (s_u s1) (Ok r) p').
Proof.
  intros F W E call ctx_other n b t p r p' log Hreg Hfix Hw Hlog H. unfold expand_macros in H.
  destruct (visit E n t (mkSt b true p [])) as [[[t1|e] s1]|] eqn:Ev; try discriminate.
  destruct (global_postprocess call (prepare ctx_other) n t1 (s_u s1)) as [[[r0|e] p0]|] eqn:Eg; inversion H; subst. clear H.
  assert (Hw1 : wf t1 = true) by (apply wf1_wf; exact (proj2 (w_visit E Hfix n _ _ _ _ Ev Hw) Hlog)).
  unfold global_postprocess, prepare in Eg. destruct (delete_markers expander_marker t1) as [t2|e] eqn:Ed; [|discriminate].
  destruct (delete_ok_good _ _ Hw1 _ Ed) as [G1 [G2 _]].
  assert (X : forall q : string -> bool, (forall k, q k = expander_marker k) -> has_kind q t2 = false /\ MarkersSpec.events (fun _ => false) t2 = MarkersSpec.events q t1).
  { intros q Hq. split.
    - rewrite <- G2. unfold has_kind. clear - Hq. induction (preorder t2) as [|x l IH]; [reflexivity|]. cbn. rewrite IH, Hq. reflexivity.
    - rewrite G1. clear - Hq. induction t1 as [m k fs IH|l IH|a] using tree_ind'; [| |reflexivity].
      + cbn [MarkersSpec.events]. rewrite !with_field_getf, Hq. rewrite Forall_forall in IH. destruct (expander_marker k).
        * destruct (getf "body" fs) as [v|] eqn:Eb; [|reflexivity]. exact (IH _ (getf_In _ _ _ Eb)).
        * f_equal. f_equal. rewrite !flat_map_concat_map. f_equal. apply map_ext_in. intros x Hx. rewrite (IH _ Hx). reflexivity.
      + cbn [MarkersSpec.events]. rewrite !flat_map_concat_map. f_equal. apply map_ext_in. intros x Hx. rewrite Forall_forall in IH. exact (IH _ Hx). }
  destruct (X (String.eqb "Done") (fun k => String.eqb_sym _ _)) as [X1 X2].
  exists t1, s1, t2. split; [reflexivity|]. split; [reflexivity|]. split; [exact X1|]. split; [exact X2|]. intros Hs. rewrite Hs in Eg.
  exists (ctx_fixed "Load" t2). split; [apply fixed_right; cbn; tauto|]. split; [apply fixed_without|]. split; [apply fixed_clean; try reflexivity; [cbn; tauto|exact X1]|].
  destruct (run_hooks_chain call (p_reg (s_u s1)) (fun f u s x s' _ Hp Hc => eq_trans (Hreg f u s x s' Hc) Hp) (p_reg (s_u s1)) [] (ctx_fixed "Load" t2) (s_u s1) eq_refl eq_refl (n + S (List.length (p_reg (s_u s1)))) ltac:(lia)) as [r1 [s2 [R1 R2]]].
  cbn [List.length] in R1. rewrite (run_hooks_mono call n _ _ _ _ _ (Nat.le_add_r _ _) Eg) in R1. inversion R1; subst. exact R2.
Qed.
Print Assumptions C74_result_partial.

(** A program that invokes no macro, holds no marker, and has the right ctx everywhere is returned as it is, whatever the bindings;
    no macro function is called, nothing changes (no postprocessors registered). *)
Theorem C74_plain_program_unchanged : forall F W (E : env (@pst F W)) call ctx_other b t p,
  shaped t -> is_node t = true -> (forall u x syn, part t u -> ~ invokes E b u x syn) ->
  wf t = true -> has_kind (String.eqb "Done") t = false -> sound "Load" (skel t) = true -> right_ctx "Load" t -> p_reg p = [] ->
  exists n0, forall n, n0 <= n -> expand_macros E call ctx_other n b t p = Some (XOk t, p, []).
Proof.
  intros F W E call ctx_other b t p Hs Hn Hq Hw Hk Hso Hc Hp. destruct (C22_uninvolved_code_unchanged _ E (mkSt b true p []) t Hs Hn Hq) as [n0 H0].
  exists (S n0). intros n Hle. unfold expand_macros. rewrite (H0 n) by lia. unfold global_postprocess, prepare. cbn [s_u s_log].
  assert (Hk' : has_kind expander_marker t = false).
  { rewrite <- Hk. unfold has_kind. clear. induction (preorder t) as [|x l IH]; [reflexivity|]. cbn. rewrite IH. unfold expander_marker. rewrite String.eqb_sym. reflexivity. }
  rewrite (delete_identity expander_marker t Hw Hk' (or_introl Hn)), Hso, (right_fixed _ _ Hc). destruct n as [|n]; [lia|]. cbn [run_hooks]. rewrite Hp. reflexivity.
Qed.
Print Assumptions C74_plain_program_unchanged.

(** If the walk raises, so does expand_macros, with the same exception, and no postprocessor runs. *)
Theorem C74_failure_propagates : forall F W (E : env (@pst F W)) call ctx_other n b t p e s,
  visit E n t (mkSt b true p []) = Some (XRaise e, s) -> expand_macros E call ctx_other n b t p = Some (XRaise e, s_u s, s_log s).
Proof. intros F W E call ctx_other n b t p e s H. unfold expand_macros. rewrite H. reflexivity. Qed.
Print Assumptions C74_failure_propagates.

(** The correction of the ctx is what fix_ctx does to the node objects. *)
Theorem C74_ctx_step : forall copy n h v t F, bounded h -> owns h v (skel t) F -> NoDup F -> (is_node t || is_list t = true) ->
  sound "Load" (skel t) = true -> height (skel t) < n ->
  exists h', fix_ctx copy n h v = Rt (v, h') /\ reads h' v (skel (ctx_fixed "Load" t)).
Proof.
  intros copy n h v t F Hb Ho Hn Ha Hs Hh. destruct (C10_ctx_as_demanded copy n h v (skel t) F Hb Ho Hn) as [h' [H1 [H2 _]]]; auto; [destruct t; exact Ha|].
  exists h'. split; [exact H1|]. rewrite skel_ctx_fixed. exact H2.
Qed.
Print Assumptions C74_ctx_step.

(** An empty list of statements is returned as it is when there are no bindings; with
    any binding at all, expand_macros raises AttributeError. *)
Theorem C74_empty_suite_raises : forall F W (E : env (@pst F W)) call ctx_other n x i b p, p_reg p = [] ->
  expand_macros E call ctx_other (S n) [] (Ls []) p = Some (XOk (Ls []), p, []) /\
  expand_macros E call ctx_other (S n) ((x, i) :: b) (Ls []) p = Some (XRaise (plain (attribute_error "_fields")), p, []).
Proof. intros F W E call ctx_other n x i b p Hp. split; cbn; [rewrite Hp|]; reflexivity. Qed.
Print Assumptions C74_empty_suite_raises.

(** [nm], a name macro, returns its input; [reg] registers postprocessor 7, and returns its input. Postprocessor [f] puts [f] statements
    before the others. *)
Definition ex_macros (i : nat) : mdef (@pst nat unit) :=
  match i with
  | 0 => mkMac true false (fun i => Ret (in_tree i))
  | _ => mkMac false false (fun i => GetU (fun u => SetU (mkPst (add_postprocessor Nat.eqb 7 (p_reg u)) tt) (Ret (in_tree i))))
  end.
Definition ex_env : env (@pst nat unit) := mkEnv ex_macros (fun t _ => Ok t) (fun _ => ""%string) (fun _ x => x) (fun _ => true).
Definition ex_hook (f : nat) (t : ltree) (s : @pst nat unit) : res ltree * @pst nat unit :=
  (match t with Nd m k fs => Ok (Nd m k (("body"%string, match getf "body" fs with Some (Ls l) => Ls (repeat pass_ (f - 5) ++ l) | _ => NoneT end) :: tl fs)) | _ => Err type_error end, s).
Definition ex_bind : binds := [("nm", 0); ("reg", 1)]%string.
Definition assign_ (x v : ltree) : ltree := Nd (at_ 1 0) "Assign" [("targets"%string, Ls [x]); ("value"%string, v); ("type_comment"%string, NoneT)].
Definition stored (x : string) : ltree := Nd (at_ 1 0) "Name" [("id"%string, At (AStr x)); ("ctx"%string, Nd noloc "Store" [])].
(** [nm = reg[y]]: the walk leaves [Done(nm)], with ctx Load; the result is [pass; pass; nm = y], with ctx Store. *)
Example C74_example :
  let t := mod_ [assign_ (name_ "nm") (sub_ (name_ "reg") (name_ "y"))] in
  match visit ex_env 30 t (mkSt ex_bind true (mkPst [] tt) []) with Some (XOk u, _) => has_kind (String.eqb "Done") u | _ => false end = true /\
  match expand_macros ex_env ex_hook (fun t => Ok t) 30 ex_bind t (mkPst [] tt) with
  | Some (XOk r, p, _) => r = mod_ [pass_; pass_; assign_ (stored "nm") (name_ "y")] /\ p_reg p = [7]
  | _ => False
  end /\ well_formed t.
Proof. vm_compute. auto. Qed.
Example C74_plain_example :
  let t := mod_ [assign_ (stored "x") (call_ (name_ "reg") [name_ "y"])] in
  expand_macros ex_env ex_hook (fun t => Ok t) 30 ex_bind t (mkPst [] tt) = Some (XOk t, mkPst [] tt, []) /\
  wf t = true /\ has_kind (String.eqb "Done") t = false /\ sound "Load" (skel t) = true.
Proof. vm_compute. auto. Qed.
(** A failing walk: [reg()[y]] is an error of syntax. *)
Example C74_failure_example : exists e p l, expand_macros ex_env ex_hook (fun t => Ok t) 30 ex_bind (mod_ [expr_ (sub_ (call_ (name_ "reg") []) (name_ "y"))]) (mkPst [7] tt) = Some (XRaise e, p, l) /\ p_reg p = [7].
Proof. eexists _, _, _. vm_compute. auto. Qed.

(** So it is false that a suite without macro invocations is always passed through. *)
Theorem C74_empty_suite_refuted : exists (E : env (@pst nat unit)) call ctx_other b l e, (forall t u x syn, In t l -> part t u -> ~ invokes E b u x syn) /\
  expand_macros E call ctx_other 30 b (Ls l) (mkPst [] tt) = Some (XRaise e, mkPst [] tt, []).
Proof. exists ex_env, ex_hook, (fun t => Ok t), ex_bind, []. eexists. split; [intros t u x syn []|]. vm_compute. reflexivity. Qed.
Print Assumptions C74_empty_suite_refuted.
