(** Properties C25, C27, C28 of the macro expander. *)
From Verif Require Import Base AstLib UtilsModel FixLocModel ExpanderModel ExpanderSpec ExpanderProofs ExpanderProofs2 ExpanderProofs3 ExpanderProofs4 ExpanderExamples.

(** ** C25: expanding once *)

(** [visit_once] that returns: the result is marked; inside the mark is the input in which the outermost invocations
    are replaced by what their macros returned; and those invocations are all the macro functions that the expander
    itself called. (What macros call from inside is not at the top level of the trace.) *)
Theorem C25_once_expands_one_layer : forall U (E : env U) n t (s : st U) u s',
  shaped t -> is_node t = true -> visit_once E n t s = Some (XOk u, s') ->
  exists t' L d, u = done t' /\ once E (s_b s) t L t' (s_b s') /\
    s_log s' = s_log s ++ EMode false :: d ++ [EModeEnd] /\ tops d L.
Proof.
  intros U E n t s u s' Hs Hn H. unfold visit_once, call_expander, with_mode, bnd in H.
  destruct (visit E n t _) as [[[t'|e] s1]|] eqn:E1; try discriminate. inversion H; subst.
  destruct (one_layer_all E n t Hs Hn _ _ _ E1 eq_refl) as [L [d [O [G [T _]]]]]. cbn in O, G. exists t', L, d. split; [reflexivity|]. split; [exact O|]. split; [|exact T].
  cbn. rewrite G, <- !app_assoc. reflexivity.
Qed.
Print Assumptions C25_once_expands_one_layer.

(** The same for [visit] inside the dynamic extent of [visit_once]. *)
Theorem C25_visit_in_once_mode_one_layer : forall U (E : env U) n t (s : st U) t' s',
  shaped t -> is_node t = true -> s_rec s = false -> visit E n t s = Some (XOk t', s') ->
  exists L d, once E (s_b s) t L t' (s_b s') /\ s_log s' = s_log s ++ d /\ tops d L.
Proof. intros U E n t s t' s' Hs Hn Hr H. destruct (one_layer_all E n t Hs Hn _ _ _ H Hr) as [L [d [O [G [T _]]]]]. eauto. Qed.
Print Assumptions C25_visit_in_once_mode_one_layer.

(** Every one of those calls is at a part of the input, so no output of a macro is expanded. *)
Scheme once_mind := Induction for once Sort Prop
with once_fields_mind := Induction for once_fields Sort Prop
with once_list_mind := Induction for once_list Sort Prop.
Theorem C25_calls_are_outermost_parts : forall U (E : env U) b t L t' b',
  once E b t L t' b' -> forall x i r, In (x, i, r) L -> part t (in_target i) /\ exists bi c, next_call E bi (in_target i) c x i.
Proof.
  intros U E b t L t' b' H.
  induction H using once_mind with
    (P0 := fun b fs L fs' b' _ => forall x i r, In (x, i, r) L -> exists f v, In (f, v) fs /\ part v (in_target i) /\ exists bi c, next_call E bi (in_target i) c x i)
    (P1 := fun b l L l' b' _ => forall x i r, In (x, i, r) L -> exists v, In v l /\ part v (in_target i) /\ exists bi c, next_call E bi (in_target i) c x i);
    try (intros x0 i0 r0 Hin; destruct Hin; fail).
  - intros x0 i0 r0 [Hin|[]]. inversion Hin; subst. destruct (next_kind E _ _ _ _ _ n) as [_ [_ ->]]. split; [constructor|]. eauto.
  - intros x0 i0 r0 Hin. destruct (IHonce _ _ _ Hin) as [f [v [H1 [H2 H3]]]]. split; [|exact H3]. eapply pt_field; eassumption.
  - intros x0 i0 r0 Hin. destruct (IHonce _ _ _ Hin) as [g [v [H1 [H2 H3]]]]. exists g, v. split; [right; exact H1|]. auto.
  - intros x0 i0 r0 Hin. apply in_app_iff in Hin. destruct Hin as [Hin|Hin].
    + destruct (IHonce _ _ _ Hin) as [v [H1 [H2 H3]]]. exists f, (Ls l). split; [left; reflexivity|]. split; [eapply pt_elem; eassumption|exact H3].
    + destruct (IHonce0 _ _ _ Hin) as [g [v [H1 [H2 H3]]]]. exists g, v. split; [right; exact H1|]. auto.
  - intros x0 i0 r0 Hin. apply in_app_iff in Hin. destruct Hin as [Hin|Hin].
    + destruct (IHonce _ _ _ Hin) as [H2 H3]. exists f, t. split; [left; reflexivity|]. auto.
    + destruct (IHonce0 _ _ _ Hin) as [g [v [H1 [H2 H3]]]]. exists g, v. split; [right; exact H1|]. auto.
  - intros x0 i0 r0 Hin. apply in_app_iff in Hin. destruct Hin as [Hin|Hin].
    + destruct (IHonce _ _ _ Hin) as [H2 H3]. exists f, t. split; [left; reflexivity|]. auto.
    + destruct (IHonce0 _ _ _ Hin) as [g [v [H1 [H2 H3]]]]. exists g, v. split; [right; exact H1|]. auto.
  - intros x0 i0 r0 Hin. destruct (IHonce _ _ _ Hin) as [w [H1 [H2 H3]]]. exists w. split; [right; exact H1|]. auto.
  - intros x0 i0 r0 Hin. apply in_app_iff in Hin. destruct Hin as [Hin|Hin].
    + destruct (IHonce _ _ _ Hin) as [H2 H3]. exists t. split; [left; reflexivity|]. auto.
    + destruct (IHonce0 _ _ _ Hin) as [w [H1 [H2 H3]]]. exists w. split; [right; exact H1|]. auto.
  - intros x0 i0 r0 Hin. apply in_app_iff in Hin. destruct Hin as [Hin|Hin].
    + destruct (IHonce _ _ _ Hin) as [H2 H3]. exists t. split; [left; reflexivity|]. auto.
    + destruct (IHonce0 _ _ _ Hin) as [w [H1 [H2 H3]]]. exists w. split; [right; exact H1|]. auto.
  - intros x0 i0 r0 Hin. apply in_app_iff in Hin. destruct Hin as [Hin|Hin].
    + destruct (IHonce _ _ _ Hin) as [H2 H3]. exists t. split; [left; reflexivity|]. auto.
    + destruct (IHonce0 _ _ _ Hin) as [w [H1 [H2 H3]]]. exists w. split; [right; exact H1|]. auto.
Qed.
Print Assumptions C25_calls_are_outermost_parts.

(** The marked result is left alone by any later visit, in any mode and with any bindings. *)
Theorem C25_result_protected : forall U (E : env U) n t (s : st U),
  visit E (S n) (done t) s = Some (XOk (done t), s) /\
  (forall h, h <> HGen -> exists s', call_expander (visit E (S n)) h (done t) s = Some (XOk (match h with HOnce => done (done t) | _ => done t end), s')).
Proof.
  intros U E n t s. assert (H : forall s0 : st U, visit E (S n) (done t) s0 = Some (XOk (done t), s0)).
  { intros s0. cbn [visit]. unfold visit_body. cbn. rewrite orb_true_r. reflexivity. }
  split; [apply H|]. intros h Hh. destruct h; [| | |contradiction]; unfold call_expander, with_mode, bnd; rewrite H; eexists; reflexivity.
Qed.
Print Assumptions C25_result_protected.

(** [ident[two[x]] + tom2[y]]: only [ident] and [tom2] are called. *)
Example C25_example :
  outcome (visit_once env0 20 (expr_ (plus_ (sub_ (name_ "ident") (sub_ (name_ "two") (name_ "x"))) (sub_ (name_ "tom2") (name_ "y")))) (st0 true)) =
  Some (XOk (done (expr_ (plus_ (sub_ (name_ "two") (name_ "x")) (name_ "ident")))),
        [("ident"%string, sub_ (name_ "two") (name_ "x")); ("tom2"%string, name_ "y")]).
Proof. vm_compute. reflexivity. Qed.

(** ** C27: return values of macros *)

(** Anything but a node, None or an iterable of nodes: MacroApplicationError, at every kind of invocation and in both
    modes; nothing is returned to the caller. *)
Theorem C27_other_values_raise : forall U (E : env U) n (s : st U) t c x i v s1,
  shaped t -> next_call E (s_b s) t c x i -> ~ bad_call c ->
  macro_outcome E n s x i (XOk v) s1 -> (forall v1, ~ accepted v v1) ->
  (forall a, x_isexc E (mkExn "MacroApplicationError"%string a) = true) ->
  exists s', visit E (S n) t s =
    Some (XRaise (XErr (mkExn "MacroApplicationError"%string [site E i x]) (Some (plain (mkExn "MacroApplicationError"%string ["unexpected return value"%string])))), s').
Proof. change "MacroApplicationError"%string with mae.
  intros U E n s t c x i v s1 Hs Hn Hb Ho Hv Hexc. rewrite (visit_outcome E n s t c x i (XOk v) s1 Hs Hn Hb Ho).
  assert (X : expanded E n x i (XOk v) s1 = Some (XRaise (XErr (mkExn mae [site E i x]) (Some (plain (mkExn mae ["unexpected return value"%string])))), logged (ERet (XOk v)) s1)).
  { unfold expanded. destruct (typecheck v) as [v1|] eqn:Ev; [exfalso; apply typecheck_iff in Ev; exact (Hv v1 Ev)|]. unfold report, plain. rewrite Hexc. reflexivity. }
  rewrite X. destruct (String.eqb _ _); eexists; reflexivity.
Qed.
Print Assumptions C27_other_values_raise.

(** None, a node, or an iterable of nodes, in once mode: the value (after the local fixes of locations and contexts) takes
    the place of the invocation, as described by [lands]. *)
Theorem C27_values_land : forall U (E : env U) n (s : st U) t c x i v v1 v2 s1,
  shaped t -> next_call E (s_b s) t c x i -> ~ bad_call c -> s_rec s = false ->
  macro_outcome E n s x i (XOk v) s1 -> accepted v v1 ->
  (v1 = NoneT /\ v2 = NoneT \/ v1 <> NoneT /\ x_fix E v1 t = Ok v2) ->
  (forall m, m = loc_of t \/ m = loc_of c -> ln m = None -> co m = None) ->
  exists t' s', visit E (S n) t s = Some (XOk t', s') /\ lands E c x i v2 t'.
Proof.
  intros U E n s t c x i v v1 v2 s1 Hs Hn Hb Hr Ho Ha Hf Hloc. rewrite (visit_outcome E n s t c x i (XOk v) s1 Hs Hn Hb Ho).
  pose proof (called_rec E _ _ _ _ _ _ Ho) as Hrec. assert (Hrec1 : s_rec s1 = false) by (rewrite Hrec, Hr; destruct (String.eqb _ _); reflexivity).
  destruct (next_kind E _ _ _ _ _ Hn) as [_ [_ Ht]].
  assert (X : exists s2, expanded E n x i (XOk v) s1 = Some (XOk v2, s2)).
  { unfold expanded. rewrite (proj2 (typecheck_iff v v1) Ha). rewrite Ht. destruct Hf as [[-> ->]|[Hnn Hf]]; [eexists; reflexivity|].
    unfold visit_expansion. destruct v1 as [| |[]]; try (exfalso; apply Hnn; reflexivity); unfold bnd, of_res, lift; rewrite Hf; cbn [logged s_rec]; rewrite Hrec1; eexists; reflexivity. }
  destruct X as [s2 X]. rewrite X, Hr. destruct (String.eqb_spec (in_syntax i) "name") as [Hy|Hy].
  - cbv zeta. destruct (is_none v2) eqn:En.
    + eexists. eexists. split; [reflexivity|]. destruct v2 as [| |[]]; try discriminate. rewrite <- Ht. apply ld_expr_none. auto.
    + destruct (same_name x v2) eqn:Es; eexists; eexists; (split; [reflexivity|]).
      * apply same_name_iff in Es. destruct Es as [m' [fs' [-> Hid]]]. apply ld_self; auto.
      * apply ld_name; auto. intros m' fs' -> Hid. assert (same_name x (Nd m' "Name" fs') = true); [apply same_name_iff; eauto|congruence].
  - destruct (String.eqb_spec (in_syntax i) "expr") as [He|He].
    + eexists. eexists. split; [reflexivity|]. destruct (is_none v2) eqn:En; [|apply ld_expr; auto]. destruct v2 as [| |[]]; try discriminate. rewrite <- Ht. apply ld_expr_none. auto.
    + cbv zeta. set (m := if String.eqb (in_syntax i) "block" then loc_of t else loc_of c).
      assert (Hm : m = loc_of t \/ m = loc_of c) by (unfold m; destruct (String.eqb _ _); auto).
      assert (Y : exists t', insert_dummy (x_text E m x) m v2 = XOk t').
      { unfold insert_dummy. destruct (ln m) eqn:El; [eexists; reflexivity|]. rewrite (Hloc m Hm El). eexists. reflexivity. }
      destruct Y as [t' Y]. exists t', s2. rewrite Y. split; [reflexivity|]. eapply insert_dummy_lands; [|exact Y]. unfold m.
      destruct (String.eqb_spec (in_syntax i) "block") as [Hk|Hk]; [left; rewrite Ht; auto|right]. split; [|reflexivity]. inversion Hn; subst; cbn in *; congruence.
Qed.
Print Assumptions C27_values_land.

(** In recursive mode, the value is expanded further before it lands. (For a name macro, unless it is its own name.) *)
Theorem C27_values_land_recursive : forall U (E : env U) n (s : st U) t c x i v v1 v2 v3 s1 s2,
  shaped t -> next_call E (s_b s) t c x i -> ~ bad_call c -> s_rec s = true -> in_syntax i <> "name"%string ->
  macro_outcome E n s x i (XOk v) s1 -> accepted v v1 -> v1 <> NoneT -> x_fix E v1 t = Ok v2 ->
  visit E n v2 (mkSt (s_b s1) (s_rec s1) (s_u s1) (s_log s1 ++ [ERet (XOk v)])) = Some (XOk v3, s2) ->
  (forall m, m = loc_of t \/ m = loc_of c -> ln m = None -> co m = None) ->
  exists t' s', visit E (S n) t s = Some (XOk t', s') /\ lands E c x i v3 t'.
Proof.
  intros U E n s t c x i v v1 v2 v3 s1 s2 Hs Hn Hb Hr Hy Ho Ha Hnn Hf Hv Hloc. rewrite (visit_outcome E n s t c x i (XOk v) s1 Hs Hn Hb Ho).
  pose proof (called_rec E _ _ _ _ _ _ Ho) as Hrec. assert (Hrec1 : s_rec s1 = true) by (rewrite Hrec, Hr; destruct (String.eqb_spec (in_syntax i) "name"); [contradiction|reflexivity]).
  destruct (next_kind E _ _ _ _ _ Hn) as [_ [_ Ht]].
  assert (X : exists s2, expanded E n x i (XOk v) s1 = Some (XOk v3, s2)).
  { unfold expanded. rewrite (proj2 (typecheck_iff v v1) Ha). rewrite Ht.
    unfold visit_expansion. destruct v1 as [| |[]]; try (exfalso; apply Hnn; reflexivity); unfold bnd, of_res, lift; rewrite Hf; unfold logged in *; cbn [s_rec]; rewrite Hrec1 in *; rewrite Hv; eexists; reflexivity. }
  destruct X as [s3 X]. rewrite X. destruct (String.eqb_spec (in_syntax i) "name"); [contradiction|].
  destruct (String.eqb_spec (in_syntax i) "expr") as [He|He].
  + eexists. eexists. split; [reflexivity|]. destruct (is_none v3) eqn:En; [|apply ld_expr; auto]. destruct v3 as [| |[]]; try discriminate. rewrite <- Ht. apply ld_expr_none. auto.
  + cbv zeta. set (m := if String.eqb (in_syntax i) "block" then loc_of t else loc_of c).
    assert (Hm : m = loc_of t \/ m = loc_of c) by (unfold m; destruct (String.eqb _ _); auto).
    assert (Y : exists t', insert_dummy (x_text E m x) m v3 = XOk t').
    { unfold insert_dummy. destruct (ln m) eqn:El; [eexists; reflexivity|]. rewrite (Hloc m Hm El). eexists. reflexivity. }
    destruct Y as [t' Y]. exists t', s3. rewrite Y. split; [reflexivity|]. eapply insert_dummy_lands; [|exact Y]. unfold m.
    destruct (String.eqb_spec (in_syntax i) "block") as [Hk|Hk]; [left; rewrite Ht; auto|right]. split; [|reflexivity]. inversion Hn; subst; cbn in *; congruence.
Qed.
Print Assumptions C27_values_land_recursive.

(** In a suite, what landed is spliced: None leaves nothing, a node one statement, a list its elements. *)
Fixpoint visited {U} (E : env U) (n : nat) (l : list ltree) (s : st U) (rs : list ltree) (s' : st U) : Prop :=
  match l, rs with
  | [], [] => s' = s
  | x :: l, r :: rs => exists s1, visit E n x s = Some (XOk r, s1) /\ visited E n l s1 rs s'
  | _, _ => False
  end.
Theorem C27_suite_spliced : forall U (E : env U) n l (s : st U) rs s',
  Forall (fun x => is_node x = true) l -> visited E n l s rs s' -> Forall (fun r => is_node r = true \/ is_list r = true \/ r = NoneT) rs ->
  xgv_list (visit E n) l s =
    Some (XOk (flat_map (fun r => match r with Nd _ _ _ => [r] | Ls l => l | At _ => [] end) rs), s').
Proof.
  intros U E n l s rs s' Hl. revert s rs. induction Hl as [|x l Hx _ IH]; intros s rs Hv Hr; destruct rs as [|r rs]; try contradiction.
  - cbn in Hv. subst. reflexivity.
  - destruct Hv as [s1 [H1 H2]]. inversion Hr; subst. specialize (IH _ _ H2 ltac:(assumption)). destruct x as [m k fs| |]; try discriminate. cbn [xgv_list flat_map]. unfold bnd. rewrite H1.
    destruct r as [m' k' fs'|l'|[]]; try (rewrite IH; reflexivity); match goal with H : _ \/ _ |- _ => destruct H as [Hz|[Hz|Hz]]; discriminate end.
Qed.
Print Assumptions C27_suite_spliced.
(** The same when a suite is given to [visit] as a list, but None takes the place of the empty list. *)
Theorem C27_suite_visited_as_list : forall U (E : env U) n l (s : st U) rs s',
  s_b s <> [] -> visited E n l s rs s' -> Forall (fun r => is_node r = true \/ (exists l, r = Ls l /\ Forall (fun x => is_node x = true) l) \/ r = NoneT) rs ->
  visit E (S n) (Ls l) s = Some (XOk (match flat_map (fun r => match r with Nd _ _ _ => [r] | Ls l => l | At _ => [] end) rs with [] => NoneT | l' => Ls l' end), s').
Proof.
  intros U E n l s rs s' Hb Hv Hr. cbn [visit]. unfold visit_body. replace (match s_b s with [] => true | _ => false end) with false by (destruct (s_b s); [contradiction|reflexivity]). cbn [is_kind orb].
  assert (X : xvisit_elts (visit E n) l s = Some (XOk rs, s')).
  { clear Hb Hr. revert s rs Hv. induction l as [|x l IH]; intros s rs Hv; destruct rs as [|r rs]; try contradiction; cbn [visited] in Hv.
    - subst. reflexivity.
    - destruct Hv as [s1 [H1 H2]]. cbn [xvisit_elts]. unfold bnd. rewrite H1, (IH _ _ H2). reflexivity. }
  unfold bnd. rewrite X.
  assert (Y : flatten rs = flat_map (fun r => match r with Nd _ _ _ => [r] | Ls l => l | At _ => [] end) rs).
  { assert (N : forall l (out : list ltree), Forall (fun x => is_node x = true) l -> fold_left flatten_acc l out = out ++ l).
    { clear. induction l as [|x l IH]; intros out H; cbn [fold_left]; [rewrite app_nil_r; reflexivity|]. inversion H; subst. rewrite IH by assumption. destruct x; try discriminate. cbn. rewrite <- app_assoc. reflexivity. }
    unfold flatten. assert (Z : forall out, fold_left flatten_acc rs out = out ++ flat_map (fun r => match r with Nd _ _ _ => [r] | Ls l => l | At _ => [] end) rs); [|exact (Z [])].
    clear -Hr N. induction Hr as [|r rs Hx _ IH]; intros out; cbn [fold_left flat_map]; [rewrite app_nil_r; reflexivity|]. rewrite IH, app_assoc. f_equal.
    destruct Hx as [Hx|[(l & -> & Hl)| ->]]; [destruct r; try discriminate; reflexivity| |cbn; rewrite app_nil_r; reflexivity]. cbn [flatten_acc]. rewrite (N l [] Hl). reflexivity. }
  rewrite Y. destruct (flat_map _ rs); reflexivity.
Qed.
Print Assumptions C27_suite_visited_as_list.
Example C27_example_list :
  outcome (visit env0 20 (Ls [with_ [item_ (name_ "none")] [pass_]; with_ [item_ (name_ "two")] [pass_]]) (st0 true)) =
    Some (XOk (Ls [done (dummy_stmt "source line of none" (at_ 1 0)); done (dummy_stmt "source line of two" (at_ 1 0)); expr_ (name_ "a"); expr_ (name_ "b")]),
          [("none"%string, Ls [pass_]); ("two"%string, Ls [pass_])]).
Proof. vm_compute. reflexivity. Qed.

Example C27_example :
  outcome (visit env0 20 (mod_ [with_ [item_ (name_ "none")] [pass_]; with_ [item_ (name_ "two")] [pass_]; expr_ (sub_ (name_ "none") (name_ "x"))]) (st0 true)) =
    Some (XOk (mod_ [done (dummy_stmt "source line of none" (at_ 1 0)); done (dummy_stmt "source line of two" (at_ 1 0)); expr_ (name_ "a"); expr_ (name_ "b"); expr_ (dummy_expr (at_ 1 0))]),
          [("none"%string, Ls [pass_]); ("two"%string, Ls [pass_]); ("none"%string, name_ "x")]) /\
  outcome (visit env0 20 (mod_ [expr_ (sub_ (name_ "num") (name_ "x"))]) (st0 true)) =
    Some (XRaise (XErr (mkExn "MacroApplicationError"%string [site_text "file.py:1" "expr" "num"]) (Some (plain (mkExn "MacroApplicationError"%string ["unexpected return value"%string])))), [("num"%string, name_ "x")]) /\
  (forall v1, ~ accepted (At (AInt 42)) v1).
Proof. split; [vm_compute; reflexivity|]. split; [vm_compute; reflexivity|]. intros v1 H. inversion H. Qed.

(** In an expression position a list is not spliced: it becomes the value of the field, which then holds a list where the
    grammar wants an expression: [two[x]] as an expression statement. *)
Theorem C27_list_in_expression_slot_refuted : exists (E : env unit) s t m l s',
  t = Nd m "Expr" [("value"%string, sub_ (name_ "two") (name_ "x"))] /\ visit E 20 t s = Some (XOk (Nd m "Expr" [("value"%string, Ls l)]), s') /\ List.length l = 2.
Proof. exists env0, (st0 true), (expr_ (sub_ (name_ "two") (name_ "x"))), (at_ 1 0). eexists. eexists. split; [reflexivity|]. split; vm_compute; reflexivity. Qed.
Print Assumptions C27_list_in_expression_slot_refuted.

(** ** C28: reports of errors *)

(** The report of an error that went through any number of use sites: MacroApplicationError whose text is the header (if
    there are several sites) and each site once, outermost first, and whose cause is the original error. *)
Theorem C28_report_lists_all_sites : forall U (E : env U) sites root err,
  fails E sites root err ->
  (forall e c, root = XErr e c -> x_isexc E e = true /\ ~ (e_cls e = "MacroApplicationError"%string /\ c <> None)) ->
  (forall a, x_isexc E (mkExn "MacroApplicationError"%string a) = true) ->
  (forall t, hd ""%string (split_nl (x_loc E t)) <> hd ""%string hint_lines) ->
  err = XErr (mkExn "MacroApplicationError"%string [report_text sites]) (Some root).
Proof. change "MacroApplicationError"%string with mae.
  intros U E sites root err H Hroot Hexc Hloc.
  assert (Hfirst : forall i x, hd ""%string (split_nl (site E i x)) <> hd ""%string hint_lines).
  { intros i x. unfold site. specialize (Hloc (in_target i)). revert Hloc. generalize (x_loc E (in_target i)).
    assert (G : forall a b, hd ""%string (split_nl (a ++ nl ++ b)) = hd ""%string (split_nl a)).
    { induction a as [|c a IH]; intros b; [reflexivity|]. cbn [append split_nl]. destruct (Ascii.eqb c _); [reflexivity|]. specialize (IH b).
      destruct (split_nl (a ++ nl ++ b)) as [|y l] eqn:E1; destruct (split_nl a) as [|y' l'] eqn:E2; cbn in *; subst; reflexivity. }
    intros a Ha. rewrite G. exact Ha. }
  induction H as [n s t c x i root s1 err s2 Hs Hn Hb Ho Hv|sites root err0 n s t c x i s1 err s2 Hf IH Hs Hn Hb Ho Hv].
  - rewrite (visit_outcome E n s t c x i _ s1 Hs Hn Hb Ho) in Hv. destruct root as [e cz]. destruct (Hroot e cz eq_refl) as [He Hc].
    assert (X : expanded E n x i (XRaise (XErr e cz)) s1 = Some (XRaise (XErr (mkExn mae [site E i x]) (Some (XErr e cz))), logged (ERet (XRaise (XErr e cz))) s1)).
    { unfold expanded. cbv zeta. unfold report. rewrite He. cbn [negb]. destruct (String.eqb_spec (e_cls e) mae) as [Hm|Hm]; [|reflexivity].
      destruct cz; [exfalso; apply Hc; split; [exact Hm|discriminate]|reflexivity]. }
    rewrite X in Hv. destruct (String.eqb _ _); inversion Hv; reflexivity.
  - specialize (IH Hroot). subst err0. rewrite (visit_outcome E n s t c x i _ s1 Hs Hn Hb Ho) in Hv.
    assert (Hne : sites <> []) by (inversion Hf; discriminate).
    assert (X : report E (site E i x) (XErr (mkExn mae [report_text sites]) (Some root)) = XErr (mkExn mae [report_text (site E i x :: sites)]) (Some root)).
    { unfold report. rewrite Hexc. cbn [negb e_cls e_args]. rewrite String.eqb_refl. destruct sites as [|s0 rest]; [contradiction|]. destruct rest as [|s3 rest].
      - cbn [report_text]. change ["An exception occurred during macro expansion."; ""; "Macro use site (most recent macro application last):"]%string with hint_lines. assert (H0 : hd ""%string (split_nl s0) <> hd ""%string hint_lines).
        { inversion Hf; subst; [apply Hfirst|]. match goal with H : fails E [] _ _ |- _ => inversion H end. }
        destruct (String.eqb_spec (hd ""%string (split_nl s0)) (hd ""%string hint_lines)); [contradiction|]. rewrite join_hint by discriminate. reflexivity.
      - cbn [report_text]. change ["An exception occurred during macro expansion."; ""; "Macro use site (most recent macro application last):"]%string with hint_lines. rewrite !join_hint by discriminate. rewrite split_hint. cbn [hint_lines app hd]. rewrite String.eqb_refl.
        change (skipn (List.length hint_lines) _) with (split_nl (join_nl (s0 :: s3 :: rest))). rewrite join_split. rewrite (join_cons (site E i x)) by discriminate. reflexivity. }
    assert (Y : expanded E n x i (XRaise (XErr (mkExn mae [report_text sites]) (Some root))) s1 = Some (XRaise (XErr (mkExn mae [report_text (site E i x :: sites)]) (Some root)), logged (ERet (XRaise (XErr (mkExn mae [report_text sites]) (Some root)))) s1)).
    { unfold expanded. cbv zeta. rewrite X. reflexivity. }
    rewrite Y in Hv. destruct (String.eqb _ _); inversion Hv; reflexivity.
Qed.
Print Assumptions C28_report_lists_all_sites.

(** No error is swallowed by the expander: if a visit returns normally, then every macro function that the expander called
    during the visit returned normally. (What an outer macro does with errors of inner ones is up to it.) *)
Theorem C28_no_error_swallowed : forall U (E : env U) n t (s : st U) t' s',
  visit E n t s = Some (XOk t', s') ->
  exists d L, s_log s' = s_log s ++ d /\ tops d L /\ forall x i r, In (x, i, r) L -> exists v, r = XOk v.
Proof.
  intros U E n t s t' s' H. destruct (visit_ok E n t s t' s' H) as [d [L [H1 [H2 H3]]]]. exists d, L. split; [exact H1|]. split; [exact H2|].
  intros x i r Hin. unfold okcalls in H3. rewrite Forall_forall in H3. exact (H3 _ Hin).
Qed.
Print Assumptions C28_no_error_swallowed.

(** Errors that are not instances of [Exception] pass unchanged. *)
Theorem C28_base_exceptions_pass : forall U (E : env U) n (s : st U) t c x i e cz s1,
  shaped t -> next_call E (s_b s) t c x i -> ~ bad_call c -> macro_outcome E n s x i (XRaise (XErr e cz)) s1 -> x_isexc E e = false ->
  exists s', visit E (S n) t s = Some (XRaise (XErr e cz), s').
Proof.
  intros U E n s t c x i e cz s1 Hs Hn Hb Ho He. rewrite (visit_outcome E n s t c x i _ s1 Hs Hn Hb Ho).
  assert (X : expanded E n x i (XRaise (XErr e cz)) s1 = Some (XRaise (XErr e cz), logged (ERet (XRaise (XErr e cz))) s1)) by (unfold expanded; cbv zeta; unfold report; rewrite He; reflexivity).
  rewrite X. destruct (String.eqb _ _); eexists; reflexivity.
Qed.
Print Assumptions C28_base_exceptions_pass.

(** [outer[y + outer[fails[x]]]]: three sites. *)
Example C28_example :
  exists s, visit env0 30 (sub_ (name_ "outer") (plus_ (name_ "y") (sub_ (name_ "outer") (sub_ (name_ "fails") (name_ "x"))))) (st0 true) =
    Some (XRaise (XErr (mkExn "MacroApplicationError"%string [report_text [site_text "file.py:1" "expr" "outer"; site_text "file.py:1" "expr" "outer"; site_text "file.py:1" "expr" "fails"]])
                       (Some (plain (mkExn "ValueError" ["boom"%string])))), s).
Proof. eexists. vm_compute. reflexivity. Qed.

(** If the original error is itself a MacroApplicationError with a cause, it is taken for a report of an inner expansion: its
    cause is kept, but the error itself is not; and one without a message is replaced by an IndexError. *)
Definition env_mae (args : list string) : env unit :=
  mkEnv (fun _ => mkMac false false (fun _ => Raise (XErr (mkExn mae args) (Some (plain (mkExn "ValueError" ["boom"%string])))))) (fun t _ => Ok t) (fun _ => "file.py:1"%string) (fun _ x => x) (fun _ => true).
Theorem C28_own_report_lost_refuted : exists s,
  visit (env_mae []) 10 (sub_ (name_ "ident") (name_ "x")) (st0 true) = Some (XRaise (plain (mkExn "IndexError" [])), s).
Proof. eexists. vm_compute. reflexivity. Qed.
Print Assumptions C28_own_report_lost_refuted.
