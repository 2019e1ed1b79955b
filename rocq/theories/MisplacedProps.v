(** C69: what the compiler did not take away of [phase] and [step_phases] is an error, not code. *)
From Verif Require Import Base AstLib FixLocModel ExpanderModel ExpanderSpec ExpanderProofs2 ExpanderProofs3 ExpanderProofs4 ExpanderProofs5 ExpanderExamples ExpanderCheck MisplacedModel MisplacedProofs.

(** The macro named [x] is [phase], or [step_phases]. *)
Definition compiler_feature {U} (E : env U) (b : binds) (x : string) : Prop :=
  exists j, bound b x j /\ (x_macro E j = phase_macro \/ x_macro E j = step_phases_macro).
(** The message for a use of [x] with the given syntax. *)
Definition message {U} (E : env U) (b : binds) (x syn msg : string) : Prop :=
  exists j, bound b x j /\
    ((x_macro E j = phase_macro /\ syn = "block" /\ msg = "Misplaced `with phase`; must appear at the module top level only.") \/
     (x_macro E j = phase_macro /\ syn <> "block" /\ msg = "`with phase` is a block macro only") \/
     (x_macro E j = step_phases_macro /\ msg = "`step_phases` is a compiler flag; it may only appear in its macro-import."))%string.

Lemma feature_refuses U (M : mdef U) : M = phase_macro \/ M = step_phases_macro -> refuses M.
Proof.
  intros [->| ->] i; unfold phase_macro, step_phases_macro; cbn [m_run]; [|eauto]. destruct (negb _); eauto.
Qed.

(** Whatever the other macros do (they may raise, loop, use the expander; they do not rebind names), a program with such a use outside every other
    invocation never comes out of the expander. *)
Theorem C69_leftover_use_never_expands : forall U (E : env U) n (s : st U) t u x syn r s',
  (forall e, x_isexc E e = true) -> (forall j i, keeps_binds (m_run (x_macro E j) i)) ->
  shaped t -> exposed E (s_b s) t u -> is_node u = true -> (forall m fs, u <> Nd m "Done" fs) ->
  (forall y syn', invokes E (s_b s) u y syn' -> compiler_feature E (s_b s) y) -> invokes E (s_b s) u x syn ->
  visit E n t s = Some (r, s') -> exists e, r = XRaise e.
Proof.
  intros U E n s t u x syn r s' Hexc Hmac Hs Hx Hn Hnd Hall Hi Hv.
  assert (Hsu : shaped u).
  { clear - Hs Hx. induction Hx as [t|m k fs f v u Hd _ _ Hin _ _ IH|m k fs f l v u Hd _ _ Hin Hl _ _ IH|l v u Hin _ IH]; [exact Hs| | |]; apply IH; (eapply shaped_part; [exact Hs|]).
    - eapply pt_field; [exact Hd|exact Hin|constructor].
    - eapply pt_field; [exact Hd|exact Hin|]. eapply pt_elem; [exact Hl|constructor].
    - eapply pt_elem; [exact Hin|constructor]. }
  destruct u as [m k fs| |]; try discriminate. assert (Hd : k <> "Done"%string) by (intros ->; exact (Hnd m fs eq_refl)).
  destruct (proj2 (invokes_next E (s_b s) m k fs Hsu Hd)) as (c & y & i & Hc); [eauto|].
  assert (Hy : compiler_feature E (s_b s) y).
  { inversion Hc; subst; eapply Hall; [eapply inv_expr|eapply inv_block|eapply inv_dec|eapply inv_name]; eauto; apply in_or_app; right; left; reflexivity. }
  destruct Hy as (j & Hb & Hf). destruct r as [t'|e]; [|eauto]. exfalso.
  exact (exposed_never E Hexc Hmac (s_b s) t (Nd m k fs) c y i j Hx Hs Hc Hb (feature_refuses _ _ Hf) n s t' s' eq_refl Hv).
Qed.
Print Assumptions C69_leftover_use_never_expands.

(** If nothing else is invoked in the program, the expander stops at such a use, with a report of the place, caused by the SyntaxError with the text of that
    feature. (The expander itself refuses an invocation whose call has no arguments, or starred ones.) *)
Theorem C69_leftover_use_reported : forall U (E : env U) (s : st U) t u x syn,
  (forall e, x_isexc E e = true) -> tidy t -> is_node t = true ->
  (forall v y syn', part t v -> invokes E (s_b s) v y syn' -> compiler_feature E (s_b s) y) ->
  part t u -> invokes E (s_b s) u x syn ->
  exists N e, (forall n, N <= n -> exists s', visit E n t s = Some (XRaise e, s')) /\
    exists w c y i, part t w /\ next_call E (s_b s) w c y i /\
      ((bad_call c /\ e = syntax_error) \/
       (~ bad_call c /\ exists msg, message E (s_b s) y (in_syntax i) msg /\
        e = XErr (mkExn "MacroApplicationError"%string [site E i y]) (Some (XErr (mkExn "SyntaxError" [msg]) None)))).
Proof. change "MacroApplicationError"%string with mae.
  intros U E s t u x syn Hexc Ht Hn Hall Hp Hi.
  assert (Hne : s_b s <> []).
  { destruct (Hall u x syn Hp Hi) as (j & Hb & _). intros Eb. rewrite Eb in Hb. destruct Hb as (l1 & l2 & Hb & _). destruct l1; discriminate. }
  destruct (only_settled E Hexc s Hne t Ht Hn) as [Q|(e & N & Hr & Hw)].
  { intros v y syn' Hv Hy. destruct (Hall v y syn' Hv Hy) as (j & Hb & Hf). exists j. split; [exact Hb|]. now apply feature_refuses. }
  { destruct (Q u x syn Hp Hi). }
  exists N, e. split; [exact Hr|]. destruct Hw as (w & c & y & i & Hwp & Hc & Hcase). exists w, c, y, i. split; [exact Hwp|]. split; [exact Hc|].
  destruct Hcase as [H|[Hb (j & msg & Hj & Hm & He)]]; [left; exact H|right]. split; [exact Hb|]. exists msg. split; [|exact He].
  assert (Hy : exists syn', invokes E (s_b s) w y syn').
  { inversion Hc; subst; eexists; [eapply inv_expr|eapply inv_block|eapply inv_dec|eapply inv_name]; eauto; apply in_or_app; right; left; reflexivity. }
  destruct Hy as [syn' Hy]. destruct (Hall w y syn' Hwp Hy) as (j' & Hj' & Hf). assert (j' = j).
  { rewrite <- isbound_iff in Hj, Hj'. congruence. }
  subst j'. exists j. split; [exact Hj|]. destruct Hf as [Hf|Hf]; rewrite Hf in *; unfold phase_macro, step_phases_macro in Hm; cbn [m_run] in Hm.
  - destruct (String.eqb_spec (in_syntax i) "block") as [Eb|Eb]; cbn [negb] in Hm; inversion Hm; auto.
  - inversion Hm; auto.
Qed.
Print Assumptions C69_leftover_use_reported.

(** Any mention of the name to which [step_phases] is bound, wherever it is: loaded, assigned to, deleted. *)
Theorem C69_every_mention_of_step_phases_refused : forall U (E : env U) (s : st U) t m fs x j,
  (forall e, x_isexc E e = true) -> tidy t -> is_node t = true ->
  (forall v y syn', part t v -> invokes E (s_b s) v y syn' -> compiler_feature E (s_b s) y) ->
  part t (Nd m "Name" fs) -> getf "id" fs = Some (At (AStr x)) -> x <> ""%string -> bound (s_b s) x j -> x_macro E j = step_phases_macro ->
  exists N e, forall n, N <= n -> exists s', visit E n t s = Some (XRaise e, s').
Proof.
  intros U E s t m fs x j Hexc Ht Hn Hall Hp Hid Hx Hb Hj.
  destruct (C69_leftover_use_reported U E s t (Nd m "Name" fs) x "name" Hexc Ht Hn Hall Hp) as (N & e & H & _); [|eauto].
  eapply inv_name; [exact Hid|exact Hx|exact Hb|]. rewrite Hj. reflexivity.
Qed.
Print Assumptions C69_every_mention_of_step_phases_refused.

(** A block [with x[n]:] whose first item names [phase], with any other items and any body, in whatever place the expander meets it: the message says that the
    block is misplaced, and the place is that of the block. *)
Theorem C69_misplaced_block_message : forall U (E : env U) n (s : st U) m fs mi fi after c x args ov body j,
  (forall e, x_isexc E e = true) -> shaped (Nd m "With" fs) ->
  getf "items" fs = Some (Ls (Nd mi "withitem" fi :: after)) -> getf "context_expr" fi = Some c -> getf "optional_vars" fi = Some ov -> getf "body" fs = Some body ->
  denotes c x args -> x <> ""%string -> ~ bad_call c -> bound (s_b s) x j -> x_macro E j = phase_macro ->
  exists s', visit E (S (S n)) (Nd m "With" fs) s =
    Some (XRaise (XErr (mkExn "MacroApplicationError"%string [(x_loc E (Nd m "With" fs) ++ nl ++ "in block macro invocation for '" ++ x ++ "'")%string])
                       (Some (XErr (mkExn "SyntaxError" ["Misplaced `with phase`; must appear at the module top level only."%string]) None))), s').
Proof. change "MacroApplicationError"%string with mae.
  intros U E n s m fs mi fi after c x args ov body j Hexc Hs Hit Hc Hov Hbody Hd Hx Hbad Hb Hj.
  assert (Hnm : names_macro E (s_b s) c x args) by (split; [exact Hd|split; [exact Hx|exists j; split; [exact Hb|right; rewrite Hj; reflexivity]]]).
  pose proof (nc_block E (s_b s) m fs [] mi fi after c x args ov body Hit (Forall_nil _) Hc Hov Hbody Hnm) as Hn.
  destruct (refused_here E Hexc n s _ c x _ j Hs Hn Hb (feature_refuses _ _ (or_introl Hj))) as (e & s' & Hv & _). exists s'. rewrite Hv. f_equal. f_equal. f_equal.
  match type of Hn with next_call _ _ _ _ _ ?i0 => set (i := i0) in * end.
  assert (Ho : macro_outcome E (S n) s x i (XRaise (refusal "Misplaced `with phase`; must appear at the module top level only.")) (called_in x i s)).
  { exists j. split; [exact Hb|]. rewrite Hj. reflexivity. }
  rewrite (visit_outcome E (S n) s _ c x i _ _ Hs Hn Hbad Ho) in Hv. unfold expanded in Hv. cbn in Hv. rewrite Hexc in Hv. cbn [negb] in Hv. inversion Hv. reflexivity.
Qed.
Print Assumptions C69_misplaced_block_message.

(** [phase] is macro 11, bound as [ph]; [step_phases] is macro 12, bound as [sp]. *)
Definition macros_mp (i : nat) : mdef unit := match i with 11 => phase_macro | 12 => step_phases_macro | _ => macros i end.
Definition env_mp : env unit := mkEnv macros_mp (fun t _ => Ok t) (fun _ => "file.py:1"%string) (fun _ x => ("source line of " ++ x)%string) (fun _ => true).
Definition st_mp : st unit := mkSt (("ph", 11) :: ("sp", 12) :: binds0)%string true tt [].
Definition reported (r : option (xres ltree * st unit)) : option xerr := match r with Some (XRaise e, _) => Some e | _ => None end.
Definition phase_block (body : list ltree) : ltree := with_ [item_ (sub_ (name_ "ph") (Nd (at_ 1 0) "Constant" [("value"%string, At (AInt 1))]))] body.

(** def f(): with ph[1]: pass *)
Example C69_example_in_function :
  reported (visit env_mp 20 (mod_ [def_ "FunctionDef" [] [phase_block [pass_]]]) st_mp) =
  Some (XErr (mkExn "MacroApplicationError"%string [("file.py:1" ++ nl ++ "in block macro invocation for 'ph'")%string]) (Some (XErr (mkExn "SyntaxError" ["Misplaced `with phase`; must appear at the module top level only."%string]) None))).
Proof. vm_compute. reflexivity. Qed.
(** y + ph[1], and sp as an operand *)
Example C69_example_expr :
  reported (visit env_mp 20 (mod_ [expr_ (plus_ (name_ "y") (sub_ (name_ "ph") (name_ "x")))]) st_mp) =
    Some (XErr (mkExn "MacroApplicationError"%string [("file.py:1" ++ nl ++ "in expr macro invocation for 'ph'")%string]) (Some (XErr (mkExn "SyntaxError" ["`with phase` is a block macro only"%string]) None))) /\
  reported (visit env_mp 20 (mod_ [expr_ (plus_ (name_ "y") (name_ "sp"))]) st_mp) =
    Some (XErr (mkExn "MacroApplicationError"%string [("file.py:1" ++ nl ++ "in name macro invocation for 'sp'")%string])
       (Some (XErr (mkExn "SyntaxError" ["`step_phases` is a compiler flag; it may only appear in its macro-import."%string]) None))).
Proof. split; vm_compute; reflexivity. Qed.
(** The block after [ident[x]] in a class: exposed, so never expanded, though another macro is used before it. *)
Example C69_example_exposed :
  let t := mod_ [expr_ (sub_ (name_ "ident") (name_ "x")); def_ "ClassDef" [] [phase_block [pass_]]] in
  (forall j i, keeps_binds (m_run (x_macro env_mp j) i)) /\ shaped t /\
  exists u, exposed env_mp (s_b st_mp) t u /\ (forall y syn, invokes env_mp (s_b st_mp) u y syn -> compiler_feature env_mp (s_b st_mp) y) /\
    invokes env_mp (s_b st_mp) u "ph" "block" /\ exists e, reported (visit env_mp 20 t st_mp) = Some e.
Proof.
  cbv zeta. split; [|split; [apply shapedb_ok; vm_compute; reflexivity|]].
  { intros j i. cbn [x_macro env_mp]. destruct (Nat.eq_dec j 11) as [->|H1]; [cbn; destruct (negb _); constructor|]. destruct (Nat.eq_dec j 12) as [->|H2]; [constructor|].
    replace (macros_mp j) with (macros j); [apply (macros_keep j)|]. do 13 (destruct j as [|j]; [congruence || reflexivity|]). reflexivity. }
  exists (phase_block [pass_]). split; [|split; [|split]].
  - assert (NM : forall m fs x syn, ~ invokes env_mp (s_b st_mp) (Nd m "Module" fs) x syn).
    { intros m fs x syn H. inversion H; subst; repeat match goal with H : _ \/ _ |- _ => destruct H end; discriminate. }
    eapply (xp_list _ _ _ _ _ "body"%string); [discriminate|discriminate|apply NM|left; reflexivity|right; left; reflexivity|reflexivity|].
    eapply (xp_list _ _ _ _ _ "body"%string); [discriminate|discriminate| |right; left; reflexivity|left; reflexivity|reflexivity|constructor].
    intros x syn H. inversion H; subst; repeat match goal with H : _ \/ _ |- _ => destruct H end; try discriminate.
    match goal with H : getf _ _ = Some (Ls ?l), H' : In _ ?l |- _ => cbv in H; inversion H; subst; destruct H' end.
  - assert (Hp : compiler_feature env_mp (s_b st_mp) "ph") by (exists 11; split; [apply isbound_iff; reflexivity|left; reflexivity]).
    intros y syn H. inversion H; subst; repeat match goal with H : _ \/ _ |- _ => destruct H end; try discriminate.
    match goal with H : getf _ _ = Some (Ls ?l), H' : In _ ?l |- _ => cbv in H; inversion H; subst; destruct H' as [H'|[]] end.
    match goal with H : Nd _ _ _ = Nd _ _ _ |- _ => inversion H; subst end.
    match goal with H : getf _ _ = Some ?c, H' : names_macro _ _ ?c _ _ |- _ => cbv in H; inversion H; subst; destruct H' as [H' _]; inversion H'; subst end;
    repeat match goal with H : getf _ _ = Some _ |- _ => vm_compute in H; inversion H; subst; clear H end;
    repeat match goal with H : Some (At (AStr _)) = Some (At (AStr _)) |- _ => inversion H; subst; clear H end; exact Hp.
  - eapply inv_block with (mi := noloc) (ki := "withitem"%string); [reflexivity|left; reflexivity|reflexivity|].
    split; [eapply dn_one; [reflexivity|reflexivity|reflexivity|discriminate]|]. split; [discriminate|]. exists 11. split; [apply isbound_iff; reflexivity|right; reflexivity].
  - eexists. vm_compute. reflexivity.
Qed.
(** async with ph[1]: pass, and with ph: pass *)
Example C69_example_other_forms :
  reported (visit env_mp 20 (mod_ [def_ "AsyncFunctionDef" [] [Nd (at_ 1 0) "AsyncWith" [("items"%string, Ls [item_ (sub_ (name_ "ph") (name_ "x"))]); ("body"%string, Ls [pass_]); ("type_comment"%string, NoneT)]]]) st_mp) =
    Some (XErr (mkExn "MacroApplicationError"%string [("file.py:1" ++ nl ++ "in expr macro invocation for 'ph'")%string]) (Some (XErr (mkExn "SyntaxError" ["`with phase` is a block macro only"%string]) None))) /\
  reported (visit env_mp 20 (mod_ [with_ [item_ (name_ "ph")] [pass_]]) st_mp) =
    Some (XErr (mkExn "MacroApplicationError"%string [("file.py:1" ++ nl ++ "in block macro invocation for 'ph'")%string]) (Some (XErr (mkExn "SyntaxError" ["Misplaced `with phase`; must appear at the module top level only."%string]) None))).
Proof. split; vm_compute; reflexivity. Qed.

(** @ph async def f(): pass, the use as a decorator macro of an async function (doc/main.md:356), is not refused, but left; so is async with ph: pass. *)
Theorem C69_async_refuted : exists t1 t2 s1 s2, tidy t1 /\ tidy t2 /\
  (exists m fs c, part t1 (Nd m "AsyncFunctionDef" fs) /\ getf "decorator_list" fs = Some (Ls [c]) /\ names_macro env_mp (s_b st_mp) c "ph" []) /\
  (exists m fs it mi fi c, part t2 (Nd m "AsyncWith" fs) /\ getf "items" fs = Some (Ls [it]) /\ it = Nd mi "withitem" fi /\ getf "context_expr" fi = Some c /\ names_macro env_mp (s_b st_mp) c "ph" []) /\
  visit env_mp 20 t1 st_mp = Some (XOk t1, s1) /\ visit env_mp 20 t2 st_mp = Some (XOk t2, s2).
Proof.
  assert (N : names_macro env_mp (s_b st_mp) (name_ "ph") "ph" []).
  { split; [apply dn_name; reflexivity|]. split; [discriminate|]. exists 11. split; [apply isbound_iff; reflexivity|left; reflexivity]. }
  exists (mod_ [def_ "AsyncFunctionDef" [name_ "ph"] [pass_]]),
    (mod_ [def_ "AsyncFunctionDef" [] [Nd (at_ 1 0) "AsyncWith" [("items"%string, Ls [item_ (name_ "ph")]); ("body"%string, Ls [pass_]); ("type_comment"%string, NoneT)]]]).
  eexists. eexists. split; [apply tidyb_ok; vm_compute; reflexivity|]. split; [apply tidyb_ok; vm_compute; reflexivity|]. split; [|split; [|split; vm_compute; reflexivity]].
  - do 3 eexists. split; [|split; [|exact N]].
    + eapply pt_field; [discriminate|left; reflexivity|]. eapply pt_elem; [left; reflexivity|]. apply pt_refl.
    + reflexivity.
  - do 6 eexists. split.
    + eapply pt_field; [discriminate|left; reflexivity|]. eapply pt_elem; [left; reflexivity|]. eapply pt_field; [discriminate|right; left; reflexivity|].
      eapply pt_elem; [left; reflexivity|]. apply pt_refl.
    + split; [reflexivity|]. split; [reflexivity|]. split; [reflexivity|]. exact N.
Qed.
Print Assumptions C69_async_refuted.
