(** C73: the dialect StepExpansion shows every step, and changes nothing. *)
From Verif Require Import Base DialectModel StepDialectModel StepDialectSpec StepDialectProofs.
Open Scope string_scope.
Open Scope list_scope.

Section Statements.
  Context {W Ob In_ C : Type}.
  Variable is_dialect : Ob -> bool.
  Variable instantiate : Ob -> W -> res In_ * W.
  Variable transform postprocess : In_ -> option (C -> W -> res (option C) * W).
  Variable is_empty : C -> bool.
  Variable kind method : string.
  Variable find : C -> W -> res (option (string * list (string * dcls Ob) * C)) * W.
  Variable name_of : dobj In_ -> string.
  (** A program with a dialect-import in it is not empty. *)
  Hypothesis found_nonempty : forall c w m bs c1 w1, find c w = (Ok (Some (m, bs, c1)), w1) -> is_empty c1 = false.
  Notation step_transform := (step_transform is_dialect instantiate transform is_empty kind method find).
  Notation step_postprocess := (step_postprocess postprocess is_empty "AST postprocessors" "postprocess_ast" name_of).
  Notation of_program := (of_program is_dialect instantiate transform kind method find).
  Notation of_objects := (of_objects postprocess "AST postprocessors" "postprocess_ast" name_of).

  (** Whatever the dialects do, and however it ends: [l] being the steps that were taken, all of them counted, the output is: the program before, if debug mode was on already;
      every step from the first of StepExpansion on (or from the beginning, if debug mode was on), with its number and the program after it; and, if no exception was raised,
      the number of steps, if debug mode is on by then. It stays on. *)
  Theorem C73_steps_shown n c s r s' : step_transform n c s = Some (r, s') ->
    exists l, d_step s' = d_step s + List.length l /\ d_debug s' = d_debug s || enables l /\
      d_log s' = d_log s ++ (if d_debug s then [MBefore kind (d_step s) c] else []) ++ visible (d_debug s) (d_step s) l ++
                 match r with Ok _ => if d_debug s' then [MDone kind (d_step s')] else [] | Err _ => [] end /\
      match r with Ok (c', _) => of_program true (d_debug s) c l c' | Err _ => exists c', of_program false (d_debug s) c l c' end.
  Proof.
    unfold StepDialectModel.step_transform. set (s0 := say_if _ s). assert (S0 : d_step s0 = d_step s /\ d_debug s0 = d_debug s /\ d_log s0 = d_log s ++ if d_debug s then [MBefore kind (d_step s) c] else []).
    { unfold s0, say_if, say. destruct (d_debug s) eqn:E; cbn; rewrite ?app_nil_r; auto. }
    destruct S0 as (A & B & D). destruct (step_loop _ _ _ _ _ _ _ n c [] s0) as [[r0 s1]|] eqn:L; [|discriminate]. apply loop_spec in L; [|exact found_nonempty].
    destruct L as (l & c' & (U1 & U2 & U3) & R). rewrite B in R. rewrite A in U1. rewrite B in U2. rewrite A, B, D in U3. destruct r0 as [[c2 ds]|e]; intros H; injection H as <- <-; exists l.
    - destruct R as [-> R]. assert (F : d_step (say_if (MDone kind) s1) = d_step s1 /\ d_debug (say_if (MDone kind) s1) = d_debug s1 /\ d_log (say_if (MDone kind) s1) = d_log s1 ++ if d_debug s1 then [MDone kind (d_step s1)] else []).
      { unfold say_if, say. destruct (d_debug s1) eqn:E; cbn; rewrite ?app_nil_r; auto. }
      destruct F as (-> & -> & ->). rewrite U3. split; [exact U1|]. split; [exact U2|]. split; [now rewrite <- !app_assoc|exact R].
    - split; [exact U1|]. split; [exact U2|]. split; [rewrite U3, app_nil_r; now rewrite <- !app_assoc|eauto].
  Qed.
  (** The same for the postprocessors. StepExpansion has none: if debug mode is off, nothing is shown. *)
  Theorem C73_postprocessing_shown ds c s r s' : is_empty c = false -> step_postprocess ds c s = (r, s') ->
    exists l, d_step s' = d_step s + List.length l /\ d_debug s' = d_debug s /\
      d_log s' = d_log s ++ (if d_debug s then MBefore "AST postprocessors" (d_step s) c :: visible true (d_step s) l ++
                               match r with Ok _ => [MDone "AST postprocessors" (d_step s')] | Err _ => [] end else []) /\
      match r with Ok c' => of_objects true ds c l c' | Err _ => exists c', of_objects false ds c l c' end.
  Proof.
    intros Hc. unfold StepDialectModel.step_postprocess. set (s0 := say_if _ s). assert (S0 : d_step s0 = d_step s /\ d_debug s0 = d_debug s /\ d_log s0 = d_log s ++ if d_debug s then [MBefore "AST postprocessors" (d_step s) c] else []).
    { unfold s0, say_if, say. destruct (d_debug s) eqn:E; cbn; rewrite ?app_nil_r; auto. }
    destruct S0 as (A & B & D). destruct (step_post _ _ _ _ _ ds c s0) as [r0 s1] eqn:L. apply post_spec in L; [|exact Hc]. destruct L as (l & c' & (U1 & U2 & U3) & R). rewrite A in U1. rewrite B in U2. rewrite A, B, D in U3.
    assert (Z : enables l = false).
    { assert (Q : exists b, of_objects b ds c l c') by (destruct r0; [destruct R as [_ R]|]; eauto). destruct Q as [b Q]. clear - Q. unfold enables. induction Q; try reflexivity. rewrite existsb_app. apply orb_false_iff. split; [|exact IHQ].
      destruct H as [| |c0 [E|[E _]]|]; try reflexivity; discriminate. }
    rewrite Z, orb_false_r in U2.
    assert (V : forall b k, b = false -> visible b k l = []).
    { clear - Z. unfold enables in Z. induction l as [|[[x st] c0] l IH]; intros b k ->; [reflexivity|]. cbn in Z. apply orb_false_iff in Z. destruct Z as [-> Z]. cbn. now apply IH. }
    destruct r0 as [c2|e]; intros H; injection H as <- <-; exists l.
    - destruct R as [-> R]. unfold say_if, say. rewrite U2. destruct (d_debug s) eqn:E; cbn [d_step d_debug d_log]; rewrite U3.
      + split; [exact U1|]. split; [reflexivity|]. split; [rewrite <- !app_assoc; reflexivity|exact R].
      + split; [exact U1|]. split; [exact U2|]. split; [rewrite V by reflexivity; now rewrite !app_nil_r|exact R].
    - split; [exact U1|]. split; [exact U2|]. split; [|eauto]. rewrite U3. destruct (d_debug s) eqn:E; [rewrite app_nil_r, <- !app_assoc; reflexivity|]. rewrite V by reflexivity. now rewrite !app_nil_r.
  Qed.

  (** StepExpansion has no other effects: the result (program, objects of the other dialects, or exception) and the state of the process are those of the dialect expander
      without debug mode and without StepExpansion in any dialect-import, whether debug mode is on or off before. *)
  Theorem C73_no_other_effect n c s :
    transform_loop is_dialect instantiate (method_of is_empty transform) (find_user find) n c [] (d_w s) =
    match step_transform n c s with
    | None => None
    | Some (Ok (c', ds), s') => Some (Ok (c', users ds), d_w s')
    | Some (Err e, s') => Some (Err e, d_w s')
    end.
  Proof.
    unfold StepDialectModel.step_transform. set (s0 := say_if _ s). assert (E : d_w s = d_w s0) by (unfold s0, say_if; destruct (d_debug s); reflexivity). rewrite E.
    assert (L := loop_neutral is_dialect instantiate transform is_empty kind method find found_nonempty n c [] s0). cbn [users flat_map] in L. rewrite L. unfold forget. destruct (step_loop _ _ _ _ _ _ _ n c [] s0) as [[[[c' ds]|e] s1]|]; try reflexivity.
    do 2 f_equal. unfold say_if. destruct (d_debug s1); reflexivity.
  Qed.
  Theorem C73_no_other_effect_post ds c s :
    postprocess_ast (method_of is_empty postprocess) (users ds) c (d_w s) = (let (r, s') := step_postprocess ds c s in (r, d_w s')).
  Proof.
    unfold StepDialectModel.step_postprocess. set (s0 := say_if _ s). assert (E : d_w s = d_w s0) by (unfold s0, say_if; destruct (d_debug s); reflexivity). rewrite E.
    rewrite (post_neutral postprocess is_empty "AST postprocessors" "postprocess_ast" name_of ds) by discriminate. destruct (step_post _ _ _ _ _ ds c s0) as [[c'|e] s1]; [|reflexivity].
    unfold say_if. destruct (d_debug s1); reflexivity.
  Qed.
End Statements.
Print Assumptions C73_steps_shown.
Print Assumptions C73_postprocessing_shown.
Print Assumptions C73_no_other_effect.
Print Assumptions C73_no_other_effect_post.

(** What is shown, read off the output: the steps with their numbers and programs. *)
Definition shown_steps {C} (l : list (msg C)) : list (nat * C) := flat_map (fun m => match m with MAfter _ n c => [(n, c)] | _ => [] end) l.
(** Once debug mode is on, no step is left out: the numbers are consecutive, and the programs are those after each step, in order. *)
Theorem C73_nothing_left_out {C} (l : list (@entry C)) : forall n, shown_steps (visible true n l) = combine (seq (S n) (List.length l)) (map snd l).
Proof.
  unfold shown_steps. induction l as [|[[x st] c] l IH]; intros n; [reflexivity|]. destruct st; cbn [visible flat_map app List.length map combine seq snd]; now rewrite IH.
Qed.
Print Assumptions C73_nothing_left_out.

(** ** A case: a program with two dialect-imports, StepExpansion first; then one dialect that appends a character, one that does nothing. *)
Definition z_find (c : string) (w : nat) : res (option (string * list (string * dcls nat) * string)) * nat :=
  match w with
  | 0 => (Ok (Some ("mcpyrate.debug", [("StepExpansion", CStep)], c)), 1)
  | 1 => (Ok (Some ("mod", [("Loud", CUser 0); ("Nop", CUser 1)], c)), 2)
  | _ => (Ok None, w)
  end.
Definition z_find' (c : string) (w : nat) := if String.eqb c "" then (Ok None, w) else z_find c w.
Definition z_transform (i : nat) : option (string -> nat -> res (option string) * nat) := match i with 0 => Some (fun c w => (Ok (Some (c ++ "!")%string), w)) | _ => Some (fun _ w => (Ok None, w)) end.
Notation z_run m f := (step_transform (fun _ => true) (fun o w => (Ok o, w)) z_transform (fun c => String.eqb c "") m f z_find' 5).
Example C73_case :
  (forall c w m bs c1 w1, z_find' c w = (Ok (Some (m, bs, c1)), w1) -> String.eqb c1 "" = false) /\
  z_run "source" "transform_source" "x" (DSt false 0 [] 0) = Some (Ok ("x!", [OStep; OUser 0; OUser 1]),
    DSt true 2 [MEnabled 1; MAfter "mcpyrate.debug.StepExpansion.transform_source" 1 "x"; MAfter "mod.Loud.transform_source" 2 "x!"; MDone "source" 2] 2) /\
  z_run "AST" "transform_ast" "x" (DSt true 2 [] 0) = Some (Ok ("x!", [OStep; OUser 0; OUser 1]),
    DSt true 3 [MBefore "AST" 2 "x"; MAfter "mod.Loud.transform_ast" 3 "x!"; MDone "AST" 3] 2).
Proof.
  split; [|split; vm_compute; reflexivity]. intros c w m bs c1 w1. unfold z_find'. destruct (String.eqb c "") eqn:E; [discriminate|]. unfold z_find. destruct w as [|[|]]; intros H; try discriminate; injection H as _ _ <- _; exact E.
Qed.
