(** C65: the report of macro bindings. *)
From Coq Require Import Sorted.
From Verif Require Import Base Dict IpyProofs UnparseModel DumpSpec DumpLayout ShowModel ShowProofs.
Open Scope string_scope.

(** The full name of a macro function: the dotted name, or the plain one if the module is unknown; an object without these is shown as it is. *)
Inductive full_name : mfn -> string -> Prop :=
| fn_broken r : full_name (Broken r) r
| fn_dotted m q : m <> "" -> full_name (Fn (Some m) q) (m ++ "." ++ q)
| fn_plain m q : m = None \/ m = Some "" -> full_name (Fn m q) q.
Lemma full_name_iff f s : full_name f s <-> format_macrofunction f = s.
Proof.
  split.
  - intros H. inversion H as [r|m q Hm|m q Hm]; subst; [reflexivity| |destruct Hm as [-> | ->]; reflexivity]. cbn [format_macrofunction]. destruct (String.eqb_spec m ""); [contradiction|reflexivity].
  - intros <-. destruct f as [r|[m|] q]; [apply fn_broken| |apply fn_plain; left; reflexivity]. cbn [format_macrofunction]. destruct (String.eqb_spec m "") as [->|Hm]; [apply fn_plain; right; reflexivity|apply fn_dotted; exact Hm].
Qed.

(** The report has one line for each binding that is in effect ([lookup]: a local one hides a global one of the same name), and no other, in the order of the names;
    each says the name and the macro function. *)
Theorem C65_report P e globals_too : dicts e ->
  exists rows, StronglySorted (fun a b => lex_lt (fst a) (fst b)) rows /\ (forall k s, In (k, s) rows <-> exists f, lookup e globals_too k = Some f /\ full_name f s) /\
  format_bindings P e globals_too false =
    "Macro bindings for " ++ x_file e ++ ":" ++ newline ++
    match rows with
    | [] => "    <no bindings>" ++ newline
    | _ => String.concat "" (map (fun p => "    " ++ fst p ++ ": " ++ snd p ++ newline) rows)
    end.
Proof.
  intros Hd. exists (map (fun p => (fst p, format_macrofunction (snd p))) (sort_items (chosen e globals_too))). split; [|split].
  - assert (S : StronglySorted (fun a b : string * mfn => lex_lt (fst a) (fst b)) (sort_items (chosen e globals_too))) by (apply sort_sorted, chosen_nodup, Hd).
    induction S as [|a l S IH F]; [constructor|]. cbn [map]. constructor; [exact IH|]. apply Forall_map. cbn [fst]. exact F.
  - intros k s. rewrite in_map_iff. split.
    + intros ([k' f] & E & Hi). inversion E; subst. exists f. split; [apply (chosen_in e globals_too _ _ Hd); exact Hi|]. apply full_name_iff. reflexivity.
    + intros (f & Hf & Hs). apply full_name_iff in Hs as <-. exists (k, f). split; [reflexivity|]. apply (chosen_in e globals_too _ _ Hd). exact Hf.
  - rewrite plain_report. unfold header, body, row. rewrite !sapp_assoc. destruct (sort_items (chosen e globals_too)) as [|p l]; [reflexivity|]. cbn [map fst snd]. rewrite map_map. cbn [fst snd]. reflexivity.
Qed.
Print Assumptions C65_report.

(** Nothing is lost in the report: equal reports are about the same file, the same names, bound to functions of the same full names. *)
Theorem C65_report_faithful P P' e e' globals_too : dicts e -> dicts e' -> readable e globals_too -> readable e' globals_too ->
  format_bindings P e globals_too false = format_bindings P' e' globals_too false ->
  x_file e = x_file e' /\ forall k, option_map format_macrofunction (lookup e globals_too k) = option_map format_macrofunction (lookup e' globals_too k).
Proof.
  intros D1 D2 [F1 R1] [F2 R2] H. rewrite !plain_report in H. unfold header in H. rewrite !sapp_assoc in H. cbn [append] in H.
  assert (G : forall e0, dicts e0 -> (forall k f, lookup e0 globals_too k = Some f -> lacks lf k /\ lacks ":" k /\ lacks lf (format_macrofunction f)) -> Forall good (sort_items (chosen e0 globals_too))).
  { intros e0 D0 R0. apply Forall_forall. intros [k f] Hi. apply (chosen_in e0 globals_too k f D0) in Hi. exact (R0 k f Hi). }
  assert (K : (x_file e ++ ":") ++ String lf (body (sort_items (chosen e globals_too))) = (x_file e' ++ ":") ++ String lf (body (sort_items (chosen e' globals_too)))).
  { rewrite !sapp_assoc. cbn [append]. repeat match goal with H : String _ _ = String _ _ |- _ => injection H as H end. exact H. }
  apply cut_eq in K; [|apply lacks_app; split; [assumption|apply lacks_lit; reflexivity]|apply lacks_app; split; [assumption|apply lacks_lit; reflexivity]]. destruct K as [K1 K2]. split.
  - clear - K1. revert K1. generalize (x_file e) as a. generalize (x_file e') as b. intros b a. revert b. induction a as [|c a IH]; intros [|d b] K; cbn in K; inversion K; subst; [reflexivity|destruct b; discriminate|destruct a; discriminate|]. f_equal. apply IH. assumption.
  - intros k. apply body_inj in K2; [|apply G; assumption|apply G; assumption]. apply (f_equal (sget k)) in K2. rewrite !sget_map in K2.
    rewrite !sort_get in K2 by (apply chosen_nodup; assumption). rewrite !chosen_get in K2 by assumption. exact K2.
Qed.
Print Assumptions C65_report_faithful.

(** Colors add nothing but escape sequences. *)
Theorem C65_report_color P e globals_too : dicts e -> palette_codes P -> no_esc (x_file e) = true ->
  (forall k f, lookup e globals_too k = Some f -> no_esc k = true /\ no_esc (format_macrofunction f) = true) ->
  strip false (format_bindings P e globals_too true) = (format_bindings P e globals_too false, false).
Proof.
  intros Hd (C1 & C2 & C3 & C4 & C5) Hf Hk. change (shows (format_bindings P e globals_too true) (format_bindings P e globals_too false)).
  assert (S0 : forall l, Forall style_codes l -> shows (setcolor P l true) "") by (intros l Hl; apply setcolor_shows; assumption).
  unfold format_bindings. cbn zeta. fold (chosen e globals_too).
  apply shows_app; [apply S0; repeat constructor; assumption|]. apply shows_app; [apply shows_self; reflexivity|]. apply shows_app; [apply S0; repeat constructor; assumption|].
  apply shows_app; [apply shows_self; exact Hf|]. apply shows_app; [apply S0; repeat constructor; assumption|]. apply shows_app; [apply shows_self; reflexivity|]. apply shows_app; [apply S0; constructor|].
  apply shows_app; [apply shows_self; reflexivity|]. destruct (chosen e globals_too) as [|p l] eqn:E; [apply colorize_shows; [assumption|repeat constructor; assumption|reflexivity]|].
  rewrite <- E. assert (A : forall k f, In (k, f) (sort_items (chosen e globals_too)) -> no_esc k = true /\ no_esc (format_macrofunction f) = true) by (intros k f Hi; apply Hk; apply (chosen_in e globals_too k f Hd); exact Hi).
  clear E. revert A. generalize (sort_items (chosen e globals_too)). intros rows A. induction rows as [|[k f] rows IH]; [reflexivity|]. cbn [map]. rewrite !concat_cons. apply shows_app; [|apply IH; intros k' f' Hi; apply A; right; exact Hi].
  destruct (A k f (or_introl eq_refl)) as [A1 A2]. cbn [fst snd]. apply shows_app; [apply shows_self; reflexivity|]. apply shows_app; [apply colorize_shows; [assumption|repeat constructor; assumption|exact A1]|].
  apply shows_app; [apply shows_self; reflexivity|]. apply shows_app; [apply shows_self; exact A2|apply shows_self; reflexivity].
Qed.
Print Assumptions C65_report_color.

(** [show_bindings] prints the report of the local bindings, and is for names only. *)
Theorem C65_show_bindings P e syntax : dicts e -> palette_codes P -> no_esc (x_file e) = true ->
  (forall k f, lookup e false k = Some f -> no_esc k = true /\ no_esc (format_macrofunction f) = true) ->
  (syntax = "name" -> exists text, show_bindings P e syntax = Ok text /\ strip false text = (format_bindings P e false false ++ newline, false)) /\
  (syntax <> "name" -> exists e', show_bindings P e syntax = Err e' /\ e_cls e' = "SyntaxError").
Proof.
  intros Hd HP Hf Hk. split.
  - intros ->. eexists. split; [reflexivity|]. change (shows (format_bindings P e false true ++ newline) (format_bindings P e false false ++ newline)).
    apply shows_app; [exact (C65_report_color P e false Hd HP Hf Hk)|apply shows_self; reflexivity].
  - intros Hn. unfold show_bindings. destruct (String.eqb_spec syntax "name"); [contradiction|]. eexists. split; reflexivity.
Qed.
Print Assumptions C65_show_bindings.

(** [colorize] only adds escape sequences, whatever the nesting of the styles. *)
Theorem C65_colorize P text colors : codes (p_reset P) -> Forall style_codes colors -> no_esc text = true -> strip false (colorize P text colors) = (text, false).
Proof. intros H1 H2 H3. exact (colorize_shows P text colors H1 H2 H3). Qed.
Print Assumptions C65_colorize.

(** ** Examples *)
Definition e_code (n : string) : string := String (ascii_of_nat 27) ("[" ++ n ++ "m").
Definition e_pal : palette := Palette (e_code "0") (STup [SCode (e_code "1"); SCode (e_code "94")]) (SCode (e_code "1")) (SCode (e_code "2")) (STup [STup [SCode (e_code "34")]; STup []]).
Definition e_exp : expander :=
  Expander "/tmp/a.py" [("show_bindings", Fn (Some "mcpyrate.debug") "show_bindings"); ("let", Fn (Some "lets") "letmacro"); ("kitty", Fn None "kitty"); ("oops", Broken "<module 'os'>")]
    [("kitty", Fn (Some "other") "cat"); ("let_1f3a", Fn (Some "lets") "letmacro")].
Example C65_example :
  dicts e_exp /\ readable e_exp true /\ palette_codes e_pal /\
  format_bindings e_pal e_exp true false =
    "Macro bindings for /tmp/a.py:" ++ newline ++ "    kitty: kitty" ++ newline ++ "    let: lets.letmacro" ++ newline ++ "    let_1f3a: lets.letmacro" ++ newline ++
    "    oops: <module 'os'>" ++ newline ++ "    show_bindings: mcpyrate.debug.show_bindings" ++ newline /\
  format_bindings e_pal (Expander "f" [] []) false true =
    e_code "0" ++ e_code "1" ++ e_code "94" ++ "Macro bindings for " ++ e_code "0" ++ e_code "1" ++ "f" ++ e_code "0" ++ e_code "1" ++ e_code "94" ++ ":" ++ e_code "0" ++ newline ++
    e_code "0" ++ e_code "2" ++ "    <no bindings>" ++ newline ++ e_code "0".
Proof.
  split; [split; repeat constructor; cbn; intuition discriminate|]. split.
  - split; [apply lacks_lit; reflexivity|]. intros k f H. apply (chosen_in e_exp true k f) in H; [|split; repeat constructor; cbn; intuition discriminate].
    cbn -[lacks format_macrofunction] in H. repeat (destruct H as [H|H]; [inversion H; subst; repeat split; apply lacks_lit; reflexivity|]). destruct H.
  - split; [repeat split; repeat constructor|]. split; vm_compute; reflexivity.
Qed.

(** Refuted: [show_bindings] shows all bindings of the expander. The global ones, of hygienically unquoted macros, are in effect but not shown. *)
Theorem C65_show_bindings_refuted : exists P e k f text, dicts e /\ palette_codes P /\ lookup e true k = Some f /\ sget k (all_bindings e) = Some f /\
  show_bindings P e "name" = Ok text /\ String.index 0 k text = None /\ String.index 0 "show_bindings" text <> None.
Proof.
  exists e_pal, e_exp, "let_1f3a", (Fn (Some "lets") "letmacro"). eexists. split; [split; repeat constructor; cbn; intuition discriminate|]. split; [repeat split; repeat constructor|].
  split; [reflexivity|]. split; [reflexivity|]. split; [vm_compute; reflexivity|]. split; [vm_compute; reflexivity|vm_compute; discriminate].
Qed.
Print Assumptions C65_show_bindings_refuted.
