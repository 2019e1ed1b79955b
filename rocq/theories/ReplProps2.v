(** C52, for input that succeeds, and for the special commands. *)
From Verif Require Import Base Dict ReplModel ReplProps.

Lemma substring_all s : substring 0 (String.length s) s = s.
Proof. induction s as [|c s IH]; [reflexivity|]. cbn [String.length substring]. rewrite IH. reflexivity. Qed.
Lemma substring_tail x s : substring (String.length x) (String.length s) (x ++ s) = s.
Proof. induction x as [|c x IH]; [apply substring_all|exact IH]. Qed.
Lemma substring_head x s : substring 0 (String.length x) (x ++ s) = x.
Proof. induction x as [|c x IH]; [destruct s; reflexivity|]. cbn [String.length String.append substring]. rewrite IH. reflexivity. Qed.
Lemma length_append x s : String.length (x ++ s) = String.length x + String.length s.
Proof. induction x as [|c x IH]; [reflexivity|]. cbn [String.length String.append]. rewrite IH. reflexivity. Qed.
Lemma ends_with_app x s : ends_with s (x ++ s) = true.
Proof.
  unfold ends_with. rewrite length_append. replace (String.length x + String.length s - String.length s) with (String.length x) by lia. rewrite substring_tail, String.eqb_refl, andb_true_r.
  apply Nat.leb_le. lia.
Qed.
Lemma drop_last_app x s : drop_last (String.length s) (x ++ s) = x.
Proof. unfold drop_last. rewrite length_append. replace (String.length x + String.length s - String.length s) with (String.length x) by lia. apply substring_head. Qed.
Lemma append_assoc x y z : ((x ++ y) ++ z)%string = (x ++ y ++ z)%string.
Proof. induction x as [|c x IH]; [reflexivity|]. cbn [String.append]. rewrite IH. reflexivity. Qed.
Lemma last_char x : x = ""%string \/ exists y c, x = (y ++ String c "")%string.
Proof.
  induction x as [|c x IH]; [left; reflexivity|right]. destruct IH as [->|(y & d & ->)]; [exists ""%string, c; reflexivity|exists (String c y), d; reflexivity].
Qed.
Lemma one_mark x : (forall y, x <> (y ++ "?")%string) -> ends_with "??" (x ++ "?") = false.
Proof.
  intros H. destruct (last_char x) as [->|(y & c & ->)]; [reflexivity|]. rewrite append_assoc. unfold ends_with. rewrite length_append. cbn [String.append String.length].
  replace (String.length y + 2 - 2) with (String.length y) by lia. pose proof (substring_tail y (String c "?")) as Y. cbn [String.length] in Y. rewrite Y.
  destruct (Ascii.eqb_spec c "?") as [->|Hc]; [exfalso; apply (H y); reflexivity|]. destruct (String.eqb_spec (String c "?") "??"); [congruence|apply andb_false_r].
Qed.

Section Spec.
  Context {fn val ast code world : Type}.
  Notation ses := (ses fn val world).
  Variable metadata : @sdict val.
  Variable compile_cmd : string -> res (option code).
  Variables (parse : string -> res ast) (compile_ast : ast -> res code) (dedent : string -> string).
  Variable find_macros : ast -> ses -> ses * res (@sdict fn * ast).
  Variables (expand postprocess : ast -> ses -> ses * res ast).
  Variable exec : code -> ses -> ses * option exn.
  Variable fn_ref : fn -> option (string * string).
  Variable isa : exn -> string -> bool.
  Notation runsource := (runsource metadata compile_cmd parse compile_ast dedent find_macros expand postprocess exec fn_ref isa).
  Notation plain_input := (plain_input compile_cmd isa).

  (** Running a text inside the session, without macro expansion. *)
  Inductive executes (source : string) (st : ses) : ses -> res unit -> Prop :=
  | ex_noparse e : parse (dedent source) = Err e -> executes source st st (Err e)
  | ex_nocompile t e : parse (dedent source) = Ok t -> compile_ast t = Err e -> executes source st st (Err e)
  | ex_exit t c st' e : parse (dedent source) = Ok t -> compile_ast t = Ok c -> exec c st = (st', Some e) -> executes source st st' (Err e)
  | ex_done t c st' : parse (dedent source) = Ok t -> compile_ast t = Ok c -> exec c st = (st', None) -> executes source st st' (Ok tt).
  Lemma executes_model source st st' r : internal_execute parse compile_ast dedent exec source st = (st', r) <-> executes source st st' r.
  Proof.
    unfold internal_execute. split.
    - destruct (parse (dedent source)) as [t|e] eqn:E1; [|intros H; inversion H; subst; apply ex_noparse; exact E1].
      destruct (compile_ast t) as [c|e] eqn:E2; [|intros H; inversion H; subst; eapply ex_nocompile; eauto].
      destruct (exec c st) as [st1 [e|]] eqn:E3; intros H; inversion H; subst; [eapply ex_exit; eauto|eapply ex_done; eauto].
    - intros [e H|t e H1 H2|t c s1 e H1 H2 H3|t c s1 H1 H2 H3]; [rewrite H; reflexivity|rewrite H1, H2; reflexivity|rewrite H1, H2, H3; reflexivity|rewrite H1, H2, H3; reflexivity].
  Qed.

  (** The macro functions are imported under the names of the macros, so that [name?] and the like find them: one import after the other, in the order
      of the bindings; functions without a module are left out; a failing import is passed over. *)
  Inductive macros_imported : list (string * fn) -> ses -> ses -> res unit -> Prop :=
  | mi_end st : macros_imported [] st st (Ok tt)
  | mi_skip a f r st st' x : fn_ref f = None -> macros_imported r st st' x -> macros_imported ((a, f) :: r) st st' x
  | mi_import a f m q r st st1 st' x : fn_ref f = Some (m, q) -> executes ("from " ++ m ++ " import " ++ q ++ " as " ++ a)%string st st1 (Ok tt) ->
      macros_imported r st1 st' x -> macros_imported ((a, f) :: r) st st' x
  | mi_pass a f m q r st st1 st' x e : fn_ref f = Some (m, q) -> executes ("from " ++ m ++ " import " ++ q ++ " as " ++ a)%string st st1 (Err e) ->
      isa e "ModuleNotFoundError" = true \/ isa e "ImportError" = true -> macros_imported r st1 st' x -> macros_imported ((a, f) :: r) st st' x
  | mi_fail a f m q r st st1 e : fn_ref f = Some (m, q) -> executes ("from " ++ m ++ " import " ++ q ++ " as " ++ a)%string st st1 (Err e) ->
      isa e "ModuleNotFoundError" = false -> isa e "ImportError" = false -> macros_imported ((a, f) :: r) st st1 (Err e).
  Lemma refresh_imports l : forall st st' x, refresh_all parse compile_ast dedent exec fn_ref isa l st = (st', x) -> macros_imported l st st' x.
  Proof.
    induction l as [|[a f] l IH]; intros st st' x H; cbn [refresh_all] in H; [inversion H; constructor|].
    destruct (fn_ref f) as [[m q]|] eqn:E; [|eapply mi_skip; eauto].
    destruct (internal_execute parse compile_ast dedent exec (refresh_source a (m, q)) st) as [st1 [u|e]] eqn:E1; apply executes_model in E1; unfold refresh_source in E1; cbn [fst snd] in E1.
    - destruct u. eapply mi_import; eauto.
    - unfold isa_any in H. cbn [existsb] in H. rewrite orb_false_r in H. destruct (isa e "ModuleNotFoundError") eqn:I1; [eapply mi_pass; eauto|]. cbn [orb] in H.
      destruct (isa e "ImportError") eqn:I2; [eapply mi_pass; eauto|]. inversion H; subst. eapply mi_fail; eauto.
  Qed.

  (** Input that compiles, and whose code runs to its end (exceptions in it are shown by Python's own console): if some macro-import has taken effect
      since the last time, the macro functions are imported under the names of the macros; nothing else happens, and nothing is shown. *)
  Theorem C52_successful_input source st c st1 st2 :
    plain_input source -> to_code metadata parse compile_ast find_macros expand postprocess source st = (st1, Ok c) -> exec c st1 = (st2, None) ->
    if s_changed st2
    then exists st3 x, macros_imported (s_bind st2) (mkSes (s_bind st2) false (s_locals st2) (s_magic st2) (s_world st2)) st3 x /\
                       runsource source st = (st3, [], match x with Ok _ => Ok false | Err e => Err e end)
    else runsource source st = (st2, [], Ok false).
  Proof.
    intros HP H1 H2. rewrite (plain_run _ _ _ _ _ _ _ _ _ _ _ source st HP), H1, H2. unfold refresh. destruct (s_changed st2); [|reflexivity].
    destruct (refresh_all _ _ _ _ _ _ _ _) as [st3 x] eqn:E. exists st3, x. split; [apply refresh_imports, E|destruct x; reflexivity].
  Qed.

  (** The special commands: [macros?] shows the bindings; [x??] shows the source code of x, and [x?] its documentation. *)
  Theorem C52_special_commands x st :
    runsource "macros?" st = (st, [WBindings], Ok false) /\
    (forall st' r, executes ("mcpyrate.repl.utils.sourcecode(" ++ x ++ ")") st st' r ->
       runsource (x ++ "??") st = (st', [], match r with Ok _ => Ok false | Err e => Err e end)) /\
    (forall st' r, (forall y, x <> (y ++ "?")%string) -> x <> "macros"%string -> executes ("mcpyrate.repl.utils.doc(" ++ x ++ ")") st st' r ->
       runsource (x ++ "?") st = (st', [], match r with Ok _ => Ok false | Err e => Err e end)).
  Proof.
    split; [reflexivity|]. split.
    - intros st' r H. unfold ReplModel.runsource. assert (X : String.eqb (x ++ "??") "macros?" = false).
      { destruct (String.eqb_spec (x ++ "??") "macros?") as [X|]; [|reflexivity]. exfalso. pose proof (ends_with_app x "??") as Y. rewrite X in Y. discriminate. }
      rewrite X, ends_with_app. change 2 with (String.length "??"). rewrite drop_last_app. apply executes_model in H. rewrite H. destruct r; reflexivity.
    - intros st' r H1 H2 H. unfold ReplModel.runsource. assert (X : String.eqb (x ++ "?") "macros?" = false).
      { destruct (String.eqb_spec (x ++ "?") "macros?") as [X|]; [|reflexivity]. exfalso. apply H2. rewrite <- (drop_last_app x "?"), X. reflexivity. }
      rewrite X, (one_mark x H1), ends_with_app. change 1 with (String.length "?"). rewrite drop_last_app. apply executes_model in H. rewrite H. destruct r; reflexivity.
  Qed.
End Spec.
Print Assumptions C52_successful_input.
Print Assumptions C52_special_commands.

(** In the small Python of C52's examples: a macro-import is followed by the import of the macro function; and a question about a name. *)
Definition x_log (c : string) (st : ses x_fn nat (list string)) : ses x_fn nat (list string) * option exn :=
  (mkSes (s_bind st) (s_changed st) (s_locals st) (s_magic st) (s_world st ++ [c]), None).
Definition x_find2 (t : string) (st : ses x_fn nat (list string)) : ses x_fn nat (list string) * res (@sdict x_fn * string) :=
  if String.prefix "from mod import macros, m" t then (st, Ok ([("n", ("mod", "m"))]%string, "import mod"%string)) else (st, Ok ([], t)).
Definition x_run2 := runsource [] x_cmd x_parse x_compile (fun s => s) x_find2 (fun t st => (st, Ok t)) (fun t st => (st, Ok t)) x_log Some x_isa.
Example C52_success_example :
  s_world (fst (fst (x_run2 "from mod import macros, m as n" (mkSes [] false [] [] [])))) = ["import mod"; "from mod import m as n"]%string /\
  s_world (fst (fst (x_run2 "n?" (mkSes [] false [] [] [])))) = ["mcpyrate.repl.utils.doc(n)"]%string /\
  s_world (fst (fst (x_run2 "n??" (mkSes [] false [] [] [])))) = ["mcpyrate.repl.utils.sourcecode(n)"]%string.
Proof. repeat split; vm_compute; reflexivity. Qed.
