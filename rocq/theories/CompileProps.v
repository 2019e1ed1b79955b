(** C60: expand, compile and run. *)
From Verif Require Import Base AstLib UtilsModel FixLocModel MarkersModel MarkersProps ExpanderModel Dict ImportsModel ModulesModel ModulesProps PhaseModel DialectModel StatsModel ReplModel CompileModel CompileSpec.

Lemma append_assoc (a b c : string) : ((a ++ b) ++ c)%string = (a ++ (b ++ c))%string.
Proof. induction a as [|x a IH]; cbn; [reflexivity|]. rewrite IH. reflexivity. Qed.
Lemma substring_full s : substring 0 (String.length s) s = s.
Proof. induction s as [|c s IH]; cbn; [reflexivity|]. rewrite IH. reflexivity. Qed.
Lemma split_at n s : n <= String.length s -> s = (substring 0 n s ++ substring n (String.length s - n) s)%string.
Proof.
  revert n. induction s as [|c s IH]; intros n Hn; [destruct n; [reflexivity|cbn in Hn; lia]|]. destruct n as [|n]; [cbn [substring String.length Nat.sub]; rewrite substring_full; reflexivity|].
  cbn [substring String.length Nat.sub append] in *. f_equal. apply IH. lia.
Qed.
Lemma sub_append p q : substring (String.length p) (String.length q) (p ++ q) = q.
Proof. induction p as [|c p IH]; cbn; [apply substring_full|exact IH]. Qed.
Lemma len_append p q : String.length (p ++ q) = String.length p + String.length q.
Proof. induction p as [|c p IH]; cbn; [reflexivity|]. rewrite IH. reflexivity. Qed.
Lemma ends_with_iff suf s : ends_with suf s = true <-> exists p, s = (p ++ suf)%string.
Proof.
  unfold ends_with. rewrite andb_true_iff, Nat.leb_le, String.eqb_eq. split.
  - intros [H1 H2]. exists (substring 0 (String.length s - String.length suf) s). rewrite <- H2 at 2. rewrite (split_at (String.length s - String.length suf) s) at 1 by lia.
    f_equal. f_equal. lia.
  - intros [p ->]. rewrite len_append. split; [lia|]. replace (String.length p + String.length suf - String.length suf) with (String.length p) by lia. apply sub_append.
Qed.
Lemma py_file_iff f : ends_with ".py" f = true <-> py_file f.
Proof. apply ends_with_iff. Qed.

Lemma named_spec magic t i : import_named magic t = Ok (Some i) -> view_import t = Some i /\ exists r, i_names i = (magic, None) :: r.
Proof.
  unfold import_named. destruct (view_import t) as [j|]; [|discriminate]. destruct (i_names j) as [|[x [y|]] r] eqn:En; try discriminate.
  destruct (String.eqb_spec x magic) as [->|]; [|discriminate]. intros H. inversion H; subst. eauto.
Qed.

(** Multi-phase mode: exactly when [phase] is macro-imported from mcpyrate.multiphase, in the top level. *)
Theorem C60_multiphase_mode : forall body, Forall sane_import body -> exists b, ismultiphase body = Ok b /\ (b = true <-> exists t, In t body /\ phase_import t).
Proof.
  induction body as [|t body IH]; intros H; [exists false; split; [reflexivity|]; split; [discriminate|intros (t & [] & _)]|].
  inversion H; subst. destruct (IH H3) as (b & Hb & Hiff). cbn [ismultiphase].
  assert (K : (phase_import t /\ exists i, import_named "macros" t = Ok (Some i) /\ match i_module i with Some m => String.eqb m "mcpyrate.multiphase" | None => false end && Nat.eqb (i_level i) 0 && existsb (fun p => String.eqb (fst p) "phase") (tl (i_names i)) = true) \/
    (~ phase_import t /\ (import_named "macros" t = Ok None \/ exists i, import_named "macros" t = Ok (Some i) /\ match i_module i with Some m => String.eqb m "mcpyrate.multiphase" | None => false end && Nat.eqb (i_level i) 0 && existsb (fun p => String.eqb (fst p) "phase") (tl (i_names i)) = false))).
  { destruct (import_named "macros" t) as [[i|]|e] eqn:Ei.
    - destruct (named_spec _ _ _ Ei) as (Hv & r & Hr).
      destruct (match i_module i with Some m => String.eqb m "mcpyrate.multiphase" | None => false end && Nat.eqb (i_level i) 0 && existsb (fun p => String.eqb (fst p) "phase") (tl (i_names i))) eqn:Ec.
      + left. split; [|exists i; auto]. apply andb_true_iff in Ec. destruct Ec as [Ec E3]. apply andb_true_iff in Ec. destruct Ec as [E1 E2]. apply Nat.eqb_eq in E2.
        apply existsb_exists in E3. destruct E3 as ([x a] & Hin & Hx). apply String.eqb_eq in Hx. cbn [fst] in Hx. subst x. rewrite Hr in Hin. cbn [tl] in Hin.
        destruct (i_module i) as [m|] eqn:Em; [|discriminate]. apply String.eqb_eq in E1. subst m. exists i, r, a. auto.
      + right. split; [|right; exists i; auto]. intros (j & r' & a & Hv' & Hm & Hl & Hn & Hin). rewrite Hv in Hv'. inversion Hv'; subst j. rewrite Hm, Hl, Hn in Ec. cbn [tl] in Ec.
        rewrite String.eqb_refl in Ec. cbn [andb Nat.eqb] in Ec. assert (existsb (fun p : string * option string => String.eqb (fst p) "phase") r' = true); [|congruence]. apply existsb_exists. eexists. split; [exact Hin|]. apply String.eqb_refl.
    - right. split; [|auto]. intros (j & r' & a & Hv' & Hm & Hl & Hn & Hin). unfold import_named in Ei. rewrite Hv', Hn in Ei. rewrite String.eqb_refl in Ei. discriminate.
    - exfalso. unfold import_named in Ei. destruct (view_import t) as [j|] eqn:Ev; [|discriminate]. specialize (H2 j Ev). destruct (i_names j) as [|[x [y|]] r]; [congruence|discriminate|discriminate]. }
  destruct K as [(Hp & i & -> & ->)|(Hp & K)].
  - exists true. split; [reflexivity|]. split; [intros _|reflexivity]. exists t. split; [left; reflexivity|exact Hp].
  - exists b. split; [destruct K as [->|(i & -> & ->)]; exact Hb|]. rewrite Hiff. split; intros (t' & Hin & Ht'); [exists t'; split; [right|]; assumption|]. destruct Hin as [->|Hin]; [contradiction|]. eauto.
Qed.
Print Assumptions C60_multiphase_mode.

Section Statements.
  Context {U Ob In_ code B : Type}.
  Notation st := (mst U).
  Variables (isidentifier : string -> bool) (truthy : nat -> bool) (gen : nat -> string).
  Variable decode : string -> res string.
  Variable parse : string -> res (list ltree).
  Variable pycompile : list ltree -> string -> res code.
  Variable isstmt : ltree -> bool.
  Variable unparse : source code -> res string.
  Variable parse_import : list ascii -> res imp.
  Variable load : imp -> st -> res (option string * list (string * Ob)) * st.
  Variable is_dialect : Ob -> bool.
  Variable instantiate : Ob -> st -> res In_ * st.
  Variable transform_text : In_ -> option (list ascii -> st -> res (tresult (list ascii)) * st).
  Variable transform_ast : string -> list ltree -> st -> res (list ltree * list In_) * st.
  Variable find_macros : string -> option string -> list ltree -> st -> res (B * list ltree) * st.
  Variable expand_macros : string -> B -> list ltree -> st -> res (list ltree) * st.
  Variable postprocess : string -> list In_ -> list ltree -> st -> res (list ltree) * st.
  Variable ismarker : string -> bool.
  Variables (file_of name_of : nat -> st -> option string).
  Variable set_doc : nat -> ltree -> st -> st.
  Variable exec : code -> nat -> st -> res unit * st.
  Variable run_phase : list ltree -> nat -> st -> res unit * st.
  Notation singlephase := (singlephase_expand transform_ast find_macros expand_macros postprocess ismarker).
  Notation expand_tree := (expand_tree isidentifier truthy gen transform_ast find_macros expand_macros postprocess ismarker run_phase).
  Notation expand := (CompileModel.expand (code:=code) isidentifier truthy gen decode parse isstmt parse_import load is_dialect instantiate transform_text transform_ast find_macros expand_macros postprocess ismarker run_phase).
  Notation compile_ := (compile_ isidentifier truthy gen decode parse pycompile isstmt unparse parse_import load is_dialect instantiate transform_text transform_ast find_macros expand_macros postprocess ismarker run_phase).
  Notation compile := (compile isidentifier truthy gen decode parse pycompile isstmt unparse parse_import load is_dialect instantiate transform_text transform_ast find_macros expand_macros postprocess ismarker run_phase).
  Notation run := (run isidentifier truthy gen decode parse pycompile isstmt unparse parse_import load is_dialect instantiate transform_text transform_ast find_macros expand_macros postprocess ismarker file_of name_of set_doc exec run_phase).

  Lemma single_checked f self body s b s' : singlephase f self body s = (Ok b, s') -> check_no_markers_remaining ismarker (Nd noloc "Module" [("body"%string, Ls b)]) = Ok tt.
  Proof.
    unfold singlephase_expand, bind. destruct (transform_ast f body s) as [[[b1 ds]|] s1]; [|discriminate]. destruct (find_macros f self b1 s1) as [[[bd b2]|] s2]; [|discriminate].
    destruct (expand_macros f bd b2 s2) as [[b3|] s3]; [|discriminate]. destruct (postprocess f ds b3 s3) as [[b4|] s4]; [|discriminate].
    destruct (check_no_markers_remaining ismarker (Nd noloc "Module" [("body"%string, Ls b4)])) as [[]|] eqn:Ec; [|discriminate]. intros H. inversion H; subst. exact Ec.
  Qed.
  Lemma phases_single {E} (rn : list ltree -> nat -> st -> res unit * st) (single : list ltree -> st -> res E * st) ks : forall body m s x s', phases rn single ks body m s = (Ok (Some x), s') ->
    exists c s0 s1, single c s0 = (Ok x, s1).
  Proof.
    induction ks as [|k ks IH]; intros body m s x s'; cbn [phases]; [discriminate|]. destruct (extract_phase k body) as [[this body']|]; [|discriminate].
    destruct this as [|t0 this]; [apply IH|]. destruct (inject k (t0 :: this)) as [c|]; [|discriminate]. destruct k as [|k].
    - destruct (single c s) as [[y|] s1] eqn:Es; [|discriminate]. intros H. inversion H; subst. eauto.
    - destruct (rn c m s) as [[y|] s1]; [|discriminate]. apply IH.
  Qed.
  (** No AST marker is left in what expand returns, whatever macros and dialects do, in one phase or in several. *)
  Theorem C60_no_markers_left n (src : source code) f self s body s' : expand n src f self s = Some (Ok body, s') ->
    let m := Nd noloc "Module" [("body"%string, Ls body)] in wf m = true -> forall path x, node_at m path = Some x -> ismarker (kind_of x) = false.
  Proof.
    intros H m Hw. apply (C08_check_exact _ ismarker m Hw eq_refl).
    assert (K : forall bd s1, expand_tree f self bd s1 = (Ok body, s') -> check_no_markers_remaining ismarker m = Ok tt).
    { intros bd s1. unfold CompileModel.expand_tree. destruct (ismultiphase bd) as [[|]|]; [|apply single_checked|discriminate]. destruct self as [x|]; [|discriminate]. destruct (String.eqb x ""); [discriminate|].
      unfold multiphase_expand. destruct (detect_highest_phase bd) as [h|]; [|discriminate]. destruct (create_module _ _ _ _ _ _ _) as [[md|] s2]; [|discriminate].
      assert (K2 : forall ks, (match phases run_phase (singlephase f (Some x)) ks bd md s2 with (Err e, s3) => (Err e, s3) | (Ok (Some y), s3) => (Ok y, restore truthy x (sget x (m_sys s1)) s3) | (Ok None, s3) => (Err (mkExn "UnboundLocalError" []), restore truthy x (sget x (m_sys s1)) s3) end) = (Ok body, s') -> check_no_markers_remaining ismarker m = Ok tt).
      { intros ks. destruct (phases run_phase (singlephase f (Some x)) ks bd md s2) as [[[y|]|] s3] eqn:Ep; try discriminate. intros G. inversion G; subst. destruct (phases_single _ _ _ _ _ _ _ _ Ep) as (c & s0 & s4 & Es). exact (single_checked _ _ _ _ _ _ Es). }
      destruct h; [discriminate|apply K2|apply K2]. }
    unfold CompileModel.expand in H.
    assert (T : forall t, match transform_source parse_import load is_dialect instantiate transform_text n t s with None => None | Some (Err e, s1) => Some (Err e, s1)
      | Some (Ok t1, s1) => match parse t1 with Err _ => Some (Err (mkExn "ImportError" []), s1) | Ok body => Some (expand_tree f self body s1) end end = Some (Ok body, s') -> check_no_markers_remaining ismarker m = Ok tt).
    { intros t. destruct (transform_source _ _ _ _ _ n t s) as [[[t1|] s1]|]; try discriminate. destruct (parse t1) as [bd|]; [|discriminate]. intros G. inversion G. eapply K. eassumption. }
    destruct src as [t|b|bd|bd|t|c|]; try discriminate; [exact (T t H)|destruct (decode b) as [t|]; [exact (T t H)|discriminate]| |];
      (destruct (forallb isstmt bd); [|discriminate]; inversion H; eapply K; eassumption).
  Qed.

  (** Without phases, a program goes through these stages, in this order; each gets what the one before has returned. The module name is what relative macro-imports are resolved with. *)
  Theorem C60_stages n f self body s body' s' : Forall sane_import body -> (forall t, In t body -> ~ phase_import t) -> Forall (fun t => isstmt t = true) body ->
    expand n (SModule body) f self s = Some (Ok body', s') ->
    exists b1 ds s1 bd b2 s2 b3 s3, transform_ast f body s = (Ok (b1, ds), s1) /\ find_macros f self b1 s1 = (Ok (bd, b2), s2) /\ expand_macros f bd b2 s2 = (Ok b3, s3) /\
      postprocess f ds b3 s3 = (Ok body', s').
  Proof.
    intros Hs Hp Hst. destruct (C60_multiphase_mode body Hs) as (b & Hb & Hiff). destruct b; [destruct (proj1 Hiff eq_refl) as (t & Hin & Ht); exfalso; exact (Hp t Hin Ht)|].
    unfold CompileModel.expand, CompileModel.expand_tree. rewrite Hb. replace (forallb isstmt body) with true by (symmetry; apply forallb_forall; rewrite Forall_forall in Hst; exact Hst).
    intros H. assert (G : singlephase f self body s = (Ok body', s')) by congruence. clear H. unfold singlephase_expand, bind in G.
    destruct (transform_ast f body s) as [[[b1 ds]|] s1] eqn:E1; [|discriminate]. destruct (find_macros f self b1 s1) as [[[bd b2]|] s2] eqn:E2; [|discriminate].
    destruct (expand_macros f bd b2 s2) as [[b3|] s3] eqn:E3; [|discriminate]. destruct (postprocess f ds b3 s3) as [[b4|] s4] eqn:E4; [|discriminate].
    destruct (check_no_markers_remaining ismarker (Nd noloc "Module" [("body"%string, Ls b4)])) as [[]|]; [|discriminate]. inversion G; subst. do 8 eexists. eauto.
  Qed.
  (** A module that is not loaded, or something that is no module: run raises, and does nothing. *)
  Theorem C60_run_rejects n src s : (forall x, ~ In x (map fst (m_sys s)) -> run n src (MName x) s = Some (Err (mkExn "ModuleNotFoundError" []), s)) /\ run n src MOther s = Some (Err type_error, s).
  Proof.
    split; [|reflexivity]. intros x Hx. unfold CompileModel.run. apply sget_none in Hx. rewrite Hx. reflexivity.
  Qed.

  Lemma compile_effective f src src' : effective unparse f src src' -> forall n self s, (forall c, src <> SCode c) -> 
    compile_ n src f self s = match expand n src' f self s with
      | None => None | Some (Err e, s1) => Some (Err e, s1)
      | Some (Ok body, s1) => match getdocstring (Ls body) with Err e => Some (Err e, s1) | Ok doc => match pycompile body f with Ok c => Some (Ok (c, doc), s1) | Err e => Some (Err e, s1) end end end.
  Proof.
    intros H n self s Hc. unfold CompileModel.compile_.
    destruct H as [t|b|src Hp|body t Hp Hu|l t Hp Hu].
    - destruct (ends_with ".py" f); reflexivity.
    - destruct (ends_with ".py" f); reflexivity.
    - apply py_file_iff in Hp. rewrite Hp. reflexivity.
    - destruct (ends_with ".py" f) eqn:Ee; [apply py_file_iff in Ee; contradiction|]. rewrite Hu. reflexivity.
    - destruct (ends_with ".py" f) eqn:Ee; [apply py_file_iff in Ee; contradiction|]. rewrite Hu. reflexivity.
  Qed.

  (** compile returns what the built-in compile makes of the expanded program, and raises what expand raises. *)
  Theorem C60_compile n src src' f self s : effective unparse f src src' -> (forall c, src <> SCode c) ->
    (forall e s', expand n src' f self s = Some (Err e, s') -> compile n src f self s = Some (Err e, s')) /\
    (forall c s', compile n src f self s = Some (Ok c, s') -> exists body, expand n src' f self s = Some (Ok body, s') /\ pycompile body f = Ok c) /\
    (forall body s', expand n src' f self s = Some (Ok body, s') -> (forall e, getdocstring (Ls body) <> Err e) -> compile n src f self s = Some (pycompile body f, s')).
  Proof.
    intros H Hc. unfold CompileModel.compile. rewrite (compile_effective _ _ _ H n self s Hc). destruct (expand n src' f self s) as [[[body|e] s1]|]; (split; [|split]).
    - discriminate.
    - intros c s'. destruct (getdocstring (Ls body)); [|discriminate]. destruct (pycompile body f) as [c0|] eqn:Ep; [|discriminate]. intros G. inversion G; subst. eauto.
    - intros body' s' G Hd. inversion G; subst. destruct (getdocstring (Ls body')) as [d|e]; [|destruct (Hd e eq_refl)]. destruct (pycompile body' f); reflexivity.
    - intros e' s' G. inversion G; reflexivity.
    - discriminate.
    - discriminate.
    - discriminate.
    - discriminate.
    - discriminate.
  Qed.

  (** An AST that does not come from a file, and that survives unparsing and parsing, is expanded as it is, but for the source locations: if it contains no
      dialect-import. *)
  Theorem C60_dynamic_ast_partial n src body t body' f self s : src = SModule body \/ src = SList body -> ~ py_file f ->
    unparse src = Ok t -> parse t = Ok body' -> map bare body' = map bare body -> forallb isstmt body' = true -> finditer (list_ascii_of_string t) = [] ->
    (forall b s' e, expand (S n) (SModule body') f self s = Some (Ok b, s') -> getdocstring (Ls b) <> Err e) ->
    compile (S n) src f self s = match expand (S n) (SModule body') f self s with Some (Ok b, s') => Some (pycompile b f, s') | Some (Err e, s') => Some (Err e, s') | None => None end.
  Proof.
    intros Hs Hf Hu Hp Hb Hi Hd Hg.
    assert (Hex : expand (S n) (SText t) f self s = expand (S n) (SModule body') f self s).
    { unfold CompileModel.expand. assert (Ht : transform_source parse_import load is_dialect instantiate transform_text (S n) t s = Some (Ok t, s)).
      { unfold transform_source. cbn [transform_loop]. unfold find_source. cbn [snd]. rewrite Hd. cbn [first_unseen]. rewrite string_of_list_ascii_of_string. reflexivity. }
      rewrite Ht, Hp, Hi. reflexivity. }
    assert (He : effective unparse f src (SText t)) by (destruct Hs as [-> | ->]; constructor; assumption).
    assert (Hc : forall c, src <> SCode c) by (destruct Hs as [-> | ->]; discriminate).
    unfold CompileModel.compile. rewrite (compile_effective _ _ _ He (S n) self s Hc), Hex. destruct (expand (S n) (SModule body') f self s) as [[[b|e] s1]|]; [|reflexivity|reflexivity].
    destruct (getdocstring (Ls b)) as [d|e] eqn:Ed; [|destruct (Hg _ _ _ eq_refl Ed)]. destruct (pycompile b f); reflexivity.
  Qed.

  (** Text without dialect-imports is the program that it parses to; text that is no Python is refused with ImportError. Bytes are the text that they decode to. *)
  Theorem C60_text n t f self s : finditer (list_ascii_of_string t) = [] ->
    (forall body, parse t = Ok body -> forallb isstmt body = true -> expand (S n) (SText t) f self s = expand (S n) (SModule body) f self s) /\
    (forall e, parse t = Err e -> expand (S n) (SText t) f self s = Some (Err (mkExn "ImportError" []), s)).
  Proof.
    intros Hd. assert (Ht : transform_source parse_import load is_dialect instantiate transform_text (S n) t s = Some (Ok t, s)).
    { unfold transform_source. cbn [transform_loop]. unfold find_source. cbn [snd]. rewrite Hd. cbn [first_unseen]. rewrite string_of_list_ascii_of_string. reflexivity. }
    unfold CompileModel.expand. split; [intros body Hp Hi; rewrite Ht, Hp, Hi; reflexivity|intros e Hp; rewrite Ht, Hp; reflexivity].
  Qed.
  Theorem C60_bytes n b f self s :
    (forall t, decode b = Ok t -> expand n (SBytes b) f self s = expand n (SText t) f self s) /\ (forall e, decode b = Err e -> expand n (SBytes b) f self s = Some (Err e, s)).
  Proof. unfold CompileModel.expand. split; intros x ->; reflexivity. Qed.
  (** Multi-phase compilation needs the name of the module. *)
  Theorem C60_multiphase_needs_name n f self body s : Forall sane_import body -> (exists t, In t body /\ phase_import t) -> forallb isstmt body = true -> self = None \/ self = Some ""%string ->
    expand n (SModule body) f self s = Some (Err (mkExn "ValueError" []), s).
  Proof.
    intros Hs Hp Hi Hself. destruct (C60_multiphase_mode body Hs) as (b & Hb & Hiff). apply Hiff in Hp. subst b. unfold CompileModel.expand. rewrite Hi. unfold CompileModel.expand_tree. rewrite Hb.
    destruct Hself as [-> | ->]; reflexivity.
  Qed.

  (** expand refuses everything but text and lists of statements, before anything else happens. *)
  Theorem C60_expand_rejects n (src : source code) f self s : (match src with SText _ | SBytes _ => False | SModule l | SList l => exists x, In x l /\ isstmt x = false | _ => True end) ->
    exists e, expand n src f self s = Some (Err e, s) /\ e_cls e = "TypeError"%string.
  Proof.
    intros H. eexists (mkExn "TypeError" []). split; [|reflexivity]. destruct src as [t|b|l|l|t|c|]; try contradiction; try reflexivity;
      (destruct H as (x & Hin & Hx); unfold CompileModel.expand; destruct (forallb isstmt l) eqn:E; [|reflexivity]; rewrite (proj1 (forallb_forall _ _) E x Hin) in Hx; discriminate).
  Qed.

  (** ** run *)
  (** The module that is meant. *)
  Definition denotes (marg : modarg) (s : st) (m : nat) : Prop := marg = MMod m \/ exists x, marg = MName x /\ sget x (m_sys s) = Some m.
  Lemma run_denotes n src marg s m f x : denotes marg s m -> file_of m s = Some f -> name_of m s = Some x ->
    run n src marg s = match src with
      | SCode c => let (r, s3) := exec c m (set_doc m NoneT s) in Some (match r with Ok _ => Ok m | Err e => Err e end, s3)
      | _ => match compile_ n src f (Some x) s with None => None | Some (Err e, s2) => Some (Err e, s2)
             | Some (Ok (c, d), s2) => let (r, s3) := exec c m (set_doc m d s2) in Some (match r with Ok _ => Ok m | Err e => Err e end, s3) end end.
  Proof. intros [->|(y & -> & Hy)] Hf Hx; unfold CompileModel.run; [|rewrite Hy]; rewrite Hf, Hx; destruct src; reflexivity. Qed.
  Lemma doc_spec body d : (forall v, leading_constant body v -> exists z, v = At (AStr z)) -> getdocstring (Ls body) = Ok d ->
    (forall m fs r m' fs', body = Nd m "Expr" fs :: r -> getf "value" fs <> Some (Nd m' "Str" fs')) -> docstring body d.
  Proof.
    intros Hl Hd Hs. destruct body as [|[m k fs| |] r].
    - inversion Hd. apply ds_none. intros v (m & fs & m' & fs' & r & H & _). discriminate.
    - cbn [getdocstring] in Hd. destruct (String.eqb_spec k "Expr") as [->|Hk].
      + destruct (getf "value" fs) as [[m' k' fs'| |]|] eqn:Ev; [| | |discriminate].
        * destruct (String.eqb_spec k' "Constant") as [->|Hk'].
          -- destruct (getf "value" fs') as [v|] eqn:Ev'; [|discriminate]. inversion Hd; subst. assert (L : leading_constant (Nd m "Expr" fs :: r) d) by (exists m, fs, m', fs', r; auto). destruct (Hl d L) as [z ->]. constructor. exact L.
          -- destruct (String.eqb_spec k' "Str") as [->|]; [destruct (Hs _ _ _ m' fs' eq_refl Ev)|]. inversion Hd. apply ds_none. intros v (m1 & fs1 & m2 & fs2 & r1 & H1 & H2 & _). inversion H1; subst. rewrite Ev in H2. inversion H2; subst. congruence.
        * inversion Hd. apply ds_none. intros v (m1 & fs1 & m2 & fs2 & r1 & H1 & H2 & _). inversion H1; subst. rewrite Ev in H2. discriminate.
        * inversion Hd. apply ds_none. intros v (m1 & fs1 & m2 & fs2 & r1 & H1 & H2 & _). inversion H1; subst. rewrite Ev in H2. discriminate.
      + inversion Hd. apply ds_none. intros v (m1 & fs1 & m2 & fs2 & r1 & H1 & _). inversion H1; subst. congruence.
    - inversion Hd. apply ds_none. intros v (m1 & fs1 & m2 & fs2 & r1 & H1 & _). discriminate.
    - inversion Hd. apply ds_none. intros v (m1 & fs1 & m2 & fs2 & r1 & H1 & _). discriminate.
  Qed.

  (** Running a program in a module: it is expanded and compiled for the file and name of the module, then the docstring is set, then the code is executed in the
      module, once, and the module is returned. The docstring is that of the expanded program, if that does not begin with a constant that is no string. *)
  Theorem C60_run_partial n src src' marg s m f x body s1 c : denotes marg s m -> file_of m s = Some f -> name_of m s = Some x -> (forall c, src <> SCode c) ->
    effective unparse f src src' -> expand n src' f (Some x) s = Some (Ok body, s1) -> pycompile body f = Ok c ->
    (forall v, leading_constant body v -> exists z, v = At (AStr z)) -> (forall m fs r, body = Nd m "Expr" fs :: r -> exists v, getf "value" fs = Some v /\ (forall m' fs', v <> Nd m' "Str" fs') /\ (forall m' fs', v = Nd m' "Constant" fs' -> getf "value" fs' <> None)) ->
    exists d, docstring body d /\ forall r s2, exec c m (set_doc m d s1) = (r, s2) -> run n src marg s = Some (match r with Ok _ => Ok m | Err e => Err e end, s2).
  Proof.
    intros Hm Hf Hx Hc He Hex Hpc Hl Hsane. 
    assert (Hd : exists d, getdocstring (Ls body) = Ok d).
    { destruct body as [|[mm k fs| |] r]; try (eexists; reflexivity). cbn [getdocstring]. destruct (String.eqb_spec k "Expr") as [->|]; [|eexists; reflexivity]. destruct (Hsane _ _ _ eq_refl) as (v & Hv & Hs & Hcst). rewrite Hv.
      destruct v as [m' k' fs'| |]; try (eexists; reflexivity). destruct (String.eqb_spec k' "Constant") as [->|]; [specialize (Hcst _ _ eq_refl); destruct (getf "value" fs'); [eexists; reflexivity|congruence]|].
      destruct (String.eqb_spec k' "Str") as [->|]; [destruct (Hs m' fs' eq_refl)|eexists; reflexivity]. }
    destruct Hd as [d Hd]. exists d. split.
    - apply doc_spec; [exact Hl|exact Hd|]. intros mm fs r m' fs' -> E. destruct (Hsane _ _ _ eq_refl) as (v & Hv & Hs & _). rewrite Hv in E. inversion E; subst. exact (Hs m' fs' eq_refl).
    - intros r s2 Hr. rewrite (run_denotes n src marg s m f x Hm Hf Hx). rewrite (compile_effective _ _ _ He n (Some x) s Hc), Hex, Hd, Hpc, Hr. destruct src; try reflexivity. destruct (Hc c0 eq_refl).
  Qed.

  (** A code object: executed as it is, with the docstring None. *)
  Theorem C60_run_code n c marg (s : st) m f x : denotes marg s m -> file_of m s = Some f -> name_of m s = Some x -> forall r s2, exec c m (set_doc m NoneT s) = (r, s2) ->
    run n (SCode c) marg s = Some (match r with Ok _ => Ok m | Err e => Err e end, s2).
  Proof. intros Hm Hf Hx r s2 Hr. rewrite (run_denotes n (SCode c) marg s m f x Hm Hf Hx), Hr. reflexivity. Qed.

  (** If the program cannot be expanded or compiled, nothing is executed, and the docstring stays. *)
  Theorem C60_run_failure n src marg s m f x e s1 : denotes marg s m -> file_of m s = Some f -> name_of m s = Some x -> (forall c, src <> SCode c) ->
    compile n src f (Some x) s = Some (Err e, s1) -> run n src marg s = Some (Err e, s1).
  Proof.
    intros Hm Hf Hx Hc H. rewrite (run_denotes n src marg s m f x Hm Hf Hx). unfold CompileModel.compile in H. destruct (compile_ n src f (Some x) s) as [[[[c d]|e'] s2]|]; try discriminate.
    inversion H; subst. destruct src; try reflexivity. destruct (Hc c eq_refl).
  Qed.

  (** Without a module: a new one, entered in sys.modules under a new name, before the program is expanded and run in it; nothing else changes in sys.modules. *)
  Theorem C60_run_new_module n (src : source code) (s : st) : top_level (gen (m_uuid s)) -> exists m (s1 : st), m = m_next s /\ m_user s1 = m_user s /\ m_attr s1 = m_attr s /\
    (forall y, sget y (m_sys s1) = if String.eqb y (gen (m_uuid s)) then Some m else sget y (m_sys s)) /\ run n src MNone s = run n src (MMod m) s1.
  Proof.
    intros Ht. destruct (create_module isidentifier truthy gen ArgNone ArgNone true s) as [r s1] eqn:Ec.
    assert (Hr : exists s1', create_module isidentifier truthy gen ArgNone ArgNone true s = (Ok (m_next s), s1')).
    { apply (C40_create_module_succeeds isidentifier truthy gen ArgNone ArgNone true s (gen (m_uuid s))); [reflexivity|exact I|]. intros pkg final [E1 _]. exfalso. apply Ht. rewrite E1. clear. induction pkg; cbn; auto. }
    destruct Hr as [s1' Hr]. rewrite Ec in Hr. inversion Hr; subst. destruct (C40_create_module_success isidentifier truthy gen _ _ _ _ _ _ Ec) as (_ & Hu & x & Hx & _ & Hs & _). cbn in Hx. subst x.
    assert (Ha : m_attr s1' = m_attr s). { unfold create_module in Ec. cbn in Ec. rewrite (top_rsplit _ Ht) in Ec. inversion Ec. reflexivity. }
    exists (m_next s), s1'. repeat split; auto. unfold CompileModel.run. rewrite Ec. reflexivity.
  Qed.
End Statements.
Print Assumptions C60_no_markers_left.
Print Assumptions C60_stages.
Print Assumptions C60_run_rejects.
Print Assumptions C60_compile.
Print Assumptions C60_dynamic_ast_partial.
Print Assumptions C60_expand_rejects.
Print Assumptions C60_text.
Print Assumptions C60_bytes.
Print Assumptions C60_multiphase_needs_name.
Print Assumptions C60_run_partial.
Print Assumptions C60_run_code.
Print Assumptions C60_run_failure.
Print Assumptions C60_run_new_module.

(** ** Examples *)
(** The rest of the process: docstrings of modules, and what happened. *)
Record z_user : Type := mkZ { z_docs : list (nat * ltree); z_log : list string }.
Definition z_set (f : z_user -> z_user) (s : mst z_user) : mst z_user := mkMst (m_sys s) (m_attr s) (m_next s) (m_uuid s) (f (m_user s)).
Definition z_say (x : string) : mst z_user -> mst z_user := z_set (fun u => mkZ (z_docs u) (z_log u ++ [x])).
Definition z_const (a : atom) : ltree := Nd noloc "Expr" [("value"%string, Nd noloc "Constant" [("value"%string, At a)])].
Definition z_name : ltree := Nd noloc "Expr" [("value"%string, Nd noloc "Name" [("id"%string, At (AStr "x"))])].
Definition z_import : ltree := Nd noloc "ImportFrom" [("module"%string, At (AStr "lib")); ("names"%string, Ls [Nd noloc "alias" [("name"%string, At (AStr "dialects")); ("asname"%string, At ANone)]; Nd noloc "alias" [("name"%string, At (AStr "D")); ("asname"%string, At ANone)]]); ("level"%string, At (AInt 0))].
Definition z_parse (t : string) : res (list ltree) :=
  if String.eqb t "42" then Ok [z_const (AInt 42)] else if String.eqb t "'doc'; x" then Ok [z_const (AStr "doc"); z_name] else if String.eqb t "x" then Ok [z_name]
  else if String.eqb t "from lib import dialects, D" then Ok [z_import] else Err (mkExn "SyntaxError" []).
Definition z_unparse (src : source (list ltree)) : res string :=
  match src with
  | SModule [Nd _ "ImportFrom" _] => Ok "from lib import dialects, D"%string
  | SModule [Nd _ "Expr" _; _] | SList [Nd _ "Expr" _; _] => Ok "'doc'; x"%string
  | SNode (Nd _ "Name" _) | SList [Nd _ "Name" _] => Ok "x"%string
  | _ => Err (mkExn "UnparserError" [])
  end.
Definition z_stmt (t : ltree) : bool := match t with Nd _ k _ => String.eqb k "Expr" || String.eqb k "ImportFrom" | _ => false end.
Definition z_load (i : imp) (s : mst z_user) : res (option string * list (string * unit)) * mst z_user := (Ok (Some "lib"%string, [("D"%string, tt)]), s).
Definition z_text (d : unit) : option (list ascii -> mst z_user -> res (tresult (list ascii)) * mst z_user) := Some (fun t s => (Ok (TContent t), z_say "source transformer" s)).
Definition z_file (m : nat) (s : mst z_user) : option string := match m with 1 => Some "f.py"%string | 3 => None | _ => Some "<dynamically created module>"%string end.
Definition z_exec (c : list ltree) (m : nat) (s : mst z_user) : res unit * mst z_user := (Ok tt, z_say "exec" s).
Definition z_expand := expand (fun _ => true) (fun _ => true) (fun _ => "dyn"%string) (fun b => Ok b) z_parse z_stmt (fun _ => Ok (mkImp (Some "lib"%string) [] 0)) z_load (fun _ => true) (fun _ s => (Ok tt, s)) z_text
  (fun _ b s => (Ok (b, []), s)) (fun _ _ b s => (Ok (tt, b), s)) (fun _ _ b s => (Ok b, s)) (fun _ _ b s => (Ok b, s)) (fun k => String.eqb k "Done") (fun _ _ s => (Ok tt, s)) (code := list ltree).
Definition z_compile := compile (fun _ => true) (fun _ => true) (fun _ => "dyn"%string) (fun b => Ok b) z_parse (fun b _ => Ok b) z_stmt z_unparse (fun _ => Ok (mkImp (Some "lib"%string) [] 0)) z_load (fun _ => true) (fun _ s => (Ok tt, s)) z_text
  (fun _ b s => (Ok (b, []), s)) (fun _ _ b s => (Ok (tt, b), s)) (fun _ _ b s => (Ok b, s)) (fun _ _ b s => (Ok b, s)) (fun k => String.eqb k "Done") (fun _ _ s => (Ok tt, s)).
Definition z_run := run (fun _ => true) (fun _ => true) (fun _ => "dyn"%string) (fun b => Ok b) z_parse (fun b _ => Ok b) z_stmt z_unparse (fun _ => Ok (mkImp (Some "lib"%string) [] 0)) z_load (fun _ => true) (fun _ s => (Ok tt, s)) z_text
  (fun _ b s => (Ok (b, []), s)) (fun _ _ b s => (Ok (tt, b), s)) (fun _ _ b s => (Ok b, s)) (fun _ _ b s => (Ok b, s)) (fun k => String.eqb k "Done")
  z_file (fun _ _ => Some "m"%string) (fun m d => z_set (fun u => mkZ ((m, d) :: z_docs u) (z_log u))) z_exec (fun _ _ s => (Ok tt, s)).
Definition z_st : mst z_user := mkMst [("m"%string, 1); ("sys"%string, 3)] [] 5 0 (mkZ [] []).
(** A quoted program with a docstring, run in a new module. *)
Example C60_example : exists s, z_run 3 (SList [z_const (AStr "doc"); z_name]) MNone z_st = Some (Ok 5, s) /\ m_user s = mkZ [(5, At (AStr "doc"))] ["exec"%string] /\ sget "dyn" (m_sys s) = Some 5.
Proof. eexists. split; [vm_compute; reflexivity|]. split; reflexivity. Qed.
(** An AST marker (Done) that is left is refused. *)
Example C60_example_marker : z_expand 3 (SModule [Nd noloc "Expr" [("value"%string, Nd noloc "Done" [("body"%string, z_name)])]]) "f.py" None z_st = Some (Err (mkExn "MacroExpansionError" []), z_st).
Proof. vm_compute. reflexivity. Qed.
(** from mcpyrate.multiphase import macros, phase as p; and the same with another module. *)
Definition z_mimport (m : string) : ltree := Nd noloc "ImportFrom" [("module"%string, At (AStr m)); ("names"%string, Ls [Nd noloc "alias" [("name"%string, At (AStr "macros")); ("asname"%string, At ANone)]; Nd noloc "alias" [("name"%string, At (AStr "phase")); ("asname"%string, At (AStr "p"))]]); ("level"%string, At (AInt 0))].
Example C60_example_multiphase : ismultiphase [z_name; z_mimport "mcpyrate.multiphase"] = Ok true /\ ismultiphase [z_name; z_mimport "lib"] = Ok false /\ Forall sane_import [z_name; z_mimport "mcpyrate.multiphase"].
Proof. split; [reflexivity|]. split; [reflexivity|]. constructor; [intros i H; discriminate|]. constructor; [|constructor]. intros i H. vm_compute in H. inversion H. discriminate. Qed.

Example C60_example_text : finditer (list_ascii_of_string "x") = [] /\ z_expand 3 (SText "x") "f.py" None z_st = Some (Ok [z_name], z_st) /\ z_expand 3 (SBytes "x") "f.py" None z_st = Some (Ok [z_name], z_st) /\
  z_expand 3 (SText "x x") "f.py" None z_st = Some (Err (mkExn "ImportError" []), z_st) /\ z_expand 3 (SModule [z_mimport "mcpyrate.multiphase"]) "f.py" None z_st = Some (Err (mkExn "ValueError" []), z_st).
Proof. repeat split; vm_compute; reflexivity. Qed.

(** ** Refuted *)
(** The docstring is documented to be a string, or None: after running the text 42 it is the number 42. *)
Theorem C60_docstring_refuted : exists s, z_run 3 (SText "42") (MMod 1) z_st = Some (Ok 1, s) /\ z_docs (m_user s) = [(1, At (AInt 42))].
Proof. eexists. split; [vm_compute; reflexivity|]. reflexivity. Qed.
Print Assumptions C60_docstring_refuted.
(** Dialect source transformers are documented to be used for text only: they are used for an AST, too, when the file name does not end in .py; expand (which does
    not use them) followed by the built-in compile has another effect than compile. *)
Theorem C60_source_transformer_refuted : exists s s', z_compile 3 (SModule [z_import]) "<string>" None z_st = Some (Ok [z_import], s) /\ z_log (m_user s) = ["source transformer"%string] /\
  z_expand 3 (SModule [z_import]) "<string>" None z_st = Some (Ok [z_import], s') /\ z_log (m_user s') = [].
Proof. eexists _, _. split; [vm_compute; reflexivity|]. split; [reflexivity|]. split; [vm_compute; reflexivity|]. reflexivity. Qed.
Print Assumptions C60_source_transformer_refuted.
(** What is no list of statements is documented to be refused: compile and run accept it, when the file name does not end in .py. *)
Theorem C60_compile_rejects_refuted : exists x e, z_stmt x = false /\
  z_expand 3 (SNode x) "<string>" None z_st = Some (Err e, z_st) /\ z_compile 3 (SNode x) "<string>" None z_st = Some (Ok [z_name], z_st) /\
  z_expand 3 (SList [x]) "<string>" None z_st = Some (Err e, z_st) /\ z_compile 3 (SList [x]) "<string>" None z_st = Some (Ok [z_name], z_st).
Proof. exists (Nd noloc "Name" [("id"%string, At (AStr "x"))]). eexists. split; [reflexivity|]. repeat split; vm_compute; reflexivity. Qed.
Print Assumptions C60_compile_rejects_refuted.
(** A dotted name in sys.modules is documented to be enough: a module without __file__, such as sys, is refused with an AttributeError. *)
Theorem C60_no_file_refuted : exists e, sget "sys" (m_sys z_st) = Some 3 /\ z_run 3 (SText "x") (MName "sys") z_st = Some (Err e, z_st) /\ e_cls e = "AttributeError"%string.
Proof. eexists. repeat split; vm_compute; reflexivity. Qed.
Print Assumptions C60_no_file_refuted.
