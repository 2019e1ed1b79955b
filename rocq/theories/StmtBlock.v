(** The lines of a covered statement are read as the statement: compound statements. *)
From Verif Require Import Base UnparseModel PyGrammar PyStmt UnparseSpec StmtSpec UnparseLex UnparseToks UnparseText UnparseParse StmtToks StmtParse StmtWith StmtPat.
Open Scope string_scope.
Open Scope list_scope.

Ltac cb := cbn [opq kwq String.eqb Ascii.eqb Bool.eqb].

Section Block.
  Variable read : string -> string.
  Notation ok := (ok read).
  Notation ok_stmt := (ok_stmt read).
  Notation IH0 := (fun e (_ : size e < _) => parse_ok read e).

  (** ** Heads *)
  Lemma targets_ok t rest : ok t = true -> is_target t = true -> E (fun n => p_targets n (toks t ++ TKw "in" :: rest)) (Some (t, TKw "in" :: rest)).
  Proof.
    intros Ho Ht. unfold p_targets. estep (list_one KTarget (stops LPrim) (toks t) (IExpr t) (TKw "in" :: rest) (target_item read t Ho Ht) eq_refl eq_refl). cbn [exprs_of tuple_or_single].
    rewrite (ok_not_starred read t Ho). apply E_const.
  Qed.
  Lemma decos_ok ds rest : forallb ok ds = true -> opq "@" rest = None -> E (fun n => p_decos n (flat_map (fun e => deco_toks e ++ [TNewline]) ds ++ rest)) (Some (ds, rest)).
  Proof.
    intros Ho Hr. induction ds as [|d ds IH].
    - apply E_S. cbn [flat_map app p_decos]. rewrite Hr. apply E_const.
    - cbn [forallb] in Ho. apply andb_true_iff in Ho as [Od Ho]. cbn [flat_map]. unfold deco_toks at 1. cbn [app]. rewrite <- !app_assoc. cbn [app].
      apply E_S. cbn [p_decos]. cb. estep (reads_at read d LNamed (TNewline :: flat_map (fun e => deco_toks e ++ [TNewline]) ds ++ rest) Od eq_refl). cbn [nlq]. estep (IH Ho). apply E_const.
  Qed.
  Lemma defhead_ok x a r rest : ok_args read true a = true -> ok_o read r = true ->
    E (fun n => p_defhead n (TId x :: TOp "(" :: toks_args a ++ TOp ")" :: opt_toks (fun r => TOp "->" :: toks r) r ++ TOp ":" :: rest)) (Some (x, [], a, r, rest)).
  Proof.
    intros Oa Or. unfold p_defhead, p_tps. cbn [idq]. cb. set (R := opt_toks (fun r => TOp "->" :: toks r) r ++ TOp ":" :: rest).
    destruct (params_ok read (S (size_args a)) IH0 true a (TOp ")" :: R) ltac:(lia) Oa eq_refl eq_refl (bad_list ")" R (KParam true) eq_refl eq_refl)) as (its & Hl & Hb).
    estep Hl. rewrite Hb. cb. unfold R. destruct r as [r|]; cbn [opt_toks app]; cb; [|apply E_const]. estep (reads_at read r LExpr (TOp ":" :: rest) Or eq_refl). cb. apply E_const.
  Qed.
  Lemma classhead_ok x bases kws rest : forallb (ok_star read) bases = true -> forallb (ok_kw read) kws = true ->
    E (fun n => p_classhead n (TId x :: match bases, kws with [], [] => [] | _, _ => op "(" ++ commas (map toks bases ++ map toks_kw kws) ++ op ")" end ++ TOp ":" :: rest)) (Some (x, [], bases, kws, rest)).
  Proof.
    intros Ob Ok. unfold p_classhead, p_tps. cbn [idq].
    assert (C : (bases = [] /\ kws = []) \/ (match bases, kws with [], [] => [] | _, _ => op "(" ++ commas (map toks bases ++ map toks_kw kws) ++ op ")" end = op "(" ++ commas (map toks bases ++ map toks_kw kws) ++ op ")"
        /\ nonempty (map IExpr bases ++ map (fun k => match k with Kw (Some x) e => IKw x e | Kw None e => IDstar e end) kws) = true)) by (destruct bases, kws; auto).
    destruct C as [[-> ->]|[-> NE]]; [exists 0; reflexivity|]. unfold op, commas. cbn [app]. rewrite <- app_assoc. cbn [app]. cb.
    set (its := map IExpr bases ++ map (fun k => match k with Kw (Some x) e => IKw x e | Kw None e => IDstar e end) kws) in *.
    set (N := S (list_sum (map size bases) + list_sum (map size_kw kws))).
    assert (HF : Forall2 (RI KArg fi) (map toks bases ++ map toks_kw kws) its).
    { apply Forall2_app; [apply (items_ok read N); auto; [apply item_arg; exact IH0|lia]|].
      apply Forall2_maps. apply forallb_Forall_In in Ok. eapply Forall_impl; [|exact Ok]. cbn beta. intros k [Okk Hk]. apply (item_kw read N IH0); auto. apply (sum_in size_kw) in Hk. lia. }
    assert (CA := call_args_ok read bases kws Ob). fold its in CA.
    estep (list_ok KArg fi _ its (TOp ")" :: TOp ":" :: rest) (fun _ => eq_refl) HF NE eq_refl eq_refl). rewrite CA. cb. apply E_const.
  Qed.

  (** ** What may follow a statement *)
  Definition follow (ts : list tok) : bool := isn (kwq "elif" ts) && isn (indentq ts) && isn (kwq "else" ts) && isn (kwq "except" ts) && isn (kwq "finally" ts).
  Lemma follow_begins ts : begins atom1 ts = true -> follow ts = true.
  Proof. intros H. unfold follow. rewrite !begins_kw by auto. destruct ts as [|[] ts]; try discriminate; reflexivity. Qed.
  Lemma follow_indent ts : follow ts = true -> indentq ts = None.
  Proof. destruct ts as [|[] ts]; try reflexivity. discriminate. Qed.
  Lemma ltoks_follow s rest : ok_stmt s = true -> follow (ltoks "if" s ++ rest) = true.
  Proof.
    intros Ho. destruct s as [e|l0|module names level|targets v|t a v simple|t o v|e| | | |l|t m|l|l|e c|star body handlers orelse finalbody|x tps bases kws body decorators
        |is_async x tps args body decorators returns|is_async t iter body orelse|t body orelse|t body orelse|is_async items body|e cs|x tps v]; cbn [StmtSpec.ok_stmt] in Ho; try discriminate; try reflexivity;
        cbn [ltoks head_toks]; rewrite <- ?app_assoc.
    - apply follow_begins, begins_app. eapply toks_begin; eauto.
    - apply andb_true_iff in Ho as [Ho Ov]. apply andb_true_iff in Ho as [Hn Ot]. apply follow_begins. eapply hd_atom; eauto.
    - apply andb_true_iff in Ho as [Ho _]. apply andb_true_iff in Ho as [Ho _]. apply andb_true_iff in Ho as [Ho _]. destruct simple; [|reflexivity]. cbn [app]. apply follow_begins, begins_app. eapply toks_begin; eauto.
    - apply andb_true_iff in Ho as [Ho _]. apply andb_true_iff in Ho as [Ho _]. apply follow_begins, begins_app. eapply toks_begin; eauto.
    - destruct decorators; reflexivity.
    - destruct decorators, is_async; reflexivity.
    - destruct is_async; reflexivity.
    - destruct is_async; reflexivity.
  Qed.
  Definition ended (ts : list tok) : bool := match ts with [] | TDedent :: _ => true | _ => false end.
  Lemma ended_none ts n : ended ts = true -> p_stmt n ts = None.
  Proof.
    intros H. assert (D : dead ts = true) by (destruct ts as [|[]]; try discriminate; reflexivity).
    assert (I : forall n, p_list n KStarExpr ts = ([], false, ts)).
    { intros [|m]; [reflexivity|]. cbn [p_list]. destruct m; [reflexivity|]. cbn [p_item]. replace (opq "*" ts) with (@None (list tok)) by (destruct ts as [|[]]; try discriminate; reflexivity). now rewrite dead_none. }
    assert (S : forall n, p_simples n ts = None).
    { intros [|m]; [reflexivity|]. cbn [p_simples]. replace (p_simple m ts) with (p_exprstmt m ts) by (destruct ts as [|[]]; try discriminate; reflexivity).
      unfold p_exprstmt, p_stars. now rewrite I. }
    destruct n; [reflexivity|]. destruct ts as [|[]]; try discriminate; cbn [p_stmt]; apply S.
  Qed.
  Lemma ended_follow ts : ended ts = true -> follow ts = true.
  Proof. destruct ts as [|[]]; try discriminate; reflexivity. Qed.

  (** ** The claim *)
  Definition P (s : stmt) : Prop := forall rest, follow rest = true -> E (fun n => p_stmt n (ltoks "if" s ++ rest)) (Some ([s], rest)).
  Definition is_if (s : stmt) : bool := match s with SIf _ _ _ => true | _ => false end.
  Definition Pelif (s : stmt) : Prop := is_if s = true -> forall rest, follow rest = true -> E (fun n => p_elif n (ltoks "elif" s ++ rest)) (Some ([s], rest)).

  Lemma stmts_ok l rest : Forall (fun s => P s /\ ok_stmt s = true) l -> ended rest = true -> E (fun n => p_stmts n (flat_map (ltoks "if") l ++ rest)) (l, rest).
  Proof.
    intros H Hr. induction H as [|s l [Hs Os] H IH].
    - apply E_S. cbn [flat_map app p_stmts]. exists 0. intros n _. now rewrite ended_none.
    - cbn [flat_map]. rewrite <- app_assoc. apply E_S. cbn [p_stmts].
      assert (F : follow (flat_map (ltoks "if") l ++ rest) = true).
      { destruct H as [|s' l [_ Os'] H]; [now apply ended_follow|]. cbn [flat_map]. rewrite <- app_assoc. now apply ltoks_follow. }
      estep (Hs _ F). estep IH. apply E_const.
  Qed.
  Definition block (l : list stmt) : list tok := TNewline :: TIndent :: flat_map (ltoks "if") l ++ [TDedent].
  Definition part (k : string) (l : list stmt) : list tok := match l with [] => [] | _ => [TKw k; TOp ":"] ++ block l end.
  Lemma block_ok l rest : Forall (fun s => P s /\ ok_stmt s = true) l -> nonempty l = true -> E (fun n => p_block n (block l ++ rest)) (Some (l, rest)).
  Proof.
    intros H Hn. apply E_S. unfold block. cbn [app p_block nlq indentq]. rewrite <- app_assoc. cbn [app]. estep (stmts_ok l (TDedent :: rest) H eq_refl). destruct l; [discriminate|]. cbn [dedentq]. apply E_const.
  Qed.
  Lemma else_ok l rest : Forall (fun s => P s /\ ok_stmt s = true) l -> kwq "else" rest = None -> E (fun n => p_else n (part "else" l ++ rest)) (Some (l, rest)).
  Proof.
    intros H Hr. apply E_S. cbn [p_else]. destruct l as [|s l]; [cbn [part app]; rewrite Hr; apply E_const|].
    unfold part. cbn [app]. cb. assert (X := block_ok (s :: l) rest H eq_refl). estep X. apply E_const.
  Qed.
  Lemma finally_ok l rest : Forall (fun s => P s /\ ok_stmt s = true) l -> kwq "finally" rest = None -> E (fun n => p_finally n (part "finally" l ++ rest)) (Some (l, rest)).
  Proof.
    intros H Hr. apply E_S. cbn [p_finally]. destruct l as [|s l]; [cbn [part app]; rewrite Hr; apply E_const|].
    unfold part. cbn [app]. cb. assert (X := block_ok (s :: l) rest H eq_refl). estep X. apply E_const.
  Qed.
  Definition ors (o : list stmt) : list tok := match o with [SIf _ _ _] => flat_map (ltoks "elif") o | _ => part "else" o end.
  Lemma elif_ok o rest : Forall (fun s => P s /\ ok_stmt s = true) o -> Forall Pelif o -> follow rest = true -> E (fun n => p_elif n (ors o ++ rest)) (Some (o, rest)).
  Proof.
    intros H He Hf. assert (Hf' := Hf). unfold follow in Hf'. apply andb_true_iff in Hf' as [Hf' _]. apply andb_true_iff in Hf' as [Hf' _]. apply andb_true_iff in Hf' as [F1 F2]. apply andb_true_iff in F1 as [F1 _]. apply isn_None in F1, F2.
    assert (X : ors o = part "else" o \/ exists s, o = [s] /\ is_if s = true /\ ors o = ltoks "elif" s).
    { destruct o as [|s [|]]; [now left| |left; destruct s; reflexivity]. destruct s; try (now left). right. eexists. split; [reflexivity|]. split; [reflexivity|]. unfold ors. cbn [flat_map]. apply app_nil_r. }
    destruct X as [->|(s & -> & Hs & ->)].
    - apply E_S. cbn [p_elif]. replace (kwq "elif" (part "else" o ++ rest)) with (@None (list tok)) by (destruct o; [symmetry; exact F1|reflexivity]). now apply else_ok.
    - inversion He; subst. auto.
  Qed.
  Definition Ph (star : bool) (h : handler) : Prop := match h with Handler _ _ b => Forall (fun s => P s /\ ok_stmt s = true) b end.
  Lemma handlers_ok star hs rest : Forall (Ph star) hs -> forallb (ok_handler read star) hs = true -> kwq "except" rest = None ->
    E (fun n => p_handlers n star (flat_map (hltoks star) hs ++ rest)) (Some (hs, rest)).
  Proof.
    intros H Ho Hr. induction H as [|[t x b] hs Hb H IH].
    - apply E_S. cbn [flat_map app p_handlers]. rewrite Hr. apply E_const.
    - cbn [forallb StmtSpec.ok_handler] in Ho. apply andb_true_iff in Ho as [Oh Ho]. apply andb_true_iff in Oh as [Oh Ob]. apply andb_true_iff in Oh as [Ot Hn].
      specialize (IH Ho). cbn [flat_map]. set (T := flat_map (hltoks star) hs ++ rest) in *.
      assert (EQ : (hltoks star (Handler t x b) ++ flat_map (hltoks star) hs) ++ rest =
        TKw "except" :: (if star then [TOp "*"] else []) ++ opt_toks toks t ++ opt_toks (fun x => [TKw "as"; TId x]) x ++ TOp ":" :: block b ++ T).
      { unfold T, block. cbn [hltoks handler_toks]. unfold op. destruct star; cbn [app]; rewrite <- !app_assoc; cbn [app]; rewrite <- !app_assoc; reflexivity. }
      rewrite EQ. apply E_S. cbn [p_handlers]. cb.
      set (B := TOp ":" :: block b ++ T).
      assert (X : E (fun n => match opq ":" (opt_toks toks t ++ opt_toks (fun x => [TKw "as"; TId x]) x ++ B) with
          | Some _ => if star then None else Some (None, None, opt_toks toks t ++ opt_toks (fun x => [TKw "as"; TId x]) x ++ B)
          | None => let? (e, r2) := p n LExpr (opt_toks toks t ++ opt_toks (fun x => [TKw "as"; TId x]) x ++ B) in let? (x, r3) := p_as r2 in Some (Some e, x, r3) end) (Some (t, x, B))).
      { destruct t as [t|]; cbn [opt_toks].
        - apply andb_true_iff in Ot as [Ot Hx]. rewrite (toks_op read) by auto.
          estep (reads_at read t LExpr (opt_toks (fun x => [TKw "as"; TId x]) x ++ B) Ot ltac:(destruct x; reflexivity)). rewrite as_ok by reflexivity. apply E_const.
        - destruct star; [discriminate|]. destruct x; [discriminate|]. cbn [opt_toks app]. unfold B. cb. apply E_const. }
      assert (S : (if star then opq "*" ((if star then [TOp "*"] else []) ++ opt_toks toks t ++ opt_toks (fun x => [TKw "as"; TId x]) x ++ B)
        else match opq "*" ((if star then [TOp "*"] else []) ++ opt_toks toks t ++ opt_toks (fun x => [TKw "as"; TId x]) x ++ B) with Some _ => None
          | None => Some ((if star then [TOp "*"] else []) ++ opt_toks toks t ++ opt_toks (fun x => [TKw "as"; TId x]) x ++ B) end)
        = Some (opt_toks toks t ++ opt_toks (fun x => [TKw "as"; TId x]) x ++ B)).
      { destruct star; cbn [app]; [reflexivity|]. destruct t as [t|]; cbn [opt_toks].
        - apply andb_true_iff in Ot as [Ot Hx]. now rewrite (toks_op read) by auto.
        - destruct x; [discriminate|]. reflexivity. }
      rewrite S. estep X. unfold B. cb. estep (block_ok b T Hb Hn). estep IH. apply E_const.
  Qed.

  Definition Pc (c : mcase) : Prop := match c with Case _ _ b => Forall (fun s => P s /\ ok_stmt s = true) b end.
  Lemma cases_ok cs rest : Forall Pc cs -> forallb (ok_case read) cs = true -> E (fun n => p_cases n (flat_map cltoks cs ++ TDedent :: rest)) (Some (cs, TDedent :: rest)).
  Proof.
    intros H Ho. induction H as [|[p g b] cs Hb H IH].
    - apply E_S. cbn [flat_map app p_cases]. apply E_const.
    - cbn [forallb StmtSpec.ok_case] in Ho. apply andb_true_iff in Ho as [Oc Ho]. apply andb_true_iff in Oc as [Oc Ob]. apply andb_true_iff in Oc as [Oc Hn]. apply andb_true_iff in Oc as [Op Og].
      specialize (IH Ho). cbn [flat_map]. set (T := flat_map cltoks cs ++ TDedent :: rest) in *. set (par := match g with Some _ => is_or p | None => false end).
      assert (EQ : (cltoks (Case p g b) ++ flat_map cltoks cs) ++ TDedent :: rest = TId "case" :: ((if par then op "(" else []) ++ ptoks p ++ (if par then op ")" else [])) ++
        opt_toks (fun g => TKw "if" :: toks g) g ++ TOp ":" :: block b ++ T).
      { unfold T, block. cbn [cltoks case_toks]. fold par. repeat (rewrite <- ?app_assoc; cbn [app op]). reflexivity. }
      rewrite EQ. apply E_S. cbn [p_cases String.eqb Ascii.eqb Bool.eqb].
      assert (G := guard_ok read g (block b ++ T) Og).
      estep (patterns_ok read p par (opt_toks (fun g => TKw "if" :: toks g) g ++ TOp ":" :: block b ++ T) Op ltac:(destruct g; reflexivity) ltac:(destruct g; reflexivity)).
      estep G. cb. estep (block_ok b T Hb Hn). estep IH. apply E_const.
  Qed.
  Lemma Forall_of (l : list stmt) N : (forall s, ssize s < N -> ok_stmt s = true -> P s /\ Pelif s) -> list_sum (map ssize l) < N -> forallb ok_stmt l = true ->
    Forall (fun s => P s /\ ok_stmt s = true) l /\ Forall Pelif l.
  Proof.
    intros IH Hs Ho. apply forallb_Forall_In in Ho. split; (eapply Forall_impl; [|exact Ho]); cbn beta; intros s [Os Is]; apply (sum_in ssize) in Is; destruct (IH s ltac:(lia) Os); auto.
  Qed.
  Lemma if_ok t b o kw rest : ok t = true -> nonempty b = true -> Forall (fun s => P s /\ ok_stmt s = true) b -> Forall (fun s => P s /\ ok_stmt s = true) o -> Forall Pelif o -> follow rest = true ->
    ltoks kw (SIf t b o) ++ rest = TKw kw :: toks t ++ TOp ":" :: block b ++ ors o ++ rest /\
    E (fun n => let? (t', r1) := p n LNamed (toks t ++ TOp ":" :: block b ++ ors o ++ rest) in let? r2 := opq ":" r1 in let? (b', r3) := p_block n r2 in
       let? (o', r4) := p_elif n r3 in Some ([SIf t' b' o'], r4)) (Some ([SIf t b o], rest)).
  Proof.
    intros Ot Hn Hb Ho He Hf. split.
    - assert (X : ltoks kw (SIf t b o) = TKw kw :: (toks t ++ op ":") ++ block b ++ ors o) by reflexivity. rewrite X. unfold op. cbn [app]. rewrite <- !app_assoc. reflexivity.
    - estep (reads_at read t LNamed (TOp ":" :: block b ++ ors o ++ rest) Ot eq_refl). cb. estep (block_ok b (ors o ++ rest) Hb Hn). estep (elif_ok o rest Ho He Hf). apply E_const.
  Qed.

  Lemma with_async (a : bool) n ts : p_stmt (S n) ((if a then [TKw "async"] else []) ++ TKw "with" :: ts) = p_withs n a ts.
  Proof. destruct a; reflexivity. Qed.
  Lemma for_async (a : bool) n ts : p_stmt (S n) ((if a then [TKw "async"] else []) ++ TKw "for" :: ts) = p_for n a ts.
  Proof. destruct a; reflexivity. Qed.
  Lemma deco_head ds rest : exists r, nonempty ds = true -> flat_map (fun e => deco_toks e ++ [TNewline]) ds ++ rest = TOp "@" :: r.
  Proof. destruct ds; [exists []; discriminate|]. eexists. intros _. cbn [flat_map]. unfold deco_toks at 1. cbn [app]. reflexivity. Qed.

  Theorem stmt_step N s : (forall s, ssize s < N -> ok_stmt s = true -> P s /\ Pelif s) -> ssize s <= N -> ok_stmt s = true -> P s /\ Pelif s.
  Proof.
    intros IH Hs Ho.
    assert (SIMPLE : is_simple s = true -> P s).
    { intros Hi rest Hr. apply follow_indent in Hr. assert (X : ltoks "if" s ++ rest = head_toks "if" s ++ TNewline :: rest) by (destruct s; try discriminate; cbn [ltoks]; now rewrite <- app_assoc).
      rewrite X. now apply (simple_stmt read). }
    destruct s as [e|l0|module names level|targets v|t a v simple|t o v|e| | | |l|t m|l|l|e c|star body handlers orelse finalbody|x tps bases kws body decorators
        |is_async x tps args body decorators returns|is_async t iter body orelse|t body orelse|t body orelse|is_async items body|e cs|x tps v]; try discriminate;
      try (split; [now apply SIMPLE|intros H; discriminate]); clear SIMPLE; cbn [StmtSpec.ok_stmt] in Ho; cbn [ssize] in Hs.
    - (* Try *) split; [|intros H; discriminate]. intros rest Hf. apply andb_true_iff in Ho as [Ho Hh]. apply andb_true_iff in Ho as [Ho Of]. apply andb_true_iff in Ho as [Ho Oo].
      apply andb_true_iff in Ho as [Ho Ohs]. apply andb_true_iff in Ho as [Hn Ob].
      destruct (Forall_of body N IH ltac:(lia) Ob) as [Fb _]. destruct (Forall_of orelse N IH ltac:(lia) Oo) as [Fo _]. destruct (Forall_of finalbody N IH ltac:(lia) Of) as [Ff _].
      assert (Fh : Forall (Ph star) handlers).
      { apply forallb_Forall_In in Ohs. eapply Forall_impl; [|exact Ohs]. cbn beta. intros [ht hx hb] [Oh Ih]. apply (sum_in hsize) in Ih. cbn [hsize] in Ih. unfold Ph.
        cbn [StmtSpec.ok_handler] in Oh. apply andb_true_iff in Oh as [_ Oh]. apply (Forall_of hb N IH); [lia|exact Oh]. }
      unfold follow in Hf. apply andb_true_iff in Hf as [Hf F4]. apply andb_true_iff in Hf as [Hf F3]. apply andb_true_iff in Hf as [F1 F2]. apply andb_true_iff in F1 as [F1 _]. apply isn_None in F1, F2, F3, F4.
      assert (X : ltoks "if" (STry star body handlers orelse finalbody) ++ rest = TKw "try" :: TOp ":" :: block body ++ flat_map (hltoks star) handlers ++ part "else" orelse ++ part "finally" finalbody ++ rest).
      { assert (X : ltoks "if" (STry star body handlers orelse finalbody) = [TKw "try"; TOp ":"] ++ block body ++ flat_map (hltoks star) handlers ++ part "else" orelse ++ part "finally" finalbody) by reflexivity.
        rewrite X. rewrite <- !app_assoc. reflexivity. }
      rewrite X. apply E_S. cbn [p_stmt String.eqb Ascii.eqb Bool.eqb opq].
      estep (block_ok body (flat_map (hltoks star) handlers ++ part "else" orelse ++ part "finally" finalbody ++ rest) Fb Hn).
      destruct handlers as [|h hs].
      + apply andb_true_iff in Hh as [Hh Hst]. apply andb_true_iff in Hh as [Hnf Hno]. apply negb_true_iff in Hst. destruct orelse; [|discriminate]. destruct finalbody as [|f fb]; [discriminate|]. subst star.
        change (flat_map (hltoks false) [] ++ part "else" [] ++ part "finally" (f :: fb) ++ rest) with (part "finally" (f :: fb) ++ rest).
        change (kwq "except" (part "finally" (f :: fb) ++ rest)) with (@None (list tok)). estep (finally_ok (f :: fb) rest Ff F4). apply E_const.
      + assert (HX : forall r, exists q, kwq "except" (flat_map (hltoks star) (h :: hs) ++ r) = Some q /\ match opq "*" q with Some _ => true | None => false end = star).
        { intros r. destruct h as [ht hx hb]. cbn [flat_map hltoks handler_toks]. rewrite <- !app_assoc. cbn [app]. cb. eexists. split; [reflexivity|].
          destruct star; [reflexivity|]. cbn [app]. rewrite <- !app_assoc. cbn [forallb StmtSpec.ok_handler] in Ohs. apply andb_true_iff in Ohs as [Oh _]. apply andb_true_iff in Oh as [Oh _]. apply andb_true_iff in Oh as [Oh _].
          destruct ht as [ht|]; cbn [opt_toks].
          - apply andb_true_iff in Oh as [Oh _]. now rewrite (toks_op read) by auto.
          - destruct hx; [discriminate|]. reflexivity. }
        destruct (HX (part "else" orelse ++ part "finally" finalbody ++ rest)) as (q & HX1 & HX2). rewrite HX1, HX2.
        assert (K1 : kwq "except" (part "else" orelse ++ part "finally" finalbody ++ rest) = None) by (destruct orelse; [destruct finalbody; [exact F3|reflexivity]|reflexivity]).
        assert (K2 : kwq "else" (part "finally" finalbody ++ rest) = None) by (destruct finalbody; [exact F2|reflexivity]).
        estep (handlers_ok star (h :: hs) _ Fh Ohs K1). estep (else_ok orelse _ Fo K2). estep (finally_ok finalbody rest Ff F4). apply E_const.
    - (* Class *) split; [|intros H; discriminate]. intros rest Hf. apply andb_true_iff in Ho as [Ho Od]. apply andb_true_iff in Ho as [Ho Ob]. apply andb_true_iff in Ho as [Ho Hn].
      apply andb_true_iff in Ho as [Ho Okw]. apply andb_true_iff in Ho as [Ho Oba]. apply andb_true_iff in Ho as [Ox Ht]. destruct tps; [|discriminate].
      destruct (Forall_of body N IH ltac:(lia) Ob) as [Fb _].
      set (H0 := match bases, kws with [], [] => [] | _, _ => op "(" ++ commas (map toks bases ++ map toks_kw kws) ++ op ")" end).
      assert (X : ltoks "if" (SClass x [] bases kws body decorators) ++ rest = flat_map (fun e => deco_toks e ++ [TNewline]) decorators ++ TKw "class" :: TId x :: H0 ++ TOp ":" :: block body ++ rest).
      { assert (X : ltoks "if" (SClass x [] bases kws body decorators) = flat_map (fun e => deco_toks e ++ [TNewline]) decorators ++ (TKw "class" :: TId x :: H0 ++ op ":") ++ block body) by reflexivity.
        rewrite X. rewrite <- !app_assoc. cbn [app]. rewrite <- !app_assoc. reflexivity. }
      rewrite X.
      assert (C : E (fun n => p_class n decorators (TId x :: H0 ++ TOp ":" :: block body ++ rest)) (Some ([SClass x [] bases kws body decorators], rest))).
      { apply E_S. cbn [p_class]. assert (CH := classhead_ok x bases kws (block body ++ rest) Oba Okw). fold H0 in CH. estep CH. estep (block_ok body rest Fb Hn). apply E_const. }
      destruct decorators as [|d ds].
      + cbn [flat_map app]. apply E_S. cbn [p_stmt String.eqb Ascii.eqb Bool.eqb]. exact C.
      + destruct (deco_head (d :: ds) (TKw "class" :: TId x :: H0 ++ TOp ":" :: block body ++ rest)) as [r D]. specialize (D eq_refl).
        assert (DD := decos_ok (d :: ds) (TKw "class" :: TId x :: H0 ++ TOp ":" :: block body ++ rest) Od eq_refl). rewrite D in *.
        apply E_S. cbn [p_stmt String.eqb Ascii.eqb Bool.eqb]. estep DD. cb. exact C.
    - (* Function *) split; [|intros H; discriminate]. intros rest Hf. apply andb_true_iff in Ho as [Ho Or]. apply andb_true_iff in Ho as [Ho Od]. apply andb_true_iff in Ho as [Ho Ob]. apply andb_true_iff in Ho as [Ho Hn].
      apply andb_true_iff in Ho as [Ho Oa]. apply andb_true_iff in Ho as [Ox Ht]. destruct tps; [|discriminate].
      destruct (Forall_of body N IH ltac:(lia) Ob) as [Fb _].
      set (H0 := TId x :: TOp "(" :: toks_args args ++ TOp ")" :: opt_toks (fun r => TOp "->" :: toks r) returns ++ TOp ":" :: block body ++ rest).
      assert (X : ltoks "if" (SFunction is_async x [] args body decorators returns) ++ rest =
        flat_map (fun e => deco_toks e ++ [TNewline]) decorators ++ (if is_async then [TKw "async"] else []) ++ TKw "def" :: H0).
      { assert (X : ltoks "if" (SFunction is_async x [] args body decorators returns) = flat_map (fun e => deco_toks e ++ [TNewline]) decorators ++
          ((if is_async then [TKw "async"] else []) ++ TKw "def" :: TId x :: op "(" ++ toks_args args ++ op ")" ++ opt_toks (fun r => TOp "->" :: toks r) returns ++ op ":") ++ block body) by reflexivity.
        rewrite X. unfold H0, op. rewrite <- !app_assoc. cbn [app]. rewrite <- !app_assoc. cbn [app]. rewrite <- !app_assoc. cbn [app]. reflexivity. }
      rewrite X.
      assert (C : E (fun n => p_def n is_async decorators H0) (Some ([SFunction is_async x [] args body decorators returns], rest))).
      { apply E_S. cbn [p_def]. assert (DH := defhead_ok x args returns (block body ++ rest) Oa Or). fold H0 in DH. estep DH. estep (block_ok body rest Fb Hn). apply E_const. }
      destruct decorators as [|d ds].
      + cbn [flat_map app]. apply E_S. destruct is_async; cbn [app p_stmt String.eqb Ascii.eqb Bool.eqb kwq]; exact C.
      + destruct (deco_head (d :: ds) ((if is_async then [TKw "async"] else []) ++ TKw "def" :: H0)) as [r D]. specialize (D eq_refl).
        assert (DD := decos_ok (d :: ds) ((if is_async then [TKw "async"] else []) ++ TKw "def" :: H0) Od ltac:(destruct is_async; reflexivity)). rewrite D in *.
        apply E_S. cbn [p_stmt String.eqb Ascii.eqb Bool.eqb]. estep DD. destruct is_async; cbn [app]; cb; exact C.
    - (* For *) split; [|intros H; discriminate]. intros rest Hf. apply andb_true_iff in Ho as [Ho Oo]. apply andb_true_iff in Ho as [Ho Ob]. apply andb_true_iff in Ho as [Ho Hn]. apply andb_true_iff in Ho as [Ho Oi].
      apply andb_true_iff in Ho as [Ot Tt]. destruct (Forall_of body N IH ltac:(lia) Ob) as [Fb _]. destruct (Forall_of orelse N IH ltac:(lia) Oo) as [Fo _].
      assert (K : kwq "else" rest = None). { unfold follow in Hf. apply andb_true_iff in Hf as [Hf _]. apply andb_true_iff in Hf as [Hf _]. apply andb_true_iff in Hf as [_ Hf]. now apply isn_None in Hf. }
      assert (X : ltoks "if" (SFor is_async t iter body orelse) ++ rest = (if is_async then [TKw "async"] else []) ++ TKw "for" :: toks t ++ TKw "in" :: toks iter ++ TOp ":" :: block body ++ part "else" orelse ++ rest).
      { assert (X : ltoks "if" (SFor is_async t iter body orelse) = ((if is_async then [TKw "async"] else []) ++ TKw "for" :: toks t ++ TKw "in" :: toks iter ++ op ":") ++ block body ++ part "else" orelse) by reflexivity.
        rewrite X. unfold op. rewrite <- !app_assoc. cbn [app]. rewrite <- !app_assoc. cbn [app]. rewrite <- !app_assoc. cbn [app]. reflexivity. }
      rewrite X. apply E_S. eapply E_ext; [exists 0; intros n _; apply for_async|]. apply E_S. cbn [p_for].
      estep (targets_ok t (toks iter ++ TOp ":" :: block body ++ part "else" orelse ++ rest) Ot Tt). cb.
      estep (stars_ok read iter (TOp ":" :: block body ++ part "else" orelse ++ rest) Oi eq_refl eq_refl). cb.
      estep (block_ok body (part "else" orelse ++ rest) Fb Hn). estep (else_ok orelse rest Fo K). apply E_const.
    - (* If *) apply andb_true_iff in Ho as [Ho Oo]. apply andb_true_iff in Ho as [Ho Ob]. apply andb_true_iff in Ho as [Ot Hn].
      destruct (Forall_of body N IH ltac:(lia) Ob) as [Fb _]. destruct (Forall_of orelse N IH ltac:(lia) Oo) as [Fo Fe].
      split; [|intros _]; intros rest Hf.
      + destruct (if_ok t body orelse "if" rest Ot Hn Fb Fo Fe Hf) as [-> X]. apply E_S. cbn [p_stmt String.eqb Ascii.eqb Bool.eqb]. exact X.
      + destruct (if_ok t body orelse "elif" rest Ot Hn Fb Fo Fe Hf) as [-> X]. apply E_S. cbn [p_elif]. cb. exact X.
    - (* While *) split; [|intros H; discriminate]. intros rest Hf. apply andb_true_iff in Ho as [Ho Oo]. apply andb_true_iff in Ho as [Ho Ob]. apply andb_true_iff in Ho as [Ot Hn].
      destruct (Forall_of body N IH ltac:(lia) Ob) as [Fb _]. destruct (Forall_of orelse N IH ltac:(lia) Oo) as [Fo _].
      assert (K : kwq "else" rest = None). { unfold follow in Hf. apply andb_true_iff in Hf as [Hf _]. apply andb_true_iff in Hf as [Hf _]. apply andb_true_iff in Hf as [_ Hf]. now apply isn_None in Hf. }
      assert (X : ltoks "if" (SWhile t body orelse) ++ rest = TKw "while" :: toks t ++ TOp ":" :: block body ++ part "else" orelse ++ rest).
      { assert (X : ltoks "if" (SWhile t body orelse) = (TKw "while" :: toks t ++ op ":") ++ block body ++ part "else" orelse) by reflexivity.
        rewrite X. unfold op. rewrite <- !app_assoc. cbn [app]. rewrite <- !app_assoc. reflexivity. }
      rewrite X. apply E_S. cbn [p_stmt String.eqb Ascii.eqb Bool.eqb]. estep (reads_at read t LNamed (TOp ":" :: block body ++ part "else" orelse ++ rest) Ot eq_refl). cb.
      estep (block_ok body (part "else" orelse ++ rest) Fb Hn). estep (else_ok orelse rest Fo K). apply E_const.
    - (* With *) split; [|intros H; discriminate]. intros rest Hf. apply andb_true_iff in Ho as [Ho Ob]. apply andb_true_iff in Ho as [Ho Hn]. apply andb_true_iff in Ho as [Ho Hc]. apply andb_true_iff in Ho as [Hl Ol].
      apply negb_true_iff in Hc. destruct (Forall_of body N IH ltac:(lia) Ob) as [Fb _].
      assert (X : ltoks "if" (SWith is_async items body) ++ rest = (if is_async then [TKw "async"] else []) ++ TKw "with" :: commas (map witem_toks items) ++ TOp ":" :: block body ++ rest).
      { assert (X : ltoks "if" (SWith is_async items body) = ((if is_async then [TKw "async"] else []) ++ TKw "with" :: commas (map witem_toks items) ++ op ":") ++ block body) by reflexivity.
        rewrite X. unfold op. rewrite <- !app_assoc. cbn [app]. rewrite <- !app_assoc. reflexivity. }
      rewrite X. apply E_S. eapply E_ext; [exists 0; intros n _; apply with_async|]. apply E_S. cbn [p_withs]. estep (with_ok read items (block body ++ rest) Hl Ol Hc). estep (block_ok body rest Fb Hn). apply E_const.
    - (* Match *) split; [|intros H; discriminate]. intros rest Hf. apply andb_true_iff in Ho as [Ho Oc]. apply andb_true_iff in Ho as [Oe Hn].
      assert (Fc : Forall Pc cs).
      { assert (Oc' := Oc). apply forallb_Forall_In in Oc'. eapply Forall_impl; [|exact Oc']. cbn beta. intros [p g b] [O I]. apply (sum_in csize) in I. cbn [csize] in I. unfold Pc.
        cbn [StmtSpec.ok_case] in O. apply andb_true_iff in O as [_ O]. apply (Forall_of b N IH); [lia|exact O]. }
      assert (X : ltoks "if" (SMatch e cs) ++ rest = TId "match" :: toks e ++ TOp ":" :: TNewline :: TIndent :: flat_map cltoks cs ++ TDedent :: rest).
      { assert (X : ltoks "if" (SMatch e cs) = (TId "match" :: toks e ++ op ":") ++ TNewline :: TIndent :: flat_map cltoks cs ++ [TDedent]) by reflexivity.
        rewrite X. unfold op. cbn [app]. rewrite <- !app_assoc. cbn [app]. rewrite <- !app_assoc. reflexivity. }
      rewrite X. apply E_S. cbn [p_stmt String.eqb Ascii.eqb Bool.eqb].
      assert (Y : E (fun n => p_match n (toks e ++ TOp ":" :: TNewline :: TIndent :: flat_map cltoks cs ++ TDedent :: rest)) (Some ([SMatch e cs], rest))).
      { apply E_S. cbn [p_match]. estep (subject_ok read e (flat_map cltoks cs ++ TDedent :: rest) Oe). estep (cases_ok cs rest Fc Oc). destruct cs; [discriminate|]. cbn [dedentq]. apply E_const. }
      estep Y. apply E_const.
  Qed.
  Theorem stmt_ok s : ok_stmt s = true -> P s.
  Proof.
    intros Ho. assert (X : forall N s, ssize s < N -> ok_stmt s = true -> P s /\ Pelif s).
    { induction N as [|N IHN]; [lia|]. intros s0 Hs Hs0. apply (stmt_step N); auto. lia. }
    apply (X (S (ssize s)) s); auto; lia.
  Qed.
  Theorem module_ok l : forallb ok_stmt l = true -> E (fun n => p_stmts n (flat_map (ltoks "if") l)) (l, []).
  Proof.
    intros Ho. assert (X : Forall (fun s => P s /\ ok_stmt s = true) l).
    { apply forallb_Forall_In in Ho. eapply Forall_impl; [|exact Ho]. cbn beta. intros s [Os _]. split; auto. now apply stmt_ok. }
    assert (Y := stmts_ok l [] X eq_refl). now rewrite app_nil_r in Y.
  Qed.
End Block.
