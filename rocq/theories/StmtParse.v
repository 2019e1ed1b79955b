(** The lines of a covered statement are read as the statement: simple statements. *)
From Verif Require Import Base UnparseModel PyGrammar PyStmt UnparseSpec StmtSpec UnparseLex UnparseToks UnparseText UnparseParse StmtToks StmtLayout StmtText StmtConsume.
Open Scope string_scope.
Open Scope list_scope.

Ltac cb := cbn [opq kwq String.eqb Ascii.eqb Bool.eqb].

(** Where no expression begins. *)
Definition dead (ts : list tok) : bool := match ts with [] | TDedent :: _ | TNewline :: _ => true | TKw x :: _ => String.eqb x "yield" | _ => false end.
Lemma dead_none ts : dead ts = true -> forall n L, p n L ts = None.
Proof.
  intros H. assert (A : forall n, p_atom n ts = None).
  { intros [|n]; [reflexivity|]. destruct ts as [|[]]; try discriminate; try reflexivity. cbn [dead] in H. apply String.eqb_eq in H as ->. reflexivity. }
  assert (U : unq ts = None /\ idq ts = None /\ kwq "lambda" ts = None /\ kwq "not" ts = None /\ kwq "await" ts = None).
  { destruct ts as [|[]]; try discriminate; repeat split. all: cbn [dead] in H; apply String.eqb_eq in H as ->; reflexivity. }
  destruct U as (U1 & U2 & U3 & U4 & U5).
  induction n as [|n IH]; [reflexivity|]. intros L. destruct L; cbn [p]; rewrite ?A, ?U1, ?U2, ?U3, ?U4, ?U5, ?IH; reflexivity.
Qed.

Section Parse.
  Variable read : string -> string.
  Notation ok := (ok read).

  Lemma toks_op e rest x : ok e = true -> smem x ["..."; "("; "["; "{"] = false -> opq x (toks e ++ rest) = None.
  Proof. intros Ho Hx. apply begins_op; auto. apply begins_app. eapply toks_begin; eauto. Qed.
  Lemma toks_kwq e rest x : ok e = true -> smem x ["None"; "True"; "False"] = false -> kwq x (toks e ++ rest) = None.
  Proof. intros Ho Hx. apply begins_kw; auto. apply begins_app. eapply toks_begin; eauto. Qed.
  Lemma starexpr_ok e : ok e = true -> RI KStarExpr (stops LExpr) (toks e) (IExpr e).
  Proof.
    intros Ho rest Hr. apply E_S. cbn [p_item]. rewrite toks_op by auto. estep (reads_at read e LExpr rest Ho Hr). apply E_const.
  Qed.
  Lemma stars_ok e rest : ok e = true -> stops LExpr rest = true -> opq "," rest = None -> E (fun n => p_stars n (toks e ++ rest)) (Some (e, rest)).
  Proof.
    intros Ho Hr Hc. unfold p_stars. estep (list_one KStarExpr (stops LExpr) (toks e) (IExpr e) rest (starexpr_ok e Ho) Hr Hc). cbn [exprs_of tuple_or_single].
    rewrite (ok_not_starred read e Ho). apply E_const.
  Qed.
  Lemma rhs_ok e rest : ok e = true -> stops LExpr rest = true -> opq "," rest = None -> E (fun n => p_rhs n (toks e ++ rest)) (Some (e, rest)).
  Proof. intros Ho Hr Hc. unfold p_rhs. rewrite toks_kwq by auto. now apply stars_ok. Qed.

  (** ** Names *)
  Lemma names_ok l rest : nonempty l = true -> opq "," rest = None -> E (fun n => p_names n (commas (map (fun x => [TId x]) l) ++ rest)) (Some (l, rest)).
  Proof.
    intros Hn Hr. induction l as [|x l IH]; [discriminate|]. destruct l as [|y l].
    - apply E_S. cbn [map commas seps app p_names idq]. rewrite Hr. apply E_const.
    - specialize (IH eq_refl). apply E_S. change (commas (map (fun x => [TId x]) (x :: y :: l)) ++ rest) with (TId x :: TOp "," :: commas (map (fun x => [TId x]) (y :: l)) ++ rest).
      cbn [p_names idq]. cb. estep IH. apply E_const.
  Qed.
  Lemma dotted_reads x rest : opq "." rest = None -> E (fun n => p_dotted n (dotted_toks x ++ rest)) (Some (x, rest)).
  Proof.
    intros Hr. unfold dotted_toks. destruct (split_dots_text x) as (l & -> & Ex & N). rewrite Ex. clear Ex x.
    induction l as [|x l IH]; [congruence|]. destruct l as [|y l].
    - apply E_S. cbn [map seps app p_dotted idq String.concat]. rewrite Hr. apply E_const.
    - specialize (IH ltac:(discriminate)). apply E_S.
      change (seps (TOp ".") (map (fun y => [TId y]) (x :: y :: l)) ++ rest) with (TId x :: TOp "." :: seps (TOp ".") (map (fun y => [TId y]) (y :: l)) ++ rest).
      cbn [p_dotted idq]. cb. estep IH. apply E_const.
  Qed.
  Lemma as_ok y rest : kwq "as" rest = None -> p_as (opt_toks (fun y => [TKw "as"; TId y]) y ++ rest) = Some (y, rest).
  Proof. intros H. destruct y as [y|]; unfold p_as; cbn [opt_toks app]; [reflexivity|]. now rewrite H. Qed.
  Lemma name_toks (dotted : bool) x y rest : (if dotted then dotted_ok x else is_identifier x) = true ->
    alias_toks dotted (Alias x y) ++ rest = (if dotted then dotted_toks x else [TId x]) ++ opt_toks (fun y => [TKw "as"; TId y]) y ++ rest.
  Proof.
    intros H. cbn [alias_toks]. destruct dotted; [now rewrite <- app_assoc|]. destruct (String.eqb_spec x "*") as [->|]; [discriminate|]. now rewrite <- app_assoc.
  Qed.
  Lemma imports_ok dotted l rest : nonempty l = true -> forallb (ok_alias dotted) l = true -> opq "," rest = None -> opq "." rest = None -> kwq "as" rest = None ->
    E (fun n => p_imports n dotted (commas (map (alias_toks dotted) l) ++ rest)) (Some (l, rest)).
  Proof.
    intros Hn Ho Hr Hd Ha. induction l as [|[x y] l IH]; [discriminate|]. cbn [forallb] in Ho. apply andb_true_iff in Ho as [Oa Ho]. cbn [ok_alias] in Oa. apply andb_true_iff in Oa as [Ox Oy].
    assert (X : forall r, opq "." r = None -> E (fun n => if dotted then p_dotted n ((if dotted then dotted_toks x else [TId x]) ++ opt_toks (fun y => [TKw "as"; TId y]) y ++ r)
        else idq ((if dotted then dotted_toks x else [TId x]) ++ opt_toks (fun y => [TKw "as"; TId y]) y ++ r)) (Some (x, opt_toks (fun y => [TKw "as"; TId y]) y ++ r))).
    { intros r Hd'. destruct dotted; [|apply E_const]. apply dotted_reads. destruct y; [reflexivity|exact Hd']. }
    destruct l as [|a l].
    - apply E_S. cbn [map commas seps]. rewrite name_toks by auto. cbn [p_imports]. estep (X rest Hd). rewrite as_ok by exact Ha. rewrite Hr. apply E_const.
    - specialize (IH eq_refl Ho). apply E_S. cbn [map]. change (commas (alias_toks dotted (Alias x y) :: alias_toks dotted a :: map (alias_toks dotted) l))
        with (alias_toks dotted (Alias x y) ++ TOp "," :: commas (map (alias_toks dotted) (a :: l))). rewrite <- app_assoc. cbn [app]. rewrite name_toks by auto.
      cbn [p_imports]. estep (X (TOp "," :: commas (map (alias_toks dotted) (a :: l)) ++ rest) eq_refl). rewrite as_ok by reflexivity. cb. estep IH. apply E_const.
  Qed.
  Lemma dots_ok n rest : opq "." rest = None -> opq "..." rest = None -> p_dots (dots_toks n ++ rest) = (n, rest).
  Proof.
    intros H1 H2. assert (Z : p_dots rest = (0, rest)).
    { destruct rest as [|[] r]; try reflexivity. cbn [p_dots]. cbn [opq] in H1, H2. rewrite String.eqb_sym. destruct (String.eqb "." x); [discriminate|].
      rewrite String.eqb_sym. destruct (String.eqb "..." x); [discriminate|reflexivity]. }
    revert n. fix IH 1. intros [|[|[|n]]]; cbn [dots_toks app p_dots String.eqb Ascii.eqb Bool.eqb]; rewrite ?Z; try reflexivity. now rewrite IH.
  Qed.
  Lemma star_alias l : is_star_import l = true -> l = [Alias "*" None].
  Proof. destruct l as [|[x [y|]] [|]]; try discriminate. cbn. intros H. now apply String.eqb_eq in H as ->. Qed.
  Lemma from_ok m l k rest : match m with Some m => dotted_ok m | None => negb (Nat.eqb k 0) end = true -> is_star_import l || (nonempty l && forallb (ok_alias false) l) = true ->
    opq "," rest = None -> opq "." rest = None -> kwq "as" rest = None ->
    E (fun n => p_from n (dots_toks k ++ opt_toks dotted_toks m ++ TKw "import" :: commas (map (alias_toks false) l) ++ rest)) (Some (SImportFrom m l k, rest)).
  Proof.
    intros Hm Hl Hc Hd Ha. unfold p_from.
    assert (HD : exists x r, m = None \/ (m = Some x /\ opt_toks dotted_toks m = TId r :: tl (dotted_toks x))).
    { destruct m as [x|]; [|exists "", ""; now left]. exists x. cbn [opt_toks]. unfold dotted_toks. destruct (split_dots_text x) as (l' & El & _ & N). destruct l' as [|y l']; [congruence|].
      exists y. right. split; [reflexivity|]. rewrite El. destruct l'; reflexivity. }
    destruct HD as (x & r & HD).
    rewrite dots_ok.
    2,3: destruct HD as [->|[_ ->]]; reflexivity.
    assert (X : E (fun n => match idq (opt_toks dotted_toks m ++ TKw "import" :: commas (map (alias_toks false) l) ++ rest) with
        Some _ => let? (x, r1) := p_dotted n (opt_toks dotted_toks m ++ TKw "import" :: commas (map (alias_toks false) l) ++ rest) in Some (Some x, r1)
        | None => if Nat.eqb k 0 then None else Some (None, opt_toks dotted_toks m ++ TKw "import" :: commas (map (alias_toks false) l) ++ rest) end)
        (Some (m, TKw "import" :: commas (map (alias_toks false) l) ++ rest))).
    { destruct HD as [->|[-> HD]].
      - cbn [opt_toks app idq]. destruct (Nat.eqb k 0); [discriminate|]. apply E_const.
      - assert (I : forall b, idq (opt_toks dotted_toks (Some x) ++ b) = Some (r, tl (dotted_toks x) ++ b)) by (intros b; rewrite HD; reflexivity). rewrite I. cbn [opt_toks]. estep (dotted_reads x (TKw "import" :: commas (map (alias_toks false) l) ++ rest) eq_refl). apply E_const. }
    estep X. cb.
    apply orb_true_iff in Hl as [Hl|Hl].
    - apply star_alias in Hl as ->. cbn [map commas seps alias_toks String.eqb Ascii.eqb Bool.eqb opt_toks app op]. cb. apply E_const.
    - apply andb_true_iff in Hl as [Hn Hl].
      assert (B : forall y, opq y (commas (map (alias_toks false) l) ++ rest) = None).
      { intros y. destruct l as [|[a b] l]; [discriminate|]. cbn [forallb ok_alias] in Hl. apply andb_true_iff in Hl as [Hl _]. apply andb_true_iff in Hl as [Hl _].
        destruct l; cbn [map]; [cbn [commas seps]|change (commas (alias_toks false (Alias a b) :: alias_toks false a0 :: map (alias_toks false) l)) with (alias_toks false (Alias a b) ++ TOp "," :: commas (map (alias_toks false) (a0 :: l)))];
          rewrite <- ?app_assoc; cbn [alias_toks]; (destruct (String.eqb_spec a "*") as [->|]; [discriminate|reflexivity]). }
      rewrite !B. estep (imports_ok false l rest Hn Hl Hc Hd Ha). apply E_const.
  Qed.

  (** ** Assignments *)
  Lemma assign_ok ts v rest : forallb (fun t => ok t && is_target t) ts = true -> ok v = true -> stops LExpr rest = true -> opq "," rest = None -> opq "=" rest = None ->
    E (fun n => p_assign n (flat_map (fun t => toks t ++ op "=") ts ++ toks v ++ rest)) (Some (ts, v, rest)).
  Proof.
    intros Ht Hv Hr Hc He. induction ts as [|t ts IH].
    - cbn [flat_map app]. apply E_S. cbn [p_assign]. estep (rhs_ok v rest Hv Hr Hc). rewrite He. apply E_const.
    - cbn [forallb] in Ht. apply andb_true_iff in Ht as [Ht Hts]. apply andb_true_iff in Ht as [Ho Tt]. cbn [flat_map]. unfold op at 1. rewrite <- !app_assoc. cbn [app].
      apply E_S. cbn [p_assign]. estep (rhs_ok t (TOp "=" :: flat_map (fun t => toks t ++ op "=") ts ++ toks v ++ rest) Ho eq_refl eq_refl). cb. rewrite Tt. estep (IH Hts). apply E_const.
  Qed.
  Lemma augq_text o r : augq (TOp (binop_text o ++ "=") :: r) = Some (o, r).
  Proof. now destruct o. Qed.
  Lemma nl_stops L r : stops L (TNewline :: r) = true.
  Proof. destruct L; reflexivity. Qed.
  Lemma aug_stops o r : stops LExpr (TOp (binop_text o ++ "=") :: r) = true /\ opq "," (TOp (binop_text o ++ "=") :: r) = None /\ opq ":" (TOp (binop_text o ++ "=") :: r) = None.
  Proof. destruct o; repeat split. Qed.

  (** ** Simple statements *)
  Definition no_id (ts : list tok) : bool := match ts with TId _ :: _ => false | _ => true end.
  (** Two names side by side begin a type alias only. *)
  Definition no_ids (ts : list tok) : bool := match ts with TId _ :: r => no_id r | _ => true end.
  Lemma toks_ids : forall e rest, ok e = true -> no_id rest = true -> no_ids (toks e ++ rest) = true.
  Proof.
    fix IH 1. intros e rest Ho Hr. destruct e; cbn [UnparseSpec.ok] in Ho; try discriminate; try reflexivity.
    - exact Hr.
    - destruct c; reflexivity.
    - apply andb_true_iff in Ho as [Ho _]. cbn [toks]. rewrite <- app_assoc. now apply IH.
    - apply andb_true_iff in Ho as [Ho _]. cbn [toks]. rewrite <- app_assoc. now apply IH.
    - apply andb_true_iff in Ho as [Ho _]. apply andb_true_iff in Ho as [Ho _]. cbn [toks]. rewrite <- app_assoc. now apply IH.
  Qed.
  Lemma simple_expr n ts : begins atom1 ts = true -> no_ids ts = true -> p_simple n ts = p_exprstmt n ts.
  Proof.
    destruct ts as [|[] ts]; try discriminate; try reflexivity; cbn [begins atom1 no_ids].
    - intros _ H. cbn [p_simple]. destruct (String.eqb x "type"); [|reflexivity]. destruct ts as [|[] ts]; try reflexivity. discriminate.
    - intros H _. apply smem_In in H. cbn [In] in H. destruct H as [<-|[<-|[<-|[]]]]; reflexivity.
  Qed.
  Lemma stmt_expr n line r : begins atom1 line = true -> pl line = true -> indentq r = None -> p_stmt (S n) (line ++ TNewline :: r) = p_simples n (line ++ TNewline :: r).
  Proof.
    destruct line as [|[] line]; try discriminate; try reflexivity; cbn [begins atom1 app]; intros H Hp Hr.
    - cbn [p_stmt]. destruct (String.eqb x "match"); [|reflexivity]. rewrite pl_cons in Hp. now rewrite no_match.
    - apply smem_In in H; cbn [In] in H. destruct H as [<-|[<-|[<-|[]]]]; reflexivity.
    - apply smem_In in H; cbn [In] in H. destruct H as [<-|[<-|[<-|[<-|[]]]]]; reflexivity.
  Qed.
  Definition is_simple (s : stmt) : bool :=
    match s with
    | SExpr _ | SImport _ | SImportFrom _ _ _ | SAssign _ _ | SAnnAssign _ _ _ _ | SAugAssign _ _ _ | SReturn _ | SPass | SBreak | SContinue | SDelete _ | SAssert _ _
    | SGlobal _ | SNonlocal _ | SRaise _ _ | STypeAlias _ _ _ => true
    | _ => false
    end.
  Lemma ends_toks e rest : ok e = true -> ends_simple (toks e ++ rest) = false.
  Proof.
    intros Ho. assert (B := toks_begin read e Ho). destruct (toks e) as [|[] l]; try discriminate; try reflexivity. cbn [begins atom1 app ends_simple] in *.
    apply smem_In in B. cbn [In] in B. destruct B as [<-|[<-|[<-|[<-|[]]]]]; reflexivity.
  Qed.
  Lemma target_item t : ok t = true -> is_target t = true -> RI KTarget (stops LPrim) (toks t) (IExpr t).
  Proof. intros Ho Ht rest Hr. apply E_S. cbn [p_item]. rewrite toks_op by auto. estep (reads_at read t LPrim rest Ho Hr). rewrite Ht. apply E_const. Qed.
  Lemma deltarget_target : forall e, is_deltarget e = true -> is_target e = true.
  Proof.
    fix IH 1. intros e H. destruct e; try discriminate; try reflexivity; cbn [is_deltarget is_target] in *.
    - induction l as [|x l IHl]; [reflexivity|]. cbn [forallb] in *. apply andb_true_iff in H as [Hx H]. rewrite IHl by exact H. rewrite andb_true_r.
      assert (X := IH x Hx). destruct x; try exact X. discriminate.
    - induction l as [|x l IHl]; [reflexivity|]. cbn [forallb] in *. apply andb_true_iff in H as [Hx H]. rewrite IHl by exact H. rewrite andb_true_r.
      assert (X := IH x Hx). destruct x; try exact X. discriminate.
  Qed.
  Lemma hd_atom ts rest : forallb (fun t => ok t && is_target t) ts = true -> nonempty ts = true ->
    begins atom1 (flat_map (fun t => toks t ++ op "=") ts ++ rest) = true /\ no_ids (flat_map (fun t => toks t ++ op "=") ts ++ rest) = true.
  Proof.
    destruct ts as [|t ts]; [discriminate|]. cbn [forallb flat_map]. intros H _. apply andb_true_iff in H as [H _]. apply andb_true_iff in H as [H _].
    rewrite <- !app_assoc. split; [apply begins_app; eapply toks_begin; eauto|now apply toks_ids].
  Qed.
  Lemma tparam_ok t rest : ok_tp read t = true -> stops LExpr rest = true -> opq ":" rest = None -> E (fun n => p_tparam n (tp_toks t ++ rest)) (Some (t, rest)).
  Proof.
    intros Ho Hr Hc. unfold p_tparam. destruct t as [x b|x|x]; cbn [tp_toks ok_tp app] in *; cb; cbn [idq]; try apply E_const. apply andb_true_iff in Ho as [_ Ob].
    destruct b as [b|]; cbn [opt_toks app]; cb.
    - estep (reads_at read b LExpr rest Ob Hr). apply E_const.
    - rewrite Hc. apply E_const.
  Qed.
  Lemma tparams_ok l rest : nonempty l = true -> forallb (ok_tp read) l = true -> E (fun n => p_tparams n (commas (map tp_toks l) ++ TOp "]" :: rest)) (Some (l, rest)).
  Proof.
    intros Hn Ho. induction l as [|t l IH]; [discriminate|]. cbn [forallb] in Ho. apply andb_true_iff in Ho as [Ot Ho]. destruct l as [|u l].
    - cbn [map commas seps]. apply E_S. cbn [p_tparams]. estep (tparam_ok t (TOp "]" :: rest) Ot eq_refl eq_refl). cb. apply E_const.
    - specialize (IH eq_refl Ho). cbn [map]. change (commas (tp_toks t :: tp_toks u :: map tp_toks l)) with (tp_toks t ++ TOp "," :: commas (map tp_toks (u :: l))). rewrite <- app_assoc. cbn [app].
      apply E_S. cbn [p_tparams]. estep (tparam_ok t (TOp "," :: commas (map tp_toks (u :: l)) ++ TOp "]" :: rest) Ot eq_refl eq_refl). cb.
      assert (N : opq "]" (commas (map tp_toks (u :: l)) ++ TOp "]" :: rest) = None).
      { destruct l as [|v l]; cbn [map commas seps]; [|change (commas (tp_toks u :: tp_toks v :: map tp_toks l)) with (tp_toks u ++ TOp "," :: commas (map tp_toks (v :: l)))]; destruct u; reflexivity. }
      rewrite N. estep IH. apply E_const.
  Qed.

  Lemma tps_ok tps R : forallb (ok_tp read) tps = true -> opq "[" R = None ->
    E (fun n => p_tps n (match tps with [] => [] | _ => op "[" ++ commas (map tp_toks tps) ++ op "]" end ++ R)) (Some (tps, R)).
  Proof.
    intros Ot HR. unfold p_tps. destruct tps as [|t0 tps].
    - cbn [app]. rewrite HR. apply E_const.
    - rewrite <- !app_assoc. unfold op at 1. cbn [app]. cb. now apply tparams_ok.
  Qed.
  Lemma simple_ok s r : is_simple s = true -> ok_stmt read s = true -> E (fun n => p_simple n (head_toks "if" s ++ TNewline :: r)) (Some (s, TNewline :: r)).
  Proof.
    intros Hs Ho. destruct s as [e|l0|module names level|targets v|t a v simple|t o v|e| | | |l|t m|l|l|e c|star body handlers orelse finalbody|x tps bases kws body decorators
        |is_async x tps args body decorators returns|is_async t iter body orelse|t body orelse|t body orelse|is_async items body|e cs|x tps v]; try discriminate;
      cbn [ok_stmt] in Ho; cbn [head_toks].
    - (* Expr *)
      assert (B : begins atom1 (toks e ++ TNewline :: r) = true) by (apply begins_app; eapply toks_begin; eauto).
      eapply E_ext; [exists 0; intros n _; rewrite simple_expr by (auto; now apply toks_ids); reflexivity|]. unfold p_exprstmt.
      estep (stars_ok e (TNewline :: r) Ho eq_refl eq_refl). cbn [opq augq]. apply E_const.
    - (* Import *) apply andb_true_iff in Ho as [Hn Ho]. cbn [app p_simple String.eqb Ascii.eqb Bool.eqb]. estep (imports_ok true l0 (TNewline :: r) Hn Ho eq_refl eq_refl eq_refl). apply E_const.
    - (* ImportFrom *) apply andb_true_iff in Ho as [Hm Ho]. cbn [app p_simple String.eqb Ascii.eqb Bool.eqb]. rewrite <- !app_assoc. cbn [app]. now apply from_ok.
    - (* Assign *) apply andb_true_iff in Ho as [Ho Ov]. apply andb_true_iff in Ho as [Hn Ot]. rewrite <- app_assoc.
      destruct (hd_atom targets (toks v ++ TNewline :: r) Ot Hn) as [B1 B2].
      eapply E_ext; [exists 0; intros n _; rewrite simple_expr by auto; reflexivity|]. unfold p_exprstmt. destruct targets as [|t ts]; [discriminate|].
      cbn [forallb] in Ot. apply andb_true_iff in Ot as [Ot Ots]. apply andb_true_iff in Ot as [Ot Tt]. cbn [flat_map]. rewrite <- !app_assoc. cbn [op app].
      estep (stars_ok t (TOp "=" :: flat_map (fun t => toks t ++ op "=") ts ++ toks v ++ TNewline :: r) Ot eq_refl eq_refl). cb. cbn [augq augops assoc String.eqb Ascii.eqb Bool.eqb].
      rewrite Tt. estep (assign_ok ts v (TNewline :: r) Ots Ov eq_refl eq_refl eq_refl). apply E_const.
    - (* AnnAssign *) unfold op. apply andb_true_iff in Ho as [Ho Ov]. apply andb_true_iff in Ho as [Ho Oa]. apply andb_true_iff in Ho as [Ot Hx].
      assert (V : E (fun n => match opq "=" (opt_toks (fun v => TOp "=" :: toks v) v ++ TNewline :: r) with Some r3 => let? (v, r4) := p_rhs n r3 in Some (Some v, r4)
         | None => Some (None, opt_toks (fun v => TOp "=" :: toks v) v ++ TNewline :: r) end) (Some (v, TNewline :: r))).
      { destruct v as [v|]; cbn [opt_toks app]; cb; [|apply E_const]. estep (rhs_ok v (TNewline :: r) Ov eq_refl eq_refl). apply E_const. }
      assert (SV : stops LExpr (opt_toks (fun v => TOp "=" :: toks v) v ++ TNewline :: r) = true) by (destruct v; reflexivity).
      destruct simple.
      + destruct t; try discriminate. cbn [toks app] in *. eapply E_ext; [exists 0; intros n _; rewrite simple_expr by (try exact Hx; reflexivity); reflexivity|]. unfold p_exprstmt.
        rewrite <- app_assoc.
        pose proof (stars_ok (EName x) (TOp ":" :: toks a ++ opt_toks (fun v => TOp "=" :: toks v) v ++ TNewline :: r) Ot eq_refl eq_refl) as X0. cbn [toks app] in X0.
        estep X0. cb. cbn [is_single].
        estep (reads_at read a LExpr _ Oa SV). estep V. apply E_const.
      + cbn [app]. rewrite <- ?app_assoc. cbn [app]. rewrite <- ?app_assoc. cbn [app]. eapply E_ext; [exists 0; intros n _; rewrite simple_expr by reflexivity; reflexivity|]. unfold p_exprstmt.
        set (R := TOp ":" :: toks a ++ opt_toks (fun v => TOp "=" :: toks v) v ++ TNewline :: r).
        assert (X : E (fun n => p_stars n (TOp "(" :: toks t ++ TOp ")" :: R)) (Some (t, R))).
        { assert (Y : E (fun n => p n LExpr (TOp "(" :: toks t ++ TOp ")" :: R)) (Some (t, R))).
          { apply (up LPrim); [|reflexivity|unfold R; reflexivity]. apply E_S. cbn [p].
            assert (G : E (fun n => p_atom n (TOp "(" :: toks t ++ TOp ")" :: R)) (Some (t, R))).
            { apply group; [now apply toks_kwq|now apply toks_op|now apply (ok_not_starred read)|]. now apply (reads_at read). }
            estep G. estep (trail_stop t R eq_refl). apply E_const. }
          unfold p_stars.
          assert (Z : E (fun n => p_list n KStarExpr (TOp "(" :: toks t ++ TOp ")" :: R)) ([IExpr t], false, R)).
          { apply E_S. cbn [p_list]. apply (E_S (fun n => match p_item n KStarExpr (TOp "(" :: toks t ++ TOp ")" :: R) with _ => _ end)). cbn [p_item]. cb.
            estep Y. unfold R. cb. apply E_const. }
          estep Z. cbn [exprs_of tuple_or_single]. rewrite (ok_not_starred read t Ot). apply E_const. }
        estep X. unfold R. cb. rewrite Hx. estep (reads_at read a LExpr _ Oa SV). estep V. apply E_const.
    - (* AugAssign *) unfold op. apply andb_true_iff in Ho as [Ho Ov]. apply andb_true_iff in Ho as [Ot Hx].
      assert (B : begins atom1 (toks t ++ [TOp (binop_text o ++ "=")] ++ toks v ++ TNewline :: r) = true) by (apply begins_app; eapply toks_begin; eauto).
      rewrite <- !app_assoc. eapply E_ext; [exists 0; intros n _; rewrite simple_expr by (auto; now apply toks_ids); reflexivity|]. unfold p_exprstmt. cbn [app].
      destruct (aug_stops o (toks v ++ TNewline :: r)) as (A1 & A2 & A3).
      estep (stars_ok t (TOp (binop_text o ++ "=") :: toks v ++ TNewline :: r) Ot A1 A2). rewrite A3, augq_text, Hx. estep (rhs_ok v (TNewline :: r) Ov eq_refl eq_refl). apply E_const.
    - (* Return *) cbn [app p_simple String.eqb Ascii.eqb Bool.eqb]. destruct e as [e|]; cbn [opt_toks app ends_simple]; [|apply E_const]. cbn [ok_o] in Ho.
      rewrite ends_toks by exact Ho. estep (stars_ok e (TNewline :: r) Ho eq_refl eq_refl). apply E_const.
    - exists 0. reflexivity.
    - exists 0. reflexivity.
    - exists 0. reflexivity.
    - (* Delete *) apply andb_true_iff in Ho as [Hn Ho]. cbn [app p_simple String.eqb Ascii.eqb Bool.eqb].
      assert (HF : Forall2 (RI KTarget (stops LPrim)) (map toks l) (map IExpr l)).
      { apply Forall2_maps. apply forallb_Forall_In in Ho. eapply Forall_impl; [|exact Ho]. cbn beta. intros t [Ht _]. apply andb_true_iff in Ht as [Ht Td].
        apply target_item; auto. now apply deltarget_target. }
      assert (NE : nonempty (map IExpr l) = true) by (destruct l; [discriminate|reflexivity]).
      unfold commas. estep (list_ok KTarget (stops LPrim) (map toks l) (map IExpr l) (TNewline :: r) (fun _ => eq_refl) HF NE eq_refl eq_refl). rewrite exprs_of_map.
      assert (DT : forallb is_deltarget l = true). { clear - Ho. induction l as [|t l IHl]; [reflexivity|]. cbn [forallb] in *. apply andb_true_iff in Ho as [Ht Ho]. apply andb_true_iff in Ht as [_ ->]. now rewrite IHl. }
      rewrite DT. destruct l; [discriminate|]. apply E_const.
    - (* Assert *) apply andb_true_iff in Ho as [Ot Om]. cbn [app p_simple String.eqb Ascii.eqb Bool.eqb]. rewrite <- app_assoc.
      destruct m as [m|]; cbn [opt_toks app].
      + estep (reads_at read t LExpr (TOp "," :: toks m ++ TNewline :: r) Ot eq_refl). cb. estep (reads_at read m LExpr (TNewline :: r) Om eq_refl). apply E_const.
      + estep (reads_at read t LExpr (TNewline :: r) Ot eq_refl). cb. apply E_const.
    - (* Global *) apply andb_true_iff in Ho as [Hn Ho]. cbn [app p_simple String.eqb Ascii.eqb Bool.eqb]. estep (names_ok l (TNewline :: r) Hn eq_refl). apply E_const.
    - apply andb_true_iff in Ho as [Hn Ho]. cbn [app p_simple String.eqb Ascii.eqb Bool.eqb]. estep (names_ok l (TNewline :: r) Hn eq_refl). apply E_const.
    - (* Raise *) apply andb_true_iff in Ho as [Ho Oc]. apply andb_true_iff in Ho as [Hx Oe]. cbn [app p_simple String.eqb Ascii.eqb Bool.eqb].
      destruct e as [e|]; [|destruct c; [discriminate|exists 0; reflexivity]]. cbn [opt_toks ok_o] in *. rewrite <- !app_assoc. rewrite ends_toks by exact Oe.
      destruct c as [c|]; cbn [opt_toks app].
      + estep (reads_at read e LExpr (TKw "from" :: toks c ++ TNewline :: r) Oe eq_refl). cb. estep (reads_at read c LExpr (TNewline :: r) Oc eq_refl). apply E_const.
      + estep (reads_at read e LExpr (TNewline :: r) Oe eq_refl). cb. apply E_const.
    - (* TypeAlias *) apply andb_true_iff in Ho as [Ho Ov]. apply andb_true_iff in Ho as [Ox Ot]. destruct x; try discriminate. cbn [toks app p_simple String.eqb Ascii.eqb Bool.eqb].
      unfold p_alias. cbn [idq]. rewrite <- !app_assoc. estep (tps_ok tps (op "=" ++ toks v ++ TNewline :: r) Ot eq_refl).
      unfold op. cbn [app]. cb. estep (reads_at read v LExpr (TNewline :: r) Ov eq_refl). apply E_const.
  Qed.
  Lemma simples_ok s r : is_simple s = true -> ok_stmt read s = true -> E (fun n => p_simples n (head_toks "if" s ++ TNewline :: r)) (Some ([s], r)).
  Proof. intros Hs Ho. apply E_S. cbn [p_simples]. estep (simple_ok s r Hs Ho). cbn [opq nlq]. apply E_const. Qed.
  Lemma simple_stmt s r : is_simple s = true -> ok_stmt read s = true -> indentq r = None -> E (fun n => p_stmt n (head_toks "if" s ++ TNewline :: r)) (Some ([s], r)).
  Proof.
    intros Hs Ho Hr. apply E_S. assert (X := simples_ok s r Hs Ho). assert (HP := head_plain "if" s).
    assert (Z : forall n, p_stmt (S n) (head_toks "if" s ++ TNewline :: r) = p_simples n (head_toks "if" s ++ TNewline :: r)).
    { intros n. destruct s as [e|l0|module names level|targets v|t a v simple|t o v|e| | | |l|t m|l|l|e c|star body handlers orelse finalbody|x tps bases kws body decorators
        |is_async x tps args body decorators returns|is_async t iter body orelse|t body orelse|t body orelse|is_async items body|e cs|x tps v]; try discriminate; try reflexivity;
        apply stmt_expr; auto; cbn [ok_stmt] in Ho; cbn [head_toks].
      - eapply toks_begin; eauto.
      - apply andb_true_iff in Ho as [Ho Ov]. apply andb_true_iff in Ho as [Hn Ot]. now apply hd_atom.
      - apply andb_true_iff in Ho as [Ho _]. apply andb_true_iff in Ho as [Ho _]. apply andb_true_iff in Ho as [Ho _]. destruct simple; [|reflexivity].
        cbn [app]. apply begins_app. eapply toks_begin; eauto.
      - apply andb_true_iff in Ho as [Ho _]. apply andb_true_iff in Ho as [Ho _]. apply begins_app. eapply toks_begin; eauto. }
    eapply E_ext; [exists 0; intros n _; apply Z|exact X].
  Qed.
End Parse.
