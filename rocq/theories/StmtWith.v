(** The items of a with statement are read as the items. The parenthesized form is tried first: it fails, or gives the same. *)
From Verif Require Import Base UnparseModel PyGrammar PyStmt UnparseSpec StmtSpec UnparseLex UnparseToks UnparseText UnparseParse StmtToks StmtParse.
Open Scope string_scope.
Open Scope list_scope.

Ltac cb := cbn [opq kwq String.eqb Ascii.eqb Bool.eqb].

Definition alt1 (n : nat) (ts : list tok) : option (list (expr * option expr) * list tok) :=
  let? r := opq "(" ts in let? (l, r1) := p_witems n r in
  let? r2 := opq ")" (match opq "," r1 with Some r2 => r2 | None => r1 end) in let? r3 := opq ":" r2 in Some (l, r3).

Section With.
  Variable read : string -> string.
  Notation ok := (ok read).
  Notation IH := (fun e (_ : size e < _) => parse_ok read e).

  Definition grouped (e : expr) : bool :=
    match e with EBinOp _ _ _ | EUnary _ _ | EBool _ _ | ECompare _ _ | EIfExp _ _ _ | ELambda _ _ | EAwait _ => true | _ => false end.
  (** What is between the parentheses is read as the expression. *)
  Lemma up_toks L e x body rest : ok x = true -> Nat.leb (rank L) (rank LExpr) = true -> E (fun n => p n L (toks x ++ body ++ TOp ")" :: rest)) (Some (e, TOp ")" :: rest)) ->
    E (fun n => p n LExpr (toks x ++ body ++ TOp ")" :: rest)) (Some (e, TOp ")" :: rest)).
  Proof.
    intros Ho HL H. apply (up L); auto. apply forallb_forall. intros K I. unfold upto in I. apply filter_In in I as [_ I]. apply andb_true_iff in I as [_ I].
    apply andb_true_iff. split; [destruct K; reflexivity|]. apply begins_hdok; [apply begins_app; now apply (toks_begin read)|]. intros ->. discriminate.
  Qed.
  Lemma inner_ok e rest : grouped e = true -> ok e = true -> exists body, (forall R, toks e ++ R = TOp "(" :: body ++ TOp ")" :: R) /\
    E (fun n => p n LExpr (body ++ TOp ")" :: rest)) (Some (e, TOp ")" :: rest)).
  Proof.
    intros Hg Ho. destruct e; try discriminate; cbn [UnparseSpec.ok] in Ho.
    - (* BinOp *) apply andb_true_iff in Ho as [O1 O2]. exists (toks e1 ++ TOp (binop_text o) :: toks e2). split; [intros R; cbn [toks op]; now rewrite <- !app_assoc|].
      rewrite <- !app_assoc. cbn [app]. change (TOp (binop_text o) :: toks e2 ++ TOp ")" :: rest) with ((TOp (binop_text o) :: toks e2) ++ TOp ")" :: rest).
      apply (up_toks (plevel o)); auto; [destruct o; reflexivity|]. apply (binop_ok read (S (size e1 + size e2)) IH); auto; lia.
    - (* Unary *) set (t := match o with Not => TKw "not" | _ => TOp (unop_text o) end). exists (t :: toks e). split; [intros R; cbn [toks op]; now rewrite <- !app_assoc|]. cbn [app].
      apply (up (match o with Not => LInv | _ => LFactor end)).
      + apply E_S. destruct o; cbn [p app unop_text]; unfold t; cbn [unq unop_text assoc String.eqb Ascii.eqb Bool.eqb kwq].
        1,3,4: estep (reads_at read e LFactor (TOp ")" :: rest) Ho eq_refl); apply E_const.
        estep (reads_at read e LInv (TOp ")" :: rest) Ho eq_refl). apply E_const.
      + destruct o; reflexivity.
      + destruct o; reflexivity.
    - (* Bool *) apply andb_true_iff in Ho as [O1 Ho]. destruct l as [|x l]; [discriminate|]. destruct l as [|x2 l]; [discriminate|].
      exists (seps (TKw (boolop_text o)) (map toks (x :: x2 :: l))). split; [intros R; cbn [toks op]; now rewrite <- !app_assoc|].
      change (map toks (x :: x2 :: l)) with (toks x :: map toks (x2 :: l)). rewrite seps_flat, <- app_assoc.
      assert (HF : Forall (fun e => size e < S (list_sum (map size (x :: x2 :: l))) /\ ok e = true) (x :: x2 :: l)).
      { apply forallb_Forall_In in Ho. eapply Forall_impl; [|exact Ho]. cbn beta. intros c [Oc Hc]. split; auto. apply (sum_in size) in Hc. lia. }
      inversion HF as [|? ? [Hx Ox] HF2]. subst.
      apply (up_toks (match o with And => LConj | Or => LDisj end)); auto; [destruct o; reflexivity|].
      apply E_S. destruct o; cbn [p boolop_text].
      + estep (reads_at read x LInv (flat_map (fun c => TKw "and" :: toks c) (x2 :: l) ++ TOp ")" :: rest) Ox eq_refl).
        estep (ops_ok read _ IH "and" LInv (x2 :: l) (TOp ")" :: rest) HF2 (fun _ => eq_refl) eq_refl eq_refl). apply E_const.
      + estep (reads_at read x LConj (flat_map (fun c => TKw "or" :: toks c) (x2 :: l) ++ TOp ")" :: rest) Ox eq_refl).
        estep (ops_ok read _ IH "or" LConj (x2 :: l) (TOp ")" :: rest) HF2 (fun _ => eq_refl) eq_refl eq_refl). apply E_const.
    - (* Compare *) apply andb_true_iff in Ho as [Ho O3]. apply andb_true_iff in Ho as [O1 O2].
      exists (toks e ++ flat_map cmp_toks r). split; [intros R; cbn [toks op]; now rewrite <- !app_assoc|]. rewrite <- !app_assoc.
      assert (HF : Forall (fun p => size (snd p) < S (list_sum (map (fun p => match p with (_, e) => size e end) r)) /\ ok (snd p) = true) r).
      { apply forallb_Forall_In in O3. eapply Forall_impl; [|exact O3]. cbn beta. intros [o c] [Oc Hc]. split; auto. apply (sum_in (fun p => match p with (_, e) => size e end)) in Hc. cbn [snd]. lia. }
      destruct r as [|[o e'] r]; [discriminate|].
      apply (up_toks LCmp); auto. apply E_S. cbn [p].
      estep (reads_at read e LBor (flat_map cmp_toks ((o, e') :: r) ++ TOp ")" :: rest) O1 ltac:(destruct o; reflexivity)).
      estep (cmps_ok read _ IH ((o, e') :: r) (TOp ")" :: rest) HF eq_refl). apply E_const.
    - (* IfExp *) apply andb_true_iff in Ho as [Ho O3]. apply andb_true_iff in Ho as [O1 O2].
      exists (toks e1 ++ TKw "if" :: toks e2 ++ TKw "else" :: toks e3). split; [intros R; cbn [toks op]; rewrite <- !app_assoc; cbn [app]; now rewrite <- !app_assoc|].
      rewrite <- !app_assoc. cbn [app]. rewrite <- !app_assoc. cbn [app].
      apply E_S. cbn [p]. rewrite begins_kw by (auto; apply begins_app; now apply (toks_begin read)).
      estep (reads_at read e1 LDisj (TKw "if" :: toks e2 ++ TKw "else" :: toks e3 ++ TOp ")" :: rest) O1 eq_refl). cb.
      estep (reads_at read e2 LDisj (TKw "else" :: toks e3 ++ TOp ")" :: rest) O2 eq_refl). cb.
      estep (reads_at read e3 LExpr (TOp ")" :: rest) O3 eq_refl). apply E_const.
    - (* Lambda *) apply andb_true_iff in Ho as [O1 O2].
      exists (TKw "lambda" :: toks_args a ++ TOp ":" :: toks e). split; [intros R; cbn [toks op app]; fold toks_args; rewrite <- !app_assoc; cbn [app]; now rewrite <- !app_assoc|].
      cbn [app]. rewrite <- !app_assoc. cbn [app]. apply E_S. cbn [p]. cb.
      destruct (params_ok read (S (size_args a)) IH false a (TOp ":" :: toks e ++ TOp ")" :: rest) ltac:(lia) O1 eq_refl eq_refl) as (its & Hl & Hb).
      { apply E_S. exists 0. intros [|n] _; cbn [p_list]; [reflexivity|]. cbn [p_item]. cb. destruct n; reflexivity. }
      estep Hl. rewrite Hb. cb. estep (reads_at read e LExpr (TOp ")" :: rest) O2 eq_refl). apply E_const.
    - (* Await *) exists (TKw "await" :: toks e). split; [intros R; cbn [toks op]; now rewrite <- !app_assoc|]. cbn [app].
      apply (up LAwait); [|reflexivity|reflexivity]. apply E_S. cbn [p]. cb. estep (reads_at read e LPrim (TOp ")" :: rest) Ho eq_refl). apply E_const.
  Qed.

  (** ** With items *)
  Lemma witem_none e rest : ok e = true -> stops LExpr rest = true -> kwq "as" rest = None -> E (fun n => p_witem n (toks e ++ rest)) (Some (e, None, rest)).
  Proof. intros Ho Hr Ha. unfold p_witem. estep (reads_at read e LExpr rest Ho Hr). rewrite Ha. apply E_const. Qed.
  Lemma witem_ok i rest : ok_witem read i = true -> (exists r, rest = TOp "," :: r \/ rest = TOp ":" :: r) -> E (fun n => p_witem n (witem_toks i ++ rest)) (Some (i, rest)).
  Proof.
    intros Ho (r & Hr). destruct i as [e [t|]]; unfold ok_witem in Ho; cbn [fst snd] in Ho; apply andb_true_iff in Ho as [Oe Ot]; unfold witem_toks; cbn [fst snd opt_toks].
    - apply andb_true_iff in Ot as [Ot Tt]. rewrite <- app_assoc. cbn [app]. unfold p_witem. estep (reads_at read e LExpr (TKw "as" :: toks t ++ rest) Oe eq_refl). cb.
      assert (S : stops LPrim rest = true) by (destruct Hr as [-> | ->]; reflexivity).
      estep (target_item read t Ot Tt rest S). rewrite (ok_not_starred read t Ot). replace (next_op [","; ")"; ":"] rest) with true by (destruct Hr as [-> | ->]; reflexivity). apply E_const.
    - rewrite app_nil_r. apply witem_none; auto; destruct Hr as [-> | ->]; reflexivity.
  Qed.
  Lemma witems_ok l rest : nonempty l = true -> forallb (ok_witem read) l = true -> E (fun n => p_witems n (commas (map witem_toks l) ++ TOp ":" :: rest)) (Some (l, TOp ":" :: rest)).
  Proof.
    intros Hn Ho. induction l as [|i l IHl]; [discriminate|]. cbn [forallb] in Ho. apply andb_true_iff in Ho as [Oi Ho]. destruct l as [|j l].
    - cbn [map commas seps]. apply E_S. cbn [p_witems]. estep (witem_ok i (TOp ":" :: rest) Oi ltac:(eauto)). cb. apply E_const.
    - specialize (IHl eq_refl Ho). change (commas (map witem_toks (i :: j :: l))) with (witem_toks i ++ TOp "," :: commas (map witem_toks (j :: l))). rewrite <- app_assoc. cbn [app].
      apply E_S. cbn [p_witems]. estep (witem_ok i (TOp "," :: commas (map witem_toks (j :: l)) ++ TOp ":" :: rest) Oi ltac:(eauto)). cb. estep IHl. apply E_const.
  Qed.

  (** ** The parenthesized form *)
  (** The items of a tuple. *)
  Lemma tuple_witems l rest : nonempty l = true -> forallb (fun e => match e with EStarred x => ok x | _ => ok e end) l = true -> (exists r, rest = TOp ")" :: r \/ rest = TOp "," :: TOp ")" :: r) ->
    E (fun n => p_witems n (commas (map toks l) ++ rest)) (Some (map (fun e => (e, None)) l, rest)) /\ forallb (fun e => negb (is_starred e)) l = true
    \/ (E (fun n => p_witems n (commas (map toks l) ++ rest)) None \/ exists l' r, E (fun n => p_witems n (commas (map toks l) ++ rest)) (Some (l', TOp "," :: TOp "*" :: r)))
       /\ forallb (fun e => negb (is_starred e)) l = false.
  Proof.
    intros Hn Ho (r & Hr). induction l as [|e l IHl]; [discriminate|]. cbn [forallb] in Ho. apply andb_true_iff in Ho as [Oe Ho].
    destruct (is_starred e) eqn:Es.
    { right. split; [|cbn [forallb]; now rewrite Es]. left. destruct e; try discriminate. apply E_S. unfold p_witems, p_witem. fold p_witems. exists 0. intros n _.
      assert (X : exists q, commas (map toks (EStarred e :: l)) ++ rest = TOp "*" :: q).
      { destruct l; eexists; reflexivity. }
      destruct X as [q ->]. now rewrite bad_none. }
    assert (Oe' : ok e = true) by (destruct e; try exact Oe; discriminate).
    destruct l as [|e2 l].
    - left. split; [|cbn; now rewrite Es]. cbn [map commas seps]. apply E_S. cbn [p_witems].
      estep (witem_none e rest Oe' ltac:(destruct Hr as [-> | ->]; reflexivity) ltac:(destruct Hr as [-> | ->]; reflexivity)). destruct Hr as [-> | ->]; cb; [apply E_const|].
      exists 1. intros [|n] Hn'; [lia|]. cbn [p_witems]. unfold p_witem. now rewrite bad_none.
    - specialize (IHl eq_refl Ho). change (commas (map toks (e :: e2 :: l))) with (toks e ++ TOp "," :: commas (map toks (e2 :: l))).
      assert (W := witem_none e (TOp "," :: commas (map toks (e2 :: l)) ++ rest) Oe' eq_refl eq_refl).
      destruct IHl as [[IHl S]|[IHl S]].
      + left. split; [|cbn [forallb]; rewrite Es; exact S]. rewrite <- app_assoc. cbn [app]. apply E_S. cbn [p_witems]. estep W. cb. estep IHl. apply E_const.
      + right. split; [|cbn [forallb]; rewrite Es; exact S]. right. destruct IHl as [IHl|(l' & q & IHl)].
        * destruct (is_starred e2) eqn:Es2.
          -- destruct e2; try discriminate. assert (X : exists q, commas (map toks (EStarred e2 :: l)) ++ rest = TOp "*" :: q) by (destruct l; eexists; reflexivity).
             destruct X as [q X]. exists [(e, None)], q. rewrite <- app_assoc. cbn [app]. apply E_S. cbn [p_witems]. estep W. cb. estep IHl. rewrite X. apply E_const.
          -- exfalso. destruct IHl as [N0 HN]. cbn [forallb] in Ho. apply andb_true_iff in Ho as [Oe2 Ho].
             assert (Oe2' : ok e2 = true) by (destruct e2; try exact Oe2; discriminate).
             assert (X : exists q, E (fun n => p_witem n (commas (map toks (e2 :: l)) ++ rest)) (Some (e2, None, q))).
             { destruct l as [|e3 l].
               - cbn [map commas seps]. exists rest. apply witem_none; auto; destruct Hr as [-> | ->]; reflexivity.
               - change (commas (map toks (e2 :: e3 :: l))) with (toks e2 ++ TOp "," :: commas (map toks (e3 :: l))). rewrite <- app_assoc. cbn [app]. eexists. now apply witem_none. }
             destruct X as (q & N1 & X). specialize (HN (1 + (N0 + N1)) ltac:(lia)). cbn [p_witems plus] in HN. rewrite X in HN by lia. destruct (let? r1 := opq "," q in p_witems (N0 + N1) r1) as [[]|]; discriminate.
        * exists ((e, None) :: l'), q. rewrite <- app_assoc. cbn [app]. apply E_S. cbn [p_witems]. estep W. cb. estep IHl. apply E_const.
  Qed.
  Lemma alt1_other ts n : opq "(" ts = None -> alt1 n ts = None.
  Proof. intros H. unfold alt1. now rewrite H. Qed.
  Definition plain_tuple (e : expr) : bool := match e with ETuple (x :: m) => forallb (fun e => negb (is_starred e)) (x :: m) | _ => false end.
  (** Where the parenthesized form ends: before a colon or not. *)
  Lemma alt1_ok : forall e R, ok e = true -> (opq ":" R = None -> E (fun n => alt1 n (toks e ++ R)) None) /\
    (forall r, R = TOp ":" :: r -> plain_tuple e = false -> E (fun n => alt1 n (toks e ++ R)) None \/ E (fun n => alt1 n (toks e ++ R)) (Some ([(e, None)], r))).
  Proof.
    assert (Z : forall ts, (forall n, alt1 n ts = None) -> E (fun n => alt1 n ts) None) by (intros ts H; exists 0; auto).
    assert (G : forall e R, grouped e = true -> ok e = true -> (opq ":" R = None -> E (fun n => alt1 n (toks e ++ R)) None) /\
      (forall r, R = TOp ":" :: r -> plain_tuple e = false -> E (fun n => alt1 n (toks e ++ R)) None \/ E (fun n => alt1 n (toks e ++ R)) (Some ([(e, None)], r)))).
    { intros e R Hg Ho. destruct (inner_ok e R Hg Ho) as (body & Eb & H).
      assert (W : E (fun n => p_witems n (body ++ TOp ")" :: R)) (Some ([(e, None)], TOp ")" :: R))).
      { apply E_S. cbn [p_witems]. unfold p_witem. estep H. cb. apply E_const. }
      rewrite Eb. unfold alt1. cb. split.
      - intros HR. estep W. cb. rewrite HR. apply E_const.
      - intros r -> _. right. estep W. cb. apply E_const. }
    fix IHe 1. intros e R Ho. assert (G' := G e R). destruct e; cbn [UnparseSpec.ok] in Ho; try discriminate; try (exact (G' eq_refl Ho)); clear G'.
    - (* Name *) split; intros; [|left]; apply Z; intros; now apply alt1_other.
    - (* Const *) split; intros; [|left]; apply Z; intros; apply alt1_other; destruct c; reflexivity.
    - (* Named *) apply andb_true_iff in Ho as [O1 O2]. destruct e1; try discriminate. cbn [toks]. unfold op. cbn [app].
      assert (W : E (fun n => alt1 n (TOp "(" :: TId x :: TOp ":=" :: (toks e2 ++ [TOp ")"]) ++ R)) None).
      { unfold alt1. cb.
        assert (W : E (fun n => p_witems n (TId x :: TOp ":=" :: (toks e2 ++ [TOp ")"]) ++ R)) (Some ([(EName x, None)], TOp ":=" :: (toks e2 ++ [TOp ")"]) ++ R))).
        { apply E_S. cbn [p_witems]. assert (X := witem_none (EName x) (TOp ":=" :: (toks e2 ++ [TOp ")"]) ++ R) O1 eq_refl eq_refl). cbn [toks app] in X. estep X. cb. apply E_const. }
        estep W. cb. apply E_const. }
      split; intros; [|left]; exact W.
    - (* Tuple *) cbn [toks]. unfold op. rewrite <- !app_assoc. cbn [app]. destruct l as [|x l].
      + cbn [map tuple_toks app]. assert (W : E (fun n => alt1 n (TOp "(" :: TOp ")" :: R)) None).
        { unfold alt1. cb. exists 0. intros [|n] _; [reflexivity|]. cbn [p_witems]. unfold p_witem. now rewrite bad_none. }
        split; intros; [|left]; exact W.
      + assert (X : exists rest, (forall R', tuple_toks (map toks (x :: l)) ++ TOp ")" :: R' = commas (map toks (x :: l)) ++ rest R') /\ forall R', rest R' = TOp ")" :: R' \/ rest R' = TOp "," :: TOp ")" :: R').
        { destruct l as [|y l]; [exists (fun R' => TOp "," :: TOp ")" :: R')|exists (fun R' => TOp ")" :: R')]; (split; [intros R'|auto]); [|reflexivity].
          cbn [map tuple_toks commas seps op]. now rewrite <- app_assoc. }
        destruct X as (rest & EX & Hrest). rewrite EX. unfold alt1. cb.
        destruct (tuple_witems (x :: l) (rest R) eq_refl Ho ltac:(exists R; apply Hrest)) as [[W S]|[W S]].
        * split; [|intros r -> Hp; cbn [plain_tuple] in Hp; congruence]. intros HR. estep W. destruct (Hrest R) as [-> | ->]; cb; rewrite HR; apply E_const.
        * assert (W' : E (fun n => alt1 n (TOp "(" :: commas (map toks (x :: l)) ++ rest R)) None).
          { unfold alt1. cb. destruct W as [W|(l' & q & W)]; estep W; [apply E_const|]. cb. apply E_const. }
          split; intros; [|left]; exact W'.
    - split; intros; [|left]; apply Z; intros; now apply alt1_other.
    - split; intros; [|left]; apply Z; intros; now apply alt1_other.
    - split; intros; [|left]; apply Z; intros; now apply alt1_other.
    - split; intros; [|left]; apply Z; intros; now apply alt1_other.
    - split; intros; [|left]; apply Z; intros; now apply alt1_other.
    - (* Gen *) apply andb_true_iff in Ho as [Ho Og]. apply andb_true_iff in Ho as [Oe On]. cbn [toks]. unfold op. rewrite <- !app_assoc. cbn [app].
      destruct (comps_head g (TOp ")" :: R) On) as (C1 & C2 & C3).
      assert (W : E (fun n => alt1 n (TOp "(" :: toks e ++ flat_map toks_comp g ++ TOp ")" :: R)) None).
      { unfold alt1. cb.
        assert (C4 : kwq "as" (flat_map toks_comp g ++ TOp ")" :: R) = None /\ opq ")" (flat_map toks_comp g ++ TOp ")" :: R) = None).
        { destruct g as [|[t i ifs []] g]; [discriminate|split; reflexivity..]. }
        destruct C4 as [C4 C5].
        assert (W : E (fun n => p_witems n (toks e ++ flat_map toks_comp g ++ TOp ")" :: R)) (Some ([(e, None)], flat_map toks_comp g ++ TOp ")" :: R))).
        { apply E_S. cbn [p_witems]. estep (witem_none e (flat_map toks_comp g ++ TOp ")" :: R) Oe (fi_stops LExpr _ C1) C4). rewrite C2. apply E_const. }
        estep W. rewrite C2, C5. apply E_const. }
      split; intros; [|left]; exact W.
    - split; intros; [|left]; apply Z; intros; now apply alt1_other.
    - (* Attr *) apply andb_true_iff in Ho as [Ho _]. cbn [toks]. rewrite <- !app_assoc. destruct (IHe e (op "." ++ [TId x] ++ R) Ho) as [A _]. split; intros; [|left]; now apply A.
    - apply andb_true_iff in Ho as [Ho _]. cbn [toks]. rewrite <- !app_assoc. unfold op. cbn [app]. match goal with |- context [toks ?e ++ TOp "[" :: ?r] => destruct (IHe e (TOp "[" :: r) Ho) as [A _] end.
      split; intros; [|left]; now apply A.
    - apply andb_true_iff in Ho as [Ho _]. apply andb_true_iff in Ho as [Ho _]. cbn [toks]. rewrite <- !app_assoc. unfold op. cbn [app].
      match goal with |- context [toks ?e ++ TOp "(" :: ?r] => destruct (IHe e (TOp "(" :: r) Ho) as [A _] end. split; intros; [|left]; now apply A.
    - (* Yield *) assert (W : forall q, E (fun n => alt1 n (TOp "(" :: TKw "yield" :: q)) None).
      { intros q. unfold alt1. cb. exists 0. intros [|n] _; [reflexivity|]. cbn [p_witems]. unfold p_witem. now rewrite dead_none. }
      cbn [toks]. unfold op. cbn [app]. split; intros; [|left]; apply W.
    - assert (W : forall q, E (fun n => alt1 n (TOp "(" :: TKw "yield" :: q)) None).
      { intros q. unfold alt1. cb. exists 0. intros [|n] _; [reflexivity|]. cbn [p_witems]. unfold p_witem. now rewrite dead_none. }
      cbn [toks]. unfold op. cbn [app]. split; intros; [|left]; apply W.
    - split; intros; [|left]; apply Z; intros; now apply alt1_other.
  Qed.
  Theorem with_ok l rest : nonempty l = true -> forallb (ok_witem read) l = true -> clash l = false ->
    E (fun n => p_with n (commas (map witem_toks l) ++ TOp ":" :: rest)) (Some (l, rest)).
  Proof.
    intros Hn Ho Hc. assert (W := witems_ok l rest Hn Ho).
    change (E (fun n => match alt1 n (commas (map witem_toks l) ++ TOp ":" :: rest) with Some x => Some x | None =>
      let? (l, r1) := p_witems n (commas (map witem_toks l) ++ TOp ":" :: rest) in let? r2 := opq ":" r1 in Some (l, r2) end) (Some (l, rest))).
    assert (A : E (fun n => alt1 n (commas (map witem_toks l) ++ TOp ":" :: rest)) None \/ E (fun n => alt1 n (commas (map witem_toks l) ++ TOp ":" :: rest)) (Some (l, rest))).
    { destruct l as [|[e o] l]; [discriminate|]. cbn [forallb] in Ho. apply andb_true_iff in Ho as [Oi Ho]. unfold ok_witem in Oi. cbn [fst snd] in Oi. apply andb_true_iff in Oi as [Oe _].
      destruct o as [t|].
      - left. destruct l; [cbn [map commas seps]|change (commas (map witem_toks ((e, Some t) :: p :: l))) with (witem_toks (e, Some t) ++ TOp "," :: commas (map witem_toks (p :: l)))];
          unfold witem_toks at 1; cbn [fst snd opt_toks]; rewrite <- !app_assoc; now apply alt1_ok.
      - destruct l as [|q l].
        + cbn [map commas seps]. unfold witem_toks. cbn [fst snd opt_toks]. rewrite app_nil_r. apply (alt1_ok e (TOp ":" :: rest) Oe); auto.
        + left. change (commas (map witem_toks ((e, None) :: q :: l))) with (witem_toks (e, None) ++ TOp "," :: commas (map witem_toks (q :: l))).
          unfold witem_toks at 1. cbn [fst snd opt_toks]. rewrite app_nil_r, <- !app_assoc. now apply alt1_ok. }
    destruct A as [A|A]; estep A; [|apply E_const]. estep W. cb. apply E_const.
  Qed.
End With.
