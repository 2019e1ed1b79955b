(** The tokens of a covered expression are read as the expression. *)
From Verif Require Import Base UnparseModel PyGrammar UnparseSpec UnparseLex UnparseToks UnparseText.
Open Scope string_scope.
Open Scope list_scope.

(** ** From some bound on *)
Definition E {A} (f : nat -> A) (x : A) : Prop := exists N, forall n, N <= n -> f n = x.
Lemma E_S {A} (f : nat -> A) x : E (fun n => f (S n)) x -> E f x.
Proof. intros [N H]. exists (S N). intros [|n] Hn; [lia|]. apply H. lia. Qed.
Lemma E_const {A} (x : A) : E (fun _ => x) x.
Proof. exists 0. auto. Qed.
Lemma E_ext {A} (f g : nat -> A) x : (exists N, forall n, N <= n -> f n = g n) -> E g x -> E f x.
Proof. intros [N H] [M G]. exists (N + M). intros n Hn. rewrite H by lia. apply G. lia. Qed.
Ltac estep H :=
  let N := fresh "N" in let HN := fresh "HN" in let n := fresh "n" in let Hn := fresh "Hn" in
  let HH := fresh "HH" in
  pose proof H as HH; destruct HH as [N HN]; eapply E_ext; [exists N; intros n Hn; cbv beta; rewrite (HN n Hn); reflexivity|]; clear N HN; cbv beta iota.

(** ** What ends an expression *)
Definition levels : list level := [LPrim; LAwait; LPower; LFactor; LTerm; LSum; LShift; LBand; LBxor; LBor; LCmp; LInv; LConj; LDisj; LExpr; LNamed].
Definition isn {A} (o : option A) : bool := match o with None => true | Some _ => false end.
(** The tokens do not go on with something of this level. *)
Definition stop (L : level) (ts : list tok) : bool :=
  match L with
  | LPrim => isn (opq "." ts) && isn (opq "(" ts) && isn (opq "[" ts)
  | LAwait | LFactor | LInv => true
  | LPower => isn (opq "**" ts)
  | LTerm | LSum | LShift | LBand | LBxor | LBor => isn (binq L ts)
  | LCmp => isn (cmpq ts)
  | LConj => isn (kwq "and" ts)
  | LDisj => isn (kwq "or" ts)
  | LExpr => isn (kwq "if" ts)
  | LNamed => isn (opq ":=" ts)
  end.
(** A name, and the operator. *)
Definition nameop (y : string) (ts : list tok) : option (string * list tok) := let? (x, r) := idq ts in let? r1 := opq y r in Some (x, r1).
(** The tokens do not begin with a prefix of this level. *)
Definition hdok (L : level) (ts : list tok) : bool :=
  match L with
  | LAwait => isn (kwq "await" ts)
  | LFactor => isn (unq ts)
  | LInv => isn (kwq "not" ts)
  | LExpr => isn (kwq "lambda" ts)
  | LNamed => isn (nameop ":=" ts)
  | _ => true
  end.
Definition next (L : level) : level :=
  match L with
  | LPrim => LAwait | LAwait => LPower | LPower => LFactor | LFactor => LTerm | LTerm => LSum | LSum => LShift | LShift => LBand | LBand => LBxor
  | LBxor => LBor | LBor => LCmp | LCmp => LInv | LInv => LConj | LConj => LDisj | LDisj => LExpr | LExpr => LNamed | LNamed => LNamed
  end.
Definition rank (L : level) : nat :=
  match L with
  | LPrim => 0 | LAwait => 1 | LPower => 2 | LFactor => 3 | LTerm => 4 | LSum => 5 | LShift => 6 | LBand => 7 | LBxor => 8 | LBor => 9 | LCmp => 10
  | LInv => 11 | LConj => 12 | LDisj => 13 | LExpr => 14 | LNamed => 15
  end.
Lemma isn_None {A} (o : option A) : isn o = true -> o = None.
Proof. now destruct o. Qed.

(** The loops stop there. *)
Lemma trail_stop e r : stop LPrim r = true -> E (fun n => p_trail n e r) (e, r).
Proof.
  intros H. cbn [stop] in H. apply andb_true_iff in H as [H H3]. apply andb_true_iff in H as [H1 H2]. apply isn_None in H1, H2, H3.
  apply E_S. cbn [p_trail]. exists 0. intros [|n] _; cbn [p_trailer]; [reflexivity|]. now rewrite H1, H2, H3.
Qed.
Lemma binl_stop L e r : isn (binq L r) = true -> E (fun n => p_binl n L e r) (e, r).
Proof. intros H. apply isn_None in H. exists 0. intros [|n] _; cbn [p_binl]; [reflexivity|]. now rewrite H. Qed.
Lemma cmps_stop r : isn (cmpq r) = true -> E (fun n => p_cmps n r) ([], r).
Proof. intros H. apply isn_None in H. exists 0. intros [|n] _; cbn [p_cmps]; [reflexivity|]. now rewrite H. Qed.
Lemma ops_stop kw L r : isn (kwq kw r) = true -> E (fun n => p_ops n kw L r) ([], r).
Proof. intros H. apply isn_None in H. exists 0. intros [|n] _; cbn [p_ops]; [reflexivity|]. now rewrite H. Qed.
Lemma up1 L ts e r : E (fun n => p n L ts) (Some (e, r)) -> stop (next L) r = true -> hdok (next L) ts = true -> L <> LNamed -> E (fun n => p n (next L) ts) (Some (e, r)).
Proof.
  intros H Hs Hh HL. apply E_S.
  destruct L; cbn [next stop hdok] in *; try congruence; cbn [p tighter]; try apply isn_None in Hh; rewrite ?Hh; estep H;
    try (estep (binl_stop _ e r Hs)); try apply E_const.
  - apply isn_None in Hs. rewrite Hs. apply E_const.
  - estep (cmps_stop r Hs). apply E_const.
  - estep (ops_stop "and" LInv r Hs). apply E_const.
  - estep (ops_stop "or" LConj r Hs). apply E_const.
  - apply isn_None in Hs. rewrite Hs. apply E_const.
  - unfold nameop in Hh. rewrite Hh. apply isn_None in Hs. rewrite Hs. apply E_const.
Qed.
(** The levels above [L] up to [M]. *)
Definition upto (L M : level) : list level := filter (fun K => Nat.ltb (rank L) (rank K) && Nat.leb (rank K) (rank M)) levels.
Lemma up L M ts e r : E (fun n => p n L ts) (Some (e, r)) -> Nat.leb (rank L) (rank M) = true ->
  forallb (fun K => stop K r && hdok K ts) (upto L M) = true -> E (fun n => p n M ts) (Some (e, r)).
Proof.
  intros H HL HK. rewrite forallb_forall in HK.
  assert (X : forall k K, rank K = rank L + k -> rank K <= rank M -> E (fun n => p n K ts) (Some (e, r))).
  { induction k as [|k IH]; intros K EK LK.
    - assert (K = L) as -> by (destruct K, L; cbn in EK; try reflexivity; lia). exact H.
    - assert (exists K', next K' = K /\ K' <> LNamed /\ S (rank K') = rank K) as (K' & <- & NK & SK).
      { destruct K; [exfalso; cbn in EK; lia|exists LPrim|exists LAwait|exists LPower|exists LFactor|exists LTerm|exists LSum|exists LShift|exists LBand|exists LBxor|exists LBor|exists LCmp|exists LInv|exists LConj|exists LDisj|exists LExpr];
          repeat split; discriminate. }
      assert (I : In (next K') (upto L M)).
      { unfold upto. apply filter_In. split; [destruct K'; cbn; tauto|]. apply andb_true_iff. split; [apply Nat.ltb_lt|apply Nat.leb_le]; lia. }
      apply HK in I. apply andb_true_iff in I as [I1 I2]. apply up1; auto. apply IH; lia. }
  apply Nat.leb_le in HL. apply (X (rank M - rank L)); lia.
Qed.

(** ** How expressions begin *)
Definition atom1 (t : tok) : bool :=
  match t with TId _ | TConst _ | TF _ => true | TKw x => smem x ["None"; "True"; "False"] | TOp x => smem x ["..."; "("; "["; "{"] | _ => false end.
Definition begins (f : tok -> bool) (ts : list tok) : bool := match ts with t :: _ => f t | [] => false end.
Lemma begins_app f a b : begins f a = true -> begins f (a ++ b) = true.
Proof. now destruct a. Qed.
Lemma begins_hdok ts K : begins atom1 ts = true -> K <> LNamed -> hdok K ts = true.
Proof.
  destruct ts as [|t ts]; [discriminate|]. cbn [begins]. intros H HK. destruct t; cbn [atom1] in H; try discriminate.
  1, 4, 5: destruct K; try reflexivity; congruence.
  all: apply smem_In in H; cbn [In] in H; repeat (destruct H as [<-|H]; [destruct K; try reflexivity; congruence|]); destruct H.
Qed.
Lemma begins_op ts x : begins atom1 ts = true -> smem x ["..."; "("; "["; "{"] = false -> opq x ts = None.
Proof.
  destruct ts as [|t ts]; [discriminate|]. cbn [begins]. intros H HK. destruct t; cbn [atom1 opq] in *; try reflexivity.
  destruct (String.eqb_spec x x0) as [->|]; [congruence|reflexivity].
Qed.
Lemma begins_kw ts x : begins atom1 ts = true -> smem x ["None"; "True"; "False"] = false -> kwq x ts = None.
Proof.
  destruct ts as [|t ts]; [discriminate|]. cbn [begins]. intros H HK. destruct t; cbn [atom1 kwq] in *; try reflexivity.
  destruct (String.eqb_spec x x0) as [->|]; [congruence|reflexivity].
Qed.

Section Parse.
  Variable read : string -> string.
  Notation ok := (ok read).

  Lemma toks_begin : forall e, ok e = true -> begins atom1 (toks e) = true.
  Proof.
    fix IH 1. intros e Ho. destruct e; cbn [UnparseSpec.ok] in Ho; try discriminate; try reflexivity.
    - destruct c; reflexivity.
    - apply andb_true_iff in Ho as [Ho _]. cbn [toks]. apply begins_app. now apply IH.
    - apply andb_true_iff in Ho as [Ho _]. cbn [toks]. apply begins_app. now apply IH.
    - apply andb_true_iff in Ho as [Ho _]. apply andb_true_iff in Ho as [Ho _]. cbn [toks]. apply begins_app. now apply IH.
  Qed.
  Lemma nameop_toks y : isn (opq y [TOp "."]) && isn (opq y [TOp "("]) && isn (opq y [TOp "["]) = true ->
    forall e rest, ok e = true -> opq y rest = None -> nameop y (toks e ++ rest) = None.
  Proof.
    intros Hy. apply andb_true_iff in Hy as [Hy H3]. apply andb_true_iff in Hy as [H1 H2]. apply isn_None in H1, H2, H3. cbn in H1, H2, H3.
    fix IH 1. intros e rest Ho Hr. destruct e; cbn [UnparseSpec.ok] in Ho; try discriminate; try reflexivity.
    - cbn. now rewrite Hr.
    - destruct c; reflexivity.
    - apply andb_true_iff in Ho as [Ho _]. cbn [toks]. rewrite <- app_assoc. apply IH; auto. cbn. destruct (String.eqb y "."); [discriminate|reflexivity].
    - apply andb_true_iff in Ho as [Ho _]. cbn [toks]. rewrite <- app_assoc. apply IH; auto. cbn. destruct (String.eqb y "["); [discriminate|reflexivity].
    - apply andb_true_iff in Ho as [Ho _]. apply andb_true_iff in Ho as [Ho _]. cbn [toks]. rewrite <- app_assoc. apply IH; auto. cbn. destruct (String.eqb y "("); [discriminate|reflexivity].
  Qed.
  Lemma hdok_toks e rest K : ok e = true -> stop LNamed rest = true -> hdok K (toks e ++ rest) = true.
  Proof.
    intros Ho Hr. assert (K = LNamed \/ K <> LNamed) as [->|HK] by (destruct K; (now left) || (now right)).
    - cbn [hdok]. rewrite nameop_toks; auto. cbn in Hr. now apply isn_None in Hr.
    - apply begins_hdok; auto. apply begins_app. now apply toks_begin.
  Qed.

  (** ** The claim, for primaries and then for all levels *)
  Definition Q (e : expr) : Prop := forall rest y, is_strtok rest = false -> E (fun n => p_trail n e rest) y -> E (fun n => p n LPrim (toks e ++ rest)) (Some y).
  Definition stops (L : level) (ts : list tok) : bool := negb (is_strtok ts) && stop LPrim ts && forallb (fun K => stop K ts) (upto LPrim L).
  Lemma Q_prim e rest : Q e -> stops LPrim rest = true -> E (fun n => p n LPrim (toks e ++ rest)) (Some (e, rest)).
  Proof.
    intros HQ Hr. unfold stops in Hr. apply andb_true_iff in Hr as [Hr _]. apply andb_true_iff in Hr as [H1 H2]. apply negb_true_iff in H1.
    apply HQ; auto. now apply trail_stop.
  Qed.
  Lemma stops_prim L rest : stops L rest = true -> stops LPrim rest = true.
  Proof. unfold stops. intros H. apply andb_true_iff in H as [H _]. rewrite H. reflexivity. Qed.
  Lemma Q_all e L rest : ok e = true -> Q e -> stops L rest = true -> E (fun n => p n L (toks e ++ rest)) (Some (e, rest)).
  Proof.
    intros Ho HQ Hr. apply (up LPrim); [apply Q_prim; auto; eapply stops_prim; eauto|destruct L; reflexivity|].
    unfold stops in Hr. apply andb_true_iff in Hr as [_ Hr]. rewrite forallb_forall in *. intros K HK. apply andb_true_iff. split; [now apply Hr|].
    assert (K = LNamed \/ K <> LNamed) as [->|HN] by (destruct K; (now left) || (now right)).
    - apply hdok_toks; auto.
    - apply begins_hdok; auto. apply begins_app. now apply toks_begin.
  Qed.

  (** ** What no expression begins with *)
  Definition bad (x : string) : bool := negb (smem x ["..."; "("; "["; "{"; "+"; "-"; "~"]).
  Lemma bad_prim x r n : bad x = true -> p n LPrim (TOp x :: r) = None.
  Proof.
    intros H. destruct n as [|n]; [reflexivity|]. cbn [p]. destruct n as [|n]; [reflexivity|]. cbn [p_atom]. unfold bad in H. apply negb_true_iff in H.
    unfold smem in H. cbn [existsb] in H. repeat (apply orb_false_iff in H as [? H]). now rewrite H0, H1, H2, H3.
  Qed.
  Lemma bad_none x r : bad x = true -> forall n L, p n L (TOp x :: r) = None.
  Proof.
    intros H. assert (U : unq (TOp x :: r) = None).
    { unfold bad in H. apply negb_true_iff in H. unfold smem in H. cbn [existsb] in H. repeat (apply orb_false_iff in H as [? H]). cbn [unq assoc]. now rewrite H4, H5, H6. }
    induction n as [|n IH]; [reflexivity|]. intros L. destruct L; [now apply bad_prim|..]; cbn [p kwq idq]; rewrite ?U, ?IH; reflexivity.
  Qed.
  Lemma bad_item x r n k : bad x = true -> smem x ["*"; "**"; "/"; ":"] = false -> p_item n k (TOp x :: r) = None.
  Proof.
    intros H Hx. assert (B := bad_none x r H). destruct n as [|n]; [reflexivity|].
    unfold smem in Hx. cbn [existsb] in Hx. rewrite !(String.eqb_sym x) in Hx. repeat (apply orb_false_iff in Hx as [? Hx]).
    destruct k; cbn [p_item opq idq]; rewrite ?H0, ?H1, ?H2, ?H3, ?B; try reflexivity.
    - destruct n; cbn [p_opt]; rewrite ?B; cbn [opq]; rewrite ?H3; try rewrite B; reflexivity.
    - destruct n; reflexivity.
  Qed.
  Lemma bad_list x r k : bad x = true -> smem x ["*"; "**"; "/"; ":"] = false -> E (fun n => p_list n k (TOp x :: r)) ([], false, TOp x :: r).
  Proof. intros H Hx. apply E_S. cbn [p_list]. exists 0. intros n _. now rewrite bad_item. Qed.

  (** ** Lists *)
  (** The tokens are read as the item, if what follows satisfies [F]. *)
  Definition RI (k : kind) (F : list tok -> bool) (ts : list tok) (i : item) : Prop := forall rest, F rest = true -> E (fun n => p_item n k (ts ++ rest)) (Some (i, rest)).
  Lemma list_ok k F tss its rest : (forall r, F (TOp "," :: r) = true) -> Forall2 (RI k F) tss its -> nonempty its = true -> F rest = true -> opq "," rest = None ->
    E (fun n => p_list n k (seps (TOp ",") tss ++ rest)) (its, false, rest).
  Proof.
    intros HF H Hne Hr Hc. induction H as [|ts i tss its Hi H IH]; [discriminate|]. destruct H as [|ts' i' tss its Hi' H].
    - cbn [seps]. apply E_S. cbn [p_list]. estep (Hi rest Hr). rewrite Hc. apply E_const.
    - change (seps (TOp ",") (ts :: ts' :: tss)) with (ts ++ TOp "," :: seps (TOp ",") (ts' :: tss)). rewrite <- app_assoc. cbn [app].
      apply E_S. cbn [p_list]. estep (Hi (TOp "," :: seps (TOp ",") (ts' :: tss) ++ rest) (HF _)). cbn [opq]. rewrite String.eqb_refl. estep (IH eq_refl). apply E_const.
  Qed.
  Lemma list_trailing k F ts i rest : (forall r, F (TOp "," :: r) = true) -> RI k F ts i -> E (fun n => p_list n k rest) ([], false, rest) ->
    E (fun n => p_list n k (ts ++ TOp "," :: rest)) ([i], true, rest).
  Proof. intros HF Hi H. apply E_S. cbn [p_list]. estep (Hi (TOp "," :: rest) (HF _)). cbn [opq]. rewrite String.eqb_refl. estep H. apply E_const. Qed.
  (** A tuple's items. *)
  Definition one_item {A} (l : list A) : bool := match l with [_] => true | _ => false end.
  Lemma tuple_ok k F tss its x rest : (forall r, F (TOp "," :: r) = true) -> Forall2 (RI k F) tss its -> F (TOp x :: rest) = true ->
    bad x = true -> smem x ["*"; "**"; "/"; ":"; ","] = false ->
    E (fun n => p_list n k (tuple_toks tss ++ TOp x :: rest)) (its, one_item its, TOp x :: rest).
  Proof.
    intros HF H Hr Hb Hx. assert (Hx' : smem x ["*"; "**"; "/"; ":"] = false /\ String.eqb "," x = false).
    { unfold smem in *. cbn [existsb] in *. rewrite (String.eqb_sym ","). repeat (apply orb_false_iff in Hx as [? Hx]). rewrite H0, H1, H2, H3. auto. }
    destruct Hx' as [Hx1 Hx2].
    destruct H as [|ts i tss its Hi H]; [apply (bad_list x rest k); auto|]. destruct H as [|ts' i' tss its Hi' H].
    - cbn [tuple_toks one_item]. unfold op. rewrite <- app_assoc. cbn [app]. apply (list_trailing k F); auto. now apply bad_list.
    - apply (list_ok k F (ts :: ts' :: tss) (i :: i' :: its)); auto. cbn [opq]. now rewrite Hx2.
  Qed.
  Lemma exprs_of_map l : exprs_of (map IExpr l) = Some l.
  Proof. induction l as [|e l IH]; [reflexivity|]. cbn [map exprs_of]. now rewrite IH. Qed.

  (** What may follow an item. *)
  Definition fi (ts : list tok) : bool := stops LNamed ts && isn (opq ":" ts) && isn (opq "=" ts).
  Lemma stops_le L M ts : Nat.leb (rank L) (rank M) = true -> stops M ts = true -> stops L ts = true.
  Proof.
    unfold stops. intros H Hs. apply andb_true_iff in Hs as [-> Hs]. cbn [andb]. rewrite forallb_forall in *. intros K HK. apply Hs.
    unfold upto in *. apply filter_In in HK as [I HK]. apply filter_In. split; auto. apply andb_true_iff in HK as [-> HK]. cbn [andb].
    apply Nat.leb_le in HK, H. apply Nat.leb_le. lia.
  Qed.
  Lemma fi_stops L ts : fi ts = true -> stops L ts = true.
  Proof. unfold fi. intros H. apply andb_true_iff in H as [H _]. apply andb_true_iff in H as [H _]. eapply stops_le; [|exact H]. destruct L; reflexivity. Qed.

  Definition badtok (t : tok) : bool := match t with TOp x => bad x | _ => false end.
  (** What may follow an item of a subscript. *)
  Definition fs (ts : list tok) : bool := fi ts && begins badtok ts.
  Lemma badtok_none ts n L : begins badtok ts = true -> p n L ts = None.
  Proof. destruct ts as [|[]]; try discriminate. cbn [begins badtok]. intros H. now apply bad_none. Qed.
  (** What may follow a parameter. *)
  Definition fp (ann : bool) (ts : list tok) : bool := stops LExpr ts && isn (opq "=" ts) && isn (idq ts) && (if ann then isn (opq ":" ts) else true).

  Lemma Q_atom e : (forall rest, is_strtok rest = false -> E (fun n => p_atom n (toks e ++ rest)) (Some (e, rest))) -> Q e.
  Proof. intros H rest y Hr Hy. apply E_S. cbn [p]. estep (H rest Hr). estep Hy. apply E_const. Qed.
  Lemma group e body rest : kwq "yield" (body ++ TOp ")" :: rest) = None -> opq "*" (body ++ TOp ")" :: rest) = None -> is_starred e = false ->
    E (fun n => p n LNamed (body ++ TOp ")" :: rest)) (Some (e, TOp ")" :: rest)) -> E (fun n => p_atom n (TOp "(" :: body ++ TOp ")" :: rest)) (Some (e, rest)).
  Proof.
    intros H1 H2 H3 H. apply E_S. cbn [p_atom]. cbn [String.eqb Ascii.eqb Bool.eqb]. rewrite H1.
    assert (X : E (fun n => p_list n KStarNamed (body ++ TOp ")" :: rest)) ([IExpr e], false, TOp ")" :: rest)).
    { apply E_S. cbn [p_list]. apply (E_S (fun n => match p_item n KStarNamed (body ++ TOp ")" :: rest) with _ => _ end)). cbn [p_item]. rewrite H2. estep H. cbn [opq String.eqb Ascii.eqb Bool.eqb]. apply E_const. }
    estep X. cbn [exprs_of opq String.eqb Ascii.eqb Bool.eqb]. rewrite H3. apply E_const.
  Qed.

  (** ** The items of a parameter list *)
  Definition par (a : arg) : item := IParam a None.
  Definition args_items (a : arguments) : list item :=
    match a with
    | Args pos args v ko kd ka df =>
        args_pieces (fun i d => match i with IParam a _ => IParam a d | _ => i end) ISlash (IStar None) (fun i => match i with IParam a _ => IStar (Some a) | _ => i end)
          (fun i => match i with IParam a _ => IDParam a | _ => i end)
          (map par pos) (map par args) (option_map par v) (map par ko) kd (option_map par ka) df
    end.
  Lemma params_app l r : match r with IParam _ _ :: _ => False | _ => True end -> params (map (fun p => IParam (fst p) (snd p)) l ++ r) = (l, r).
  Proof. intros H. induction l as [|[a d] l IH]; cbn [map app params]; [destruct r as [|[]]; tauto|]. now rewrite IH. Qed.
  Lemma wd_par l m : map (fun p => match fst p with IParam a _ => IParam a (snd p) | _ => fst p end) (zip (map par l) m) = map (fun p => IParam (fst p) (snd p)) (zip l m).
  Proof. revert m. induction l as [|a l IH]; intros [|d m]; cbn; auto. now rewrite IH. Qed.
  Lemma zip_fst {A B} (l : list A) (m : list B) : List.length l <= List.length m -> map fst (zip l m) = l.
  Proof. revert m. induction l as [|a l IH]; intros [|d m] H; cbn in *; auto; [lia|]. rewrite IH; auto. lia. Qed.
  Lemma zip_snd {A B} (l : list A) (m : list B) : List.length m <= List.length l -> map snd (zip l m) = m.
  Proof. revert m. induction l as [|a l IH]; intros [|d m] H; cbn in *; auto; [lia|]. rewrite IH; auto. lia. Qed.
  Lemma defaults_some ds : defaults_of (map Some ds) = Some ds.
  Proof. induction ds as [|d ds IH]; [reflexivity|]. cbn [map defaults_of]. rewrite IH. now rewrite map_length, Nat.eqb_refl. Qed.
  Lemma defaults_ok k ds : defaults_of (repeat None k ++ map Some ds) = Some ds.
  Proof. induction k as [|k IH]; cbn [repeat app defaults_of]; [apply defaults_some|exact IH]. Qed.
  Lemma build_ok pos args v ko kd ka df : List.length df <= List.length pos + List.length args -> List.length kd = List.length ko ->
    build (args_items (Args pos args v ko kd ka df)) = Some (Args pos args v ko kd ka df).
  Proof.
    intros H1 H2. cbn [args_items]. unfold args_pieces. rewrite !wd_par, !map_length.
    set (ds := repeat None (List.length pos + List.length args - List.length df) ++ map Some df).
    assert (Hd : List.length ds = List.length pos + List.length args). { unfold ds. rewrite app_length, repeat_length, map_length. lia. }
    assert (Hf : List.length (firstn (List.length pos) ds) = List.length pos) by (rewrite firstn_length; lia).
    assert (Hk : List.length (skipn (List.length pos) ds) = List.length args) by (rewrite skipn_length; lia).
    set (tail := (match option_map par ka with Some i => [match i with IParam a _ => IDParam a | _ => i end] | None => [] end)).
    set (star := (match option_map par v with None => match map par ko with [] => [] | _ => [IStar None] end | Some a => [match a with IParam a _ => IStar (Some a) | _ => a end] end)).
    set (r1 := star ++ map (fun p => IParam (fst p) (snd p)) (zip ko kd) ++ tail).
    assert (S1 : match r1 with IParam _ _ :: _ => False | _ => True end).
    { unfold r1, star. destruct v as [v|]; cbn; auto. destruct ko as [|k ko]; cbn; auto. unfold tail. destruct ka; exact I. }
    assert (S2 : match r1 with ISlash :: _ => False | _ => True end).
    { unfold r1, star. destruct v as [v|]; cbn; auto. destruct ko as [|k ko]; cbn; auto. unfold tail. destruct ka; exact I. }
    assert (ST : match tail with IParam _ _ :: _ => False | _ => True end) by (unfold tail; destruct ka; exact I).
    assert (B : (let? (posonly, args0, r) :=
         (let (ps, r) := params (map (fun p => IParam (fst p) (snd p)) (zip pos (firstn (List.length pos) ds)) ++ (match map (fun p => IParam (fst p) (snd p)) (zip pos (firstn (List.length pos) ds)) with [] => [] | _ => [ISlash] end) ++
           map (fun p => IParam (fst p) (snd p)) (zip args (skipn (List.length pos) ds)) ++ r1) in
          match r with
          | ISlash :: r' => match ps with [] => None | _ => let (qs, r2) := params r' in Some (ps, qs, r2) end
          | _ => Some ([], ps, r)
          end) in Some (posonly, args0, r)) = Some (zip pos (firstn (List.length pos) ds), zip args (skipn (List.length pos) ds), r1)).
    { destruct pos as [|a pos].
      - cbn [zip map app]. rewrite params_app by exact S1. destruct r1 as [|[]]; try reflexivity. destruct S2.
      - destruct (firstn (List.length (a :: pos)) ds) as [|d fs0] eqn:F; [discriminate|]. rewrite params_app by exact I. cbn [zip map app]. rewrite params_app by exact S1. reflexivity. }
    unfold build. destruct (params _) as [ps r]. 
    assert (B' : match r with
          | ISlash :: r' => match ps with [] => None | _ => let (qs, r2) := params r' in Some (ps, qs, r2) end
          | _ => Some ([], ps, r)
          end = Some (zip pos (firstn (List.length pos) ds), zip args (skipn (List.length pos) ds), r1)).
    { match goal with |- ?x = _ => destruct x as [[[? ?] ?]|]; [exact B|discriminate] end. }
    rewrite B'. clear B B' ps r. cbv beta iota.
    rewrite !zip_snd by lia. rewrite firstn_skipn. unfold ds at 1. rewrite defaults_ok. cbv beta iota.
    assert (C : match r1 with
      | IStar v :: r' => let (ks, r3) := params r' in match v, ks with None, [] => None | _, _ => Some (v, ks, r3) end
      | _ => Some (None, [], r1)
      end = Some (v, zip ko kd, tail)).
    { unfold r1, star. destruct v as [v|].
      - cbn [option_map par app]. rewrite params_app by exact ST. reflexivity.
      - cbn [option_map]. destruct ko as [|k ko].
        + cbn. unfold tail. destruct ka; reflexivity.
        + cbn [map app]. destruct kd as [|d kd]; [discriminate|]. rewrite params_app by exact ST. reflexivity. }
    rewrite C. cbv beta iota. rewrite !zip_fst by lia. rewrite zip_snd by lia.
    assert (K : match tail with [] => Some None | [IDParam a] => Some (Some a) | _ => None end = Some ka) by (unfold tail; destruct ka; reflexivity).
    rewrite K. reflexivity.
  Qed.

  Section Step.
    Variable N : nat.
    Hypothesis IH : forall e, size e < N -> ok e = true -> Q e.
    Lemma D e L rest : size e < N -> ok e = true -> stops L rest = true -> E (fun n => p n L (toks e ++ rest)) (Some (e, rest)).
    Proof. intros. apply Q_all; auto. Qed.

    Lemma item_starnamed e : size e < N -> match e with EStarred x => ok x | _ => ok e end = true -> RI KStarNamed fi (toks e) (IExpr e).
    Proof.
      intros H Ho rest Hr. apply E_S. cbn [p_item]. destruct (is_starred e) eqn:Es.
      - destruct e; try discriminate. cbn [toks]. unfold op. cbn [app opq]. rewrite String.eqb_refl.
        estep (D e LBor rest ltac:(cbn in H; lia) Ho (fi_stops _ _ Hr)). apply E_const.
      - assert (Ho' : ok e = true) by (destruct e; try exact Ho; discriminate).
        rewrite begins_op by (auto; apply begins_app; now apply toks_begin). estep (D e LNamed rest H Ho' (fi_stops _ _ Hr)). apply E_const.
    Qed.
    Lemma item_starexpr e : size e < N -> match e with EStarred x => ok x | _ => ok e end = true -> RI KStarExpr fi (toks e) (IExpr e).
    Proof.
      intros H Ho rest Hr. apply E_S. cbn [p_item]. destruct (is_starred e) eqn:Es.
      - destruct e; try discriminate. cbn [toks]. unfold op. cbn [app opq]. rewrite String.eqb_refl.
        estep (D e LBor rest ltac:(cbn in H; lia) Ho (fi_stops _ _ Hr)). apply E_const.
      - assert (Ho' : ok e = true) by (destruct e; try exact Ho; discriminate).
        rewrite begins_op by (auto; apply begins_app; now apply toks_begin). estep (D e LExpr rest H Ho' (fi_stops _ _ Hr)). apply E_const.
    Qed.
    Lemma item_arg e : size e < N -> match e with EStarred x => ok x | _ => ok e end = true -> RI KArg fi (toks e) (IExpr e).
    Proof.
      intros H Ho rest Hr. apply E_S. cbn [p_item]. destruct (is_starred e) eqn:Es.
      - destruct e; try discriminate. cbn [toks]. unfold op. cbn [app opq]. rewrite String.eqb_refl.
        estep (D e LExpr rest ltac:(cbn in H; lia) Ho (fi_stops _ _ Hr)). apply E_const.
      - assert (Ho' : ok e = true) by (destruct e; try exact Ho; discriminate).
        rewrite !begins_op by (auto; apply begins_app; now apply toks_begin).
        assert (X := nameop_toks "=" eq_refl e rest Ho'). unfold nameop in X. rewrite X.
        + estep (D e LNamed rest H Ho' (fi_stops _ _ Hr)). apply E_const.
        + unfold fi in Hr. apply andb_true_iff in Hr as [_ Hr]. now apply isn_None in Hr.
    Qed.
    Lemma item_kw k : size_kw k < N -> ok_kw read k = true -> RI KArg fi (toks_kw k) (match k with Kw (Some x) e => IKw x e | Kw None e => IDstar e end).
    Proof.
      intros H Ho rest Hr. destruct k as [[x|] e]; cbn [UnparseSpec.ok_kw size_kw toks_kw] in *; apply andb_true_iff in Ho as [_ Ho]; apply E_S; cbn [p_item app opq idq String.eqb Ascii.eqb Bool.eqb].
      - estep (D e LExpr rest H Ho (fi_stops _ _ Hr)). apply E_const.
      - estep (D e LExpr rest H Ho (fi_stops _ _ Hr)). apply E_const.
    Qed.
    Lemma item_kv k v : size k < N -> size v < N -> ok k = true -> ok v = true -> RI KKV fi (toks k ++ op ":" ++ toks v) (IKV k v).
    Proof.
      intros H1 H2 O1 O2 rest Hr. apply E_S. cbn [p_item]. unfold op. rewrite <- app_assoc. cbn [app].
      rewrite begins_op by (auto; apply begins_app; now apply toks_begin). estep (D k LExpr (TOp ":" :: toks v ++ rest) H1 O1 eq_refl). cbn [opq String.eqb Ascii.eqb Bool.eqb].
      estep (D v LExpr rest H2 O2 (fi_stops _ _ Hr)). apply E_const.
    Qed.
    (** Parts of slices *)
    Lemma opt_some e rest : size e < N -> ok e = true -> stops LExpr rest = true -> E (fun n => p_opt n (toks e ++ rest)) (Some e, rest).
    Proof. intros. apply E_S. cbn [p_opt]. estep (D e LExpr rest H H0 H1). apply E_const. Qed.
    Lemma opt_none rest : begins badtok rest = true -> E (fun n => p_opt n rest) (None, rest).
    Proof. intros. exists 0. intros [|n] _; cbn [p_opt]; [reflexivity|]. now rewrite badtok_none. Qed.
    Lemma opt_part o rest : osize o < N -> oko read o = true -> stops LExpr rest = true -> begins badtok rest = true ->
      E (fun n => p_opt n (match o with Some e => toks e | None => [] end ++ rest)) (o, rest).
    Proof. intros. destruct o as [e|]; [now apply opt_some|now apply opt_none]. Qed.
    Lemma item_slice e : size e < N ->
      match e with ESlice a b c => oko read a && oko read b && oko read c | EStarred x => ok x | _ => ok e end = true -> RI KSlice fs (toks e) (IExpr e).
    Proof.
      intros H Ho rest Hr. assert (Hr' := Hr). unfold fs in Hr'. apply andb_true_iff in Hr' as [Hf Hb]. apply E_S. cbn [p_item]. destruct (is_starred e) eqn:Es.
      { destruct e; try discriminate. cbn [toks]. unfold op. cbn [app opq]. rewrite String.eqb_refl.
        estep (D e LExpr rest ltac:(cbn in H; lia) Ho (fi_stops _ _ Hf)). apply E_const. }
      assert (Hc : opq ":" rest = None). { unfold fi in Hf. apply andb_true_iff in Hf as [Hf _]. apply andb_true_iff in Hf as [_ Hf]. now apply isn_None in Hf. }
      assert ((exists a b c, e = ESlice a b c) \/ ok e = true) as [(a & b & c & ->)|Ho'] by (destruct e; eauto).
      - apply andb_true_iff in Ho as [Ho Oc]. apply andb_true_iff in Ho as [Oa Ob]. cbn [size] in H. cbn [toks]. unfold op.
        assert (Z : opq "*" ((match a with Some e => toks e | None => [] end ++ [TOp ":"] ++ match b with Some e => toks e | None => [] end ++ match c with Some e => [TOp ":"] ++ toks e | None => [] end) ++ rest) = None).
        { destruct a as [e|]; [|reflexivity]. apply begins_op; [|reflexivity]. do 2 apply begins_app. now apply toks_begin. }
        rewrite Z. rewrite <- !app_assoc.
        estep (opt_part a ([TOp ":"] ++ match b with Some e => toks e | None => [] end ++ match c with Some e => [TOp ":"] ++ toks e | None => [] end ++ rest) ltac:(unfold osize; lia) Oa eq_refl eq_refl).
        cbn [opq String.eqb Ascii.eqb Bool.eqb app]. destruct c as [c|].
        + cbn [app]. estep (opt_part b (TOp ":" :: toks c ++ rest) ltac:(unfold osize; lia) Ob eq_refl eq_refl). cbn [opq String.eqb Ascii.eqb Bool.eqb app].
          estep (opt_some c rest ltac:(lia) Oc (fi_stops _ _ Hf)). apply E_const.
        + cbn [app]. estep (opt_part b rest ltac:(unfold osize; lia) Ob (fi_stops _ _ Hf) Hb). rewrite Hc. apply E_const.
      - rewrite begins_op by (auto; apply begins_app; now apply toks_begin).
        estep (opt_some e rest H Ho' (fi_stops _ _ Hf)). rewrite Hc. estep (D e LNamed rest H Ho' (fi_stops _ _ Hf)). apply E_const.
    Qed.
    Lemma items_ok k F l : (forall e, size e < N -> match e with EStarred x => ok x | _ => ok e end = true -> RI k F (toks e) (IExpr e)) ->
      list_sum (map size l) < N -> forallb (fun e => match e with EStarred x => ok x | _ => ok e end) l = true -> Forall2 (RI k F) (map toks l) (map IExpr l).
    Proof.
      intros HI H Ho. apply Forall2_maps. apply forallb_Forall_In in Ho. eapply Forall_impl; [|exact Ho]. cbn beta. intros c [Oc Hc].
      apply HI; auto. apply (sum_in size) in Hc. lia.
    Qed.
    (** Parameters *)
    Definition fa (ann : bool) (ts : list tok) : bool := stops LExpr ts && (if ann then isn (opq ":" ts) else true).
    Lemma fp_fa ann ts : fp ann ts = true -> fa ann ts = true.
    Proof. unfold fp, fa. intros H. apply andb_true_iff in H as [H ->]. apply andb_true_iff in H as [H _]. apply andb_true_iff in H as [-> _]. reflexivity. Qed.
    Lemma arg_ok ann star a rest : size_arg a < N -> ok_arg read ann star a = true -> fa ann rest = true ->
      E (fun n => p_arg n ann star (toks_arg a ++ rest)) (Some (a, rest)).
    Proof.
      intros H Ho Hr. unfold fa in Hr. apply andb_true_iff in Hr as [Hs Hr]. apply E_S. destruct a as [x [e|]]; cbn [UnparseSpec.ok_arg size_arg toks_arg] in *; unfold op; cbn [p_arg app idq].
      - apply andb_true_iff in Ho as [Ho Oe]. apply andb_true_iff in Ho as [_ Oa]. destruct ann; [|discriminate]. cbn [opq String.eqb Ascii.eqb Bool.eqb].
        destruct (is_starred e) eqn:Es.
        + destruct e; try discriminate. apply andb_true_iff in Oe as [Oe1 Oe]. destruct star; [|discriminate]. cbn [toks]. unfold op. cbn [app opq String.eqb Ascii.eqb Bool.eqb].
          estep (D e LBor rest ltac:(cbn in H; lia) Oe (stops_le LBor LExpr rest eq_refl Hs)). apply E_const.
        + assert (Ho' : ok e = true) by (destruct e; try exact Oe; discriminate).
          assert (Z : (if star then opq "*" (toks e ++ rest) else None) = None).
          { destruct star; [|reflexivity]. apply begins_op; [|reflexivity]. apply begins_app. now apply toks_begin. }
          rewrite Z. estep (D e LExpr rest H Ho' Hs). apply E_const.
      - assert (Z : (if ann then opq ":" rest else None) = None) by (destruct ann; [now apply isn_None in Hr|reflexivity]). rewrite Z. apply E_const.
    Qed.
    Definition PA (ann star : bool) (ts : list tok) (i : item) : Prop :=
      exists a, i = par a /\ begins (fun t => match t with TId _ => true | _ => false end) ts = true /\
        forall rest, fa ann rest = true -> E (fun n => p_arg n ann star (ts ++ rest)) (Some (a, rest)).
    Lemma PA_ok ann star a : size_arg a < N -> ok_arg read ann star a = true -> PA ann star (toks_arg a) (par a).
    Proof. intros H Ho. exists a. split; [reflexivity|]. split; [destruct a; reflexivity|]. intros. now apply arg_ok. Qed.
    Lemma id_op ts rest x : begins (fun t => match t with TId _ => true | _ => false end) ts = true -> opq x (ts ++ rest) = None.
    Proof. destruct ts as [|[]]; try discriminate. reflexivity. Qed.
    Lemma params_items ann a rest : size_args a < N -> ok_args read ann a = true -> fp ann rest = true -> opq "," rest = None -> takes_arguments a = true ->
      E (fun n => p_list n (KParam ann) (toks_args a ++ rest)) (args_items a, false, rest).
    Proof.
      intros H Ho Hr Hc Ht. destruct a as [pos args v ko kd ka df]. cbn [toks_args args_items size_args] in *; cbn [UnparseSpec.ok_args] in Ho.
      repeat (apply andb_true_iff in Ho as [Ho ?]). apply Nat.leb_le in H1. apply Nat.eqb_eq in H0.
      apply (list_ok _ (fp ann)); auto.
      { intros r. unfold fp. destruct ann; reflexivity. }
      - unfold args_toks.
        assert (AR : forall l, list_sum (map size_arg l) < N -> forallb (ok_arg read ann false) l = true -> Forall2 (PA ann false) (map toks_arg l) (map par l)).
        { intros l Hl Ol. apply Forall2_maps. apply forallb_Forall_In in Ol. eapply Forall_impl; [|exact Ol]. cbn beta. intros c [Oc Hc'].
          apply PA_ok; auto. apply (sum_in size_arg) in Hc'. lia. }
        apply (args_pieces_R (PA ann false) (PA ann true) (RI (KParam ann) (fp ann)) (fun ts d => begins atom1 ts = true /\ forall rest, stops LExpr rest = true -> E (fun n => p n LExpr (ts ++ rest)) (Some (d, rest)))).
        + intros ts i d d' (a & -> & Hb & Ha) Hd r Hr'. apply E_S. cbn [p_item par].
          assert (HR : stops LExpr r = true /\ opq "=" r = None).
          { unfold fp in Hr'. apply andb_true_iff in Hr' as [Hr' _]. apply andb_true_iff in Hr' as [Hr' _]. apply andb_true_iff in Hr' as [? Hr']. now apply isn_None in Hr'. }
          destruct d as [d|], d' as [d'|]; cbn in Hd; try tauto; cbn [wd_toks]; rewrite <- ?app_assoc; cbn [app]; rewrite !id_op by exact Hb.
          * destruct Hd as [_ Hd]. estep (Ha (TOp "=" :: d ++ r) ltac:(destruct ann; reflexivity)). cbn [opq String.eqb Ascii.eqb Bool.eqb]. estep (Hd r (proj1 HR)). apply E_const.
          * estep (Ha r (fp_fa _ _ Hr')). rewrite (proj2 HR). apply E_const.
        + intros r Hr'. apply E_S. cbn [p_item]. unfold op. cbn [app opq String.eqb Ascii.eqb Bool.eqb]. apply E_const.
        + intros r Hr'. apply E_S. cbn [p_item]. unfold op. cbn [app opq String.eqb Ascii.eqb Bool.eqb].
          apply (E_S (fun n => match p_arg n ann true r with _ => _ end)). cbn [p_arg].
          unfold fp in Hr'. apply andb_true_iff in Hr' as [Hr' _]. apply andb_true_iff in Hr' as [_ Hr']. apply isn_None in Hr'. rewrite Hr'. apply E_const.
        + intros ts i (a & -> & Hb & Ha) r Hr'. apply E_S. cbn [p_item par app opq String.eqb Ascii.eqb Bool.eqb]. estep (Ha r (fp_fa _ _ Hr')). apply E_const.
        + intros ts i (a & -> & Hb & Ha) r Hr'. apply E_S. cbn [p_item par app opq String.eqb Ascii.eqb Bool.eqb]. estep (Ha r (fp_fa _ _ Hr')). apply E_const.
        + apply AR; auto. lia.
        + apply AR; auto. lia.
        + destruct v as [a|]; cbn; auto. apply PA_ok; auto. lia.
        + apply AR; auto. lia.
        + rewrite <- (map_id kd) at 2. apply Forall2_maps. match goal with X : forallb _ kd = true |- _ => apply forallb_Forall_In in X; eapply Forall_impl; [|exact X] end. cbn beta.
          intros [d|] [Od Hd]; cbn; auto. split; [now apply toks_begin|]. intros r Hr'. apply D; auto.
          apply (sum_in (fun d => match d with Some e => size e | None => 0 end)) in Hd. lia.
        + destruct ka as [a|]; cbn; auto. apply PA_ok; auto. lia.
        + rewrite <- (map_id df) at 2. apply Forall2_maps. match goal with X : forallb _ df = true |- _ => apply forallb_Forall_In in X; eapply Forall_impl; [|exact X] end. cbn beta.
          intros d [Od Hd]. split; [now apply toks_begin|]. intros r Hr'. apply D; auto. apply (sum_in size) in Hd. lia.
      - unfold args_pieces. rewrite !wd_par, !map_length.
        set (ds := repeat None (List.length pos + List.length args - List.length df) ++ map Some df).
        assert (Hd : List.length ds = List.length pos + List.length args). { unfold ds. rewrite app_length, repeat_length, map_length. lia. }
        destruct pos as [|a pos].
        + cbn [zip map app firstn skipn List.length]. destruct args as [|a args].
          * cbn [zip map app]. destruct v; [reflexivity|]. destruct ko; [|reflexivity]. destruct ka; [reflexivity|discriminate].
          * destruct ds; [discriminate|]. reflexivity.
        + destruct ds; [discriminate|]. reflexivity.
    Qed.
    Lemma params_ok ann a rest : size_args a < N -> ok_args read ann a = true -> fp ann rest = true -> opq "," rest = None ->
      E (fun n => p_list n (KParam ann) rest) ([], false, rest) ->
      exists its, E (fun n => p_list n (KParam ann) (toks_args a ++ rest)) (its, false, rest) /\ build its = Some a.
    Proof.
      intros H Ho Hr Hc He. exists (args_items a).
      assert (B : build (args_items a) = Some a).
      { destruct a as [pos args v ko kd ka df]. cbn [UnparseSpec.ok_args] in Ho. apply andb_true_iff in Ho as [Ho O2]. apply andb_true_iff in Ho as [_ O1].
        apply Nat.leb_le in O1. apply Nat.eqb_eq in O2. now apply build_ok. }
      split; [|exact B]. destruct (takes_arguments a) eqn:T; [now apply params_items|].
      destruct a as [[|] [|] [|] [|] kd [|] df]; try discriminate. exact He.
    Qed.

    (** ** Loops *)
    Lemma ops_ok kw L l rest : Forall (fun e => size e < N /\ ok e = true) l -> (forall r, stops L (TKw kw :: r) = true) -> stops L rest = true -> kwq kw rest = None ->
      E (fun n => p_ops n kw L (flat_map (fun c => TKw kw :: toks c) l ++ rest)) (l, rest).
    Proof.
      intros H Hk Hr Hq. induction H as [|e l [He Ho] H IHl]; cbn [flat_map app].
      - apply ops_stop. now rewrite Hq.
      - rewrite <- app_assoc. apply E_S. cbn [p_ops kwq]. rewrite String.eqb_refl.
        assert (Hs : stops L (flat_map (fun c => TKw kw :: toks c) l ++ rest) = true) by (destruct l; [exact Hr|apply Hk]).
        cbv beta iota. estep (D e L _ He Ho Hs). estep IHl. apply E_const.
    Qed.
    Lemma seps_flat t x l : seps (TKw t) (x :: map toks l) = x ++ flat_map (fun c => TKw t :: toks c) l.
    Proof. revert x. induction l as [|e l IHl]; intros x; [cbn; now rewrite app_nil_r|]. cbn [map]. change (x ++ TKw t :: seps (TKw t) (toks e :: map toks l) = x ++ flat_map (fun c => TKw t :: toks c) (e :: l)). rewrite IHl. reflexivity. Qed.
    Lemma cmpq_ok o e rest : ok e = true -> cmpq (cmptoks o ++ toks e ++ rest) = Some (o, toks e ++ rest).
    Proof.
      intros Ho. destruct o; try reflexivity. cbn [cmptoks app cmpq kwq String.eqb Ascii.eqb Bool.eqb].
      rewrite (begins_kw (toks e ++ rest) "not"); [reflexivity| |reflexivity]. apply begins_app. now apply toks_begin.
    Qed.
    Definition cmp_toks (p : cmpop * expr) : list tok := match p with (o, e) => cmptoks o ++ toks e end.
    Lemma cmps_ok l rest : Forall (fun p => size (snd p) < N /\ ok (snd p) = true) l -> stops LCmp rest = true ->
      E (fun n => p_cmps n (flat_map cmp_toks l ++ rest)) (l, rest).
    Proof.
      intros H Hr. induction H as [|[o e] l [He Ho] H IHl]; cbn [flat_map app].
      - apply cmps_stop. unfold stops in Hr. apply andb_true_iff in Hr as [_ Hr]. rewrite forallb_forall in Hr. apply (Hr LCmp). cbn. tauto.
      - cbn [snd] in He, Ho. apply E_S. cbn [p_cmps]. unfold cmp_toks at 1. rewrite <- !app_assoc. rewrite (cmpq_ok o e _ Ho). cbv beta iota.
        assert (Hs : stops LBor (flat_map cmp_toks l ++ rest) = true).
        { destruct l as [|[o' e'] l]; [eapply stops_le; [|exact Hr]; reflexivity|]. cbn [flat_map cmp_toks]. destruct o'; reflexivity. }
        estep (D e LBor _ He Ho Hs). estep IHl. apply E_const.
    Qed.
    Lemma flat_if l : flat_map (fun c => [TKw "if"] ++ toks c) l = flat_map (fun c => TKw "if" :: toks c) l.
    Proof. reflexivity. Qed.
    Lemma comps_ok g rest : Forall (fun c => size_comp c < N /\ ok_comp read c = true) g -> stops LExpr rest = true -> kwq "for" rest = None -> kwq "async" rest = None ->
      E (fun n => p_comps n (flat_map toks_comp g ++ rest)) (g, rest).
    Proof.
      intros H Hr Hf Ha. induction H as [|[t i ifs a] g [Hs Ho] H IHg]; cbn [flat_map app].
      - exists 0. intros [|n] _; cbn [p_comps]; [reflexivity|]. now rewrite Ha, Hf.
      - cbn [size_comp toks_comp] in *. cbn [UnparseSpec.ok_comp] in Ho. apply andb_true_iff in Ho as [Ho Oifs]. apply andb_true_iff in Ho as [Ho Oi]. apply andb_true_iff in Ho as [Ot Tt].
        set (more := flat_map toks_comp g ++ rest) in *.
        assert (Hm : stops LExpr more = true /\ kwq "if" more = None).
        { unfold more. destruct g as [|[? ? ? []] g]; try (split; reflexivity). cbn [flat_map app]. split; auto.
          unfold stops in Hr. apply andb_true_iff in Hr as [_ Hr]. rewrite forallb_forall in Hr. apply isn_None. apply (Hr LExpr). cbn. tauto. }
        destruct Hm as [Hm1 Hm2].
        rewrite flat_if. rewrite <- app_assoc. fold more. rewrite <- !app_assoc.
        set (ts1 := [TKw "for"] ++ toks t ++ [TKw "in"] ++ toks i ++ flat_map (fun c => TKw "if" :: toks c) ifs ++ more).
        apply E_S. cbn [p_comps].
        assert (A : (match kwq "async" ((if a then [TKw "async"] else []) ++ ts1) with Some r => (true, r) | None => (false, (if a then [TKw "async"] else []) ++ ts1) end) = (a, ts1)) by (destruct a; reflexivity).
        rewrite A. clear A. unfold ts1 at 1. cbn [app kwq String.eqb Ascii.eqb Bool.eqb]. cbv beta iota.
        assert (X : E (fun n => p_list n KTarget (toks t ++ [TKw "in"] ++ toks i ++ flat_map (fun c => TKw "if" :: toks c) ifs ++ more)) ([IExpr t], false, [TKw "in"] ++ toks i ++ flat_map (fun c => TKw "if" :: toks c) ifs ++ more)).
        { apply E_S. cbn [p_list]. apply (E_S (fun n => match p_item n KTarget (toks t ++ [TKw "in"] ++ toks i ++ flat_map (fun c => TKw "if" :: toks c) ifs ++ more) with _ => _ end)). cbn [p_item].
          rewrite begins_op by (auto; apply begins_app; now apply toks_begin). estep (D t LPrim ([TKw "in"] ++ toks i ++ flat_map (fun c => TKw "if" :: toks c) ifs ++ more) ltac:(lia) Ot eq_refl). rewrite Tt. cbn [app opq]. apply E_const. }
        cbn [app] in X. estep X. cbn [exprs_of tuple_or_single app kwq String.eqb Ascii.eqb Bool.eqb]. cbv beta iota.
        assert (Hs' : stops LDisj (flat_map (fun c => TKw "if" :: toks c) ifs ++ more) = true).
        { destruct ifs; [eapply stops_le; [|exact Hm1]; reflexivity|reflexivity]. }
        estep (D i LDisj _ ltac:(lia) Oi Hs').
        assert (Hif : Forall (fun e => size e < N /\ ok e = true) ifs).
        { apply forallb_Forall_In in Oifs. eapply Forall_impl; [|exact Oifs]. cbn beta. intros c [Oc Hc]. split; auto. apply (sum_in size) in Hc. lia. }
        estep (ops_ok "if" LDisj ifs more Hif (fun _ => eq_refl) (stops_le LDisj LExpr more eq_refl Hm1) Hm2). estep IHg. apply E_const.
    Qed.

    (** ** One step *)
    Definition plevel (o : binop) : level :=
      match o with Pow => LPower | Mult | Div | FloorDiv | Mod | MatMult => LTerm | Add | Sub => LSum | ShiftL | ShiftR => LShift | BitAnd => LBand | BitXor => LBxor | BitOr => LBor end.
    Lemma binl_ok L l o r rest ts : binq L ts = Some (o, toks r ++ rest) -> size r < N -> ok r = true -> stops (tighter L) rest = true -> isn (binq L rest) = true ->
      E (fun n => p_binl n L l ts) (EBinOp l o r, rest).
    Proof.
      intros Hq Hs Ho Hr Hb. apply E_S. cbn [p_binl]. rewrite Hq. estep (D r (tighter L) rest Hs Ho Hr). estep (binl_stop L (EBinOp l o r) rest Hb). apply E_const.
    Qed.
    Lemma binop_ok l o r rest : size l < N -> size r < N -> ok l = true -> ok r = true ->
      E (fun n => p n (plevel o) (toks l ++ TOp (binop_text o) :: toks r ++ TOp ")" :: rest)) (Some (EBinOp l o r, TOp ")" :: rest)).
    Proof.
      intros H1 H2 O1 O2. apply E_S.
      destruct o; cbn [plevel binop_text p tighter];
        try (match goal with |- context[p _ ?L (toks l ++ ?ts)] => estep (D l L ts H1 O1 eq_refl) end;
          match goal with |- context[p_binl _ ?L l (TOp ?x :: ?ts)] =>
            let o := eval cbn in (match binq L [TOp x] with Some (o, _) => o | None => Add end) in
            estep (binl_ok L l o r (TOp ")" :: rest) (TOp x :: ts) eq_refl H2 O2 eq_refl eq_refl) end; apply E_const).
      estep (D l LAwait (TOp "**" :: toks r ++ TOp ")" :: rest) H1 O1 eq_refl). cbn [opq String.eqb Ascii.eqb Bool.eqb].
      estep (D r LFactor (TOp ")" :: rest) H2 O2 eq_refl). apply E_const.
    Qed.
    (** An expression in parentheses that is of level [L] inside. *)
    Lemma group_up L e body rest : kwq "yield" (body ++ TOp ")" :: rest) = None -> opq "*" (body ++ TOp ")" :: rest) = None -> is_starred e = false ->
      E (fun n => p n L (body ++ TOp ")" :: rest)) (Some (e, TOp ")" :: rest)) ->
      (forall K, rank L < rank K -> hdok K (body ++ TOp ")" :: rest) = true) ->
      E (fun n => p_atom n (TOp "(" :: body ++ TOp ")" :: rest)) (Some (e, rest)).
    Proof.
      intros H1 H2 H3 H HK. apply group; auto. apply (up L); auto; [destruct L; reflexivity|].
      apply forallb_forall. intros K I. unfold upto in I. apply filter_In in I as [_ I]. apply andb_true_iff in I as [I _]. apply Nat.ltb_lt in I.
      rewrite HK by exact I. rewrite andb_true_r. destruct K; reflexivity.
    Qed.
    Lemma group_toks L e x body rest : ok x = true -> stop LNamed (body ++ TOp ")" :: rest) = true -> is_starred e = false ->
      E (fun n => p n L (toks x ++ body ++ TOp ")" :: rest)) (Some (e, TOp ")" :: rest)) ->
      E (fun n => p_atom n (TOp "(" :: toks x ++ body ++ TOp ")" :: rest)) (Some (e, rest)).
    Proof.
      intros Ho Hb Hs H. rewrite app_assoc. assert (Hx : begins atom1 ((toks x ++ body) ++ TOp ")" :: rest) = true) by (do 2 apply begins_app; now apply toks_begin).
      apply (group_up L); auto.
      - now apply begins_kw.
      - now apply begins_op.
      - now rewrite <- app_assoc.
      - intros K _. rewrite <- app_assoc. now apply hdok_toks.
    Qed.
    Lemma call_args_ok l ks : forallb (fun e => match e with EStarred x => ok x | _ => ok e end) l = true ->
      call_args false false (map IExpr l ++ map (fun k => match k with Kw (Some x) e => IKw x e | Kw None e => IDstar e end) ks) = Some (l, ks).
    Proof.
      intros _. induction l as [|e l IHl]; cbn [map app call_args orb andb].
      - assert (X : forall a b, call_args a b (map (fun k => match k with Kw (Some x) e => IKw x e | Kw None e => IDstar e end) ks) = Some ([], ks)); [|apply X].
        induction ks as [|[[x|] e] ks IHk]; intros a b; cbn [map call_args]; try rewrite IHk; reflexivity.
      - rewrite IHl. reflexivity.
    Qed.
    Lemma exprs_one x l : exprs_of (map IExpr (x :: l)) = Some (x :: l).
    Proof. apply exprs_of_map. Qed.
    Lemma comps_ok' g rest : list_sum (map size_comp g) < N -> forallb (ok_comp read) g = true -> stops LExpr rest = true -> kwq "for" rest = None -> kwq "async" rest = None ->
      E (fun n => p_comps n (flat_map toks_comp g ++ rest)) (g, rest).
    Proof.
      intros H Ho. apply comps_ok. apply forallb_Forall_In in Ho. eapply Forall_impl; [|exact Ho]. cbn beta. intros c [Oc Hc]. split; auto. apply (sum_in size_comp) in Hc. lia.
    Qed.
    (** After the element of a comprehension. *)
    Lemma comps_head g rest : nonempty g = true -> fi (flat_map toks_comp g ++ rest) = true /\ opq "," (flat_map toks_comp g ++ rest) = None /\
       (forall x, opq x (flat_map toks_comp g ++ rest) = None).
    Proof. destruct g as [|[t i ifs []] g]; [discriminate|..]; intros _; repeat split; reflexivity. Qed.
    Lemma list_one k F ts i rest : RI k F ts i -> F rest = true -> opq "," rest = None -> E (fun n => p_list n k (ts ++ rest)) ([i], false, rest).
    Proof. intros Hi Hr Hc. apply E_S. cbn [p_list]. estep (Hi rest Hr). rewrite Hc. apply E_const. Qed.
    Lemma ok_starred e : ok e = true -> match e with EStarred x => ok x | _ => ok e end = true.
    Proof. destruct e; auto. discriminate. Qed.
    Lemma ok_not_starred e : ok e = true -> is_starred e = false.
    Proof. now destruct e. Qed.
    Ltac cb := cbn [opq kwq String.eqb Ascii.eqb Bool.eqb].
    Lemma parts_parse : forall M l lvl, list_sum (map size l) < M -> M <= N -> forallb (ok_part read lvl) l = true ->
      E (fun n => p_parts n (map toks_part l)) (Some l).
    Proof.
      induction M as [|M IHM]; [lia|]. intros l. induction l as [|e l IHl]; intros lvl Hs HM Ho; [apply E_S; cbn [map p_parts]; apply E_const|].
      cbn [forallb] in Ho. apply andb_true_iff in Ho as [Oe Ol]. cbn [map list_sum fold_right] in Hs. change (fold_right Nat.add 0 (map size l)) with (list_sum (map size l)) in Hs.
      assert (X := IHl lvl ltac:(lia) HM Ol). destruct e; try discriminate Oe.
      - destruct c as [| | | | | |u t|]; try discriminate Oe. destruct u; [discriminate|]. cbn [map toks_part]. apply E_S. cbn [p_parts]. estep X. apply E_const.
      - rename e into v. cbn [ok_part] in Oe. repeat (apply andb_true_iff in Oe as [Oe ?]). cbn [size] in Hs.
        assert (V := D v LExpr [] ltac:(lia) ltac:(assumption) eq_refl). rewrite app_nil_r in V.
        cbn [map toks_part]. apply E_S. cbn [p_parts]. estep V. destruct spec as [sp|].
        + destruct sp; try discriminate. match goal with X : nonempty l0 && _ && _ = true |- _ => apply andb_true_iff in X as [X Om] end.
          assert (Y := IHM l0 (S lvl) ltac:(cbn [size] in Hs; lia) ltac:(lia) Om). estep Y. estep X. apply E_const.
        + estep X. apply E_const.
    Qed.
    Lemma parse_step e : size e <= N -> ok e = true -> Q e.
    Proof.
      intros Hs Ho. destruct e; cbn [size] in Hs; cbn [UnparseSpec.ok] in Ho; try discriminate.
      - (* Name *) apply Q_atom. intros rest Hr. apply E_S. cbn. apply E_const.
      - (* Const *) apply Q_atom. intros rest Hr. apply E_S. destruct c; cbn [toks ctok app p_atom]; rewrite ?Hr; cb; apply E_const.
      - (* BinOp *) apply andb_true_iff in Ho as [O1 O2]. apply Q_atom. intros rest _. cbn [toks]. unfold op. rewrite <- !app_assoc. cbn [app].
        change (TOp (binop_text o) :: toks e2 ++ TOp ")" :: rest) with ((TOp (binop_text o) :: toks e2) ++ TOp ")" :: rest).
        apply (group_toks (plevel o)); auto; [destruct o; reflexivity|]. apply binop_ok; auto; lia.
      - (* Unary *) apply Q_atom. intros rest _. cbn [toks]. unfold op. rewrite <- !app_assoc. cbn [app].
        set (t := match o with Not => TKw "not" | _ => TOp (unop_text o) end).
        change (t :: toks e ++ TOp ")" :: rest) with ((t :: toks e) ++ TOp ")" :: rest).
        apply (group_up (match o with Not => LInv | _ => LFactor end)).
        1-3: destruct o; reflexivity.
        + apply E_S. destruct o; cbn [p app unop_text]; unfold t; cbn [unq unop_text assoc String.eqb Ascii.eqb Bool.eqb kwq].
          1,3,4: estep (D e LFactor (TOp ")" :: rest) ltac:(lia) Ho eq_refl); apply E_const.
          estep (D e LInv (TOp ")" :: rest) ltac:(lia) Ho eq_refl). apply E_const.
        + intros K HK. destruct o, K; try reflexivity; cbn in HK; lia.
      - (* Bool *) apply andb_true_iff in Ho as [O1 Ho]. destruct l as [|x l]; [discriminate|]. destruct l as [|x2 l]; [discriminate|].
        apply Q_atom. intros rest _. cbn [toks]. unfold op. rewrite <- !app_assoc. change (map toks (x :: x2 :: l)) with (toks x :: map toks (x2 :: l)). rewrite seps_flat, <- app_assoc. cbn [app].
        assert (HF : Forall (fun e => size e < N /\ ok e = true) (x :: x2 :: l)).
        { apply forallb_Forall_In in Ho. eapply Forall_impl; [|exact Ho]. cbn beta. intros c [Oc Hc]. split; auto. apply (sum_in size) in Hc. lia. }
        inversion HF as [|? ? [Hx Ox] HF2]. subst.
        apply (group_toks (match o with And => LConj | Or => LDisj end)); auto.
        apply E_S. destruct o; cbn [p boolop_text].
        + estep (D x LInv (flat_map (fun c => TKw "and" :: toks c) (x2 :: l) ++ TOp ")" :: rest) Hx Ox eq_refl).
          estep (ops_ok "and" LInv (x2 :: l) (TOp ")" :: rest) HF2 (fun _ => eq_refl) eq_refl eq_refl). apply E_const.
        + estep (D x LConj (flat_map (fun c => TKw "or" :: toks c) (x2 :: l) ++ TOp ")" :: rest) Hx Ox eq_refl).
          estep (ops_ok "or" LConj (x2 :: l) (TOp ")" :: rest) HF2 (fun _ => eq_refl) eq_refl eq_refl). apply E_const.
      - (* Compare *) apply andb_true_iff in Ho as [Ho O3]. apply andb_true_iff in Ho as [O1 O2]. apply Q_atom. intros rest _. cbn [toks]. unfold op. rewrite <- !app_assoc. cbn [app].
        change (flat_map (fun p => match p with (o, e) => cmptoks o ++ toks e end) r) with (flat_map cmp_toks r).
        assert (HF : Forall (fun p => size (snd p) < N /\ ok (snd p) = true) r).
        { apply forallb_Forall_In in O3. eapply Forall_impl; [|exact O3]. cbn beta. intros [o c] [Oc Hc]. split; auto. apply (sum_in (fun p => match p with (_, e) => size e end)) in Hc. cbn [snd]. lia. }
        destruct r as [|[o e'] r]; [discriminate|].
        apply (group_toks LCmp); auto; [destruct o; reflexivity|]. apply E_S. cbn [p].
        estep (D e LBor (flat_map cmp_toks ((o, e') :: r) ++ TOp ")" :: rest) ltac:(lia) O1 ltac:(destruct o; reflexivity)).
        estep (cmps_ok ((o, e') :: r) (TOp ")" :: rest) HF eq_refl). apply E_const.
      - (* IfExp *) apply andb_true_iff in Ho as [Ho O3]. apply andb_true_iff in Ho as [O1 O2]. apply Q_atom. intros rest _. cbn [toks]. unfold op. rewrite <- !app_assoc. cbn [app].
        assert (X : forall a, TKw "if" :: toks e2 ++ TKw "else" :: toks e3 ++ a = (TKw "if" :: toks e2 ++ TKw "else" :: toks e3) ++ a) by (intros; cbn [app]; now rewrite <- app_assoc).
        rewrite X. apply (group_toks LExpr); auto. rewrite <- X. apply E_S. cbn [p].
        rewrite begins_kw by (auto; apply begins_app; now apply toks_begin).
        estep (D e1 LDisj (TKw "if" :: toks e2 ++ TKw "else" :: toks e3 ++ TOp ")" :: rest) ltac:(lia) O1 eq_refl). cb.
        estep (D e2 LDisj (TKw "else" :: toks e3 ++ TOp ")" :: rest) ltac:(lia) O2 eq_refl). cb.
        estep (D e3 LExpr (TOp ")" :: rest) ltac:(lia) O3 eq_refl). apply E_const.
      - (* Lambda *) apply andb_true_iff in Ho as [O1 O2]. apply Q_atom. intros rest _. cbn [toks]. unfold op. rewrite <- !app_assoc. cbn [app].
        assert (X : TKw "lambda" :: toks_args a ++ TOp ":" :: toks e ++ TOp ")" :: rest = (TKw "lambda" :: toks_args a ++ TOp ":" :: toks e) ++ TOp ")" :: rest) by (cbn [app]; now rewrite <- app_assoc).
        change (E (fun n => p_atom n (TOp "(" :: TKw "lambda" :: toks_args a ++ TOp ":" :: toks e ++ TOp ")" :: rest)) (Some (ELambda a e, rest))).
        rewrite X. apply (group_up LExpr); try reflexivity.
        + rewrite <- X. apply E_S. cbn [p]. cb.
          destruct (params_ok false a (TOp ":" :: toks e ++ TOp ")" :: rest) ltac:(lia) O1 eq_refl eq_refl) as (its & Hl & Hb).
          { apply E_S. exists 0. intros [|n] _; cbn [p_list]; [reflexivity|]. cbn [p_item]. cb. destruct n; reflexivity. }
          estep Hl. rewrite Hb. cb. estep (D e LExpr (TOp ")" :: rest) ltac:(lia) O2 eq_refl). apply E_const.
        + intros K HK. destruct K; try reflexivity; cbn in HK; lia.
      - (* Named *) apply andb_true_iff in Ho as [O1 O2]. destruct e1; try discriminate. apply Q_atom. intros rest _. cbn [toks]. unfold op. rewrite <- !app_assoc. cbn [app].
        change (TId x :: TOp ":=" :: toks e2 ++ TOp ")" :: rest) with ((TId x :: TOp ":=" :: toks e2) ++ TOp ")" :: rest).
        apply group; try reflexivity. apply E_S. cbn [p app idq]. cb. estep (D e2 LExpr (TOp ")" :: rest) ltac:(lia) O2 eq_refl). apply E_const.
      - (* Tuple *) apply Q_atom. intros rest _. cbn [toks]. unfold op. rewrite <- !app_assoc. cbn [app]. apply E_S. cbn [p_atom]. cb.
        assert (HF : Forall2 (RI KStarNamed fi) (map toks l) (map IExpr l)) by (apply items_ok; [apply item_starnamed|lia|exact Ho]).
        assert (Y : kwq "yield" (tuple_toks (map toks l) ++ TOp ")" :: rest) = None).
        { destruct l as [|x l]; [reflexivity|]. cbn [forallb] in Ho. apply andb_true_iff in Ho as [Ox _].
          assert (B : forall ts, kwq "yield" (toks x ++ ts) = None).
          { intros ts. destruct (is_starred x) eqn:Es; [destruct x; try discriminate; reflexivity|].
            apply begins_kw; auto. apply begins_app. apply toks_begin. destruct x; auto; discriminate. }
          destruct l; cbn [map tuple_toks seps]; rewrite <- app_assoc; apply B. }
        rewrite Y. estep (tuple_ok KStarNamed fi (map toks l) (map IExpr l) ")" rest (fun _ => eq_refl) HF eq_refl eq_refl eq_refl). rewrite exprs_of_map. cb.
        destruct l as [|x [|x2 l]]; apply E_const.
      - (* List *) apply Q_atom. intros rest _. cbn [toks]. unfold op. rewrite <- !app_assoc. cbn [app]. apply E_S. cbn [p_atom]. cb.
        assert (HF : Forall2 (RI KStarNamed fi) (map toks l) (map IExpr l)) by (apply items_ok; [apply item_starnamed|lia|exact Ho]).
        assert (X : E (fun n => p_list n KStarNamed (seps (TOp ",") (map toks l) ++ TOp "]" :: rest)) (map IExpr l, false, TOp "]" :: rest)).
        { destruct l; [now apply bad_list|]. apply (list_ok _ fi); auto. }
        estep X. rewrite exprs_of_map. cb. apply E_const.
      - (* Set *) apply andb_true_iff in Ho as [O1 Ho]. apply Q_atom. intros rest _. cbn [toks]. unfold op. rewrite <- !app_assoc. cbn [app]. apply E_S. cbn [p_atom]. cb.
        assert (HF : Forall2 (RI KStarNamed fi) (map toks l) (map IExpr l)) by (apply items_ok; [apply item_starnamed|lia|exact Ho]).
        destruct l as [|x l]; [discriminate|].
        assert (K : E (fun n => p_list n KKV (seps (TOp ",") (map toks (x :: l)) ++ TOp "}" :: rest)) ([], false, seps (TOp ",") (map toks (x :: l)) ++ TOp "}" :: rest)).
        { assert (S : exists t r, seps (TOp ",") (map toks (x :: l)) ++ TOp "}" :: rest = toks x ++ TOp t :: r /\ (t = "," \/ t = "}")).
          { destruct l as [|x2 l]; [exists "}", rest; split; auto|]. exists ",", (seps (TOp ",") (map toks (x2 :: l)) ++ TOp "}" :: rest). split; auto.
            change (map toks (x :: x2 :: l)) with (toks x :: map toks (x2 :: l)). cbn [map]. change (seps (TOp ",") (toks x :: toks x2 :: map toks l)) with (toks x ++ TOp "," :: seps (TOp ",") (toks x2 :: map toks l)).
            now rewrite <- app_assoc. }
          destruct S as (t & r & -> & Ht). cbn [forallb] in Ho. apply andb_true_iff in Ho as [Ox _]. apply E_S. cbn [p_list].
          apply (E_S (fun n => match p_item n KKV (toks x ++ TOp t :: r) with _ => _ end)). cbn [p_item].
          destruct (is_starred x) eqn:Es.
          - destruct x; try discriminate. cbn [toks]. unfold op. cbn [app]. cb. exists 0. intros n _. now rewrite bad_none.
          - assert (Ho' : ok x = true) by (destruct x; try exact Ox; discriminate). rewrite begins_op by (auto; apply begins_app; now apply toks_begin).
            estep (D x LExpr (TOp t :: r) ltac:(cbn [map list_sum fold_right] in Hs; lia) Ho' ltac:(destruct Ht as [->| ->]; reflexivity)). destruct Ht as [->| ->]; cb; apply E_const. }
        estep K.
        assert (C : opq "}" (seps (TOp ",") (map toks (x :: l)) ++ TOp "}" :: rest) = None).
        { cbn [forallb] in Ho. apply andb_true_iff in Ho as [Ox _].
          assert (B : forall ts, opq "}" (toks x ++ ts) = None).
          { intros ts. destruct (is_starred x) eqn:Es; [destruct x; try discriminate; reflexivity|].
            apply begins_op; auto. apply begins_app. apply toks_begin. destruct x; auto; discriminate. }
          destruct l; cbn [map seps]; rewrite <- ?app_assoc; apply B. }
        rewrite C. estep (list_ok KStarNamed fi (map toks (x :: l)) (map IExpr (x :: l)) (TOp "}" :: rest) (fun _ => eq_refl) HF eq_refl eq_refl eq_refl). rewrite exprs_of_map. cb. apply E_const.
      - (* Dict *) apply Q_atom. intros rest _. cbn [toks]. unfold op. rewrite <- !app_assoc. cbn [app]. apply E_S. cbn [p_atom]. cb.
        set (its := map (fun p => match p with (Some k, v) => IKV k v | (None, v) => IDstar v end) l).
        set (tss := map (fun p => match p with (k, v) => match k with Some k => toks k | None => [] end ++ TOp ":" :: toks v end) l).
        assert (HF : Forall2 (RI KKV fi) tss its).
        { apply Forall2_maps. apply forallb_Forall_In in Ho. eapply Forall_impl; [|exact Ho]. cbn beta. intros [[k|] v] [Oc Hc]; [|discriminate].
          apply (sum_in (fun p => match p with (k, v) => match k with Some e => size e | None => 0 end + size v end)) in Hc. apply andb_true_iff in Oc as [Ok Ov]. apply item_kv; auto; lia. }
        assert (HM : map (fun i => match i with IKV k v => (Some k, v) | IDstar v => (None, v) | _ => (None, EName "") end) its = l).
        { unfold its. rewrite map_map. rewrite <- (map_id l) at 2. apply map_ext. intros [[k|] v]; reflexivity. }
        destruct l as [|kv l].
        + cbn [its tss seps map app]. estep (bad_list "}" rest KKV eq_refl eq_refl). cb. apply E_const.
        + assert (NE : nonempty its = true) by reflexivity.
          estep (list_ok KKV fi tss its (TOp "}" :: rest) (fun _ => eq_refl) HF NE eq_refl eq_refl). destruct its as [|i its']; [discriminate|]. cb. rewrite HM. apply E_const.
      - (* ListComp *) apply andb_true_iff in Ho as [Ho O3]. apply andb_true_iff in Ho as [O1 O2]. apply Q_atom. intros rest _. cbn [toks]. unfold op. rewrite <- !app_assoc. cbn [app]. apply E_S. cbn [p_atom]. cb.
        destruct (comps_head g (TOp "]" :: rest) O2) as (C1 & C2 & C3).
        estep (list_one KStarNamed fi (toks e) (IExpr e) (flat_map toks_comp g ++ TOp "]" :: rest) (item_starnamed e ltac:(lia) (ok_starred e O1)) C1 C2).
        cbn [exprs_of]. rewrite C3. rewrite (ok_not_starred e O1). estep (comps_ok' g (TOp "]" :: rest) ltac:(lia) O3 eq_refl eq_refl eq_refl).
        destruct g; [discriminate|]. cb. apply E_const.
      - (* SetComp *) apply andb_true_iff in Ho as [Ho O3]. apply andb_true_iff in Ho as [O1 O2]. apply Q_atom. intros rest _. cbn [toks]. unfold op. rewrite <- !app_assoc. cbn [app]. apply E_S. cbn [p_atom]. cb.
        destruct (comps_head g (TOp "}" :: rest) O2) as (C1 & C2 & C3).
        assert (K : E (fun n => p_list n KKV (toks e ++ flat_map toks_comp g ++ TOp "}" :: rest)) ([], false, toks e ++ flat_map toks_comp g ++ TOp "}" :: rest)).
        { apply E_S. cbn [p_list]. apply (E_S (fun n => match p_item n KKV (toks e ++ flat_map toks_comp g ++ TOp "}" :: rest) with _ => _ end)). cbn [p_item].
          rewrite begins_op by (auto; apply begins_app; now apply toks_begin). estep (D e LExpr _ ltac:(lia) O1 (fi_stops LExpr _ C1)). rewrite C3. apply E_const. }
        estep K. rewrite begins_op by (auto; apply begins_app; now apply toks_begin).
        estep (list_one KStarNamed fi (toks e) (IExpr e) (flat_map toks_comp g ++ TOp "}" :: rest) (item_starnamed e ltac:(lia) (ok_starred e O1)) C1 C2).
        cbn [exprs_of]. rewrite C3. rewrite (ok_not_starred e O1). estep (comps_ok' g (TOp "}" :: rest) ltac:(lia) O3 eq_refl eq_refl eq_refl).
        destruct g; [discriminate|]. cb. apply E_const.
      - (* Gen *) apply andb_true_iff in Ho as [Ho O3]. apply andb_true_iff in Ho as [O1 O2]. apply Q_atom. intros rest _. cbn [toks]. unfold op. rewrite <- !app_assoc. cbn [app]. apply E_S. cbn [p_atom]. cb.
        destruct (comps_head g (TOp ")" :: rest) O2) as (C1 & C2 & C3). rewrite begins_kw by (auto; apply begins_app; now apply toks_begin).
        estep (list_one KStarNamed fi (toks e) (IExpr e) (flat_map toks_comp g ++ TOp ")" :: rest) (item_starnamed e ltac:(lia) (ok_starred e O1)) C1 C2).
        cbn [exprs_of]. rewrite C3. rewrite (ok_not_starred e O1). estep (comps_ok' g (TOp ")" :: rest) ltac:(lia) O3 eq_refl eq_refl eq_refl).
        destruct g; [discriminate|]. cb. apply E_const.
      - (* DictComp *) apply andb_true_iff in Ho as [Ho O3]. apply andb_true_iff in Ho as [Ho O2]. apply andb_true_iff in Ho as [O1 O1']. apply Q_atom. intros rest _. cbn [toks]. unfold op. rewrite <- !app_assoc. cbn [app]. apply E_S. cbn [p_atom]. cb.
        destruct (comps_head g (TOp "}" :: rest) O2) as (C1 & C2 & C3).
        assert (X := list_one KKV fi _ _ (flat_map toks_comp g ++ TOp "}" :: rest) (item_kv e1 e2 ltac:(lia) ltac:(lia) O1 O1') C1 C2). unfold op in X. rewrite <- !app_assoc in X. cbn [app] in X.
        estep X. rewrite C3. estep (comps_ok' g (TOp "}" :: rest) ltac:(lia) O3 eq_refl eq_refl eq_refl).
        destruct g; [discriminate|]. cb. apply E_const.
      - (* Attr *) apply andb_true_iff in Ho as [O1 O2]. intros rest y Hr Hy. cbn [toks]. unfold op. rewrite <- !app_assoc. cbn [app].
        apply IH; [lia|auto|reflexivity|]. apply E_S. cbn [p_trail]. apply (E_S (fun n => match p_trailer n e (TOp "." :: TId x :: rest) with _ => _ end)). cbn [p_trailer idq]. cb.
        assert (HS : E (fun n => p_trail (S n) (EAttr e x) rest) y) by (destruct Hy as [M Hy]; exists M; intros; apply Hy; lia).
        exact HS.
      - (* Sub *) apply andb_true_iff in Ho as [O1 O2]. intros rest y Hr Hy. cbn [toks]. unfold op. rewrite <- !app_assoc. cbn [app].
        apply IH; [lia|auto|reflexivity|]. apply E_S. cbn [p_trail]. set (body := match e2 with ETuple l => tuple_toks (map toks l) | _ => toks e2 end).
        assert (HS : E (fun n => p_trail (S n) (ESub e1 e2) rest) y) by (destruct Hy as [M Hy]; exists M; intros; apply Hy; lia).
        apply (E_S (fun n => match p_trailer n e1 (TOp "[" :: body ++ TOp "]" :: rest) with _ => _ end)). cbn [p_trailer]. cb.
        assert (X : exists l tr, E (fun n => p_list n KSlice (body ++ TOp "]" :: rest)) (map IExpr l, tr, TOp "]" :: rest) /\ slices l tr = Some e2).
        { assert ((exists l, e2 = ETuple l) \/
             (body = toks e2 /\ is_starred e2 = false /\ match e2 with ESlice a b c => oko read a && oko read b && oko read c | EStarred x => ok x | _ => ok e2 end = true)) as [[l ->]|(B & Es & Oe)].
          { destruct e2; first [left; eexists; reflexivity | right; repeat split; exact O2 | discriminate]. }
          - apply andb_true_iff in O2 as [NE O2]. exists l, (one_item l).
            assert (HF : Forall2 (RI KSlice fs) (map toks l) (map IExpr l)).
            { apply Forall2_maps. apply forallb_Forall_In in O2. eapply Forall_impl; [|exact O2]. cbn beta. intros c [Oc Hc]. apply item_slice; auto. apply (sum_in size) in Hc. cbn [size] in Hs. lia. }
            split.
            + assert (Z := tuple_ok KSlice fs _ _ "]" rest (fun _ => eq_refl) HF eq_refl eq_refl eq_refl). replace (one_item l) with (one_item (map IExpr l)) by (destruct l as [|? [|]]; reflexivity). exact Z.
            + destruct l as [|x [|x2 l]]; [discriminate| |reflexivity]. cbn [slices one_item tuple_or_single]. now destruct (is_starred x).
          - rewrite B. exists [e2], false. split.
            + apply (list_one KSlice fs); [|reflexivity|reflexivity]. apply item_slice; [lia|exact Oe].
            + cbn [slices tuple_or_single]. now rewrite Es. }
        destruct X as (l & tr & X & HL). estep X. rewrite exprs_of_map, HL. cb. exact HS.
      - (* Call *) apply andb_true_iff in Ho as [Ho O3]. apply andb_true_iff in Ho as [O1 O2]. intros rest y Hr Hy. cbn [toks]. unfold op. rewrite <- !app_assoc. cbn [app].
        apply IH; [lia|auto|reflexivity|]. apply E_S. cbn [p_trail].
        assert (HS : E (fun n => p_trail (S n) (ECall e args kws) rest) y) by (destruct Hy as [M Hy]; exists M; intros; apply Hy; lia).
        apply (E_S (fun n => match p_trailer n e (TOp "(" :: seps (TOp ",") (map toks args ++ map toks_kw kws) ++ TOp ")" :: rest) with _ => _ end)). cbn [p_trailer]. cb.
        set (its := map IExpr args ++ map (fun k => match k with Kw (Some x) e => IKw x e | Kw None e => IDstar e end) kws).
        assert (X : E (fun n => p_list n KArg (seps (TOp ",") (map toks args ++ map toks_kw kws) ++ TOp ")" :: rest)) (its, false, TOp ")" :: rest)).
        { assert (HF : Forall2 (RI KArg fi) (map toks args ++ map toks_kw kws) its).
          { apply Forall2_app; [apply items_ok; auto; [apply item_arg|lia]|].
            apply Forall2_maps. apply forallb_Forall_In in O3. eapply Forall_impl; [|exact O3]. cbn beta. intros k [Ok Hk]. apply item_kw; auto. apply (sum_in size_kw) in Hk. lia. }
          assert (NE : its = [] \/ nonempty its = true) by (destruct its; auto). destruct NE as [NE|NE].
          - assert (HE : map toks args ++ map toks_kw kws = []) by (rewrite NE in HF; now inversion HF). rewrite HE, NE. now apply bad_list.
          - apply (list_ok _ fi); auto. }
        assert (CA := call_args_ok args kws O2). fold its in CA. estep X. cb. rewrite CA. exact HS.
      - (* Await *) apply Q_atom. intros rest _. cbn [toks]. unfold op. rewrite <- !app_assoc. cbn [app].
        change (TKw "await" :: toks e ++ TOp ")" :: rest) with ((TKw "await" :: toks e) ++ TOp ")" :: rest). apply (group_up LAwait); try reflexivity.
        + cbn [app]. apply E_S. cbn [p]. cb. estep (D e LPrim (TOp ")" :: rest) ltac:(lia) Ho eq_refl). apply E_const.
        + intros K HK. destruct K; try reflexivity; cbn in HK; lia.
      - (* Yield *) apply Q_atom. intros rest _. cbn [toks]. unfold op. rewrite <- !app_assoc. cbn [app]. apply E_S. cbn [p_atom]. cb.
        assert (Y : E (fun n => p_yield n (match e with Some e => toks e | None => [] end ++ TOp ")" :: rest)) (Some (EYield e, TOp ")" :: rest))).
        { apply E_S. cbn [p_yield]. destruct e as [e|].
          - assert (F : kwq "from" (toks e ++ TOp ")" :: rest) = None).
            { destruct (is_starred e) eqn:Es; [destruct e; try discriminate; reflexivity|].
              apply begins_kw; auto. apply begins_app. apply toks_begin. destruct e; auto; discriminate. }
            rewrite F. estep (list_one KStarExpr fi (toks e) (IExpr e) (TOp ")" :: rest) (item_starexpr e ltac:(lia) Ho) eq_refl eq_refl). cbn [exprs_of tuple_or_single]. apply E_const.
          - cbn [app]. cb. estep (bad_list ")" rest KStarExpr eq_refl eq_refl). apply E_const. }
        estep Y. cb. apply E_const.
      - (* YieldFrom *) apply Q_atom. intros rest _. cbn [toks]. unfold op. rewrite <- !app_assoc. cbn [app]. apply E_S. cbn [p_atom]. cb.
        assert (Y : E (fun n => p_yield n (TKw "from" :: toks e ++ TOp ")" :: rest)) (Some (EYieldFrom e, TOp ")" :: rest))).
        { apply E_S. cbn [p_yield]. cb. estep (D e LExpr (TOp ")" :: rest) ltac:(lia) Ho eq_refl). apply E_const. }
        estep Y. cb. apply E_const.
      - (* JoinedStr *) apply andb_true_iff in Ho as [O1 O2]. apply Q_atom. intros rest Hr. cbn [toks app]. apply E_S. cbn [p_atom]. rewrite Hr.
        estep (parts_parse (S (list_sum (map size l))) l 0 ltac:(lia) ltac:(lia) O2). apply E_const.
    Qed.
  End Step.
  Theorem parse_ok e : ok e = true -> Q e.
  Proof.
    assert (X : forall N e, size e <= N -> ok e = true -> Q e).
    { induction N as [|N IH]; intros x Hs Ho; [destruct x; cbn in Hs; lia|]. apply (parse_step (S N)); auto. intros y Hy. apply IH. lia. }
    intros. eapply X; eauto.
  Qed.
  Theorem reads_at e L rest : ok e = true -> stops L rest = true -> E (fun n => p n L (toks e ++ rest)) (Some (e, rest)).
  Proof. intros. apply Q_all; auto. now apply parse_ok. Qed.
End Parse.
