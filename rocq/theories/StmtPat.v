(** Patterns: the parser reads [ptoks p] as [p]. *)
From Verif Require Import Base UnparseModel PyGrammar PyStmt UnparseSpec StmtSpec UnparseLex UnparseToks UnparseText UnparseParse StmtToks StmtLayout StmtText StmtConsume StmtParse.
Open Scope string_scope.
Open Scope list_scope.

Section Pat.
  Variable read : string -> string.
  Notation ok := (ok read).
  Notation ok_pat := (ok_pat read).
  Ltac cb := cbn [opq kwq idq String.eqb Ascii.eqb Bool.eqb].

  (** What may follow a closed pattern, and any pattern. *)
  Definition pstop (ts : list tok) : bool :=
    negb (is_strtok ts) && negb (next_op ["."; "("; "="] ts) && isn (opq "+" ts) && isn (opq "-" ts).
  Definition pend (ts : list tok) : bool := pstop ts && isn (opq "|" ts) && isn (kwq "as" ts).
  Lemma pend_stop ts : pend ts = true -> pstop ts = true.
  Proof. unfold pend. intros H. apply andb_true_iff in H as [H _]. now apply andb_true_iff in H as [H _]. Qed.

  (** ** Dotted names *)
  Fixpoint root (e : expr) : string := match e with EName x => x | EAttr e _ => root e | _ => "" end.
  Fixpoint dtail (e : expr) : list tok := match e with EAttr e x => dtail e ++ [TOp "."; TId x] | _ => [] end.
  Lemma dots_toks_root e : ok_dots e = true -> toks e = TId (root e) :: dtail e /\ String.eqb (root e) "_" = false.
  Proof.
    induction e; cbn [ok_dots]; intros H; try discriminate.
    - unfold ok_cap in H. apply andb_true_iff in H as [_ H]. apply negb_true_iff in H. auto.
    - apply andb_true_iff in H as [H _]. destruct (IHe H) as [E1 E2]. cbn [toks root dtail]. rewrite E1. auto.
  Qed.
  Lemma attrs_ok e : ok_dots e = true -> forall rest y, E (fun n => p_attrs n e rest) y -> E (fun n => p_attrs n (EName (root e)) (dtail e ++ rest)) y.
  Proof.
    induction e; cbn [ok_dots]; intros H rest y Hy; try discriminate; [exact Hy|].
    apply andb_true_iff in H as [H _]. cbn [root dtail]. rewrite <- app_assoc. apply IHe; auto. cbn [app]. apply E_S. cbn [p_attrs]. cb. exact Hy.
  Qed.
  Lemma attrs_stop e rest : opq "." rest = None -> E (fun n => p_attrs n e rest) (Some (e, rest)).
  Proof. intros H. apply E_S. cbn [p_attrs]. rewrite H. apply E_const. Qed.
  Lemma next_opq l x ts : next_op l ts = false -> smem x l = true -> opq x ts = None.
  Proof. destruct ts as [|[] ts]; try reflexivity. cbn [next_op opq]. intros H Hx. destruct (String.eqb_spec x x0) as [->|]; [congruence|reflexivity]. Qed.

  (** ** What patterns begin with *)
  Lemma ptoks_begin p : ok_pat p = true -> begins atom1 (ptoks p) = true.
  Proof.
    induction p using pat_ind; cbn [StmtSpec.ok_pat ptoks]; intros Ho; try discriminate; try reflexivity.
    - eapply toks_begin, ok_value_ok; eauto.
    - destruct c; try discriminate; reflexivity.
    - apply andb_true_iff in Ho as [Ho _]. apply andb_true_iff in Ho as [Ho _]. apply begins_app. now destruct (dots_toks_root c Ho) as [-> _].
    - destruct x; reflexivity.
    - destruct x as [x|]; [|discriminate]. apply andb_true_iff in Ho as [Ho _]. apply andb_true_iff in Ho as [Ho _]. destruct (is_or p); [reflexivity|]. cbn [app].
      apply begins_app. auto.
    - destruct H as [|q l Hq Hl]; [discriminate|]. cbn [forallb] in Ho. apply andb_true_iff in Ho as [_ Ho]. apply andb_true_iff in Ho as [Ho _]. apply andb_true_iff in Ho as [Ho _].
      cbn [map]. destruct l as [|q' l]; cbn [map seps]; [auto|]. apply begins_app. auto.
  Qed.
  Lemma ptoks_nameop p : forall rest, ok_pat p = true -> opq "=" rest = None -> nameop "=" (ptoks p ++ rest) = None.
  Proof.
    induction p using pat_ind; cbn [StmtSpec.ok_pat ptoks]; intros rest Ho Hr; try discriminate; try reflexivity.
    - apply (nameop_toks read "=" eq_refl); auto. now apply ok_value_ok.
    - destruct c; reflexivity.
    - apply andb_true_iff in Ho as [Ho _]. apply andb_true_iff in Ho as [Ho _]. rewrite <- app_assoc. apply (nameop_toks read "=" eq_refl); [now apply ok_dots_ok|reflexivity].
    - destruct x; cbn; now rewrite Hr.
    - destruct x as [x|]; [|discriminate]. apply andb_true_iff in Ho as [Ho _]. apply andb_true_iff in Ho as [Ho _]. destruct (is_or p); [reflexivity|]. cbn [app].
      rewrite <- app_assoc. now apply IHp.
    - destruct H as [|q l Hq Hl]; [discriminate|]. cbn [forallb] in Ho. apply andb_true_iff in Ho as [_ Ho]. apply andb_true_iff in Ho as [Ho _]. apply andb_true_iff in Ho as [Ho _].
      cbn [map]. destruct l as [|q' l]; cbn [map seps]; [auto|]. rewrite <- app_assoc. now apply Hq.
  Qed.

  (** ** Lists *)
  Definition PI (k : pkind) (ts : list tok) (i : pitem) : Prop := forall rest, pend rest = true -> E (fun n => p_pitem n k (ts ++ rest)) (Some (i, rest)).
  Lemma plist_ok k tss its rest : Forall2 (PI k) tss its -> nonempty its = true -> pend rest = true -> opq "," rest = None ->
    E (fun n => p_plist n k (commas tss ++ rest)) (its, false, rest).
  Proof.
    intros H Hne Hr Hc. unfold commas. induction H as [|ts i tss its Hi H IH]; [discriminate|]. destruct H as [|ts' i' tss its Hi' H].
    - cbn [seps]. apply E_S. cbn [p_plist]. estep (Hi rest Hr). rewrite Hc. apply E_const.
    - change (seps (TOp ",") (ts :: ts' :: tss)) with (ts ++ TOp "," :: seps (TOp ",") (ts' :: tss)). rewrite <- app_assoc. cbn [app].
      apply E_S. cbn [p_plist]. estep (Hi (TOp "," :: seps (TOp ",") (ts' :: tss) ++ rest) eq_refl). cb. estep (IH eq_refl). apply E_const.
  Qed.
  Lemma no_pat n x r : smem x [")"; "]"; "}"] = true -> p_pat n (TOp x :: r) = None.
  Proof.
    intros H. apply smem_In in H. cbn [In] in H. destruct n as [|[|[|n]]]; try reflexivity. cbn [p_pat p_ors p_closed].
    destruct H as [<-|[<-|[<-|[]]]]; cb; unfold p_literal, p_signed; cb; destruct r as [|[] r]; reflexivity.
  Qed.
  Lemma plist_nil k x r : smem x [")"; "]"; "}"] = true -> E (fun n => p_plist n k (TOp x :: r)) ([], false, TOp x :: r).
  Proof.
    intros H. apply E_S. cbn [p_plist]. exists 0. intros n _. assert (X : p_pitem n k (TOp x :: r) = None); [|now rewrite X].
    destruct n as [|n]; [reflexivity|]. cbn [p_pitem]. assert (N := no_pat n x r H). apply smem_In in H. cbn [In] in H.
    destruct k; [| |cb; now rewrite N]; destruct H as [<-|[<-|[<-|[]]]]; cb; try (now rewrite N); unfold p_literal, p_signed; destruct r as [|[] r]; reflexivity.
  Qed.
  (** Some or none, up to a bracket. *)
  Lemma plist_to k tss its x rest : Forall2 (PI k) tss its -> smem x [")"; "]"; "}"] = true ->
    E (fun n => p_plist n k (commas tss ++ TOp x :: rest)) (its, false, TOp x :: rest).
  Proof.
    intros H Hx. destruct H as [|ts i tss its Hi H]; [now apply plist_nil|].
    apply plist_ok; [now constructor|reflexivity| |]; apply smem_In in Hx; cbn [In] in Hx; destruct Hx as [<-|[<-|[<-|[]]]]; reflexivity.
  Qed.
  Lemma pats_of_map l : pats_of (map IPat l) = Some l.
  Proof. induction l as [|p l IH]; [reflexivity|]. cbn [map pats_of]. now rewrite IH. Qed.
  Lemma kwds_of_map k : kwds_of (map (fun kp => IPk (fst kp) (snd kp)) k) = Some k.
  Proof. induction k as [|[x p] k IH]; [reflexivity|]. cbn [map kwds_of fst snd]. now rewrite IH. Qed.
  Lemma cls_of_map l k : cls_of (map IPat l ++ map (fun kp => IPk (fst kp) (snd kp)) k) = Some (l, k).
  Proof.
    induction l as [|p l IH]; cbn [map app cls_of]; [|now rewrite IH]. assert (X := kwds_of_map k). destruct k as [|[x p] k]; [reflexivity|].
    cbn [map fst snd] in *. unfold cls_of. now rewrite X.
  Qed.
  Lemma map_of_map l r : map_of (map (fun kp => IPair (fst kp) (snd kp)) l ++ opts IRest r) = Some (l, r).
  Proof. induction l as [|[k p] l IH]; [destruct r; reflexivity|]. cbn [map app map_of fst snd]. now rewrite IH. Qed.

  (** ** Patterns *)
  Definition C (p : pattern) : Prop := forall rest, pstop rest = true -> E (fun n => p_closed n (ptoks p ++ rest)) (Some (p, rest)).
  Definition A (p : pattern) : Prop := forall rest, pend rest = true -> E (fun n => p_pat n (ptoks p ++ rest)) (Some (p, rest)).
  Lemma closed_ors ts p rest : (forall rest, pstop rest = true -> E (fun n => p_closed n (ts ++ rest)) (Some (p, rest))) -> pstop rest = true -> opq "|" rest = None ->
    E (fun n => p_ors n (ts ++ rest)) (Some ([p], rest)).
  Proof. intros H Hr Hb. apply E_S. cbn [p_ors]. estep (H rest Hr). rewrite Hb. apply E_const. Qed.
  Lemma C_A p : C p -> A p.
  Proof.
    intros H rest Hr. assert (Hs := pend_stop _ Hr). unfold pend in Hr. apply andb_true_iff in Hr as [Hr Ha]. apply andb_true_iff in Hr as [_ Hb]. apply isn_None in Ha, Hb.
    apply E_S. cbn [p_pat]. estep (closed_ors _ _ _ H Hs Hb). rewrite Ha. apply E_const.
  Qed.
  Lemma capture_ok x rest : ok_cap x = true -> next_op ["."; "("; "="] rest = false -> p_capture (TId x :: rest) = Some (x, rest).
  Proof. unfold ok_cap, p_capture. intros H Hr. apply andb_true_iff in H as [_ H]. apply negb_true_iff in H. cb. now rewrite H, Hr. Qed.
  Lemma stop_next rest : pstop rest = true -> next_op ["."; "("; "="] rest = false.
  Proof. unfold pstop. intros H. apply andb_true_iff in H as [H _]. apply andb_true_iff in H as [H _]. apply andb_true_iff in H as [_ H]. now apply negb_true_iff in H. Qed.
  Lemma pas_ok ts p x rest : (forall rest, pstop rest = true -> E (fun n => p_closed n (ts ++ rest)) (Some (p, rest))) -> ok_cap x = true -> pend rest = true ->
    E (fun n => p_pat n ((ts ++ [TKw "as"; TId x]) ++ rest)) (Some (PAs (Some p) (Some x), rest)).
  Proof.
    intros H Hx Hr. rewrite <- app_assoc. cbn [app]. apply E_S. cbn [p_pat]. estep (closed_ors ts p (TKw "as" :: TId x :: rest) H eq_refl eq_refl). cb.
    rewrite capture_ok by (auto using stop_next, pend_stop). apply E_const.
  Qed.
  Lemma ors_ok l rest : nonempty l = true -> Forall C l -> pstop rest = true -> opq "|" rest = None -> E (fun n => p_ors n (seps (TOp "|") (map ptoks l) ++ rest)) (Some (l, rest)).
  Proof.
    intros Hn H Hr Hb. induction H as [|p l Hp H IH]; [discriminate|]. destruct l as [|q l]; [now apply closed_ors|].
    cbn [map]. change (seps (TOp "|") (ptoks p :: ptoks q :: map ptoks l)) with (ptoks p ++ TOp "|" :: seps (TOp "|") (map ptoks (q :: l))). rewrite <- app_assoc. cbn [app].
    apply E_S. cbn [p_ors]. estep (Hp (TOp "|" :: seps (TOp "|") (map ptoks (q :: l)) ++ rest) eq_refl). cb. estep (IH eq_refl). apply E_const.
  Qed.
  Lemma item_pat p : ok_pat p = true -> A p -> PI KSeq (ptoks p) (IPat p).
  Proof.
    intros Ho H rest Hr. apply E_S. cbn [p_pitem]. rewrite begins_op by (auto; apply begins_app; now apply ptoks_begin). estep (H rest Hr). apply E_const.
  Qed.
  Lemma ok_not_pstar p : ok_pat p = true -> is_pstar p = false.
  Proof. now destruct p. Qed.
  Lemma group_ok p : ok_pat p = true -> A p -> forall rest, E (fun n => p_closed n ((op "(" ++ ptoks p ++ op ")") ++ rest)) (Some (p, rest)).
  Proof.
    intros Ho H rest. unfold op. rewrite <- !app_assoc. cbn [app]. apply E_S. cbn [p_closed]. cb.
    assert (X : E (fun n => p_plist n KSeq (ptoks p ++ TOp ")" :: rest)) ([IPat p], false, TOp ")" :: rest)).
    { apply (plist_to KSeq [ptoks p] [IPat p]); [|reflexivity]. constructor; [now apply item_pat|constructor]. }
    estep X. cbn [pats_of]. cb. cbn [seq_or_pat]. rewrite ok_not_pstar by exact Ho. apply E_const.
  Qed.
  Lemma lit_stop c rest : pstop rest = true -> p_literal (ctok c :: rest) = match c with CEllipsis => None | _ => Some (EConst c, rest) end.
  Proof.
    intros H. unfold pstop in H. apply andb_true_iff in H as [H Hm]. apply andb_true_iff in H as [H Hp]. apply andb_true_iff in H as [Hs _]. apply isn_None in Hm, Hp. apply negb_true_iff in Hs.
    destruct c; unfold p_literal; cbn [ctok]; try reflexivity; try (now rewrite Hs); cbn [p_signed is_num].
    2,3: destruct rest as [|[] rest]; try reflexivity; cbn [opq assoc] in *; rewrite (String.eqb_sym x "+"), (String.eqb_sym x "-"); destruct (String.eqb "+" x); [discriminate|]; destruct (String.eqb "-" x); [discriminate|reflexivity].
    destruct rest as [|[] rest]; reflexivity.
  Qed.
  Lemma named_ok e rest y : ok_dots e = true -> opq "." rest = None ->
    E (fun n => match opq "(" rest with
            | Some r2 => match p_plist n KCls r2 with (its, _, r3) => let? (a, k) := cls_of its in let? r4 := opq ")" r3 in Some (PClass e a k, r4) end
            | None => if next_op ["="] rest then None else Some (match e with EName x => PAs None (Some x) | _ => PValue e end, rest)
            end) y -> E (fun n => p_closed n (toks e ++ rest)) y.
  Proof.
    intros Ho Hr Hy. destruct (dots_toks_root e Ho) as [-> Hu]. cbn [app]. apply E_S. cbn [p_closed]. rewrite Hu.
    estep (attrs_ok e Ho rest _ (attrs_stop e rest Hr)). exact Hy.
  Qed.
  Lemma name_ok e rest : ok_dots e = true -> pstop rest = true -> E (fun n => p_closed n (toks e ++ rest)) (Some (match e with EName x => PAs None (Some x) | _ => PValue e end, rest)).
  Proof.
    intros Ho Hr. apply stop_next in Hr. apply named_ok; auto; [eapply next_opq; [exact Hr|reflexivity]|].
    rewrite (next_opq _ "(" _ Hr eq_refl). replace (next_op ["="] rest) with false; [apply E_const|].
    symmetry. destruct rest as [|[] rest]; try reflexivity. cbn [next_op smem existsb] in *. apply orb_false_iff in Hr as [_ Hr]. apply orb_false_iff in Hr as [_ Hr]. exact Hr.
  Qed.
  Lemma lit_closed c rest : is_num c || is_text c = true -> pstop rest = true -> E (fun n => p_closed n (ctok c :: rest)) (Some (PValue (EConst c), rest)).
  Proof. intros Hc Hr. apply E_S. cbn [p_closed]. assert (X := lit_stop c rest Hr). destruct c; try discriminate; cbn [ctok] in *; rewrite X; apply E_const. Qed.
  (** A value in parentheses. *)
  Lemma paren_value ts e rest : opq "*" ts = None -> (match ts with TOp "-" :: _ | TConst _ :: _ => true | _ => false end) = true ->
    p_literal (ts ++ TOp ")" :: rest) = Some (e, TOp ")" :: rest) -> E (fun n => p_closed n ((op "(" ++ ts ++ op ")") ++ rest)) (Some (PValue e, rest)).
  Proof.
    intros Hs Hm H. unfold op. rewrite <- !app_assoc. cbn [app]. exists 6. intros n Hn. do 6 (destruct n as [|n]; [lia|]). clear Hn.
    destruct ts as [|t ts]; [discriminate|]. assert (X : p_closed (S n) (t :: ts ++ TOp ")" :: rest) = Some (PValue e, TOp ")" :: rest)).
    { cbn [app] in H. destruct t; try discriminate; cbn [p_closed]; [|now rewrite H].
      destruct (String.eqb_spec x "-") as [->|Hx]; [cb; now rewrite H|]. exfalso.
      destruct x as [|c x]; [discriminate|]. destruct c as [[] [] [] [] [] [] [] []]; try discriminate. destruct x; [congruence|discriminate]. }
    cbn [p_closed]. cb. cbn [p_plist p_pitem app]. assert (Hs' : opq "*" (t :: ts ++ TOp ")" :: rest) = None) by (destruct t; try reflexivity; cbn [opq] in *; destruct (String.eqb "*" x); [discriminate|reflexivity]). rewrite Hs'. cbn [p_pat p_ors]. cbn [app] in X. rewrite X. cb.
    cbn [pats_of seq_or_pat is_pstar]. cb. reflexivity.
  Qed.
  Lemma value_ok e : ok_value read e = true -> C (PValue e).
  Proof.
    intros Ho rest Hr. cbn [ptoks]. destruct e as [| c| l o r| o e| | | | | | | | | | | | | | e a| | | | | | | | | ]; try discriminate.
    - cbn [ok_value] in Ho. apply andb_true_iff in Ho as [Ho _]. cbn [toks app]. now apply lit_closed.
    - cbn [ok_value] in Ho. destruct l as [| c| | | | | | | | | | | | | | | | | | | | | | | | | ]; try discriminate.
      destruct r as [| d| | | | | | | | | | | | | | | | | | | | | | | | | ]; try (destruct o; discriminate).
      assert (Ho' : is_num c && negb (is_imag c) && is_imag d = true) by (destruct o; try discriminate; apply andb_true_iff in Ho as [Ho _]; now apply andb_true_iff in Ho as [Ho _]).
      apply andb_true_iff in Ho' as [Ho' H3]. apply andb_true_iff in Ho' as [H1 H2]. cbn [toks]. change (op "(" ++ [ctok c] ++ op (binop_text o) ++ [ctok d] ++ op ")") with (op "(" ++ ([ctok c; TOp (binop_text o); ctok d]) ++ op ")").
      assert (Hd : ctok d = TConst d) by (destruct d; try discriminate; reflexivity). assert (Hc : ctok c = TConst c) by (destruct c; try discriminate; reflexivity). rewrite Hc, Hd.
      apply paren_value; try reflexivity. cbn [app]. unfold p_literal.
      destruct c; try discriminate; cbn [p_signed is_num]; (destruct o; try discriminate; cbn [binop_text assoc String.eqb Ascii.eqb Bool.eqb]; rewrite H2, H3; reflexivity).
    - cbn [ok_value] in Ho. destruct o; try discriminate. destruct e as [| c| | | | | | | | | | | | | | | | | | | | | | | | | ]; try discriminate. apply andb_true_iff in Ho as [H1 _].
      change (toks (EUnary USub (EConst c))) with (op "(" ++ [TOp "-"; ctok c] ++ op ")").
      assert (Hc : ctok c = TConst c) by (destruct c; try discriminate; reflexivity). rewrite Hc. apply paren_value; try reflexivity. cbn [app]. unfold p_literal. cbn [p_signed]. rewrite H1. reflexivity.
    - apply (name_ok (EAttr e a)); auto.
  Qed.
  Lemma key_ok k p rest : ok_key read k = true -> A p -> pend rest = true -> E (fun n => p_pitem n KMap (pair_toks (toks k) (ptoks p) ++ rest)) (Some (IPair k p, rest)).
  Proof.
    intros Ho Hp Hr. unfold pair_toks. rewrite <- app_assoc. cbn [app]. set (R := TOp ":" :: ptoks p ++ rest). apply E_S. cbn [p_pitem]. destruct k as [| c| | | | | | | | | | | | | | | | e a| | | | | | | | | ]; try discriminate.
    - assert (X := lit_stop c R eq_refl). cbn [toks app]. assert (L : p_literal (ctok c :: R) = Some (EConst c, R)) by (destruct c; try discriminate; exact X).
      assert (S0 : opq "**" (ctok c :: R) = None) by (destruct c; reflexivity). rewrite S0.
      destruct c; try discriminate; cbn [ctok] in L |- *; rewrite L; unfold R; cb; estep (Hp rest Hr); apply E_const.
    - cbn [ok_key] in Ho. destruct (dots_toks_root (EAttr e a) Ho) as [-> Hu]. cbn [app]. cb.
      estep (attrs_ok (EAttr e a) Ho R _ (attrs_stop (EAttr e a) R eq_refl)). unfold R. cb. estep (Hp rest Hr). apply E_const.
  Qed.
  Lemma pat_ok p : ok_pat p = true -> A p /\ (closed p = true -> C p).
  Proof.
    induction p using pat_ind; cbn [StmtSpec.ok_pat]; intros Ho; try discriminate.
    - assert (X := value_ok e Ho). split; auto. now apply C_A.
    - assert (X : C (PSingleton c)). { intros rest Hr. cbn [ptoks app]. apply E_S. cbn [p_closed]. destruct c; try discriminate; exists 0; intros n _; reflexivity. } split; auto. now apply C_A.
    - assert (X : C (PSequence l)).
      { intros rest Hr. cbn [ptoks]. unfold op. rewrite <- !app_assoc. cbn [app]. apply E_S. cbn [p_closed]. cb.
        assert (Y : Forall2 (PI KSeq) (map ptoks l) (map IPat l)).
        { apply Forall2_maps. apply forallb_Forall_In in Ho. rewrite Forall_forall in *. intros q Hq. destruct (Ho q Hq) as [Oq _]. specialize (H q Hq).
          assert (Z : ok_pat q = true -> PI KSeq (ptoks q) (IPat q)) by (intros O; apply item_pat; auto; now apply H).
          destruct q as [| | |x| | | |]; auto. intros r0 Hr0. cbn [ptoks app]. apply E_S. cbn [p_pitem]. cb. apply pend_stop, stop_next in Hr0.
          destruct x as [x|]; [rewrite capture_ok by auto; apply E_const|]. unfold p_capture. cb. apply E_const. }
        estep (plist_to KSeq _ _ "]" rest Y eq_refl). rewrite pats_of_map. cb. apply E_const. }
      split; auto. now apply C_A.
    - assert (X : C (PMapping l r)).
      { intros rest Hr. apply andb_true_iff in Ho as [Ol Or]. cbn [ptoks]. unfold op. rewrite <- !app_assoc. cbn [app]. apply E_S. cbn [p_closed]. cb.
        assert (Y : Forall2 (PI KMap) (map (fun kp => match kp with (k, p) => pair_toks (toks k) (ptoks p) end) l ++ opts rest_toks r) (map (fun kp => IPair (fst kp) (snd kp)) l ++ opts IRest r)).
        { apply Forall2_app.
          - apply Forall2_maps. apply forallb_Forall_In in Ol. rewrite Forall_forall in *. intros [k q] Hq. destruct (Ol _ Hq) as [Oq _]. specialize (H _ Hq). apply andb_true_iff in Oq as [Ok Oq].
            intros r0 Hr0. cbn [fst snd]. apply key_ok; auto. now apply H.
          - destruct r as [x|]; cbn [opts]; constructor; [|constructor]. intros r0 Hr0. unfold rest_toks. cbn [app]. apply E_S. cbn [p_pitem]. cb.
            rewrite capture_ok by auto using stop_next, pend_stop. apply E_const. }
        estep (plist_to KMap _ _ "}" rest Y eq_refl). rewrite map_of_map. cb. apply E_const. }
      split; auto. now apply C_A.
    - assert (X : C (PClass c l k)).
      { intros rest Hr. apply andb_true_iff in Ho as [Ho Ok]. apply andb_true_iff in Ho as [Oc Ol]. cbn [ptoks]. unfold op. rewrite <- !app_assoc. cbn [app].
        apply named_ok; auto. cb.
        assert (Y : Forall2 (PI KCls) (map ptoks l ++ map (fun kp => match kp with (x, p) => pkw_toks x (ptoks p) end) k) (map IPat l ++ map (fun kp => IPk (fst kp) (snd kp)) k)).
        { apply Forall2_app; apply Forall2_maps; [apply forallb_Forall_In in Ol|apply forallb_Forall_In in Ok]; rewrite Forall_forall in *.
          - intros q Hq r0 Hr0. destruct (Ol q Hq) as [Oq _]. destruct (H q Hq Oq) as [Aq _]. apply E_S. cbn [p_pitem].
            assert (N := ptoks_nameop q r0 Oq). unfold nameop in N. rewrite N by (eapply next_opq; [apply stop_next, pend_stop; exact Hr0|reflexivity]). estep (Aq r0 Hr0). apply E_const.
          - intros [x q] Hq r0 Hr0. destruct (Ok _ Hq) as [Oq _]. apply andb_true_iff in Oq as [_ Oq]. destruct (H0 _ Hq Oq) as [Aq _]. cbn [fst snd] in *. unfold pkw_toks. cbn [app].
            apply E_S. cbn [p_pitem]. cb. estep (Aq r0 Hr0). apply E_const. }
        estep (plist_to KCls _ _ ")" rest Y eq_refl). rewrite cls_of_map. cb. apply E_const. }
      split; auto. now apply C_A.
    - assert (X : C (PAs None x)).
      { intros rest Hr. destruct x as [x|]; cbn [ptoks].
        - apply (name_ok (EName x) rest); auto.
        - cbn [app]. apply E_S. cbn [p_closed]. cb. apply E_const. }
      split; auto. now apply C_A.
    - destruct x as [x|]; [|discriminate]. apply andb_true_iff in Ho as [Ho Ox]. apply andb_true_iff in Ho as [Op Ho]. destruct (IHp Op) as [Ap Cp]. split; [|discriminate].
      intros rest Hr. cbn [ptoks]. destruct (is_or p) eqn:Eo.
      + replace (op "(" ++ ptoks p ++ op ")" ++ [TKw "as"; TId x]) with ((op "(" ++ ptoks p ++ op ")") ++ [TKw "as"; TId x]) by (now rewrite <- !app_assoc).
        apply pas_ok; auto. intros r0 _. now apply group_ok.
      + cbn [app]. apply pas_ok; auto. rewrite orb_false_r in Ho. exact (Cp Ho).
    - split; [|discriminate]. intros rest Hr. apply andb_true_iff in Ho as [Hl Ho]. cbn [ptoks].
      assert (Hs := pend_stop _ Hr). unfold pend in Hr. apply andb_true_iff in Hr as [Hr Ha]. apply andb_true_iff in Hr as [_ Hb]. apply isn_None in Ha, Hb.
      assert (Y : Forall C l).
      { apply forallb_Forall_In in Ho. rewrite Forall_forall in *. intros q Hq. destruct (Ho q Hq) as [Oq _]. apply andb_true_iff in Oq as [Oq Cq]. now apply (H q Hq Oq). }
      assert (Hn : nonempty l = true) by (destruct l; [discriminate|reflexivity]).
      apply E_S. cbn [p_pat]. estep (ors_ok l rest Hn Y Hs Hb). rewrite Ha. destruct l as [|p0 [|p1 l]]; try discriminate. apply E_const.
  Qed.
  Lemma guard_ok g rest : ok_o read g = true -> E (fun n => p_guard n (opt_toks (fun g => TKw "if" :: toks g) g ++ TOp ":" :: rest)) (Some (g, TOp ":" :: rest)).
  Proof.
    intros Ho. unfold p_guard. destruct g as [g|]; cbn [opt_toks app]; cb; [|apply E_const]. estep (reads_at read g LNamed (TOp ":" :: rest) Ho eq_refl). apply E_const.
  Qed.
  Lemma patterns_ok p (par : bool) rest : ok_pat p = true -> pend rest = true -> opq "," rest = None ->
    E (fun n => p_patterns n (((if par then op "(" else []) ++ ptoks p ++ (if par then op ")" else [])) ++ rest)) (Some (p, rest)).
  Proof.
    intros Ho Hr Hc. destruct (pat_ok p Ho) as [Ap _]. unfold p_patterns.
    assert (X : PI KSeq ((if par then op "(" else []) ++ ptoks p ++ (if par then op ")" else [])) (IPat p)).
    { destruct par; [|cbn [app]; rewrite app_nil_r; now apply item_pat]. intros r0 Hr0. apply E_S. cbn [p_pitem].
      assert (Hs0 : opq "*" ((op "(" ++ ptoks p ++ op ")") ++ r0) = None) by reflexivity. rewrite Hs0.
      assert (Y : E (fun n => p_pat n ((op "(" ++ ptoks p ++ op ")") ++ r0)) (Some (p, r0))).
      { assert (Hs := pend_stop _ Hr0). unfold pend in Hr0. apply andb_true_iff in Hr0 as [Hr0 Ha]. apply andb_true_iff in Hr0 as [_ Hb]. apply isn_None in Ha, Hb.
        apply E_S. cbn [p_pat]. estep (closed_ors (op "(" ++ ptoks p ++ op ")") p r0 (fun r _ => group_ok p Ho Ap r) Hs Hb). rewrite Ha. apply E_const. }
      estep Y. apply E_const. }
    assert (Z := plist_ok KSeq [_] [IPat p] rest (Forall2_cons _ _ X (Forall2_nil _)) eq_refl Hr Hc). unfold commas in Z. cbn [seps] in Z. estep Z. cbn [pats_of seq_or_pat]. rewrite ok_not_pstar by exact Ho. apply E_const.
  Qed.
  Lemma subject_ok e rest : ok e = true -> E (fun n => p_subject n (toks e ++ TOp ":" :: TNewline :: TIndent :: rest)) (Some (e, rest)).
  Proof.
    intros Ho. unfold p_subject.
    assert (X : RI KStarNamed (stops LNamed) (toks e) (IExpr e)).
    { intros r Hr. apply E_S. cbn [p_item]. rewrite (toks_op read) by auto. estep (reads_at read e LNamed r Ho Hr). apply E_const. }
    estep (list_one KStarNamed (stops LNamed) (toks e) (IExpr e) (TOp ":" :: TNewline :: TIndent :: rest) X eq_refl eq_refl). cbn [exprs_of tuple_or_single].
    rewrite (ok_not_starred read e Ho). cb. apply E_const.
  Qed.
End Pat.
