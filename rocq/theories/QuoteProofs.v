(** Proofs for C41: the quasiquote compiler. *)
From Verif Require Import Base AstLib FixLocModel QuoteModel QuoteSpec.

Lemma liftable_ok a : (forall r, a <> AComplex r) -> (forall n, a <> AObj n) -> liftable a = true.
Proof. destruct a; intros H1 H2; try reflexivity; [destruct (H1 r eq_refl)|destruct (H2 n eq_refl)]. Qed.
Lemma not_quasi_call cm k fs : is_quasi k = false -> marker_call cm k fs = None.
Proof.
  unfold is_quasi, quasi_markers, smem, marker_call. cbn [existsb]. rewrite !orb_false_iff. intros (_ & _ & _ & H1 & H2 & H3 & H4 & H5 & H6 & _).
  rewrite H1, H2, H3, H4, H5, H6. reflexivity.
Qed.
Lemma mapr_Forall {A B} (f : A -> res B) (Q : A -> B -> Prop) l : Forall (fun x => exists y, f x = Ok y /\ Q x y) l -> exists l', mapr f l = Ok l' /\ Forall2 Q l l'.
Proof.
  induction 1 as [|x l (y & Hy & Qy) Hl (l' & IH & F)]; cbn [mapr]; [exists []; auto|]. exists (y :: l'). rewrite Hy, IH. auto.
Qed.
Lemma mapr_map {A B} (f : A -> res B) (g : A -> B) l : Forall (fun x => f x = Ok (g x)) l -> mapr f l = Ok (map g l).
Proof. induction 1 as [|x l Hx Hl IH]; cbn [mapr map]; [reflexivity|]. rewrite Hx, IH. reflexivity. Qed.

Section Q.
  Variables (is_expr is_stmt user_marker : string -> bool) (has_attr : string -> string -> bool).
  Variable parse_expr : string -> res pv.
  Variable ext : pv -> res pv.
  Notation is_marker := (is_marker user_marker).
  Notation astify := (astify user_marker has_attr).
  Notation eval := (eval is_expr is_stmt user_marker has_attr parse_expr ext).
  Notation unastify := (unastify has_attr).

  Lemma is_marker_quasi k : is_marker k = false -> is_quasi k = false.
  Proof. unfold QuoteModel.is_marker. rewrite !orb_false_iff. tauto. Qed.
  Lemma is_marker_done k : is_marker k = false -> String.eqb k "Done" = false.
  Proof. unfold QuoteModel.is_marker. rewrite !orb_false_iff. tauto. Qed.

  Definition astify_fields (cm : captures) := fix fields (fs : list (string * pv)) : res (list pv) :=
      match fs with
      | [] => Ok []
      | (f, v) :: r => match astify cm v with
                       | Err e => Err e
                       | Ok c => match fields r with Ok cs => Ok (p_kw f c :: cs) | Err e => Err e end
                       end
      end.
  Lemma astify_node cm m k fs : is_marker k = false -> astify cm (PN m k fs) =
    match astify_fields cm fs with
    | Ok cs => Ok (PN (copy_location has_attr "Call" noloc k m) "Call" [("func"%string, p_attr (quotes_attr "ast") k); ("args"%string, PL []); ("keywords"%string, PL cs)])
    | Err e => Err e
    end.
  Proof.
    intros H. cbn [QuoteModel.astify]. rewrite (not_quasi_call cm k fs (is_marker_quasi k H)), (is_marker_done k H), H. reflexivity.
  Qed.
  Lemma astify_done cm m fs : astify cm (PN m "Done" fs) = match astify_fields cm fs with Ok cs => Ok (p_call (quotes_attr "Done") [] cs) | Err e => Err e end.
  Proof. cbn [QuoteModel.astify]. rewrite (not_quasi_call cm "Done" fs eq_refl). reflexivity. Qed.

  Definition eval_kws := fix kws (l : list pv) : option (res (list (string * pv))) :=
      match l with
      | [] => Some (Ok [])
      | PN _ k [(f, PA (AStr a)); (g, v)] :: r =>
          if String.eqb k "keyword" && String.eqb f "arg" && String.eqb g "value" then
            match kws r with
            | None => None
            | Some rest => Some (match eval v with
                                 | Err e => Err e
                                 | Ok y => match rest with Ok ys => Ok ((a, y) :: ys) | Err e => Err e end
                                 end)
            end
          else None
      | _ => None
      end.
  Lemma eval_node m k cs : eval (PN m "Call" [("func"%string, p_attr (quotes_attr "ast") k); ("args"%string, PL []); ("keywords"%string, PL cs)]) =
    match eval_kws cs with Some (Ok fs) => Ok (nd k fs) | Some (Err e) => Err e | None => ext (PN m "Call" [("func"%string, p_attr (quotes_attr "ast") k); ("args"%string, PL []); ("keywords"%string, PL cs)]) end.
  Proof. reflexivity. Qed.
  Lemma eval_done m cs : eval (PN m "Call" [("func"%string, quotes_attr "Done"); ("args"%string, PL []); ("keywords"%string, PL cs)]) =
    match eval_kws cs with Some (Ok fs) => Ok (nd "Done" fs) | Some (Err e) => Err e | None => ext (PN m "Call" [("func"%string, quotes_attr "Done"); ("args"%string, PL []); ("keywords"%string, PL cs)]) end.
  Proof. reflexivity. Qed.
  Lemma eval_kws_ok (cs : list (string * pv)) (g : string * pv -> pv) : Forall (fun p => eval (snd p) = Ok (g p)) cs ->
    eval_kws (map (fun p => p_kw (fst p) (snd p)) cs) = Some (Ok (map (fun p => (fst p, g p)) cs)).
  Proof.
    induction 1 as [|[f c] cs Hc Hl IH]; [reflexivity|]. cbn [map]. cbn [fst snd] in *. unfold p_kw at 1, nd, str. cbn [eval_kws]. fold eval_kws. cbn [String.eqb Ascii.eqb Bool.eqb andb]. rewrite IH.
    rewrite Hc. reflexivity.
  Qed.
  Definition unastify_kws := fix kws (l : list pv) : res (list (string * pv)) :=
      match l with
      | [] => Ok []
      | PN _ k [(f, PA (AStr a)); (g, v)] :: r =>
          if String.eqb k "keyword" && String.eqb f "arg" && String.eqb g "value" then
            match unastify v with
            | Err e => Err e
            | Ok y => match kws r with Ok ys => Ok ((a, y) :: ys) | Err e => Err e end
            end
          else Err type_err
      | _ => Err type_err
      end.
  Lemma unastify_node m k cs : unastify (PN m "Call" [("func"%string, p_attr (quotes_attr "ast") k); ("args"%string, PL []); ("keywords"%string, PL cs)]) =
    match unastify_kws cs with Ok fs => Ok (PN (copy_location has_attr k noloc "Call" m) k fs) | Err e => Err e end.
  Proof. reflexivity. Qed.
  Lemma unastify_done m cs : unastify (PN m "Call" [("func"%string, quotes_attr "Done"); ("args"%string, PL []); ("keywords"%string, PL cs)]) =
    match unastify_kws cs with Ok fs => Ok (PN (copy_location has_attr "Done" noloc "Call" m) "Done" fs) | Err e => Err e end.
  Proof. reflexivity. Qed.
  Lemma unastify_kws_ok (cs : list (string * pv)) (g : string * pv -> pv) : Forall (fun p => unastify (snd p) = Ok (g p)) cs ->
    unastify_kws (map (fun p => p_kw (fst p) (snd p)) cs) = Ok (map (fun p => (fst p, g p)) cs).
  Proof.
    induction 1 as [|[f c] cs Hc Hl IH]; [reflexivity|]. cbn [map]. cbn [fst snd] in *. unfold p_kw at 1, nd, str. cbn [unastify_kws]. fold unastify_kws. cbn [String.eqb Ascii.eqb Bool.eqb andb]. rewrite IH.
    rewrite Hc. reflexivity.
  Qed.

  (** What is shown of the code for a value. *)
  Definition faithful (x c : pv) : Prop := eval c = Ok (strip x) /\ has_marker is_quasi c = false /\ (match c with PN _ _ _ => True | _ => False end).
  Lemma faithful_list cm l : Forall (fun x => exists c, astify cm x = Ok c /\ faithful x c) l ->
    exists cs, mapr (astify cm) l = Ok cs /\ mapr eval cs = Ok (map strip l) /\ existsb (fun x => match x with PN _ _ _ => has_marker is_quasi x | _ => false end) cs = false.
  Proof.
    induction 1 as [|x l (c & Hc & He & Hm & Hn) Hl (cs & IH1 & IH2 & IH3)]; [exists []; repeat split|]. exists (c :: cs). cbn [mapr map existsb]. rewrite Hc, IH1, He, IH2, IH3.
    split; [reflexivity|]. split; [reflexivity|]. destruct c; try (destruct Hn). rewrite Hm. reflexivity.
  Qed.
  Lemma faithful_fields cm fs : Forall (fun p : string * pv => exists c, astify cm (snd p) = Ok c /\ faithful (snd p) c) fs ->
    exists cs, astify_fields cm fs = Ok (map (fun p => p_kw (fst p) (snd p)) cs) /\ map fst cs = map fst fs /\ Forall2 (fun p c => faithful (snd p) (snd c)) fs cs.
  Proof.
    induction 1 as [|[f v] fs (c & Hc & HF) Hl (cs & IH1 & IH2 & IH3)]; [exists []; repeat split; constructor|]. exists ((f, c) :: cs). cbn [astify_fields map fst snd] in *. fold (astify_fields cm). rewrite Hc, IH1, IH2.
    split; [reflexivity|]. split; [reflexivity|]. constructor; assumption.
  Qed.
  Lemma fields_eval fs cs : map fst cs = map fst fs -> Forall2 (fun p c : string * pv => faithful (snd p) (snd c)) fs cs ->
    eval_kws (map (fun p => p_kw (fst p) (snd p)) cs) = Some (Ok (map (fun p : string * pv => let (f, v) := p in (f, strip v)) fs)).
  Proof.
    intros Hf H. induction H as [|[f v] [g c] fs cs (He & _ & _) Hl IH]; [reflexivity|]. cbn [map fst snd] in *. injection Hf as -> Hf. specialize (IH Hf).
    unfold p_kw at 1, nd, str. cbn [eval_kws]. fold eval_kws. cbn [String.eqb Ascii.eqb Bool.eqb andb]. rewrite IH, He. reflexivity.
  Qed.
  Lemma fields_unmarked (fs cs : list (string * pv)) : Forall2 (fun p c : string * pv => faithful (snd p) (snd c)) fs cs ->
    existsb (fun x => match x with PN _ _ _ => has_marker is_quasi x | _ => false end) (map (fun p : string * pv => p_kw (fst p) (snd p)) cs) = false.
  Proof.
    induction 1 as [|[f v] [g c] fs cs (_ & Hm & Hn) Hl IH]; [reflexivity|]. cbn [map existsb fst snd] in *. rewrite IH. unfold p_kw, nd, str. cbn [has_marker existsb]. destruct c; try (destruct Hn). rewrite Hm. reflexivity.
  Qed.

  Lemma astify_faithful cm x : quotable user_marker x -> exists c, astify cm x = Ok c /\ faithful x c.
  Proof.
    induction x as [a|l IH|l IH|l IH|l IH|m k fs IH] using pv_ind2; intros H; inversion H as [a' H1 H2|l' H1|l' H1|l' H1|l' H1|m' k' fs' H1 H2]; subst.
    - exists (p_const (PA a)). cbn [QuoteModel.astify]. rewrite (liftable_ok a H1 H2). split; [reflexivity|]. split; [reflexivity|]. split; [|exact I]. reflexivity.
    - destruct (faithful_list cm l) as (cs & E1 & E2 & E3). { rewrite Forall_forall in *. intros x Hx. exact (IH x Hx (H1 x Hx)). }
      eexists. cbn [QuoteModel.astify]. rewrite E1. split; [reflexivity|]. split; [|split; [|exact I]].
      + cbn [QuoteModel.eval nd String.eqb Ascii.eqb Bool.eqb andb strip]. rewrite E2. reflexivity.
      + cbn [has_marker existsb nd]. rewrite E3. reflexivity.
    - destruct (faithful_list cm l) as (cs & E1 & E2 & E3). { rewrite Forall_forall in *. intros x Hx. exact (IH x Hx (H1 x Hx)). }
      eexists. cbn [QuoteModel.astify]. rewrite E1. split; [reflexivity|]. split; [|split; [|exact I]].
      + cbn [QuoteModel.eval nd String.eqb Ascii.eqb Bool.eqb andb strip]. rewrite E2. reflexivity.
      + cbn [has_marker existsb nd]. rewrite E3. reflexivity.
    - destruct (faithful_list cm l) as (cs & E1 & E2 & E3). { rewrite Forall_forall in *. intros x Hx. exact (IH x Hx (H1 x Hx)). }
      eexists. cbn [QuoteModel.astify]. rewrite E1. split; [reflexivity|]. split; [|split; [|exact I]].
      + cbn [QuoteModel.eval nd String.eqb Ascii.eqb Bool.eqb andb strip]. rewrite E2. reflexivity.
      + cbn [has_marker existsb nd]. rewrite E3. reflexivity.
    - destruct (faithful_list cm (map fst l)) as (ks & E1 & E2 & E3). { apply Forall_map. rewrite Forall_forall in *. intros x Hx. exact (proj1 (IH x Hx) (proj1 (H1 x Hx))). }
      destruct (faithful_list cm (map snd l)) as (vs & F1 & F2 & F3). { apply Forall_map. rewrite Forall_forall in *. intros x Hx. exact (proj2 (IH x Hx) (proj2 (H1 x Hx))). }
      assert (K1 : mapr (fun kv : pv * pv => let (k, _) := kv in astify cm k) l = mapr (astify cm) (map fst l)).
      { clear. induction l as [|[k v] l IH]; [reflexivity|]. cbn [mapr map fst]. rewrite IH. reflexivity. }
      assert (K2 : mapr (fun kv : pv * pv => let (_, v) := kv in astify cm v) l = mapr (astify cm) (map snd l)).
      { clear. induction l as [|[k v] l IH]; [reflexivity|]. cbn [mapr map snd]. rewrite IH. reflexivity. }
      eexists. cbn [QuoteModel.astify]. rewrite K1, K2, E1, F1. split; [reflexivity|]. split; [|split; [|exact I]].
      + cbn [QuoteModel.eval nd String.eqb Ascii.eqb Bool.eqb andb strip]. rewrite E2, F2. do 2 f_equal. clear. induction l as [|[k v] l IH]; [reflexivity|]. cbn [map combine fst snd]. rewrite IH. reflexivity.
      + cbn [has_marker existsb nd]. rewrite E3, F3. reflexivity.
    - destruct (faithful_fields cm fs) as (cs & E1 & E2 & E3). { rewrite Forall_forall in *. intros p Hp. exact (IH p Hp (H2 p Hp)). }
      destruct H1 as [Hk | ->].
      + rewrite (astify_node cm m k fs Hk), E1. eexists. split; [reflexivity|]. split; [|split; [|exact I]].
        * rewrite eval_node, (fields_eval fs cs E2 E3). reflexivity.
        * cbn [has_marker existsb p_attr quotes_attr p_name nd str]. rewrite (fields_unmarked fs cs E3). reflexivity.
      + rewrite astify_done, E1. eexists. split; [reflexivity|]. split; [|split; [|exact I]].
        * unfold p_call, nd. rewrite eval_done, (fields_eval fs cs E2 E3). reflexivity.
        * unfold p_call, nd. cbn [has_marker existsb p_attr quotes_attr p_name nd str]. rewrite (fields_unmarked fs cs E3). reflexivity.
  Qed.

  (** ** unastify *)
  Definition call_located : Prop := has_attr "Call" "lineno" = true /\ has_attr "Call" "col_offset" = true /\ has_attr "Call" "end_lineno" = true /\ has_attr "Call" "end_col_offset" = true /\
    (forall a, has_attr "Done" a = false).
  Lemma copy_back k m : call_located -> (has_attr k "lineno" = false -> ln m = None) -> (has_attr k "col_offset" = false -> co m = None) ->
      (has_attr k "end_lineno" = false -> eln m = None) -> (has_attr k "end_col_offset" = false -> eco m = None) ->
    copy_location has_attr k noloc "Call" (copy_location has_attr "Call" noloc k m) = m.
  Proof.
    intros (A1 & A2 & A3 & A4 & _) H1 H2 H3 H4. unfold copy_location. cbn [ln co eln eco noloc]. rewrite A1, A2, A3, A4. destruct m as [l c el ec]. cbn [ln co eln eco] in *.
    destruct (has_attr k "lineno"), (has_attr k "col_offset"), (has_attr k "end_lineno"), (has_attr k "end_col_offset");
      rewrite ?(H1 eq_refl), ?(H2 eq_refl), ?(H3 eq_refl), ?(H4 eq_refl); cbn [andb copy1]; destruct l, c, el, ec; reflexivity.
  Qed.
  Lemma unastify_astify cm x : call_located -> quotable user_marker x -> located has_attr x -> forall c, astify cm x = Ok c -> unastify c = Ok x.
  Proof.
    intros HC. induction x as [a|l IH|l IH|l IH|l IH|m k fs IH] using pv_ind2; intros H HL c Hc;
      inversion H as [a' H1 H2|l' H1|l' H1|l' H1|l' H1|m' k' fs' H1 H2]; subst; inversion HL as [|l' L1|l' L1|l' L1|l' L1|m' k' fs' L1 L2 L3 L4 L5]; subst; clear H HL.
    - cbn [QuoteModel.astify] in Hc. rewrite (liftable_ok a H1 H2) in Hc. injection Hc as <-. reflexivity.
    - cbn [QuoteModel.astify] in Hc. destruct (mapr (astify cm) l) as [cs|] eqn:E; [|discriminate]. injection Hc as <-.
      cbn [QuoteModel.unastify nd String.eqb Ascii.eqb Bool.eqb andb].
      assert (G : mapr unastify cs = Ok l). { clear - IH H1 L1 E. revert cs E. induction l as [|x l IHl]; intros cs E; cbn [mapr] in E; [injection E as <-; reflexivity|]. inversion IH; inversion H1; inversion L1; subst.
        destruct (astify cm x) as [c|] eqn:Ex; [|discriminate]. destruct (mapr (astify cm) l) as [cs'|] eqn:El; [|discriminate]. injection E as <-. cbn [mapr]. match goal with Hx : quotable _ x -> _ |- _ => rewrite (Hx ltac:(assumption) ltac:(assumption) c eq_refl) end.
        rewrite (IHl ltac:(assumption) ltac:(assumption) ltac:(assumption) cs' eq_refl). reflexivity. }
      rewrite G. reflexivity.
    - cbn [QuoteModel.astify] in Hc. destruct (mapr (astify cm) l) as [cs|] eqn:E; [|discriminate]. injection Hc as <-.
      cbn [QuoteModel.unastify nd String.eqb Ascii.eqb Bool.eqb andb].
      assert (G : mapr unastify cs = Ok l). { clear - IH H1 L1 E. revert cs E. induction l as [|x l IHl]; intros cs E; cbn [mapr] in E; [injection E as <-; reflexivity|]. inversion IH; inversion H1; inversion L1; subst.
        destruct (astify cm x) as [c|] eqn:Ex; [|discriminate]. destruct (mapr (astify cm) l) as [cs'|] eqn:El; [|discriminate]. injection E as <-. cbn [mapr]. match goal with Hx : quotable _ x -> _ |- _ => rewrite (Hx ltac:(assumption) ltac:(assumption) c eq_refl) end.
        rewrite (IHl ltac:(assumption) ltac:(assumption) ltac:(assumption) cs' eq_refl). reflexivity. }
      rewrite G. reflexivity.
    - cbn [QuoteModel.astify] in Hc. destruct (mapr (astify cm) l) as [cs|] eqn:E; [|discriminate]. injection Hc as <-.
      cbn [QuoteModel.unastify nd String.eqb Ascii.eqb Bool.eqb andb].
      assert (G : mapr unastify cs = Ok l). { clear - IH H1 L1 E. revert cs E. induction l as [|x l IHl]; intros cs E; cbn [mapr] in E; [injection E as <-; reflexivity|]. inversion IH; inversion H1; inversion L1; subst.
        destruct (astify cm x) as [c|] eqn:Ex; [|discriminate]. destruct (mapr (astify cm) l) as [cs'|] eqn:El; [|discriminate]. injection E as <-. cbn [mapr]. match goal with Hx : quotable _ x -> _ |- _ => rewrite (Hx ltac:(assumption) ltac:(assumption) c eq_refl) end.
        rewrite (IHl ltac:(assumption) ltac:(assumption) ltac:(assumption) cs' eq_refl). reflexivity. }
      rewrite G. reflexivity.
    - cbn [QuoteModel.astify] in Hc.
      destruct (mapr (fun kv : pv * pv => let (k, _) := kv in astify cm k) l) as [ks|] eqn:E1; [|discriminate]. destruct (mapr (fun kv : pv * pv => let (_, v) := kv in astify cm v) l) as [vs|] eqn:E2; [|discriminate]. injection Hc as <-.
      cbn [QuoteModel.unastify nd String.eqb Ascii.eqb Bool.eqb andb].
      assert (G : mapr unastify ks = Ok (map fst l) /\ mapr unastify vs = Ok (map snd l)).
      { clear - IH H1 L1 E1 E2. revert ks vs E1 E2. induction l as [|[k v] l IHl]; intros ks vs E1 E2; cbn [mapr] in E1, E2; [injection E1 as <-; injection E2 as <-; split; reflexivity|].
        inversion IH as [|? ? [I1 I2] IH']; inversion H1 as [|? ? [Q1 Q2] H1']; inversion L1 as [|? ? [M1 M2] L1']; subst. cbn [fst snd] in *.
        destruct (astify cm k) as [ck|] eqn:Ek; [|discriminate]. destruct (mapr (fun kv : pv * pv => let (k0, _) := kv in astify cm k0) l) as [ks'|] eqn:El; [|discriminate]. injection E1 as <-.
        destruct (astify cm v) as [cv|] eqn:Ev; [|discriminate]. destruct (mapr (fun kv : pv * pv => let (_, v0) := kv in astify cm v0) l) as [vs'|] eqn:El2; [|discriminate]. injection E2 as <-.
        destruct (IHl IH' H1' L1' ks' vs' eq_refl eq_refl) as [G1 G2]. cbn [mapr map fst snd]. rewrite (I1 Q1 M1 ck eq_refl), (I2 Q2 M2 cv eq_refl), G1, G2. split; reflexivity. }
      destruct G as [-> ->]. do 2 f_equal. clear. induction l as [|[k v] l IH]; [reflexivity|]. cbn [map combine fst snd]. rewrite IH. reflexivity.
    - assert (G : forall cs, astify_fields cm fs = Ok cs -> unastify_kws cs = Ok fs).
      { clear - IH H2 L5. induction fs as [|[f v] fs IHl]; intros cs E; cbn [astify_fields] in E; [injection E as <-; reflexivity|]. fold (astify_fields cm) in E. inversion IH as [|? ? I1 IH']; inversion H2 as [|? ? Q1 H2']; inversion L5 as [|? ? M1 L5']; subst. cbn [snd] in *.
        destruct (astify cm v) as [cv|] eqn:Ev; [|discriminate]. destruct (astify_fields cm fs) as [cs'|] eqn:El; [|discriminate]. injection E as <-.
        unfold p_kw, nd, str. cbn [unastify_kws]. fold unastify_kws. cbn [String.eqb Ascii.eqb Bool.eqb andb]. rewrite (I1 Q1 M1 cv eq_refl), (IHl IH' H2' L5' cs' eq_refl). reflexivity. }
      destruct H1 as [Hk | ->].
      + rewrite (astify_node cm m k fs Hk) in Hc. destruct (astify_fields cm fs) as [cs|] eqn:E; [|discriminate]. injection Hc as <-.
        rewrite unastify_node, (G cs eq_refl), (copy_back k m HC L1 L2 L3 L4). reflexivity.
      + rewrite astify_done in Hc. destruct (astify_fields cm fs) as [cs|] eqn:E; [|discriminate]. injection Hc as <-. unfold p_call, nd. rewrite unastify_done, (G cs eq_refl).
        assert (Hm : m = noloc). { destruct HC as (_ & _ & _ & _ & HD). destruct m as [a b c d]. cbn [ln co eln eco] in *. rewrite (L1 (HD _)), (L2 (HD _)), (L3 (HD _)), (L4 (HD _)). reflexivity. }
        rewrite Hm. do 2 f_equal. unfold copy_location. cbn [ln co eln eco noloc]. unfold copy1. destruct HC as (_ & _ & _ & _ & HD). rewrite !HD, !andb_false_r. reflexivity.
  Qed.
End Q.
