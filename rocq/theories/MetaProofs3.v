(** expands and expand1s on a quoted expression. *)
From Verif Require Import Base AstLib UtilsModel FixLocModel MarkersModel QuoteModel ExpanderModel ExpanderSpec ExpanderProofs ExpanderProofs2 ExpanderProofs3 QuoteSpec QuoteSpec2 QuoteProofs QuoteProofs2 QuoteProofs3 NestModel NestSpec NestProofs NestProofs2 NestProofs4 NestProofs7 NestProofs10 NestProps MetaModel MetaProofs.

Section Expr.
  Variables (user_marker : string -> bool) (has_attr : string -> string -> bool).
  Variables (filename : string) (unparse : ltree -> string) (idx : op -> nat) (others : nat -> mdef nat).
  Variables (unique : string -> string) (pickled : nat -> string).
  Variables (loc_text : ltree -> string) (cov_text : loc -> string -> string) (isexc : exn -> bool).
  Variable b : binds.
  Notation E := (nest_env user_marker has_attr filename unparse idx others unique pickled loc_text cov_text isexc).
  Notation q := (q_prog user_marker has_attr filename idx unique pickled).
  Notation expands := (expands_prog user_marker has_attr filename idx unique pickled).
  Notation expandsq := (expandsq_prog user_marker has_attr filename idx unique pickled).
  Notation code := (quoted_code user_marker has_attr filename unique pickled).
  Notation nest := (nest (meaning idx b) (code (quasi_only idx b)) filename unparse cov_text).

  Lemma op_q : op_of idx (idx Oq) = Some Oq.
  Proof. unfold op_of. cbn [find ops]. rewrite Nat.eqb_refl. reflexivity. Qed.
  Lemma bound_quasi x : bound b x (idx Oq) -> quasi_only idx b <> [].
  Proof.
    intros (b1 & b2 & Hb & _) H. assert (K : In (x, idx Oq) (quasi_only idx b)); [|rewrite H in K; destruct K].
    unfold quasi_only, extract_bindings. apply filter_In. split; [rewrite Hb; apply in_app_iff; right; left; reflexivity|]. cbn. rewrite Nat.eqb_refl. reflexivity.
  Qed.

  (** ** The code of a quote without unquotes *)
  Lemma code_back b' t : call_located has_attr -> quotable user_marker (to_pv t) -> located has_attr (to_pv t) ->
    exists c, code b' t = Some c /\ unastify has_attr (to_pv c) = Ok (to_pv t) /\ is_node c = true.
  Proof.
    intros HC HQ HL. unfold quoted_code, QuoteModel.q. set (cm := captures_in unique pickled b').
    destruct (astify_faithful (fun _ => true) (fun _ => true) user_marker has_attr (fun _ => Ok (PA ANone)) (fun _ => Ok (PA ANone)) cm (to_pv t) HQ) as (c & E1 & _ & E3 & E4).
    pose proof (q_tp user_marker has_attr unique pickled b' filename t) as TP. unfold QuoteModel.q in TP. fold cm in TP. rewrite E1 in *.
    assert (T : has_marker_top is_quasi c = false) by (destruct c; try destruct E4; exact E3). rewrite T in *. specialize (TP _ eq_refl). eexists. split; [reflexivity|]. split.
    - rewrite TP. cbn. exact (unastify_astify (fun _ => true) (fun _ => true) user_marker has_attr (fun _ => Ok (PA ANone)) cm (to_pv t) HC HQ HL c E1).
    - reflexivity.
  Qed.

  (** ** One visit of [q[t]], not recursive *)
  Lemma visit_quote m fs c x t log : shaped (Nd m "Subscript" fs) -> getf "value" fs = Some c -> denotes c x [] -> kind_of c = "Name"%string -> getf "slice" fs = Some t ->
    x <> ""%string -> bound b x (idx Oq) -> is_node t = true -> source (meaning idx b) t -> nest 1 t = Some [t] -> forall d, code b t = Some d -> is_node d = true ->
    exists log', ev (fun n => visit E n (Nd m "Subscript" fs) (mkSt b false 0 log) = Some (XOk d, mkSt b false 0 log')).
  Proof.
    intros Hs Hc Hd Hk Hsl Hx Hb Hn Hso Hne d Hco Hdn. set (T := Nd m "Subscript" fs) in *. set (i := mkIn "expr" t (Some []) None T).
    assert (NC : next_call E b T c x i).
    { apply nc_expr; [exact Hc|exact Hsl|]. split; [exact Hd|]. split; [exact Hx|]. exists (idx Oq). split; [exact Hb|left; reflexivity]. }
    assert (V : forall n log0, visit E (S n) T (mkSt b false 0 log0) = ExpanderProofs3.after E n c x i (mkSt b false 0 log0)) by (intros n log0; apply (visit_next E n (mkSt b false 0 log0) T c x i Hs NC); apply not_bad; exact Hk).
    destruct (q_expr user_marker has_attr filename unparse idx others unique pickled loc_text cov_text isexc b (bound_quasi x Hb) t (Some []) None T false (log ++ [ECall x i false]) Hn Hso) as (r & log1 & R & O).
    change (NestProofs2.code user_marker has_attr filename unique pickled) with code in O. rewrite Hne in O. cbn [pack] in O. rewrite Hco in O. subst r.
    eexists. apply ev_S. refine (ev_impl _ _ R _). intros n Rn. rewrite V. unfold ExpanderProofs3.after. change (in_syntax i) with "expr"%string. cbn [String.eqb Ascii.eqb Bool.eqb].
    unfold bnd at 1. unfold expand. cbn [s_b]. rewrite (proj2 (isbound_iff _ _ _) Hb). unfold apply_macro. cbn [s_rec]. unfold logged at 1. cbn [s_b s_rec s_u s_log].
    rewrite (x_macro_op user_marker has_attr filename unparse idx others unique pickled loc_text cov_text isexc (idx Oq) Oq op_q). cbn [m_run quasi_macro]. change (mkIn "expr" t (Some []) None T) with i in Rn. rewrite Rn.
    destruct d as [md kd fd| |]; try discriminate. cbn [typecheck]. unfold bnd, visit_expansion, of_res, lift. cbn [x_fix nest_env]. unfold bnd, of_res, logged. cbn [s_b s_rec s_u s_log]. unfold emit, ret, logged. cbn [s_b s_rec s_u s_log is_none]. reflexivity.
  Qed.

  Lemma ev_run k p s x : ev (fun n => run (visit E n) (k + n) p s = x) -> x <> None -> ev (fun n => run (visit E n) n p s = x).
  Proof.
    intros [N H] Hx. exists (k + N). intros n Hn. specialize (H (n - k) ltac:(lia)). replace (k + (n - k)) with n in H by lia. rewrite <- H. destruct x as [[r s']|]; [|contradiction].
    rewrite H. eapply below_run; [|apply Nat.le_refl|exact H]. intros t s0 y Hy. eapply visit_mono_le; [|exact Hy]. lia.
  Qed.

  (** ** expands and expand1s, when the first visit gives the code of a quote *)
  Definition quoted_outcome (r r' : xres ltree) : Prop :=
    match r with
    | XRaise e => r' = XRaise e
    | XOk t => match nest 1 t with
               | Some l => match code b (pack l) with Some c => r' = XOk c | None => exists e, r' = XRaise e end
               | None => exists e, r' = XRaise e
               end
    end.
  Lemma expands_code once src t d args vars target rec log r :
    (forall log, exists log', ev (fun n => visit E n src (mkSt b false 0 log) = Some (XOk d, mkSt b false 0 log'))) ->
    unastify has_attr (to_pv d) = Ok (to_pv t) ->
    (forall log, exists log', ev (fun n => visit E n t (mkSt b (negb once) 0 log) = Some (r, mkSt b (negb once) 0 log'))) ->
    (forall t2, r = XOk t2 -> is_node t2 = true /\ source (meaning idx b) t2) -> quasi_only idx b <> [] ->
    exists r' log', ev (fun n => run (visit E n) n (expands once (mkIn "expr" src args vars target)) (mkSt b rec 0 log) = Some (r', mkSt b rec 0 log')) /\ quoted_outcome r r'.
  Proof.
    intros H1 Hu H2 Hr Hq.
    destruct (H1 ((log ++ [EUse HOnce]) ++ [EMode false])) as (l1 & V1). set (l2 := l1 ++ [EModeEnd]).
    destruct (H2 ((l2 ++ [EUse (if once then HOnce else HRec)]) ++ [EMode (negb once)])) as (l3 & V2). set (l4 := l3 ++ [EModeEnd]).
    assert (C1 : ev (fun n => call_expander (visit E n) HOnce src (logged (EUse HOnce) (mkSt b rec 0 log)) = Some (XOk (done d), mkSt b rec 0 l2))).
    { refine (ev_impl _ _ V1 _). intros n Vn. cbn [call_expander]. unfold with_mode, logged, bnd. cbn [s_b s_rec s_u s_log]. rewrite Vn. reflexivity. }
    set (r0 := match r with XOk t2 => XOk (if once then done t2 else t2) | XRaise e => XRaise e end).
    assert (C2 : ev (fun n => call_expander (visit E n) (if once then HOnce else HRec) t (logged (EUse (if once then HOnce else HRec)) (mkSt b rec 0 l2)) = Some (r0, mkSt b rec 0 l4))).
    { refine (ev_impl _ _ V2 _). intros n Vn. destruct once; cbn [call_expander negb] in *; unfold with_mode, logged, bnd; cbn [s_b s_rec s_u s_log]; rewrite Vn; destruct r; reflexivity. }
    assert (S1 : forall k v, run v (S k) (expands once (mkIn "expr" src args vars target)) (mkSt b rec 0 log) =
      match call_expander v HOnce src (logged (EUse HOnce) (mkSt b rec 0 log)) with
      | None => None
      | Some (r, s') => run v k (match r with
        | XRaise e => Raise e
        | XOk d0 => match body_of d0 with
            | XRaise e => Raise e
            | XOk u => match unastify has_attr (to_pv u) with
                | Err e => Raise (plain e)
                | Ok x => CallX (if once then HOnce else HRec) (of_pv x) (fun r => match r with
                    | XRaise e => Raise e
                    | XOk t => match (if once then body_of t else XOk t) with XRaise e => Raise e | XOk t => q (mkIn "expr" t args vars target) end
                    end)
                end end end) s'
      end) by reflexivity.
    destruct r as [t2|e].
    - destruct (Hr t2 eq_refl) as [Hn Hs]. destruct (q_expr user_marker has_attr filename unparse idx others unique pickled loc_text cov_text isexc b Hq t2 args vars target rec l4 Hn Hs) as (r' & l5 & R & O).
      change (NestProofs2.code user_marker has_attr filename unique pickled) with code in O. exists r', l5. split; [|exact O]. apply (ev_run 2); [|discriminate].
      refine (ev_impl _ _ (ev_and _ _ C1 (ev_and _ _ C2 R)) _). intros n (C1n & C2n & Rn). cbn [Nat.add]. rewrite S1, C1n. change (body_of (done d)) with (XOk d). cbv iota. rewrite Hu. rewrite run_call. rewrite of_to_pv, C2n. unfold r0. destruct once; exact Rn.
    - exists (XRaise e), l4. split; [|reflexivity]. apply (ev_run 3); [|discriminate].
      refine (ev_impl _ _ (ev_and _ _ C1 C2) _). intros n (C1n & C2n). cbn [Nat.add]. rewrite S1, C1n. change (body_of (done d)) with (XOk d). cbv iota. rewrite Hu. rewrite run_call. rewrite of_to_pv, C2n. reflexivity.
  Qed.

  (** ** expandsq and expand1sq: the code has nothing to expand *)
  Definition sqb (t : ltree) : Prop := shaped t /\ quiet E b t.
  Hypothesis no_mcpyrate : forall i, bound b "mcpyrate" i -> m_isname (x_macro E i) = false.
  Lemma sqb_at a : sqb (At a).
  Proof. split; [intros u Hu|intros u x syn Hu]; inversion Hu; subst; [exact I|intros Hi; inversion Hi]. Qed.
  Lemma sqb_ls l : (forall x, In x l -> sqb x) -> sqb (Ls l).
  Proof.
    intros H. split; [intros u Hu|intros u x syn Hu]; inversion Hu as [|? ? ? ? ? ? Hk Hin Hp|? v ? Hin Hp]; subst.
    - exact I.
    - exact (proj1 (H v Hin) u Hp).
    - intros Hi. inversion Hi.
    - exact (proj2 (H v Hin) u x syn Hp).
  Qed.
  Lemma sqb_nd m k fs : node_ok (Nd m k fs) -> (forall x syn, ~ invokes E b (Nd m k fs) x syn) -> (forall f v, In (f, v) fs -> sqb v) -> sqb (Nd m k fs).
  Proof.
    intros H1 H2 H. split; [intros u Hu|intros u x syn Hu]; inversion Hu as [|? ? ? f v ? Hk Hin Hp|]; subst; auto.
    - exact (proj1 (H f v Hin) u Hp).
    - exact (proj2 (H f v Hin) u x syn Hp).
  Qed.
  Lemma sqb_plain m k fs : plain_kind k -> (forall f v, In (f, v) fs -> sqb v) -> sqb (Nd m k fs).
  Proof.
    intros Hk H. apply sqb_nd; [|intros x syn Hi|exact H].
    - split.
      + intros g Hg. exfalso. apply Hk. apply (in_map fst) in Hg. exact Hg.
      + intros ->. exfalso. apply Hk. cbn. auto 10.
    - apply Hk. inversion Hi; subst; cbn; auto 10. match goal with H : _ \/ _ |- _ => destruct H as [->| ->]; cbn; auto 10 end.
  Qed.
  Lemma sqb_call m f args kws : sqb f -> (forall x, In x args -> sqb x) -> (forall x, In x kws -> sqb x) ->
    sqb (Nd m "Call" [("func"%string, f); ("args"%string, Ls args); ("keywords"%string, Ls kws)]).
  Proof.
    intros H1 H2 H3. apply sqb_nd.
    - split; [|discriminate]. intros g Hg. cbn in Hg. repeat (destruct Hg as [Hg|Hg]; [inversion Hg; subst; repeat constructor; unfold has_field; cbn; eauto|]). destruct Hg.
    - intros x syn Hi. inversion Hi; subst. match goal with H : _ \/ _ |- _ => destruct H; discriminate end.
    - intros g v [Hin|[Hin|[Hin|[]]]]; inversion Hin; subst; [exact H1|apply sqb_ls; exact H2|apply sqb_ls; exact H3].
  Qed.
  Lemma sqb_name m : sqb (Nd m "Name" [("id"%string, At (AStr "mcpyrate"))]).
  Proof.
    apply sqb_nd.
    - split; [|discriminate]. intros g Hg. cbn in Hg. repeat (destruct Hg as [Hg|Hg]; [inversion Hg; subst; repeat constructor; unfold has_field; cbn; eauto|]). destruct Hg.
    - intros y syn Hi. inversion Hi as [| | |? ? ? ? Hid Hne Hb Hn]; subst; [match goal with H : _ \/ _ |- _ => destruct H; discriminate end|]. cbn in Hid. inversion Hid; subst. rewrite (no_mcpyrate _ Hb) in Hn. discriminate.
    - intros g v [Hin|[]]; inversion Hin; subst. apply sqb_at.
  Qed.
  Ltac plain := intros Hin; cbn in Hin; repeat (destruct Hin as [Hin|Hin]; [discriminate|]); destruct Hin.
  Lemma sqb_attr m v a : sqb v -> sqb (Nd m "Attribute" [("value"%string, v); ("attr"%string, At (AStr a))]).
  Proof. intros H. apply sqb_plain; [plain|]. intros f w [Hin|[Hin|[]]]; inversion Hin; subst; [exact H|apply sqb_at]. Qed.
  Lemma sqb_quotes a : sqb (of_pv (quotes_attr a)).
  Proof. cbn. apply sqb_attr, sqb_attr, sqb_name. Qed.
  Lemma sqb_const a : sqb (of_pv (p_const (PA a))).
  Proof. cbn. apply sqb_plain; [plain|]. intros f w [Hin|[]]; inversion Hin; subst. apply sqb_at. Qed.
  Lemma sqb_kw f c : sqb (of_pv c) -> sqb (of_pv (p_kw f c)).
  Proof. intros H. cbn. apply sqb_plain; [plain|]. intros g w [Hin|[Hin|[]]]; inversion Hin; subst; [apply sqb_at|exact H]. Qed.
  Lemma sqb_pcall m g args kws : sqb (of_pv g) -> (forall x, In x args -> sqb (of_pv x)) -> (forall x, In x kws -> sqb (of_pv x)) ->
    sqb (of_pv (PN m "Call" [("func"%string, g); ("args"%string, PL args); ("keywords"%string, PL kws)])).
  Proof. intros H1 H2 H3. cbn. apply sqb_call; [exact H1|intros x Hx; apply in_map_iff in Hx; destruct Hx as (y & <- & Hy); auto ..]. Qed.
  Lemma mapr_sqb {A} (f : A -> res pv) l l' : (forall x c, In x l -> f x = Ok c -> sqb (of_pv c)) -> mapr f l = Ok l' -> forall c, In c l' -> sqb (of_pv c).
  Proof.
    revert l'. induction l as [|x l IH]; intros l' H Hm; cbn [mapr] in Hm; [inversion Hm; subst; intros c []|].
    destruct (f x) as [y|] eqn:Hf; [|discriminate]. destruct (mapr f l) as [ys|] eqn:Hr; [|discriminate]. inversion Hm; subst. intros c [<-|Hc].
    - exact (H x y (or_introl eq_refl) Hf).
    - eapply IH; [|reflexivity|exact Hc]. intros z d Hz. exact (H z d (or_intror Hz)).
  Qed.
  Lemma astify_sqb cm y : quotable user_marker (to_pv y) -> forall c, astify user_marker has_attr cm (to_pv y) = Ok c -> sqb (of_pv c).
  Proof.
    induction y as [m k fs IH|l IH|a] using tree_ind2; intros Hy c Hc.
    - cbn [to_pv] in Hy. inversion Hy as [| | | | |m' k' fs' Hk Hf]; subst.
      assert (Hform : exists g m0 cs, c = PN m0 "Call" [("func"%string, g); ("args"%string, PL []); ("keywords"%string, PL cs)] /\ sqb (of_pv g) /\
            astify_fields user_marker has_attr cm (map (fun p : string * ltree => let (f, v) := p in (f, to_pv v)) fs) = Ok cs).
      { clear IH. cbn [to_pv] in Hc. destruct (String.eqb_spec k "Done") as [->|Hd].
        - rewrite astify_done in Hc. destruct (astify_fields _ _ cm _) as [cs|]; [|discriminate]. inversion Hc; subst. eexists _, _, _. split; [reflexivity|]. split; [apply sqb_quotes|reflexivity].
        - destruct Hk as [Hm|Hm]; [|contradiction].
          rewrite (astify_node (fun _ => true) (fun _ => true) user_marker has_attr (fun _ => Ok (PA ANone)) cm m k _ Hm) in Hc. destruct (astify_fields _ _ cm _) as [cs|]; [|discriminate]. inversion Hc; subst. eexists _, _, _. split; [reflexivity|]. split; [|reflexivity].
          cbn [of_pv p_attr nd map]. apply sqb_attr. apply sqb_quotes. }
      destruct Hform as (g & m0 & cs & -> & Hg & Hcs). apply sqb_pcall; [exact Hg|intros x []|]. clear Hc Hy. revert cs Hcs.
      induction fs as [|[f v] fs IHf]; intros cs Hcs; cbn [map astify_fields] in Hcs; [inversion Hcs; subst; intros d []|].
      inversion IH as [|? ? [Hv _] HIH]; subst. cbn [snd] in Hv. cbn [map] in Hf. inversion Hf as [|? ? Hfv Hfr]; subst. cbn [snd] in Hfv. destruct (astify _ _ cm (to_pv v)) as [cv|] eqn:Ev; [|discriminate].
      destruct (astify_fields _ _ cm _) as [cs'|] eqn:Er; [|discriminate]. inversion Hcs; subst. intros d [<-|Hd].
      * apply sqb_kw. apply Hv; [exact Hfv|reflexivity].
      * eapply IHf; [exact HIH|exact Hfr|reflexivity|exact Hd].
    - cbn [to_pv astify] in Hc. destruct (mapr _ (map to_pv l)) as [l'|] eqn:Em; [|discriminate]. inversion Hc; subst. cbn. apply sqb_plain; [plain|].
      intros f v [Hin|[]]; inversion Hin; subst. apply sqb_ls. intros x Hx. apply in_map_iff in Hx. destruct Hx as (z & <- & Hz). cbn [to_pv] in Hy. inversion Hy as [|? Hl| | | |]; subst.
      refine (mapr_sqb _ _ _ _ Em z Hz). intros w d Hw Hd. rewrite Forall_forall in Hl. pose proof (Hl w Hw) as Hlw. apply in_map_iff in Hw. destruct Hw as (t & <- & Ht). rewrite Forall_forall in IH. exact (IH t Ht Hlw d Hd).
    - cbn [to_pv astify] in Hc. destruct (liftable a); [|discriminate]. inversion Hc; subst. apply sqb_const.
  Qed.
  Lemma code_sqb b' t c : quotable user_marker (to_pv t) -> code b' t = Some c -> sqb c.
  Proof.
    intros HQ H. unfold quoted_code, QuoteModel.q in H. destruct (astify _ _ _ (to_pv t)) as [x|] eqn:Ea; [|discriminate]. destruct (has_marker_top _ x); [discriminate|].
    assert (Hc : c = of_pv (p_call (quotes_attr "splice_ast_literals") [x; p_const (str filename)] [])) by (symmetry; exact (f_equal (fun o => match o with Some z => z | None => c end) H)). subst c. clear H.
    apply sqb_pcall; [apply sqb_quotes| |intros y []]. intros y [<-|[<-|[]]]; [|apply sqb_const]. eapply astify_sqb; eassumption.
  Qed.
  Lemma visit_code d rec log : sqb d -> is_node d = true -> ev (fun n => visit E n d (mkSt b rec 0 log) = Some (XOk d, mkSt b rec 0 log)).
  Proof.
    intros [Hs Hq] Hn. destruct (quiet_same E (mkSt b rec 0 log) d Hs Hq Hn) as [n0 Hn0]. exists n0. intros n Hle. exact (visit_mono_le E n0 n d Hle _ _ Hn0).
  Qed.
End Expr.
