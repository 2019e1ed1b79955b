(** The second expander computes [nest]: the induction, for C55. *)
From Verif Require Import Base AstLib UtilsModel FixLocModel MarkersModel QuoteModel ExpanderModel ExpanderSpec ExpanderProofs ExpanderProofs2 ExpanderProofs3 QuoteSpec QuoteProofs NestModel NestSpec NestProofs NestProofs2 NestProofs3 NestProofs4 NestProofs5 NestProofs6.

Section Main.
  Variables (user_marker : string -> bool) (has_attr : string -> string -> bool).
  Variables (filename : string) (unparse : ltree -> string) (idx : op -> nat) (others : nat -> mdef nat).
  Variables (unique : string -> string) (pickled : nat -> string).
  Variables (loc_text : ltree -> string) (cov_text : loc -> string -> string) (isexc : exn -> bool).
  Variable b : binds.
  Notation E := (nest_env user_marker has_attr filename unparse idx others unique pickled loc_text cov_text isexc).
  Notation qb := (quasi_only idx b).
  Notation opn := (meaning idx b).
  Notation sq := (sq user_marker has_attr filename unparse idx others unique pickled loc_text cov_text isexc b).
  Notation clean := (clean user_marker has_attr filename unparse idx others unique pickled loc_text cov_text isexc b).
  Notation mok := (mok user_marker has_attr filename unparse idx others unique pickled loc_text cov_text isexc b).
  Notation code := (code user_marker has_attr filename unique pickled).
  Notation quasi_macro := (quasi_macro user_marker has_attr filename unparse idx others unique pickled).
  Notation compile := (compile user_marker has_attr filename unique pickled).
  Notation nest := (nest opn (code qb) filename unparse cov_text).
  Notation nest_items := (nest_items opn (code qb) filename unparse cov_text).
  Notation source := (source opn).
  Notation st lv log := (mkSt qb true lv log).
  Notation good := (good user_marker has_attr filename unparse idx others unique pickled loc_text cov_text isexc b).
  Notation outcome := (outcome user_marker has_attr filename unparse idx others unique pickled loc_text cov_text isexc b).
  Notation main := (main user_marker has_attr filename unparse idx others unique pickled loc_text cov_text isexc b).
  Hypothesis Hqb : qb <> [].


  Lemma names_op_iff c x o : names_op opn c = Some (x, o) -> denotes c x [] /\ opn x = Some o /\ kind_of c = "Name"%string.
  Proof.
    unfold names_op. destruct c as [m k fs| |]; try discriminate. destruct (String.eqb_spec k "Name") as [->|]; [|discriminate]. destruct (getf "id" fs) as [[| |[]]|] eqn:Hi; try discriminate.
    destruct (opn s) as [o'|] eqn:Ho; [|discriminate]. intros H. inversion H; subst. split; [constructor; exact Hi|]. split; [exact Ho|reflexivity].
  Qed.
  Lemma op_names c x o : denotes c x [] -> kind_of c = "Name"%string -> opn x = Some o -> names_op opn c = Some (x, o).
  Proof.
    intros Hd Hk Ho. inversion Hd as [m fs z Hid| | |]; subst; try discriminate. unfold names_op. cbn. rewrite Hid, Ho. reflexivity.
  Qed.
  Lemma not_bad (c : ltree) : kind_of c = "Name"%string -> ~ bad_call c.
  Proof. intros Hk (m & fs & args & -> & _). discriminate. Qed.
  Lemma opn_j x o : opn x = Some o -> exists j, isbound qb x = Some j /\ op_of idx j = Some o.
  Proof. intros H. apply opn_some in H. destruct H as [_ H]. exact H. Qed.

  Lemma outcome_err lv t e : nest lv t = None -> outcome lv t (XRaise e).
  Proof. intros H. unfold NestProofs5.outcome. rewrite H. eauto. Qed.
  Lemma outcome_ok lv t l' l : nest lv t = Some l -> good lv t l' l -> outcome lv t (XOk (pack l')).
  Proof. intros H G. unfold NestProofs5.outcome. rewrite H. eauto. Qed.

  Lemma expr_wrap m fs c x o sl : source (Nd m "Subscript" fs) -> getf "value" fs = Some c -> getf "slice" fs = Some sl -> denotes c x [] -> kind_of c = "Name"%string -> opn x = Some o ->
    (forall lv log, exists rv log1, ev (fun n => run (visit E n) n (m_run (quasi_macro o) (mkIn "expr" sl (Some []) None (Nd m "Subscript" fs))) (st lv log) = Some (rv, st lv log1)) /\
       match nest lv (Nd m "Subscript" fs) with Some l => exists v, rv = XOk v /\ good lv (Nd m "Subscript" fs) [v] l | None => exists e, rv = XRaise e end) ->
    main (Nd m "Subscript" fs).
  Proof.
    intros Hs Hc Hsl Hd Hk Ho H lv log. destruct (opn_j _ _ Ho) as (j & Hj & Hoj). set (t := Nd m "Subscript" fs) in *. set (i := mkIn "expr" sl (Some []) None t) in *.
    assert (NC : next_call E qb t c x i).
    { apply nc_expr; [exact Hc|exact Hsl|]. apply names_iff. split; [exact Hd|]. split; [reflexivity|rewrite Ho; discriminate]. }
    assert (V : forall n log0, visit E (S n) t (st lv log0) = after E n c x i (st lv log0)) by (intros n log0; apply (visit_next E n (st lv log0) t c x i (proj1 Hs) NC); apply not_bad; exact Hk).
    destruct (H lv (log ++ [ECall x i true])) as (rv & log1 & R & O). destruct (nest lv t) as [l|] eqn:EN.
    - destruct O as (v & -> & G). assert (Hn : is_node v = true) by (pose proof (good_nodes _ _ _ _ _ _ _ _ _ _ _ _ _ _ _ _ G) as F; inversion F; assumption).
      assert (Hsq : sq v) by (destruct G as (_ & _ & _ & F & _); inversion F; assumption).
      destruct (expand_ok user_marker has_attr filename unparse idx others unique pickled loc_text cov_text isexc b o x j i lv log v log1 Hj Hoj R Hn Hsq) as (log2 & X).
      exists (XOk (pack [v])), log2. split; [|eapply outcome_ok; eassumption]. apply ev_S. refine (ev_impl _ _ X _). intros n Xn. rewrite V. unfold after. cbn [in_syntax i String.eqb Ascii.eqb Bool.eqb]. change (in_syntax i) with "expr"%string. cbn [String.eqb Ascii.eqb Bool.eqb]. unfold bnd. rewrite Xn. destruct v; try discriminate. reflexivity.
    - destruct O as (e & ->). destruct (expand_err user_marker has_attr filename unparse idx others unique pickled loc_text cov_text isexc b o x j i lv log e log1 Hj Hoj R) as (e' & log2 & X).
      exists (XRaise e'), log2. split; [|apply outcome_err; exact EN]. apply ev_S. refine (ev_impl _ _ X _). intros n Xn. rewrite V. unfold after. change (in_syntax i) with "expr"%string. cbn [String.eqb Ascii.eqb Bool.eqb]. unfold bnd. rewrite Xn. reflexivity.
  Qed.
  Lemma pack_shape lv t l' l : good lv t l' l -> is_node (pack l') = true \/ (exists x, pack l' = Ls x /\ Forall (fun y => is_node y = true) x).
  Proof.
    intros G. pose proof (good_nodes _ _ _ _ _ _ _ _ _ _ _ _ _ _ _ _ G) as F. destruct l' as [|x [|y r]]; cbn [pack]; [right; eauto|left; inversion F; assumption|right; eauto].
  Qed.

  Lemma expr_case m fs c x o sl : source (Nd m "Subscript" fs) -> getf "value" fs = Some c -> getf "slice" fs = Some sl -> denotes c x [] -> kind_of c = "Name"%string -> opn x = Some o -> main sl ->
    main (Nd m "Subscript" fs).
  Proof.
    intros Hs Hc Hsl Hd Hk Ho IH. apply (expr_wrap m fs c x o sl Hs Hc Hsl Hd Hk Ho). intros lv log. set (t := Nd m "Subscript" fs) in *. set (i := mkIn "expr" sl (Some []) None t).
    assert (EO : expr_op opn "Subscript" fs = Some o). { unfold expr_op. cbn. rewrite Hc, (op_names _ _ _ Hd Hk Ho). reflexivity. }
    assert (Kt : kind_of t = "Subscript"%string \/ kind_of t = "With"%string) by (left; reflexivity).
    assert (ON : o = Oq \/ o <> Oq) by (destruct o; (left; reflexivity) || (right; discriminate)). destruct ON as [->|Hnq].
    - destruct (IH (S lv) ((log ++ [EUse HRec]) ++ [EMode true])) as (r & log' & V & O). unfold NestProofs5.outcome in O.
      pose proof (run_q_ok user_marker has_attr filename unparse idx others unique pickled loc_text cov_text isexc b i lv log r log' (or_introl eq_refl) V) as R.
      change (nest lv t) with (nest lv (Nd m "Subscript" fs)). rewrite nest_nd. cbv zeta. rewrite EO, Hsl. destruct lv as [|lv].
      + destruct (nest 1 sl) as [l|]; cbn [option_map omap].
        * destruct O as (l' & -> & G). pose proof (good_nodes _ _ _ _ _ _ _ _ _ _ _ _ _ _ _ _ G) as Gn. pose proof (compile_code user_marker has_attr filename unique pickled qb "expr" None (pack l') (pack l) (del_pack _ _ (proj1 (proj2 G)) Gn)) as C.
          assert (Hm : mok (pack l)) by (apply mok_pack; exact (proj1 (proj2 (proj2 G)))).
          change (Nat.ltb 1 1) with false in R. cbv iota in R. change (in_syntax i) with "expr"%string in R. change (in_vars i) with (@None ltree) in R. destruct (code qb (pack l)) as [cc|] eqn:Ec; cbn [option_map].
          -- rewrite C in R. eexists _, _. split; [exact R|]. exists cc. split; [reflexivity|]. eapply code_good; eassumption.
          -- destruct C as (e & C). rewrite C in R. eexists _, _. split; [exact R|]. eauto.
        * destruct O as (e & ->). eexists _, _. split; [exact R|]. eauto.
      + destruct (nest (S (S lv)) sl) as [l|]; cbn [option_map omap].
        * destruct O as (l' & -> & G). change (Nat.ltb 1 (S (S lv))) with true in R. cbv iota in R. eexists _, _. split; [exact R|]. eexists. split; [reflexivity|]. destruct G as (G1 & G2 & G3 & _).
          apply replaced_good; [discriminate|auto|exact Hs|apply vl_pack; exact G2|apply mok_pack; exact G3].
        * destruct O as (e & ->). eexists _, _. split; [exact R|]. eauto.
    - change (nest lv t) with (nest lv (Nd m "Subscript" fs)). rewrite nest_nd. cbv zeta. rewrite EO, Hsl. destruct lv as [|lv].
      + eexists _, _. split; [apply (run_u_err user_marker has_attr filename unparse idx others unique pickled loc_text cov_text isexc b o i 0 log Hnq (or_introl eq_refl))|]. destruct o; [contradiction|eexists; reflexivity ..].
      + destruct (IH lv ((log ++ [EUse HRec]) ++ [EMode true])) as (r & log' & V & O). unfold NestProofs5.outcome in O.
        pose proof (run_u_ok user_marker has_attr filename unparse idx others unique pickled loc_text cov_text isexc b o i lv log r log' Hnq (or_introl eq_refl) V) as R.
        assert (EX : forall A (f : op -> A) (a : A), (forall o', o' <> Oq -> f o' = a) -> f o = a) by (intros A f a Hf; apply Hf; exact Hnq).
        destruct lv as [|lv].
        * assert (R' : match nest 0 sl with
                       | Some l => exists v, match r with XRaise e => XRaise e | XOk t0 => unquote_finish filename unparse o i 0 t0 end = XOk v /\ good 1 t [v] [mark filename o (unparse sl) (pack l)]
                       | None => exists e, match r with XRaise e => XRaise e | XOk t0 => unquote_finish filename unparse o i 0 t0 end = XRaise e
                       end).
          { destruct (nest 0 sl) as [l|]; [|destruct O as (e & ->); eauto]. destruct O as (l' & -> & G). pose proof (pack_shape _ _ _ _ G) as Sh. destruct G as (G1 & G2 & G3 & G4 & G5 & G6). destruct (G6 eq_refl) as [<- N].
            assert (Cl : clean (pack l')) by (split; [apply sq_pack; exact G4|apply nomark_pack; exact N]). pose proof (clean_vl _ _ _ _ _ _ _ _ _ _ _ _ _ Cl Sh) as Vl.
            exists (mark filename o (unparse sl) (pack l')). split; [destruct o; try contradiction; reflexivity|]. destruct o; try contradiction; cbn [mark]; (apply mark_good; [discriminate|exact Kt|cbn; auto 10|exact Cl|exact Vl|]); first [left; reflexivity|right; eauto]. }
          eexists _, _. split; [exact R|]. destruct o; try contradiction; (destruct (nest 0 sl) as [l|]; cbn [option_map]; [|exact R']; destruct R' as (v & Ev & Gv); exists v; split; [exact Ev|exact Gv]).
        * assert (R' : match nest (S lv) sl with
                       | Some l => exists v, match r with XRaise e => XRaise e | XOk t0 => unquote_finish filename unparse o i (S lv) t0 end = XOk v /\ good (S (S lv)) t [v] [Nd m "Subscript" (setf "slice" (pack l) fs)]
                       | None => exists e, match r with XRaise e => XRaise e | XOk t0 => unquote_finish filename unparse o i (S lv) t0 end = XRaise e
                       end).
          { destruct (nest (S lv) sl) as [l|]; [|destruct O as (e & ->); eauto]. destruct O as (l' & -> & G). destruct G as (G1 & G2 & G3 & _). eexists. split; [unfold unquote_finish; change (Nat.ltb 0 (S lv)) with true; cbv iota; reflexivity|].
            apply replaced_good; [discriminate|auto|exact Hs|apply vl_pack; exact G2|apply mok_pack; exact G3]. }
          eexists _, _. split; [exact R|]. destruct o; try contradiction; (destruct (nest (S lv) sl) as [l|]; cbn [option_map]; [|exact R']; destruct R' as (v & Ev & Gv); exists v; split; [exact Ev|exact Gv]).
  Qed.
End Main.
