(** The second expander computes [nest]: blocks, and the conclusion, for C55. *)
From Verif Require Import Base AstLib UtilsModel FixLocModel MarkersModel QuoteModel ExpanderModel ExpanderSpec ExpanderProofs ExpanderProofs2 ExpanderProofs3 QuoteSpec QuoteProofs NestModel NestSpec NestProofs NestProofs2 NestProofs3 NestProofs4 NestProofs5 NestProofs6 NestProofs7.

Section Main.
  Variables (user_marker : string -> bool) (has_attr : string -> string -> bool).
  Variables (filename : string) (unparse : ltree -> string) (idx : op -> nat) (others : nat -> mdef nat).
  Variables (unique : string -> string) (pickled : nat -> string).
  Variables (loc_text : ltree -> string) (cov_text : loc -> string -> string) (isexc : exn -> bool).
  Variable b : binds.
  Notation E := (nest_env user_marker has_attr filename unparse idx others unique pickled loc_text cov_text isexc).
  Notation qb := (quasi_only idx b).
  Notation opn := (meaning idx b).
  Notation sq := (sq user_marker has_attr filename unparse idx others unique pickled loc_text cov_text isexc b).
  Notation clean := (clean user_marker has_attr filename unparse idx others unique pickled loc_text cov_text isexc b).
  Notation mok := (mok user_marker has_attr filename unparse idx others unique pickled loc_text cov_text isexc b).
  Notation code := (code user_marker has_attr filename unique pickled).
  Notation quasi_macro := (quasi_macro user_marker has_attr filename unparse idx others unique pickled).
  Notation compile := (compile user_marker has_attr filename unique pickled).
  Notation nest := (nest opn (code qb) filename unparse cov_text).
  Notation nest_items := (nest_items opn (code qb) filename unparse cov_text).
  Notation source := (source opn).
  Notation st lv log := (mkSt qb true lv log).
  Notation good := (good user_marker has_attr filename unparse idx others unique pickled loc_text cov_text isexc b).
  Notation outcome := (outcome user_marker has_attr filename unparse idx others unique pickled loc_text cov_text isexc b).
  Notation main := (main user_marker has_attr filename unparse idx others unique pickled loc_text cov_text isexc b).
  Hypothesis Hqb : qb <> [].


  Lemma block_wrap m fs mi fi c x o ov l : source (Nd m "With" fs) -> getf "items" fs = Some (Ls [Nd mi "withitem" fi]) -> getf "context_expr" fi = Some c -> getf "optional_vars" fi = Some ov ->
    getf "body" fs = Some (Ls l) -> denotes c x [] -> kind_of c = "Name"%string -> opn x = Some o -> (ln m = None -> co m = None) ->
    (forall lv log, exists rv log1, ev (fun n => run (visit E n) n (m_run (quasi_macro o) (mkIn "block" (Ls l) (Some []) (Some ov) (Nd m "With" fs))) (st lv log) = Some (rv, st lv log1)) /\
       match nest lv (Nd m "With" fs) with Some k => exists v w, rv = XOk v /\ k = coverage cov_text m x ++ [w] /\ good lv (Nd m "With" fs) [v] [w] | None => exists e, rv = XRaise e end) ->
    main (Nd m "With" fs).
  Proof.
    intros Hs Hi Hc Hov Hb Hd Hk Ho Hl H lv log. destruct (opn_j _ _ _ _ Ho) as (j & Hj & Hoj). set (t := Nd m "With" fs) in *. set (i := mkIn "block" (Ls l) (Some []) (Some ov) t) in *.
    assert (NC : next_call E qb t c x i).
    { apply (nc_block E qb m fs [] mi fi [] c x [] ov (Ls l)); [exact Hi|constructor|exact Hc|exact Hov|exact Hb|]. apply names_iff. split; [exact Hd|]. split; [reflexivity|rewrite Ho; discriminate]. }
    assert (V : forall n log0, visit E (S n) t (st lv log0) = after E n c x i (st lv log0)) by (intros n log0; apply (visit_next E n (st lv log0) t c x i (proj1 Hs) NC); apply not_bad; exact Hk).
    destruct (H lv (log ++ [ECall x i true])) as (rv & log1 & R & O). destruct (nest lv t) as [k|] eqn:EN.
    - destruct O as (v & w & -> & -> & G). assert (Hn : is_node v = true) by (pose proof (good_nodes _ _ _ _ _ _ _ _ _ _ _ _ _ _ _ _ G) as F; inversion F; assumption).
      assert (Hsq : sq v) by (destruct G as (_ & _ & _ & F & _); inversion F; assumption).
      destruct (expand_ok user_marker has_attr filename unparse idx others unique pickled loc_text cov_text isexc b o x j i lv log v log1 Hj Hoj R Hn Hsq) as (log2 & X).
      exists (XOk (pack (coverage cov_text m x ++ [v]))), log2. split; [|eapply outcome_ok; [exact EN|apply coverage_good; [reflexivity|exact G]]]. apply ev_S. refine (ev_impl _ _ X _). intros n Xn. rewrite V. unfold after.
      change (in_syntax i) with "block"%string. cbn [String.eqb Ascii.eqb Bool.eqb]. unfold bnd. rewrite Xn. change (loc_of (in_target i)) with m. unfold of_res, insert_dummy, coverage. destruct (ln m) as [z|] eqn:El.
      + destruct v; try discriminate. reflexivity.
      + rewrite (Hl eq_refl). reflexivity.
    - destruct O as (e & ->). destruct (expand_err user_marker has_attr filename unparse idx others unique pickled loc_text cov_text isexc b o x j i lv log e log1 Hj Hoj R) as (e' & log2 & X).
      exists (XRaise e'), log2. split; [|apply outcome_err; exact EN]. apply ev_S. refine (ev_impl _ _ X _). intros n Xn. rewrite V. unfold after. change (in_syntax i) with "block"%string. cbn [String.eqb Ascii.eqb Bool.eqb]. unfold bnd. rewrite Xn. reflexivity.
  Qed.

  Lemma exprs_values l : match exprs l with Some vs => expr_values l = XOk vs | None => exists e, expr_values l = XRaise e end.
  Proof.
    induction l as [|x l IH]; [reflexivity|]. cbn [exprs expr_values]. destruct x as [m k fs| |]; [|eauto ..]. destruct (String.eqb k "Expr"); [|eauto]. unfold attr. destruct (getf "value" fs) as [v|]; [|eauto].
    destruct (exprs l) as [vs|]; [rewrite IH; reflexivity|]. destruct IH as (e & ->). eauto.
  Qed.
  Lemma exprs_all (P : ltree -> Prop) l vs : exprs l = Some vs -> (forall x, In x l -> P x) -> (forall m k fs f v, P (Nd m k fs) -> k = "Expr"%string -> In (f, v) fs -> P v) -> forall v, In v vs -> P v.
  Proof.
    intros H Hl Hp. revert vs H. induction l as [|x l IH]; intros vs H; cbn [exprs] in H; [inversion H; subst; intros v []|].
    destruct x as [m k fs| |]; try discriminate. destruct (String.eqb_spec k "Expr") as [->|]; [|discriminate]. destruct (getf "value" fs) as [w|] eqn:Hw; [|discriminate]. destruct (exprs l) as [ws|]; [|discriminate].
    inversion H; subst. intros v [<-|Hv].
    - exact (Hp _ _ _ _ _ (Hl _ (or_introl eq_refl)) eq_refl (getf_In _ _ _ Hw)).
    - exact (IH (fun x Hx => Hl x (or_intror Hx)) ws eq_refl v Hv).
  Qed.
  (** A Name of the source, as the target of an assignment. *)
  Lemma source_name_sq m fs : source (Nd m "Name" fs) -> sq (Nd m "Name" fs).
  Proof.
    intros Hs. pose proof (proj2 Hs _ (pt_refl _)) as (_ & _ & _ & Hf & _). specialize (Hf eq_refl). apply sq_nd; [exact (proj1 Hs _ (pt_refl _))| |].
    - intros y syn Hi. inversion Hi; subst; [match goal with H : _ \/ _ |- _ => destruct H; discriminate end|]. match goal with Hb : bound _ _ _, Hn : m_isname _ = true |- _ => rewrite (no_name_macro _ _ _ _ _ _ _ _ _ _ _ _ _ _ Hb) in Hn; discriminate end.
    - intros f v Hin. rewrite Forall_forall in Hf. specialize (Hf _ Hin). cbn [snd] in Hf. destruct v as [mv kv [|? ?]| |]; try contradiction; [|apply sq_at].
      apply sq_plain; [|intros ? ? []]. unfold plain_kind. intros Hk. cbn in Hf, Hk. destruct Hf as [<-|[<-|[<-|[]]]]; repeat (destruct Hk as [Hk|Hk]; [discriminate|]); destruct Hk.
  Qed.
  Lemma names_list (l : list ltree) (P : ltree -> Prop) : Forall P l -> forall x, In x l -> P x.
  Proof. intros H. apply Forall_forall. exact H. Qed.

  Lemma block_case m fs mi fi c x o ov l : source (Nd m "With" fs) -> getf "items" fs = Some (Ls [Nd mi "withitem" fi]) -> getf "context_expr" fi = Some c -> getf "optional_vars" fi = Some ov ->
    getf "body" fs = Some (Ls l) -> denotes c x [] -> kind_of c = "Name"%string -> opn x = Some o -> (ln m = None -> co m = None) -> l <> [] -> Forall (fun y => is_node y = true) l -> Forall (fun y => main y) l ->
    main (Nd m "With" fs).
  Proof.
    intros Hs Hi Hc Hov Hb Hd Hk Ho Hloc Hne Hnl IH. apply (block_wrap m fs mi fi c x o ov l Hs Hi Hc Hov Hb Hd Hk Ho Hloc). intros lv log. set (t := Nd m "With" fs) in *. set (i := mkIn "block" (Ls l) (Some []) (Some ov) t).
    assert (EO : expr_op opn "With" fs = None) by reflexivity.
    assert (BO : block_op opn "With" fs = Some (x, o, ov)). { unfold block_op. cbn. rewrite Hi, Hc, Hov, (op_names _ _ _ _ _ Hd Hk Ho). reflexivity. }
    assert (Kt : kind_of t = "Subscript"%string \/ kind_of t = "With"%string) by (right; reflexivity).
    assert (Hpv : source ov).
    { apply (source_sub _ _ _ Hs). eapply pt_field; [discriminate|apply getf_In; exact Hi|]. eapply pt_elem; [left; reflexivity|]. eapply pt_field; [discriminate|apply getf_In; exact Hov|constructor]. }
    assert (MLS : forall a, Forall mok a -> mok (Ls a)) by (intros a Ha; apply mok_ls; apply Forall_forall; exact Ha).
    change (nest lv t) with (nest lv (Nd m "With" fs)). rewrite nest_nd. cbv zeta. rewrite EO, BO, Hb.
    assert (ON : o = Oq \/ o <> Oq) by (destruct o; (left; reflexivity) || (right; discriminate)). destruct ON as [->|Hnq].
    - destruct (block_ok user_marker has_attr filename unparse idx others unique pickled loc_text cov_text isexc b Hqb l IH Hnl Hne (S lv) ((log ++ [EUse HRec]) ++ [EMode true])) as (r & log' & V & O).
      pose proof (run_q_ok user_marker has_attr filename unparse idx others unique pickled loc_text cov_text isexc b i lv log r log' (or_intror eq_refl) V) as R.
      destruct lv as [|lv].
      + destruct (nest_items 1 l) as [a|]; cbn [omap]; [|destruct O as (e & ->); eexists _, _; split; [exact R|]; eauto].
        destruct O as (ll & -> & Hcn & Hcl & (L1 & L2 & L3 & L4 & L5)). pose proof (compile_code user_marker has_attr filename unique pickled qb "block" (Some ov) (Ls (concat ll)) (Ls a) (del_ls _ _ L2 Hcl)) as C.
        change (Nat.ltb 1 1) with false in R. cbv iota in R. change (in_syntax i) with "block"%string in R. change (in_vars i) with (Some ov) in R. destruct (code qb (Ls a)) as [cc|] eqn:Ec; cbn [omap].
        * change (String.eqb "block" "block") with true in C. cbv iota in C. rewrite C in R. eexists _, _. split; [exact R|]. destruct ov as [mo ko fo|lo|ao]; cbn [is_kind]; [|eauto ..]. destruct (String.eqb_spec ko "Name") as [->|]; [|eauto].
          eexists _, _. split; [reflexivity|]. split; [reflexivity|].
          destruct (code_clean user_marker has_attr filename unparse idx others unique pickled loc_text cov_text isexc b _ _ _ (MLS _ L3) Ec) as [[Hsc Hnc] _].
          assert (Hnm : nomark (Nd noloc "Assign" [("targets"%string, Ls [Nd mo "Name" fo]); ("value"%string, cc)]) = true).
          { apply nomark_intro; [reflexivity|discriminate|]. intros f v [Hv|[Hv|[]]]; inversion Hv; subst; [|exact Hnc]. cbn [nomark forallb]. pose proof (source_nomark _ _ Hpv) as Hno. cbn [nomark] in Hno. rewrite Hno. reflexivity. }
          apply one_good; [exact Kt|left; cbn; auto 10|apply nomark_dl; [exact Hnm|reflexivity]|apply nomark_mok; exact Hnm| |auto].
          apply sq_plain; [intros Hin; cbn in Hin; repeat (destruct Hin as [Hin|Hin]; [discriminate|]); destruct Hin|]. intros f v [Hv|[Hv|[]]]; inversion Hv; subst; [|exact Hsc]. apply sq_ls. intros y [<-|[]]. apply source_name_sq. exact Hpv.
        * destruct C as (e & C). rewrite C in R. eexists _, _. split; [exact R|]. eauto.
      + destruct (nest_items (S (S lv)) l) as [a|]; cbn [option_map]; [|destruct O as (e & ->); eexists _, _; split; [exact R|]; eauto].
        destruct O as (ll & -> & Hcn & Hcl & (L1 & L2 & L3 & L4 & L5)). change (Nat.ltb 1 (S (S lv))) with true in R. cbv iota in R. eexists _, _. split; [exact R|]. eexists _, _. split; [reflexivity|]. split; [reflexivity|].
        apply replaced_good; [discriminate|auto|exact Hs|right; eexists _, _; eauto|apply MLS; exact L3].
    - assert (OV : (o = Oa /\ ov = NoneT) \/ (o <> Oa \/ ov <> NoneT)).
      { destruct o; try (right; left; discriminate). destruct ov as [| |[]]; try (right; right; discriminate). left. auto. }
      destruct OV as [[-> ->]|OV].
      + destruct lv as [|lv].
        * eexists _, _. split; [apply (run_u_err user_marker has_attr filename unparse idx others unique pickled loc_text cov_text isexc b Oa i 0 log Hnq (or_introl eq_refl))|]. eexists; reflexivity.
        * destruct (block_ok user_marker has_attr filename unparse idx others unique pickled loc_text cov_text isexc b Hqb l IH Hnl Hne lv ((log ++ [EUse HRec]) ++ [EMode true])) as (r & log' & V & O).
          pose proof (run_u_ok user_marker has_attr filename unparse idx others unique pickled loc_text cov_text isexc b Oa i lv log r log' Hnq (or_intror (conj eq_refl (conj eq_refl (or_intror eq_refl)))) V) as R.
          change NoneT with (@At loc ANone). cbv iota. destruct lv as [|lv].
          -- destruct (nest_items 0 l) as [a|]; cbn [omap]; [|destruct O as (e & ->); eexists _, _; split; [exact R|]; eauto].
             destruct O as (ll & -> & Hcn & Hcl & (L1 & L2 & L3 & L4 & L5)). destruct (L5 eq_refl) as [<- N]. unfold unquote_finish in R. change (Nat.ltb 0 0) with false in R. cbv iota in R. cbn [marker_of] in R. change (in_syntax i) with "block"%string in R.
             change (String.eqb "block" "expr") with false in R. cbv iota in R. cbn [elements] in R. pose proof (exprs_values (concat ll)) as X. destruct (exprs (concat ll)) as [vs|] eqn:Ex; cbn [option_map].
             ++ rewrite X in R. eexists _, _. split; [exact R|]. eexists _, _. split; [reflexivity|]. split; [reflexivity|]. unfold mark_block.
                assert (CV : forall v, In v vs -> clean v).
                { intros v Hv. split.
                  - refine (exprs_all sq _ _ Ex (names_list _ _ L4) _ v Hv). intros m0 k0 f0 f v0 [S1 S2] Hk0 Hin. subst k0. split; [apply (shaped_part _ _ S1); eapply pt_field; [discriminate|exact Hin|constructor]|].
                    intros u y syn Hu. apply S2. eapply pt_field; [discriminate|exact Hin|exact Hu].
                  - refine (exprs_all (fun z => nomark z = true) _ _ Ex (names_list _ _ N) _ v Hv). intros m0 k0 f0 f v0 Hn0 _ Hin. apply nomark_node in Hn0. exact (proj2 (proj2 Hn0) _ _ Hin). }
                assert (CL : clean (Nd noloc "List" [("elts"%string, Ls vs)])).
                { apply clean_plain; [intros Hin; cbn in Hin; repeat (destruct Hin as [Hin|Hin]; [discriminate|]); destruct Hin|reflexivity|discriminate|]. intros f v [Hv|[]]. inversion Hv; subst. apply clean_ls. exact CV. }
                apply mark_good; [discriminate|exact Kt|cbn; auto|exact CL|apply (clean_vl _ _ _ _ _ _ _ _ _ _ _ _ _ CL); left; reflexivity|right; eauto].
             ++ destruct X as (e & X). rewrite X in R. eexists _, _. split; [exact R|]. eauto.
          -- destruct (nest_items (S lv) l) as [a|]; cbn [option_map]; [|destruct O as (e & ->); eexists _, _; split; [exact R|]; eauto].
             destruct O as (ll & -> & Hcn & Hcl & (L1 & L2 & L3 & L4 & L5)). unfold unquote_finish in R. change (Nat.ltb 0 (S lv)) with true in R. cbv iota in R. eexists _, _. split; [exact R|]. eexists _, _. split; [reflexivity|]. split; [reflexivity|].
             apply replaced_good; [discriminate|auto|exact Hs|right; eexists _, _; eauto|apply MLS; exact L3].
      + eexists _, _. split; [apply (run_u_err user_marker has_attr filename unparse idx others unique pickled loc_text cov_text isexc b o i lv log Hnq); right; split; [reflexivity|]; destruct OV as [OV|OV]; [left; exact OV|right; exists ov; auto]|].
        destruct o; try contradiction; try (eexists; reflexivity). destruct OV as [OV|OV]; [destruct (OV eq_refl)|]. destruct ov as [| |[]]; try (eexists; reflexivity). destruct (OV eq_refl).
  Qed.
End Main.
