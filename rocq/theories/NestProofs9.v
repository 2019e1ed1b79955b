(** The second expander computes [nest]: all nodes, for C55. *)
From Verif Require Import Base AstLib UtilsModel FixLocModel MarkersModel QuoteModel ExpanderModel ExpanderSpec ExpanderProofs ExpanderProofs2 ExpanderProofs3 QuoteSpec QuoteProofs NestModel NestSpec NestProofs NestProofs2 NestProofs3 NestProofs4 NestProofs5 NestProofs6 NestProofs7 NestProofs8.

Section Main.
  Variables (user_marker : string -> bool) (has_attr : string -> string -> bool).
  Variables (filename : string) (unparse : ltree -> string) (idx : op -> nat) (others : nat -> mdef nat).
  Variables (unique : string -> string) (pickled : nat -> string).
  Variables (loc_text : ltree -> string) (cov_text : loc -> string -> string) (isexc : exn -> bool).
  Variable b : binds.
  Notation E := (nest_env user_marker has_attr filename unparse idx others unique pickled loc_text cov_text isexc).
  Notation qb := (quasi_only idx b).
  Notation opn := (meaning idx b).
  Notation sq := (sq user_marker has_attr filename unparse idx others unique pickled loc_text cov_text isexc b).
  Notation clean := (clean user_marker has_attr filename unparse idx others unique pickled loc_text cov_text isexc b).
  Notation mok := (mok user_marker has_attr filename unparse idx others unique pickled loc_text cov_text isexc b).
  Notation code := (code user_marker has_attr filename unique pickled).
  Notation quasi_macro := (quasi_macro user_marker has_attr filename unparse idx others unique pickled).
  Notation compile := (compile user_marker has_attr filename unique pickled).
  Notation nest := (nest opn (code qb) filename unparse cov_text).
  Notation nest_items := (nest_items opn (code qb) filename unparse cov_text).
  Notation source := (source opn).
  Notation st lv log := (mkSt qb true lv log).
  Notation good := (good user_marker has_attr filename unparse idx others unique pickled loc_text cov_text isexc b).
  Notation outcome := (outcome user_marker has_attr filename unparse idx others unique pickled loc_text cov_text isexc b).
  Notation main := (main user_marker has_attr filename unparse idx others unique pickled loc_text cov_text isexc b).
  Hypothesis Hqb : qb <> [].


  Lemma name_fields lv fs : Forall (fun p : string * ltree => match snd p with At _ => True | Nd _ k' [] => In k' ["Load"; "Store"; "Del"]%string | _ => False end) fs ->
    nest_fields user_marker has_attr filename unparse idx unique pickled cov_text b lv fs = Some fs /\ fsims fs fs.
  Proof.
    induction 1 as [|[f v] fs Hv _ [IH1 IH2]]; [split; [reflexivity|constructor]|]. cbn [snd] in Hv. cbn [nest_fields]. fold (nest_fields user_marker has_attr filename unparse idx unique pickled cov_text b lv). rewrite IH1. destruct v as [m k [|? ?]| |a]; try contradiction.
    - assert (Hn : nest lv (Nd m k []) = Some [Nd m k []]).
      { rewrite nest_nd. cbv zeta. cbn in Hv. destruct Hv as [<-|[<-|[<-|[]]]]; reflexivity. }
      rewrite Hn. split; [reflexivity|]. constructor; [|exact IH2]. split; [reflexivity|]. apply (fs_nd (Nd m k []) [Nd m k []]); [reflexivity|discriminate|]. constructor; [apply sim_nd; constructor|constructor].
    - split; [reflexivity|]. constructor; [|exact IH2]. split; [reflexivity|]. apply fs_at.
  Qed.
  Lemma no_ops m k fs : source (Nd m k fs) -> (forall c x i, ~ next_call E qb (Nd m k fs) c x i) -> expr_op opn k fs = None /\ block_op opn k fs = None.
  Proof.
    intros Hs Hn. split.
    - unfold expr_op. destruct (String.eqb_spec k "Subscript") as [->|]; [|reflexivity]. destruct (getf "value" fs) as [c|] eqn:Hc; [|reflexivity]. destruct (names_op opn c) as [[x o]|] eqn:Ho; [|reflexivity]. exfalso.
      apply names_op_iff in Ho. destruct Ho as (Hd & Ho & Hk). destruct (shaped_field _ _ _ "slice" FAny (proj1 Hs) ltac:(eexists; split; [cbn; auto 10|cbn; auto])) as [sl Hsl]. cbn [fst] in Hsl.
      apply (Hn c x (mkIn "expr" sl (Some []) None (Nd m "Subscript" fs))). apply nc_expr; [exact Hc|exact Hsl|]. apply names_iff. split; [exact Hd|]. split; [reflexivity|rewrite Ho; discriminate].
    - unfold block_op. destruct (String.eqb_spec k "With") as [->|]; [|reflexivity]. destruct (getf "items" fs) as [[|[|[mi ki fi| |] [|? ?]]|]|] eqn:Hi; try reflexivity.
      destruct (getf "context_expr" fi) as [c|] eqn:Hc; [|reflexivity]. destruct (getf "optional_vars" fi) as [ov|] eqn:Hov; [|reflexivity]. destruct (names_op opn c) as [[x o]|] eqn:Ho; [|reflexivity]. exfalso.
      apply names_op_iff in Ho. destruct Ho as (Hd & Ho & Hk). destruct (shaped_field _ _ _ "body" FList (proj1 Hs) ltac:(eexists; split; [cbn; auto 10|cbn; auto])) as [l Hl]. cbn [fst] in Hl.
      pose proof (proj1 Hs _ (pt_refl _)) as [_ Hw]. specialize (Hw eq_refl _ Hi). inversion Hw as [|? ? Hki _]; subst. cbn [kind_of] in Hki. subst ki.
      refine (Hn c x _ (nc_block E qb m fs [] mi fi [] c x [] ov (Ls l) Hi (Forall_nil _) Hc Hov Hl _)). apply names_iff. split; [exact Hd|]. split; [reflexivity|rewrite Ho; discriminate].
  Qed.
  Lemma generic_case m k fs : source (Nd m k fs) -> (forall c x i, ~ next_call E qb (Nd m k fs) c x i) ->
    Forall (fun p => (is_node (snd p) = true -> main (snd p)) /\ match snd p with Ls l => Forall (fun x => is_node x = true -> main x) l /\ Forall (fun x => is_list x = false) l | _ => True end) fs -> main (Nd m k fs).
  Proof.
    intros Hs Hn IH lv log. destruct (no_ops _ _ _ Hs Hn) as [EO BO]. destruct (source_fields _ _ _ _ Hs) as (N1 & N2 & N3). pose proof (proj2 Hs _ (pt_refl _)) as (_ & _ & _ & Hname & _).
    assert (V : forall n, visit E (S n) (Nd m k fs) (st lv log) = if String.eqb k "Name" then Some (XOk (Nd m k fs), st lv log) else xgeneric_visit (visit E n) (Nd m k fs) (st lv log)).
    { intros n. apply visit_generic; [exact (proj1 Hs)|exact N1|exact Hqb|exact Hn]. }
    unfold NestProofs5.outcome. rewrite nest_nd. cbv zeta. rewrite EO, BO. destruct (String.eqb_spec k "Name") as [->|Hk].
    - exists (XOk (Nd m "Name" fs)), log. split; [apply ev_S; exists 0; intros n _; rewrite V; reflexivity|]. destruct (name_fields lv fs (Hname eq_refl)) as [F1 F2]. rewrite F1. cbn [option_map].
      pose proof (source_nomark _ _ Hs) as Hno. exists [Nd m "Name" fs]. split; [reflexivity|]. refine (conj _ (conj _ (conj _ (conj _ (conj _ _))))).
      + discriminate.
      + constructor; [apply nomark_dl; [exact Hno|reflexivity]|constructor].
      + constructor; [apply nomark_mok; exact Hno|constructor].
      + constructor; [apply source_name_sq; assumption|constructor].
      + constructor; [apply sim_nd; exact F2|constructor].
      + intros _. split; [reflexivity|]. constructor; [exact Hno|constructor].
    - destruct (fields_ok user_marker has_attr filename unparse idx others unique pickled loc_text cov_text isexc b fs IH lv log) as (r & log' & VF & O).
      assert (Hni : forall x syn, ~ invokes E qb (Nd m k fs) x syn).
      { intros x syn Hi. destruct (proj2 (invokes_next E qb m k fs (proj1 Hs) N1) (ex_intro _ x (ex_intro _ syn Hi))) as (c & y & i & Hc). exact (Hn c y i Hc). }
      destruct (nest_fields user_marker has_attr filename unparse idx unique pickled cov_text b lv fs) as [gs|]; cbn [option_map].
      + destruct O as (fs' & -> & (F1 & F2 & F3 & F4 & F5)). exists (XOk (Nd m k fs')), log'. split.
        * apply ev_S. refine (ev_impl _ _ VF _). intros n Vn. rewrite V. cbn [xgeneric_visit]. unfold bnd. rewrite Vn. reflexivity.
        * exists [Nd m k fs']. split; [reflexivity|]. refine (conj _ (conj _ (conj _ (conj _ (conj _ _))))).
          -- discriminate.
          -- constructor; [|constructor]. left. split; [reflexivity|]. split; [reflexivity|]. apply del_node; assumption.
          -- constructor; [apply mok_nd; assumption|constructor].
          -- constructor; [|constructor]. eapply kept_node; [exact (proj1 Hs)|exact N1|exact Hni|exact F1|exact F4].
          -- constructor; [apply sim_nd; exact F1|constructor].
          -- intros H0. destruct (F5 H0) as [-> Hg]. split; [reflexivity|]. constructor; [apply nomark_intro; assumption|constructor].
      + destruct O as (e & ->). exists (XRaise e), log'. split; [|eauto]. apply ev_S. refine (ev_impl _ _ VF _). intros n Vn. rewrite V. cbn [xgeneric_visit]. unfold bnd. rewrite Vn. reflexivity.
  Qed.

  Theorem main_all t : is_node t = true -> source t -> main t.
  Proof.
    induction t as [m k fs IH|l IH|a] using tree_ind2; intros Hnode Hs; try discriminate.
    destruct (source_fields _ _ _ _ Hs) as (N1 & N2 & N3). pose proof (proj2 Hs _ (pt_refl _)) as (_ & _ & Nl & _ & Nsub & Nwith & Ndec).
    rewrite Forall_forall in IH, Nl.
    destruct (next_dec E qb m k fs (proj1 Hs) N1) as [(c & x & i & NC)|NN].
    - inversion NC as [? ? c0 x0 args sl Hc Hsl Hnm|? ? before mi fi after c0 x0 args ov body Hi Hbef Hc Hov Hb Hnm|? ? ? before c0 after x0 args Hk Hds Haft Hnm|? ? x0 j Hid Hx Hbd Hnm]; subst.
      + apply names_iff in Hnm. destruct Hnm as (Hd & -> & Ho). destruct (Nsub eq_refl c x Hc Hd Ho) as (Hk & sl0 & Hsl0 & Hsn). rewrite Hsl in Hsl0. inversion Hsl0; subst sl0.
        destruct (opn x) as [o|] eqn:Eo; [|contradiction]. eapply (expr_case user_marker has_attr filename unparse idx others unique pickled loc_text cov_text isexc b m fs c x o sl); try eassumption.
        apply (IH _ (getf_In _ _ _ Hsl)); [exact Hsn|]. apply (N3 _ _ (getf_In _ _ _ Hsl)).
      + apply names_iff in Hnm. destruct Hnm as (Hd & -> & Ho).
        destruct (Nwith eq_refl _ (Nd mi "withitem" fi) mi fi c x Hi ltac:(apply in_or_app; right; left; reflexivity) eq_refl Hc Hd Ho) as (Hone & Hk & Hloc & l & Hl & Hne & Hnl). rewrite Hone in Hi.
        destruct (opn x) as [o|] eqn:Eo; [|contradiction]. eapply (block_case user_marker has_attr filename unparse idx others unique pickled loc_text cov_text isexc b Hqb m fs mi fi c x o ov l); try eassumption.
        pose proof (proj2 (IH _ (getf_In _ _ _ Hl))) as Hll. cbn [snd] in Hll. pose proof (proj1 (N3 _ _ (getf_In _ _ _ Hl))) as Hsl. rewrite Forall_forall in *. intros y Hy. apply Hll; [exact Hy|exact (Hnl y Hy)|].
        apply (source_sub _ _ _ Hsl). eapply pt_elem; [exact Hy|constructor].
      + exfalso. apply names_iff in Hnm. destruct Hnm as (Hd & -> & Ho). apply Ho. refine (Ndec Hk _ c x Hds _ Hd). apply in_or_app. right. left. reflexivity.
      + exfalso. rewrite (no_name_macro _ _ _ _ _ _ _ _ _ _ _ _ _ _ Hbd) in Hnm. discriminate.
    - apply generic_case; [exact Hs|exact NN|]. apply Forall_forall. intros [f v] Hin. cbn [snd]. pose proof (IH _ Hin) as [H1 H2]. cbn [snd] in H1, H2. pose proof (proj1 (N3 _ _ Hin)) as Hsv. split; [intros Hv; apply H1; assumption|].
      destruct v as [| l |]; try exact I. split; [|exact (Nl _ Hin)]. rewrite Forall_forall in *. intros y Hy Hyn. apply H2; [exact Hy|exact Hyn|]. apply (source_sub _ _ _ Hsv). eapply pt_elem; [exact Hy|constructor].
  Qed.
End Main.
