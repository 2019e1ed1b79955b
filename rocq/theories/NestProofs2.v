(** Compiled quotes contain no further invocations, for C55. *)
From Verif Require Import Base AstLib UtilsModel FixLocModel MarkersModel QuoteModel ExpanderModel ExpanderSpec ExpanderProofs ExpanderProofs2 ExpanderProofs3 QuoteSpec QuoteProofs NestModel NestSpec NestProofs.

Section Static.
  Variables (user_marker : string -> bool) (has_attr : string -> string -> bool).
  Variables (filename : string) (unparse : ltree -> string) (idx : op -> nat) (others : nat -> mdef nat).
  Variables (unique : string -> string) (pickled : nat -> string).
  Variables (loc_text : ltree -> string) (cov_text : loc -> string -> string) (isexc : exn -> bool).
  Variable b : binds.
  Notation E := (nest_env user_marker has_attr filename unparse idx others unique pickled loc_text cov_text isexc).
  Notation qb := (quasi_only idx b).
  Notation opn := (meaning idx b).

  (** ** Bindings *)
  Lemma op_of_in i : In i (map idx ops) -> exists o, op_of idx i = Some o.
  Proof.
    intros H. unfold op_of. destruct (find _ ops) as [o|] eqn:F; [eauto|]. apply in_map_iff in H. destruct H as (o & <- & Ho).
    pose proof (find_none _ _ F o Ho) as H. cbn in H. rewrite Nat.eqb_refl in H. discriminate.
  Qed.
  Lemma qb_filter : qb = filter (fun p => existsb (fun o => Nat.eqb (snd p) (idx o)) ops) b.
  Proof.
    unfold quasi_only, extract_bindings. apply filter_ext. intros p. reflexivity.
  Qed.
  Lemma opn_bound x i : x <> ""%string -> isbound qb x = Some i -> exists o, op_of idx i = Some o /\ opn x = Some o.
  Proof.
    intros Hx H. unfold meaning. destruct (String.eqb_spec x ""); [contradiction|]. rewrite <- qb_filter. unfold isbound in H. destruct (find _ qb) as [p|] eqn:F; [|discriminate]. inversion H; subst i.
    apply find_some in F. destruct F as [F _]. unfold quasi_only, extract_bindings in F. apply filter_In in F. destruct F as [_ F]. apply existsb_exists in F. destruct F as (j & Hj & Hij). apply Nat.eqb_eq in Hij. subst j.
    destruct (op_of_in _ Hj) as [o Ho]. exists o. split; exact Ho.
  Qed.
  Lemma opn_some x o : opn x = Some o -> x <> ""%string /\ exists i, isbound qb x = Some i /\ op_of idx i = Some o.
  Proof.
    unfold meaning. destruct (String.eqb_spec x "") as [|Hx]; [discriminate|]. rewrite <- qb_filter. unfold isbound. destruct (find _ qb) as [p|]; [|discriminate]. intros H. split; [exact Hx|]. eauto.
  Qed.
  Lemma x_macro_op i o : op_of idx i = Some o -> x_macro E i = quasi_macro user_marker has_attr filename unparse idx others unique pickled o.
  Proof. intros H. unfold nest_env. cbn [x_macro]. rewrite H. reflexivity. Qed.
  Lemma bound_op i x : bound qb x i -> exists o, op_of idx i = Some o.
  Proof.
    intros H. apply isbound_iff in H. unfold isbound in H. destruct (find _ qb) as [p|] eqn:F; [|discriminate]. inversion H; subst i.
    apply find_some in F. destruct F as [F _]. unfold quasi_only, extract_bindings in F. apply filter_In in F. destruct F as [_ F]. apply existsb_exists in F. destruct F as (j & Hj & Hij). apply Nat.eqb_eq in Hij. subst j.
    apply op_of_in. exact Hj.
  Qed.
  Lemma names_iff c x args : names_macro E qb c x args <-> denotes c x args /\ args = [] /\ opn x <> None.
  Proof.
    split.
    - intros (H1 & H2 & i & H3 & H4). split; [exact H1|]. destruct (bound_op _ _ H3) as [o Ho]. destruct H4 as [->|H4].
      + split; [reflexivity|]. apply isbound_iff in H3. destruct (opn_bound _ _ H2 H3) as (o' & _ & Hn). rewrite Hn. discriminate.
      + rewrite (x_macro_op _ _ Ho) in H4. discriminate.
    - intros (H1 & -> & H2). destruct (opn x) as [o|] eqn:Ho; [|contradiction]. apply opn_some in Ho. destruct Ho as (Hx & i & Hi & _).
      split; [exact H1|]. split; [exact Hx|]. exists i. split; [apply isbound_iff; exact Hi|left; reflexivity].
  Qed.
  Lemma no_name_macro x i : bound qb x i -> m_isname (x_macro E i) = false.
  Proof. intros H. destruct (bound_op _ _ H) as [o Ho]. rewrite (x_macro_op _ _ Ho). reflexivity. Qed.

  (** ** Trees without invocations *)
  Definition sq (t : ltree) : Prop := shaped t /\ quiet E qb t.
  Lemma sq_at a : sq (At a).
  Proof. split; [intros u Hu|intros u x syn Hu]; inversion Hu; subst; [exact I|intros Hi; inversion Hi]. Qed.
  Lemma sq_ls l : (forall x, In x l -> sq x) -> sq (Ls l).
  Proof.
    intros H. split; [intros u Hu|intros u x syn Hu]; inversion Hu as [|? ? ? ? ? ? Hk Hin Hp|? v ? Hin Hp]; subst.
    - exact I.
    - exact (proj1 (H v Hin) u Hp).
    - intros Hi. inversion Hi.
    - exact (proj2 (H v Hin) u x syn Hp).
  Qed.
  Lemma sq_nd m k fs : node_ok (Nd m k fs) -> (forall x syn, ~ invokes E qb (Nd m k fs) x syn) -> (forall f v, In (f, v) fs -> sq v) -> sq (Nd m k fs).
  Proof.
    intros H1 H2 H. split; [intros u Hu|intros u x syn Hu]; inversion Hu as [|? ? ? f v ? Hk Hin Hp|]; subst; auto.
    - exact (proj1 (H f v Hin) u Hp).
    - exact (proj2 (H f v Hin) u x syn Hp).
  Qed.
  Lemma sq_done m fs : sq (Nd m "Done" fs).
  Proof.
    split; [intros u Hu|intros u x syn Hu]; inversion Hu as [|? ? ? f v ? Hk Hin Hp|]; subst; try (exfalso; apply Hk; reflexivity).
    - split; [|discriminate]. intros g Hg. cbn in Hg. repeat (destruct Hg as [Hg|Hg]; [discriminate|]). destruct Hg.
    - intros Hi. inversion Hi; subst. match goal with H : _ \/ _ |- _ => destruct H; discriminate end.
  Qed.
  Definition plain_kind (k : string) : Prop := ~ In k ["Name"; "Subscript"; "Tuple"; "Call"; "With"; "withitem"; "ClassDef"; "FunctionDef"]%string.
  Lemma sq_plain m k fs : plain_kind k -> (forall f v, In (f, v) fs -> sq v) -> sq (Nd m k fs).
  Proof.
    intros Hk H. apply sq_nd; [|intros x syn Hi|exact H].
    - split.
      + intros g Hg. exfalso. apply Hk. apply (in_map fst) in Hg. exact Hg.
      + intros ->. exfalso. apply Hk. cbn. auto 10.
    - apply Hk. inversion Hi; subst; cbn; auto 10. match goal with H : _ \/ _ |- _ => destruct H as [->| ->]; cbn; auto 10 end.
  Qed.
  Lemma sq_call m f args kws : sq f -> (forall x, In x args -> sq x) -> (forall x, In x kws -> sq x) ->
    sq (Nd m "Call" [("func"%string, f); ("args"%string, Ls args); ("keywords"%string, Ls kws)]).
  Proof.
    intros H1 H2 H3. apply sq_nd.
    - split; [|discriminate]. intros g Hg. cbn in Hg. repeat (destruct Hg as [Hg|Hg]; [inversion Hg; subst; repeat constructor; unfold has_field; cbn; eauto|]). destruct Hg.
    - intros x syn Hi. inversion Hi; subst. match goal with H : _ \/ _ |- _ => destruct H; discriminate end.
    - intros g v [Hin|[Hin|[Hin|[]]]]; inversion Hin; subst; [exact H1|apply sq_ls; exact H2|apply sq_ls; exact H3].
  Qed.
  Lemma sq_name m x : sq (Nd m "Name" [("id"%string, At (AStr x))]).
  Proof.
    apply sq_nd.
    - split; [|discriminate]. intros g Hg. cbn in Hg. repeat (destruct Hg as [Hg|Hg]; [inversion Hg; subst; repeat constructor; unfold has_field; cbn; eauto|]). destruct Hg.
    - intros y syn Hi. inversion Hi; subst; [match goal with H : _ \/ _ |- _ => destruct H; discriminate end|]. match goal with Hb : bound _ _ _, Hn : m_isname _ = true |- _ => rewrite (no_name_macro _ _ Hb) in Hn; discriminate end.
    - intros g v [Hin|[]]; inversion Hin; subst. apply sq_at.
  Qed.

  (** ** Trees whose markers hold finished code *)
  Definition clean (t : ltree) : Prop := sq t /\ nomark t = true.
  Inductive mok : ltree -> Prop :=
  | mok_at a : mok (At a)
  | mok_ls l : (forall x, In x l -> mok x) -> mok (Ls l)
  | mok_nd m k fs : is_quasi k = false -> (forall f v, In (f, v) fs -> mok v) -> mok (Nd m k fs)
  | mok_mark k body more : In k ["Unquote"; "LiftSourcecode"; "ASTLiteral"; "ASTList"; "ASTTuple"; "Capture"]%string -> clean body ->
      (more = [] \/ exists f s, more = [(f, At (AStr s))]) -> mok (Nd noloc k (("body"%string, body) :: more)).
  Lemma nomark_mok t : nomark t = true -> mok t.
  Proof.
    induction t as [m k fs IH|l IH|a] using tree_ind2; intros H.
    - apply nomark_node in H. destruct H as (H1 & _ & H3). apply mok_nd; [exact H1|]. intros f v Hin. rewrite Forall_forall in IH. exact (proj1 (IH _ Hin) (H3 _ _ Hin)).
    - apply mok_ls. cbn [nomark] in H. rewrite forallb_forall in H. rewrite Forall_forall in IH. auto.
    - apply mok_at.
  Qed.

  (** ** The code for a quote *)
  Lemma of_to_pv t : of_pv (to_pv t) = t.
  Proof.
    induction t as [m k fs IH|l IH|a] using tree_ind'; cbn [to_pv of_pv].
    - f_equal. rewrite map_map. rewrite <- (map_id fs) at 2. apply map_ext_in. intros [f v] Hin. rewrite Forall_forall in IH. f_equal. exact (proj1 (IH _ Hin)) || exact (IH _ Hin).
    - f_equal. rewrite map_map. rewrite <- (map_id l) at 2. apply map_ext_in. intros x Hin. rewrite Forall_forall in IH. exact (proj1 (IH _ Hin)) || exact (IH _ Hin).
    - reflexivity.
  Qed.

  Ltac plain := intros Hin; cbn in Hin; repeat (destruct Hin as [Hin|Hin]; [discriminate|]); destruct Hin.
  Lemma clean_at a : clean (At a).
  Proof. split; [apply sq_at|reflexivity]. Qed.
  Lemma clean_ls l : (forall x, In x l -> clean x) -> clean (Ls l).
  Proof. intros H. split; [apply sq_ls; intros x Hx; exact (proj1 (H x Hx))|]. cbn [nomark]. apply forallb_forall. intros x Hx. exact (proj2 (H x Hx)). Qed.
  Lemma clean_plain m k fs : plain_kind k -> is_quasi k = false -> k <> "Done"%string -> (forall f v, In (f, v) fs -> clean v) -> clean (Nd m k fs).
  Proof. intros H1 H2 H3 H. split; [apply sq_plain; [exact H1|]|apply nomark_intro; [exact H2|exact H3|]]; intros f v Hin; apply (H f v Hin). Qed.
  Lemma clean_call m f args kws : clean f -> (forall x, In x args -> clean x) -> (forall x, In x kws -> clean x) ->
    clean (Nd m "Call" [("func"%string, f); ("args"%string, Ls args); ("keywords"%string, Ls kws)]).
  Proof.
    intros H1 H2 H3. split; [apply sq_call; [apply H1|intros x Hx; apply H2; exact Hx|intros x Hx; apply H3; exact Hx]|]. apply nomark_intro; [reflexivity|discriminate|].
    intros g v [Hin|[Hin|[Hin|[]]]]; inversion Hin; subst; [apply H1|apply (clean_ls args H2)|apply (clean_ls kws H3)].
  Qed.
  Lemma clean_name m x : clean (Nd m "Name" [("id"%string, At (AStr x))]).
  Proof. split; [apply sq_name|reflexivity]. Qed.
  Lemma clean_attr m v a : clean v -> clean (Nd m "Attribute" [("value"%string, v); ("attr"%string, At (AStr a))]).
  Proof. intros H. apply clean_plain; [plain|reflexivity|discriminate|]. intros f w [Hin|[Hin|[]]]; inversion Hin; subst; [exact H|apply clean_at]. Qed.
  Lemma clean_quotes a : clean (of_pv (quotes_attr a)).
  Proof. cbn. apply clean_attr, clean_attr, clean_name. Qed.
  Lemma clean_const a : clean (of_pv (p_const (PA a))).
  Proof. cbn. apply clean_plain; [plain|reflexivity|discriminate|]. intros f w [Hin|[]]; inversion Hin; subst. apply clean_at. Qed.
  Lemma clean_kw f c : clean (of_pv c) -> clean (of_pv (p_kw f c)).
  Proof. intros H. cbn. apply clean_plain; [plain|reflexivity|discriminate|]. intros g w [Hin|[Hin|[]]]; inversion Hin; subst; [apply clean_at|exact H]. Qed.
  Lemma clean_pcall m g args kws : clean (of_pv g) -> (forall x, In x args -> clean (of_pv x)) -> (forall x, In x kws -> clean (of_pv x)) ->
    clean (of_pv (PN m "Call" [("func"%string, g); ("args"%string, PL args); ("keywords"%string, PL kws)])).
  Proof.
    intros H1 H2 H3. cbn. apply clean_call; [exact H1|intros x Hx; apply in_map_iff in Hx; destruct Hx as (y & <- & Hy); auto ..].
  Qed.
  Lemma mapr_clean {A} (f : A -> res pv) l l' : (forall x c, In x l -> f x = Ok c -> clean (of_pv c)) -> mapr f l = Ok l' -> forall c, In c l' -> clean (of_pv c).
  Proof.
    revert l'. induction l as [|x l IH]; intros l' H Hm; cbn [mapr] in Hm; [inversion Hm; subst; intros c []|].
    destruct (f x) as [y|] eqn:Hf; [|discriminate]. destruct (mapr f l) as [ys|] eqn:Hr; [|discriminate]. inversion Hm; subst. intros c [<-|Hc].
    - exact (H x y (or_introl eq_refl) Hf).
    - eapply IH; [|reflexivity|exact Hc]. intros z d Hz. exact (H z d (or_intror Hz)).
  Qed.

  Lemma astify_clean cm y : (forall x r, cm x = Some (Ok r) -> clean (of_pv r)) -> mok y -> forall c, astify user_marker has_attr cm (to_pv y) = Ok c -> clean (of_pv c).
  Proof.
    intros Hcm. induction y as [m k fs IH|l IH|a] using tree_ind2; intros Hy c Hc.
    - inversion Hy as [| |m' k' fs' Hq Hf|k' body more Hk Hb Hmore]; subst.
      + assert (Hform : exists g m0 cs, c = PN m0 "Call" [("func"%string, g); ("args"%string, PL []); ("keywords"%string, PL cs)] /\ clean (of_pv g) /\
            astify_fields user_marker has_attr cm (map (fun p : string * ltree => let (f, v) := p in (f, to_pv v)) fs) = Ok cs).
        { clear IH. cbn [to_pv] in Hc. destruct (String.eqb_spec k "Done") as [->|Hd].
          - rewrite astify_done in Hc. destruct (astify_fields _ _ cm _) as [cs|]; [|discriminate]. inversion Hc; subst. eexists _, _, _. split; [reflexivity|]. split; [apply clean_quotes|reflexivity].
          - destruct (is_marker user_marker k) eqn:Hm.
            + exfalso. cbn [astify] in Hc. rewrite (not_quasi_call _ _ _ Hq), Hm in Hc. apply String.eqb_neq in Hd. rewrite Hd in Hc. discriminate.
            + rewrite (astify_node (fun _ => true) (fun _ => true) user_marker has_attr (fun _ => Ok (PA ANone)) cm m k _ Hm) in Hc. destruct (astify_fields _ _ cm _) as [cs|]; [|discriminate]. inversion Hc; subst. eexists _, _, _. split; [reflexivity|]. split; [|reflexivity].
              cbn [of_pv p_attr nd map]. apply clean_attr. apply clean_quotes. }
        destruct Hform as (g & m0 & cs & -> & Hg & Hcs). apply clean_pcall; [exact Hg|intros x []|]. clear Hc Hy. revert cs Hcs.
        induction fs as [|[f v] fs IHf]; intros cs Hcs; cbn [map astify_fields] in Hcs; [inversion Hcs; subst; intros d []|].
        inversion IH as [|? ? [Hv _] HIH]; subst. cbn [snd] in Hv. destruct (astify _ _ cm (to_pv v)) as [cv|] eqn:Ev; [|discriminate].
        destruct (astify_fields _ _ cm _) as [cs'|] eqn:Er; [|discriminate]. inversion Hcs; subst. intros d [<-|Hd].
        * apply clean_kw. apply Hv; [exact (Hf f v (or_introl eq_refl))|reflexivity].
        * eapply IHf; [exact HIH|intros f' w Hw; exact (Hf f' w (or_intror Hw))|reflexivity|exact Hd].
      + assert (Hbody : clean (of_pv (to_pv body))) by (rewrite of_to_pv; exact Hb).
        assert (H1 : forall g, clean (of_pv (p_call (quotes_attr g) [to_pv body] []))).
        { intros g. apply clean_pcall; [apply clean_quotes|intros x [<-|[]]; exact Hbody|intros x []]. }
        assert (H2 : forall g a, clean (of_pv (p_call (quotes_attr g) [to_pv body; p_const (PA a)] []))).
        { intros g a. apply clean_pcall; [apply clean_quotes|intros x [<-|[<-|[]]]; [exact Hbody|apply clean_const]|intros x []]. }
        assert (Hm : forall a, exists r, (if String.eqb k "Unquote" then Some (Ok (p_call (quotes_attr "astify") [to_pv body] []))
          else if String.eqb k "LiftSourcecode" then Some (Ok (p_call (quotes_attr "lift_sourcecode") [to_pv body; p_const (PA a)] []))
          else if String.eqb k "ASTLiteral" then Some (Ok (p_call (quotes_attr "ast_literal") [to_pv body; p_const (PA a)] []))
          else if String.eqb k "ASTList" then Some (Ok (p_call (quotes_attr "ast_list") [to_pv body] []))
          else if String.eqb k "ASTTuple" then Some (Ok (p_call (quotes_attr "ast_tuple") [to_pv body] []))
          else if String.eqb k "Capture" then
            Some (match (match to_pv body with PN _ kb ((_, PA (AStr s)) :: _) => if String.eqb kb "Name" then cm s else None | _ => None end) with
                  | Some r => r
                  | None => Ok (p_call (quotes_attr "capture_value") [to_pv body; p_const (PA a)] [])
                  end)
          else None) = Some r /\ (r = Ok c -> clean (of_pv c))).
        { intros a. cbn in Hk. destruct Hk as [<-|[<-|[<-|[<-|[<-|[<-|[]]]]]]]; (eexists; split; [reflexivity|]; intros Hr).
          6: { destruct (match to_pv body with PN _ _ _ => _ | _ => None end) as [r|] eqn:Em; [|inversion Hr; subst; apply H2]. subst r.
               destruct (to_pv body) as [| | | | |mb kb [|[fb [[]| | | | |]] restb]]; try discriminate. destruct (String.eqb kb "Name"); try discriminate. eapply Hcm; exact Em. }
          all: inversion Hr; subst; first [apply H1|apply H2]. }
        cbn [to_pv map] in Hc. destruct Hmore as [->|(f & s & ->)]; cbn [map to_pv] in Hc.
        * destruct (Hm ANone) as (r & Er & Hr). cbn [astify] in Hc. unfold marker_call in Hc. cbv zeta in Hc. cbv beta iota in Hc. rewrite Er in Hc. exact (Hr Hc).
        * destruct (Hm (AStr s)) as (r & Er & Hr). cbn [astify] in Hc. unfold marker_call in Hc. cbv zeta in Hc. cbv beta iota in Hc. rewrite Er in Hc. exact (Hr Hc).
    - cbn [to_pv astify] in Hc. destruct (mapr _ (map to_pv l)) as [l'|] eqn:Em; [|discriminate]. inversion Hc; subst. cbn. apply clean_plain; [plain|reflexivity|discriminate|].
      intros f v [Hin|[]]; inversion Hin; subst. apply clean_ls. intros x Hx. apply in_map_iff in Hx. destruct Hx as (z & <- & Hz). inversion Hy as [|? Hl| |]; subst.
      refine (mapr_clean _ _ _ _ Em z Hz). intros w d Hw Hd. apply in_map_iff in Hw. destruct Hw as (t & <- & Ht). rewrite Forall_forall in IH. exact (IH t Ht (Hl t Ht) d Hd).
    - cbn [to_pv astify] in Hc. destruct (liftable a); [|discriminate]. inversion Hc; subst. apply clean_const.
  Qed.
  Lemma captures_clean b' x r : captures_in unique pickled b' x = Some (Ok r) -> clean (of_pv r).
  Proof.
    unfold captures_in. destruct (isbound b' x) as [i|]; [|discriminate]. intros H. inversion H; subst. apply clean_pcall; [apply clean_quotes| |intros y []].
    intros y [<-|[]]. cbn [of_pv nd map]. split.
    - apply sq_nd.
      + split; [|discriminate]. intros g Hg. cbn in Hg. repeat (destruct Hg as [Hg|Hg]; [inversion Hg; subst; repeat constructor; unfold has_field; cbn; eauto|]). destruct Hg.
      + intros z syn Hi. inversion Hi; subst. match goal with H : _ \/ _ |- _ => destruct H; discriminate end.
      + intros f v [Hin|[]]; inversion Hin; subst. apply sq_ls. intros z [<-|[<-|[<-|[]]]]; apply (clean_const (AStr _)) || apply (clean_const (ABytes _)).
    - reflexivity.
  Qed.
  (** What a quote is compiled to: a call of an attribute, with nothing left to expand. *)
  Definition code (b' : binds) (t : ltree) : option ltree :=
    match QuoteModel.q user_marker has_attr (captures_in unique pickled b') filename (to_pv t) with Ok c => Some (of_pv c) | Err _ => None end.
  Lemma code_clean b' t c : mok t -> code b' t = Some c -> clean c /\ exists m fs ma fa, c = Nd m "Call" fs /\ getf "func" fs = Some (Nd ma "Attribute" fa).
  Proof.
    intros Hm H. unfold code, QuoteModel.q in H. destruct (astify _ _ _ (to_pv t)) as [x|] eqn:Ea; [|discriminate]. destruct (has_marker_top _ x); [discriminate|].
    assert (Hc : c = of_pv (p_call (quotes_attr "splice_ast_literals") [x; p_const (str filename)] [])) by (symmetry; exact (f_equal (fun o => match o with Some z => z | None => c end) H)). subst c. clear H. split.
    - apply clean_pcall; [apply clean_quotes| |intros y []]. intros y [<-|[<-|[]]]; [|apply clean_const]. eapply astify_clean; [apply captures_clean|exact Hm|exact Ea].
    - cbn. eexists _, _, _, _. split; reflexivity.
  Qed.
End Static.
