(** The outermost quote, for C55. *)
From Verif Require Import Base AstLib UtilsModel FixLocModel MarkersModel QuoteModel ExpanderModel ExpanderSpec ExpanderProofs ExpanderProofs2 ExpanderProofs3 QuoteSpec QuoteSpec2 QuoteProofs QuoteProofs2 QuoteProofs3 NestModel NestSpec NestProofs NestProofs2 NestProofs3 NestProofs4 NestProofs5 NestProofs6 NestProofs7 NestProofs8 NestProofs9.

Section Main.
  Variables (user_marker : string -> bool) (has_attr : string -> string -> bool).
  Variables (filename : string) (unparse : ltree -> string) (idx : op -> nat) (others : nat -> mdef nat).
  Variables (unique : string -> string) (pickled : nat -> string).
  Variables (loc_text : ltree -> string) (cov_text : loc -> string -> string) (isexc : exn -> bool).
  Variable b : binds.
  Notation E := (nest_env user_marker has_attr filename unparse idx others unique pickled loc_text cov_text isexc).
  Notation qb := (quasi_only idx b).
  Notation opn := (meaning idx b).
  Notation sq := (sq user_marker has_attr filename unparse idx others unique pickled loc_text cov_text isexc b).
  Notation clean := (clean user_marker has_attr filename unparse idx others unique pickled loc_text cov_text isexc b).
  Notation mok := (mok user_marker has_attr filename unparse idx others unique pickled loc_text cov_text isexc b).
  Notation code := (code user_marker has_attr filename unique pickled).
  Notation quasi_macro := (quasi_macro user_marker has_attr filename unparse idx others unique pickled).
  Notation compile := (compile user_marker has_attr filename unique pickled).
  Notation nest := (nest opn (code qb) filename unparse cov_text).
  Notation nest_items := (nest_items opn (code qb) filename unparse cov_text).
  Notation source := (source opn).
  Notation st lv log := (mkSt qb true lv log).
  Notation good := (good user_marker has_attr filename unparse idx others unique pickled loc_text cov_text isexc b).
  Notation outcome := (outcome user_marker has_attr filename unparse idx others unique pickled loc_text cov_text isexc b).
  Notation main := (main user_marker has_attr filename unparse idx others unique pickled loc_text cov_text isexc b).
  Hypothesis Hqb : qb <> [].


  (** [q], called at level 0 by an expander with the bindings [b]. *)
  Lemma run_q_top i rec log r log' : in_syntax i = "expr"%string \/ in_syntax i = "block"%string ->
    ev (fun n => visit E n (in_tree i) (st 1 ((log ++ [EUse HRec]) ++ [EMode true])) = Some (r, st 1 log')) ->
    ev (fun n => run (visit E n) n (q_prog user_marker has_attr filename idx unique pickled i) (mkSt b rec 0 log) =
      Some (match r with XRaise e => XRaise e | XOk t => compile b (in_syntax i) (in_vars i) t end, mkSt b rec 0 (log' ++ [EModeEnd]))).
  Proof.
    intros Hs H. apply (ev_big _ 20). refine (ev_impl _ _ H _). intros n Hn Hk. rewrite run_q by exact Hk.
    assert (Hsyn : String.eqb (in_syntax i) "expr" || String.eqb (in_syntax i) "block" = true) by (destruct Hs as [-> | ->]; reflexivity). rewrite Hsyn.
    unfold q_outcome. cbn [s_b s_rec s_u s_log]. cbn [call_expander]. unfold with_mode, logged. cbn [s_b s_rec s_u s_log]. rewrite Hn. cbn [s_b s_rec s_u s_log]. destruct r; reflexivity.
  Qed.
  Lemma source_all_main l : Forall (fun x => is_node x = true) l -> Forall source l -> Forall (fun x => main x) l.
  Proof. intros H1 H2. rewrite Forall_forall in *. intros x Hx. apply main_all; auto. Qed.

  Lemma q_expr t args vars target rec log : is_node t = true -> source t -> exists r log',
    ev (fun n => run (visit E n) n (q_prog user_marker has_attr filename idx unique pickled (mkIn "expr" t args vars target)) (mkSt b rec 0 log) = Some (r, mkSt b rec 0 log')) /\
    match nest 1 t with
    | Some l => match code b (pack l) with Some c => r = XOk c | None => exists e, r = XRaise e end
    | None => exists e, r = XRaise e
    end.
  Proof.
    intros Hn Hs. destruct (main_all user_marker has_attr filename unparse idx others unique pickled loc_text cov_text isexc b Hqb t Hn Hs 1 ((log ++ [EUse HRec]) ++ [EMode true])) as (r & log' & V & O).
    pose proof (run_q_top (mkIn "expr" t args vars target) rec log r log' (or_introl eq_refl) V) as R. eexists _, _. split; [exact R|]. unfold NestProofs5.outcome in O.
    destruct (nest 1 t) as [l|]; [|destruct O as (e & ->); eauto]. destruct O as (l' & -> & G). pose proof (good_nodes _ _ _ _ _ _ _ _ _ _ _ _ _ _ _ _ G) as Gn. destruct G as (_ & G2 & _).
    pose proof (compile_code user_marker has_attr filename unique pickled b "expr" vars (pack l') (pack l) (del_pack _ _ G2 Gn)) as C. cbn [in_syntax in_vars].
    destruct (code b (pack l)) as [c|]; [exact C|exact C].
  Qed.
  Lemma q_block l args vars target rec log : l <> [] -> Forall (fun x => is_node x = true) l -> Forall source l -> exists r log',
    ev (fun n => run (visit E n) n (q_prog user_marker has_attr filename idx unique pickled (mkIn "block" (Ls l) args vars target)) (mkSt b rec 0 log) = Some (r, mkSt b rec 0 log')) /\
    match nest_items 1 l with
    | Some l1 => match code b (Ls l1), vars with
                 | Some c, Some v => if is_kind "Name" v then r = XOk (Nd noloc "Assign" [("targets"%string, Ls [v]); ("value"%string, c)]) else r = XRaise syntax_error
                 | Some _, None => r = XRaise syntax_error
                 | None, _ => exists e, r = XRaise e
                 end
    | None => exists e, r = XRaise e
    end.
  Proof.
    intros Hne Hn Hs. destruct (block_ok user_marker has_attr filename unparse idx others unique pickled loc_text cov_text isexc b Hqb l (source_all_main l Hn Hs) Hn Hne 1 ((log ++ [EUse HRec]) ++ [EMode true])) as (r & log' & V & O).
    pose proof (run_q_top (mkIn "block" (Ls l) args vars target) rec log r log' (or_intror eq_refl) V) as R. eexists _, _. split; [exact R|].
    destruct (nest_items 1 l) as [a|]; [|destruct O as (e & ->); eauto]. destruct O as (ll & -> & _ & Hcl & (_ & L2 & _)).
    pose proof (compile_code user_marker has_attr filename unique pickled b "block" vars (Ls (concat ll)) (Ls a) (del_ls _ _ L2 Hcl)) as C. cbn [in_syntax in_vars].
    destruct (code b (Ls a)) as [c|]; [|exact C]. cbn in C. rewrite C. destruct vars as [[m k fs| |]|]; cbn [is_kind]; try reflexivity. destruct (String.eqb k "Name"); reflexivity.
  Qed.
End Main.

(** ** Quotes without unquotes that reach outside *)
Lemma setf_same {M} f (v : tree M) fs : getf f fs = Some v -> setf f v fs = fs.
Proof.
  induction fs as [|[g w] fs IH]; cbn [getf setf]; [discriminate|]. destruct (String.eqb_spec f g) as [->|].
  - intros H. inversion H; subst. reflexivity.
  - intros H. f_equal. apply IH. exact H.
Qed.

(** ** The code is a tree *)
Lemma map_fields_id fs : (forall f v, In (f, v) fs -> to_pv (of_pv v) = v) ->
  map (fun p : string * ltree => let (f, v) := p in (f, to_pv v)) (map (fun p : string * pv => let (f, v) := p in (f, of_pv v)) fs) = fs.
Proof. intros H. rewrite map_map. rewrite <- (map_id fs) at 2. apply map_ext_in. intros [f v] Hin. f_equal. exact (H f v Hin). Qed.
Lemma map_list_id l : (forall v, In v l -> to_pv (of_pv v) = v) -> map to_pv (map of_pv l) = l.
Proof. intros H. rewrite map_map. rewrite <- (map_id l) at 2. apply map_ext_in. exact H. Qed.
Lemma tp_nd m k fs : (forall f v, In (f, v) fs -> to_pv (of_pv v) = v) -> to_pv (of_pv (PN m k fs)) = PN m k fs.
Proof. intros H. cbn [of_pv to_pv]. f_equal. apply map_fields_id. exact H. Qed.
Lemma tp_pl l : (forall v, In v l -> to_pv (of_pv v) = v) -> to_pv (of_pv (PL l)) = PL l.
Proof. intros H. cbn [of_pv to_pv]. f_equal. apply map_list_id. exact H. Qed.
Lemma tp_call m g args kws : to_pv (of_pv g) = g -> (forall v, In v args -> to_pv (of_pv v) = v) -> (forall v, In v kws -> to_pv (of_pv v) = v) ->
  to_pv (of_pv (PN m "Call" [("func"%string, g); ("args"%string, PL args); ("keywords"%string, PL kws)])) = PN m "Call" [("func"%string, g); ("args"%string, PL args); ("keywords"%string, PL kws)].
Proof. intros H1 H2 H3. apply tp_nd. intros f v [H|[H|[H|[]]]]; inversion H; subst; [exact H1|apply tp_pl; exact H2|apply tp_pl; exact H3]. Qed.
Lemma tp_mapr {A} (f : A -> res pv) l l' : (forall x c, In x l -> f x = Ok c -> to_pv (of_pv c) = c) -> mapr f l = Ok l' -> forall c, In c l' -> to_pv (of_pv c) = c.
Proof.
  revert l'. induction l as [|x l IH]; intros l' H Hm; cbn [mapr] in Hm; [inversion Hm; subst; intros c []|].
  destruct (f x) as [y|] eqn:Hf; [|discriminate]. destruct (mapr f l) as [ys|] eqn:Hr; [|discriminate]. inversion Hm; subst. intros c [<-|Hc].
  - exact (H x y (or_introl eq_refl) Hf).
  - eapply IH; [|reflexivity|exact Hc]. intros z d Hz. exact (H z d (or_intror Hz)).
Qed.
Section Tp.
  Variables (user_marker : string -> bool) (has_attr : string -> string -> bool).
  Lemma astify_tp cm y : (forall x r, cm x = Some (Ok r) -> to_pv (of_pv r) = r) -> forall c, astify user_marker has_attr cm (to_pv y) = Ok c -> to_pv (of_pv c) = c.
  Proof.
    intros Hcm. induction y as [m k fs IH|l IH|a] using tree_ind2; intros c Hc.
    - cbn [to_pv] in Hc. set (gs := map (fun p : string * ltree => let (f, v) := p in (f, to_pv v)) fs) in *.
      assert (Hgs : forall f v, In (f, v) gs -> to_pv (of_pv v) = v).
      { intros f v Hin. apply in_map_iff in Hin. destruct Hin as ([f' v'] & Hp & _). inversion Hp; subst. rewrite of_to_pv. reflexivity. }
      destruct (marker_call cm k gs) as [r|] eqn:Hm.
      + cbn [astify] in Hc. rewrite Hm in Hc. subst r. unfold marker_call in Hm. cbv zeta in Hm.
        assert (Hb : forall bd sd, bd = match gs with (_, x) :: _ => x | [] => PA ANone end -> sd = match gs with _ :: (_, x) :: _ => x | _ => PA ANone end ->
                  to_pv (of_pv bd) = bd /\ to_pv (of_pv (p_const sd)) = p_const sd).
        { intros bd sd -> ->. split; [destruct gs as [|[f x] gs']; [reflexivity|exact (Hgs f x (or_introl eq_refl))]|]. apply tp_nd. intros f v [Hin|[]]. inversion Hin; subst.
          destruct gs as [|p [|[f' x] gs']]; [reflexivity ..|]. exact (Hgs f' x (or_intror (or_introl eq_refl))). }
        destruct (Hb _ _ eq_refl eq_refl) as [Hb1 Hb2]. set (bd := match gs with (_, x) :: _ => x | [] => PA ANone end) in *. set (sd := match gs with _ :: (_, x) :: _ => x | _ => PA ANone end) in *.
        assert (H1 : forall g, to_pv (of_pv (p_call (quotes_attr g) [bd] [])) = p_call (quotes_attr g) [bd] []).
        { intros g. apply tp_call; [reflexivity|intros v [<-|[]]; exact Hb1|intros v []]. }
        assert (H2 : forall g, to_pv (of_pv (p_call (quotes_attr g) [bd; p_const sd] [])) = p_call (quotes_attr g) [bd; p_const sd] []).
        { intros g. apply tp_call; [reflexivity|intros v [<-|[<-|[]]]; [exact Hb1|exact Hb2]|intros v []]. }
        repeat (match type of Hm with (if ?x then _ else _) = _ => destruct x end; [try (inversion Hm; subst; first [apply H1|apply H2])|]); [|discriminate].
        destruct (match bd with PN _ _ _ => _ | _ => None end) as [r|] eqn:Em; [|inversion Hm; subst; apply H2]. inversion Hm; subst r.
        destruct bd as [| | | | |mb kb [|[fb [[]| | | | |]] restb]]; try discriminate. destruct (String.eqb kb "Name"); try discriminate. eapply Hcm; exact Em.
      + assert (Hform : exists g m0 cs, c = PN m0 "Call" [("func"%string, g); ("args"%string, PL []); ("keywords"%string, PL cs)] /\ to_pv (of_pv g) = g /\ astify_fields user_marker has_attr cm gs = Ok cs).
        { cbn [astify] in Hc. rewrite Hm in Hc. fold (astify_fields user_marker has_attr cm) in Hc. destruct (String.eqb k "Done").
          - destruct (astify_fields _ _ cm gs) as [cs|]; [|discriminate]. inversion Hc; subst. eexists _, _, _. split; [reflexivity|]. split; reflexivity.
          - destruct (is_marker user_marker k); [discriminate|]. destruct (astify_fields _ _ cm gs) as [cs|]; [|discriminate]. inversion Hc; subst. eexists _, _, _. split; [reflexivity|]. split; reflexivity. }
        destruct Hform as (g & m0 & cs & -> & Hg & Hcs). apply tp_call; [exact Hg|intros v []|]. clear Hc Hm Hgs Hg. subst gs. revert cs Hcs.
        induction fs as [|[f v] fs IHf]; intros cs Hcs; cbn [map astify_fields] in Hcs; [inversion Hcs; subst; intros d []|].
        inversion IH as [|? ? [Hv _] HIH]; subst. cbn [snd] in Hv. destruct (astify _ _ cm (to_pv v)) as [cv|] eqn:Ev; [|discriminate].
        destruct (astify_fields _ _ cm _) as [cs'|] eqn:Er; [|discriminate]. inversion Hcs; subst. intros d [<-|Hd].
        * apply tp_nd. intros f0 v0 [H|[H|[]]]; inversion H; subst; [reflexivity|]. apply Hv. reflexivity.
        * eapply IHf; [exact HIH|reflexivity|exact Hd].
    - cbn [to_pv astify] in Hc. destruct (mapr _ (map to_pv l)) as [l'|] eqn:Em; [|discriminate]. inversion Hc; subst. apply tp_nd. intros f v [H|[]]; inversion H; subst. apply tp_pl.
      refine (tp_mapr _ _ _ _ Em). intros w d Hw Hd. apply in_map_iff in Hw. destruct Hw as (t & <- & Ht). rewrite Forall_forall in IH. exact (IH t Ht d Hd).
    - cbn [to_pv astify] in Hc. destruct (liftable a); [|discriminate]. inversion Hc; subst. reflexivity.
  Qed.
  Lemma q_tp unique pickled b fn t c : QuoteModel.q user_marker has_attr (captures_in unique pickled b) fn (to_pv t) = Ok c -> to_pv (of_pv c) = c.
  Proof.
    unfold QuoteModel.q. destruct (astify _ _ _ (to_pv t)) as [x|] eqn:Ea; [|discriminate]. destruct (has_marker_top _ x); [discriminate|]. intros H. inversion H; subst. apply tp_call; [reflexivity| |intros v []].
    intros v [<-|[<-|[]]]; [|reflexivity]. refine (astify_tp _ _ _ _ Ea). intros z r. unfold captures_in. destruct (isbound b z); [|discriminate]. intros Hr. inversion Hr; subst. reflexivity.
  Qed.
End Tp.
