(** The second expander computes [nest]: invocations and the induction, for C55. *)
From Verif Require Import Base AstLib UtilsModel FixLocModel MarkersModel QuoteModel ExpanderModel ExpanderSpec ExpanderProofs ExpanderProofs2 ExpanderProofs3 QuoteSpec QuoteProofs NestModel NestSpec NestProofs NestProofs2 NestProofs3 NestProofs4 NestProofs5.

Lemma part_field m k fs f v : k <> "Done"%string -> In (f, v) fs -> part (Nd m k fs) v.
Proof. intros H1 H2. eapply pt_field; [exact H1|exact H2|constructor]. Qed.
Lemma source_sub opn t u : source opn t -> part t u -> source opn u.
Proof. intros [H1 H2] Hp. split; [exact (shaped_part _ _ H1 Hp)|]. intros w Hw. apply H2. eapply part_trans; eassumption. Qed.
Lemma source_nomark opn t : source opn t -> nomark t = true.
Proof.
  induction t as [m k fs IH|l IH|a] using tree_ind2; intros H.
  - pose proof (proj2 H _ (pt_refl _)) as (N1 & N2 & _). apply nomark_intro; [exact N2|exact N1|]. intros f v Hin. rewrite Forall_forall in IH. apply (IH _ Hin). apply (source_sub _ _ _ H). apply (part_field _ _ _ _ _ N1 Hin).
  - cbn [nomark]. apply forallb_forall. intros x Hx. rewrite Forall_forall in IH. apply IH; [exact Hx|]. apply (source_sub _ _ _ H). eapply pt_elem; [exact Hx|constructor].
  - reflexivity.
Qed.
Lemma source_fields opn m k fs : source opn (Nd m k fs) -> k <> "Done"%string /\ is_quasi k = false /\ (forall f v, In (f, v) fs -> source opn v /\ nomark v = true /\ vl v v).
Proof.
  intros H. pose proof (proj2 H _ (pt_refl _)) as (N1 & N2 & N3 & _). split; [exact N1|]. split; [exact N2|]. intros f v Hin.
  assert (Hs : source opn v) by (apply (source_sub _ _ _ H), (part_field _ _ _ _ _ N1 Hin)). pose proof (source_nomark _ _ Hs) as Hn. split; [exact Hs|]. split; [exact Hn|].
  destruct v as [m' k' fs'|l|a]; [left; apply nomark_dl; [exact Hn|reflexivity]| |left; right; eauto].
  right. exists l, l. split; [reflexivity|]. split; [reflexivity|]. rewrite Forall_forall in N3. specialize (N3 _ Hin). cbn [snd] in N3. cbn [nomark] in Hn. rewrite forallb_forall in Hn. clear Hs Hin H.
  induction l as [|x l IH]; [constructor|]. inversion N3; subst. constructor; [apply nomark_dl; [apply Hn; left; reflexivity|assumption]|]. apply IH; [assumption|]. intros y Hy. apply Hn. right. exact Hy.
Qed.

Section Main.
  Variables (user_marker : string -> bool) (has_attr : string -> string -> bool).
  Variables (filename : string) (unparse : ltree -> string) (idx : op -> nat) (others : nat -> mdef nat).
  Variables (unique : string -> string) (pickled : nat -> string).
  Variables (loc_text : ltree -> string) (cov_text : loc -> string -> string) (isexc : exn -> bool).
  Variable b : binds.
  Notation E := (nest_env user_marker has_attr filename unparse idx others unique pickled loc_text cov_text isexc).
  Notation qb := (quasi_only idx b).
  Notation opn := (meaning idx b).
  Notation sq := (sq user_marker has_attr filename unparse idx others unique pickled loc_text cov_text isexc b).
  Notation clean := (clean user_marker has_attr filename unparse idx others unique pickled loc_text cov_text isexc b).
  Notation mok := (mok user_marker has_attr filename unparse idx others unique pickled loc_text cov_text isexc b).
  Notation code := (code user_marker has_attr filename unique pickled).
  Notation quasi_macro := (quasi_macro user_marker has_attr filename unparse idx others unique pickled).
  Notation compile := (compile user_marker has_attr filename unique pickled).
  Notation nest := (nest opn (code qb) filename unparse cov_text).
  Notation nest_items := (nest_items opn (code qb) filename unparse cov_text).
  Notation source := (source opn).
  Notation st lv log := (mkSt qb true lv log).
  Notation good := (good user_marker has_attr filename unparse idx others unique pickled loc_text cov_text isexc b).
  Notation outcome := (outcome user_marker has_attr filename unparse idx others unique pickled loc_text cov_text isexc b).
  Notation main := (main user_marker has_attr filename unparse idx others unique pickled loc_text cov_text isexc b).
  Hypothesis Hqb : qb <> [].

  Lemma qb_idem : quasi_only idx qb = qb.
  Proof.
    clear Hqb. unfold quasi_only at 1. unfold extract_bindings. unfold quasi_only, extract_bindings. induction b as [|p r IH]; [reflexivity|]. cbn [filter].
    destruct (existsb _ _) eqn:H; [|exact IH]. cbn [filter]. rewrite H. f_equal. exact IH.
  Qed.
  Lemma qb_op x i : isbound qb x = Some i -> exists o, op_of idx i = Some o.
  Proof. intros H. apply isbound_iff in H. exact (bound_op idx b _ _ H). Qed.
  Lemma no_name_macro_q t : is_name_macro idx others qb t = false.
  Proof.
    unfold is_name_macro. destruct t as [m k fs| |]; try reflexivity. destruct (String.eqb k "Name"); [|reflexivity]. cbn [andb]. destruct (str_attr "id" fs) as [x|]; [|reflexivity].
    destruct (isbound qb x) as [i|] eqn:Hi; [|reflexivity]. destruct (qb_op _ _ Hi) as [o ->]. reflexivity.
  Qed.

  (** ** Calls *)
  Lemma expand_ok o x j i lv log v log1 : isbound qb x = Some j -> op_of idx j = Some o ->
    ev (fun n => run (visit E n) n (m_run (quasi_macro o) i) (st lv (log ++ [ECall x i true])) = Some (XOk v, st lv log1)) ->
    is_node v = true -> sq v -> exists log2, ev (fun n => expand E n (visit E n) x i (st lv log) = Some (XOk v, st lv log2)).
  Proof.
    intros Hj Ho Hr Hv [Hs Hq]. eexists. destruct (quiet_same E (st lv (log1 ++ [ERet (XOk v)])) v Hs Hq Hv) as [n0 Hn0].
    assert (Hev : ev (fun n => visit E n v (st lv (log1 ++ [ERet (XOk v)])) = Some (XOk v, st lv (log1 ++ [ERet (XOk v)])))).
    { exists n0. intros n Hn. exact (visit_mono_le E n0 n v Hn _ _ Hn0). }
    refine (ev_impl _ _ (ev_and _ _ Hr Hev) _). intros n [H1 H2]. unfold expand. cbn [s_b]. rewrite Hj. unfold apply_macro. cbn [s_rec]. unfold logged at 1. cbn [s_b s_rec s_u s_log].
    rewrite (x_macro_op user_marker has_attr filename unparse idx others unique pickled loc_text cov_text isexc j o Ho), H1. destruct v as [m k fs| |]; try discriminate. cbn [typecheck].
    unfold bnd, visit_expansion, of_res, lift, nest_env. cbn [x_fix]. unfold logged. cbn [s_b s_rec s_u s_log]. unfold nest_env in H2. unfold bnd, of_res. rewrite H2. unfold emit, ret, logged. cbn [s_b s_rec s_u s_log]. reflexivity.
  Qed.
  Lemma expand_err o x j i lv log e log1 : isbound qb x = Some j -> op_of idx j = Some o ->
    ev (fun n => run (visit E n) n (m_run (quasi_macro o) i) (st lv (log ++ [ECall x i true])) = Some (XRaise e, st lv log1)) ->
    exists e' log2, ev (fun n => expand E n (visit E n) x i (st lv log) = Some (XRaise e', st lv log2)).
  Proof.
    intros Hj Ho Hr. eexists _, _. refine (ev_impl _ _ Hr _). intros n H1. unfold expand. cbn [s_b]. rewrite Hj. unfold apply_macro. cbn [s_rec]. unfold logged at 1. cbn [s_b s_rec s_u s_log].
    rewrite (x_macro_op user_marker has_attr filename unparse idx others unique pickled loc_text cov_text isexc j o Ho), H1. unfold logged. cbn [s_b s_rec s_u s_log]. reflexivity.
  Qed.
  Lemma hrec_ok t lv log r log' : ev (fun n => visit E n t (st lv ((log ++ [EUse HRec]) ++ [EMode true])) = Some (r, st lv log')) ->
    ev (fun n => call_expander (visit E n) HRec t (logged (EUse HRec) (st lv log)) = Some (r, st lv (log' ++ [EModeEnd]))).
  Proof.
    intros H. refine (ev_impl _ _ H _). intros n Hn. cbn [call_expander]. unfold with_mode, logged. cbn [s_b s_rec s_u s_log]. rewrite Hn. cbn [s_b s_rec s_u s_log]. reflexivity.
  Qed.
  (** [q] and the unquotes, called at some level. *)
  Lemma run_q_ok i lv log r log' : in_syntax i = "expr"%string \/ in_syntax i = "block"%string ->
    ev (fun n => visit E n (in_tree i) (st (S lv) ((log ++ [EUse HRec]) ++ [EMode true])) = Some (r, st (S lv) log')) ->
    ev (fun n => run (visit E n) n (m_run (quasi_macro Oq) i) (st lv log) =
      Some (match r with XRaise e => XRaise e | XOk t => if Nat.ltb 1 (S lv) then replace_tree (in_target i) t else compile qb (in_syntax i) (in_vars i) t end, st lv (log' ++ [EModeEnd]))).
  Proof.
    intros Hs H. apply hrec_ok in H. apply (ev_big _ 20). refine (ev_impl _ _ H _). intros n Hn Hk. cbn [m_run NestModel.quasi_macro]. rewrite run_q by exact Hk.
    assert (Hsyn : String.eqb (in_syntax i) "expr" || String.eqb (in_syntax i) "block" = true) by (destruct Hs as [-> | ->]; reflexivity). rewrite Hsyn.
    unfold q_outcome. cbn [s_b s_rec s_u s_log]. rewrite qb_idem, Hn. cbn [s_b s_rec s_u s_log]. reflexivity.
  Qed.
  Lemma run_u_ok o i lv log r log' : o <> Oq -> in_syntax i = "expr"%string \/ (in_syntax i = "block"%string /\ o = Oa /\ (in_vars i = None \/ in_vars i = Some NoneT)) ->
    ev (fun n => visit E n (in_tree i) (st lv ((log ++ [EUse HRec]) ++ [EMode true])) = Some (r, st lv log')) ->
    ev (fun n => run (visit E n) n (m_run (quasi_macro o) i) (st (S lv) log) =
      Some (match r with XRaise e => XRaise e | XOk t => unquote_finish filename unparse o i lv t end, st (S lv) (log' ++ [EModeEnd]))).
  Proof.
    intros Ho Hs H. apply hrec_ok in H. apply (ev_big _ 20). refine (ev_impl _ _ H _). intros n Hn Hk.
    assert (Hp : m_run (quasi_macro o) i = unquote_prog filename unparse idx others o i) by (destruct o; [contradiction|reflexivity ..]). rewrite Hp, run_u by exact Hk.
    assert (Hsyn : negb (String.eqb (in_syntax i) "expr" || is_block_a o (in_syntax i)) || Nat.ltb (s_u (st (S lv) log)) 1 ||
       (is_block_a o (in_syntax i) && match in_vars i with None | Some (At ANone) => false | Some _ => true end) = false).
    { destruct Hs as [->|(-> & -> & [-> | ->])]; try reflexivity. destruct o; reflexivity. }
    rewrite Hsyn. unfold unquote_outcome. cbn [s_b s_rec s_u s_log pred]. rewrite no_name_macro_q. rewrite Hn. destruct o; cbn [s_b s_rec s_u s_log]; reflexivity.
  Qed.
  Lemma run_u_err o i lv log : o <> Oq -> lv = 0 \/ (in_syntax i = "block"%string /\ (o <> Oa \/ exists v, in_vars i = Some v /\ v <> NoneT)) ->
    ev (fun n => run (visit E n) n (m_run (quasi_macro o) i) (st lv log) = Some (XRaise syntax_error, st lv log)).
  Proof.
    intros Ho H. exists 20. intros n Hk.
    assert (Hp : m_run (quasi_macro o) i = unquote_prog filename unparse idx others o i) by (destruct o; [contradiction|reflexivity ..]). rewrite Hp, run_u by exact Hk.
    assert (Hsyn : negb (String.eqb (in_syntax i) "expr" || is_block_a o (in_syntax i)) || Nat.ltb (s_u (st lv log)) 1 ||
       (is_block_a o (in_syntax i) && match in_vars i with None | Some (At ANone) => false | Some _ => true end) = true).
    { cbn [s_u]. destruct H as [->|[-> [Ha|(v & -> & Hv)]]].
      - rewrite orb_true_r. reflexivity.
      - destruct o; try contradiction; reflexivity.
      - destruct o; try reflexivity; try contradiction. destruct v as [| |[]]; try exact (orb_true_r _). destruct (Hv eq_refl). }
    rewrite Hsyn. reflexivity.
  Qed.

  (** ** What replaces an invocation *)
  Lemma compile_code b0 syn vars t1 t : del t1 = Ok t ->
    match code b0 t with
    | Some c => compile b0 syn vars t1 = if String.eqb syn "block" then
                  match vars with
                  | Some (Nd m k fs) => if String.eqb k "Name" then XOk (Nd noloc "Assign" [("targets"%string, Ls [Nd m k fs]); ("value"%string, c)]) else XRaise syntax_error
                  | _ => XRaise syntax_error
                  end else XOk c
    | None => exists e, compile b0 syn vars t1 = XRaise e
    end.
  Proof.
    intros H. unfold NestModel.compile, NestProofs2.code. unfold del in H. rewrite H. destruct (QuoteModel.q _ _ _ _ _); [reflexivity|]. eauto.
  Qed.
  Lemma one_good lv t x y : kind_of t = "Subscript"%string \/ kind_of t = "With"%string -> fresh x -> dl x y -> mok y -> sq x -> (lv = 0 -> x = y /\ nomark x = true) -> good lv t [x] [y].
  Proof.
    intros H1 H2 H3 H4 H5 H6. refine (conj _ (conj _ (conj _ (conj _ (conj _ _))))); [discriminate|auto|auto|auto|constructor; [apply sim_fresh; assumption|constructor]|].
    intros H0. destruct (H6 H0) as [-> N]. auto.
  Qed.
  Lemma code_good lv t t1 c : kind_of t = "Subscript"%string \/ kind_of t = "With"%string -> mok t1 -> code qb t1 = Some c -> good lv t [c] [c].
  Proof.
    intros H1 H2 H3. destruct (code_clean user_marker has_attr filename unparse idx others unique pickled loc_text cov_text isexc b _ _ _ H2 H3) as [[Hs Hn] (m & fs & ma & fa & -> & Hf)].
    apply one_good; [exact H1| |apply nomark_dl; [exact Hn|reflexivity]|apply nomark_mok; exact Hn|exact Hs|auto]. right. eauto.
  Qed.
  Definition markers : list string := ["Unquote"; "LiftSourcecode"; "ASTLiteral"; "ASTList"; "ASTTuple"; "Capture"]%string.
  Lemma clean_vl x : clean x -> is_node x = true \/ (exists l, x = Ls l /\ Forall (fun y => is_node y = true) l) -> vl x x.
  Proof.
    intros [_ Hn] [H|(l & -> & H)]; [left; apply nomark_dl; [exact Hn|destruct x; try discriminate; reflexivity]|]. right. exists l, l. split; [reflexivity|]. split; [reflexivity|].
    cbn [nomark] in Hn. rewrite forallb_forall in Hn. induction H as [|y l Hy _ IH]; [constructor|]. constructor; [apply nomark_dl; [apply Hn; left; reflexivity|destruct y; try discriminate; reflexivity]|].
    apply IH. intros z Hz. apply Hn. right. exact Hz.
  Qed.
  Lemma mark_good lv t k body more : lv <> 0 -> kind_of t = "Subscript"%string \/ kind_of t = "With"%string -> In k markers -> clean body -> vl body body ->
    more = [] \/ (exists f s, more = [(f, At (AStr s))]) -> good lv t [Nd noloc k (("body"%string, body) :: more)] [Nd noloc k (("body"%string, body) :: more)].
  Proof.
    intros Hlv Ht Hk Hb Hv Hm.
    assert (Fm : forall f v, In (f, v) (("body"%string, body) :: more) -> sq v).
    { intros f v [Hin|Hin]; [inversion Hin; subst; exact (proj1 Hb)|]. destruct Hm as [->|(f' & s & ->)]; [destruct Hin|]. destruct Hin as [Hin|[]]. inversion Hin; subst. apply sq_at. }
    apply one_good; [exact Ht| | | | |intros ->; destruct (Hlv eq_refl)].
    - cbn in Hk. left. cbn. tauto.
    - left. split; [reflexivity|]. split; [reflexivity|].
      assert (F2 : Forall2 (fun p q : string * ltree => fst p = fst q /\ vl (snd p) (snd q)) (("body"%string, body) :: more) (("body"%string, body) :: more)).
      { constructor; [split; [reflexivity|exact Hv]|]. destruct Hm as [->|(f & s & ->)]; [constructor|]. constructor; [|constructor]. split; [reflexivity|]. left. right. exists (AStr s). split; reflexivity. }
      assert (Hd : k <> "Done"%string) by (intros ->; cbn in Hk; repeat (destruct Hk as [Hk|Hk]; [discriminate|]); destruct Hk).
      assert (Hq : is_search k = false) by (cbn in Hk; repeat (destruct Hk as [<-|Hk]; [reflexivity|]); destruct Hk).
      unfold del. rewrite (relabel_not_done _ _ _ Hd). cbn [delete_markers]. rewrite Hq, (vl_fields _ _ F2). reflexivity.
    - apply mok_mark; assumption.
    - apply sq_plain; [|exact Fm]. unfold plain_kind. intros Hin. cbn in Hk, Hin. destruct Hk as [<-|[<-|[<-|[<-|[<-|[<-|[]]]]]]]; repeat (destruct Hin as [Hin|Hin]; [discriminate|]); destruct Hin.
  Qed.
  Lemma replaced_good lv m k fs f v w : lv <> 0 -> k = "Subscript"%string \/ k = "With"%string -> source (Nd m k fs) -> vl v w -> mok w ->
    good lv (Nd m k fs) [search_done (Nd m k (setf f v fs))] [Nd m k (setf f w fs)].
  Proof.
    intros Hlv Hk Hs Hv Hw. destruct (source_fields _ _ _ _ Hs) as (N1 & N2 & N3). apply one_good; [exact Hk|left; left; reflexivity| | |apply sq_done|intros ->; destruct (Hlv eq_refl)].
    - left. split; [reflexivity|]. split; [reflexivity|]. apply del_search. apply del_node; [exact N1|exact N2|]. apply setf_vl; [|exact Hv]. intros g z Hz. apply (N3 g z Hz).
    - apply mok_nd; [exact N2|]. intros g z Hz. apply setf_In in Hz. destruct Hz as [Hz|Hz]; [inversion Hz; subst; exact Hw|]. apply nomark_mok. apply (N3 g z Hz).
  Qed.
  Lemma coverage_good lv t m x v w : kind_of t = "With"%string -> good lv t [v] [w] -> good lv t (coverage cov_text m x ++ [v]) (coverage cov_text m x ++ [w]).
  Proof.
    intros Hk (G1 & G2 & G3 & G4 & G5 & G6). unfold coverage. destruct (ln m); cbn [app]; [|exact (conj G1 (conj G2 (conj G3 (conj G4 (conj G5 G6)))))].
    assert (Hn : nomark (coverage_stmt (cov_text m x) m) = true) by reflexivity.
    refine (conj _ (conj _ (conj _ (conj _ (conj _ _))))).
    - discriminate.
    - constructor; [apply nomark_dl; [exact Hn|reflexivity]|exact G2].
    - constructor; [apply nomark_mok; exact Hn|exact G3].
    - constructor; [apply sq_done|exact G4].
    - constructor; [apply sim_fresh; [auto|left; left; reflexivity]|exact G5].
    - intros H0. destruct (G6 H0) as [E1 N]. inversion E1; subst. split; [reflexivity|]. constructor; [exact Hn|exact N].
  Qed.
End Main.
