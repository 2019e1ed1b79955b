(** C57: expand_first. *)
From Verif Require Import Base AstLib UtilsModel FixLocModel ExpanderModel ExpanderSpec ExpanderProofs ExpanderProofs2 ExpanderProofs3 ExpanderProofs5 ExpanderCheck ExpanderExamples ExpanderProps ExpanderProps2 ExpanderProps3 QuoteSpec QuoteProps NestModel NestProofs4 NestProps MetaModel FirstProofs.

Section Statements.
  (** The other macros are any programs. *)
  Variable E : env nat.
  (** The hygienically captured macros, which all expanders see. *)
  Variable cs : binds.
  Notation first := (expand_first_prog cs).
  (** The invocation [with expand_first[args]: tree], where the arguments are bare names of macros that are not name macros: [fs] are their functions.
      The bindings are a dict. *)
  Definition first_use (b : binds) (i : minput) (fs : list nat) : Prop :=
    NoDup (map fst b) /\ sub_dict cs b /\ in_syntax i = "block"%string /\ (in_vars i = None \/ in_vars i = Some NoneT) /\
    exists l, in_args i = Some l /\ l <> [] /\ Forall2 (bare E b) l fs.

  (** The outcome is that of expanding the block recursively with only these functions bound, under all their names in the expander, beside the captured macros; afterwards, all
      bindings are as before, also if an exception is raised, and whatever the macros do to the bindings. *)
  Theorem C57_restricted_expansion b i fs rec u log : first_use b i fs ->
    exists b' log0, only b b' fs cs /\ calls_of log0 = calls_of log /\
      forall r s', (exists n, run (visit E n) n (first i) (mkSt b rec u log) = Some (r, s')) <->
                   (exists n s1, visit_recursively E n (in_tree i) (mkSt b' rec u log0) = Some (r, s1) /\ s' = mkSt b rec (s_u s1) (s_log s1)).
  Proof.
    intros (Hd & Hcs & Hs & Hv & l & Ha & Hl & HF). exists (extract_bindings b fs ++ cs), (first_log log). split; [exact (extract_only b fs cs Hd Hcs)|]. split; [unfold calls_of, first_log; rewrite flat_map_app; apply app_nil_r|].
    intros r s'. split.
    - intros [n H]. exists n. exact (first_inv E cs b i l fs n n rec u log r s' Hs Hv Ha Hl HF H).
    - intros (n & s1 & H & ->). exists (6 + n). apply (first_run E cs b i l fs (6 + n) (6 + n) rec u log r s1 Hs Hv Ha Hl HF ltac:(lia) ltac:(lia)).
      unfold visit_recursively, call_expander in *. revert H. unfold with_mode. destruct (visit E n _ _) as [[r1 s2]|] eqn:E1; [|discriminate].
      rewrite (visit_mono_le E n (6 + n) _ ltac:(lia) _ _ E1). auto.
  Qed.

  (** Every macro that is called is one of the given ones or a captured one, if the macros leave the bindings alone. *)
  Theorem C57_only_given_called b i fs rec u log n k r s' : (forall j inp, keeps_binds (m_run (x_macro E j) inp)) -> first_use b i fs ->
    run (visit E n) k (first i) (mkSt b rec u log) = Some (r, s') ->
    exists d, s_log s' = log ++ d /\ forall x inp m, In (ECall x inp m) d -> exists j, bound b x j /\ (In j fs \/ In (x, j) cs).
  Proof.
    intros Hk (Hd & Hcs & Hs & Hv & l & Ha & Hl & HF) H. destruct (first_inv E cs b i l fs n k rec u log r s' Hs Hv Ha Hl HF H) as (s1 & R & ->). cbn [s_log].
    unfold visit_recursively, call_expander, with_mode in R. destruct (visit E n (in_tree i) _) as [[r2 s2]|] eqn:E1; [|discriminate]. inversion R; subst. cbn [s_log].
    destruct (visit_calls E Hk _ _ _ _ _ E1) as [_ [d [L D]]]. cbn [s_log s_b] in L, D. rewrite L. unfold first_log. rewrite <- !app_assoc. eexists. split; [reflexivity|]. cbn.
    intros x inp m Hin. do 5 (destruct Hin as [Hin|Hin]; [discriminate|]). apply in_app_iff in Hin. destruct Hin as [Hin|[Hin|[]]]; [|discriminate].
    destruct (D _ _ _ Hin) as [j Hj]. apply (extract_only b fs cs Hd Hcs) in Hj. exists j. exact Hj.
  Qed.

  (** Code that does not invoke the given macros stays as it is, also where it invokes others. *)
  Theorem C57_other_macros_left b i fs rec u log body : first_use b i fs ->
    in_tree i = Ls body -> body <> [] -> Forall (fun t => shaped t /\ is_node t = true) body ->
    (forall t v x syn j, In t body -> part t v -> invokes E b v x syn -> bound b x j -> ~ In j fs /\ ~ In (x, j) cs) ->
    exists log' N, calls_of log' = calls_of log /\ forall n, N <= n -> run (visit E n) n (first i) (mkSt b rec u log) = Some (XOk (in_tree i), mkSt b rec u log').
  Proof.
    intros (Hd & Hcs & Hs & Hv & l & Ha & Hl & HF) Ht Hb HB Hq.
    assert (Q : forall t v x syn, In t body -> part t v -> ~ invokes E (extract_bindings b fs ++ cs) v x syn).
    { intros t v x syn Hin Hp H. pose proof (extract_only b fs cs Hd Hcs) as HO.
      assert (K : forall c y args, names_macro E (extract_bindings b fs ++ cs) c y args -> names_macro E b c y args /\ exists j, bound b y j /\ (In j fs \/ In (y, j) cs)).
      { intros c y args (H1 & H2 & j & H3 & H4). apply HO in H3. destruct H3 as [H3 H5]. split; [split; [exact H1|split; [exact H2|eauto]]|eauto]. }
      inversion H; subst.
      - destruct (K _ _ _ H1) as [K1 (j & K2 & K3)]. destruct (Hq t _ x "expr"%string j Hin Hp ltac:(econstructor; eassumption) K2) as [Q1 Q2]. destruct K3; contradiction.
      - destruct (K _ _ _ H3) as [K1 (j & K2 & K3)]. destruct (Hq t _ x "block"%string j Hin Hp ltac:(econstructor; eassumption) K2) as [Q1 Q2]. destruct K3; contradiction.
      - destruct (K _ _ _ H3) as [K1 (j & K2 & K3)]. destruct (Hq t _ x "decorator"%string j Hin Hp ltac:(econstructor; eassumption) K2) as [Q1 Q2]. destruct K3; contradiction.
      - apply HO in H2. destruct H2 as [K2 K3]. destruct (Hq t _ x "name"%string i0 Hin Hp ltac:(econstructor; eassumption) K2) as [Q1 Q2]. destruct K3; contradiction. }
    set (s0 := mkSt (extract_bindings b fs ++ cs) true u (first_log log ++ [EMode true])).
    destruct (C22_uninvolved_suite_unchanged nat E s0 body Hb HB Q) as [N HN].
    exists ((first_log log ++ [EMode true]) ++ [EModeEnd]), (6 + N). split; [unfold calls_of, first_log; rewrite !flat_map_app; cbn; rewrite !app_nil_r; reflexivity|].
    intros n Hn. rewrite Ht. apply (first_run E cs b i l fs n n rec u log (XOk (Ls body)) (mkSt (extract_bindings b fs ++ cs) rec u ((first_log log ++ [EMode true]) ++ [EModeEnd])) Hs Hv Ha Hl HF ltac:(lia) ltac:(lia)).
    unfold visit_recursively, call_expander, with_mode. cbn [s_b s_rec s_u s_log]. rewrite Ht. fold s0. rewrite (HN n ltac:(lia)). reflexivity.
  Qed.

  (** When it returns, no invocation of the given macros is left in the block, by any of their names (under the conditions of C26: see there). *)
  Theorem C57_given_macros_gone_partial b i fs rec u log n k t' s' : (forall j inp, keeps_binds (m_run (x_macro E j) inp)) -> first_use b i fs -> tidy (in_tree i) ->
    run (visit E n) k (first i) (mkSt b rec u log) = Some (XOk t', s') ->
    exists b' d, only b b' fs cs /\ s_log s' = log ++ d /\
      ((forall x syn r v, In (EOut x syn r) d -> In v (members r) -> ~ mention b' v) ->
       (forall v v1 tg v2, In (ERet (XOk v)) d -> accepted v v1 -> x_fix E v1 tg = Ok v2 -> tidy v2) ->
       forall e w, In e (members t') -> part e w -> ~ expandable E b' w).
  Proof.
    intros Hk (Hd & Hcs & Hs & Hv & l & Ha & Hl & HF) Ht H. destruct (first_inv E cs b i l fs n k rec u log (XOk t') s' Hs Hv Ha Hl HF H) as (s1 & R & ->). cbn [s_log].
    destruct (C26_visit_recursively_complete_partial nat E n (in_tree i) _ t' s1 Hk Ht R) as (d & L & G). cbn [s_log s_b] in L, G.
    exists (extract_bindings b fs ++ cs), ([EUse HRec; EMode true; EModeEnd; EUse HRec] ++ d). split; [exact (extract_only b fs cs Hd Hcs)|]. split; [rewrite L; unfold first_log; rewrite <- app_assoc; reflexivity|].
    intros H1 H2. apply G; [intros x syn r v Hin; apply (H1 x syn r v)|intros v v1 tg v2 Hin; apply (H2 v v1 tg v2)]; apply in_app_iff; right; exact Hin.
  Qed.

  (** Not used as a block macro, or with an [as] part, or without arguments: SyntaxError, and nothing is expanded. *)
  Theorem C57_wrong_use v k i s : in_syntax i <> "block"%string \/ (exists t, in_vars i = Some t /\ is_none t = false) \/ in_args i = None \/ in_args i = Some [] ->
    run v (S k) (first i) s = Some (XRaise syntax_error, s).
  Proof.
    intros H. unfold expand_first_prog. destruct (String.eqb_spec (in_syntax i) "block") as [Hb|Hb]; [|reflexivity]. cbn [negb].
    destruct (has_asname i) eqn:Ha; [reflexivity|]. destruct H as [H|[(t & Ht & Hn)|[H|H]]]; [contradiction| |rewrite H; reflexivity|rewrite H; reflexivity].
    exfalso. unfold has_asname in Ha. rewrite Ht in Ha. destruct t as [| |[]]; discriminate.
  Qed.
  (** An argument that is something else than the name of a macro (and no macro invocation itself): a SyntaxError, before anything in the block is expanded. *)
  Theorem C57_bad_argument b i l rec u log : in_syntax i = "block"%string -> in_vars i = None \/ in_vars i = Some NoneT -> in_args i = Some l ->
    Forall (fun t => shaped t /\ is_node t = true) l -> (forall t v x syn, In t l -> part t v -> ~ invokes E b v x syn) ->
    (exists t, In t l /\ forall m fs x j, t = Nd m "Name" fs -> getf "id" fs = Some (At (AStr x)) -> ~ bound b x j) ->
    exists log' N, calls_of log' = calls_of log /\ forall n, N <= n -> run (visit E n) n (first i) (mkSt b rec u log) = Some (XRaise syntax_error, mkSt b rec u log').
  Proof.
    intros Hs Hv Ha HL Hq (t & Hin & Ht).
    set (s0 := mkSt b true u ((log ++ [EUse HRec]) ++ [EMode true])).
    assert (Hl : l <> []) by (intros ->; destruct Hin).
    destruct (C22_uninvolved_suite_unchanged nat E s0 l Hl HL Hq) as [N HN].
    exists (((log ++ [EUse HRec]) ++ [EMode true]) ++ [EModeEnd]), (6 + N). split; [unfold calls_of; rewrite !flat_map_app; cbn; rewrite !app_nil_r; reflexivity|].
    intros n Hn. unfold expand_first_prog. rewrite Hs, Ha. cbn [String.eqb Ascii.eqb Bool.eqb negb].
    replace (has_asname i) with false by (unfold has_asname; destruct Hv as [-> | ->]; reflexivity).
    assert (M : macros_of b l = None).
    { clear - Hin Ht. induction l as [|t0 l IH]; [destruct Hin|]. cbn [macros_of]. destruct (name_of t0) as [x|] eqn:En; [|reflexivity]. destruct (isbound b x) as [j|] eqn:Ej; [|reflexivity].
      destruct Hin as [->|Hin]; [exfalso|rewrite (IH Hin); reflexivity]. destruct t as [m k fs| |]; try discriminate. cbn [name_of] in En. destruct (String.eqb_spec k "Name") as [->|]; [|discriminate].
      destruct (str_attr "id" fs) as [y|] eqn:Ey; [|discriminate]. inversion En; subst. apply str_attr_inv in Ey. apply isbound_iff in Ej. exact (Ht _ _ _ _ eq_refl Ey Ej). }
    destruct l as [|t0 l0]; [contradiction|]. do 6 (destruct n as [|n]; [lia|]). rewrite run_call. cbn [call_expander]. unfold with_mode, logged. cbn [s_b s_rec s_u s_log]. fold s0. rewrite HN by lia. unfold s0. cbn [s_b s_rec s_u s_log].
    rewrite run_getb. cbn [s_b]. rewrite M. reflexivity.
  Qed.
End Statements.
Print Assumptions C57_restricted_expansion.
Print Assumptions C57_only_given_called.
Print Assumptions C57_other_macros_left.
Print Assumptions C57_given_macros_gone_partial.
Print Assumptions C57_bad_argument.
Print Assumptions C57_wrong_use.

(** ** Examples *)
(** Two expression macros that return their argument, the first under two names; a block macro; a name macro that expands to the number 1; a captured macro; the operators. *)
Definition w_b : binds := [("m"%string, 3); ("m2"%string, 4); ("blk"%string, 5); ("em"%string, 3); ("nm"%string, 6); ("m_u7"%string, 7)] ++ tl y_b.
Definition w_cs : binds := [("m_u7"%string, 7)].
Definition w_others (i : nat) : mdef nat := if Nat.eqb i 6 then mkMac true false (fun _ => Ret (y_const 1)) else mkMac false false (fun i => Ret (in_tree i)).
Definition w_env := nest_env x_user x_attr "f.py" (fun _ => "src"%string) y_idx w_others (fun s => s) (fun _ => "pickle"%string) (fun _ => ""%string) y_cov (fun _ => true).
(** with blk: em[m2[m[a]]] *)
Definition w_body : list ltree := [y_with noloc [y_item (y_name "blk") NoneT] [y_expr (y_sub "em" (y_sub "m2" (y_sub "m" (y_name "a"))))]].
Definition w_in (args body : list ltree) : minput := mkIn "block" (Ls body) (Some args) (Some NoneT) NoneT.
Definition w_run (args body : list ltree) : option (xres ltree * list string) :=
  match run (visit w_env 60) 60 (expand_first_prog w_cs (w_in args body)) (mkSt w_b false 0 []) with
  | Some (r, s) => Some (r, map fst (calls_of (s_log s)))
  | None => None
  end.
(** expand_first[m]: m is expanded under both names, m2 and blk are not. *)
Example C57_example :
  first_use w_env w_cs w_b (w_in [y_name "m"] w_body) [3] /\ tidy (Ls w_body) /\ (forall j inp, keeps_binds (m_run (w_others j) inp)) /\
  w_run [y_name "m"] w_body = Some (XOk (Ls [y_with noloc [y_item (y_name "blk") NoneT] [y_expr (y_sub "m2" (y_name "a"))]]), ["em"%string; "m"%string]) /\
  w_run [y_name "m2"] [y_expr (y_sub "m" (y_name "a"))] = Some (XOk (Ls [y_expr (y_sub "m" (y_name "a"))]), []) /\
  w_run [y_name "m"; y_name "zz"] w_body = Some (XRaise syntax_error, []).
Proof.
  split; [|split; [apply tidyb_ok; vm_compute; reflexivity|split; [intros j inp; unfold w_others; destruct (Nat.eqb j 6); constructor|repeat split; vm_compute; reflexivity]]].
  split; [|split; [split; [repeat constructor; intros []|]|split; [reflexivity|split; [right; reflexivity|]]]].
  - unfold w_b, y_b. cbn. repeat constructor; cbn; intros H; repeat (destruct H as [H|H]; [discriminate|]); destruct H.
  - intros x i [H|[]]. inversion H; subst. exists [("m"%string, 3); ("m2"%string, 4); ("blk"%string, 5); ("em"%string, 3); ("nm"%string, 6)]. eexists. split; [reflexivity|]. cbn. intros K. repeat (destruct K as [K|K]; [discriminate|]). destruct K.
  - eexists. split; [reflexivity|]. split; [discriminate|]. constructor; [|constructor]. split; [apply shapedb_ok; vm_compute; reflexivity|].
    eexists. eexists. eexists. split; [reflexivity|]. split; [reflexivity|]. split; [exists []; eexists; split; [reflexivity|intros []]|reflexivity].
Qed.

(** ** Refuted *)
(** The documented form with a captured macro, [with expand_first[q[h[m]]]:], is refused, for a macro that is bound. *)
Theorem C57_captured_macro_refuted : exists x j, bound w_b x j /\ In ("q"%string, y_idx Oq) w_b /\ In ("h"%string, y_idx Oh) w_b /\
  exists cs, w_run [y_sub "q" (y_sub "h" (y_name x))] w_body = Some (XRaise syntax_error, cs).
Proof.
  exists "m"%string, 3. split; [exists []; eexists; split; [reflexivity|intros []]|]. split; [cbn; tauto|]. split; [cbn; tauto|]. eexists. vm_compute. reflexivity.
Qed.
Print Assumptions C57_captured_macro_refuted.
(** A bare macro name is refused, if it belongs to a name macro that expands to something else: with expand_first[nm]. *)
Theorem C57_name_macro_refuted : exists x j, bound w_b x j /\ exists cs, w_run [y_name x] w_body = Some (XRaise syntax_error, cs).
Proof.
  exists "nm"%string, 6. split; [exists [("m"%string, 3); ("m2"%string, 4); ("blk"%string, 5); ("em"%string, 3)]; eexists; split; [reflexivity|]|eexists; vm_compute; reflexivity].
  cbn. intros H. repeat (destruct H as [H|H]; [discriminate|]). destruct H.
Qed.
Print Assumptions C57_name_macro_refuted.
(** A macro that is not given is expanded all the same, if it is a captured one: with expand_first[m]: m_u7[a]. *)
Theorem C57_captured_not_left_refuted : exists x j, bound w_b x j /\ j <> 3 /\ first_use w_env w_cs w_b (w_in [y_name "m"] [y_expr (y_sub x (y_name "a"))]) [3] /\
  w_run [y_name "m"] [y_expr (y_sub x (y_name "a"))] = Some (XOk (Ls [y_expr (y_name "a")]), [x]).
Proof.
  exists "m_u7"%string, 7. destruct C57_example as ((H1 & H2 & H3 & H4 & l & H5 & H6) & _). split; [apply (proj2 H2); left; reflexivity|]. split; [discriminate|]. split; [|vm_compute; reflexivity].
  split; [exact H1|]. split; [exact H2|]. split; [reflexivity|]. split; [right; reflexivity|]. exists l. exact (conj H5 H6).
Qed.
Print Assumptions C57_captured_not_left_refuted.
