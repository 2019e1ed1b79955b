(** C61: stepr and fill_location. *)
From Verif Require Import Base AstLib UtilsModel FixLocModel MarkersModel QuoteModel HygieneModel ExpanderModel ExpanderSpec ExpanderProofs ExpanderProofs2 ExpanderProofs4 ExpanderProofs5 ExpanderCheck ExpanderExamples CollectorModel CollectorSpec CollectorProofs CollectorProps QuoteSpec QuoteSpec2 QuoteProofs QuoteProofs2 QuoteProofs3 QuoteProps NestModel NestSpec NestCheck NestProofs NestProofs2 NestProofs4 NestProofs10 NestProps MetaModel MetaProofs RuntimeModel RuntimeSpec RuntimeProofs RuntimeProps StepModel StepSpec StepProofs StepProps FixLocSpec FixLocProps CollectorModel RuntimeStepModel RuntimeStepSpec.

Lemma above_of t : forall path ab m k fs, node_at t path = Some (Nd m k fs) -> exists ab', node_above t path ab = Some (Nd m k fs, ab').
Proof.
  intros path. revert t. induction path as [|i p IH]; intros t ab m k fs H; destruct t as [m0 k0 fs0|l|a]; cbn [node_at node_above is_node] in *; try discriminate; try (destruct i; discriminate).
  - inversion H; subst. eauto.
  - destruct (nth_error (iter_child_nodes (Nd m0 k0 fs0)) i) as [c|]; [|discriminate]. eapply IH. exact H.
Qed.

Section Statements.
  Variables (user_marker : string -> bool) (has_attr : string -> string -> bool).
  Variables (is_expr is_stmt : string -> bool) (parse_expr : string -> res pv) (ext : pv -> res pv).
  Variables (filename : string) (dumps : nat -> res string) (loads : string -> option nat).
  (** Any expander, for each file; evaluation of expressions as in C41. *)
  Variable E : string -> env nat.
  Notation ev := (eval is_expr is_stmt user_marker has_attr parse_expr ext).
  Notation stepr := (stepr_prog user_marker has_attr filename dumps).
  Notation fill_location := (fill_location_prog user_marker has_attr).
  Notation runs_steps := (runs_steps loads E ev).
  Notation runs_to := (runs_to loads E ev).
  Notation runs_fill := (runs_fill ev has_attr).

  (** ** stepr *)
  Lemma opt_strip a d r r' : (forall d, step_args r' d = step_args r d) -> step_args (of_pv (strip (to_pv a)) :: r') d = step_args (a :: r) d.
  Proof.
    intros H. destruct a as [m k fs|l|at_]; [|reflexivity|reflexivity]. cbn [to_pv strip of_pv]. rewrite !map_map.
    assert (K : forall lc c gs rr dd, step_args (Nd lc c gs :: rr) dd = if String.eqb c "Constant" then
        match attr "value" gs with
        | XRaise e => XRaise e
        | XOk (At (AStr v)) => if smem v supported then step_args rr (dd || String.eqb v "dump") else XRaise (plain (mkExn "ValueError" []))
        | XOk _ => XRaise (plain (mkExn "ValueError" []))
        end else XRaise (plain type_error)).
    { intros lc c gs rr dd. destruct (String.eqb_spec c "Constant") as [->|Hne]; [reflexivity|]. cbn [step_args]. repeat (match goal with |- context [match ?x with _ => _ end] => is_var x; destruct x end; try reflexivity); congruence. }
    rewrite !K. destruct (String.eqb k "Constant"); [|reflexivity]. unfold attr.
    assert (G : getf "value" (map (fun x : string * ltree => let (f, v) := let (f, v) := let (f, v) := x in (f, to_pv v) in (f, strip v) in (f, of_pv v)) fs) = match getf "value" fs with Some v => Some (of_pv (strip (to_pv v))) | None => None end).
    { induction fs as [|[f v] fs IH]; [reflexivity|]. cbn [map getf]. destruct (String.eqb "value" f); [reflexivity|exact IH]. }
    rewrite G. destruct (getf "value" fs) as [v|]; [|reflexivity]. destruct v as [m1 k1 fs1|l1|a1]; [reflexivity|reflexivity|]. cbn [to_pv strip of_pv]. destruct a1; try reflexivity. rewrite H. reflexivity.
  Qed.
  Lemma args_strip args d : step_args (map (fun a => of_pv (strip (to_pv a))) args) d = step_args args d.
  Proof. revert d. induction args as [|a r IH]; intros d; [reflexivity|]. cbn [map]. apply opt_strip. exact IH. Qed.
  Lemma step_strip n k syn args t (s : st nat) : step_expansion (E filename) n k syn (map (fun a => of_pv (strip (to_pv a))) args) t s = step_expansion (E filename) n k syn args t s.
  Proof. unfold step_expansion. rewrite args_strip. reflexivity. Qed.

  Lemma stepr_ok i b args z : in_syntax i = "expr"%string -> good dumps loads b -> in_args i = Some args -> Forall (fun a => quotable user_marker (to_pv a)) args -> ev (to_pv (in_tree i)) = Ok z ->
    exists c, (forall v k (s : st nat), 2 <= k -> s_b s = b -> run v k (stepr i) s = Some (XOk c, s)) /\
      forall r shown, runs_steps (to_pv c) r shown <-> exists n k s', step_expansion (E filename) n k "expr" args (of_pv z) (mkSt b true 0 []) = Some (r, shown, s').
  Proof.
    intros Hi [Hd Hp] Ha Hq He. destruct (bindings_ok dumps loads _ Hd Hp) as (ks & vs & E1 & D).
    destruct (astify_faithful is_expr is_stmt user_marker has_attr parse_expr ext (fun _ => None) (PL (map to_pv args))) as (a & A1 & A2 & _).
    { constructor. rewrite Forall_map. exact Hq. }
    eexists. split.
    - intros v k s Hk Hb. unfold stepr_prog. rewrite Hi, Ha. cbn [String.eqb Ascii.eqb Bool.eqb negb]. do 2 (destruct k as [|k]; [lia|]). rewrite run_getb, Hb, E1, A1. reflexivity.
    - assert (T : to_pv (of_pv (stepr_code filename (nd "Dict" [("keys"%string, PL ks); ("values"%string, PL vs)]) a (to_pv (in_tree i)))) = stepr_code filename (nd "Dict" [("keys"%string, PL ks); ("values"%string, PL vs)]) a (to_pv (in_tree i))).
      { apply tp_call; [reflexivity|intros v [<-|[]]; rewrite of_to_pv; reflexivity|]. intros v [<-|[<-|[<-|[]]]]; [|reflexivity|].
        - apply tp_nd. intros f v [H|[H|[]]]; inversion H; subst; [reflexivity|]. apply (astify_tp user_marker has_attr (fun _ => None) (Ls args)); [discriminate|exact A1].
        - apply tp_nd. intros f v [H|[H|[]]]; inversion H; subst; [reflexivity|]. apply tp_call; [reflexivity|intros v []|]. intros v [<-|[<-|[]]]; [|reflexivity].
          apply tp_nd. intros f v [H1|[H1|[]]]; inversion H1; subst; [reflexivity|exact (dict_tp loads _ _ _ D)]. }
      rewrite T. intros r shown. cbn [strip] in A2. split.
      + intros (ks' & vs' & b' & f & tc & v & ac & args' & syn & n & k & s & Hc & D' & He' & Hac & H). unfold stepr_code, p_call, p_kw, nd, p_const, str in Hc.
        assert (Hk : ks' = ks /\ vs' = vs /\ f = filename /\ tc = to_pv (in_tree i) /\ ac = a /\ syn = "expr"%string) by (inversion Hc; auto 10). destruct Hk as (-> & -> & -> & -> & -> & ->).
        rewrite (dict_of_fun loads _ _ _ D _ D') in H. rewrite He in He'. inversion He'; subst v. rewrite A2 in Hac. inversion Hac; subst args'. rewrite !map_map in H. rewrite step_strip in H. eauto.
      + intros (n & k & s' & H). exists ks, vs, b, filename, (to_pv (in_tree i)), z, a, (map strip (map to_pv args)), "expr"%string, n, k, s'. repeat split; auto. rewrite !map_map, step_strip. exact H.
  Qed.

  (** [stepr[args][t]], where the code [t] evaluates to the AST [z] at run time: running the result shows, gives or raises exactly what step_expansion, with these
      arguments and an expander with the macros of the use site, makes of [z]. *)
  Theorem C61_stepr v k i (s : st nat) args z : 2 <= k -> in_syntax i = "expr"%string -> good dumps loads (s_b s) -> in_args i = Some args -> Forall (fun a => quotable user_marker (to_pv a)) args ->
    ev (to_pv (in_tree i)) = Ok z ->
    exists c, run v k (stepr i) s = Some (XOk c, s) /\
      forall r shown, runs_steps (to_pv c) r shown <-> exists n k s', step_expansion (E filename) n k "expr" args (of_pv z) (mkSt (s_b s) true 0 []) = Some (r, shown, s').
  Proof. intros Hk Hi Hg Ha Hq He. destruct (stepr_ok i (s_b s) args z Hi Hg Ha Hq He) as (c & R & H). exists c. split; [apply R; [exact Hk|reflexivity]|exact H]. Qed.

  (** As anything else than an expression, it is refused. *)
  Theorem C61_stepr_refused v k i (s : st nat) : 1 <= k -> in_syntax i <> "expr"%string -> run v k (stepr i) s = Some (XRaise syntax_error, s).
  Proof. intros Hk H. destruct k as [|k]; [lia|]. unfold stepr_prog. destruct (String.eqb_spec (in_syntax i) "expr") as [Hi|Hi]; [contradiction|]. reflexivity. Qed.

  (** The run-time value is that of [expandr[t]], if each of the trees shown is as in C51. *)
  Theorem C61_value_of_expandr_partial v k v' k' i (s : st nat) args z c1 c2 s1 s2 r shown :
    in_syntax i = "expr"%string -> good dumps loads (s_b s) -> in_args i = Some args -> Forall (fun a => quotable user_marker (to_pv a)) args -> ev (to_pv (in_tree i)) = Ok z ->
    run v k (stepr i) s = Some (XOk c1, s1) -> run v' k' (expandr_prog filename dumps false i) s = Some (XOk c2, s2) ->
    simple_macros (E filename) -> single (of_pv z) \/ (exists l, of_pv z = Ls l /\ l <> [] /\ Forall (fun x => is_node x = true) l) -> Forall (steady (E filename) (s_b s)) shown ->
    runs_steps (to_pv c1) (XOk r) shown -> runs_to (to_pv c2) (XOk r).
  Proof.
    intros Hi Hg Ha Hq He R1 R2 HE Ht Hs Hr. destruct (stepr_ok i (s_b s) args z Hi Hg Ha Hq He) as (c & R & H).
    assert (c = c1). { destruct k as [|[|k]]; [discriminate| |]; [|specialize (R v (S (S k)) s ltac:(lia) eq_refl); rewrite R1 in R; inversion R; reflexivity].
      exfalso. unfold stepr_prog in R1. rewrite Hi in R1. discriminate R1. }
    subst c1. apply H in Hr. destruct Hr as (n & k0 & s' & Hr). destruct (C51_same_expansion_partial _ _ _ _ _ _ _ _ _ _ _ HE Ht Hr Hs) as [N HN]. cbn [s_b] in HN.
    destruct Hg as [Hd Hp]. destruct (bindings_ok dumps loads _ Hd Hp) as (ks & vs & E1 & D).
    assert (Hc2 : c2 = of_pv (expandr_code filename false (nd "Dict" [("keys"%string, PL ks); ("values"%string, PL vs)]) (to_pv (in_tree i)))).
    { unfold expandr_prog in R2. rewrite Hi in R2. cbn [String.eqb Ascii.eqb Bool.eqb negb andb orb] in R2. destruct k' as [|k']; [discriminate|]. rewrite run_getb, E1 in R2. destruct k'; [discriminate|]. inversion R2. reflexivity. }
    subst c2. rewrite code_tp; [|exact (dict_tp loads _ _ _ D)|rewrite of_to_pv; reflexivity]. apply (code_runs filename loads E ev false ks vs _ _ z _ D He).
    exists N. unfold runtime_expand. destruct (HN N (Nat.le_refl _)) as [s'' ->]. reflexivity.
  Qed.

  (** The converse: where [expandr[t]] returns a tree at run time, [stepr[args][t]] shows the steps and returns the same tree, for the trees and macros of [C51_stepping_ends_partial] and arguments that
      step_expansion takes. *)
  Theorem C61_stepr_ends_partial v k v' k' i (s : st nat) args d z c1 c2 s1 s2 r :
    in_syntax i = "expr"%string -> good dumps loads (s_b s) -> in_args i = Some args -> Forall (fun a => quotable user_marker (to_pv a)) args -> ev (to_pv (in_tree i)) = Ok z ->
    run v k (stepr i) s = Some (XOk c1, s1) -> run v' k' (expandr_prog filename dumps false i) s = Some (XOk c2, s2) ->
    simple_macros (E filename) -> shaped_macros (E filename) -> single (of_pv z) \/ (exists l, of_pv z = Ls l /\ l <> [] /\ Forall (fun x => is_node x = true) l) ->
    (forall u, reaches (E filename) (s_b s) (of_pv z) u -> steady (E filename) (s_b s) u /\ typed u /\ harmless (E filename) (s_b s) u) ->
    step_args args false = XOk d -> d = false \/ r <> NoneT ->
    runs_to (to_pv c2) (XOk r) -> exists shown, runs_steps (to_pv c1) (XOk r) shown.
  Proof.
    intros Hi Hg Ha Hq He R1 R2 HE Hsh Ht Hs Hargs Hd Hr. destruct (stepr_ok i (s_b s) args z Hi Hg Ha Hq He) as (c & R & H).
    assert (c = c1). { destruct k as [|[|k]]; [discriminate| |]; [|specialize (R v (S (S k)) s ltac:(lia) eq_refl); rewrite R1 in R; inversion R; reflexivity].
      exfalso. unfold stepr_prog in R1. rewrite Hi in R1. discriminate R1. }
    subst c1. destruct Hg as [Hdm Hp]. destruct (bindings_ok dumps loads _ Hdm Hp) as (ks & vs & E1 & D).
    assert (Hc2 : c2 = of_pv (expandr_code filename false (nd "Dict" [("keys"%string, PL ks); ("values"%string, PL vs)]) (to_pv (in_tree i)))).
    { unfold expandr_prog in R2. rewrite Hi in R2. cbn [String.eqb Ascii.eqb Bool.eqb negb andb orb] in R2. destruct k' as [|k']; [discriminate|]. rewrite run_getb, E1 in R2. destruct k'; [discriminate|]. inversion R2. reflexivity. }
    subst c2. rewrite code_tp in Hr; [|exact (dict_tp loads _ _ _ D)|rewrite of_to_pv; reflexivity]. apply (code_runs filename loads E ev false ks vs _ _ z _ D He) in Hr. destruct Hr as [n Hr].
    unfold runtime_expand in Hr. destruct (visit_recursively (E filename) n (of_pv z) (mkSt (s_b s) true 0 [])) as [[[t'|e] s']|] eqn:Ev; inversion Hr; subst t'.
    destruct (C51_stepping_ends_partial _ (E filename) n "expr" args d (of_pv z) (mkSt (s_b s) true 0 []) r s' HE Hsh Ht Hs (or_introl eq_refl) Hargs Hd Ev) as (N & shown & HN).
    exists shown. apply H. exists N, N. destruct (HN N N (Nat.le_refl _) (Nat.le_refl _)) as [s'' Hx]. exists s''. exact Hx.
  Qed.

  (** ** fill_location *)
  (** Expanding [fill_location[t]] needs the line and the column of the invocation; as anything else than an expression, it is refused. *)
  Theorem C61_fill_refused v k inv i (s : st nat) : 1 <= k -> in_syntax i <> "expr"%string \/ ln inv = None \/ co inv = None -> run v k (fill_location inv i) s = Some (XRaise syntax_error, s).
  Proof.
    intros Hk H. destruct k as [|k]; [lia|]. unfold fill_location_prog. destruct (String.eqb_spec (in_syntax i) "expr") as [Hi|Hi]; [|reflexivity]. cbn [negb].
    destruct H as [H|[H|H]]; [contradiction|rewrite H; reflexivity|rewrite H; destruct (ln inv); reflexivity].
  Qed.
  Lemma fill_runs v k inv i (s : st nat) l c z : 1 <= k -> user_marker "Constant" = false -> in_syntax i = "expr"%string -> ln inv = Some l -> co inv = Some c -> ev (to_pv (in_tree i)) = Ok z ->
    exists d, run v k (fill_location inv i) s = Some (XOk d, s) /\ forall r, runs_fill (to_pv d) r <-> r = fix_locations has_attr MReference (of_pv z) (mkLoc (Some l) (Some c) None None).
  Proof.
    intros Hk Hm Hi Hl Hc He. destruct k as [|k]; [lia|].
    set (C := fun l c tc => p_call (metatools_attr "fix_locations") [tc; p_call (p_attr (quotes_attr "ast") "Constant") [] [p_kw "value" (p_const (str "source location dummy")); p_kw "kind" (p_const (PA ANone));
      p_kw "lineno" (p_const (PA (AInt l))); p_kw "col_offset" (p_const (PA (AInt c)))]] [p_kw "mode" (p_const (str "reference"))]).
    exists (of_pv (C l c (to_pv (in_tree i)))). split.
    - unfold fill_location_prog. rewrite Hi, Hl, Hc. cbn [String.eqb Ascii.eqb Bool.eqb negb]. unfold reference_node, nd. cbn [astify marker_call String.eqb Ascii.eqb Bool.eqb].
      assert (M : is_marker user_marker "Constant" = false) by (unfold is_marker; cbn; rewrite Hm; reflexivity). rewrite M. cbn [liftable str].
      assert (L : copy_location has_attr "Call" noloc "Constant" noloc = noloc) by (unfold copy_location; cbn [ln co eln eco noloc]; unfold copy1; repeat match goal with |- context [if ?b then _ else _] => destruct b end; reflexivity).
      rewrite L. cbn [extend_keywords extend_field String.eqb Ascii.eqb Bool.eqb app]. reflexivity.
    - assert (T : to_pv (of_pv (C l c (to_pv (in_tree i)))) = C l c (to_pv (in_tree i))).
      { apply tp_call; [reflexivity| |intros v0 [<-|[]]; reflexivity]. intros v0 [<-|[<-|[]]]; [rewrite of_to_pv; reflexivity|reflexivity]. }
      rewrite T. intros r. split.
      + intros (tc & v0 & va & ki & l' & c' & Hcode & He' & ->). unfold C, p_call, p_kw, nd, p_const, str in Hcode. assert (Hk' : tc = to_pv (in_tree i) /\ l' = l /\ c' = c) by (inversion Hcode; auto).
        destruct Hk' as (-> & -> & ->). rewrite He in He'. inversion He'. reflexivity.
      + intros ->. eexists _, _, _, _, _, _. split; [reflexivity|]. split; [exact He|reflexivity].
  Qed.
  (** Otherwise: at run time, the value [z] of [t] is returned with the line and the column of the invocation filled in, where a node that has such an attribute misses it.
      Present lines and columns stay, and so does everything that is no location. The end position of a node that gets a line (a column) is None. *)
  Theorem C61_fill_location v k inv i (s : st nat) l c z : 1 <= k -> user_marker "Constant" = false -> in_syntax i = "expr"%string -> ln inv = Some l -> co inv = Some c ->
    ev (to_pv (in_tree i)) = Ok z -> is_node (of_pv z) = true ->
    exists d, run v k (fill_location inv i) s = Some (XOk d, s) /\
      exists t', (forall r, runs_fill (to_pv d) r <-> r = Ok t') /\ skel t' = skel (of_pv z) /\
          forall path m kd fs, node_at (of_pv z) path = Some (Nd m kd fs) -> exists m' fs', node_at t' path = Some (Nd m' kd fs') /\
            ln m' = (if has_attr kd "lineno" then match ln m with None => Some l | x => x end else ln m) /\
            co m' = (if has_attr kd "col_offset" then match co m with None => Some c | x => x end else co m) /\
            eln m' = (if has_attr kd "lineno" && has_attr kd "end_lineno" then match ln m with None => None | _ => eln m end else eln m) /\
            eco m' = (if has_attr kd "col_offset" && has_attr kd "end_col_offset" then match co m with None => None | _ => eco m end else eco m).
  Proof.
    intros Hk Hm Hi Hl Hc He Hn. destruct (fill_runs v k inv i s l c z Hk Hm Hi Hl Hc He) as (d & R & H). exists d. split; [exact R|].
    destruct (C09_fix_locations_exact has_attr MReference (of_pv z) (mkLoc (Some l) (Some c) None None) l c Hn eq_refl eq_refl) as (t' & F & Hsk & Hw).
    exists t'. split; [intros r; rewrite H, F; reflexivity|]. split; [exact Hsk|]. intros path m kd fs Hp. destruct (above_of (of_pv z) path [] m kd fs Hp) as [ab Hab].
    destruct (Hw path m kd fs ab Hab) as [fs' Hf]. eexists _, fs'. split; [exact Hf|]. unfold want, own_line, own_col, copy_line, copy_col. cbn [is_overwrite orb fst snd].
    destruct (has_attr kd "lineno"), (has_attr kd "col_offset"), (has_attr kd "end_lineno"), (has_attr kd "end_col_offset"), (ln m) eqn:E1, (co m) eqn:E2; cbn [andb negb ln co eln eco]; rewrite ?E1, ?E2; auto.
  Qed.
End Statements.
Print Assumptions C61_stepr.
Print Assumptions C61_stepr_refused.
Print Assumptions C61_value_of_expandr_partial.
Print Assumptions C61_stepr_ends_partial.
Print Assumptions C61_fill_refused.
Print Assumptions C61_fill_location.

(** ** Examples *)
(** The macros of C51's examples. *)
Definition wmacros (j : nat) : mdef nat :=
  match j with
  | 0 => mkMac false false (fun i => Ret (in_tree i))
  | 1 => mkMac false false (fun _ => Ret (name_ "ident"))
  | _ => mkMac false false (fun i => Ret (match in_tree i with Nd _ _ _ => sub_ (name_ "ident") (in_tree i) | _ => in_tree i end))
  end.
Definition wenv (f : string) : env nat := mkEnv wmacros (fun t _ => Ok t) (fun _ => f) (fun _ x => ("source line of " ++ x)%string) (fun _ => true).
Lemma wenv_simple f : simple_macros (wenv f).
Proof.
  split.
  - intros [|[|j]] i; left; eexists; reflexivity.
  - intros [|[|j]] i v _ Hi H; cbn in H; inversion H; subst; right; [exact Hi|apply name_single|]. destruct Hi as [m [k [fs [-> Hk]]]]. apply sub_single.
  - intros v t v' H. cbn in H. inversion H; subst. destruct v' as [m k fs|l|a]; [eauto| |exact I]. intros Hl. eauto.
Qed.
Lemma w_good : good v_dumps v_loads sbinds.
Proof.
  split; [repeat constructor; cbn; intros H; repeat (destruct H as [H|H]; [discriminate|]); destruct H|].
  intros x i H. eexists. split; [reflexivity|]. cbn in H. repeat (destruct H as [H|H]; [inversion H; subst; reflexivity|]). destruct H.
Qed.
Definition nl (t : ltree) : ltree := of_pv (strip (to_pv t)).
(** The code [q[t]]. *)
Definition w_code (t : ltree) : ltree := match astify x_user x_attr (fun _ => None) (to_pv t) with Ok c => of_pv c | Err _ => NoneT end.
Definition w_in (args : list ltree) (t : ltree) : minput := mkIn "expr" (w_code t) (Some args) None NoneT.
Definition w_dump : ltree := Nd (at_ 1 0) "Constant" [("value"%string, At (AStr "dump"))].
Definition w_stepr := stepr_prog (U:=nat) x_user x_attr "f.py" v_dumps.
Definition w_runs := runs_steps v_loads wenv x_eval.
Definition w_s : st nat := mkSt sbinds false 0 [].
Lemma w_dump_quotable : Forall (fun a => quotable x_user (to_pv a)) [w_dump].
Proof. constructor; [|constructor]. apply qt_node; [left; reflexivity|]. constructor; [|constructor]. apply qt_atom; discriminate. Qed.
Lemma steady_check_nat (E : env nat) b t N : tidy t -> forallb placedb (parts t) = true ->
  (forall u, In u (parts t) -> is_node u = true -> (exists x syn, invokes E b u x syn) \/
     (exists u1, (forall n l, exists s', visit E N u (mkSt b false n l) = Some (XOk u1, s')) /\ forall x syn, ~ invokes E b u1 x syn)) ->
  steady E b t.
Proof.
  intros Ht Hp Hs. rewrite forallb_forall in Hp. split.
  - exact Ht.
  - intros m k fs f v Hu Hd Hin Hn. specialize (Hp _ (parts_ok _ _ Hu)). cbn [placedb] in Hp. destruct (String.eqb_spec k "Done"); [contradiction|]. cbn in Hp. apply andb_true_iff in Hp. destruct Hp as [Hp _].
    rewrite forallb_forall in Hp. specialize (Hp _ Hin). cbn [snd] in Hp. rewrite Hn in Hp. apply singleb_ok. exact Hp.
  - intros m fs v Hu Hg. specialize (Hp _ (parts_ok _ _ Hu)). cbn [placedb] in Hp. apply andb_true_iff in Hp. destruct Hp as [_ Hp]. cbn in Hp. rewrite Hg in Hp. exact Hp.
  - intros u Hu Hn Hq n s u1 s' Hsb Hsr Hv. destruct (Hs u (parts_ok _ _ Hu) Hn) as [[x [syn Hi]]|[u2 [H1 H2]]]; [exfalso; exact (Hq _ _ Hi)|]. destruct s as [sb sr su sl]. cbn in Hsb, Hsr. subst.
    destruct (H1 su sl) as [s2 Hv2]. pose proof (visit_det E _ _ _ _ _ _ Hv Hv2) as Hx. inversion Hx; subst. exact H2.
Qed.
Ltac not_invoked_w := let x := fresh in let syn := fresh in let H := fresh in intros x syn H; inversion H; subst; clear H;
  repeat match goal with
  | H : bound _ _ _ |- _ => apply isbound_iff in H; vm_compute in H; discriminate
  | H : names_macro _ _ _ _ _ |- _ => destruct H as [H [_ [? [? [?|?]]]]]; subst
  | H : getf _ _ = Some _ |- _ => cbn in H; inversion H; subst; clear H
  | H : denotes _ _ _ |- _ => inversion H; subst; clear H
  | H : m_isparam (x_macro (wenv _) ?j) = true |- _ => destruct j as [|[|?]]; discriminate
  | H : m_isname (x_macro (wenv _) ?j) = true |- _ => destruct j as [|[|?]]; discriminate
  | H : _ \/ _ |- _ => destruct H; discriminate
  end.
Ltac steady_part_w := first [discriminate | left; is_invoked | right; eexists; split; [intros n l; eexists; vm_compute; reflexivity|not_invoked_w]].
Ltac steady_parts_w := let u := fresh "u" in let Hu := fresh "Hu" in let Hn := fresh "Hn" in
  intros u Hu Hn; vm_compute in Hu; repeat match type of Hu with False => destruct Hu | _ \/ _ => destruct Hu as [<-|Hu]; [steady_part_w|] end.
(** stepr["dump"][q[wrap[x]]]: shows wrap[x], ident[x] and x, and returns x, as expandr[q[wrap[x]]] does. *)
Example C61_example : exists c1 c2,
  let i := w_in [w_dump] (sub_ (name_ "wrap") (name_ "x")) in
  let shown := [nl (sub_ (name_ "wrap") (name_ "x")); sub_ (name_ "ident") (nl (name_ "x")); nl (name_ "x")] in
  run (visit (wenv "f.py") 9) 9 (w_stepr i) w_s = Some (XOk c1, w_s) /\ run (visit (wenv "f.py") 9) 9 (v_expandr false i) w_s = Some (XOk c2, w_s) /\
  w_runs (to_pv c1) (XOk (nl (name_ "x"))) shown /\ Forall (steady (wenv "f.py") sbinds) shown /\ runs_to v_loads wenv x_eval (to_pv c2) (XOk (nl (name_ "x"))).
Proof.
  destruct (C61_stepr x_user x_attr x_expr x_stmt x_parse x_ext "f.py" v_dumps v_loads wenv (visit (wenv "f.py") 9) 9 (w_in [w_dump] (sub_ (name_ "wrap") (name_ "x"))) w_s [w_dump]
    (strip (to_pv (sub_ (name_ "wrap") (name_ "x")))) ltac:(lia) eq_refl w_good eq_refl w_dump_quotable ltac:(vm_compute; reflexivity)) as (c1 & R1 & H1).
  eexists c1, _. cbv zeta.
  assert (R2 : run (visit (wenv "f.py") 9) 9 (v_expandr false (w_in [w_dump] (sub_ (name_ "wrap") (name_ "x")))) w_s = Some (XOk (match run (visit (wenv "f.py") 9) 9 (v_expandr false (w_in [w_dump] (sub_ (name_ "wrap") (name_ "x")))) w_s with Some (XOk c, _) => c | _ => NoneT end), w_s)) by (vm_compute; reflexivity).
  assert (S : Forall (steady (wenv "f.py") sbinds) [nl (sub_ (name_ "wrap") (name_ "x")); sub_ (name_ "ident") (nl (name_ "x")); nl (name_ "x")]).
  { apply Forall_cons; [|apply Forall_cons; [|apply Forall_cons; [|apply Forall_nil]]]; (apply (steady_check_nat (wenv "f.py") sbinds _ 20); [apply tidyb_ok; vm_compute; reflexivity|vm_compute; reflexivity|steady_parts_w]). }
  assert (V : w_runs (to_pv c1) (XOk (nl (name_ "x"))) [nl (sub_ (name_ "wrap") (name_ "x")); sub_ (name_ "ident") (nl (name_ "x")); nl (name_ "x")]).
  { apply H1. exists 20, 20. eexists. vm_compute. reflexivity. }
  split; [exact R1|]. split; [exact R2|]. split; [exact V|]. split; [exact S|].
  eapply (C61_value_of_expandr_partial x_user x_attr x_expr x_stmt x_parse x_ext "f.py" v_dumps v_loads wenv (visit (wenv "f.py") 9) 9 (visit (wenv "f.py") 9) 9 (w_in [w_dump] (sub_ (name_ "wrap") (name_ "x"))) w_s [w_dump]
    (strip (to_pv (sub_ (name_ "wrap") (name_ "x"))))); [reflexivity|exact w_good|reflexivity|exact w_dump_quotable|vm_compute; reflexivity|exact R1|exact R2|apply wenv_simple|left; apply singleb_ok; reflexivity|exact S|exact V].
Qed.

Lemma wenv_shaped f : shaped_macros (wenv f).
Proof.
  assert (Hn : forall x, shaped (name_ x)) by (intros x; apply shapedb_ok; reflexivity).
  assert (Hl : shaped (Ls [])) by (intros u Hu; inversion Hu; subst; [exact I|contradiction]).
  intros j i v v1 t v2 Hi Hr Ha Hf. cbn in Hf. inversion Hf; subst v2. clear Hf.
  assert (Hv : shaped v).
  { destruct j as [|[|j]]; cbn in Hr; inversion Hr; subst; auto. destruct (in_tree i) as [m k fs|l|a] eqn:Ei; auto. intros u Hu. unfold sub_ in Hu. inversion Hu; subst.
    - split; [|discriminate]. intros g Hg. cbn in Hg. repeat match goal with H : _ \/ _ |- _ => destruct H as [H|H] end; try discriminate; try contradiction. inversion Hg; subst. repeat constructor; eexists; reflexivity.
    - match goal with H : In _ _ |- _ => cbn in H; repeat match type of H with _ \/ _ => destruct H as [H|H] | False => destruct H end; inversion H; subst end; auto; try (eapply Hn; eassumption).
      match goal with H : part _ u |- _ => inversion H; subst end; try exact I; try (match goal with H : In _ [] |- _ => destruct H end). apply (shapedb_ok (Nd noloc "Load" [])); [reflexivity|constructor]. }
  inversion Ha; subst; auto.
Qed.
(** The same tree: what it reaches by layers is one of the three trees shown. *)
Example C61_stepr_ends_example :
  let t0 := nl (sub_ (name_ "wrap") (name_ "x")) in
  simple_macros (wenv "f.py") /\ shaped_macros (wenv "f.py") /\ step_args [w_dump] false = XOk true /\
  (forall u, reaches (wenv "f.py") sbinds t0 u -> steady (wenv "f.py") sbinds u /\ typed u /\ harmless (wenv "f.py") sbinds u).
Proof.
  cbv zeta. split; [apply wenv_simple|]. split; [apply wenv_shaped|]. split; [vm_compute; reflexivity|].
  set (t0 := nl (sub_ (name_ "wrap") (name_ "x"))). set (t1 := sub_ (name_ "ident") (nl (name_ "x"))). set (t2 := nl (name_ "x")).
  assert (V0 : forall n l, exists s', visit (wenv "f.py") 20 t0 (mkSt sbinds false n l) = Some (XOk t1, s')) by (intros n l; eexists; vm_compute; reflexivity).
  assert (V1 : forall n l, exists s', visit (wenv "f.py") 20 t1 (mkSt sbinds false n l) = Some (XOk t2, s')) by (intros n l; eexists; vm_compute; reflexivity).
  assert (V2 : forall n l, exists s', visit (wenv "f.py") 20 t2 (mkSt sbinds false n l) = Some (XOk t2, s')) by (intros n l; eexists; vm_compute; reflexivity).
  assert (Hr : forall u, reaches (wenv "f.py") sbinds t0 u -> u = t0 \/ u = t1 \/ u = t2).
  { induction 1 as [|n s u u1 s' _ IH Hsb Hv]; [left; reflexivity|]. destruct (once_done _ _ _ _ _ _ Hv) as [u2 [s0 [Hd [Hvis _]]]]. inversion Hd; subst u2. destruct s as [sb sr su sl]. cbn in Hsb, Hvis. rewrite Hsb in Hvis.
    assert (D : forall w w1, (forall n l, exists s', visit (wenv "f.py") 20 w (mkSt sbinds false n l) = Some (XOk w1, s')) -> u = w -> u1 = w1).
    { intros w w1 Hw ->. destruct (Hw su (sl ++ [EMode false])) as [s2 Hv2]. pose proof (visit_det (wenv "f.py") _ _ _ _ _ _ Hvis Hv2) as He. inversion He. reflexivity. }
    destruct IH as [IH|[IH|IH]]; [right; left; exact (D _ _ V0 IH)|right; right; exact (D _ _ V1 IH)|right; right; exact (D _ _ V2 IH)]. }
  intros u Hu. destruct (Hr u Hu) as [ -> | [ -> | -> ] ]; (split; [apply (steady_check_nat (wenv "f.py") sbinds _ 20); [apply tidyb_ok; vm_compute; reflexivity|vm_compute; reflexivity|unfold t0, t1, t2; steady_parts_w]|
    split; [apply typedb_ok; vm_compute; reflexivity|apply harmlessb_ok; [apply shapedb_ok; vm_compute; reflexivity|vm_compute; reflexivity]]]).
Qed.

(** fill_location[q[f(x)]] in line 5, column 3: each node gets this line and column, if it can have one; the Load nodes cannot. *)
Definition x_inv : loc := mkLoc (Some 5%Z) (Some 3%Z) (Some 5%Z) (Some 24%Z).
Definition x_fx (m : loc) : ltree := Nd m "Call" [("func"%string, Nd m "Name" [("id"%string, At (AStr "f")); ("ctx"%string, Nd noloc "Load" [])]); ("args"%string, Ls [Nd m "Name" [("id"%string, At (AStr "x")); ("ctx"%string, Nd noloc "Load" [])]]); ("keywords"%string, Ls [])].
Example C61_example_fill : exists d, run (visit (wenv "f.py") 9) 9 (fill_location_prog x_user x_attr x_inv (w_in [] (x_fx noloc))) w_s = Some (XOk d, w_s) /\
  forall r, runs_fill x_eval x_attr (to_pv d) r <-> r = Ok (x_fx (mkLoc (Some 5%Z) (Some 3%Z) None None)).
Proof.
  destruct (fill_runs x_user x_attr x_expr x_stmt x_parse x_ext (visit (wenv "f.py") 9) 9 x_inv (w_in [] (x_fx noloc)) w_s 5%Z 3%Z (to_pv (x_fx noloc)) ltac:(lia) eq_refl eq_refl eq_refl eq_refl ltac:(vm_compute; reflexivity)) as (d & R & H).
  exists d. split; [exact R|]. intros r. exact (H r).
Qed.

(** ** Refuted *)
(** The run-time value is not always that of expandr: [(tom[x])[y]], as in C51. *)
Theorem C61_value_of_expandr_refuted : exists i c1 c2 t1 t2 shown, simple_macros (wenv "f.py") /\
  run (visit (wenv "f.py") 9) 9 (w_stepr i) w_s = Some (XOk c1, w_s) /\ run (visit (wenv "f.py") 9) 9 (v_expandr false i) w_s = Some (XOk c2, w_s) /\
  w_runs (to_pv c1) (XOk t1) shown /\ runs_to v_loads wenv x_eval (to_pv c2) (XOk t2) /\ t1 <> t2.
Proof.
  set (t := sub_ (sub_ (name_ "tom") (name_ "x")) (name_ "y")).
  destruct (C61_stepr x_user x_attr x_expr x_stmt x_parse x_ext "f.py" v_dumps v_loads wenv (visit (wenv "f.py") 9) 9 (w_in [] t) w_s [] (strip (to_pv t)) ltac:(lia) eq_refl w_good eq_refl (Forall_nil _) ltac:(vm_compute; reflexivity)) as (c1 & R1 & H1).
  exists (w_in [] t), c1. eexists _, (nl (name_ "y")), _, _. split; [apply wenv_simple|]. split; [exact R1|]. split; [vm_compute; reflexivity|]. split; [apply H1; exists 20, 20; eexists; vm_compute; reflexivity|]. split.
  - eexists false, _, _, sbinds, "f.py"%string, _, (strip (to_pv t)), 20. split; [vm_compute; reflexivity|]. split.
    + repeat (apply do_cons; [reflexivity|cbn; intros H; repeat (destruct H as [H|H]; [discriminate|]); destruct H|]). apply do_nil.
    + split; vm_compute; reflexivity.
  - vm_compute. discriminate.
Qed.
Print Assumptions C61_value_of_expandr_refuted.
(** "The source location is copied from the invocation": where the invocation ends is not. *)
Theorem C61_end_position_refuted : exists i inv d m, run (visit (wenv "f.py") 9) 9 (fill_location_prog x_user x_attr inv i) w_s = Some (XOk d, w_s) /\ runs_fill x_eval x_attr (to_pv d) (Ok (x_fx m)) /\
  ln m = ln inv /\ co m = co inv /\ eln m = None /\ eln inv = Some 5%Z /\ eco m = None /\ eco inv = Some 24%Z.
Proof.
  destruct C61_example_fill as (d & R & H). exists (w_in [] (x_fx noloc)), x_inv, d, (mkLoc (Some 5%Z) (Some 3%Z) None None). split; [exact R|]. split; [apply H; reflexivity|]. repeat split.
Qed.
Print Assumptions C61_end_position_refuted.
