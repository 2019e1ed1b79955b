(** The second expander computes [nest], for C55. *)
From Verif Require Import Base AstLib UtilsModel FixLocModel MarkersModel QuoteModel ExpanderModel ExpanderSpec ExpanderProofs ExpanderProofs2 ExpanderProofs3 QuoteSpec QuoteProofs NestModel NestSpec NestProofs NestProofs2 NestProofs3 NestProofs4.

(** ** Lists of results *)
Lemma flatten_acc_app {M} (x : tree M) out : flatten_acc out x = out ++ flatten_acc [] x.
Proof. destruct x as [| |[]]; cbn [flatten_acc]; try reflexivity. symmetry. apply app_nil_r. Qed.
Lemma fold_flatten {M} (l : list (tree M)) out : fold_left flatten_acc l out = out ++ fold_left flatten_acc l [].
Proof.
  revert out. induction l as [|x l IH]; intros out; cbn [fold_left]; [symmetry; apply app_nil_r|]. rewrite IH, (IH (flatten_acc [] x)), flatten_acc_app, app_assoc. reflexivity.
Qed.
Lemma flatten_cons {M} (x : tree M) l : flatten (x :: l) = flatten [x] ++ flatten l.
Proof. unfold flatten. cbn [fold_left]. apply fold_flatten. Qed.
Lemma flatten_nodes {M} (l : list (tree M)) : Forall (fun x => is_node x = true) l -> flatten l = l.
Proof. induction 1 as [|x l Hx _ IH]; [reflexivity|]. rewrite flatten_cons, IH. destruct x; try discriminate. reflexivity. Qed.
Lemma flatten_pack l : Forall (fun x => is_node x = true) l -> flatten [pack l] = l.
Proof.
  intros H. destruct l as [|x [|y r]].
  - reflexivity.
  - exact (flatten_nodes [x] H).
  - unfold flatten. cbn [pack fold_left flatten_acc app]. exact (flatten_nodes _ H).
Qed.
Lemma flatten_packs ll : Forall (Forall (fun x => is_node x = true)) ll -> flatten (map pack ll) = concat ll.
Proof. induction 1 as [|l ll Hl _ IH]; [reflexivity|]. cbn [map concat]. rewrite flatten_cons, IH, flatten_pack by exact Hl. reflexivity. Qed.

Lemma dl_nodes xs ys : Forall2 dl xs ys -> Forall (fun x => is_node x = true) xs -> Forall (fun y => is_node y = true) ys.
Proof. induction 1 as [|x y xs ys H _ IH]; intros F; inversion F; subst; constructor; [|auto]. destruct H as [(_ & H & _)|(a & -> & ->)]; [exact H|discriminate]. Qed.
Lemma visit_elts_dl xs ys : Forall2 dl xs ys -> Forall (fun x => is_node x = true) xs -> visit_elts (delete_markers is_search) (map relabel xs) = Ok ys.
Proof.
  induction 1 as [|x y xs ys H _ IH]; intros F; [reflexivity|]. inversion F; subst. cbn [map visit_elts]. destruct H as [(_ & _ & H)|(a & -> & ->)]; [|discriminate]. unfold del in H. rewrite H, IH by assumption. reflexivity.
Qed.
Lemma del_ls xs ys : Forall2 dl xs ys -> Forall (fun x => is_node x = true) xs -> del (Ls xs) = Ok (Ls ys).
Proof.
  intros H F. unfold del. cbn [relabel delete_markers]. unfold visit_list. rewrite (visit_elts_dl _ _ H F), flatten_nodes by (exact (dl_nodes _ _ H F)). reflexivity.
Qed.
Lemma del_pack xs ys : Forall2 dl xs ys -> Forall (fun x => is_node x = true) xs -> del (pack xs) = Ok (pack ys).
Proof.
  intros H F. destruct H as [|x y xs ys H H2]; [exact (del_ls [] [] (Forall2_nil _) (Forall_nil _))|]. destruct H2 as [|x2 y2 xs ys H2 H3].
  - cbn [pack]. inversion F; subst. destruct H as [(_ & _ & H)|(a & -> & ->)]; [exact H|discriminate].
  - cbn [pack]. apply del_ls; [constructor; [exact H|constructor; assumption]|exact F].
Qed.
Lemma vl_pack xs ys : Forall2 dl xs ys -> vl (pack xs) (pack ys).
Proof.
  intros H. destruct H as [|x y xs ys H H2]; [right; exists [], []; auto|]. destruct H2 as [|x2 y2 xs ys H2 H3]; [left; exact H|].
  right. eexists _, _. split; [reflexivity|]. split; [reflexivity|]. constructor; [exact H|constructor; assumption].
Qed.

Section Main.
  Variables (user_marker : string -> bool) (has_attr : string -> string -> bool).
  Variables (filename : string) (unparse : ltree -> string) (idx : op -> nat) (others : nat -> mdef nat).
  Variables (unique : string -> string) (pickled : nat -> string).
  Variables (loc_text : ltree -> string) (cov_text : loc -> string -> string) (isexc : exn -> bool).
  Variable b : binds.
  Notation E := (nest_env user_marker has_attr filename unparse idx others unique pickled loc_text cov_text isexc).
  Notation qb := (quasi_only idx b).
  Notation opn := (meaning idx b).
  Notation sq := (sq user_marker has_attr filename unparse idx others unique pickled loc_text cov_text isexc b).
  Notation clean := (clean user_marker has_attr filename unparse idx others unique pickled loc_text cov_text isexc b).
  Notation mok := (mok user_marker has_attr filename unparse idx others unique pickled loc_text cov_text isexc b).
  Notation code := (code user_marker has_attr filename unique pickled).
  Notation quasi_macro := (quasi_macro user_marker has_attr filename unparse idx others unique pickled).
  Notation compile := (compile user_marker has_attr filename unique pickled).
  Notation nest := (nest opn (code qb) filename unparse cov_text).
  Notation nest_items := (nest_items opn (code qb) filename unparse cov_text).
  Notation source := (source opn).
  Notation st lv log := (mkSt qb true lv log).
  Hypothesis Hqb : qb <> [].

  (** ** [nest], unfolded *)
  Definition nest_fields (lv : nat) : list (string * ltree) -> option (list (string * ltree)) :=
    fix fields (fs : list (string * ltree)) : option (list (string * ltree)) :=
      match fs with
      | [] => Some []
      | (f, v) :: r =>
          match (match v with
                 | Nd _ _ _ => option_map pack (nest lv v)
                 | Ls l => option_map (@Ls loc) (nest_items lv l)
                 | At _ => Some v
                 end) with
          | Some v' => option_map (fun r' => (f, v') :: r') (fields r)
          | None => None
          end
      end.
  Lemma nest_nd lv m k fs : nest lv (Nd m k fs) =
    let inside (lv' : nat) : option ltree := match getf "slice" fs with Some sl => option_map pack (nest lv' sl) | None => None end in
    let body (lv' : nat) : option (list ltree) := match getf "body" fs with Some (Ls l) => nest_items lv' l | _ => None end in
    let replaced (f : string) (v : ltree) : ltree := Nd m k (setf f v fs) in
    match expr_op opn k fs with
    | Some Oq =>
        match lv with
        | O => omap (fun b => option_map (fun c => [c]) (code qb b)) (inside 1)
        | S _ => option_map (fun b => [replaced "slice"%string b]) (inside (S lv))
        end
    | Some o =>
        match lv with
        | O => None
        | S O => option_map (fun b => [mark filename o (match getf "slice" fs with Some sl => unparse sl | None => ""%string end) b]) (inside 0)
        | S lv' => option_map (fun b => [replaced "slice"%string b]) (inside lv')
        end
    | None =>
        match block_op opn k fs with
        | Some (x, Oq, vars) =>
            match lv with
            | O => omap (fun l => omap (fun c =>
                     if is_kind "Name" vars then Some (coverage cov_text m x ++ [Nd noloc "Assign" [("targets"%string, Ls [vars]); ("value"%string, c)]]) else None)
                     (code qb (Ls l))) (body 1)
            | S _ => option_map (fun l => coverage cov_text m x ++ [replaced "body"%string (Ls l)]) (body (S lv))
            end
        | Some (x, Oa, At ANone) =>
            match lv with
            | O => None
            | S O => omap (fun l => option_map (fun vs => coverage cov_text m x ++ [mark_block vs]) (exprs l)) (body 0)
            | S lv' => option_map (fun l => coverage cov_text m x ++ [replaced "body"%string (Ls l)]) (body lv')
            end
        | Some _ => None
        | None => option_map (fun fs' => [Nd m k fs']) (nest_fields lv fs)
        end
    end.
  Proof.
    cbn [NestSpec.nest]. destruct (expr_op opn k fs) as [[]|]; rewrite ?with_field_getf.
    all: try (destruct lv as [|[|lv]]; rewrite ?with_field_getf; reflexivity).
  Qed.

  (** ** What the result of a visit is like *)
  Definition good (lv : nat) (t : ltree) (l' l : list ltree) : Prop :=
    l' <> [] /\ Forall2 dl l' l /\ Forall mok l /\ Forall sq l' /\ Forall (sim t) l' /\ (lv = 0 -> l' = l /\ Forall (fun x => nomark x = true) l').
  Definition outcome (lv : nat) (t : ltree) (r : xres ltree) : Prop :=
    match nest lv t with
    | Some l => exists l', r = XOk (pack l') /\ good lv t l' l
    | None => exists e, r = XRaise e
    end.
  Definition main (t : ltree) : Prop :=
    forall lv log, exists r log', ev (fun n => visit E n t (st lv log) = Some (r, st lv log')) /\ outcome lv t r.
  Lemma good_nodes lv t l' l : good lv t l' l -> Forall (fun x => is_node x = true) l'.
  Proof. intros (_ & _ & _ & _ & H & _). eapply Forall_impl; [|exact H]. intros x. apply sim_is_node. Qed.

  (** ** Lists and fields *)
  Definition list_good (lv : nat) (l : list ltree) (ll : list (list ltree)) (a : list ltree) : Prop :=
    Forall2 rep l ll /\ Forall2 dl (concat ll) a /\ Forall mok a /\ Forall sq (concat ll) /\ (lv = 0 -> concat ll = a /\ Forall (fun x => nomark x = true) a).
  Lemma list_cons lv x l l' a ll as_ : is_node x = true -> good lv x l' a -> list_good lv l ll as_ -> list_good lv (x :: l) (l' :: ll) (a ++ as_).
  Proof.
    intros Hx (G1 & G2 & G3 & G4 & G5 & G6) (L1 & L2 & L3 & L4 & L5). unfold list_good. cbn [concat]. repeat split.
    - constructor; [|exact L1]. split; [exact G1|]. left. auto.
    - apply Forall2_app; assumption.
    - apply Forall_app; auto.
    - apply Forall_app; auto.
    - destruct (G6 H) as [-> _], (L5 H) as [-> _]. reflexivity.
    - destruct (G6 H) as [<- N1], (L5 H) as [_ N2]. apply Forall_app. auto.
  Qed.
  Lemma items_ok l : Forall (fun x => is_node x = true -> main x) l -> Forall (fun x => is_list x = false) l ->
    forall lv log, exists r log', ev (fun n => xgv_list (visit E n) l (st lv log) = Some (r, st lv log')) /\
      match nest_items lv l with Some a => exists ll, r = XOk (concat ll) /\ list_good lv l ll a | None => exists e, r = XRaise e end.
  Proof.
    intros H Hl lv. induction l as [|x l IH]; intros log.
    - exists (XOk []), log. split; [exists 0; reflexivity|]. exists []. split; [reflexivity|]. repeat split; constructor.
    - inversion H as [|? ? Hx HIH]; subst. inversion Hl as [|? ? Nx HL]; subst. cbn [NestSpec.nest_items]. fold (NestSpec.nest_items opn (code qb) filename unparse cov_text lv). destruct x as [m k fs|l0|a]; [|discriminate|].
      + destruct (Hx eq_refl lv log) as (r & log1 & V & O). unfold outcome in O. destruct (nest lv (Nd m k fs)) as [a|].
        * destruct O as (l' & -> & G). destruct (IH HIH HL log1) as (r2 & log2 & V2 & O2). pose proof (good_nodes _ _ _ _ G) as Gn.
          exists (match r2 with XOk rest => XOk (l' ++ rest) | XRaise e => XRaise e end), log2. split.
          -- refine (ev_impl _ _ (ev_and _ _ V V2) _). intros n [V1 V3]. cbn [xgv_list]. unfold bnd. rewrite V1. destruct G as (Gne & _). destruct l' as [|y [|z l']]; [contradiction| |].
             ++ cbn [pack]. inversion Gn; subst. destruct y; try discriminate. rewrite V3. destruct r2; reflexivity.
             ++ cbn [pack]. rewrite V3. destruct r2; reflexivity.
          -- destruct (nest_items lv l) as [as_|]; cbn [option_map].
             ++ destruct O2 as (ll & -> & L). exists (l' :: ll). split; [reflexivity|]. apply list_cons; auto.
             ++ destruct O2 as (e & ->). eauto.
        * destruct O as (e & ->). exists (XRaise e), log1. split; [|eauto]. refine (ev_impl _ _ V _). intros n V1. cbn [xgv_list]. unfold bnd. rewrite V1. reflexivity.
      + destruct (IH HIH HL log) as (r2 & log2 & V2 & O2). exists (match r2 with XOk rest => XOk (At a :: rest) | XRaise e => XRaise e end), log2. split.
        * refine (ev_impl _ _ V2 _). intros n V3. cbn [xgv_list]. unfold bnd. rewrite V3. destruct r2; reflexivity.
        * destruct (nest_items lv l) as [as_|]; cbn [option_map].
          -- destruct O2 as (ll & -> & (L1 & L2 & L3 & L4 & L5)). exists ([At a] :: ll). split; [reflexivity|]. unfold list_good. cbn [concat app]. repeat split.
             ++ constructor; [|exact L1]. split; [discriminate|]. right. auto.
             ++ constructor; [right; eauto|exact L2].
             ++ constructor; [apply mok_at|exact L3].
             ++ constructor; [apply sq_at|exact L4].
             ++ destruct (L5 H0) as [-> _]. reflexivity.
             ++ destruct (L5 H0) as [_ N]. constructor; [reflexivity|exact N].
          -- destruct O2 as (e & ->). eauto.
  Qed.
  Lemma elts_ok l : Forall (fun x => main x) l -> Forall (fun x => is_node x = true) l ->
    forall lv log, exists r log', ev (fun n => xvisit_elts (visit E n) l (st lv log) = Some (r, st lv log')) /\
      match nest_items lv l with Some a => exists ll, r = XOk (map pack ll) /\ list_good lv l ll a | None => exists e, r = XRaise e end.
  Proof.
    intros H Hl lv. induction l as [|x l IH]; intros log.
    - exists (XOk []), log. split; [exists 0; reflexivity|]. exists []. split; [reflexivity|]. repeat split; constructor.
    - inversion H as [|? ? Hx HIH]; subst. inversion Hl as [|? ? Nx HL]; subst. cbn [NestSpec.nest_items]. fold (NestSpec.nest_items opn (code qb) filename unparse cov_text lv). destruct x as [m k fs|l0|a]; try discriminate.
      destruct (Hx lv log) as (r & log1 & V & O). unfold outcome in O. destruct (nest lv (Nd m k fs)) as [a|].
      + destruct O as (l' & -> & G). destruct (IH HIH HL log1) as (r2 & log2 & V2 & O2).
        exists (match r2 with XOk rest => XOk (pack l' :: rest) | XRaise e => XRaise e end), log2. split.
        * refine (ev_impl _ _ (ev_and _ _ V V2) _). intros n [V1 V3]. cbn [xvisit_elts]. unfold bnd. rewrite V1, V3. destruct r2; reflexivity.
        * destruct (nest_items lv l) as [as_|]; cbn [option_map].
          -- destruct O2 as (ll & -> & L). exists (l' :: ll). split; [reflexivity|]. apply list_cons; auto.
          -- destruct O2 as (e & ->). eauto.
      + destruct O as (e & ->). exists (XRaise e), log1. split; [|eauto]. refine (ev_impl _ _ V _). intros n V1. cbn [xvisit_elts]. unfold bnd. rewrite V1. reflexivity.
  Qed.
  Lemma rep_nodes l ll : Forall2 rep l ll -> Forall (fun x => is_node x = true) l -> Forall (Forall (fun x => is_node x = true)) ll.
  Proof.
    induction 1 as [|x xs l ll [_ [[H1 H2]|[H1 _]]] _ IH]; intros F; inversion F; subst; constructor; auto; [|congruence]. eapply Forall_impl; [|exact H2]. intros y. apply sim_is_node.
  Qed.
  (** The body of a block. *)
  Lemma block_ok l : Forall (fun x => main x) l -> Forall (fun x => is_node x = true) l -> l <> [] ->
    forall lv log, exists r log', ev (fun n => visit E n (Ls l) (st lv log) = Some (r, st lv log')) /\
      match nest_items lv l with Some a => exists ll, r = XOk (Ls (concat ll)) /\ concat ll <> [] /\ Forall (fun x => is_node x = true) (concat ll) /\ list_good lv l ll a | None => exists e, r = XRaise e end.
  Proof.
    intros H Hl Hne lv log. destruct (elts_ok l H Hl lv log) as (r & log' & V & O).
    assert (VB : forall n, visit E (S n) (Ls l) (st lv log) = bnd (xvisit_elts (visit E n) l) (fun l' => match flatten l' with [] => ret NoneT | r => ret (Ls r) end) (st lv log)).
    { intros n. cbn [visit]. unfold visit_body. cbn [s_b]. destruct qb; [contradiction|]. reflexivity. }
    destruct (nest_items lv l) as [a|].
    - destruct O as (ll & -> & L). pose proof (rep_nodes _ _ (proj1 L) Hl) as Hn.
      assert (Hc : concat ll <> []). { destruct L as (R & _). inversion R as [|x xs l0 ll0 [Hxs _]]; subst; [contradiction|]. cbn [concat]. intros Ha. apply app_eq_nil in Ha. tauto. }
      exists (XOk (Ls (concat ll))), log'. split.
      + apply ev_S. refine (ev_impl _ _ V _). intros n V1. rewrite VB. unfold bnd. rewrite V1, (flatten_packs _ Hn). destruct (concat ll); [contradiction|reflexivity].
      + exists ll. split; [reflexivity|]. split; [exact Hc|]. split; [|exact L]. apply Forall_concat. exact Hn.
    - destruct O as (e & ->). exists (XRaise e), log'. split; [|eauto]. apply ev_S. refine (ev_impl _ _ V _). intros n V1. rewrite VB. unfold bnd. rewrite V1. reflexivity.
  Qed.
  Definition fields_good (lv : nat) (fs fs' gs : list (string * ltree)) : Prop :=
    fsims fs fs' /\ Forall2 (fun p q : string * ltree => fst p = fst q /\ vl (snd p) (snd q)) fs' gs /\ (forall f v, In (f, v) gs -> mok v) /\
    (forall f v, In (f, v) fs' -> sq v) /\ (lv = 0 -> fs' = gs /\ forall f v, In (f, v) fs' -> nomark v = true).
  Lemma pack_all (P : ltree -> Prop) (Hls : forall l, (forall x, In x l -> P x) -> P (Ls l)) l : Forall P l -> P (pack l).
  Proof. intros H. destruct l as [|x [|y l]]; cbn [pack]; [apply Hls; intros x []|inversion H; assumption|apply Hls; apply Forall_forall; exact H]. Qed.
  Lemma mok_pack l : Forall mok l -> mok (pack l).
  Proof. apply pack_all. intros l0. apply mok_ls. Qed.
  Lemma sq_pack l : Forall sq l -> sq (pack l).
  Proof. apply pack_all. intros l0. apply sq_ls. Qed.
  Lemma nomark_pack l : Forall (fun x => nomark x = true) l -> nomark (pack l) = true.
  Proof. apply (pack_all (fun x => nomark x = true)). intros l0 H. cbn [nomark]. apply forallb_forall. exact H. Qed.
  Lemma fields_ok fs : Forall (fun p => (is_node (snd p) = true -> main (snd p)) /\ match snd p with Ls l => Forall (fun x => is_node x = true -> main x) l /\ Forall (fun x => is_list x = false) l | _ => True end) fs ->
    forall lv log, exists r log', ev (fun n => xgv_fields (visit E n) fs (st lv log) = Some (r, st lv log')) /\
      match nest_fields lv fs with Some gs => exists fs', r = XOk fs' /\ fields_good lv fs fs' gs | None => exists e, r = XRaise e end.
  Proof.
    intros H lv. induction fs as [|[f v] fs IH]; intros log.
    - exists (XOk []), log. split; [exists 0; reflexivity|]. exists []. split; [reflexivity|]. split; [constructor|]. split; [constructor|]. split; [intros f v []|]. split; [intros f v []|]. intros _. split; [reflexivity|intros f v []].
    - inversion H as [|? ? [Hv Hl] HIH]; subst. cbn [snd] in Hv, Hl.
      assert (ADD : forall v' w, fsim v v' -> vl v' w -> mok w -> sq v' -> (lv = 0 -> v' = w /\ nomark v' = true) -> forall fs' gs, fields_good lv fs fs' gs -> fields_good lv ((f, v) :: fs) ((f, v') :: fs') ((f, w) :: gs)).
      { intros v' w A1 A2 A3 A4 A5 fs' gs (B1 & B2 & B3 & B4 & B5). refine (conj _ (conj _ (conj _ (conj _ _)))).
        - constructor; [split; [reflexivity|exact A1]|exact B1].
        - constructor; [split; [reflexivity|exact A2]|exact B2].
        - intros g z [Hz|Hz]; [inversion Hz; subst; exact A3|exact (B3 g z Hz)].
        - intros g z [Hz|Hz]; [inversion Hz; subst; exact A4|exact (B4 g z Hz)].
        - intros H0. destruct (A5 H0) as [-> N1], (B5 H0) as [-> N2]. split; [reflexivity|]. intros g z [Hz|Hz]; [inversion Hz; subst; exact N1|exact (N2 g z Hz)]. }
      destruct v as [m k fv|l|a].
      + destruct (Hv eq_refl lv log) as (r & log1 & V & O). unfold outcome in O. cbn [nest_fields]. fold (nest_fields lv). destruct (nest lv (Nd m k fv)) as [a|]; cbn [option_map].
        * destruct O as (l' & -> & G). destruct (IH HIH log1) as (r2 & log2 & V2 & O2). pose proof (good_nodes _ _ _ _ G) as Gn.
          exists (match r2 with XOk rest => XOk ((f, pack l') :: rest) | XRaise e => XRaise e end), log2. split.
          -- refine (ev_impl _ _ (ev_and _ _ V V2) _). intros n [V1 V3]. cbn [xgv_fields]. unfold bnd. rewrite V1. destruct G as (Gne & _). destruct l' as [|y [|z l']]; [contradiction| |].
             ++ cbn [pack]. inversion Gn; subst. destruct y; try discriminate. rewrite V3. destruct r2; reflexivity.
             ++ cbn [pack]. rewrite V3. destruct r2; reflexivity.
          -- destruct (nest_fields lv fs) as [gs|]; cbn [option_map].
             ++ destruct O2 as (fs' & -> & L). exists ((f, pack l') :: fs'). split; [reflexivity|]. destruct G as (G1 & G2 & G3 & G4 & G5 & G6). apply ADD; [apply fs_nd; auto|apply vl_pack; exact G2|apply mok_pack; exact G3|apply sq_pack; exact G4| |exact L].
                intros H0. destruct (G6 H0) as [-> N]. split; [reflexivity|apply nomark_pack; exact N].
             ++ destruct O2 as (e & ->). eauto.
        * destruct O as (e & ->). exists (XRaise e), log1. split; [|eauto]. refine (ev_impl _ _ V _). intros n V1. cbn [xgv_fields]. unfold bnd. rewrite V1. reflexivity.
      + destruct Hl as [Hl Hnl]. destruct (items_ok l Hl Hnl lv log) as (r & log1 & V & O). cbn [nest_fields]. fold (nest_fields lv). destruct (nest_items lv l) as [a|]; cbn [option_map].
        * destruct O as (ll & -> & (L1 & L2 & L3 & L4 & L5)). destruct (IH HIH log1) as (r2 & log2 & V2 & O2).
          exists (match r2 with XOk rest => XOk ((f, Ls (concat ll)) :: rest) | XRaise e => XRaise e end), log2. split.
          -- refine (ev_impl _ _ (ev_and _ _ V V2) _). intros n [V1 V3]. cbn [xgv_fields]. unfold bnd. rewrite V1, V3. destruct r2; reflexivity.
          -- destruct (nest_fields lv fs) as [gs|]; cbn [option_map].
             ++ destruct O2 as (fs' & -> & L). exists ((f, Ls (concat ll)) :: fs'). split; [reflexivity|]. apply ADD; [apply fs_ls; exact L1|right; eexists _, _; eauto|apply mok_ls; apply Forall_forall; exact L3|apply sq_ls; apply Forall_forall; exact L4| |exact L].
                intros H0. destruct (L5 H0) as [-> N]. split; [reflexivity|]. cbn [nomark]. apply forallb_forall. apply Forall_forall. exact N.
             ++ destruct O2 as (e & ->). eauto.
        * destruct O as (e & ->). exists (XRaise e), log1. split; [|eauto]. refine (ev_impl _ _ V _). intros n V1. cbn [xgv_fields]. unfold bnd. rewrite V1. reflexivity.
      + cbn [nest_fields]. fold (nest_fields lv). destruct (IH HIH log) as (r2 & log2 & V2 & O2). exists (match r2 with XOk rest => XOk ((f, At a) :: rest) | XRaise e => XRaise e end), log2. split.
        * refine (ev_impl _ _ V2 _). intros n V3. cbn [xgv_fields]. unfold bnd. rewrite V3. destruct r2; reflexivity.
        * destruct (nest_fields lv fs) as [gs|]; cbn [option_map].
          -- destruct O2 as (fs' & -> & L). exists ((f, At a) :: fs'). split; [reflexivity|]. apply ADD; [apply fs_at|left; right; eauto|apply mok_at|apply sq_at|auto|exact L].
          -- destruct O2 as (e & ->). eauto.
  Qed.
End Main.
