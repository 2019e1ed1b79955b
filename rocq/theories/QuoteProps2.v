(** C41, for trees that contain unquotes: compiling and uncompiling. *)
From Verif Require Import Base AstLib FixLocModel QuoteModel QuoteSpec QuoteSpec2 QuoteProofs QuoteProofs2 QuoteProofs3 QuoteProps.

Section Unquotes.
  Variables (user_marker : string -> bool) (has_attr : string -> string -> bool).
  (** The macros that the expander has. *)
  Variable cm : captures.
  Notation astify := (astify user_marker has_attr cm).
  Notation unastify := (unastify has_attr).

  (** What [q] compiles once the unquote macros are expanded: values as in C41, and the markers that u, n, a, s, t and h leave
      behind; a capture is of something other than the name of a macro. Location attributes are where the class has them. *)
  Inductive unquotes : pv -> Prop :=
  | uq_u b : unquotes (nd "Unquote" [("body"%string, b)])
  | uq_n b f : unquotes (nd "LiftSourcecode" [("body"%string, b); ("filename"%string, f)])
  | uq_a b s : unquotes (nd "ASTLiteral" [("body"%string, b); ("syntax"%string, s)])
  | uq_s b : unquotes (nd "ASTList" [("body"%string, b)])
  | uq_t b : unquotes (nd "ASTTuple" [("body"%string, b)])
  | uq_h b n : (forall m x fs, b = PN m "Name" (("id"%string, PA (AStr x)) :: fs) -> cm x = None) ->
      (forall m f v fs, b = PN m "Name" ((f, v) :: fs) -> f = "id"%string) ->
      unquotes (nd "Capture" [("body"%string, b); ("name"%string, n)]).
  Inductive quasi : pv -> Prop :=
  | qs_atom a : (forall r, a <> AComplex r) -> (forall n, a <> AObj n) -> quasi (PA a)
  | qs_list l : Forall quasi l -> quasi (PL l)
  | qs_tuple l : Forall quasi l -> quasi (PT l)
  | qs_set l : Forall quasi l -> quasi (PS l)
  | qs_dict l : Forall (fun kv => quasi (fst kv) /\ quasi (snd kv)) l -> quasi (PD l)
  | qs_node m k fs : is_marker user_marker k = false \/ k = "Done"%string ->
      (has_attr k "lineno" = false -> ln m = None) -> (has_attr k "col_offset" = false -> co m = None) ->
      (has_attr k "end_lineno" = false -> eln m = None) -> (has_attr k "end_col_offset" = false -> eco m = None) ->
      Forall (fun p => quasi (snd p)) fs -> quasi (PN m k fs)
  | qs_unquote x : unquotes x -> quasi x.

  Lemma mapr_back l : Forall (fun x => exists c, astify x = Ok c /\ unastify c = Ok x) l -> exists cs, mapr astify l = Ok cs /\ mapr unastify cs = Ok l.
  Proof.
    induction 1 as [|x l (c & E1 & E2) H (cs & E3 & E4)]; [exists []; split; reflexivity|].
    exists (c :: cs). cbn [mapr]. rewrite E1, E2, E3, E4. split; reflexivity.
  Qed.

  Lemma unquotes_back x : unquotes x -> exists c, astify x = Ok c /\ unastify c = Ok x.
  Proof.
    intros H. destruct H as [b|b f|b s|b|b|b n Hm Hi].
    1-5: eexists; split; reflexivity.
    assert (X : astify (nd "Capture" [("body"%string, b); ("name"%string, n)]) = Ok (p_call (quotes_attr "capture_value") [b; p_const n] [])).
    { cbn [nd QuoteModel.astify]. unfold marker_call. cbn [String.eqb Ascii.eqb Bool.eqb].
      destruct b as [| | | | |m k fs]; try reflexivity. destruct fs as [|[f v] fs]; [reflexivity|].
      destruct v as [[]| | | | |]; try reflexivity. destruct (String.eqb k "Name") eqn:E; [|reflexivity]. apply String.eqb_eq in E. subst k.
      pose proof (Hi m f _ fs eq_refl). subst f. rewrite (Hm m s fs eq_refl). reflexivity. }
    exists (p_call (quotes_attr "capture_value") [b; p_const n] []). split; [exact X|reflexivity].
  Qed.

  (** Compiling succeeds, and uncompiling gives the value back: with its source locations, and with its unquotes. *)
  Theorem C41_unquotes_uncompiled x : call_located has_attr -> quasi x -> exists c, astify x = Ok c /\ unastify c = Ok x.
  Proof.
    intros HC. induction x as [a|l IH|l IH|l IH|l IH|m k fs IH] using pv_ind2; intros H;
      inversion H as [a' H1 H2|l' H1|l' H1|l' H1|l' H1|m' k' fs' H1 L1 L2 L3 L4 H2|y Hy]; subst; try (apply unquotes_back; assumption); clear H.
    - exists (p_const (PA a)). cbn [QuoteModel.astify]. rewrite (liftable_ok a H1 H2). split; reflexivity.
    - destruct (mapr_back l) as (cs & E1 & E2); [rewrite Forall_forall in *; auto|]. cbn [QuoteModel.astify]. rewrite E1. eexists. split; [reflexivity|].
      cbn [QuoteModel.unastify nd String.eqb Ascii.eqb Bool.eqb andb]. rewrite E2. reflexivity.
    - destruct (mapr_back l) as (cs & E1 & E2); [rewrite Forall_forall in *; auto|]. cbn [QuoteModel.astify]. rewrite E1. eexists. split; [reflexivity|].
      cbn [QuoteModel.unastify nd String.eqb Ascii.eqb Bool.eqb andb]. rewrite E2. reflexivity.
    - destruct (mapr_back l) as (cs & E1 & E2); [rewrite Forall_forall in *; auto|]. cbn [QuoteModel.astify]. rewrite E1. eexists. split; [reflexivity|].
      cbn [QuoteModel.unastify nd String.eqb Ascii.eqb Bool.eqb andb]. rewrite E2. reflexivity.
    - assert (G : exists ks vs, mapr (fun kv : pv * pv => let (k, _) := kv in astify k) l = Ok ks /\ mapr (fun kv : pv * pv => let (_, v) := kv in astify v) l = Ok vs /\
                  mapr unastify ks = Ok (map fst l) /\ mapr unastify vs = Ok (map snd l)).
      { clear HC. induction l as [|[k v] l IHl]; [exists [], []; repeat split; reflexivity|]. inversion IH as [|? ? [I1 I2] IH']; inversion H1 as [|? ? [Q1 Q2] H1']; subst. cbn [fst snd] in *.
        destruct (IHl IH' H1') as (ks & vs & E1 & E2 & E3 & E4). destruct (I1 Q1) as (ck & K1 & K2). destruct (I2 Q2) as (cv & V1 & V2).
        exists (ck :: ks), (cv :: vs). cbn [mapr map fst snd]. rewrite K1, K2, V1, V2, E1, E2, E3, E4. repeat split; reflexivity. }
      destruct G as (ks & vs & E1 & E2 & E3 & E4). cbn [QuoteModel.astify]. rewrite E1, E2. eexists. split; [reflexivity|].
      cbn [QuoteModel.unastify nd String.eqb Ascii.eqb Bool.eqb andb]. rewrite E3, E4. do 2 f_equal. clear. induction l as [|[k v] l IH]; [reflexivity|]. cbn [map combine fst snd]. rewrite IH. reflexivity.
    - assert (G : exists cs, astify_fields user_marker has_attr cm fs = Ok cs /\ unastify_kws has_attr cs = Ok fs).
      { clear - IH H2. induction fs as [|[f v] fs IHl]; [exists []; split; reflexivity|]. inversion IH as [|? ? I1 IH']; inversion H2 as [|? ? Q1 H2']; subst. cbn [snd] in *.
        destruct (IHl IH' H2') as (cs & E1 & E2). destruct (I1 Q1) as (c & F1 & F2). exists (p_kw f c :: cs). cbn [astify_fields]. fold (astify_fields user_marker has_attr cm). rewrite F1, E1. split; [reflexivity|].
        unfold p_kw, nd, str. cbn [unastify_kws]. fold (unastify_kws has_attr). cbn [String.eqb Ascii.eqb Bool.eqb andb]. rewrite F2, E2. reflexivity. }
      destruct G as (cs & E1 & E2). destruct H1 as [Hk | ->].
      + rewrite (astify_node (fun _ => true) (fun _ => true) user_marker has_attr (fun _ => Ok (PA ANone)) cm m k fs Hk), E1. eexists. split; [reflexivity|]. rewrite unastify_node, E2, (copy_back has_attr k m HC L1 L2 L3 L4). reflexivity.
      + rewrite astify_done, E1. eexists. split; [reflexivity|]. unfold p_call, nd. rewrite unastify_done, E2. destruct HC as (_ & _ & _ & _ & HD).
        assert (Hm : m = noloc). { destruct m as [a b c d]. cbn [ln co eln eco] in *. rewrite (L1 (HD _)), (L2 (HD _)), (L3 (HD _)), (L4 (HD _)). reflexivity. }
        rewrite Hm. do 2 f_equal. unfold copy_location. cbn [ln co eln eco noloc]. unfold copy1. rewrite !HD, !andb_false_r. reflexivity.
  Qed.
End Unquotes.
Print Assumptions C41_unquotes_uncompiled.

(** f(u[a], h[b.c]) with a location on the call. *)
Definition x_unquoting : pv :=
  PN (mkLoc (Some 3) (Some 0) (Some 3) (Some 9))%Z "Call"
    [("func"%string, x_name "f");
     ("args"%string, PL [nd "Unquote" [("body"%string, x_name "a")]; nd "Capture" [("body"%string, p_attr (x_name "b") "c"); ("name"%string, str "b.c")]])].
Example C41_unquotes_example : call_located x_attr /\ quasi x_user x_attr (fun _ => None) x_unquoting /\
  exists c, astify x_user x_attr (fun _ => None) x_unquoting = Ok c /\ unastify x_attr c = Ok x_unquoting.
Proof.
  split; [repeat split; reflexivity|]. split.
  - unfold x_unquoting, x_name, str. apply qs_node; [left; reflexivity|discriminate ..|]. constructor; cbn [snd].
    + apply qs_node; [left; reflexivity|reflexivity ..|]. repeat (constructor; cbn [snd]); try discriminate.
    + constructor; [|constructor]. cbn [snd]. apply qs_list. constructor; [apply qs_unquote; constructor|]. constructor; [|constructor].
      apply qs_unquote. constructor; intros; discriminate.
  - eexists. split; vm_compute; reflexivity.
Qed.
