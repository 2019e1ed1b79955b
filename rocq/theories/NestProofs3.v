(** The trees that replace others keep the shape of the program, and lemmas on the macro programs, for C55. *)
From Verif Require Import Base AstLib UtilsModel FixLocModel MarkersModel QuoteModel ExpanderModel ExpanderSpec ExpanderProofs ExpanderProofs2 ExpanderProofs3 QuoteSpec QuoteProofs NestModel NestSpec NestProofs NestProofs2.

(** ** Results *)
Definition fresh (x : ltree) : Prop :=
  match x with
  | Nd _ k fs =>
      In k ["Done"; "Unquote"; "LiftSourcecode"; "ASTLiteral"; "ASTList"; "ASTTuple"; "Capture"; "Assign"]%string \/
      (k = "Call"%string /\ exists ma fa, getf "func" fs = Some (Nd ma "Attribute" fa))
  | _ => False
  end.
(** [sim t x]: [x] is (one of) the nodes that replaced [t]. *)
Inductive sim : ltree -> ltree -> Prop :=
| sim_fresh t x : kind_of t = "Subscript"%string \/ kind_of t = "With"%string -> fresh x -> sim t x
| sim_nd m k fs fs' : Forall2 (fun p q : string * ltree => fst p = fst q /\ fsim (snd p) (snd q)) fs fs' -> sim (Nd m k fs) (Nd m k fs')
with fsim : ltree -> ltree -> Prop :=
| fs_at a : fsim (At a) (At a)
| fs_ls l ll : Forall2 (fun x xs => xs <> [] /\ ((is_node x = true /\ Forall (sim x) xs) \/ (is_node x = false /\ xs = [x]))) l ll -> fsim (Ls l) (Ls (concat ll))
| fs_nd t xs : is_node t = true -> xs <> [] -> Forall (sim t) xs -> fsim t (pack xs).
Definition rep (x : ltree) (xs : list ltree) : Prop := xs <> [] /\ ((is_node x = true /\ Forall (sim x) xs) \/ (is_node x = false /\ xs = [x])).
Definition fsims (fs fs' : list (string * ltree)) : Prop := Forall2 (fun p q : string * ltree => fst p = fst q /\ fsim (snd p) (snd q)) fs fs'.

Lemma fsims_get fs fs' f v' : fsims fs fs' -> getf f fs' = Some v' -> exists v, getf f fs = Some v /\ fsim v v'.
Proof.
  induction 1 as [|[g x] [h y] fs fs' [H1 H2] _ IH]; [discriminate|]. cbn [fst snd] in H1, H2. subst h. cbn [getf]. destruct (String.eqb f g); [|exact IH].
  intros E. inversion E; subst. eauto.
Qed.
Lemma fsims_get' fs fs' f v : fsims fs fs' -> getf f fs = Some v -> exists v', getf f fs' = Some v' /\ fsim v v'.
Proof.
  induction 1 as [|[g x] [h y] fs fs' [H1 H2] _ IH]; [discriminate|]. cbn [fst snd] in H1, H2. subst h. cbn [getf]. destruct (String.eqb f g); [|exact IH].
  intros E. inversion E; subst. eauto.
Qed.
Lemma fsims_In fs fs' f v' : fsims fs fs' -> In (f, v') fs' -> exists v, In (f, v) fs /\ fsim v v'.
Proof.
  induction 1 as [|[g x] [h y] fs fs' [H1 H2] _ IH]; [intros []|]. cbn [fst snd] in H1, H2. subst h. intros [E|Hin].
  - inversion E; subst. exists x. split; [left; reflexivity|exact H2].
  - destruct (IH Hin) as (v & Hv & Hs). exists v. split; [right; exact Hv|exact Hs].
Qed.
Lemma pack_nd xs m k fs : pack xs = Nd m k fs -> xs = [Nd m k fs].
Proof. destruct xs as [|x [|]]; cbn; intros H; try discriminate. subst. reflexivity. Qed.
Lemma pack_at xs a : pack xs = At a -> xs = [At a].
Proof. destruct xs as [|x [|]]; cbn; intros H; try discriminate. subst. reflexivity. Qed.
Lemma sim_is_node t x : sim t x -> is_node x = true.
Proof. intros H. inversion H; subst; [destruct x; [reflexivity|contradiction ..]|reflexivity]. Qed.
(** A node in the place of a field comes from a node. *)
Lemma fsim_nd v m k fs : fsim v (Nd m k fs) -> is_node v = true /\ sim v (Nd m k fs).
Proof.
  intros H. inversion H as [| |t xs Ht Hn Hf Heq]; subst. match goal with H : pack _ = _ |- _ => apply pack_nd in H; subst end. inversion Hf; subst. auto.
Qed.
Lemma fsim_at v a : fsim v (At a) -> v = At a.
Proof.
  intros H. inversion H as [| |t xs Ht Hn Hf Heq]; subst; [reflexivity|]. match goal with H : pack _ = _ |- _ => apply pack_at in H; subst end. inversion Hf as [|? ? Hs]; subst. apply sim_is_node in Hs. discriminate.
Qed.
Lemma fsim_ls_nil v : fsim v (Ls []) -> v = Ls [].
Proof.
  intros H. remember (Ls (@nil ltree)) as w eqn:Ew in H. destruct H as [a|l ll Hl|t xs Ht Hn Hf]; [discriminate| |].
  - destruct Hl as [|x xs l' ll' [Hx _]]; [reflexivity|]. exfalso. inversion Ew as [E0]. cbn [concat] in E0. apply app_eq_nil in E0. destruct E0 as [E1 _]. exact (Hx E1).
  - exfalso. destruct xs as [|x [|]]; [exact (Hn eq_refl)| |discriminate]. cbn in Ew. subst x. inversion Hf as [|? ? Hs]; subst. apply sim_is_node in Hs. discriminate.
Qed.
Lemma fresh_not k x : fresh x -> In k ["Name"; "Subscript"; "Tuple"; "withitem"; "With"; "ClassDef"; "FunctionDef"]%string -> kind_of x <> k.
Proof.
  intros H Hk. destruct x as [m k' fs| |]; [|contradiction ..]. cbn [kind_of]. intros ->. cbn in Hk. cbn [fresh In] in H.
  destruct Hk as [<-|[<-|[<-|[<-|[<-|[<-|[<-|[]]]]]]]]; repeat (destruct H as [H|H]; try discriminate); try (destruct H as [H _]; discriminate); contradiction.
Qed.
Lemma sim_kind t m k fs : sim t (Nd m k fs) -> In k ["Name"; "Subscript"; "Tuple"; "withitem"; "With"; "ClassDef"; "FunctionDef"]%string -> exists fs0, t = Nd m k fs0 /\ fsims fs0 fs.
Proof.
  intros H Hk. inversion H as [? ? _ Hf|]; subst; [exfalso; exact (fresh_not k _ Hf Hk eq_refl)|]. eauto.
Qed.
Lemma sim_denotes t x y : sim t x -> denotes x y [] -> denotes t y [].
Proof.
  intros H Hd. inversion Hd as [m fs z Hid|m fs m' fs' z a _ _ _ _|m fs m' fs' z mt fst args Hv Hid Hs He|m fs m' fs' z args Hf Hid Hk Ha]; subst.
  - destruct (sim_kind _ _ _ _ H) as (fs0 & -> & F); [cbn; auto|]. destruct (fsims_get _ _ _ _ F Hid) as (v & Hv & Hs). apply fsim_at in Hs. subst. constructor. exact Hv.
  - destruct (sim_kind _ _ _ _ H) as (fs0 & -> & F); [cbn; auto|].
    destruct (fsims_get _ _ _ _ F Hv) as (v & Hv0 & Sv). apply fsim_nd in Sv. destruct Sv as [_ Sv]. destruct (sim_kind _ _ _ _ Sv) as (fv & -> & Fv); [cbn; auto|].
    destruct (fsims_get _ _ _ _ Fv Hid) as (vi & Hi & Si). apply fsim_at in Si. subst.
    destruct (fsims_get _ _ _ _ F Hs) as (w & Hw & Sw). apply fsim_nd in Sw. destruct Sw as [_ Sw]. destruct (sim_kind _ _ _ _ Sw) as (fw & -> & Fw); [cbn; auto|].
    destruct (fsims_get _ _ _ _ Fw He) as (ve & Hve & Se). apply fsim_ls_nil in Se. subst. eapply dn_many; eassumption.
  - assert (E : exists fs0, t = Nd m "Call" fs0 /\ fsims fs0 fs).
    { inversion H as [? ? _ Hfr|]; subst; [|eauto]. exfalso. cbn [fresh In] in Hfr. destruct Hfr as [Hfr|[_ (ma & fa & Hfa)]]; [repeat (destruct Hfr as [Hfr|Hfr]; try discriminate); contradiction|congruence]. }
    destruct E as (fs0 & -> & F).
    destruct (fsims_get _ _ _ _ F Hf) as (v & Hv0 & Sv). apply fsim_nd in Sv. destruct Sv as [_ Sv]. destruct (sim_kind _ _ _ _ Sv) as (fv & -> & Fv); [cbn; auto|].
    destruct (fsims_get _ _ _ _ Fv Hid) as (vi & Hi & Si). apply fsim_at in Si. subst.
    destruct (fsims_get _ _ _ _ F Hk) as (w & Hw & Sw). apply fsim_ls_nil in Sw. subst.
    destruct (fsims_get _ _ _ _ F Ha) as (w & Hw' & Sw). apply fsim_ls_nil in Sw. subst. eapply dn_call; eassumption.
Qed.
(** Elements of a list come from elements, where nothing is an atom or nodes are nodes. *)
Lemma rep_In (l : list ltree) ll x' : Forall2 rep l ll -> In x' (concat ll) -> exists x, In x l /\ ((is_node x = true /\ sim x x') \/ (is_node x = false /\ x' = x)).
Proof.
  induction 1 as [|x xs l ll [Hne Hx] _ IH]; [intros []|]. cbn [concat]. intros Hin. apply in_app_iff in Hin. destruct Hin as [Hin|Hin].
  - exists x. split; [left; reflexivity|]. destruct Hx as [[H1 H2]|[H1 ->]].
    + rewrite Forall_forall in H2. left. auto.
    + destruct Hin as [<-|[]]. right. auto.
  - destruct (IH Hin) as (y & Hy & Hs). exists y. split; [right; exact Hy|exact Hs].
Qed.
Lemma fsim_ls v l' : fsim v (Ls l') -> (exists l ll, v = Ls l /\ l' = concat ll /\ Forall2 rep l ll) \/ is_node v = true.
Proof.
  intros H. inversion H as [|l ll Hl|t xs Ht Hn Hf Heq]; subst; [left; eauto|right; exact Ht].
Qed.

Section Gen.
  Variables (user_marker : string -> bool) (has_attr : string -> string -> bool).
  Variables (filename : string) (unparse : ltree -> string) (idx : op -> nat) (others : nat -> mdef nat).
  Variables (unique : string -> string) (pickled : nat -> string).
  Variables (loc_text : ltree -> string) (cov_text : loc -> string -> string) (isexc : exn -> bool).
  Variable b : binds.
  Notation E := (nest_env user_marker has_attr filename unparse idx others unique pickled loc_text cov_text isexc).
  Notation qb := (quasi_only idx b).
  Notation opn := (meaning idx b).
  Notation sq := (sq user_marker has_attr filename unparse idx others unique pickled loc_text cov_text isexc b).

  (** A node that is not an invocation, with its fields visited, is not one either. *)
  Lemma kept_node m k fs fs' : shaped (Nd m k fs) -> k <> "Done"%string -> (forall x syn, ~ invokes E qb (Nd m k fs) x syn) ->
    fsims fs fs' -> (forall f v, In (f, v) fs' -> sq v) -> sq (Nd m k fs').
  Proof.
    intros Hs Hd Hi F Hv. pose proof (Hs _ (pt_refl _)) as [Hg Hw].
    assert (NM : forall c c' x args, fsim c c' -> names_macro E qb c' x args -> exists y, names_macro E qb c y []).
    { intros c c' x args Hc Hn. apply names_iff in Hn. destruct Hn as (D & -> & Ho). exists x. apply names_iff. split; [|split; [reflexivity|exact Ho]].
      destruct c' as [m' k' g'|l'|a]; [|inversion D ..]. apply fsim_nd in Hc. exact (sim_denotes _ _ _ (proj2 Hc) D). }
    apply sq_nd; [|intros x syn Hinv|exact Hv].
    - split.
      + intros g Hin. specialize (Hg g Hin). rewrite Forall_forall in *. intros [f ty] Hf. specialize (Hg _ Hf). unfold has_field in *. cbn [fst snd] in *. destruct ty.
        * destruct Hg as (s & Hg). destruct (fsims_get' _ _ _ _ F Hg) as (v' & Hv' & Sv). inversion Sv; subst; [eauto|discriminate].
        * destruct Hg as (v & Hg). destruct (fsims_get' _ _ _ _ F Hg) as (v' & Hv' & _). eauto.
        * destruct Hg as (l & Hg). destruct (fsims_get' _ _ _ _ F Hg) as (v' & Hv' & Sv). inversion Sv; subst; [eauto|discriminate].
      + intros -> l' Hl'. destruct (shaped_field _ _ _ "items" FList Hs ltac:(eexists; split; [cbn; auto 10|cbn; auto])) as [l Hl]. cbn [fst snd] in *. destruct (fsims_get _ _ _ _ F Hl') as (v & Hv0 & Sv). rewrite Hl in Hv0. inversion Hv0; subst v.
        destruct (fsim_ls _ _ Sv) as [(l0 & ll & El & -> & R)|Hn]; [|discriminate]. inversion El; subst l0. specialize (Hw eq_refl l Hl). rewrite Forall_forall in *. intros it Hit.
        destruct (rep_In _ _ _ R Hit) as (x & Hx & [[Hn Sx]|[Hn ->]]); [|apply Hw; exact Hx]. specialize (Hw x Hx). inversion Sx as [? ? Hk _|? ? ? ? Hf]; subst; [|exact Hw].
        destruct Hk as [Hk|Hk]; rewrite Hk in Hw; discriminate.
    - inversion Hinv as [? ? c x0 args Hc Hn|? ? items mi ki fi c x0 args Hit Hin Hc Hn|? ? ? ds c x0 args Hk Hds Hin Hn|? ? x0 i _ _ Hb Hn]; subst.
      + destruct (fsims_get _ _ _ _ F Hc) as (c0 & Hc0 & Sc). destruct (NM _ _ _ _ Sc Hn) as [y Hy]. exact (Hi y "expr"%string (inv_expr _ _ _ _ _ _ _ Hc0 Hy)).
      + destruct (fsims_get _ _ _ _ F Hit) as (v & Hv0 & Sv). destruct (shaped_field _ _ _ "items" FList Hs ltac:(eexists; split; [cbn; auto 10|cbn; auto])) as [l Hl]. cbn [fst snd] in *. rewrite Hl in Hv0. inversion Hv0; subst v.
        destruct (fsim_ls _ _ Sv) as [(l0 & ll & El & -> & R)|Hn']; [|discriminate]. inversion El; subst l0. specialize (Hw eq_refl l Hl). rewrite Forall_forall in Hw.
        destruct (rep_In _ _ _ R Hin) as (it & Hit0 & [[Hn' Sx]|[Hn' E']]); [|subst it; discriminate]. specialize (Hw it Hit0).
        inversion Sx as [? ? Hk _|? ? f0 ? Hf]; subst; [destruct Hk as [Hk|Hk]; rewrite Hk in Hw; discriminate|].
        destruct (fsims_get _ _ _ _ Hf Hc) as (c0 & Hc0 & Sc). destruct (NM _ _ _ _ Sc Hn) as [y Hy]. exact (Hi y "block"%string (inv_block _ _ _ _ _ _ _ _ _ _ _ Hl Hit0 Hc0 Hy)).
      + destruct (fsims_get _ _ _ _ F Hds) as (v & Hv0 & Sv).
        assert (El : exists l, v = Ls l). { destruct Hk as [->| ->]; destruct (shaped_field _ _ _ "decorator_list" FList Hs ltac:(eexists; split; [cbn; auto 10|cbn; auto])) as [l Hl]; cbn [fst snd] in *; exists l; congruence. }
        destruct El as [l ->]. destruct (fsim_ls _ _ Sv) as [(l0 & ll & El & -> & R)|Hn']; [|discriminate]. inversion El; subst l0.
        destruct (rep_In _ _ _ R Hin) as (c0 & Hc0 & [[Hn' Sx]|[Hn' E']]).
        * apply names_iff in Hn. destruct Hn as (D & -> & Ho). apply (Hi x "decorator"%string). eapply inv_dec; [exact Hk|exact Hv0|exact Hc0|]. apply names_iff. split; [exact (sim_denotes _ _ _ Sx D)|]. split; [reflexivity|exact Ho].
        * subst c0. apply (Hi x "decorator"%string). eapply inv_dec; [exact Hk|exact Hv0|exact Hc0|exact Hn].
      + rewrite (no_name_macro _ _ _ _ _ _ _ _ _ _ _ _ _ _ Hb) in Hn. discriminate.
  Qed.
End Gen.
