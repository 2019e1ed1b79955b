(** The text that the unparser writes for an f-string reads as one token. *)
From Verif Require Import Base UnparseModel PyGrammar UnparseSpec UnparseLex UnparseToks.
Open Scope string_scope.
Open Scope list_scope.

(** ** Brackets in the tokens of an expression *)
(** The number of open brackets after the tokens; none if they hold what ends the expression of a field. *)
Fixpoint drun (d : nat) (ts : list tok) : option nat :=
  match ts with
  | [] => Some d
  | t :: r => if Nat.eqb d 0 && (match t with TOp x => smem x [":"; ":="; "}"] | _ => false end) then None else match depth t d with Some d1 => drun d1 r | None => None end
  end.
Lemma drun_app ts us d : drun d (ts ++ us) = match drun d ts with Some d1 => drun d1 us | None => None end.
Proof.
  revert d. induction ts as [|t ts IH]; intros d; [reflexivity|]. cbn [app drun].
  destruct (Nat.eqb d 0 && _); [reflexivity|]. destruct (depth t d); [apply IH|reflexivity].
Qed.
Definition Bal (ts : list tok) : Prop := forall d, drun d ts = Some d.
Definition BalS (ts : list tok) : Prop := forall d, drun (S d) ts = Some (S d).
Definition Cl (ts : list tok) : Prop := forall d, drun (S d) ts = Some d.
Lemma Bal_S ts : Bal ts -> BalS ts.
Proof. intros H d. apply H. Qed.
Lemma Bal_nil : Bal [].
Proof. intros d. reflexivity. Qed.
Lemma BalS_nil : BalS [].
Proof. intros d. reflexivity. Qed.
Lemma Bal_app a b : Bal a -> Bal b -> Bal (a ++ b).
Proof. intros Ha Hb d. rewrite drun_app, Ha. apply Hb. Qed.
Lemma BalS_app a b : BalS a -> BalS b -> BalS (a ++ b).
Proof. intros Ha Hb d. rewrite drun_app, Ha. apply Hb. Qed.
Lemma Cl_app a b : BalS a -> Cl b -> Cl (a ++ b).
Proof. intros Ha Hb d. rewrite drun_app, Ha. apply Hb. Qed.
Lemma Cl_op x : smem x [")"; "]"; "}"] = true -> Cl (op x).
Proof. intros H d. apply smem_In in H. cbn [In] in H. destruct H as [<-|[<-|[<-|[]]]]; reflexivity. Qed.
Lemma Bal_open x ts : smem x ["("; "["; "{"] = true -> Cl ts -> Bal (op x ++ ts).
Proof.
  intros H Hc d. assert (E : drun d (op x) = Some (S d)).
  { apply smem_In in H. cbn [In] in H. destruct H as [<-|[<-|[<-|[]]]]; destruct d; reflexivity. }
  rewrite drun_app, E. apply Hc.
Qed.
Definition plain_tok (t : tok) : bool := match t with TOp x => negb (smem x ["("; "["; "{"; ")"; "]"; "}"]) | _ => true end.
Lemma smem_nil x : smem x [] = false.
Proof. reflexivity. Qed.
Lemma plain_depth t d : plain_tok t = true -> depth t d = Some d.
Proof.
  destruct t; try reflexivity. cbn [plain_tok depth]. unfold smem. cbn [existsb]. intros H. apply negb_true_iff in H.
  repeat (apply orb_false_iff in H as [? H]). repeat match goal with H : String.eqb _ _ = false |- _ => rewrite H; clear H end. reflexivity.
Qed.
Lemma BalS_cons t ts : plain_tok t = true -> BalS ts -> BalS (t :: ts).
Proof. intros Ht H d. cbn [drun Nat.eqb andb]. rewrite plain_depth by exact Ht. apply H. Qed.
Lemma Cl_cons t ts : plain_tok t = true -> Cl ts -> Cl (t :: ts).
Proof. intros Ht H d. cbn [drun Nat.eqb andb]. rewrite plain_depth by exact Ht. apply H. Qed.
Lemma BalS_one t : plain_tok t = true -> BalS [t].
Proof. intros H. apply BalS_cons; auto. apply BalS_nil. Qed.
Lemma BalS_seps t l : plain_tok t = true -> Forall BalS l -> BalS (seps t l).
Proof.
  intros Ht H. induction H as [|x l Hx H IH]; [apply BalS_nil|]. destruct l as [|y l]; [exact Hx|].
  change (seps t (x :: y :: l)) with (x ++ t :: seps t (y :: l)). apply BalS_app; auto. apply BalS_cons; auto.
Qed.
Lemma BalS_tuple l : Forall BalS l -> BalS (tuple_toks l).
Proof.
  intros H. unfold tuple_toks. destruct l as [|x [|y l]]; try (apply BalS_seps; auto). inversion H; subst. apply BalS_app; auto. apply BalS_one. reflexivity.
Qed.
Lemma BalS_flat {A} (f : A -> list tok) l : Forall (fun x => BalS (f x)) l -> BalS (flat_map f l).
Proof. induction 1; cbn [flat_map]; [apply BalS_nil|apply BalS_app; auto]. Qed.
Lemma BalS_cmp o : BalS (cmptoks o).
Proof. destruct o; repeat (apply BalS_cons; [reflexivity|]); apply BalS_nil. Qed.
Lemma BalS_binop o : BalS (op (binop_text o)).
Proof. apply BalS_one. destruct o; reflexivity. Qed.
Lemma Forall_map_in {A B} (P : B -> Prop) (f : A -> B) l : (forall x, In x l -> P (f x)) -> Forall P (map f l).
Proof. intros H. apply Forall_forall. intros y Hy. apply in_map_iff in Hy as (x & <- & Hx). auto. Qed.

Section ArgBal.
  Context {A B : Type} (P : A -> Prop) (Q : A -> Prop) (PB : B -> Prop).
  Variables (wd : A -> option B -> A) (slash star : A) (st ds : A -> A).
  Lemma args_pieces_all pos args v ko kd ka df :
    (forall a d, P a -> match d with Some d => PB d | None => True end -> Q (wd a d)) -> Q slash -> Q star -> (forall a, P a -> Q (st a)) -> (forall a, P a -> Q (ds a)) ->
    Forall P pos -> Forall P args -> match v with Some a => P a | None => True end -> Forall P ko ->
    Forall (fun d => match d with Some d => PB d | None => True end) kd -> match ka with Some a => P a | None => True end -> Forall PB df ->
    Forall Q (args_pieces wd slash star st ds pos args v ko kd ka df).
  Proof.
    intros Hw Hs Ht Hst Hds H1 H2 H3 H4 H5 H6 H7. unfold args_pieces. set (PO := fun d : option B => match d with Some d => PB d | None => True end).
    assert (Z : forall l m, Forall P l -> Forall PO m -> Forall Q (map (fun p => wd (fst p) (snd p)) (zip l m))).
    { intros l m Hl. revert m. induction Hl; intros m Hm; cbn; [constructor|]. destruct Hm; cbn; constructor; auto. }
    assert (D : Forall PO (repeat None (List.length pos + List.length args - List.length df) ++ map Some df)).
    { apply Forall_app. split; [apply Forall_forall; intros x Hx; apply repeat_spec in Hx; subst x; exact I|]. apply Forall_map_in. intros x Hx. rewrite Forall_forall in H7. exact (H7 x Hx). }
    assert (FN : forall n (l : list (option B)), Forall PO l -> Forall PO (firstn n l)). { intros n l Hl. revert n. induction Hl; intros [|n]; cbn; constructor; auto. }
    assert (SN : forall n (l : list (option B)), Forall PO l -> Forall PO (skipn n l)). { intros n l Hl. revert n. induction Hl; intros [|n]; cbn; auto. }
    assert (X1 := Z pos _ H1 (FN (List.length pos) _ D)). assert (X2 := Z args _ H2 (SN (List.length pos) _ D)).
    apply Forall_app. split; [exact X1|]. apply Forall_app. split. { destruct X1; repeat constructor; auto. }
    apply Forall_app. split; [exact X2|]. apply Forall_app. split. { destruct v; [repeat constructor; auto|]. destruct ko; repeat constructor; auto. }
    apply Forall_app. split; [now apply Z|]. destruct ka; repeat constructor; auto.
  Qed.
End ArgBal.

(** No slice at the left end. *)
Fixpoint head_ok (e : expr) : bool :=
  match e with ESlice _ _ _ => false | EAttr e _ | ESub e _ | ECall e _ _ | EStarred e => head_ok e | _ => true end.
Ltac bal := match goal with
  | |- BalS [] => apply BalS_nil
  | |- BalS (op _ ++ _) => first [apply Bal_S; apply Bal_open; [reflexivity|]; bal | apply BalS_app; bal]
  | |- BalS (op _) => apply BalS_one; reflexivity
  | |- BalS [_] => apply BalS_one; reflexivity
  | |- BalS (_ :: _) => apply BalS_cons; [reflexivity|]; bal
  | |- BalS (_ ++ _) => apply BalS_app; bal
  | |- Cl (op _) => apply Cl_op; reflexivity
  | |- Cl (_ ++ _) => apply Cl_app; bal
  | _ => idtac end.
Lemma toks_balanced : forall N e, size e < N -> BalS (toks e) /\ (head_ok e = true -> Bal (toks e)).
Proof.
  induction N as [|N IH]; intros e Hs; [lia|].
  assert (IS : forall e, size e < N -> BalS (toks e)) by (intros; now apply IH).
  assert (IL : forall l, list_sum (map size l) < N -> Forall BalS (map toks l)).
  { intros l Hl. apply Forall_map_in. intros x Hx. apply IS. apply (sum_in size) in Hx. lia. }
  assert (IA : forall a, size_arg a < N -> BalS (toks_arg a)).
  { intros [x [t|]] Ha; cbn [toks_arg size_arg] in *; bal. now apply IS. }
  assert (IAL : forall l, list_sum (map size_arg l) < N -> Forall BalS (map toks_arg l)).
  { intros l Hl. apply Forall_map_in. intros x Hx. apply IA. apply (sum_in size_arg) in Hx. lia. }
  assert (IC : forall g, size_comp g < N -> BalS (toks_comp g)).
  { intros [t i ifs a] Hg. cbn [toks_comp size_comp] in *. apply BalS_app; [destruct a; bal|]. bal; [apply IS; lia|apply IS; lia|].
    apply BalS_flat. apply Forall_forall. intros c Hc. bal. apply IS. apply (sum_in size) in Hc. lia. }
  assert (ICL : forall l, list_sum (map size_comp l) < N -> BalS (flat_map toks_comp l)).
  { intros l Hl. apply BalS_flat. apply Forall_forall. intros x Hx. apply IC. apply (sum_in size_comp) in Hx. lia. }
  assert (IK : forall k, size_kw k < N -> BalS (toks_kw k)).
  { intros [[x|] v] Hk; cbn [toks_kw size_kw] in *; bal; now apply IS. }
  assert (IAR : forall a, size_args a < N -> BalS (toks_args a)).
  { intros [pos args v ko kd ka df] Ha. cbn [toks_args size_args] in *. apply BalS_seps; [reflexivity|]. unfold args_toks.
    apply (args_pieces_all BalS BalS BalS).
    - intros a [d|] H1 H2; cbn [wd_toks]; auto. apply BalS_app; [exact H1|]. apply BalS_cons; [reflexivity|exact H2].
    - bal.
    - bal.
    - intros a H1. bal. exact H1.
    - intros a H1. bal. exact H1.
    - apply IAL. lia.
    - apply IAL. lia.
    - destruct v; [|exact I]. apply IA. lia.
    - apply IAL. lia.
    - apply Forall_map_in. intros [d|] Hd; [|exact I]. apply IS. apply (sum_in (fun d => match d with Some e => size e | None => 0 end)) in Hd. lia.
    - destruct ka; [|exact I]. apply IA. lia.
    - apply IL. lia. }
  assert (B : forall P, Bal P -> BalS P /\ (head_ok e = true -> Bal P)) by (intros P HP; split; [now apply Bal_S|auto]).
  destruct e; cbn [size] in Hs; cbn [toks].
  - apply B. intros d. destruct d; reflexivity.
  - apply B. intros d. destruct c, d; reflexivity.
  - apply B. apply Bal_open; [reflexivity|]. apply Cl_app; [apply IS; lia|]. apply Cl_app; [apply BalS_binop|]. apply Cl_app; [apply IS; lia|]. bal.
  - apply B. apply Bal_open; [reflexivity|]. apply Cl_app; [destruct o; bal|]. apply Cl_app; [apply IS; lia|]. bal.
  - apply B. apply Bal_open; [reflexivity|]. apply Cl_app; [|bal]. apply BalS_seps; [reflexivity|]. apply IL. lia.
  - apply B. apply Bal_open; [reflexivity|]. apply Cl_app; [apply IS; lia|]. apply Cl_app; [|bal]. apply BalS_flat. apply Forall_forall. intros [o x] Hx.
    apply BalS_app; [apply BalS_cmp|]. apply IS. apply (sum_in (fun p => match p with (_, e) => size e end)) in Hx. lia.
  - apply B. apply Bal_open; [reflexivity|]. bal; apply IS; lia.
  - apply B. apply Bal_open; [reflexivity|]. bal; [apply IAR; lia|apply IS; lia].
  - apply B. apply Bal_open; [reflexivity|]. bal; apply IS; lia.
  - apply B. apply Bal_open; [reflexivity|]. apply Cl_app; [|bal]. apply BalS_tuple. apply IL. lia.
  - apply B. apply Bal_open; [reflexivity|]. apply Cl_app; [|bal]. apply BalS_seps; [reflexivity|]. apply IL. lia.
  - apply B. apply Bal_open; [reflexivity|]. apply Cl_app; [|bal]. apply BalS_seps; [reflexivity|]. apply IL. lia.
  - apply B. apply Bal_open; [reflexivity|]. apply Cl_app; [|bal]. apply BalS_seps; [reflexivity|]. apply Forall_map_in. intros [[k|] v] Hx;
      apply (sum_in (fun p => match p with (k, v) => match k with Some e => size e | None => 0 end + size v end)) in Hx; bal; apply IS; lia.
  - apply B. apply Bal_open; [reflexivity|]. bal; [apply IS; lia|apply ICL; lia].
  - apply B. apply Bal_open; [reflexivity|]. bal; [apply IS; lia|apply ICL; lia].
  - apply B. apply Bal_open; [reflexivity|]. bal; [apply IS; lia|apply ICL; lia].
  - apply B. apply Bal_open; [reflexivity|]. bal; [apply IS; lia|apply IS; lia|apply ICL; lia].
  - split; [bal; apply IS; lia|]. intros H. cbn [head_ok] in H. apply Bal_app; [apply IH; [lia|exact H]|]. intros d. destruct d; reflexivity.
  - assert (S2 : Bal (op "[" ++ match e2 with ETuple l => tuple_toks (map toks l) | _ => toks e2 end ++ op "]")).
    { apply Bal_open; [reflexivity|]. apply Cl_app; [|bal]. assert (X : BalS (toks e2)) by (apply IS; lia). destruct e2; try exact X.
      apply BalS_tuple. apply IL. cbn [size] in Hs. lia. }
    split; [apply BalS_app; [apply IS; lia|now apply Bal_S]|]. intros H. apply Bal_app; [apply IH; [lia|exact H]|exact S2].
  - assert (S2 : Bal (op "(" ++ seps (TOp ",") (map toks args ++ map toks_kw kws) ++ op ")")).
    { apply Bal_open; [reflexivity|]. apply Cl_app; [|bal]. apply BalS_seps; [reflexivity|]. apply Forall_app. split; [apply IL; lia|].
      apply Forall_map_in. intros k Hk. apply IK. apply (sum_in size_kw) in Hk. lia. }
    split; [apply BalS_app; [apply IS; lia|now apply Bal_S]|]. intros H. apply Bal_app; [apply IH; [lia|exact H]|exact S2].
  - split; [bal; apply IS; lia|]. intros H. cbn [head_ok] in H. apply Bal_app; [intros d; destruct d; reflexivity|]. apply IH; [lia|exact H].
  - apply B. apply Bal_open; [reflexivity|]. bal. apply IS; lia.
  - apply B. apply Bal_open; [reflexivity|]. bal. destruct e as [e|]; [apply IS; lia|apply BalS_nil].
  - apply B. apply Bal_open; [reflexivity|]. bal. apply IS; lia.
  - split; [|discriminate]. destruct lo, hi, st; bal; apply IS; lia.
  - apply B. intros d. destruct d; reflexivity.
  - apply B. apply Bal_nil.
Qed.
Lemma ok_head read e : ok read e = true -> head_ok e = true.
Proof.
  induction e; cbn [ok head_ok]; intros H; try reflexivity; try discriminate.
  - apply andb_true_iff in H. tauto.
  - apply andb_true_iff in H. tauto.
  - apply andb_true_iff in H as [H _]. apply andb_true_iff in H. tauto.
Qed.
Lemma toks_drun read e : ok read e = true -> drun 0 (toks e) = Some 0.
Proof. intros H. apply (toks_balanced (S (size e))); [lia|]. eapply ok_head; eauto. Qed.
(** An expression that does not begin with a brace. *)
Lemma toks_unbraced read e : ok read e = true -> braced e = false -> exists t ts, toks e = t :: ts /\ t <> TOp "{".
Proof.
  induction e; cbn [ok braced toks]; intros H Hb; try discriminate; try (eexists; eexists; split; [reflexivity|discriminate]).
  - destruct c; eexists; eexists; (split; [reflexivity|discriminate]).
  - apply andb_true_iff in H as [H _]. destruct (IHe H Hb) as (t & ts & -> & Ht). exists t. eexists. split; [reflexivity|exact Ht].
  - apply andb_true_iff in H as [H _]. destruct (IHe1 H Hb) as (t & ts & -> & Ht). exists t. eexists. split; [reflexivity|exact Ht].
  - apply andb_true_iff in H as [H _]. apply andb_true_iff in H as [H _]. destruct (IHe H Hb) as (t & ts & -> & Ht). exists t. eexists. split; [reflexivity|exact Ht].
Qed.

(** ** Reading an f-string *)
Section Fstr.
  Variable read : string -> string.
  Notation step := (step read).
  Notation steps := (steps read).
  Notation fstep := (fstep read).
  Notation fscan := (fscan read).
  Notation ffield := (ffield read).

  Lemma fstep_brace n r : fstep n (String "{" r) = Some (Some (TOp "{"), r).
  Proof. apply fstep_step. apply hard_step. reflexivity. Qed.
  (** A step at what ends the expression of a field. *)
  Lemma fstep_end n s t r : field_end s = true -> fstep n s = Some (Some t, r) -> match t with TOp x => smem x [":"; ":="; "}"] | _ => false end = true.
  Proof.
    destruct s as [|c s]; [discriminate|]. cbn [field_end]. intros H E. apply orb_true_iff in H as [H|H]; [apply orb_true_iff in H as [H|H]|].
    - apply Ascii.eqb_eq in H. subst c. rewrite (fstep_step read n _ _ (hard_step read "}" s eq_refl)) in E. injection E as <- _. reflexivity.
    - apply Ascii.eqb_eq in H. subst c.
      assert (X : exists x u, step (String ":" s) = Some (Some (TOp x), u) /\ smem x [":"; ":="; "}"] = true).
      { rewrite step_op by reflexivity. unfold scan_op. destruct s as [|b s]; [exists ":", ""; split; reflexivity|].
        destruct (is_op2 ":" b) eqn:E2; [|exists ":"; eexists; split; reflexivity].
        assert (b = "="%char) as ->.
        { unfold is_op2 in E2. destruct (Ascii.eqb_spec b "="); [assumption|]. exfalso. destruct b as [[] [] [] [] [] [] [] []]; cbn in E2; try discriminate E2; congruence. }
        destruct s; exists ":="; eexists; split; reflexivity. }
      destruct X as (x & u & Ex & Hx). rewrite (fstep_step read n _ _ Ex) in E. injection E as <- _. exact Hx.
    - apply andb_true_iff in H as [H Hs]. apply Ascii.eqb_eq in H. subst c. exfalso.
      assert (X : step (String "!" s) = None).
      { rewrite step_op by reflexivity. unfold scan_op. destruct s as [|b s]; [reflexivity|].
        assert (is_op2 "!" b = false) as ->.
        { cbn [starts] in Hs. apply negb_true_iff in Hs. destruct b as [[] [] [] [] [] [] [] []]; try reflexivity. discriminate Hs. }
        reflexivity. }
      destruct n; cbn [PyGrammar.fstep] in E; rewrite X in E; [discriminate|]. destruct s; cbn in E; discriminate.
  Qed.
  Lemma ffield_S n d s : ffield (S n) d s =
    if Nat.eqb d 0 && field_end s then Some ([], s)
    else match fstep n s with
         | Some (None, r) => ffield n d r
         | Some (Some t, r) => match depth t d with Some d1 => match ffield n d1 r with Some (ts, u) => Some (t :: ts, u) | None => None end | None => None end
         | None => None
         end.
  Proof. reflexivity. Qed.
  Lemma steps_field s ts q : steps s ts q -> field_end q = true -> forall d, drun d ts = Some 0 -> forall n, String.length s <= n -> ffield n d s = Some (ts, q).
  Proof.
    intros H Hq. induction H as [s|x t r ts q Hx Hf H IH|r ts q H IH]; intros d Hd n Hn.
    - cbn in Hd. injection Hd as ->. destruct n as [|n]; [destruct s; [discriminate|cbn in Hn; lia]|]. rewrite ffield_S. cbn [Nat.eqb andb]. now rewrite Hq.
    - assert (Hl := Hn). rewrite slen_app in Hl. destruct x as [|c x]; [congruence|]. cbn in Hl. destruct n as [|n]; [lia|].
      rewrite ffield_S. cbn [drun] in Hd.
      destruct (Nat.eqb d 0) eqn:Ed; cbn [andb] in Hd |- *.
      + destruct (field_end (String c x ++ r)) eqn:Ee.
        * rewrite (fstep_end n _ _ _ Ee (Hf n Hn)) in Hd. discriminate.
        * rewrite (Hf n Hn). destruct (match t with TOp x => smem x [":"; ":="; "}"] | _ => false end); [discriminate|]. destruct (depth t d) as [d1|]; [|discriminate].
          rewrite (IH Hq d1 Hd n) by lia. reflexivity.
      + rewrite (Hf n Hn). destruct (depth t d) as [d1|]; [|discriminate]. rewrite (IH Hq d1 Hd n) by lia. reflexivity.
    - cbn in Hn. destruct n as [|n]; [lia|]. rewrite ffield_S. change (field_end (String " " r)) with false. rewrite andb_false_r.
      rewrite (fstep_step read n (String " " r) (None, r) eq_refl). apply IH; auto. lia.
  Qed.

  (** ** The text of the parts *)
  Definition vf (s : string) : bool := starts (fun c => has_char c "}!:") s.
  (** The text [s] of an expression, with tokens [ts], as a field takes it. *)
  Definition VT (s : string) (ts : list tok) : Prop :=
    (forall r, vf r = true -> steps (s ++ r) ts r) /\ drun 0 ts = Some 0 /\ (forall r, starts (Ascii.eqb "{") (s ++ r) = false).
  Definition conv_txt (z : Z) : string := if Z.eqb z 115 then "!s" else if Z.eqb z 114 then "!r" else if Z.eqb z 97 then "!a" else "".
  (** The text [s] reads as the parts [l]. *)
  Inductive FT : nat -> string -> list fpart -> Prop :=
  | FT_nil lvl : FT lvl "" []
  | FT_text lvl s t l : ftext_ok s = true -> match l with FText _ :: _ => False | _ => True end -> FT lvl t l -> FT lvl (fstr_escape s ++ t) (FText s :: l)
  | FT_field lvl v ts z t l : lvl < 2 -> VT v ts -> conv_ok z = true -> FT lvl t l -> FT lvl (String "{" (v ++ conv_txt z ++ String "}" t)) (FField ts z None :: l)
  | FT_spec lvl v ts z x m s t l : lvl < 2 -> VT v ts -> conv_ok z = true -> FT (S lvl) s (x :: m) -> FT lvl t l ->
      FT lvl (String "{" (v ++ conv_txt z ++ String ":" (s ++ String "}" t))) (FField ts z (Some (x :: m)) :: l).
  Fixpoint addt (s : string) (l : list fpart) : list fpart := match s with "" => l | String c s => addc c (addt s l) end.
  Lemma addt_text s l : s <> "" -> match l with FText _ :: _ => False | _ => True end -> addt s l = FText s :: l.
  Proof.
    intros Hs Hl. induction s as [|c s IH]; [congruence|]. cbn [addt]. destruct s as [|c' s].
    - cbn [addt]. destruct l as [|[]]; [reflexivity|destruct Hl|reflexivity].
    - rewrite IH by discriminate. reflexivity.
  Qed.
  Definition fchar (c : ascii) : bool := negb (has_char c "{}" || Ascii.eqb c bs || Nat.eqb (nat_of_ascii c) 13 || Nat.eqb (nat_of_ascii c) 0).
  Lemma fscan_char n lvl c t : fchar c = true ->
    fscan (S n) lvl sq (fstr_escape (one c) ++ t) = match fscan n lvl sq t with Some (l, v) => Some (addc c l, v) | None => None end.
  Proof. intros H. destruct c as [[] [] [] [] [] [] [] []]; try discriminate H; reflexivity. Qed.
  Lemma escape_cons c s : fstr_escape (String c s) = (fstr_escape (one c) ++ fstr_escape s)%string.
  Proof. cbn [fstr_escape one]. now rewrite sapp_nil. Qed.
  Lemma escape_len c : 1 <= String.length (fstr_escape (one c)).
  Proof. cbn [fstr_escape one]. rewrite slen_app. destruct (Ascii.eqb c sq); [cbn; lia|]. destruct (Nat.eqb (nat_of_ascii c) 10); cbn; lia. Qed.
  Lemma fscan_text s t lvl l u : all_chars fchar s = true -> (forall n, String.length t <= n -> fscan n lvl sq t = Some (l, u)) ->
    forall n, String.length (fstr_escape s ++ t) <= n -> fscan n lvl sq (fstr_escape s ++ t) = Some (addt s l, u).
  Proof.
    intros Hs Ht. induction s as [|c s IH]; intros n Hn; [apply Ht; exact Hn|]. cbn [all_chars] in Hs. apply andb_true_iff in Hs as [Hc Hs].
    rewrite escape_cons, sapp_assoc in *. rewrite slen_app in Hn. assert (X := escape_len c). destruct n as [|n]; [lia|].
    rewrite fscan_char by exact Hc. rewrite IH by (auto; lia). reflexivity.
  Qed.
  Lemma fscan_open n lvl r : starts (Ascii.eqb "{") r = false -> Nat.ltb lvl 2 = true -> fscan (S n) lvl sq (String "{" r) =
    match ffield n 0 r with
    | Some (ts, r1) =>
        match scan_conv r1 with
        | Some (z, String k r2) =>
            match (if Ascii.eqb k ":" then match fscan n (S lvl) sq r2 with Some (x :: l, r3) => Some (Some (x :: l), r3) | _ => None end
                   else Some (None, String k r2)) with
            | Some (spec, String e r4) =>
                if Ascii.eqb e "}" then match fscan n lvl sq r4 with Some (l, v) => Some (FField ts z spec :: l, v) | None => None end else None
            | _ => None
            end
        | _ => None
        end
    | None => None
    end.
  Proof.
    intros B L. destruct lvl as [|[|lvl]]; [|reflexivity|discriminate]. destruct r as [|c r]; [reflexivity|]. cbn [starts] in B.
    destruct c as [[] [] [] [] [] [] [] []]; try reflexivity. discriminate B.
  Qed.
  (** The tail of a field. *)
  Lemma fscan_field n lvl v ts z r : lvl < 2 -> VT v ts -> conv_ok z = true -> starts (fun c => has_char c "}:") r = true ->
    String.length (String "{" (v ++ conv_txt z ++ r)) <= S n ->
    fscan (S n) lvl sq (String "{" (v ++ conv_txt z ++ r)) =
    match r with
    | String k r2 =>
        match (if Ascii.eqb k ":" then match fscan n (S lvl) sq r2 with Some (x :: l, r3) => Some (Some (x :: l), r3) | _ => None end else Some (None, String k r2)) with
        | Some (spec, String e r4) => if Ascii.eqb e "}" then match fscan n lvl sq r4 with Some (l, v) => Some (FField ts z spec :: l, v) | None => None end else None
        | _ => None
        end
    | "" => None
    end.
  Proof.
    intros Hl (HV & HD & HB) Hz Hr Hn.
    assert (Vf : vf (conv_txt z ++ r) = true).
    { unfold conv_txt. destruct (Z.eqb z 115); [reflexivity|]. destruct (Z.eqb z 114); [reflexivity|]. destruct (Z.eqb z 97); [reflexivity|].
      destruct r as [|c r]; [discriminate|]. unfold vf. cbn [append starts] in *. destruct (has_char c "}!:") eqn:E; [reflexivity|].
      cbn [has_char] in *. destruct (Ascii.eqb c "}"); [discriminate|]. destruct (Ascii.eqb c "!"); [discriminate|]. destruct (Ascii.eqb c ":"); discriminate. }
    assert (Fe : field_end (conv_txt z ++ r) = true).
    { unfold conv_txt. destruct (Z.eqb z 115); [reflexivity|]. destruct (Z.eqb z 114); [reflexivity|]. destruct (Z.eqb z 97); [reflexivity|].
      destruct r as [|c r]; [discriminate|]. cbn [append starts field_end] in *. cbn [has_char] in Hr. destruct (Ascii.eqb c "}"); [reflexivity|].
      destruct (Ascii.eqb c ":"); [reflexivity|discriminate]. }
    assert (F := steps_field _ _ _ (HV _ Vf) Fe 0 HD n). cbn [String.length] in Hn. specialize (F ltac:(lia)).
    assert (C : scan_conv (conv_txt z ++ r) = match r with "" => None | _ => Some (z, r) end).
    { unfold conv_ok in Hz. unfold conv_txt. destruct (Z.eqb_spec z 115) as [->|].
      { destruct r as [|c r]; [discriminate|]. cbn [starts] in Hr. apply has_char_in in Hr. cbn in Hr. destruct Hr as [<-|[<-|[]]]; reflexivity. }
      destruct (Z.eqb_spec z 114) as [->|].
      { destruct r as [|c r]; [discriminate|]. cbn [starts] in Hr. apply has_char_in in Hr. cbn in Hr. destruct Hr as [<-|[<-|[]]]; reflexivity. }
      destruct (Z.eqb_spec z 97) as [->|].
      { destruct r as [|c r]; [discriminate|]. cbn [starts] in Hr. apply has_char_in in Hr. cbn in Hr. destruct Hr as [<-|[<-|[]]]; reflexivity. }
      rewrite !orb_false_r in Hz. apply Z.eqb_eq in Hz. subst z.
      destruct r as [|c r]; [discriminate|]. cbn [starts] in Hr. apply has_char_in in Hr. cbn in Hr. destruct Hr as [<-|[<-|[]]]; reflexivity. }
    assert (B := HB (conv_txt z ++ r)%string). set (W := (v ++ conv_txt z ++ r)%string) in *.
    assert (L : Nat.ltb lvl 2 = true) by (apply Nat.ltb_lt; exact Hl). destruct r as [|k r2]; [discriminate|].
    rewrite fscan_open; [|exact B|exact L]. rewrite F, C. reflexivity.
  Qed.
  Theorem fscan_parts lvl s l : FT lvl s l -> forall t u, (lvl = 0 -> t = String sq u) -> (lvl <> 0 -> t = u /\ starts (Ascii.eqb "}") u = true) ->
    forall n, String.length (s ++ t) <= n -> fscan n lvl sq (s ++ t) = Some (l, u).
  Proof.
    induction 1 as [lvl|lvl s t' l Hs Hl H IH|lvl v ts z t' l Hlv HV Hz H IH|lvl v ts z x m s t' l Hlv HV Hz H1 IH1 H IH]; intros t u H0 HS n Hn.
    - cbn [append] in *. destruct lvl as [|lvl].
      + rewrite (H0 eq_refl) in *. destruct n as [|n]; [cbn in Hn; lia|]. reflexivity.
      + destruct HS as [-> HS]; [discriminate|]. destruct u as [|c u]; [discriminate|]. cbn [starts] in HS. apply Ascii.eqb_eq in HS. subst c.
        destruct n as [|n]; [cbn in Hn; lia|]. reflexivity.
    - rewrite sapp_assoc in *. assert (Hn0 : s <> "" /\ all_chars fchar s = true) by (destruct s; [discriminate|split; [discriminate|exact Hs]]). destruct Hn0 as [Hn0 Ha].
      rewrite <- (addt_text s l Hn0 Hl). apply fscan_text; auto.
    - cbn [append] in *. rewrite !sapp_assoc in *. cbn [append] in *. destruct n as [|n]; [cbn in Hn; lia|].
      rewrite (fscan_field n lvl v ts z (String "}" (t' ++ t))); auto.
      change (Ascii.eqb "}" ":") with false. change (Ascii.eqb "}" "}") with true. cbn iota. rewrite (IH t u H0 HS n); [reflexivity|].
      cbn [String.length] in Hn. rewrite !slen_app in Hn. cbn [String.length] in Hn. rewrite slen_app in *. lia.
    - cbn [append] in *. rewrite !sapp_assoc in *. cbn [append] in *. rewrite !sapp_assoc in *. cbn [append] in *. destruct n as [|n]; [cbn in Hn; lia|].
      rewrite (fscan_field n lvl v ts z (String ":" (s ++ String "}" (t' ++ t)))); auto.
      change (Ascii.eqb ":" ":") with true. cbn iota. cbn [String.length] in Hn. rewrite !slen_app in Hn. cbn [String.length] in Hn. rewrite slen_app in Hn. cbn [String.length] in Hn. rewrite slen_app in Hn.
      rewrite (IH1 (String "}" (t' ++ t)) (String "}" (t' ++ t))).
      + change (Ascii.eqb "}" "}") with true. cbn iota. rewrite (IH t u H0 HS n); [reflexivity|]. rewrite slen_app. lia.
      + discriminate.
      + intros _. split; reflexivity.
      + rewrite slen_app. cbn [String.length]. rewrite slen_app. lia.
  Qed.
  Lemma FT_first lvl s l : FT lvl s l -> starts (Ascii.eqb sq) s = false.
  Proof.
    destruct 1 as [lvl|lvl s t' l Hs Hl H|lvl v ts z t' l Hlv HV Hz H|lvl v ts z x m s t' l Hlv HV Hz H1 H]; try reflexivity.
    destruct s as [|c s]; [discriminate|]. rewrite escape_cons, sapp_assoc. cbn [fstr_escape one]. destruct (Ascii.eqb c sq) eqn:E; [reflexivity|].
    destruct (Nat.eqb (nat_of_ascii c) 10); [reflexivity|]. cbn [append one starts]. now rewrite Ascii.eqb_sym.
  Qed.
  Lemma fstep_f n r : step (String "f" (String sq r)) = None -> fstep (S n) (String "f" (String sq r)) =
    if Ascii.eqb "f" "f" && is_quote sq && negb (match r with String a (String b _) => Ascii.eqb a sq && Ascii.eqb b sq | _ => false end)
    then match fscan n 0 sq r with Some (l, r1) => Some (Some (TF l), r1) | None => None end
    else None.
  Proof. intros H. cbn [PyGrammar.fstep]. rewrite H. reflexivity. Qed.
  (** The whole f-string. *)
  Theorem fstring_steps s l rest : FT 0 s l -> sep rest = true -> steps (String "f" (String sq (s ++ String sq rest))) [TF l] rest.
  Proof.
    intros H Hr. assert (E : String "f" (String sq (s ++ String sq rest)) = (String "f" (String sq (s ++ one sq)) ++ rest)%string).
    { cbn [append]. now rewrite sapp_assoc. }
    rewrite E. apply st_tokn; [discriminate| |apply st_nil]. rewrite <- E. intros n Hn.
    assert (S0 : forall w, step (String "f" (String sq w)) = None) by reflexivity.
    assert (F := fscan_parts 0 s l H (String sq rest) rest (fun _ => eq_refl)).
    destruct n as [|n]; [cbn in Hn; lia|]. rewrite fstep_f by apply S0. cbn [String.length] in Hn.
    rewrite F by (try lia; intros; congruence). change (Ascii.eqb "f" "f") with true. change (is_quote sq) with true. cbn [andb].
    assert (T : match (s ++ String sq rest)%string with String a (String b _) => Ascii.eqb a sq && Ascii.eqb b sq | _ => false end = false).
    { assert (X := FT_first _ _ _ H). destruct s as [|c s].
      - cbn [append]. destruct rest as [|b r]; [reflexivity|]. apply andb_true_iff in Hr as [_ Hr]. cbn [starts] in Hr. apply negb_true_iff in Hr.
        unfold is_quote in Hr. apply orb_false_iff in Hr as [Hr _]. rewrite Hr. apply andb_false_r.
      - cbn [starts] in X. cbn [append]. rewrite Ascii.eqb_sym in X. rewrite X. destruct (s ++ String sq rest)%string; reflexivity. }
    rewrite T. reflexivity.
  Qed.
End Fstr.
