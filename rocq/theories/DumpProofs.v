(** A dump reads back as the tree. *)
From Verif Require Import Base UnparseModel PyGrammar PyStmt UnparseSpec StmtSpec UnparseLex UnparseToks UnparseText StmtText UnparseParse DumpModel DumpSpec.
Open Scope string_scope.
Open Scope list_scope.


(** ** Attributes are further fields *)
Section Shape.
  Context {M : Type}.
  Variable printable : ascii -> bool.
  Variable repr_obj : nat -> string.
  Variable attributes : M -> string -> list (string * atom).
  Variable include_attributes multiline color : bool.
  Variable cs : scheme.
  Notation rec := (recurse printable repr_obj attributes include_attributes multiline color cs).
  Notation none := (fun (_ : unit) (_ : string) => @nil (string * atom)).
  Notation rec' := (recurse printable repr_obj none false multiline color cs).
  Lemma recurse_shape : forall t n, rec n t = rec' n (shape attributes include_attributes t).
  Proof.
    induction t as [m k fs IH|l IH|a] using tree_ind'; intros n.
    - cbn [recurse shape]. rewrite app_nil_r. rewrite !map_app. f_equal. f_equal. f_equal. f_equal. f_equal.
      + rewrite !map_map. apply map_ext_in. intros [f v] Hin. rewrite Forall_forall in IH. specialize (IH _ Hin). cbn in IH. now rewrite IH.
      + destruct include_attributes; [|reflexivity]. rewrite !map_map. apply map_ext. intros [f a]. reflexivity.
    - cbn [recurse shape]. rewrite map_map. rewrite (map_ext_in (rec (n + 1)) (fun x => rec' (n + 1) (shape attributes include_attributes x))); [reflexivity|].
      intros x Hx. rewrite Forall_forall in IH. now apply IH.
    - reflexivity.
  Qed.
End Shape.

(** ** Tokens *)
Fixpoint sepsl {A} (t : list A) (l : list (list A)) : list A := match l with [] => [] | [x] => x | x :: r => x ++ t ++ sepsl t r end.
Lemma sepsl_one {A} (t : A) l : sepsl [t] l = seps t l.
Proof. induction l as [|x [|y l] IH]; [reflexivity..|]. change (x ++ [t] ++ sepsl [t] (y :: l) = x ++ t :: seps t (y :: l)). now rewrite IH. Qed.

Definition num_toks (neg : bool) (c : const) : list tok := if neg then [TOp "-"; TConst c] else [TConst c].
Definition datom (a : atom) : list tok :=
  match a with
  | ANone => [TKw "None"]
  | AEllipsis => [TId "Ellipsis"]
  | ABool b => [TKw (if b then "True" else "False")]
  | AInt z => num_toks (Z.ltb z 0) (CInt (Z.abs_N z))
  | AFloat r => num_toks (negative r) (CNum (unsigned r))
  | AComplex r => [TConst (CNum r)]
  | AStr s => [TConst (CStr false s)]
  | ABytes s => [TConst (CBytes s)]
  | AObj _ => []
  end.
(** With the ends of lines, and without. *)
Definition sep_toks (multiline : bool) (n : nat) : list tok := TOp "," :: if multiline then [TNl n] else [].
Section Toks.
  Variable multiline : bool.
  Fixpoint dtoks (prev : nat) (t : tree unit) : list tok :=
    match t with
    | Nd _ k fs =>
        let n := prev + (String.length k + 1) in
        TId k :: TOp "(" :: sepsl (sep_toks multiline n) (map (fun p => match p with (f, v) => TId f :: TOp "=" :: dtoks (n + (String.length f + 1)) v end) fs) ++ [TOp ")"]
    | Ls l => TOp "[" :: sepsl (sep_toks multiline (prev + 1)) (map (dtoks (prev + 1)) l) ++ [TOp "]"]
    | At a => datom a
    end.
End Toks.
Fixpoint vtoks (t : tree unit) : list tok :=
  match t with
  | Nd _ k fs => TId k :: TOp "(" :: seps (TOp ",") (map (fun p => match p with (f, v) => TId f :: TOp "=" :: vtoks v end) fs) ++ [TOp ")"]
  | Ls l => TOp "[" :: seps (TOp ",") (map vtoks l) ++ [TOp "]"]
  | At a => datom a
  end.

Lemma join_seps multiline n d (l : list (list tok * list tok)) rest :
  Forall (fun p => forall d rest, join_lines d (fst p ++ rest) = snd p ++ join_lines d rest) l ->
  join_lines (S d) (sepsl (sep_toks multiline n) (map fst l) ++ rest) = seps (TOp ",") (map snd l) ++ join_lines (S d) rest.
Proof.
  intros H. induction H as [|[a b] l Ha H IH]; [reflexivity|]. destruct l as [|[a' b'] l].
  - cbn [map fst snd sepsl seps]. apply Ha.
  - cbn [map fst snd] in *.
    change (sepsl (sep_toks multiline n) (a :: a' :: map fst l)) with (a ++ sep_toks multiline n ++ sepsl (sep_toks multiline n) (a' :: map fst l)).
    change (seps (TOp ",") (b :: b' :: map snd l)) with (b ++ TOp "," :: seps (TOp ",") (b' :: map snd l)).
    rewrite <- !app_assoc, Ha. f_equal. unfold sep_toks at 1. destruct multiline; cbn [app join_lines]; change (smem "," ["("; "["; "{"]) with false; change (smem "," [")"; "]"; "}"]) with false; cbv iota; now rewrite IH.
Qed.
Lemma join_dtoks multiline : forall t prev d rest, join_lines d (dtoks multiline prev t ++ rest) = vtoks t ++ join_lines d rest.
Proof.
  induction t as [m k fs IH|l IH|a] using tree_ind'; intros prev d rest.
  - cbn [dtoks vtoks app join_lines]. f_equal. f_equal. change (smem "(" ["("; "["; "{"]) with true. cbv iota. rewrite <- !app_assoc.
    set (n := prev + (String.length k + 1)).
    assert (J := join_seps multiline n d (map (fun p => match p with (f, v) => (TId f :: TOp "=" :: dtoks multiline (n + (String.length f + 1)) v, TId f :: TOp "=" :: vtoks v) end) fs) ([TOp ")"] ++ rest)).
    rewrite !map_map in J.
    rewrite (map_ext _ (fun p => match p with (f, v) => TId f :: TOp "=" :: dtoks multiline (n + (String.length f + 1)) v end)) in J by (intros [f v]; reflexivity).
    rewrite (map_ext (fun x => snd _) (fun p => match p with (f, v) => TId f :: TOp "=" :: vtoks v end)) in J by (intros [f v]; reflexivity).
    rewrite J.
    + f_equal.
    + clear J. apply Forall_forall. intros q Hq. apply in_map_iff in Hq as ([f v] & <- & Hin). rewrite Forall_forall in IH. specialize (IH _ Hin). cbn in IH. cbn [fst snd].
      intros d' r'. cbn [app join_lines]. change (smem "=" ["("; "["; "{"]) with false. change (smem "=" [")"; "]"; "}"]) with false. cbv iota. now rewrite IH.
  - cbn [dtoks vtoks app join_lines]. f_equal. change (smem "[" ["("; "["; "{"]) with true. cbv iota. rewrite <- !app_assoc.
    assert (J := join_seps multiline (prev + 1) d (map (fun v => (dtoks multiline (prev + 1) v, vtoks v)) l) ([TOp "]"] ++ rest)).
    rewrite !map_map in J. cbn [fst snd] in J.
    change (fun x => dtoks multiline (prev + 1) x) with (dtoks multiline (prev + 1)) in J. change (fun x => vtoks x) with vtoks in J. rewrite J.
    + f_equal.
    + clear J. apply Forall_forall. intros q Hq. apply in_map_iff in Hq as (v & <- & Hin). rewrite Forall_forall in IH. intros d' r'. cbn [fst snd]. now apply IH.
  - cbn [dtoks vtoks]. destruct a; try reflexivity; cbn [datom num_toks app]; unfold num_toks.
    + destruct (Z.ltb z 0); reflexivity.
    + destruct (negative r); reflexivity.
Qed.

(** ** Text *)
(** No blank at the beginning. *)
Definition nsp (s : string) : bool := negb (starts is_space s).
Lemma nsp_nb s : nsp s = true -> nb s = true.
Proof. destruct s as [|c s]; [reflexivity|]. unfold nsp, nb. cbn [starts]. intros H. destruct (Ascii.eqb_spec " " c) as [<-|]; [discriminate|reflexivity]. Qed.
Lemma efirst_nsp c : efirst c = true -> is_space c = false.
Proof. destruct c as [[] [] [] [] [] [] [] []]; intros H; try reflexivity; discriminate H. Qed.
Lemma EF_nsp s : EF s = true -> nsp s = true.
Proof. destruct s as [|c s]; [discriminate|]. unfold EF, nsp. cbn [starts]. intros H. now rewrite efirst_nsp. Qed.
Lemma idf_nsp s : idf s = true -> nsp s = true.
Proof. intros H. apply EF_nsp. destruct s; [discriminate|]. unfold idf, EF in *. cbn [starts] in *. unfold efirst. now rewrite H. Qed.
Lemma lstrip_nsp x rest : nsp (x ++ rest) = true -> lstrip x = x.
Proof. destruct x as [|c x]; [reflexivity|]. unfold nsp. cbn [append starts lstrip]. intros H. apply negb_true_iff in H. now rewrite H. Qed.
Lemma lf_sep s : lf s = true -> sep s = true.
Proof. intros H. now apply sepd_sep, lf_sepd. Qed.

(** How the text of a value begins. *)
Definition beg (s : string) : bool := nsp s && soft s.
Lemma EF_beg s : EF s = true -> beg s = true.
Proof. intros H. unfold beg. now rewrite EF_nsp, EF_soft. Qed.
Lemma idf_beg s : idf s = true -> beg s = true.
Proof. intros H. unfold beg. now rewrite idf_nsp, idf_soft. Qed.
Lemma beg_nsp s : beg s = true -> nsp s = true.
Proof. unfold beg. intros H. apply andb_true_iff in H. tauto. Qed.
Lemma beg_soft s : beg s = true -> soft s = true.
Proof. unfold beg. intros H. apply andb_true_iff in H. tauto. Qed.

Section Text.
  Variable read : string -> string.
  Variable printable : ascii -> bool.
  Variable repr_obj : nat -> string.
  Variable multiline : bool.
  Variable cs : scheme.
  Notation steps := (steps read).
  Notation none := (fun (_ : unit) (_ : string) => @nil (string * atom)).
  Notation rec := (recurse printable repr_obj none false multiline false cs).
  Definition TX (x : string) (ts : list tok) (F H : string -> bool) : Prop := forall rest, F rest = true -> steps (x ++ rest) ts rest /\ H (x ++ rest)%string = true.

  Lemma LT_TX x ts F H : LT read (w x) ts F H -> TX x ts F H.
  Proof. intros (s & E & X). injection E as <-. exact X. Qed.
  Lemma TX_app a b t1 t2 F1 F H : TX a t1 F1 H -> TX b t2 F F1 -> TX (a ++ b) (t1 ++ t2) F H.
  Proof. intros X1 X2 rest Hr. apply X2 in Hr as [S2 H2]. apply X1 in H2 as [S1 H1]. rewrite sapp_assoc. split; auto. eapply steps_trans; eauto. Qed.
  Lemma TX_weaken x ts (F H F' H' : string -> bool) : TX x ts F H -> (forall s, F' s = true -> F s = true) -> (forall s, H s = true -> H' s = true) -> TX x ts F' H'.
  Proof. intros X HF HH rest Hr. apply HF in Hr. apply X in Hr as [? ?]. auto. Qed.
  Lemma TX_op c F H : (forall rest, F rest = true -> step read (String c rest) = Some (Some (TOp (one c)), rest)) -> (forall rest, H (String c rest) = true) -> TX (one c) [TOp (one c)] F H.
  Proof. intros X Y rest Hr. split; [|apply Y]. apply steps_one; [discriminate|]. now apply X. Qed.

  Lemma TX_lit c : const_ok read c = true -> TX (unp_const printable c) [ctok c] sepd beg.
  Proof. intros H. eapply TX_weaken; [apply LT_TX; apply LT_const; exact H|apply sepd_FE|apply EF_beg]. Qed.
  Lemma lit_EF c rest : const_ok read c = true -> sepd rest = true -> EF (unp_const printable c ++ rest)%string = true.
  Proof. intros H Hr. assert (X := LT_TX _ _ _ _ (LT_const read printable c H)). apply X. now apply sepd_FE. Qed.
  Lemma TX_num neg x c : unp_const printable c = x -> ctok c = TConst c -> const_ok read c = true -> TX ((if neg : bool then "-" else "") ++ x) (num_toks neg c) lf beg.
  Proof.
    intros <- Hc Ho. destruct neg; cbn [num_toks].
    - change [TOp "-"; TConst c] with ([TOp "-"] ++ [TConst c]). rewrite <- Hc. eapply (TX_app "-" _ [TOp "-"] [ctok c] soft).
      + apply TX_op; [|intros; reflexivity]. intros rest Hr. apply (soft_step read "-"); [reflexivity|exact Hr].
      + intros rest Hr. apply lf_sepd in Hr. split; [now apply TX_lit|]. apply EF_soft. now apply lit_EF.
    - cbn [append]. rewrite <- Hc. eapply TX_weaken; [apply TX_lit; exact Ho|apply lf_sepd|auto].
  Qed.
  Lemma signed r : ((if negative r then "-" else "") ++ unsigned r)%string = r.
  Proof.
    destruct r as [|c r]; [reflexivity|]. unfold negative, unsigned. cbn [starts]. destruct (Ascii.eqb_spec "-" c) as [<-|]; reflexivity.
  Qed.
  Lemma TX_atom a : atom_ok read a = true -> TX (repr_atom printable repr_obj a) (datom a) lf beg.
  Proof.
    destruct a as [| |b|z|r|r|s|s|n]; cbn [atom_ok repr_atom datom]; intros H; try discriminate.
    - eapply TX_weaken; [apply (TX_lit CNone); reflexivity|apply lf_sepd|auto].
    - eapply TX_weaken; [apply LT_TX; apply LT_ident; reflexivity|apply lf_sep|apply idf_beg].
    - destruct b; (eapply TX_weaken; [|apply lf_sepd|intros s Hs; exact Hs]); [apply (TX_lit CTrue)|apply (TX_lit CFalse)]; reflexivity.
    - replace (if Z.ltb z 0 then "-" ++ repr_int (Z.abs_N z) else repr_int (Z.abs_N z))%string with ((if Z.ltb z 0 then "-" else "") ++ repr_int (Z.abs_N z))%string by (destruct (Z.ltb z 0); reflexivity).
      now apply TX_num.
    - apply andb_true_iff in H as [H _]. unfold literal in H. apply andb_true_iff in H as [H1 H2]. apply String.eqb_eq in H2.
      rewrite <- (signed r) at 1. apply TX_num; auto.
    - apply andb_true_iff in H as [H _]. unfold literal in H. apply andb_true_iff in H as [H1 H2]. apply String.eqb_eq in H2.
      rewrite <- H2 at 1. eapply TX_weaken; [apply (TX_lit (CNum r)); exact H1|apply lf_sepd|auto].
    - eapply TX_weaken; [apply (TX_lit (CStr false s)); reflexivity|apply lf_sepd|auto].
    - eapply TX_weaken; [apply (TX_lit (CBytes s)); reflexivity|apply lf_sepd|auto].
  Qed.
  Lemma TX_sep n : TX (separator multiline n) (sep_toks multiline n) beg lf.
  Proof.
    unfold separator, sep_toks. destruct multiline.
    - eapply (TX_app "," _ [TOp ","] [TNl n] any).
      + apply TX_op; [|intros; reflexivity]. intros rest _. apply hard_step; reflexivity.
      + intros rest Hr. split; [|reflexivity]. apply steps_one; [discriminate|]. rewrite sapp_assoc. apply nl_step. now apply nsp_nb, beg_nsp.
    - intros rest _. split; [|reflexivity]. cbn [append]. change (String "," (String " " rest)) with ("," ++ String " " rest)%string.
      eapply (st_tok read "," (TOp ",")); [discriminate|apply hard_step; reflexivity|]. apply st_sp. apply st_nil.
  Qed.
  (** [H] for the empty list too. *)
  Lemma TX_concat n l : Forall (fun p => TX (fst p) (snd p) lf beg) l -> TX (String.concat (separator multiline n) (map fst l)) (sepsl (sep_toks multiline n) (map snd l)) lf any.
  Proof.
    intros H. assert (X : l <> [] -> TX (String.concat (separator multiline n) (map fst l)) (sepsl (sep_toks multiline n) (map snd l)) lf beg).
    { induction H as [|[x t] l Hx H IH]; [congruence|]. intros _. destruct l as [|[x' t'] l]; [exact Hx|].
      cbn [map fst snd] in *. change (String.concat (separator multiline n) (x :: x' :: map fst l)) with (x ++ separator multiline n ++ String.concat (separator multiline n) (x' :: map fst l))%string.
      change (sepsl (sep_toks multiline n) (t :: t' :: map snd l)) with (t ++ sep_toks multiline n ++ sepsl (sep_toks multiline n) (t' :: map snd l)).
      eapply TX_app; [exact Hx|]. eapply TX_app; [apply TX_sep|]. apply IH. discriminate. }
    destruct l as [|q l].
    - intros rest _. split; [apply st_nil|reflexivity].
    - eapply TX_weaken; [apply X; discriminate|auto|reflexivity].
  Qed.

  Theorem recurse_toks : forall t n, dumpable read t = true -> TX (rec n t) (dtoks multiline n t) lf beg.
  Proof.
    induction t as [m k fs IH|l IH|a] using tree_ind'; intros prev Hd.
    - cbn [dumpable] in Hd. apply andb_true_iff in Hd as [Hd _]. apply andb_true_iff in Hd as [Hk Hf].
      cbn [recurse dtoks]. unfold maybe_colorize, maybe_colorize_value. rewrite app_nil_r, map_map. set (n := prev + (String.length k + 1)).
      change (TId k :: TOp "(" :: ?x) with ([TId k] ++ [TOp "("] ++ x).
      eapply TX_app.
      { eapply TX_weaken; [apply LT_TX; apply LT_ident; exact Hk|intros s Hs; exact Hs|apply idf_beg]. }
      eapply (TX_app "(" _ [TOp "("] _ any).
      { apply TX_op; [|intros; reflexivity]. intros rest _. apply hard_step; reflexivity. }
      eapply TX_app.
      2:{ apply (TX_op ")" lf lf); [|intros; reflexivity]. intros rest _. apply hard_step; reflexivity. }
      assert (C := TX_concat n (map (fun p => match p with (f, v) => (f ++ "=" ++ rec (n + (String.length f + 1)) v, TId f :: TOp "=" :: dtoks multiline (n + (String.length f + 1)) v)%string end) fs)).
      rewrite !map_map in C.
      rewrite (map_ext _ (fun p => match p with (f, v) => f ++ "=" ++ rec (n + (String.length f + 1)) v end)%string) in C by (intros [f v]; reflexivity).
      rewrite (map_ext (fun x => snd _) (fun p => match p with (f, v) => TId f :: TOp "=" :: dtoks multiline (n + (String.length f + 1)) v end)) in C by (intros [f v]; reflexivity).
      rewrite (map_ext _ (fun p => match p with (f, v) => f ++ "=" ++ rec (n + (String.length f + 1)) v end)%string).
      2:{ intros [f v]. destruct (starts_bracket _); reflexivity. }
      apply C. clear C. apply Forall_forall. intros q Hq. apply in_map_iff in Hq as ([f v] & <- & Hin). rewrite Forall_forall in IH. specialize (IH _ Hin). cbn in IH. cbn [fst snd].
      rewrite forallb_forall in Hf. specialize (Hf _ Hin). cbn beta iota in Hf. apply andb_true_iff in Hf as [Hi Hv].
      change (TId f :: TOp "=" :: ?x) with ([TId f] ++ [TOp "="] ++ x). eapply TX_app.
      { eapply TX_weaken; [apply LT_TX; apply LT_ident; exact Hi|intros s Hs; exact Hs|apply idf_beg]. }
      intros rest Hr.
      assert (X := IH (n + (String.length f + 1)) Hv rest Hr). destruct X as [X1 X2]. split; [|reflexivity]. rewrite sapp_assoc.
      change (TOp "=" :: ?x) with ([TOp "="] ++ x). eapply steps_trans; [|exact X1]. apply (steps_one read "="); [discriminate|]. apply (soft_step read "="); [reflexivity|]. now apply beg_soft.
    - cbn [dumpable] in Hd. rewrite forallb_forall in Hd. rewrite Forall_forall in IH. cbn [recurse dtoks].
      change (TOp "[" :: ?x) with ([TOp "["] ++ x).
      assert (X : forall rest x, In x l -> lf rest = true -> lstrip (rec (prev + 1) x) = rec (prev + 1) x).
      { intros rest x Hx Hr. apply (lstrip_nsp _ rest). apply beg_nsp. now apply (IH x Hx (prev + 1) (Hd _ Hx)). }
      assert (C := TX_concat (prev + 1) (map (fun v => (rec (prev + 1) v, dtoks multiline (prev + 1) v)) l)). rewrite !map_map in C. cbn [fst snd] in C.
      change (fun x => dtoks multiline (prev + 1) x) with (dtoks multiline (prev + 1)) in C.
      replace (match map (rec (prev + 1)) l with [] => "[]" | x :: items => String.concat (separator multiline (prev + 1)) (("[" ++ lstrip x)%string :: items) ++ "]" end)%string
        with ("[" ++ String.concat (separator multiline (prev + 1)) (map (rec (prev + 1)) l) ++ "]")%string.
      2:{ destruct l as [|x l]; [reflexivity|]. cbn [map]. rewrite (X ")" x (or_introl eq_refl) eq_refl).
          destruct (map (rec (prev + 1)) l) as [|y r]; cbn [String.concat]; rewrite ?sapp_assoc; reflexivity. }
      eapply (TX_app "[" _ [TOp "["] _ any).
      { apply TX_op; [|intros; reflexivity]. intros rest _. apply hard_step; reflexivity. }
      eapply TX_app.
      2:{ apply (TX_op "]" lf lf); [|intros; reflexivity]. intros rest _. apply hard_step; reflexivity. }
      apply C. clear C. apply Forall_forall. intros q Hq. apply in_map_iff in Hq as (v & <- & Hin). cbn [fst snd]. apply IH; auto.
    - apply TX_atom. exact Hd.
  Qed.
End Text.

(** ** Parsing *)
Definition num (neg : bool) (c : const) : expr := if neg then EUnary USub (EConst c) else EConst c.
Definition batom (a : atom) : expr :=
  match a with
  | ANone => EConst CNone
  | AEllipsis => EName "Ellipsis"
  | ABool b => EConst (if b then CTrue else CFalse)
  | AInt z => num (Z.ltb z 0) (CInt (Z.abs_N z))
  | AFloat r => num (negative r) (CNum (unsigned r))
  | AComplex r => EConst (CNum r)
  | AStr s => EConst (CStr false s)
  | ABytes s => EConst (CBytes s)
  | AObj _ => EName ""
  end.
Fixpoint expr_of (t : tree unit) : expr :=
  match t with
  | Nd _ k fs => ECall (EName k) [] (map (fun p => match p with (f, v) => Kw (Some f) (expr_of v) end) fs)
  | Ls l => EList (map expr_of l)
  | At a => batom a
  end.

Ltac cb := cbn [opq kwq idq String.eqb Ascii.eqb Bool.eqb].
Section Parse.
  Variable read : string -> string.
  Definition reads (ts : list tok) (e : expr) : Prop :=
    forall L rest, L = LExpr \/ L = LNamed -> stops L rest = true -> E (fun n => p n L (ts ++ rest)) (Some (e, rest)).

  Lemma reads_num neg c : ctok c = TConst c -> const_ok read c = true -> reads (num_toks neg c) (num neg c).
  Proof.
    intros Hc Ho L rest HL Hr. destruct neg; cbn [num_toks num app].
    - apply (up LFactor).
      + apply E_S. cbn [p unq assoc]. cb. rewrite <- Hc. change (ctok c :: rest) with (toks (EConst c) ++ rest).
        estep (reads_at read (EConst c) LFactor rest Ho (stops_le LFactor L rest ltac:(destruct HL as [-> | ->]; reflexivity) Hr)). apply E_const.
      + destruct HL as [-> | ->]; reflexivity.
      + unfold stops in Hr. apply andb_true_iff in Hr as [_ Hr]. rewrite forallb_forall in *. intros K HK.
        assert (In K (upto LPrim L)). { unfold upto in *. apply filter_In in HK as [? HK]. apply filter_In. split; auto. apply andb_true_iff in HK as [HK ->]. apply Nat.ltb_lt in HK. cbn in HK. rewrite andb_true_r. apply Nat.ltb_lt. cbn. lia. }
        rewrite Hr by auto. cbn [andb]. apply filter_In in HK as [_ HK]. destruct K; try reflexivity; discriminate HK.
    - rewrite <- Hc. apply (reads_at read (EConst c)); auto.
  Qed.
  Lemma reads_atom a : atom_ok read a = true -> reads (datom a) (batom a).
  Proof.
    destruct a as [| |b|z|r|r|s|s|n]; cbn [atom_ok datom batom]; intros H; try discriminate.
    - intros L rest _. apply (reads_at read (EConst CNone)). reflexivity.
    - intros L rest _. apply (reads_at read (EName "Ellipsis")). reflexivity.
    - intros L rest _. destruct b; [apply (reads_at read (EConst CTrue))|apply (reads_at read (EConst CFalse))]; reflexivity.
    - now apply reads_num.
    - apply reads_num; [reflexivity|]. apply andb_true_iff in H as [H _]. unfold literal in H. apply andb_true_iff in H as [H _]. exact H.
    - intros L rest _. apply (reads_at read (EConst (CNum r))). apply andb_true_iff in H as [H _]. unfold literal in H. apply andb_true_iff in H as [H _]. exact H.
    - intros L rest _. apply (reads_at read (EConst (CStr false s))). reflexivity.
    - intros L rest _. apply (reads_at read (EConst (CBytes s))). reflexivity.
  Qed.
  (** From a primary to the other levels. *)
  Lemma prim_reads ts e : begins atom1 ts = true -> (forall rest, nameop ":=" (ts ++ rest) = None) ->
    (forall rest, stops LPrim rest = true -> E (fun n => p n LPrim (ts ++ rest)) (Some (e, rest))) -> reads ts e.
  Proof.
    intros Hb Hn H L rest HL Hr. apply (up LPrim); [apply H; eapply stops_prim; eauto|destruct L; reflexivity|].
    unfold stops in Hr. apply andb_true_iff in Hr as [_ Hr]. rewrite forallb_forall in *. intros K HK. apply andb_true_iff. split; [now apply Hr|].
    assert (K = LNamed \/ K <> LNamed) as [->|HN] by (destruct K; (now left) || (now right)).
    - cbn [hdok]. now rewrite Hn.
    - apply begins_hdok; auto. now apply begins_app.
  Qed.
  Lemma vtoks_star t rest : atom_ok read (match t with At a => a | _ => ANone end) = true -> opq "*" (vtoks t ++ rest) = None.
  Proof.
    destruct t as [m k fs|l|a]; try reflexivity. intros H. cbn [vtoks]. destruct a; try reflexivity; try discriminate; cbn [datom]; unfold num_toks.
    - destruct (Z.ltb z 0); reflexivity.
    - destruct (negative r); reflexivity.
  Qed.
  Lemma reads_list k tss its x rest : (forall r, fi (TOp "," :: r) = true) -> Forall2 (RI k fi) tss its -> fi (TOp x :: rest) = true -> opq "," (TOp x :: rest) = None ->
    bad x = true -> smem x ["*"; "**"; "/"; ":"] = false -> E (fun n => p_list n k (seps (TOp ",") tss ++ TOp x :: rest)) (its, false, TOp x :: rest).
  Proof. intros H1 H2 H3 H4 H5 H6. destruct its; [inversion H2; subst; now apply bad_list|]. apply (list_ok k fi); auto. Qed.

  Theorem reads_tree : forall t, dumpable read t = true -> reads (vtoks t) (expr_of t).
  Proof.
    induction t as [m k fs IH|l IH|a] using tree_ind'; intros Hd.
    - cbn [dumpable] in Hd. apply andb_true_iff in Hd as [Hd _]. apply andb_true_iff in Hd as [Hk Hf]. rewrite forallb_forall in Hf. rewrite Forall_forall in IH.
      apply prim_reads; [reflexivity|reflexivity|]. intros rest Hr. cbn [vtoks expr_of]. rewrite <- !app_comm_cons, <- app_assoc. cbn [app].
      apply E_S. cbn [p]. assert (A : forall r, E (fun n => p_atom n (TId k :: r)) (Some (EName k, r))) by (intros r; apply E_S; cbn; apply E_const).
      set (tss := map (fun p => match p with (f, v) => TId f :: TOp "=" :: vtoks v end) fs).
      estep (A (TOp "(" :: seps (TOp ",") tss ++ TOp ")" :: rest)).
      set (kws := map (fun p => match p with (f, v) => Kw (Some f) (expr_of v) end) fs).
      assert (T : E (fun n => p_trail n (EName k) (TOp "(" :: seps (TOp ",") tss ++ TOp ")" :: rest)) (ECall (EName k) [] kws, rest)).
      { apply E_S. cbn [p_trail].
        assert (HS : E (fun n => p_trail (S n) (ECall (EName k) [] kws) rest) (ECall (EName k) [] kws, rest)).
        { unfold stops in Hr. apply andb_true_iff in Hr as [Hr _]. apply andb_true_iff in Hr as [_ Hr]. destruct (trail_stop (ECall (EName k) [] kws) rest Hr) as [M H]. exists M. intros. apply H. lia. }
        apply (E_S (fun n => match p_trailer n (EName k) (TOp "(" :: seps (TOp ",") tss ++ TOp ")" :: rest) with _ => _ end)). cbn [p_trailer]. cb.
        assert (X : E (fun n => p_list n KArg (seps (TOp ",") tss ++ TOp ")" :: rest))
                      (map (fun p => match p with (f, v) => IKw f (expr_of v) end) fs, false, TOp ")" :: rest)).
        { apply reads_list; try reflexivity. subst tss. clear - IH Hf. induction fs as [|[f v] fs IHf]; [constructor|]. cbn [map]. constructor.
          - intros rest Hr. apply E_S. cbn [p_item app]. cb. specialize (IH (f, v) (or_introl eq_refl)). cbn [snd] in IH.
            assert (Hv := Hf _ (or_introl eq_refl)). cbn beta iota in Hv. apply andb_true_iff in Hv as [_ Hv].
            estep (IH Hv LExpr rest (or_introl eq_refl) (fi_stops _ _ Hr)). apply E_const.
          - apply IHf; intros; [apply IH|apply Hf]; auto; now right. }
        assert (CA : call_args false false (map (fun p => match p with (f, v) => IKw f (expr_of v) end) fs) = Some ([], kws)).
        { assert (forall a b, call_args a b (map (fun p => match p with (f, v) => IKw f (expr_of v) end) fs) = Some ([], kws)); auto.
          subst kws. clear. induction fs as [|[f v] fs IH]; intros a b; [reflexivity|]. cbn [map call_args]. now rewrite IH. }
        estep X. cb. rewrite CA. exact HS. }
      estep T. apply E_const.
    - cbn [dumpable] in Hd. rewrite forallb_forall in Hd. rewrite Forall_forall in IH.
      apply prim_reads; [reflexivity|reflexivity|]. intros rest Hr. cbn [vtoks expr_of]. rewrite <- !app_comm_cons, <- app_assoc. cbn [app].
      apply E_S. cbn [p].
      assert (A : E (fun n => p_atom n (TOp "[" :: seps (TOp ",") (map vtoks l) ++ TOp "]" :: rest)) (Some (EList (map expr_of l), rest))).
      { apply E_S. cbn [p_atom]. cb.
        assert (X : E (fun n => p_list n KStarNamed (seps (TOp ",") (map vtoks l) ++ TOp "]" :: rest)) (map IExpr (map expr_of l), false, TOp "]" :: rest)).
        { apply reads_list; try reflexivity. clear - IH Hd. induction l as [|v l IHl]; [constructor|]. cbn [map]. constructor.
          - intros rest Hr. apply E_S. cbn [p_item]. assert (Hv := Hd _ (or_introl eq_refl)). rewrite vtoks_star by (destruct v; auto).
            estep (IH v (or_introl eq_refl) Hv LNamed rest (or_intror eq_refl) (fi_stops _ _ Hr)). apply E_const.
          - apply IHl; intros; [apply IH|apply Hd]; auto; now right. }
        estep X. rewrite exprs_of_map. cb. apply E_const. }
      estep A. unfold stops in Hr. apply andb_true_iff in Hr as [Hr _]. apply andb_true_iff in Hr as [_ Hr]. estep (trail_stop (EList (map expr_of l)) rest Hr). apply E_const.
    - now apply reads_atom.
  Qed.

  (** ** Values *)
  Lemma value_num_int z : value_of (num (Z.ltb z 0) (CInt (Z.abs_N z))) = Some (At (AInt z)).
  Proof.
    destruct (Z.ltb_spec z 0); cbn [num value_of const_value]; rewrite N2Z.inj_abs_N; do 3 f_equal; lia.
  Qed.
  Theorem value_tree : forall t, dumpable read t = true -> value_of (expr_of t) = Some t.
  Proof.
    induction t as [[] k fs IH|l IH|a] using tree_ind'; intros Hd; cbn [dumpable] in Hd; cbn [expr_of].
    - apply andb_true_iff in Hd as [Hd Hn]. apply andb_true_iff in Hd as [_ Hf]. rewrite forallb_forall in Hf. rewrite Forall_forall in IH. cbn [value_of].
      assert (X : sequence (map value_kw (map (fun p => match p with (f, v) => Kw (Some f) (expr_of v) end) fs)) = Some fs).
      { clear Hn. induction fs as [|[f v] fs IHf]; [reflexivity|]. cbn [map sequence value_kw]. assert (Hv := Hf _ (or_introl eq_refl)). cbn beta iota in Hv.
        apply andb_true_iff in Hv as [_ Hv]. assert (IHv := IH (f, v) (or_introl eq_refl) Hv). cbn [snd] in IHv. rewrite IHv. rewrite IHf; [reflexivity| |]; intros; [apply IH|apply Hf]; auto; now right. }
      rewrite X, Hn. reflexivity.
    - rewrite forallb_forall in Hd. rewrite Forall_forall in IH. cbn [value_of].
      assert (X : sequence (map value_of (map expr_of l)) = Some l).
      { induction l as [|v l IHl]; [reflexivity|]. cbn [map sequence]. rewrite (IH v (or_introl eq_refl) (Hd _ (or_introl eq_refl))). rewrite IHl; [reflexivity| |]; intros; [apply IH|apply Hd]; auto; now right. }
      now rewrite X.
    - destruct a as [| |b|z|r|r|s|s|n]; cbn [atom_ok batom] in *; try reflexivity; try discriminate.
      + destruct b; reflexivity.
      + apply value_num_int.
      + apply andb_true_iff in Hd as [_ Hd]. apply negb_true_iff in Hd.
        assert (S := signed r). destruct (negative r); cbn [num value_of const_value]; rewrite Hd; exact (f_equal (fun x => Some (At (AFloat x))) S).
      + apply andb_true_iff in Hd as [_ Hd]. cbn [value_of const_value]. now rewrite Hd.
  Qed.
End Parse.
