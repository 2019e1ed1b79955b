(** C70: debug mode of the unparser. *)
From Coq Require Import NArith ZArith DecimalString Lia.
From Verif Require Import Base UnparseModel PyGrammar UnparseLex UnparseEnds DebugModel DebugSpec DebugProofs.
Open Scope string_scope.
Open Scope list_scope.
Notation ustrip := UnparseModel.strip.

(** ** Captures *)
Lemma str_of_ok e s : str_of e = Ok s -> exists b, e = EConst (CStr b s).
Proof. destruct e; try discriminate. destruct c; try discriminate. cbn. intros E. inversion E. subst. eauto. Qed.
Lemma elts_ok e l : elts_of e = Ok l -> e = ETuple l \/ e = EList l \/ e = ESet l.
Proof. destruct e; try discriminate; cbn; intros E; inversion E; subst; auto. Qed.
Lemma bytes_ok e : is_bytes e = true -> exists f, e = EConst (CBytes f).
Proof. destruct e; try discriminate. destruct c; try discriminate. eauto. Qed.
Lemma quotes_ok e : quotes_reference e = Ok true <-> quotes_module e.
Proof.
  split.
  - unfold quotes_reference. destruct e as [ | | | | | | | | | | | | | | | | |m a| | | | | | | | | ]; try discriminate.
    destruct (String.eqb_spec a "quotes") as [->|Hn].
    + destruct m as [x| | | | | | | | | | | | | | | | | | |f l k| | | | | | | ]; try discriminate.
      * intros E. inversion E as [E']. apply String.eqb_eq in E'. subst. now left.
      * destruct f as [f| | | | | | | | | | | | | | | | | | | | | | | | | | ]; try discriminate. destruct (String.eqb_spec f "__import__") as [->|Hf].
        -- destruct l as [|e l]; try discriminate. destruct e as [|c| | | | | | | | | | | | | | | | | | | | | | | | | ]; try discriminate. destruct c; try discriminate.
           intros E. inversion E as [E']. apply String.eqb_eq in E'. subst. right. eauto.
        -- intros E. exfalso. apply Hf. repeat (destruct f as [|[[] [] [] [] [] [] [] []] f]; try discriminate). reflexivity.
    + intros E. exfalso. apply Hn. repeat (destruct a as [|[[] [] [] [] [] [] [] []] a]; try discriminate). reflexivity.
  - intros [->|(b & l & k & ->)]; reflexivity.
Qed.
Lemma captured_iff e x : captured e = Ok (Some x) <-> capture e x.
Proof.
  split.
  - destruct e as [ | | | | | | | | | | | | | | | | | | |f l k| | | | | | | ]; try discriminate. destruct f as [ | | | | | | | | | | | | | | | | |m f| | | | | | | | | ]; try discriminate.
    cbn [captured]. destruct (smem f _) eqn:Em; [|discriminate]. destruct (quotes_reference m) as [[|]|] eqn:Eq; try discriminate. apply quotes_ok in Eq.
    destruct (String.eqb_spec f "capture_value") as [->|Hn].
    + destruct l as [|v [|n l]]; try discriminate. destruct (str_of n) eqn:Es; try discriminate. intros E. inversion E. subst. destruct (str_of_ok _ _ Es) as (b & ->). now constructor.
    + destruct l as [|t l]; try discriminate. destruct (elts_of t) as [ts|] eqn:Et; try discriminate. apply elts_ok in Et.
      destruct (String.eqb_spec f "lookup_value") as [->|Hv].
      * destruct ts as [|n [|b [|]]]; try discriminate. destruct (str_of n) eqn:Es; try discriminate. destruct (is_bytes b) eqn:Eb; try discriminate. intros E. inversion E. subst.
        destruct (str_of_ok _ _ Es) as (b' & ->). destruct (bytes_ok _ Eb) as (fz & ->). econstructor; eassumption.
      * destruct ts as [|n [|u [|b [|]]]]; try discriminate. destruct (str_of n) eqn:Es; try discriminate. destruct (str_of u) eqn:Eu; try discriminate. destruct (is_bytes b) eqn:Eb; try discriminate. intros E. inversion E. subst.
        destruct (str_of_ok _ _ Es) as (b' & ->). destruct (str_of_ok _ _ Eu) as (b'' & ->). destruct (bytes_ok _ Eb) as (fz & ->).
        assert (f = "lookup_macro") as -> by (cbn [smem existsb] in Em; destruct (String.eqb_spec f "capture_value"), (String.eqb_spec f "lookup_value"), (String.eqb_spec f "lookup_macro"); try congruence; discriminate).
        econstructor; eassumption.
  - intros H. destruct H as [m v b x l k Hm|m t b x f l k Hm Ht|m t b x b' u f l k Hm Ht]; apply quotes_ok in Hm; cbn [captured smem existsb String.eqb Ascii.eqb Bool.eqb orb andb]; rewrite Hm.
    + reflexivity.
    + destruct Ht as [->|[->| ->]]; reflexivity.
    + destruct Ht as [->|[->| ->]]; reflexivity.
Qed.
(** A captured value or macro is shown as $h[name]. *)
Theorem C70_captures_shown printable lineno e x : capture e x -> dunparse printable lineno (TExpr e) = Ok ("$h[" ++ x ++ "]")%string.
Proof.
  intros H. apply captured_iff in H. unfold dunparse, dunp_top.
  assert (D : dunp printable e = w ("$h[" ++ x ++ "]")%string).
  { destruct e; try discriminate. cbn [dunp]. now rewrite H. }
  rewrite D. cbn [cat w]. f_equal. rewrite sapp_nil.
  assert (E : ("$h[" ++ x ++ "]")%string = String "$" ("h[" ++ x ++ "]")) by reflexivity. rewrite E. apply strip_ends; [reflexivity|]. rewrite <- E.
  apply ends_app, ends_app. now exists "", "]"%char.
Qed.
Print Assumptions C70_captures_shown.

(** ** The text *)
Lemma outcome printable t k rs head a b :
  unp_top printable (sub_top t) = b -> shows k a b rs ->
  (exists ts, List.length ts = List.length rs /\ unparse printable (sub_top t) = Ok (ustrip (text_of plain_line rs ts ++ nl)) /\
     match cat [match a with Ok s => Ok (head ++ s)%string | Err x => Err x end; w nl] with Ok s => Ok (ustrip s) | Err x => Err x end = Ok (ustrip (head ++ text_of (debug_line k) rs ts ++ nl))) \/
  (exists x y, unparse printable (sub_top t) = Err x /\ match cat [match a with Ok s => Ok (head ++ s)%string | Err x => Err x end; w nl] with Ok s => Ok (ustrip s) | Err x => Err x end = Err y /\ (y = x \/ malformed y)).
Proof.
  intros Hb [(x & y & Hm & -> & ->)|([ts|x] & -> & -> & Hl)]; unfold unparse; rewrite Hb; cbn [cat rmap w].
  - right. exists y, x. auto.
  - left. exists ts. split; [now apply Hl|]. rewrite !sapp_nil, !sapp_assoc. auto.
  - right. exists x, x. auto.
Qed.
(** For every module: debug mode shows the lines of the source code, with captures by name, each after the number of the statement it belongs to, below a line
    for the module and one level deeper; it raises iff the source code cannot be shown, with the same exception, or one about a malformed capture. *)
Theorem C70_debug_module printable lineno l :
  let rs := concat (mapi (fun j => rows lineno 0 [(0, j)]) 0 l) in
  (exists ts, List.length ts = List.length rs /\
     unparse printable (sub_top (TModule l)) = Ok (ustrip (text_of plain_line rs ts ++ nl)) /\
     dunparse printable lineno (TModule l) = Ok (ustrip ((nl ++ "L ---- $Module:") ++ text_of (debug_line 1) rs ts ++ nl))) \/
  (exists x y, unparse printable (sub_top (TModule l)) = Err x /\ dunparse printable lineno (TModule l) = Err y /\ (y = x \/ malformed y)).
Proof.
  intros rs. pose proof (outcome printable (TModule l) 1 rs (nl ++ "L ---- $Module:") _ _ eq_refl (stmts_shows printable 1 lineno l)) as O.
  assert (E : dunparse printable lineno (TModule l) =
    match cat [match cat (mapi (fun j => dunp_stmt printable lineno "if " 1 [(0, j)]) 0 l) with Ok s => Ok ((nl ++ "L ---- $Module:") ++ s)%string | Err x => Err x end; w nl] with Ok s => Ok (ustrip s) | Err x => Err x end).
  { unfold dunparse. cbn [dunp_top cat w dfill]. destruct (cat (mapi _ _ _)); reflexivity. }
  rewrite E. exact O.
Qed.
Print Assumptions C70_debug_module.
(** The same for lists of statements, without the line for the module. *)
Theorem C70_debug_statements printable lineno l :
  let rs := concat (mapi (fun j => rows lineno 0 [(0, j)]) 0 l) in
  (exists ts, List.length ts = List.length rs /\
     unparse printable (sub_top (TStmts l)) = Ok (ustrip (text_of plain_line rs ts ++ nl)) /\
     dunparse printable lineno (TStmts l) = Ok (ustrip (text_of (debug_line 0) rs ts ++ nl))) \/
  (exists x y, unparse printable (sub_top (TStmts l)) = Err x /\ dunparse printable lineno (TStmts l) = Err y /\ (y = x \/ malformed y)).
Proof.
  intros rs. pose proof (outcome printable (TStmts l) 0 rs "" _ _ eq_refl (stmts_shows printable 0 lineno l)) as O.
  assert (E : dunparse printable lineno (TStmts l) =
    match cat [match cat (mapi (fun j => dunp_stmt printable lineno "if " 0 [(0, j)]) 0 l) with Ok s => Ok ("" ++ s)%string | Err x => Err x end; w nl] with Ok s => Ok (ustrip s) | Err x => Err x end).
  { unfold dunparse. cbn [dunp_top]. destruct (cat (mapi _ _ _)); reflexivity. }
  rewrite E. exact O.
Qed.
Print Assumptions C70_debug_statements.
(** A statement, alone, is shown as in a list. *)
Theorem C70_debug_statement printable lineno s : dunparse printable lineno (TStmt s) = dunparse printable lineno (TStmts [s]) /\ unparse printable (TStmt s) = unparse printable (TStmts [s]).
Proof. unfold dunparse, unparse. cbn [dunp_top unp_top mapi map]. rewrite !cat_one. auto. Qed.
Print Assumptions C70_debug_statement.
(** Expressions have no line numbers. *)
Theorem C70_debug_expression printable lineno e :
  dunparse printable lineno (TExpr e) = unparse printable (sub_top (TExpr e)) \/
  exists x y, unparse printable (sub_top (TExpr e)) = Err x /\ dunparse printable lineno (TExpr e) = Err y /\ malformed y.
Proof.
  unfold dunparse, unparse. cbn [dunp_top unp_top sub_top]. destruct (eR printable e) as [->|(x & y & Hm & -> & ->)]; [now left|]. right. exists y, x. auto.
Qed.
Print Assumptions C70_debug_expression.

(** ** The numbers *)
Lemma spaces_lstrip n s : lstrip (spaces n ++ s) = lstrip s.
Proof. induction n; cbn; auto. Qed.
Lemma digit_space c : is_digit c = true -> is_space c = false.
Proof. destruct c as [[] [] [] [] [] [] [] []]; vm_compute; intros; congruence. Qed.
Lemma decimal_start z : exists c r, decimal z = String c r /\ is_space c = false.
Proof.
  unfold decimal. destruct (Z.ltb z 0); [now exists "-"%char, (repr_int (Z.abs_N z))|]. destruct (repr_int_ok (Z.abs_N z)) as (_ & H & _).
  destruct (repr_int _) as [|c r]; [discriminate|]. exists c, r. split; [reflexivity|]. now apply digit_space.
Qed.
Lemma decimal_lstrip z s : lstrip (pad5 (decimal z) ++ s) = (decimal z ++ s)%string.
Proof. unfold pad5. rewrite sapp_assoc, spaces_lstrip. destruct (decimal_start z) as (c & r & -> & H). cbn [append lstrip]. now rewrite H. Qed.
Lemma repr_int_inj a b : repr_int a = repr_int b -> a = b.
Proof.
  intros H. destruct (repr_int_ok a) as (_ & _ & _ & Ha), (repr_int_ok b) as (_ & _ & _ & Hb). rewrite H, Hb in Ha. inversion Ha as [E].
  now rewrite <- (DecimalN.Unsigned.of_to a), <- (DecimalN.Unsigned.of_to b), E.
Qed.
Lemma slen a b : String.length (a ++ b) = String.length a + String.length b.
Proof. induction a; cbn; auto. Qed.
Lemma app_cancel a b c : (a ++ c = b ++ c)%string -> a = b.
Proof.
  revert b. induction a as [|x a IH]; intros [|y b] H; auto.
  - apply (f_equal String.length) in H. cbn in H. rewrite slen in H. lia.
  - apply (f_equal String.length) in H. cbn in H. rewrite slen in H. lia.
  - cbn in H. inversion H. f_equal. now apply IH.
Qed.
Lemma decimal_inj a b : decimal a = decimal b -> a = b.
Proof.
  unfold decimal. intros H. destruct (repr_int_ok (Z.abs_N a)) as (_ & Ha & _), (repr_int_ok (Z.abs_N b)) as (_ & Hb & _).
  destruct (Z.ltb_spec a 0), (Z.ltb_spec b 0); cbn in H.
  - inversion H as [E]. apply repr_int_inj in E. lia.
  - rewrite <- H in Hb. discriminate.
  - rewrite H in Ha. discriminate.
  - apply repr_int_inj in H. lia.
Qed.
(** The line numbers can be read off: different numbers give different tags, and no number has the tag for no number (but 0, which is no line). *)
Theorem C70_line_numbers_readable a b :
  a <> 0%Z -> (b <> Some 0%Z) -> tag (Some a) = tag b -> b = Some a.
Proof.
  intros Ha Hb. unfold tag. apply Z.eqb_neq in Ha. rewrite Ha. destruct b as [b|].
  - destruct (Z.eqb_spec b 0) as [->|_]; [congruence|]. intros E. inversion E as [E']. apply (f_equal lstrip) in E'. rewrite !decimal_lstrip in E'. apply app_cancel in E'. apply decimal_inj in E'. congruence.
  - intros E. exfalso. inversion E as [E']. apply (f_equal lstrip) in E'. rewrite decimal_lstrip in E'. unfold decimal in E'.
    destruct (repr_int_ok (Z.abs_N a)) as (_ & H & _). destruct (repr_int (Z.abs_N a)) as [|c r]; [discriminate|]. cbn in H. destruct (Z.ltb a 0); inversion E'; subst; discriminate.
Qed.
Print Assumptions C70_line_numbers_readable.
(** Line numbers of at most five digits make tags of the same width as that for no number, so that the code lines up. *)
Lemma acc_lower u : forall p, (Pos.of_uint_acc u p >= p)%positive /\ (N.pos (Pos.of_uint_acc u p) >= N.pos p * 10 ^ N.of_nat (Decimal.nb_digits u))%N.
Proof.
  assert (T : forall n, (10 ^ N.of_nat (S n) = 10 * 10 ^ N.of_nat n)%N) by (intros; rewrite Nat2N.inj_succ; apply N.pow_succ_r').
  induction u as [|u IH|u IH|u IH|u IH|u IH|u IH|u IH|u IH|u IH|u IH]; intros p; [split; cbn; lia|..].
  all: cbn [Pos.of_uint_acc Decimal.nb_digits]; rewrite T; match goal with |- context [Pos.of_uint_acc _ ?q] => destruct (IH q) as [H1 H2] end; split; [lia|nia].
Qed.
Lemma digits_lower u : match u with Decimal.Nil | Decimal.D0 _ => True | _ => (N.of_uint u >= 10 ^ N.of_nat (Nat.pred (Decimal.nb_digits u)))%N end.
Proof.
  destruct u as [|u|u|u|u|u|u|u|u|u|u]; [exact I|exact I|..]. all: cbn [N.of_uint Pos.of_uint Decimal.nb_digits Nat.pred].
  all: match goal with |- context [Pos.of_uint_acc ?v ?q] => destruct (acc_lower v q) as [_ H] end; nia.
Qed.
Lemma string_digits u : u <> Decimal.Nil -> String.length (NilZero.string_of_uint u) = Decimal.nb_digits u.
Proof.
  assert (H : forall u, String.length (NilEmpty.string_of_uint u) = Decimal.nb_digits u) by (induction u0; cbn; auto).
  intros Hn. unfold NilZero.string_of_uint. destruct u; try congruence; apply H.
Qed.
Lemma repr_short n : (n <= 99999)%N -> 1 <= String.length (repr_int n) <= 5.
Proof.
  intros H. unfold repr_int. assert (Hn := to_uint_norm n). assert (Hz : N.to_uint n <> Decimal.Nil) by (rewrite <- Hn; apply unorm_nonnil).
  rewrite string_digits by exact Hz. pose proof (digits_lower (N.to_uint n)) as D. rewrite DecimalN.Unsigned.of_to in D.
  assert (B : forall k, (n >= 10 ^ N.of_nat k)%N -> k <= 4).
  { intros k Hk. destruct (Nat.leb_spec k 4); [assumption|]. exfalso. assert (X : (10 ^ 5 <= 10 ^ N.of_nat k)%N) by (apply N.pow_le_mono_r; lia). change (10 ^ 5)%N with 100000%N in X. lia. }
  destruct (N.to_uint n) as [|u|u|u|u|u|u|u|u|u|u]; [congruence|..].
  2-10: apply B in D; cbn [Decimal.nb_digits Nat.pred] in *; lia.
  unfold Decimal.unorm in Hn. cbn [Decimal.nzhead] in Hn. assert (u = Decimal.Nil) as ->; [|cbn; lia].
  destruct (Decimal.nzhead u) eqn:E; try congruence. exfalso. apply (nzhead_not0 u u0). congruence.
Qed.
Lemma spaces_len n : String.length (spaces n) = n.
Proof. induction n; cbn; auto. Qed.
Theorem C70_tags_line_up z : (0 < z <= 99999)%Z -> String.length (tag (Some z)) = String.length (tag None).
Proof.
  intros H. unfold tag. replace (Z.eqb z 0) with false by (symmetry; apply Z.eqb_neq; lia). rewrite !slen. unfold pad5, decimal. replace (Z.ltb z 0) with false by (symmetry; apply Z.ltb_ge; lia).
  rewrite slen, spaces_len. assert (Hs := repr_short (Z.abs_N z)). cbn [append String.length]. lia.
Qed.
Print Assumptions C70_tags_line_up.

(** ** Not every program that can be unparsed can be shown in debug mode *)
(** The program [mcpyrate.quotes.lookup_value(key)] has source code; debug mode raises. *)
Theorem C70_debug_total_refuted printable lineno :
  exists e s x, unparse printable (TExpr e) = Ok s /\ dunparse printable lineno (TExpr e) = Err x.
Proof.
  exists (ECall (EAttr (EAttr (EName "mcpyrate") "quotes") "lookup_value") [EName "key"] []), "mcpyrate.quotes.lookup_value(key)", (mkExn "AttributeError" []).
  split; reflexivity.
Qed.
Print Assumptions C70_debug_total_refuted.

(** ** Cases *)
(** [@d]-decorated function with a captured value in a call, an if with an elif and else, and a case. *)
Definition key (x : string) : expr := ECall (EAttr (EAttr (EName "mcpyrate") "quotes") "lookup_value") [ETuple [EConst (CStr false x); EConst (CBytes "pickled")]] [].
Definition prog : list stmt :=
  [SFunction false "f" [] (Args [] [Arg "a" None] None [] [] None []) [SReturn (Some (ECall (key "g") [EName "a"] []))] [EName "d"] None;
   SIf (EName "p") [SPass] [SIf (EName "q") [SExpr (EName "x")] [SBreak]];
   SMatch (EName "v") [Case (PStar None) None [SPass]]].
Definition ln (q : place) : option Z :=
  match q with
  | [(0, 0)] => Some 2%Z | [(4, 0); (0, 0)] => Some 1%Z | [(0, 0); (0, 0)] => Some 3%Z | [(0, 1)] => Some 4%Z | [(0, 0); (0, 1)] => Some 5%Z | [(1, 0); (0, 1)] => Some 6%Z
  | [(0, 0); (1, 0); (0, 1)] => Some 12345%Z | [(1, 0); (1, 0); (0, 1)] => Some 0%Z | _ => None
  end.
Definition lines (l : list string) : string := String.concat nl l.
Example C70_program : dunparse (fun _ => true) ln (TModule prog) = Ok (lines
  ["L ---- $Module:";
   "";
   "L    1     @d";
   "L    2     def f(a):";
   "L    3         return $h[g](a)";
   "L    4     if p:";
   "L    5         pass";
   "L    6     elif q:";
   "L12345         $Expr: x";
   "L    6     else:";
   "L ----         break";
   "L ----     match v:";
   "L ----         case *_:";
   "L ----             pass"]).
Proof. vm_compute. reflexivity. Qed.
Example C70_program_plain : unparse (fun _ => true) (sub_top (TModule prog)) = Ok (lines
  ["@d";
   "def f(a):";
   "    return $h[g](a)";
   "if p:";
   "    pass";
   "elif q:";
   "    x";
   "else:";
   "    break";
   "match v:";
   "    case *_:";
   "        pass"]).
Proof. vm_compute. reflexivity. Qed.
(** The lines of the program, and the texts of the theorem. *)
Example C70_rows : concat (mapi (fun j => rows ln 0 [(0, j)]) 0 (firstn 1 prog)) = [Empty; Row (Some 1%Z) 0 false; Row (Some 2%Z) 0 false; Row (Some 3%Z) 1 false].
Proof. reflexivity. Qed.
Example C70_capture_case : capture (key "g") "g".
Proof. apply (Frozen (EAttr (EName "mcpyrate") "quotes") _ false "g" "pickled" [] []); [now left|now left]. Qed.
(** Near misses are shown as they are. *)
Example C70_near_miss : dunparse (fun _ => true) ln (TExpr (ECall (EAttr (EAttr (EName "macropy") "quotes") "lookup_value") [EName "key"] [])) = Ok "macropy.quotes.lookup_value(key)".
Proof. reflexivity. Qed.
Example C70_tag_case : tag (Some 42%Z) = "L   42 " /\ tag None = "L ---- " /\ tag (Some 123456%Z) = "L123456 ".
Proof. repeat split. Qed.
