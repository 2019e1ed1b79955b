(** The tokens of an expression, and that they are what the lexer reads from the unparser's text. *)
From Verif Require Import Base UnparseModel PyGrammar UnparseSpec UnparseLex.
Open Scope string_scope.
Open Scope list_scope.

(** ** Tokens *)
Definition op (x : string) : list tok := [TOp x].
Fixpoint seps {A} (t : A) (l : list (list A)) : list A :=
  match l with [] => [] | [x] => x | x :: r => x ++ t :: seps t r end.
Definition ctok (c : const) : tok :=
  match c with CNone => TKw "None" | CTrue => TKw "True" | CFalse => TKw "False" | CEllipsis => TOp "..." | _ => TConst c end.
Definition cmptoks (o : cmpop) : list tok :=
  match o with Is => [TKw "is"] | IsNot => [TKw "is"; TKw "not"] | In_ => [TKw "in"] | NotIn => [TKw "not"; TKw "in"] | _ => [TOp (cmpop_text o)] end.
Definition tuple_toks (l : list (list tok)) : list tok := match l with [x] => x ++ op "," | _ => seps (TOp ",") l end.
Definition opt_toks {A} (f : A -> list tok) (o : option A) : list tok := match o with Some a => f a | None => [] end.

(** The shape of [args_text], for any kind of pieces. *)
Definition args_pieces {A B} (wd : A -> option B -> A) (slash star : A) (stard dstard : A -> A)
  (pos args : list A) (vararg : option A) (kwonly : list A) (kwd : list (option B)) (kwarg : option A) (defaults : list B) : list A :=
  let ds := (repeat None (List.length pos + List.length args - List.length defaults) ++ map Some defaults)%list in
  let first := map (fun p => wd (fst p) (snd p)) (zip pos (firstn (List.length pos) ds)) in
  first ++
  (match first with [] => [] | _ => [slash] end) ++
  map (fun p => wd (fst p) (snd p)) (zip args (skipn (List.length pos) ds)) ++
  (match vararg, kwonly with None, [] => [] | None, _ => [star] | Some a, _ => [stard a] end) ++
  map (fun p => wd (fst p) (snd p)) (zip kwonly kwd) ++
  (match kwarg with Some a => [dstard a] | None => [] end).
Definition wd_toks (a : list tok) (d : option (list tok)) : list tok := match d with Some d => a ++ TOp "=" :: d | None => a end.
Definition args_toks := args_pieces wd_toks (op "/") (op "*") (fun a => TOp "*" :: a) (fun a => TOp "**" :: a).

Fixpoint toks (e : expr) : list tok :=
  match e with
  | EName x => [TId x]
  | EConst c => [ctok c]
  | EBinOp l o r => op "(" ++ toks l ++ op (binop_text o) ++ toks r ++ op ")"
  | EUnary o e => op "(" ++ [match o with Not => TKw "not" | _ => TOp (unop_text o) end] ++ toks e ++ op ")"
  | EBool o l => op "(" ++ seps (TKw (boolop_text o)) (map toks l) ++ op ")"
  | ECompare l r => op "(" ++ toks l ++ flat_map (fun p => match p with (o, e) => cmptoks o ++ toks e end) r ++ op ")"
  | EIfExp b t o => op "(" ++ toks b ++ [TKw "if"] ++ toks t ++ [TKw "else"] ++ toks o ++ op ")"
  | ELambda a b => op "(" ++ [TKw "lambda"] ++ toks_args a ++ op ":" ++ toks b ++ op ")"
  | ENamed t v => op "(" ++ toks t ++ op ":=" ++ toks v ++ op ")"
  | ETuple l => op "(" ++ tuple_toks (map toks l) ++ op ")"
  | EList l => op "[" ++ seps (TOp ",") (map toks l) ++ op "]"
  | ESet l => op "{" ++ seps (TOp ",") (map toks l) ++ op "}"
  | EDict l => op "{" ++ seps (TOp ",") (map (fun p => match p with (k, v) => match k with Some k => toks k | None => [] end ++ op ":" ++ toks v end) l) ++ op "}"
  | EListComp e g => op "[" ++ toks e ++ flat_map toks_comp g ++ op "]"
  | ESetComp e g => op "{" ++ toks e ++ flat_map toks_comp g ++ op "}"
  | EGen e g => op "(" ++ toks e ++ flat_map toks_comp g ++ op ")"
  | EDictComp k v g => op "{" ++ toks k ++ op ":" ++ toks v ++ flat_map toks_comp g ++ op "}"
  | EAttr e x => toks e ++ op "." ++ [TId x]
  | ESub e s => toks e ++ op "[" ++ match s with ETuple l => tuple_toks (map toks l) | _ => toks s end ++ op "]"
  | ECall f a k => toks f ++ op "(" ++ seps (TOp ",") (map toks a ++ map toks_kw k) ++ op ")"
  | EStarred e => op "*" ++ toks e
  | EAwait e => op "(" ++ [TKw "await"] ++ toks e ++ op ")"
  | EYield e => op "(" ++ [TKw "yield"] ++ match e with Some e => toks e | None => [] end ++ op ")"
  | EYieldFrom e => op "(" ++ [TKw "yield"; TKw "from"] ++ toks e ++ op ")"
  | ESlice lo hi st =>
      match lo with Some e => toks e | None => [] end ++ op ":" ++ match hi with Some e => toks e | None => [] end ++
      match st with Some e => op ":" ++ toks e | None => [] end
  | EJoined l => [TF (map toks_part l)]
  | EFormatted _ _ _ => []
  end
with toks_part (e : expr) : fpart :=
  match e with
  | EConst (CStr _ s) => FText s
  | EFormatted v c spec => FField (toks v) c (match spec with Some (EJoined l) => Some (map toks_part l) | _ => None end)
  | _ => FText ""
  end
with toks_args (a : arguments) : list tok :=
  match a with
  | Args posonly args vararg kwonly kwd kwarg defaults =>
      seps (TOp ",") (args_toks (map toks_arg posonly) (map toks_arg args) (match vararg with Some a => Some (toks_arg a) | None => None end) (map toks_arg kwonly)
        (map (fun d => match d with Some d => Some (toks d) | None => None end) kwd)
        (match kwarg with Some a => Some (toks_arg a) | None => None end) (map toks defaults))
  end
with toks_arg (a : arg) : list tok := match a with Arg x ann => [TId x] ++ match ann with Some e => op ":" ++ toks e | None => [] end end
with toks_comp (g : comp) : list tok :=
  match g with Comp t i ifs a => (if a then [TKw "async"] else []) ++ [TKw "for"] ++ toks t ++ [TKw "in"] ++ toks i ++ flat_map (fun c => [TKw "if"] ++ toks c) ifs end
with toks_kw (k : keyword) : list tok := match k with Kw x e => match x with Some x => [TId x; TOp "="] | None => [TOp "**"] end ++ toks e end.

(** ** Sizes *)
Fixpoint size (e : expr) : nat :=
  let osize o := match o with Some e => size e | None => 0 end in
  S match e with
    | EName _ | EConst _ => 0
    | EBinOp l _ r => size l + size r
    | EUnary _ e | EAttr e _ | EStarred e | EAwait e | EYieldFrom e => size e
    | EBool _ l | ETuple l | EList l | ESet l | EJoined l => list_sum (map size l)
    | ECompare l r => size l + list_sum (map (fun p => match p with (_, e) => size e end) r)
    | EIfExp b t o => size b + size t + size o
    | ELambda a b => size_args a + size b
    | ENamed t v => size t + size v
    | EDict l => list_sum (map (fun p => match p with (k, v) => match k with Some e => size e | None => 0 end + size v end) l)
    | EListComp e g | ESetComp e g | EGen e g => size e + list_sum (map size_comp g)
    | EDictComp k v g => size k + size v + list_sum (map size_comp g)
    | ESub e s => size e + size s
    | ECall f a k => size f + list_sum (map size a) + list_sum (map size_kw k)
    | EYield e => osize e
    | ESlice a b c => osize a + osize b + osize c
    | EFormatted e _ s => size e + osize s
    end
with size_args (a : arguments) : nat :=
  match a with
  | Args pos args v kwo kwd kwa ds =>
      list_sum (map size_arg pos) + list_sum (map size_arg args) + match v with Some a => size_arg a | None => 0 end + list_sum (map size_arg kwo) +
      list_sum (map (fun d => match d with Some e => size e | None => 0 end) kwd) + match kwa with Some a => size_arg a | None => 0 end + list_sum (map size ds)
  end
with size_arg (a : arg) : nat := match a with Arg _ o => match o with Some e => size e | None => 0 end end
with size_comp (g : comp) : nat := match g with Comp t i ifs _ => size t + size i + list_sum (map size ifs) end
with size_kw (k : keyword) : nat := match k with Kw _ e => size e end.

Lemma sum_in {A} (f : A -> nat) x l : In x l -> f x <= list_sum (map f l).
Proof. unfold list_sum. induction l as [|y l IH]; cbn; [tauto|]. intros [->|H]; [|apply IH in H]; lia. Qed.

(** ** Pieces of text *)
Section Pieces.
  Variable read : string -> string.
  Notation step := (step read).
  Notation steps := (steps read).

  (** [LT r ts F H]: the text [r] reads as [ts] if what follows satisfies [F], and then satisfies, with what follows, [H]. *)
  Definition LT (r : res string) (ts : list tok) (F H : string -> bool) : Prop :=
    exists s, r = Ok s /\ forall rest, F rest = true -> steps (s ++ rest) ts rest /\ H (s ++ rest)%string = true.
  Definition any (s : string) : bool := true.

  Lemma LT_weaken r ts F H F' H' : LT r ts F H -> (forall s, F' s = true -> F s = true) -> (forall s, H s = true -> H' s = true) -> LT r ts F' H'.
  Proof. intros (s & E & X) HF HH. exists s. split; auto. intros rest Hr. apply HF in Hr. apply X in Hr as [? ?]. auto. Qed.
  Lemma LT_nil F : LT (cat []) [] F F.
  Proof. exists "". split; auto. intros rest Hr. split; auto. apply st_nil. Qed.
  Lemma LT_cons r l t1 t2 F1 F H : LT r t1 F1 H -> LT (cat l) t2 F F1 -> LT (cat (r :: l)) (t1 ++ t2) F H.
  Proof.
    intros (s1 & -> & X1) (s2 & E2 & X2). exists (s1 ++ s2)%string. split. { cbn [cat]. now rewrite E2. }
    intros rest Hr. apply X2 in Hr as [S2 H2]. apply X1 in H2 as [S1 H1]. rewrite !sapp_assoc. split; auto. eapply steps_trans; eauto.
  Qed.
  Lemma LT_empty l ts F H : LT (cat l) ts F H -> LT (cat (w "" :: l)) ts F H.
  Proof. intros (s & E & X). exists s. split; auto. cbn [cat w]. now rewrite E. Qed.
  Lemma LT_one r ts F H : LT r ts F H -> LT (cat [r]) ts F H.
  Proof. intros X. rewrite <- (app_nil_r ts). eapply LT_cons; eauto. apply LT_nil. Qed.
  Lemma LT_last r ts F H : LT r ts F H -> LT (cat [r]) ts F H.
  Proof. apply LT_one. Qed.
  Lemma cat_app l m : cat (l ++ m) = match cat l with Ok a => match cat m with Ok b => Ok (a ++ b)%string | Err e => Err e end | Err e => Err e end.
  Proof.
    induction l as [|r l IH]; cbn.
    - destruct (cat m); reflexivity.
    - destruct r as [s|e]; [|reflexivity]. rewrite IH. destruct (cat l) as [a|]; [|reflexivity]. destruct (cat m) as [b|]; [|reflexivity]. now rewrite sapp_assoc.
  Qed.
  Lemma LT_app l m t1 t2 F1 F H : LT (cat l) t1 F1 H -> LT (cat m) t2 F F1 -> LT (cat (l ++ m)) (t1 ++ t2) F H.
  Proof.
    intros (s1 & E1 & X1) (s2 & E2 & X2). exists (s1 ++ s2)%string. split. { now rewrite cat_app, E1, E2. }
    intros rest Hr. apply X2 in Hr as [S2 H2]. apply X1 in H2 as [S1 H1]. rewrite !sapp_assoc. split; auto. eapply steps_trans; eauto.
  Qed.

  (** ** Operators *)
  Lemma step_op s : starts (fun c => negb (Ascii.eqb c " " || Nat.eqb (nat_of_ascii c) 10 || is_idstart c || is_digit c || is_quote c || Ascii.eqb c ".")) s = true ->
    step s = match scan_op s with Some (o, r) => Some (Some (TOp o), r) | None => None end.
  Proof.
    destruct s as [|c r]; [discriminate|]. cbn [starts]. intros H. apply negb_true_iff in H. repeat (apply orb_false_iff in H as [H ?]).
    unfold PyGrammar.step. rewrite H. repeat match goal with H : ?b = false |- context[if ?b then _ else _] => rewrite H end. reflexivity.
  Qed.
  Lemma has_char_in c l : has_char c l = true -> In c (list_ascii_of_string l).
  Proof. induction l as [|d l IH]; cbn; [discriminate|]. intros H. apply orb_true_iff in H as [H|H]; [left; now apply Ascii.eqb_eq in H|right; auto]. Qed.
  (** Operators that no other operator begins with. *)
  Lemma hard_step a rest : has_char a "()[]{},~;" = true -> step (String a rest) = Some (Some (TOp (one a)), rest).
  Proof.
    intros H. apply has_char_in in H. cbn in H. rewrite step_op by (destruct H as [<-|[<-|[<-|[<-|[<-|[<-|[<-|[<-|[<-|[]]]]]]]]]]; reflexivity).
    assert (X : forall b, is_op2 a b = false).
    { intros b. unfold is_op2. destruct H as [<-|[<-|[<-|[<-|[<-|[<-|[<-|[<-|[<-|[]]]]]]]]]]; rewrite ?andb_false_r; reflexivity. }
    assert (Y : is_op1 a = true) by (destruct H as [<-|[<-|[<-|[<-|[<-|[<-|[<-|[<-|[<-|[]]]]]]]]]]; reflexivity).
    destruct rest as [|b r]; unfold scan_op; rewrite ?X, Y; reflexivity.
  Qed.
  Lemma soft_op2 a b : has_char b "=*/<>" = false -> is_op2 a b = false.
  Proof.
    intros H. unfold is_op2. cbn [has_char] in H. repeat (apply orb_false_iff in H as [? H]).
    assert (E : Ascii.eqb a b && has_char a "*/<>" = false).
    { destruct (Ascii.eqb_spec a b) as [->|]; [|reflexivity]. cbn [has_char]. now rewrite H1, H2, H3, H4. }
    rewrite H0, E, H4. now rewrite andb_false_r.
  Qed.
  Lemma soft_step a rest : has_char a "+-*/%@&|^<>:=" = true -> soft rest = true -> step (String a rest) = Some (Some (TOp (one a)), rest).
  Proof.
    intros H Hr. apply has_char_in in H. cbn in H. rewrite step_op by (destruct H as [<-|[<-|[<-|[<-|[<-|[<-|[<-|[<-|[<-|[<-|[<-|[<-|[<-|[]]]]]]]]]]]]]]; reflexivity).
    assert (Y : is_op1 a = true) by (destruct H as [<-|[<-|[<-|[<-|[<-|[<-|[<-|[<-|[<-|[<-|[<-|[<-|[<-|[]]]]]]]]]]]]]]; reflexivity).
    destruct rest as [|b r]; unfold scan_op; rewrite ?Y; [reflexivity|]. cbn [soft] in Hr. apply negb_true_iff in Hr. rewrite soft_op2 by exact Hr. reflexivity.
  Qed.
  Lemma dstar_step rest : soft rest = true -> step (String "*" (String "*" rest)) = Some (Some (TOp "**"), rest).
  Proof.
    intros Hr. rewrite step_op by reflexivity. unfold scan_op. change (is_op2 "*" "*") with true. cbn iota. destruct rest as [|b r]; [reflexivity|].
    cbn [soft] in Hr. apply negb_true_iff in Hr. assert (X : is_op3 "*" "*" b = false).
    { unfold is_op3. cbn [has_char] in Hr. apply orb_false_iff in Hr as [-> _]. reflexivity. }
    rewrite X. reflexivity.
  Qed.
  Lemma dot_step rest : starts is_idstart rest = true -> step (String "." rest) = Some (Some (TOp "."), rest).
  Proof.
    intros H. destruct rest as [|c r]; [discriminate|]. cbn [starts] in H. unfold PyGrammar.step. cbn -[number is_digit starts Ascii.eqb].
    assert (D : is_digit c = false). { destruct (is_digit c) eqn:E; auto. destruct (digit_facts c E) as (_ & _ & X & _). congruence. }
    assert (P : Ascii.eqb c "." = false). { destruct (Ascii.eqb_spec c "."); [subst; discriminate|reflexivity]. }
    cbn [starts]. rewrite D. destruct r; [reflexivity|]. now rewrite P.
  Qed.
End Pieces.
