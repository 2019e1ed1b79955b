(** Running the quasiquote macros, for C55. *)
From Verif Require Import Base AstLib UtilsModel FixLocModel MarkersModel QuoteModel ExpanderModel ExpanderSpec ExpanderProofs ExpanderProofs2 ExpanderProofs3 QuoteSpec QuoteProofs NestModel NestSpec NestProofs NestProofs2 NestProofs3.

(** For all sufficiently large numbers of steps. *)
Definition ev (P : nat -> Prop) : Prop := exists N, forall n, N <= n -> P n.
Lemma ev_and P Q : ev P -> ev Q -> ev (fun n => P n /\ Q n).
Proof. intros [a Ha] [c Hc]. exists (Nat.max a c). intros n Hn. split; [apply Ha|apply Hc]; lia. Qed.
Lemma ev_impl (P Q : nat -> Prop) : ev P -> (forall n, P n -> Q n) -> ev Q.
Proof. intros [a Ha] H. exists a. auto. Qed.
Lemma ev_S (P : nat -> Prop) : ev (fun n => P (S n)) -> ev P.
Proof. intros [a Ha]. exists (S a). intros [|n] Hn; [lia|]. apply Ha. lia. Qed.
Lemma ev_big (P : nat -> Prop) k : ev (fun n => k <= n -> P n) -> ev P.
Proof. intros [a Ha]. exists (Nat.max a k). intros n Hn. apply Ha; lia. Qed.

Section Run.
  Variables (user_marker : string -> bool) (has_attr : string -> string -> bool).
  Variables (filename : string) (unparse : ltree -> string) (idx : op -> nat) (others : nat -> mdef nat).
  Variables (unique : string -> string) (pickled : nat -> string).
  Notation q_prog := (q_prog user_marker has_attr filename idx unique pickled).
  Notation compile := (compile user_marker has_attr filename unique pickled).
  Notation unquote_prog := (unquote_prog filename unparse idx others).

  Variable v : ltree -> @comp nat ltree.
  Notation hrec t s := (call_expander v HRec t (logged (EUse HRec) s)).

  Lemma run_answer k r (s : st nat) : run v (S k) (answer r) s = Some (r, s).
  Proof. destruct r; reflexivity. Qed.
  Lemma run_raise k e (s : st nat) : run v (S k) (Raise e) s = Some (XRaise e, s).
  Proof. reflexivity. Qed.
  Lemma run_getu k c (s : st nat) : run v (S k) (GetU c) s = run v k (c (s_u s)) s.
  Proof. reflexivity. Qed.
  Lemma run_setu k u c (s : st nat) : run v (S k) (SetU u c) s = run v k c (mkSt (s_b s) (s_rec s) u (s_log s)).
  Proof. reflexivity. Qed.
  Lemma run_getb k c (s : st nat) : run v (S k) (GetB c) s = run v k (c (s_b s)) s.
  Proof. reflexivity. Qed.
  Lemma run_setb k u c (s : st nat) : run v (S k) (SetB u c) s = run v k c (mkSt u (s_rec s) (s_u s) (s_log s)).
  Proof. reflexivity. Qed.
  Lemma run_call k h t c (s : st nat) : run v (S k) (CallX h t c) s = match call_expander v h t (logged (EUse h) s) with None => None | Some (r, s') => run v k (c r) s' end.
  Proof. reflexivity. Qed.
  Ltac step := rewrite ?run_raise, ?run_answer, ?run_getu, ?run_setu, ?run_getb, ?run_setb, ?run_call; cbn [s_b s_rec s_u s_log].

  Definition q_outcome (i : minput) (s : st nat) : option (xres ltree * st nat) :=
    match hrec (in_tree i) (mkSt (quasi_only idx (s_b s)) (s_rec s) (S (s_u s)) (s_log s)) with
    | None => None
    | Some (r, s') =>
        Some (match r with
              | XRaise e => XRaise e
              | XOk t => if Nat.ltb 1 (s_u s') then replace_tree (in_target i) t else compile (s_b s) (in_syntax i) (in_vars i) t
              end, mkSt (s_b s) (s_rec s') (s_u s) (s_log s'))
    end.
  Lemma run_q k i s : 20 <= k -> run v k (q_prog i) s =
    if String.eqb (in_syntax i) "expr" || String.eqb (in_syntax i) "block" then q_outcome i s else Some (XRaise syntax_error, s).
  Proof.
    intros Hk. replace k with (20 + (k - 20)) by lia. generalize (k - 20). clear Hk k. intros k. cbn [Nat.add]. destruct s as [b rec u log].
    unfold NestModel.q_prog, q_outcome. cbn [s_b s_rec s_u s_log]. destruct (_ || _); cbn [negb]; [|step; reflexivity].
    do 6 step. destruct (hrec _ _) as [[[t|e] s']|]; [| |reflexivity].
    - do 4 step. destruct (Nat.ltb 1 (s_u s')); step; reflexivity.
    - do 4 step. reflexivity.
  Qed.

  Definition unquote_finish (o : op) (i : minput) (lv : nat) (t : ltree) : xres ltree :=
    if Nat.ltb 0 lv then replace_tree (in_target i) t else marker_of filename o (in_syntax i) (unparse (in_tree i)) t.
  Definition unquote_outcome (o : op) (i : minput) (s : st nat) : option (xres ltree * st nat) :=
    if match o with Oh => is_name_macro idx others (s_b s) (in_tree i) | _ => false end
    then Some (unquote_finish o i (pred (s_u s)) (in_tree i), s)
    else
      match hrec (in_tree i) (mkSt (s_b s) (s_rec s) (pred (s_u s)) (s_log s)) with
      | None => None
      | Some (r, s') => Some (match r with XRaise e => XRaise e | XOk t => unquote_finish o i (s_u s') t end, mkSt (s_b s') (s_rec s') (s_u s) (s_log s'))
      end.
  Lemma run_u k o i s : 20 <= k -> run v k (unquote_prog o i) s =
    if negb (String.eqb (in_syntax i) "expr" || is_block_a o (in_syntax i)) || Nat.ltb (s_u s) 1 ||
       (is_block_a o (in_syntax i) && match in_vars i with None | Some (At ANone) => false | Some _ => true end)
    then Some (XRaise syntax_error, s) else unquote_outcome o i s.
  Proof.
    intros Hk. replace k with (20 + (k - 20)) by lia. generalize (k - 20). clear Hk k. intros k. cbn [Nat.add]. destruct s as [b rec u log].
    unfold NestModel.unquote_prog, unquote_outcome, unquote_finish. cbn [s_b s_rec s_u s_log]. destruct (negb (_ || _)); [step; reflexivity|]. cbn [orb]. step.
    destruct (Nat.ltb u 1); [step; reflexivity|]. cbn [orb]. destruct (is_block_a o _ && _); [step; reflexivity|]. step. cbv zeta.
    assert (X : forall k', run v (S (S (S (S (S (S k')))))) (CallX HRec (in_tree i) (fun r => match r with XRaise e => SetU u (Raise e) | XOk t =>
                  GetU (fun lv1 => SetU u (if Nat.ltb 0 lv1 then answer (replace_tree (in_target i) t) else answer (marker_of filename o (in_syntax i) (unparse (in_tree i)) t))) end))
                (mkSt b rec (pred u) log) =
              match hrec (in_tree i) (mkSt b rec (pred u) log) with
              | None => None
              | Some (r, s') => Some (match r with XRaise e => XRaise e | XOk t => if Nat.ltb 0 (s_u s') then replace_tree (in_target i) t else marker_of filename o (in_syntax i) (unparse (in_tree i)) t end,
                                      mkSt (s_b s') (s_rec s') u (s_log s'))
              end).
    { intros k'. step. destruct (hrec _ _) as [[[t|e] s']|]; [| |reflexivity].
      - do 3 step. destruct (Nat.ltb 0 (s_u s')); step; reflexivity.
      - do 3 step. reflexivity. }
    destruct o; try (rewrite X; reflexivity).
    step. destruct (is_name_macro _ _ _ _); [|rewrite X; reflexivity].
    do 3 step. destruct (Nat.ltb 0 (pred u)); step; reflexivity.
  Qed.
End Run.
