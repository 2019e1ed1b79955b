(** C78: which text is taken for a dialect-import in the source transformation step. *)
From Verif Require Import Base AstLib FixLocModel ExpanderModel Dict ImportsModel DialectModel DialectSpec DialectProofs DialectTextModel DialectProps.

(** ** The form of a dialect-import, character by character *)
Definition whitespace (c : ascii) : Prop := In (nat_of_ascii c) [9; 10; 11; 12; 13; 28; 29; 30; 31; 32; 133; 160].
(** Letters, digits, underscore and dot, and (because of [A-z]) five other characters. *)
Definition module_char (c : ascii) : Prop := word_char c \/ c = "."%char \/ In (nat_of_ascii c) [91; 92; 93; 94; 96].
Definition import_form (m : list ascii) : Prop := exists sp1 md sp2 sp3 names,
  m = txt "from" ++ sp1 ++ md ++ sp2 ++ txt "import dialects," ++ sp3 ++ names /\
  sp1 <> [] /\ sp2 <> [] /\ sp3 <> [] /\ md <> [] /\ names <> [] /\ Forall whitespace (sp1 ++ sp2 ++ sp3) /\ Forall module_char md /\
  Forall (fun c => c <> "("%char /\ c <> "\"%char) names.
(** [before] is [n - 1] whole lines. *)
Definition at_line (before : list ascii) (n : nat) : Prop := exists lines,
  before = concat (map (fun l => l ++ [nl]) lines) /\ Forall (fun l => ~ In nl l) lines /\ n = S (length lines).
Definition line_end (s : list ascii) : Prop := s = [] \/ exists r, s = nl :: r.

(** ** Proofs *)
Lemma space_ws c : is_space c = true -> whitespace c.
Proof. destruct c as [[] [] [] [] [] [] [] []]; vm_compute; try discriminate; intros _; repeat (first [left; reflexivity | right]). Qed.
Lemma ws_space c : whitespace c -> is_space c = true.
Proof. unfold whitespace, is_space. intros H. repeat (destruct H as [H|H]; [rewrite <- H; reflexivity|]). destruct H. Qed.
Lemma mod_module c : is_modchar c = true -> module_char c.
Proof.
  unfold is_modchar, module_char, word_char. intros H. apply orb_true_iff in H. destruct H as [H|H].
  - apply orb_true_iff in H. destruct H as [H|H]; [right; left; apply Ascii.eqb_eq; exact H|]. apply andb_true_iff in H. rewrite !Nat.leb_le in H. left. lia.
  - apply andb_true_iff in H. rewrite !Nat.leb_le in H. cbn [In]. lia.
Qed.
Lemma names_ok c : is_nameschar c = true -> c <> "("%char /\ c <> "\"%char.
Proof. unfold is_nameschar. rewrite andb_true_iff, !negb_true_iff, !Ascii.eqb_neq. auto. Qed.
Lemma try_inv (A : Type) low (k : nat -> option A) x : forall j, try_down low j k = Some x -> exists i, i <= j /\ (low <= i \/ i = j) /\ k i = Some x.
Proof.
  induction j as [|j IH]; unfold try_down; fold (@try_down A).
  - destruct (k 0) eqn:E; [|discriminate]. intros H. inversion H; subst. exists 0. auto.
  - destruct (k (S j)) eqn:E; [intros H; inversion H; subst; exists (S j); auto|]. destruct (Nat.leb_spec (S j) low); [discriminate|].
    intros H1. destruct (IH H1) as (i & Hi & Hl & Hk). exists i. split; [lia|]. split; [lia|exact Hk].
Qed.
Lemma run_prefix p : forall s i, i <= run_length p s -> Forall (fun c => p c = true) (firstn i s) /\ length (firstn i s) = i.
Proof.
  induction s as [|c s IH]; intros i Hi; cbn [run_length] in Hi.
  - assert (i = 0) as -> by lia. split; [constructor|reflexivity].
  - destruct i as [|i]; [split; [constructor|reflexivity]|]. destruct (p c) eqn:Ec; [|lia]. destruct (IH i ltac:(lia)) as [H1 H2]. cbn [firstn length]. split; [constructor; auto|lia].
Qed.
Lemma star_inv (A : Type) p (k : list ascii -> option A) s x : star p k s = Some x -> exists a b, s = a ++ b /\ Forall (fun c => p c = true) a /\ k b = Some x.
Proof.
  unfold star. intros H. destruct (try_inv _ _ _ _ _ H) as (i & Hi & _ & Hk). exists (firstn i s), (skipn i s). rewrite firstn_skipn. split; [reflexivity|]. split; [apply (run_prefix p s i Hi)|exact Hk].
Qed.
Lemma plus_inv (A : Type) p (k : list ascii -> option A) s x : plus p k s = Some x -> exists a b, s = a ++ b /\ a <> [] /\ Forall (fun c => p c = true) a /\ k b = Some x.
Proof.
  unfold plus. destruct (run_length p s) as [|n] eqn:E; [discriminate|]. intros H. destruct (try_inv _ _ _ _ _ H) as (i & Hi & Hl & Hk). exists (firstn i s), (skipn i s). rewrite firstn_skipn. split; [reflexivity|].
  destruct (run_prefix p s i ltac:(lia)) as [H1 H2]. split; [|split; [exact H1|exact Hk]]. intros E0. rewrite E0 in H2. cbn in H2. lia.
Qed.
Lemma lit_inv (A : Type) (k : list ascii -> option A) x : forall l s, lit l k s = Some x -> exists b, s = l ++ b /\ k b = Some x.
Proof.
  induction l as [|c l IH]; intros s H; [exists s; destruct s; auto|]. destruct s as [|d s]; [discriminate|]. cbn [lit] in H. destruct (Ascii.eqb_spec c d) as [->|]; [|discriminate].
  destruct (IH s H) as (b & -> & Hk). exists b. auto.
Qed.
Lemma match_form s rest : match_at s = Some rest -> exists m, s = m ++ rest /\ import_form m /\ line_end rest.
Proof.
  unfold match_at. intros H. apply lit_inv in H. destruct H as (b1 & -> & H). apply plus_inv in H. destruct H as (sp1 & b2 & -> & N1 & F1 & H). apply plus_inv in H. destruct H as (md & b3 & -> & N2 & F2 & H).
  apply plus_inv in H. destruct H as (sp2 & b4 & -> & N3 & F3 & H). apply lit_inv in H. destruct H as (b5 & -> & H). apply plus_inv in H. destruct H as (sp3 & b6 & -> & N4 & F4 & H).
  apply plus_inv in H. destruct H as (nm & b7 & -> & N5 & F5 & H). apply star_inv in H. destruct H as (ws & b8 & -> & F6 & H).
  assert (Hr : rest = b8 /\ line_end rest).
  { unfold eol in H. destruct b8 as [|c b8]; [inversion H; split; [reflexivity|left; reflexivity]|]. destruct (Ascii.eqb_spec c nl) as [->|]; inversion H. split; [reflexivity|right; eauto]. }
  destruct Hr as [-> He]. exists (txt "from" ++ sp1 ++ md ++ sp2 ++ txt "import dialects," ++ sp3 ++ (nm ++ ws)). split; [unfold txt; rewrite <- !app_assoc; reflexivity|]. split; [|exact He].
  assert (W : forall l, Forall (fun c => is_space c = true) l -> Forall whitespace l) by (intros l Hl; eapply Forall_impl; [|exact Hl]; exact space_ws).
  exists sp1, md, sp2, sp3, (nm ++ ws). split; [reflexivity|]. repeat (split; [assumption|]). split; [destruct nm; [congruence|discriminate]|].
  split; [rewrite !Forall_app; auto|]. split; [eapply Forall_impl; [|exact F2]; exact mod_module|]. apply Forall_app. split.
  - eapply Forall_impl; [|exact F5]. exact names_ok.
  - eapply Forall_impl; [|exact F6]. intros c Hc. apply names_ok. exact (space_names c Hc).
Qed.

Definition starts_line (a : list ascii) : Prop := a = [] \/ exists r, a = r ++ [nl].
Lemma span_ok : forall s pre bol skip st m, (bol = true -> starts_line pre) -> In (st, m) (spans_ bol (length pre) skip s) ->
  exists a b, pre ++ s = a ++ m ++ b /\ length a = st /\ starts_line a /\ import_form m /\ line_end b.
Proof.
  induction s as [|c s IH]; intros pre bol skip st m Hb Hin; [destruct Hin|].
  assert (Hnext : forall skip', In (st, m) (spans_ (Ascii.eqb c nl) (S (length pre)) skip' s) -> exists a b, pre ++ c :: s = a ++ m ++ b /\ length a = st /\ starts_line a /\ import_form m /\ line_end b).
  { intros skip' H. replace (pre ++ c :: s) with ((pre ++ [c]) ++ s) by (rewrite <- app_assoc; reflexivity). apply (IH (pre ++ [c]) (Ascii.eqb c nl) skip').
    - intros E. apply Ascii.eqb_eq in E. subst c. right. exists pre. reflexivity.
    - rewrite app_length, Nat.add_comm. exact H. }
  cbn [spans_] in Hin. destruct skip as [|k]; [|exact (Hnext k Hin)]. destruct bol; [|exact (Hnext 0 Hin)]. destruct (match_at (c :: s)) as [rest|] eqn:E; [|exact (Hnext 0 Hin)].
  cbv zeta in Hin. destruct Hin as [Hin|Hin]; [|exact (Hnext _ Hin)]. apply match_form in E. destruct E as (m' & E & F & L). assert (H1 : length pre = st) by (apply (f_equal fst) in Hin; exact Hin). assert (H2 : firstn (length (c :: s) - length rest) (c :: s) = m) by (apply (f_equal snd) in Hin; exact Hin). exists pre, rest.
  assert (m' = m). { rewrite <- H2, E, app_length, Nat.add_sub, firstn_app, Nat.sub_diag, firstn_all. cbn [firstn]. rewrite app_nil_r. reflexivity. }
  subst m'. rewrite E. auto.
Qed.
Lemma span_same : forall s bol pos skip, map snd (spans_ bol pos skip s) = finditer_ bol skip s.
Proof.
  induction s as [|c s IH]; intros bol pos skip; [reflexivity|]. cbn [spans_ finditer_]. destruct skip; [|apply IH]. destruct (if bol then match_at (c :: s) else None); [|apply IH]. cbv zeta. cbn [map snd]. f_equal. apply IH.
Qed.
Lemma list_eqb_iff a b : ascii_list_eqb a b = true <-> a = b.
Proof.
  unfold ascii_list_eqb. rewrite String.eqb_eq. split; [|intros ->; reflexivity]. intros H. rewrite <- (list_ascii_of_string_of_list_ascii a), <- (list_ascii_of_string_of_list_ascii b), H. reflexivity.
Qed.
Lemma seen_iff x sn : existsb (ascii_list_eqb x) sn = true <-> In x sn.
Proof.
  rewrite existsb_exists. split; [intros (y & Hy & E); apply list_eqb_iff in E; subst; exact Hy|]. intros H. exists x. split; [exact H|]. apply list_eqb_iff. reflexivity.
Qed.
Lemma import_same text sn : first_unseen sn (finditer text) = option_map fst (source_import sn text).
Proof.
  unfold source_import, finditer, spans. rewrite <- (span_same text true 0 0). generalize (spans_ true 0 0 text). induction l as [|[st m] l IH]; [reflexivity|].
  cbn [map snd first_unseen source_import_]. destruct (existsb _ sn); [exact IH|reflexivity].
Qed.
Lemma starts_lines : forall a, starts_line a -> at_line a (1 + count_nl a).
Proof.
  induction a as [|c a IH]; intros H; [exists []; repeat split; constructor|].
  assert (Ha : starts_line a /\ (a = [] -> c = nl)).
  { destruct H as [H|(r & H)]; [discriminate|]. destruct r as [|d r]; inversion H; subst; [split; [left; reflexivity|reflexivity]|]. split; [right; eauto|]. intros E. destruct r; discriminate. }
  destruct Ha as [Ha Hc]. destruct (IH Ha) as (ls & E & F & N). cbn [count_nl]. destruct (Ascii.eqb_spec c nl) as [->|Hn].
  - exists ([] :: ls). cbn [map concat app length]. rewrite <- E. split; [reflexivity|]. split; [constructor; [intros []|exact F]|lia].
  - destruct ls as [|l ls]; [exfalso; apply Hn, Hc; exact E|]. exists ((c :: l) :: ls). cbn [map concat app length] in *. rewrite E. inversion F; subst. split; [reflexivity|]. split; [|lia].
    constructor; [|assumption]. intros [Hi|Hi]; [congruence|contradiction].
Qed.
Lemma lstrip_split s : exists w, s = w ++ lstrip s /\ Forall whitespace w /\ (lstrip s = [] \/ exists c r, lstrip s = c :: r /\ ~ whitespace c).
Proof.
  induction s as [|c s (w & E & F & H)]; [exists []; repeat split; auto|]. cbn [lstrip]. destruct (is_space c) eqn:Ec.
  - exists (c :: w). cbn [app]. rewrite <- E. split; [reflexivity|]. split; [constructor; [exact (space_ws c Ec)|exact F]|exact H].
  - exists []. split; [reflexivity|]. split; [constructor|]. right. exists c, s. split; [reflexivity|]. intros Hw. rewrite (ws_space c Hw) in Ec. discriminate.
Qed.
Lemma strip_split m : import_form m -> exists ws, m = strip m ++ ws /\ Forall whitespace ws /\ exists r c, strip m = r ++ [c] /\ ~ whitespace c.
Proof.
  intros (sp1 & md & sp2 & sp3 & nm & E & _). assert (L : lstrip m = m) by (rewrite E; reflexivity). unfold strip. rewrite L. destruct (lstrip_split (rev m)) as (w & Ew & Fw & H).
  exists (rev w). split; [rewrite <- rev_app_distr, <- Ew, rev_involutive; reflexivity|]. split; [apply Forall_rev; exact Fw|].
  destruct H as [H|(c & r & H & Hc)].
  - exfalso. rewrite H, app_nil_r in Ew. assert (Hf : In "f"%char (rev m)) by (apply -> in_rev; rewrite E; left; reflexivity). rewrite Ew in Hf. rewrite Forall_forall in Fw. specialize (Fw _ Hf). apply ws_space in Fw. discriminate.
  - exists (rev r), c. rewrite H. split; [reflexivity|exact Hc].
Qed.

(** ** Statements *)
(** C78 a: the statement [stmt] that is found, and that is parsed and imported, is in the text: at the beginning of a line, which is line [n], up to the whitespace at the end of a line, and it has the
    form of a dialect-import; and it has not been imported before. *)
Theorem C78_only_imports : forall sn text stmt n, source_import sn text = Some (stmt, n) ->
  ~ In stmt sn /\ exists before ws after, text = before ++ stmt ++ ws ++ after /\ at_line before n /\ import_form (stmt ++ ws) /\ Forall whitespace ws /\ line_end after /\ exists r c, stmt = r ++ [c] /\ ~ whitespace c.
Proof.
  intros sn text stmt n H. unfold source_import in H.
  assert (Q : exists st m, In (st, m) (spans text) /\ stmt = strip m /\ n = 1 + count_nl (firstn st text) /\ ~ In stmt sn).
  { revert H. generalize (spans text) as l. induction l as [|[st m] l IH]; [discriminate|]. cbn [source_import_]. destruct (existsb (ascii_list_eqb (strip m)) sn) eqn:Es.
    - intros H. destruct (IH H) as (st' & m' & Hi & R). exists st', m'. split; [right; exact Hi|exact R].
    - intros H. inversion H; subst. exists st, m. split; [left; reflexivity|]. split; [reflexivity|]. split; [reflexivity|]. intros Hi. apply seen_iff in Hi. congruence. }
  destruct Q as (st & m & Hin & -> & -> & Hn). split; [exact Hn|]. destruct (span_ok text [] true 0 st m) as (a & b & E & La & Sa & F & L); [left; reflexivity|exact Hin|]. cbn [app] in E.
  destruct (strip_split m F) as (ws & Em & Fw & Hl). exists a, ws, b. split; [rewrite E at 1; rewrite Em at 1; rewrite <- !app_assoc; reflexivity|]. split.
  - rewrite E, <- La, firstn_app, Nat.sub_diag, firstn_all. cbn [firstn]. rewrite app_nil_r. apply starts_lines. exact Sa.
  - rewrite <- Em. auto.
Qed.
Print Assumptions C78_only_imports.

Section Statements.
  Context {W Ob In_ : Type}.
  Variable is_dialect : Ob -> bool.
  Variable instantiate : Ob -> W -> res In_ * W.
  Variable transform : In_ -> option (list ascii -> W -> res (tresult (list ascii)) * W).
  Variable parse : list ascii -> res imp.
  Variable load : imp -> W -> res (option string * list (string * Ob)) * W.
  Variable seen : W -> list (list ascii).
  Variable add_seen : list ascii -> W -> W.
  Notation transform_source n text w := (transform_loop is_dialect instantiate transform (find_source parse load seen add_seen) n text [] w).

  (** What is imported, if anything, is the statement that C78 a speaks of. *)
  Theorem C78_imports_it : forall text w,
    match source_import (seen w) text with
    | None => find_source parse load seen add_seen text w = (Ok None, w)
    | Some (stmt, _) => forall i, parse stmt = Ok i -> forall bs w', load i (add_seen stmt w) = (Ok bs, w') -> find_source parse load seen add_seen text w = (Ok (Some (snd bs, text)), w')
    end.
  Proof.
    intros text w. unfold find_source. rewrite import_same. destruct (source_import (seen w) text) as [[stmt n]|]; [|reflexivity]. cbn [option_map fst]. intros i Hp [a bs] w' Hl. cbv zeta. rewrite Hp, Hl. reflexivity.
  Qed.
  (** C78 b: a text in which no line begins a dialect-import is returned as it is; nothing is imported and no code of a dialect is run. *)
  Theorem C78_nothing_to_do : forall n text w,
    (forall before m after, text = before ++ m ++ after -> (before = [] \/ exists r, before = r ++ [nl]) -> line_end after -> ~ import_form m) ->
    transform_source (S n) text w = Some (Ok (text, []), w).
  Proof.
    intros n text w H. cbn [transform_loop]. pose proof (C78_imports_it text w) as Hi. destruct (source_import (seen w) text) as [[stmt k]|] eqn:E; [|rewrite Hi; reflexivity]. exfalso.
    destruct (C78_only_imports _ _ _ _ E) as (_ & b & ws & a & Et & (ls & Eb & _) & F & _ & L & _). apply (H b (stmt ++ ws) a); [rewrite <- app_assoc; exact Et| |exact L|exact F].
    destruct ls as [|l ls] using rev_ind; [left; exact Eb|right]. rewrite map_app, concat_app in Eb. cbn [map concat] in Eb. rewrite app_nil_r, app_assoc in Eb. eauto.
  Qed.

  (** C78 c: each statement is imported once, so if the dialects leave the text as it is, the step ends, after at most as many rounds as there are statements in the text (and one). *)
  Definition keeps_seen : Prop :=
    (forall x w, incl (x :: seen w) (seen (add_seen x w))) /\ (forall i w, incl (seen w) (seen (snd (load i w)))) /\ (forall o w, incl (seen w) (seen (snd (instantiate o w)))) /\
    (forall d f c w, transform d = Some f -> incl (seen w) (seen (snd (f c w)))).
  Definition keeps_text : Prop := forall d f c w r w', transform d = Some f -> f c w = (Ok r, w') -> r = TNotImplemented \/ r = TContent c.
  Definition unseen (sn : list (list ascii)) (text : list ascii) : list (list ascii) := filter (fun m => negb (existsb (ascii_list_eqb (strip m)) sn)) (finditer text).
  Lemma unseen_le sn sn' text : incl sn sn' -> length (unseen sn' text) <= length (unseen sn text).
  Proof.
    intros H. unfold unseen. induction (finditer text) as [|m l IH]; [reflexivity|]. cbn [filter]. destruct (existsb (ascii_list_eqb (strip m)) sn) eqn:E; cbn [negb].
    - apply seen_iff, H, seen_iff in E. rewrite E. exact IH.
    - destruct (existsb _ sn'); cbn [negb length]; lia.
  Qed.
  Lemma unseen_lt sn sn' text x : incl sn sn' -> In x sn' -> first_unseen sn (finditer text) = Some x -> length (unseen sn' text) < length (unseen sn text).
  Proof.
    intros H Hx. unfold unseen. assert (G : forall l, length (filter (fun m => negb (existsb (ascii_list_eqb (strip m)) sn')) l) <= length (filter (fun m => negb (existsb (ascii_list_eqb (strip m)) sn)) l)).
    { induction l as [|m l IH]; [reflexivity|]. cbn [filter]. destruct (existsb (ascii_list_eqb (strip m)) sn) eqn:E; cbn [negb].
      - apply seen_iff, H, seen_iff in E. rewrite E. exact IH.
      - destruct (existsb _ sn'); cbn [negb length]; lia. }
    induction (finditer text) as [|m l IH]; [discriminate|]. cbn [first_unseen filter]. destruct (existsb (ascii_list_eqb (strip m)) sn) eqn:E; cbn [negb].
    - intros Hf. apply seen_iff, H, seen_iff in E. rewrite E. exact (IH Hf).
    - intros Hf. inversion Hf; subst x. apply seen_iff in Hx. rewrite Hx. cbn [negb length]. specialize (G l). lia.
  Qed.
  Lemma bindings_keep : keeps_seen -> keeps_text -> forall bs c is_ w c' is' w', run_bindings is_dialect instantiate transform bs c is_ w = (Ok (c', is'), w') -> c' = c /\ incl (seen w) (seen w').
  Proof.
    intros (_ & _ & Hi & Ht) Hk. induction bs as [|[x o] bs IH]; intros c is_ w c' is' w' H; cbn [run_bindings] in H; [inversion H; subst; split; [reflexivity|apply incl_refl]|].
    destruct (negb (is_dialect o)); [discriminate|]. pose proof (Hi o w) as H1. destruct (instantiate o w) as [[d|e] w1]; [|discriminate]. cbn [snd] in H1. destruct (transform d) as [f|] eqn:Ef; [|discriminate].
    pose proof (Ht d f c w1 Ef) as H2. destruct (f c w1) as [[r|e] w2] eqn:Er; [|discriminate]. cbn [snd] in H2. destruct (Hk _ _ _ _ _ _ Ef Er) as [ -> | -> ];
      (destruct (IH _ _ _ _ _ _ H) as [E I]; split; [exact E|eauto using incl_tran]).
  Qed.
  Theorem C78_ends : keeps_seen -> keeps_text -> forall n text w, length (finditer text) < n -> exists r w', transform_source n text w = Some (r, w') /\ forall c ds, r = Ok (c, ds) -> c = text.
  Proof.
    intros Hs Hk n text w Hn. assert (Hlt : length (unseen (seen w) text) < n).
    { eapply Nat.le_lt_trans; [|exact Hn]. unfold unseen. generalize (finditer text). induction l as [|m l IH]; [reflexivity|]. cbn [filter]. destruct (negb _); cbn [length]; lia. }
    clear Hn. revert w Hlt. generalize (@nil In_) as is_. induction n as [|n IH]; intros is_ w Hlt; [lia|]. cbn [transform_loop]. destruct (find_source parse load seen add_seen text w) as [[[[bs c1]|]|e] w1] eqn:E.
    - unfold find_source in E. destruct (first_unseen (seen w) (finditer text)) as [x|] eqn:Ex; [|discriminate]. cbv zeta in E. destruct (parse x) as [i|]; [|discriminate].
      pose proof (proj1 (proj2 Hs) i (add_seen x w)) as Hl. destruct (load i (add_seen x w)) as [[[a b]|] w2]; [|discriminate]. inversion E; subst. cbn [snd] in Hl.
      destruct (run_bindings is_dialect instantiate transform bs c1 is_ w1) as [[[c2 is']|e] w3] eqn:Eb; [|exists (Err e), w3; split; [reflexivity|discriminate]].
      destruct (bindings_keep Hs Hk _ _ _ _ _ _ _ Eb) as [-> Hi]. apply IH.
      assert (I : incl (x :: seen w) (seen w3)) by (eapply incl_tran; [apply (proj1 Hs)|]; eapply incl_tran; [exact Hl|exact Hi]).
      pose proof (unseen_lt (seen w) (seen w3) c1 x (fun y Hy => I y (or_intror Hy)) (I x (or_introl eq_refl)) Ex). lia.
    - exists (Ok (text, is_)), w1. split; [reflexivity|]. intros c ds H. inversion H. reflexivity.
    - exists (Err e), w1. split; [reflexivity|discriminate].
  Qed.
End Statements.
Print Assumptions C78_imports_it.
Print Assumptions C78_nothing_to_do.
Print Assumptions C78_ends.

(** ** Examples *)
Definition t_text : list ascii := txt ("x = 1" ++ nls ++ nls ++ "from my.mod import dialects, A, B  " ++ nls ++ "print(x)" ++ nls).
Definition t_stmt : list ascii := txt "from my.mod import dialects, A, B".
Example C78_example : source_import [] t_text = Some (t_stmt, 3) /\ source_import [t_stmt] t_text = None.
Proof. split; vm_compute; reflexivity. Qed.
(** An indented import is none. *)
Definition t_plain : list ascii := txt "  from my.mod import dialects, A".
Example C78_example_nothing : forall before m after, t_plain ++ [nl] = before ++ m ++ after -> (before = [] \/ exists r, before = r ++ [nl]) -> line_end after -> ~ import_form m.
Proof.
  intros before m after E Hb _ (sp1 & md & sp2 & sp3 & nm & -> & _). destruct Hb as [->|(r & ->)]; [discriminate|].
  match type of E with _ = _ ++ ?x => destruct (exists_last (l := x)) as (x' & c & Ex); [discriminate|] end. rewrite Ex, app_assoc in E. apply app_inj_tail in E. destruct E as [E _].
  assert (Hin : In nl t_plain) by (rewrite E, !in_app_iff; left; right; left; reflexivity). vm_compute in Hin. repeat (destruct Hin as [Hin|Hin]; [discriminate|]). destruct Hin.
Qed.
(** Dialects that leave the text as it is; the state is what has been seen. *)
Definition t_load (i : imp) (w : list (list ascii)) : res (option string * list (string * unit)) * list (list ascii) := (Ok (i_module i, [("A"%string, tt); ("B"%string, tt)]), w).
Definition t_transform (d : nat) : option (list ascii -> list (list ascii) -> res (tresult (list ascii)) * list (list ascii)) := Some (fun _ w => (Ok TNotImplemented, w)).
Definition t_parse (s : list ascii) : res imp := Ok (mkImp (Some "my.mod"%string) [("dialects"%string, None); ("A"%string, None); ("B"%string, None)] 0).
Example C78_example_ends : keeps_seen (fun (o : unit) w => (Ok 7, w)) t_transform t_load (fun w => w) cons /\ keeps_text t_transform /\ length (finditer t_text) = 1 /\
  transform_loop (fun _ : unit => true) (fun o w => (Ok 7, w)) t_transform (find_source t_parse t_load (fun w => w) cons) 2 t_text [] [] = Some (Ok (t_text, [7; 7]), [t_stmt]).
Proof.
  split; [|split; [|split; vm_compute; reflexivity]].
  - split; [intros; apply incl_refl|]. split; [intros; apply incl_refl|]. split; [intros; apply incl_refl|]. intros d f c w H. unfold t_transform in H. inversion H. apply incl_refl.
  - intros d f c w r w' H E. unfold t_transform in H. inversion H; subst. inversion E. left. reflexivity.
Qed.

(** ** Where the claim fails *)
(** "A source transformer runs only if the module has a dialect-import": the text of a docstring is enough. *)
Definition t_doc : list ascii := txt ("'''To use this:" ++ nls ++ nls ++ "from my.mod import dialects, A" ++ nls ++ nls ++ "(at the top of the module)" ++ nls ++ "'''" ++ nls).
Theorem C78_docstring_refuted : source_import [] t_doc = Some (txt "from my.mod import dialects, A", 3) /\
  transform_loop (fun _ : unit => true) (fun o w => (Ok 7, w)) t_transform (find_source t_parse t_load (fun w => w) cons) 2 t_doc [] [] = Some (Ok (t_doc, [7; 7]), [txt "from my.mod import dialects, A"]).
Proof. split; vm_compute; reflexivity. Qed.
Print Assumptions C78_docstring_refuted.
