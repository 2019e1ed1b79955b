(** Property theorems about fix_ctx: C10, C11. *)
From Verif Require Import Base AstLib HeapAst CtxModel CtxSpec CtxProofs CtxProofs2 CtxProofs4 CtxProofs5 CtxProofs6 CtxProofs7 CtxProofs8 CtxProofs9 CtxProofs10 CtxProofs11.

Lemma fix_ctx_owns copy n h v t F :
  bounded h -> owns h v t F -> NoDup F -> (is_node t || is_list t = true) -> sound "Load" t = true -> height t < n ->
  exists h', fix_ctx copy n h v = Rt (v, h') /\ reads h' v (set_ctx "Load" t) /\ owns h' v (set_ctx "Load" t) F /\ bounded h' /\
    (forall i, h_obj h i <> None -> ~ In i F -> h_obj h' i = h_obj h i).
Proof.
  intros Hb Ho Hn Ha Hs Hh.
  assert (X : exists h', fix_ctx copy n h v = Rt (v, h') /\ reads h' v (set_ctx "Load" t) /\ keep h h' /\ bounded h' /\
    (forall i, h_obj h i <> None -> ~ In i F -> h_obj h' i = h_obj h i)).
  { destruct (proj1 (owns_rep h) _ _ _ Ho "Load"%string) as [A B]. destruct t as [m k fs|l|a]; [| |discriminate].
    - specialize (A eq_refl Hs). destruct (fix_ctx_rep copy n h v (Nd m k fs) F [] Hb A Hs) as [v' [h' [E [R [Fr [K Hb']]]]]]; auto; [lia|].
      destruct (K eq_refl) as [-> K']. exists h'. exact (conj E (conj R (conj K' (conj Hb' (fun i a b => Fr i a b (fun x => x)))))).
    - destruct (B l eq_refl) as [j [vs [F' [-> [-> [Hj Hr]]]]]].
      { cbn [sound] in Hs. rewrite forallb_forall in *. intros x Hx. specialize (Hs x Hx). apply andb_true_iff in Hs. destruct Hs as [H1 H2]. rewrite H2. destruct x; try discriminate; reflexivity. }
      destruct n as [|n]; [lia|].
      destruct (fix_ctx_rep_list copy n h j vs l F' [] Hb Hj Hr) as [h' [E [R [Fr [K Hb']]]]]; auto; [|lia|].
      { cbn [sound] in Hs. rewrite forallb_forall in *. intros x Hx. specialize (Hs x Hx). apply andb_true_iff in Hs. apply Hs. }
      exists h'. exact (conj E (conj R (conj (K eq_refl) (conj Hb' (fun i a b => Fr i a b (fun x => x)))))). }
  destruct X as [h' [E [R [K [Hb' Fr]]]]]. exists h'. split; [exact E|]. split; [exact R|]. split; [|split; [exact Hb'|exact Fr]].
  destruct (proj1 (owns_keep h h' K) _ _ _ Ho "Load"%string) as [A _]. destruct (A Hs) as [t' [Ht _]].
  rewrite <- (proj1 (reads_fun h') _ _ R t'); [exact Ht|]. apply (proj1 (owns_reads h') _ _ _ Ht).
Qed.

(** C10. A tree (or list of trees) in memory in which no object occurs twice, with any or no initial
    ctx: fix_ctx returns the same object; it then shows the tree in which each expression has the ctx
    its position demands ([set_ctx]); no object outside the tree has changed. In either mode. *)
Theorem C10_ctx_as_demanded : forall (copy : bool) n h v t F,
  bounded h -> owns h v t F -> NoDup F -> (is_node t || is_list t = true) -> sound "Load" t = true -> height t < n ->
  exists h', fix_ctx copy n h v = Rt (v, h') /\ reads h' v (set_ctx "Load" t) /\
    (forall i, h_obj h i <> None -> ~ In i F -> h_obj h' i = h_obj h i).
Proof.
  intros copy n h v t F Hb Ho Hn Ha Hs Hh.
  destruct (fix_ctx_owns copy n h v t F Hb Ho Hn Ha Hs Hh) as [h' [E [R [_ [_ Fr]]]]]. exists h'. auto.
Qed.
Print Assumptions C10_ctx_as_demanded.

(** Nothing but ctx changes: what is shown afterwards differs at most in ctx fields. *)
Theorem C10_nothing_but_ctx : forall (copy : bool) n h v t F h' t',
  bounded h -> owns h v t F -> NoDup F -> (is_node t || is_list t = true) -> sound "Load" t = true -> height t < n ->
  fix_ctx copy n h v = Rt (v, h') -> reads h' v t' -> strip_ctx t' = strip_ctx t.
Proof.
  intros copy n h v t F h' t' Hb Ho Hn Ha Hs Hh E R.
  destruct (fix_ctx_owns copy n h v t F Hb Ho Hn Ha Hs Hh) as [h2 [E2 [R2 _]]].
  rewrite E in E2. inversion E2; subst h2. rewrite (proj1 (reads_fun h') _ _ R2 _ R). apply strip_set_ctx.
Qed.
Print Assumptions C10_nothing_but_ctx.

(** The initial ctx does not matter: two trees that differ at most in ctx (wrong, different, or
    missing) end up showing the same tree. *)
Theorem C10_initial_ctx_irrelevant : forall (copy1 copy2 : bool) n1 n2 h1 h2 v1 v2 t1 t2 F1 F2,
  bounded h1 -> owns h1 v1 t1 F1 -> NoDup F1 -> (is_node t1 || is_list t1 = true) -> sound "Load" t1 = true -> height t1 < n1 ->
  bounded h2 -> owns h2 v2 t2 F2 -> NoDup F2 -> (is_node t2 || is_list t2 = true) -> sound "Load" t2 = true -> height t2 < n2 ->
  strip_ctx t1 = strip_ctx t2 ->
  exists h1' h2' t', fix_ctx copy1 n1 h1 v1 = Rt (v1, h1') /\ fix_ctx copy2 n2 h2 v2 = Rt (v2, h2') /\
    reads h1' v1 t' /\ reads h2' v2 t'.
Proof.
  intros copy1 copy2 n1 n2 h1 h2 v1 v2 t1 t2 F1 F2 Hb1 Ho1 Hn1 Ha1 Hs1 Hh1 Hb2 Ho2 Hn2 Ha2 Hs2 Hh2 E.
  destruct (fix_ctx_owns copy1 n1 h1 v1 t1 F1 Hb1 Ho1 Hn1 Ha1 Hs1 Hh1) as [h1' [E1 [R1 _]]].
  destruct (fix_ctx_owns copy2 n2 h2 v2 t2 F2 Hb2 Ho2 Hn2 Ha2 Hs2 Hh2) as [h2' [E2 [R2 _]]].
  exists h1', h2', (set_ctx "Load" t1). repeat split; auto.
  rewrite <- (set_ctx_strip t1), E, set_ctx_strip by assumption. exact R2.
Qed.
Print Assumptions C10_initial_ctx_irrelevant.

(** Running it again, in either mode, shows the same tree. *)
Theorem C10_twice : forall (copy1 copy2 : bool) n1 n2 h v t F,
  bounded h -> owns h v t F -> NoDup F -> (is_node t || is_list t = true) -> sound "Load" t = true -> height t < n1 -> height t < n2 ->
  exists h1 h2 t', fix_ctx copy1 n1 h v = Rt (v, h1) /\ reads h1 v t' /\
                   fix_ctx copy2 n2 h1 v = Rt (v, h2) /\ reads h2 v t'.
Proof.
  intros copy1 copy2 n1 n2 h v t F Hb Ho Hn Ha Hs Hh1 Hh2.
  assert (Hc : ctxname "Load") by (left; reflexivity).
  destruct (fix_ctx_owns copy1 n1 h v t F Hb Ho Hn Ha Hs Hh1) as [h1 [E1 [R1 [O1 [B1 _]]]]].
  destruct (fix_ctx_owns copy2 n2 h1 v _ F B1 O1 Hn) as [h2 [E2 [R2 _]]].
  - destruct t; [reflexivity|reflexivity|discriminate].
  - apply sound_set_ctx; assumption.
  - pose proof (height_set_ctx t "Load"%string Hc). lia.
  - exists h1, h2, (set_ctx "Load" t). rewrite (set_ctx_idem t _ Hc) in R2. auto.
Qed.
Print Assumptions C10_twice.

(** Objects numbered by their place in the list. *)
Definition mem (l : list obj) : heap := mkHeap (List.length l) (nth_error l).
Lemma mem_bounded l : bounded (mem l).
Proof. intros i H. apply nth_error_Some, H. Qed.

(** [a[b].c, d = e], where macros have left everything in Load, and the ctx of [d] is missing. *)
Definition nm (s : string) (c : nat) : obj := ONode "Name" [("id", VAt (AStr s)); ("ctx", VRef c)]%string.
Definition ex10 : heap := mem
  [ONode "Load" [];
   nm "a" 0; nm "b" 0;
   ONode "Subscript" [("value", VRef 1); ("slice", VRef 2); ("ctx", VRef 0)]%string;
   ONode "Attribute" [("value", VRef 3); ("attr", VAt (AStr "c")); ("ctx", VRef 0)]%string;
   ONode "Name" [("id", VAt (AStr "d"))]%string;
   OList [VRef 4; VRef 5];
   ONode "Tuple" [("elts", VRef 6); ("ctx", VRef 0)]%string;
   OList [VRef 7];
   nm "e" 0;
   ONode "Assign" [("targets", VRef 8); ("value", VRef 9); ("type_comment", VAt ANone)]%string].
Definition name_t (s c : string) : tree unit := Nd tt "Name" [("id", At (AStr s)); ("ctx", Nd tt c [])]%string.
Definition ex10_t : tree unit :=
  Nd tt "Assign" [("targets", Ls [Nd tt "Tuple" [("elts", Ls
      [Nd tt "Attribute" [("value", Nd tt "Subscript" [("value", name_t "a" "Load"); ("slice", name_t "b" "Load"); ("ctx", Nd tt "Load" [])]);
                          ("attr", At (AStr "c")); ("ctx", Nd tt "Load" [])];
       Nd tt "Name" [("id", At (AStr "d"))]]); ("ctx", Nd tt "Load" [])]]);
    ("value", name_t "e" "Load"); ("type_comment", At ANone)]%string.
Example C10_example_owns : exists F, owns ex10 (VRef 10) ex10_t F /\ NoDup F /\ sound "Load" ex10_t = true /\ height ex10_t < 9.
Proof.
  exists [10; 8; 7; 6; 4; 3; 1; 2; 5; 9]. split; [|split; [|split; [reflexivity|cbv; lia]]].
  - unfold ex10_t, name_t.
    change [10; 8; 7; 6; 4; 3; 1; 2; 5; 9] with
      (10 :: (8 :: (7 :: (6 :: (4 :: (3 :: (1 :: [] ++ [] ++ []) ++ (2 :: [] ++ [] ++ []) ++ [] ++ []) ++ [] ++ [] ++ []) ++ (5 :: [] ++ []) ++ []) ++ [] ++ []) ++ []) ++ (9 :: [] ++ [] ++ []) ++ [] ++ []).
    repeat (first [apply ow_bare; [reflexivity|reflexivity] | eapply ow_node; [reflexivity|right; discriminate|] | eapply ow_list; [reflexivity|] | constructor]).
  - repeat constructor; simpl; intuition discriminate.
Qed.
(** What fix_ctx's result shows. *)
Definition shown (copy : bool) (n : nat) (h : heap) (v : val) : option (tree unit) :=
  match fix_ctx copy n h v with Rt (v', h') => read n h' v' | _ => None end.
Example C10_example : shown true 9 ex10 (VRef 10) = Some
  (Nd tt "Assign" [("targets", Ls [Nd tt "Tuple" [("elts", Ls
      [Nd tt "Attribute" [("value", Nd tt "Subscript" [("value", name_t "a" "Load"); ("slice", name_t "b" "Load"); ("ctx", Nd tt "Load" [])]);
                          ("attr", At (AStr "c")); ("ctx", Nd tt "Store" [])];
       name_t "d" "Store"]); ("ctx", Nd tt "Store" [])]]);
    ("value", name_t "e" "Load"); ("type_comment", At ANone)]%string).
Proof. vm_compute. reflexivity. Qed.

Lemma read_reads n : forall h v t, read n h v = Some t -> reads h v t.
Proof.
  induction n as [|n IH]; intros h v t H; [discriminate|]. cbn [read] in H. destruct v as [i|a]; [|inversion H; constructor].
  destruct (h_obj h i) as [[k fs|l]|] eqn:Ho; [| |discriminate].
  - match type of H with match ?g fs with _ => _ end = _ => destruct (g fs) as [gs|] eqn:E; [|discriminate] end.
    inversion H; subst. apply rd_node with (fs := fs); [exact Ho|]. clear H Ho. revert gs E. induction fs as [|[f x] fs IHf]; intros gs E.
    + inversion E. constructor.
    + destruct (read n h x) as [t|] eqn:E1; [|discriminate].
      match type of E with match ?g with _ => _ end = _ => destruct g as [ts|] eqn:E2; [|discriminate] end.
      inversion E; subst. constructor; auto.
  - match type of H with match ?g l with _ => _ end = _ => destruct (g l) as [gs|] eqn:E; [|discriminate] end.
    inversion H; subst. apply rd_list with (vs := l); [exact Ho|]. clear H Ho. revert gs E. induction l as [|x l IHl]; intros gs E.
    + inversion E. constructor.
    + destruct (read n h x) as [t|] eqn:E1; [|discriminate].
      match type of E with match ?g with _ => _ end = _ => destruct g as [ts|] eqn:E2; [|discriminate] end.
      inversion E; subst. constructor; auto.
Qed.
Lemma shown_reads copy n h v t : shown copy n h v = Some t ->
  exists v' h', fix_ctx copy n h v = Rt (v', h') /\ reads h' v' t.
Proof.
  unfold shown. destruct (fix_ctx copy n h v) as [| |[v' h']]; try discriminate. intros H. exists v', h'.
  split; [reflexivity|]. apply read_reads in H. exact H.
Qed.

(** C11, partial. copy_seen_nodes=True, and Name instances (with or without a ctx) shared between
    any number of positions that demand any ctx, as long as no instance stands directly in a
    ctx-setting construct and once more inside the same construct ([no_conflict], part of [rep]):
    what is returned shows the tree with the ctx each position demands, and nothing outside of it
    changes. Missing: sharing of instances of other classes, and sharing inside one construct; there
    the full claim is false (below). *)
Theorem C11_shared_names_partial : forall n h v t F S,
  bounded h -> rep h "Load" v t F S -> sound "Load" t = true -> height t < n ->
  NoDup F -> (forall i, In i F -> ~ In i (map fst S)) ->
  exists v' h', fix_ctx true n h v = Rt (v', h') /\ reads h' v' (set_ctx "Load" t) /\
    (forall i, h_obj h i <> None -> ~ In i F -> ~ In i (map fst S) -> h_obj h' i = h_obj h i).
Proof.
  intros n h v t F S Hb Hr Hs Hh Hn Hd.
  destruct (fix_ctx_rep true n h v t F S Hb Hr Hs) as [v' [h' [E [R [Fr _]]]]]; auto; [lia|].
  exists v', h'. auto.
Qed.
Print Assumptions C11_shared_names_partial.

Theorem C11_shared_names_in_list_partial : forall n h j vs ts F S,
  bounded h -> h_obj h j = Some (OList vs) -> rep_elts h "Load" vs ts F S ->
  sound "Load" (Ls ts) = true -> height (Ls ts) < n ->
  NoDup (j :: F) -> (forall i, In i (j :: F) -> ~ In i (map fst S)) ->
  exists h', fix_ctx true n h (VRef j) = Rt (VRef j, h') /\ reads h' (VRef j) (set_ctx "Load" (Ls ts)) /\
    (forall i, h_obj h i <> None -> ~ In i (j :: F) -> ~ In i (map fst S) -> h_obj h' i = h_obj h i).
Proof.
  intros n h j vs ts F S Hb Ho Hr Hs Hh Hn Hd. destruct n as [|n]; [lia|].
  destruct (fix_ctx_rep_list true n h j vs ts F S Hb Ho Hr) as [h' [E [R [Fr _]]]]; auto; [|lia|].
  - cbn [sound] in Hs. rewrite forallb_forall in *. intros x Hx. specialize (Hs x Hx). apply andb_true_iff in Hs. apply Hs.
  - exists h'. auto.
Qed.
Print Assumptions C11_shared_names_in_list_partial.

(** [x = a] then [b = x] then [del x], one and the same instance of [x]. *)
Definition ex11 : heap := mem
  [ONode "Load" []; nm "x" 0; nm "a" 0; nm "b" 0;
   OList [VRef 1]; ONode "Assign" [("targets", VRef 4); ("value", VRef 2); ("type_comment", VAt ANone)]%string;
   OList [VRef 3]; ONode "Assign" [("targets", VRef 6); ("value", VRef 1); ("type_comment", VAt ANone)]%string;
   OList [VRef 1]; ONode "Delete" [("targets", VRef 8)]%string;
   OList [VRef 5; VRef 7; VRef 9]].
Definition asg (x y : string) (cx cy : string) : tree unit :=
  Nd tt "Assign" [("targets", Ls [name_t x cx]); ("value", name_t y cy); ("type_comment", At ANone)]%string.
Definition ex11_ts : list (tree unit) :=
  [asg "x" "a" "Load" "Load"; asg "b" "x" "Load" "Load"; Nd tt "Delete" [("targets", Ls [name_t "x" "Load"])]]%string.
Example C11_example_rep : exists F S,
  rep_elts ex11 "Load" [VRef 5; VRef 7; VRef 9] ex11_ts F S /\ NoDup (10 :: F) /\
  (forall i, In i (10 :: F) -> ~ In i (map fst S)) /\ S = [(1, "Store"); (1, "Load"); (1, "Del")]%string /\
  sound "Load" (Ls ex11_ts) = true /\ height (Ls ex11_ts) < 9.
Proof.
  exists [5; 4; 2; 7; 6; 3; 9; 8], [(1, "Store"); (1, "Load"); (1, "Del")]%string.
  assert (N : forall c i s, h_obj ex11 i = Some (nm s 0) -> rep ex11 c (VRef i) (name_t s "Load") [i] []).
  { intros c i s H. change [i] with (i :: ([] ++ []) ++ []). change (@nil (nat * string)) with (([] ++ []) ++ @nil (nat * string)).
    eapply rp_node; [exact H|left; reflexivity| | |].
    - apply rf_atom. apply (rf_node ex11 "Name" c "ctx" (VRef 0) (Nd tt "Load" []) [] [] [] [] [] []); [apply rp_bare; reflexivity|constructor].
    - constructor.
    - intros f v x e _ _ _ []. }
  assert (X : forall c, rep ex11 c (VRef 1) (name_t "x" "Load") [] [(1, c)]).
  { intros c. apply rp_shared with (a := AStr "x"%string).
    - right. exists 0, "Load"%string. repeat split.
    - right. exists "Load"%string. reflexivity. }
  split; [|split; [|split; [|split; [reflexivity|split; [reflexivity|cbv; lia]]]]].
  - change [5; 4; 2; 7; 6; 3; 9; 8] with ([5; 4; 2] ++ [7; 6; 3] ++ [9; 8] ++ []).
    change [(1, "Store"); (1, "Load"); (1, "Del")]%string with ([(1, "Store"%string)] ++ [(1, "Load"%string)] ++ [(1, "Del"%string)] ++ []).
    apply re_cons; [|apply re_cons; [|apply re_cons; [|constructor]]].
    + change [5; 4; 2] with (5 :: ((4 :: ([] ++ []) ++ ([2] ++ []))) ++ []).
      change [(1, "Store"%string)] with ((([(1, "Store"%string)] ++ []) ++ ([] ++ [])) ++ []).
      eapply rp_node; [reflexivity|right; discriminate| | |].
      * eapply rf_list; [reflexivity| |].
        -- apply re_cons; [apply X|constructor].
        -- apply rf_node; [apply N; reflexivity|]. apply rf_atom. constructor.
      * constructor.
      * intros f v x e _ _ _ [E|[]]. inversion E; subst. left. reflexivity.
    + change [7; 6; 3] with (7 :: ((6 :: ([3] ++ []) ++ ([] ++ []))) ++ []).
      change [(1, "Load"%string)] with (((@nil (nat * string) ++ []) ++ ([(1, "Load"%string)] ++ [])) ++ []).
      eapply rp_node; [reflexivity|right; discriminate| | |].
      * eapply rf_list; [reflexivity| |].
        -- apply re_cons; [apply N; reflexivity|constructor].
        -- apply rf_node; [apply X|]. apply rf_atom. constructor.
      * constructor.
      * intros f v x e _ _ _ [E|[]]. inversion E; subst. left. reflexivity.
    + change [9; 8] with (9 :: ((8 :: ([] ++ []) ++ [])) ++ []).
      change [(1, "Del"%string)] with ((([(1, "Del"%string)] ++ []) ++ []) ++ []).
      eapply rp_node; [reflexivity|right; discriminate| | |].
      * eapply rf_list; [reflexivity| |].
        -- apply re_cons; [apply X|constructor].
        -- constructor.
      * constructor.
      * intros f v x e _ _ _ [E|[]]. inversion E; subst. left. reflexivity.
  - repeat constructor; simpl; intuition discriminate.
  - simpl. intuition congruence.
Qed.
Example C11_example : shown true 9 ex11 (VRef 10) = Some (Ls [asg "x" "a" "Store" "Load"; asg "b" "x" "Store" "Load";
                                  Nd tt "Delete" [("targets", Ls [name_t "x" "Del"])]])%string.
Proof. vm_compute. reflexivity. Qed.

(** C11 in full is false: the same Name instance as target and value of one assignment ([x = x]);
    the target comes out as Load. *)
Theorem C11_same_instance_in_one_statement_refuted :
  exists h v t n v' h' t', bounded h /\ reads h v t /\ sound "Load" t = true /\ height t < n /\
    fix_ctx true n h v = Rt (v', h') /\ reads h' v' t' /\ t' <> set_ctx "Load" t /\
    t' = asg "x" "x" "Load" "Load".
Proof.
  pose (h := mem [ONode "Load" []; nm "x" 0; OList [VRef 1]; ONode "Assign" [("targets", VRef 2); ("value", VRef 1); ("type_comment", VAt ANone)]%string]).
  pose (t := (asg "x" "x" "Load" "Load")).
  destruct (shown_reads true 9 h (VRef 3) (asg "x" "x" "Load" "Load")) as [v' [h' [E R]]]; [vm_compute; reflexivity|].
  exists h, (VRef 3), t, 9, v', h', (asg "x" "x" "Load" "Load").
  split; [apply mem_bounded|]. split; [apply (read_reads 9); vm_compute; reflexivity|].
  split; [vm_compute; reflexivity|]. split; [cbv; lia|]. split; [exact E|]. split; [exact R|]. split; [discriminate|reflexivity].
Qed.
Print Assumptions C11_same_instance_in_one_statement_refuted.

(** Nor does it hold for instances shared between statements, if they are not Names: a Tuple instance
    that is the target of one statement and the value of the next. The copy shares its [elts] list
    with the original, so the element of the first statement's target comes out as Load. *)
Definition tup (s ct cn : string) : tree unit := Nd tt "Tuple" [("elts", Ls [name_t s cn]); ("ctx", Nd tt ct [])]%string.
Definition asg2 (x y : tree unit) : tree unit :=
  Nd tt "Assign" [("targets", Ls [x]); ("value", y); ("type_comment", At ANone)]%string.
Theorem C11_tuple_between_statements_refuted :
  exists h v t n v' h' t', bounded h /\ reads h v t /\ sound "Load" t = true /\ height t < n /\
    fix_ctx true n h v = Rt (v', h') /\ reads h' v' t' /\ t' <> set_ctx "Load" t /\
    t' = Ls [asg2 (tup "x" "Store" "Load") (name_t "a" "Load"); asg2 (name_t "b" "Store") (tup "x" "Load" "Load")].
Proof.
  pose (h := mem [ONode "Load" []; nm "x" 0; OList [VRef 1]; ONode "Tuple" [("elts", VRef 2); ("ctx", VRef 0)]%string;
               nm "a" 0; nm "b" 0;
               OList [VRef 3]; ONode "Assign" [("targets", VRef 6); ("value", VRef 4); ("type_comment", VAt ANone)]%string;
               OList [VRef 5]; ONode "Assign" [("targets", VRef 8); ("value", VRef 3); ("type_comment", VAt ANone)]%string;
               OList [VRef 7; VRef 9]]).
  pose (t := (Ls [asg2 (tup "x" "Load" "Load") (name_t "a" "Load"); asg2 (name_t "b" "Load") (tup "x" "Load" "Load")])).
  destruct (shown_reads true 9 h (VRef 10) (Ls [asg2 (tup "x" "Store" "Load") (name_t "a" "Load"); asg2 (name_t "b" "Store") (tup "x" "Load" "Load")])) as [v' [h' [E R]]]; [vm_compute; reflexivity|].
  exists h, (VRef 10), t, 9, v', h', (Ls [asg2 (tup "x" "Store" "Load") (name_t "a" "Load"); asg2 (name_t "b" "Store") (tup "x" "Load" "Load")]).
  split; [apply mem_bounded|]. split; [apply (read_reads 9); vm_compute; reflexivity|].
  split; [vm_compute; reflexivity|]. split; [cbv; lia|]. split; [exact E|]. split; [exact R|]. split; [discriminate|reflexivity].
Qed.
Print Assumptions C11_tuple_between_statements_refuted.
