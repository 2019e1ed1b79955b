(** C66: the tools that say where something is. *)
From Verif Require Import Base PyGrammar UnparseModel UnparseLex ExpanderModel DumpSpec DumpLayout ShowModel ShowProofs LocateModel.
Open Scope string_scope.

(** ** Line numbers *)
Inductive inside {M} : tree M -> tree M -> Prop :=
| in_self t : inside t t
| in_field m k fs f v u : In (f, v) fs -> inside v u -> inside (Nd m k fs) u
| in_list l v u : In v l -> inside v u -> inside (Ls l) u.
(** No node in it has a line number. *)
Definition bare (t : tree lno) : Prop := forall m k fs, inside t (Nd m k fs) -> m = None.
(** The first node with a line number, depth first and in the order of the fields, has the number [z]. *)
Inductive first_lineno : tree lno -> Z -> Prop :=
| fl_here z k fs : first_lineno (Nd (Some (Some z)) k fs) z
| fl_field k a f v b z : Forall (fun p => bare (snd p)) a -> first_lineno v z -> first_lineno (Nd None k (a ++ (f, v) :: b)%list) z
| fl_list a v b z : Forall bare a -> first_lineno v z -> first_lineno (Ls (a ++ v :: b)%list) z.
Section Lineno.
  Variable is_marker : string -> bool.
  (** Line numbers are not zero (nor None); in an AST marker, only the body holds AST nodes. *)
  Definition proper (t : tree lno) : Prop := forall m k fs, inside t (Nd m k fs) ->
    (m = None \/ exists z, m = Some (Some z) /\ z <> 0%Z) /\
    (is_marker k = true -> In "body" (map fst fs) -> exists a v b, fs = (a ++ ("body", v) :: b)%list /\ ~ In "body" (map fst a) /\ Forall (fun p => bare (snd p)) (a ++ b)).

  Lemma proper_field m k fs f v : proper (Nd m k fs) -> In (f, v) fs -> proper v.
  Proof. intros H Hi m' k' fs' Hs. apply H. eapply in_field; eassumption. Qed.
  Lemma proper_elem l v : proper (Ls l) -> In v l -> proper v.
  Proof. intros H Hi m' k' fs' Hs. apply H. eapply in_list; eassumption. Qed.
  Lemma bare_field k fs f v : bare (Nd None k fs) -> In (f, v) fs -> bare v.
  Proof. intros H Hi m' k' fs' Hs. eapply H. eapply in_field; eassumption. Qed.
  Lemma bare_node k fs : Forall (fun p => bare (snd p)) fs -> bare (Nd None k fs).
  Proof. intros H m' k' fs' Hs. inversion Hs; subst; [reflexivity|]. rewrite Forall_forall in H. match goal with Hi : In (?f, ?v) fs, Hv : inside _ _ |- _ => exact (H (f, v) Hi _ _ _ Hv) end. Qed.
  Lemma bare_list l : Forall bare l -> bare (Ls l).
  Proof. intros H m' k' fs' Hs. inversion Hs; subst. rewrite Forall_forall in H. match goal with Hi : In ?v l, Hv : inside _ _ |- _ => exact (H v Hi _ _ _ Hv) end. Qed.

  (** What the theorem says of one tree. *)
  Definition right (t : tree lno) : Prop :=
    match get_lineno is_marker t with Some z => first_lineno t z /\ z <> 0%Z | None => bare t end.

  Lemma search_fields k fs : Forall (fun p => right (snd p)) fs ->
    match (fix go (l : list (string * tree lno)) : option Z := match l with [] => None | (_, v) :: r => let z := get_lineno is_marker v in if truthy z then z else go r end) fs with
    | Some z => first_lineno (Nd None k fs) z /\ z <> 0%Z
    | None => Forall (fun p => bare (snd p)) fs
    end.
  Proof.
    intros H. induction H as [|[f v] fs Hv H IH]; [constructor|]. cbn zeta. unfold right in Hv. cbn [snd] in Hv. destruct (get_lineno is_marker v) as [z|] eqn:E.
    - destruct Hv as [H1 H2]. cbn [truthy]. apply Z.eqb_neq in H2. rewrite H2. cbn [negb]. split; [|apply Z.eqb_neq; exact H2]. apply (fl_field k [] f v fs z); [constructor|exact H1].
    - cbn [truthy]. match goal with |- match ?x with _ => _ end => destruct x as [z|] eqn:E2 end; [|constructor; assumption].
      destruct IH as [IH1 IH2]. split; [|exact IH2]. inversion IH1; subst. apply (fl_field k ((f, v) :: a) f0 v0 b z); [constructor; assumption|assumption].
  Qed.
  Lemma search_list l : Forall right l ->
    match (fix go (l : list (tree lno)) : option Z := match l with [] => None | v :: r => let z := get_lineno is_marker v in if truthy z then z else go r end) l with
    | Some z => first_lineno (Ls l) z /\ z <> 0%Z
    | None => Forall bare l
    end.
  Proof.
    intros H. induction H as [|v l Hv H IH]; [constructor|]. cbn zeta. unfold right in Hv. destruct (get_lineno is_marker v) as [z|] eqn:E.
    - destruct Hv as [H1 H2]. cbn [truthy]. apply Z.eqb_neq in H2. rewrite H2. cbn [negb]. split; [|apply Z.eqb_neq; exact H2]. apply (fl_list [] v l z); [constructor|exact H1].
    - cbn [truthy]. match goal with |- match ?x with _ => _ end => destruct x as [z|] eqn:E2 end; [|constructor; assumption].
      destruct IH as [IH1 IH2]. split; [|exact IH2]. inversion IH1; subst. apply (fl_list (v :: a) v0 b z); [constructor; assumption|assumption].
  Qed.
  Lemma body_found (a : list (string * tree lno)) v b : ~ In "body" (map fst a) ->
    (fix body (l : list (string * tree lno)) : option (option Z) :=
       match l with [] => None | (f, v) :: r => if String.eqb "body" f then Some (get_lineno is_marker v) else body r end) (a ++ ("body", v) :: b)%list = Some (get_lineno is_marker v).
  Proof. induction a as [|[f w] a IH]; intros H; cbn [app]; [reflexivity|]. destruct (String.eqb_spec "body" f) as [<-|]; [exfalso; apply H; left; reflexivity|]. apply IH. intros Hi. apply H. right. exact Hi. Qed.
  Lemma body_missing (l : list (string * tree lno)) : ~ In "body" (map fst l) ->
    (fix body (l : list (string * tree lno)) : option (option Z) :=
       match l with [] => None | (f, v) :: r => if String.eqb "body" f then Some (get_lineno is_marker v) else body r end) l = None.
  Proof. induction l as [|[f w] l IH]; intros H; [reflexivity|]. destruct (String.eqb_spec "body" f) as [<-|]; [exfalso; apply H; left; reflexivity|]. apply IH. intros Hi. apply H. right. exact Hi. Qed.

  Lemma get_lineno_right t : proper t -> right t.
  Proof.
    induction t as [m k fs IH|l IH|a] using tree_ind'; intros Hp.
    - destruct (Hp m k fs (in_self _)) as [[->|[z [-> Hz]]] Hm]; [|unfold right; cbn [get_lineno]; split; [constructor|exact Hz]].
      assert (Hr : Forall (fun p => right (snd p)) fs).
      { apply Forall_forall. intros [f v] Hi. rewrite Forall_forall in IH. apply (IH (f, v) Hi). cbn [snd]. eapply proper_field; eassumption. }
      unfold right. cbn [get_lineno].
      assert (G : match (fix go (l : list (string * tree lno)) : option Z := match l with [] => None | (_, v) :: r => let z := get_lineno is_marker v in if truthy z then z else go r end) fs with
                  | Some z => first_lineno (Nd None k fs) z /\ z <> 0%Z | None => bare (Nd None k fs) end).
      { pose proof (search_fields k fs Hr) as S. match goal with |- match ?x with _ => _ end => destruct x end; [exact S|apply bare_node; exact S]. }
      destruct (is_marker k) eqn:Em; [|exact G]. destruct (in_dec string_dec "body" (map fst fs)) as [Hb|Hb]; [|rewrite (body_missing fs Hb); exact G].
      destruct (Hm eq_refl Hb) as (a & v & b & -> & Ha & Hab). rewrite (body_found a v b Ha). apply Forall_app in Hab as [A B].
      rewrite Forall_forall in Hr. specialize (Hr ("body", v) (in_elt _ _ _)). unfold right in Hr. cbn [snd] in Hr. destruct (get_lineno is_marker v) as [z|].
      + destruct Hr as [R1 R2]. split; [|exact R2]. apply fl_field; assumption.
      + apply bare_node. apply Forall_app. split; [exact A|constructor; assumption].
    - assert (Hr : Forall right l) by (apply Forall_forall; intros v Hi; rewrite Forall_forall in IH; apply (IH v Hi); eapply proper_elem; eassumption).
      pose proof (search_list l Hr) as S. unfold right. cbn [get_lineno]. match goal with |- match ?x with _ => _ end => destruct x end; [exact S|apply bare_list; exact S].
    - unfold right. cbn [get_lineno]. intros m k fs H. inversion H.
  Qed.
  Lemma first_not_bare t z : first_lineno t z -> bare t -> False.
  Proof.
    induction 1 as [z k fs|k a f v b z Ha Hf IH|a v b z Ha Hf IH]; intros Hb.
    - specialize (Hb _ _ _ (in_self _)). discriminate.
    - apply IH. eapply bare_field; [exact Hb|apply in_elt].
    - apply IH. intros m k fs Hi. apply (Hb m k fs). eapply in_list; [apply in_elt|exact Hi].
  Qed.
  Lemma first_unique t z : first_lineno t z -> forall z', first_lineno t z' -> z = z'.
  Proof.
    assert (C : forall A (Q : A -> Prop) (a a' : list A) x x' b b', (a ++ x :: b = a' ++ x' :: b')%list -> Forall Q a -> Forall Q a' -> ~ Q x -> ~ Q x' -> x = x').
    { intros A Q a. induction a as [|y a IH]; intros [|y' a'] x x' b b' E Ha Ha' Hx Hx'; cbn in E; inversion E; subst; [reflexivity|inversion Ha'; contradiction|inversion Ha; contradiction|].
      inversion Ha; inversion Ha'; subst. eapply IH; eassumption. }
    induction 1 as [z k fs|k a f v b z Ha Hf IH|a v b z Ha Hf IH]; intros z' H'.
    - inversion H'; subst. reflexivity.
    - inversion H'; subst. apply IH. assert (E2 : (f0, v0) = (f, v)) by (apply (C _ (fun p : string * tree lno => bare (snd p)) a0 a (f0, v0) (f, v) b0 b); [assumption|assumption|assumption|intros Hb; eapply (first_not_bare v0); [eassumption|exact Hb]|intros Hb; eapply (first_not_bare v); [eassumption|exact Hb]]).
      inversion E2; subst. assumption.
    - inversion H'; subst. apply IH. assert (E2 : v0 = v) by (apply (C _ bare a0 a v0 v b0 b); [assumption|assumption|assumption|intros Hb; eapply (first_not_bare v0); [eassumption|exact Hb]|intros Hb; eapply (first_not_bare v); [eassumption|exact Hb]]).
      subst. assumption.
  Qed.

  (** [get_lineno] gives the first line number in the tree, depth first; None exactly if there is none anywhere. *)
  Theorem C66_lineno t : proper t -> (forall z, get_lineno is_marker t = Some z <-> first_lineno t z) /\ (get_lineno is_marker t = None <-> bare t).
  Proof.
    intros Hp. pose proof (get_lineno_right t Hp) as R. unfold right in R. destruct (get_lineno is_marker t) as [z|] eqn:E.
    - destruct R as [R1 R2]. split.
      + intros z'. split; [intros H; inversion H; subst; exact R1|intros H; f_equal; eapply first_unique; eassumption].
      + split; [discriminate|]. intros Hb. exfalso. eapply first_not_bare; eassumption.
    - split; [|split; [intros _; exact R|reflexivity]]. intros z'. split; [discriminate|]. intros H. exfalso. eapply first_not_bare; eassumption.
  Qed.
End Lineno.
Print Assumptions C66_lineno.

(** A Module has no line number; its first statement is an AST marker without one; in its body, the first expression that has one is on line 7. *)
Definition l_tree : tree lno :=
  Nd None "Module" [("body", Ls [Nd None "Done" [("body", Nd None "Expr" [("value", Nd None "Tuple" [("elts", Ls [Nd None "Name" [("ctx", Nd None "Load" [])]; Nd (Some (Some 7%Z)) "Constant" [("value", At (AInt 9%Z))]])])])]; Nd (Some (Some 8%Z)) "Pass" []])].
Example C66_lineno_example : get_lineno (String.eqb "Done") l_tree = Some 7%Z /\ get_lineno (String.eqb "Done") (Nd None "Module" [("body", Ls [])]) = None.
Proof. vm_compute. split; reflexivity. Qed.
Ltac inside_all :=
  repeat match goal with
  | H : inside (Nd _ _ _) (Nd _ _ _) |- _ => inversion H; clear H; subst
  | H : inside (Ls _) _ |- _ => inversion H; clear H; subst
  | H : inside (At _) _ |- _ => inversion H; clear H; subst
  | H : In _ (_ :: _) |- _ => destruct H as [H|H]; [try (inversion H; clear H; subst); subst|]
  | H : In _ [] |- _ => destruct H
  end.
Example C66_lineno_example_proper : proper (String.eqb "Done") l_tree.
Proof.
  intros m k fs H. unfold l_tree in H. inside_all; (split; [first [left; reflexivity|right; eexists; split; [reflexivity|discriminate]]|cbn; intros Hk; try discriminate]).
  intros _. exists []. eexists. exists []. split; [reflexivity|]. split; [intros []|constructor].
Qed.

(** ** Texts *)
Lemma split_nonempty s : split_nl s <> [].
Proof. destruct s as [|c s]; cbn; [discriminate|]. destruct (Ascii.eqb c _); [discriminate|]. destruct (split_nl s); discriminate. Qed.
Lemma split_line x : lacks lf x -> split_nl x = [x].
Proof.
  induction x as [|c x IH]; intros H; [reflexivity|]. cbn [split_nl]. fold lf. destruct (Ascii.eqb_spec c lf) as [->|]; [exfalso; apply H; left; reflexivity|].
  rewrite IH by (intros Hi; apply H; right; exact Hi). reflexivity.
Qed.
Lemma split_cons x r : lacks lf x -> split_nl (x ++ nl ++ r) = x :: split_nl r.
Proof.
  induction x as [|c x IH]; intros H; cbn [append]; [reflexivity|]. cbn [split_nl]. fold lf. destruct (Ascii.eqb_spec c lf) as [->|]; [exfalso; apply H; left; reflexivity|].
  rewrite IH by (intros Hi; apply H; right; exact Hi). reflexivity.
Qed.
Lemma split_join l : l <> [] -> Forall (lacks lf) l -> split_nl (join_nl l) = l.
Proof.
  induction l as [|x l IH]; intros Hn H; [contradiction|]. inversion H; subst. destruct l as [|y l]; [apply split_line; assumption|].
  change (join_nl (x :: y :: l)) with (x ++ nl ++ join_nl (y :: l)). rewrite split_cons by assumption. f_equal. apply IH; [discriminate|assumption].
Qed.
Lemma join_app l x : l <> [] -> join_nl l ++ newline ++ x = join_nl (l ++ [x])%list.
Proof.
  induction l as [|y l IH]; intros Hn; [contradiction|]. destruct l as [|z l]; [reflexivity|]. change (join_nl (y :: z :: l)) with (y ++ nl ++ join_nl (z :: l)). rewrite !sapp_assoc.
  rewrite IH by discriminate. reflexivity.
Qed.
(** The source code of a tree, cut: the first [n] lines, followed by a line with three dots if there are more. *)
Theorem C66_context P lines n : Forall (lacks lf) lines -> lines <> [] -> 0 < n ->
  format_context P (join_nl lines) n = join_nl (firstn n lines ++ if Nat.ltb n (List.length lines) then [colorize P "..." [p_greyed P]] else [])%list.
Proof.
  intros Hl Hn H0. unfold format_context. cbn zeta. rewrite split_join by assumption. destruct (Nat.ltb n (List.length lines)).
  - apply join_app. destruct n; [lia|]. destruct lines; [contradiction|discriminate].
  - rewrite app_nil_r. generalize (join_nl (firstn n lines)). intros s. induction s; cbn; [reflexivity|now f_equal].
Qed.
Print Assumptions C66_context.
Definition c_pal : palette := Palette "" (STup []) (SCode "") (STup []) (SCode "").
Example C66_context_example : format_context c_pal (join_nl ["a"; "b"; "c"; "d"]) 2 = join_nl ["a"; "b"; "..."] /\ format_context c_pal (join_nl ["a"; "b"]) 2 = join_nl ["a"; "b"].
Proof. vm_compute. split; reflexivity. Qed.

Lemma digits_no_esc a : all_chars is_digit a = true -> no_esc a = true.
Proof.
  unfold no_esc. induction a as [|c a IH]; cbn [all_chars]; intros H; [reflexivity|]. apply andb_true_iff in H as [H1 H2]. rewrite IH by exact H2.
  destruct (Ascii.eqb_spec c esc) as [->|]; [discriminate H1|reflexivity].
Qed.
(** A location, as shown on a terminal: file name, line number; then the source code, on the same line if it is one line, otherwise on the lines below. *)
Theorem C66_location P is_marker filename t source : palette_codes P -> no_esc filename = true -> match source with Some s => no_esc s = true | None => True end ->
  strip false (format_location P is_marker filename t source) =
    (filename ++ ":" ++ show_lineno (get_lineno is_marker t) ++ ":" ++
     match source with
     | None | Some "" => ""
     | Some s => (if in_dec ascii_dec lf (list_ascii_of_string s) then nl else " ") ++ s
     end, false).
Proof.
  intros (C1 & C2 & C3 & C4 & C5) Hf Hs. unfold format_location. match goal with |- strip false ?x = (?y, false) => change (shows x y) end.
  apply shows_app; [apply colorize_shows; [assumption|repeat constructor; assumption|assumption]|]. apply shows_app; [apply shows_self; reflexivity|]. apply shows_app.
  { apply shows_self. destruct (get_lineno is_marker t) as [z|]; [|reflexivity]. cbn [show_lineno].
    assert (D : forall m, no_esc (repr_int m) = true).
    { intros m. apply digits_no_esc. apply repr_int_ok. }
    destruct (Z.ltb z 0); [cbn; apply D|apply D]. }
  apply shows_app; [apply shows_self; reflexivity|]. destruct source as [s|]; [|reflexivity]. destruct s as [|c s]; [reflexivity|]. change (String.eqb (String c s) "") with false. cbv iota. set (u := String c s) in *.
  apply shows_app; [|apply shows_self; exact Hs]. replace (has_nl u) with (if in_dec ascii_dec lf (list_ascii_of_string u) then true else false); [destruct (in_dec ascii_dec lf (list_ascii_of_string u)); reflexivity|].
  unfold has_nl. destruct (in_dec ascii_dec lf (list_ascii_of_string u)) as [Hi|Hi].
  - symmetry. apply existsb_exists. exists lf. split; [exact Hi|reflexivity].
  - symmetry. apply not_true_is_false. intros He. apply existsb_exists in He as [x [Hx Ex]]. apply Ascii.eqb_eq in Ex. subst. apply Hi. exact Hx.
Qed.
Print Assumptions C66_location.

(** ** The validator *)
(** The child nodes, as [ast.iter_child_nodes] gives them. *)
Definition children (t : tree idm) : list (tree idm) :=
  match t with
  | Nd _ _ fs => flat_map (fun p => match snd p with Nd _ _ _ => [snd p] | Ls l => filter is_node l | At _ => [] end) fs
  | _ => []
  end.
(** All nodes of a tree, each before its children, and all those under one child before those under the next. *)
Inductive depth_first : tree idm -> list (tree idm) -> Prop :=
| df_node m k fs ls : Forall2 depth_first (children (Nd m k fs)) ls -> depth_first (Nd m k fs) (Nd m k fs :: List.concat ls).
Section Validator.
  Variable class_attrs : string -> list string.
  Variable unparse : tree idm -> string.
  Variable P : palette.
  Variables (ignore : list nat) (n : nat) (check_fields : list string).
  Notation validate := (validate class_attrs unparse P ignore n check_fields).
  Notation examine := (examine class_attrs unparse P ignore n check_fields).
  (** The names to check that the node has not, as a field, as an attribute of its own, or by default. *)
  Definition has (m : idm) (k : string) (fs : list (string * tree idm)) (x : string) : Prop := In x (map fst fs) \/ In x (snd m) \/ In x (class_attrs k).
  (** What is to be said about one node. *)
  Inductive verdict : tree idm -> list (tree idm * string * list string) -> Prop :=
  | v_ignored m k fs : In (fst m) ignore -> verdict (Nd m k fs) []
  | v_complete m k fs : (forall x, In x check_fields -> has m k fs x) -> verdict (Nd m k fs) []
  | v_missing m k fs miss : ~ In (fst m) ignore -> miss <> [] -> (forall x, In x miss <-> In x check_fields /\ ~ has m k fs x) -> (exists keep, miss = filter keep check_fields) ->
      verdict (Nd m k fs) [(Nd m k fs, format_context P (unparse (Nd m k fs)) n, miss)].

  Lemma has_spec m k fs x : hasattr class_attrs m k fs x = true <-> has m k fs x.
  Proof. unfold hasattr, has. rewrite !orb_true_iff, !smem_In. tauto. Qed.
  Lemma examine_children m k fs : examine (Nd m k fs) =
    ((if existsb (Nat.eqb (fst m)) ignore then [] else if forallb (hasattr class_attrs m k fs) check_fields then []
      else [(Nd m k fs, format_context P (unparse (Nd m k fs)) n, filter (fun x => negb (hasattr class_attrs m k fs x)) check_fields)]) ++ flat_map examine (children (Nd m k fs)))%list.
  Proof.
    cbn [LocateModel.examine children]. f_equal. induction fs as [|[f v] fs IH]; [reflexivity|]. cbn [flat_map snd]. rewrite flat_map_app. f_equal; [|exact IH].
    destruct v as [m' k' fs'|l|a]; [cbn [flat_map]; rewrite app_nil_r; reflexivity| |reflexivity]. induction l as [|x l IHl]; [reflexivity|]. destruct x; cbn [flat_map filter is_node app]; [rewrite IHl; reflexivity|exact IHl|exact IHl].
  Qed.
  Lemma own_verdict m k fs : verdict (Nd m k fs) (if existsb (Nat.eqb (fst m)) ignore then [] else if forallb (hasattr class_attrs m k fs) check_fields then []
      else [(Nd m k fs, format_context P (unparse (Nd m k fs)) n, filter (fun x => negb (hasattr class_attrs m k fs x)) check_fields)]).
  Proof.
    destruct (existsb (Nat.eqb (fst m)) ignore) eqn:Ei.
    - apply v_ignored. apply existsb_exists in Ei as [i [Hi He]]. apply Nat.eqb_eq in He. subst. exact Hi.
    - destruct (forallb (hasattr class_attrs m k fs) check_fields) eqn:Ef.
      + apply v_complete. intros x Hx. apply has_spec. rewrite forallb_forall in Ef. apply Ef. exact Hx.
      + apply v_missing.
        * intros Hi. rewrite <- not_true_iff_false in Ei. apply Ei. apply existsb_exists. exists (fst m). split; [exact Hi|apply Nat.eqb_refl].
        * intros He. rewrite <- not_true_iff_false in Ef. apply Ef. apply forallb_forall. intros x Hx. destruct (hasattr class_attrs m k fs x) eqn:Eh; [reflexivity|].
          assert (Hin : In x (filter (fun x => negb (hasattr class_attrs m k fs x)) check_fields)) by (apply filter_In; split; [exact Hx|rewrite Eh; reflexivity]). rewrite He in Hin. destruct Hin.
        * intros x. rewrite filter_In, negb_true_iff, <- has_spec, not_true_iff_false. tauto.
        * eexists. reflexivity.
  Qed.
  Lemma examine_all t : is_node t = true -> exists l rs, depth_first t l /\ Forall2 verdict l rs /\ examine t = List.concat rs.
  Proof.
    induction t as [m k fs IH|l _|a] using tree_ind2; intros Hn; try discriminate.
    assert (C : forall u, In u (children (Nd m k fs)) -> exists l rs, depth_first u l /\ Forall2 verdict l rs /\ examine u = List.concat rs).
    { intros u Hu. cbn [children] in Hu. apply in_flat_map in Hu as [[f v] [Hi Hu]]. rewrite Forall_forall in IH. specialize (IH (f, v) Hi). cbn [snd] in *. destruct IH as [H1 H2].
      destruct v as [m' k' fs'|l|a]; [destruct Hu as [<-|[]]; apply H1; reflexivity| |destruct Hu]. apply filter_In in Hu as [Hu Hk]. rewrite Forall_forall in H2. apply (H2 u Hu Hk). }
    assert (D : forall us, (forall u, In u us -> exists l rs, depth_first u l /\ Forall2 verdict l rs /\ examine u = List.concat rs) ->
                exists ls rs, Forall2 depth_first us ls /\ Forall2 verdict (List.concat ls) rs /\ flat_map examine us = List.concat rs).
    { induction us as [|u us IHu]; intros Hus; [exists [], []; repeat split; constructor|].
      destruct (Hus u (or_introl eq_refl)) as (l & r & A1 & A2 & A3). destruct IHu as (ls & rs & B1 & B2 & B3); [intros v Hv; apply Hus; right; exact Hv|].
      exists (l :: ls), (r ++ rs)%list. split; [constructor; assumption|]. split; [cbn [List.concat]; apply Forall2_app; assumption|]. cbn [flat_map]. rewrite A3, B3, concat_app. reflexivity. }
    destruct (D _ C) as (ls & rs & D1 & D2 & D3). eexists. eexists (_ :: rs). split; [constructor; exact D1|]. split; [constructor; [apply own_verdict|exact D2]|]. rewrite examine_children, D3. reflexivity.
  Qed.
  (** The validator goes through all nodes of the tree in order; it collects those that lack a name to check, with what they lack, unless they are to be ignored. *)
  Theorem C66_validator t : is_node t = true -> exists l rs, depth_first t l /\ Forall2 verdict l rs /\ validate t = List.concat rs.
  Proof. intros Hn. destruct t; try discriminate. apply examine_all. reflexivity. Qed.
  Theorem C66_validator_suite ts : Forall (fun t => is_node t = true) ts ->
    exists ls rs, Forall2 depth_first ts ls /\ Forall2 verdict (List.concat ls) rs /\ validate (Ls ts) = List.concat rs.
  Proof.
    cbn [LocateModel.validate]. intros H. induction H as [|t ts Ht H IH]; [exists [], []; repeat split; constructor|]. destruct (examine_all t Ht) as (l & r & A1 & A2 & A3). destruct IH as (ls & rs & B1 & B2 & B3).
    exists (l :: ls), (r ++ rs)%list. split; [constructor; assumption|]. split; [cbn [List.concat]; apply Forall2_app; assumption|]. cbn [flat_map]. rewrite A3, B3, concat_app. reflexivity.
  Qed.
End Validator.
Print Assumptions C66_validator.
Print Assumptions C66_validator_suite.

(** The AST of [f(x)] as Python's parser makes it, but for one node, made by a macro, that has no column. Numbers: identities. *)
Definition d_attrs (k : string) : list string := if smem k ["Load"; "Module"] then [] else ["end_lineno"; "end_col_offset"].
Definition loc : list string := ["lineno"; "col_offset"; "end_lineno"; "end_col_offset"].
Definition d_name (i : nat) (attrs : list string) (id : string) : tree idm := Nd (i, attrs) "Name" [("id", At (AStr id)); ("ctx", Nd (S i, []) "Load" [])].
Definition d_tree (attrs : list string) : tree idm :=
  Nd (0, []) "Module" [("body", Ls [Nd (1, loc) "Expr" [("value", Nd (2, loc) "Call" [("func", d_name 3 loc "f"); ("args", Ls [d_name 5 attrs "x"]); ("keywords", Ls [])])]])].
Definition d_collected (attrs : list string) : list (nat * list string) :=
  flat_map (fun r => match r with (Nd m _ _, _, miss) => [(fst m, miss)] | _ => [] end) (validate d_attrs (fun _ => "") c_pal [0; 4; 6] 5 ["lineno"; "col_offset"] (d_tree attrs)).
Example C66_validator_example : d_collected ["lineno"] = [(5, ["col_offset"])] /\ d_collected loc = [].
Proof. vm_compute. split; reflexivity. Qed.
(** Refuted: for a tree that Python's parser has made, nothing is collected, if the Module is ignored. Contexts, operators, argument lists and more have no
    location, nor do they need one; they are all collected. *)
Theorem C66_validator_parsed_refuted : exists t, t = d_tree loc /\
  flat_map (fun r => match r with (Nd m k _, _, miss) => [(k, miss)] | _ => [] end) (validate d_attrs (fun _ => "") c_pal [0] 5 ["lineno"; "col_offset"] t) =
    [("Load", ["lineno"; "col_offset"]); ("Load", ["lineno"; "col_offset"])].
Proof. eexists. split; [reflexivity|]. vm_compute. reflexivity. Qed.
Print Assumptions C66_validator_parsed_refuted.
(** Refuted: [check_fields] finds nodes without end positions. Python's classes give [end_lineno] a default, so that every expression has one. *)
Theorem C66_validator_end_refuted : exists t, ~ In "end_lineno" (snd (1, ["lineno"; "col_offset"]) : list string) /\ t = Nd (1, ["lineno"; "col_offset"]) "Constant" [("value", At (AInt 1%Z))] /\
  validate d_attrs (fun _ => "") c_pal [] 5 ["end_lineno"; "end_col_offset"] t = [].
Proof. eexists. split; [cbn; intuition discriminate|]. split; [reflexivity|]. vm_compute. reflexivity. Qed.
Print Assumptions C66_validator_end_refuted.
