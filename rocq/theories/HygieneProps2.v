(** C53, the tests for captures answer exactly. *)
From Verif Require Import Base Dict UtilsModel QuoteModel HygieneModel HygieneProps.

(** A call of the function [f] of [mcpyrate.quotes], whatever the arguments. *)
Definition calls (t : pv) (f : string) : Prop := exists m fs c, t = PN m "Call" fs /\ get_field "func" t = Some c /\ names_function c f.
(** A literal. *)
Definition constant (n x : pv) : Prop := exists m fs, n = PN m "Constant" fs /\ get_field "value" n = Some x.
Lemma constant_iff n x : const_of n = Some x <-> constant n x.
Proof.
  unfold const_of, constant. split.
  - destruct n as [a|l|l|l|l|m k fs]; cbn [node_is]; try discriminate. destruct (String.eqb_spec k "Constant") as [->|]; [|discriminate]. intros H. exists m, fs. auto.
  - intros (m & fs & -> & H). cbn [node_is]. rewrite String.eqb_refl. exact H.
Qed.
(** [capture_value(..., "name")], and [lookup_value(("name", b"..."))]. *)
Inductive value_capture (t : pv) (name : string) : option string -> Prop :=
| vc_fresh n : calls t "capture_value" -> arg 1 t = Some n -> constant n (str name) -> value_capture t name None
| vc_frozen k n x b : calls t "lookup_value" -> arg 0 t = Some k -> get_field "elts" k = Some (PL [n; x]) ->
    constant n (str name) -> constant x (PA (ABytes b)) -> value_capture t name (Some b).
(** [lookup_macro(("name", "unique name", b"..."))]. *)
Definition macro_capture (t : pv) (name unique b : string) : Prop :=
  calls t "lookup_macro" /\ exists k n u x, arg 0 t = Some k /\ get_field "elts" k = Some (PL [n; u; x]) /\
    constant n (str name) /\ constant u (str unique) /\ constant x (PA (ABytes b)).
(** The call [__import__()] without an argument, as the module: [__import__().quotes.f(...)]. *)
Definition imports_nothing (t : pv) : Prop := exists c v v' n, node_is "Call" t = true /\ get_field "func" t = Some c /\ get_field "value" c = Some v /\ get_field "value" v = Some v' /\
  node_is "Call" v' = true /\ get_field "func" v' = Some n /\ get_field "id" n = Some (str "__import__") /\ arg 0 v' = None.

Lemma names_one c f g : names_function c f -> names_function c g -> f = g.
Proof. assert (A : forall h, names_function c h -> get_field "attr" c = Some (str h)) by (intros h []; assumption). intros H1 H2. apply A in H1, H2. unfold str in *. congruence. Qed.
Lemma calls_one t f g : calls t f -> calls t g -> f = g.
Proof. intros (m & fs & c & -> & C & N) (m' & fs' & c' & E & C' & N'). rewrite C in C'. injection C' as <-. eapply names_one; eauto. Qed.
Lemma callee_complete names t f : calls t f -> In f names -> callee_is names t = Ok (Some f).
Proof.
  intros (m & fs & c & -> & C & N) I. apply smem_In in I. unfold callee_is. cbn [node_is]. rewrite String.eqb_refl. rewrite C. destruct N; subst v v'.
  - cbn [node_is]. rewrite String.eqb_refl. unfold field_str. rewrite H2, H1. unfold str in *. rewrite I. unfold is_quotes_reference, field_str. rewrite H4, H3, H5. cbn [node_is]. subst a. rewrite !String.eqb_refl. reflexivity.
  - cbn [node_is]. rewrite String.eqb_refl. unfold field_str. rewrite H2, H1. unfold str in *. rewrite I. unfold is_quotes_reference, field_str. rewrite H4, H3. cbn [node_is]. rewrite H5.
    cbn [node_is String.eqb Ascii.eqb Bool.eqb andb]. subst n. rewrite H7. cbn [node_is String.eqb Ascii.eqb Bool.eqb andb]. rewrite H8, H9. reflexivity.
Qed.
Lemma callee_sound names t f : callee_is names t = Ok (Some f) -> calls t f /\ In f names.
Proof. intros H. apply callee_inv in H. destruct H as (m & fs & c & A & B & C & D). split; [exists m, fs, c; auto|exact D]. Qed.
Lemma callee_err names t e : callee_is names t = Err e -> imports_nothing t.
Proof.
  unfold callee_is. destruct (node_is "Call" t) eqn:T; [|discriminate]. destruct (get_field "func" t) as [c|] eqn:C; [|discriminate]. destruct (node_is "Attribute" c); [|discriminate].
  destruct (field_str "attr" c); [|discriminate]. destruct (get_field "value" c) as [v|] eqn:V; [|discriminate]. destruct (smem s names); [|discriminate].
  unfold is_quotes_reference. destruct (node_is "Attribute" v && _); [|discriminate]. destruct (get_field "value" v) as [v'|] eqn:V'; [|discriminate]. destruct (node_is "Name" v' && _); [discriminate|].
  destruct (node_is "Call" v') eqn:K; cbn [andb]; [|discriminate]. destruct (get_field "func" v') as [n|] eqn:N; [|discriminate]. destruct (node_is "Name" n); cbn [andb]; [|discriminate].
  destruct (field_str "id" n) as [i|] eqn:I; [|discriminate]. destruct (String.eqb_spec i "__import__") as [->|]; [|discriminate]. destruct (arg 0 v') eqn:A; intros E; [exfalso; destruct (const_of p) as [[[]| | | | |]|]; try discriminate; destruct (String.eqb _ _); discriminate|]. clear E.
  exists c, v, v', n. repeat (split; [assumption|]). split; [now apply field_str_get|assumption].
Qed.

(** Every positive answer is right, and every capture gets it, with its name and its frozen value. *)
Theorem C53_value_exact t name frozen : is_captured_value t = Ok (Some (name, frozen)) <-> value_capture t name frozen.
Proof.
  split.
  - unfold is_captured_value. destruct (callee_is _ t) as [[f|]|] eqn:C; try discriminate. apply callee_sound in C. destruct C as [C [<-|[<-|[]]]]; cbn [String.eqb Ascii.eqb Bool.eqb].
    + destruct (arg 1 t) as [n|] eqn:A; [|discriminate]. destruct (const_of n) as [[[]| | | | |]|] eqn:K; try discriminate. intros H. injection H as <- <-. eapply vc_fresh; [exact C|exact A|apply constant_iff, K].
    + destruct (arg 0 t) as [k|] eqn:A; [|discriminate]. destruct (get_field "elts" k) as [[|[|n [|x [|]]]| | | |]|] eqn:G; try discriminate. destruct (const_of n) as [[[]| | | | |]|] eqn:K; try discriminate; destruct (const_of x) as [[[]| | | | |]|] eqn:K2; try discriminate.
      intros H. injection H as <- <-. eapply vc_frozen; [exact C|exact A|exact G|apply constant_iff, K|apply constant_iff, K2].
  - unfold is_captured_value. intros [n C A K|k n x b C A G K K2]; apply constant_iff in K; try apply constant_iff in K2.
    + rewrite (callee_complete _ t _ C) by (now left). cbn [String.eqb Ascii.eqb Bool.eqb]. rewrite A, K. reflexivity.
    + rewrite (callee_complete _ t _ C) by (right; now left). cbn [String.eqb Ascii.eqb Bool.eqb]. rewrite A, G, K, K2. reflexivity.
Qed.
Print Assumptions C53_value_exact.
Theorem C53_macro_exact t name unique b : is_captured_macro t = Ok (Some (name, unique, b)) <-> macro_capture t name unique b.
Proof.
  split.
  - unfold is_captured_macro. destruct (callee_is _ t) as [[f|]|] eqn:C; try discriminate. apply callee_sound in C. destruct C as [C [<-|[]]].
    destruct (arg 0 t) as [k|] eqn:A; [|discriminate]. destruct (get_field "elts" k) as [[|[|n [|u [|x [|]]]]| | | |]|] eqn:G; try discriminate.
    destruct (const_of n) as [[[]| | | | |]|] eqn:K; try discriminate; destruct (const_of u) as [[[]| | | | |]|] eqn:K1; try discriminate; destruct (const_of x) as [[[]| | | | |]|] eqn:K2; try discriminate.
    intros H. injection H as <- <- <-. split; [exact C|]. apply constant_iff in K, K1, K2. exists k, n, u, x. auto 10.
  - unfold is_captured_macro. intros [C (k & n & u & x & A & G & K & K1 & K2)]. apply constant_iff in K, K1, K2. rewrite (callee_complete _ t _ C) by (now left). rewrite A, G, K, K1, K2. reflexivity.
Qed.
Print Assumptions C53_macro_exact.
(** The answer False: never for a call of one of the functions, so no capture is missed. *)
Theorem C53_negative_exact t :
  (is_captured_value t = Ok None -> ~ calls t "capture_value" /\ ~ calls t "lookup_value") /\ (is_captured_macro t = Ok None -> ~ calls t "lookup_macro").
Proof.
  split.
  - intros H. split; intros C; unfold is_captured_value in H; (rewrite (callee_complete _ t _ C) in H; [|cbn; auto]); cbn [String.eqb Ascii.eqb Bool.eqb] in H.
    + destruct (arg 1 t); [|discriminate]. destruct (const_of p) as [[[]| | | | |]|]; discriminate.
    + destruct (arg 0 t); [|discriminate]. destruct (get_field "elts" p) as [[|[|n [|x [|]]]| | | |]|]; try discriminate. destruct (const_of n) as [[[]| | | | |]|]; try discriminate; destruct (const_of x) as [[[]| | | | |]|]; discriminate.
  - intros H C. unfold is_captured_macro in H. rewrite (callee_complete _ t _ C) in H by (cbn; auto).
    destruct (arg 0 t); [|discriminate]. destruct (get_field "elts" p) as [[|[|n [|u [|x [|]]]]| | | |]|]; try discriminate.
    destruct (const_of n) as [[[]| | | | |]|]; try discriminate; destruct (const_of u) as [[[]| | | | |]|]; try discriminate; destruct (const_of x) as [[[]| | | | |]|]; discriminate.
Qed.
Print Assumptions C53_negative_exact.
(** An exception instead of an answer: only for a call of one of the functions that is not a capture, or for [__import__()]. *)
Theorem C53_raises_exact t e :
  (is_captured_value t = Err e -> imports_nothing t \/ ((calls t "capture_value" \/ calls t "lookup_value") /\ forall name frozen, ~ value_capture t name frozen)) /\
  (is_captured_macro t = Err e -> imports_nothing t \/ (calls t "lookup_macro" /\ forall name unique b, ~ macro_capture t name unique b)).
Proof.
  split; intros H.
  - destruct (callee_is ["capture_value"; "lookup_value"]%string t) as [[f|]|x] eqn:C; [|unfold is_captured_value in H; rewrite C in H; discriminate|left; eapply callee_err; eauto].
    right. apply callee_sound in C. split; [destruct C as [C [<-|[<-|[]]]]; auto|]. intros name frozen V. apply C53_value_exact in V. congruence.
  - destruct (callee_is ["lookup_macro"]%string t) as [[f|]|x] eqn:C; [|unfold is_captured_macro in H; rewrite C in H; discriminate|left; eapply callee_err; eauto].
    right. apply callee_sound in C. split; [destruct C as [C [<-|[]]]; auto|]. intros name unique b V. apply C53_macro_exact in V. congruence.
Qed.
Print Assumptions C53_raises_exact.
(** No tree is both. *)
Theorem C53_never_both t v m : is_captured_value t = Ok (Some v) -> is_captured_macro t = Ok (Some m) -> False.
Proof.
  destruct v as [name frozen], m as [[x u] b]. intros V M. apply C53_value_exact in V. apply C53_macro_exact in M. destruct M as [M _]. destruct V as [n C|k n y b' C]; pose proof (calls_one _ _ _ C M); discriminate.
Qed.
Print Assumptions C53_never_both.
Example C53_exact_example :
  value_capture (lookup_value_ast "f" "pickled") "f" (Some "pickled"%string) /\ macro_capture (lookup_macro_ast "m" "m_1" "pickled") "m" "m_1" "pickled" /\
  value_capture (capture_value_ast (p_name "x") "x") "x" None /\
  (forall f, ~ calls (p_call (p_name "lookup_value") [] []) f) /\
  (exists e, is_captured_value (p_call (p_attr (p_attr (p_call (p_name "__import__") [] []) "quotes") "lookup_value") [] []) = Err e).
Proof.
  split; [apply C53_value_exact; reflexivity|]. split; [apply C53_macro_exact; reflexivity|]. split; [apply C53_value_exact; reflexivity|]. split; [|eexists; vm_compute; reflexivity].
  intros f (m & fs & c & E & C & N). vm_compute in C. injection C as <-. inversion N.
Qed.
