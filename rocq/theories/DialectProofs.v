(** Proofs about the dialect expander. *)
From Verif Require Import Base AstLib FixLocModel ExpanderModel Dict ImportsModel DialectModel DialectSpec.

Lemma isdialectimport_plain t : isdialectimport t = Ok None <-> plain_stmt t.
Proof.
  unfold isdialectimport, plain_stmt. destruct (view_import t) as [i|].
  - destruct (i_names i) as [|[x a] rest] eqn:En.
    + split; [discriminate|]. intros [H|(i' & x & a & r & [= <-] & H & _)]; [discriminate|]. rewrite En in H. discriminate.
    + destruct a as [a|].
      * split; [|reflexivity]. intros _. right. exists i, x, (Some a), rest. repeat split; auto. right. discriminate.
      * destruct (String.eqb_spec x "dialects") as [->|N].
        -- split; [discriminate|]. intros [H|(i' & x & a & r & [= <-] & H & Hd)]; [discriminate|]. rewrite En in H. injection H as <- <- <-.
           destruct Hd; congruence.
        -- split; [|reflexivity]. intros _. right. exists i, x, None, rest. repeat split; auto.
  - split; [left; reflexivity|reflexivity].
Qed.
Lemma isdialectimport_import t i : isdialectimport t = Ok (Some i) <-> dialect_import t i.
Proof.
  unfold isdialectimport, dialect_import. destruct (view_import t) as [j|].
  - destruct (i_names j) as [|[x a] rest] eqn:En.
    + split; [discriminate|]. intros ([= <-] & r & H). rewrite En in H. discriminate.
    + destruct a as [a|].
      * split; [discriminate|]. intros ([= <-] & r & H). rewrite En in H. discriminate.
      * destruct (String.eqb_spec x "dialects") as [->|N].
        -- split; [intros [= ->]|intros ([= <-] & _)]; [split; [reflexivity|exists rest; exact En]|reflexivity].
        -- split; [discriminate|]. intros ([= <-] & r & H). rewrite En in H. congruence.
  - split; [discriminate|]. intros [H _]. discriminate.
Qed.
Lemma plain_not_import t i : plain_stmt t -> dialect_import t i -> False.
Proof. intros H1 H2. apply isdialectimport_plain in H1. apply isdialectimport_import in H2. congruence. Qed.
Lemma plain_import_plain m n : plain_stmt (plain_import m n). Proof. left. reflexivity. Qed.

Lemma scan_none : forall todo before, scan_ast before todo = Ok None <-> Forall plain_stmt todo.
Proof.
  induction todo as [|t r IH]; intros before; cbn [scan_ast].
  - split; [constructor|reflexivity].
  - destruct (isdialectimport t) as [[i|]|e] eqn:E.
    + split; [discriminate|]. intros H. inversion H as [|? ? Ht Hr]. apply isdialectimport_plain in Ht. congruence.
    + rewrite IH. split; [intros H; constructor; [apply isdialectimport_plain; exact E|exact H]|intros H; inversion H; assumption].
    + split; [discriminate|]. intros H. inversion H as [|? ? Ht Hr]. apply isdialectimport_plain in Ht. congruence.
Qed.
Lemma scan_some : forall todo before b t i r, scan_ast before todo = Ok (Some (b, t, i, r)) ->
  exists pre, b = before ++ pre /\ todo = pre ++ t :: r /\ Forall plain_stmt pre /\ dialect_import t i.
Proof.
  induction todo as [|t0 r0 IH]; intros before b t i r; cbn [scan_ast]; [discriminate|].
  destruct (isdialectimport t0) as [[i0|]|e] eqn:E; intros H.
  - injection H as <- <- <- <-. exists []. rewrite app_nil_r. split; [reflexivity|]. split; [reflexivity|]. split; [constructor|apply isdialectimport_import, E].
  - apply IH in H. destruct H as (pre & -> & -> & Hp & Hi). exists (t0 :: pre). rewrite <- app_assoc. split; [reflexivity|]. split; [reflexivity|]. split; [|exact Hi].
    constructor; [apply isdialectimport_plain; exact E|exact Hp].
  - discriminate.
Qed.
Lemma scan_complete : forall pre before t i r, Forall plain_stmt pre -> dialect_import t i -> scan_ast before (pre ++ t :: r) = Ok (Some (before ++ pre, t, i, r)).
Proof.
  induction pre as [|p pre IH]; intros before t i r Hp Hi; cbn [app scan_ast].
  - rewrite (proj2 (isdialectimport_import t i) Hi), app_nil_r. reflexivity.
  - inversion Hp as [|? ? Ha Hb]. rewrite (proj2 (isdialectimport_plain p) Ha), (IH (before ++ [p]) t i r Hb Hi), <- app_assoc. reflexivity.
Qed.

Section P.
  Context {W Ob In_ : Type}.
  Section Any.
    Context {C : Type}.
    Variable is_dialect : Ob -> bool.
    Variable instantiate : Ob -> W -> res In_ * W.
    Variable transform : In_ -> option (C -> W -> res (tresult C) * W).
    Notation rb := (run_bindings is_dialect instantiate transform).
    Notation ap := (applying is_dialect instantiate transform).
    Lemma rb_sound : forall bs c is_ w c' is' w', rb bs c is_ w = (Ok (c', is'), w') -> exists ds, is' = is_ ++ ds /\ ap bs c w ds c' w'.
    Proof.
      induction bs as [|[x cls] bs IH]; intros c is_ w c' is' w'; cbn [run_bindings].
      - intros [= <- <- <-]. exists []. rewrite app_nil_r. split; [reflexivity|constructor].
      - destruct (is_dialect cls) eqn:Ed; cbn [negb]; [|discriminate].
        destruct (instantiate cls w) as [[d|e] w1] eqn:Ei; [|discriminate].
        destruct (transform d) as [f|] eqn:Et; [|discriminate].
        destruct (f c w1) as [[[| |c1]|e] w2] eqn:Ef; try discriminate; intros H; apply IH in H; destruct H as (ds & -> & Ha);
          exists (d :: ds); rewrite <- app_assoc; (split; [reflexivity|]).
        + exact (ap_unchanged _ _ _ x cls d f bs c w w1 w2 ds c' w' Ed Ei Et Ef Ha).
        + exact (ap_changed _ _ _ x cls d f bs c c1 w w1 w2 ds c' w' Ed Ei Et Ef Ha).
    Qed.
    Lemma rb_complete : forall bs c w ds c' w', ap bs c w ds c' w' -> forall is_, rb bs c is_ w = (Ok (c', is_ ++ ds), w').
    Proof.
      induction 1 as [c w|x cls d f bs c w w1 w2 ds c' w' Ed Ei Et Ef Ha IH|x cls d f bs c c1 w w1 w2 ds c' w' Ed Ei Et Ef Ha IH]; intros is_; cbn [run_bindings].
      - rewrite app_nil_r. reflexivity.
      - rewrite Ed; cbn [negb]; rewrite Ei, Et, Ef, IH, <- app_assoc. reflexivity.
      - rewrite Ed; cbn [negb]; rewrite Ei, Et, Ef, IH, <- app_assoc. reflexivity.
    Qed.
    Lemma rb_err : forall bs c is_ w e w', rb bs c is_ w = (Err e, w') -> e_cls e = "TypeError"%string \/ e_cls e = "ImportError"%string.
    Proof.
      induction bs as [|[x cls] bs IH]; intros c is_ w e w'; cbn [run_bindings]; [discriminate|].
      destruct (is_dialect cls); cbn [negb]; [|intros [= <- _]; left; reflexivity].
      destruct (instantiate cls w) as [[d|e0] w1]; [|intros [= <- _]; right; reflexivity].
      destruct (transform d) as [f|]; [|intros [= <- _]; right; reflexivity].
      destruct (f c w1) as [[[| |c1]|e0] w2]; try (intros [= <- _]; right; reflexivity); apply IH.
    Qed.
    Lemma pp_iff (post : In_ -> option (C -> W -> res (tresult C) * W)) : forall ds c w c' w',
      postprocess_ast post ds c w = (Ok c', w') <-> postprocessed post ds c w c' w'.
    Proof.
      induction ds as [|d ds IH]; intros c w c' w'; cbn [postprocess_ast].
      - split; [intros [= <- <-]; constructor|]. intros H. inversion H. reflexivity.
      - destruct (post d) as [f|] eqn:Ep.
        + destruct (f c w) as [[[| |c1]|e] w1] eqn:Ef.
          * rewrite IH. split; [intros H; exact (pp_unchanged _ d f ds c w w1 c' w' Ep Ef H)|].
            intros H. inversion H as [|? f' ? ? ? w1' ? ? Ep' Ef' H'|? f' ? ? c1' ? w1' ? ? Ep' Ef' H']; subst; congruence.
          * split; [discriminate|]. intros H. inversion H as [|? f' ? ? ? w1' ? ? Ep' Ef' H'|? f' ? ? c1' ? w1' ? ? Ep' Ef' H']; subst; congruence.
          * rewrite IH. split; [intros H; exact (pp_changed _ d f ds c c1 w w1 c' w' Ep Ef H)|].
            intros H. inversion H as [|? f' ? ? ? w1' ? ? Ep' Ef' H'|? f' ? ? c1' ? w1' ? ? Ep' Ef' H']; subst; congruence.
          * split; [discriminate|]. intros H. inversion H as [|? f' ? ? ? w1' ? ? Ep' Ef' H'|? f' ? ? c1' ? w1' ? ? Ep' Ef' H']; subst; congruence.
        + split; [discriminate|]. intros H. inversion H as [|? f' ? ? ? w1' ? ? Ep' Ef' H'|? f' ? ? c1' ? w1' ? ? Ep' Ef' H']; subst; congruence.
    Qed.
  End Any.

  Variable is_dialect : Ob -> bool.
  Variable instantiate : Ob -> W -> res In_ * W.
  Variable transform : In_ -> option (list ltree -> W -> res (tresult (list ltree)) * W).
  Variable load : imp -> W -> res (option string * list (string * Ob)) * W.
  Notation loop := (transform_loop is_dialect instantiate transform (find_ast load)).
  Notation ap := (applying is_dialect instantiate transform).
  Notation run := (dialects_run is_dialect instantiate transform load).

  Lemma loop_sound : forall n body is_ w c ds w', loop n body is_ w = Some (Ok (c, ds), w') ->
    exists imps ds', ds = is_ ++ ds' /\ run body w imps ds' c w' /\ length imps < n.
  Proof.
    induction n as [|n IH]; intros body is_ w c ds w'; cbn [transform_loop]; [discriminate|].
    unfold find_ast. destruct (scan_ast [] body) as [[[[[b t] i] r]|]|e] eqn:Es; [| |discriminate].
    - apply scan_some in Es. destruct Es as (pre & Eb & -> & Hp & Hi). cbn [app] in Eb. subst b.
      destruct (load i w) as [[[absname bs]|e] w1] eqn:El; [|discriminate].
      destruct (run_bindings is_dialect instantiate transform bs (pre ++ plain_import (loc_of t) absname :: r) is_ w1) as [[[c2 is2]|e] w2] eqn:Er; [|discriminate].
      apply rb_sound in Er. destruct Er as (ds1 & -> & Ha). intros H. apply IH in H. destruct H as (imps & ds2 & -> & Hr & Hl).
      exists (i :: imps), (ds1 ++ ds2). rewrite app_assoc. split; [reflexivity|]. split; [|cbn [length]; lia].
      exact (dr_step _ _ _ _ pre t i r w absname bs w1 ds1 c2 w2 imps ds2 c w' Hp Hi El Ha Hr).
    - apply scan_none in Es. intros [= <- <- <-]. exists [], []. rewrite app_nil_r. split; [reflexivity|]. split; [constructor; exact Es|cbn [length]; lia].
  Qed.
  Lemma loop_complete : forall body w imps ds c w', run body w imps ds c w' -> forall n is_, length imps < n -> loop n body is_ w = Some (Ok (c, is_ ++ ds), w').
  Proof.
    induction 1 as [body w Hp|pre t i post w absname bs w1 ds1 c w2 imps ds body' w' Hp Hi El Ha Hr IH]; intros n is_ Hl.
    - destruct n as [|n]; [lia|]. cbn [transform_loop]. unfold find_ast. rewrite (proj2 (scan_none body []) Hp), app_nil_r. reflexivity.
    - destruct n as [|n]; [lia|]. cbn [transform_loop]. unfold find_ast at 1. rewrite (scan_complete pre [] t i post Hp Hi). cbn [app]. rewrite El.
      rewrite (rb_complete _ _ _ _ _ _ _ _ _ Ha is_). cbv iota beta. rewrite (IH n (is_ ++ ds1)); [|cbn [length] in Hl; lia]. rewrite app_assoc. reflexivity.
  Qed.

  Lemma imports_of_plain body : Forall plain_stmt body -> imports_of body [].
  Proof. induction 1; constructor; assumption. Qed.
  Lemma imports_of_pre pre l is_ : Forall plain_stmt pre -> imports_of l is_ -> imports_of (pre ++ l) is_.
  Proof. induction 1 as [|p pre Hp Hpre IH]; intros H; [exact H|]. cbn [app]. apply io_plain; auto. Qed.
  Lemma imports_of_pre_inv pre l is_ : Forall plain_stmt pre -> imports_of (pre ++ l) is_ -> imports_of l is_.
  Proof.
    induction 1 as [|p pre Hp Hpre IH]; intros H; [exact H|]. cbn [app] in H. inversion H as [|t r is1 Ht Hr|t i r is1 Ht Hr]; subst.
    - auto.
    - exfalso. exact (plain_not_import _ _ Hp Ht).
  Qed.
  Lemma imports_of_plain_inv body is_ : Forall plain_stmt body -> imports_of body is_ -> is_ = [].
  Proof.
    intros Hp H. rewrite <- (app_nil_r body) in H. apply imports_of_pre_inv in H; [|exact Hp]. inversion H. reflexivity.
  Qed.
  Lemma imports_of_step pre t i post absname is_ : Forall plain_stmt pre -> dialect_import t i -> imports_of (pre ++ t :: post) is_ ->
    exists is1, is_ = i :: is1 /\ imports_of (pre ++ plain_import (loc_of t) absname :: post) is1.
  Proof.
    intros Hp Hi H. apply imports_of_pre_inv in H; [|exact Hp]. inversion H as [|t' r is1 Ht Hr|t' i' r is1 Ht Hr]; subst.
    - exfalso. exact (plain_not_import _ _ Ht Hi).
    - exists is1. assert (i' = i) as ->. { destruct Ht as [Ht _]. destruct Hi as [Hi _]. congruence. }
      split; [reflexivity|]. apply imports_of_pre; [exact Hp|]. apply io_plain; [apply plain_import_plain|exact Hr].
  Qed.

  (** Transformers that leave the dialect-imports alone. *)
  Definition keeps_imports : Prop := forall d f c w c' w' is_, transform d = Some f -> f c w = (Ok (TContent c'), w') -> imports_of c is_ -> imports_of c' is_.
  Lemma ap_keeps : keeps_imports -> forall bs c w ds c' w', ap bs c w ds c' w' -> forall is_, imports_of c is_ -> imports_of c' is_.
  Proof.
    intros K. induction 1 as [c w|x cls d f bs c w w1 w2 ds c' w' Ed Ei Et Ef Ha IH|x cls d f bs c c1 w w1 w2 ds c' w' Ed Ei Et Ef Ha IH]; intros is_ H; auto.
    apply IH. exact (K d f c w1 c1 w2 is_ Et Ef H).
  Qed.
  Lemma run_once : keeps_imports -> forall body w imps ds c w', run body w imps ds c w' -> forall is_, imports_of body is_ -> imps = is_.
  Proof.
    intros K. induction 1 as [body w Hp|pre t i post w absname bs w1 ds1 c w2 imps ds body' w' Hp Hi El Ha Hr IH]; intros is_ H.
    - symmetry. exact (imports_of_plain_inv _ _ Hp H).
    - destruct (imports_of_step pre t i post absname is_ Hp Hi H) as (is1 & -> & H1). f_equal. apply IH. exact (ap_keeps K _ _ _ _ _ _ Ha _ H1).
  Qed.
  Lemma loop_returns : keeps_imports -> forall n body is_ w imps, imports_of body imps -> length imps < n -> loop n body is_ w <> None.
  Proof.
    intros K. induction n as [|n IH]; intros body is_ w imps Hi Hl; [lia|]. cbn [transform_loop]. unfold find_ast.
    destruct (scan_ast [] body) as [[[[[b t] i] r]|]|e] eqn:Es; [|discriminate|discriminate].
    apply scan_some in Es. destruct Es as (pre & Eb & -> & Hp & Ht). cbn [app] in Eb. subst b.
    destruct (load i w) as [[[absname bs]|e] w1] eqn:El; [|discriminate].
    destruct (run_bindings is_dialect instantiate transform bs (pre ++ plain_import (loc_of t) absname :: r) is_ w1) as [[[c2 is2]|e] w2] eqn:Er; [|discriminate].
    apply rb_sound in Er. destruct Er as (ds1 & -> & Ha).
    destruct (imports_of_step pre t i r absname imps Hp Ht Hi) as (is1 & -> & H1).
    apply (IH c2 _ w2 is1); [exact (ap_keeps K _ _ _ _ _ _ Ha _ H1)|cbn [length] in Hl; lia].
  Qed.
  Lemma run_none_left : forall body w imps ds c w', run body w imps ds c w' -> Forall plain_stmt c.
  Proof. induction 1; assumption. Qed.
End P.
