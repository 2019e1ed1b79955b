(** C44, C45 and C53: hygienic captures. *)
From Verif Require Import Base Dict UtilsModel UtilsSpec UtilsProofs QuoteModel HygieneModel HygieneProofs.

(** ** C44 *)
(** Refuted: the object that a lookup gives is a copy, never the captured object. *)
Theorem C44_same_object_refuted : exists ops st outs (v o : obj Z),
  hrun (fun v : Z => Ok v) (fun b : Z => Ok b) ops (mkH [] [] 1) = Some (st, outs) /\
  ops = [OCapture "x" v 100; OLookup "x" (Some 0%nat)]%Z /\ outs = [RRef 0; RObj o] /\ o_id v = 0 /\ o_val o = o_val v /\ o_id o <> o_id v.
Proof.
  exists [OCapture "x" (mkO 0 5%Z) 100%Z; OLookup "x" (Some 0%nat)], (mkH [mkB 100%Z 5%Z true] [(("x"%string, 100%Z), mkO 1 5%Z)] 2), [RRef 0; RObj (mkO 1 5%Z)], (mkO 0 5%Z), (mkO 1 5%Z).
  repeat split; try reflexivity. discriminate.
Qed.
Print Assumptions C44_same_object_refuted.

(** Refuted also as to the value: the lookup cache is keyed by the address of the pickled value. Capture x = 1 and look it up; that
    code goes away; another pickled value, of x = 2, gets the address: the lookup gives 1. *)
Theorem C44_value_refuted : exists ops st outs,
  hrun (fun v : Z => Ok v) (fun b : Z => Ok b) ops (mkH [] [] 10) = Some (st, outs) /\
  ops = [OCapture "x" (mkO 0 1) 100; OLookup "x" (Some 0%nat); ODrop 0; OCapture "x" (mkO 1 2) 100; OLookup "x" (Some 1%nat)]%Z /\
  outs = [RRef 0; RObj (mkO 10 1); RUnit; RRef 1; RObj (mkO 10 1)]%Z.
Proof. eexists _, _, _. split; [|split; reflexivity]. vm_compute. reflexivity. Qed.
Print Assumptions C44_value_refuted.

(** As long as no address of a pickled value is used again, in one process: every lookup of a capture, under any name, at any later time,
    whatever is captured and looked up in between, gives an object that is equal to the captured one. *)
Theorem C44_value_partial val bytes (dumps : val -> res bytes) loads ops st0 st outs i name v a h j name' r :
  (forall v b, dumps v = Ok b -> loads b = Ok v) ->
  h_cache st0 = [] -> hrun dumps loads ops st0 = Some (st, outs) -> NoDup (map b_addr (h_heap st)) ->
  nth_error ops i = Some (OCapture name v a) -> nth_error outs i = Some (RRef h) ->
  nth_error ops j = Some (OLookup name' (Some h)) -> nth_error outs j = Some r ->
  exists o, r = RObj o /\ o_val o = o_val v.
Proof.
  intros HP H0 Hr N Hi Oi Hj Oj. destruct (capture_nth _ _ _ _ _ _ _ _ _ _ _ Hr Hi Oi) as (b & Hd & Hb). destruct (lookup_result _ _ _ _ _ _ _ _ _ _ H0 Hr N Hj Oj) as (a' & b' & Hb' & Hm).
  rewrite Hb in Hb'. injection Hb' as <- <-. rewrite (HP _ _ Hd) in Hm. destruct Hm as (o & -> & Ho & _). exists o. auto.
Qed.
Print Assumptions C44_value_partial.

(** This is so when nothing is deallocated. *)
Theorem C44_value_kept_partial val bytes (dumps : val -> res bytes) loads ops st outs i name v a h j name' r n0 :
  (forall v b, dumps v = Ok b -> loads b = Ok v) ->
  hrun dumps loads ops (mkH [] [] n0) = Some (st, outs) -> Forall no_drop ops ->
  nth_error ops i = Some (OCapture name v a) -> nth_error outs i = Some (RRef h) ->
  nth_error ops j = Some (OLookup name' (Some h)) -> nth_error outs j = Some r ->
  exists o, r = RObj o /\ o_val o = o_val v.
Proof.
  intros HP Hr Hd. apply (C44_value_partial _ _ dumps loads ops (mkH [] [] n0) st outs i name v a h j name' r HP eq_refl Hr).
  exact (no_drop_nodup dumps loads ops (mkH [] [] n0) st outs Hd (Forall_nil _) (NoDup_nil _) Hr).
Qed.
Print Assumptions C44_value_kept_partial.

(** In another process, where the pickled value comes from a .pyc file: an equal value. *)
Theorem C44_other_process_partial val bytes (dumps : val -> res bytes) loads ops st0 st outs i v b a h j name r :
  (forall v b, dumps v = Ok b -> loads b = Ok v) -> dumps v = Ok b ->
  h_cache st0 = [] -> hrun dumps loads ops st0 = Some (st, outs) -> NoDup (map b_addr (h_heap st)) ->
  nth_error ops i = Some (OLoad b a) -> nth_error outs i = Some (RRef h) ->
  nth_error ops j = Some (OLookup name (Some h)) -> nth_error outs j = Some r ->
  exists o, r = RObj o /\ o_val o = v.
Proof.
  intros HP Hv H0 Hr N Hi Oi Hj Oj. pose proof (load_nth _ _ _ _ _ _ _ _ _ _ Hr Hi Oi) as Hb. destruct (lookup_result _ _ _ _ _ _ _ _ _ _ H0 Hr N Hj Oj) as (a' & b' & Hb' & Hm).
  rewrite Hb in Hb'. injection Hb' as <- <-. rewrite (HP _ _ Hv) in Hm. destruct Hm as (o & -> & Ho & _). exists o. auto.
Qed.
Print Assumptions C44_other_process_partial.

(** Looking the same capture up again gives the same object (unconditionally). *)
Theorem C44_lookup_again val bytes (dumps : val -> res bytes) loads ops st0 st outs i j name h o o' :
  hrun dumps loads ops st0 = Some (st, outs) ->
  nth_error ops i = Some (OLookup name (Some h)) -> nth_error ops j = Some (OLookup name (Some h)) ->
  nth_error outs i = Some (RObj o) -> nth_error outs j = Some (RObj o') -> o = o'.
Proof.
  intros Hr Hi Hj Oi Oj. destruct (Nat.lt_trichotomy i j) as [H|[->|H]].
  - exact (lookup_same _ _ _ _ _ _ _ _ _ _ _ _ Hr Hi Hj Oi Oj H).
  - congruence.
  - symmetry. exact (lookup_same _ _ _ _ _ _ _ _ _ _ _ _ Hr Hj Hi Oj Oi H).
Qed.
Print Assumptions C44_lookup_again.

(** Different captures give different objects, even of the same value under the same name. *)
Theorem C44_captures_independent_partial val bytes (dumps : val -> res bytes) loads ops st0 st outs i j name name' h h' o o' :
  h_cache st0 = [] -> hrun dumps loads ops st0 = Some (st, outs) -> NoDup (map b_addr (h_heap st)) ->
  nth_error ops i = Some (OLookup name (Some h)) -> nth_error ops j = Some (OLookup name' (Some h')) ->
  nth_error outs i = Some (RObj o) -> nth_error outs j = Some (RObj o') -> h <> h' -> o_id o <> o_id o'.
Proof.
  intros H0 Hr N Hi Hj Oi Oj Hne Hid. destruct (lookup_result _ _ _ _ _ _ _ _ _ _ H0 Hr N Hi Oi) as (a & b & Hb & Hm). destruct (lookup_result _ _ _ _ _ _ _ _ _ _ H0 Hr N Hj Oj) as (a' & b' & Hb' & Hm').
  destruct (loads b); [|discriminate]. destruct (loads b'); [|discriminate]. destruct Hm as (x & E & _ & _ & Hc). injection E as <-. destruct Hm' as (x & E & _ & _ & Hc'). injection E as <-.
  pose proof (run_inv' _ _ _ _ _ _ H0 Hr) as (_ & _ & I2). pose proof (I2 _ _ _ _ Hc Hc' Hid) as K. injection K as _ <-. exact (Hne (nodup_addr _ _ _ _ _ N Hb Hb' eq_refl)).
Qed.
Print Assumptions C44_captures_independent_partial.

Example C44_example : exists st outs,
  let ops := [OCapture "x" (mkO 0 1) 100; OCapture "x" (mkO 1 1) 101; OLookup "x" (Some 0%nat); OLookup "x" (Some 1%nat); OCapture "y" (mkO 2 7) 102; OLookup "x" (Some 0%nat); OLookup "y" (Some 2%nat); OLookup "y" None; OLoad 9 103; OLookup "x" (Some 3%nat)]%Z in
  hrun (fun v : Z => Ok v) (fun b : Z => Ok b) ops (mkH [] [] 10) = Some (st, outs) /\ Forall no_drop ops /\ NoDup (map b_addr (h_heap st)) /\
  outs = [RRef 0; RRef 1; RObj (mkO 10 1); RObj (mkO 11 1); RRef 2; RObj (mkO 10 1); RObj (mkO 12 7); RErr (mkExn "ValueError" []); RRef 3; RObj (mkO 13 9)]%Z.
Proof.
  eexists _, _. split; [vm_compute; reflexivity|]. split; [repeat constructor|]. split; [|reflexivity]. cbn. repeat constructor; cbn; intuition discriminate.
Qed.

(** ** C45 *)
(** Two functions with the same reference: the second one is that of the reloaded module. *)
Definition x_ref (f : nat) : string * string := ("mod"%string, "m"%string).
Definition x_names (f : nat) : string := "m"%string.
Definition x_world (f : nat) : world := fun _ => Some f.
Definition x_uuid (n : nat) : list ascii := repeat (if Nat.eqb n 0 then "0"%char else if Nat.eqb n 1 then "1"%char else "2"%char) 32.
Definition x_unique (n : nat) : string := ("m_" ++ str_of_list (x_uuid n))%string.
Lemma x_uuid_wf n : wf_uuid (x_uuid n).
Proof. unfold x_uuid. destruct n as [|[|n]]; cbn [Nat.eqb]; (split; [reflexivity|]; repeat constructor). Qed.

(** Refuted: a module that is reloaded between the capture and the lookup. *)
Theorem C45_captured_macro_refuted : exists ops st outs key,
  mrun x_ref x_names x_uuid ops (mkM [] [] (mkG [] 0) (x_world 1)) = Some (st, outs) /\
  ops = [MCapture 1 "m" 5; MWorld (x_world 2); MLookup key; MIsbound (k_unique key)] /\ outs = [QKey key; QUnit; QName (k_unique key); QBound (Some 2%nat)].
Proof.
  pose (key := mkK "m" (x_unique 0) ("mod"%string, "m"%string)). exists [MCapture 1 "m" 5; MWorld (x_world 2); MLookup key; MIsbound (k_unique key)]. eexists _, _, key.
  split; [vm_compute; reflexivity|]. split; vm_compute; reflexivity.
Qed.
Print Assumptions C45_captured_macro_refuted.

(** When the module continues to hold the function: after the lookup, the name that it gives is bound to the captured function at any later
    time, whatever names are bound at the use site (the original name as well), whatever is captured and looked up in between. The
    unique name itself is used by nobody else: no binding of that name, no key with that name other than this capture's. *)
Theorem C45_captured_macro_partial fn_ref fn_name uuids ops st0 st outs i f name fuel key j m r :
  (forall n, wf_uuid (uuids n)) ->
  m_global st0 = [] -> mrun fn_ref fn_name uuids ops st0 = Some (st, outs) ->
  nth_error ops i = Some (MCapture f name fuel) -> nth_error outs i = Some (QKey key) ->
  (forall j k, nth_error ops j = Some (MLookup k) -> k_unique k = k_unique key -> i < j /\ k = key) ->
  (forall j w, nth_error ops j = Some (MWorld w) -> i < j -> w (fn_ref f) = Some f) ->
  (forall j x g, nth_error ops j = Some (MBind x g) -> x <> k_unique key) -> sget (k_unique key) (m_local st0) = None ->
  nth_error ops j = Some (MLookup key) -> nth_error ops m = Some (MIsbound (k_unique key)) -> j < m -> nth_error outs m = Some r ->
  nth_error outs j = Some (QName (k_unique key)) /\ r = QBound (Some f).
Proof. intros Hwf. exact (resolves fn_ref fn_name uuids Hwf ops st0 st outs i f name fuel key j m r). Qed.
Print Assumptions C45_captured_macro_partial.

(** Each capture gets a name of its own. *)
Theorem C45_unique_names fn_ref fn_name uuids ops st0 st outs i j f name fuel key f' name' fuel' key' :
  (forall n, wf_uuid (uuids n)) -> mrun fn_ref fn_name uuids ops st0 = Some (st, outs) ->
  nth_error ops i = Some (MCapture f name fuel) -> nth_error outs i = Some (QKey key) ->
  nth_error ops j = Some (MCapture f' name' fuel') -> nth_error outs j = Some (QKey key') -> i <> j -> k_unique key <> k_unique key'.
Proof.
  intros Hwf Hr. assert (G : forall i j f name fuel key f' name' fuel' key', nth_error ops i = Some (MCapture f name fuel) -> nth_error outs i = Some (QKey key) ->
    nth_error ops j = Some (MCapture f' name' fuel') -> nth_error outs j = Some (QKey key') -> i < j -> k_unique key <> k_unique key').
  { clear i j f name fuel key f' name' fuel' key'. intros i j f name fuel key f' name' fuel' key' Hi Oi Hj Oj Hlt E. destruct (run_nth2 _ _ _ _ _ _ _ _ _ Hr Hi Hj Hlt) as (s1 & s2 & x & s3 & s4 & y & A1 & A2 & A3 & A4 & A5 & A6 & A7).
    rewrite Oi in A3. rewrite Oj in A6. injection A3 as <-. injection A6 as <-. apply (capture_step fn_ref fn_name uuids Hwf) in A2. apply (capture_step fn_ref fn_name uuids Hwf) in A5.
    destruct A2 as (_ & _ & _ & I1 & _). destruct A5 as (_ & _ & N & _). apply N. rewrite <- E.
    exact (run_inv (mstep fn_ref fn_name uuids) (fun s => In (k_unique key) (g_prev (m_gs s))) ltac:(intros s o s' x Hs Ho; exact (step_prev fn_ref fn_name uuids Hwf _ _ _ _ _ Ho Hs)) _ _ _ _ I1 A4). }
  intros Hi Oi Hj Oj Hne. destruct (Nat.lt_total i j) as [H|[H|H]]; [exact (G _ _ _ _ _ _ _ _ _ _ Hi Oi Hj Oj H)|contradiction|]. intros E. exact (G _ _ _ _ _ _ _ _ _ _ Hj Oj Hi Oi H (eq_sym E)).
Qed.
Print Assumptions C45_unique_names.

(** Captures and lookups do not disturb other bindings. *)
Theorem C45_undisturbed fn_ref fn_name uuids st o st' x : mstep fn_ref fn_name uuids st o = Some (st', x) ->
  (match o with MCapture _ _ _ | MCaptureAs _ _ | MLookup _ => True | _ => False end) ->
  (forall y f, isbound_m st y = Some f -> isbound_m st' y = Some f) /\ (forall y, x <> QName y -> isbound_m st' y = isbound_m st y).
Proof.
  intros H Ho. assert (L : forall st st' k, lookup_macro st k = (st', x) -> (forall y f, isbound_m st y = Some f -> isbound_m st' y = Some f) /\ (forall y, x <> QName y -> isbound_m st' y = isbound_m st y)).
  { clear. intros st st' k H. apply lookup_macro_inv in H as L. destruct L as (E1 & _ & _ & E2 & E3 & _). unfold isbound_m. rewrite E1. split.
    - intros y f. destruct (sget y (m_local st)); [auto|]. apply E2.
    - intros y Hy. destruct (sget y (m_local st)); [reflexivity|]. destruct (string_dec y (k_unique k)) as [->|Hne]; [|exact (E3 y Hne)]. unfold lookup_macro in H.
      destruct (sget (k_unique k) (m_global st)) eqn:E; [injection H as <- <-; destruct (Hy eq_refl)|]. destruct (loads_fn (m_world st) (k_ref k)); injection H as <- <-; [destruct (Hy eq_refl)|exact E]. }
  destruct o as [g name fuel|g fuel|k|z g|z|z|w]; try destruct Ho; cbn [mstep] in H.
  - destruct (dumps_fn fn_ref (m_world st) g); [|injection H as <- <-; auto]. destruct (gensym uuids fuel _ (m_gs st)) as [[[u|e] gs]|]; [| |discriminate]; injection H as <- <-; auto.
  - destruct (dumps_fn fn_ref (m_world st) g) as [rf|]; [|injection H as <- <-; auto]. destruct (gensym uuids fuel _ (m_gs st)) as [[[u|e] gs]|]; [| |discriminate]; [|injection H as <- <-; auto]. injection H as H. exact (L _ _ _ H).
  - injection H as H. exact (L _ _ _ H).
Qed.
Print Assumptions C45_undisturbed.

(** A global binding stays what it is, also when modules change; so looking a key up again gives the same function. *)
Theorem C45_lookup_again fn_ref fn_name uuids ops st st' outs y f :
  mrun fn_ref fn_name uuids ops st = Some (st', outs) -> sget y (m_global st) = Some f -> sget y (m_global st') = Some f.
Proof. apply run_global. Qed.
Print Assumptions C45_lookup_again.

(** The original name is bound to another macro at the use site, and the name of the capture already had a suffix. *)
Example C45_example : exists st outs,
  let key := mkK "m" (x_unique 0) ("mod"%string, "m"%string) in
  let ops := [MBind "m" 7; MCapture 1 (x_unique 2) 5; MLookup key; MIsbound (x_unique 0); MIsbound "m"; MCapture 1 "m" 5; MLookup key; MIsbound (x_unique 0)] in
  mrun x_ref x_names x_uuid ops (mkM [] [] (mkG [] 0) (x_world 1)) = Some (st, outs) /\ nth_error outs 1 = Some (QKey key) /\ (forall n, wf_uuid (x_uuid n)) /\
  (forall j k, nth_error ops j = Some (MLookup k) -> k_unique k = k_unique key -> 1 < j /\ k = key) /\
  (forall j w, nth_error ops j = Some (MWorld w) -> 1 < j -> w (x_ref 1) = Some 1) /\ (forall j x g, nth_error ops j = Some (MBind x g) -> x <> k_unique key) /\
  nth_error outs 3 = Some (QBound (Some 1%nat)) /\ nth_error outs 4 = Some (QBound (Some 7%nat)) /\ nth_error outs 7 = Some (QBound (Some 1%nat)) /\
  nth_error outs 5 = Some (QKey (mkK "m" (x_unique 1) ("mod"%string, "m"%string))).
Proof.
  eexists _, _. cbv zeta. split; [vm_compute; reflexivity|]. split; [vm_compute; reflexivity|]. split; [exact x_uuid_wf|].
  split; [intros [|[|[|[|[|[|[|[|j]]]]]]]] k E _; try discriminate; try (injection E as <-; split; [lia|reflexivity]); destruct j; discriminate|].
  split; [intros [|[|[|[|[|[|[|[|j]]]]]]]] k E _; try discriminate; destruct j; discriminate|].
  split; [intros [|[|[|[|[|[|[|[|j]]]]]]]] k g E; try discriminate; [injection E as <- <-; discriminate|destruct j; discriminate]|].
  repeat split; vm_compute; reflexivity.
Qed.

(** ** C53 *)
(** Refuted: a call of the lookup function that is not a capture makes the test raise. *)
Theorem C53_recognise_total_refuted : exists t, t = p_call (quotes_attr "lookup_value") [p_name "key"] [] /\ exists e, is_captured_value t = Err e.
Proof. eexists. split; [reflexivity|]. eexists. vm_compute. reflexivity. Qed.
Print Assumptions C53_recognise_total_refuted.

(** The tests recognise what the quasiquote system makes, before and after the value is captured, and give the name and the frozen value. *)
Theorem C53_recognise_captures body name unique b :
  is_captured_value (capture_value_ast body name) = Ok (Some (name, None)) /\
  is_captured_value (lookup_value_ast name b) = Ok (Some (name, Some b)) /\
  is_captured_macro (lookup_macro_ast name unique b) = Ok (Some (name, unique, b)) /\
  is_captured_value (lookup_macro_ast name unique b) = Ok None /\
  is_captured_macro (capture_value_ast body name) = Ok None /\ is_captured_macro (lookup_value_ast name b) = Ok None.
Proof. repeat split; reflexivity. Qed.
Print Assumptions C53_recognise_captures.

(** A path of a call: mcpyrate.quotes.f, or __import__("mcpyrate.quotes", ...).quotes.f. *)
Inductive names_function : pv -> string -> Prop :=
| nf_direct m f m' m'' fs fs' fs'' v v' a : v = PN m' "Attribute" fs' -> v' = PN m'' "Name" fs'' ->
    get_field "value" (PN m "Attribute" fs) = Some v -> get_field "attr" (PN m "Attribute" fs) = Some (str f) ->
    get_field "value" v = Some v' -> get_field "attr" v = Some (str "quotes") -> get_field "id" v' = Some (str a) -> a = "mcpyrate"%string -> names_function (PN m "Attribute" fs) f
| nf_import m f m' m'' fs fs' fs'' v v' n mn fn c : v = PN m' "Attribute" fs' -> v' = PN m'' "Call" fs'' ->
    get_field "value" (PN m "Attribute" fs) = Some v -> get_field "attr" (PN m "Attribute" fs) = Some (str f) ->
    get_field "value" v = Some v' -> get_field "attr" v = Some (str "quotes") ->
    get_field "func" v' = Some n -> n = PN mn "Name" fn -> get_field "id" n = Some (str "__import__") ->
    arg 0 v' = Some c -> const_of c = Some (str "mcpyrate.quotes") -> names_function (PN m "Attribute" fs) f.
Lemma field_str_get f t s : field_str f t = Some s -> get_field f t = Some (str s).
Proof. unfold field_str. destruct (get_field f t) as [[[]| | | | |]|]; try discriminate. intros H. injection H as ->. reflexivity. Qed.
Lemma node_is_inv k t : node_is k t = true -> exists m fs, t = PN m k fs.
Proof. destruct t; try discriminate. cbn [node_is]. intros H. apply String.eqb_eq in H. subst. eauto. Qed.
Lemma callee_inv names t f : callee_is names t = Ok (Some f) -> exists m fs c, t = PN m "Call" fs /\ get_field "func" t = Some c /\ names_function c f /\ In f names.
Proof.
  unfold callee_is. destruct (node_is "Call" t) eqn:T; [|discriminate]. apply node_is_inv in T. destruct T as (m & fs & ->). destruct (get_field "func" (PN m "Call" fs)) as [c|] eqn:C; [|discriminate].
  destruct (node_is "Attribute" c) eqn:A; [|discriminate]. apply node_is_inv in A. destruct A as (m1 & fs1 & ->). destruct (field_str "attr" (PN m1 "Attribute" fs1)) as [a|] eqn:Fa; [|discriminate]. apply field_str_get in Fa.
  destruct (get_field "value" (PN m1 "Attribute" fs1)) as [v|] eqn:Fv; [|discriminate]. destruct (smem a names) eqn:M; [|discriminate]. apply smem_In in M.
  unfold is_quotes_reference. destruct (node_is "Attribute" v) eqn:A2; cbn [andb]; [|discriminate]. apply node_is_inv in A2. destruct A2 as (m2 & fs2 & ->).
  destruct (field_str "attr" (PN m2 "Attribute" fs2)) as [s|] eqn:Fs; [|discriminate]. apply field_str_get in Fs. destruct (String.eqb_spec s "quotes") as [->|]; [|discriminate].
  destruct (get_field "value" (PN m2 "Attribute" fs2)) as [v2|] eqn:Fv2; [|discriminate].
  destruct (node_is "Name" v2 && match field_str "id" v2 with Some s => String.eqb s "mcpyrate" | None => false end) eqn:D.
  - intros H. injection H as <-. apply andb_true_iff in D. destruct D as [D1 D2]. apply node_is_inv in D1. destruct D1 as (m3 & fs3 & ->). destruct (field_str "id" (PN m3 "Name" fs3)) as [i|] eqn:Fi; [|discriminate]. apply field_str_get in Fi. apply String.eqb_eq in D2.
    eexists _, _, _. split; [reflexivity|]. split; [reflexivity|]. split; [|exact M]. eapply nf_direct; eauto.
  - clear D. destruct (node_is "Call" v2) eqn:D; cbn [andb]; [|discriminate]. apply node_is_inv in D. destruct D as (m3 & fs3 & ->). destruct (get_field "func" (PN m3 "Call" fs3)) as [g|] eqn:Fg; [|discriminate].
    destruct (node_is "Name" g) eqn:D; cbn [andb]; [|discriminate]. apply node_is_inv in D. destruct D as (m4 & fs4 & ->). destruct (field_str "id" (PN m4 "Name" fs4)) as [i|] eqn:Fi; [|discriminate]. apply field_str_get in Fi. destruct (String.eqb_spec i "__import__") as [->|]; [|discriminate].
    destruct (arg 0 (PN m3 "Call" fs3)) as [ar|] eqn:Ar; [|discriminate]. destruct (const_of ar) as [[[]| | | | |]|] eqn:Co; try discriminate. destruct (String.eqb_spec s "mcpyrate.quotes") as [->|]; [|discriminate]. intros H. injection H as <-.
    eexists _, _, _. split; [reflexivity|]. split; [reflexivity|]. split; [|exact M]. eapply nf_import; eauto.
Qed.
(** A positive answer is right: a call of the function concerned, with constants as the quasiquote system makes them. *)
Theorem C53_recognise_sound t name frozen : is_captured_value t = Ok (Some (name, frozen)) ->
  exists m fs c f, t = PN m "Call" fs /\ get_field "func" t = Some c /\ names_function c f /\
    match frozen with
    | None => f = "capture_value"%string /\ exists n, arg 1 t = Some n /\ const_of n = Some (str name)
    | Some b => f = "lookup_value"%string /\ exists k n x, arg 0 t = Some k /\ get_field "elts" k = Some (PL [n; x]) /\ const_of n = Some (str name) /\ const_of x = Some (PA (ABytes b))
    end.
Proof.
  unfold is_captured_value. destruct (callee_is ["capture_value"; "lookup_value"]%string t) as [[f|]|] eqn:C; try discriminate. apply callee_inv in C. destruct C as (m & fs & c & Et & Hf & Hn & Hin).
  destruct Hin as [<-|[<-|[]]]; cbn [String.eqb Ascii.eqb Bool.eqb].
  - destruct (arg 1 t) as [n|] eqn:A; [|discriminate]. destruct (const_of n) as [[[]| | | | |]|] eqn:K; try discriminate. intros H. injection H as <- <-. exists m, fs, c, "capture_value"%string. split; [exact Et|]. split; [exact Hf|]. split; [exact Hn|]. split; [reflexivity|]. exists n. auto.
  - destruct (arg 0 t) as [k|] eqn:A; [|discriminate]. destruct (get_field "elts" k) as [[|[|n [|x [|]]]| | | |]|] eqn:G; try discriminate. destruct (const_of n) as [[[]| | | | |]|] eqn:K; try discriminate; destruct (const_of x) as [[[]| | | | |]|] eqn:K2; try discriminate. intros H. injection H as <- <-.
    exists m, fs, c, "lookup_value"%string. split; [exact Et|]. split; [exact Hf|]. split; [exact Hn|]. split; [reflexivity|]. exists k, n, x. auto.
Qed.
Print Assumptions C53_recognise_sound.
Example C53_example : is_captured_value (lookup_value_ast "f" "pickled") = Ok (Some ("f"%string, Some "pickled"%string)) /\ is_captured_value (p_call (p_name "lookup_value") [] []) = Ok None.
Proof. split; vm_compute; reflexivity. Qed.
