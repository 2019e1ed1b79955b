(** Property theorems about fix_locations: C09. *)
From Verif Require Import Base AstLib FixLocModel FixLocSpec FixLocProofs.

(** Nothing but location attributes changes, and every node ends up with exactly the location the
    mode prescribes, as a function of its own attributes and those of the nodes above it. *)
Theorem C09_fix_locations_exact :
  forall (has_attr : string -> string -> bool) (md : mode) (t : tree loc) (ref : loc) l c,
  is_node t = true -> ln ref = Some l -> co ref = Some c ->
  exists t', fix_locations has_attr md t ref = Ok t' /\
    skel t' = skel t /\
    (forall path m k fs above,
       node_above t path [] = Some (Nd m k fs, above) ->
       exists fs', node_at t' path = Some (Nd (want has_attr md ref above (m, k)) k fs')).
Proof.
  intros has_attr md t ref l c Hn Hl Hc. exists (fix_node has_attr md t l c (eln ref) (eco ref)).
  unfold fix_locations. rewrite Hl, Hc. destruct t as [m0 k0 fs0|xs|a]; try discriminate.
  split; [reflexivity|]. split; [apply skel_fix|].
  intros path m k fs above Hp.
  eapply fix_node_at; [| | | |exact Hp];
    unfold lsrc, csrc, line_source, col_source; destruct md; auto.
Qed.
Print Assumptions C09_fix_locations_exact.

Theorem C09_no_reference_location : forall has_attr md t ref,
  ln ref = None \/ co ref = None -> fix_locations has_attr md t ref = Ok t.
Proof.
  intros has_attr md t ref [H|H]; unfold fix_locations; rewrite H; [reflexivity|].
  destruct (ln ref); reflexivity.
Qed.
Print Assumptions C09_no_reference_location.

(** A list is processed element by element, with the same reference. *)
Theorem C09_lists_elementwise : forall has_attr md xs ref l c,
  ln ref = Some l -> co ref = Some c -> forallb (fun x => is_node x || is_none x) xs = true ->
  exists xs', fix_locations has_attr md (Ls xs) ref = Ok (Ls xs') /\
    Forall2 (fun x x' => fix_locations has_attr md x ref = Ok x') xs xs'.
Proof.
  intros has_attr md xs ref l c Hl Hc Hx.
  destruct (fix_top_list_ok has_attr md ref xs Hx) as [ys Hy].
  destruct (fix_top_list has_attr md ref xs l c (eln ref) (eco ref) Hl Hc eq_refl eq_refl ys Hy)
    as [xs' [E HF]].
  subst ys. exists xs'. auto.
Qed.
Print Assumptions C09_lists_elementwise.

(** All classes support locations here. Expr at line 7 holds a Call without location, whose
    argument has line 9. Update: the call inherits line 7. Reference: it gets the reference's. *)
Definition at_line (n : Z) : loc := mkLoc (Some n) (Some 0%Z) None None.
Definition ex09 : tree loc :=
  Nd (at_line 7) "Expr" [("value"%string,
     Nd noloc "Call" [("args"%string, Ls [Nd (at_line 9) "Name" []; Nd noloc "Name" []])])].
Example C09_example :
  fix_locations (fun _ _ => true) MUpdate ex09 (at_line 1) =
  Ok (Nd (at_line 7) "Expr" [("value"%string,
     Nd (at_line 7) "Call" [("args"%string, Ls [Nd (at_line 9) "Name" []; Nd (at_line 7) "Name" []])])]) /\
  fix_locations (fun _ _ => true) MReference ex09 (at_line 1) =
  Ok (Nd (at_line 7) "Expr" [("value"%string,
     Nd (at_line 1) "Call" [("args"%string, Ls [Nd (at_line 9) "Name" []; Nd (at_line 1) "Name" []])])]) /\
  fix_locations (fun _ _ => true) MOverwrite ex09 (at_line 1) =
  Ok (Nd (at_line 1) "Expr" [("value"%string,
     Nd (at_line 1) "Call" [("args"%string, Ls [Nd (at_line 1) "Name" []; Nd (at_line 1) "Name" []])])]).
Proof. repeat split. Qed.
