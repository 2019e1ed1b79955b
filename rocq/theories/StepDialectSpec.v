(** Spec for C73: the steps that dialects take, and what is to be shown of them. *)
From Verif Require Import Base DialectModel StepDialectModel.
Open Scope string_scope.

Section Spec.
  Context {W Ob In_ C : Type}.
  Variable is_dialect : Ob -> bool.
  Variable instantiate : Ob -> W -> res In_ * W.
  Variable transform : In_ -> option (C -> W -> res (option C) * W).
  Variable kind method : string.
  Variable find : C -> W -> res (option (string * list (string * dcls Ob) * C)) * W.

  (** A step: the name of the method, whether it is StepExpansion's, and the program after it. *)
  Definition entry : Type := (string * bool * C)%type.
  (** The object [d] gets the program [c], takes the given steps (none if it answers NotImplemented, one otherwise), and leaves the program [c']. StepExpansion takes a step
      that changes nothing; but none in an AST if debug mode is on already ([on]), and none in postprocessing. *)
  Inductive takes (name : string) (on : bool) : dobj In_ -> C -> list entry -> C -> Prop :=
  | t_none i f c w w' : transform i = Some f -> f c w = (Ok None, w') -> takes name on (OUser i) c [] c
  | t_step i f c c' w w' : transform i = Some f -> f c w = (Ok (Some c'), w') -> takes name on (OUser i) c [(name, false, c')] c'
  | t_shown c : kind = "source" \/ kind = "AST" /\ on = false -> takes name on OStep c [(name, true, c)] c
  | t_silent c : kind <> "source" -> (kind = "AST" -> on = true) -> takes name on OStep c [] c.
  (** Whether a step of StepExpansion is among them: debug mode is on afterwards. *)
  Definition enables (l : list entry) : bool := existsb (fun e => snd (fst e)) l.
  (** A dialect class and its instance. *)
  Inductive instance : dcls Ob -> dobj In_ -> Prop :=
  | i_step : instance CStep OStep
  | i_user o i w w' : is_dialect o = true -> instantiate o w = (Ok i, w') -> instance (CUser o) (OUser i).
  (** The bindings of one dialect-import, in order. [false]: it ended before, with an exception. [on]: debug mode is on before. *)
  Inductive of_bindings (m : string) : bool -> bool -> list (string * dcls Ob) -> C -> list entry -> C -> Prop :=
  | b_end on c : of_bindings m true on [] c [] c
  | b_cut on bs c : of_bindings m false on bs c [] c
  | b_one b on x cls d r c l c1 l' c2 : instance cls d -> takes (m ++ "." ++ x ++ "." ++ method) on d c l c1 -> of_bindings m b (on || enables l) r c1 l' c2 ->
      of_bindings m b on ((x, cls) :: r) c (l ++ l')%list c2.
  (** All dialect-imports, as they are found in the program at that time. *)
  Inductive of_program : bool -> bool -> C -> list entry -> C -> Prop :=
  | p_end on c w w' : find c w = (Ok None, w') -> of_program true on c [] c
  | p_cut on c : of_program false on c [] c
  | p_import b on c w m bs c1 w' l c2 l' c3 : find c w = (Ok (Some (m, bs, c1)), w') -> of_bindings m true on bs c1 l c2 -> of_program b (on || enables l) c2 l' c3 -> of_program b on c (l ++ l')%list c3
  | p_broken on c w m bs c1 w' l c2 : find c w = (Ok (Some (m, bs, c1)), w') -> of_bindings m false on bs c1 l c2 -> of_program false on c l c2.
  (** The postprocessors of the dialect objects, in order. *)
  Inductive of_objects (name_of : dobj In_ -> string) : bool -> list (dobj In_) -> C -> list entry -> C -> Prop :=
  | o_end c : of_objects name_of true [] c [] c
  | o_cut ds c : of_objects name_of false ds c [] c
  | o_one b on d r c l c1 l' c2 : takes (name_of d ++ "." ++ method) on d c l c1 -> of_objects name_of b r c1 l' c2 -> of_objects name_of b (d :: r) c (l ++ l')%list c2.

  (** What is shown of the steps that follow step number [n]: from the first step of StepExpansion on, every step, with its number, and the program after it. *)
  Fixpoint visible (on : bool) (n : nat) (l : list entry) : list (msg C) :=
    match l with
    | [] => []
    | (name, true, c) :: r => MEnabled (S n) :: MAfter name (S n) c :: visible true (S n) r
    | (name, false, c) :: r => if on then MAfter name (S n) c :: visible true (S n) r else visible false (S n) r
    end.

  (** Without StepExpansion: the dialects of the others, and the expander without debug mode (DialectModel.v). *)
  Definition users (l : list (dobj In_)) : list In_ := flat_map (fun d => match d with OUser i => [i] | OStep => [] end) l.
  Definition user_bindings (l : list (string * dcls Ob)) : list (string * Ob) := flat_map (fun b => match b with (x, CUser o) => [(x, o)] | _ => [] end) l.
  Definition find_user (c : C) (w : W) : res (option (list (string * Ob) * C)) * W :=
    match find c w with
    | (Err e, w1) => (Err e, w1)
    | (Ok None, w1) => (Ok None, w1)
    | (Ok (Some (_, bs, c1)), w1) => (Ok (Some (user_bindings bs, c1)), w1)
    end.
  Definition method_of (is_empty : C -> bool) (m : In_ -> option (C -> W -> res (option C) * W)) (i : In_) : option (C -> W -> res (tresult C) * W) :=
    match m i with
    | None => None
    | Some f => Some (fun c w => match f c w with
                                 | (Err e, w1) => (Err e, w1)
                                 | (Ok None, w1) => (Ok TNotImplemented, w1)
                                 | (Ok (Some c'), w1) => (Ok (if is_empty c' then TEmpty else TContent c'), w1)
                                 end)
    end.
End Spec.
