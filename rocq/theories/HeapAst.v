(** Python ASTs as objects in memory: nodes and lists have an identity, may be shared, and are
    mutated in place. Used where the code depends on [id(...)] or on aliasing. *)
From Verif Require Import Base AstLib.

Inductive val : Type :=
| VRef (i : nat)    (* reference to a node or a list *)
| VAt (a : atom).   (* any other value; compared by value *)

(** A node: class name and fields in the order of the class's [_fields]. A list: its elements. *)
Inductive obj : Type :=
| ONode (k : string) (fs : list (string * val))
| OList (l : list val).

Record heap : Type := mkHeap { h_next : nat; h_obj : nat -> option obj }.

Definition hset (h : heap) (i : nat) (o : obj) : heap :=
  mkHeap (h_next h) (fun j => if Nat.eqb i j then Some o else h_obj h j).
Definition halloc (h : heap) (o : obj) : nat * heap :=
  (h_next h, mkHeap (S (h_next h)) (fun j => if Nat.eqb (h_next h) j then Some o else h_obj h j)).

Fixpoint vget (f : string) (fs : list (string * val)) : option val :=
  match fs with
  | [] => None
  | (g, v) :: r => if String.eqb f g then Some v else vget f r
  end.
Fixpoint vset (f : string) (v : val) (fs : list (string * val)) : list (string * val) :=
  match fs with
  | [] => [(f, v)]
  | (g, w) :: r => if String.eqb f g then (g, v) :: r else (g, w) :: vset f v r
  end.

Definition val_eqb (u v : val) : bool :=
  match u, v with
  | VRef i, VRef j => Nat.eqb i j
  | VAt a, VAt b => atom_eqb a b
  | _, _ => false
  end.

(** Result of running code in the model: not returned within the fuel, raised, returned. *)
Inductive out (A : Type) : Type :=
| NoFuel
| Ex (e : exn)
| Rt (a : A).
Arguments NoFuel {A}.
Arguments Ex {A} e.
Arguments Rt {A} a.

(** ** What a value looks like when printed: the tree below it.
    [reads h v t]: the value [v] denotes the tree [t]. Sharing is invisible. *)
Inductive reads (h : heap) : val -> tree unit -> Prop :=
| rd_at a : reads h (VAt a) (At a)
| rd_list i vs ts : h_obj h i = Some (OList vs) -> reads_list h vs ts -> reads h (VRef i) (Ls ts)
| rd_node i k fs gs : h_obj h i = Some (ONode k fs) -> reads_fields h fs gs -> reads h (VRef i) (Nd tt k gs)
with reads_list (h : heap) : list val -> list (tree unit) -> Prop :=
| rl_nil : reads_list h [] []
| rl_cons v vs t ts : reads h v t -> reads_list h vs ts -> reads_list h (v :: vs) (t :: ts)
with reads_fields (h : heap) : list (string * val) -> list (string * tree unit) -> Prop :=
| rf_nil : reads_fields h [] []
| rf_cons f v fs t gs : reads h v t -> reads_fields h fs gs -> reads_fields h ((f, v) :: fs) ((f, t) :: gs).

(** Executable counterpart, for examples. *)
Fixpoint read (fuel : nat) (h : heap) (v : val) : option (tree unit) :=
  match fuel with
  | O => None
  | S n =>
      match v with
      | VAt a => Some (At a)
      | VRef i =>
          match h_obj h i with
          | None => None
          | Some (OList vs) =>
              match (fix go (vs : list val) : option (list (tree unit)) :=
                       match vs with
                       | [] => Some []
                       | x :: r => match read n h x, go r with
                                   | Some t, Some ts => Some (t :: ts)
                                   | _, _ => None
                                   end
                       end) vs with
              | Some ts => Some (Ls ts)
              | None => None
              end
          | Some (ONode k fs) =>
              match (fix go (fs : list (string * val)) : option (list (string * tree unit)) :=
                       match fs with
                       | [] => Some []
                       | (f, x) :: r => match read n h x, go r with
                                        | Some t, Some ts => Some ((f, t) :: ts)
                                        | _, _ => None
                                        end
                       end) fs with
              | Some gs => Some (Nd tt k gs)
              | None => None
              end
          end
      end
  end.
