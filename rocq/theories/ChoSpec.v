(** What the theorems about Choice say, in plain terms. *)
From Coq Require Import List String.
From Verif Require Import Prelude ChoModel.
Import ListNotations.

(** Draws give as many samples as requested, choices as many valid indices. *)
Definition draws_enough {V P R} (draw : P -> nat -> R -> list V * R) : Prop := forall p n r, length (fst (draw p n r)) = n.
Definition chooses {R} (choose : nat -> nat -> R -> list nat * R) : Prop :=
  forall m n r, 0 < m -> length (fst (choose m n r)) = n /\ Forall (fun i => i < m) (fst (choose m n r)).
(** How many of the chosen elements are parameters with the name [k]. *)
Fixpoint uses {V P} (key : P -> string) (k : string) (l : list (elt V P)) : nat :=
  match l with
  | [] => 0
  | Par p :: l => (if String.eqb (key p) k then 1 else 0) + uses key k l
  | Num _ :: l => uses key k l
  end.
