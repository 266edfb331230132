(** Vocabulary of the property theorems about random numbers. *)
From Verif Require Import Prelude RngModel.

(** The values asked for by integers(low, high, endpoint): a single argument
    is the upper end, the lower end is then 0. *)
Definition asked_for (low : Z) (high : option Z) (endpoint : bool) (z : Z) : Prop :=
  match high with
  | None => 0 <= z /\ (if endpoint then z <= low else z < low)
  | Some h => low <= z /\ (if endpoint then z <= h else z < h)
  end.

(** The values of an interval. *)
Definition possible (i : interval) (z : Z) : Prop := fst i <= z < snd i.

(** Numbers drawn alternately from two RNGs: [true] is the first. *)
Section Interleaving.
  Context {S : Type} (next : S -> Z * S) (no_gen : gen S).
  Fixpoint interleave (h : heap S) (a b : loc) (calls : list (bool * prog Z)) : list (bool * Z) :=
    match calls with
    | [] => []
    | (side, p) :: calls' =>
        let '(x, h') := sample S next no_gen h (if side then a else b) p in
        (side, x) :: interleave h' a b calls'
    end.
  (** Numbers drawn from one generator alone. *)
  Fixpoint alone (g : gen S) (ps : list (prog Z)) : list Z :=
    match ps with
    | [] => []
    | p :: ps' => let '(x, g') := run S next p g in x :: alone g' ps'
    end.
End Interleaving.
Definition calls_of {A} (side : bool) (calls : list (bool * A)) : list A :=
  map snd (filter (fun c => Bool.eqb (fst c) side) calls).
