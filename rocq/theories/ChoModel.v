(** Model of Choice over stochastic parameters (parameters.py:1130-1170), the branch for lists with at least one
    parameter. Simplification: probabilities and replacement are up to the generator. *)
From Coq Require Import List ZArith QArith Ascii String DecimalString.
From Verif Require Import Prelude.
Import ListNotations.
Open Scope nat_scope.

Section Choice.
(** Values, parameters, states of the generator (parameters.py:1130). *)
Variables V P R : Type.
(** str(param) (parameters.py:1142). *)
Variable key : P -> string.
(** param.draw_samples(size=(n,), random_state) (parameters.py:1156-1159); the generators of duplicate() are the same object
    (parameters.py:1132). *)
Variable draw : P -> nat -> R -> list V * R.
(** choice(a, n, replace, p) (parameters.py:1133-1134) of indices below the length of the list. *)
Variable choose : nat -> nat -> R -> list nat * R.
(** An element of the list [a] (parameters.py:1131). *)
Inductive elt := Num (v : V) | Par (p : P).
(** isinstance(sample, StochasticParameter) and its key (parameters.py:1140-1142). *)
Definition has_key (k : string) (e : elt) : bool := match e with Par p => String.eqb (key p) k | Num _ => false end.
(** params_counter[key] (parameters.py:1138-1143). *)
Definition counter (samples : list elt) (k : string) : nat := length (filter (has_key k) samples).
(** A dictionary of lists of samples (parameters.py:1151). *)
Definition dict := string -> option (list V).
(** parameters.py:1151-1159: samples of all parameters that were chosen, in the order of the list. *)
Fixpoint draw_all (samples a : list elt) (d : dict) (r : R) : dict * R :=
  match a with
  | [] => (d, r)
  | Num _ :: a => draw_all samples a d r
  | Par p :: a =>
      match counter samples (key p) with
      | O => draw_all samples a d r
      | n => let '(vs, r) := draw p n r in
             draw_all samples a (fun k => if String.eqb k (key p) then Some vs else d k) r
      end
  end.
(** parameters.py:1163-1169: chosen parameters are replaced by their samples; [readcount]: how many are used up. *)
Fixpoint assign (samples : list elt) (d : dict) (readcount : string -> nat) : res (list V) :=
  match samples with
  | [] => Ok []
  | Num v :: samples => do l <- assign samples d readcount; Ok (v :: l)
  | Par p :: samples =>
      match d (key p) with
      | None => Err KeyError_
      | Some vs =>
          match nth_error vs (readcount (key p)) with
          | None => Err IndexError
          | Some v =>
              do l <- assign samples d (fun k => if String.eqb k (key p) then S (readcount k) else readcount k);
              Ok (v :: l)
          end
      end
  end.
(** parameters.py:1131-1171 for [n] components. *)
Definition draw_choice (a : list elt) (n : nat) (r : R) : res (list V) * R :=
  let '(idx, r) := choose (length a) n r in
  match mapM (fun i => match nth_error a i with Some e => Ok e | None => Err IndexError end) idx with
  | Err e => (Err e, r)
  | Ok samples => let '(d, r) := draw_all samples a (fun _ => None) r in (assign samples d (fun _ => O), r)
  end.
End Choice.
Arguments Num {V P}.
Arguments Par {V P}.

(** DeterministicList of floats: str() with four decimals (parameters.py:1067-1072). Simplification: for numbers that are not
    negative, and the decimal point is left out. *)
Definition list_key (l : list Q) : string :=
  ("DeterministicList([" ++ String.concat ", " (map (fun v => NilZero.string_of_int (Z.to_int (np_round (v * 10000)))) l) ++ "])")%string.
(** parameters.py:1052-1061 DeterministicList._draw_samples for one axis: the list, repeated and cut. *)
Definition list_draw (l : list Q) (n : nat) (r : unit) : list Q * unit := (map (fun i => nth (i mod length l) l 0%Q) (seq 0 n), r).
