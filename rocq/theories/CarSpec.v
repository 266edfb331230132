(** What the theorems about Cartoon say, in plain terms. *)
From Coq Require Import List ZArith QArith Bool.
From Verif Require Import Prelude DtyModel CorModel CorSpec.
Import ListNotations.
Open Scope Z_scope.

(** [j] is the position [i] reflected into an axis of [n] positions, without repeating the first and last. *)
Definition reflected (n i j : Z) : Prop := 0 <= j < n /\ (n = 1 \/ exists k, i = j + 2 * (n - 1) * k \/ i = - j + 2 * (n - 1) * k).
(** How many of the (2r+1) x (2r+1) positions around [y], [x] are edges; outside of the image by reflection. *)
Definition edges_around (h w r : Z) (edge : Z -> Z -> Prop) (y x : Z) (n : nat) : Prop :=
  exists inside_y inside_x ds,
    (forall d, reflected h (y + d) (inside_y d)) /\ (forall d, reflected w (x + d) (inside_x d)) /\
    NoDup ds /\ length ds = n /\
    forall dy dx, In (dy, dx) ds <-> (- r <= dy <= r /\ - r <= dx <= r /\ edge (inside_y dy) (inside_x dx)).
(** Pictures of bytes. *)
Definition bytes (im : picture) : Prop := forall y x c, position im y x c -> exists z, p_px im y x c = inject_Z z /\ 0 <= z <= 255.
