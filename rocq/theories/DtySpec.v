(** Vocabulary of the property theorems about dtypes. *)
From Verif Require Import Prelude DtyModel.
Local Open Scope Q_scope.

(** [z] is the integer nearest to [q]; at a tie the even one. *)
Definition nearest (q : Q) (z : Z) : Prop :=
  inject_Z z - (1 # 2) <= q <= inject_Z z + (1 # 2) /\
  (q == inject_Z z - (1 # 2) \/ q == inject_Z z + (1 # 2) -> Z.even z = true).

(** [z] is [n] moved into the interval from [lo] to [hi]. *)
Definition saturated (lo hi n z : Z) : Prop :=
  ((n < lo -> z = lo) /\ (lo <= n <= hi -> z = n) /\ (hi < n -> z = hi))%Z.

(** Smallest and largest value of an integer dtype. *)
Inductive int_range : dtype -> Z -> Z -> Prop :=
| unsigned_range : forall b, (0 < b)%Z -> int_range (DU b) 0 (2 ^ b - 1)
| signed_range : forall b, (0 < b)%Z -> int_range (DI b) (- 2 ^ (b - 1)) (2 ^ (b - 1) - 1).

(** All integers of the dtype are floats of [p] mantissa bits. *)
Definition fits_in_mantissa (d : dtype) (p : Z) : Prop :=
  match d with DU b => (b <= p)%Z | DI b => (b - 1 <= p)%Z | DF _ _ => False end.

Definition not_64_bit (d : dtype) : Prop := d <> DU 64 /\ d <> DI 64.
