(** Vocabulary of the property theorems about heatmaps and segmentation maps. *)
From Verif Require Import Prelude DtyModel MapModel.
Local Open Scope Q_scope.

(** Same dtype, same shape, same values. *)
Definition nd_eq (a b : nd) : Prop :=
  n_dt a = n_dt b /\ n_shape a = n_shape b /\ Forall2 Qeq (n_flat a) (n_flat b).

(** A (H,W) or (H,W,C) array with at least one component. *)
Definition map_shape (a : nd) : Prop :=
  ((exists h w, n_shape a = [h; w] /\ 0 < h /\ 0 < w /\ Z.of_nat (length (n_flat a)) = h * w) \/
   (exists h w c, n_shape a = [h; w; c] /\ 0 < h /\ 0 < w /\ 0 < c /\
                  Z.of_nat (length (n_flat a)) = h * w * c))%Z.

Definition all_values (P : Q -> Prop) (a : nd) : Prop := Forall P (n_flat a).

(** [r] is [v] moved into the interval from [lo] to [hi]. *)
Definition moved_into (lo hi v r : Q) : Prop :=
  (v < lo -> r == lo) /\ (lo <= v <= hi -> r == v) /\ (hi < v -> r == hi).

(** Integer values of the dtype. *)
Definition value_of (d : adt) (v : Q) : Prop :=
  match d with
  | ABool => v = 0 \/ v = 1
  | ANum (DU b) => exists z, v = inject_Z z /\ (0 <= z < 2 ^ b)%Z
  | ANum (DI b) => exists z, v = inject_Z z /\ (- 2 ^ (b - 1) <= z < 2 ^ (b - 1))%Z
  | _ => False
  end.
(** The dtypes accepted for segmentation maps. *)
Definition segmap_dtype (d : adt) : Prop :=
  d = ABool \/ d = ANum (DU 8) \/ d = ANum (DU 16) \/
  d = ANum (DI 8) \/ d = ANum (DI 16) \/ d = ANum (DI 32).

(** [i] is the first index of the largest component. *)
Definition first_largest (p : list Q) (i : Z) : Prop :=
  (0 <= i < Z.of_nat (length p))%Z /\
  (forall k, (k < length p)%nat -> nth k p 0 <= nth (Z.to_nat i) p 0) /\
  (forall k, (k < Z.to_nat i)%nat -> nth k p 0 < nth (Z.to_nat i) p 0).
