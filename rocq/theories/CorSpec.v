(** What the theorems about corruptions and debug images say, in plain terms. *)
From Coq Require Import List ZArith QArith.
From Verif Require Import Prelude CtrModel CorModel.
Import ListNotations.
Open Scope Z_scope.

(** ** Corruptions *)
(** uint8 images of at least 32x32 pixels without channel axis or with 1 or 3 channels. *)
Definition corruptible (im : picture) : Prop :=
  p_dt im = U8 /\ 32 <= p_h im /\ 32 <= p_w im /\ (p_c im = None \/ p_c im = Some 1%nat \/ p_c im = Some 3%nat).
Definition same_shape (a b : picture) : Prop := p_h a = p_h b /\ p_w a = p_w b /\ p_c a = p_c b.
Definition position (im : picture) (y x : Z) (c : nat) : Prop :=
  0 <= y < p_h im /\ 0 <= x < p_w im /\ match p_c im with None => c = 0%nat | Some n => (c < n)%nat end.
(** [im3] is the image with three channels: the image itself, or three times the only channel. *)
Definition color_version (im im3 : picture) : Prop :=
  p_dt im3 = p_dt im /\ p_h im3 = p_h im /\ p_w im3 = p_w im /\ p_c im3 = Some 3%nat /\
  forall y x c, (c < 3)%nat -> p_px im3 y x c = p_px im y x (match p_c im with Some 3%nat => c | _ => 0%nat end).
(** A function that keeps shapes and returns numbers from 0 to below 256. *)
Definition well_behaved {S} (func : Z -> picture -> S -> S * res picture) : Prop :=
  forall v im s, exists out, snd (func v im s) = Ok out /\ same_shape out im /\ forall y x c, position im y x c -> (0 <= p_px out y x c < 256)%Q.
(** [z] is [q] without its fraction. *)
Definition whole_part (q v : Q) : Prop := exists z, (v == inject_Z z)%Q /\ (inject_Z z <= q < inject_Z z + 1)%Q.

(** ** Glass blur *)
Definition inside (height width y x : Z) : Prop := 0 <= y < height /\ 0 <= x < width.
(** Shifts as drawn by randint(-m, m). *)
Definition shifts_in (m : Z) (d : Z -> Z -> Z -> Z * Z) : Prop := forall i j k, - m <= fst (d i j k) < m /\ - m <= snd (d i j k) < m.

(** ** Debug images *)
(** The part of [c] from row [y0] and column [x0] on, with the size of [sub], looks like [sub]. *)
Definition part_of (sub c : canvas) (y0 x0 : Z) : Prop :=
  0 <= y0 /\ y0 + cv_h sub <= cv_h c /\ 0 <= x0 /\ x0 + cv_w sub <= cv_w c /\
  forall y x, 0 <= y < cv_h sub -> 0 <= x < cv_w sub -> cv_px c (y0 + y) (x0 + x) = cv_px sub y x.
(** The values of a dtype. *)
Definition value_in (lo hi : Z) (v : Q) : Prop := exists z, (v == inject_Z z)%Q /\ lo <= z <= hi.
