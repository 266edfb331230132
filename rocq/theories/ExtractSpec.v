(** Specification vocabulary for C09. *)
From Verif Require Import Prelude GeoModel.

(** The image laid on an infinite plane of zeros. *)
Definition on_zero_plane (nc : nat) (a : arr (list Z)) (y x : Z) : list Z :=
  if (0 <=? y) && (y <? ah a) && (0 <=? x) && (x <? aw a) then apx a y x else repeat 0 nc.

(** [r] is the rectangle of columns [left, right) and rows [top, bottom) of that plane. *)
Definition cut_out (nc : nat) (a : arr (list Z)) (left top right bottom : Z) (r : arr (list Z)) : Prop :=
  ah r = Z.max 0 (bottom - top) /\ aw r = Z.max 0 (right - left) /\
  forall y x, 0 <= y < ah r -> 0 <= x < aw r ->
    apx r y x = on_zero_plane nc a (top + y) (left + x).

(** The far end that is extracted for a (rounded) interval [s, e): at least one
    pixel if requested. *)
Definition far_end (at_least_one : bool) (s e : Z) : Z :=
  if at_least_one then Z.max e (s + 1) else e.

Definition inside_image (b : bbox) (h w : Z) : Prop :=
  (0 <= x1 b /\ x2 b < inject_Z w /\ 0 <= y1 b /\ y2 b < inject_Z h)%Q.

Definition all_zero (nc : nat) (r : arr (list Z)) : Prop :=
  forall y x, 0 <= y < ah r -> 0 <= x < aw r -> apx r y x = repeat 0 nc.
