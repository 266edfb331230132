(** Independent vocabulary for the size properties. *)
From Verif Require Import Prelude GeoModel SizeModel.

(** All four amounts are non-negative. *)
Definition nonneg (c : trbl) : Prop :=
  0 <= t_top c /\ 0 <= t_right c /\ 0 <= t_bottom c /\ 0 <= t_left c.

(** [b] is the window of [a] that starts [top] rows and [left] columns after
    the start and ends [bottom] rows and [right] columns before the end. *)
Definition is_window {A} (a b : arr A) (c : trbl) : Prop :=
  ah b = ah a - t_top c - t_bottom c /\ aw b = aw a - t_left c - t_right c /\
  forall y x, 0 <= y < ah b -> 0 <= x < aw b ->
    apx b y x = apx a (y + t_top c) (x + t_left c).

(** Every pixel has exactly [n] channel values. *)
Definition has_channels {V} (n : nat) (a : arr (list V)) : Prop :=
  forall y x, 0 <= y < ah a -> 0 <= x < aw a -> length (apx a y x) = n.

(** Source positions allowed for position [p] of a padded axis (documented
    meaning of numpy's modes): 'edge' repeats the border element; 'reflect'
    continues the even, 2(len-1)-periodic mirror image (border element not
    repeated); 'symmetric' the 2*len-periodic one (border element repeated). *)
Definition mirror_source (mode : pad_mode) (len p i : Z) : Prop :=
  0 <= i < len /\
  match mode with
  | PMConstant => i = p
  | PMEdge => i = Z.min (Z.max p 0) (len - 1)
  | PMReflect => len = 1 \/ exists k, p = i + k * (2 * (len - 1)) \/ p = - i + k * (2 * (len - 1))
  | PMSymmetric => exists k, p = i + k * (2 * len) \/ p = - 1 - i + k * (2 * len)
  end.

(** [d] is a positive/any multiple of [m]. *)
Definition multiple_of (m v : Z) : Prop := exists k, v = k * m.
(** [v] is a power of [b] with exponent at least [e0]. *)
Definition power_of (b e0 v : Z) : Prop := exists k, e0 <= k /\ v = b ^ k.

(** The value the user asked to fill channel [ch] with. *)
Definition requested_cval (c : cval_arg) (ch : nat) : option Z :=
  match c with CvScalar v => Some v | CvMulti vs => nth_error vs ch end.
(** A cval argument is usable for [n] channels. *)
Definition cval_fits (n : nat) (c : cval_arg) : Prop :=
  match c with CvScalar _ => True | CvMulti vs => length vs = n end.

(** Crop amounts [c'] that were really applied when [c] was requested on an
    image of the given size: never negative, never more than requested, and
    leaving at least one row/column and otherwise exactly what was asked. *)
Definition effective_crop (s : shape2) (c c' : trbl) : Prop :=
  nonneg c' /\
  t_top c' <= t_top c /\ t_right c' <= t_right c /\
  t_bottom c' <= t_bottom c /\ t_left c' <= t_left c /\
  fst s - t_top c' - t_bottom c' = Z.max 1 (fst s - t_top c - t_bottom c) /\
  snd s - t_left c' - t_right c' = Z.max 1 (snd s - t_left c - t_right c).

(** [k] is the exact rounded-up (rounded-down) logarithm. *)
Definition log_up (n b k : Z) : Prop := 0 <= k /\ n <= b ^ k /\ forall j, 0 <= j -> n <= b ^ j -> k <= j.
Definition log_down (n b k : Z) : Prop := 0 <= k /\ b ^ k <= n /\ forall j, 0 <= j -> b ^ j <= n -> j <= k.

(** Which specification is used for the height and which for the width. *)
Definition side_specs (imh imw : Z) (a b : size_spec) (sl : bool) : size_spec * size_spec :=
  if sl then (if imh <? imw then (a, b) else (b, a)) else (a, b).

(** What padding to powers achieves on one axis (size [n], padded by [a] before
    and [z] after). *)
Definition pad_power_result (az : bool) (b n a z : Z) : Prop :=
  let e0 := if az then 0 else 1 in
  0 <= a /\ a <= z <= a + 1 /\ power_of b e0 (n + a + z) /\
  ((forall v, power_of b e0 v -> n <= v -> n + a + z <= v) \/ (power_of b 2 n /\ n + a + z = b * n)).

Definition crop_power_result (az : bool) (b n a z : Z) : Prop :=
  let e0 := if az then 0 else 1 in
  0 <= a /\ a <= z <= a + 1 /\ 1 <= n - a - z /\
  ((exists v, power_of b e0 v /\ v <= n) ->
     power_of b e0 (n - a - z) /\
     ((forall v, power_of b e0 v -> v <= n -> v <= n - a - z) \/ (power_of b 2 n /\ b * (n - a - z) = n))) /\
  (~ (exists v, power_of b e0 v /\ v <= n) -> a = 0 /\ z = 0).

(** [v'] is the pixel amount [v] (given for an axis of size [from]) scaled to
    an axis of size [to], up to rounding to a whole pixel (and the 1e-4 used to
    break ties). *)
Definition scaled_amount (from to v v' : Z) : Prop :=
  (inject_Z v' - ((1#2) + (1#10000)) <= inject_Z v * (inject_Z to / inject_Z from))%Q /\
  (inject_Z v * (inject_Z to / inject_Z from) <= inject_Z v' + ((1#2) + (1#10000)))%Q.
Definition scaled_amounts (from to : shape2) (c c' : trbl) : Prop :=
  scaled_amount (fst from) (fst to) (t_top c) (t_top c') /\
  scaled_amount (snd from) (snd to) (t_right c) (t_right c') /\
  scaled_amount (fst from) (fst to) (t_bottom c) (t_bottom c') /\
  scaled_amount (snd from) (snd to) (t_left c) (t_left c').
