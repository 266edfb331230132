(** What a user expects of perspective transformations. *)
From Verif Require Import Prelude GeoModel PspModel.
From Coq Require Import Qabs.
Local Open Scope Q_scope.

Definition peq (p q : point) : Prop := fst p == fst q /\ snd p == snd q.
Definition quad_eq (a b : quad) : Prop :=
  peq (tl a) (tl b) /\ peq (tr a) (tr b) /\ peq (br a) (br b) /\ peq (bl a) (bl b).

Definition corners (q : quad) : list point := [tl q; tr q; br q; bl q].

(** Twice the signed area of a triangle: positive if its corners are given
    clockwise (y points down). *)
Definition area2 (p q r : point) : Q :=
  (fst q - fst p) * (snd r - snd p) - (snd q - snd p) * (fst r - fst p).

(** No three corners on a line. *)
Definition general_position (q : quad) : Prop :=
  ~ area2 (tr q) (br q) (bl q) == 0 /\ ~ area2 (tl q) (br q) (bl q) == 0 /\
  ~ area2 (tl q) (tr q) (bl q) == 0 /\ ~ area2 (tl q) (tr q) (br q) == 0.

(** A convex quadrilateral whose corners are given clockwise. *)
Definition convex (q : quad) : Prop :=
  0 < area2 (tr q) (br q) (bl q) /\ 0 < area2 (tl q) (br q) (bl q) /\
  0 < area2 (tl q) (tr q) (bl q) /\ 0 < area2 (tl q) (tr q) (br q).

(** The point lies in the hull of the four corners. *)
Definition in_quad (q : quad) (p : point) : Prop :=
  exists a b c d, 0 <= a /\ 0 <= b /\ 0 <= c /\ 0 <= d /\ a + b + c + d == 1 /\
    fst p == a * fst (tl q) + b * fst (tr q) + c * fst (br q) + d * fst (bl q) /\
    snd p == a * snd (tl q) + b * snd (tr q) + c * snd (br q) + d * snd (bl q).

(** The point lies on a plane of height [h] and width [w], borders included. *)
Definition on_plane (h w : Z) (p : point) : Prop :=
  0 <= fst p /\ fst p <= inject_Z w /\ 0 <= snd p /\ snd p <= inject_Z h.

(** The matrix takes the corners of [q] to those of [d]. *)
Definition takes (m : mat3) (p d : point) : Prop := ~ weight m p == 0 /\ peq (perspective m p) d.
Definition takes_quad (m : mat3) (q d : quad) : Prop :=
  takes m (tl q) (tl d) /\ takes m (tr q) (tr d) /\ takes m (br q) (br d) /\ takes m (bl q) (bl d).

(** What is assumed of [cv2.getPerspectiveTransform]: whenever no three of
    the points are on a line, it finds a matrix taking the ones to the others. *)
Definition good_solver (solve : solver) : Prop :=
  forall q d, general_position q -> general_position d -> takes_quad (solve q d) q d.

(** All jitter values are at most [t], which is so small, compared to the
    shape of the image, that no corner gets close to another one. *)
Definition small_jitter (j : quad) (t : Q) (h w : Z) : Prop :=
  (forall c, In c [tl j; tr j; br j; bl j] -> Qabs (fst c) <= t /\ Qabs (snd c) <= t) /\
  (0 < h)%Z /\ (0 < w)%Z /\
  t * (inject_Z h + inject_Z w) < (1 - t) * inject_Z (Z.min h w).

(** The four corners of the image, each moved inwards by its jitter. *)
Definition moved_corners (j : quad) (h w : Z) (q : quad) : Prop :=
  let W := inject_Z w in
  let H := inject_Z h in
  peq (tl q) (Qabs (fst (tl j)) * W, Qabs (snd (tl j)) * H) /\
  peq (tr q) (W - Qabs (fst (tr j)) * W, Qabs (snd (tr j)) * H) /\
  peq (br q) (W - Qabs (fst (br j)) * W, H - Qabs (snd (br j)) * H) /\
  peq (bl q) (Qabs (fst (bl j)) * W, H - Qabs (snd (bl j)) * H).

(** Every corner moved outwards by [sx] along x and by [sy] along y. *)
Definition enlarged (sx sy : Q) (q : quad) : quad :=
  mkQuad (fst (tl q) - sx, snd (tl q) - sy) (fst (tr q) + sx, snd (tr q) - sy)
         (fst (br q) + sx, snd (br q) + sy) (fst (bl q) - sx, snd (bl q) + sy).

Definition dist2 (p q : point) : Q :=
  (fst q - fst p) * (fst q - fst p) + (snd q - snd p) * (snd q - snd p).

(** All four sides have a length of at least [n]. *)
Definition sides_at_least (n : Q) (q : quad) : Prop :=
  n * n <= dist2 (tl q) (tr q) /\ n * n <= dist2 (bl q) (br q) /\
  n * n <= dist2 (tl q) (bl q) /\ n * n <= dist2 (tr q) (br q).

(** [n] is the length of the longer of two sides, rounded down. *)
Definition longer_side (n : Z) (a b : Q) : Prop :=
  (0 <= n)%Z /\
  inject_Z (n * n) <= qmax a b /\ qmax a b < inject_Z ((n + 1) * (n + 1)).

(** The matrix can be inverted. *)
Definition invertible (m : mat3) : Prop :=
  ~ m11 m * (m22 m * m33 m - m23 m * m32 m) - m12 m * (m21 m * m33 m - m23 m * m31 m)
    + m13 m * (m21 m * m32 m - m22 m * m31 m) == 0.

(** What is assumed of [cv2.warpPerspective]: the requested size; if the
    matrix can be inverted, a pixel whose index is taken to the index of a
    pixel of the output is found there. *)
Definition good_warp {A} (warp : warper A) : Prop :=
  forall a m w h, ah (warp a m w h) = h /\ aw (warp a m w h) = w /\
    forall y x y' x', (0 <= y < ah a)%Z -> (0 <= x < aw a)%Z -> (0 <= y' < h)%Z -> (0 <= x' < w)%Z ->
      invertible m -> takes m (inject_Z x, inject_Z y) (inject_Z x', inject_Z y') ->
      apx (warp a m w h) y' x' = apx a y x.
Definition good_resize {A} (resize : resizer A) : Prop :=
  forall a h w, ah (resize a h w) = h /\ aw (resize a h w) = w.

(** The position of a point relative to the size of its plane. *)
Definition relative (h w : Z) (p : point) : point := (fst p / inject_Z w, snd p / inject_Z h).
