(** What a user expects of affine transformations. *)
From Verif Require Import Prelude GeoModel GeoSpec AffModel.
From Coq Require Import Qabs.
Local Open Scope Q_scope.

(** What is known of cos, sin and tanh. (No rational functions are the real
    ones; these are the facts about them that the theorems use.) *)
Definition sane (t : trig) : Prop :=
  (forall a b, a == b -> tcos t a == tcos t b /\ tsin t a == tsin t b /\ ttanh t a == ttanh t b) /\
  (forall a, tcos t (- a) == tcos t a /\ tsin t (- a) == - tsin t a /\ ttanh t (- a) == - ttanh t a) /\
  (forall a, tcos t a * tcos t a + tsin t a * tsin t a == 1) /\
  (tcos t 0 == 1 /\ tsin t 0 == 0) /\
  (forall a, -(1) < ttanh t a /\ ttanh t a < 1).

(** Moving a point by (dx, dy). *)
Definition moved_by (dx dy : Q) (p : keypoint) : keypoint := mkKp (kx p + dx) (ky p + dy).

(** The centre of pixel (y, x). *)
Definition pixel_centre (y x : Z) : keypoint := mkKp (inject_Z x + (1 # 2)) (inject_Z y + (1 # 2)).

(** The four elementary transformations about the origin, y pointing down:
    clockwise rotation by [a], scaling, shear, translation. *)
Definition rotated (t : trig) (a : Q) (p : keypoint) : keypoint :=
  mkKp (tcos t a * kx p - tsin t a * ky p) (tsin t a * kx p + tcos t a * ky p).
Definition scaled (sx sy : Q) (p : keypoint) : keypoint := mkKp (sx * kx p) (sy * ky p).
Definition sheared (hx hy : Q) (p : keypoint) : keypoint := mkKp (kx p + hx * ky p) (hy * kx p + ky p).

(** Rotate, scale, shear about the centre of a (h, w) plane, then translate. *)
Definition about_centre (s : shape2) (f : keypoint -> keypoint) (p : keypoint) : keypoint :=
  let cx := inject_Z (snd s) / 2 in
  let cy := inject_Z (fst s) / 2 in
  moved_by cx cy (f (moved_by (- cx) (- cy) p)).

(** The sampled shift in pixels of an array of shape [arr] of an [image]. *)
Definition asked_shift (s : sample) (arr image : shape2) : Q * Q :=
  match mode_of s with
  | Percent => (translate_x s * inject_Z (snd arr), translate_y s * inject_Z (fst arr))
  | Px => (translate_x s * inject_Z (snd arr) / inject_Z (snd image),
           translate_y s * inject_Z (fst arr) / inject_Z (fst image))
  end.

Definition intended (t : trig) (s : sample) (arr image : shape2) (p : keypoint) : keypoint :=
  let r := rad_per_degree t in
  moved_by (fst (asked_shift s arr image)) (snd (asked_shift s arr image))
    (about_centre arr (fun q => sheared (ttanh t (- (shear_x_deg s * r))) (ttanh t (shear_y_deg s * r))
                                  (scaled (scale_x s) (scale_y s) (rotated t (rotate_deg s * r) q))) p).

(** The translation is carried out. (By accident it is left out if it is
    exactly 1e-4 along x and at least 1e-4 along y.) *)
Definition shift_carried_out (s : sample) (arr image : shape2) : Prop :=
  ~ (fst (asked_shift s arr image) == 1 # 10000 /\ 1 # 10000 <= snd (asked_shift s arr image)).

(** Samples whose parts are all carried out. The code leaves out a scaling by
    almost 1 and (by accident) a part with the exact value 1e-4. *)
Definition carried_out (t : trig) (s : sample) (arr image : shape2) : Prop :=
  let r := rad_per_degree t in
  ((scale_x s == 1 /\ scale_y s == 1) \/ ~ (Qabs (scale_x s - 1) <= 1 # 10000 /\ Qabs (scale_y s - 1) <= 1 # 10000)) /\
  ~ rotate_deg s * r == 1 # 10000 /\
  ~ (shear_x_deg s * r == 1 # 10000 /\ shear_y_deg s * r == 1 # 10000) /\
  shift_carried_out s arr image.

Definition nonzero (s : shape2) : Prop := (fst s <> 0 /\ snd s <> 0)%Z.
Definition has_pixels (s : shape2) : Prop := (0 < fst s /\ 0 < snd s)%Z.

(** The matrix has the last row (0, 0, 1): it maps parallels to parallels. *)
Definition is_affine (m : mat) : Prop := m20 m == 0 /\ m21 m == 0 /\ m22 m == 1.

Definition dist2 (p q : keypoint) : Q := (kx p - kx q) * (kx p - kx q) + (ky p - ky q) * (ky p - ky q).

(** The contract of the external resampling: it returns an array of the asked
    shape, and where the matrix takes a pixel exactly onto a pixel, the value
    is taken over. (Every interpolation order agrees with the samples at the
    sampled positions.) *)
Definition resampler {A} (warp : mat -> shape2 -> arr A -> arr A) : Prop :=
  forall m out a, ah (warp m out a) = fst out /\ aw (warp m out a) = snd out /\
    forall y x y' x', (0 <= y < ah a)%Z -> (0 <= x < aw a)%Z -> (0 <= y' < fst out)%Z -> (0 <= x' < snd out)%Z ->
      is_affine m -> ~ m00 m * m11 m - m01 m * m10 m == 0 ->
      kp_eq (warp_coord m (mkKp (inject_Z x) (inject_Z y))) (mkKp (inject_Z x') (inject_Z y')) ->
      apx (warp m out a) y' x' = apx a y x.

(** A pixel position of the (h, w) image (index coordinates). *)
Definition on_grid (s : shape2) (p : keypoint) : Prop :=
  0 <= kx p /\ kx p <= inject_Z (snd s - 1) /\ 0 <= ky p /\ ky p <= inject_Z (fst s - 1).

(** [x] is the left edge of what the matrix makes of the pixel grid. *)
Definition left_edge (m : mat) (s : shape2) (x : Q) : Prop :=
  (exists p, on_grid s p /\ kx (warp_coord m p) == x) /\ forall p, on_grid s p -> x <= kx (warp_coord m p).
(** The shift that makes the output fit is carried out. (By accident it is not
    if the left edge is at exactly -1e-4.) *)
Definition fit_carried_out (m : mat) (s : shape2) : Prop := forall x, left_edge m s x -> ~ x == - (1 # 10000).

(** A difference of less than a thousandth of a pixel, relative to the size of
    the coordinates. *)
Definition hardly_moved (p q : keypoint) : Prop :=
  Qabs (kx q - kx p) <= (9 # 10000) * (Qabs (kx p) + Qabs (ky p) + 1) /\
  Qabs (ky q - ky p) <= (9 # 10000) * (Qabs (kx p) + Qabs (ky p) + 1).

(** [q] is where the sample should take [p]; transformations that would hardly
    move anything are not carried out. *)
Definition sent (t : trig) (s : sample) (shape : shape2) (p q : keypoint) : Prop :=
  kp_eq q (intended t s shape shape p) \/ (q = p /\ hardly_moved p (intended t s shape shape p)).

(** The centre, in image coordinates, of cell (y, x) of a map of shape [arr]. *)
Definition cell_centre (arr image : shape2) (y x : Z) : keypoint :=
  mkKp ((inject_Z x + (1 # 2)) * inject_Z (snd image) / inject_Z (snd arr))
       ((inject_Z y + (1 # 2)) * inject_Z (fst image) / inject_Z (fst arr)).

(** ** Parameters *)

(** The values of image [i] for an argument that is shared by both axes or
    given per axis; [draw j p]: what the j-th call of draw_samples gives. A
    shared argument is drawn once, arguments per axis are drawn by calls of
    their own, a missing axis has the neutral value. *)
Definition on_both_axes {P} (draw : nat -> P -> list Q) (i : nat) (neutral : Q) (arg : axis_arg P) (vx vy : Q) : Prop :=
  match arg with
  | Single v => vx = v /\ vy = v
  | Shared p => vy = vx /\ exists j, nth_error (draw j p) i = Some vx
  | Dict x y => exists jx jy, jx <> jy /\
      match x with Some p => nth_error (draw jx p) i = Some vx | None => vx = neutral end /\
      match y with Some p => nth_error (draw jy p) i = Some vy | None => vy = neutral end
  end.

(** Shear: a single number is meant for the x-axis only. *)
Definition on_shear_axes {P} (draw : nat -> P -> list Q) (i : nat) (arg : axis_arg P) (vx vy : Q) : Prop :=
  match arg with
  | Single v => vx = v /\ vy = 0
  | _ => on_both_axes draw i 0 arg vx vy
  end.

(** Every parameter is drawn for all [n] images; fixed numbers are fixed. *)
Definition draws {P} (num : Q -> P) (draw : nat -> P -> list Q) (n : nat) : Prop :=
  (forall j p, length (draw j p) = n) /\ (forall j v, draw j (num v) = repeat v n).

(** The translation argument in use and its unit: px or percent, not both. *)
Definition translate_arg {P} (px percent : option (axis_arg P)) : option (axis_arg P * translate_mode) :=
  match px, percent with
  | Some _, Some _ => None
  | Some a, None => Some (a, Px)
  | None, Some a => Some (a, Percent)
  | None, None => Some (Single 0, Px)
  end.
