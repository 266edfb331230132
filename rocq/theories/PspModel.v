(** Model of PerspectiveTransform (imgaug/augmenters/geometric.py 3646-4108).

    Simplifications (all definitions below): coordinates are exact rationals
    (float32/float64 rounding is not modelled); images have at least one
    channel; the border mode and fill value are not modelled;
    [cv2.getPerspectiveTransform], [cv2.warpPerspective] and the resizing of
    arrays are parameters; one row of a batch at a time (the row's jitter is
    the same for the image, its maps and its coordinates, because all are drawn
    from copies of one random state, 3734-3760). No proofs here. *)
From Verif Require Import Prelude GeoModel.
Local Open Scope Q_scope.

(** The (4, 2) arrays of 4011, 4042, 4088: top left, top right, bottom right,
    bottom left. *)
Record quad := mkQuad { tl : point; tr : point; br : point; bl : point }.

(** 4042-4049 the 3x3 matrices, row by row. *)
Record mat3 := mkMat {
  m11 : Q; m12 : Q; m13 : Q;
  m21 : Q; m22 : Q; m23 : Q;
  m31 : Q; m32 : Q; m33 : Q
}.

(** 3935-3938, 4096 [cv2.perspectiveTransform]: the divisor for one point. *)
Definition weight (m : mat3) (p : point) : Q := m31 m * fst p + m32 m * snd p + m33 m.
(** 3935-3938, 4096 [cv2.perspectiveTransform] for one point. cv2 yields 0
    if the divisor is 0, as does division in Q. *)
Definition perspective (m : mat3) (p : point) : point :=
  ((m11 m * fst p + m12 m * snd p + m13 m) / weight m p,
   (m21 m * fst p + m22 m * snd p + m23 m) / weight m p).

(** 3977 [np.mod(np.abs(jitter), 1)]. *)
Definition fold01 (x : Q) : Q :=
  let a := if qltb x 0 then - x else x in a - inject_Z (Qfloor a).

(** 3977-3994 the corner points on an image of height [h] and width [w], from
    the 4x2 jitter values. *)
Definition corner_points (jitter : quad) (h w : Z) : quad :=
  let f := fun p : point => (fold01 (fst p), fold01 (snd p)) in
  let scale := fun p : point => (fst p * inject_Z w, snd p * inject_Z h) in
  let a := f (tl jitter) in
  let b := f (tr jitter) in
  let c := f (br jitter) in
  let d := f (bl jitter) in
  mkQuad (scale a) (scale (1 - fst b, snd b)) (scale (1 - fst c, 1 - snd c))
         (scale (fst d, 1 - snd d)).

(** 4074-4082 [pts[np.argmin(key)]]: the first point with the smallest key. *)
Fixpoint first_min (key : point -> Q) (best : point) (l : list point) : point :=
  match l with
  | [] => best
  | p :: l' => first_min key (if qltb (key p) (key best) then p else best) l'
  end.
(** 4074-4082 [pts[np.argmax(key)]]: the first point with the largest key. *)
Fixpoint first_max (key : point -> Q) (best : point) (l : list point) : point :=
  match l with
  | [] => best
  | p :: l' => first_max key (if qltb (key best) (key p) then p else best) l'
  end.

(** 4063-4085 [_order_points]. *)
Definition order_points (q : quad) : quad :=
  let rest := [tr q; br q; bl q] in
  let sum := fun p : point => fst p + snd p in
  let diff := fun p : point => snd p - fst p in
  mkQuad (first_min sum (tl q) rest) (first_min diff (tl q) rest)
         (first_max sum (tl q) rest) (first_max diff (tl q) rest).

(** 4007-4010 [np.sqrt] of a squared distance, followed by [int()]. The floor
    of a square root is the integer square root of the floor. *)
Definition int_dist (p q : point) : Z :=
  Z.sqrt (Qfloor ((fst q - fst p) * (fst q - fst p) + (snd q - snd p) * (snd q - snd p))).

(** 4006-4020 the loop that widens the quad until both widths are at least
    [min_width]. [fuel] bounds the number of rounds; [None]: not finished.
    [int(max(a, b)) = max(int(a), int(b))], likewise [min]. *)
Fixpoint widen (fuel : nat) (min_width : Z) (q : quad) : option (quad * Z) :=
  match fuel with
  | O => None
  | S fuel' =>
      let top := int_dist (tl q) (tr q) in
      let bottom := int_dist (bl q) (br q) in
      if (Z.min top bottom <? min_width)%Z
      then let step := inject_Z (min_width - Z.min top bottom) / 2 in
           widen fuel' min_width
             (mkQuad (fst (tl q) - step, snd (tl q)) (fst (tr q) + step, snd (tr q))
                     (fst (br q) + step, snd (br q)) (fst (bl q) - step, snd (bl q)))
      else Some (q, Z.max top bottom)
  end.

(** 4025-4039 the same for the heights. *)
Fixpoint heighten (fuel : nat) (min_height : Z) (q : quad) : option (quad * Z) :=
  match fuel with
  | O => None
  | S fuel' =>
      let right := int_dist (br q) (tr q) in
      let left := int_dist (bl q) (tl q) in
      if (Z.min right left <? min_height)%Z
      then let step := inject_Z (min_height - Z.min right left) / 2 in
           heighten fuel' min_height
             (mkQuad (fst (tl q), snd (tl q) - step) (fst (tr q), snd (tr q) - step)
                     (fst (br q), snd (br q) + step) (fst (bl q), snd (bl q) + step))
      else Some (q, Z.max right left)
  end.

(** 4048-4053, 4091-4095 the corners of a plane. *)
Definition rect (h w : Z) : quad :=
  mkQuad (0, 0) (inject_Z w, 0) (inject_Z w, inject_Z h) (0, inject_Z h).

(** 4056, 4104 [cv2.getPerspectiveTransform(src, dst)]. *)
Definition solver := quad -> quad -> mat3.

(** 4097-4103 applied to each point of a (4, 2) array. *)
Definition map_quad (f : point -> point) (q : quad) : quad :=
  mkQuad (f (tl q)) (f (tr q)) (f (br q)) (f (bl q)).
(** 4101 minimum along one axis of a (4, 2) array. *)
Definition quad_min (c : point -> Q) (q : quad) : Q :=
  qmin (qmin (c (tl q)) (c (tr q))) (qmin (c (br q)) (c (bl q))).
(** 4106 maximum along one axis of a (4, 2) array. *)
Definition quad_max (c : point -> Q) (q : quad) : Q :=
  qmax (qmax (c (tl q)) (c (tr q))) (qmax (c (br q)) (c (bl q))).

(** 4087-4103 in [_expand_transform]: where the corners go. *)
Definition expand_dst (m : mat3) (h w : Z) : quad :=
  let dst := map_quad (perspective m) (rect h w) in
  let mx := quad_min fst dst in
  let my := quad_min snd dst in
  map_quad (fun p => (inject_Z (np_round (fst p - mx)), inject_Z (np_round (snd p - my)))) dst.
(** 4087-4108 [_expand_transform]: the new matrix, the width and the height. *)
Definition expand_transform (solve : solver) (m : mat3) (h w : Z) : mat3 * Z * Z :=
  let dst := expand_dst m h w in
  (solve (rect h w) dst, py_int (quad_max fst dst), py_int (quad_max snd dst)).

(** 3662-3663 [self.min_width], [self.min_height]. *)
Definition min_side : Z := 2.

(** 3947-3951, one row: the matrix and the size of the output. *)
Record sample := mkSample { matrix : mat3; max_height : Z; max_width : Z }.

(** 3988-4056: the (ordered and enlarged) corner points with the width and
    the height of the output. *)
Definition draw_quad (fuel : nat) (shape : shape2) (jitter : quad) : option (quad * Z * Z) :=
  let '(h, w) := shape in
  match widen fuel min_side (order_points (corner_points jitter h w)) with
  | None => None
  | Some (q, mw) =>
      match heighten fuel min_side q with
      | None => None
      | Some (q', mh) => Some (q', mw, mh)
      end
  end.

(** 3947-4061 [_draw_samples] for one row. *)
Definition draw_sample (solve : solver) (fit_output : bool) (fuel : nat) (shape : shape2)
    (jitter : quad) : option sample :=
  match draw_quad fuel shape jitter with
  | None => None
  | Some (q, mw, mh) =>
      let m := solve q (rect mh mw) in
      if fit_output
      then let '(m', mw', mh') := expand_transform solve m (fst shape) (snd shape) in
           Some (mkSample m' mh' mw')
      else Some (mkSample m mh mw)
  end.

(** 3820-3850, 3893-3905 [cv2.warpPerspective(arr, matrix, (width, height))]. *)
Definition warper (A : Type) := arr A -> mat3 -> Z -> Z -> arr A.
(** 3849-3851, 3907-3909 resizing to (height, width). *)
Definition resizer (A : Type) := arr A -> Z -> Z -> arr A.

(** 3786-3860 [_augment_images_by_samples], one image. *)
Definition image_by_sample {A} (warp : warper A) (resize : resizer A) (keep_size : bool)
    (s : sample) (img : arr A) : arr A :=
  if ((ah img =? 0) || (aw img =? 0))%Z then img
  else
    let warped := warp img (matrix s) (max_width s) (max_height s) in
    if keep_size then resize warped (ah img) (aw img) else warped.

(** 3872-3917: a heatmap or segmentation map with the shape of its image. *)
Record amap (A : Type) := mkMap { map_arr : arr A; map_shape : shape2 }.
Arguments mkMap {A} map_arr map_shape.
Arguments map_arr {A} a.
Arguments map_shape {A} a.

(** 3862-3917 [_augment_maps_by_samples], one map; [s] was drawn for the
    shape of its array, [s_image] for the shape of the image. (Resizing keeps
    [map_shape].) *)
Definition map_by_sample {A} (warp : warper A) (resize : resizer A) (keep_size : bool)
    (s s_image : sample) (m : amap A) : amap A :=
  let a := map_arr m in
  if ((fst (map_shape m) =? 0) || (snd (map_shape m) =? 0))%Z then m
  else
    let a' := if ((ah a =? 0) || (aw a =? 0))%Z then a
              else warp a (matrix s) (max_width s) (max_height s) in
    if keep_size then mkMap (resize a' (ah a) (aw a)) (map_shape m)
    else mkMap a' (max_height s_image, max_width s_image).

(** 3919-3945 [_augment_keypoints_by_samples], one row. *)
Definition kpsoi_by_sample (keep_size : bool) (s : sample) (k : kpsoi) : res kpsoi :=
  if ((fst (kps_shape k) =? 0) || (snd (kps_shape k) =? 0))%Z then Ok k
  else
    let warped := map (fun p => let '(x, y) := perspective (matrix s) (kx p, ky p) in mkKp x y) (kps k) in
    let k' := mkKpsoi warped (max_height s, max_width s) in
    if keep_size then kpsoi_on k' (kps_shape k) else Ok k'.
