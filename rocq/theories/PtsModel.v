(** Model of point generation, interpolation and keypoint images
    (imgaug/augmentables/kps.py 414-491, 1056-1188, utils.py 193-327).
    Coordinates are exact rationals instead of float32. No proofs here. *)
From Verif Require Import Prelude.
Local Open Scope Q_scope.

(** one (x, y) row of the arrays in 193-327, kps.py:414-491. *)
Definition point := (Q * Q)%type.

(** [np.linspace(a, b, num)]: [a + i (b-a)/(num-1)], the last one set to
    [b]; negative [num] raises. *)
Definition linspace (a b : Q) (num : Z) : res (list Q) :=
  if (num <? 0)%Z then Err ValueError
  else Ok (map (fun i => if (Nat.eqb (S i) (Z.to_nat num) && (1 <? num)%Z)%bool then b
                         else a + inject_Z (Z.of_nat i) * ((b - a) / inject_Z (Z.max 1 (num - 1))))
               (seq 0 (Z.to_nat num))).

(** Writing the generated points one after the other into an array of
    [total] rows of zeros (kps.py 458, 482-483). *)
Definition fill_rows (total : Z) (pts : list point) : res (list point) :=
  if (total <? Z.of_nat (length pts))%Z then Err IndexError
  else Ok (pts ++ repeat (0, 0) (Z.to_nat total - length pts)).

(** The loop over the lines (470-487): [i] is the index of the line. *)
Fixpoint manhattan_lines (x step : Q) (n width : Z) (i : Z) (yy : list Q) : res (list point) :=
  match yy with
  | [] => Ok []
  | y :: yy' =>
      do xx <- (if (width =? 1)%Z then Ok [x]
                else linspace (x - inject_Z ((width - 1) / 2) * step)
                              (x + inject_Z ((width - 1) / 2) * step) width);
      do r <- manhattan_lines x step n (if (i <? n)%Z then width + 2 else width - 2)%Z (i + 1)%Z yy';
      Ok (map (fun x' => (x', y)) xx ++ r)
  end.

(** Keypoint.generate_similar_points_manhattan (414-491). *)
Definition similar_points (kp : point) (n : Z) (step : Q) : res (list point) :=
  let '(x, y) := kp in
  do yy <- linspace (y - inject_Z n * step) (y + inject_Z n * step) (n + 1 + n);
  do pts <- manhattan_lines x step n 1 0 yy;
  fill_rows (n + 1 + n + 2 * (n * n)) pts.

(** interpolate_point_pair (utils.py 193-222). *)
Definition interpolate_pair (a b : point) (nb : Z) : list point :=
  if (nb <? 1)%Z then []
  else
    let sx := (fst b - fst a) / inject_Z (1 + nb) in
    let sy := (snd b - snd a) / inject_Z (1 + nb) in
    map (fun i => (fst a + inject_Z (Z.of_nat i + 1) * sx, snd a + inject_Z (Z.of_nat i + 1) * sy))
        (seq 0 (Z.to_nat nb)).

(** Pairs of neighbours: [zip(points[:-1], points[1:])]. [utils.py:225-264] *)
Definition neighbours (pts : list point) : list (point * point) := combine (removelast pts) (tl pts).
(** [list(points) + [points[0]]] if [closed]. [utils.py:225-264, 267-327] *)
Definition close (closed : bool) (pts : list point) : list point :=
  if closed then match pts with [] => [] | p :: _ => pts ++ [p] end else pts.
(** utils.py:225-264, 267-327. *)
Definition last_if_open (closed : bool) (pts : list point) : list point :=
  if closed then [] else match rev pts with [] => [] | p :: _ => [p] end.

(** interpolate_points (225-264). *)
Definition interpolate_points (pts : list point) (nb : Z) (closed : bool) : list point :=
  if (length pts <=? 1)%nat then pts
  else
    flat_map (fun ab => fst ab :: interpolate_pair (fst ab) (snd ab) nb) (neighbours (close closed pts))
    ++ last_if_open closed pts.

(** [int(sqrt(d2)/m - 1)] (316-319) for a squared distance [d2] and [m > 0].
    [floor(sqrt(d2)/m)] is the integer square root of [floor(d2/m^2)]. For
    sqrt(d2) < m Python's truncation gives 0 or -1, here -1; both mean that
    no point is inserted. *)
Definition steps_for_distance (d2 m : Q) : Z := (Z.sqrt (Qfloor (d2 / (m * m))) - 1)%Z.
(** utils.py:267-327. *)
Definition dist2 (a b : point) : Q :=
  (fst a - fst b) * (fst a - fst b) + (snd a - snd b) * (snd a - snd b).

(** interpolate_points_by_max_distance (267-327). *)
Definition interpolate_points_by_max_distance (pts : list point) (m : Q) (closed : bool) : res (list point) :=
  if negb (qltb 0 m) then Err AssertionError
  else if (length pts <=? 1)%nat then Ok pts
  else Ok (
    flat_map (fun ab => fst ab :: interpolate_pair (fst ab) (snd ab)
                                   (steps_for_distance (dist2 (fst ab) (snd ab)) m))
             (neighbours (close closed pts))
    ++ last_if_open closed pts).

(** ** Keypoint images. One channel per keypoint, an [arr Z]. *)

(** [image[y1:y2, x1:x2, i] = v]. [kps.py:1083-1100] *)
Definition paint (a : arr Z) (y1 y2 x1 x2 v : Z) : arr Z :=
  let ys := py_slice_bound (ah a) y1 in let ye := py_slice_bound (ah a) y2 in
  let xs := py_slice_bound (aw a) x1 in let xe := py_slice_bound (aw a) x2 in
  mkArr (ah a) (aw a) (fun y x => if ((ys <=? y) && (y <? ye) && (xs <=? x) && (x <? xe))%Z%bool then v else apx a y x).

(** The channel of one keypoint (kps.py 1083-1100). *)
Definition keypoint_channel (h w sizeh : Z) (kp : point) : arr Z :=
  let y := np_round (snd kp) in
  let x := np_round (fst kp) in
  let x1 := zclip (x - sizeh) 0 (w - 1) in
  let x2 := zclip (x + sizeh + 1) 0 w in
  let y1 := zclip (y - sizeh) 0 (h - 1) in
  let y2 := zclip (y + sizeh + 1) 0 h in
  let im := mkArr h w (fun _ _ => 0%Z) in
  let im := if ((x1 <? x2) && (y1 <? y2))%Z%bool then paint im y1 y2 x1 x2 128 else im in
  if ((0 <=? y) && (y <? h) && (0 <=? x) && (x <? w))%Z%bool then paint im y (y + 1) x (x + 1) 255 else im.

(** KeypointsOnImage.to_keypoint_image (1056-1101). *)
Definition to_keypoint_image (h w : Z) (kps : list point) (size : Z) : res (list (arr Z)) :=
  if (size mod 2 =? 0)%Z then Err AssertionError
  else Ok (map (keypoint_channel h w (Z.max 0 ((size - 1) / 2))) kps).

(** [np.unravel_index(np.argmax(channel), (h, w))]: first maximum in row
    order; empty arrays raise. *)
Definition positions (h w : Z) : list (Z * Z) :=
  map (fun i => (Z.of_nat i / w, Z.of_nat i mod w)%Z) (seq 0 (Z.to_nat (h * w))).
(** kps.py:1104-1188. *)
Definition argmax (a : arr Z) : res (Z * Z) :=
  match positions (ah a) (aw a) with
  | [] => Err ValueError
  | p :: ps => Ok (fold_left (fun best q => if (apx a (fst best) (snd best) <? apx a (fst q) (snd q))%Z then q else best) ps p)
  end.

(** from_keypoint_image (1104-1188). [not_found] is [if_not_found_coords]
    ([None] drops the keypoint); ill-typed values raise, not modelled. *)
Definition from_keypoint_image (image : list (arr Z)) (not_found : option point) (threshold : Z) : res (list point) :=
  do pss <- mapM (fun a =>
              do p <- argmax a;
              Ok (if (threshold <=? apx a (fst p) (snd p))%Z
                  then [(inject_Z (snd p) + (1 # 2), inject_Z (fst p) + (1 # 2))]
                  else match not_found with Some q => [q] | None => [] end)) image;
  Ok (concat pss).
