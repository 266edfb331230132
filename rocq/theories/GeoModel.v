(** Model of the coordinate classes: imgaug/augmentables/utils.py,
    imgaug/augmentables/kps.py (Keypoint, KeypointsOnImage) and
    imgaug/augmentables/bbs.py (BoundingBox, BoundingBoxesOnImage).

    Simplifications (all definitions below): coordinates are exact rationals
    (float32 rounding is not modelled); image shapes are the (height, width)
    pair of ints, the channel entry is irrelevant to these functions; a method
    that changes [self] in place becomes a function returning the new value;
    a label is an optional integer code. *)
From Verif Require Import Prelude.
Local Open Scope Q_scope.

(** image shapes as used by utils.py:114-163, height and width only. *)
Definition shape2 := (Z * Z)%type.              (* (height, width) *)
(** utils.py:127-129 comparison of shapes. *)
Definition shape2_eqb (a b : shape2) : bool :=
  (fst a =? fst b)%Z && (snd a =? snd b)%Z.

(** utils.py:114-163, one row of a coordinate array. *)
Definition point := (Q * Q)%type.               (* (x, y) *)

(** utils.py:114-163 [project_coords_] (and 166-194 [project_coords]). *)
Definition project_coords (coords : list point) (from_shape to_shape : shape2)
  : res (list point) :=
  if shape2_eqb from_shape to_shape then Ok coords
  else
    let '(from_height, from_width) := from_shape in
    let '(to_height, to_width) := to_shape in
    if forallb (fun v => (0 <? v)%Z) [from_height; from_width; to_height; to_width]
    then Ok (map (fun p => ((fst p / inject_Z from_width) * inject_Z to_width,
                            (snd p / inject_Z from_height) * inject_Z to_height))
                 coords)
    else Err AssertionError.

(** utils.py:398-413 [_normalize_shift_args]. *)
Definition normalize_shift_args (x y : Q) (top right bottom left : option Q) : Q * Q :=
  let some := fun o : option Q => match o with Some _ => true | None => false end in
  let dflt := fun o : option Q => match o with Some v => v | None => 0 end in
  if existsb some [top; right; bottom; left]
  then (x + dflt left - dflt right, y + dflt top - dflt bottom)
  else (x, y).

(** kps.py:74-89 [Keypoint.__init__]. *)
Record keypoint := mkKp { kx : Q; ky : Q }.

(** kps.py:160-190 [Keypoint.project_]. *)
Definition kp_project (k : keypoint) (from_shape to_shape : shape2) : res keypoint :=
  do r <- project_coords [(kx k, ky k)] from_shape to_shape;
  match r with
  | (x, y) :: _ => Ok (mkKp x y)
  | [] => Err IndexError                         (* xy_proj[0] on an empty list *)
  end.

(** kps.py:219-243 [Keypoint.is_out_of_image]. *)
Definition kp_is_out_of_image (k : keypoint) (s : shape2) : bool :=
  let '(height, width) := s in
  let y_inside := qleb 0 (ky k) && qltb (ky k) (inject_Z height) in
  let x_inside := qleb 0 (kx k) && qltb (kx k) (inject_Z width) in
  negb y_inside || negb x_inside.

(** kps.py:245-269 [Keypoint.compute_out_of_image_fraction]. *)
Definition kp_out_of_image_fraction (k : keypoint) (s : shape2) : Q :=
  if kp_is_out_of_image k s then 1 else 0.

(** kps.py:271-293 [Keypoint.shift_]. *)
Definition kp_shift (k : keypoint) (x y : Q) : keypoint := mkKp (kx k + x) (ky k + y).

(** kps.py:611-637 [KeypointsOnImage.__init__] (keypoints and image shape). *)
Record kpsoi := mkKpsoi { kps : list keypoint; kps_shape : shape2 }.

(** kps.py:703-730 [KeypointsOnImage.on_]. *)
Definition kpsoi_on (k : kpsoi) (on_shape : shape2) : res kpsoi :=
  if shape2_eqb on_shape (kps_shape k) then Ok (mkKpsoi (kps k) on_shape)
  else do r <- mapM (fun i => kp_project i (kps_shape k) on_shape) (kps k);
       Ok (mkKpsoi r on_shape).

(** kps.py:885-907 [KeypointsOnImage.shift_]. *)
Definition kpsoi_shift (k : kpsoi) (x y : Q) : kpsoi :=
  mkKpsoi (map (fun i => kp_shift i x y) (kps k)) (kps_shape k).

(** bbs.py:51-62 [BoundingBox.__init__]: attributes of a box, and the
    constructor, which swaps corners given in the wrong order. *)
Record bbox := mkBB { x1 : Q; y1 : Q; x2 : Q; y2 : Q; label : option Z }.
(** bbs.py:51-62. *)
Definition bb_new (ax1 ay1 ax2 ay2 : Q) (l : option Z) : bbox :=
  let '(bx1, bx2) := if qltb ax2 ax1 then (ax2, ax1) else (ax1, ax2) in
  let '(by1, by2) := if qltb ay2 ay1 then (ay2, ay1) else (ay1, ay2) in
  mkBB bx1 by1 bx2 by2 l.

(** bbs.py:142-200 [height], [width], [area]. *)
Definition bb_height (b : bbox) : Q := y2 b - y1 b.
(** bbs.py:154-164. *)
Definition bb_width (b : bbox) : Q := x2 b - x1 b.
(** bbs.py:188-200. *)
Definition bb_area (b : bbox) : Q := bb_height b * bb_width b.

(** bbs.py:203-222 [BoundingBox.contains]. *)
Definition bb_contains (b : bbox) (p : point) : bool :=
  (qleb (x1 b) (fst p) && qleb (fst p) (x2 b))
  && (qleb (y1 b) (snd p) && qleb (snd p) (y2 b)).

(** bbs.py:224-257 [BoundingBox.project_]. *)
Definition bb_project (b : bbox) (from_shape to_shape : shape2) : res bbox :=
  do r <- project_coords [(x1 b, y1 b); (x2 b, y2 b)] from_shape to_shape;
  match r with
  | [(a, b1); (c, d)] => Ok (mkBB a b1 c d (label b))
  | _ => Err ValueError                         (* unpacking error *)
  end.

(** bbs.py:288-326 [BoundingBox.extend_]. *)
Definition bb_extend (b : bbox) (all_sides top right bottom left : Q) : bbox :=
  mkBB (x1 b - all_sides - left) (y1 b - all_sides - top)
       (x2 b + all_sides + right) (y2 b + all_sides + bottom) (label b).

(** bbs.py:361-391 [BoundingBox.intersection] with default=None. *)
Definition bb_intersection (a b : bbox) : option bbox :=
  let x1_i := qmax (x1 a) (x1 b) in
  let y1_i := qmax (y1 a) (y1 b) in
  let x2_i := qmin (x2 a) (x2 b) in
  let y2_i := qmin (y2 a) (y2 b) in
  if qltb x2_i x1_i || qltb y2_i y1_i then None
  else Some (bb_new x1_i y1_i x2_i y2_i None).

(** bbs.py:393-415 [BoundingBox.union]. *)
Definition bb_union (a b : bbox) : bbox :=
  bb_new (qmin (x1 a) (x1 b)) (qmin (y1 a) (y1 b))
         (qmax (x2 a) (x2 b)) (qmax (y2 a) (y2 b)) None.

(** Python's [a / b] on numbers: division by zero raises (here for Python
    floats/ints; numpy scalars would give nan/inf and a warning). *)
Definition py_div (a b : Q) : res Q :=
  if qeqb b 0 then Err ValueError else Ok (a / b).

(** bbs.py:417-441 [BoundingBox.iou]. *)
Definition bb_iou (a b : bbox) : res Q :=
  match bb_intersection a b with
  | None => Ok 0
  | Some inters =>
      let area_union := bb_area a + bb_area b - bb_area inters in
      if qltb 0 area_union then py_div (bb_area inters) area_union else Ok 0
  end.

(** bbs.py:443-468 [BoundingBox.compute_out_of_image_area]. *)
Definition bb_out_of_image_area (b : bbox) (s : shape2) : Q :=
  let '(height, width) := s in
  let bb_image := bb_new 0 0 (inject_Z width) (inject_Z height) None in
  let inter := bb_intersection b bb_image in
  let area := bb_area b in
  match inter with
  | None => area
  | Some i => area - bb_area i
  end.

(** bbs.py:470-505 [BoundingBox.compute_out_of_image_fraction]. *)
Definition bb_out_of_image_fraction (b : bbox) (s : shape2) : res Q :=
  let area := bb_area b in
  if qeqb area 0 then
    let '(height, width) := s in
    let y1_outside := qltb (y1 b) 0 || qleb (inject_Z height) (y1 b) in
    let x1_outside := qltb (x1 b) 0 || qleb (inject_Z width) (x1 b) in
    let is_outside := y1_outside || x1_outside in
    Ok (if is_outside then 1 else 0)
  else py_div (bb_out_of_image_area b s) area.

(** bbs.py:507-531 [BoundingBox.is_fully_within_image]. *)
Definition bb_is_fully_within_image (b : bbox) (s : shape2) : bool :=
  let '(height, width) := s in
  qleb 0 (x1 b) && qltb (x2 b) (inject_Z width)
  && qleb 0 (y1 b) && qltb (y2 b) (inject_Z height).

(** bbs.py:533-556 [BoundingBox.is_partly_within_image]. *)
Definition bb_is_partly_within_image (b : bbox) (s : shape2) : bool :=
  let '(height, width) := s in
  let img_bb := bb_new 0 0 (inject_Z width - f32_eps) (inject_Z height - f32_eps) None in
  match bb_intersection b img_bb with Some _ => true | None => false end.

(** bbs.py:558-589 [BoundingBox.is_out_of_image]. *)
Definition bb_is_out_of_image (b : bbox) (s : shape2) (fully partly : bool) : bool :=
  if bb_is_fully_within_image b s then false
  else if bb_is_partly_within_image b s then partly
  else fully.

(** bbs.py:598-632 [BoundingBox.clip_out_of_image_]. *)
Definition bb_clip_out_of_image (b : bbox) (s : shape2) : res bbox :=
  let '(height, width) := s in
  if negb (0 <? height)%Z then Err AssertionError
  else if negb (0 <? width)%Z then Err AssertionError
  else
    let w := inject_Z width - f32_eps in
    let h := inject_Z height - f32_eps in
    Ok (mkBB (qclip (x1 b) 0 w) (qclip (y1 b) 0 h)
             (qclip (x2 b) 0 w) (qclip (y2 b) 0 h) (label b)).

(** bbs.py:653-681 [BoundingBox.shift_]. *)
Definition bb_shift (b : bbox) (x y : Q) : bbox :=
  mkBB (x1 b + x) (y1 b + y) (x2 b + x) (y2 b + y) (label b).

(** bbs.py:683-727 [BoundingBox.shift]. *)
Definition bb_shift_args (b : bbox) (x y : Q) (top right bottom left : option Q) : bbox :=
  let '(x', y') := normalize_shift_args x y top right bottom left in
  bb_shift b x' y'.

(** bbs.py:1209-1248 [BoundingBox.from_point_soup]. *)
Definition bb_from_point_soup (pts : list point) : res bbox :=
  match pts with
  | [] => Err AssertionError
  | p :: ps =>
      let mn := fun f => fold_left qmin (map f ps) (f p) in
      let mx := fun f => fold_left qmax (map f ps) (f p) in
      Ok (bb_new (mn fst) (mn snd) (mx fst) (mx snd) None)
  end.

(** bbs.py:1359-1387 [BoundingBoxesOnImage]. *)
Record bbsoi := mkBbsoi { bbs : list bbox; bbs_shape : shape2 }.

(** bbs.py:1457-1485 [BoundingBoxesOnImage.on_]. *)
Definition bbsoi_on (b : bbsoi) (on_shape : shape2) : res bbsoi :=
  if shape2_eqb on_shape (bbs_shape b) then Ok (mkBbsoi (bbs b) on_shape)
  else do r <- mapM (fun i => bb_project i (bbs_shape b) on_shape) (bbs b);
       Ok (mkBbsoi r on_shape).

(** bbs.py:1754-1782 [BoundingBoxesOnImage.remove_out_of_image_]. *)
Definition bbsoi_remove_out_of_image (b : bbsoi) (fully partly : bool) : bbsoi :=
  mkBbsoi (filter (fun i => negb (bb_is_out_of_image i (bbs_shape b) fully partly)) (bbs b))
          (bbs_shape b).

(** utils.py:390-394 [_remove_out_of_image_fraction_], generic in the item
    type and its fraction function; errors of the fraction propagate. *)
Fixpoint remove_out_of_image_fraction {A} (frac : A -> res Q) (fraction : Q)
  (items : list A) : res (list A) :=
  match items with
  | [] => Ok []
  | i :: is =>
      do f <- frac i;
      do r <- remove_out_of_image_fraction frac fraction is;
      Ok (if qltb f fraction then i :: r else r)
  end.

(** bbs.py:1806-1829 and kps.py:796-823. *)
Definition bbsoi_remove_out_of_image_fraction (b : bbsoi) (fraction : Q) : res bbsoi :=
  do r <- remove_out_of_image_fraction
            (fun i => bb_out_of_image_fraction i (bbs_shape b)) fraction (bbs b);
  Ok (mkBbsoi r (bbs_shape b)).
(** kps.py:796-823. *)
Definition kpsoi_remove_out_of_image_fraction (k : kpsoi) (fraction : Q) : res kpsoi :=
  do r <- remove_out_of_image_fraction
            (fun i => Ok (kp_out_of_image_fraction i (kps_shape k))) fraction (kps k);
  Ok (mkKpsoi r (kps_shape k)).

(** kps.py:851-867 [KeypointsOnImage.clip_out_of_image_]. *)
Definition kpsoi_clip_out_of_image (k : kpsoi) : res kpsoi :=
  kpsoi_remove_out_of_image_fraction k (1#2).

(** bbs.py:1860-1880 [BoundingBoxesOnImage.clip_out_of_image_]. *)
Definition bbsoi_clip_out_of_image (b : bbsoi) : res bbsoi :=
  let kept := filter (fun i => bb_is_partly_within_image i (bbs_shape b)) (bbs b) in
  do r <- mapM (fun i => bb_clip_out_of_image i (bbs_shape b)) kept;
  Ok (mkBbsoi r (bbs_shape b)).

(** bbs.py:1893-1919 [BoundingBoxesOnImage.shift_]. *)
Definition bbsoi_shift (b : bbsoi) (x y : Q) : bbsoi :=
  mkBbsoi (map (fun i => bb_shift i x y) (bbs b)) (bbs_shape b).

(** bbs.py:1966-1996 [BoundingBoxesOnImage.to_keypoints_on_image]: per box the
    corners top-left, top-right, bottom-right, bottom-left, flattened. *)
Definition bb_corners (b : bbox) : list keypoint :=
  [mkKp (x1 b) (y1 b); mkKp (x2 b) (y1 b); mkKp (x2 b) (y2 b); mkKp (x1 b) (y2 b)].
(** bbs.py:1966-1996. *)
Definition bbsoi_to_keypoints (b : bbsoi) : kpsoi :=
  mkKpsoi (flat_map bb_corners (bbs b)) (bbs_shape b).

(** bbs.py:1998-2032 [BoundingBoxesOnImage.invert_to_keypoints_on_image_]:
    the loop over [enumerate(self.bounding_boxes)] reads keypoints
    [4*i .. 4*i+3]. *)
Definition qmin_list (l : list Q) : Q :=
  match l with [] => 0 | a :: r => fold_left qmin r a end.
(** bbs.py:1998-2032 [max]. *)
Definition qmax_list (l : list Q) : Q :=
  match l with [] => 0 | a :: r => fold_left qmax r a end.
(** bbs.py:1998-2032 indexing of keypoints. *)
Definition kp_at (l : list keypoint) (i : nat) : keypoint := nth i l (mkKp 0 0).
(** bbs.py:1998-2032, the loop. *)
Fixpoint invert_boxes (i : nat) (boxes : list bbox) (ks : list keypoint) : list bbox :=
  match boxes with
  | [] => []
  | b :: r =>
      let sel := [kp_at ks (4*i+0); kp_at ks (4*i+1); kp_at ks (4*i+2); kp_at ks (4*i+3)] in
      let xx := map kx sel in
      let yy := map ky sel in
      mkBB (qmin_list xx) (qmin_list yy) (qmax_list xx) (qmax_list yy) (label b)
      :: invert_boxes (S i) r ks
  end.
(** bbs.py:1998-2032. *)
Definition bbsoi_invert_to_keypoints (b : bbsoi) (k : kpsoi) : res bbsoi :=
  if Nat.eqb (length (kps k)) (length (bbs b) * 4)
  then Ok (mkBbsoi (invert_boxes 0 (bbs b) (kps k)) (kps_shape k))
  else Err AssertionError.
