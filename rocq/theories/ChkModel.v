(** Model of augmenters that check or filter a batch (imgaug/augmenters/meta.py):
    Lambda, AssertLambda, AssertShape, RemoveCBAsByOutOfImageFraction,
    ClipCBAsToImagePlanes. No proofs here. *)
From Coq Require Import Qreals Reals.
From Verif Require Import Prelude GeoModel LineModel.

(** * Columns *)
Section Columns.
Context {V : Type}.
Notation column := (option (list V)).

(** The default [_augment_batch_] (meta.py:715-741): the columns that are not None and
    not empty are augmented in the order of batches.py:24-26. The handling of the RNG is
    modelled in AugModel; here an exception may be raised. *)
Fixpoint each_column (f : nat -> list V -> res (list V)) (i : nat) (b : list column) : res (list column) :=
  match b with
  | [] => Ok []
  | Some (x :: l) :: b' => do v <- f i (x :: l); do r <- each_column f (S i) b'; Ok (Some v :: r)
  | c :: b' => do r <- each_column f (S i) b'; Ok (c :: r)
  end.

(** ** Lambda *)
(** What a callback function returns: something that cannot be iterated over, or
    elements. [meta.py:4260-4270] *)
Inductive returned := NotIterable | Items (l : list V).
(** Lambda._augment_images (meta.py:4253-4256) and the methods for heatmaps (4258-4272),
    segmentation maps (4274-4289) and keypoints (4291-4307), polygons (4317-4331) and line
    strings (4339-4353) with callbacks. [is_instance i v]: is [v] an instance of the class of
    column [i]? Simplification: a callback for images returns something iterable. *)
Definition lambda_column (is_instance : nat -> V -> bool) (funcs : nat -> option (list V -> res returned))
    (i : nat) (items : list V) : res (list V) :=
  match funcs i with
  | None => Ok items
  | Some f =>
      do r <- f items;
      match r with
      | NotIterable => Err AssertionError
      | Items l => if Nat.eqb i 0 then Ok l else if forallb (is_instance i) l then Ok l else Err AssertionError
      end
  end.
(** Lambda with functions or None for all columns. [meta.py:4236-4353] *)
Definition lambda_ (is_instance : nat -> V -> bool) (funcs : nat -> option (list V -> res returned))
    (b : list column) : res (list column) :=
  each_column (lambda_column is_instance funcs) 0 b.

(** _AssertLambdaCallback.__call__ (meta.py:4545-4549). *)
Definition assert_callback (p : list V -> res bool) (items : list V) : res returned :=
  do ok <- p items; if (ok : bool) then Ok (Items items) else Err AssertionError.
(** AssertLambda (meta.py:4511-4534). *)
Definition assert_lambda (is_instance : nat -> V -> bool) (preds : nat -> option (list V -> res bool))
    (b : list column) : res (list column) :=
  lambda_ is_instance (fun i => match preds i with Some p => Some (assert_callback p) | None => None end) b.

(** ** AssertShape *)
(** One entry of the expected shape: None, an integer, a tuple, a list or something else.
    [meta.py:4716-4741] *)
Inductive dimspec := DNone | DInt (n : Z) | DTuple (l : list Z) | DList (l : list Z) | DOther.
(** _compare (meta.py:4716-4741). *)
Definition compare (observed : Z) (expected : dimspec) : res unit :=
  match expected with
  | DNone => Ok tt
  | DInt n => if observed =? n then Ok tt else Err AssertionError
  | DTuple [a; b] => if (a <=? observed) && (observed <? b) then Ok tt else Err AssertionError
  | DTuple _ => Err AssertionError
  | DList l => if existsb (fun val => observed =? val) l then Ok tt else Err AssertionError
  | DOther => Err GenericException
  end.
(** The inner loop of _check_shapes (meta.py:4751-4753): [shape[dim_idx]] may raise. *)
Fixpoint check_dims (shape : list Z) (expected : list dimspec) : res unit :=
  match expected, shape with
  | [], _ => Ok tt
  | _ :: _, [] => Err IndexError
  | e :: es, n :: ns => do _ <- compare n e; check_dims ns es
  end.
(** _check_shapes (meta.py:4744-4753). *)
Definition check_shapes (shapes : list (list Z)) (target : list dimspec) : res unit :=
  match target with
  | [] => Err IndexError
  | t :: ts =>
      do _ <- compare (Z.of_nat (length shapes)) t;
      do _ <- mapM (fun s => check_dims s ts) shapes;
      Ok tt
  end.
(** The callbacks of meta.py:4759-4838: images are compared with the whole shape, the other
    columns with [shape[0:3]]. [shape_of i v]: [v.shape], for heatmaps and segmentation maps
    the shape of the array. *)
Definition shape_check (shape_of : nat -> V -> list Z) (target : list dimspec) (i : nat) (items : list V) : res returned :=
  do _ <- check_shapes (map (shape_of i) items) (if Nat.eqb i 0 then target else firstn 3 target);
  Ok (Items items).
(** AssertShape (meta.py:4683-4713): the constructor checks the length of the shape;
    [checked i]: is column [i] checked? *)
Definition assert_shape (is_instance : nat -> V -> bool) (shape_of : nat -> V -> list Z) (target : list dimspec)
    (checked : nat -> bool) (b : list column) : res (list column) :=
  if negb (Nat.eqb (length target) 4) then Err AssertionError
  else lambda_ is_instance (fun i => if checked i then Some (shape_check shape_of target i) else None) b.
End Columns.
Arguments returned : clear implicits.

(** ** Bounding boxes, polygons and line strings of Lambda *)
(** A function for keypoints or None. [meta.py:4291-4307] *)
Definition lambda_keypoints (f : option (list kpsoi -> res (list kpsoi))) (l : list kpsoi) : res (list kpsoi) :=
  match f with None => Ok l | Some f => f l end.
(** func_bounding_boxes="keypoints" (meta.py:4358-4360, 1582-1615, 1678-1706): convert all
    containers, call the function once, convert back, as many as the function returned (zip). [utils.py:325-386] *)
Definition boxes_as_keypoints (f : option (list kpsoi -> res (list kpsoi))) (l : list bbsoi) : res (list bbsoi) :=
  do ks <- lambda_keypoints f (map bbsoi_to_keypoints l);
  mapM (fun p => bbsoi_invert_to_keypoints (fst p) (snd p)) (combine l ks).
(** The points of a LineStringsOnImage as keypoints. [lines.py:2221-2242] *)
Definition lines_to_keypoints (o : lsoi) : kpsoi :=
  mkKpsoi (map (fun p => mkKp (fst p) (snd p)) (lsoi_to_xy_array o)) (lsoi_shape o).
(** func_line_strings="keypoints" (meta.py:4336-4338, 1551-1615, 1678-1706; utils.py:325-386). *)
Definition lines_as_keypoints (f : option (list kpsoi -> res (list kpsoi))) (l : list lsoi) : res (list lsoi) :=
  do ks <- lambda_keypoints f (map lines_to_keypoints l);
  mapM (fun p => lsoi_invert_to_keypoints (fst p) (map (fun k => (kx k, ky k)) (kps (snd p))) (kps_shape (snd p)))
       (combine l ks).

(** The objects returned by a callback for bounding boxes: one of the objects it was given
    (by index), or a new one. Simplification: new containers hold new boxes. [meta.py:4361-4363] *)
Inductive object := Given (k : nat) | New (b : bbsoi).
(** meta.py:4377-4380. *)
Definition order_box (b : bbox) : bbox :=
  let b := if qltb (x2 b) (x1 b) then mkBB (x2 b) (y1 b) (x1 b) (y2 b) (label b) else b in
  if qltb (y2 b) (y1 b) then mkBB (x1 b) (y2 b) (x2 b) (y1 b) (label b) else b.
(** meta.py:4375-4380, for one container. *)
Definition order_boxes (b : bbsoi) : bbsoi := mkBbsoi (map order_box (bbs b)) (bbs_shape b).
(** Lambda._augment_bounding_boxes with a callback (meta.py:4361-4382). The callback may change
    the given objects; the first component are the given objects afterwards. It is the given
    objects, not the returned ones, whose corners are put in order. *)
Definition lambda_boxes (f : list bbsoi -> res (list bbsoi * list object)) (l : list bbsoi) : res (list bbsoi) :=
  do r <- f l;
  let given := map order_boxes (fst r) in
  mapM (fun o => match o with
                 | Given k => match nth_error given k with Some b => Ok b | None => Err GenericException end
                 | New b => Ok b
                 end) (snd r).

(** * Removing and clipping coordinates *)
(** PolygonsOnImage; a polygon is its exterior and its label. [polys.py:1456-1458] *)
Record psoi := mkPsoi { ps_polys : list linestring; ps_shape : Z * Z }.

Section Cba.
(** shapely's intersections (see LineModel) and area. *)
Variable isect : LineModel.point -> LineModel.point -> list linestring -> geom.
Variable isect3 : list LineModel.point -> Z * Z -> pgeom.
Variable shapely_area : list LineModel.point -> R.

(** polys.py:238-251 area. *)
Definition poly_area (exterior : list LineModel.point) : R :=
  if Nat.ltb (length exterior) 3 then 0%R else shapely_area exterior.
(** polys.py:385-441 compute_out_of_image_area, compute_out_of_image_fraction. *)
Definition poly_fraction (p : linestring) (s : Z * Z) : res R :=
  let area := poly_area (coords p) in
  if Req_EM_T area 0
  then out_of_image_fraction isect (to_line_string (coords p) (ls_label p) true) s
  else
    do clipped <- poly_clip_out_of_image isect isect3 (coords p) (ls_label p) s;
    Ok ((area - fold_right Rplus 0%R (map poly_area clipped)) / area)%R.
(** polys.py:1706-1727, utils.py:390-394. *)
Definition psoi_remove_out_of_image_fraction (o : psoi) (fraction : Q) : res psoi :=
  do ps <- keep_unless (fun p => do f <- poly_fraction p (ps_shape o);
                                 Ok (if Rlt_dec f (Q2R fraction) then false else true)) (ps_polys o);
  Ok (mkPsoi ps (ps_shape o)).
(** polys.py:1751-1783, 550-652: the parts keep the label. *)
Definition psoi_clip_out_of_image (o : psoi) : res psoi :=
  do l <- mapM (fun p => do parts <- poly_clip_out_of_image isect isect3 (coords p) (ls_label p) (ps_shape o);
                         Ok (map (fun e => mkLine e (ls_label p)) parts)) (ps_polys o);
  Ok (mkPsoi (concat l) (ps_shape o)).

(** The columns of a batch: images and maps (of any kind), keypoints, bounding boxes, polygons
    and line strings. [batches.py:24-26] *)
Record cbatch (I : Type) := mkCb {
  b_other : I;
  b_kps : option (list kpsoi); b_bbs : option (list bbsoi);
  b_pol : option (list psoi); b_lin : option (list lsoi)
}.
(** [for i, cbaoi in enumerate(column.value)], for columns that are not None.
    [meta.py:5116-5121, 5202-5206] *)
Definition on_column {A} (f : A -> res A) (c : option (list A)) : res (option (list A)) :=
  match c with None => Ok None | Some l => do l' <- mapM f l; Ok (Some l') end.
(** RemoveCBAsByOutOfImageFraction._augment_batch_ (meta.py:5115-5123). *)
Definition remove_cbas {I} (fraction : Q) (b : cbatch I) : res (cbatch I) :=
  do k <- on_column (fun o => kpsoi_remove_out_of_image_fraction o fraction) (b_kps I b);
  do x <- on_column (fun o => bbsoi_remove_out_of_image_fraction o fraction) (b_bbs I b);
  do p <- on_column (fun o => psoi_remove_out_of_image_fraction o fraction) (b_pol I b);
  do l <- on_column (fun o => lsoi_remove_out_of_image_fraction isect o fraction) (b_lin I b);
  Ok (mkCb I (b_other I b) k x p l).
(** ClipCBAsToImagePlanes._augment_batch_ (meta.py:5201-5208). *)
Definition clip_cbas {I} (b : cbatch I) : res (cbatch I) :=
  do k <- on_column kpsoi_clip_out_of_image (b_kps I b);
  do x <- on_column bbsoi_clip_out_of_image (b_bbs I b);
  do p <- on_column psoi_clip_out_of_image (b_pol I b);
  do l <- on_column (lsoi_clip_out_of_image isect) (b_lin I b);
  Ok (mkCb I (b_other I b) k x p l).
End Cba.
Arguments mkCb {I}. Arguments b_other {I}. Arguments b_kps {I}. Arguments b_bbs {I}. Arguments b_pol {I}. Arguments b_lin {I}.
