(** Model of imgaug/augmenters/flip.py: horizontal and vertical flips of
    images, maps, keypoints, boxes, polygons and line strings.

    Simplifications: coordinates are exact rationals; cv2.flip is modelled by
    its documented effect; in-place changes become returned values; contiguity
    handling of the numpy buffers (flip.py:750-759) has no observable effect
    and is left out. *)
From Verif Require Import Prelude GeoModel.

(** flip.py:730-731 [_fliplr_sliced]: [arr[:, ::-1, ...]]. *)
Definition fliplr_sliced {A} (a : arr A) : arr A :=
  mkArr (ah a) (aw a) (fun y x => apx a y (aw a - 1 - x)).

(** External: [cv2.flip(arr, 1)] on a non-empty array of at most 512 channels. *)
Definition cv2_flip1 {A} (a : arr A) : arr A :=
  mkArr (ah a) (aw a) (fun y x => apx a y (aw a - 1 - x)).

(** One channel of a (H,W,C) array as a (H,W) array, and [np.stack(_, axis=-1)]. *)
Definition channel {V} (d : V) (a : arr (list V)) (c : nat) : arr V :=
  mkArr (ah a) (aw a) (fun y x => nth c (apx a y x) d).
(** flip.py:750-764 [np.stack(_, axis=-1)]. *)
Definition stack_channels {V} (h w : Z) (cs : list (arr V)) : arr (list V) :=
  mkArr h w (fun y x => map (fun c => apx c y x) cs).

(** flip.py:734-764 [_fliplr_cv2]; [nc] is the channel count of the array. *)
Definition fliplr_cv2 {V} (d : V) (nc : nat) (a : arr (list V)) : arr (list V) :=
  if (ah a =? 0) || (aw a =? 0) || Nat.eqb nc 0 then a
  else if Nat.ltb 512 nc
  then stack_channels (ah a) (aw a) (map (fun c => cv2_flip1 (channel d a c)) (seq 0 nc))
  else cv2_flip1 a.

(** flip.py:682-727 [fliplr]; [cv2_ok]: the dtype is supported by cv2. *)
Definition fliplr {V} (d : V) (cv2_ok : bool) (nc : nat) (a : arr (list V)) : arr (list V) :=
  if cv2_ok then fliplr_cv2 d nc a else fliplr_sliced a.

(** flip.py:767-808 [flipud] (and inlined in 1002-1011): [arr[::-1, ...]]. *)
Definition flipud {A} (a : arr A) : arr A :=
  mkArr (ah a) (aw a) (fun y x => apx a (ah a - 1 - y) x).

Local Open Scope Q_scope.

(** A polygon's exterior or a line string's coordinates on an image. [flip.py:916-930; polys.py, lines.py: PolygonsOnImage, LineStringsOnImage] *)
Record coordsoi := mkCoordsoi { cs_items : list (list point); cs_shape : shape2 }.

(** flip.py:901-905 (keypoints). *)
Definition kpsoi_fliplr (k : kpsoi) : kpsoi :=
  let width := inject_Z (snd (kps_shape k)) in
  mkKpsoi (map (fun p => mkKp (width - kx p) (ky p)) (kps k)) (kps_shape k).
(** flip.py:907-914 (bounding boxes). *)
Definition bbsoi_fliplr (b : bbsoi) : bbsoi :=
  let width := inject_Z (snd (bbs_shape b)) in
  mkBbsoi (map (fun p => mkBB (width - x2 p) (y1 p) (width - x1 p) (y2 p) (label p)) (bbs b))
          (bbs_shape b).
(** flip.py:916-922 (polygons) and 924-930 (line strings). *)
Definition coordsoi_fliplr (c : coordsoi) : coordsoi :=
  let width := inject_Z (snd (cs_shape c)) in
  mkCoordsoi (map (map (fun p => (width - fst p, snd p))) (cs_items c)) (cs_shape c).

(** flip.py:1013-1017, 1019-1026, 1028-1042: the vertical counterparts. *)
Definition kpsoi_flipud (k : kpsoi) : kpsoi :=
  let height := inject_Z (fst (kps_shape k)) in
  mkKpsoi (map (fun p => mkKp (kx p) (height - ky p)) (kps k)) (kps_shape k).
(** flip.py:1019-1026. *)
Definition bbsoi_flipud (b : bbsoi) : bbsoi :=
  let height := inject_Z (fst (bbs_shape b)) in
  mkBbsoi (map (fun p => mkBB (x1 p) (height - y2 p) (x2 p) (height - y1 p) (label p)) (bbs b))
          (bbs_shape b).
(** flip.py:1028-1042. *)
Definition coordsoi_flipud (c : coordsoi) : coordsoi :=
  let height := inject_Z (fst (cs_shape c)) in
  mkCoordsoi (map (map (fun p => (fst p, height - snd p))) (cs_items c)) (cs_shape c).

(** The columns of a batch in augmentation that flipping touches
    (batches.py:634-683). Maps are arrays of channel lists. *)
Record fbatch := mkFbatch {
  fb_images : option (list (arr (list Z)));
  fb_heatmaps : option (list (arr (list Q)));
  fb_segmaps : option (list (arr (list Z)));
  fb_keypoints : option (list kpsoi);
  fb_bbs : option (list bbsoi);
  fb_polygons : option (list coordsoi);
  fb_line_strings : option (list coordsoi)
}.

(** [for i, sample in enumerate(samples): if sample >= 0.5: col[i] = f(col[i])]. [flip.py:881-932] *)
Fixpoint flip_rows {A} (f : A -> A) (samples : list Q) (col : list A) : list A :=
  match samples, col with
  | s :: ss, x :: xs => (if qleb (1#2) s then f x else x) :: flip_rows f ss xs
  | _, _ => col
  end.
(** flip.py:881-932, columns that are None are skipped. *)
Definition flip_col {A} (f : A -> A) (samples : list Q) (col : option (list A))
  : option (list A) :=
  match col with None => None | Some l => Some (flip_rows f samples l) end.

(** flip.py:881-932 [Fliplr._augment_batch_] after sampling; [cvi], [nci]...:
    dtype support and channel count of the image and map arrays. *)
Definition fliplr_batch (cvi cvh cvs : bool) (nci nch ncs : nat) (samples : list Q)
  (b : fbatch) : fbatch :=
  mkFbatch (flip_col (fliplr 0%Z cvi nci) samples (fb_images b))
           (flip_col (fliplr 0 cvh nch) samples (fb_heatmaps b))
           (flip_col (fliplr 0%Z cvs ncs) samples (fb_segmaps b))
           (flip_col kpsoi_fliplr samples (fb_keypoints b))
           (flip_col bbsoi_fliplr samples (fb_bbs b))
           (flip_col coordsoi_fliplr samples (fb_polygons b))
           (flip_col coordsoi_fliplr samples (fb_line_strings b)).

(** flip.py:993-1044 [Flipud._augment_batch_] after sampling. *)
Definition flipud_batch (samples : list Q) (b : fbatch) : fbatch :=
  mkFbatch (flip_col flipud samples (fb_images b))
           (flip_col flipud samples (fb_heatmaps b))
           (flip_col flipud samples (fb_segmaps b))
           (flip_col kpsoi_flipud samples (fb_keypoints b))
           (flip_col bbsoi_flipud samples (fb_bbs b))
           (flip_col coordsoi_flipud samples (fb_polygons b))
           (flip_col coordsoi_flipud samples (fb_line_strings b)).
