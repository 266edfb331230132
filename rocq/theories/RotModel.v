(** Model of imgaug/augmenters/geometric.py: Rot90 (lines 5077-5208).

    Simplifications: coordinates are exact rationals; in-place changes become
    returned values; the resampling of images and maps is a parameter. *)
From Verif Require Import Prelude GeoModel.

(** External: [np.flip] along axis 0 and 1, [np.transpose] of the first two
    axes, and [np.rot90(arr, k, axes=(1, 0))] as numpy composes it of them. *)
Definition np_flip0 {A} (a : arr A) : arr A := mkArr (ah a) (aw a) (fun y x => apx a (ah a - 1 - y) x).
(** external, see 5130-5140 (geometric.py). *)
Definition np_flip1 {A} (a : arr A) : arr A := mkArr (ah a) (aw a) (fun y x => apx a y (aw a - 1 - x)).
(** external, see 5130-5140 (geometric.py). *)
Definition np_transpose {A} (a : arr A) : arr A := mkArr (aw a) (ah a) (fun y x => apx a x y).
Definition np_rot90 {A} (a : arr A) (k : Z) : arr A :=
  match k mod 4 with
  | 0 => a
  | 2 => np_flip0 (np_flip1 a)
  | 1 => np_transpose (np_flip0 a)
  | _ => np_flip0 (np_transpose a)
  end.

(** geometric.py:5130-5140: one array. [resize_func] is None for maps. *)
Definition rotate_array {A} (resize_func : option (arr A -> shape2 -> arr A)) (keep_size : bool) (k : Z) (a : arr A) : arr A :=
  let a_aug := np_rot90 a k in
  match resize_func with
  | Some f => if keep_size && negb (shape2_eqb (ah a, aw a) (ah a_aug, aw a_aug)) then f a_aug (ah a, aw a) else a_aug
  | None => a_aug
  end.

(** geometric.py:5125-5145 _augment_arrays_by_samples. *)
Definition rotate_arrays {A} (resize_func : option (arr A -> shape2 -> arr A)) (keep_size : bool) (arrs : list (arr A)) (ks : list Z)
  : list (arr A) :=
  map (fun p => rotate_array resize_func keep_size (snd p) (fst p)) (combine arrs ks).

(** A heatmap or segmentation map: its array and the shape of its image. [geometric.py:5148-5170] *)
Record onmap (A : Type) := mkOnmap { om_arr : arr A; om_shape : shape2 }.
Arguments mkOnmap {A}. Arguments om_arr {A}. Arguments om_shape {A}.

(** geometric.py:5148-5170 _augment_maps_by_samples, one map. [resize]: the
    resampling of the map's array in its method resize(). *)
Definition rotate_map {A} (resize : arr A -> shape2 -> arr A) (keep_size : bool) (k : Z) (m : onmap A) : onmap A :=
  let arr_aug := rotate_array None keep_size k (om_arr m) in
  if keep_size then mkOnmap (resize arr_aug (ah (om_arr m), aw (om_arr m))) (om_shape m)
  else if k mod 2 =? 1 then mkOnmap arr_aug (snd (om_shape m), fst (om_shape m))
  else mkOnmap arr_aug (om_shape m).

(** geometric.py:5186-5198: the loop over the quarter turns of one keypoint. *)
Fixpoint rotate_steps (n : nat) (hr wr : Q) (p : keypoint) : keypoint :=
  match n with
  | O => p
  | S n' => rotate_steps n' wr hr (mkKp (hr - ky p) (kx p))
  end.

(** geometric.py:5173-5208 _augment_keypoints_by_samples, one image. *)
Definition rotate_keypoints (keep_size : bool) (k : Z) (kp : kpsoi) : res kpsoi :=
  if k mod 4 =? 0 then Ok kp
  else
    let k := k mod 4 in
    let '(h, w) := kps_shape kp in
    let '(h_aug, w_aug) := if k mod 2 =? 0 then (h, w) else (w, h) in
    let kp' := mkKpsoi (map (rotate_steps (Z.to_nat k) (inject_Z h) (inject_Z w)) (kps kp)) (h_aug, w_aug) in
    if keep_size && negb (shape2_eqb (h, w) (h_aug, w_aug)) then kpsoi_on kp' (h, w) else Ok kp'.

(** meta.py:1678-1706 _apply_to_cbaois_as_keypoints for bounding boxes. *)
Definition rotate_boxes (keep_size : bool) (k : Z) (b : bbsoi) : res bbsoi :=
  do kp <- rotate_keypoints keep_size k (bbsoi_to_keypoints b);
  bbsoi_invert_to_keypoints b kp.
