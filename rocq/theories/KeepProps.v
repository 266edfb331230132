(** C91-C95: KeepSizeByResize and the pooling augmenters. *)
From Coq Require Import String QArith Qabs Lia.
From Verif Require Import Prelude GeoModel SizeModel UtilModel UtilSpec KeepModel KeepSpec KeepProofs KeepRest KeepPool.
Import ListNotations.
Open Scope Z_scope.

(* ------------------------------------------------------------------ *)
(** * C91 *)

Theorem C91_images : forall cv2 a p ph ps ix ixh ixs child b c r ims cs,
  validate_param a false = Ok p -> child b = Ok c -> keep_size cv2 p ph ps ix ixh ixs child b = Ok r ->
  b_images b = Some ims -> b_images c = Some cs -> length cs = length ims ->
  exists rs, b_images r = Some rs /\ length rs = length ims /\
    forall i m m' o, row ims i m -> row cs i m' -> row rs i o ->
      (chosen p ix i = no_resize -> o = m') /\
      (chosen p ix i <> no_resize -> i_shape o = i_shape m /\ i_nc o = i_nc m') /\
      (chosen p ix i <> no_resize -> named p -> resized cv2 (chosen p ix i) m' (i_shape m) o).
Proof. exact keep_size_images. Qed.
Print Assumptions C91_images.

Theorem C91_keypoints : forall cv2 a p ph ps ix ixh ixs child b c r ks cs,
  validate_param a false = Ok p -> child b = Ok c -> keep_size cv2 p ph ps ix ixh ixs child b = Ok r ->
  rows (nb_rows b) b -> b_keypoints b = Some ks -> b_keypoints c = Some cs -> length cs = length ks ->
  exists rs, b_keypoints r = Some rs /\ length rs = length ks /\
    forall i k k' o, row ks i k -> row cs i k' -> row rs i o ->
      (chosen p ix i = no_resize -> o = k') /\
      (chosen p ix i <> no_resize -> kps_shape o = kps_shape k /\
         Forall2 (same_relative (kps_shape k') (kps_shape k)) (kps k') (kps o)).
Proof. exact keep_size_keypoints. Qed.
Print Assumptions C91_keypoints.

Theorem C91_heatmaps : forall cv2 a ah p ph ps ix ixh ixs child b c r ms cs,
  validate_param a false = Ok p -> validate_param ah true = Ok ph ->
  child b = Ok c -> keep_size cv2 p ph ps ix ixh ixs child b = Ok r ->
  rows (nb_rows b) b -> b_heatmaps b = Some ms -> b_heatmaps c = Some cs -> length cs = length ms ->
  exists rs, b_heatmaps r = Some rs /\ length rs = length ms /\
    forall i m m' o, row ms i m -> row cs i m' -> row rs i o ->
      (chosen_map ph p ixh ix i = no_resize -> o = m') /\
      (chosen_map ph p ixh ix i <> no_resize -> i_shape (mo_arr o) = i_shape (mo_arr m) /\ mo_shape o = mo_shape m) /\
      (chosen_map ph p ixh ix i <> no_resize -> named p -> named ph ->
         resized cv2 (chosen_map ph p ixh ix i) (mo_arr m') (i_shape (mo_arr m)) (mo_arr o)).
Proof. exact keep_size_heatmaps. Qed.
Print Assumptions C91_heatmaps.

Theorem C91_segmaps : forall cv2 a as_ p ph ps ix ixh ixs child b c r ms cs,
  validate_param a false = Ok p -> validate_param as_ true = Ok ps ->
  child b = Ok c -> keep_size cv2 p ph ps ix ixh ixs child b = Ok r ->
  rows (nb_rows b) b -> b_segmaps b = Some ms -> b_segmaps c = Some cs -> length cs = length ms ->
  exists rs, b_segmaps r = Some rs /\ length rs = length ms /\
    forall i m m' o, row ms i m -> row cs i m' -> row rs i o ->
      (chosen_map ps p ixs ix i = no_resize -> o = m') /\
      (chosen_map ps p ixs ix i <> no_resize -> i_shape (mo_arr o) = i_shape (mo_arr m) /\ mo_shape o = mo_shape m) /\
      (chosen_map ps p ixs ix i <> no_resize -> named p -> named ps ->
         resized cv2 (chosen_map ps p ixs ix i) (mo_arr m') (i_shape (mo_arr m)) (mo_arr o)).
Proof. exact keep_size_segmaps. Qed.
Print Assumptions C91_segmaps.

(** Two rows, one of them left as it is: a child that halves all sizes. *)
Example C91_example :
  let b := mkKb true (Some [ex_img false 4; ex_img false 4]) None (Some [mkMapoi (ex_img true 8) (4, 4); mkMapoi (ex_img true 8) (4, 4)])
                (Some [mkKpsoi [mkKp 1 3] (4, 4); mkKpsoi [] (4, 4)]) in
  let c := mkKb true (Some [ex_img false 2; ex_img false 2]) None (Some [mkMapoi (ex_img true 4) (2, 2); mkMapoi (ex_img true 4) (2, 2)])
                (Some [mkKpsoi [mkKp (1 # 2) (3 # 2)] (2, 2); mkKpsoi [] (2, 2)]) in
  exists p ps r, validate_param (AList [IS "linear"; no_resize]) false = Ok p /\
    validate_param (AVal same_as_images) true = Ok PSame /\ validate_param (AVal (IS "nearest")) true = Ok ps /\
    keep_size (fun _ _ _ _ _ => 0) p PSame ps (fun i => i) (fun i => i) (fun i => i) (fun _ => Ok c) b = Ok r /\
    rows (nb_rows b) b /\ rows (nb_rows b) c /\ same_columns b c /\
    option_map (map i_shape) (b_images r) = Some [(4, 4); (2, 2)] /\ b_array r = false /\
    option_map (map kps_shape) (b_keypoints r) = Some [(4, 4); (2, 2)].
Proof.
  cbn zeta. do 3 eexists. split; [reflexivity|]. split; [reflexivity|]. split; [reflexivity|]. split; [reflexivity|].
  unfold rows, same_columns, same_col. cbn. repeat split; intros; discriminate || reflexivity.
Qed.

(* ------------------------------------------------------------------ *)
(** * C92 *)

Theorem C92_succeeds : forall cv2 a ah as_ p ph ps ix ixh ixs child b c,
  validate_param a false = Ok p -> validate_param ah true = Ok ph -> validate_param as_ true = Ok ps ->
  named p -> named ph -> named ps ->
  (forall i, (i < nb_rows b)%nat -> chosen_map ps p ixs ix i = IS "nearest" \/ chosen_map ps p ixs ix i = no_resize) ->
  child b = Ok c -> same_columns b c -> rows (nb_rows b) b -> rows (nb_rows b) c -> positive b -> positive c ->
  exists r, keep_size cv2 p ph ps ix ixh ixs child b = Ok r /\ rows (nb_rows b) r /\ same_columns b r.
Proof. exact keep_size_ok. Qed.
Print Assumptions C92_succeeds.

Theorem C92_consistent : forall cv2 a ah as_ p ph ps ix ixh ixs child b c r,
  validate_param a false = Ok p -> validate_param ah true = Ok ph -> validate_param as_ true = Ok ps ->
  (forall i, (i < nb_rows b)%nat ->
     (chosen p ix i = no_resize <-> chosen_map ph p ixh ix i = no_resize) /\
     (chosen p ix i = no_resize <-> chosen_map ps p ixs ix i = no_resize)) ->
  child b = Ok c -> same_columns b c -> rows (nb_rows b) b -> rows (nb_rows b) c -> aligned b -> aligned c ->
  keep_size cv2 p ph ps ix ixh ixs child b = Ok r -> aligned r.
Proof. exact keep_size_aligned. Qed.
Print Assumptions C92_consistent.

(** The example of the documentation: segmentation maps with NO_RESIZE while
    images are resized. Their attribute shape is not the size of the image. *)
Theorem C92_map_no_resize_refuted : forall cv2, exists p ph ps ix child b c r,
  validate_param (AVal (IS "cubic")) false = Ok p /\ validate_param (AVal same_as_images) true = Ok ph /\
  validate_param (AVal no_resize) true = Ok ps /\
  child b = Ok c /\ same_columns b c /\ positive b /\ positive c /\ aligned b /\ aligned c /\
  keep_size cv2 p ph ps ix ix ix child b = Ok r /\ ~ aligned r.
Proof. exact map_no_resize. Qed.
Print Assumptions C92_map_no_resize_refuted.

(** Integers of cv2 for images, SAME_AS_IMAGES in a list of methods for maps:
    the integer becomes a string and is rejected. *)
Theorem C92_integer_refuted : forall cv2, exists p ph ps ix child b c,
  validate_param (AVal (IN 2)) false = Ok p /\ validate_param (AList [same_as_images; IS "nearest"]) true = Ok ph /\
  validate_param (AVal (IS "nearest")) true = Ok ps /\
  child b = Ok c /\ same_columns b c /\ positive b /\ positive c /\ aligned b /\ aligned c /\
  keep_size cv2 p ph ps ix ix ix child b = Err AssertionError.
Proof. exact integer_becomes_string. Qed.
Print Assumptions C92_integer_refuted.

(** A list of a string and an integer: the integer becomes a string. *)
Theorem C92_mixed_list_refuted : forall cv2, exists p ph ps ix child b c,
  validate_param (AList [IS "nearest"; IN 2]) false = Ok p /\ validate_param (AVal same_as_images) true = Ok ph /\
  validate_param (AVal (IS "nearest")) true = Ok ps /\
  child b = Ok c /\ same_columns b c /\ positive b /\ positive c /\ aligned b /\ aligned c /\
  keep_size cv2 p ph ps ix ix ix child b = Err AssertionError.
Proof. exact mixed_list. Qed.
Print Assumptions C92_mixed_list_refuted.

(** interpolation_segmaps = SAME_AS_IMAGES with the default for images. *)
Theorem C92_segmaps_as_images_refuted : forall cv2, exists p ph ps ix child b c,
  validate_param (AVal (IS "cubic")) false = Ok p /\ validate_param (AVal same_as_images) true = Ok ph /\
  validate_param (AVal same_as_images) true = Ok ps /\
  child b = Ok c /\ same_columns b c /\ positive b /\ positive c /\ aligned b /\ aligned c /\
  keep_size cv2 p ph ps ix ix ix child b = Err ValueError.
Proof. exact segmaps_as_images. Qed.
Print Assumptions C92_segmaps_as_images_refuted.

Example C92_example : exists r,
  keep_size (fun _ _ _ _ _ => 0) (PDet (IS "cubic")) PSame (PDet (IS "nearest")) (fun i => i) (fun i => i) (fun i => i) ex_child (ex_batch 4) = Ok r /\
  validate_param (AVal (IS "cubic")) false = Ok (PDet (IS "cubic")) /\
  same_columns (ex_batch 4) (ex_batch 2) /\ positive (ex_batch 4) /\ positive (ex_batch 2) /\ aligned (ex_batch 4) /\ aligned (ex_batch 2).
Proof.
  eexists. split; [reflexivity|]. split; [reflexivity|]. split; [apply ex_same|].
  repeat split; try (apply ex_aligned); apply ex_positive; reflexivity.
Qed.

(* ------------------------------------------------------------------ *)
(** * C93 *)

Theorem C93_array_stays_array : forall cv2 a p ph ps ix ixh ixs child b c r ims cs s nc,
  validate_param a false = Ok p -> child b = Ok c -> keep_size cv2 p ph ps ix ixh ixs child b = Ok r ->
  b_images b = Some ims -> b_images c = Some cs -> length cs = length ims ->
  b_array b = true -> ims <> [] -> Forall (fun m => i_shape m = s) ims -> Forall (fun m => i_nc m = nc) cs ->
  (forall i, (i < length ims)%nat -> chosen p ix i <> no_resize) ->
  b_array r = true.
Proof. exact array_stays. Qed.
Print Assumptions C93_array_stays_array.

Theorem C93_array_only_if_one_shape : forall cv2 p ph ps ix ixh ixs child b r rs,
  keep_size cv2 p ph ps ix ixh ixs child b = Ok r -> b_array r = true -> b_images r = Some rs ->
  b_array b = true /\ rs <> [] /\ forall m m', In m rs -> In m' rs -> i_shape3 m = i_shape3 m'.
Proof. exact array_only. Qed.
Print Assumptions C93_array_only_if_one_shape.

(** An array of zero images comes back as a list. *)
Theorem C93_empty_array_refuted : forall cv2, exists p ph ps ix child b r,
  validate_param (AVal (IS "cubic")) false = Ok p /\ validate_param (AVal same_as_images) true = Ok ph /\
  validate_param (AVal (IS "nearest")) true = Ok ps /\
  child b = Ok b /\ b_array b = true /\ b_images b = Some [] /\
  keep_size cv2 p ph ps ix ix ix child b = Ok r /\ b_images r = Some [] /\ b_array r = false.
Proof. exact empty_array. Qed.
Print Assumptions C93_empty_array_refuted.

Example C93_example : exists r,
  keep_size (fun _ _ _ _ _ => 0) (PDet (IS "cubic")) PSame PSame (fun i => i) (fun i => i) (fun i => i)
    (fun _ => Ok (mkKb false (Some [ex_img false 2; ex_img false 3]) None None None))
    (mkKb true (Some [ex_img false 4; ex_img false 4]) None None None) = Ok r /\ b_array r = true.
Proof. eexists. split; reflexivity. Qed.

(* ------------------------------------------------------------------ *)
(** * C94 *)

Theorem C94_kernel_sizes : forall hs ws i k,
  row (pool_samples hs ws) i k -> exists h w, row hs i h /\
    (match ws with None => w = h | Some l => row l i w end) /\
    fst k = Z.max 1 h /\ snd k = Z.max 1 w.
Proof. exact pool_samples_row. Qed.
Print Assumptions C94_kernel_sizes.

Theorem C94_pooled_image : forall cv2 uint8 lo hi op le nc hs ws b r ims,
  (op = Z.max /\ le = Z.le) \/ (op = Z.min /\ le = Z.ge) ->
  b_images b = Some ims -> length ims = length (pool_samples hs ws) ->
  pool_batch cv2 (pool_image uint8 lo hi op) nc false (pool_samples hs ws) b = Ok r ->
  b_array r = false /\ exists rs, b_images r = Some rs /\ length rs = length ims /\
    forall i m o kh kw, row ims i m -> row rs i o -> row (pool_samples hs ws) i (kh, kw) ->
      i_nc o = i_nc m /\
      (pos_img m ->
         rounded_up (ah (i_px m)) kh (ah (i_px o)) /\ rounded_up (aw (i_px m)) kw (aw (i_px o)) /\
         forall y x, 0 <= y < ah (i_px o) -> 0 <= x < aw (i_px o) ->
           extremum le (fun y' x' => 0 <= y' < ah (i_px m) /\ 0 <= x' < aw (i_px m) /\
                          in_block kh kw y x (y' + (ah (i_px o) * kh - ah (i_px m)) / 2)
                                             (x' + (aw (i_px o) * kw - aw (i_px m)) / 2))
                    (apx (i_px m)) (apx (i_px o) y x)) /\
      (kh = 1 -> kw = 1 -> o = m).
Proof. exact pooled_images. Qed.
Print Assumptions C94_pooled_image.

Theorem C94_consistent : forall cv2 uint8 lo hi op nc hs ws b r,
  op = Z.max \/ op = Z.min -> 0 <= nc ->
  in_col (fun m => 0 <= fst (i_shape m) /\ 0 <= snd (i_shape m) /\ i_nc m = nc) (b_images b) ->
  rows (length (pool_samples hs ws)) b -> aligned b ->
  pool_batch cv2 (pool_image uint8 lo hi op) nc false (pool_samples hs ws) b = Ok r -> aligned r.
Proof. exact pooling_aligned. Qed.
Print Assumptions C94_consistent.

Theorem C94_keypoints : forall cv2 pool nc hs ws b r ks,
  b_keypoints b = Some ks -> length ks = length (pool_samples hs ws) ->
  pool_batch cv2 pool nc false (pool_samples hs ws) b = Ok r ->
  exists rs, b_keypoints r = Some rs /\ length rs = length ks /\
    forall i k o, row ks i k -> row rs i o ->
      Forall2 (same_relative (kps_shape k) (kps_shape o)) (kps k) (kps o).
Proof. exact pooled_keypoints. Qed.
Print Assumptions C94_keypoints.

(** The arrays of maps are resized, too. *)
Theorem C94_map_arrays : forall cv2 nc ip kh kw m o, 1 <= kh -> 1 <= kw -> pos_img (mo_arr m) ->
  pool_one_map cv2 ip nc false (m, (kh, kw)) = Ok o ->
  i_nc (mo_arr o) = i_nc (mo_arr m) /\
  rounded_up (fst (i_shape (mo_arr m))) kh (fst (i_shape (mo_arr o))) /\
  rounded_up (snd (i_shape (mo_arr m))) kw (snd (i_shape (mo_arr o))).
Proof. exact pooled_map_array. Qed.
Print Assumptions C94_map_arrays.

Theorem C94_keep_size : forall cv2 uint8 lo hi op nc hs ws b r,
  op = Z.max \/ op = Z.min -> pool_batch cv2 (pool_image uint8 lo hi op) nc true (pool_samples hs ws) b = Ok r ->
  rows (length (pool_samples hs ws)) b ->
  b_heatmaps r = b_heatmaps b /\ b_segmaps r = b_segmaps b /\ b_keypoints r = b_keypoints b /\ b_array r = b_array b /\
  match b_images b, b_images r with
  | Some l, Some l' => Forall2 (fun m o => i_shape3 o = i_shape3 m) l l'
  | None, None => True
  | _, _ => False
  end.
Proof. exact pooling_keeps. Qed.
Print Assumptions C94_keep_size.

Example C94_example :
  let b := mkKb true (Some [ex_img false 5]) (Some [mkMapoi (ex_img false 10) (5, 5)]) None (Some [mkKpsoi [mkKp 1 4] (5, 5)]) in
  aligned b /\ rows (length (pool_samples [2] (Some [0]))) b /\ pool_samples [2] (Some [0]) = [(2, 1)] /\
  exists r, pool_batch (fun _ _ _ _ _ => 0) (pool_image true 0 255 Z.max) 1 false (pool_samples [2] (Some [0])) b = Ok r /\
    option_map (map i_shape) (b_images r) = Some [(3, 5)] /\
    option_map (map (fun m => apx (i_px m) 2 4)) (b_images r) = Some [8] /\
    option_map (map kps_shape) (b_keypoints r) = Some [(3, 5)].
Proof.
  cbn zeta. split.
  { intros i s s' H H'.
    assert (K : forall t, shape_at (mkKb true (Some [ex_img false 5]) (Some [mkMapoi (ex_img false 10) (5, 5)]) None
                                     (Some [mkKpsoi [mkKp 1 4] (5, 5)])) i t -> t = (5, 5)).
    { intros t S. inversion S as [l m E R|l m E R|l m E R|l m E R]; subst t; cbn in E; try discriminate;
        injection E as <-; unfold row in R; destruct i as [|[|i]]; cbn in R; try discriminate; injection R as <-; reflexivity. }
    rewrite (K s H), (K s' H'). reflexivity. }
  split; [repeat split|]. split; [reflexivity|]. eexists. split; [reflexivity|]. repeat split; vm_compute; reflexivity.
Qed.

(* ------------------------------------------------------------------ *)
(** * C95 *)

(** Where a coordinate lies in the pooled image: column [x] of the image is
    column [x + left] of the padded image and (x + left) / k of the pooled one,
    see [C94_pooled_image]. A keypoint is off by at most half a pixel of the
    pooled image, and exact if the kernel size divides the image size. *)
Theorem C95_keypoint_near_pixel : forall nc kh kw k o,
  pos_shape (kps_shape k) -> 0 < nc -> 1 <= kh -> 1 <= kw ->
  pool_one_kps nc false (k, (kh, kw)) = Ok o ->
  let (h, w) := kps_shape k in
  let (h', w') := kps_shape o in
  Forall2 (fun p q =>
    ((0 <= kx p <= inject_Z w)%Q -> (Qabs (kx q - (kx p + inject_Z ((w' * kw - w) / 2)) / inject_Z kw) <= 1 # 2)%Q) /\
    ((0 <= ky p <= inject_Z h)%Q -> (Qabs (ky q - (ky p + inject_Z ((h' * kh - h) / 2)) / inject_Z kh) <= 1 # 2)%Q) /\
    ((kw | w) -> kx q == kx p / inject_Z kw)%Q /\ ((kh | h) -> ky q == ky p / inject_Z kh)%Q) (kps k) (kps o).
Proof. exact near_pixel. Qed.
Print Assumptions C95_keypoint_near_pixel.

(** A keypoint in the centre of the only bright pixel lies in a dark pixel of
    the pooled image. *)
Theorem C95_pixel_refuted : forall cv2, exists b r m k o k',
  pool_batch cv2 (pool_image true 0 255 Z.max) 1 false [(1, 4)] b = Ok r /\
  b_images b = Some [m] /\ b_images r = Some [o] /\ b_keypoints b = Some [mkKpsoi [k] (i_shape m)] /\
  b_keypoints r = Some [mkKpsoi [k'] (i_shape o)] /\
  (forall y x, apx (i_px m) y x = if (y =? Qfloor (ky k)) && (x =? Qfloor (kx k)) then 255 else 0) /\
  (exists y x, 0 <= y < ah (i_px o) /\ 0 <= x < aw (i_px o) /\ apx (i_px o) y x = 255) /\
  0 <= Qfloor (ky k') < ah (i_px o) /\ 0 <= Qfloor (kx k') < aw (i_px o) /\
  apx (i_px o) (Qfloor (ky k')) (Qfloor (kx k')) = 0.
Proof. exact pixel_missed. Qed.
Print Assumptions C95_pixel_refuted.

Example C95_example : exists o, pool_one_kps 3 false (mkKpsoi [mkKp (5 # 2) 2; mkKp 0 6] (6, 5), (3, 4)) = Ok o /\
  kps_shape o = (2, 2) /\ length (kps o) = 2%nat.
Proof. eexists. split; [reflexivity|]. split; reflexivity. Qed.
