(** Property theorems C10-C17 (cropping, padding, resizing). *)
From Coq Require Import Lia.
From Verif Require Import Prelude GeoModel GeoSpec SizeModel SizeSpec SizeProofs SizePowers.

(* ---- C10: cropping never empties ---- *)

Theorem C10_amounts_for_one_axis : forall size s e s' e',
  1 <= size -> 0 <= s -> 0 <= e -> prevent_zero_size size s e = (s', e') ->
  0 <= s' <= s /\ 0 <= e' <= e /\ size - s' - e' = Z.max 1 (size - s - e).
Proof. exact prevent_zero_size_spec. Qed.
Print Assumptions C10_amounts_for_one_axis.
Example C10_ex1 : prevent_zero_size 5 3 9 = (0, 4).
Proof. reflexivity. Qed.

Theorem C10_cropped_image_is_window : forall (a : arr (list Z)) c,
  1 <= ah a -> 1 <= aw a -> nonneg c ->
  exists c', effective_crop (ah a, aw a) c c' /\ is_window a (crop_arr a c) c'.
Proof. exact (@crop_arr_effective (list Z)). Qed.
Print Assumptions C10_cropped_image_is_window.
Example C10_ex2 : let a := mkArr 4 3 (fun y x => [10 * y + x]) in
  let r := crop_arr a (mkTrbl 3 1 5 1) in ah r = 1 /\ aw r = 1 /\ apx r 0 0 = [1].
Proof. vm_compute. auto. Qed.

Theorem C10_enough_pixels_means_exactly_as_requested : forall (a : arr (list Z)) c,
  nonneg c -> t_top c + t_bottom c < ah a -> t_left c + t_right c < aw a ->
  is_window a (crop_arr a c) c.
Proof. exact (@crop_arr_exact (list Z)). Qed.
Print Assumptions C10_enough_pixels_means_exactly_as_requested.
Example C10_ex3 : let c := mkTrbl 1 0 2 1 in nonneg c /\ 1 + 2 < 4 /\ 1 + 0 < 3.
Proof. unfold nonneg. cbn. lia. Qed.

(** CropAndPad only ever asks for crops that fit. *)
Theorem C10_sampled_amounts_are_applied_exactly : forall mode h w t r b l c p,
  1 <= h -> 1 <= w -> cap_draw_samples mode h w t r b l = (c, p) ->
  let a := cap_amounts mode h w t r b l in
  nonneg c /\ nonneg p /\
  t_top c + t_bottom c < h /\ t_left c + t_right c < w /\
  p = mkTrbl (Z.max 0 (t_top a)) (Z.max 0 (t_right a)) (Z.max 0 (t_bottom a)) (Z.max 0 (t_left a)) /\
  effective_crop (h, w)
    (mkTrbl (Z.max 0 (- t_top a)) (Z.max 0 (- t_right a)) (Z.max 0 (- t_bottom a)) (Z.max 0 (- t_left a))) c.
Proof. exact cap_draw_samples_spec. Qed.
Print Assumptions C10_sampled_amounts_are_applied_exactly.
Example C10_ex4 : cap_draw_samples CapPercent 10 20 (-(3#10)) (1#10) (-(9#10)) (-(1#20)) =
  (mkTrbl 1 0 8 1, mkTrbl 0 2 0 0).
Proof. vm_compute. reflexivity. Qed.

(* ---- C11: padding ---- *)

(** Content stays in place; everything else is filled as documented (numpy/cv2
    cannot mirror an empty axis, so the code falls back to constant filling). *)
Theorem C11_padding : forall lo hi nc a p mode c,
  lo <= hi -> nonneg p -> wf_arr a -> has_channels nc a -> cval_fits nc c ->
  exists r, pad lo hi nc a p mode c = Ok r /\
    ah r = ah a + t_top p + t_bottom p /\ aw r = aw a + t_left p + t_right p /\
    (forall y x, 0 <= y < ah a -> 0 <= x < aw a ->
       apx r (y + t_top p) (x + t_left p) = apx a y x) /\
    (forall y x, 0 <= y < ah r -> 0 <= x < aw r ->
       ~ (0 <= y - t_top p < ah a /\ 0 <= x - t_left p < aw a) ->
       if match mode with PMConstant => true | _ => false end
          || (ah a =? 0) || (aw a =? 0) || Nat.eqb nc 0
       then length (apx r y x) = nc /\
            forall ch v, (ch < nc)%nat -> requested_cval c ch = Some v ->
              nth_error (apx r y x) ch = Some (Z.max lo (Z.min hi v))
       else exists y' x', mirror_source mode (ah a) (y - t_top p) y' /\
                          mirror_source mode (aw a) (x - t_left p) x' /\
                          apx r y x = apx a y' x').
Proof. exact pad_spec. Qed.
Print Assumptions C11_padding.
Example C11_ex1 : let a := mkArr 2 3 (fun y x => [y; x; 10 * y + x; 7; 8; 9]) in
  match pad 0 255 6 a (mkTrbl 1 0 0 2) PMConstant (CvMulti [1; 2; 3; 4; 500; -6]) with
  | Ok r => ah r = 3 /\ aw r = 5 /\ apx r 0 0 = [1; 2; 3; 4; 255; 0] /\ apx r 2 4 = [1; 2; 12; 7; 8; 9]
  | _ => False end.
Proof. vm_compute. auto. Qed.
Example C11_ex2 : let a := mkArr 1 3 (fun y x => [x]) in
  match pad 0 255 1 a (mkTrbl 0 0 0 3) PMReflect (CvScalar 0),
        pad 0 255 1 a (mkTrbl 0 0 0 3) PMSymmetric (CvScalar 0) with
  | Ok r, Ok s => map (apx r 0) [0;1;2;3;4;5] = [[1];[2];[1];[0];[1];[2]] /\
                  map (apx s 0) [0;1;2;3;4;5] = [[2];[1];[0];[0];[1];[2]]
  | _, _ => False end.
Proof. vm_compute. auto. Qed.

Theorem C11_negative_amounts_rejected : forall lo hi nc a p mode c, ~ nonneg p ->
  pad lo hi nc a p mode c = Err AssertionError.
Proof. exact pad_rejects_negative. Qed.
Print Assumptions C11_negative_amounts_rejected.
Example C11_ex3 : ~ nonneg (mkTrbl 0 0 (-1) 0).
Proof. intros (_ & _ & H & _). cbn in H. lia. Qed.

(* ---- C12: coordinates and pixels move together ---- *)

Theorem C12_image_and_keypoints_move_together : forall rp lo hi nc a ks c p mode cv,
  lo <= hi -> 1 <= ah a -> 1 <= aw a -> has_channels nc a -> nonneg c -> nonneg p -> cval_fits nc cv ->
  exists r k' c' dx dy,
    crop_and_pad_arr rp lo hi nc a c p mode cv false = Ok r /\
    crop_and_pad_kpsoi (mkKpsoi ks (ah a, aw a)) c p false = Ok k' /\
    kps_shape k' = (ah r, aw r) /\ 1 <= ah r /\ 1 <= aw r /\
    effective_crop (ah a, aw a) c c' /\
    dy = t_top p - t_top c' /\ dx = t_left p - t_left c' /\
    (forall y x, t_top c' <= y < ah a - t_bottom c' -> t_left c' <= x < aw a - t_right c' ->
       0 <= y + dy < ah r /\ 0 <= x + dx < aw r /\ apx r (y + dy) (x + dx) = apx a y x) /\
    Forall2 (fun i o => kx o == kx i + inject_Z dx /\ ky o == ky i + inject_Z dy)%Q ks (kps k').
Proof. exact crop_and_pad_together. Qed.
Print Assumptions C12_image_and_keypoints_move_together.
Example C12_ex1 : let a := mkArr 4 4 (fun y x => [10 * y + x]) in
  match crop_and_pad_arr (fun _ _ _ _ _ => []) 0 255 1 a (mkTrbl 1 9 0 2) (mkTrbl 0 0 0 5) PMConstant (CvScalar 0) false,
        crop_and_pad_kpsoi (mkKpsoi [mkKp (5#2) (1#2)] (4, 4)) (mkTrbl 1 9 0 2) (mkTrbl 0 0 0 5) false with
  | Ok r, Ok k => (ah r, aw r) = (3, 6) /\ kps_shape k = (3, 6) /\ apx r 0 5 = [10] /\
      match kps k with [q] => (kx q == 15#2)%Q /\ (ky q == -1#2)%Q | _ => False end
  | _, _ => False end.
Proof. vm_compute. auto 10. Qed.

Theorem C12_keep_size_scales_both : forall rp lo hi nc a ks c p mode cv,
  lo <= hi -> 1 <= ah a -> 1 <= aw a -> has_channels nc a -> nonneg c -> nonneg p -> cval_fits nc cv ->
  exists r0 r k0 k',
    crop_and_pad_arr rp lo hi nc a c p mode cv false = Ok r0 /\
    crop_and_pad_kpsoi (mkKpsoi ks (ah a, aw a)) c p false = Ok k0 /\
    crop_and_pad_arr rp lo hi nc a c p mode cv true = Ok r /\
    crop_and_pad_kpsoi (mkKpsoi ks (ah a, aw a)) c p true = Ok k' /\
    ah r = ah a /\ aw r = aw a /\ kps_shape k' = (ah a, aw a) /\
    r = imresize rp r0 (ah a) (aw a) /\
    Forall2 (fun i o => kx o == kx i * (inject_Z (aw a) / inject_Z (aw r0)) /\
                        ky o == ky i * (inject_Z (ah a) / inject_Z (ah r0)))%Q (kps k0) (kps k').
Proof. exact crop_and_pad_keep_size. Qed.
Print Assumptions C12_keep_size_scales_both.

Theorem C12_maps_of_image_size_move_like_the_image : forall rp lo hi nc m c p mode cv,
  lo <= hi -> 1 <= ah (m_arr m) -> 1 <= aw (m_arr m) -> has_channels nc (m_arr m) ->
  m_shape m = (ah (m_arr m), aw (m_arr m)) ->
  nonneg c -> nonneg p -> cval_fits nc cv ->
  exists m' r, crop_and_pad_map rp lo hi nc m c p mode cv false = Ok m' /\
    crop_and_pad_arr rp lo hi nc (m_arr m) c p mode cv false = Ok r /\
    arr_eq (m_arr m') r /\ m_shape m' = (ah r, aw r).
Proof. exact crop_and_pad_map_same. Qed.
Print Assumptions C12_maps_of_image_size_move_like_the_image.

(** Maps of another size than their image: amounts scaled to the map's size. *)
Theorem C12_maps_of_other_size_follow_up_to_rounding : forall rp lo hi nc m c p mode cv,
  lo <= hi -> 1 <= ah (m_arr m) -> 1 <= aw (m_arr m) -> has_channels nc (m_arr m) ->
  1 <= fst (m_shape m) -> 1 <= snd (m_shape m) ->
  nonneg c -> nonneg p -> cval_fits nc cv ->
  exists m' c1 p1 c2, crop_and_pad_map rp lo hi nc m c p mode cv false = Ok m' /\
    scaled_amounts (m_shape m) (ah (m_arr m), aw (m_arr m)) c c1 /\
    scaled_amounts (m_shape m) (ah (m_arr m), aw (m_arr m)) p p1 /\
    effective_crop (ah (m_arr m), aw (m_arr m)) c1 c2 /\
    ah (m_arr m') = ah (m_arr m) - t_top c2 - t_bottom c2 + t_top p1 + t_bottom p1 /\
    aw (m_arr m') = aw (m_arr m) - t_left c2 - t_right c2 + t_left p1 + t_right p1 /\
    1 <= ah (m_arr m') /\ 1 <= aw (m_arr m') /\
    m_shape m' = shape_after_crop_and_pad (m_shape m) c p /\
    forall y x, t_top c2 <= y < ah (m_arr m) - t_bottom c2 -> t_left c2 <= x < aw (m_arr m) - t_right c2 ->
      apx (m_arr m') (y + (t_top p1 - t_top c2)) (x + (t_left p1 - t_left c2)) = apx (m_arr m) y x.
Proof. exact crop_and_pad_map_any_scaled. Qed.
Print Assumptions C12_maps_of_other_size_follow_up_to_rounding.
Example C12_ex2 : let m := mkMapoi (mkArr 4 4 (fun y x => [10 * y + x])) (8, 12) in
  match crop_and_pad_map (fun _ _ _ _ _ => []) 0 255 1 m (mkTrbl 2 0 0 3) trbl0 PMConstant (CvScalar 0) false with
  | Ok m' => (ah (m_arr m'), aw (m_arr m')) = (3, 3) /\ m_shape m' = (6, 9) /\ apx (m_arr m') 0 0 = [11]
  | _ => False end.
Proof. vm_compute. auto. Qed.

(* ---- C13: multiples ---- *)

Theorem C13_padding_to_multiples : forall h w mh mw p,
  0 <= h -> 0 <= w -> paddings_multiples_of (h, w) mh mw = Ok p ->
  nonneg p /\
  t_top p <= t_bottom p <= t_top p + 1 /\ t_left p <= t_right p <= t_left p + 1 /\
  (match mh with
   | None => t_top p = 0 /\ t_bottom p = 0
   | Some m => 0 < m /\ multiple_of m (h + t_top p + t_bottom p) /\ 0 < h + t_top p + t_bottom p /\
       forall v, multiple_of m v -> 0 < v -> h <= v -> h + t_top p + t_bottom p <= v
   end) /\
  (match mw with
   | None => t_left p = 0 /\ t_right p = 0
   | Some m => 0 < m /\ multiple_of m (w + t_left p + t_right p) /\ 0 < w + t_left p + t_right p /\
       forall v, multiple_of m v -> 0 < v -> w <= v -> w + t_left p + t_right p <= v
   end).
Proof. exact paddings_multiples_spec. Qed.
Print Assumptions C13_padding_to_multiples.
Example C13_ex1 : paddings_multiples_of (10, 7) (Some 4) (Some 10) = Ok (mkTrbl 1 2 1 1).
Proof. reflexivity. Qed.

Theorem C13_cropping_to_multiples : forall h w mh mw c,
  0 <= h -> 0 <= w -> croppings_multiples_of (h, w) mh mw = Ok c ->
  nonneg c /\
  t_top c <= t_bottom c <= t_top c + 1 /\ t_left c <= t_right c <= t_left c + 1 /\
  (match mh with
   | None => t_top c = 0 /\ t_bottom c = 0
   | Some m => 0 < m /\ multiple_of m (h - t_top c - t_bottom c) /\ 0 <= h - t_top c - t_bottom c /\
       forall v, multiple_of m v -> v <= h -> v <= h - t_top c - t_bottom c
   end) /\
  (match mw with
   | None => t_left c = 0 /\ t_right c = 0
   | Some m => 0 < m /\ multiple_of m (w - t_left c - t_right c) /\ 0 <= w - t_left c - t_right c /\
       forall v, multiple_of m v -> v <= w -> v <= w - t_left c - t_right c
   end).
Proof. exact croppings_multiples_spec. Qed.
Print Assumptions C13_cropping_to_multiples.
Example C13_ex2 : croppings_multiples_of (10, 7) (Some 4) None = Ok (mkTrbl 1 0 1 0).
Proof. reflexivity. Qed.

Theorem C13_valid_multiples_accepted : forall s mh mw,
  (forall m, mh = Some m \/ mw = Some m -> 0 < m) ->
  (exists p, paddings_multiples_of s mh mw = Ok p) /\
  (exists c, croppings_multiples_of s mh mw = Ok c).
Proof. exact multiples_accepts. Qed.
Print Assumptions C13_valid_multiples_accepted.

Theorem C13_nonpositive_multiples_rejected : forall s mh mw,
  (exists m, (mh = Some m \/ mw = Some m) /\ m <= 0) ->
  paddings_multiples_of s mh mw = Err AssertionError /\
  croppings_multiples_of s mh mw = Err AssertionError.
Proof. exact multiples_rejects. Qed.
Print Assumptions C13_nonpositive_multiples_rejected.

(** The augmenters CropToMultiplesOf / PadToMultiplesOf: wherever the
    crop/padding is placed, the size is the right multiple. *)
Theorem C13_augmenter_crops_to_multiples_at_any_position : forall h w hm wm px py c,
  0 <= h -> 0 <= w ->
  (0 <= px)%Q -> (px <= 1)%Q -> (0 <= py)%Q -> (py <= 1)%Q ->
  crop_to_multiples_amounts (h, w) hm wm px py = Ok c ->
  nonneg c /\
  (forall m, hm = Some m -> multiple_of m (h - t_top c - t_bottom c) /\
     forall v, multiple_of m v -> v <= h -> v <= h - t_top c - t_bottom c) /\
  (forall m, wm = Some m -> multiple_of m (w - t_left c - t_right c) /\
     forall v, multiple_of m v -> v <= w -> v <= w - t_left c - t_right c).
Proof. exact positions_do_not_matter_multiples. Qed.
Print Assumptions C13_augmenter_crops_to_multiples_at_any_position.
Theorem C13_augmenter_pads_to_multiples_at_any_position : forall h w hm wm px py c,
  0 <= h -> 0 <= w ->
  (0 <= px)%Q -> (px <= 1)%Q -> (0 <= py)%Q -> (py <= 1)%Q ->
  pad_to_multiples_amounts (h, w) hm wm px py = Ok c ->
  nonneg c /\
  (forall m, hm = Some m -> multiple_of m (h + t_top c + t_bottom c) /\ 0 < h + t_top c + t_bottom c /\
     forall v, multiple_of m v -> 0 < v -> h <= v -> h + t_top c + t_bottom c <= v) /\
  (forall m, wm = Some m -> multiple_of m (w + t_left c + t_right c) /\ 0 < w + t_left c + t_right c /\
     forall v, multiple_of m v -> 0 < v -> w <= v -> w + t_left c + t_right c <= v).
Proof. exact positions_do_not_matter_pad_multiples. Qed.
Print Assumptions C13_augmenter_pads_to_multiples_at_any_position.
Example C13_ex3 : pad_to_multiples_amounts (10, 7) (Some 4) (Some 10) (1#3) 0 = Ok (mkTrbl 2 1 0 2) /\
  crop_to_multiples_amounts (10, 7) (Some 4) (Some 5) (1#3) 0 = Ok (mkTrbl 2 1 0 1).
Proof. split; vm_compute; reflexivity. Qed.

(* ---- C14: aspect ratios ---- *)

Theorem C14_padding_to_aspect_ratio : forall h w r p, 0 <= h -> 0 <= w ->
  paddings_aspect_ratio (h, w) r = Ok p ->
  let H := h + t_top p + t_bottom p in
  let W := w + t_left p + t_right p in
  (0 < r)%Q /\ nonneg p /\
  ((H = Z.max h 1 /\ (r * inject_Z H - 1 < inject_Z W)%Q /\ (inject_Z W < r * inject_Z H + 1)%Q /\
    (forall n, (r * inject_Z H == inject_Z n)%Q -> W = n)) \/
   (W = Z.max w 1 /\ (inject_Z W / r - 1 < inject_Z H)%Q /\ (inject_Z H < inject_Z W / r + 1)%Q /\
    (forall n, (inject_Z W / r == inject_Z n)%Q -> H = n))).
Proof. exact paddings_aspect_ratio_spec. Qed.
Print Assumptions C14_padding_to_aspect_ratio.
Example C14_ex1 : paddings_aspect_ratio (10, 7) (4#3) = Ok (mkTrbl 0 4 0 3) /\
  paddings_aspect_ratio (10, 33) (2#1) = Ok (mkTrbl 3 0 4 0).
Proof. split; vm_compute; reflexivity. Qed.

Theorem C14_padding_to_square : forall h w p, 0 <= h -> 0 <= w ->
  paddings_aspect_ratio (h, w) 1 = Ok p ->
  h + t_top p + t_bottom p = Z.max 1 (Z.max h w) /\ w + t_left p + t_right p = Z.max 1 (Z.max h w).
Proof. exact pad_to_square. Qed.
Print Assumptions C14_padding_to_square.

Theorem C14_cropping_to_aspect_ratio : forall h w r c, 1 <= h -> 1 <= w ->
  croppings_aspect_ratio (h, w) r = Ok c ->
  let H := h - t_top c - t_bottom c in
  let W := w - t_left c - t_right c in
  (0 < r)%Q /\ nonneg c /\ 1 <= H /\ 1 <= W /\
  ((H = h /\ (qmax 1 (r * inject_Z H) - 1 < inject_Z W)%Q /\ (inject_Z W < qmax 1 (r * inject_Z H) + 1)%Q /\
    (forall n, 1 <= n -> (r * inject_Z H == inject_Z n)%Q -> W = n)) \/
   (W = w /\ (qmax 1 (inject_Z W / r) - 1 < inject_Z H)%Q /\ (inject_Z H < qmax 1 (inject_Z W / r) + 1)%Q /\
    (forall n, 1 <= n -> (inject_Z W / r == inject_Z n)%Q -> H = n))).
Proof. exact croppings_aspect_ratio_spec. Qed.
Print Assumptions C14_cropping_to_aspect_ratio.
Example C14_ex2 : croppings_aspect_ratio (10, 7) (4#3) = Ok (mkTrbl 2 0 3 0) /\
  croppings_aspect_ratio (2, 100) (1#10) = Ok (mkTrbl 0 50 0 49).
Proof. split; vm_compute; reflexivity. Qed.

Theorem C14_valid_ratios_accepted : forall h w r, 1 <= h -> (0 < r)%Q ->
  (exists p, paddings_aspect_ratio (h, w) r = Ok p) /\
  (exists c, croppings_aspect_ratio (h, w) r = Ok c).
Proof. exact aspect_accepts. Qed.
Print Assumptions C14_valid_ratios_accepted.

(* ---- C15: powers ---- *)

(** [lq] is the floating point estimate of the logarithm that the code
    computes. Missing for the full claim: minimality when the size already is a
    power b^k with k >= 2, where the code may go one power too far (refuted
    below), sizes above 2^40, and size 1 with allow_zero_exponent (refuted below). *)
Theorem C15_padding_reaches_power_partial : forall lq az h w bh bw p, log_accurate lq ->
  0 <= h <= 2 ^ 40 -> 0 <= w <= 2 ^ 40 ->
  paddings_powers_of lq az (h, w) bh bw = Ok p ->
  (forall b, bh = Some b -> ~ (az = true /\ h = 1) -> pad_power_result az b h (t_top p) (t_bottom p)) /\
  (forall b, bw = Some b -> ~ (az = true /\ w = 1) -> pad_power_result az b w (t_left p) (t_right p)) /\
  (bh = None -> t_top p = 0 /\ t_bottom p = 0) /\ (bw = None -> t_left p = 0 /\ t_right p = 0).
Proof. exact paddings_powers_full. Qed.
Print Assumptions C15_padding_reaches_power_partial.
Example C15_ex1 : paddings_powers_of (fun _ _ => 33#10) false (10, 7) (Some 2) None = Ok (mkTrbl 3 0 3 0).
Proof. vm_compute. reflexivity. Qed.
Example C15_ex2 : exists lq, log_accurate lq.
Proof. exists lq_up. exact lq_up_accurate. Qed.

Theorem C15_cropping_reaches_power_partial : forall lq az h w bh bw c, log_accurate lq ->
  1 <= h <= 2 ^ 40 -> 1 <= w <= 2 ^ 40 ->
  croppings_powers_of lq az (h, w) bh bw = Ok c ->
  (forall b, bh = Some b -> crop_power_result az b h (t_top c) (t_bottom c)) /\
  (forall b, bw = Some b -> crop_power_result az b w (t_left c) (t_right c)) /\
  (bh = None -> t_top c = 0 /\ t_bottom c = 0) /\ (bw = None -> t_left c = 0 /\ t_right c = 0).
Proof. exact croppings_powers_full. Qed.
Print Assumptions C15_cropping_reaches_power_partial.

(** With exact logarithms the claim holds without a size limit. *)
Theorem C15_padding_minimal_if_logarithm_exact : forall lq az n b,
  0 <= n -> 1 < b -> ~ (az = true /\ n = 1) ->
  (b < n -> log_up n b (Qceiling (lq n b))) ->
  let d := pad_power_axis lq az n (Some b) in
  let e0 := if az then 0 else 1 in
  0 <= d /\ power_of b e0 (n + d) /\ (forall v, power_of b e0 v -> n <= v -> n + d <= v).
Proof. exact pad_power_axis_spec. Qed.
Print Assumptions C15_padding_minimal_if_logarithm_exact.

Theorem C15_padding_is_minimal_at_powers_refuted : exists lq, log_accurate lq /\
  125 + pad_power_axis lq false 125 (Some 5) = 625.
Proof. exact pad_overshoots. Qed.
Print Assumptions C15_padding_is_minimal_at_powers_refuted.

Theorem C15_allow_zero_exponent_keeps_size_one_refuted : forall lq,
  exists b, 1 < b /\ power_of b 0 1 /\ 1 + pad_power_axis lq true 1 (Some b) = b.
Proof. exact pad_zero_exponent_ignored. Qed.
Print Assumptions C15_allow_zero_exponent_keeps_size_one_refuted.

Theorem C15_bad_bases_rejected : forall lq az s bh bw,
  (exists b, (bh = Some b \/ bw = Some b) /\ b <= 1) ->
  paddings_powers_of lq az s bh bw = Err AssertionError /\
  croppings_powers_of lq az s bh bw = Err AssertionError.
Proof. exact powers_rejects. Qed.
Print Assumptions C15_bad_bases_rejected.

(* ---- C16: fixed size ---- *)

Theorem C16_pad_to_fixed_size : forall h w hm wm px py p,
  (0 <= px)%Q -> (px <= 1)%Q -> (0 <= py)%Q -> (py <= 1)%Q ->
  calculate_paddings (h, w) hm wm px py = p ->
  nonneg p /\
  h + t_top p + t_bottom p = match hm with None => h | Some v => Z.max h v end /\
  w + t_left p + t_right p = match wm with None => w | Some v => Z.max w v end.
Proof. exact calculate_paddings_spec. Qed.
Print Assumptions C16_pad_to_fixed_size.
Example C16_ex1 : calculate_paddings (10, 7) (Some 20) (Some 5) (1#2) (3#10) = mkTrbl 7 0 3 0.
Proof. vm_compute. reflexivity. Qed.

Theorem C16_crop_to_fixed_size : forall h w hm wm px py c,
  (0 <= px)%Q -> (px <= 1)%Q -> (0 <= py)%Q -> (py <= 1)%Q ->
  calculate_crop_amounts (h, w) hm wm px py = c ->
  nonneg c /\
  h - t_top c - t_bottom c = match hm with None => h | Some v => Z.min h v end /\
  w - t_left c - t_right c = match wm with None => w | Some v => Z.min w v end.
Proof. exact calculate_crops_spec. Qed.
Print Assumptions C16_crop_to_fixed_size.
Example C16_ex2 : calculate_crop_amounts (10, 7) (Some 4) None (1#2) (1#3) = mkTrbl 4 0 2 0.
Proof. vm_compute. reflexivity. Qed.

(** Position 0: everything before (left/top); position 1: everything after. *)
Theorem C16_pad_positions : forall size v, size <= v ->
  pad_fixed_axis size (Some v) 0 = (v - size, 0) /\ pad_fixed_axis size (Some v) 1 = (0, v - size).
Proof. exact pad_fixed_ends. Qed.
Print Assumptions C16_pad_positions.
Theorem C16_crop_positions : forall size v, v <= size ->
  crop_fixed_axis size (Some v) 0 = (size - v, 0) /\ crop_fixed_axis size (Some v) 1 = (0, size - v).
Proof. exact crop_fixed_ends. Qed.
Print Assumptions C16_crop_positions.

(* ---- C17: Resize ---- *)

(** [side_specs] says which of the two given values is for the height and which
    for the width; [resolve_side] is pinned down by the next theorem. *)
Theorem C17_target_size : forall imh imw a b sl h w hs ws,
  1 <= imh -> 1 <= imw -> side_specs imh imw a b sl = (hs, ws) ->
  compute_height_width imh imw a b sl = Ok (h, w) ->
  (hs <> SKeepAspect \/ ws <> SKeepAspect) /\
  (hs <> SKeepAspect -> resolve_side imh hs = Ok (Some h)) /\
  (ws <> SKeepAspect -> resolve_side imw ws = Ok (Some w)) /\
  (hs = SKeepAspect -> (inject_Z h - (1#2) <= inject_Z w * (inject_Z imh / inject_Z imw))%Q /\
                       (inject_Z w * (inject_Z imh / inject_Z imw) <= inject_Z h + (1#2))%Q) /\
  (ws = SKeepAspect -> (inject_Z w - (1#2) <= inject_Z h * (inject_Z imw / inject_Z imh))%Q /\
                       (inject_Z h * (inject_Z imw / inject_Z imh) <= inject_Z w + (1#2))%Q).
Proof. exact compute_height_width_spec. Qed.
Print Assumptions C17_target_size.
Example C17_ex1 : compute_height_width 100 200 (SInt 50) SKeepAspect true = Ok (50, 100) /\
  compute_height_width 200 100 (SInt 50) SKeepAspect true = Ok (100, 50) /\
  compute_height_width 33 20 (SFloat (1#100)) SKeep false = Ok (1, 20).
Proof. repeat split; vm_compute; reflexivity. Qed.

Theorem C17_value_of_one_side : forall im s v, 1 <= im -> resolve_side im s = Ok (Some v) ->
  match s with
  | SInt n => v = n
  | SFloat q => (0 < q)%Q /\ 1 <= v /\
      ((inject_Z v - (1#2) <= inject_Z im * q)%Q /\ (inject_Z im * q <= inject_Z v + (1#2))%Q \/
       (v = 1 /\ (inject_Z im * q <= 1#2)%Q))
  | SKeep => v = im
  | SKeepAspect => False
  end.
Proof. exact resolve_side_spec. Qed.
Print Assumptions C17_value_of_one_side.

Theorem C17_valid_specifications_accepted : forall imh imw a b sl,
  1 <= imh -> 1 <= imw -> (forall q, a = SFloat q \/ b = SFloat q -> (0 < q)%Q) ->
  (a <> SKeepAspect \/ b <> SKeepAspect) ->
  exists h w, compute_height_width imh imw a b sl = Ok (h, w).
Proof. exact compute_height_width_total. Qed.
Print Assumptions C17_valid_specifications_accepted.

(** keep-aspect-ratio, unlike a float, is not raised to at least one pixel. *)
Theorem C17_keep_aspect_ratio_never_empties_refuted :
  compute_height_width 1 100 SKeepAspect (SInt 10) false = Ok (0, 10).
Proof. exact resize_keep_aspect_may_be_empty. Qed.
Print Assumptions C17_keep_aspect_ratio_never_empties_refuted.

Theorem C17_maps_follow_their_image : forall ah_ aw_ ih iw h w,
  1 <= ah_ -> 1 <= aw_ -> 1 <= ih -> 1 <= iw ->
  let '(mh, mw) := resize_map_size (ah_, aw_) (ih, iw) h w in
  1 <= mh /\ 1 <= mw /\
  (inject_Z h * (inject_Z ah_ / inject_Z ih) <= inject_Z mh + (1#2))%Q /\
  (mh = 1 \/ (inject_Z mh - (1#2) <= inject_Z h * (inject_Z ah_ / inject_Z ih))%Q) /\
  (inject_Z w * (inject_Z aw_ / inject_Z iw) <= inject_Z mw + (1#2))%Q /\
  (mw = 1 \/ (inject_Z mw - (1#2) <= inject_Z w * (inject_Z aw_ / inject_Z iw))%Q) /\
  ((ah_, aw_) = (ih, iw) -> 1 <= h -> 1 <= w -> (mh, mw) = (h, w)).
Proof. exact resize_map_size_spec. Qed.
Print Assumptions C17_maps_follow_their_image.
Example C17_ex2 : resize_map_size (10, 20) (100, 200) 55 7 = (6, 1).
Proof. vm_compute. reflexivity. Qed.
