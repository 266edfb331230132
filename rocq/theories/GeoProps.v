(** Property theorems C01-C08 (coordinates: projection, boxes, keypoints). *)
From Verif Require Import Prelude GeoModel GeoSpec GeoProofs.
Local Open Scope Q_scope.

(* ---- C01: projection ---- *)

Theorem C01_projection_scales_exactly : forall pts h w h' w',
  (0 < h)%Z -> (0 < w)%Z -> (0 < h')%Z -> (0 < w')%Z ->
  exists out, project_coords pts (h, w) (h', w') = Ok out /\
  Forall2 (fun p q => fst q == fst p * (inject_Z w' / inject_Z w) /\
                      snd q == snd p * (inject_Z h' / inject_Z h)) pts out.
Proof. exact project_coords_scale. Qed.
Print Assumptions C01_projection_scales_exactly.
Example C01_ex1 : match project_coords [(3, 5); (-1, 7)] (10, 20)%Z (30, 10)%Z with
  | Ok [(a, b); (c, d)] => a == 3#2 /\ b == 15 /\ c == -1#2 /\ d == 21
  | _ => False end.
Proof. vm_compute. repeat split. Qed.

Theorem C01_projection_back_restores : forall pts h w h' w',
  (0 < h)%Z -> (0 < w)%Z -> (0 < h')%Z -> (0 < w')%Z ->
  exists mid out, project_coords pts (h, w) (h', w') = Ok mid /\
  project_coords mid (h', w') (h, w) = Ok out /\ Forall2 pt_eq pts out.
Proof. exact project_coords_roundtrip. Qed.
Print Assumptions C01_projection_back_restores.
Example C01_ex2 : (0 < 7 /\ 0 < 3 /\ 0 < 11 /\ 0 < 5)%Z /\
  match project_coords [(1, 2)] (7, 3)%Z (11, 5)%Z with Ok [(a, _)] => ~ a == 1 | _ => False end.
Proof. vm_compute. repeat split; discriminate. Qed.

Theorem C01_projection_via_intermediate : forall pts h w h' w' h'' w'',
  (0 < h)%Z -> (0 < w)%Z -> (0 < h')%Z -> (0 < w')%Z -> (0 < h'')%Z -> (0 < w'')%Z ->
  exists mid out out', project_coords pts (h, w) (h', w') = Ok mid /\
  project_coords mid (h', w') (h'', w'') = Ok out /\
  project_coords pts (h, w) (h'', w'') = Ok out' /\ Forall2 pt_eq out out'.
Proof. exact project_coords_compose. Qed.
Print Assumptions C01_projection_via_intermediate.
Example C01_ex3 : exists mid out, project_coords [(1, 2)] (7, 3)%Z (11, 5)%Z = Ok mid /\
  project_coords mid (11, 5)%Z (3, 3)%Z = Ok out /\ out <> [(1,2)].
Proof. eexists; eexists; vm_compute. repeat split. discriminate. Qed.

Theorem C01_projection_same_size_is_identity : forall pts s, project_coords pts s s = Ok pts.
Proof. exact project_coords_same. Qed.
Print Assumptions C01_projection_same_size_is_identity.

Theorem C01_projection_rejects_nonpositive_sizes : forall pts h w h' w',
  (h, w) <> (h', w') -> (h <= 0 \/ w <= 0 \/ h' <= 0 \/ w' <= 0)%Z ->
  project_coords pts (h, w) (h', w') = Err AssertionError.
Proof. exact project_coords_reject. Qed.
Print Assumptions C01_projection_rejects_nonpositive_sizes.
Example C01_ex4 : (0, 5)%Z <> (3, 5)%Z /\ (0 <= 0 \/ 5 <= 0 \/ 3 <= 0 \/ 5 <= 0)%Z.
Proof. split; [discriminate|left; apply Z.le_refl]. Qed.

Theorem C01_keypoints_container_projects : forall k h' w',
  (0 < fst (kps_shape k))%Z -> (0 < snd (kps_shape k))%Z -> (0 < h')%Z -> (0 < w')%Z ->
  exists k', kpsoi_on k (h', w') = Ok k' /\ kps_shape k' = (h', w') /\
   Forall2 (fun a b => kx b == kx a * (inject_Z w' / inject_Z (snd (kps_shape k))) /\
                       ky b == ky a * (inject_Z h' / inject_Z (fst (kps_shape k))))
           (kps k) (kps k').
Proof. exact kpsoi_on_scale. Qed.
Print Assumptions C01_keypoints_container_projects.

Theorem C01_boxes_container_projects : forall k h' w',
  (0 < fst (bbs_shape k))%Z -> (0 < snd (bbs_shape k))%Z -> (0 < h')%Z -> (0 < w')%Z ->
  exists k', bbsoi_on k (h', w') = Ok k' /\ bbs_shape k' = (h', w') /\
   Forall2 (fun a b => label b = label a /\
                       x1 b == x1 a * (inject_Z w' / inject_Z (snd (bbs_shape k))) /\
                       y1 b == y1 a * (inject_Z h' / inject_Z (fst (bbs_shape k))) /\
                       x2 b == x2 a * (inject_Z w' / inject_Z (snd (bbs_shape k))) /\
                       y2 b == y2 a * (inject_Z h' / inject_Z (fst (bbs_shape k))))
           (bbs k) (bbs k').
Proof. exact bbsoi_on_scale. Qed.
Print Assumptions C01_boxes_container_projects.
Example C01_ex5 : exists r, bbsoi_on (mkBbsoi [mkBB 1 2 3 4 (Some 5%Z)] (10, 10)%Z) (20, 30)%Z = Ok r.
Proof. eexists. reflexivity. Qed.

(* ---- C02: intersection and union ---- *)

Theorem C02_constructor_orders_corners : forall a b c d l,
  proper (bb_new a b c d l) /\
  same_corners (bb_new a b c d l) (mkBB (qmin a c) (qmin b d) (qmax a c) (qmax b d) l).
Proof. exact (fun a b c d l => conj (bb_new_proper a b c d l) (proj1 (bb_new_corners a b c d l))). Qed.
Print Assumptions C02_constructor_orders_corners.

Theorem C02_contains_is_membership : forall b x y,
  bb_contains b (x, y) = true <-> in_box b x y.
Proof. exact bb_contains_iff. Qed.
Print Assumptions C02_contains_is_membership.

Theorem C02_intersection_is_common_points : forall a b c x y,
  bb_intersection a b = Some c ->
  (in_box c x y <-> in_box a x y /\ in_box b x y).
Proof. exact bb_intersection_points. Qed.
Print Assumptions C02_intersection_is_common_points.
Example C02_ex1 : exists c, bb_intersection (bb_new 5 0 1 4 None) (mkBB 2 3 9 9 None) = Some c
  /\ bb_area c == 3.
Proof. eexists. split; [reflexivity|]. reflexivity. Qed.

Theorem C02_no_intersection_means_disjoint : forall a b,
  bb_intersection a b = None -> forall x y, ~ (in_box a x y /\ in_box b x y).
Proof. exact bb_intersection_none_points. Qed.
Print Assumptions C02_no_intersection_means_disjoint.
Example C02_ex2 : bb_intersection (mkBB 0 0 1 1 None) (mkBB 2 0 3 1 None) = None.
Proof. reflexivity. Qed.

Theorem C02_intersection_means_common_point : forall a b c,
  bb_intersection a b = Some c -> proper c /\ exists x y, in_box a x y /\ in_box b x y.
Proof. exact bb_intersection_some_proper. Qed.
Print Assumptions C02_intersection_means_common_point.

Theorem C02_intersection_commutes : forall a b,
  match bb_intersection a b, bb_intersection b a with
  | Some c, Some d => same_corners c d
  | None, None => True
  | _, _ => False
  end.
Proof. exact bb_intersection_comm. Qed.
Print Assumptions C02_intersection_commutes.

Theorem C02_union_contains_both : forall a b, proper a -> proper b ->
  box_subset a (bb_union a b) /\ box_subset b (bb_union a b) /\ proper (bb_union a b).
Proof. exact bb_union_contains. Qed.
Print Assumptions C02_union_contains_both.
Example C02_ex3 : proper (bb_new 5 0 1 4 None) /\ proper (mkBB 2 3 9 9 None)
  /\ bb_area (bb_union (bb_new 5 0 1 4 None) (mkBB 2 3 9 9 None)) == 72.
Proof. vm_compute. repeat split; discriminate. Qed.

Theorem C02_union_is_smallest : forall a b c, proper a -> proper b ->
  box_subset a c -> box_subset b c -> box_subset (bb_union a b) c.
Proof. exact bb_union_least. Qed.
Print Assumptions C02_union_is_smallest.

Theorem C02_union_commutes : forall a b, same_corners (bb_union a b) (bb_union b a).
Proof. exact bb_union_comm. Qed.
Print Assumptions C02_union_commutes.

(* ---- C03: IoU ---- *)

Theorem C03_iou_in_unit_interval : forall a b, proper a -> proper b ->
  exists v, bb_iou a b = Ok v /\ 0 <= v /\ v <= 1.
Proof. exact bb_iou_range. Qed.
Print Assumptions C03_iou_in_unit_interval.
Example C03_ex1 : exists v, bb_iou (mkBB 0 0 2 2 None) (mkBB 1 0 3 2 None) = Ok v /\ v == 1#3.
Proof. eexists. split; [reflexivity|]. reflexivity. Qed.
Example C03_ex2_degenerate : proper (mkBB 1 1 1 1 None) /\
  bb_iou (mkBB 1 1 1 1 None) (mkBB 1 1 1 1 None) = Ok 0.
Proof. split; [split; apply Qle_refl|reflexivity]. Qed.

Theorem C03_iou_symmetric : forall a b, proper a -> proper b ->
  exists v w, bb_iou a b = Ok v /\ bb_iou b a = Ok w /\ v == w.
Proof. exact bb_iou_sym. Qed.
Print Assumptions C03_iou_symmetric.

Theorem C03_iou_zero_when_disjoint : forall a b,
  (forall x y, ~ (in_box a x y /\ in_box b x y)) -> bb_iou a b = Ok 0.
Proof. exact bb_iou_disjoint. Qed.
Print Assumptions C03_iou_zero_when_disjoint.
Example C03_ex3 : forall x y, ~ (in_box (mkBB 0 0 1 1 None) x y /\ in_box (mkBB 2 0 3 1 None) x y).
Proof. apply bb_intersection_none_points. reflexivity. Qed.

Theorem C03_iou_of_box_with_itself : forall a, proper a -> 0 < bb_area a ->
  exists v, bb_iou a a = Ok v /\ v == 1.
Proof. exact bb_iou_self. Qed.
Print Assumptions C03_iou_of_box_with_itself.

Theorem C03_iou_one_means_same_corners : forall a b v, proper a -> proper b ->
  bb_iou a b = Ok v -> v == 1 -> same_corners a b.
Proof. exact bb_iou_one. Qed.
Print Assumptions C03_iou_one_means_same_corners.
Example C03_ex4 : proper (mkBB 0 0 2 2 None) /\ 0 < bb_area (mkBB 0 0 2 2 None).
Proof. vm_compute. repeat split; discriminate. Qed.

(** The overlap of the boxes over the area covered by at least one of them. *)
Theorem C03_iou_is_overlap_over_union : forall a b c, proper a -> proper b ->
  bb_intersection a b = Some c -> 0 < bb_area a + bb_area b - bb_area c ->
  exists v, bb_iou a b = Ok v /\ v * (bb_area a + bb_area b - bb_area c) == bb_area c.
Proof. exact bb_iou_value. Qed.
Print Assumptions C03_iou_is_overlap_over_union.

(* ---- C04: clipping ---- *)

Theorem C04_clip_result_in_plane_and_not_larger : forall b b' s, proper b ->
  bb_clip_out_of_image b s = Ok b' ->
  proper b' /\ label b' = label b /\ box_in_plane b' s /\ bb_is_fully_within_image b' s = true
  /\ bb_width b' <= bb_width b /\ bb_height b' <= bb_height b.
Proof. exact bb_clip_in_plane. Qed.
Print Assumptions C04_clip_result_in_plane_and_not_larger.
Example C04_ex1 : exists b', bb_clip_out_of_image (mkBB (-2) (-3) 100 5 (Some 1%Z)) (10, 20)%Z = Ok b'
  /\ proper (mkBB (-2) (-3) 100 5 (Some 1%Z)) /\ x1 b' == 0 /\ y2 b' == 5.
Proof. eexists. vm_compute. repeat split; discriminate. Qed.

Theorem C04_clip_idempotent : forall b b' s, proper b ->
  bb_clip_out_of_image b s = Ok b' ->
  exists b'', bb_clip_out_of_image b' s = Ok b'' /\ same_box b'' b'.
Proof. exact bb_clip_idem. Qed.
Print Assumptions C04_clip_idempotent.

Theorem C04_clip_leaves_inside_boxes : forall b h w, (0 < h)%Z -> (0 < w)%Z -> proper b ->
  0 <= x1 b -> x2 b <= inject_Z w - f32_eps -> 0 <= y1 b -> y2 b <= inject_Z h - f32_eps ->
  exists b', bb_clip_out_of_image b (h, w) = Ok b' /\ same_box b' b.
Proof. exact bb_clip_inside_id. Qed.
Print Assumptions C04_clip_leaves_inside_boxes.
Example C04_ex2 : proper (mkBB 1 2 3 4 None) /\ 3 <= inject_Z 4 - f32_eps /\ 4 <= inject_Z 5 - f32_eps.
Proof. vm_compute. repeat split; discriminate. Qed.

(** A box can be fully within the image by [is_fully_within_image] and still be
    changed by clipping, if its far edge lies in the last 2^-23 below the image
    border (the clip limit is [size - eps], the test is [< size]). *)
Theorem C04_clip_leaves_fully_inside_boxes_refuted : exists b b' s,
  proper b /\ bb_is_fully_within_image b s = true /\
  bb_clip_out_of_image b s = Ok b' /\ ~ same_box b' b.
Proof. exact clip_changes_inside. Qed.
Print Assumptions C04_clip_leaves_fully_inside_boxes_refuted.

Theorem C04_clip_is_exactly_the_visible_part : forall b b' h w, proper b ->
  bb_is_partly_within_image b (h, w) = true ->
  bb_clip_out_of_image b (h, w) = Ok b' ->
  forall x y, in_box b' x y <->
    in_box b x y /\ 0 <= x /\ x <= inject_Z w - f32_eps /\ 0 <= y /\ y <= inject_Z h - f32_eps.
Proof. exact bb_clip_points. Qed.
Print Assumptions C04_clip_is_exactly_the_visible_part.
Example C04_ex3 : bb_is_partly_within_image (mkBB (-2) (-3) 100 5 None) (10, 20)%Z = true
  /\ bb_is_fully_within_image (mkBB (-2) (-3) 100 5 None) (10, 20)%Z = false.
Proof. split; reflexivity. Qed.

Theorem C04_container_clip : forall b h w, (0 < h)%Z -> (0 < w)%Z -> bbs_shape b = (h, w) ->
  Forall proper (bbs b) ->
  exists b', bbsoi_clip_out_of_image b = Ok b' /\ bbs_shape b' = (h, w) /\
    Forall2 (fun i o => bb_clip_out_of_image i (h, w) = Ok o /\
                        bb_is_fully_within_image o (h, w) = true)
            (filter (fun i => bb_is_partly_within_image i (h, w)) (bbs b)) (bbs b').
Proof. exact bbsoi_clip_spec. Qed.
Print Assumptions C04_container_clip.
Example C04_ex4 : exists r, bbsoi_clip_out_of_image
  (mkBbsoi [mkBB (-2) (-3) 100 5 None; mkBB 50 50 60 60 None] (10, 20)%Z) = Ok r /\ length (bbs r) = 1%nat.
Proof. eexists. split; reflexivity. Qed.

Theorem C04_clip_rejects_empty_images : forall b h w, (h <= 0 \/ w <= 0)%Z ->
  bb_clip_out_of_image b (h, w) = Err AssertionError.
Proof. exact bb_clip_reject. Qed.
Print Assumptions C04_clip_rejects_empty_images.

Theorem C04_partly_within_meaning : forall b h w, (0 < h)%Z -> (0 < w)%Z -> proper b ->
  (bb_is_partly_within_image b (h, w) = true <->
   exists x y, in_box b x y /\ 0 <= x /\ x <= inject_Z w - f32_eps /\
               0 <= y /\ y <= inject_Z h - f32_eps).
Proof. exact bb_partly_iff. Qed.
Print Assumptions C04_partly_within_meaning.

Theorem C04_fully_within_meaning : forall b s, proper b ->
  (bb_is_fully_within_image b s = true <-> box_in_plane b s).
Proof. exact fully_within_iff. Qed.
Print Assumptions C04_fully_within_meaning.

(* ---- C05: out-of-image fraction ---- *)

Theorem C05_fraction_is_a_fraction : forall b s, proper b -> (0 <= fst s)%Z -> (0 <= snd s)%Z ->
  exists f, bb_out_of_image_fraction b s = Ok f /\ 0 <= f /\ f <= 1 /\
    (0 < bb_area b -> f * bb_area b + visible_area b s == bb_area b) /\
    (bb_area b == 0 -> f == 0 \/ f == 1).
Proof. exact fraction_spec. Qed.
Print Assumptions C05_fraction_is_a_fraction.
Example C05_ex1 : exists f, bb_out_of_image_fraction (mkBB (-1) 0 3 4 None) (10, 10)%Z = Ok f
  /\ f == 1#4 /\ proper (mkBB (-1) 0 3 4 None).
Proof. eexists. split; [reflexivity|]. vm_compute. repeat split; discriminate. Qed.

Theorem C05_fraction_inside_is_zero : forall b s, proper b ->
  bb_is_fully_within_image b s = true ->
  exists f, bb_out_of_image_fraction b s = Ok f /\ f == 0.
Proof. exact fraction_inside. Qed.
Print Assumptions C05_fraction_inside_is_zero.

Theorem C05_fraction_outside_is_one : forall b s, proper b -> (0 <= fst s)%Z -> (0 <= snd s)%Z ->
  0 < bb_area b -> visible_area b s == 0 ->
  exists f, bb_out_of_image_fraction b s = Ok f /\ f == 1.
Proof. exact fraction_outside. Qed.
Print Assumptions C05_fraction_outside_is_one.
Example C05_ex2 : visible_area (mkBB 20 20 30 30 None) (10, 10)%Z == 0 /\
  0 < bb_area (mkBB 20 20 30 30 None).
Proof. vm_compute. split; reflexivity. Qed.

(* ---- C06: removal by fraction ---- *)

Theorem C06_boxes_removed_by_own_fraction : forall b fr,
  exists b', bbsoi_remove_out_of_image_fraction b fr = Ok b' /\ bbs_shape b' = bbs_shape b /\
    kept_below (fun i => bb_out_of_image_fraction i (bbs_shape b)) fr (bbs b) (bbs b') /\
    bbsoi_remove_out_of_image_fraction b' fr = Ok b'.
Proof. exact bbsoi_remove_fraction. Qed.
Print Assumptions C06_boxes_removed_by_own_fraction.
Example C06_ex1 : exists r, bbsoi_remove_out_of_image_fraction
  (mkBbsoi [mkBB (-1) 0 3 4 None; mkBB (-9) 0 1 4 None] (10,10)%Z) (1#2) = Ok r /\ length (bbs r) = 1%nat.
Proof. eexists. split; reflexivity. Qed.

Theorem C06_smaller_threshold_removes_more : forall b f1 f2 b1 b2, f1 <= f2 ->
  bbsoi_remove_out_of_image_fraction b f1 = Ok b1 ->
  bbsoi_remove_out_of_image_fraction b f2 = Ok b2 ->
  bbsoi_remove_out_of_image_fraction b2 f1 = Ok b1.
Proof. exact bbsoi_remove_fraction_mono. Qed.
Print Assumptions C06_smaller_threshold_removes_more.

Theorem C06_keypoint_clip_keeps_exactly_inside : forall k,
  exists k', kpsoi_clip_out_of_image k = Ok k' /\ kps_shape k' = kps_shape k /\
    exists keep, (forall i, keep i = true <-> in_plane (kps_shape k) (kx i) (ky i)) /\
    kps k' = filter keep (kps k).
Proof. exact kpsoi_clip_filter. Qed.
Print Assumptions C06_keypoint_clip_keeps_exactly_inside.
Example C06_ex2 : exists r, kpsoi_clip_out_of_image
  (mkKpsoi [mkKp 1 1; mkKp 10 1; mkKp 0 0] (10, 10)%Z) = Ok r /\ kps r = [mkKp 1 1; mkKp 0 0].
Proof. eexists. split; reflexivity. Qed.

Theorem C06_remove_out_of_image_flags : forall b fully partly,
  bbs_shape (bbsoi_remove_out_of_image b fully partly) = bbs_shape b /\
  exists keep, bbs (bbsoi_remove_out_of_image b fully partly) = filter keep (bbs b) /\
  forall i, keep i = true <->
    (bb_is_fully_within_image i (bbs_shape b) = true
     \/ (bb_is_fully_within_image i (bbs_shape b) = false /\
         bb_is_partly_within_image i (bbs_shape b) = true /\ partly = false)
     \/ (bb_is_fully_within_image i (bbs_shape b) = false /\
         bb_is_partly_within_image i (bbs_shape b) = false /\ fully = false)).
Proof. exact remove_out_of_image_flags. Qed.
Print Assumptions C06_remove_out_of_image_flags.

(* ---- C07: shift and extend ---- *)

Theorem C07_shifts_add_up : forall b a c d e,
  same_box (bb_shift (bb_shift b a c) d e) (bb_shift b (a + d) (c + e)).
Proof. exact bb_shift_compose. Qed.
Print Assumptions C07_shifts_add_up.

Theorem C07_shift_back : forall b a c, same_box (bb_shift (bb_shift b a c) (-a) (-c)) b.
Proof. exact bb_shift_back. Qed.
Print Assumptions C07_shift_back.

Theorem C07_shift_moves_every_box : forall b x y,
  bbs_shape (bbsoi_shift b x y) = bbs_shape b /\
  Forall2 (fun i o => label o = label i /\ x1 o == x1 i + x /\ y1 o == y1 i + y /\
                      x2 o == x2 i + x /\ y2 o == y2 i + y) (bbs b) (bbs (bbsoi_shift b x y)).
Proof. exact bbsoi_shift_spec. Qed.
Print Assumptions C07_shift_moves_every_box.

Theorem C07_shift_moves_every_keypoint : forall k x y,
  kps_shape (kpsoi_shift k x y) = kps_shape k /\
  Forall2 (fun i o => kx o == kx i + x /\ ky o == ky i + y) (kps k) (kps (kpsoi_shift k x y)).
Proof. exact kpsoi_shift_spec. Qed.
Print Assumptions C07_shift_moves_every_keypoint.

Theorem C07_legacy_shift_arguments : forall x y t r b l,
  pt_eq (normalize_shift_args x y t r b l)
    (let z := fun o => match o with Some v => v | None => 0 end in
     (x + z l - z r, y + z t - z b)).
Proof. exact shift_args_spec. Qed.
Print Assumptions C07_legacy_shift_arguments.

Theorem C07_shift_preserves_sizes : forall b a c,
  bb_width (bb_shift b a c) == bb_width b /\ bb_height (bb_shift b a c) == bb_height b /\
  bb_area (bb_shift b a c) == bb_area b.
Proof. exact bb_shift_sizes. Qed.
Print Assumptions C07_shift_preserves_sizes.

Theorem C07_shift_preserves_iou : forall a b dx dy, proper a -> proper b ->
  exists v w, bb_iou a b = Ok v /\ bb_iou (bb_shift a dx dy) (bb_shift b dx dy) = Ok w /\ v == w.
Proof. exact bb_iou_shift. Qed.
Print Assumptions C07_shift_preserves_iou.
Example C07_ex1 : exists v, bb_iou (bb_shift (mkBB 0 0 2 2 None) 5 (-7)) (bb_shift (mkBB 1 0 3 2 None) 5 (-7))
  = Ok v /\ v == 1#3.
Proof. eexists. split; [reflexivity|]. reflexivity. Qed.

Theorem C07_extend_grows_each_side : forall b a t r bo l,
  let e := bb_extend b a t r bo l in
  x1 b - x1 e == a + l /\ y1 b - y1 e == a + t /\ x2 e - x2 b == a + r /\ y2 e - y2 b == a + bo
  /\ label e = label b.
Proof. exact bb_extend_spec. Qed.
Print Assumptions C07_extend_grows_each_side.

(* ---- C08: boxes to keypoints and back ---- *)

Theorem C08_boxes_keypoints_round_trip : forall b, Forall proper (bbs b) ->
  exists b', bbsoi_invert_to_keypoints b (bbsoi_to_keypoints b) = Ok b' /\
    bbs_shape b' = bbs_shape b /\ Forall2 same_box (bbs b') (bbs b).
Proof. exact bbsoi_keypoints_roundtrip. Qed.
Print Assumptions C08_boxes_keypoints_round_trip.
Example C08_ex1 : Forall proper [mkBB 1 2 3 4 (Some 1%Z); mkBB 0 0 5 5 None] /\
  exists r, bbsoi_invert_to_keypoints (mkBbsoi [mkBB 1 2 3 4 (Some 1%Z); mkBB 0 0 5 5 None] (9,9)%Z)
    (bbsoi_to_keypoints (mkBbsoi [mkBB 1 2 3 4 (Some 1%Z); mkBB 0 0 5 5 None] (9,9)%Z)) = Ok r
    /\ length (bbs r) = 2%nat.
Proof. split; [repeat constructor; discriminate|]. eexists. split; reflexivity. Qed.

Theorem C08_transformed_corners_give_smallest_box : forall b (f : keypoint -> keypoint),
  exists b', bbsoi_invert_to_keypoints b
      (mkKpsoi (map f (kps (bbsoi_to_keypoints b))) (bbs_shape b)) = Ok b' /\
    Forall2 (fun i o => label o = label i /\
       smallest_box_around o [f (mkKp (x1 i) (y1 i)); f (mkKp (x2 i) (y1 i));
                              f (mkKp (x2 i) (y2 i)); f (mkKp (x1 i) (y2 i))])
      (bbs b) (bbs b').
Proof. exact bbsoi_map_keypoints. Qed.
Print Assumptions C08_transformed_corners_give_smallest_box.

(** Same for keypoints that were changed independently of each other. *)
Theorem C08_no_mixing_between_boxes : forall b s (groups : list (keypoint * keypoint * keypoint * keypoint)),
  length groups = length (bbs b) ->
  exists b',
    bbsoi_invert_to_keypoints b
      (mkKpsoi (flat_map (fun '(k0,k1,k2,k3) => [k0;k1;k2;k3]) groups) s) = Ok b' /\
    bbs_shape b' = s /\
    Forall2 (fun (bg : bbox * (keypoint * keypoint * keypoint * keypoint)) o =>
               let '(i, (k0,k1,k2,k3)) := bg in
               label o = label i /\ smallest_box_around o [k0;k1;k2;k3])
            (combine (bbs b) groups) (bbs b').
Proof. exact bbsoi_invert_transformed. Qed.
Print Assumptions C08_no_mixing_between_boxes.

Theorem C08_wrong_keypoint_count_rejected : forall b k,
  length (kps k) <> (length (bbs b) * 4)%nat ->
  bbsoi_invert_to_keypoints b k = Err AssertionError.
Proof. exact bbsoi_invert_wrong_count. Qed.
Print Assumptions C08_wrong_keypoint_count_rejected.

Theorem C08_point_soup_gives_smallest_box : forall pts, pts <> [] ->
  exists b, bb_from_point_soup pts = Ok b /\
    smallest_box_around b (map (fun p => mkKp (fst p) (snd p)) pts).
Proof. exact from_point_soup_smallest. Qed.
Print Assumptions C08_point_soup_gives_smallest_box.
Example C08_ex2 : exists b, bb_from_point_soup [(1,5); (3,2); (0,4)] = Ok b /\ bb_area b == 9.
Proof. eexists. split; reflexivity. Qed.
