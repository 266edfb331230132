(** Property theorems C18 (flips). *)
From Coq Require Import Lia Lqa.
From Verif Require Import Prelude GeoModel GeoSpec SizeSpec FlipModel FlipSpec FlipProofs.

(** Both numpy and cv2 code paths, any number of channels (also > 512). *)
Theorem C18_fliplr_mirrors_columns : forall (d : Z) cv2_ok nc a,
  has_channels nc a -> mirrored_lr a (fliplr d cv2_ok nc a).
Proof. exact (@fliplr_mirrored Z). Qed.
Print Assumptions C18_fliplr_mirrors_columns.
Example C18_ex1 : let a := mkArr 2 3 (fun y x => [10 * y + x; 7]) in
  has_channels 2 a /\
  map (fun x => apx (fliplr 0 true 2 a) 1 x) [0; 1; 2] = [[12; 7]; [11; 7]; [10; 7]].
Proof. split; [intros y x _ _; reflexivity|reflexivity]. Qed.

Theorem C18_flipud_mirrors_rows : forall (a : arr (list Z)), mirrored_ud a (flipud a).
Proof. exact (@flipud_mirrored (list Z)). Qed.
Print Assumptions C18_flipud_mirrors_rows.
Example C18_ex2 : let a := mkArr 3 2 (fun y x => [10 * y + x]) in
  map (fun y => apx (flipud a) y 1) [0; 1; 2] = [[21]; [11]; [1]].
Proof. reflexivity. Qed.

Theorem C18_flip_twice_restores_image : forall (d : Z) cv2_ok nc a, has_channels nc a ->
  arr_eq (fliplr d cv2_ok nc (fliplr d cv2_ok nc a)) a /\ arr_eq (flipud (flipud a)) a.
Proof. intros d ok nc a H. split; [exact (fliplr_twice d ok nc a H)|exact (flipud_twice a)]. Qed.
Print Assumptions C18_flip_twice_restores_image.

Theorem C18_fliplr_coordinates : forall k c,
  Forall2 (fun i o => kx o == inject_Z (snd (kps_shape k)) - kx i /\ ky o == ky i)%Q (kps k) (kps (kpsoi_fliplr k)) /\
  Forall2 (Forall2 (fun i o => fst o == inject_Z (snd (cs_shape c)) - fst i /\ snd o == snd i)%Q)
    (cs_items c) (cs_items (coordsoi_fliplr c)).
Proof. exact coords_fliplr. Qed.
Print Assumptions C18_fliplr_coordinates.

Theorem C18_flipud_coordinates : forall k c,
  Forall2 (fun i o => kx o == kx i /\ ky o == inject_Z (fst (kps_shape k)) - ky i)%Q (kps k) (kps (kpsoi_flipud k)) /\
  Forall2 (Forall2 (fun i o => fst o == fst i /\ snd o == inject_Z (fst (cs_shape c)) - snd i)%Q)
    (cs_items c) (cs_items (coordsoi_flipud c)).
Proof. exact coords_flipud. Qed.
Print Assumptions C18_flipud_coordinates.
Example C18_ex3 : Forall2 kp_eq (kps (kpsoi_fliplr (mkKpsoi [mkKp (1#2) 3] (4, 10)))) [mkKp (19#2) 3].
Proof. repeat constructor. Qed.

(** A point in the cell of a pixel ends up in the cell showing that pixel's value. *)
Theorem C18_points_follow_their_pixel_lr : forall (d : Z) cv2_ok nc a ks r c k,
  has_channels nc a -> 0 <= r < ah a -> 0 <= c < aw a -> In k ks ->
  (inject_Z r < ky k < inject_Z (r + 1))%Q -> (inject_Z c < kx k < inject_Z (c + 1))%Q ->
  exists k', In k' (kps (kpsoi_fliplr (mkKpsoi ks (ah a, aw a)))) /\
    exists r' c', 0 <= r' < ah (fliplr d cv2_ok nc a) /\ 0 <= c' < aw (fliplr d cv2_ok nc a) /\
      (inject_Z r' < ky k' < inject_Z (r' + 1))%Q /\ (inject_Z c' < kx k' < inject_Z (c' + 1))%Q /\
      apx (fliplr d cv2_ok nc a) r' c' = apx a r c.
Proof. exact (@fliplr_cell Z). Qed.
Print Assumptions C18_points_follow_their_pixel_lr.

Theorem C18_points_follow_their_pixel_ud : forall (a : arr (list Z)) ks r c k,
  0 <= r < ah a -> 0 <= c < aw a -> In k ks ->
  (inject_Z r < ky k < inject_Z (r + 1))%Q -> (inject_Z c < kx k < inject_Z (c + 1))%Q ->
  exists k', In k' (kps (kpsoi_flipud (mkKpsoi ks (ah a, aw a)))) /\
    exists r' c', 0 <= r' < ah (flipud a) /\ 0 <= c' < aw (flipud a) /\
      (inject_Z r' < ky k' < inject_Z (r' + 1))%Q /\ (inject_Z c' < kx k' < inject_Z (c' + 1))%Q /\
      apx (flipud a) r' c' = apx a r c.
Proof. exact (@flipud_cell (list Z)). Qed.
Print Assumptions C18_points_follow_their_pixel_ud.
Example C18_ex4 : let k := mkKp (5#2) (1#2) in
  (inject_Z 0 < ky k < inject_Z (0 + 1))%Q /\ (inject_Z 2 < kx k < inject_Z (2 + 1))%Q.
Proof. repeat split; reflexivity. Qed.

Theorem C18_boxes_are_mirrored_and_stay_proper : forall b,
  (bbs_shape (bbsoi_fliplr b) = bbs_shape b /\
   Forall2 (fun i o => label o = label i /\ (proper i -> proper o) /\
     forall x y, in_box o x y <-> in_box i (inject_Z (snd (bbs_shape b)) - x)%Q y)
     (bbs b) (bbs (bbsoi_fliplr b))) /\
  (bbs_shape (bbsoi_flipud b) = bbs_shape b /\
   Forall2 (fun i o => label o = label i /\ (proper i -> proper o) /\
     forall x y, in_box o x y <-> in_box i x (inject_Z (fst (bbs_shape b)) - y)%Q)
     (bbs b) (bbs (bbsoi_flipud b))).
Proof. intro b. split; [exact (bbsoi_fliplr_points b)|exact (bbsoi_flipud_points b)]. Qed.
Print Assumptions C18_boxes_are_mirrored_and_stay_proper.
Example C18_ex5 : Forall2 same_box (bbs (bbsoi_fliplr (mkBbsoi [mkBB 1 2 4 5 (Some 3)] (10, 20))))
  [mkBB 16 2 19 5 (Some 3)].
Proof. repeat constructor. Qed.

(** The sampled decision of a row applies to every column of that row. *)
Theorem C18_fliplr_row_decision : forall cvi cvh cvs nci nch ncs samples b i s,
  nth_error samples i = Some s ->
  let b' := fliplr_batch cvi cvh cvs nci nch ncs samples b in
  ((s < 1#2)%Q ->
     col_row (fb_images b') i = col_row (fb_images b) i /\
     col_row (fb_heatmaps b') i = col_row (fb_heatmaps b) i /\
     col_row (fb_segmaps b') i = col_row (fb_segmaps b) i /\
     col_row (fb_keypoints b') i = col_row (fb_keypoints b) i /\
     col_row (fb_bbs b') i = col_row (fb_bbs b) i /\
     col_row (fb_polygons b') i = col_row (fb_polygons b) i /\
     col_row (fb_line_strings b') i = col_row (fb_line_strings b) i) /\
  ((1#2 <= s)%Q ->
     col_row (fb_images b') i = option_map (fliplr 0 cvi nci) (col_row (fb_images b) i) /\
     col_row (fb_heatmaps b') i = option_map (fliplr 0%Q cvh nch) (col_row (fb_heatmaps b) i) /\
     col_row (fb_segmaps b') i = option_map (fliplr 0 cvs ncs) (col_row (fb_segmaps b) i) /\
     col_row (fb_keypoints b') i = option_map kpsoi_fliplr (col_row (fb_keypoints b) i) /\
     col_row (fb_bbs b') i = option_map bbsoi_fliplr (col_row (fb_bbs b) i) /\
     col_row (fb_polygons b') i = option_map coordsoi_fliplr (col_row (fb_polygons b) i) /\
     col_row (fb_line_strings b') i = option_map coordsoi_fliplr (col_row (fb_line_strings b) i)).
Proof. exact fliplr_batch_row. Qed.
Print Assumptions C18_fliplr_row_decision.

Theorem C18_flipud_row_decision : forall samples b i s,
  nth_error samples i = Some s ->
  let b' := flipud_batch samples b in
  ((s < 1#2)%Q ->
     col_row (fb_images b') i = col_row (fb_images b) i /\
     col_row (fb_heatmaps b') i = col_row (fb_heatmaps b) i /\
     col_row (fb_segmaps b') i = col_row (fb_segmaps b) i /\
     col_row (fb_keypoints b') i = col_row (fb_keypoints b) i /\
     col_row (fb_bbs b') i = col_row (fb_bbs b) i /\
     col_row (fb_polygons b') i = col_row (fb_polygons b) i /\
     col_row (fb_line_strings b') i = col_row (fb_line_strings b) i) /\
  ((1#2 <= s)%Q ->
     col_row (fb_images b') i = option_map flipud (col_row (fb_images b) i) /\
     col_row (fb_heatmaps b') i = option_map flipud (col_row (fb_heatmaps b) i) /\
     col_row (fb_segmaps b') i = option_map flipud (col_row (fb_segmaps b) i) /\
     col_row (fb_keypoints b') i = option_map kpsoi_flipud (col_row (fb_keypoints b) i) /\
     col_row (fb_bbs b') i = option_map bbsoi_flipud (col_row (fb_bbs b) i) /\
     col_row (fb_polygons b') i = option_map coordsoi_flipud (col_row (fb_polygons b) i) /\
     col_row (fb_line_strings b') i = option_map coordsoi_flipud (col_row (fb_line_strings b) i)).
Proof. exact flipud_batch_row. Qed.
Print Assumptions C18_flipud_row_decision.
Example C18_ex6 :
  let b := mkFbatch None None None (Some [mkKpsoi [mkKp 1 1] (4, 10); mkKpsoi [mkKp 1 1] (4, 10)]) None None None in
  fb_keypoints (fliplr_batch true true true 3%nat 1%nat 1%nat [0; 1]%Q b)
  = Some [mkKpsoi [mkKp 1 1] (4, 10); mkKpsoi [mkKp 9 1] (4, 10)].
Proof. reflexivity. Qed.

(** Repeating the call with the same samples restores the whole batch. *)
Theorem C18_batch_flipped_twice_is_restored : forall cvi cvh cvs nci nch ncs samples b,
  col_all (has_channels nci) (fb_images b) -> col_all (has_channels nch) (fb_heatmaps b) ->
  col_all (has_channels ncs) (fb_segmaps b) ->
  fbatch_same (fliplr_batch cvi cvh cvs nci nch ncs samples
                (fliplr_batch cvi cvh cvs nci nch ncs samples b)) b /\
  fbatch_same (flipud_batch samples (flipud_batch samples b)) b.
Proof.
  intros cvi cvh cvs nci nch ncs samples b H1 H2 H3.
  exact (conj (fliplr_batch_twice cvi cvh cvs nci nch ncs samples b H1 H2 H3) (flipud_batch_twice samples b)).
Qed.
Print Assumptions C18_batch_flipped_twice_is_restored.
Example C18_ex7 : col_all (has_channels 1) (Some [mkArr 2 2 (fun y x => [y + x])]).
Proof. cbn. constructor; [intros y x _ _; reflexivity|constructor]. Qed.
