(** Property theorems C09 (BoundingBox.extract_from_image). *)
From Coq Require Import Lia Lqa.
From Verif Require Import Prelude GeoModel GeoSpec SizeModel SizeSpec ExtractModel ExtractSpec ExtractProofs.

(** With padding, the rounded box is cut out of the image extended by zeros.
    Excluded: boxes inside the image that round up to its far border (see the
    next two theorems). *)
Theorem C09_padded_extraction_is_the_rounded_box_partial : forall nc a b prevent,
  wf_arr a -> has_channels nc a -> proper b ->
  (inside_image b (ah a) (aw a) -> np_round (x2 b) < aw a /\ np_round (y2 b) < ah a) ->
  exists r, extract_from_image nc a b true None prevent = Ok r /\
    cut_out nc a (np_round (x1 b)) (np_round (y1 b))
      (far_end prevent (np_round (x1 b)) (np_round (x2 b)))
      (far_end prevent (np_round (y1 b)) (np_round (y2 b))) r.
Proof. intros nc a b p W Hc P Hin. exact (extract_exact nc a b None p W Hc P Hin I). Qed.
Print Assumptions C09_padded_extraction_is_the_rounded_box_partial.
Example C09_ex1 :
  let a := mkArr 3 3 (fun y x => [10 * y + x + 1]) in let b := mkBB (-(6#5)) 1 (3#2) (49#10) None in
  proper b /\ ~ inside_image b 3 3 /\
  match extract_from_image 1 a b true None true with
  | Ok r => ah r = 4 /\ aw r = 3 /\ apx r 0 0 = [0] /\ apx r 0 1 = [11] /\ apx r 1 2 = [22] /\ apx r 2 2 = [0]
  | _ => False end.
Proof.
  cbn zeta. split; [split; cbn; lra|]. split; [unfold inside_image; cbn; lra|]. vm_compute. auto 10.
Qed.

(** Inside the image, the far border is handled by dropping the last
    row/column. *)
Theorem C09_extraction_inside_the_image : forall nc a b pad_max prevent,
  wf_arr a -> has_channels nc a -> proper b -> inside_image b (ah a) (aw a) ->
  match pad_max with None => True | Some m => 0 <= m end ->
  exists r, extract_from_image nc a b true pad_max prevent = Ok r /\
    is_window a r (mkTrbl (Z.min (np_round (y1 b)) (ah a - 1))
       (aw a - far_end prevent (Z.min (np_round (x1 b)) (aw a - 1)) (Z.min (np_round (x2 b)) (aw a - 1)))
       (ah a - far_end prevent (Z.min (np_round (y1 b)) (ah a - 1)) (Z.min (np_round (y2 b)) (ah a - 1)))
       (Z.min (np_round (x1 b)) (aw a - 1))).
Proof. exact extract_inside. Qed.
Print Assumptions C09_extraction_inside_the_image.

(** Finding: a box clipped to the whole image (as clip_out_of_image produces
    it) does not extract the whole image. *)
Theorem C09_whole_image_box_extracts_whole_image_refuted :
  exists a b c, wf_arr a /\ has_channels 1 a /\ proper b /\ bb_clip_out_of_image b (ah a, aw a) = Ok c /\
    (forall x y, in_plane (ah a, aw a) x y -> in_box b x y) /\
    exists r, extract_from_image 1 a c true None true = Ok r /\ ah r = ah a - 1 /\ aw r = aw a - 1.
Proof.
  exists (mkArr 4 5 (fun y x => [y + x])), (mkBB (-1) (-1) 9 9 None).
  eexists. split; [split; cbn; lia|]. split; [intros y x _ _; reflexivity|]. split; [split; cbn; lra|].
  split; [reflexivity|]. split; [unfold in_plane, in_box; cbn [x1 x2 y1 y2 fst snd ah aw]; change (inject_Z 4) with 4%Q; change (inject_Z 5) with 5%Q; intros; lra|].
  eexists. split; [reflexivity|]. vm_compute. auto.
Qed.
Print Assumptions C09_whole_image_box_extracts_whole_image_refuted.

(** pad_max only limits the size as long as the box does not start further
    than pad_max outside the image at the top or left. *)
Theorem C09_pad_max_keeps_content_in_place_partial : forall nc a b m prevent,
  wf_arr a -> has_channels nc a -> proper b ->
  (inside_image b (ah a) (aw a) -> np_round (x2 b) < aw a /\ np_round (y2 b) < ah a) ->
  0 <= m -> - m <= np_round (x1 b) -> - m <= np_round (y1 b) ->
  exists r, extract_from_image nc a b true (Some m) prevent = Ok r /\
    cut_out nc a (np_round (x1 b)) (np_round (y1 b))
      (Z.min (far_end prevent (np_round (x1 b)) (np_round (x2 b))) (aw a + m))
      (Z.min (far_end prevent (np_round (y1 b)) (np_round (y2 b))) (ah a + m)) r.
Proof. intros nc a b m p W Hc P Hin Hm H1 H2. exact (extract_exact nc a b (Some m) p W Hc P Hin (conj Hm (conj H1 H2))). Qed.
Print Assumptions C09_pad_max_keeps_content_in_place_partial.

(** Finding: otherwise the content moves: here the extracted box covers only
    columns left of the image, but image pixels are returned. *)
Theorem C09_pad_max_keeps_content_in_place_refuted :
  exists a b r, proper b /\ wf_arr a /\ has_channels 1 a /\
    np_round (x2 b) < 0 /\
    extract_from_image 1 a b true (Some 1) true = Ok r /\ ~ all_zero 1 r.
Proof.
  exists (mkArr 2 4 (fun y x => [7])), (mkBB (-4) 0 (-2) 2 None). eexists.
  split; [split; cbn; lra|]. split; [split; cbn; lia|]. split; [intros y x _ _; reflexivity|].
  split; [reflexivity|]. split; [reflexivity|]. intro H.
  specialize (H 0 1 ltac:(vm_compute; split; [discriminate|reflexivity]) ltac:(vm_compute; split; [discriminate|reflexivity])).
  vm_compute in H. discriminate.
Qed.
Print Assumptions C09_pad_max_keeps_content_in_place_refuted.

(** Without padding: a box whose rounded area lies in the image gives exactly
    that window; one that lies left or right of it gives zeros. *)
Theorem C09_unpadded_inside : forall nc a b prevent,
  wf_arr a -> proper b ->
  (inside_image b (ah a) (aw a) -> np_round (x2 b) < aw a /\ np_round (y2 b) < ah a) ->
  let X1 := np_round (x1 b) in let Y1 := np_round (y1 b) in
  let X2 := far_end prevent X1 (np_round (x2 b)) in let Y2 := far_end prevent Y1 (np_round (y2 b)) in
  0 <= X1 < X2 -> X2 <= aw a -> 0 <= Y1 < Y2 -> Y2 <= ah a ->
  exists r, extract_from_image nc a b false None prevent = Ok r /\
    is_window a r (mkTrbl Y1 (aw a - X2) (ah a - Y2) X1).
Proof. exact extract_unpadded_inside. Qed.
Print Assumptions C09_unpadded_inside.
Example C09_ex2 : let a := mkArr 4 4 (fun y x => [10 * y + x]) in
  match extract_from_image 1 a (mkBB 1 1 3 2 None) false None true with
  | Ok r => ah r = 1 /\ aw r = 2 /\ apx r 0 0 = [11] | _ => False end.
Proof. vm_compute. auto. Qed.

Theorem C09_unpadded_outside_gives_zeros_partial : forall nc a b prevent,
  wf_arr a -> proper b -> (np_round (x1 b) < 0 \/ aw a < np_round (x1 b)) ->
  exists r, extract_from_image nc a b false None prevent = Ok r /\ all_zero nc r /\
    ah r = (if prevent then 1 else 0) /\ aw r = (if prevent then 1 else 0).
Proof. exact extract_unpadded_left_right. Qed.
Print Assumptions C09_unpadded_outside_gives_zeros_partial.

(** Finding: the test for "inside" compares tuples lexicographically, so boxes
    above the image are accepted and Python's negative indices return pixels
    from the bottom of the image. *)
Theorem C09_unpadded_outside_gives_zeros_refuted :
  exists a b r, proper b /\ wf_arr a /\ has_channels 1 a /\ np_round (y2 b) < 0 /\
    extract_from_image 1 a b false None true = Ok r /\ 0 < ah r /\ 0 < aw r /\ ~ all_zero 1 r.
Proof.
  exists (mkArr 6 4 (fun y x => [7])), (mkBB 1 (-4) 3 (-2) None). eexists.
  split; [split; cbn; lra|]. split; [split; cbn; lia|]. split; [intros y x _ _; reflexivity|].
  split; [reflexivity|]. split; [reflexivity|]. split; [reflexivity|]. split; [reflexivity|]. intro H.
  specialize (H 0 1 ltac:(vm_compute; split; [discriminate|reflexivity]) ltac:(vm_compute; split; [discriminate|reflexivity])).
  vm_compute in H. discriminate.
Qed.
Print Assumptions C09_unpadded_outside_gives_zeros_refuted.
