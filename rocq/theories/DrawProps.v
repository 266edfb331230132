(** C121-C123: drawing keypoints, bounding boxes, segmentation maps and heatmaps. *)
From Coq Require Import Lia Lqa.
From Verif Require Import Prelude PreludeFacts UtilModel DtyModel GeoModel ConvModel ConvSpec RszModel RszSpec RszProps DrawModel DrawSpec DrawProofs.
Local Open Scope Z_scope.

(** A grey 5x5 RGB image, a bool image, an int32 image. *)
Definition ex_rgb : pic := mkPic (KUint 8) 5 5 (Some 3%nat) (fun _ _ _ => inject_Z 100).
Example ex_rgb_proper : proper_pic ex_rgb /\ small_dtype (p_kind ex_rgb) /\ bytes ex_rgb /\ rgb8 ex_rgb.
Proof.
  assert (P : proper_pic ex_rgb) by (split; [cbn; lia|]; split; [cbn; lia|]; intros y x c _; exists 100; split; [reflexivity|cbn; lia]).
  split; [exact P|]. split; [cbn; lia|]. split; [|split; [exact P|split; reflexivity]]. intros y x c _. cbn [ex_rgb p_px]. change 100 with (100)%Z. split; [apply (proj2 (inject_Z_le 0 100))|apply (proj2 (inject_Z_le 100 255))]; lia.
Qed.
Definition ex_red : color := CList [200; 0; 50]%Q.
Example ex_red_colour : colour_of ex_rgb ex_red /\ byte_colour ex_rgb ex_red /\ colour_fits ex_rgb ex_red.
Proof.
  split; [|split; [|left; reflexivity]].
  - intros c H. unfold chans in H. cbn [ex_rgb p_c] in H. destruct c as [|[|[|c]]]; [exists 200|exists 0|exists 50|lia]; (split; [reflexivity|cbn; lia]).
  - intros q [<-|[<-|[<-|[]]]]; [exists 200|exists 0|exists 50]; (split; [reflexivity|lia]).
Qed.

(** ** C121: keypoints *)
(** Drawing a keypoint keeps dtype and shape. All pixels more than [size // 2] rows or columns from
    the rounded position keep their value; the others get the colour if alpha is above 0.99, the
    weighted mean (truncated for integers) if it is from 0.01 to 0.99, and keep their value below.
    Up to 0.99 this holds for images that float32 can hold. *)
Theorem C121_pixels : forall col alpha size raise p k p', proper_pic p -> colour_of p col -> ((alpha <= 99 # 100)%Q -> exact_float32 p) -> kp_draw col alpha size raise p k = Ok p' ->
  proper_pic p' /\
  redrawn p p' (fun y x c v' =>
    ((~ square k size y x \/ alpha < 1 # 100)%Q -> (v' == p_px p y x c)%Q) /\
    ((square k size y x /\ 1 # 100 <= alpha)%Q -> painted (99 # 100 < alpha)%Q (p_kind p) alpha (p_px p y x c) (component col c) v')).
Proof. exact kp_pixels_c. Qed.
Print Assumptions C121_pixels.
(** Booleans and integers of up to 24 bits are such images. *)
Theorem C121_exact_dtypes : forall p, proper_pic p -> small_dtype (p_kind p) -> exact_float32 p.
Proof. exact small_exact. Qed.
Print Assumptions C121_exact_dtypes.
(** Lists of keypoints: pixels outside all squares keep their value, those in a square get the colour
    if it is opaque, and every pixel ends between its value and the colour. *)
Theorem C121_list : forall col alpha size raise l p p', proper_pic p -> colour_of p col -> ((alpha <= 99 # 100)%Q -> small_dtype (p_kind p)) -> kps_draw col alpha size raise p l = Ok p' ->
  proper_pic p' /\
  redrawn p p' (fun y x c v' =>
    ((forall k, In k l -> ~ square k size y x) -> (v' == p_px p y x c)%Q) /\
    ((99 # 100 < alpha)%Q -> (exists k, In k l /\ square k size y x) -> (v' == component col c)%Q) /\
    between (p_px p y x c) (component col c) v').
Proof. exact kps_pixels_c. Qed.
Print Assumptions C121_list.
(** Which keypoints can be drawn, and the errors. *)
Theorem C121_accepted : forall col alpha size raise l p, proper_pic p ->
  ((exists p', kps_draw col alpha size raise p l = Ok p') <-> (forall k, In k l -> kp_accepted col alpha size raise p k)).
Proof. exact kps_accepts. Qed.
Print Assumptions C121_accepted.
Theorem C121_errors : forall col alpha size raise p k, 0 <= p_h p -> 0 <= p_w p ->
  (kp_draw col alpha size raise p k = Err AssertionError <-> p_c p = None /\ exists l, col = CList l) /\
  (kp_draw col alpha size raise p k = Err ValueError <-> (p_c p = None -> exists q, col = CNum q) /\ (1 # 100 <= alpha)%Q /\ square_visible k size p /\ ~ colour_fits p col) /\
  (kp_draw col alpha size raise p k = Err GenericException <-> (p_c p = None -> exists q, col = CNum q) /\ (1 # 100 <= alpha)%Q /\ ~ square_visible k size p /\ raise = true) /\
  (forall e, kp_draw col alpha size raise p k = Err e -> e = AssertionError \/ e = ValueError \/ e = GenericException).
Proof. exact kp_errors. Qed.
Print Assumptions C121_errors.
Theorem C121_list_errors : forall col alpha size raise l p e, kps_draw col alpha size raise p l = Err e -> exists k, In k l /\ kp_draw col alpha size raise p k = Err e.
Proof. exact kps_first_error. Qed.
Print Assumptions C121_list_errors.
(** The documentation says that the square has [size] rows and columns. It has [size + 1] if [size]
    is even and positive and the square lies within the image. *)
Theorem C121_square_size_refuted : forall k size, 0 < size -> Z.even size = true ->
  ~ (exists y0 x0, forall y x, square k size y x <-> y0 <= y < y0 + size /\ x0 <= x < x0 + size).
Proof.
  intros k size P E (y0 & x0 & H). apply Z.even_spec in E. destruct E as (n & ->). unfold square in H. replace (2 * n / 2) with n in H by (rewrite Z.mul_comm, Z.div_mul; lia).
  pose proof (proj1 (H (np_round (ky k) - n) (np_round (kx k)))). pose proof (proj1 (H (np_round (ky k) + n) (np_round (kx k)))). lia.
Qed.
Print Assumptions C121_square_size_refuted.
(** [raise_if_out_of_image] does not tell whether the keypoint is in the image: it raises for a
    keypoint inside the image and accepts one outside. *)
Theorem C121_raise_refuted :
  (exists k, kp_is_out_of_image k (5, 5) = false /\ kp_draw ex_red 1 1 true ex_rgb k = Err GenericException) /\
  (exists k p', kp_is_out_of_image k (5, 5) = true /\ kp_draw ex_red 1 3 true ex_rgb k = Ok p').
Proof.
  split.
  - exists (mkKp (46 # 10) 2). split; vm_compute; reflexivity.
  - exists (mkKp (- (6 # 10)) 2). eexists. split; [vm_compute; reflexivity|]. vm_compute. reflexivity.
Qed.
Print Assumptions C121_raise_refuted.
(** A transparent keypoint on an image of large integers changes pixels it does not cover. *)
Theorem C121_large_integers_refuted : exists p k p', proper_pic p /\ kp_draw (CNum 0) (1 # 2) 1 false p k = Ok p' /\ ~ square k 1 3 3 /\ pixel p 3 3 0 /\ ~ (p_px p' 3 3 0%nat == p_px p 3 3 0%nat)%Q.
Proof.
  exists (mkPic (KInt 32) 5 5 None (fun _ _ _ => inject_Z 16777217)), (mkKp 1 1). eexists.
  split; [split; [cbn; lia|]; split; [cbn; lia|]; intros y x c _; exists 16777217; split; [reflexivity|cbn; lia]|].
  split; [reflexivity|]. split; [intros (Q & _); vm_compute in Q; apply Q; reflexivity|]. split; [unfold pixel, chans; cbn; lia|]. vm_compute. discriminate.
Qed.
Print Assumptions C121_large_integers_refuted.
Example C121_example : exists p', kps_draw ex_red (1 # 2) 3 false ex_rgb [mkKp (17 # 10) (2 # 10); mkKp 20 20] = Ok p' /\
  p_px p' 0 1 0%nat = inject_Z 150 /\ p_px p' 1 3 2%nat = inject_Z 75 /\ p_px p' 2 1 0%nat = inject_Z 100 /\ p_px p' 0 0 1%nat = inject_Z 100 /\ kp_accepted ex_red (1 # 2) 3 false ex_rgb (mkKp (17 # 10) (2 # 10)).
Proof.
  eexists. split; [reflexivity|]. do 4 (split; [vm_compute; reflexivity|]). split; [discriminate|]. right. left. split; [exists 0, 2; cbn; repeat split; try lia; vm_compute; discriminate|left; reflexivity].
Qed.

(** ** C122: bounding boxes *)
(** Drawing a box keeps dtype and shape. A pixel is painted, exactly once, if it is in the frame of
    [size] pixels around the inner pixels of the box, and keeps its value otherwise. Below 0.99 this
    holds for pixels from 0 to 255. *)
Theorem C122_pixels : forall col alpha size raise p b p', proper_box b -> proper_pic p -> colour_of p col -> byte_colour p col -> ((99 # 100 <= alpha)%Q \/ (0 <= alpha)%Q /\ bytes p) ->
  box_draw col alpha size raise p b = Ok p' ->
  proper_pic p' /\ ((alpha < 99 # 100)%Q -> bytes p') /\
  redrawn p p' (fun y x c v' =>
    (~ frame b p size y x -> (v' == p_px p y x c)%Q) /\
    (frame b p size y x -> painted (99 # 100 <= alpha)%Q (p_kind p) alpha (p_px p y x c) (component col c) v')).
Proof. exact box_pixels_c. Qed.
Print Assumptions C122_pixels.
(** The sides of a box within the image are drawn within the image. *)
Theorem C122_inside : forall b p y x, proper_box b -> proper_pic p -> bb_is_fully_within_image b (p_h p, p_w p) = true -> frame b p 1 y x -> 0 <= y < p_h p /\ 0 <= x < p_w p.
Proof. exact frame_inside. Qed.
Print Assumptions C122_inside.
Theorem C122_list : forall col alpha size raise l p p', (forall b, In b l -> proper_box b) -> proper_pic p -> colour_of p col -> byte_colour p col -> ((99 # 100 <= alpha)%Q \/ (0 <= alpha)%Q /\ bytes p) ->
  boxes_draw col alpha size raise p l = Ok p' ->
  proper_pic p' /\
  redrawn p p' (fun y x c v' =>
    ((forall b, In b l -> ~ frame b p size y x) -> (v' == p_px p y x c)%Q) /\
    ((99 # 100 <= alpha)%Q -> (exists b, In b l /\ frame b p size y x) -> (v' == component col c)%Q) /\
    between (p_px p y x c) (component col c) v').
Proof. exact boxes_pixels_c. Qed.
Print Assumptions C122_list.
Theorem C122_accepted : forall col alpha size raise l p, (exists p', boxes_draw col alpha size raise p l = Ok p') <-> (forall b, In b l -> box_accepted col size raise p b).
Proof. exact boxes_accepts. Qed.
Print Assumptions C122_accepted.
Theorem C122_errors : forall col alpha size raise p b,
  let unseen := raise = true /\ bb_is_out_of_image b (p_h p, p_w p) true false = true in
  (box_draw col alpha size raise p b = Err GenericException <-> unseen) /\
  (box_draw col alpha size raise p b = Err IndexError <-> ~ unseen /\ 0 < size /\ p_c p = None) /\
  (box_draw col alpha size raise p b = Err ValueError <-> ~ unseen /\ 0 < size /\ p_c p <> None /\ ~ colour_fits p col).
Proof. exact box_errors. Qed.
Print Assumptions C122_errors.
(** A transparent box on an image with values outside of 0 to 255 clips all pixels. *)
Theorem C122_clipping_refuted : exists p b p', proper_pic p /\ proper_box b /\ box_draw (CNum 0) (1 # 2) 1 false p b = Ok p' /\ ~ frame b p 1 4 4 /\ pixel p 4 4 0 /\ ~ (p_px p' 4 4 0%nat == p_px p 4 4 0%nat)%Q.
Proof.
  set (b := bb_new 1 1 2 2 None). set (p := mkPic (KInt 16) 5 5 (Some 1%nat) (fun _ _ _ => inject_Z 300)). assert (PB : proper_box b) by (split; vm_compute; discriminate).
  exists p, b. eexists.
  split; [split; [cbn; lia|]; split; [cbn; lia|]; intros y x c _; exists 300; split; [reflexivity|cbn; lia]|]. split; [exact PB|].
  split; [reflexivity|]. split; [rewrite (frame_ring b p 1 4 4 PB); vm_compute; intros (_ & Q); discriminate|]. split; [unfold pixel, chans; cbn; lia|]. vm_compute. discriminate.
Qed.
Print Assumptions C122_clipping_refuted.
Example C122_example : exists p', box_draw ex_red (1 # 2) 2 true ex_rgb (bb_new 2 2 (32 # 10) 4 None) = Ok p' /\ proper_box (bb_new 2 2 (32 # 10) 4 None) /\
  p_px p' 2 2 0%nat = inject_Z 150 /\ p_px p' 1 1 0%nat = inject_Z 150 /\ p_px p' 0 1 0%nat = inject_Z 100 /\ p_px p' 4 4 1%nat = inject_Z 50 /\ frame (bb_new 2 2 (32 # 10) 4 None) ex_rgb 2 1 4.
Proof.
  assert (PB : proper_box (bb_new 2 2 (32 # 10) 4 None)) by (split; vm_compute; discriminate).
  eexists. split; [reflexivity|]. split; [exact PB|]. do 4 (split; [vm_compute; reflexivity|]). rewrite (frame_ring _ _ 2 1 4 PB). vm_compute. split; [discriminate|reflexivity].
Qed.

(** ** C123: segmentation maps and heatmaps on images *)
(** One image per channel of the map, uint8 RGB, of the size of the image (or of the map if the image
    is resized). A pixel shows the image where the nearest class of the map is the background (and the
    background is not drawn), else the blend of the colour of that class with the image. *)
Theorem C123_segmaps : forall cv2 fy fx arr image alpha resize colors draw_background background, resizes cv2 -> picks_by_position cv2 fy fx -> class_map arr -> rgb8 image -> 0 < p_h image -> 0 < p_w image -> palette colors ->
  (overlay_ok alpha resize -> (forall c, (c < chans arr)%nat -> coloured arr colors c) -> exists b image' l, resize = Some b /\ canvas cv2 arr image b image' /\ overlay_segmap cv2 arr image alpha resize colors draw_background background = Ok l /\
     length l = chans arr /\ forall c r, nth_error l c = Some r -> class_pixels fy fx arr image' alpha colors draw_background background c r) /\
  (~ (overlay_ok alpha resize /\ (forall c, (c < chans arr)%nat -> coloured arr colors c)) -> overlay_segmap cv2 arr image alpha resize colors draw_background background = Err AssertionError).
Proof. exact segmap_outcome. Qed.
Print Assumptions C123_segmaps.
(** One image per heatmap if all sides are at least 2: the mix, rounded down, of the image and a byte
    for the nearest value of the heatmap. *)
Theorem C123_heatmaps : forall cv2 fy fx hm image alpha resize cmap, resizes cv2 -> picks_by_position cv2 fy fx -> heat_map hm -> rgb8 image -> (0 <= alpha <= 1)%Q ->
  (forall f, cmap = Some f -> forall q q' ch, (q == q')%Q -> (f q ch == f q' ch)%Q) ->
  1 < p_h image -> 1 < p_w image -> (resize = true -> 1 < p_h hm /\ 1 < p_w hm) ->
  exists image' l, canvas cv2 hm image resize image' /\ overlay_heatmap cv2 hm image alpha (Some resize) cmap = Ok l /\ length l = chans hm /\
    forall c r, nth_error l c = Some r -> p_kind r = KUint 8 /\ p_h r = p_h image' /\ p_w r = p_w image' /\ p_c r = Some 3%nat /\
      forall y x ch, pixel r y x ch -> exists d, byte_of cmap (p_px hm (fy (p_h hm) (p_h image') y) (fx (p_w hm) (p_w image') x) c) ch d /\ truncated_mix alpha d (p_px image' y x ch) (p_px r y x ch).
Proof. exact heatmap_outcome. Qed.
Print Assumptions C123_heatmaps.
(** Images or arguments that are refused by both. *)
Theorem C123_refused : forall cv2 arr image alpha resize colors draw_background background cmap,
  (p_c image <> Some 3%nat \/ p_kind image <> KUint 8 \/ ~ overlay_ok alpha resize) ->
  overlay_segmap cv2 arr image alpha resize colors draw_background background = Err AssertionError /\ overlay_heatmap cv2 arr image alpha resize cmap = Err AssertionError.
Proof.
  intros cv2 arr image alpha resize colors db bg cmap H. assert (D : drawable image alpha resize = false).
  { destruct (drawable image alpha resize) eqn:D; [|reflexivity]. exfalso. unfold drawable in D.
    destruct (p_c image) as [[|[|[|[|n]]]]|] eqn:C; try discriminate. destruct H as [H|H]; [congruence|].
    assert (K : p_kind image = KUint 8) by (destruct (p_kind image) as [|b|b|b]; try discriminate; destruct b as [|[[[[]|[]|]|[[]|[]|]|]|[[[]|[]|]|[[]|[]|]|]|]|[[[[]|[]|]|[[]|[]|]|]|[[[]|[]|]|[[]|[]|]|]|]]; try discriminate; reflexivity).
    rewrite K in D. destruct H as [H|H]; [congruence|]. apply H. rewrite !Bool.andb_true_iff, !qleb_iff in D. destruct resize as [r|]; destruct D as (D1 & D2); [|discriminate]. split; [exact D1|discriminate]. }
  unfold overlay_segmap, overlay_heatmap. rewrite D. auto.
Qed.
Print Assumptions C123_refused.
(** Heatmaps with one column, drawn without a colour map, give images of another size. *)
Definition column_hm : pic := mkPic (KFloat 32) 3 1 (Some 1%nat) (fun y _ _ => inject_Z y / 2)%Q.
Definition column_image : pic := mkPic (KUint 8) 3 1 (Some 3%nat) (fun _ _ _ => 0%Q).
Theorem C123_columns_refuted : forall cv2, exists l r, heat_map column_hm /\ rgb8 column_image /\ overlay_heatmap cv2 column_hm column_image (1 # 2) (Some true) None = Ok l /\ nth_error l 0 = Some r /\ p_h r = 3 /\ p_w r = 3.
Proof.
  intros cv2. eexists _, _. split.
  { split; [reflexivity|]. split; [cbn; lia|]. split; [cbn; lia|]. split; [discriminate|]. intros y x c (Y & _). cbn in Y. assert (y = 0 \/ y = 1 \/ y = 2) as [->|[->| ->]] by lia; vm_compute; split; discriminate. }
  split. { split; [|split; reflexivity]. split; [cbn; lia|]. split; [cbn; lia|]. intros y x c _. exists 0. split; [reflexivity|cbn; lia]. }
  split; [reflexivity|]. split; [reflexivity|]. split; reflexivity.
Qed.
Print Assumptions C123_columns_refuted.
(** With a colour map every image with one row or column is refused. *)
Theorem C123_thin_images_refuted : forall cv2 fy fx hm image alpha f, resizes cv2 -> picks_by_position cv2 fy fx -> heat_map hm -> rgb8 image -> 0 < p_h image -> 0 < p_w image -> (0 <= alpha <= 1)%Q -> (0 < chans hm)%nat ->
  p_h image = 1 \/ p_w image = 1 -> overlay_heatmap cv2 hm image alpha (Some false) (Some f) = Err IndexError.
Proof. exact thin_images. Qed.
Print Assumptions C123_thin_images_refuted.

Example copying_by_position : picks_by_position copying (fun s s' i => i * s / s') (fun s s' i => i * s / s').
Proof.
  split; [intros; apply copying_in; assumption|]. split; [intros; apply copying_in; assumption|]. split.
  - intros s i H. rewrite Z.div_mul by lia. auto.
  - intros k h w h' w' px out E y x Y X. injection E as <-. reflexivity.
Qed.
Definition ex_classes : pic := mkPic (KInt 32) 2 2 (Some 1%nat) (fun y x _ => inject_Z (y * x)).
Definition ex_palette : list (list Q) := map (map inject_Z) [[0; 0; 0]; [200; 0; 50]].
Example C123_example : exists r, overlay_segmap copying ex_classes ex_rgb (1 # 2) (Some false) ex_palette false 0 = Ok [r] /\
  p_h r = 5 /\ p_px r 0 0 0%nat = inject_Z 100 /\ p_px r 4 4 0%nat = inject_Z 150 /\ p_px r 4 4 2%nat = inject_Z 75 /\
  class_map ex_classes /\ palette ex_palette /\ coloured ex_classes ex_palette 0 /\ overlay_ok (1 # 2) (Some false).
Proof.
  assert (CM : class_map ex_classes).
  { split; [reflexivity|]. split; [cbn; lia|]. split; [cbn; lia|]. intros y x c (Y & X & _). cbn in Y, X. exists (y * x). split; [reflexivity|]. change (2 ^ 31) with 2147483648. nia. }
  eexists. split; [reflexivity|]. do 4 (split; [vm_compute; reflexivity|]). split; [exact CM|]. split.
  { repeat constructor; eexists; split; try reflexivity; lia. }
  split. { intros y x z Y X E. cbn [ex_classes p_px p_h p_w] in *. injection E as E. change (Z.of_nat (length ex_palette)) with 2. nia. }
  split; [split; vm_compute; discriminate|discriminate].
Qed.
Example C123_heatmap_example : exists r, overlay_heatmap copying (mkPic (KFloat 32) 2 2 (Some 1%nat) (fun y _ _ => inject_Z y)) ex_rgb (1 # 2) (Some false) None = Ok [r] /\
  p_h r = 5 /\ p_px r 0 0 0%nat = inject_Z 50 /\ p_px r 4 4 0%nat = inject_Z 177.
Proof. eexists. split; [reflexivity|]. do 2 (split; [vm_compute; reflexivity|]). vm_compute. reflexivity. Qed.
