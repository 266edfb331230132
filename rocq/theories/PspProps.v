(** Properties C86-C90: PerspectiveTransform. *)
From Verif Require Import Prelude GeoModel PspModel PspSpec PspProofs PspShape PspRest.
From Coq Require Import Lia Lqa Qabs.
Local Open Scope Q_scope.

(** ** C86: the region that is cut out. *)

(** Whatever the jitter and the shape: at most three rounds of each loop are
    needed, all sides of the region end up at least two pixels long and the
    output is as wide and high as the longer of two opposite sides, rounded
    down. *)
Theorem C86_sizes : forall n h w j, exists q mw mh,
  draw_quad (3 + n) (h, w) j = Some (q, mw, mh) /\
  sides_at_least 2 q /\
  longer_side mw (dist2 (tl q) (tr q)) (dist2 (bl q) (br q)) /\
  longer_side mh (dist2 (tr q) (br q)) (dist2 (tl q) (bl q)) /\
  (2 <= mw)%Z /\ (2 <= mh)%Z /\
  fst (tl q) <= fst (tr q) /\ fst (bl q) <= fst (br q) /\
  snd (tl q) <= snd (bl q) /\ snd (tr q) <= snd (br q).
Proof.
  intros n h w j.
  destruct (draw_quad_spec n h w j) as (q & mw & mh & sx & sy & E & SX & SY & QE & W & H & L1 & L2 & MW & MH & _).
  exists q, mw, mh. split; [exact E|]. split; [apply sides_widths; split; assumption|].
  split; [exact L1|]. split; [exact L2|]. split; [exact MW|]. split; [exact MH|].
  apply (aligned_eq (enlarged sx sy (order_points (corner_points j h w)))); [apply quad_eq_sym; exact QE|].
  apply enlarged_aligned; [exact SX|exact SY|apply order_points_aligned].
Qed.
Print Assumptions C86_sizes.

(** More rounds change nothing. *)
Theorem C86_three_rounds : forall n s j, draw_quad (3 + n) s j = draw_quad 3 s j.
Proof. exact draw_quad_more. Qed.
Print Assumptions C86_three_rounds.

(** If the jitter is small compared to the shape, the region is a convex
    quadrilateral whose corners are the corners of the image, each moved
    inwards by its own jitter; only if a side would be shorter than two pixels
    all corners are moved outwards again by one common amount per axis. *)
Theorem C86_corners : forall n h w j t, small_jitter j t h w ->
  exists q0 q mw mh sx sy,
    draw_quad (3 + n) (h, w) j = Some (q, mw, mh) /\ moved_corners j h w q0 /\
    0 <= sx /\ 0 <= sy /\ quad_eq q (enlarged sx sy q0) /\
    (sides_at_least 2 q0 -> sx == 0 /\ sy == 0) /\ convex q.
Proof.
  intros n h w j t S. destruct (draw_small n h w j t S) as (q0 & q & mw & mh & sx & sy & A1 & A2 & A3 & A4 & A5 & A6 & A7 & _).
  exists q0, q, mw, mh, sx, sy. repeat (split; [assumption|]). assumption.
Qed.
Print Assumptions C86_corners.

(** Otherwise a corner may get lost: a jitter of at most 12% of an image of 10
    rows and 100 columns moves the top left corner of the image to (12, 0).
    The region that is cut out is (0, 9), (100, -1), (100, 11), (0, 11): it was
    made from the bottom left corner, used twice, and the point (12, 0) is not
    near any of its corners. *)
Theorem C86_elongated_refuted :
  exists j h w q0 q mw mh,
    (forall c, In c (corners j) -> Qabs (fst c) <= 12 # 100 /\ Qabs (snd c) <= 12 # 100) /\
    moved_corners j h w q0 /\ sides_at_least 10 q0 /\
    draw_quad 3 (h, w) j = Some (q, mw, mh) /\
    forall c, In c (corners q) -> 10 * 10 <= dist2 c (tl q0).
Proof.
  exists (mkQuad (12 # 100, 0) (0, 0) (0, 0) (0, 0)), 10%Z, 100%Z,
         (mkQuad (12, 0) (100, 0) (100, 10) (0, 10)).
  destruct (draw_quad 3 (10, 100)%Z (mkQuad (12 # 100, 0) (0, 0) (0, 0) (0, 0))) as [[[q mw] mh]|] eqn:E.
  2: { vm_compute in E. discriminate. }
  exists q, mw, mh. split.
  { intros c [<-|[<-|[<-|[<-|[]]]]]; vm_compute; split; discriminate. }
  split; [vm_compute; tauto|]. split; [repeat split; vm_compute; discriminate|].
  split; [reflexivity|]. vm_compute in E. injection E as <- <- <-.
  intros c [<-|[<-|[<-|[<-|[]]]]]; vm_compute; discriminate.
Qed.
Print Assumptions C86_elongated_refuted.

(** A trapezoid: the two upper corners of an 8x8 image moved by two pixels. *)
Definition trapezoid : quad := mkQuad (1 # 4, 0) (- (1 # 4), 0) (0, 0) (0, 0).

Example C86_ex_small : small_jitter trapezoid (1 # 4) 8 8.
Proof.
  split; [|repeat split; reflexivity].
  intros c [<-|[<-|[<-|[<-|[]]]]]; vm_compute; split; discriminate.
Qed.
Example C86_ex_drawn : exists q, draw_quad 3 (8, 8)%Z trapezoid = Some (q, 8%Z, 8%Z) /\
  quad_eq q (mkQuad (2, 0) (6, 0) (8, 8) (0, 8)).
Proof. eexists. split; [vm_compute; reflexivity|]. vm_compute. tauto. Qed.
Example C86_ex_tiny : exists q, draw_quad 3 (1, 1)%Z trapezoid = Some (q, 3%Z, 2%Z) /\ sides_at_least 2 q.
Proof. eexists. split; [vm_compute; reflexivity|]. repeat split; vm_compute; discriminate. Qed.

(** ** C87: the region fills the output. *)

(** The corners of the region go to the corners of the output, every point of
    the region to a point of the output. *)
Theorem C87_region_fills_output : forall solve n h w j t, good_solver solve -> small_jitter j t h w ->
  exists s q0 q sx sy, draw_sample solve false (3 + n) (h, w) j = Some s /\
    moved_corners j h w q0 /\ 0 <= sx /\ 0 <= sy /\ quad_eq q (enlarged sx sy q0) /\
    (sides_at_least 2 q0 -> sx == 0 /\ sy == 0) /\
    (2 <= max_height s)%Z /\ (2 <= max_width s)%Z /\
    takes_quad (matrix s) q (rect (max_height s) (max_width s)) /\ invertible (matrix s) /\
    forall p, in_quad q p -> ~ weight (matrix s) p == 0 /\
      on_plane (max_height s) (max_width s) (perspective (matrix s) p).
Proof.
  intros solve n h w j t G S.
  destruct (draw_region solve n h w j t G S) as (s & q0 & q & sx & sy & A1 & A2 & A3 & A4 & A5 & A6 & A7 & A8 & A9 & _ & A10).
  exists s, q0, q, sx, sy. repeat (split; [assumption|]).
  split; [|assumption]. apply (takes_invertible _ q _ A9). apply convex_general, rect_convex; lia.
Qed.
Print Assumptions C87_region_fills_output.

(** The four points determine the transformation: any two ways of solving for
    the matrix move every point alike. *)
Theorem C87_determined : forall m m' q d p, general_position q -> general_position d ->
  takes_quad m q d -> takes_quad m' q d -> ~ weight m p == 0 ->
  ~ weight m' p == 0 /\ peq (perspective m p) (perspective m' p).
Proof. exact matrix_unique. Qed.
Print Assumptions C87_determined.

(** There is a way. *)
Example C87_ex_solver : good_solver ref_solver.
Proof. exact ref_solver_good. Qed.
Example C87_ex_in : in_quad (mkQuad (2, 0) (6, 0) (8, 8) (0, 8)) (4, 4).
Proof. exists (1 # 4), (1 # 4), (1 # 4), (1 # 4). repeat split; vm_compute; discriminate || reflexivity. Qed.
Example C87_ex_centre : exists s, draw_sample ref_solver false 3 (8, 8)%Z trapezoid = Some s /\
  max_height s = 8%Z /\ max_width s = 8%Z /\ peq (perspective (matrix s) (4, 4)) (4, 16 # 3).
Proof. eexists. split; [vm_compute; reflexivity|]. vm_compute. tauto. Qed.

(** ** C88: coordinates and pixels. *)

(** The augmented keypoints are given for a plane of the output's shape, which
    is the input's shape if it is to be kept; relative to that plane they are
    where the matrix puts them on its canvas. *)
Theorem C88_keypoints : forall keep s k h w, kps_shape k = (h, w) -> (0 < h)%Z -> (0 < w)%Z ->
  (0 < max_height s)%Z -> (0 < max_width s)%Z ->
  exists k', kpsoi_by_sample keep s k = Ok k' /\
    kps_shape k' = (if keep then (h, w) else (max_height s, max_width s)) /\
    Forall2 (fun p p' => peq (relative (fst (kps_shape k')) (snd (kps_shape k')) (kx p', ky p'))
                             (relative (max_height s) (max_width s) (perspective (matrix s) (kx p, ky p))))
            (kps k) (kps k').
Proof. exact kpsoi_sample_ok. Qed.
Print Assumptions C88_keypoints.

(** The image has the same shape as the plane of its keypoints, also if one of
    its axes has size zero. *)
Theorem C88_same_shape : forall A (warp : warper A) resize keep s img k k',
  good_warp warp -> good_resize resize -> (0 <= ah img)%Z -> (0 <= aw img)%Z ->
  (0 < max_height s)%Z -> (0 < max_width s)%Z ->
  kps_shape k = (ah img, aw img) -> kpsoi_by_sample keep s k = Ok k' ->
  let out := image_by_sample warp resize keep s img in kps_shape k' = (ah out, aw out).
Proof.
  intros A warp resize keep s img k k' GW GR H W MH MW SH E out. unfold out.
  destruct (Z.eq_dec (ah img) 0) as [Z|Z].
  { unfold image_by_sample. unfold kpsoi_by_sample in E. rewrite SH in E. cbn [fst] in E. rewrite Z in *. simpl in *.
    injection E as <-. rewrite Z. exact SH. }
  destruct (Z.eq_dec (aw img) 0) as [Z'|Z'].
  { unfold image_by_sample. unfold kpsoi_by_sample in E. rewrite SH in E. cbn [fst snd] in E. rewrite Z' in *.
    rewrite orb_true_r in *. injection E as <-. rewrite Z'. exact SH. }
  rewrite (image_sample_shape A warp resize keep s img GW GR ltac:(lia) ltac:(lia)).
  destruct (kpsoi_sample_ok keep s k _ _ SH ltac:(lia) ltac:(lia) MH MW) as (k2 & E2 & S2 & _).
  rewrite E in E2. injection E2 as <-. exact S2.
Qed.
Print Assumptions C88_same_shape.

(** A pixel whose index goes to the index of a pixel of the output is found
    there; a keypoint at that very position goes along. *)
Theorem C88_pixel_index : forall A (warp : warper A) resize s img y x y' x',
  good_warp warp -> (0 <= y < ah img)%Z -> (0 <= x < aw img)%Z ->
  (0 <= y' < max_height s)%Z -> (0 <= x' < max_width s)%Z ->
  invertible (matrix s) -> takes (matrix s) (inject_Z x, inject_Z y) (inject_Z x', inject_Z y') ->
  apx (image_by_sample warp resize false s img) y' x' = apx img y x /\
  exists k', kpsoi_by_sample false s (mkKpsoi [mkKp (inject_Z x) (inject_Z y)] (ah img, aw img)) = Ok k' /\
    exists p', kps k' = [p'] /\ kx p' == inject_Z x' /\ ky p' == inject_Z y'.
Proof.
  intros A warp resize s img y x y' x' GW Y X Y' X' I T. split.
  - unfold image_by_sample. destruct (ah img =? 0)%Z eqn:E1; [apply Z.eqb_eq in E1; lia|].
    destruct (aw img =? 0)%Z eqn:E2; [apply Z.eqb_eq in E2; lia|]. cbn [orb].
    destruct (GW img (matrix s) (max_width s) (max_height s)) as (_ & _ & P). apply P; assumption.
  - unfold kpsoi_by_sample. cbn [kps_shape fst snd].
    destruct (ah img =? 0)%Z eqn:E1; [apply Z.eqb_eq in E1; lia|].
    destruct (aw img =? 0)%Z eqn:E2; [apply Z.eqb_eq in E2; lia|]. cbn [orb kps map].
    eexists. split; [reflexivity|]. cbn [kps]. destruct T as (_ & T1 & T2).
    cbn [kx ky]. destruct (perspective (matrix s) (inject_Z x, inject_Z y)) as [a b].
    exists (mkKp a b). split; [reflexivity|]. split; assumption.
Qed.
Print Assumptions C88_pixel_index.

(** But the centre of pixel (y, x) is the keypoint (x + 1/2, y + 1/2), and that
    one does not go along: in the 8x8 trapezoid pixel (0, 3) is moved to (0, 2)
    while a keypoint in its centre is moved out of pixel (0, 2), into (0, 3). *)
Theorem C88_centre_refuted :
  exists s y x y' x' k', draw_sample ref_solver false 3 (8, 8)%Z trapezoid = Some s /\
    (0 <= y < 8)%Z /\ (0 <= x < 8)%Z /\ (0 <= y' < max_height s)%Z /\ (0 <= x' < max_width s)%Z /\
    takes (matrix s) (inject_Z x, inject_Z y) (inject_Z x', inject_Z y') /\
    kpsoi_by_sample false s (mkKpsoi [mkKp (inject_Z x + (1 # 2)) (inject_Z y + (1 # 2))] (8, 8)%Z) = Ok k' /\
    exists p', kps k' = [p'] /\ inject_Z (x' + 1) <= kx p'.
Proof.
  eexists. exists 0%Z, 3%Z, 0%Z, 2%Z. eexists.
  split; [vm_compute; reflexivity|].
  repeat (split; [vm_compute; split; congruence|]).
  split; [split; [vm_compute; discriminate|vm_compute; split; reflexivity]|].
  split; [vm_compute; reflexivity|].
  eexists. split; [reflexivity|]. vm_compute. discriminate.
Qed.
Print Assumptions C88_centre_refuted.

Example C88_ex_kps : exists s k', draw_sample ref_solver false 3 (8, 8)%Z trapezoid = Some s /\
  kpsoi_by_sample true s (mkKpsoi [mkKp 4 4; mkKp 2 0] (8, 8)%Z) = Ok k' /\
  kps_shape k' = (8, 8)%Z /\
  Forall2 (fun p q => kx p == fst q /\ ky p == snd q) (kps k') [(4, 16 # 3); (0, 0)].
Proof.
  eexists. eexists. split; [vm_compute; reflexivity|]. split; [vm_compute; reflexivity|].
  split; [reflexivity|]. repeat constructor; vm_compute; reflexivity.
Qed.
Example C88_ex_warp : good_warp (ref_warp Z 0%Z).
Proof. exact (ref_warp_good Z 0%Z). Qed.
Example C88_ex_resize : good_resize (fun (a : arr Z) h w => mkArr h w (fun _ _ => 0%Z)).
Proof. intros a h w. split; reflexivity. Qed.

(** ** C89: heatmaps and segmentation maps follow the image. *)

(** A map with an array of another shape (h', w'): for small jitter and sides
    of at least two pixels on both, the map's own matrix moves every point to
    the same relative position as the image's matrix. *)
Theorem C89_maps_follow : forall solve n h w h' w' j t t', good_solver solve ->
  small_jitter j t h w -> small_jitter j t' h' w' ->
  (forall q, moved_corners j h w q -> sides_at_least 2 q) ->
  (forall q, moved_corners j h' w' q -> sides_at_least 2 q) ->
  exists s s', draw_sample solve false (3 + n) (h, w) j = Some s /\
    draw_sample solve false (3 + n) (h', w') j = Some s' /\
    forall p, ~ weight (matrix s) p == 0 ->
      let p' := (fst p * (inject_Z w' / inject_Z w), snd p * (inject_Z h' / inject_Z h)) in
      ~ weight (matrix s') p' == 0 /\
      peq (relative (max_height s) (max_width s) (perspective (matrix s) p))
          (relative (max_height s') (max_width s') (perspective (matrix s') p')).
Proof. exact maps_follow. Qed.
Print Assumptions C89_maps_follow.

(** The shapes: unchanged if the size is to be kept, otherwise the array has
    the size drawn for it and refers to an image of the size of the output. *)
Theorem C89_shapes : forall A (warp : warper A) resize keep s s_image m img,
  good_warp warp -> good_resize resize -> map_shape m = (ah img, aw img) ->
  (0 < ah img)%Z -> (0 < aw img)%Z -> (0 < ah (map_arr m))%Z -> (0 < aw (map_arr m))%Z ->
  let m' := map_by_sample warp resize keep s s_image m in
  let img' := image_by_sample warp resize keep s_image img in
  map_shape m' = (ah img', aw img') /\
  (ah (map_arr m'), aw (map_arr m')) =
    (if keep then (ah (map_arr m), aw (map_arr m)) else (max_height s, max_width s)).
Proof.
  intros A warp resize keep s s_image m img GW GR SH H W MH MW m' img'. unfold m', img'.
  rewrite (image_sample_shape A warp resize keep s_image img GW GR H W).
  unfold map_by_sample. rewrite SH. cbn [fst snd].
  destruct (ah img =? 0)%Z eqn:E1; [apply Z.eqb_eq in E1; lia|].
  destruct (aw img =? 0)%Z eqn:E2; [apply Z.eqb_eq in E2; lia|].
  destruct (ah (map_arr m) =? 0)%Z eqn:E3; [apply Z.eqb_eq in E3; lia|].
  destruct (aw (map_arr m) =? 0)%Z eqn:E4; [apply Z.eqb_eq in E4; lia|]. cbn [orb].
  destruct keep; cbn [map_shape map_arr].
  - destruct (GR (warp (map_arr m) (matrix s) (max_width s) (max_height s)) (ah (map_arr m)) (aw (map_arr m))) as (R1 & R2).
    rewrite R1, R2. split; reflexivity.
  - destruct (GW (map_arr m) (matrix s) (max_width s) (max_height s)) as (R1 & R2 & _).
    rewrite R1, R2. split; reflexivity.
Qed.
Print Assumptions C89_shapes.

(** A map of a low resolution does not follow: with a jitter of 30% the region
    of a 4x4 map would be less than two pixels wide and is enlarged. The point
    (30, 30) of a 100x100 image goes to the corner of the output, the same
    point of the map to a fifth of its width. *)
Theorem C89_small_map_refuted :
  exists j t s s' p, small_jitter j t 100 100 /\ small_jitter j t 4 4 /\
    draw_sample ref_solver false 3 (100, 100)%Z j = Some s /\
    draw_sample ref_solver false 3 (4, 4)%Z j = Some s' /\
    on_plane 100 100 p /\
    peq (relative (max_height s) (max_width s) (perspective (matrix s) p)) (0, 0) /\
    let p' := (fst p * (4 / 100), snd p * (4 / 100)) in
    19 # 100 <= fst (relative (max_height s') (max_width s') (perspective (matrix s') p')).
Proof.
  exists (mkQuad (3 # 10, 3 # 10) (3 # 10, 3 # 10) (3 # 10, 3 # 10) (3 # 10, 3 # 10)), (3 # 10).
  eexists. eexists. exists (30, 30).
  split. { split; [|repeat split; reflexivity]. intros c [<-|[<-|[<-|[<-|[]]]]]; vm_compute; split; discriminate. }
  split. { split; [|repeat split; reflexivity]. intros c [<-|[<-|[<-|[<-|[]]]]]; vm_compute; split; discriminate. }
  split; [vm_compute; reflexivity|]. split; [vm_compute; reflexivity|].
  split; [repeat split; vm_compute; discriminate|].
  split; [vm_compute; split; reflexivity|]. vm_compute. discriminate.
Qed.
Print Assumptions C89_small_map_refuted.

Example C89_ex_sides : forall q, moved_corners trapezoid 8 8 q -> sides_at_least 2 q.
Proof.
  intros q M. apply (sides_eq 2 (mkQuad (2, 0) (6, 0) (8, 8) (0, 8))).
  - apply (moved_same trapezoid 8 8); [vm_compute; tauto|exact M].
  - repeat split; vm_compute; discriminate.
Qed.
Example C89_ex_small : small_jitter trapezoid (1 # 4) 4 4.
Proof.
  split; [|repeat split; reflexivity].
  intros c [<-|[<-|[<-|[<-|[]]]]]; vm_compute; split; discriminate.
Qed.

(** ** C90: fitting the output to the whole image. *)

(** If the corners of the image go to a convex quadrilateral, every point of
    the image lands on the canvas, the corners touch all four sides of the
    canvas, and they are, up to rounding to whole pixels, where the
    transformation without fitting would put them, shifted. *)
Theorem C90_whole_image : forall solve m h w m' mw mh, good_solver solve -> (0 < h)%Z -> (0 < w)%Z ->
  convex (expand_dst m h w) -> expand_transform solve m h w = (m', mw, mh) ->
  (forall p, on_plane h w p -> ~ weight m' p == 0 /\ on_plane mh mw (perspective m' p)) /\
  (exists dx dy, forall c, In c (corners (rect h w)) ->
     Qabs (fst (perspective m' c) - (fst (perspective m c) + dx)) <= 1 # 2 /\
     Qabs (snd (perspective m' c) - (snd (perspective m c) + dy)) <= 1 # 2) /\
  (exists c, In c (corners (rect h w)) /\ fst (perspective m' c) == 0) /\
  (exists c, In c (corners (rect h w)) /\ snd (perspective m' c) == 0) /\
  (exists c, In c (corners (rect h w)) /\ fst (perspective m' c) == inject_Z mw) /\
  (exists c, In c (corners (rect h w)) /\ snd (perspective m' c) == inject_Z mh).
Proof. exact expand_ok. Qed.
Print Assumptions C90_whole_image.

(** For larger jitter the horizon crosses the image and nothing fits: the
    corners change sides and the centre of the image leaves the canvas. *)
Theorem C90_horizon_refuted :
  exists j s, (forall c, In c (corners j) -> Qabs (fst c) <= 4 # 10 /\ Qabs (snd c) <= 4 # 10) /\
    draw_sample ref_solver true 3 (100, 100)%Z j = Some s /\
    ~ on_plane (max_height s) (max_width s) (perspective (matrix s) (50, 50)) /\
    fst (perspective (matrix s) (100, 0)) < fst (perspective (matrix s) (0, 0)).
Proof.
  exists (mkQuad (4 # 10, 4 # 10) (4 # 10, 4 # 10) (0, 0) (0, 0)). eexists.
  split. { intros c [<-|[<-|[<-|[<-|[]]]]]; vm_compute; split; discriminate. }
  split; [vm_compute; reflexivity|]. split.
  - intros (_ & _ & A & _). vm_compute in A. apply A. reflexivity.
  - vm_compute. reflexivity.
Qed.
Print Assumptions C90_horizon_refuted.

Example C90_ex : exists s, draw_sample ref_solver false 3 (8, 8)%Z trapezoid = Some s /\
  convex (expand_dst (matrix s) 8 8) /\
  quad_eq (expand_dst (matrix s) 8 8) (mkQuad (0, 0) (16, 0) (12, 8) (4, 8)).
Proof.
  eexists. split; [vm_compute; reflexivity|]. split; [repeat split; vm_compute; reflexivity|vm_compute; tauto].
Qed.
