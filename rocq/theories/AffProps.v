(** Properties of affine transformations: C70-C74. *)
From Verif Require Import Prelude PreludeFacts GeoModel GeoSpec GeoProofs AffModel AffSpec AffProofs.
From Coq Require Import Qround Qabs Qfield Lia Lqa.
Local Open Scope Q_scope.

(** Functions that meet [sane]: cos and sin by the tangent of the half angle
    (here one quarter turn is the angle 1). *)
Definition toy_trig : trig :=
  mkTrig (fun x => (1 - x * x) / (1 + x * x)) (fun x => 2 * x / (1 + x * x)) (fun x => x / (1 + Qabs x)) (1 # 90).
Lemma square_nonneg x : 0 <= x * x.
Proof. destruct (Qlt_le_dec x 0); nra. Qed.
Lemma toy_trig_sane : sane toy_trig.
Proof.
  unfold sane, toy_trig. cbn [tcos tsin ttanh].
  assert (forall x, ~ 1 + x * x == 0) as N by (intros x E; pose proof (square_nonneg x); lra).
  assert (forall x, ~ 1 + Qabs x == 0) as M by (intros x E; pose proof (Qabs_nonneg x); lra).
  split; [|split; [|split; [|split]]].
  - intros a b E. rewrite E. repeat split; reflexivity.
  - intros a. assert (- a * - a == a * a) as S by ring. assert (Qabs (- a) == Qabs a) as T by apply Qabs_opp.
    split; [rewrite S; reflexivity|]. split; [rewrite S; field; apply N|]. rewrite T. field. apply M.
  - intros a. field. apply N.
  - split; reflexivity.
  - intros a. pose proof (Qabs_nonneg a) as Z. assert (0 < 1 + Qabs a) as Pos by lra.
    pose proof (Qle_Qabs a). pose proof (Qle_Qabs (- a)) as O. rewrite Qabs_opp in O. split.
    + apply Qlt_shift_div_l; [exact Pos|]. lra.
    + apply Qlt_shift_div_r; [exact Pos|]. lra.
Qed.

(** A resampler: look up the value at the inverse position, rounded. *)
Definition toy_warp (m : mat) (out : shape2) (a : arr Z) : arr Z :=
  let det := m00 m * m11 m - m01 m * m10 m in
  mkArr (fst out) (snd out) (fun y x =>
    let u := inject_Z x - m02 m in let v := inject_Z y - m12 m in
    apx a (Qfloor ((m00 m * v - m10 m * u) / det + (1 # 2))) (Qfloor ((m11 m * u - m01 m * v) / det + (1 # 2)))).
Lemma toy_warp_resampler : resampler toy_warp.
Proof.
  intros m out a. split; [reflexivity|]. split; [reflexivity|]. intros y x y' x' Y X Y' X' A D E. unfold toy_warp. cbn [apx].
  destruct (kp_eq_trans _ _ _ (kp_eq_sym _ _ (warp_linear m _ A)) E) as [E1 E2]. unfold AffProofs.linear in E1, E2. cbn [kx ky] in E1, E2.
  assert (forall z q, q == inject_Z z -> Qfloor (q + (1 # 2)) = z) as R.
  { intros z q Q. apply Qfloor_unique; rewrite Q; lra. }
  rewrite (R y), (R x); [reflexivity| |]; rewrite <- E1, <- E2; field; exact D.
Qed.

(** ** C70: images and coordinates are moved together *)

(** Without fit_output: for every sample, a point (x + 1/2, y + 1/2) goes to the
    position of the pixel index (x, y) plus (1/2, 1/2). No assumption on cos,
    sin, tanh or the sampled values is needed. *)
Theorem C70_aligned : forall t s shape p, nonzero shape ->
  kp_eq (warp_coord (fst (cba_matrix t s shape false)) (moved_by (1 # 2) (1 # 2) p))
        (moved_by (1 # 2) (1 # 2) (warp_coord (fst (image_matrix t s shape shape false)) p)).
Proof. exact aligned. Qed.
Print Assumptions C70_aligned.

(** If augmentation takes the keypoint in the middle of pixel (y, x) to the
    middle of pixel (y', x'), then the augmented image has at (y', x') the value
    that the image had at (y, x). *)
Theorem C70_pixels_and_points : forall (A : Type) (warp : mat -> shape2 -> arr A -> arr A) t s (a : arr A) y x y' x' q,
  resampler warp -> sane t -> 0 < scale_x s -> 0 < scale_y s ->
  let shape := (ah a, aw a) in
  has_pixels shape -> shift_carried_out s shape shape ->
  is_identity_matrix (fst (image_matrix t s shape shape false)) = is_identity_matrix (fst (cba_matrix t s shape false)) ->
  (0 <= y < ah a)%Z -> (0 <= x < aw a)%Z -> (0 <= y' < ah a)%Z -> (0 <= x' < aw a)%Z ->
  kps (affine_keypoints t s false (mkKpsoi [pixel_centre y x] shape)) = [q] ->
  kp_eq q (pixel_centre y' x') ->
  apx (fst (affine_image warp t s false shape a)) y' x' = apx a y x.
Proof.
  intros A warp t s a y x y' x' q RS SN SX SY shape P SC ID Y X Y' X' K E.
  assert (forall j i, kp_eq (pixel_centre j i) (cell_centre shape shape j i)) as CC.
  { intros j i. unfold pixel_centre, cell_centre, shape. cbn [fst snd]. destruct P as [P1 P2]. cbn [fst snd] in P1, P2.
    split; cbn [kx ky]; field; apply inject_nonzero; lia. }
  assert (exists q', kps (affine_keypoints t s false (mkKpsoi [cell_centre shape shape y x] shape)) = [q'] /\ kp_eq q' q) as [q' [K' Q']].
  { rewrite one_keypoint in K |- *. destruct (moves _ _ _); injection K as <-; eexists; (split; [reflexivity|]).
    - pose proof (acts_warp _ _ (proj1 (cba_acts t s shape (has_pixels_nonzero _ P)))) as W.
      eapply kp_eq_trans; [apply W|]. eapply kp_eq_trans; [|apply kp_eq_sym, W]. apply plain_proper, kp_eq_sym, CC.
    - apply kp_eq_sym, CC. }
  apply (maps_and_points warp t s a shape y x y' x' q'); try assumption; [reflexivity|].
  eapply kp_eq_trans; [exact Q'|]. eapply kp_eq_trans; [exact E|]. apply CC.
Qed.
Print Assumptions C70_pixels_and_points.

(** A quarter turn of a 4x6 image, moved 1 px to the right. *)
Definition ex_sample : sample := mkSample 1 1 1 0 Px 90 0 0.
Definition ex_image : arr Z := mkArr 4 6 (fun y x => 10 * y + x)%Z.
Example C70_witness :
  kps (affine_keypoints toy_trig ex_sample false (mkKpsoi [pixel_centre 1 2] (4, 6)%Z)) <> [] /\
  (exists q, kps (affine_keypoints toy_trig ex_sample false (mkKpsoi [pixel_centre 1 2] (4, 6)%Z)) = [q] /\ kp_eq q (pixel_centre 1 4)) /\
  is_identity_matrix (fst (image_matrix toy_trig ex_sample (4, 6)%Z (4, 6)%Z false)) = false /\
  is_identity_matrix (fst (cba_matrix toy_trig ex_sample (4, 6)%Z false)) = false /\
  shift_carried_out ex_sample (4, 6)%Z (4, 6)%Z /\
  apx (fst (affine_image toy_warp toy_trig ex_sample false (4, 6)%Z ex_image)) 1 4 = 12%Z.
Proof.
  split; [vm_compute; discriminate|]. split; [eexists; split; [vm_compute; reflexivity|]; split; vm_compute; reflexivity|].
  split; [vm_compute; reflexivity|]. split; [vm_compute; reflexivity|]. split; [|vm_compute; reflexivity].
  unfold shift_carried_out, asked_shift. cbn. intros [E _]. vm_compute in E. discriminate.
Qed.

(** With fit_output the two are the same map: a point p is sent to where the
    pixel *index* p is sent, not to half a pixel beside the moved pixel. *)
Theorem C70_fit_partial : forall t s shape p, has_pixels shape ->
  fit_carried_out (fst (image_matrix t s shape shape false)) shape -> fit_carried_out (fst (cba_matrix t s shape false)) shape ->
  kp_eq (warp_coord (fst (cba_matrix t s shape true)) p) (warp_coord (fst (image_matrix t s shape shape true)) p).
Proof. intros t s shape p P FI FC. apply one_canvas; assumption. Qed.
Print Assumptions C70_fit_partial.

(** Hence images and coordinates part: a quarter turn of a 4x4 image with
    fit_output moves pixel (0, 0) to (0, 3), but the keypoint in the middle of
    pixel (0, 0) to the middle of pixel (0, 2). *)
Definition ex_quarter : sample := mkSample 1 1 0 0 Px 90 0 0.
Definition ex_square : arr Z := mkArr 4 4 (fun y x => 10 * y + x)%Z.
Theorem C70_fit_refuted : exists t s (a : arr Z) y x y' x' q,
  sane t /\ scale_x s == 1 /\ scale_y s == 1 /\
  kps (affine_keypoints t s true (mkKpsoi [pixel_centre y x] (ah a, aw a))) = [q] /\ kp_eq q (pixel_centre y' x') /\
  forall warp, resampler warp -> apx (fst (affine_image warp t s true (ah a, aw a) a)) y' (x' + 1) = apx a y x /\
    apx (fst (affine_image warp t s true (ah a, aw a) a)) y' x' <> apx a y x.
Proof.
  exists toy_trig, ex_quarter, ex_square, 0%Z, 0%Z, 0%Z, 2%Z. eexists. split; [exact toy_trig_sane|].
  split; [reflexivity|]. split; [reflexivity|]. split; [vm_compute; reflexivity|].
  split; [split; vm_compute; reflexivity|]. intros warp RS. rewrite !affine_image_fst. cbn [ah aw ex_square].
  assert (is_identity_matrix (fst (image_matrix toy_trig ex_quarter (4, 4)%Z (4, 4)%Z true)) = false) as -> by (vm_compute; reflexivity).
  cbn [Z.eqb orb]. assert (snd (image_matrix toy_trig ex_quarter (4, 4)%Z (4, 4)%Z true) = (4, 4)%Z) as -> by (vm_compute; reflexivity).
  set (m := fst (image_matrix toy_trig ex_quarter (4, 4)%Z (4, 4)%Z true)).
  assert (is_affine m) as A by (repeat split; vm_compute; reflexivity).
  assert (~ m00 m * m11 m - m01 m * m10 m == 0) as D by (vm_compute; discriminate).
  assert (kp_eq (warp_coord m (mkKp (inject_Z 0) (inject_Z 0))) (mkKp (inject_Z 3) (inject_Z 0))) as E1 by (split; vm_compute; reflexivity).
  assert (kp_eq (warp_coord m (mkKp (inject_Z 0) (inject_Z 1))) (mkKp (inject_Z 2) (inject_Z 0))) as E2 by (split; vm_compute; reflexivity).
  clearbody m. destruct (RS m (4, 4)%Z ex_square) as [_ [_ R]]. split.
  - change (2 + 1)%Z with 3%Z. rewrite (R 0 0 0 3)%Z; try assumption; cbn; lia.
  - rewrite (R 1 0 0 2)%Z; try assumption; cbn; lia.
Qed.
Print Assumptions C70_fit_refuted.

(** ** C71: the parameters mean what they say *)

(** Every keypoint is rotated clockwise, scaled and sheared about the centre of
    the image and then shifted, each by its sampled amount. *)
Theorem C71_keypoints : forall t s k, sane t -> has_pixels (kps_shape k) -> carried_out t s (kps_shape k) (kps_shape k) ->
  kps_shape (affine_keypoints t s false k) = kps_shape k /\
  Forall2 (sent t s (kps_shape k)) (kps k) (kps (affine_keypoints t s false k)).
Proof. exact affine_keypoints_ok. Qed.
Print Assumptions C71_keypoints.

(** The same for the points of polygons and line strings. *)
Theorem C71_paths : forall t s p, sane t -> has_pixels (paths_shape p) -> carried_out t s (paths_shape p) (paths_shape p) ->
  exists r, affine_paths t s false p = Ok r /\ paths_shape r = paths_shape p /\
    Forall2 (Forall2 (sent t s (paths_shape p))) (paths p) (paths r).
Proof. exact affine_paths_ok. Qed.
Print Assumptions C71_paths.

(** A bounding box becomes the smallest box around its four moved corners. *)
Theorem C71_boxes : forall t s b, sane t -> has_pixels (bbs_shape b) -> carried_out t s (bbs_shape b) (bbs_shape b) ->
  exists r, affine_boxes t s false b = Ok r /\ bbs_shape r = bbs_shape b /\
    Forall2 (fun c o => label o = label c /\
      ((exists k0 k1 k2 k3, let to := fun x y k => kp_eq k (intended t s (bbs_shape b) (bbs_shape b) (mkKp x y)) in
          to (x1 c) (y1 c) k0 /\ to (x2 c) (y1 c) k1 /\ to (x2 c) (y2 c) k2 /\ to (x1 c) (y2 c) k3 /\ smallest_box_around o [k0; k1; k2; k3]) \/
       (o = c /\ forall p, hardly_moved p (intended t s (bbs_shape b) (bbs_shape b) p)))) (bbs b) (bbs r).
Proof. exact affine_boxes_ok. Qed.
Print Assumptions C71_boxes.

(** The pixels of images and maps, whose index (x, y) stands for the point
    (x + 1/2, y + 1/2), are moved in the same way. *)
Theorem C71_pixels : forall t s arr image p, sane t -> nonzero image -> carried_out t s arr image ->
  kp_eq (moved_by (1 # 2) (1 # 2) (warp_coord (fst (image_matrix t s arr image false)) p)) (intended t s arr image (moved_by (1 # 2) (1 # 2) p)).
Proof. exact image_coordinates. Qed.
Print Assumptions C71_pixels.

Definition ex_full : sample := mkSample 2 (1 # 2) (1 # 10) (-1 # 5) Percent 90 (45 # 1) 0.
Lemma ex_full_carried_out : carried_out toy_trig ex_full (10, 20)%Z (10, 20)%Z.
Proof.
  unfold carried_out, shift_carried_out, asked_shift, ex_full. cbn [rotate_deg shear_x_deg shear_y_deg scale_x scale_y mode_of translate_x translate_y toy_trig rad_per_degree fst snd].
  split; [right; intros [E _]; vm_compute in E; apply E; reflexivity|].
  split; [vm_compute; discriminate|]. split; [intros [E _]; revert E; vm_compute; discriminate|]. intros [E _]. revert E. vm_compute. discriminate.
Qed.
(** 90 degrees, x doubled, y halved, sheared by tanh(-1/2) = -1/3, moved by
    (2, -2): the point (13, 5) three to the right of the centre (10, 5). *)
Example C71_witness :
  exists q, kps (affine_keypoints toy_trig ex_full false (mkKpsoi [mkKp 13 5] (10, 20)%Z)) = [q] /\
    kp_eq q (mkKp (10 + 2 - (1 # 2)) (5 + (3 # 2) - 2)) /\
    kp_eq (intended toy_trig ex_full (10, 20)%Z (10, 20)%Z (mkKp 13 5)) (mkKp (10 + 2 - (1 # 2)) (5 + (3 # 2) - 2)).
Proof. eexists. split; [vm_compute; reflexivity|]. split; split; vm_compute; reflexivity. Qed.

Lemma tanh_zero t : sane t -> ttanh t 0 == 0 /\ ttanh t (- 0) == 0.
Proof.
  intros [PR [PAR _]]. destruct (PAR 0) as [_ [_ T]]. destruct (PR (- 0) 0 ltac:(reflexivity)) as [_ [_ E]]. split; lra.
Qed.

(** Only a shift: every point moves by exactly that many pixels. *)
Theorem C71_shift : forall t tx ty k, sane t -> has_pixels (kps_shape k) -> ~ (tx == 1 # 10000) ->
  Forall2 (fun p q => kp_eq q (moved_by tx ty p) \/ (q = p /\ hardly_moved p (moved_by tx ty p)))
    (kps k) (kps (affine_keypoints t (mkSample 1 1 tx ty Px 0 0 0) false k)).
Proof.
  intros t tx ty k SN P N. set (s := mkSample 1 1 tx ty Px 0 0 0).
  assert (forall v z, ~ inject_Z z == 0 -> v * inject_Z z / inject_Z z == v) as DIV by (intros v z NZ; field; exact NZ).
  destruct (kps_shape k) as [h w] eqn:SH. pose proof P as [P1 P2]. cbn [fst snd] in P1, P2.
  assert (~ inject_Z w == 0) as NW by (apply inject_nonzero; lia). assert (~ inject_Z h == 0) as NH by (apply inject_nonzero; lia).
  assert (carried_out t s (h, w) (h, w)) as C.
  { unfold carried_out, s. cbn [rotate_deg shear_x_deg shear_y_deg scale_x scale_y]. split; [left; split; reflexivity|].
    assert (0 * rad_per_degree t == 0) as Z by ring. split; [rewrite Z; discriminate|]. split; [rewrite Z; intros [E _]; discriminate|].
    unfold shift_carried_out, asked_shift. cbn [mode_of translate_x translate_y fst snd]. rewrite (DIV tx w NW). tauto. }
  assert (forall p, kp_eq (intended t s (h, w) (h, w) p) (moved_by tx ty p)) as I.
  { intros p. unfold intended, asked_shift, about_centre, sheared, scaled, rotated, moved_by, s.
    cbn [rotate_deg shear_x_deg shear_y_deg scale_x scale_y mode_of translate_x translate_y fst snd kx ky].
    destruct SN as [PR [PAR [PY [[C0 S0] TH]]]].
    destruct (PR (0 * rad_per_degree t) 0 ltac:(ring)) as [EC [ES ET]]. destruct (PR (- (0 * rad_per_degree t)) 0 ltac:(ring)) as [_ [_ EN]].
    destruct (tanh_zero t (conj PR (conj PAR (conj PY (conj (conj C0 S0) TH))))) as [T0 _].
    split; cbn [kx ky]; rewrite ?EC, ?ES, ?ET, ?EN, ?C0, ?S0, ?T0; field; assumption. }
  pose proof (proj2 (affine_keypoints_ok t s k SN ltac:(rewrite SH; exact P) ltac:(rewrite SH; exact C))) as F. rewrite SH in F.
  eapply Forall2_impl'; [|exact F]. intros p q [E|[E H]].
  - left. eapply kp_eq_trans; [exact E|apply I].
  - right. split; [exact E|]. destruct (I p) as [I1 I2]. destruct H as [H1 H2]. rewrite I1 in H1. rewrite I2 in H2. split; assumption.
Qed.
Print Assumptions C71_shift.

(** Without a shift the centre of the image stays where it is. *)
Theorem C71_centre : forall t s h w q, sane t -> has_pixels (h, w) -> carried_out t s (h, w) (h, w) ->
  translate_x s == 0 -> translate_y s == 0 ->
  let centre := mkKp (inject_Z w / 2) (inject_Z h / 2) in
  kps (affine_keypoints t s false (mkKpsoi [centre] (h, w))) = [q] -> kp_eq q centre.
Proof.
  intros t s h w q SN P C TX TY centre K.
  pose proof (proj2 (affine_keypoints_ok t s (mkKpsoi [centre] (h, w)) SN P C)) as F. rewrite K in F. cbn [kps kps_shape] in F.
  inversion F as [|? ? ? ? S _]; subst. destruct S as [E|[-> _]]; [|apply kp_eq_refl].
  eapply kp_eq_trans; [exact E|]. unfold intended, asked_shift, about_centre, sheared, scaled, rotated, moved_by, centre.
  destruct P as [P1 P2]. cbn [fst snd] in P1, P2.
  assert (~ inject_Z w == 0) as NW by (apply inject_nonzero; lia). assert (~ inject_Z h == 0) as NH by (apply inject_nonzero; lia).
  destruct (mode_of s); cbn [fst snd kx ky]; split; cbn [kx ky]; rewrite ?TX, ?TY; field; assumption.
Qed.
Print Assumptions C71_centre.

(** Without scaling and shear, distances are kept. *)
Theorem C71_rigid : forall t s shape p p' q q', sane t -> has_pixels shape -> carried_out t s shape shape ->
  scale_x s == 1 -> scale_y s == 1 -> shear_x_deg s == 0 -> shear_y_deg s == 0 ->
  kps (affine_keypoints t s false (mkKpsoi [p; p'] shape)) = [q; q'] -> dist2 q q' == dist2 p p'.
Proof.
  intros t s shape p p' q q' SN P C SX SY HX HY K.
  assert (forall u, kp_eq (intended t s shape shape u)
     (moved_by (fst (asked_shift s shape shape)) (snd (asked_shift s shape shape)) (about_centre shape (rotated t (rotate_deg s * rad_per_degree t)) u))) as I.
  { intros u. unfold intended, about_centre, sheared, scaled, moved_by. cbn [kx ky]. destruct SN as [PR [PAR [PY [[C0 S0] TH]]]].
    destruct (tanh_zero t (conj PR (conj PAR (conj PY (conj (conj C0 S0) TH))))) as [T0 _].
    destruct (PR (- (shear_x_deg s * rad_per_degree t)) 0 ltac:(rewrite HX; ring)) as [_ [_ E1]].
    destruct (PR (shear_y_deg s * rad_per_degree t) 0 ltac:(rewrite HY; ring)) as [_ [_ E2]].
    split; cbn [kx ky]; rewrite ?E1, ?E2, ?T0, ?SX, ?SY; ring. }
  destruct (cba_sent t s shape SN P C) as [[ID W]|[ID W]].
  - rewrite (moved_points t s false _ _ P), ID in K. cbn [map] in K.
    injection K as K1 K2. destruct (kp_eq_trans _ _ _ (W p) (I p)) as [A1 A2]. destruct (kp_eq_trans _ _ _ (W p') (I p')) as [B1 B2].
    rewrite K1 in A1, A2. rewrite K2 in B1, B2. unfold dist2. rewrite A1, A2, B1, B2. destruct SN as [_ [_ [PY _]]].
    pose proof (PY (rotate_deg s * rad_per_degree t)) as PYA. unfold about_centre, rotated, moved_by. cbn [kx ky].
    set (c := tcos t (rotate_deg s * rad_per_degree t)) in *. set (d := tsin t (rotate_deg s * rad_per_degree t)) in *.
    transitivity ((c * c + d * d) * ((kx p - kx p') * (kx p - kx p') + (ky p - ky p') * (ky p - ky p'))); [ring|]. rewrite PYA. ring.
  - rewrite (moved_points t s false _ _ P), ID in K.
    injection K as <- <-. reflexivity.
Qed.
Print Assumptions C71_rigid.
Example C71_rigid_witness :
  carried_out toy_trig ex_sample (4, 6)%Z (4, 6)%Z /\
  length (kps (affine_keypoints toy_trig ex_sample false (mkKpsoi [mkKp 1 2; mkKp 3 7] (4, 6)%Z))) = 2%nat.
Proof.
  split; [|vm_compute; reflexivity]. unfold carried_out, shift_carried_out, asked_shift, ex_sample.
  cbn [rotate_deg shear_x_deg shear_y_deg scale_x scale_y mode_of translate_x translate_y toy_trig rad_per_degree fst snd].
  split; [left; split; reflexivity|].
  split; [vm_compute; discriminate|]. split; [intros [E _]; revert E; vm_compute; discriminate|]. intros [E _]. revert E. vm_compute. discriminate.
Qed.

(** A shear of 45 degrees should move a point d pixels above the centre line by d
    pixels (tan 45 = 1). It never does, whatever angle is asked for: the code
    takes the hyperbolic tangent. *)
Theorem C71_shear_refuted : forall t angle h w d q, sane t -> has_pixels (h, w) -> 0 < d ->
  let s := mkSample 1 1 0 0 Px 0 angle 0 in
  let p := mkKp (inject_Z w / 2) (inject_Z h / 2 + d) in
  carried_out t s (h, w) (h, w) ->
  kps (affine_keypoints t s false (mkKpsoi [p] (h, w))) = [q] -> Qabs (kx q - kx p) < d.
Proof.
  intros t angle h w d q SN P D s p C K.
  pose proof (proj2 (affine_keypoints_ok t s (mkKpsoi [p] (h, w)) SN P C)) as F. rewrite K in F. cbn [kps kps_shape] in F.
  inversion F as [|? ? ? ? S _]; subst. destruct S as [[E _]|[-> _]].
  - destruct P as [P1 P2]. cbn [fst snd] in P1, P2. assert (~ inject_Z w == 0) as NW by (apply inject_nonzero; lia).
    pose proof SN as [PR [PAR [PY [[C0 S0] TH]]]]. set (v := ttanh t (- (angle * rad_per_degree t))).
    assert (kx q - kx p == v * d) as ->.
    { rewrite E. unfold intended, asked_shift, about_centre, sheared, scaled, rotated, moved_by, p, s.
      cbn [rotate_deg shear_x_deg shear_y_deg scale_x scale_y mode_of translate_x translate_y fst snd kx ky]. fold v.
      destruct (PR (0 * rad_per_degree t) 0 ltac:(ring)) as [EC [ES _]]. rewrite ?EC, ?ES, ?C0, ?S0. field. exact NW. }
    destruct (TH (- (angle * rad_per_degree t))) as [T1 T2]. fold v in T1, T2. apply Qabs_case; intros; nra.
  - assert (kx p - kx p == 0) as -> by ring. exact D.
Qed.
Print Assumptions C71_shear_refuted.
Example C71_shear_witness :
  carried_out toy_trig (mkSample 1 1 0 0 Px 0 45 0) (10, 10)%Z (10, 10)%Z /\
  exists q, kps (affine_keypoints toy_trig (mkSample 1 1 0 0 Px 0 45 0) false (mkKpsoi [mkKp 5 8] (10, 10)%Z)) = [q] /\ kp_eq q (mkKp 4 8).
Proof.
  split; [|eexists; split; [vm_compute; reflexivity|]; split; vm_compute; reflexivity].
  unfold carried_out, shift_carried_out, asked_shift.
  cbn [rotate_deg shear_x_deg shear_y_deg scale_x scale_y mode_of translate_x translate_y toy_trig rad_per_degree fst snd].
  split; [left; split; reflexivity|].
  split; [vm_compute; discriminate|]. split; [intros [E _]; revert E; vm_compute; discriminate|]. intros [E _]. revert E. vm_compute. discriminate.
Qed.

(** A shift by exactly 1e-4 px to the right and 5 px down is not carried out:
    the last of the four tests in translate() is on x instead of y. *)
Theorem C71_shift_refuted : exists s k, sane toy_trig /\ translate_x s == 1 # 10000 /\ translate_y s == 5 /\ mode_of s = Px /\
  kps_shape k = (10, 10)%Z /\ kps k = [mkKp 3 3] /\ kps (affine_keypoints toy_trig s false k) = [mkKp 3 3].
Proof.
  exists (mkSample 1 1 (1 # 10000) 5 Px 0 0 0), (mkKpsoi [mkKp 3 3] (10, 10)%Z). split; [exact toy_trig_sane|].
  repeat (split; [reflexivity|]). vm_compute. reflexivity.
Qed.
Print Assumptions C71_shift_refuted.

(** ** C72: fit_output *)

(** All pixels of the image come to lie on the canvas, the canvas starts at the
    first of them and ends less than one pixel behind the last. The same holds
    for the matrix that moves coordinates (and the same grid of points). *)
Theorem C72_canvas : forall t s shape m out, has_pixels shape ->
  (image_matrix t s shape shape true = (m, out) /\ fit_carried_out (fst (image_matrix t s shape shape false)) shape \/
   cba_matrix t s shape true = (m, out) /\ fit_carried_out (fst (cba_matrix t s shape false)) shape) ->
  has_pixels out /\
  (forall p, on_grid shape p -> on_grid out (warp_coord m p)) /\
  (exists p, on_grid shape p /\ kx (warp_coord m p) == 0) /\ (exists p, on_grid shape p /\ ky (warp_coord m p) == 0) /\
  (exists p, on_grid shape p /\ inject_Z (snd out - 1) < kx (warp_coord m p) + 1) /\
  (exists p, on_grid shape p /\ inject_Z (fst out - 1) < ky (warp_coord m p) + 1).
Proof.
  intros t s shape m out P [[E C]|[E C]]; pose proof (has_pixels_nonzero _ P) as N.
  - rewrite image_matrix_fit in E by exact N. apply (fitted _ _ _ _ (proj1 (proj1 (image_acts t s shape shape N))) P C E).
  - rewrite cba_matrix_fit in E by exact N. apply (fitted _ _ _ _ (proj1 (proj1 (cba_acts t s shape N))) P C E).
Qed.
Print Assumptions C72_canvas.
Example C72_canvas_witness :
  snd (image_matrix toy_trig (mkSample 1 1 7 0 Px 90 0 0) (4, 6)%Z (4, 6)%Z true) = (6, 4)%Z /\
  snd (image_matrix toy_trig (mkSample 1 1 7 0 Px 45 0 0) (4, 6)%Z (4, 6)%Z true) = (7, 7)%Z /\
  fit_carried_out (fst (image_matrix toy_trig (mkSample 1 1 7 0 Px 90 0 0) (4, 6)%Z (4, 6)%Z false)) (4, 6)%Z.
Proof.
  split; [vm_compute; reflexivity|]. split; [vm_compute; reflexivity|].
  assert (is_affine (fst (image_matrix toy_trig (mkSample 1 1 7 0 Px 90 0 0) (4, 6)%Z (4, 6)%Z false))) as A by (repeat split; vm_compute; reflexivity).
  assert (exists m, m = fst (image_matrix toy_trig (mkSample 1 1 7 0 Px 90 0 0) (4, 6)%Z (4, 6)%Z false) /\
     m00 m == 0 /\ m01 m == -(1) /\ m02 m == 11) as [m [EM [M0 [M1 M2]]]].
  { eexists. split; [reflexivity|]. repeat split; vm_compute; reflexivity. }
  rewrite <- EM in *. intros x [[p [G E]] _] F. pose proof (proj1 (warp_linear m p A)) as L. unfold AffProofs.linear in L. cbn [kx] in L.
  destruct G as [_ [_ [_ G4]]]. cbn [fst] in G4. assert (inject_Z (4 - 1) == 3) as J by reflexivity.
  rewrite M0, M1, M2 in L. lra.
Qed.

(** The image, the keypoints, boxes, polygons and line strings on it, and the
    heatmaps and segmentation maps that belong to it all agree on the new
    image shape (if the image is transformed at all). *)
Theorem C72_shapes : forall (A : Type) (warp : mat -> shape2 -> arr A -> arr A) clip t s (a : arr A) k b p m out,
  let shape := (ah a, aw a) in
  resampler warp -> has_pixels shape -> kps_shape k = shape -> bbs_shape b = shape -> paths_shape p = shape ->
  am_shape m = shape -> has_pixels (ah (am_arr m), aw (am_arr m)) ->
  snd (image_matrix t s shape shape true) = out ->
  (is_identity_matrix (fst (image_matrix t s shape shape true)) = false ->
   ah (fst (affine_image warp t s true shape a)) = fst out /\ aw (fst (affine_image warp t s true shape a)) = snd out) /\
  kps_shape (affine_keypoints t s true k) = out /\
  (forall r, affine_boxes t s true b = Ok r -> bbs_shape r = out) /\
  (forall r, affine_paths t s true p = Ok r -> paths_shape r = out) /\
  am_shape (affine_map warp clip t s true m) = out.
Proof.
  intros A warp clip t s a k b p m out shape RS P KS BS PS MS MP O. pose proof (has_pixels_nonzero _ P) as N.
  assert (snd (cba_matrix t s shape true) = out) as CO by (rewrite <- O; apply one_canvas; exact P).
  split; [|split; [|split; [|split]]].
  - intros I. rewrite affine_image_fst. fold shape. rewrite I. pose proof (has_pixels_nz _ P) as NZ. cbn [fst snd shape] in NZ. rewrite NZ.
    rewrite O. split; apply (RS _ out a).
  - rewrite affine_keypoints_eq. cbn [kps_shape]. rewrite KS. exact CO.
  - intros r. unfold affine_boxes. rewrite BS. destruct (cba_matrix t s shape true) as [c cout]. cbn [snd] in CO.
    destruct (if moves _ _ _ then _ else _); cbn [bind]; [|discriminate]. intros E. injection E as <-. exact CO.
  - intros r. unfold affine_paths. rewrite PS. destruct (cba_matrix t s shape true) as [c cout]. cbn [snd] in CO.
    destruct (if moves _ _ _ then _ else _); cbn [bind]; [|discriminate]. intros E. injection E as <-. exact CO.
  - unfold affine_map. rewrite affine_image_eq. rewrite MS, (has_pixels_nz _ P). cbn [am_shape]. rewrite <- O. apply map_canvas; assumption.
Qed.
Print Assumptions C72_shapes.
Example C72_shapes_witness :
  is_identity_matrix (fst (image_matrix toy_trig ex_sample (4, 6)%Z (4, 6)%Z true)) = false /\
  kps_shape (affine_keypoints toy_trig ex_sample true (mkKpsoi [mkKp 1 1] (4, 6)%Z)) = (6, 4)%Z /\
  am_shape (affine_map toy_warp (fun a => a) toy_trig ex_sample true (mkAmap (mkArr 2 3 (fun _ _ => 0%Z)) (4, 6)%Z)) = (6, 4)%Z.
Proof. repeat split; vm_compute; reflexivity. Qed.

(** If the transformation is so small that the image is left alone, they may
    disagree: scaling the x-axis of a 100 px wide image by 1.0002 leaves the
    image 100 px wide, but its keypoints are then on an image of width 101. *)
Definition ex_slight : sample := mkSample (10002 # 10000) 1 0 0 Px 0 0 0.
Theorem C72_shapes_refuted : exists s (a : arr Z) k, kps_shape k = (ah a, aw a) /\ has_pixels (ah a, aw a) /\
  forall warp, fst (affine_image warp toy_trig s true (ah a, aw a) a) = a /\
    kps_shape (affine_keypoints toy_trig s true k) = (ah a, aw a + 1)%Z.
Proof.
  exists ex_slight, (mkArr 100 100 (fun _ _ => 0%Z)), (mkKpsoi [mkKp 1 1] (100, 100)%Z). split; [reflexivity|]. split; [split; reflexivity|].
  intros warp. cbn [ah aw]. split; [|vm_compute; reflexivity]. rewrite affine_image_fst. cbn [ah aw].
  assert (is_identity_matrix (fst (image_matrix toy_trig ex_slight (100, 100)%Z (100, 100)%Z true)) = true) as -> by (vm_compute; reflexivity).
  reflexivity.
Qed.
Print Assumptions C72_shapes_refuted.

(** The canvas is fitted to pixel indices, also for coordinates. A keypoint in
    the last row of pixels, inside the image by the library's own test, can
    fall off the fitted canvas. *)
Theorem C72_points_refuted : exists s p q shape, kp_is_out_of_image p shape = false /\
  kps (affine_keypoints toy_trig s true (mkKpsoi [p] shape)) = [q] /\
  kp_is_out_of_image q (kps_shape (affine_keypoints toy_trig s true (mkKpsoi [p] shape))) = true.
Proof.
  exists ex_quarter, (mkKp (1 # 2) (39 # 10)). eexists. exists (4, 4)%Z. split; [vm_compute; reflexivity|].
  split; [vm_compute; reflexivity|]. vm_compute. reflexivity.
Qed.
Print Assumptions C72_points_refuted.

(** ** C73: heatmaps and segmentation maps *)

(** A map of any resolution with the aspect ratio of its image is transformed
    like the image: if the keypoint at the centre of map cell (y, x), in image
    coordinates, goes to the centre of cell (y', x'), so does the cell's value. *)
Theorem C73_maps_and_points : forall (A : Type) (warp : mat -> shape2 -> arr A -> arr A) (clip : arr A -> arr A) (g : A -> A) t s (m : amap A) y x y' x' q,
  resampler warp -> (forall a j i, apx (clip a) j i = g (apx a j i)) ->
  sane t -> 0 < scale_x s -> 0 < scale_y s ->
  let image := am_shape m in let cells := (ah (am_arr m), aw (am_arr m)) in
  has_pixels cells -> has_pixels image -> (fst cells * snd image = fst image * snd cells)%Z ->
  shift_carried_out s cells image -> shift_carried_out s image image ->
  is_identity_matrix (fst (image_matrix t s cells image false)) = is_identity_matrix (fst (cba_matrix t s image false)) ->
  (0 <= y < fst cells)%Z -> (0 <= x < snd cells)%Z -> (0 <= y' < fst cells)%Z -> (0 <= x' < snd cells)%Z ->
  kps (affine_keypoints t s false (mkKpsoi [cell_centre cells image y x] image)) = [q] ->
  kp_eq q (cell_centre cells image y' x') ->
  am_shape (affine_map warp clip t s false m) = image /\
  apx (am_arr (affine_map warp clip t s false m)) y' x' = g (apx (am_arr m) y x).
Proof.
  intros A warp clip g t s m y x y' x' q RS CL SN SX SY image cells PC PI ASP SC SI ID Y X Y' X' K E.
  pose proof (maps_and_points warp t s (am_arr m) image y x y' x' q RS SN SX SY PC PI ASP SC SI ID Y X Y' X' K E) as M.
  unfold affine_map. fold image. destruct (affine_image warp t s false image (am_arr m)) as [arr_aug mm]. cbn [fst] in M.
  rewrite (has_pixels_nz _ PI). cbn [am_shape am_arr]. split; [reflexivity|]. rewrite CL, M. reflexivity.
Qed.
Print Assumptions C73_maps_and_points.
(** A 2x2 segmentation map of a 4x4 image, turned by 90 degrees. *)
Example C73_witness :
  (exists q, kps (affine_keypoints toy_trig ex_quarter false (mkKpsoi [cell_centre (2, 2)%Z (4, 4)%Z 1 0] (4, 4)%Z)) = [q] /\
     kp_eq q (cell_centre (2, 2)%Z (4, 4)%Z 0 0)) /\
  is_identity_matrix (fst (image_matrix toy_trig ex_quarter (2, 2)%Z (4, 4)%Z false)) = false /\
  is_identity_matrix (fst (cba_matrix toy_trig ex_quarter (4, 4)%Z false)) = false /\
  apx (am_arr (affine_map toy_warp (fun a => a) toy_trig ex_quarter false (mkAmap (mkArr 2 2 (fun y x => 10 * y + x)%Z) (4, 4)%Z))) 0 0 = 10%Z.
Proof.
  split; [eexists; split; [vm_compute; reflexivity|]; split; vm_compute; reflexivity|]. repeat split; vm_compute; reflexivity.
Qed.

(** Not so for maps of another aspect ratio: the 10x10 map of a 10x30 image is
    rotated as a square. The keypoint at the centre of cell (6, 4) goes to the
    centre of cell (3, 4), the value of the cell to (4, 3). *)
Theorem C73_aspect_refuted : exists s (m : amap Z) y x y' x' q,
  am_shape m = (10, 30)%Z /\ ah (am_arr m) = 10%Z /\ aw (am_arr m) = 10%Z /\
  kps (affine_keypoints toy_trig s false (mkKpsoi [cell_centre (10, 10)%Z (10, 30)%Z y x] (10, 30)%Z)) = [q] /\
  kp_eq q (cell_centre (10, 10)%Z (10, 30)%Z y' x') /\ y' <> x' /\
  forall warp, resampler warp ->
    apx (am_arr (affine_map warp (fun a => a) toy_trig s false m)) x' y' = apx (am_arr m) y x /\
    apx (am_arr (affine_map warp (fun a => a) toy_trig s false m)) y' x' <> apx (am_arr m) y x.
Proof.
  exists ex_quarter, (mkAmap (mkArr 10 10 (fun y x => 10 * y + x)%Z) (10, 30)%Z), 6%Z, 4%Z, 3%Z, 4%Z. eexists.
  split; [reflexivity|]. split; [reflexivity|]. split; [reflexivity|]. split; [vm_compute; reflexivity|].
  split; [split; vm_compute; reflexivity|]. split; [discriminate|]. intros warp RS.
  unfold affine_map. rewrite affine_image_eq. cbn [am_shape am_arr fst snd ah aw Z.eqb orb].
  assert (is_identity_matrix (fst (image_matrix toy_trig ex_quarter (10, 10)%Z (10, 30)%Z false)) = false) as -> by (vm_compute; reflexivity).
  assert (snd (image_matrix toy_trig ex_quarter (10, 10)%Z (10, 30)%Z false) = (10, 10)%Z) as -> by (vm_compute; reflexivity).
  set (m := fst (image_matrix toy_trig ex_quarter (10, 10)%Z (10, 30)%Z false)).
  assert (is_affine m) as A by (repeat split; vm_compute; reflexivity).
  assert (~ m00 m * m11 m - m01 m * m10 m == 0) as D by (vm_compute; discriminate).
  assert (kp_eq (warp_coord m (mkKp (inject_Z 4) (inject_Z 6))) (mkKp (inject_Z 3) (inject_Z 4))) as E1 by (split; vm_compute; reflexivity).
  assert (kp_eq (warp_coord m (mkKp (inject_Z 3) (inject_Z 5))) (mkKp (inject_Z 4) (inject_Z 3))) as E2 by (split; vm_compute; reflexivity).
  clearbody m. destruct (RS m (10, 10)%Z (mkArr 10 10 (fun y x => 10 * y + x)%Z)) as [_ [_ R]]. split.
  - rewrite (R 6 4 4 3)%Z; try assumption; cbn; lia.
  - rewrite (R 5 3 3 4)%Z; try assumption; cbn; lia.
Qed.
Print Assumptions C73_aspect_refuted.

(** ** C74: one value for both axes or one per axis *)

(** Whenever the constructor accepts its arguments, every image gets a sample:
    a shared argument gives both axes the same value, arguments per axis are
    drawn independently, a missing axis or argument is neutral (scale 1, else
    0), a single shear number acts along x only, and the translation is in
    pixels or in fractions of the image as asked. *)
Theorem C74_samples : forall (P : Type) (num : Q -> P) uniform draw n i scale percent px rotate shear a,
  draws num draw n -> (i < n)%nat -> ~ (scale = None /\ percent = None /\ px = None /\ rotate = None /\ shear = None) ->
  affine_new num uniform scale percent px rotate shear = Ok a ->
  exists smp ta, draw_sample draw a i = Ok smp /\ translate_arg px percent = Some (ta, mode_of smp) /\
    on_both_axes draw i 1 (match scale with Some s => s | None => Single 1 end) (scale_x smp) (scale_y smp) /\
    on_both_axes draw i 0 ta (translate_x smp) (translate_y smp) /\
    match rotate with Some r => exists j, nth_error (draw j r) i = Some (rotate_deg smp) | None => rotate_deg smp = 0 end /\
    on_shear_axes draw i (match shear with Some s => s | None => Single 0 end) (shear_x_deg smp) (shear_y_deg smp).
Proof.
  intros P num uniform draw n i scale percent px rotate shear a D I N E. rewrite affine_new_given in E by exact N. revert D I E. apply draw_sample_ok.
Qed.
Print Assumptions C74_samples.

(** Without any argument the scale is drawn from (0.9, 1.1), the translation from
    (-0.1, 0.1) of the image size, the rotation from (-15, 15) and the shear
    from (-10, 10), all but the rotation independently per axis. *)
Theorem C74_defaults : forall (P : Type) (num : Q -> P) uniform,
  let per_axis a b := Some (Dict (Some (uniform a b)) (Some (uniform a b))) in
  affine_new num uniform None None None None None =
  affine_new num uniform (per_axis (9 # 10) (11 # 10)) (per_axis (- 1 # 10) (1 # 10)) None (Some (uniform (-15) 15)) (per_axis (-10) 10).
Proof. reflexivity. Qed.
Print Assumptions C74_defaults.

(** The constructor rejects exactly: px together with percent, and a dictionary
    with neither "x" nor "y". *)
Theorem C74_rejects : forall (P : Type) (num : Q -> P) uniform scale percent px rotate shear,
  (exists a, affine_new num uniform scale percent px rotate shear = Ok a) <->
  ((px = None \/ percent = None) /\ scale <> Some (Dict None None) /\ px <> Some (Dict None None) /\
   percent <> Some (Dict None None) /\ shear <> Some (Dict None None)).
Proof.
  intros P num uniform scale percent px rotate shear.
  destruct (given_dec scale percent px rotate shear) as [N|[-> [-> [-> [-> ->]]]]].
  2: { split; [intros _; repeat split; try discriminate; auto|]. intros _. eexists. reflexivity. }
  rewrite affine_new_given by exact N. clear N.
  assert (forall d (a : axis_arg P), (exists p, handle_axes num d a = Ok p) \/ (handle_axes num d a = Err AssertionError /\ a = Dict None None)) as H.
  { intros d [v|q|[x|] [y|]]; cbn; eauto. }
  unfold affine_of. rewrite handle_translate_ok. split.
  - intros [a E]. destruct (handle_axes num 1 _) as [sc|] eqn:SC in E; [|discriminate]. cbn [bind] in E.
    assert (scale <> Some (Dict None None)) as NS by (intros ->; discriminate).
    destruct (translate_arg px percent) as [[ta u]|] eqn:TA; [|discriminate].
    destruct (handle_axes num 0 ta) as [tr|] eqn:TR; [|discriminate]. cbn [bind] in E.
    destruct (handle_axes num 0 _) as [sh|] eqn:SH in E; [|discriminate].
    assert (shear <> Some (Dict None None)) as NH by (intros ->; discriminate).
    destruct px as [px|], percent as [pc|]; cbn in TA; try discriminate; injection TA as <- <-;
      (split; [auto|]); (split; [exact NS|]); (split; [try discriminate; intros X; injection X as ->; discriminate|]);
      (split; [try discriminate; intros X; injection X as ->; discriminate|exact NH]).
  - intros [PP [NS [NX [NC NH]]]].
    destruct (H 1 (match scale with Some s => s | None => Single 1 end)) as [[sc SC]|[_ B]].
    2: { destruct scale; [subst; contradiction|discriminate]. }
    rewrite SC. cbn [bind].
    destruct (H 0 (match shear with Some s => s | None => Single 0 end)) as [[sh SH]|[_ B]].
    2: { destruct shear; [subst; contradiction|discriminate]. }
    destruct px as [px|], percent as [pc|]; cbn [translate_arg].
    + destruct PP; discriminate.
    + destruct (H 0 px) as [[tr TR]|[_ B]]; [|subst; contradiction]. rewrite TR. cbn [bind]. rewrite SH. cbn [bind]. eauto.
    + destruct (H 0 pc) as [[tr TR]|[_ B]]; [|subst; contradiction]. rewrite TR. cbn [bind]. rewrite SH. cbn [bind]. eauto.
    + cbn [handle_axes bind]. rewrite SH. cbn [bind]. eauto.
Qed.
Print Assumptions C74_rejects.
(** Draws in which every call gives other values. *)
Definition ex_draw (n : nat) (j : nat) (p : Q + Q) : list Q :=
  match p with inl v => repeat v n | inr v => map (fun i => v + inject_Z (Z.of_nat (10 * i + j))) (seq 0 n) end.
Lemma ex_draws n : draws inl (ex_draw n) n.
Proof.
  split; [|reflexivity]. intros j [v|v]; cbn [ex_draw]; [apply repeat_length|]. rewrite map_length. apply seq_length.
Qed.

Example C74_witness : exists a smp, affine_new inl (fun a b => inr a) (Some (Dict (Some (inr 2)) None)) None (Some (Shared (inr 3))) None (Some (Single 7)) = Ok a /\
  draw_sample (ex_draw 2) a 1 = Ok smp /\ smp = mkSample (2 + 10) 1 (3 + 15) (3 + 15) Px 0 7 0.
Proof. eexists. eexists. split; [reflexivity|]. split; [reflexivity|]. reflexivity. Qed.

(** The documentation promises two values per image, for x and for y, if shear is
    given as a tuple, list or stochastic parameter. Only one is drawn: x- and
    y-shear are always the same. *)
Theorem C74_shear_refuted : exists (P : Type) (num : Q -> P) draw a p, draws num draw 2 /\
  affine_new num (fun _ _ => p) None None None None (Some (Shared p)) = Ok a /\
  (exists j k, nth_error (draw j p) 0%nat <> nth_error (draw k p) 0%nat) /\
  forall i smp, draw_sample draw a i = Ok smp -> shear_x_deg smp = shear_y_deg smp.
Proof.
  exists (Q + Q)%type, inl, (ex_draw 2). eexists. exists (inr 5). split; [apply ex_draws|]. split; [reflexivity|].
  split; [exists 7%nat, 8%nat; cbn; discriminate|]. intros i smp. unfold draw_sample. cbn [a_scale a_translate a_mode a_rotate a_shear draw_axes draw_shear fst].
  repeat (destruct (nth_error _ i); cbn [bind]; [|discriminate]). intros E. injection E as <-.
  reflexivity.
Qed.
