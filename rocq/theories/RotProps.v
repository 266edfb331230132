(** C64: rotations by multiples of 90 degrees. *)
From Coq Require Import Lia Lqa.
From Verif Require Import Prelude PreludeFacts GeoModel GeoSpec RotModel RotSpec RotProofs.

(** The array is turned clockwise k times, also for k > 3 and for negative k. *)
Theorem C64_arrays : forall (A : Type) (a : arr A) k,
  arr_eq (np_rot90 a k) (quarter_turns (Z.to_nat (k mod 4)) a) /\
  (ah (np_rot90 a k), aw (np_rot90 a k)) = turned_shape k (ah a, aw a) /\
  (forall resize, arr_eq (rotate_array resize false k a) (quarter_turns (Z.to_nat (k mod 4)) a)).
Proof.
  intros A a k. split; [apply rot90_turns|]. split; [apply rot90_shape|].
  intros [f|]; cbn [rotate_array andb]; apply rot90_turns.
Qed.
Print Assumptions C64_arrays.

(** Turning by j and then by k is turning by j + k; in particular four quarter
    turns, and a turn followed by its opposite, restore the array. *)
Theorem C64_arrays_compose : forall (A : Type) (a : arr A) j k,
  arr_eq (np_rot90 (np_rot90 a j) k) (np_rot90 a (j + k)) /\ np_rot90 a 4 = a /\ arr_eq (np_rot90 (np_rot90 a k) (- k)) a.
Proof.
  intros A a j k. split; [apply rot90_compose|]. split; [reflexivity|].
  eapply arr_eq_trans; [apply rot90_compose|]. replace (k + - k) with 0 by lia. apply arr_eq_refl.
Qed.
Print Assumptions C64_arrays_compose.
Definition ex_arr : arr Z := mkArr 2 3 (fun y x => 10 * y + x).
Definition rows_of_ex (a : arr Z) : list (list Z) :=
  map (fun y => map (fun x => apx a (Z.of_nat y) (Z.of_nat x)) (seq 0 (Z.to_nat (aw a)))) (seq 0 (Z.to_nat (ah a))).
Example C64_arrays_witness :
  rows_of_ex ex_arr = [[0; 1; 2]; [10; 11; 12]] /\
  rows_of_ex (np_rot90 ex_arr 1) = [[10; 0]; [11; 1]; [12; 2]] /\
  rows_of_ex (np_rot90 ex_arr (-1)) = [[2; 12]; [1; 11]; [0; 10]].
Proof. vm_compute. repeat split. Qed.

(** With keep_size, images and maps keep their size (given a resampling that
    produces the requested size); square images are not resampled at all. *)
Theorem C64_keep_size : forall (A : Type) (resize : arr A -> shape2 -> arr A) k a m,
  (forall b s, ah (resize b s) = fst s /\ aw (resize b s) = snd s) ->
  (ah (rotate_array (Some resize) true k a) = ah a /\ aw (rotate_array (Some resize) true k a) = aw a) /\
  (ah a = aw a -> rotate_array (Some resize) true k a = np_rot90 a k) /\
  (ah (om_arr (rotate_map resize true k m)) = ah (om_arr m) /\ aw (om_arr (rotate_map resize true k m)) = aw (om_arr m) /\
   om_shape (rotate_map resize true k m) = om_shape m).
Proof.
  intros A resize k a m R. pose proof (rot90_shape a k) as S. unfold rotate_array, rotate_map.
  split; [|split].
  - destruct (shape2_eqb (ah a, aw a) (ah (np_rot90 a k), aw (np_rot90 a k))) eqn:E; cbn [andb negb].
    + unfold shape2_eqb in E. cbn in E. lia.
    + apply (R (np_rot90 a k) (ah a, aw a)).
  - intros SQ. assert (shape2_eqb (ah a, aw a) (ah (np_rot90 a k), aw (np_rot90 a k)) = true) as ->; [|reflexivity].
    rewrite S. unfold turned_shape, shape2_eqb. destruct (Z.odd k); cbn; lia.
  - cbn [om_arr om_shape]. destruct (R (rotate_array None true k (om_arr m)) (ah (om_arr m), aw (om_arr m))). auto.
Qed.
Print Assumptions C64_keep_size.

(** Without keep_size, a map's array is turned and the image shape it refers
    to is turned as well. *)
Theorem C64_maps : forall (A : Type) (resize : arr A -> shape2 -> arr A) k m,
  om_arr (rotate_map resize false k m) = np_rot90 (om_arr m) k /\
  om_shape (rotate_map resize false k m) = turned_shape k (om_shape m).
Proof.
  intros A resize k m. unfold rotate_map, rotate_array, turned_shape. rewrite Zmod_odd.
  destruct (Z.odd k); split; reflexivity.
Qed.
Print Assumptions C64_maps.
Example C64_maps_witness :
  om_shape (rotate_map (fun a _ => a) false (-3) (mkOnmap ex_arr (20, 30))) = (30, 20).
Proof. reflexivity. Qed.

(** Every array of a batch is turned by its own sample. *)
Theorem C64_batches : forall (A : Type) resize keep (arrs : list (arr A)) ks i d,
  length ks = length arrs -> (i < length arrs)%nat ->
  length (rotate_arrays resize keep arrs ks) = length arrs /\
  nth i (rotate_arrays resize keep arrs ks) d = rotate_array resize keep (nth i ks 0) (nth i arrs d).
Proof.
  intros A resize keep arrs ks i d L I. unfold rotate_arrays.
  rewrite map_length, combine_length, L, Nat.min_id. split; [reflexivity|].
  rewrite (nth_indep _ d (rotate_array resize keep (snd (d, 0)) (fst (d, 0)))) by (rewrite map_length, combine_length; lia).
  rewrite (map_nth (fun p => rotate_array resize keep (snd p) (fst p))), combine_nth by (symmetry; exact L). reflexivity.
Qed.
Print Assumptions C64_batches.

Local Open Scope Q_scope.

(** Keypoints go where the closed formulas of the specification say, stretched
    to the original size if keep_size is set. *)
Theorem C64_keypoints : forall (keep : bool) k kp h w, kps_shape kp = (h, w) ->
  (keep = true -> 0 < h /\ 0 < w)%Z ->
  exists r, rotate_keypoints keep k kp = Ok r /\
    kps_shape r = (if keep then (h, w) else turned_shape k (h, w)) /\
    Forall2 (fun p q => kp_eq q (moved keep k h w p)) (kps kp) (kps r).
Proof. intros keep k kp h w S. pose proof (rotate_keypoints_ok keep k kp) as R. rewrite S in R. exact R. Qed.
Print Assumptions C64_keypoints.
Example C64_keypoints_witness :
  rotate_keypoints false 5 (mkKpsoi [mkKp 1 (3 # 2)] (2, 3)%Z) = Ok (mkKpsoi [mkKp (2 - (3 # 2)) 1] (3, 2)%Z) /\
  exists q, rotate_keypoints true 5 (mkKpsoi [mkKp 1 (3 # 2)] (2, 3)%Z) = Ok (mkKpsoi [q] (2, 3)%Z) /\
    kp_eq q (mkKp (3 # 4) (2 # 3)).
Proof. split; [reflexivity|]. eexists. split; [reflexivity|]. split; vm_compute; reflexivity. Qed.

(** Keypoints and pixels move together: a point inside a pixel is inside the
    pixel that carries the same content after the rotation. *)
Theorem C64_pixels_and_points : forall (A : Type) (a : arr A) k y x p,
  (0 <= y < ah a)%Z -> (0 <= x < aw a)%Z -> in_pixel y x p ->
  exists r y' x', rotate_keypoints false k (mkKpsoi [p] (ah a, aw a)) = Ok r /\
    (0 <= y' < ah (np_rot90 a k))%Z /\ (0 <= x' < aw (np_rot90 a k))%Z /\
    kps_shape r = (ah (np_rot90 a k), aw (np_rot90 a k)) /\
    (exists q, kps r = [q] /\ in_pixel y' x' q) /\ apx (np_rot90 a k) y' x' = apx a y x.
Proof.
  intros A a k y x p Y X P.
  destruct (C64_keypoints false k (mkKpsoi [p] (ah a, aw a)) (ah a) (aw a) eq_refl ltac:(discriminate)) as [r [R [S F]]].
  destruct (turned_pixel a k y x p Y X P) as [y' [x' [Y' [X' [IN PX]]]]].
  exists r, y', x'. split; [exact R|]. split; [exact Y'|]. split; [exact X'|]. split; [rewrite S; symmetry; apply rot90_shape|].
  split; [|exact PX]. cbn [kps] in F. inversion F as [|? q ? r' Q N]; subst. inversion N; subst.
  exists q. split; [reflexivity|]. unfold moved in Q. cbn [andb] in Q. destruct Q as [Q1 Q2].
  unfold in_pixel in *. rewrite Q1, Q2. exact IN.
Qed.
Print Assumptions C64_pixels_and_points.

(** Turning keypoints by j and then by k is turning them by j + k. *)
Theorem C64_keypoints_compose : forall j k kp r1 r2 r3,
  rotate_keypoints false j kp = Ok r1 -> rotate_keypoints false k r1 = Ok r2 -> rotate_keypoints false (j + k) kp = Ok r3 ->
  kps_shape r2 = kps_shape r3 /\ Forall2 kp_eq (kps r2) (kps r3).
Proof.
  intros j k kp r1 r2 r3 R1 R2 R3. destruct (kps_shape kp) as [h w] eqn:S.
  destruct (C64_keypoints false j kp h w S ltac:(discriminate)) as [q1 [Q1 [S1 F1]]].
  rewrite R1 in Q1. injection Q1 as <-. destruct (kps_shape r1) as [h1 w1] eqn:E1.
  destruct (C64_keypoints false k r1 h1 w1 E1 ltac:(discriminate)) as [q2 [Q2 [S2 F2]]].
  rewrite R2 in Q2. injection Q2 as <-.
  destruct (C64_keypoints false (j + k) kp h w S ltac:(discriminate)) as [q3 [Q3 [S3 F3]]].
  rewrite R3 in Q3. injection Q3 as <-. unfold moved in *. cbn [andb] in *. split.
  - rewrite S2, S3. rewrite S1. unfold turned_shape. rewrite Z.odd_add. destruct (Z.odd j), (Z.odd k); reflexivity.
  - revert F1 F2 F3. generalize (kps kp), (kps r1), (kps r2), (kps r3). intros l l1 l2 l3 F1. revert l2 l3.
    assert (forall p, kp_eq (turned k h1 w1 (turned j h w p)) (turned (j + k) h w p)) as C.
    { intros p. pose proof (turned_compose j k h w p) as T. rewrite <- S1 in T. exact T. }
    assert (forall u v, kp_eq u v -> kp_eq (turned k h1 w1 u) (turned k h1 w1 v)) as CG.
    { intros u v [U1 U2]. unfold turned. destruct (mod4_cases k) as [E|[E|[E|E]]]; rewrite E; split; cbn; lra. }
    induction F1 as [|p q l l1 PQ F1 IH]; intros l2 l3 F2 F3; inversion F2; inversion F3; subst; constructor.
    + match goal with H2 : kp_eq ?u (turned k h1 w1 q), H3 : kp_eq ?v (turned (j + k) h w p) |- _ =>
        destruct H2 as [A1 A2]; destruct H3 as [B1 B2] end.
      destruct (CG _ _ PQ) as [G1 G2]. destruct (C p) as [C1 C2]. split; lra.
    + apply IH; assumption.
Qed.
Print Assumptions C64_keypoints_compose.

(** Points on the (closed) image plane stay on it ... *)
Theorem C64_points_stay : forall (keep : bool) k kp h w r, kps_shape kp = (h, w) -> (0 < h)%Z -> (0 < w)%Z ->
  Forall (on_plane (h, w)) (kps kp) -> rotate_keypoints keep k kp = Ok r ->
  Forall (on_plane (kps_shape r)) (kps r).
Proof.
  intros keep k kp h w r S H W F R.
  destruct (C64_keypoints keep k kp h w S ltac:(auto)) as [q [Q [S1 F1]]]. rewrite R in Q. injection Q as <-. rewrite S1.
  revert F1 F. generalize (kps kp), (kps r). intros l l1 F1 F. induction F1 as [|p q l l1 [P1 P2] F1 IH]; constructor.
  - inversion F as [|? ? IN _]; subst. pose proof (moved_on_plane keep k h w p H W IN) as M. unfold on_plane in *. lra.
  - apply IH. inversion F; assumption.
Qed.
Print Assumptions C64_points_stay.

(** ... but a keypoint inside the image by the library's own test (0 <= y < h)
    can be outside of it after the rotation. *)
Theorem C64_inside_stays_inside_refuted :
  exists kp r p q, rotate_keypoints false 1 kp = Ok r /\ kps kp = [p] /\ kps r = [q] /\
    kp_is_out_of_image p (kps_shape kp) = false /\ kp_is_out_of_image q (kps_shape r) = true.
Proof.
  exists (mkKpsoi [mkKp 1 0] (2, 3)%Z), (mkKpsoi [mkKp (2 - 0) 1] (3, 2)%Z), (mkKp 1 0), (mkKp (2 - 0) 1).
  repeat split; vm_compute; reflexivity.
Qed.
Print Assumptions C64_inside_stays_inside_refuted.

(** Bounding boxes: the turned box consists of exactly the turned points of
    the box; labels and order stay. *)
Theorem C64_boxes : forall (keep : bool) k b h w, bbs_shape b = (h, w) ->
  (keep = true -> 0 < h /\ 0 < w)%Z -> Forall proper (bbs b) ->
  exists r, rotate_boxes keep k b = Ok r /\
    bbs_shape r = (if keep then (h, w) else turned_shape k (h, w)) /\
    Forall2 (fun i o => label o = label i /\
      forall x y, let q := moved keep k h w (mkKp x y) in in_box i x y <-> in_box o (kx q) (ky q)) (bbs b) (bbs r).
Proof. intros keep k b h w S. pose proof (rotate_boxes_ok keep k b) as R. rewrite S in R. exact R. Qed.
Print Assumptions C64_boxes.
Example C64_boxes_witness : exists o,
  rotate_boxes false 1 (mkBbsoi [mkBB 0 0 1 2 (Some 7%Z)] (2, 3)%Z) = Ok (mkBbsoi [o] (3, 2)%Z) /\
  same_corners o (mkBB 0 0 2 1 None) /\ label o = Some 7%Z.
Proof. eexists. split; [vm_compute; reflexivity|]. vm_compute. repeat split. Qed.

(** An empty image that has keypoints cannot be turned with keep_size. *)
Theorem C64_empty_images_raise : forall k h w p l, Z.odd k = true -> h <> w -> (h <= 0 \/ w <= 0)%Z ->
  rotate_keypoints true k (mkKpsoi (p :: l) (h, w)) = Err AssertionError.
Proof.
  intros k h w p l O NE E. unfold rotate_keypoints. cbn [kps_shape kps].
  assert ((k mod 4 =? 0)%Z = false) as ->.
  { rewrite odd_mod4 in O. destruct (mod4_cases k) as [M|[M|[M|M]]]; rewrite M in *; (discriminate || reflexivity). }
  assert (((k mod 4) mod 2 =? 0)%Z = false) as ->.
  { rewrite odd_mod4 in O. destruct (mod4_cases k) as [M|[M|[M|M]]]; rewrite M in *; (discriminate || reflexivity). }
  assert (shape2_eqb (h, w) (w, h) = false) as SE by (unfold shape2_eqb; cbn; lia).
  rewrite SE. cbn [andb negb]. unfold kpsoi_on. cbn [kps_shape kps]. rewrite SE. unfold mapM. cbn [map sequence].
  unfold kp_project, project_coords.
  assert (shape2_eqb (w, h) (h, w) = false) as -> by (unfold shape2_eqb; cbn; lia).
  assert (forallb (fun v => (0 <? v)%Z) [w; h; h; w] = false) as -> by (cbn; lia). reflexivity.
Qed.
Print Assumptions C64_empty_images_raise.
