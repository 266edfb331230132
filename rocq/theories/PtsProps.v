(** Property theorems about points: C39 (similar points), C40 (keypoint
    images) and C41 (interpolation). The vocabulary is in PtsSpec.v, the code
    model in PtsModel.v. *)
From Verif Require Import Prelude PtsModel PtsSpec PtsProofs.
From Coq Require Import Lia Lqa.
Local Open Scope Q_scope.

(** C39: the points are, each once, those with |a| + |b| <= n steps. *)
Theorem C39_exactly_the_manhattan_ball :
  forall x y n s, (0 <= n)%Z -> exists pts cells,
  similar_points (x, y) n s = Ok pts /\ NoDup cells /\
  (forall a b, In (a, b) cells <-> (Z.abs a + Z.abs b <= n)%Z) /\
  Forall2 (fun c p => peq p (x + inject_Z (fst c) * s, y + inject_Z (snd c) * s)) cells pts /\
  Z.of_nat (length pts) = (2 * (n * n) + 2 * n + 1)%Z.
Proof. exact similar_points_spec. Qed.
Print Assumptions C39_exactly_the_manhattan_ball.

(** C39: with a step other than zero different step counts give different
    points, so no point is returned twice. *)
Theorem C39_different_cells_different_points :
  forall x y s c c' p p', ~ s == 0 ->
  peq p (x + inject_Z (fst c) * s, y + inject_Z (snd c) * s) ->
  peq p' (x + inject_Z (fst c') * s, y + inject_Z (snd c') * s) -> peq p p' -> c = c'.
Proof. exact at_cell_inj. Qed.
Print Assumptions C39_different_cells_different_points.

(** C39: a negative number of steps raises. *)
Theorem C39_negative_steps_raise :
  forall x y n s, (n < 0)%Z -> similar_points (x, y) n s = Err ValueError.
Proof. exact similar_points_negative. Qed.
Print Assumptions C39_negative_steps_raise.

Example C39_example : exists pts, similar_points (10, 20) 1 (3 # 2) = Ok pts /\
  Forall2 peq pts [(10, 37 # 2); (17 # 2, 20); (10, 20); (23 # 2, 20); (10, 43 # 2)].
Proof. eexists. split; [reflexivity|]. repeat constructor. Qed.

(** C40: if every keypoint rounds to a pixel of the image, reading the
    keypoint image back gives the centres of these pixels in order. *)
Theorem C40_positions_recovered :
  forall h w kps size (not_found : option point) threshold,
  (0 < h)%Z -> (0 < w)%Z -> (size mod 2 = 1)%Z -> (threshold <= 255)%Z ->
  (forall kp px py, In kp kps -> nearest (fst kp) px -> nearest (snd kp) py -> inside h py /\ inside w px) ->
  exists image rs, to_keypoint_image h w kps size = Ok image /\ length image = length kps /\
    from_keypoint_image image not_found threshold = Ok (concat rs) /\
    Forall2 (read_back h w not_found) kps rs.
Proof.
  exact (fun h w kps size nf thr Hh Hw Hs Ht H => keypoint_image_roundtrip' h w kps size nf thr Hh Hw Hs Ht (or_intror H)).
Qed.
Print Assumptions C40_positions_recovered.

(** C40, keypoints anywhere: with a threshold above 128 those outside the
    image are reported as not found. Missing: the same for lower thresholds,
    in particular for the default 1, where it is false (next theorem). *)
Theorem C40_outside_not_found_partial :
  forall h w kps size (not_found : option point) threshold,
  (0 < h)%Z -> (0 < w)%Z -> (size mod 2 = 1)%Z -> (128 < threshold <= 255)%Z ->
  exists image rs, to_keypoint_image h w kps size = Ok image /\ length image = length kps /\
    from_keypoint_image image not_found threshold = Ok (concat rs) /\
    Forall2 (read_back h w not_found) kps rs.
Proof.
  exact (fun h w kps size nf thr Hh Hw Hs Ht => keypoint_image_roundtrip' h w kps size nf thr Hh Hw Hs (proj2 Ht) (or_introl (proj1 Ht))).
Qed.
Print Assumptions C40_outside_not_found_partial.

(** C40 fails for the default threshold: a keypoint at x=100 in an image of
    width 10 is found again at x=9.5, even for markers of size 1. *)
Theorem C40_outside_not_found_refuted :
  exists h w kp image, ~ (inside w (np_round (fst kp))) /\ nearest (fst kp) (np_round (fst kp)) /\
    to_keypoint_image h w [kp] 1 = Ok image /\
    exists r, from_keypoint_image image (Some (-1 # 1, -1 # 1)) 1 = Ok [r] /\ peq r (19 # 2, 11 # 2).
Proof.
  exists 10%Z, 10%Z, (100 # 1, 5 # 1). eexists. split; [|split; [|split; [reflexivity|]]].
  - vm_compute. intros [_ H]. discriminate H.
  - apply nearest_np_round.
  - eexists. split; [vm_compute; reflexivity|]. split; reflexivity.
Qed.
Print Assumptions C40_outside_not_found_refuted.

(** C40: "rounds to" is unambiguous. *)
Theorem C40_nearest_is_unique : forall q z z', nearest q z -> nearest q z' -> z = z'.
Proof. exact nearest_unique. Qed.
Print Assumptions C40_nearest_is_unique.

(** C40: even marker sizes raise; images without pixels cannot be read. *)
Theorem C40_even_size_raises :
  forall h w kps size, (size mod 2 = 0)%Z -> to_keypoint_image h w kps size = Err AssertionError.
Proof. exact keypoint_image_even. Qed.
Print Assumptions C40_even_size_raises.
Theorem C40_empty_image_raises :
  forall h w kps size not_found threshold image,
  (0 <= h)%Z -> (0 <= w)%Z -> (h = 0 \/ w = 0)%Z -> kps <> [] ->
  to_keypoint_image h w kps size = Ok image -> from_keypoint_image image not_found threshold = Err ValueError.
Proof. exact keypoint_image_empty. Qed.
Print Assumptions C40_empty_image_raises.

(** Three keypoints in a 4x5 image with markers of size 3; overlapping
    markers do not matter, every keypoint has its own channel. *)
Example C40_example :
  match to_keypoint_image 4 5 [(1 # 2, 5 # 2); (7 # 2, 16 # 10); (0, 0)] 3 with
  | Ok image => from_keypoint_image image None 1
  | Err e => Err e
  end = Ok [(0 + (1 # 2), 2 + (1 # 2)); (4 + (1 # 2), 2 + (1 # 2)); (0 + (1 # 2), 0 + (1 # 2))].
Proof. vm_compute. reflexivity. Qed.
Example C40_example_hypothesis : forall kp px py, In kp [(1 # 2, 5 # 2); (7 # 2, 16 # 10); (0, 0)] ->
  nearest (fst kp) px -> nearest (snd kp) py -> inside 4 py /\ inside 5 px.
Proof.
  intros kp px py Hin Hx Hy.
  rewrite (nearest_unique _ _ _ Hx (nearest_np_round _)), (nearest_unique _ _ _ Hy (nearest_np_round _)).
  unfold inside. destruct Hin as [<- | [<- | [<- | []]]]; vm_compute; intuition discriminate.
Qed.

(** C41: interpolate_points of an open line. With n requested points the
    result has (len-1)(n+1)+1 points; point k(n+1)+j lies j/(n+1) of the way
    from point k to point k+1; the points themselves are kept unchanged. *)
Theorem C41_open_line :
  forall pts nb d, (2 <= length pts)%nat ->
  let n := Z.to_nat nb in
  let r := interpolate_points pts nb false in
  length r = ((length pts - 1) * (n + 1) + 1)%nat /\
  (forall k j, (k < length pts - 1)%nat -> (j <= n)%nat ->
     between (nth k pts d) (nth (S k) pts d) (inject_Z (Z.of_nat j) / inject_Z (Z.max 0 nb + 1))
             (nth (k * (n + 1) + j) r d)) /\
  (forall k, (k < length pts)%nat -> nth (k * (n + 1)) r d = nth k pts d).
Proof. exact interpolate_points_open. Qed.
Print Assumptions C41_open_line.

(** C41: the same for a closed line, where the last point is joined to the
    first. *)
Theorem C41_closed_line :
  forall pts nb d, (2 <= length pts)%nat ->
  let n := Z.to_nat nb in
  let r := interpolate_points pts nb true in
  length r = (length pts * (n + 1))%nat /\
  (forall k j, (k < length pts)%nat -> (j <= n)%nat ->
     between (nth k pts d) (nth (S k mod length pts) pts d) (inject_Z (Z.of_nat j) / inject_Z (Z.max 0 nb + 1))
             (nth (k * (n + 1) + j) r d)) /\
  (forall k, (k < length pts)%nat -> nth (k * (n + 1)) r d = nth k pts d).
Proof. exact interpolate_points_closed. Qed.
Print Assumptions C41_closed_line.

Theorem C41_short_lines_unchanged :
  forall pts nb closed, (length pts <= 1)%nat -> interpolate_points pts nb closed = pts.
Proof. exact interpolate_points_short. Qed.
Print Assumptions C41_short_lines_unchanged.

(** C41, by distance: the points are kept in order, new ones lie on the line,
    and neighbours end up less than twice max_distance apart. Missing: the
    documented bound max_distance itself, which is false (next theorem). *)
Theorem C41_gaps_below_twice_max_distance_partial :
  forall pts m closed r, (2 <= length pts)%nat ->
  interpolate_points_by_max_distance pts m closed = Ok r ->
  0 < m /\
  Forall (fun pq => distance2 (fst pq) (snd pq) < 4 * (m * m))
         (consecutive (if closed then r ++ firstn 1 pts else r)) /\
  subsequence pts r /\
  Forall (fun p => exists ab, In ab (consecutive (if closed then pts ++ firstn 1 pts else pts)) /\
                              on_segment p (fst ab) (snd ab)) r.
Proof. exact by_distance_spec. Qed.
Print Assumptions C41_gaps_below_twice_max_distance_partial.

Theorem C41_by_distance_succeeds :
  forall pts m closed, 0 < m -> exists r, interpolate_points_by_max_distance pts m closed = Ok r.
Proof. exact by_distance_total. Qed.
Print Assumptions C41_by_distance_succeeds.

(** C41 fails: two points 1.5 apart stay 1.5 apart for max_distance=1. *)
Theorem C41_max_distance_refuted :
  exists pts m r, interpolate_points_by_max_distance pts m false = Ok r /\
    Exists (fun pq => m * m < distance2 (fst pq) (snd pq)) (consecutive r).
Proof.
  exists [(0, 0); (3 # 2, 0)], 1. eexists. split; [reflexivity|]. left. reflexivity.
Qed.
Print Assumptions C41_max_distance_refuted.

Example C41_example : Forall2 peq (interpolate_points [(0, 0); (3, 6); (0, 3)] 2 true)
  [(0, 0); (1, 2); (2, 4); (3, 6); (2, 5); (1, 4); (0, 3); (0, 2); (0, 1)].
Proof. repeat constructor. Qed.
Example C41_example_distance : exists r,
  interpolate_points_by_max_distance [(0, 0); (3, 4); (3, 5)] 2 false = Ok r /\
  Forall2 peq r [(0, 0); (3 # 2, 2); (3, 4); (3, 5)].
Proof. eexists. split; [reflexivity|]. repeat constructor. Qed.
