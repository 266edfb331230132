(** C80-C85: line strings and polygons - clipping to the image, out-of-image
    tests and removal, coordinates as arrays, order of polygon points. *)
From Coq Require Import List ZArith QArith Qabs Qreals Reals Bool Lia Lqa Sorting.Sorted.
From Verif Require Import Prelude PreludeFacts LineModel LineSpec LineProofs LineClip LineBox LineRest LineLen.
Import ListNotations.
Open Scope Q_scope.

(** ** C80: clipping gives pieces of the line string that are inside the image *)

(** Clipping never fails. Every part has a point, all its points are in the
    image, it has the label of the line string. The parts are pieces of the line
    string in its order. *)
Theorem C80_parts_are_pieces_inside : forall isect l s, has_pixels s -> shapely_ok isect (coords l) s ->
  exists parts, clip_out_of_image isect l s = Ok parts /\
    (forall part, In part parts -> coords part <> [] /\ Forall (in_image s) (coords part) /\ ls_label part = ls_label l) /\
    ((2 <= length (coords l))%nat -> pieces_of (coords l) (map coords parts)).
Proof.
  intros isect l s HP HS. destruct (clip_some isect l s HP HS) as (n & parts & E & R). eexists. split; [exact E|].
  destruct R as (A & B & C & _). rewrite Forall_forall in A, B. split.
  - intros part I. apply in_map_iff in I. destruct I as (c & <- & I). cbn [coords ls_label]. auto.
  - intro L. rewrite map_map. cbn [coords]. rewrite map_id. auto.
Qed.
Print Assumptions C80_parts_are_pieces_inside.

(** Not only the points: every point between them is on the line string and in
    the image. *)
Theorem C80_parts_lie_on_the_line : forall isect l s parts part p, has_pixels s -> shapely_ok isect (coords l) s ->
  clip_out_of_image isect l s = Ok parts -> In part parts -> on_path (coords part) p ->
  on_path (coords l) p /\ in_image s p.
Proof.
  intros isect l s parts part p HP HS E I O. destruct (clip_some isect l s HP HS) as (n & parts' & E' & R).
  rewrite E in E'. injection E' as ->. destruct R as (_ & _ & _ & D & _). apply in_map_iff in I. destruct I as (c & <- & I). exact (D c p I O).
Qed.
Print Assumptions C80_parts_lie_on_the_line.

(** A line string inside the image is not changed, whatever shapely does; an empty
    one gives nothing. *)
Theorem C80_inside_is_unchanged : forall isect l s, coords l <> [] -> Forall (in_image s) (coords l) ->
  clip_out_of_image isect l s = Ok [l].
Proof.
  intros isect l s N F. apply forallb_inside in F. unfold clip_out_of_image. rewrite forallb_mask, existsb_mask, F.
  destruct (coords l) as [|a [|b r]]; [contradiction N; reflexivity| |reflexivity].
  cbn [forallb existsb] in *. apply andb_true_iff in F. destruct F as [F _]. rewrite F. reflexivity.
Qed.
Print Assumptions C80_inside_is_unchanged.
Theorem C80_empty : forall isect lab s, clip_out_of_image isect (mkLine [] lab) s = Ok [].
Proof. reflexivity. Qed.
Print Assumptions C80_empty.

(** All line strings of an image: the parts of each, in order. *)
Theorem C80_clip_on_image : forall isect o, has_pixels (lsoi_shape o) ->
  (forall l, In l (line_strings o) -> shapely_ok isect (coords l) (lsoi_shape o)) ->
  exists partss, lsoi_clip_out_of_image isect o = Ok (mkLsoi (concat partss) (lsoi_shape o)) /\
    Forall2 (fun l parts => clip_out_of_image isect l (lsoi_shape o) = Ok parts) (line_strings o) partss.
Proof. exact lsoi_clip_ok. Qed.
Print Assumptions C80_clip_on_image.

(** The assumption about shapely can be met, for every line string and image. *)
Theorem C80_assumption_can_be_met : forall cs s, shapely_ok box_isect cs s.
Proof. exact box_isect_ok. Qed.
Print Assumptions C80_assumption_can_be_met.

Definition zigzag : linestring := mkLine [(-5, 5); (5, 5); (15, 5); (15, 8); (4, 8)] (Some 7%Z).
Example C80_witness : has_pixels (10, 10)%Z /\ shapely_ok box_isect (coords zigzag) (10, 10)%Z /\
  clip_out_of_image box_isect zigzag (10, 10)%Z
  = Ok [mkLine [(0, 5); (5, 5); (9999 # 1000, 5)] (Some 7%Z); mkLine [(9999 # 1000, 8); (4, 8)] (Some 7%Z)].
Proof. split; [split; cbn; lia|]. split; [apply box_isect_ok|]. vm_compute. reflexivity. Qed.

(** In an image of width 0 there is no pixel, but clipping gives points: the box
    that is clipped to has its right border at x = -1/1000. *)
Theorem C80_no_pixels_refuted : exists isect l s part p, shapely_ok isect (coords l) s /\ ~ has_pixels s /\
  clip_out_of_image isect l s = Ok [part] /\ In p (coords part) /\ ~ in_image s p.
Proof.
  exists box_isect, (mkLine [(-5, 5); (5, 5)] None), (10, 0)%Z. do 2 eexists. split; [apply box_isect_ok|].
  split; [intros [_ H]; cbn in H; lia|]. split; [vm_compute; reflexivity|]. split; [left; reflexivity|]. intros [[_ H] _]. discriminate H.
Qed.
Print Assumptions C80_no_pixels_refuted.

(** ** C81: clipping keeps what is inside the image *)

(** The points in the image are kept, in their order. *)
Theorem C81_points_inside_are_kept : forall isect l s parts, has_pixels s -> shapely_ok isect (coords l) s ->
  clip_out_of_image isect l s = Ok parts ->
  subsequence (filter (in_imageb s) (coords l)) (concat (map coords parts)).
Proof.
  intros isect l s parts HP HS E. destruct (clip_some isect l s HP HS) as (n & parts' & E' & R).
  rewrite E in E'. injection E' as ->. rewrite map_map. cbn [coords]. rewrite map_id, filter_inside. apply R.
Qed.
Print Assumptions C81_points_inside_are_kept.

(** An edge with both ends in the image is kept. *)
Theorem C81_edges_inside_are_kept : forall isect l s parts k a b p, has_pixels s -> shapely_ok isect (coords l) s ->
  clip_out_of_image isect l s = Ok parts ->
  nth_error (coords l) k = Some a -> nth_error (coords l) (S k) = Some b -> in_image s a -> in_image s b -> on_seg a b p ->
  exists part, In part parts /\ on_path (coords part) p.
Proof.
  intros isect l s parts k a b p HP HS E Ha Hb IA IB O. destruct (clip_some isect l s HP HS) as (n & parts' & E' & R).
  rewrite E in E'. injection E' as ->. destruct R as (_ & _ & _ & _ & _ & D & _). destruct (D k a b p Ha Hb IA IB O) as (c & I & OC).
  exists (mkLine c (ls_label l)). split; [exact (in_map (fun c => mkLine c (ls_label l)) _ _ I)|exact OC].
Qed.
Print Assumptions C81_edges_inside_are_kept.

(** Everything in the image, except for the strips of 1/1000 at the right and the
    lower border, is kept up to a distance of n/100, if shapely reports at most n
    points per edge. *)
Theorem C81_what_is_inside_is_kept : forall n isect l s parts p, (1 <= n)%nat -> has_pixels s -> shapely_ok isect (coords l) s ->
  reports_at_most n isect (coords l) s -> clip_out_of_image isect l s = Ok parts ->
  on_path (coords l) p -> in_core s p ->
  exists part p', In part parts /\ on_path (coords part) p' /\ within (inject_Z (Z.of_nat n) * (1 # 100)) p p'.
Proof.
  intros n isect l s parts p Hn HP HS HR E O C. destruct (clip_main n isect l s Hn HP HS HR) as (parts' & E' & R).
  rewrite E in E'. injection E' as ->. destruct R as (_ & _ & _ & _ & _ & _ & D & _). destruct (D p O C) as (c & p' & I & OC & W).
  exists (mkLine c (ls_label l)), p'. split; [exact (in_map (fun c => mkLine c (ls_label l)) _ _ I)|]. split; assumption.
Qed.
Print Assumptions C81_what_is_inside_is_kept.
Example C81_witness : exists p, on_path (coords zigzag) p /\ in_core (10, 10)%Z p /\ ~ In p (coords zigzag) /\
  reports_at_most 2 box_isect (coords zigzag) (10, 10)%Z /\
  filter (in_imageb (10, 10)%Z) (coords zigzag) = [(5, 5); (4, 8)].
Proof.
  exists (7, 5). split; [left; exists 1%nat, (5, 5), (15, 5); split; [reflexivity|split; [reflexivity|]]; exists (1 # 5); split; [split; discriminate|split; reflexivity]|].
  split; [repeat split; discriminate|]. split; [intros [H|[H|[H|[H|[H|[]]]]]]; discriminate H|]. split; [|reflexivity].
  intros [|[|[|[|[|i]]]]] a b Ha Hb; cbn in Ha, Hb; try discriminate; injection Ha as <-; injection Hb as <-; vm_compute; repeat constructor.
Qed.

(** Without the exception it is false: a line in the strip is lost. *)
Theorem C81_strip_refuted : exists isect l s p, has_pixels s /\ shapely_ok isect (coords l) s /\
  on_path (coords l) p /\ in_image s p /\ clip_out_of_image isect l s = Ok [].
Proof.
  exists box_isect, (mkLine [(99995 # 10000, -5); (99995 # 10000, 15)] None), (10, 10)%Z, (99995 # 10000, 5).
  split; [split; cbn; lia|]. split; [apply box_isect_ok|]. split.
  { left. exists 0%nat. do 2 eexists. split; [reflexivity|]. split; [reflexivity|]. exists (1 # 2). split; [split; discriminate|split; reflexivity]. }
  split; [repeat split; discriminate|]. vm_compute. reflexivity.
Qed.
Print Assumptions C81_strip_refuted.

(** ** C82: out-of-image tests *)

(** Fully inside: all points are, then also everything between them. *)
Theorem C82_fully_within : forall l s default, coords l <> [] ->
  is_fully_within_image l s default = true <-> forall p, on_path (coords l) p -> in_image s p.
Proof.
  intros l s d N. rewrite (fully_iff l s d N). split.
  - intros F p O. eapply in_image_path; eassumption.
  - intro H. apply Forall_forall. intros p I. apply H. right. exists p. split; [exact I|apply peq_refl].
Qed.
Print Assumptions C82_fully_within.

Theorem C82_partly_within : forall isect l s default, has_pixels s -> shapely_ok isect (coords l) s -> coords l <> [] ->
  exists b, is_partly_within_image isect l s default = Ok b /\ (b = true <-> visible s (coords l)).
Proof. exact partly_iff. Qed.
Print Assumptions C82_partly_within.

(** Empty line strings: the default. *)
Theorem C82_default : forall isect lab s fully partly default,
  is_fully_within_image (mkLine [] lab) s default = default /\
  is_partly_within_image isect (mkLine [] lab) s default = Ok default /\
  is_out_of_image isect (mkLine [] lab) s fully partly default = Ok default.
Proof. intros. repeat split. Qed.
Print Assumptions C82_default.

(** [is_out_of_image]: the three cases. *)
Theorem C82_out_of_image : forall isect l s fully partly default, has_pixels s -> shapely_ok isect (coords l) s -> coords l <> [] ->
  (Forall (in_image s) (coords l) -> is_out_of_image isect l s fully partly default = Ok false) /\
  (~ Forall (in_image s) (coords l) -> visible s (coords l) -> is_out_of_image isect l s fully partly default = Ok partly) /\
  (~ visible s (coords l) -> is_out_of_image isect l s fully partly default = Ok fully).
Proof. exact out_cases. Qed.
Print Assumptions C82_out_of_image.

(** Removal keeps exactly the line strings that the arguments say, in order. *)
Theorem C82_remove_out_of_image : forall isect o fully partly, has_pixels (lsoi_shape o) ->
  (forall l, In l (line_strings o) -> shapely_ok isect (coords l) (lsoi_shape o)) ->
  exists ls, lsoi_remove_out_of_image isect o fully partly = Ok (mkLsoi ls (lsoi_shape o)) /\
    (forall keep, (forall l, In l (line_strings o) -> keep l = true <-> remains (lsoi_shape o) fully partly (coords l)) ->
       ls = filter keep (line_strings o)) /\
    (forall l, In l ls <-> In l (line_strings o) /\ remains (lsoi_shape o) fully partly (coords l)).
Proof.
  intros isect o fully partly HP HS. unfold lsoi_remove_out_of_image.
  destruct (keep_unless_spec (fun l => is_out_of_image isect l (lsoi_shape o) fully partly true)
     (fun l => remains (lsoi_shape o) fully partly (coords l)) (line_strings o)) as (ls & E & _ & I & U).
  - intros l I. apply remains_dec; auto.
  - exists ls. rewrite E. split; [reflexivity|]. split; [exact U|exact I].
Qed.
Print Assumptions C82_remove_out_of_image.

Definition far_away : linestring := mkLine [(-5, -5); (-1, 20)] None.
Definition across : linestring := mkLine [(-5, 5); (15, 5)] None.
Definition within_it : linestring := mkLine [(1, 1); (2, 2)] None.
Example C82_witness : let o := mkLsoi [far_away; across; within_it; mkLine [] None] (10, 10)%Z in
  lsoi_remove_out_of_image box_isect o true false = Ok (mkLsoi [across; within_it] (10, 10)%Z) /\
  lsoi_remove_out_of_image box_isect o true true = Ok (mkLsoi [within_it] (10, 10)%Z) /\
  lsoi_remove_out_of_image box_isect o false true = Ok (mkLsoi [far_away; within_it] (10, 10)%Z).
Proof. vm_compute. repeat split. Qed.

(** A line string in the strip counts as being outside. *)
Theorem C82_strip_refuted : exists isect l s p, has_pixels s /\ shapely_ok isect (coords l) s /\
  on_path (coords l) p /\ in_image s p /\ is_out_of_image isect l s true false true = Ok true.
Proof.
  exists box_isect, (mkLine [(99995 # 10000, -5); (99995 # 10000, 15)] None), (10, 10)%Z, (99995 # 10000, 5).
  split; [split; cbn; lia|]. split; [apply box_isect_ok|]. split.
  { left. exists 0%nat. do 2 eexists. split; [reflexivity|]. split; [reflexivity|]. exists (1 # 2). split; [split; discriminate|split; reflexivity]. }
  split; [repeat split; discriminate|]. vm_compute. reflexivity.
Qed.
Print Assumptions C82_strip_refuted.

(** ** C83: coordinates as arrays and as keypoints *)

(** Writing back what was read changes nothing. *)
Theorem C83_fill_what_was_read : forall o, lsoi_fill_from_xy_array o (lsoi_to_xy_array o) = (o, None).
Proof.
  intros [ls s]. unfold lsoi_fill_from_xy_array, lsoi_to_xy_array. cbn [line_strings lsoi_shape].
  destruct (fill_ok ls (concat (map coords ls)) eq_refl) as (A & B & _). destruct (fill_loop _ _) as [r e]. cbn [fst snd] in *. subst. rewrite assign_same. reflexivity.
Qed.
Print Assumptions C83_fill_what_was_read.

(** Filling: if the number of rows is right, then the rows are read back, and
    labels, shape and the number of points of every line string stay; otherwise an
    exception. *)
Theorem C83_fill : forall o xy,
  (length xy = length (lsoi_to_xy_array o) ->
     exists o', lsoi_fill_from_xy_array o xy = (o', None) /\ lsoi_to_xy_array o' = xy /\ lsoi_shape o' = lsoi_shape o /\
       map ls_label (line_strings o') = map ls_label (line_strings o) /\
       map (fun l => length (coords l)) (line_strings o') = map (fun l => length (coords l)) (line_strings o)) /\
  (length xy <> length (lsoi_to_xy_array o) -> snd (lsoi_fill_from_xy_array o xy) = Some AssertionError).
Proof.
  intros [ls s] xy. unfold lsoi_fill_from_xy_array, lsoi_to_xy_array. cbn [line_strings lsoi_shape]. split; intro H.
  - destruct (fill_ok ls xy H) as (A & B & C & D & E). destruct (fill_loop _ _) as [r e]. cbn [fst snd] in *. subst e r. eexists. split; [reflexivity|].
    cbn [line_strings lsoi_shape]. auto.
  - assert (A := fill_bad ls xy H). destruct (fill_loop _ _) as [r e]. exact A.
Qed.
Print Assumptions C83_fill.

(** An exception leaves the instance half written. *)
Theorem C83_atomic_refuted : exists o xy o', lsoi_fill_from_xy_array o xy = (o', Some AssertionError) /\ o' <> o.
Proof.
  exists (mkLsoi [within_it; across] (10, 10)%Z), [(7, 7); (8, 8); (9, 9)]. eexists. split; [reflexivity|]. discriminate.
Qed.
Print Assumptions C83_atomic_refuted.

(** As keypoints: the same, the shape is taken from the keypoints; the wrong number
    of keypoints is an error before anything is changed. *)
Theorem C83_keypoints : forall o xy shape,
  (length xy = length (lsoi_to_xy_array o) ->
     exists o', lsoi_invert_to_keypoints o xy shape = Ok o' /\ lsoi_to_xy_array o' = xy /\ lsoi_shape o' = shape /\
       map ls_label (line_strings o') = map ls_label (line_strings o) /\
       map (fun l => length (coords l)) (line_strings o') = map (fun l => length (coords l)) (line_strings o)) /\
  (length xy <> length (lsoi_to_xy_array o) -> lsoi_invert_to_keypoints o xy shape = Err AssertionError) /\
  lsoi_invert_to_keypoints o (lsoi_to_xy_array o) (lsoi_shape o) = Ok o.
Proof.
  intros [ls s] xy shape. unfold lsoi_invert_to_keypoints, lsoi_to_xy_array. cbn [line_strings lsoi_shape].
  assert (T := total_sum ls). unfold total in T. rewrite <- T. split; [|split].
  - intro H. destruct (fill_ok ls xy H) as (A & B & C & D & E). rewrite H, Nat.eqb_refl. eexists. split; [reflexivity|]. cbn [line_strings lsoi_shape]. auto.
  - intro H. apply Nat.eqb_neq in H. rewrite H. reflexivity.
  - rewrite Nat.eqb_refl, assign_same. reflexivity.
Qed.
Print Assumptions C83_keypoints.

(** One array per line string, and back. *)
Theorem C83_xy_arrays : forall xy s o,
  lsoi_to_xy_arrays (lsoi_from_xy_arrays xy s) = xy /\ lsoi_shape (lsoi_from_xy_arrays xy s) = s /\
  lsoi_to_xy_array o = concat (lsoi_to_xy_arrays o).
Proof.
  intros xy s o. split; [|split; reflexivity]. unfold lsoi_to_xy_arrays, lsoi_from_xy_arrays. cbn [line_strings]. rewrite map_map. apply map_id.
Qed.
Print Assumptions C83_xy_arrays.

(** Shifting moves every point; shifting back gives the same line string. *)
Theorem C83_shift : forall l x y,
  (forall i p, nth_error (coords l) i = Some p <-> exists p', nth_error (coords (shift l x y)) i = Some p' /\ nth_error (coords l) i = Some p /\ peq p' (fst p + x, snd p + y)) /\
  length (coords (shift l x y)) = length (coords l) /\ ls_label (shift l x y) = ls_label l /\
  Forall2 peq (coords (shift (shift l x y) (- x) (- y))) (coords l).
Proof.
  intros [cs lab] x y. unfold shift. cbn [coords ls_label]. split; [|split; [apply map_length|split; [reflexivity|]]].
  - intros i p. split; [|intros (p' & _ & H & _); exact H]. intro H. exists (fst p + x, snd p + y). split; [exact (map_nth_error _ i cs H)|]. split; [exact H|apply peq_refl].
  - rewrite map_map. induction cs as [|p cs IH]; [constructor|]. constructor; [|exact IH]. split; cbn [fst snd]; ring.
Qed.
Print Assumptions C83_shift.
Example C83_witness : lsoi_fill_from_xy_array (mkLsoi [zigzag; within_it] (10, 10)%Z) (repeat (1, 2) 7)
  = (mkLsoi [mkLine (repeat (1, 2) 5) (Some 7%Z); mkLine (repeat (1, 2) 2) None] (10, 10)%Z, None).
Proof. reflexivity. Qed.

(** ** C84: polygons *)

(** The closest point: the first one of those with the smallest distance. *)
Theorem C84_closest_point : forall ext p, ext <> [] ->
  exists j q, find_closest_point_index ext p = Ok (j, dist2 q p) /\ nth_error ext j = Some q /\ closest ext p q /\
    (forall i q', (i < j)%nat -> nth_error ext i = Some q' -> dist2 q p < dist2 q' p).
Proof. exact find_closest_ok. Qed.
Print Assumptions C84_closest_point.

(** Another first point: the polygon is rotated. If neighbouring points are nearly
    the same, see below. *)
Theorem C84_change_first_point : forall ext i,
  ((0 <= i < Z.of_nat (length ext))%Z -> all_apart ext ->
     exists u p v, ext = u ++ p :: v /\ length u = Z.to_nat i /\ change_first_point_by_index ext i = Ok (p :: v ++ u)) /\
  (~ (0 <= i < Z.of_nat (length ext))%Z -> change_first_point_by_index ext i = Err AssertionError).
Proof.
  intros ext i. split.
  - intros H A. apply change_first_ok; [lia|lia|exact A].
  - intro H. unfold change_first_point_by_index. destruct ((0 <=? i) && (i <? Z.of_nat (length ext)))%Z eqn:E; [|reflexivity].
    exfalso. apply H. apply andb_true_iff in E. rewrite Z.leb_le, Z.ltb_lt in E. exact E.
Qed.
Print Assumptions C84_change_first_point.

(** A polygon with the same point twice in a row loses one of them if the second
    becomes the first point. *)
Theorem C84_point_lost_refuted : exists ext r, change_first_point_by_index ext 1 = Ok r /\ length ext = 4%nat /\ length r = 3%nat.
Proof. exists [(0, 0); (0, 0); (5, 0); (5, 5)]. eexists. split; [vm_compute; reflexivity|]. split; reflexivity. Qed.
Print Assumptions C84_point_lost_refuted.

(** By coordinates: the closest point becomes the first one, unless it is too far away. *)
Theorem C84_change_first_point_by_coords : forall ext p max_distance raise, ext <> [] -> all_apart ext ->
  exists q, closest ext p q /\
    (match max_distance with None => True | Some m => 0 <= m /\ dist2 q p <= m * m end ->
       exists u v, ext = u ++ q :: v /\ change_first_point_by_coords ext p max_distance raise = Ok (q :: v ++ u)) /\
    (match max_distance with None => False | Some m => m < 0 \/ m * m < dist2 q p end ->
       change_first_point_by_coords ext p max_distance raise = if raise then Err GenericException else Ok ext).
Proof.
  intros ext p md raise N A. destruct (find_closest_ok ext p N) as (j & q & E & Hj & C & _). exists q. split; [exact C|].
  assert (U : change_first_point_by_coords ext p md raise =
      if match md with None => false | Some m => qltb m 0 || qltb (m * m) (dist2 q p) end
      then (if raise then Err GenericException else Ok ext)
      else change_first_point_by_index ext (Z.of_nat j)).
  { unfold change_first_point_by_coords. destruct ext; [contradiction N; reflexivity|]. rewrite E. reflexivity. }
  rewrite U. assert (Lj : (j < length ext)%nat) by (apply nth_error_Some; congruence). split.
  - intro H. assert (F : match md with None => false | Some m => qltb m 0 || qltb (m * m) (dist2 q p) end = false).
    { destruct md as [m|]; [|reflexivity]. apply orb_false_iff. split; [destruct (qltb m 0) eqn:X; [apply qltb_iff in X; lra|reflexivity]|].
      destruct (qltb (m * m) (dist2 q p)) eqn:X; [apply qltb_iff in X; lra|reflexivity]. }
    rewrite F. destruct (change_first_ok ext (Z.of_nat j)) as (u & q' & v & EX & LU & EC); [lia|lia|exact A|]. exists u, v.
    assert (q' = q). { rewrite Nat2Z.id in LU. rewrite EX, nth_error_app2, LU, Nat.sub_diag in Hj by lia. cbn in Hj. congruence. }
    subst q'. split; [exact EX|exact EC].
  - intro H. destruct md as [m|]; [|contradiction]. assert (F : qltb m 0 || qltb (m * m) (dist2 q p) = true).
    { apply orb_true_iff. destruct H as [H|H]; [left|right]; apply qltb_iff; exact H. }
    rewrite F. reflexivity.
Qed.
Print Assumptions C84_change_first_point_by_coords.

(** Clipping a polygon of at least three points: the polygons that shapely gives,
    each rotated so that it starts at a point that is as close as possible to a
    point of the original polygon. If the first point of the original polygon is in
    it, it is first again. *)
Theorem C84_clip : forall isect isect3 ext lab s exts, (3 <= length ext)%nat ->
  (isect3 ext s = PMultiPolygon exts \/ (exists e, isect3 ext s = PPolygon e /\ exts = [e])) ->
  Forall (fun e => polygon_new e <> [] /\ all_apart (polygon_new e)) exts ->
  exists r, poly_clip_out_of_image isect isect3 ext lab s = Ok r /\
    Forall2 (fun e q => rotation (polygon_new e) q /\
      (exists a p, hd_error q = Some a /\ closest_pair (polygon_new e) ext a p) /\
      (forall p0 p1, hd_error ext = Some p0 -> In p1 (polygon_new e) -> peq p1 p0 -> exists a, hd_error q = Some a /\ peq a p0)) exts r.
Proof.
  intros isect isect3 ext lab s exts L I F.
  assert (N : ext <> []) by (destruct ext; [cbn in L; lia|discriminate]).
  assert (U : poly_clip_out_of_image isect isect3 ext lab s = reorder ext (map polygon_new exts)).
  { unfold poly_clip_out_of_image. destruct ext as [|a [|b [|c ext]]]; cbn in L; try lia. destruct I as [->|(e & -> & ->)]; reflexivity. }
  destruct (reorder_ok ext N (map polygon_new exts)) as (r & E & G). { rewrite Forall_map. exact F. }
  exists r. rewrite U. split; [exact E|]. clear -G N. revert r G. induction exts as [|e exts IH]; intros r G; inversion G as [|? q ? r' G1 G2]; subst; constructor; [|apply IH; exact G2].
  split; [apply G1|]. split.
  - destruct G1 as [_ (a & p & u & v & H & _ & C & _)]. eauto.
  - intros p0 p1 H I P. destruct ext as [|x ext]; [discriminate|]. injection H as ->. eapply reordered_first; [exact G1|]. eauto.
Qed.
Print Assumptions C84_clip.

(** If shapely finds nothing, or only lines and points, nothing is left. A
    collection that also contains a polygon is an error. *)
Theorem C84_clip_nothing : forall isect isect3 ext lab s, (3 <= length ext)%nat ->
  (isect3 ext s = PLinesOrPoints \/ isect3 ext s = PCollection true -> poly_clip_out_of_image isect isect3 ext lab s = Ok []) /\
  (isect3 ext s = PCollection false -> poly_clip_out_of_image isect isect3 ext lab s = Err AssertionError).
Proof.
  intros isect isect3 ext lab s L. unfold poly_clip_out_of_image. destruct ext as [|a [|b [|c ext]]]; cbn in L; try lia.
  split; [intros [->| ->]; reflexivity|intros ->; reflexivity].
Qed.
Print Assumptions C84_clip_nothing.

(** Polygons of one or two points are clipped like line strings; the assertion that
    there is at most one part never fails. *)
Theorem C84_clip_small : forall isect isect3 ext lab s, has_pixels s -> shapely_ok isect ext s -> (1 <= length ext <= 2)%nat ->
  exists r, poly_clip_out_of_image isect isect3 ext lab s = Ok r /\ (r <> [] <-> visible s ext) /\
    (forall e, In e r -> exists part, clip_out_of_image isect (mkLine ext lab) s = Ok [mkLine part lab] /\ e = polygon_new part /\ r = [e]).
Proof. exact poly_clip_small. Qed.
Print Assumptions C84_clip_small.

(** Inside, partly or fully outside; if the outline cannot be seen, then shapely
    decides whether the polygon contains the image or is outside. *)
Theorem C84_out_of_image : forall isect isect3 ext lab s fully partly, has_pixels s -> shapely_ok isect (outline ext) s -> ext <> [] ->
  (Forall (in_image s) ext -> poly_is_out_of_image isect isect3 ext lab s fully partly = Ok false) /\
  (~ Forall (in_image s) ext -> visible s (outline ext) -> poly_is_out_of_image isect isect3 ext lab s fully partly = Ok partly) /\
  (~ visible s (outline ext) -> forall r, poly_clip_out_of_image isect isect3 ext lab s = Ok r ->
     poly_is_out_of_image isect isect3 ext lab s fully partly = Ok (match r with [] => fully | _ => partly end)).
Proof. exact poly_out. Qed.
Print Assumptions C84_out_of_image.
Theorem C84_out_of_image_empty : forall isect isect3 lab s fully partly,
  poly_is_out_of_image isect isect3 [] lab s fully partly = Err GenericException.
Proof. reflexivity. Qed.
Print Assumptions C84_out_of_image_empty.

Definition square : list point := [(-5, -5); (5, -5); (5, 5); (-5, 5)].
Definition clipped_square : list point := [(0, 0); (5, 0); (5, 5); (0, 5); (0, 0)].
Example C84_witness : Forall (fun e => polygon_new e <> []) [clipped_square] /\ all_apart (polygon_new clipped_square) /\
  poly_clip_out_of_image box_isect (fun _ _ => PPolygon clipped_square) square None (10, 10)%Z = Ok [[(5, 5); (0, 5); (0, 0); (5, 0)]] /\
  change_first_point_by_coords square (4, -4) (Some 2) true = Ok [(5, -5); (5, 5); (-5, 5); (-5, -5)].
Proof.
  split; [constructor; [vm_compute; discriminate|constructor]|]. split.
  - change (polygon_new clipped_square) with [(0, 0); (5, 0); (5, 5); (0, 5)]. intros u p q v E.
    destruct u as [|? [|? [|? [|? u]]]]; cbn in E; injection E; intros; subst; try discriminate;
      try (intros [H1 H2]; vm_compute in H1, H2; first [apply H1; reflexivity | apply H2; reflexivity]).
    destruct u; discriminate.
  - split; vm_compute; reflexivity.
Qed.

(** ** C85: the fraction outside of the image *)

(** Between 0 and 1; 0 inside, 1 if nothing can be seen; the fraction of the length
    and the length of the clipped parts sum up to the length. *)
Theorem C85_fraction : forall isect l s, has_pixels s -> shapely_ok isect (coords l) s ->
  exists f, out_of_image_fraction isect l s = Ok f /\ (0 <= f <= 1)%R /\
    (Forall (in_image s) (coords l) -> f = 0%R) /\
    (coords l <> [] -> ~ visible s (coords l) -> f = 1%R) /\
    (len (coords l) <> 0%R -> exists parts, clip_out_of_image isect l s = Ok parts /\
       (f * len (coords l) + total_len (map coords parts))%R = len (coords l)).
Proof. exact fraction_len. Qed.
Print Assumptions C85_fraction.

(** The clipped parts together are not longer than the line string. *)
Theorem C85_clipping_does_not_lengthen : forall isect l s parts, has_pixels s -> shapely_ok isect (coords l) s ->
  clip_out_of_image isect l s = Ok parts -> (total_len (map coords parts) <= len (coords l))%R.
Proof. exact clip_not_longer. Qed.
Print Assumptions C85_clipping_does_not_lengthen.

(** Removal by fraction keeps exactly the line strings with a smaller fraction. *)
Theorem C85_remove_by_fraction : forall isect o fraction, has_pixels (lsoi_shape o) ->
  (forall l, In l (line_strings o) -> shapely_ok isect (coords l) (lsoi_shape o)) ->
  exists ls, lsoi_remove_out_of_image_fraction isect o fraction = Ok (mkLsoi ls (lsoi_shape o)) /\ subsequence ls (line_strings o) /\
    (forall l, In l ls <-> In l (line_strings o) /\ exists f, out_of_image_fraction isect l (lsoi_shape o) = Ok f /\ (f < Q2R fraction)%R).
Proof. exact remove_fraction. Qed.
Print Assumptions C85_remove_by_fraction.

(** With a fraction of at most 0 nothing is kept; above 1 everything. *)
Theorem C85_extreme_fractions : forall isect o fraction, has_pixels (lsoi_shape o) ->
  (forall l, In l (line_strings o) -> shapely_ok isect (coords l) (lsoi_shape o)) ->
  (fraction <= 0 -> lsoi_remove_out_of_image_fraction isect o fraction = Ok (mkLsoi [] (lsoi_shape o))) /\
  (1 < fraction -> exists ls, lsoi_remove_out_of_image_fraction isect o fraction = Ok (mkLsoi ls (lsoi_shape o)) /\
     forall l, In l (line_strings o) -> In l ls).
Proof. exact remove_extreme. Qed.
Print Assumptions C85_extreme_fractions.

Example C85_witness : exists l, shapely_ok box_isect (coords l) (10, 10)%Z /\ coords l <> [] /\ (len (coords l) = 20)%R /\
  clip_out_of_image box_isect l (10, 10)%Z = Ok [mkLine [(0, 5); (9999 # 1000, 5)] None].
Proof. exact half_outside. Qed.
