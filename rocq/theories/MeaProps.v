(** Properties C130-C132: measures, comparison and subdivision of line strings and polygons. *)
From Coq Require Import List ZArith QArith Reals Qreals Lia Lqa.
From Verif Require Import Prelude PreludeFacts PtsModel LineModel MeaModel MeaSpec MeaProofs.
Import ListNotations.
Open Scope Q_scope.

(** ** C130: lengths, boxes, subdivision and concatenation *)

(** The length is the sum of the distances of neighbours; it is at least the distance of the ends; reversing keeps it. *)
Theorem C130_length : forall a b r d,
  path_length [a] = 0%R /\ path_length (a :: b :: r) = (distance a b + path_length (b :: r))%R /\
  (distance a (last (a :: b :: r) d) <= path_length (a :: b :: r))%R /\ path_length (rev (a :: b :: r)) = path_length (a :: b :: r).
Proof. intros a b r d. split; [apply length_one|]. split; [apply length_cons|]. split; [apply length_ends|apply length_rev]. Qed.
Print Assumptions C130_length.
(** Concatenation keeps all points and adds the edge between the ends. *)
Theorem C130_concatenate : forall x a y b d,
  path_length (concatenate (a :: x) (b :: y)) = (path_length (a :: x) + distance (last (a :: x) d) b + path_length (b :: y))%R /\
  (forall cs, concatenate cs [] = cs /\ concatenate [] cs = cs) /\
  (forall cs ds i e, nth i (concatenate cs ds) e = if (i <? length cs)%nat then nth i cs e else nth (i - length cs) ds e).
Proof.
  intros x a y b d. split; [apply length_concat|]. split; [intros cs; split; [apply app_nil_r|reflexivity]|].
  intros cs ds i e. unfold concatenate. destruct (Nat.ltb_spec i (length cs)); [apply app_nth1; assumption|apply app_nth2; lia].
Qed.
Print Assumptions C130_concatenate.
(** Subdivision keeps the length and the set of points on the line string. *)
Theorem C130_subdivide_path : forall cs n, path_length (subdivide cs n) = path_length cs /\ same_path (subdivide cs n) cs.
Proof. intros cs n. split; [apply length_subdivide|apply path_subdivide]. Qed.
Print Assumptions C130_subdivide_path.
(** Subdivision puts n points at equal distances on every edge; the ends of the edges stay. *)
Theorem C130_subdivide_points : forall n cs, (1 <= n)%Z -> cs <> [] ->
  length (subdivide cs n) = ((length cs - 1) * S (Z.to_nat n) + 1)%nat /\
  (forall d, last (subdivide cs n) d = last cs d) /\
  forall j i d, (S j < length cs)%nat -> (i <= Z.to_nat n)%nat ->
    let t := inject_Z (Z.of_nat i) / inject_Z (1 + n) in let a := nth j cs d in let b := nth (S j) cs d in
    same_point (nth (j * S (Z.to_nat n) + i) (subdivide cs n) d) (fst a + t * (fst b - fst a), snd a + t * (snd b - snd a)).
Proof. intros n cs N C. destruct (subdivide_points n cs N C) as [L H]. split; [exact L|]. split; [intros d; apply subdivide_last|exact H]. Qed.
Print Assumptions C130_subdivide_points.
Theorem C130_subdivide_nothing : forall cs n, (n < 1)%Z \/ (length cs <= 1)%nat -> subdivide cs n = cs.
Proof. intros cs n [H|H]; [apply subdivide_less; exact H|]. destruct cs as [|a [|b r]]; [reflexivity|reflexivity|cbn in H; lia]. Qed.
Print Assumptions C130_subdivide_nothing.
(** Subdividing twice is subdividing once, with more points (e.g. 1 and 1: 3). *)
Theorem C130_subdivide_twice : forall m n cs, (1 <= m)%Z -> (1 <= n)%Z -> same_points (subdivide (subdivide cs m) n) (subdivide cs ((m + 1) * (n + 1) - 1)).
Proof. exact subdivide_twice. Qed.
Print Assumptions C130_subdivide_twice.
Example C130_subdivide_witness : map (fun p => (Qred (fst p), Qred (snd p))) (subdivide [(0, 0); (4, 0); (4, 8)] 3) =
  [(0, 0); (1, 0); (2, 0); (3, 0); (4, 0); (4, 2); (4, 4); (4, 6); (4, 8)].
Proof. reflexivity. Qed.
(** The bounding box is the smallest one around all points on the line string; width and height are its sides. *)
Theorem C130_box : forall cs x1 y1 x2 y2, to_bounding_box cs = Some (x1, y1, x2, y2) ->
  smallest_box (on_path cs) (x1, y1, x2, y2) /\ extent fst cs == x2 - x1 /\ extent snd cs == y2 - y1.
Proof. intros cs x1 y1 x2 y2 H. split; [apply box_smallest; exact H|apply extents; exact H]. Qed.
Print Assumptions C130_box.
Theorem C130_box_empty : forall cs, (to_bounding_box cs = None <-> cs = []) /\ extent fst [] == 0 /\ extent snd [] == 0.
Proof. intros cs. split; [|split; reflexivity]. destruct cs as [|p r]; [split; reflexivity|]. split; intros H; discriminate H. Qed.
Print Assumptions C130_box_empty.
(** There is only one smallest box. *)
Theorem C130_box_unique : forall S x1 y1 x2 y2 u1 v1 u2 v2, smallest_box S (x1, y1, x2, y2) -> smallest_box S (u1, v1, u2, v2) -> x1 == u1 /\ y1 == v1 /\ x2 == u2 /\ y2 == v2.
Proof. intros S x1 y1 x2 y2 u1 v1 u2 v2 A B. exact (box_unique S _ _ A B). Qed.
Print Assumptions C130_box_unique.
Example C130_box_witness : to_bounding_box [(1, 5); (3, 2); (2, 9)] = Some (1, 2, 3, 9) /\ extent snd [(1, 5); (3, 2); (2, 9)] == 7.
Proof. split; reflexivity. Qed.

(** ** C131: distances, containment and comparison of line strings *)

(** The distances are those of the points of the line string to the closest point of the other object. *)
Theorem C131_pointwise_distances : forall cs o l, pointwise_d2 cs o = Ok (Some l) -> Forall2 (fun p d => closest_d2 p (others o) d) cs l.
Proof. exact pointwise. Qed.
Print Assumptions C131_pointwise_distances.
(** Every keypoint, non-empty line string and pair of numbers is accepted; line strings without points give the default. *)
Theorem C131_pointwise_cases : forall cs o,
  match pointwise_d2 cs o with
  | Ok (Some l) => length l = length cs /\ exists q, others o q
  | Ok None => o = OLine []
  | Err e => (e = AssertionError /\ exists l, o = OTuple l /\ length l <> 2%nat) \/ (e = ValueError /\ o = OElse)
  end.
Proof. exact pointwise_cases. Qed.
Print Assumptions C131_pointwise_cases.
Example C131_distances_witness : exists l, pointwise_d2 [(0, 3); (5, 1); (12, 0)] (OLine [(0, 0); (10, 0)]) = Ok (Some l) /\ map Qred l = [9; 1; 4].
Proof. eexists. split; [reflexivity|]. vm_compute. reflexivity. Qed.
(** compute_distance: the smallest distance of the points (not of the edges) to the other object. *)
Theorem C131_distance_partial : forall cs o,
  match compute_d2 cs o with
  | Ok (Some d) => (forall p q, In p cs -> others o q -> d <= d2 p q) /\ exists p q, In p cs /\ others o q /\ d2 p q == d
  | Ok None => cs = [] \/ o = OLine []
  | Err e => pointwise_d2 cs o = Err e
  end.
Proof.
  intros cs o. destruct (compute_d2 cs o) as [[d|]|e] eqn:E; [apply distance_of_vertices; exact E| |]; unfold compute_d2 in E; pose proof (pointwise_cases cs o) as C; destruct (pointwise_d2 cs o) as [[l|]|e'] eqn:P; cbn [bind] in E; try discriminate.
  - destruct l; [|discriminate]. left. destruct C as [L _]. destruct cs; [reflexivity|discriminate].
  - right. exact C.
  - congruence.
Qed.
Print Assumptions C131_distance_partial.
(** It is neither the smallest distance of the two line strings nor symmetric. *)
Theorem C131_distance_refuted :
  let a := [(0, 0); (10, 0)] in let b := [(5, 1); (5, 5)] in
  (exists d, compute_d2 a (OLine b) = Ok (Some d) /\ d == 26) /\ (exists d, compute_d2 b (OLine a) = Ok (Some d) /\ d == 1) /\
  exists p q, on_path a p /\ on_path b q /\ d2 p q == 1.
Proof.
  cbn zeta. split; [|split].
  - eexists. split; [reflexivity|]. vm_compute. reflexivity.
  - eexists. split; [reflexivity|]. vm_compute. reflexivity.
  - exists (5, 0), (5, 1). split; [|split; [apply path_vertex; left; reflexivity|reflexivity]]. apply path_cons. left. exists (1 # 2). cbn [fst snd]. repeat split; lra.
Qed.
Print Assumptions C131_distance_refuted.
(** contains: whether a point of the line string (the ends of its edges) is close to the other object. *)
Theorem C131_contains_partial : forall cs o m b, contains cs o m = Ok b ->
  (b = true <-> exists p, In p cs /\ near_set m (others o) p) /\ (b = true -> exists p, on_path cs p /\ near_set m (others o) p).
Proof.
  intros cs o m b H. pose proof (contains_iff cs o m b H) as C. split; [exact C|]. intros T. apply C in T. destruct T as (p & P & N). exists p. split; [apply path_vertex; exact P|exact N].
Qed.
Print Assumptions C131_contains_partial.
(** Points in the middle of long edges are not contained. *)
Theorem C131_contains_refuted : forall a b m, 0 < m -> 4 * (m * m) <= d2 a b ->
  let mid := (fst a + (1 # 2) * (fst b - fst a), snd a + (1 # 2) * (snd b - snd a)) in on_path [a; b] mid /\ contains [a; b] (OKeypoint mid) m = Ok false.
Proof. exact midpoint_missed. Qed.
Print Assumptions C131_contains_refuted.
Example C131_contains_witness : contains [(0, 0); (4, 0)] (OKeypoint (4, 0)) (1 # 10000) = Ok true /\ contains [(0, 0); (4, 0)] (OKeypoint (2, 0)) (1 # 10000) = Ok false /\
  contains [(0, 0); (4, 0)] (OTuple [1; 2; 3]) 1 = Err AssertionError.
Proof. split; [reflexivity|]. split; reflexivity. Qed.
(** coords_almost_equals: whether all points of the subdivided line strings are closer than max_distance to the other line string. *)
Theorem C131_almost_equals : forall a b m n, a <> [] -> b <> [] -> exists r, coords_almost_equals a b m n = Ok r /\
  (r = true <-> (forall p, In p (subdivide a n) -> near_set m (on_path b) p) /\ (forall p, In p (subdivide b n) -> near_set m (on_path a) p)).
Proof. exact equals_iff. Qed.
Print Assumptions C131_almost_equals.
Theorem C131_almost_equals_empty : forall a m n,
  coords_almost_equals [] a m n = Ok (match a with [] => true | _ => false end) /\ coords_almost_equals a [] m n = Ok (match a with [] => true | _ => false end).
Proof. exact equals_empty. Qed.
Print Assumptions C131_almost_equals_empty.
Theorem C131_almost_equals_symmetric : forall a b m n, coords_almost_equals a b m n = coords_almost_equals b a m n.
Proof. exact equals_sym. Qed.
Print Assumptions C131_almost_equals_symmetric.
(** Line strings through the same points of the plane are almost equal, whatever their points are: e.g. subdivided or reversed ones. *)
Theorem C131_same_path : forall a b m n, 0 < m -> same_path a b -> (a = [] <-> b = []) -> coords_almost_equals a b m n = Ok true.
Proof. exact equals_same. Qed.
Print Assumptions C131_same_path.
Theorem C131_same_path_cases : forall a m n k, 0 < m -> coords_almost_equals a a m n = Ok true /\
  coords_almost_equals a (rev a) m n = Ok true /\ coords_almost_equals a (subdivide a k) m n = Ok true.
Proof.
  intros a m n k M. split; [apply equals_same; [exact M|intros q; reflexivity|reflexivity]|]. split; (apply equals_same; [exact M| |]).
  - intros q. symmetry. apply path_rev.
  - split; [intros ->; reflexivity|]. intros E. rewrite <- (rev_involutive a), E. reflexivity.
  - intros q. symmetry. apply path_subdivide.
  - destruct a as [|x a]; [split; reflexivity|]. destruct (subdivide_hd x a k) as [l ->]. split; discriminate.
Qed.
Print Assumptions C131_same_path_cases.
(** almost_equals also compares the labels. *)
Theorem C131_labels : forall a b m n, (ls_label a <> ls_label b -> almost_equals a b m n = Ok false) /\
  (ls_label a = ls_label b -> almost_equals a b m n = coords_almost_equals (coords a) (coords b) m n).
Proof.
  intros [a la] [b lb] m n. unfold almost_equals. cbn [ls_label coords]. destruct la as [x|], lb as [y|]; cbn [label_eqb]; split; intros H; try reflexivity; try congruence.
  - destruct (Z.eqb_spec x y); [congruence|reflexivity].
  - destruct (Z.eqb_spec x y); [reflexivity|congruence].
Qed.
Print Assumptions C131_labels.
Example C131_equals_witness : coords_almost_equals [(0, 0); (10, 0)] [(10, 0); (3, 0); (0, 0)] (1 # 10000) 8 = Ok true /\
  coords_almost_equals [(0, 0); (10, 0)] [(0, 0); (5, 1); (10, 0)] (1 # 10) 8 = Ok false /\ coords_almost_equals [(0, 0); (10, 0)] [(0, 1); (10, 1)] 1 8 = Ok false.
Proof. split; [vm_compute; reflexivity|]. split; vm_compute; reflexivity. Qed.

(** ** C132: measures of polygons *)

(** The area does not depend on the first point, the direction and the position; it scales with the axes. *)
Theorem C132_area : forall ext l1 l2 dx dy fx fy, 0 <= area ext /\ area (l2 ++ l1) == area (l1 ++ l2) /\ area (rev ext) == area ext /\
  area (map (moved dx dy) ext) == area ext /\ area (map (scaled fx fy) ext) == qabs (fx * fy) * area ext.
Proof.
  intros ext l1 l2 dx dy fx fy. split; [apply area_nonneg|]. split; [apply area_rotate|]. split; [apply area_rev|]. split; [apply area_moved|apply area_scaled].
Qed.
Print Assumptions C132_area.
(** Rectangles, triangles and polygons without an inside. *)
Theorem C132_area_values : forall x1 y1 x2 y2 a b, x1 <= x2 -> y1 <= y2 ->
  area [(x1, y1); (x2, y1); (x2, y2); (x1, y2)] == (x2 - x1) * (y2 - y1) /\ area [(x1, y1); (x2, y1); (x2, y2)] == (x2 - x1) * (y2 - y1) / 2 /\
  area [] == 0 /\ area [a] == 0 /\ area [a; b] == 0.
Proof.
  intros x1 y1 x2 y2 a b X Y. split; [apply area_rectangle; assumption|]. split; [|split; [reflexivity|split; reflexivity]].
  unfold area, qabs. cbn [app cross_sum fst snd]. assert (P : 0 <= (x2 - x1) * (y2 - y1)) by (apply Qmult_le_0_compat; lra). apply div2_compat. qminmax; lra.
Qed.
Print Assumptions C132_area_values.
(** Subdivision keeps the outline and the area, and puts the same points on the outline as the subdivision of a closed line string. *)
Theorem C132_subdivide : forall ext n, settled ext ->
  area (poly_subdivide ext n) == area ext /\ same_path (outline (poly_subdivide ext n)) (outline ext) /\ outline (poly_subdivide ext n) = subdivide (outline ext) n.
Proof.
  intros ext n S. split; [apply area_subdivide; exact S|]. split; [|apply poly_subdivide_outline; exact S]. rewrite poly_subdivide_outline by exact S. apply path_subdivide.
Qed.
Print Assumptions C132_subdivide.
Example C132_subdivide_witness : settled [(0, 0); (4, 0); (4, 2)] /\ area [(0, 0); (4, 0); (4, 2)] == 4 /\
  map (fun p => (Qred (fst p), Qred (snd p))) (poly_subdivide [(0, 0); (4, 0); (4, 2)] 1) = [(0, 0); (2, 0); (4, 0); (4, 1); (4, 2); (2, 1)].
Proof. split; [reflexivity|]. split; reflexivity. Qed.
(** Polygons with the same outline are almost equal: other first points, directions and subdivisions. *)
Theorem C132_almost_equals : forall a b m n, 0 < m -> same_path (outline a) (outline b) -> (a = [] <-> b = []) -> exterior_almost_equals a b m n = Ok true.
Proof. exact ext_equals. Qed.
Print Assumptions C132_almost_equals.
Theorem C132_almost_equals_cases : forall l1 l2 a m n k, 0 < m -> exterior_almost_equals (l1 ++ l2) (l2 ++ l1) m n = Ok true /\
  exterior_almost_equals a (rev a) m n = Ok true /\ (settled a -> exterior_almost_equals a (poly_subdivide a k) m n = Ok true).
Proof.
  intros l1 l2 a m n k M. split; [|split]; [| |intros S]; (apply ext_equals; [exact M| |]).
  - apply path_rotate.
  - destruct l1, l2; cbn; split; intros H; try discriminate; reflexivity.
  - intros q. symmetry. apply path_outline_rev.
  - split; [intros ->; reflexivity|]. intros E. rewrite <- (rev_involutive a), E. reflexivity.
  - intros q. rewrite poly_subdivide_outline by exact S. symmetry. apply path_subdivide.
  - rewrite <- (outline_nil (poly_subdivide a k)), poly_subdivide_outline by exact S. destruct a as [|x a]; [split; reflexivity|]. split; [discriminate|]. intros E. destruct a as [|y a]; [discriminate|].
    cbn [outline firstn app] in E. destruct (subdivide_hd x (y :: a ++ [x]) k) as [l E']. rewrite E' in E. discriminate.
Qed.
Print Assumptions C132_almost_equals_cases.
(** In general: all points of the subdivided outlines are close to the other outline. *)
Theorem C132_almost_equals_iff : forall a b m n, a <> [] -> b <> [] -> exists r, exterior_almost_equals a b m n = Ok r /\
  (r = true <-> (forall p, In p (subdivide (outline a) n) -> near_set m (on_path (outline b)) p) /\ (forall p, In p (subdivide (outline b) n) -> near_set m (on_path (outline a)) p)).
Proof. intros a b m n A B. unfold exterior_almost_equals. rewrite !outline_line. apply equals_iff; rewrite outline_nil; assumption. Qed.
Print Assumptions C132_almost_equals_iff.
Example C132_almost_equals_witness : exterior_almost_equals [(0, 0); (4, 0); (4, 2)] [(4, 0); (2, 0); (0, 0); (4, 2)] (1 # 10000) 8 = Ok true /\
  exterior_almost_equals [(0, 0); (4, 0); (4, 2)] [(0, 0); (4, 0); (4, 3)] (1 # 10) 8 = Ok false.
Proof. split; vm_compute; reflexivity. Qed.
(** The box of a polygon with points is the smallest one around its outline. *)
Theorem C132_box : forall ext, ext <> [] -> exists x1 y1 x2 y2, poly_to_bounding_box ext = Ok (x1, y1, x2, y2) /\ smallest_box (on_path (outline ext)) (x1, y1, x2, y2) /\
  exists w h, poly_extent fst ext = Ok w /\ poly_extent snd ext = Ok h /\ w == x2 - x1 /\ h == y2 - y1.
Proof.
  intros ext E. destruct ext as [|p r]; [congruence|]. destruct (poly_to_bounding_box (p :: r)) as [[[[x1 y1] x2] y2]|e] eqn:H; [|discriminate]. exists x1, y1, x2, y2. split; [reflexivity|]. apply poly_box. exact H.
Qed.
Print Assumptions C132_box.
(** Polygons without points are allowed, but raise where line strings without points give 0 or None. *)
Theorem C132_empty_refuted : polygon_new [] = [] /\ poly_extent fst [] = Err ValueError /\ poly_extent snd [] = Err ValueError /\ poly_to_bounding_box [] = Err ValueError.
Proof. repeat split. Qed.
Print Assumptions C132_empty_refuted.
(** The constructor drops a last point that is not the first one, if the coordinates are large. *)
Theorem C132_points_kept_refuted : let ext := [(10000, 10000); (10010, 10000); (10010, 10010); (10000, 10000 + (1 # 20))] in
  ~ settled ext /\ ~ area (polygon_new ext) == area ext.
Proof. cbn zeta. split; [intros H; discriminate H|]. intros H. vm_compute in H. discriminate H. Qed.
Print Assumptions C132_points_kept_refuted.
