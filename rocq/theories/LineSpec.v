(** What the theorems about line strings and polygons say, in plain terms. *)
From Coq Require Import List ZArith QArith Qabs Qreals Reals Bool Sorting.Sorted.
From Verif Require Import Prelude LineModel.
Import ListNotations.
Open Scope Q_scope.

(** The same point. *)
Definition peq (p q : point) : Prop := fst p == fst q /\ snd p == snd q.

(** [p] is the point at the fraction [t] of the way from [a] to [b]. *)
Definition at_fraction (a b : point) (t : Q) (p : point) : Prop :=
  fst p == fst a + t * (fst b - fst a) /\ snd p == snd a + t * (snd b - snd a).

(** [p] lies on the straight line between [a] and [b]. *)
Definition on_seg (a b p : point) : Prop := exists t, 0 <= t <= 1 /\ at_fraction a b t p.

(** [p] lies on the line string with the points [cs]: on one of its edges, or
    it is its only point. *)
Definition on_path (cs : list point) (p : point) : Prop :=
  (exists i a b, nth_error cs i = Some a /\ nth_error cs (S i) = Some b /\ on_seg a b p) \/
  (exists q, In q cs /\ peq p q).

(** Inside the image plane of height and width [s]. *)
Definition in_image (s : Z * Z) (p : point) : Prop :=
  0 <= fst p < inject_Z (snd s) /\ 0 <= snd p < inject_Z (fst s).

(** Inside the image plane, with a distance of at least 1/1000 to the right and
    the lower border (the rectangle the code clips to). *)
Definition in_core (s : Z * Z) (p : point) : Prop :=
  0 <= fst p <= inject_Z (snd s) - (1 # 1000) /\ 0 <= snd p <= inject_Z (fst s) - (1 # 1000).

(** The distance of two points is at most [d]. *)
Definition within (d : Q) (p q : point) : Prop :=
  (fst p - fst q) * (fst p - fst q) + (snd p - snd q) * (snd p - snd q) <= d * d.

(** The image has pixels. *)
Definition has_pixels (s : Z * Z) : Prop := (1 <= fst s)%Z /\ (1 <= snd s)%Z.

(** ** What is assumed of shapely *)

(** The set of points that a result stands for; a LineString that is part of a
    straight line goes from its first to its last point. *)
Inductive denotes : geom -> point -> Prop :=
| den_point q p : peq p q -> denotes (GPoint q) p
| den_line a r p : on_seg a (last r a) p -> denotes (GLine (a :: r)) p
| den_coll gs g p : In g gs -> denotes g p -> denotes (GColl gs) p.

(** No collections inside of collections. *)
Definition flat (g : geom) : Prop :=
  match g with
  | GColl gs => Forall (fun g' => match g' with GColl _ => False | _ => True end) gs
  | _ => True
  end.

(** The result for the line from [a] to [b] is the intersection of the two sets. *)
Definition correct_intersection (a b : point) (lines : list linestring) (g : geom) : Prop :=
  flat g /\
  (forall p, denotes g p <-> on_seg a b p /\ exists l, In l lines /\ on_path (coords l) p).

(** shapely gives the intersection for every edge of the line string. *)
Definition shapely_ok (isect : point -> point -> list linestring -> geom) (cs : list point) (s : Z * Z) : Prop :=
  forall i a b, nth_error cs i = Some a -> nth_error cs (S i) = Some b ->
    correct_intersection a b (image_edges s) (isect a b (image_edges s)).

(** ** Positions along a line string *)

(** The position (i, t): the fraction [t] of the [i]-th edge. *)
Definition position := (nat * Q)%type.
Definition at_position (cs : list point) (q : position) (p : point) : Prop :=
  0 <= snd q <= 1 /\
  exists a b, nth_error cs (fst q) = Some a /\ nth_error cs (S (fst q)) = Some b /\ at_fraction a b (snd q) p.
(** Earlier or same position. *)
Definition not_after (q r : position) : Prop := (fst q < fst r)%nat \/ fst q = fst r /\ snd q <= snd r.
(** A piece of one edge: from [q] to [r] without leaving the edge of [q]. *)
Definition along_edge (q r : position) : Prop :=
  fst q = fst r /\ snd q <= snd r \/ fst r = S (fst q) /\ snd r == 0.

(** Consecutive elements of a list are related. *)
Definition chained {A} (R : A -> A -> Prop) (l : list A) : Prop :=
  forall i a b, nth_error l i = Some a -> nth_error l (S i) = Some b -> R a b.

(** The parts are pieces of the line string, in the order of the line string:
    every point has a position on it, within a part one goes along the edges,
    and no part goes back behind an earlier one. *)
Definition pieces_of (cs : list point) (parts : list (list point)) : Prop :=
  exists qss : list (list position),
    Forall2 (Forall2 (at_position cs)) qss parts /\
    Forall (chained along_edge) qss /\
    StronglySorted not_after (concat qss).

(** [a] is obtained from [b] by leaving out elements. *)
Inductive subsequence {A} : list A -> list A -> Prop :=
| sub_nil : subsequence [] []
| sub_skip x a b : subsequence a b -> subsequence a (x :: b)
| sub_keep x a b : subsequence a b -> subsequence (x :: a) (x :: b).

(** Same circle of points, other first point. *)
Definition rotation {A} (a b : list A) : Prop := exists u v, a = u ++ v /\ b = v ++ u.

(** Inside the image plane, as a test. *)
Definition in_imageb (s : Z * Z) (p : point) : bool :=
  (Qle_bool 0 (fst p) && negb (Qle_bool (inject_Z (snd s)) (fst p))) &&
  (Qle_bool 0 (snd p) && negb (Qle_bool (inject_Z (fst s)) (snd p))).

(** How many points the code takes from a result: one of a Point, the first and
    the last of a LineString. *)
Definition simple_points (g : geom) : nat :=
  match g with GPoint _ => 1%nat | GLine [] => 0%nat | GLine _ => 2%nat | GColl _ => 0%nat end.
Definition reported_points (g : geom) : nat :=
  match g with GColl gs => list_sum (map simple_points gs) | _ => simple_points g end.
Definition reports_at_most (n : nat) (isect : point -> point -> list linestring -> geom) (cs : list point) (s : Z * Z) : Prop :=
  forall i a b, nth_error cs i = Some a -> nth_error cs (S i) = Some b ->
    (reported_points (isect a b (image_edges s)) <= n)%nat.

(** Something of the line string can be seen: one of its points is in the image,
    or it runs through the image without the strips at the right and lower border. *)
Definition visible (s : Z * Z) (cs : list point) : Prop :=
  (exists p, In p cs /\ in_image s p) \/ (exists p, on_path cs p /\ in_core s p).

(** [p] is one of the points of the list that are closest to [q]. *)
Definition closest (l : list point) (q p : point) : Prop :=
  In p l /\ forall p', In p' l -> dist2 p q <= dist2 p' q.

(** np.allclose of two points. *)
Definition nearly_same (p q : point) : Prop :=
  Qabs (fst p - fst q) <= (1 # 100000000) + (1 # 100000) * Qabs (fst q) /\
  Qabs (snd p - snd q) <= (1 # 100000000) + (1 # 100000) * Qabs (snd q).

(** No point of the polygon is nearly the same as the point after it. *)
Definition all_apart (ext : list point) : Prop :=
  forall u p q v, ext = u ++ p :: q :: v -> ~ nearly_same q p.

(** The outline of a polygon: its points, then the first one again. *)
Definition outline (ext : list point) : list point :=
  match ext with a :: _ :: _ => ext ++ [a] | _ => ext end.

(** [q] in [l] and [p] in [m] are as close as possible. *)
Definition closest_pair (l m : list point) (q p : point) : Prop :=
  In q l /\ In p m /\ forall q' p', In q' l -> In p' m -> dist2 q p <= dist2 q' p'.

(** The length of a line string: the sum of the distances from point to point. *)
Fixpoint len (cs : list point) : R :=
  match cs with
  | a :: ((b :: _) as r) =>
      (sqrt ((Q2R (fst b) - Q2R (fst a)) ^ 2 + (Q2R (snd b) - Q2R (snd a)) ^ 2) + len r)%R
  | _ => 0%R
  end.
Fixpoint total_len (parts : list (list point)) : R :=
  match parts with [] => 0%R | part :: r => (len part + total_len r)%R end.

(** What remains after removing line strings that are [fully] or [partly] outside. *)
Definition remains (s : Z * Z) (fully partly : bool) (cs : list point) : Prop :=
  cs <> [] /\ (Forall (in_image s) cs \/ (visible s cs /\ partly = false) \/ (~ visible s cs /\ fully = false)).

(** ** An intersection function that meets the assumption *)

(** The part of [lo, hi] where [x1 <= a + t * d <= x2]. *)
Definition clip1 (r : option (Q * Q)) (a d x1 x2 : Q) : option (Q * Q) :=
  match r with
  | None => None
  | Some (lo, hi) =>
      if Qeq_bool d 0
      then if Qle_bool x1 a && Qle_bool a x2 then Some (lo, hi) else None
      else let t1 := (x1 - a) / d in
           let t2 := (x2 - a) / d in
           Some (qmax lo (qmin t1 t2), qmin hi (qmax t1 t2))
  end.
Definition along (a b : point) (t : Q) : point :=
  (Qred (fst a + t * (fst b - fst a)), Qred (snd a + t * (snd b - snd a))).
(** The part of the line from [a] to [b] in the box of two points. *)
Definition box_part (a b c d : point) : list geom :=
  match clip1 (clip1 (Some (0, 1)) (fst a) (fst b - fst a) (qmin (fst c) (fst d)) (qmax (fst c) (fst d)))
              (snd a) (snd b - snd a) (qmin (snd c) (snd d)) (qmax (snd c) (snd d)) with
  | None => []
  | Some (lo, hi) =>
      if Qle_bool lo hi
      then if Qeq_bool lo hi then [GPoint (along a b lo)] else [GLine [along a b lo; along a b hi]]
      else []
  end.
Definition box_isect (a b : point) (lines : list linestring) : geom :=
  GColl (flat_map (fun l => match coords l with [c; d] => box_part a b c d | _ => [] end) lines).
