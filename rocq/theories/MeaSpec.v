(** What a user expects of the measures of line strings and polygons. *)
From Coq Require Import List ZArith QArith Reals Qreals.
From Verif Require Import Prelude LineModel MeaModel.
Import ListNotations.
Open Scope Q_scope.

(** Points are the same if their coordinates are equal numbers. *)
Definition same_point (p q : point) : Prop := fst p == fst q /\ snd p == snd q.
Definition same_points : list point -> list point -> Prop := Forall2 same_point.
(** [q] is on the segment from [a] to [b]. *)
Definition on_segment (a b q : point) : Prop :=
  exists t, 0 <= t /\ t <= 1 /\ fst q == (1 - t) * fst a + t * fst b /\ snd q == (1 - t) * snd a + t * snd b.
(** [q] is on the line string through the points [cs]: the only point, or on the segment between neighbours. *)
Definition on_path (cs : list point) (q : point) : Prop :=
  match cs with
  | [p] => same_point q p
  | _ => exists l1 a b l2, cs = l1 ++ a :: b :: l2 /\ on_segment a b q
  end.
Definition same_path (a b : list point) : Prop := forall q, on_path a q <-> on_path b q.
(** The squared distance of two points and the distance. *)
Definition d2 (p q : point) : Q := (fst p - fst q) ^ 2 + (snd p - snd q) ^ 2.
Definition distance (p q : point) : R := sqrt (Q2R (d2 p q)).
(** [d] is the squared distance of [p] to the closest point of a set. *)
Definition closest_d2 (p : point) (S : point -> Prop) (d : Q) : Prop :=
  (forall q, S q -> d <= d2 p q) /\ (exists q, S q /\ d2 p q == d).
(** [p] is closer than [m] to some point of a set. *)
Definition near_set (m : Q) (S : point -> Prop) (p : point) : Prop := exists q, S q /\ 0 < m /\ d2 p q < m * m.
(** The points [other] stands for. *)
Definition others (o : other) (q : point) : Prop :=
  match o with
  | OKeypoint p => same_point q p
  | OLine cs => cs <> [] /\ on_path cs q
  | OTuple [x; y] => same_point q (x, y)
  | _ => False
  end.
(** The smallest box around a set of points. *)
Definition smallest_box (S : point -> Prop) (b : bbox) : Prop :=
  let '(x1, y1, x2, y2) := b in
  (forall p, S p -> x1 <= fst p /\ fst p <= x2 /\ y1 <= snd p /\ snd p <= y2) /\
  (exists p, S p /\ fst p == x1) /\ (exists p, S p /\ snd p == y1) /\
  (exists p, S p /\ fst p == x2) /\ (exists p, S p /\ snd p == y2).
Definition moved (dx dy : Q) (p : point) : point := (fst p + dx, snd p + dy).
Definition scaled (fx fy : Q) (p : point) : point := (fst p * fx, snd p * fy).
(** The outline of a polygon: the path through its points and back to the first one. *)
Definition outline (ext : list point) : list point :=
  match ext with a :: _ :: _ => ext ++ firstn 1 ext | _ => ext end.
(** Polygons whose first and last point differ, as the constructor makes them. *)
Definition settled (ext : list point) : Prop := polygon_new ext = ext.
