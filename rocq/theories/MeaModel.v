(** Model of the measures of line strings and polygons: imgaug/augmentables/lines.py and polys.py (lengths, boxes,
    distances, subdivision, comparison, areas).

    Simplifications: coordinates are exact rationals; distances are represented by their squares; the distance of a
    point to a shapely geometry and the area of a shapely polygon are modelled by their formulas. *)
From Coq Require Import List ZArith QArith Bool.
From Verif Require Import Prelude PtsModel LineModel.
Import ListNotations.
Open Scope Q_scope.

(** np.min of the x- or y-coordinates (lines.py:158, 1393); the array has at least one element. *)
Fixpoint lowest (f : point -> Q) (p : point) (l : list point) : Q :=
  match l with [] => f p | q :: r => qmin (f p) (lowest f q r) end.
(** np.max of the x- or y-coordinates (lines.py:158, 1394). *)
Fixpoint highest (f : point -> Q) (p : point) (l : list point) : Q :=
  match l with [] => f p | q :: r => qmax (f p) (highest f q r) end.

(** lines.py:143-175 height, width; [f]: the y- or x-coordinate. *)
Definition extent (f : point -> Q) (cs : list point) : Q :=
  match cs with
  | p :: ((_ :: _) as r) => highest f p r - lowest f p r
  | _ => 0
  end.
(** x1, y1, x2, y2 of a bounding box (lines.py:1393-1394). *)
Definition bbox := (Q * Q * Q * Q)%type.
(** lines.py:1378-1395 to_bounding_box. *)
Definition to_bounding_box (cs : list point) : option bbox :=
  match cs with
  | [] => None
  | p :: r => Some (lowest fst p r, lowest snd p r, highest fst p r, highest snd p r)
  end.

(** ** Distances *)

(** The point at a fraction of a segment (shapely's project and interpolate) [lines.py:265]. *)
Definition lerp (a b : point) (t : Q) : point := (fst a + t * (fst b - fst a), snd a + t * (snd b - snd a)).
(** shapely's distance of a point to a segment, squared: to the foot of the perpendicular or to the closer
    end (lines.py:265). *)
Definition segment_d2 (p a b : point) : Q :=
  let l := dist2 a b in
  if qeqb l 0 then dist2 p a
  else
    let u := (fst p - fst a) * (fst b - fst a) + (snd p - snd a) * (snd b - snd a) in
    dist2 p (lerp a b (qclip (u / l) 0 1)).
(** shapely's distance to a LineString of the points a, b, ..., squared: that to the closest segment (lines.py:254, 265). *)
Fixpoint line_d2 (p a b : point) (r : list point) : Q :=
  match r with
  | [] => segment_d2 p a b
  | c :: r => qmin (segment_d2 p a b) (line_d2 p b c r)
  end.

(** The argument [other] (lines.py:246-263): a keypoint, a line string, a tuple, something else. *)
Inductive other := OKeypoint (p : point) | OLine (cs : list point) | OTuple (l : list Q) | OElse.

(** lines.py:224-266 compute_pointwise_distances, squared; [None] is [default]. *)
Definition pointwise_d2 (cs : list point) (o : other) : res (option (list Q)) :=
  match o with
  | OKeypoint q => Ok (Some (map (fun p => dist2 p q) cs))
  | OLine [] => Ok None
  | OLine [q] => Ok (Some (map (fun p => dist2 p q) cs))
  | OLine (a :: b :: r) => Ok (Some (map (fun p => line_d2 p a b r) cs))
  | OTuple [x; y] => Ok (Some (map (fun p => dist2 p (x, y)) cs))
  | OTuple _ => Err AssertionError
  | OElse => Err ValueError
  end.
(** Python's min of a list (lines.py:291). *)
Fixpoint min_list (a : Q) (l : list Q) : Q := match l with [] => a | b :: r => qmin a (min_list b r) end.
(** lines.py:268-291 compute_distance, squared; [None] is [default]. *)
Definition compute_d2 (cs : list point) (o : other) : res (option Q) :=
  do d <- pointwise_d2 cs o;
  Ok (match d with Some (a :: r) => Some (min_list a r) | _ => None end).
(** A distance given by its square is smaller than [m] (lines.py:316, 1542). *)
Definition closer (d2 m : Q) : bool := qltb 0 m && qltb d2 (m * m).
(** lines.py:294-316 contains. *)
Definition contains (cs : list point) (o : other) (max_distance : Q) : res bool :=
  do d <- compute_d2 cs o;
  Ok (match d with Some d => closer d max_distance | None => false end).

(** ** New line strings *)

(** lines.py:1310-1331 concatenate. *)
Definition concatenate (cs other : list point) : list point := cs ++ other.
(** lines.py:1334-1363 subdivide. *)
Definition subdivide (cs : list point) (points_per_edge : Z) : list point :=
  if (length cs <=? 1)%nat || (points_per_edge <? 1)%Z then cs
  else interpolate_points cs points_per_edge false.

(** lines.py:1495-1542 coords_almost_equals. *)
Definition coords_almost_equals (a b : list point) (max_distance : Q) (points_per_edge : Z) : res bool :=
  match a, b with
  | [], [] => Ok true
  | [], _ | _, [] => Ok false
  | _, _ =>
      let sa := subdivide a points_per_edge in
      let sb := subdivide b points_per_edge in
      do ab <- pointwise_d2 sa (OLine sb);
      do ba <- pointwise_d2 sb (OLine sa);
      match ab, ba with
      | Some ab, Some ba => Ok (forallb (fun d => closer d max_distance) ab && forallb (fun d => closer d max_distance) ba)
      | _, _ => Err TypeError_
      end
  end.
(** Equality of labels, [None] or a value (lines.py:1566). *)
Definition label_eqb (a b : option Z) : bool :=
  match a, b with None, None => true | Some x, Some y => (x =? y)%Z | _, _ => false end.
(** lines.py:1544-1569 almost_equals. *)
Definition almost_equals (a b : linestring) (max_distance : Q) (points_per_edge : Z) : res bool :=
  if negb (label_eqb (ls_label a) (ls_label b)) then Ok false
  else coords_almost_equals (coords a) (coords b) max_distance points_per_edge.

(** ** Polygons, given by their exterior *)

(** Twice the signed area under the edges from [p] along [l] (shapely's area, polys.py:251). *)
Fixpoint cross_sum (p : point) (l : list point) : Q :=
  match l with
  | [] => 0
  | q :: r => (fst p * snd q - fst q * snd p) + cross_sum q r
  end.
(** Absolute value (polys.py:251). *)
Definition qabs (q : Q) : Q := qmax q (- q).
(** polys.py:238-251 area. *)
Definition area (ext : list point) : Q :=
  match ext with
  | p :: ((_ :: _ :: _) as r) => qabs (cross_sum p (r ++ [p])) / 2
  | _ => 0
  end.
(** polys.py:253-283 height, width: max() and min() of an empty array raise. *)
Definition poly_extent (f : point -> Q) (ext : list point) : res Q :=
  match ext with
  | [] => Err ValueError
  | p :: r => Ok (highest f p r - lowest f p r)
  end.
(** polys.py:1130-1146 to_bounding_box. *)
Definition poly_to_bounding_box (ext : list point) : res bbox :=
  match to_bounding_box ext with Some b => Ok b | None => Err ValueError end.
(** polys.py:1045-1091 subdivide: on a copy made by the constructor (polys.py:1387). *)
Definition poly_subdivide (ext : list point) (points_per_edge : Z) : list point :=
  match polygon_new ext with
  | [p] => [p]
  | ext => removelast (subdivide (coords (to_line_string ext None true)) points_per_edge)
  end.
(** polys.py:1255-1312 exterior_almost_equals, for two Polygons. *)
Definition exterior_almost_equals (a b : list point) (max_distance : Q) (points_per_edge : Z) : res bool :=
  coords_almost_equals (coords (to_line_string a None true)) (coords (to_line_string b None true)) max_distance points_per_edge.
