(** Model of /repo/imgaug/augmentables/lines.py: line strings, clipping to the
    image plane, out-of-image tests, coordinates as arrays.
    Coordinates are exact rationals (float32 in the code, not modelled).
    shapely is an external function: see [geom] and [isect] below.
    No proofs here. *)
From Coq Require Import List ZArith QArith Qreals Reals Bool.
From Verif Require Import Prelude.
Import ListNotations.
Open Scope Q_scope.

(** A pair (x, y). [lines.py:63, float32 rounding not modelled] *)
Definition point := (Q * Q)%type.

(** lines.py:49-70 LineString.__init__: the points and the label. *)
Record linestring := mkLine { coords : list point; ls_label : option Z }.

(** lines.py:198-201: the test for one point, [s] = (height, width). *)
Definition inside_point (s : Z * Z) (p : point) : bool :=
  let (height, width) := s in
  let (x, y) := p in
  (qleb 0 x && qltb x (inject_Z width)) && (qleb 0 y && qltb y (inject_Z height)).

(** lines.py:177-201 get_pointwise_inside_image_mask. *)
Definition inside_image_mask (s : Z * Z) (l : linestring) : list bool :=
  map (inside_point s) (coords l).

(** The square of np.linalg.norm(a - b). [lines.py:602-606, 670] *)
Definition dist2 (a b : point) : Q :=
  (fst a - fst b) * (fst a - fst b) + (snd a - snd b) * (snd a - snd b).

(** The results of shapely's [intersection] that the code tells apart:
    Point, LineString, and everything with an attribute [geoms].
    [lines.py:648-664, 2403-2417] *)
Inductive geom := GPoint (p : point) | GLine (ps : list point) | GColl (gs : list geom).

(** lines.py:2403-2417 _flatten_shapely_collection: one level only ([item.geoms]
    is a GeometrySequence without attribute [geoms], whose elements are yielded). *)
Definition flatten_collection (g : geom) : list geom :=
  match g with GColl gs => gs | _ => [g] end.

(** lines.py:648-664: the points of one flattened element. *)
Definition inter_points (g : geom) : res (list point) :=
  match g with
  | GLine [] => Ok []
  | GLine (a :: r) => Ok [a; last r a]
  | GPoint p => Ok [p]
  | GColl _ => Err AssertionError
  end.

(** Python's [sorted] is stable. [lines.py:668-671] *)
Fixpoint insert_by (key : point -> Q) (p : point) (l : list point) : list point :=
  match l with
  | [] => [p]
  | q :: r => if qleb (key p) (key q) then p :: l else q :: insert_by key p r
  end.
(** See [insert_by]. [lines.py:668-671] *)
Fixpoint sorted_by (key : point -> Q) (l : list point) : list point :=
  match l with [] => [] | p :: r => insert_by key p (sorted_by key r) end.

(** zip(self.coords[:-1], self.coords[1:]) [lines.py:556, 642] *)
Definition segments (l : list point) : list (point * point) := combine l (tl l).

(** lines.py:621-674 find_intersections_with, [other] a list of line strings.
    [isect a b other]: shapely's intersection of the line from a to b with them.
    Sorting by the squared distance gives the same order as by the distance. *)
Definition find_intersections_with (isect : point -> point -> list linestring -> geom)
    (l : linestring) (other : list linestring) : res (list (list point)) :=
  mapM (fun se : point * point =>
          let (p_start, p_end) := se in
          do pts <- mapM inter_points (flatten_collection (isect p_start p_end other));
          Ok (sorted_by (fun p => dist2 p p_start) (concat pts)))
       (segments (coords l)).

(** lines.py:545-552: the four edges of the image. *)
Definition image_edges (s : Z * Z) : list linestring :=
  let (height, width) := s in
  let eps := 1 # 1000 in
  let w := inject_Z width - eps in
  let h := inject_Z height - eps in
  [mkLine [(0, 0); (w, 0)] None; mkLine [(w, 0); (w, h)] None;
   mkLine [(w, h); (0, h)] None; mkLine [(0, h); (0, 0)] None].

(** An element of [points]: (coord, was_added, ooi). [lines.py:555-566] *)
Definition tagged := (point * bool * bool)%type.

(** lines.py:555-566: the loop that collects the points. The list ends with the
    last segment, which is the one with [i == len(self.coords) - 2]. *)
Fixpoint collect (cs : list point) (ooi : list bool) (inters : list (list point)) : list tagged :=
  match cs, ooi, inters with
  | a :: ((b :: r) as cs'), o :: ((o' :: _) as ooi'), i :: inters' =>
      let is_last := match r with [] => true | _ => false end in
      (a, false, o) :: map (fun p => (p, true, false)) i
        ++ (if is_last && negb o' then [(b, false, o')] else [])
        ++ collect cs' ooi' inters'
  | _, _, _ => []
  end.

(** lines.py:594-609: one of the distances, None if there is no such point. *)
Definition dist_ok (coord : point) (other : option point) : bool :=
  match other with None => true | Some p => qltb (1 # 10000) (dist2 coord p) end.

(** [line[-1] if len(line) > 0 else None] [lines.py:594] *)
Definition last_opt (line : list point) : option point :=
  match line with [] => None | a :: r => Some (last r a) end.

(** lines.py:568-614: the loop that makes the parts. *)
Fixpoint split_parts (points : list tagged) (line : list point) : list (list point) :=
  match points with
  | [] => match line with [] => [] | _ => [line] end
  | (coord, was_added, ooi) :: rest =>
      if ooi
      then match line with [] => split_parts rest [] | _ => line :: split_parts rest [] end
      else if negb was_added then split_parts rest (line ++ [coord])
      else
        let p_next := match rest with
                      | (n, _, false) :: _ => Some n
                      | _ => None
                      end in
        if dist_ok coord (last_opt line) && dist_ok coord p_next
        then split_parts rest (line ++ [coord])
        else split_parts rest line
  end.

(** lines.py:507-617 clip_out_of_image. *)
Definition clip_out_of_image (isect : point -> point -> list linestring -> geom)
    (l : linestring) (s : Z * Z) : res (list linestring) :=
  match coords l with
  | [] => Ok []
  | [_] => if existsb (fun b => b) (inside_image_mask s l) then Ok [l] else Ok []
  | _ =>
      if forallb (fun b => b) (inside_image_mask s l) then Ok [l]
      else
        do intersections <- find_intersections_with isect l (image_edges s);
        let points := collect (coords l) (map negb (inside_image_mask s l)) intersections in
        let lines := filter (fun line => negb (Nat.eqb (length line) 0)) (split_parts points []) in
        Ok (map (fun line => mkLine line (ls_label l)) lines)
  end.

(** lines.py:414-436 is_fully_within_image. *)
Definition is_fully_within_image (l : linestring) (s : Z * Z) (default : bool) : bool :=
  match coords l with
  | [] => default
  | _ => forallb (fun b => b) (inside_image_mask s l)
  end.

(** lines.py:438-466 is_partly_within_image. *)
Definition is_partly_within_image (isect : point -> point -> list linestring -> geom)
    (l : linestring) (s : Z * Z) (default : bool) : res bool :=
  match coords l with
  | [] => Ok default
  | _ => if existsb (fun b => b) (inside_image_mask s l) then Ok true
         else do parts <- clip_out_of_image isect l s; Ok (negb (Nat.eqb (length parts) 0))
  end.

(** lines.py:468-505 is_out_of_image. *)
Definition is_out_of_image (isect : point -> point -> list linestring -> geom)
    (l : linestring) (s : Z * Z) (fully partly default : bool) : res bool :=
  match coords l with
  | [] => Ok default
  | _ => if is_fully_within_image l s false then Ok false
         else do p <- is_partly_within_image isect l s false; Ok (if p then partly else fully)
  end.

(** lines.py:204-221 compute_neighbour_distances, 73-85 length: exact real
    numbers. *)
Definition path_length (cs : list point) : R :=
  fold_right Rplus 0%R (map (fun se : point * point => sqrt (Q2R (dist2 (fst se) (snd se)))) (segments cs)).

(** lines.py:376-412 compute_out_of_image_fraction. *)
Definition out_of_image_fraction (isect : point -> point -> list linestring -> geom)
    (l : linestring) (s : Z * Z) : res R :=
  let len := path_length (coords l) in
  if Req_EM_T len 0
  then match coords l with
       | [] => Ok 0%R
       | _ => Ok (if forallb negb (inside_image_mask s l) then 1%R else 0%R)
       end
  else
    do lss_clipped <- clip_out_of_image isect l s;
    let after := fold_right Rplus 0%R (map (fun c => path_length (coords c)) lss_clipped) in
    Ok (1 - after / len)%R.

(** lines.py:676-702 shift_. *)
Definition shift (l : linestring) (x y : Q) : linestring :=
  mkLine (map (fun p => (fst p + x, snd p + y)) (coords l)) (ls_label l).

(** ** LineStringsOnImage *)

(** lines.py:1692-1701. *)
Record lsoi := mkLsoi { line_strings : list linestring; lsoi_shape : Z * Z }.

(** [\[x for x in l if not f(x)\]] where [f] may raise. [lines.py:1951-1953] *)
Fixpoint keep_unless {A} (f : A -> res bool) (l : list A) : res (list A) :=
  match l with
  | [] => Ok []
  | a :: r => do b <- f a; do r' <- keep_unless f r; Ok (if b then r' else a :: r')
  end.

(** lines.py:1928-1954 remove_out_of_image_. *)
Definition lsoi_remove_out_of_image (isect : point -> point -> list linestring -> geom)
    (o : lsoi) (fully partly : bool) : res lsoi :=
  do ls <- keep_unless (fun l => is_out_of_image isect l (lsoi_shape o) fully partly true) (line_strings o);
  Ok (mkLsoi ls (lsoi_shape o)).

(** lines.py:1978-2001 remove_out_of_image_fraction_, utils.py:390-394. *)
Definition lsoi_remove_out_of_image_fraction (isect : point -> point -> list linestring -> geom)
    (o : lsoi) (fraction : Q) : res lsoi :=
  do ls <- keep_unless (fun l => do f <- out_of_image_fraction isect l (lsoi_shape o);
                                 Ok (if Rlt_dec f (Q2R fraction) then false else true)) (line_strings o);
  Ok (mkLsoi ls (lsoi_shape o)).

(** lines.py:2023-2053 clip_out_of_image_. *)
Definition lsoi_clip_out_of_image (isect : point -> point -> list linestring -> geom) (o : lsoi) : res lsoi :=
  do parts <- mapM (fun l => clip_out_of_image isect l (lsoi_shape o)) (line_strings o);
  Ok (mkLsoi (concat parts) (lsoi_shape o)).

(** lines.py:2081-2107 shift_. *)
Definition lsoi_shift (o : lsoi) (x y : Q) : lsoi :=
  mkLsoi (map (fun l => shift l x y) (line_strings o)) (lsoi_shape o).

(** lines.py:2154-2168 to_xy_array. *)
Definition lsoi_to_xy_array (o : lsoi) : list point := concat (map coords (line_strings o)).

(** lines.py:2202-2211: the loop of fill_from_xy_array_. The line strings are
    changed in place one by one, so the result also contains the state after an
    exception. [xy]: the rows that have not been used yet. *)
Fixpoint fill_loop (ls : list linestring) (xy : list point) : list linestring * option exn :=
  match ls with
  | [] => ([], match xy with [] => None | _ => Some AssertionError end)
  | l :: r =>
      let nb := length (coords l) in
      if Nat.leb nb (length xy)
      then let (r', e) := fill_loop r (skipn nb xy) in
           (mkLine (firstn nb xy) (ls_label l) :: r', e)
      else (ls, Some AssertionError)
  end.

(** lines.py:2170-2219 fill_from_xy_array_, rows of two numbers: the state of the
    instance afterwards and the exception, if any. *)
Definition lsoi_fill_from_xy_array (o : lsoi) (xy : list point) : lsoi * option exn :=
  let (ls, e) := fill_loop (line_strings o) xy in (mkLsoi ls (lsoi_shape o), e).

(** lines.py:2244-2280 invert_to_keypoints_on_image_: [xy], [shape] the points and
    shape of the KeypointsOnImage. *)
Fixpoint assign_loop (ls : list linestring) (xy : list point) : list linestring :=
  match ls with
  | [] => []
  | l :: r => let nb := length (coords l) in
              mkLine (firstn nb xy) (ls_label l) :: assign_loop r (skipn nb xy)
  end.
(** See [assign_loop]. [lines.py:2244-2280] *)
Definition lsoi_invert_to_keypoints (o : lsoi) (xy : list point) (shape : Z * Z) : res lsoi :=
  if Nat.eqb (length xy) (fold_right Nat.add 0%nat (map (fun l => length (coords l)) (line_strings o)))
  then Ok (mkLsoi (assign_loop (line_strings o) xy) shape)
  else Err AssertionError.

(** lines.py:1792-1821 from_xy_arrays, 1823-1842 to_xy_arrays. *)
Definition lsoi_from_xy_arrays (xy : list (list point)) (shape : Z * Z) : lsoi :=
  mkLsoi (map (fun c => mkLine c None) xy) shape.
(** See [lsoi_from_xy_arrays]. [lines.py:1823-1842] *)
Definition lsoi_to_xy_arrays (o : lsoi) : list (list point) := map coords (line_strings o).

(** ** Polygons, as far as they are decided by their line strings *)

(** polys.py:1163-1186 to_line_string: closed repeats the first point. *)
Definition to_line_string (exterior : list point) (lab : option Z) (closed : bool) : linestring :=
  match exterior with
  | a :: _ :: _ => mkLine (if closed then exterior ++ [a] else exterior) lab
  | _ => mkLine exterior lab
  end.

(** np.allclose for one pair of numbers. [polys.py:141] *)
Definition isclose (a b : Q) : bool :=
  qleb (qmax (a - b) (b - a)) ((1 # 100000000) + (1 # 100000) * qmax b (- b)).

(** polys.py:104-146 Polygon.__init__: a last point that repeats the first is dropped. *)
Definition polygon_new (exterior : list point) : list point :=
  match exterior with
  | a :: _ :: _ =>
      let z := last exterior a in
      if isclose (fst a) (fst z) && isclose (snd a) (snd z) then removelast exterior else exterior
  | _ => exterior
  end.

(** The index of the first smallest element. [polys.py:380] *)
Fixpoint argmin (l : list Q) : nat :=
  match l with
  | a :: ((_ :: _) as r) => let j := argmin r in if qltb (nth j r 0) a then S j else 0%nat
  | _ => 0%nat
  end.

(** polys.py:343-383 find_closest_point_index: index and squared distance. *)
Definition find_closest_point_index (exterior : list point) (p : point) : res (nat * Q) :=
  match exterior with
  | [] => Err AssertionError
  | _ => let distances := map (fun q => dist2 q p) exterior in
         let j := argmin distances in Ok (j, nth j distances 0)
  end.

(** polys.py:1012-1043 change_first_point_by_index. *)
Definition change_first_point_by_index (exterior : list point) (i : Z) : res (list point) :=
  if ((0 <=? i) && (i <? Z.of_nat (length exterior)))%Z
  then Ok (if (i =? 0)%Z then exterior
           else polygon_new (skipn (Z.to_nat i) exterior ++ firstn (Z.to_nat i) exterior))
  else Err AssertionError.

(** polys.py:961-1010 change_first_point_by_coords. [max_distance] None: no limit. *)
Definition change_first_point_by_coords (exterior : list point) (p : point) (max_distance : option Q)
    (raise_if_too_far_away : bool) : res (list point) :=
  match exterior with
  | [] => Err GenericException
  | _ =>
      do r <- find_closest_point_index exterior p;
      let '(closest_idx, closest_dist2) := r in
      if match max_distance with
         | None => false
         | Some m => qltb m 0 || qltb (m * m) closest_dist2
         end
      then (if raise_if_too_far_away then Err GenericException else Ok exterior)
      else change_first_point_by_index exterior (Z.of_nat closest_idx)
  end.

(** The results of shapely's intersection of two polygons that the code tells
    apart, polygons by their exteriors. [polys.py:595-623] *)
Inductive pgeom := PPolygon (ext : list point) | PMultiPolygon (exts : list (list point))
                 | PLinesOrPoints | PCollection (is_empty : bool) | POther.

(** polys.py:639-646: the index of the point of [polygon] closest to any of the
    points of [exterior]. *)
Fixpoint best_index (polygon exterior : list point) (best : option (nat * Q)) : res (option (nat * Q)) :=
  match exterior with
  | [] => Ok best
  | p :: r =>
      do c <- find_closest_point_index polygon p;
      best_index polygon r
        (match best with
         | None => Some c
         | Some b => if qltb (snd c) (snd b) then Some c else Some b
         end)
  end.

(** polys.py:637-652: the polygons with their first points changed. *)
Definition reorder (exterior : list point) (polygons : list (list point)) : res (list (list point)) :=
  do l <- mapM (fun polygon =>
                  do b <- best_index polygon exterior None;
                  match b with
                  | None => Ok []
                  | Some (i, _) => do q <- change_first_point_by_index polygon (Z.of_nat i); Ok [q]
                  end) polygons;
  Ok (concat l).

(** polys.py:550-652 clip_out_of_image: [isect3]: shapely's intersection of a
    polygon with the rectangle (0,0)-(w,h). *)
Definition poly_clip_out_of_image (isect : point -> point -> list linestring -> geom)
    (isect3 : list point -> Z * Z -> pgeom)
    (exterior : list point) (lab : option Z) (s : Z * Z) : res (list (list point)) :=
  match exterior with
  | [] => Ok []
  | [_] | [_; _] =>
      do ls_clipped <- clip_out_of_image isect (to_line_string exterior lab false) s;
      match ls_clipped with
      | [] => Ok []
      | [l] => Ok [polygon_new (coords l)]
      | _ => Err AssertionError
      end
  | _ =>
      match isect3 exterior s with
      | PPolygon e => reorder exterior [polygon_new e]
      | PMultiPolygon es => reorder exterior (map polygon_new es)
      | PLinesOrPoints => Ok []
      | PCollection is_empty => if is_empty then Ok [] else Err AssertionError
      | POther => Err GenericException
      end
  end.

(** polys.py:485-539 is_out_of_image. *)
Definition poly_is_out_of_image (isect : point -> point -> list linestring -> geom)
    (isect3 : list point -> Z * Z -> pgeom)
    (exterior : list point) (lab : option Z) (s : Z * Z) (fully partly : bool) : res bool :=
  match exterior with
  | [] => Err GenericException
  | _ =>
      let ls := to_line_string exterior lab true in
      if is_fully_within_image ls s false then Ok false
      else
        do b <- is_out_of_image isect ls s false true true;
        if (b : bool) then Ok partly
        else
          do polys <- poly_clip_out_of_image isect isect3 exterior lab s;
          Ok (if negb (Nat.eqb (length polys) 0) then partly else fully)
  end.
