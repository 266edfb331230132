(** Vocabulary of the statements about the input forms of polygons and line
    strings. *)
From Coq Require Import Qabs.
From Verif Require Import Prelude DtyModel DtySpec MapModel NormModel NormSpec PolyModel.

(** The points of one polygon or line string: a list of (x, y). *)
Notation points := (list (list Q)).

(** The input forms. [kp]: are the points Keypoints (or tuples)? *)
Inductive pform :=
| GNone
| GEmpty                                                 (* empty list *)
| GEmpties (n : nat)                                     (* list of empty lists *)
| GEmpties2 (ns : list nat)                              (* list of lists of empty lists *)
| GArray (d : dtype) (k p : nat) (l : list (list points))(* (N,k,p,2) array *)
| GArrays (d : dtype) (l : list (nat * list points))     (* list of (K,p,2) arrays *)
| GArrLists (d : dtype) (l : list (list points))         (* list of lists of (P,2) arrays *)
| GOne (e : ent)                                         (* Polygon or LineString *)
| GOi (o : poi)                                          (* PolygonsOnImage or LineStringsOnImage *)
| GOnes (l : list ent)                                   (* list of objects, one image *)
| GOis (l : list poi)                                    (* list of containers *)
| GOneLists (l : list (list ent))                        (* list of lists of objects *)
| GPts (kp : bool) (pts : points)                        (* list of points: one object on one image *)
| GPtLists (kp : bool) (l : list points)                 (* list of lists of points: one image *)
| GPtLists3 (kp : bool) (l : list (list points)).        (* list of lists of lists of points *)

(** The Python value of a form. *)
Definition point_py (kp : bool) (p : list Q) : tv :=
  if kp then match p with [x; y] => TKp x y | _ => TOther end else TSeq true (map TNum p).
Definition points_py (kp : bool) (pts : points) : tv := TSeq false (map (point_py kp) pts).
Definition array_py (d : dtype) (pts : points) : tv :=
  TArr (mkNd (ANum d) [Z.of_nat (length pts); 2] (concat pts)).
Definition image_array (d : dtype) (p : nat) (l : list points) : nd :=
  mkNd (ANum d) [Z.of_nat (length l); Z.of_nat p; 2] (concat (map (@concat Q) l)).
Definition empties (n : nat) : tv := TSeq false (repeat (TSeq false []) n).
Definition to_tv (v : pform) : tv :=
  match v with
  | GNone => TNone
  | GEmpty => TSeq false []
  | GEmpties n => empties n
  | GEmpties2 ns => TSeq false (map empties ns)
  | GArray d k p l =>
      TArr (mkNd (ANum d) [Z.of_nat (length l); Z.of_nat k; Z.of_nat p; 2]
              (concat (map (fun im => concat (map (@concat Q) im)) l)))
  | GArrays d l => TSeq false (map (fun pl => TArr (image_array d (fst pl) (snd pl))) l)
  | GArrLists d l => TSeq false (map (fun im => TSeq false (map (array_py d) im)) l)
  | GOne e => TOne e
  | GOi o => TOi o
  | GOnes l => TSeq false (map TOne l)
  | GOis l => TSeq false (map TOi l)
  | GOneLists l => TSeq false (map (fun im => TSeq false (map TOne im)) l)
  | GPts kp pts => points_py kp pts
  | GPtLists kp l => TSeq false (map (points_py kp) l)
  | GPtLists3 kp l => TSeq false (map (fun im => TSeq false (map (points_py kp) im)) l)
  end.

(** Applying a function to the points of every object, whatever the form. *)
Definition on_ent (g : points -> points) (e : ent) : ent := mkEnt (g (e_pts e)) (e_lab e).
Definition on_poi (g : points -> points) (o : poi) : poi := mkPoi (map (on_ent g) (p_ents o)) (p_shape o).
Definition on_objects (g : points -> points) (v : pform) : pform :=
  match v with
  | GArray d k p l => GArray d k p (map (map g) l)
  | GArrays d l => GArrays d (map (fun pl => (fst pl, map g (snd pl))) l)
  | GArrLists d l => GArrLists d (map (map g) l)
  | GOne e => GOne (on_ent g e)
  | GOi o => GOi (on_poi g o)
  | GOnes l => GOnes (map (on_ent g) l)
  | GOis l => GOis (map (on_poi g) l)
  | GOneLists l => GOneLists (map (map (on_ent g)) l)
  | GPts kp pts => GPts kp (g pts)
  | GPtLists kp l => GPtLists kp (map g l)
  | GPtLists3 kp l => GPtLists3 kp (map (map g) l)
  | GNone | GEmpty | GEmpties _ | GEmpties2 _ => v
  end.
(** An augmentation of the normalized data that changes the points of every object by [g]. *)
Definition paugment (g : points -> points) (n : pnorm) : pnorm :=
  match n with QOis l => QOis (map (on_poi g) l) | QNone => QNone end.

(** The first and the last point are (almost) the same. *)
Definition closed_ring (pts : points) : Prop :=
  (2 <= length pts)%nat /\
  Forall (fun ab => Qabs (fst ab - snd ab) <= (1#100000000) + (1#100000) * Qabs (snd ab))%Q
         (combine (hd [] pts) (last pts [])).

(** Points (x, y) of numbers which arrays of dtype [d] and float32 arrays can hold. *)
Definition pts_in (d : dtype) (pts : points) : Prop := Forall (row_in CKeypoint d) pts.

(** What the two classes accept: polygons must not repeat their first point at
    the end, line strings cannot be given as Keypoints. *)
Definition accepted (c : pclass) (pts : points) : Prop := c = CPoly -> ~ closed_ring pts.
Definition accepted_kp (c : pclass) (kp : bool) : Prop := kp = true -> c = CPoly.

(** Well-formed values. In arrays of several polygons all have the same number
    of points, and there is at least one. *)
Definition pwell (v : pform) : Prop :=
  match v with
  | GArray d k p l => In d array_dtypes /\ l <> [] /\ (0 < k)%nat /\
      Forall (fun im => length im = k /\ Forall (fun pts => length pts = p /\ pts_in d pts) im) l
  | GArrays d l => In d array_dtypes /\ l <> [] /\
      Forall (fun pl => snd pl <> [] /\ Forall (fun pts => length pts = fst pl /\ pts_in d pts) (snd pl)) l
  | GArrLists d l => In d array_dtypes /\ concat l <> [] /\ Forall (Forall (pts_in d)) l
  | GOnes l => l <> []
  | GOis l => l <> []
  | GOneLists l => concat l <> []
  | GPts _ pts => pts <> [] /\ pts_in float32 pts
  | GPtLists _ l => concat l <> [] /\ Forall (pts_in float32) l
  | GPtLists3 _ l => concat (concat l) <> [] /\ Forall (Forall (pts_in float32)) l
  | GEmpties n => (1 <= n)%nat
  | GEmpties2 ns => exists n, In n ns /\ (1 <= n)%nat
  | GNone | GEmpty | GOne _ | GOi _ => True
  end.
Definition psupported (c : pclass) (v : pform) : Prop :=
  match v with
  | GArray _ _ _ l => Forall (Forall (accepted c)) l
  | GArrays _ l => Forall (fun pl => Forall (accepted c) (snd pl)) l
  | GArrLists _ l => Forall (Forall (accepted c)) l
  | GPts kp pts => accepted_kp c kp /\ accepted c pts
  | GPtLists kp l => accepted_kp c kp /\ Forall (accepted c) l
  | GPtLists3 kp l => accepted_kp c kp /\ Forall (Forall (accepted c)) l
  | _ => True
  end.

(** How many image shapes a form needs; [None]: it does not use them. *)
Definition pimages_needed (v : pform) : option nat :=
  match v with
  | GNone | GEmpty | GEmpties _ | GEmpties2 _ | GOi _ | GOis _ => None
  | GArray _ _ _ l => Some (length l)
  | GArrays _ l => Some (length l)
  | GArrLists _ l => Some (length l)
  | GOneLists l => Some (length l)
  | GPtLists3 _ l => Some (length l)
  | GOne _ | GOnes _ | GPts _ _ | GPtLists _ _ => Some 1%nat
  end.
Definition penough (v : pform) (shapes : option (list (list Z))) : Prop :=
  match pimages_needed v with
  | None => True
  | Some n => exists l, shapes = Some l /\ length l = n
  end.

(** The objects of a form, image by image, and the normalized data. *)
Definition unlabelled (pts : points) : ent := mkEnt pts None.
Definition objects (v : pform) : list (list ent) :=
  match v with
  | GNone | GEmpty | GEmpties _ | GEmpties2 _ => []
  | GArray _ _ _ l | GArrLists _ l | GPtLists3 _ l => map (map unlabelled) l
  | GArrays _ l => map (fun pl => map unlabelled (snd pl)) l
  | GOne e => [[e]]
  | GOi o => [p_ents o]
  | GOnes l => [l]
  | GOis l => map p_ents l
  | GOneLists l => l
  | GPts _ pts => [[unlabelled pts]]
  | GPtLists _ l => [map unlabelled l]
  end.
Definition shapes_of (v : pform) (shapes : option (list (list Z))) : list (list Z) :=
  match v, shapes with
  | GOi o, _ => [p_shape o]
  | GOis l, _ => map p_shape l
  | _, Some ss => ss
  | _, None => []
  end.
Definition normal_form (v : pform) (shapes : option (list (list Z))) : pnorm :=
  match v with
  | GNone | GEmpty | GEmpties _ | GEmpties2 _ => QNone
  | _ => QOis (map (fun q => mkPoi (fst q) (snd q)) (combine (objects v) (shapes_of v shapes)))
  end.
