(** Model of input normalization of polygons and line strings
    (imgaug/augmentables/normalization.py). No proofs here. *)
From Coq Require Import Qabs.
From Verif Require Import Prelude DtyModel MapModel NormModel.

(** Polygon or LineString. The functions of normalization.py:389-522 and 864-1048
    are the same for both; their constructors differ. *)
Inductive pclass := CPoly | CLine.
(** Polygon.exterior or LineString.coords as a list of (x, y), and the label.
    [polys.py:104-145, lines.py:48-70] *)
Record ent := mkEnt { e_pts : list (list Q); e_lab : option Z }.
(** PolygonsOnImage or LineStringsOnImage. [polys.py:1456-1458, lines.py:1692-1701] *)
Record poi := mkPoi { p_ents : list ent; p_shape : list Z }.

(** Python values as they can occur as inputs. [TSeq true] is a tuple,
    [TSeq false] a list; [TOther] is an instance of any other class (also of the
    other one of the two classes). *)
Inductive tv :=
| TNone | TNum (q : Q) | TArr (a : nd) | TKp (x y : Q) | TOne (e : ent)
| TOi (o : poi) | TSeq (tuple : bool) (l : list tv) | TOther.

(** * Constructors *)
(** np.allclose for one pair of numbers. [polys.py:141] *)
Definition close1 (ab : Q * Q) : bool :=
  qleb (Qabs (fst ab - snd ab)) ((1#100000000) + (1#100000) * Qabs (snd ab)).
(** polys.py:139-141. *)
Definition is_closed (pts : list (list Q)) : bool :=
  Nat.leb 2 (length pts) && forallb close1 (combine (hd [] pts) (last pts [])).
(** polys.py:142-143. *)
Definition open_ring (pts : list (list Q)) : list (list Q) :=
  if is_closed pts then removelast pts else pts.

(** The rows of a (N,2) array. [polys.py:128-133, lines.py:65-67] *)
Definition rows2 (a : nd) : option (list (list Q)) :=
  match n_shape a with
  | [n; m] => if m =? 2 then Some (groups (Z.to_nat n) 2 (n_flat a)) else None
  | _ => None
  end.
(** [point.x, point.y] of a Keypoint. [polys.py:117] *)
Definition kp_row (t : tv) : res (list Q) :=
  match t with TKp x y => Ok [x; y] | _ => Err GenericException end.
(** A number. [polys.py:122, lines.py:63] *)
Definition t_num (t : tv) : res Q := match t with TNum q => Ok q | _ => Err GenericException end.
(** [point[0], point[1]]. [polys.py:122] *)
Definition first_two (t : tv) : res (list Q) :=
  match t with
  | TSeq _ (a :: b :: _) => do x <- t_num a; do y <- t_num b; Ok [x; y]
  | TSeq _ _ => Err IndexError
  | _ => Err GenericException
  end.
(** [len(coords_i) == 2] and conversion. [lines.py:60-63] *)
Definition exactly_two (t : tv) : res (list Q) :=
  match t with
  | TSeq _ [a; b] => do x <- t_num a; do y <- t_num b; Ok [x; y]
  | TSeq _ _ => Err AssertionError
  | _ => Err TypeError_
  end.
(** Conversion to float32. [polys.py:117-133, lines.py:51-63] *)
Definition f32_pts (pts : list (list Q)) : list (list Q) := map (map f32c) pts.

(** polys.py:104-145 [Polygon.__init__]. *)
Definition make_polygon (t : tv) : res (list (list Q)) :=
  do pts <- match t with
            | TSeq false [] => Ok []
            | TSeq false ((TKp _ _ :: _) as l) => mapM kp_row l
            | TSeq false l => mapM first_two l
            | TArr a => match rows2 a with Some r => Ok r | None => Err AssertionError end
            | _ => Err AssertionError
            end;
  Ok (open_ring (f32_pts pts)).
(** lines.py:48-70 [LineString.__init__]. *)
Definition make_line (t : tv) : res (list (list Q)) :=
  do pts <- match t with
            | TSeq _ l => mapM exactly_two l
            | TArr a => match rows2 a with Some r => Ok r | None => Err AssertionError end
            | _ => Err TypeError_
            end;
  Ok (f32_pts pts).
(** [cls_single(points)]. [normalization.py:440, 460, 466, 469, 485, 493, 499, 518] *)
Definition make (c : pclass) (t : tv) : res ent :=
  do pts <- match c with CPoly => make_polygon t | CLine => make_line t end;
  Ok (mkEnt pts None).

(** * Estimating the type of an input *)
(** find_first_nonempty (normalization.py:1214-1254), as in NormModel. *)
Fixpoint find_first_t (attr : tv) (parents : list tv) {struct attr} : tv * bool * list tv :=
  match attr with
  | TSeq _ l =>
      (fix loop (l : list tv) (deepest : tv * bool * list tv) : tv * bool * list tv :=
         match l with
         | [] => deepest
         | attr_i :: l' =>
             let '(nonempty, success, found) := find_first_t attr_i (parents ++ [attr]) in
             if success then (nonempty, success, found)
             else if Nat.ltb (length (snd deepest)) (length found)
             then loop l' (nonempty, success, found) else loop l' deepest
         end) l (TNone, false, parents)
  | _ => (attr, true, parents)
  end.

(** The part of a type string after the leading "iterable-".
    [normalization.py:1257-1296] *)
Inductive tleaf := TLEmpty | TLTuple (n : nat) | TLNone | TLArr (k : kind) | TLKp | TLOne | TLOi | TLOther.
(** normalization.py:1275 [is_single_number]. *)
Definition is_tnum (t : tv) : bool := match t with TNum _ => true | _ => false end.

(** _nonempty_info_to_type_str (normalization.py:1257-1296): number of leading
    "iterable-" and the rest. *)
Definition type_of_t (info : tv * bool * list tv) : res (nat * tleaf) :=
  let '(nonempty, success, parents) := info in
  let n := length parents in
  if Nat.ltb 4 n then Err AssertionError
  else if negb success then Ok (n, TLEmpty)
  else
    let only_numbers := match last parents TNone with
                        | TSeq true l => if negb (Nat.eqb (length l) 0) && forallb is_tnum l then Some (length l) else None
                        | _ => None
                        end in
    match only_numbers with
    | Some k => Ok ((n - 1)%nat, TLTuple k)
    | None =>
        match nonempty with
        | TNone => Ok (O, TLNone)
        | TArr a => Ok (n, TLArr (kind_of (n_dt a)))
        | TKp _ _ => Ok (n, TLKp)
        | TOne _ => Ok (n, TLOne)
        | TOi _ => Ok (n, TLOi)
        | _ => Ok (n, TLOther)
        end
    end.
(** estimate_normalization_type (normalization.py:1186-1189). *)
Definition estimate_t (t : tv) : res (nat * tleaf) := type_of_t (find_first_t t []).

(** * Normalization *)
(** What normalization returns: a list of PolygonsOnImage or LineStringsOnImage,
    or None. [normalization.py:415-522] *)
Inductive pnorm := QOis (l : list poi) | QNone.

(** Reading the elements of a sequence. Elements of another type lead to some
    Python exception sooner or later. [normalization.py:415-522] *)
Definition t_seq (t : tv) : res (list tv) := match t with TSeq _ l => Ok l | _ => Err TypeError_ end.
(** normalization.py:447, 472, 505. *)
Definition t_one (t : tv) : res ent := match t with TOne e => Ok e | _ => Err TypeError_ end.
(** normalization.py:449, 474. *)
Definition t_oi (t : tv) : res poi := match t with TOi o => Ok o | _ => Err TypeError_ end.

(** The subarrays of an array: iterating over it. [normalization.py:438-444, 459-463] *)
Definition sub (a : nd) : list tv := map TArr (subarrays a).
(** Checks of the number of dimensions and of the last dimension: 63-69, 97-103
    (one array) and 72-94, 106-127 (many arrays) of normalization.py. *)
Definition dims_ok (ndim : nat) (a : nd) : bool :=
  Nat.eqb (length (n_shape a)) ndim && (last (n_shape a) 0 =? 2).
(** normalization.py:63-127. *)
Definition t_arr (ndim : nat) (t : tv) : res nd :=
  match t with TArr a => if dims_ok ndim a then Ok a else Err ValueError | _ => Err TypeError_ end.

(** [[cls_oi([cls_single(points) for points in attr_i], shape=shape) for attr_i,
    shape in zip(inputs, shapes)]]. [normalization.py:438-444, 459-463, 483-489, 516-522] *)
Definition many (c : pclass) (images : list (list tv)) (shapes : option (list (list Z))) : res pnorm :=
  do ss <- exactly (length images) shapes;
  do l <- mapM (fun p => do es <- mapM (make c) (fst p); Ok (mkPoi es (snd p))) (combine images ss);
  Ok (QOis l).

(** _normalize_polygons_and_line_strings (normalization.py:415-522); the types
    that are rejected (1152-1183) are those of the last case. *)
Definition pnormalize (c : pclass) (inputs : tv) (shapes : option (list (list Z))) : res pnorm :=
  do t <- estimate_t inputs;
  match t with
  | (O, TLNone) => Ok QNone
  | (O, TLArr k) =>
      if numeric k then do a <- t_arr 4 inputs; many c (map sub (subarrays a)) shapes
      else Err AssertionError
  | (O, TLOne) => do s <- one_shape shapes; do e <- t_one inputs; Ok (QOis [mkPoi [e] s])
  | (O, TLOi) => do o <- t_oi inputs; Ok (QOis [o])
  | (O, TLEmpty) => Ok QNone
  | (1%nat, TLArr k) =>
      if numeric k then do l <- t_seq inputs; do arrs <- mapM (t_arr 3) l; many c (map sub arrs) shapes
      else Err AssertionError
  | (1%nat, TLTuple 2) | (1%nat, TLKp) =>
      do s <- one_shape shapes; do e <- make c inputs; Ok (QOis [mkPoi [e] s])
  | (1%nat, TLOne) =>
      do s <- one_shape shapes; do l <- t_seq inputs; do es <- mapM t_one l; Ok (QOis [mkPoi es s])
  | (1%nat, TLOi) => do l <- t_seq inputs; do ois <- mapM t_oi l; Ok (QOis ois)
  | (1%nat, TLEmpty) => Ok QNone
  | (2%nat, TLArr k) =>
      if numeric k
      then do l <- t_seq inputs; do ls <- mapM t_seq l; do ls' <- mapM (mapM (t_arr 2)) ls;
           many c (map (map TArr) ls') shapes
      else Err AssertionError
  | (2%nat, TLTuple 2) | (2%nat, TLKp) =>
      do s <- one_shape shapes; do l <- t_seq inputs; do es <- mapM (make c) l; Ok (QOis [mkPoi es s])
  | (2%nat, TLOne) =>
      do l <- t_seq inputs; do ls <- mapM t_seq l; do es <- mapM (mapM t_one) ls;
      do ss <- exactly (length es) shapes;
      Ok (QOis (map (fun p => mkPoi (fst p) (snd p)) (combine es ss)))
  | (2%nat, TLEmpty) => Ok QNone
  | (3%nat, TLTuple 2) | (3%nat, TLKp) =>
      do l <- t_seq inputs; do ls <- mapM t_seq l; many c ls shapes
  | _ => Err AssertionError
  end.

(** * Inversion *)
(** normalization.py:892-1048. *)
Definition p_ois (n : pnorm) : res (list poi) := match n with QOis l => Ok l | QNone => Err TypeError_ end.
(** normalization.py:893, 925, 988. *)
Definition p_none (n : pnorm) : bool := match n with QNone => true | _ => false end.
(** [(point[0], point[1])]. [normalization.py:954, 1011, 1031] *)
Definition pt_tuple (p : list Q) : tv := TSeq true (map TNum p).
(** [Keypoint(x=point[0], y=point[1])]. [normalization.py:969, 1020, 1043] *)
Definition pt_kp (p : list Q) : tv := TKp (hd 0%Q p) (hd 0%Q (tl p)).
(** The dtype of the first non-empty array. [normalization.py:933, 997] *)
Definition first_dtype_t (old : tv) : res adt :=
  match find_first_t old [] with (TArr a, _, _) => Ok (n_dt a) | _ => Err GenericException end.

(** restore_dtype_and_merge (normalization.py:1192-1202) of one float32 array of points. *)
Definition restore_one (d : adt) (pts : list (list Q)) : res nd :=
  do l <- restore d pts; Ok (mkNd d [Z.of_nat (length pts); 2] l).
(** [len(set(shapes)) == 1], [np.array(arrs)]: a list of arrays of one shape
    becomes one array; other lists stay lists. [normalization.py:1196-1198] *)
Definition merge (d : adt) (arrs : list nd) : option nd :=
  match arrs with
  | [] => None
  | a :: _ =>
      if forallb (fun b => Nat.eqb (length (n_shape b)) (length (n_shape a)) &&
                           forallb (fun p => fst p =? snd p) (combine (n_shape b) (n_shape a))) arrs
      then Some (mkNd d (Z.of_nat (length arrs) :: n_shape a) (concat (map n_flat arrs)))
      else None
  end.
(** restore_dtype_and_merge of the points of the entities of one image.
    [normalization.py:936-938] *)
Definition restore_image (d : adt) (o : poi) : res tv :=
  do arrs <- mapM (fun e => restore_one d (e_pts e)) (p_ents o);
  match merge d arrs with Some a => Ok (TArr a) | None => Ok (TSeq false (map TArr arrs)) end.
(** The same for all images: [arr_i.shape] fails for lists. [normalization.py:900-903, 1196] *)
Definition restore_images (d : adt) (ois : list poi) : res tv :=
  do l <- mapM (restore_image d) ois;
  do arrs <- mapM (fun t => match t with TArr a => Ok a | _ => Err GenericException end) l;
  match merge d arrs with Some a => Ok (TArr a) | None => Ok (TSeq false (map TArr arrs)) end.

(** _invert_normalize_polygons_and_line_strings (normalization.py:882-1048). *)
Definition pinvert (n : pnorm) (old : tv) : res tv :=
  do t <- estimate_t old;
  match t with
  | (O, TLNone) => if p_none n then Ok TNone else Err AssertionError
  | (O, TLArr k) =>
      if numeric k
      then do ois <- p_ois n;
           match old with TArr a => restore_images (n_dt a) ois | _ => Err GenericException end
      else Err AssertionError
  | (O, TLOne) =>
      do ois <- p_ois n; do o <- the_one ois; do e <- the_one (p_ents o); Ok (TOne e)
  | (O, TLOi) => do ois <- p_ois n; do o <- the_one ois; Ok (TOi o)
  | (O, TLEmpty) => if p_none n then Ok (TSeq false []) else Err AssertionError
  | (1%nat, TLArr k) =>
      if numeric k
      then do ois <- p_ois n; do d <- first_dtype_t old; do l <- mapM (restore_image d) ois; Ok (TSeq false l)
      else Err AssertionError
  | (1%nat, TLTuple 2) =>
      do ois <- p_ois n; do o <- the_one ois; do e <- the_one (p_ents o); Ok (TSeq false (map pt_tuple (e_pts e)))
  | (1%nat, TLKp) =>
      do ois <- p_ois n; do o <- the_one ois; do e <- the_one (p_ents o); Ok (TSeq false (map pt_kp (e_pts e)))
  | (1%nat, TLOne) =>
      do ois <- p_ois n; do o <- the_one ois; do l <- t_seq old;
      if Nat.eqb (length (p_ents o)) (length l) then Ok (TSeq false (map TOne (p_ents o))) else Err AssertionError
  | (1%nat, TLOi) => do ois <- p_ois n; Ok (TSeq false (map TOi ois))
  | (1%nat, TLEmpty) => if p_none n then Ok old else Err AssertionError
  | (2%nat, TLArr k) =>
      if numeric k
      then do ois <- p_ois n; do d <- first_dtype_t old;
           do l <- mapM (fun o => do arrs <- mapM (fun e => restore_one d (e_pts e)) (p_ents o);
                                  Ok (TSeq false (map TArr arrs))) ois;
           Ok (TSeq false l)
      else Err AssertionError
  | (2%nat, TLTuple 2) =>
      do ois <- p_ois n; do o <- the_one ois;
      Ok (TSeq false (map (fun e => TSeq false (map pt_tuple (e_pts e))) (p_ents o)))
  | (2%nat, TLKp) =>
      do ois <- p_ois n; do o <- the_one ois;
      Ok (TSeq false (map (fun e => TSeq false (map pt_kp (e_pts e))) (p_ents o)))
  | (2%nat, TLOne) => do ois <- p_ois n; Ok (TSeq false (map (fun o => TSeq false (map TOne (p_ents o))) ois))
  | (2%nat, TLEmpty) => Ok old
  | (3%nat, TLTuple 2) =>
      do ois <- p_ois n;
      Ok (TSeq false (map (fun o => TSeq false (map (fun e => TSeq false (map pt_tuple (e_pts e))) (p_ents o))) ois))
  | (3%nat, TLKp) =>
      do ois <- p_ois n;
      Ok (TSeq false (map (fun o => TSeq false (map (fun e => TSeq false (map pt_kp (e_pts e))) (p_ents o))) ois))
  | _ => Err AssertionError
  end.
