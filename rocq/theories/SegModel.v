(** Model of imgaug/augmenters/segmentation.py: replacement of segments by their
    average color, Voronoi cells, the point samplers, Voronoi and Superpixels.
    No proofs here. *)
From Verif Require Import Prelude GeoModel UtilModel KeepModel.

(* ------------------------------------------------------------------ *)
(** * Replacement of segments *)

(** The classes of dtypes distinguished by the code: uint8 and int8 (numba), bool,
    the other integer dtypes. [segmentation.py:378-386] *)
Inductive dkind := D8 | DBool | DInt.

(** All (y, x) of an image, row by row. [segmentation.py:446-447] *)
Definition positions (h w : Z) : list (Z * Z) :=
  flat_map (fun y => map (fun x => (y, x)) (zrange w)) (zrange h).

(** [a[i]] of a one-dimensional array of flags. [segmentation.py:404, 443, 476] *)
Definition flag_at (fl : list bool) (i : Z) : bool :=
  nth (Z.to_nat (i mod Z.of_nat (length fl))) fl false.

(** Insertion into a sorted list without duplicates, for [np.unique]. [segmentation.py:400] *)
Fixpoint insert_unique (v : Z) (l : list Z) : list Z :=
  match l with
  | [] => [v]
  | u :: l' => if v <? u then v :: l else if v =? u then l else u :: insert_unique v l'
  end.
(** [np.unique(segments)]: the sorted values without duplicates. [segmentation.py:400] *)
Definition np_unique (l : list Z) : list Z := fold_right insert_unique [] l.

(** Storing an average in an array: conversion to an integer dtype truncates,
    conversion to bool gives True for everything but zero.
    [segmentation.py:408, 459] *)
Definition store_mean (k : dkind) (total n : Z) : Z :=
  match k with
  | DBool => if total =? 0 then 0 else 1
  | _ => Z.quot total n
  end.

(** [image[mask] = mean_color] with [mask = (segments == seg_id)], one channel.
    The sums of float64 are taken as exact. [segmentation.py:405-408] *)
Definition replace_one (k : dkind) (seg : arr Z) (im : arr Z) (id : Z) : arr Z :=
  let ps := filter (fun p => apx seg (fst p) (snd p) =? id) (positions (ah im) (aw im)) in
  let total := fold_left Z.add (map (fun p => apx im (fst p) (snd p)) ps) 0 in
  mkArr (ah im) (aw im)
    (fun y x => if apx seg y x =? id then store_mean k total (Z.of_nat (length ps)) else apx im y x).

(** segmentation.py:399-409 [_replace_segments_np_], one channel. An empty array
    of flags fails at [i % 0]. *)
Definition replace_np (k : dkind) (im seg : arr Z) (flags : option (list bool)) : res (arr Z) :=
  let ids := np_unique (map (fun p => apx seg (fst p) (snd p)) (positions (ah im) (aw im))) in
  let fl := match flags with None => repeat true (length ids) | Some f => f end in
  match fl with
  | [] => Err GenericException
  | _ => Ok (fold_left (fun a ii => if flag_at fl (Z.of_nat (fst ii)) then replace_one k seg a (snd ii) else a)
               (combine (seq 0 (length ids)) ids) im)
  end.

(** [average_colors] and [counters]. [segmentation.py:438-441] *)
Record acc := mkAcc { a_sum : Z -> Z; a_cnt : Z -> Z }.
(** [arr[i] += v]. [segmentation.py:453-454] *)
Definition bump (f : Z -> Z) (i v : Z) : Z -> Z := fun j => if j =? i then f j + v else f j.

(** segmentation.py:432-460 [_replace_segments_numba_collect_avg_colors], one
    channel; ids are assumed to be at least 0. int32 counters do not overflow. *)
Definition collect_avg (im seg : arr Z) (fl : list bool) (nb : Z) : Z -> Z :=
  let st0 := mkAcc (fun _ => 0) (fun id => if (0 <=? id) && (id <? nb) && negb (flag_at fl id) then -1 else 0) in
  let st := fold_left (fun st p =>
      let id := apx seg (fst p) (snd p) in
      if a_cnt st id =? -1 then st
      else mkAcc (bump (a_sum st) id (apx im (fst p) (snd p))) (bump (a_cnt st) id 1))
    (positions (ah im) (aw im)) st0 in
  fun id => Z.quot (a_sum st id) (Z.max (a_cnt st id) 1).

(** segmentation.py:464-478 [_replace_segments_numba_apply_avg_cols_]. *)
Definition apply_avg (im seg : arr Z) (fl : list bool) (avg : Z -> Z) : arr Z :=
  mkArr (ah im) (aw im)
    (fun y x => let id := apx seg y x in if flag_at fl id then avg id else apx im y x).

(** segmentation.py:412-429 [_replace_segments_numba_dispatcher_]. *)
Definition replace_numba (im seg : arr Z) (flags : option (list bool)) (nb : Z) : arr Z :=
  let fl := match flags with None => repeat true (Z.to_nat nb) | Some f => f end in
  match flags with
  | Some f => if existsb (fun b => b) (firstn (Z.to_nat nb) f)
              then apply_avg im seg fl (collect_avg im seg fl nb) else im
  | None => apply_avg im seg fl (collect_avg im seg fl nb)
  end.

(** [np.max(segments)]. [segmentation.py:387] *)
Definition seg_max (h w : Z) (seg : arr Z) : Z :=
  fold_left Z.max (map (fun p => apx seg (fst p) (snd p)) (positions h w)) 0.

(** segmentation.py:317-396 [replace_segments_], one of [nc] channels; [numba]:
    is numba installed? *)
Definition replace_segments (numba : bool) (k : dkind) (nc : Z) (im seg : arr Z)
  (flags : option (list bool)) : res (arr Z) :=
  if (ah im =? 0) || (aw im =? 0) || (nc =? 0) then Ok im
  else
    match k, numba with
    | D8, true => Ok (replace_numba im seg flags (1 + seg_max (ah im) (aw im) seg))
    | _, _ => replace_np k im seg flags
    end.

(* ------------------------------------------------------------------ *)
(** * Voronoi cells *)

Section Cells.
(** cKDTree(cells).query(p)[1]: the index of a nearest cell (external; which of
    several nearest cells is returned is left open). *)
Variable kd_query : list point -> point -> nat.

(** segmentation.py:569-571 [_generate_pixel_coords]: (x, y) of all pixels. *)
Definition pixel_coords (h w : Z) : list (Z * Z) :=
  flat_map (fun y => map (fun x => (x, y)) (zrange w)) (zrange h).

(** segmentation.py:559-566 [_match_pixels_with_voronoi_cells]. *)
Definition match_pixels (h w : Z) (cells : list point) : list Z :=
  map (fun p => Z.of_nat (kd_query cells (inject_Z (fst p) + (1#2), inject_Z (snd p) + (1#2))%Q))
      (pixel_coords h w).

(** [ids.reshape((h, w))]. [segmentation.py:548] *)
Definition reshape2 (h w : Z) (l : list Z) : arr Z :=
  mkArr h w (fun y x => nth (Z.to_nat (y * w + x)) l 0).

(** segmentation.py:482-556 [segment_voronoi]. *)
Definition segment_voronoi (numba : bool) (k : dkind) (nc : Z) (im : arr Z) (cells : list point)
  (mask : option (list bool)) : res (arr Z) :=
  match cells with
  | [] => Ok im
  | _ => replace_segments numba k nc im
           (reshape2 (ah im) (aw im) (match_pixels (ah im) (aw im) cells)) mask
  end.
End Cells.

(* ------------------------------------------------------------------ *)
(** * Point samplers *)

(** The images given to [sample_points]: a list of arrays (ndim, shape) or one
    array (ndim, number of images, shape of each). [segmentation.py:1273-1290] *)
Inductive pimages :=
| PList (l : list (Z * shape2))
| PArray (ndim : Z) (n : nat) (s : shape2).

(** [image.shape[0:2]] of the images. [segmentation.py:1273-1290] *)
Definition pshapes (p : pimages) : list shape2 :=
  match p with PList l => map snd l | PArray _ n s => repeat s n end.

(** segmentation.py:1273-1290 [_verify_sample_points_images]. *)
Definition verify_images (p : pimages) : res unit :=
  match pshapes p with
  | [] => Err AssertionError
  | _ =>
    match p with
    | PList l => if forallb (fun i => fst i =? 3) l then Ok tt else Err AssertionError
    | PArray nd _ _ => if nd =? 4 then Ok tt else Err AssertionError
    end
  end.

(** segmentation.py:1366-1380 [_clip_rows_and_cols] for one image and one axis. *)
Definition clip_count (n size : Z) : Z := Z.max (Z.min n size) 1.

(** [np.linspace(start, end, num=n)] for [n >= 2]. [segmentation.py:1401, 1409] *)
Definition linspace (a b : Q) (n : Z) : list Q :=
  map (fun i => (a + inject_Z i * ((b - a) / inject_Z (n - 1)))%Q) (zrange n).

(** segmentation.py:1395-1401 and 1403-1409: the coordinates along one axis. *)
Definition grid_axis (size n : Z) : list Q :=
  let spacing := (inject_Z size / inject_Z n)%Q in
  let start := (0 + spacing / 2)%Q in
  let stop := (inject_Z size - spacing / 2)%Q in
  if qleb (start - (1#10000)) stop && qleb stop (start + (1#10000)) then [start]
  else linspace start stop n.

(** segmentation.py:1389-1413 [_generate_point_grid]: (x, y), row by row. *)
Definition point_grid (s : shape2) (n_rows n_cols : Z) : list point :=
  let yy := grid_axis (fst s) n_rows in
  let xx := grid_axis (snd s) n_cols in
  flat_map (fun y => map (fun x => (x, y)) xx) yy.

(** The argument [p_drop] of DropoutPointsSampler: a number, an iterable, a
    StochasticParameter, something else. [segmentation.py:1571-1597] *)
Inductive pdrop := DropNum (p : Q) | DropIter (l : list Q) | DropParam | DropOther.
(** What is stored: Binomial(p), Binomial(Uniform(a, b)), the parameter itself.
    [segmentation.py:1571-1597] *)
Inductive pkeep := KeepBinom (p : Q) | KeepBinomUniform (a b : Q) | KeepParam.

(** segmentation.py:1570-1597 [_convert_p_drop_to_inverted_mask_param]. *)
Definition convert_p_drop (p : pdrop) : res pkeep :=
  match p with
  | DropNum q => Ok (KeepBinom (1 - q))
  | DropIter l =>
      match l with
      | [a; b] =>
          if negb (qltb a b) then Err AssertionError
          else if negb (qleb 0 a && qleb a 1 && (qleb 0 b && qleb b 1)) then Err AssertionError
          else Ok (KeepBinomUniform (1 - b) (1 - a))
      | _ => Err AssertionError
      end
  | DropParam => Ok KeepParam
  | DropOther => Err GenericException
  end.

(** The middle index chosen if all points are dropped. [segmentation.py:1633] *)
Definition middle {A} (l : list A) : Z := (Z.of_nat (length l) - 1) / 2.

(** [a[mask, :]]. [segmentation.py:1636] *)
Fixpoint select {A} (l : list A) (mask : list bool) : list A :=
  match l, mask with
  | a :: l', true :: m' => a :: select l' m'
  | _ :: l', false :: m' => select l' m'
  | _, _ => []
  end.

(** [mask[i] = True]. [segmentation.py:1635] *)
Fixpoint set_true (i : nat) (mask : list bool) : list bool :=
  match mask, i with
  | [], _ => []
  | _ :: m, O => true :: m
  | b :: m, S j => b :: set_true j m
  end.

(** segmentation.py:1621-1638 [_apply_dropout_masks] for one image. *)
Definition apply_dropout (pts : list point) (keep : list bool) : list point :=
  match pts with
  | [] => pts
  | _ =>
      let keep := if existsb (fun b => b) keep then keep
                  else set_true (Z.to_nat (middle pts)) keep in
      select pts keep
  end.

(** segmentation.py:1706-1720 [_convert_relative_coords_to_absolute]. The last
    argument is [i]. *)
Fixpoint rel_to_abs (rel : list (Q * Q)) (todo : list (shape2 * Z)) (i : Z) : list (list point) :=
  match todo with
  | [] => []
  | (s, n) :: todo' =>
      let part := firstn (Z.to_nat n) (skipn (Z.to_nat i) rel) in
      map (fun c => (inject_Z (zclip (np_round (fst c * inject_Z (snd s))) 0 (snd s)),
                     inject_Z (zclip (np_round (snd c * inject_Z (fst s))) 0 (fst s))))
          part :: rel_to_abs rel todo' (i + n)
  end.

(** [coords.reshape(n, 2)]. [segmentation.py:1694] *)
Fixpoint pairs (l : list Q) : list (Q * Q) :=
  match l with
  | a :: b :: l' => (a, b) :: pairs l'
  | _ => []
  end.

(** segmentation.py:1769: [np.clip(n_points_max, -1, None)]. *)
Definition clip_max (n : Z) : Z := Z.max n (-1).

(** segmentation.py:1787-1792 [_subsample]; [perm] is the permutation of the
    indices drawn at random. *)
Definition subsample (pts : list point) (n_max : Z) (perm : list nat) : list point :=
  if Z.of_nat (length pts) <=? n_max then pts
  else map (fun i => nth i pts (0, 0)%Q)
         (firstn (Z.to_nat (py_slice_bound (Z.of_nat (length perm)) n_max)) perm).

Section Samplers.
(** Random number generators (external): the state with which [duplicate(n)[i]]
    is used, uniform samples, permutations. *)
Variable rng : Type.
Variable child : rng -> Z -> rng.
Variable uniforms : rng -> nat -> list Q.
Variable permutation : rng -> nat -> list nat.
(** [Binomial(...).draw_samples((n,), rng) > 0.5] and the same for a
    StochasticParameter. *)
Variable keep_draw : pkeep -> rng -> nat -> list bool.

(** The point samplers; discrete and continuous parameters are given by their
    [draw_samples]. [segmentation.py:1293-1800] *)
Inductive sampler :=
| SGrid (n_rows n_cols : rng -> nat -> list Z)
| SRel (rows_frac cols_frac : rng -> nat -> list Q)
| SDropout (other : sampler) (p : pkeep)
| SUniform (n_points : rng -> nat -> list Z)
| SSub (other : sampler) (n_max : Z).

(** segmentation.py:1357-1363 and 1383-1387: [_draw_samples] and
    [_generate_point_grids]. *)
Definition grids (shapes : list shape2) (rows cols : list Z) : list (list point) :=
  map (fun q => let '(s, (r, c)) := q in point_grid s (clip_count r (fst s)) (clip_count c (snd s)))
      (combine shapes (combine rows cols)).

(** segmentation.py:1494-1509: the numbers of rows and columns before clipping. *)
Definition rel_counts (fracs : list Q) (sizes : list Z) : list Z :=
  map (fun fs => np_round (fst fs * inject_Z (snd fs))) (combine fracs sizes).

(** [sample_points] of the samplers: segmentation.py 1350-1355, 1485-1492,
    1599-1619, 1684-1704, 1775-1784. *)
Fixpoint sample_points (s : sampler) (images : pimages) (r : rng) : res (list (list point)) :=
  do _ <- verify_images images;
  let shapes := pshapes images in
  let n := length shapes in
  match s with
  | SGrid rows cols => Ok (grids shapes (rows (child r 0) n) (cols (child r 1) n))
  | SRel rows cols =>
      Ok (grids shapes (rel_counts (rows (child r 0) n) (map fst shapes))
                       (rel_counts (cols (child r 1) n) (map snd shapes)))
  | SDropout other p =>
      do pts <- sample_points other images (child r 0);
      Ok (map (fun q => apply_dropout (snd q) (keep_draw p (child (child r 1) (fst q)) (length (snd q))))
              (combine (zrange (Z.of_nat (length pts))) pts))
  | SUniform n_points =>
      let counts := map (fun k => Z.max k 1) (n_points (child r 0) n) in
      let total := fold_right Z.add 0 counts in
      let rel := pairs (uniforms (child r 1) (Z.to_nat (2 * total))) in
      Ok (rel_to_abs rel (combine shapes counts) 0)
  | SSub other n_max =>
      do pts <- sample_points other images (child r (Z.of_nat n));
      Ok (map (fun q => subsample (snd q) (clip_max n_max) (permutation (child r (fst q)) (length (snd q))))
              (combine (zrange (Z.of_nat (length pts))) pts))
  end.
End Samplers.

(* ------------------------------------------------------------------ *)
(** * Voronoi and Superpixels *)

(** segmentation.py:42-73 [_ensure_image_max_size]: the new shape. The product
    with the factor is taken as exact. *)
Definition max_size_shape (s : shape2) (max_size : Z) : shape2 :=
  let size := Z.max (fst s) (snd s) in
  let f := (inject_Z max_size / inject_Z size)%Q in
  (py_int (inject_Z (fst s) * f), py_int (inject_Z (snd s) * f)).

Section Augmenters.
(** cv2.resize (external). *)
Variable cv2_resize : option ipv -> shape2 -> arr Z -> Z -> Z -> Z.
(** See above. *)
Variable kd_query : list point -> point -> nat.
(** skimage.segmentation.slic: the map of segments that was returned when asked
    for [n] segments on an image of the given shape (external). *)
Variable slic : shape2 -> Z -> arr Z.

(** segmentation.py:42-73 [_ensure_image_max_size]. *)
Definition ensure_max_size (m : img) (max_size : option Z) (ip : ipv) : res img :=
  match max_size with
  | None => Ok m
  | Some ms =>
      if Z.max (fst (i_shape m)) (snd (i_shape m)) >? ms
      then imresize cv2_resize m (max_size_shape (i_shape m) ms) (Some ip)
      else Ok m
  end.

(** segmentation.py:735-740 and 294-298: back to the original shape. *)
Definition back_to (m : img) (orig : shape2 * Z) (ip : ipv) : res img :=
  if shape2_eqb (i_shape m) (fst orig) && (i_nc m =? snd orig) then Ok m
  else imresize cv2_resize m (fst orig) (Some ip).

(** segmentation.py:733-755 [Voronoi._augment_single_image], uint8 images. The
    points and the flags drawn are functions of the shape and of the number of
    points. *)
Definition voronoi_image (numba : bool) (max_size : option Z) (ip : ipv)
  (points : shape2 -> res (list point)) (flags : nat -> list bool) (m : img) : res img :=
  do m1 <- ensure_max_size m max_size ip;
  do cells <- points (i_shape m1);
  do px <- segment_voronoi kd_query numba D8 (i_nc m1) (i_px m1) cells (Some (flags (length cells)));
  back_to (mkImg (i_int32 m1) (i_nc m1) px) (i_shape3 m) ip.

(** segmentation.py:252-299: one image in [Superpixels._augment_batch_].
    [n]: the sample of [n_segments]; [samples n]: the [n] samples of [p_replace]. *)
Definition superpixels_image (numba : bool) (k : dkind) (max_size : option Z) (ip : ipv)
  (n : Z) (samples : nat -> list Q) (m : img) : res img :=
  let n := Z.max n 1 in
  if (ah (i_px m) =? 0) || (aw (i_px m) =? 0) || (i_nc m =? 0) then Ok m
  else
    let ss := samples (Z.to_nat n) in
    if forallb (fun q => qleb q 0) ss && existsb (fun q => qeqb q 0) ss then Ok m
    else
      do m1 <- ensure_max_size m max_size ip;
      do px <- replace_segments numba k (i_nc m1) (i_px m1) (slic (i_shape m1) n)
                 (Some (map (fun q => qltb (1#2) q) ss));
      back_to (mkImg (i_int32 m1) (i_nc m1) px) (i_shape3 m) ip.
End Augmenters.
