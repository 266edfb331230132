(** Model of KeepSizeByResize (imgaug/augmenters/size.py 4575-4923) and of the
    pooling augmenters (imgaug/augmenters/pooling.py 25-690). No proofs here. *)
From Coq Require Import String.
From Verif Require Import Prelude GeoModel SizeModel UtilModel.
Import ListNotations.

(* ------------------------------------------------------------------ *)
(** * Interpolation parameters *)

(** An interpolation method: a string or one of the integers of cv2
    (INTER_NEAREST = 0, INTER_LINEAR = 1, INTER_CUBIC = 2, INTER_AREA = 3).
    [imgaug.py:45-47, IMRESIZE_VALID_INTERPOLATIONS] *)
Inductive ipv := IS (s : string) | IN (n : Z).

(** [==] of two such values. [size.py:4700-4712] *)
Definition ipv_eqb (a b : ipv) : bool :=
  match a, b with
  | IS s, IS t => String.eqb s t
  | IN m, IN n => m =? n
  | _, _ => false
  end.

(** [v in l]. [size.py:4700-4712] *)
Definition ip_in (v : ipv) (l : list ipv) : bool := existsb (ipv_eqb v) l.

(** imgaug.py:45-47 [IMRESIZE_VALID_INTERPOLATIONS]. *)
Definition valid_ips : list ipv :=
  [IS "nearest"; IS "linear"; IS "area"; IS "cubic"; IN 0; IN 1; IN 3; IN 2].

(** size.py:4683-4684. *)
Definition no_resize : ipv := IS "NO_RESIZE".
(** size.py:4684. *)
Definition same_as_images : ipv := IS "SAME_AS_IMAGES".

(** The forms of the argument in size.py:4696-4722: a value, a list, something
    else that is not a StochasticParameter (StochasticParameters given by the
    user are not modelled). *)
Inductive iparg := AVal (v : ipv) | AList (vs : list ipv) | AOther.
(** What is stored: SAME_AS_IMAGES, Deterministic(v), Choice(vs). [size.py:4696-4722] *)
Inductive ipparam := PSame | PDet (v : ipv) | PChoice (vs : list ipv).

(** size.py:4696-4722 [_validate_param]. *)
Definition validate_param (a : iparg) (allow_same : bool) : res ipparam :=
  let valid := valid_ips ++ [no_resize] in
  match a with
  | AVal v =>
      if allow_same && ipv_eqb v same_as_images then Ok PSame
      else if ip_in v valid then Ok (PDet v)
      else Err GenericException
  | AList vs =>
      match vs with
      | [] => Err AssertionError
      | _ => let valid' := if allow_same then valid ++ [same_as_images] else valid in
             if forallb (fun v => ip_in v valid') vs then Ok (PChoice vs) else Err AssertionError
      end
  | AOther => Err GenericException
  end.

(** Conversion of a component to a string, done by numpy when an integer is put
    into an array of strings; only the four valid integers occur. *)
Definition to_str (v : ipv) : ipv :=
  match v with
  | IS s => IS s
  | IN n => IS (if n =? 0 then "0"%string else if n =? 1 then "1"%string else if n =? 2 then "2"%string else "3"%string)
  end.

(** [np.array(vs)] in Choice: an array of strings if one of the values is a string. *)
Definition np_array (vs : list ipv) : list ipv :=
  if existsb (fun v => match v with IS _ => true | IN _ => false end) vs then map to_str vs else vs.

(** Deterministic.draw_samples, Choice.draw_samples (parameters.py 975-1002, 1129-1165)
    with shape (n,); the index chosen for every row is the random input [ix]. *)
Definition draw_ips (p : ipparam) (n : nat) (ix : nat -> nat) : list ipv :=
  match p with
  | PSame => []
  | PDet v => repeat v n
  | PChoice vs => map (fun i => nth (ix i mod length vs) (np_array vs) no_resize) (seq 0 n)
  end.

(** size.py:4855-4871 and 4873-4891: the interpolations of the maps. Where
    SAME_AS_IMAGES was drawn the array consists of strings and the assignment
    converts the value of the image to a string. *)
Definition draw_map_ips (p : ipparam) (ips : list ipv) (n : nat) (ix : nat -> nat) : list ipv :=
  match p with
  | PSame => ips
  | _ => map (fun vw => if ipv_eqb (fst vw) same_as_images then to_str (snd vw) else fst vw)
             (combine (draw_ips p n ix) ips)
  end.

(** size.py:4849-4893 [_draw_samples]. *)
Definition draw_samples (p ph ps : ipparam) (n : nat) (ix ixh ixs : nat -> nat)
  : list ipv * list ipv * list ipv :=
  let ips := draw_ips p n ix in
  (ips, draw_map_ips ph ips n ixh, draw_map_ips ps ips n ixs).

(* ------------------------------------------------------------------ *)
(** * Images, maps and resizing *)

(** An image: whether its dtype is int32, its number of channels and one of its
    channels (resizing and pooling treat all channels alike). *)
Record img := mkImg { i_int32 : bool; i_nc : Z; i_px : arr Z }.
(** [image.shape[0:2]]. [size.py:4790] *)
Definition i_shape (m : img) : shape2 := (ah (i_px m), aw (i_px m)).
(** [image.shape]. [size.py:4795] *)
Definition i_shape3 (m : img) : shape2 * Z := (i_shape m, i_nc m).

(** imgaug.py:1059-1060. *)
Definition is_nearest (v : ipv) : bool := ipv_eqb v (IS "nearest") || ipv_eqb v (IN 0).

Section Resize.
(** cv2.resize: the values of the resized channel (external). *)
Variable cv2_resize : option ipv -> shape2 -> arr Z -> Z -> Z -> Z.

(** imgaug.py:1138-1181 [imresize_single_image] and 930-1130
    [imresize_many_images] for a target size of two integers. Of the unsupported
    dtypes only int32 is modelled: it can only be resized by nearest neighbour. *)
Definition imresize (m : img) (size : shape2) (ip : option ipv) : res img :=
  let '(th, tw) := size in
  let '(h, w) := i_shape m in
  if (th <? 0) || (tw <? 0) then Err AssertionError
  else if (th =? h) && (tw =? w) then Ok m
  else if (th =? 0) || (tw =? 0) || (i_nc m =? 0) then
    Ok (mkImg (i_int32 m) (i_nc m) (mkArr th tw (fun _ _ => 0)))
  else if (h =? 0) || (w =? 0) then Err AssertionError
  else if negb (match ip with None => true | Some v => ip_in v valid_ips end) then Err AssertionError
  else if i_int32 m && negb (match ip with None => false | Some v => is_nearest v end) then Err ValueError
  else Ok (mkImg (i_int32 m) (i_nc m) (mkArr th tw (cv2_resize ip size (i_px m)))).

(** A heatmap or segmentation map: the array and the attribute [shape] (first
    two components). [heatmaps.py:43-94, segmaps.py:56-150] *)
Record mapoi := mkMapoi { mo_arr : img; mo_shape : shape2 }.

(** heatmaps.py:446-477 and segmaps.py:481-504 [resize]. Clipping of the values
    of heatmaps belongs to [cv2_resize]. *)
Definition map_resize (m : mapoi) (size : shape2) (ip : option ipv) : res mapoi :=
  do a <- imresize (mo_arr m) size ip;
  Ok (mkMapoi a (mo_shape m)).

(** A batch in augmentation; [b_array]: the images are given as one array. Other
    coordinate-based augmentables are processed as keypoints (C21). [batches.py:684-698] *)
Record kbatch := mkKb {
  b_array : bool;
  b_images : option (list img);
  b_heatmaps : option (list mapoi);
  b_segmaps : option (list mapoi);
  b_keypoints : option (list kpsoi)
}.

(** [nb_rows] (batches.py 699-717): the length of the first column. *)
Definition nb_rows (b : kbatch) : nat :=
  match b_images b, b_heatmaps b, b_segmaps b, b_keypoints b with
  | Some l, _, _, _ => length l
  | None, Some l, _, _ => length l
  | None, None, Some l, _ => length l
  | None, None, None, Some l => length l
  | None, None, None, None => 0%nat
  end.

(* ------------------------------------------------------------------ *)
(** * KeepSizeByResize *)

(** One row of size.py:4783-4791. *)
Definition keep_image (r : img * ipv * shape2) : res img :=
  let '(im, ip, s) := r in
  if ipv_eqb ip no_resize then Ok im else imresize im s (Some ip).

(** size.py:4793-4798: is the result one array? *)
Definition one_shape (l : list img) : bool :=
  match l with
  | [] => false
  | m :: l' => forallb (fun m' => shape2_eqb (i_shape m) (i_shape m') && (i_nc m =? i_nc m')) l'
  end.

(** size.py:4777-4800 [_keep_size_images]: array or not, and the images. *)
Definition keep_images (ims : list img) (shapes : list shape2) (were_array : bool) (ips : list ipv)
  : res (bool * list img) :=
  do r <- mapM keep_image (combine (combine ims ips) shapes);
  Ok (were_array && one_shape r, r).

(** One row of size.py:4808-4816. *)
Definition keep_map (r : mapoi * ipv * shape2 * shape2) : res mapoi :=
  let '(m, ip, arr_shape, img_shape) := r in
  if ipv_eqb ip no_resize then Ok m
  else do m' <- map_resize m arr_shape (Some ip);
       Ok (mkMapoi (mo_arr m') img_shape).

(** size.py:4803-4818 [_keep_size_maps]. *)
Definition keep_maps (ms : list mapoi) (img_shapes arr_shapes : list shape2) (ips : list ipv) : res (list mapoi) :=
  mapM keep_map (combine (combine (combine ms ips) arr_shapes) img_shapes).

(** One row of size.py:4824-4829. *)
Definition keep_kps (r : kpsoi * ipv * shape2) : res kpsoi :=
  let '(k, ip, s) := r in
  if ipv_eqb ip no_resize then Ok k else kpsoi_on k s.

(** size.py:4821-4831 [_keep_size_keypoints]. *)
Definition keep_keypoints (ks : list kpsoi) (shapes : list shape2) (ips : list ipv) : res (list kpsoi) :=
  mapM keep_kps (combine (combine ks ips) shapes).

(** A column that may be None. [size.py:4737-4766] *)
Definition on_col {A B} (f : A -> res B) (o : option A) : res (option B) :=
  match o with None => Ok None | Some a => do b <- f a; Ok (Some b) end.

(** The shapes of a column before the children; a column that appears only
    afterwards raises KeyError. [size.py:4834-4847, _get_shapes] *)
Definition shapes_of {A} (shape : A -> shape2) (o : option (list A)) : res (list shape2) :=
  match o with None => Err KeyError_ | Some l => Ok (map shape l) end.

(** size.py:4725-4764 [_augment_batch_]; [child] is the child's augment_batch_,
    [ix], [ixh], [ixs] are the random choices. *)
Definition keep_size (p ph ps : ipparam) (ix ixh ixs : nat -> nat) (child : kbatch -> res kbatch) (b : kbatch) : res kbatch :=
  let '(ips, iph, ipsg) := draw_samples p ph ps (nb_rows b) ix ixh ixs in
  do c <- child b;
  do ims <- on_col (fun l => do s <- shapes_of i_shape (b_images b); keep_images l s (b_array b) ips) (b_images c);
  do hms <- on_col (fun l => do s <- shapes_of mo_shape (b_heatmaps b);
                             do s' <- shapes_of (fun m => i_shape (mo_arr m)) (b_heatmaps b);
                             keep_maps l s s' iph) (b_heatmaps c);
  do sms <- on_col (fun l => do s <- shapes_of mo_shape (b_segmaps b);
                             do s' <- shapes_of (fun m => i_shape (mo_arr m)) (b_segmaps b);
                             keep_maps l s s' ipsg) (b_segmaps c);
  do ks <- on_col (fun l => do s <- shapes_of kps_shape (b_keypoints b); keep_keypoints l s ips) (b_keypoints c);
  Ok (mkKb (match ims with Some (a, _) => a | None => false end) (option_map snd ims) hms sms ks).

(* ------------------------------------------------------------------ *)
(** * Pooling augmenters *)

(** pooling.py:25-40 [_compute_shape_after_pooling]; [nc]: number of channels in
    the shape (1 if the shape has two components). *)
Definition shape_after_pooling (s : shape2) (nc : Z) (kh kw : Z) : shape2 :=
  let '(h, w) := s in
  if (h =? 0) || (w =? 0) || (nc =? 0) then s
  else
    let h := if 0 <? h mod kh then h + (kh - h mod kh) else h in
    let w := if 0 <? w mod kw then w + (kw - w mod kw) else w in
    (h / kh, w / kw).

(** pooling.py:65-80 [_draw_samples]; [hs], [ws] are the drawn values, [ws] is
    None if the kernel size is one parameter. *)
Definition pool_samples (hs : list Z) (ws : option (list Z)) : list (Z * Z) :=
  combine (map (fun v => Z.max v 1) hs)
          (map (fun v => Z.max v 1) (match ws with None => hs | Some l => l end)).

(** pooling.py:438-442 and 559-563 [_pool_image] of MaxPooling ([op] = max) and
    MinPooling: [max_pool_], [min_pool_] with their default arguments
    (imgaug.py 1484-1640). An image without channels is returned as it is. *)
Definition pool_image (uint8 : bool) (lo hi : Z) (op : Z -> Z -> Z) (m : img) (kh kw : Z) : res img :=
  if i_nc m =? 0 then Ok m
  else do a <- pool_dispatch uint8 lo hi (i_nc m) op kh kw PMEdge 0 (i_px m);
       Ok (mkImg (i_int32 m) (i_nc m) a).

(** pooling.py:95-113 [_augment_images_by_samples], one image. *)
Definition pool_one_image (pool : img -> Z -> Z -> res img) (keep : bool) (r : img * (Z * Z)) : res img :=
  let '(m, (kh, kw)) := r in
  if (2 <=? kh) || (2 <=? kw) then
    do p <- pool m kh kw;
    if keep then imresize p (i_shape m) None else Ok p
  else Ok m.

(** pooling.py:128-160 [_augment_hms_and_segmaps_by_samples], one map;
    [nc]: channels in the image shape; [ip]: default of the resize method. *)
Definition pool_one_map (ip : option ipv) (nc : Z) (keep : bool) (r : mapoi * (Z * Z)) : res mapoi :=
  let '(m, (kh, kw)) := r in
  if keep then Ok m
  else if (2 <=? kh) || (2 <=? kw) then
    do m' <- map_resize m (shape_after_pooling (i_shape (mo_arr m)) (i_nc (mo_arr m)) kh kw) ip;
    Ok (mkMapoi (mo_arr m') (shape_after_pooling (mo_shape m') nc kh kw))
  else Ok m.

(** pooling.py:163-179 [_augment_keypoints_by_samples], one row. *)
Definition pool_one_kps (nc : Z) (keep : bool) (r : kpsoi * (Z * Z)) : res kpsoi :=
  let '(k, (kh, kw)) := r in
  if keep then Ok k
  else if (2 <=? kh) || (2 <=? kw) then kpsoi_on k (shape_after_pooling (kps_shape k) nc kh kw)
  else Ok k.

(** pooling.py:83-92 [_augment_batch_] for MaxPooling / MinPooling; [nc]: the
    number of channels in the shapes of the maps and keypoints. *)
Definition pool_batch (pool : img -> Z -> Z -> res img) (nc : Z) (keep : bool) (ks : list (Z * Z)) (b : kbatch) : res kbatch :=
  match b_images b, keep with
  | None, true => Ok b
  | _, _ =>
      do ims <- on_col (fun l => mapM (pool_one_image pool keep) (combine l ks)) (b_images b);
      do hms <- on_col (fun l => mapM (pool_one_map (Some (IS "cubic")) nc keep) (combine l ks)) (b_heatmaps b);
      do sms <- on_col (fun l => mapM (pool_one_map (Some (IS "nearest")) nc keep) (combine l ks)) (b_segmaps b);
      do kss <- on_col (fun l => mapM (pool_one_kps nc keep) (combine l ks)) (b_keypoints b);
      Ok (mkKb (b_array b && keep) ims hms sms kss)
  end.
End Resize.
