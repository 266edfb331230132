(** Model of convolutions and blurs (imgaug/augmenters/convolutional.py, imgaug/augmenters/blur.py).
    No proofs here. Pixel values and kernel entries are exact rationals. *)
From Coq Require Import Qreals Reals.
From Verif Require Import Prelude UtilModel.

(** * Images *)
(** dtypes by kind and number of bits. [convolutional.py:106-110] *)
Inductive kind := KBool | KUint (bits : Z) | KInt (bits : Z) | KFloat (bits : Z).
(** An (H,W) or (H,W,C) image: dtype, height, width and channels. An (H,W) image has one
    channel. [convolutional.py:118-119] *)
Record img := mkImg { i_kind : kind; i_h : Z; i_w : Z; i_ch : list (Z -> Z -> Q) }.
(** The dtypes accepted by convolve_ (convolutional.py:106-110) and blur_avg_ (blur.py:381-385). *)
Definition supported (k : kind) : bool :=
  match k with
  | KBool => true
  | KUint b | KInt b => (b =? 8) || (b =? 16)
  | KFloat b => (b =? 16) || (b =? 32) || (b =? 64)
  end.
(** The dtype used internally (convolutional.py:122-125, blur.py:388-391). *)
Definition internal (k : kind) : kind :=
  match k with
  | KBool => KFloat 32
  | KFloat b => if b =? 16 then KFloat 32 else KFloat b
  | KInt b => if b =? 8 then KInt 16 else KInt b
  | KUint b => KUint b
  end.
(** cv2's saturate_cast to the dtype (called in convolutional.py:158, 163): rounding and clipping
    for integers. Simplification: floats are exact. *)
Definition saturate (k : kind) (q : Q) : Q :=
  match k with
  | KUint b => inject_Z (zclip (np_round q) 0 (2 ^ b - 1))
  | KInt b => inject_Z (zclip (np_round q) (- 2 ^ (b - 1)) (2 ^ (b - 1) - 1))
  | _ => q
  end.
(** Restoring the dtype (convolutional.py:170-173, blur.py:416-419). Simplification: converting
    to float16 clips but does not round. *)
Definition finish (k : kind) (q : Q) : Q :=
  match k with
  | KBool => if qltb (1 # 2) q then 1%Q else 0%Q
  | KInt b => if b =? 8 then qclip q (-128) 127 else q
  | KFloat b => if b =? 16 then qclip q (-65504) 65504 else q
  | KUint _ => q
  end.
(** image.size == 0 (convolutional.py:115). *)
Definition no_pixels (im : img) : bool := (i_h im =? 0) || (i_w im =? 0) || Nat.eqb (length (i_ch im)) 0.

(** * cv2.filter2D *)
(** Sum of a list of numbers (filter2D, convolutional.py:158). *)
Definition qsum (l : list Q) : Q := fold_right Qplus 0%Q l.
(** BORDER_REFLECT_101, the default of filter2D (convolutional.py:158): the index inside of an
    axis of [n] pixels that is read for the index [p]. *)
Definition mirror (n p : Z) : Z :=
  if n <=? 1 then 0
  else let m := p mod (2 * (n - 1)) in if m <? n then m else 2 * (n - 1) - m.
(** cv2.filter2D on one channel (convolutional.py:158, 163-168): correlation with the kernel, the
    anchor is the centre of the kernel. *)
Definition filter2D (k : kind) (h w : Z) (K : arr Q) (ch : Z -> Z -> Q) : Z -> Z -> Q :=
  fun y x => saturate k (qsum (map (fun i => qsum (map (fun j =>
    (apx K i j * ch (mirror h (y + i - ah K / 2)%Z) (mirror w (x + j - aw K / 2)%Z))%Q) (zrange (aw K)))) (zrange (ah K)))).

(** * convolve_ *)
(** The argument [kernel]: an (H,W) array, an array with another number of dimensions, a list of
    arrays or None, or something else. [convolutional.py:127-145] *)
Inductive kernel_arg := KArr (K : arr Q) | KArrBad | KList (l : list (option (arr Q))) | KOther.
(** convolutional.py:127-145: one matrix per channel, or a single one. *)
Definition matrices_of (k : kernel_arg) (nb_channels : nat) : res (list (option (arr Q))) :=
  match k with
  | KArr K => Ok [Some K]
  | KArrBad | KOther => Err AssertionError
  | KList l => if Nat.eqb (length l) nb_channels then Ok l else Err AssertionError
  end.
(** Filtering one channel if there is a matrix (convolutional.py:155, 161). *)
Definition filter_channel (k : kind) (h w : Z) (m : option (arr Q)) (ch : Z -> Z -> Q) : Z -> Z -> Q :=
  match m with None => ch | Some K => filter2D k h w K ch end.
(** convolve_ (convolutional.py:58-178). *)
Definition convolve (im : img) (kernel : kernel_arg) : res img :=
  if negb (supported (i_kind im)) then Err ValueError
  else if no_pixels im then Ok im
  else
    let n := length (i_ch im) in
    let k := internal (i_kind im) in
    do ms <- matrices_of kernel n;
    let ms := if Nat.ltb 512 n && Nat.eqb (length ms) 1 then repeat (hd None ms) n else ms in
    let chs := match ms with
               | [m] => map (filter_channel k (i_h im) (i_w im) m) (i_ch im)
               | _ => map (fun p => filter_channel k (i_h im) (i_w im) (fst p) (snd p)) (combine ms (i_ch im))
               end in
    Ok (mkImg (i_kind im) (i_h im) (i_w im) (map (fun ch y x => finish (i_kind im) (ch y x)) chs)).

(** ** The augmenter Convolve *)
(** The attribute [matrix]: None, an array or a function of the image, the number of channels and
    the RNG, which it changes. [convolutional.py:261-277] *)
Inductive matrix_arg (S : Type) :=
| MNone | MConst (k : kernel_arg) | MFun (f : img -> nat -> S -> res (option kernel_arg) * S).
Arguments MNone {S}. Arguments MConst {S} k. Arguments MFun {S} f.
(** Convolve._augment_batch_ (convolutional.py:280-303); all images use the same RNG
    ([random_state.duplicate], random.py:462-488). *)
Fixpoint convolve_images {S} (m : matrix_arg S) (images : list img) (s : S) : res (list img) :=
  match images with
  | [] => Ok []
  | im :: r =>
      let '(k, s') := match m with
                      | MNone => (Ok None, s)
                      | MConst k => (Ok (Some k), s)
                      | MFun f => f im (length (i_ch im)) s
                      end in
      do k <- k;
      do im' <- match k with None => Ok im | Some k => convolve im k end;
      do r' <- convolve_images m r s';
      Ok (im' :: r')
  end.

(** ** Kernels of Sharpen, Emboss and EdgeDetect *)
(** A 3x3 array (convolutional.py:408-417). *)
Definition arr33 (a b c d e f g h i : Q) : arr Q :=
  mkArr 3 3 (fun y x => nth (Z.to_nat (3 * y + x)) [a; b; c; d; e; f; g; h; i] 0%Q).
(** convolutional.py:408-412, 519-523, 611-615, 775-779. *)
Definition matrix_nochange : arr Q := arr33 0 0 0 0 1 0 0 0 0.
(** convolutional.py:418-421, 529-532, 621-624. *)
Definition mix (alpha : Q) (effect : arr Q) : arr Q :=
  mkArr 3 3 (fun y x => ((1 - alpha) * apx matrix_nochange y x + alpha * apx effect y x)%Q).
(** The check of the sampled alpha (convolutional.py:404-406, 515-517, 608-610). *)
Definition with_alpha (alpha : Q) (effect : arr Q) : res (arr Q) :=
  if qleb 0 alpha && qleb alpha 1 then Ok (mix alpha effect) else Err AssertionError.
(** convolutional.py:413-417. *)
Definition sharpen_effect (lightness : Q) : arr Q := arr33 (-1) (-1) (-1) (-1) (8 + lightness) (-1) (-1) (-1) (-1).
(** convolutional.py:524-528. *)
Definition emboss_effect (s : Q) : arr Q := arr33 (-1 - s) (0 - s) 0 (0 - s) 1 (0 + s) 0 (0 + s) (1 + s).
(** convolutional.py:616-620. *)
Definition edge_effect : arr Q := arr33 0 1 0 1 (-4) 1 0 1 0.
(** convolutional.py:402-422 _SharpeningMatrixGenerator. *)
Definition sharpen_matrix (alpha lightness : Q) : res (arr Q) := with_alpha alpha (sharpen_effect lightness).
(** convolutional.py:513-533 _EmbossMatrixGenerator. *)
Definition emboss_matrix (alpha strength : Q) : res (arr Q) := with_alpha alpha (emboss_effect strength).
(** convolutional.py:606-625 _EdgeDetectMatrixGenerator. *)
Definition edge_matrix (alpha : Q) : res (arr Q) := with_alpha alpha edge_effect.

(** ** DirectedEdgeDetect, over the reals *)
(** convolutional.py:751. *)
Definition degrees (direction : Q) : Z := py_int (direction * 360) mod 360.
(** convolutional.py:752-755. *)
Definition direction_vector (deg : Z) : R * R :=
  let rad := (IZR deg * PI / 180)%R in (cos (rad - 1 / 2 * PI), sin (rad - 1 / 2 * PI))%R.
(** imgaug.py:679-715 angle_between_vectors. *)
Definition angle_between (v1 v2 : R * R) : R :=
  let norm v := sqrt (fst v * fst v + snd v * snd v)%R in
  let unit v := if Rlt_dec 0 (norm v) then (fst v / norm v, snd v / norm v)%R else (0, 0)%R in
  acos (Rmin (Rmax (fst (unit v1) * fst (unit v2) + snd (unit v1) * snd (unit v2)) (-1)) 1)%R.
(** convolutional.py:765-769, in radians. *)
Definition similarity (deg x y : Z) : R :=
  ((1 - angle_between (IZR x, IZR y) (direction_vector deg) / PI) ^ 4)%R.
(** The cells around the centre (convolutional.py:762-763). *)
Definition cells : list (Z * Z) := [(-1, -1); (-1, 0); (-1, 1); (0, -1); (0, 1); (1, -1); (1, 0); (1, 1)].
(** convolutional.py:757-784 for the cell at ([x], [y]) from the centre, the entry [y+1, x+1]. *)
Definition directed_entry (alpha : R) (deg x y : Z) : R :=
  let total := fold_right Rplus 0%R (map (fun c => similarity deg (fst c) (snd c)) cells) in
  let effect := if (x =? 0) && (y =? 0) then 1%R else (similarity deg x y / total * (-1))%R in
  let nochange := if (x =? 0) && (y =? 0) then 1%R else 0%R in
  ((1 - alpha) * nochange + alpha * effect)%R.
(** _DirectedEdgeDetectMatrixGenerator (convolutional.py:744-786). *)
Definition directed_matrix (alpha direction : Q) : res (Z -> Z -> R) :=
  if qleb 0 alpha && qleb alpha 1 then Ok (directed_entry (Q2R alpha) (degrees direction)) else Err AssertionError.

(** * Blurs *)
(** cv2.blur (blur.py:396-400, 408-411): the mean, with the same border. *)
Definition box (kh kw : Z) : arr Q := mkArr kh kw (fun _ _ => (1 / inject_Z (kh * kw))%Q).
(** blur_avg_ (blur.py:315-421). *)
Definition blur_avg (im : img) (kh kw : Z) : res img :=
  if no_pixels im then Ok im
  else if (kh <=? 0) || (kw <=? 0) || ((kh =? 1) && (kw =? 1)) then Ok im
  else if negb (supported (i_kind im)) then Err ValueError
  else Ok (mkImg (i_kind im) (i_h im) (i_w im)
        (map (fun ch y x => finish (i_kind im) (filter2D (internal (i_kind im)) (i_h im) (i_w im) (box kh kw) ch y x)) (i_ch im))).

(** The argument [k] of AverageBlur: numbers, stochastic parameters, iterables, other things.
    [blur.py:713-755] *)
Inductive karg (P : Type) := ANum (q : Q) | AParam (p : P) | AIter (l : list (karg P)) | AOther.
Arguments ANum {P} q. Arguments AParam {P} p. Arguments AIter {P} l. Arguments AOther {P}.
(** The parameters created from it: Deterministic, DiscreteUniform or the one given. [blur.py:714, 720, 751] *)
Inductive kparam (P : Type) := KDet (z : Z) | KUniform (a b : Z) | KGiven (p : P).
Arguments KDet {P} z. Arguments KUniform {P} a b. Arguments KGiven {P} p.
(** One value for height and width, or two. [blur.py:712, 722, 748] *)
Inductive kmode (P : Type) := Single (p : kparam P) | Two (p q : kparam P).
Arguments Single {P} p. Arguments Two {P} p q.
(** is_single_number, isinstance(., StochasticParameter) (blur.py:719, 721). *)
Definition is_num {P} (k : karg P) : bool := match k with ANum _ => true | _ => false end.
(** See [is_num]. [blur.py:721] *)
Definition is_param {P} (k : karg P) : bool := match k with AParam _ => true | _ => false end.
(** blur.py:726-735, 737-746: one of the two entries. *)
Definition parse_entry {P} (k : karg P) : res (kparam P) :=
  match k with
  | ANum q => Ok (KDet (py_int q))
  | AIter l => if forallb is_num l
               then match l with ANum a :: ANum b :: _ => Ok (KUniform (py_int a) (py_int b)) | _ => Err IndexError end
               else Err GenericException
  | _ => Err GenericException
  end.
(** AverageBlur.__init__ (blur.py:712-755). *)
Definition parse_k {P} (k : karg P) : res (kmode P) :=
  match k with
  | ANum q => Ok (Single (KDet (py_int q)))
  | AIter [a; b] =>
      match a, b with
      | ANum x, ANum y => Ok (Single (KUniform (py_int x) (py_int y)))
      | AParam p, AParam q => Ok (Two (KGiven p) (KGiven q))
      | _, _ => do p <- parse_entry a; do q <- parse_entry b; Ok (Two p q)
      end
  | AIter _ => Err AssertionError
  | AParam p => Ok (Single (KGiven p))
  | AOther => Err GenericException
  end.
(** AverageBlur._augment_batch_ (blur.py:762-783): [draw rng p n] are [n] samples of parameter [p]. *)
Definition average_blur {P} (draw : kparam P -> nat -> list Z) (k : kmode P) (images : list img) : res (list img) :=
  let '(hs, ws) := match k with
                   | Single p => let s := draw p (length images) in (s, s)
                   | Two p q => (draw p (length images), draw q (length images))
                   end in
  mapM (fun t => blur_avg (fst t) (fst (snd t)) (snd (snd t))) (combine images (combine hs ws)).

(** MedianBlur._augment_batch_ (blur.py:893-914): the kernel size passed to cv2.medianBlur, None if
    the image is left alone. *)
Definition median_ksize (im : img) (ksize : Z) : option Z :=
  if (1 <? ksize) && negb (no_pixels im) then Some (if ksize mod 2 =? 0 then ksize + 1 else ksize) else None.
(** MedianBlur.__init__ (blur.py:873-880) for integers given one by one or as an iterable. *)
Definition median_check (ks : list Z) : bool := forallb (fun k => negb (k mod 2 =? 0)) ks.

(** _compute_gaussian_blur_ksize (blur.py:298-312). *)
Definition gaussian_ksize (sigma : Q) : Z :=
  let k := if qltb sigma 3 then ((33 # 10) * sigma)%Q
           else if qltb sigma 5 then ((29 # 10) * sigma)%Q
           else ((26 # 10) * sigma)%Q in
  let k := py_int (qmax k 5) in
  if k mod 2 =? 0 then k + 1 else k.
(** blur.py:266-272. *)
Definition ksize_used (sigma : Q) (ksize : option Z) : Z :=
  match ksize with
  | None => gaussian_ksize sigma
  | Some k => if k mod 2 =? 0 then k + 1 else k
  end.
(** What blur_gaussian_ does: return the image, call scipy or call cv2.GaussianBlur with a kernel
    size (None: not called). [blur.py:153-194, 274-285] *)
Inductive gauss_call := Unchanged | Scipy | Cv2 (k : option Z).
(** The argument [backend]. [blur.py:173-187] *)
Inductive backend := BAuto | BCv2 | BScipy.
(** blur.py:169-171, [float128] is refused before. *)
Definition not_cv2 (k : kind) : bool :=
  match k with KUint b => (b =? 32) || (b =? 64) | KInt b => b =? 64 | KFloat b => b =? 128 | KBool => false end.
(** blur_gaussian_ (blur.py:153-194, 266-275). *)
Definition blur_gaussian (im : img) (sigma : Q) (ksize : option Z) (b : backend) (eps : Q) : res gauss_call :=
  if no_pixels im then Ok Unchanged
  else if qltb sigma eps then Ok Unchanged
  else if (match i_kind im with KFloat 128 => true | _ => false end) then Err ValueError
  else
    let cv2 := let k := ksize_used sigma ksize in Cv2 (if 0 <? k then Some k else None) in
    match b with
    | BAuto => Ok (if not_cv2 (i_kind im) then Scipy else cv2)
    | BCv2 => if not_cv2 (i_kind im) then Err AssertionError else Ok cv2
    | BScipy => Ok Scipy
    end.

(** ** MotionBlur *)
(** blur.py:1217. *)
Definition motion_k (k : Z) : Z := if k mod 2 =? 0 then k + 1 else k.
(** np.linspace(start, stop, num)[i] (blur.py:1222-1225). *)
Definition linspace (start stop : Q) (num i : Z) : Q :=
  if num <=? 1 then start else (start + inject_Z i * ((stop - start) / inject_Z (num - 1)))%Q.
(** blur.py:1217-1225, 1230: the column of the kernel before rotating it, as uint8. *)
Definition motion_column (k : Z) (direction : Q) : arr Z :=
  let d := ((qclip direction (-1) 1 + 1) / 2)%Q in
  mkArr k k (fun y x => if x =? k / 2 then Qfloor (linspace d (1 - d) k y * 255) else 0).
(** _MotionBlurMatrixGenerator (blur.py:1204-1234). [rotate]: Affine(rotate=angle).augment_image on
    a uint8 array. The result of dividing by zero (nan) is an error here. *)
Definition motion_matrix (rotate : arr Z -> arr Z) (k : Z) (direction : Q) (nb_channels : nat) : res kernel_arg :=
  let m := rotate (motion_column (motion_k k) direction) in
  let total := qsum (map (fun i => qsum (map (fun j => (inject_Z (apx m i j) / 255)%Q) (zrange (aw m)))) (zrange (ah m))) in
  if qeqb total 0 then Err GenericException
  else Ok (KList (repeat (Some (mkArr (ah m) (aw m) (fun i j => (inject_Z (apx m i j) / 255 / total)%Q))) nb_channels)).
