(** Model of tables for uint8 images: imgaug/augmenters/contrast.py 100-423,
    pillike.py 215-530, color.py 2363-2569 and 3850-4153.

    Images are of shape (H, W, C), an array of lists of [nc] components, or
    (H, W) with [nc] = 1. float32 and float64 arithmetic is modelled by rounding
    every exact result ([DtyModel.to_float]: unbounded exponents, no
    subnormals). Histograms are exact integers: cv2.calcHist counts in float32,
    which is exact up to 2^24 pixels. *)
From Verif Require Import Prelude DtyModel UtilModel.
From Coq Require Import Qround.
Local Open Scope Z_scope.

(** External: results in np.float32 and np.float64. [contrast.py:162-171] *)
Definition f32 (q : Q) : Q := to_float 24 q.
(** External: results in np.float64. [pillike.py:503-506] *)
Definition f64 (q : Q) : Q := to_float 53 q.

(** External: numpy's power, exp and log2 on float32. [contrast.py:169, 256, 338] *)
Record fmath := mkFmath { fpow : Q -> Q -> Q; fexp : Q -> Q; flog2 : Q -> Q }.

(** contrast.py:402, pillike.py:505 np.arange(256). *)
Definition arange256 : list Z := zrange 256.

(** contrast.py:171 np.clip(table, 0, 255).astype(np.uint8), an entry. *)
Definition to_u8 (q : Q) : Z := py_int (qclip q 0 255).

(** contrast.py:162-163 np.linspace(0, 1.0, num=256, dtype=np.float32), an entry. *)
Definition linspace1 (i : Z) : Q := if i =? 255 then 1%Q else f32 (f64 (inject_Z i * f64 (1 # 255))).

(** ** contrast.py *)

(** contrast.py:157-172 adjust_contrast_gamma, the table. *)
Definition gamma_table (m : fmath) (gamma : Q) : list Z :=
  map (fun i => to_u8 (f32 (0 + f32 (fpow m (linspace1 i) (f32 gamma) * 255)))%Q) arange256.

(** contrast.py:246-257 adjust_contrast_sigmoid, the table. *)
Definition sigmoid_table (m : fmath) (gain cutoff : Q) : list Z :=
  map (fun i => to_u8 (f32 (0 + f32 (255 / f32 (1 + fexp m (f32 (f32 gain * f32 (f32 cutoff - linspace1 i)))))))%Q) arange256.

(** contrast.py:331-339 adjust_contrast_log, the table. *)
Definition log_table (m : fmath) (gain : Q) : list Z :=
  map (fun i => to_u8 (f32 (0 + f32 (f32 (f64 (255 * f32 gain)) * flog2 m (f32 (1 + linspace1 i)))))%Q) arange256.

(** contrast.py:400-409 adjust_contrast_linear, the table; int(127.5) = 127. *)
Definition linear_table (alpha : Q) : list Z :=
  map (fun i => to_u8 (f32 (127 + f32 (f32 alpha * f32 (inject_Z i - 127))))%Q) arange256.

(** contrast.py:151-173: all four functions for uint8, given their table. *)
Definition adjust_contrast (nc : nat) (table : list Z) (im : arr (list Z)) : res (arr (list Z)) :=
  if (ah im =? 0) || (aw im =? 0) || Nat.eqb nc 0 then Ok im else apply_lut nc im (LFlat table).

(** ** pillike.py *)

(** pillike.py:325-329, 452-458: one channel. *)
Definition channel (c : nat) (im : arr (list Z)) : arr Z := mkArr (ah im) (aw im) (fun y x => nth c (apx im y x) 0).

(** External: cv2.calcHist([image], [0], mask, [256], [0, 256]), the entry of
    [v]. [pillike.py:330, 459] *)
Definition calc_hist (mask : option (arr Z)) (a : arr Z) (v : Z) : Z :=
  Z.of_nat (length (filter (fun p => (apx a (fst p) (snd p) =? v) && match mask with Some m => negb (apx m (fst p) (snd p) =? 0) | None => true end)
    (list_prod (zrange (ah a)) (zrange (aw a))))).

(** pillike.py:342, 465: np.sum(h[:n]), the sum of the first [n] entries. *)
Definition hsum (h : Z -> Z) (n : Z) : Z := fold_right Z.add 0 (map h (zrange n)).

(** pillike.py:332-346 _equalize_no_pil_, the table of one channel. *)
Definition equalize_table (h : Z -> Z) : list Z :=
  if Nat.leb (length (filter (fun v => negb (h v =? 0)) arange256)) 1 then arange256
  else
    let step := hsum h 255 / 255 in
    if step =? 0 then arange256
    else map (fun i => Z.min ((step / 2 + hsum h i) / step) 255) arange256.

(** External: PIL.ImageOps.equalize, the table of one channel, from its public
    source. It subtracts the last nonempty entry. [pillike.py:358] *)
Definition pil_equalize_table (h : Z -> Z) : list Z :=
  let histo := filter (fun n => negb (n =? 0)) (map h arange256) in
  if Nat.leb (length histo) 1 then arange256
  else
    let step := (fold_right Z.add 0 histo - last histo 0) / 255 in
    if step =? 0 then arange256
    else map (fun i => Z.min ((step / 2 + hsum h i) / step) 255) arange256.

(** pillike.py:76 _EQUALIZE_USE_PIL_BELOW. *)
Definition use_pil_below : Z := 64 * 64.

(** pillike.py:245, 309: image.size. *)
Definition size_of (nc : nat) (im : arr (list Z)) : Z := ah im * aw im * Z.of_nat nc.

(** pillike.py:352-363, 320-348: the tables of all channels, applied. *)
Definition equalize_by (table : (Z -> Z) -> list Z) (nc : nat) (im : arr (list Z)) (mask : option (arr Z)) : res (arr (list Z)) :=
  apply_lut nc im (LList (map (fun c => table (calc_hist mask (channel c im))) (seq 0 nc))).

(** pillike.py:253-314 equalize_ for one or three channels. Returns the
    image as it is after the call, and the result. [owned]: the image owns its
    data and is contiguous; only then apply_lut_ works in-place
    (imgaug.py:1996-2003). *)
Definition equalize_std (owned : bool) (nc : nat) (im : arr (list Z)) (mask : option (arr Z)) : res (arr (list Z) * arr (list Z)) :=
  if size_of nc im =? 0 then Ok (im, im)
  else if Nat.eqb nc 3 && (size_of nc im <? use_pil_below)
  then do r <- equalize_by pil_equalize_table nc im mask; Ok (r, r)
  else do r <- equalize_by equalize_table nc im mask; Ok (if owned then r else im, r).

(** pillike.py:253-314 equalize_. The channels of other images are views, so
    they are not changed. The mask is not passed on. *)
Definition equalize_ (owned : bool) (nc : nat) (im : arr (list Z)) (mask : option (arr Z)) : res (arr (list Z) * arr (list Z)) :=
  if Nat.eqb nc 1 || Nat.eqb nc 3 then equalize_std owned nc im mask
  else
    do rs <- mapM (fun c => do r <- equalize_std false 1 (mkArr (ah im) (aw im) (fun y x => [nth c (apx im y x) 0])) None; Ok (snd r)) (seq 0 nc);
    match rs with
    | [] => Err ValueError
    | _ => Ok (im, mkArr (ah im) (aw im) (fun y x => map (fun r => nth 0 (apx r y x) 0) rs))
    end.

(** pillike.py:215-250 equalize: the image after the call, and the result. *)
Definition equalize (owned : bool) (nc : nat) (im : arr (list Z)) (mask : option (arr Z)) : res (arr (list Z) * arr (list Z)) :=
  if size_of nc im =? 0 then Ok (im, im)
  else if use_pil_below <=? size_of nc im
  then do r <- equalize_ true nc im mask; Ok (im, snd r)
  else equalize_ owned nc im mask.

(** pillike.py:471-475, 483-487: the first index with a property. *)
Definition first_index (f : Z -> bool) : option Z := find f arange256.

(** pillike.py:462: h[ignore] = 0. *)
Definition without (ignore : list Z) (h : Z -> Z) (v : Z) : Z := if existsb (Z.eqb v) ignore then 0 else h v.

(** pillike.py:464-490: the lower and upper end cut off. *)
Definition cut_hist (cutoff : Q) (h : Z -> Z) : Z -> Z :=
  let cut := Qfloor (inject_Z (hsum h 256) * cutoff / 100) in
  let lo_cut v := cut - hsum h (v + 1) in
  let lo := match first_index (fun v => lo_cut v <=? 0) with None => 255 | Some lo => lo end in
  let h1 v := if v <? lo then 0 else if v =? lo then lo_cut lo else h v in
  let hi_cut i := hsum (fun j => h1 (255 - j)) (i + 1) - cut in
  let hi := match first_index (fun i => 0 <? hi_cut i) with None => -1 | Some i => 255 - i end in
  fun v => if hi <? v then 0 else if v =? hi then hi_cut (255 - hi) else h1 v.

(** pillike.py:493-508: the table of one channel. *)
Definition stretch_table (h : Z -> Z) : list Z :=
  let lo := match first_index (fun v => negb (h v =? 0)) with Some lo => lo | None => 255 end in
  let hi := match first_index (fun i => negb (h (255 - i) =? 0)) with Some i => 255 - i | None => 0 end in
  if hi <=? lo then arange256
  else
    let scale := f64 (255 / inject_Z (hi - lo)) in
    let offset := f64 (inject_Z (- lo) * scale) in
    map (fun i => to_u8 (f64 (f64 (inject_Z i * scale) + offset))) arange256.

(** pillike.py:459-508 _autocontrast_no_pil, the table of one channel. *)
Definition autocontrast_table (cutoff : Q) (ignore : list Z) (h : Z -> Z) : list Z :=
  let h := without ignore h in
  stretch_table (if qeqb cutoff 0 then h else cut_hist cutoff h).

(** pillike.py:443-530 _autocontrast_no_pil. *)
Definition autocontrast_no_pil (nc : nat) (im : arr (list Z)) (cutoff : Q) (ignore : list Z) : res (arr (list Z)) :=
  do rs <- mapM (fun c => apply_lut 1 (mkArr (ah im) (aw im) (fun y x => [nth c (apx im y x) 0]))
                   (LFlat (autocontrast_table cutoff ignore (calc_hist None (channel c im))))) (seq 0 nc);
  Ok (mkArr (ah im) (aw im) (fun y x => map (fun r => nth 0 (apx r y x) 0) rs)).

(** pillike.py:366-425 autocontrast. [two_d]: the image is of shape (H, W).
    [pil]: the external PIL.ImageOps.autocontrast. *)
Definition autocontrast (pil : arr (list Z) -> Q -> list Z -> res (arr (list Z))) (two_d : bool) (nc : nat) (im : arr (list Z)) (cutoff : Q) (ignore : list Z)
  : res (arr (list Z)) :=
  if (ah im =? 0) || (aw im =? 0) || Nat.eqb nc 0 then Ok im
  else if negb (qeqb cutoff 0) && (two_d || Nat.eqb nc 3) then pil im cutoff ignore
  else autocontrast_no_pil nc im cutoff ignore.

(** ** color.py *)

(** color.py:4023-4041 _generate_quantize_uniform_table: row [nb_bins]. Only
    the rows 1 to 254 are filled. *)
Definition quantize_row (centerize : bool) (nb_bins : Z) : list Z :=
  map (fun v =>
    let t := if (1 <=? nb_bins) && (nb_bins <? 255)
             then let binsize := f64 (256 / inject_Z nb_bins) in
                  let q := f32 (inject_Z (Qfloor (f32 (inject_Z v / f32 binsize))) * f32 binsize) in
                  if centerize then f32 (q + f32 (f64 (binsize / 2))) else q
             else 0%Q in
    zclip (np_round t) 0 255) arange256.

(** color.py:3883-3962 quantize_uniform_ for uint8 arrays. *)
Definition quantize_uniform (nc : nat) (im : arr (list Z)) (nb_bins : Z) (to_bin_centers : bool) : res (arr (list Z)) :=
  if (nb_bins =? 256) || (size_of nc im =? 0) then Ok im
  else if (2 <=? nb_bins) && (nb_bins <=? 256) then apply_lut nc im (LFlat (quantize_row to_bin_centers nb_bins))
  else Err AssertionError.

(** color.py:4072-4124 quantize_uniform_to_n_bits_, also 4127 posterize. *)
Definition quantize_uniform_to_n_bits (nc : nat) (im : arr (list Z)) (nb_bits : Z) : res (arr (list Z)) :=
  if (1 <=? nb_bits) && (nb_bits <=? 8) then quantize_uniform nc im (2 ^ nb_bits) false else Err AssertionError.

(** color.py:2421-2423: the projection of hue values to OpenCV's angles. *)
Definition project_hue (v : Z) : Z := py_int (f32 (f32 (inject_Z v / 255) * 180)).

(** color.py:2554-2569 _generate_lut_table, row [r] of 512; the last one is
    not filled. *)
Definition hue_row (r : Z) : list Z := map (fun v => if r <? 511 then (v + (r - 255)) mod 180 else 0) arange256.
(** color.py:2554-2569 _generate_lut_table, row [r] of 512. *)
Definition saturation_row (r : Z) : list Z := map (fun v => if r <? 511 then zclip (v + (r - 255)) 0 255 else 0) arange256.

(** Python's indexing of the 512 rows. [color.py:2491-2492] *)
Definition row_index (i : Z) : res Z :=
  if (0 <=? i) && (i <? 512) then Ok i else if (-512 <=? i) && (i <? 0) then Ok (i + 512) else Err IndexError.

(** color.py:2473-2498 _transform_image_cv2; the first two of three channels. *)
Definition transform_hs (im : arr (list Z)) (hue saturation : Z) : res (arr (list Z)) :=
  do rh <- row_index (255 + hue);
  do rs <- row_index (255 + saturation);
  do hs <- apply_lut 2 (mkArr (ah im) (aw im) (fun y x => firstn 2 (apx im y x))) (LList [hue_row rh; saturation_row rs]);
  Ok (mkArr (ah im) (aw im) (fun y x => apx hs y x ++ skipn 2 (apx im y x))).

(** color.py:2363-2381, 2516-2551: which of value, value_hue and
    value_saturation are used. [default]: the parameter (-40, 40). *)
Inductive hs_params (P : Type) := Common (value : P) | Separate (hue saturation : option P).
Arguments Common {P}. Arguments Separate {P}.
(** color.py:2363-2381, 2516-2551 the constructor. *)
Definition hs_new {P} (default : P) (value value_hue value_saturation : option P) : res (hs_params P) :=
  match value, value_hue, value_saturation with
  | None, None, None => Ok (Separate (Some default) (Some default))
  | Some v, None, None => Ok (Common v)
  | Some _, _, _ => Err AssertionError
  | None, h, s => Ok (Separate h s)
  end.

(** color.py:2387-2425 _draw_samples, the entries of image [i]. [per_channel]:
    samples above 1/2. [draw j p k]: sample [k] drawn from [p] with generator
    [j]; a common value is drawn as an (N, 2) array. Lines 2398-2401 check the
    first sample only. *)
Definition hs_samples {P} (draw : nat -> P -> nat -> Z) (per_channel : nat -> bool) (p : hs_params P) (i : nat) : res (Z * Z) :=
  match p with
  | Common v =>
      if (-255 <=? draw 1%nat v 0%nat) && (draw 1%nat v 0%nat <=? 255)
      then let h := draw 1%nat v (2 * i)%nat in
           Ok (project_hue h, if per_channel i then draw 1%nat v (2 * i + 1)%nat else h)
      else Err AssertionError
  | Separate h s =>
      Ok (project_hue (match h with Some h => draw 0%nat h i | None => 0 end), match s with Some s => draw 1%nat s i | None => 0 end)
  end.
