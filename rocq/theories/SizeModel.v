(** Model of imgaug/augmenters/size.py: cropping, padding, computing pad/crop
    amounts, Resize target sizes, fixed-size positioning.

    Simplifications (all definitions): sizes and amounts are unbounded integers
    (int32 overflow is not modelled); floats are exact rationals; the pixel
    contents produced by resizing (cv2) are an uninterpreted function, only the
    resulting shape is modelled; mutation becomes returning a new value. *)
From Verif Require Import Prelude GeoModel.

(** (top, right, bottom, left), the order used throughout size.py. *)
Record trbl := mkTrbl { t_top : Z; t_right : Z; t_bottom : Z; t_left : Z }.
(** helper: no change (size.py). *)
Definition trbl0 : trbl := mkTrbl 0 0 0 0.

(** size.py:205-227 [_prevent_zero_sizes_after_crops_] for one row
    (and 194-202 [_prevent_zero_size_after_crop_]). [ceil(r/2)], [floor(r/2)]
    are computed in float32 there (exact below 2^24), here on integers. *)
Definition prevent_zero_size (axis_size crop_start crop_end : Z) : Z * Z :=
  let remaining := axis_size - (crop_start + crop_end) in
  let regain := if remaining <? 1 then Z.abs remaining + 1 else 0 in
  let regain_start := (regain + 1) / 2 in
  let regain_end := regain / 2 in
  let s := crop_start - regain_start in
  let e := crop_end - regain_end in
  let e := if s <? 0 then e + s else e in
  let s := Z.max s 0 in
  let s := if e <? 0 then s + e else s in
  let e := Z.max e 0 in
  (Z.max s 0, e).

(** size.py:179-191 [_prevent_zero_size_after_crop_trbl_]. *)
Definition prevent_zero_size_trbl (height width : Z) (c : trbl) : trbl :=
  let '(t, b) := prevent_zero_size height (t_top c) (t_bottom c) in
  let '(l, r) := prevent_zero_size width (t_left c) (t_right c) in
  mkTrbl t r b l.

(** size.py:48-67 [_crop_trbl_to_xyxy] with prevent_zero_size=True; returns
    ((x1, y1), (x2, y2)). *)
Definition crop_trbl_to_xyxy (height width : Z) (c : trbl) : (Z * Z) * (Z * Z) :=
  let '(top, bottom) := prevent_zero_size height (t_top c) (t_bottom c) in
  let '(lft, rgt) := prevent_zero_size width (t_left c) (t_right c) in
  let x1 := lft in
  let x2 := width - rgt in
  let y1 := top in
  let y2 := height - bottom in
  ((x1, y1), (Z.max x2 x1, Z.max y2 y1)).

(** size.py:70-73 [_crop_arr_]. *)
Definition crop_arr {A} (a : arr A) (c : trbl) : arr A :=
  let '((x1, y1), (x2, y2)) := crop_trbl_to_xyxy (ah a) (aw a) c in
  slice2 a y1 y2 x1 x2.

(** The border modes that imgaug's [pad] hands to cv2 (size.py:467-482). The
    remaining numpy modes (linear_ramp, maximum, mean, median, minimum, wrap)
    are not modelled. *)
Inductive pad_mode := PMConstant | PMEdge | PMReflect | PMSymmetric.

(** Index of the source pixel used for position [p] of an axis of length
    [len] > 0 ([p] may lie outside of [0, len)): external behaviour of
    [cv2.borderInterpolate] / [np.pad], written with the period of the
    reflected sequence instead of cv2's loop. [None] = constant value. *)
Definition border_index (mode : pad_mode) (len p : Z) : option Z :=
  if (0 <=? p) && (p <? len) then Some p
  else match mode with
  | PMConstant => None
  | PMEdge => Some (if p <? 0 then 0 else len - 1)
  | PMReflect =>
      if len =? 1 then Some 0
      else let m := p mod (2 * (len - 1)) in
           Some (if m <? len then m else 2 * (len - 1) - m)
  | PMSymmetric =>
      let m := p mod (2 * len) in
      Some (if m <? len then m else 2 * len - 1 - m)
  end.

(** External: [cv2.copyMakeBorder(arr, top, bottom, left, right, mode, value)]
    (equal to [np.pad] for these modes). *)
Definition copy_make_border {A} (a : arr A) (p : trbl) (mode : pad_mode) (value : A)
  : arr A :=
  mkArr (ah a + t_top p + t_bottom p) (aw a + t_left p + t_right p)
    (fun y x =>
       match border_index mode (ah a) (y - t_top p), border_index mode (aw a) (x - t_left p) with
       | Some y', Some x' => apx a y' x'
       | _, _ => value
       end).

(** Channel slice [arr[..., c:c+4]] and [np.concatenate(result, axis=2)] on
    arrays whose pixels are the lists of channel values. *)
Definition chan_slice {V} (start : nat) (n : nat) (a : arr (list V)) : arr (list V) :=
  mkArr (ah a) (aw a) (fun y x => firstn n (skipn start (apx a y x))).
(** size.py:525-535. *)
Definition chan_concat {V} (a b : arr (list V)) : arr (list V) :=
  mkArr (ah a) (aw a) (fun y x => apx a y x ++ apx b y x).

(** size.py:525-535: the loop over blocks of four channels; [fuel] bounds the
    number of iterations (nb_channels suffices, the index grows by 4). *)
Fixpoint pad_blocks {V} (fuel : nat) (start nb_channels : nat) (a : arr (list V)) (p : trbl)
  (mode : pad_mode) (cval : list V) : arr (list V) :=
  match fuel with
  | O => copy_make_border (chan_slice start 0 a) p mode []
  | S fuel' =>
      if Nat.ltb start nb_channels
      then chan_concat
             (copy_make_border (chan_slice start 4 a) p mode (firstn 4 (skipn start cval)))
             (pad_blocks fuel' (start + 4) nb_channels a p mode cval)
      else copy_make_border (chan_slice start 0 a) p mode []
  end.

(** Constant value given by the user: one number or one per channel. [size.py:455-458] *)
Inductive cval_arg := CvScalar (v : Z) | CvMulti (vs : list Z).

(** size.py:455-458: clip cval to the value range [lo, hi] of the dtype, and
    511/524: repeat a scalar for every channel. *)
Definition normalize_cval (lo hi : Z) (nb_channels : nat) (c : cval_arg) : list Z :=
  match c with
  | CvScalar v => repeat (Z.max (Z.min v hi) lo) nb_channels
  | CvMulti vs => map (fun v => zclip v lo hi) vs
  end.

(** size.py:363-568 [pad] for (H,W,C) integer arrays with [C = nb_channels]
    and dtype range [lo, hi]. The numpy fallback (other dtypes) computes the
    same function for these modes. cv2 uses at most as many values as there are
    channels: [firstn]. *)
Definition pad (lo hi : Z) (nb_channels : nat) (a : arr (list Z)) (p : trbl)
  (mode : pad_mode) (cval : cval_arg) : res (arr (list Z)) :=
  if negb ((0 <=? t_top p) && (0 <=? t_right p) && (0 <=? t_bottom p) && (0 <=? t_left p))
  then Err AssertionError
  else if (0 <? t_top p) || (0 <? t_right p) || (0 <? t_bottom p) || (0 <? t_left p)
  then
    let cv := normalize_cval lo hi nb_channels cval in
    let zero_axis := (ah a =? 0) || (aw a =? 0) || Nat.eqb nb_channels 0 in
    let mode := if zero_axis then PMConstant else mode in
    if Nat.leb nb_channels 4
    then Ok (copy_make_border a p mode (firstn nb_channels cv))
    else Ok (pad_blocks nb_channels 0 nb_channels a p mode cv)
  else Ok a.

(** size.py:171-176 [_compute_shape_after_crop_and_pad] (height, width). *)
Definition shape_after_crop_and_pad (s : shape2) (c p : trbl) : shape2 :=
  let '((x1, y1), (x2, y2)) := crop_trbl_to_xyxy (fst s) (snd s) c in
  (y2 - y1 + t_top p + t_bottom p, x2 - x1 + t_right p + t_left p).

(** size.py:152-168 [_crop_and_pad_kpsoi_]. *)
Definition crop_and_pad_kpsoi (k : kpsoi) (c p : trbl) (keep_size : bool) : res kpsoi :=
  let '((x1, y1), _) := crop_trbl_to_xyxy (fst (kps_shape k)) (snd (kps_shape k)) c in
  let shape_orig := kps_shape k in
  let shifted := kpsoi_shift k (inject_Z (- x1 + t_left p)) (inject_Z (- y1 + t_top p)) in
  let shifted := mkKpsoi (kps shifted) (shape_after_crop_and_pad shape_orig c p) in
  if keep_size then kpsoi_on shifted shape_orig else Ok shifted.

(** size.py:230-259 [_project_size_changes]. *)
Definition project_size_changes (c : trbl) (from_shape to_shape : shape2) : trbl :=
  if shape2_eqb from_shape to_shape then c
  else
    let '(hf, wf) := from_shape in
    let '(ht, wt) := to_shape in
    let f := fun (size_to size_from v : Z) (eps : Q) =>
      np_round (inject_Z size_to * (inject_Z v / inject_Z size_from) + eps)%Q in
    mkTrbl (f ht hf (t_top c) (-(1#10000))%Q) (f wt wf (t_right c) (1#10000))
           (f ht hf (t_bottom c) (1#10000)) (f wt wf (t_left c) (-(1#10000))%Q).

Section Resizing.
  (** External: the pixels computed by [ia.imresize_single_image] (cv2). *)
  Variable resize_px : arr (list Z) -> Z -> Z -> (Z -> Z -> list Z).
  (** imgaug.py:1145-1179, 879-1142: only the resulting shape. *)
  Definition imresize (a : arr (list Z)) (h w : Z) : arr (list Z) :=
    mkArr h w (resize_px a h w).

  (** size.py:76-91 [_crop_and_pad_arr]. *)
  Definition crop_and_pad_arr (lo hi : Z) (nb_channels : nat) (a : arr (list Z))
    (c p : trbl) (mode : pad_mode) (cval : cval_arg) (keep_size : bool)
    : res (arr (list Z)) :=
    do r <- pad lo hi nb_channels (crop_arr a c) p mode cval;
    Ok (if keep_size then imresize r (ah a) (aw a) else r).

  (** A map (heatmap / segmentation map) on an image: its array and the shape
      of the image it belongs to. [size.py:108-149] *)
  Record mapoi := mkMapoi { m_arr : arr (list Z); m_shape : shape2 }.

  (** size.py:108-149 [_crop_and_pad_hms_or_segmaps_]. Heatmap values are
      represented by integers here (only their positions matter). *)
  Definition crop_and_pad_map (lo hi : Z) (nb_channels : nat) (m : mapoi) (c p : trbl)
    (mode : pad_mode) (cval : cval_arg) (keep_size : bool) : res mapoi :=
    let a := m_arr m in
    let cp := project_size_changes c (m_shape m) (ah a, aw a) in
    let pp := project_size_changes p (m_shape m) (ah a, aw a) in
    let cp := prevent_zero_size_trbl (ah a) (aw a) cp in
    do r <- pad lo hi nb_channels (crop_arr a cp) pp mode cval;
    if keep_size then Ok (mkMapoi (imresize r (ah a) (aw a)) (m_shape m))
    else Ok (mkMapoi r (shape_after_crop_and_pad (m_shape m) c p)).
End Resizing.

(** size.py:2111-2142 [CropAndPad._draw_samples] for one row, after the raw
    samples were drawn: [v] per side is the sampled pixel amount (mode px) or
    the fraction (mode percent); negative values crop, positive ones pad. *)
Inductive cap_mode := CapNoop | CapPx | CapPercent.
(** size.py:2111-2142. *)
Definition cap_amounts (mode : cap_mode) (h w : Z) (top rgt bottom lft : Q) : trbl :=
  match mode with
  | CapNoop => trbl0
  | CapPx => mkTrbl (py_int top) (py_int rgt) (py_int bottom) (py_int lft)
  | CapPercent => mkTrbl (np_round (inject_Z h * top)) (np_round (inject_Z w * rgt))
                         (np_round (inject_Z h * bottom)) (np_round (inject_Z w * lft))
  end.
(** size.py:2111-2142. *)
Definition cap_draw_samples (mode : cap_mode) (h w : Z) (top rgt bottom lft : Q)
  : trbl * trbl :=
  let a := cap_amounts mode h w top rgt bottom lft in
  let crop := fun v => Z.max (-1 * v) 0 in
  let padv := fun v => Z.max v 0 in
  let '(ct, cb) := prevent_zero_size h (crop (t_top a)) (crop (t_bottom a)) in
  let '(cl, cr) := prevent_zero_size w (crop (t_left a)) (crop (t_right a)) in
  (mkTrbl ct cr cb cl,
   mkTrbl (padv (t_top a)) (padv (t_right a)) (padv (t_bottom a)) (padv (t_left a))).

(** size.py:713-781 [compute_paddings_to_reach_aspect_ratio]. *)
Definition paddings_aspect_ratio (s : shape2) (ratio : Q) : res trbl :=
  if negb (qltb 0 ratio) then Err AssertionError
  else
    let '(height, width) := s in
    let '(height, pad_bottom) := if height =? 0 then (1, 1) else (height, 0) in
    let '(width, pad_right) := if width =? 0 then (1, 1) else (width, 0) in
    let current := (inject_Z width / inject_Z height)%Q in
    if qltb current ratio then
      let diff := (ratio * inject_Z height - inject_Z width)%Q in
      Ok (mkTrbl 0 (pad_right + Qceiling (diff / 2)) pad_bottom (Qfloor (diff / 2)))
    else if qltb ratio current then
      let diff := ((1 / ratio) * inject_Z width - inject_Z height)%Q in
      Ok (mkTrbl (Qfloor (diff / 2)) pad_right (pad_bottom + Qceiling (diff / 2)) 0)
    else Ok (mkTrbl 0 pad_right pad_bottom 0).

(** size.py:784-853 [compute_croppings_to_reach_aspect_ratio]. *)
Definition croppings_aspect_ratio (s : shape2) (ratio : Q) : res trbl :=
  if negb (qltb 0 ratio) then Err AssertionError
  else
    let '(height, width) := s in
    if negb (0 <? height) then Err AssertionError
    else
      let current := (inject_Z width / inject_Z height)%Q in
      if qltb current ratio then
        let amount := (inject_Z height - inject_Z width / ratio)%Q in
        let amount := qmin amount (inject_Z (height - 1)) in
        Ok (mkTrbl (Qfloor (amount / 2)) 0 (Qceiling (amount / 2)) 0)
      else if qltb ratio current then
        let amount := (inject_Z width - inject_Z height * ratio)%Q in
        let amount := qmin amount (inject_Z (width - 1)) in
        Ok (mkTrbl 0 (Qceiling (amount / 2)) 0 (Qfloor (amount / 2)))
      else Ok trbl0.

(** [int(np.floor(v/2)), int(np.ceil(v/2))] (size.py:898, 961, 1035, 1113). *)
Definition halves (v : Z) : Z * Z := (v / 2, (v + 1) / 2).

(** size.py:900-917, assertions for values that are not None. *)
Definition check_opt (ok : Z -> bool) (o : option Z) : bool :=
  match o with None => true | Some v => ok v end.

(** The common frame of the four compute_* functions below: assertions, then
    one axis at a time (size.py:900-917 and the analogous lines). *)
Definition compute_axes (ok : Z -> bool) (axis : Z -> option Z -> Z) (s : shape2)
  (fh fw : option Z) : res trbl :=
  if negb (check_opt ok fh) then Err AssertionError
  else if negb (check_opt ok fw) then Err AssertionError
  else
    let '(top, bottom) := halves (axis (fst s) fh) in
    let '(lft, rgt) := halves (axis (snd s) fw) in
    Ok (mkTrbl top rgt bottom lft).

(** size.py:856-917 [compute_paddings_to_reach_multiples_of]; the axis helper
    is 889-898. *)
Definition pad_multiple_axis (axis_size : Z) (multiple : option Z) : Z :=
  match multiple with
  | None => 0
  | Some m =>
      if axis_size =? 0 then m
      else if axis_size mod m =? 0 then 0
      else m - axis_size mod m
  end.
(** size.py:856-917. *)
Definition paddings_multiples_of := compute_axes (fun m => 0 <? m) pad_multiple_axis.

(** size.py:920-980 [compute_croppings_to_reach_multiples_of]; helper 952-961. *)
Definition crop_multiple_axis (axis_size : Z) (multiple : option Z) : Z :=
  match multiple with
  | None => 0
  | Some m =>
      if axis_size =? 0 then 0
      else if axis_size mod m =? 0 then 0
      else axis_size mod m
  end.
(** size.py:920-980. *)
Definition croppings_multiples_of := compute_axes (fun m => 0 <? m) crop_multiple_axis.

Section Powers.
  (** External: the float computed for [np.log(axis_size) / np.log(base)]. *)
  Variable log_quot : Z -> Z -> Q.

  (** size.py:983-1052 [compute_paddings_to_reach_powers_of]; helper 1022-1035. *)
  Definition pad_power_axis (allow_zero : bool) (axis_size : Z) (base : option Z) : Z :=
    match base with
    | None => 0
    | Some b =>
        if axis_size =? 0 then (if allow_zero then 1 else b)
        else if axis_size <=? b then b - axis_size
        else b ^ Qceiling (log_quot axis_size b) - axis_size
    end.
  (** size.py:983-1052. *)
  Definition paddings_powers_of (allow_zero : bool) :=
    compute_axes (fun b => 1 <? b) (pad_power_axis allow_zero).

  (** size.py:1055-1130 [compute_croppings_to_reach_powers_of]; helper 1099-1113. *)
  Definition crop_power_axis (allow_zero : bool) (axis_size : Z) (base : option Z) : Z :=
    match base with
    | None => 0
    | Some b =>
        if axis_size =? 0 then 0
        else if axis_size <? b then (if allow_zero then axis_size - 1 else 0)
        else axis_size - b ^ py_int (log_quot axis_size b)
    end.
  (** size.py:1055-1130. *)
  Definition croppings_powers_of (allow_zero : bool) :=
    compute_axes (fun b => 1 <? b) (crop_power_axis allow_zero).
End Powers.

(** size.py:2877-2895 [PadToFixedSize._calculate_paddings]. *)
Definition pad_fixed_axis (size : Z) (size_min : option Z) (pos : Q) : Z * Z :=
  match size_min with
  | Some m =>
      if size <? m then
        let total := m - size in
        let first := py_int ((1 - pos) * inject_Z total)%Q in
        (first, total - first)
      else (0, 0)
  | None => (0, 0)
  end.
(** size.py:2877-2895. *)
Definition calculate_paddings (s : shape2) (height_min width_min : option Z) (pad_x pad_y : Q)
  : trbl :=
  let '(lft, rgt) := pad_fixed_axis (snd s) width_min pad_x in
  let '(top, bottom) := pad_fixed_axis (fst s) height_min pad_y in
  mkTrbl top rgt bottom lft.

(** size.py:3197-3214 [CropToFixedSize._calculate_crop_amounts] with the
    offsets of 3231-3232 ([1.0 - position]). *)
Definition crop_fixed_axis (size : Z) (size_max : option Z) (pos : Q) : Z * Z :=
  match size_max with
  | Some m =>
      if m <? size then
        let first := py_int ((1 - pos) * inject_Z (size - m))%Q in
        (first, size - m - first)
      else (0, 0)
  | None => (0, 0)
  end.
(** size.py:3197-3214. *)
Definition calculate_crop_amounts (s : shape2) (height_max width_max : option Z)
  (pos_x pos_y : Q) : trbl :=
  let '(top, bottom) := crop_fixed_axis (fst s) height_max pos_y in
  let '(lft, rgt) := crop_fixed_axis (snd s) width_max pos_x in
  mkTrbl top rgt bottom lft.

(** A value for one side as accepted by Resize (size.py:1150-1230): int, float,
    "keep" or "keep-aspect-ratio". *)
Inductive size_spec := SInt (v : Z) | SFloat (q : Q) | SKeep | SKeepAspect.

(** size.py:1522-1533 (first pass over one side): an int stays, a float is
    multiplied, keep is the input size, keep-aspect-ratio is left open. *)
Definition resolve_side (im : Z) (s : size_spec) : res (option Z) :=
  match s with
  | SInt v => Ok (Some v)
  | SFloat q =>
      if qltb 0 q then
        let v := np_round (inject_Z im * q)%Q in
        Ok (Some (if 0 <? v then v else 1))
      else Err AssertionError
  | SKeep => Ok (Some im)
  | SKeepAspect => Ok None
  end.

(** size.py:1508-1545 [Resize._compute_height_width]; [sl] = size_order is
    'SL' (shorter side gets sample_a). Both sides keep-aspect-ratio multiplies
    a string by a float in the code: TypeError. Division by a zero image side
    raises in the code (ZeroDivisionError, here ValueError). *)
Definition compute_height_width (imh imw : Z) (sample_a sample_b : size_spec) (sl : bool)
  : res (Z * Z) :=
  let '(hs, ws) := if sl then (if imh <? imw then (sample_a, sample_b) else (sample_b, sample_a))
                   else (sample_a, sample_b) in
  do h <- resolve_side imh hs;
  do w <- resolve_side imw ws;
  match h, w with
  | Some h, Some w => Ok (h, w)
  | None, Some w =>
      if imw =? 0 then Err ValueError
      else Ok (np_round (inject_Z w * (inject_Z imh / inject_Z imw))%Q, w)
  | Some h, None =>
      if imh =? 0 then Err ValueError
      else Ok (h, np_round (inject_Z h * (inject_Z imw / inject_Z imh))%Q)
  | None, None => Err TypeError_
  end.

(** size.py:1453-1477 [Resize._augment_maps_by_samples]: size of a map whose
    array has another size than its image. *)
Definition resize_map_size (arr_shape img_shape : shape2) (h_img w_img : Z) : shape2 :=
  let h := np_round (inject_Z h_img * (inject_Z (fst arr_shape) / inject_Z (fst img_shape)))%Q in
  let w := np_round (inject_Z w_img * (inject_Z (snd arr_shape) / inject_Z (snd img_shape)))%Q in
  (Z.max h 1, Z.max w 1).

(** size.py:3380-3403 [CropToMultiplesOf._draw_samples]: target (width,
    height) of one row, then cropped like CropToFixedSize. *)
Definition crop_to_multiples_amounts (s : shape2) (hm wm : option Z) (pos_x pos_y : Q)
  : res trbl :=
  do c <- croppings_multiples_of s hm wm;
  Ok (calculate_crop_amounts s (Some (fst s - t_top c - t_bottom c))
                               (Some (snd s - t_right c - t_left c)) pos_x pos_y).

(** size.py:3551-3574 [PadToMultiplesOf._draw_samples], likewise. *)
Definition pad_to_multiples_amounts (s : shape2) (hm wm : option Z) (pos_x pos_y : Q)
  : res trbl :=
  do p <- paddings_multiples_of s hm wm;
  Ok (calculate_paddings s (Some (fst s + t_top p + t_bottom p))
                           (Some (snd s + t_left p + t_right p)) pos_x pos_y).
