(** Model of imgaug/augmenters/blend.py: blend_alpha_, BlendAlpha,
    BlendAlphaMask and the mask generators.

    Simplifications: images are flat lists of components in row-major order,
    [nc] per pixel, and contiguous in memory; alphas, masks and float
    intermediate results are exact; cv2 rounds half to even and saturates
    ([sat8]). *)
From Verif Require Import Prelude GeoModel SizeModel AriModel.

(** ** Blending images *)

(** The forms of the argument [alpha] (blend.py:198-217): one number, one per
    channel (any array that is not two- or three-dimensional is reshaped to
    (1, 1, n)), an (H, W) or (H, W, 1) array, an (H, W, C) array. *)
Inductive alphas :=
| ASingle (a : Q)
| AChannels (l : list Q)
| APixels (l : list Q)
| AComponents (l : list Q).
(** blend.py:198-217, the numbers of the argument. *)
Definition values (a : alphas) : list Q :=
  match a with ASingle q => [q] | AChannels l | APixels l | AComponents l => l end.

(** Indices of the components, in order. [helper for the componentwise functions below (264-395) (blend.py)] *)
Definition indexed {A} (l : list A) : list (nat * A) := combine (seq 0 (length l)) l.

(** The alpha used for component [i]. [blend.py:238-261, numpy broadcasting] *)
Definition lookup_alpha (nc : nat) (a : alphas) (i : nat) : Q :=
  match a with
  | ASingle q => q
  | AChannels l => nth (i mod nc)%nat l 0%Q
  | APixels l => nth (i / nc)%nat l 0%Q
  | AComponents l => nth i l 0%Q
  end.

(** blend.py:264-277 _blend_alpha_uint8_single_alpha_ for one component
    ([cv2.addWeighted]). *)
Definition add_weighted (f b : Z) (a : Q) : Z := sat8 (inject_Z f * a + inject_Z b * (1 - a))%Q.

(** blend.py:299-343 _blend_alpha_uint8_elementwise_ for one component: two
    products, each converted to uint8, and a saturating sum. *)
Definition multiply_add (f b : Z) (a : Q) : Z :=
  Z.min 255 (sat8 (inject_Z f * a)%Q + sat8 (inject_Z b * (1 - a))%Q).

(** The shape checks of blend.py:199-217. Arrays of size 1 count as a single
    number, those of shape (1, 1, C) as one number per channel (245). *)
Definition normalize_alphas (nc nb_pixels : nat) (a : alphas) : res alphas :=
  match values a with
  | [q] => Ok (ASingle q)
  | _ =>
      match a with
      | APixels l => if Nat.eqb (length l) nb_pixels then Ok a else Err AssertionError
      | AComponents l =>
          if Nat.eqb (length l) (nb_pixels * nc)
          then Ok (if Nat.eqb nb_pixels 1 then AChannels l else a) else Err AssertionError
      | _ => Ok a
      end
  end.

(** blend.py:93-261 blend_alpha_ for uint8 images: the blended image and the
    content of the array [image_bg] after the call. *)
Definition blend_uint8 (eps : Q) (nc : nat) (fg bg : list Z) (a : alphas) : res (list Z * list Z) :=
  if negb (Nat.eqb (length fg) (length bg)) then Err AssertionError
  else if Nat.eqb (length fg) 0 then Ok (fg, bg)
  else
    do a' <- normalize_alphas nc (length fg / nc) a;
    if forallb (fun q => qleb (1 - eps) q) (values a') then Ok (fg, bg)
    else if forallb (fun q => qleb q eps) (values a') then Ok (bg, bg)
    else
      let first := hd 0%Q (values a') in
      if negb (qleb 0 first && qleb first 1) then Err AssertionError
      else
        let single := map (fun p => let '(i, (f, b)) := p in add_weighted f b (lookup_alpha nc a' i))
                          (indexed (combine fg bg)) in
        let elementwise := map (fun p => let '(i, (f, b)) := p in multiply_add f b (lookup_alpha nc a' i))
                               (indexed (combine fg bg)) in
        let bg_mul := map (fun p => sat8 (inject_Z (snd p) * (1 - lookup_alpha nc a' (fst p)))%Q) (indexed bg) in
        match a' with
        | ASingle _ => Ok (single, bg)
        | AChannels l => if Nat.eqb (length l) nc then Ok (single, bg) else Err GenericException
        | APixels _ =>
            Ok (elementwise, if Nat.leb (64 * 64) (length fg / nc) then bg else bg_mul)
        | AComponents _ =>
            Ok (elementwise, if Nat.eqb nc 1 && Nat.leb (64 * 64) (length fg / nc) then bg else bg_mul)
        end.

(** blend.py:348-395 _blend_alpha_non_uint8 for one component, before the
    conversion to the result's dtype. *)
Definition blend_float (f b : Z) (a : Q) : Q := ((inject_Z f - inject_Z b) * a + inject_Z b)%Q.

(** blend.py:93-261 blend_alpha_ for other integer images (rounded) and for
    boolean images (as 0 and 1; no early return, [> 0.5] at the end). *)
Definition blend_other (is_bool : bool) (eps : Q) (nc : nat) (fg bg : list Z) (a : alphas) : res (list Z) :=
  if negb (Nat.eqb (length fg) (length bg)) then Err AssertionError
  else if Nat.eqb (length fg) 0 then Ok fg
  else
    do a' <- normalize_alphas nc (length fg / nc) a;
    if negb is_bool && forallb (fun q => qleb (1 - eps) q) (values a') then Ok fg
    else if negb is_bool && forallb (fun q => qleb q eps) (values a') then Ok bg
    else
      let first := hd 0%Q (values a') in
      if negb (Nat.eqb (length (values a')) 0) && negb (qleb 0 first && qleb first 1) then Err AssertionError
      else
        let conv q := if is_bool then (if qltb (1 # 2) q then 1 else 0) else np_round q in
        let r := map (fun p => let '(i, (f, b)) := p in conv (blend_float f b (lookup_alpha nc a' i)))
                     (indexed (combine fg bg)) in
        match a' with
        | AChannels l => if Nat.eqb (length l) nc then Ok r else Err ValueError
        | _ => Ok r
        end.

(** ** Choosing annotations *)

(** blend.py:634-645 [np.average]. *)
Definition average (l : list Q) : Q := (fold_right Qplus 0 l / inject_Z (Z.of_nat (length l)))%Q.

(** blend.py:634-645: the alpha(s) of one row of BlendAlpha. *)
Definition row_alphas (per_channel : Q) (nb_channels : nat) (drawn : list Q) : list Q :=
  if qltb (1 # 2) per_channel then firstn nb_channels drawn
  else match drawn with q :: _ => [q] | [] => [0%Q] end.

(** blend.py:634-664: the annotations of one row: in every column the cell of
    the foreground or of the background branch. *)
Definition blend_row {B} (per_channel : Q) (nb_channels : nat) (drawn : list Q)
    (cells_fg cells_bg : list B) : list B :=
  if qleb (1 # 2) (average (row_alphas per_channel nb_channels drawn)) then cells_fg else cells_bg.

(** A mask of shape (H, W) or (H, W, C): the list of values at each pixel. [blend.py:698 and following, the masks of BlendAlphaMask] *)
Definition mask := arr (list Q).

(** All pixels of an array, row by row. [helper: iteration over a mask (971-973) (blend.py)] *)
Definition rows_of {A} (a : arr A) : list A :=
  flat_map (fun y => map (fun x => apx a (Z.of_nat y) (Z.of_nat x)) (seq 0 (Z.to_nat (aw a))))
    (seq 0 (Z.to_nat (ah a))).

(** blend.py:955-957, 971-973: [np.average] of the mask values, 1.0 if there are none. *)
Definition average_or_1 (l : list Q) : Q := match l with [] => 1%Q | _ => average l end.

(** blend.py:936-962 pointwise mode for one point. *)
Definition blend_point (m : mask) (p fg bg : point) : point :=
  let x := np_round (fst p) in
  let y := np_round (snd p) in
  if (0 <=? y) && (y <? ah m) && (0 <=? x) && (x <? aw m)
  then if qltb (1 # 2) (average_or_1 (apx m y x)) then fg else bg
  else (inject_Z x, inject_Z y).

(** blend.py:892-979 _blend_coordinates on the coordinates. *)
Definition blend_coordinates (pointwise : bool) (m : mask) (ps fg bg : list point) : res (list point) :=
  if negb (Nat.eqb (length ps) (length fg) && Nat.eqb (length fg) (length bg)) then Err AssertionError
  else if pointwise
  then Ok (map (fun q => let '(p, (f, b)) := q in blend_point m p f b) (combine ps (combine fg bg)))
  else Ok (if qltb (1 # 2) (average_or_1 (concat (rows_of m))) then fg else bg).

(** blend.py:892-912 _binarize_mask for maps of the mask's size (resizing is
    then the identity), followed by blend_alpha_ on the maps' values: one cell
    of a heatmap or segmentation map. *)
Definition blend_map_cell {B} (m : mask) (y x : Z) (fg bg : B) : B :=
  if qleb (1 # 2) (qclip (average_or_1 (apx m y x)) 0 1) then fg else bg.

(** ** Mask generators *)

(** [np.linspace(start, stop, num)]. *)
Definition linspace (start stop : Q) (num : Z) : list Q :=
  if num =? 1 then [start]
  else map (fun i => (start + (stop - start) * (inject_Z (Z.of_nat i) / inject_Z (num - 1)))%Q)
           (seq 0 (Z.to_nat num)).

(** blend.py:3033-3066 _LinearGradientMaskGen._generate_mask: the values along
    the axis. *)
Definition gradient (axis_size : Z) (min_value max_value start_at end_at : Q) : list Q :=
  let min_value := qmin (qmax min_value 0) 1 in
  let max_value := qmin (qmax max_value 0) 1 in
  let s := Z.min (Z.max (py_int (start_at * inject_Z axis_size)) 0) axis_size in
  let e := Z.min (Z.max (py_int (end_at * inject_Z axis_size)) 0) axis_size in
  let inverted := e <? s in
  let s' := if inverted then e else s in
  let e' := if inverted then s else e in
  let l := repeat min_value (Z.to_nat s') ++ linspace min_value max_value (e' - s')
           ++ repeat max_value (Z.to_nat (axis_size - e')) in
  if inverted then map (fun v => 1 - v)%Q l else l.

(** blend.py:3401-3436 RegularGridMaskGen.generate_mask. [alphas]: the values
    row by row. *)
Definition grid_mask (height width nb_rows nb_cols : Z) (alphas : list Q) : res (arr Q) :=
  if (height =? 0) || (width =? 0) then Ok (mkArr height width (fun _ _ => 0%Q))
  else
    let nb_rows := Z.min (Z.max nb_rows 1) height in
    let nb_cols := Z.min (Z.max nb_cols 1) width in
    let cell_height := height / nb_rows in
    let cell_width := width / nb_cols in
    let alphas := firstn (Z.to_nat (nb_rows * nb_cols)) alphas in
    if negb (Nat.eqb (length alphas) (Z.to_nat (nb_rows * nb_cols))) then Err AssertionError
    else
      let mask := mkArr (nb_rows * cell_height) (nb_cols * cell_width) (fun y x =>
        nth (Z.to_nat ((y / cell_height) * nb_cols + x / cell_width)) alphas 0%Q) in
      let missing_height := height - ah mask in
      let missing_width := width - aw mask in
      let top := missing_height / 2 in
      let left := missing_width / 2 in
      Ok (copy_make_border mask
            (mkTrbl top (missing_width - left) (missing_height - top) left) PMReflect 0%Q).

(** blend.py:3542-3553 CheckerboardMaskGen.generate_mask. *)
Definition checkerboard_alphas (nb_rows nb_cols : Z) : list Q :=
  let row := map (fun j => if Nat.even j then 0%Q else 1%Q) (seq 0 (Z.to_nat nb_cols)) in
  flat_map (fun i => if Nat.even i then map (fun a => 1 - a)%Q row else row) (seq 0 (Z.to_nat nb_rows)).
(** blend.py:3542-3553. *)
Definition checkerboard_mask (height width nb_rows nb_cols : Z) : res (arr Q) :=
  if (height =? 0) || (width =? 0) then Ok (mkArr height width (fun _ _ => 0%Q))
  else
    let nb_rows := Z.min (Z.max nb_rows 1) height in
    let nb_cols := Z.min (Z.max nb_cols 1) width in
    grid_mask height width nb_rows nb_cols (checkerboard_alphas nb_rows nb_cols).

(** blend.py:3688-3722 SegMapClassIdsMaskGen.generate_mask, before the
    resizing to the image's size. A map's cell is the list of its channels. *)
Definition class_id_mask (segmap : arr (list Z)) (class_ids : list Z) : arr Q :=
  mkArr (ah segmap) (aw segmap) (fun y x =>
    if fold_left (fun acc id => acc || existsb (Z.eqb id) (apx segmap y x)) class_ids false then 1%Q else 0%Q).

(** blend.py:3856-3893 BoundingBoxesMaskGen.generate_mask: boxes with their
    labels are painted one after the other. [labels]: [None] or a list. *)
Record labelled_box := mkLbox { l_x1 : Q; l_y1 : Q; l_x2 : Q; l_y2 : Q; l_label : option Z }.
(** blend.py:3877-3886, comparison of labels. *)
Definition label_eqb (a b : option Z) : bool :=
  match a, b with Some x, Some y => x =? y | None, None => true | _, _ => false end.
(** blend.py:3877-3893. *)
Definition paint_box (height width : Z) (labels : option (list (option Z))) (m : Z -> Z -> Q) (b : labelled_box)
  : Z -> Z -> Q :=
  let wanted := match labels with None => true | Some ls => existsb (label_eqb (l_label b)) ls end in
  if wanted then
    let x1 := Z.min (Z.max (py_int (l_x1 b)) 0) width in
    let y1 := Z.min (Z.max (py_int (l_y1 b)) 0) height in
    let x2 := Z.min (Z.max (py_int (l_x2 b)) 0) width in
    let y2 := Z.min (Z.max (py_int (l_y2 b)) 0) height in
    if (x1 <? x2) && (y1 <? y2)
    then fun y x => if (y1 <=? y) && (y <? y2) && (x1 <=? x) && (x <? x2) then 1%Q else m y x
    else m
  else m.
(** blend.py:3856-3893. *)
Definition box_mask (height width : Z) (boxes : list labelled_box) (labels : option (list (option Z))) : arr Q :=
  mkArr height width (fold_left (paint_box height width labels) boxes (fun _ _ => 0%Q)).

(** blend.py:3929-3934 InvertMaskGen. *)
Definition invert_mask (p : Q) (m : arr Q) : arr Q :=
  if qleb (1 # 2) p then mkArr (ah m) (aw m) (fun y x => 1 - apx m y x)%Q else m.

(** blend.py:37-43 _split_1d_array_to_list, used to distribute samples. *)
Fixpoint split_list {A} (l : list A) (sizes : list nat) (i : nat) : list (list A) :=
  match sizes with
  | [] => []
  | s :: sizes' => firstn s (skipn i l) :: split_list l sizes' (i + s)
  end.
