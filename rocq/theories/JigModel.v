(** Model of the jigsaw augmentation (imgaug/augmenters/geometric.py). *)
From Verif Require Import Prelude GeoModel SizeModel UtilModel.

(** The cells (row, column) of a grid in the order of the nested loops
    [for y in arange(nb_rows): for x in arange(nb_cols)]. [geometric.py:442-447, 584-586] *)
Definition cells (nb_rows nb_cols : Z) : list (Z * Z) :=
  flat_map (fun y => map (fun x => (y, x)) (zrange nb_cols)) (zrange nb_rows).

(** [grid[y, x] = v]. [geometric.py:584-614] *)
Definition put (f : Z -> Z -> Z) (y x v : Z) : Z -> Z -> Z :=
  fun y' x' => if (y' =? y) && (x' =? x) then v else f y' x'.

(** geometric.py:588-597: the cell next to (y, x) in the given direction. The
    drawn directions are 0..3 (connectivity 4) or 0..7 (connectivity 8); the
    KeyError for other numbers is not modelled (read as 7). *)
Definition direction_target (d y x : Z) : Z * Z :=
  match d with
  | 0 => (y - 1, x) | 1 => (y, x + 1) | 2 => (y + 1, x) | 3 => (y, x - 1)
  | 4 => (y - 1, x - 1) | 5 => (y - 1, x + 1) | 6 => (y + 1, x + 1) | _ => (y + 1, x - 1)
  end.

(** The two arrays changed by the loop of [generate_jigsaw_destinations]. [geometric.py:542-616] *)
Record jstate := mkJs { js_steps : Z -> Z -> Z; js_dest : Z -> Z -> Z }.

(** geometric.py:584-614: one iteration of the inner loop at the cell (y, x). *)
Definition jigsaw_step (nb_rows nb_cols : Z) (directions_step : Z -> Z -> Z) (s : jstate) (c : Z * Z) : jstate :=
  let '(y, x) := c in
  if 0 <? js_steps s y x
  then
    let '(y_target, x_target) := direction_target (directions_step y x) y x in
    let y_target := Z.max (Z.min y_target (nb_rows - 1)) 0 in
    let x_target := Z.max (Z.min x_target (nb_cols - 1)) 0 in
    let target_steps := js_steps s y_target x_target in
    if negb ((y =? y_target) && (x =? x_target)) && (1 <=? target_steps)
    then
      let source_dest := js_dest s y x in
      let target_dest := js_dest s y_target x_target in
      let dest := put (js_dest s) y x target_dest in
      let dest := put dest y_target x_target source_dest in
      let steps := put (js_steps s) y x (js_steps s y x - 1) in
      let steps := put steps y_target x_target (steps y_target x_target - 1) in
      mkJs steps dest
    else s
  else s.

(** geometric.py:542-616 [generate_jigsaw_destinations]. The drawn arrays
    [steps] (values in [0, max_steps]) and [directions] (indexed by row,
    column and step) are parameters. *)
Definition generate_jigsaw_destinations (nb_rows nb_cols : Z) (max_steps : nat)
  (steps : Z -> Z -> Z) (directions : Z -> Z -> nat -> Z) : arr Z :=
  let s := fold_left
    (fun s step => fold_left (jigsaw_step nb_rows nb_cols (fun y x => directions y x step)) (cells nb_rows nb_cols) s)
    (seq 0 max_steps) (mkJs steps (fun y x => y * nb_cols + x)) in
  mkArr nb_rows nb_cols (js_dest s).

(** [np.unravel_index(destinations.flatten(), (nb_rows, nb_cols))] succeeds. *)
Definition unravels (d : arr Z) : bool :=
  forallb (fun c => (0 <=? apx d (fst c) (snd c)) && (apx d (fst c) (snd c) <? ah d * aw d)) (cells (ah d) (aw d)).

(** geometric.py:442-472: one iteration, copying the cell [c] of [a] to its
    destination in [result]. *)
Definition copy_cell {A} (a : arr A) (d : arr Z) (cell_height cell_width : Z) (result : Z -> Z -> A) (c : Z * Z)
  : Z -> Z -> A :=
  let '(source_row, source_col) := c in
  let dest_row := apx d source_row source_col / aw d in
  let dest_col := apx d source_row source_col mod aw d in
  let source_y1 := source_row * cell_height in
  let source_x1 := source_col * cell_width in
  let dest_y1 := dest_row * cell_height in
  let dest_y2 := dest_y1 + cell_height in
  let dest_x1 := dest_col * cell_width in
  let dest_x2 := dest_x1 + cell_width in
  fun y x => if (dest_y1 <=? y) && (y <? dest_y2) && ((dest_x1 <=? x) && (x <? dest_x2))
             then apx a (source_y1 + (y - dest_y1)) (source_x1 + (x - dest_x1))
             else result y x.

(** geometric.py:386-474 [apply_jigsaw]. Pixels may be of any type; [zero] is
    the pixel of [np.zeros_like]. A modulo by zero raises ZeroDivisionError,
    [np.unravel_index] a ValueError. *)
Definition apply_jigsaw {A} (zero : A) (a : arr A) (d : arr Z) : res (arr A) :=
  let nb_rows := ah d in
  let nb_cols := aw d in
  if nb_rows =? 0 then Err GenericException
  else if negb (ah a mod nb_rows =? 0) then Err AssertionError
  else if nb_cols =? 0 then Err GenericException
  else if negb (aw a mod nb_cols =? 0) then Err AssertionError
  else if negb (unravels d) then Err ValueError
  else
    let cell_height := ah a / nb_rows in
    let cell_width := aw a / nb_cols in
    Ok (mkArr (ah a) (aw a)
          (fold_left (copy_cell a d cell_height cell_width) (cells nb_rows nb_cols) (fun _ _ => zero))).

(** geometric.py:518-537: one coordinate pair. [y // 0] is nan, whose
    conversion to int raises a ValueError. The destinations are addressed by the
    index [row * nb_cols + col] in the flattened array. *)
Definition jigsaw_coord (d : arr Z) (height width : Z) (p : keypoint) : res keypoint :=
  let nb_rows := ah d in
  let nb_cols := aw d in
  let cell_height := height / nb_rows in
  let cell_width := width / nb_cols in
  let x := kx p in
  let y := ky p in
  let ooi_x := qltb x 0 || qleb (inject_Z width) x in
  let ooi_y := qltb y 0 || qleb (inject_Z height) y in
  if ooi_x || ooi_y then Ok p
  else if (cell_height =? 0) || (cell_width =? 0) then Err ValueError
  else
    let source_row := Qfloor (y / inject_Z cell_height) in
    let source_col := Qfloor (x / inject_Z cell_width) in
    let source_cell_idx := source_row * nb_cols + source_col in
    if nb_rows * nb_cols <=? source_cell_idx then Err IndexError
    else
      let dest := apx d (source_cell_idx / nb_cols) (source_cell_idx mod nb_cols) in
      let dest_row := dest / nb_cols in
      let dest_col := dest mod nb_cols in
      let source_y1 := source_row * cell_height in
      let source_x1 := source_col * cell_width in
      let dest_y1 := dest_row * cell_height in
      let dest_x1 := dest_col * cell_width in
      Ok (mkKp (inject_Z dest_x1 + (x - inject_Z source_x1))%Q (inject_Z dest_y1 + (y - inject_Z source_y1))%Q).

(** geometric.py:477-539 [apply_jigsaw_to_coords]. *)
Definition apply_jigsaw_to_coords (ps : list keypoint) (d : arr Z) (s : shape2) : res (list keypoint) :=
  if (ah d =? 0) || (aw d =? 0) then Err GenericException
  else if negb (unravels d) then Err ValueError
  else mapM (jigsaw_coord d (fst s) (snd s)) ps.

(** geometric.py:6054-6071 with size.py:3551-3574: the padding of one row by
    [CenterPadToMultiplesOf(width_multiple=nb_cols, height_multiple=nb_rows)]
    (position "center" = 1/2, 1/2). *)
Definition jigsaw_paddings (allow_pad : bool) (s : shape2) (d : arr Z) : res trbl :=
  if allow_pad then pad_to_multiples_amounts s (Some (ah d)) (Some (aw d)) (1 # 2) (1 # 2)
  else Ok (mkTrbl 0 0 0 0).

(** geometric.py:6046-6116 [Jigsaw._augment_batch_] for the image of one row,
    given its destinations. Padding is constant with value zero. *)
Definition jigsaw_image {A} (zero : A) (allow_pad : bool) (a : arr A) (d : arr Z) : res (arr A) :=
  do p <- jigsaw_paddings allow_pad (ah a, aw a) d;
  apply_jigsaw zero (copy_make_border a p PMConstant zero) d.

(** ... for the keypoints of one row: padded like the image (no cropping, no
    keep_size), then moved (geometric.py:6085-6092). *)
Definition jigsaw_keypoints (allow_pad : bool) (k : kpsoi) (d : arr Z) : res kpsoi :=
  do p <- jigsaw_paddings allow_pad (kps_shape k) d;
  do padded <- crop_and_pad_kpsoi k (mkTrbl 0 0 0 0) p false;
  do ps <- apply_jigsaw_to_coords (kps padded) d (kps_shape padded);
  Ok (mkKpsoi ps (kps_shape padded)).

(** ... for a heatmap or segmentation map of one row (6052, 6073-6083, 6116):
    resized to the image's size, padded, moved, resized back. [resize] is cv2's
    resizing. The map's [shape] is the padded one (returned as second
    component). Simplification: the map's own shape is that of the image. *)
Definition jigsaw_map {A} (zero : A) (resize : arr A -> shape2 -> arr A) (allow_pad : bool) (a : arr A) (s : shape2)
  (d : arr Z) : res (arr A * shape2) :=
  let resized := resize a s in
  do p <- jigsaw_paddings allow_pad s d;
  let padded := copy_make_border resized p PMConstant zero in
  do moved <- apply_jigsaw zero padded d;
  Ok (resize moved (ah a, aw a), (fst s + t_top p + t_bottom p, snd s + t_left p + t_right p)).
