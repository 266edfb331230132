(** Model of helper functions of imgaug/imgaug.py: pooling, lookup tables,
    draw_grid, flatten, compute_line_intersection_point. *)
From Verif Require Import Prelude SizeModel.

(* ------------------------------------------------------------------ *)
(** * Pooling *)

(** 0, 1, ..., n-1 [[range(n)], [np.arange(n)] (imgaug.py)] *)
Definition zrange (n : Z) : list Z := map Z.of_nat (seq 0 (Z.to_nat n)).

(** [np.max] / [np.min] of a non-empty list of values; [op] is [Z.max] or [Z.min]. *)
Definition reduce (op : Z -> Z -> Z) (vs : list Z) : Z :=
  match vs with [] => 0 | v :: vs' => fold_left op vs' v end.

(** [cv2.flip(arr, -1)]. *)
Definition flip_both {A} (a : arr A) : arr A :=
  mkArr (ah a) (aw a) (fun y x => apx a (ah a - 1 - y) (aw a - 1 - x)).

(** External: [cv2.dilate] ([op = Z.max]) and [cv2.erode] ([op = Z.min]) with a
    [kh] x [kw] kernel of ones, anchor (kw/2, kh/2); positions outside of the
    image do not count (morphologyDefaultBorderValue). *)
Definition morph (op : Z -> Z -> Z) (kh kw : Z) (a : arr Z) : arr Z :=
  mkArr (ah a) (aw a) (fun y x =>
    reduce op (flat_map (fun j => flat_map (fun i =>
      let y' := y + j - kh / 2 in
      let x' := x + i - kw / 2 in
      if (0 <=? y') && (y' <? ah a) && (0 <=? x') && (x' <? aw a) then [apx a y' x'] else [])
      (zrange kw)) (zrange kh))).

(** [arr[sy::ky, sx::kx]]. [imgaug.py:1641-1672] *)
Definition stride (sy ky sx kx : Z) {A} (a : arr A) : arr A :=
  mkArr ((ah a - sy + ky - 1) / ky) ((aw a - sx + kx - 1) / kx) (fun y x => apx a (sy + y * ky) (sx + x * kx)).

(** size.py:618-710 [pad_to_multiples_of] for one channel of dtype range
    [lo, hi]: compute the amounts, then [pad] (363-568). *)
Definition pad_to_multiples (lo hi : Z) (kh kw : Z) (mode : pad_mode) (cval : Z) (a : arr Z) : res (arr Z) :=
  do p <- paddings_multiples_of (ah a, aw a) (Some kh) (Some kw);
  Ok (copy_make_border a p mode (Z.max (Z.min cval hi) lo)).

(** imgaug.py:1641-1672 [_minmax_pool_uint8_], one channel (cv2 treats the
    channels separately); [np.ones] with a negative size raises ValueError. *)
Definition minmax_pool_uint8 (op : Z -> Z -> Z) (kh kw : Z) (mode : pad_mode) (cval : Z) (a : arr Z) : res (arr Z) :=
  do p <- (if negb (ah a mod kh =? 0) || negb (aw a mod kw =? 0)
           then pad_to_multiples 0 255 kh kw mode cval a else Ok a);
  if (kh <? 0) || (kw <? 0) then Err ValueError
  else Ok (stride ((kh - 1) / 2) kh ((kw - 1) / 2) kw (flip_both (morph op kh kw (flip_both p)))).

(** imgaug.py:1182-1292 [pool] with a block size of two values, one channel.
    [skimage.measure.block_reduce] applies the function to every block. *)
Definition pool (lo hi : Z) (op : Z -> Z -> Z) (kh kw : Z) (mode : pad_mode) (cval : Z) (a : arr Z) : res (arr Z) :=
  do p <- pad_to_multiples lo hi kh kw mode cval a;
  Ok (mkArr (ah p / kh) (aw p / kw) (fun y x =>
    reduce op (flat_map (fun j => map (fun i => apx p (y * kh + j) (x * kw + i)) (zrange kw)) (zrange kh)))).

(** imgaug.py:1297-1330 [_pool_dispatcher_] with a block size of two values;
    [uint8]: the dtype, with range [lo, hi] otherwise. A channel of an image with
    [nb_channels] channels. *)
Definition pool_dispatch (uint8 : bool) (lo hi : Z) (nb_channels : Z) (op : Z -> Z -> Z) (kh kw : Z)
  (mode : pad_mode) (cval : Z) (a : arr Z) : res (arr Z) :=
  if (kh =? 0) || (kw =? 0) then Ok a
  else if uint8 && (nb_channels <=? 512) && negb ((ah a =? 0) || (aw a =? 0))
  then minmax_pool_uint8 op kh kw mode cval a
  else if (ah a =? 0) || (aw a =? 0) then Ok a
  else pool (if uint8 then 0 else lo) (if uint8 then 255 else hi) op kh kw mode cval a.

(** imgaug.py:1436-1640 [max_pool], [max_pool_], [min_pool], [min_pool_]. *)
Definition max_pool (uint8 : bool) (lo hi nb_channels kh kw : Z) (mode : pad_mode) (cval : Z) (a : arr Z) :=
  pool_dispatch uint8 lo hi nb_channels Z.max kh kw mode cval a.
(** imgaug.py:1540-1640. *)
Definition min_pool (uint8 : bool) (lo hi nb_channels kh kw : Z) (mode : pad_mode) (cval : Z) (a : arr Z) :=
  pool_dispatch uint8 lo hi nb_channels Z.min kh kw mode cval a.

(* ------------------------------------------------------------------ *)
(** * Lookup tables *)

(** The forms of the argument [table]: a (256,) array, a (256, C) array as list
    of its rows, a (1, 256, C) array as list of its rows, a list of arrays. *)
Inductive lut := LFlat (t : list Z) | LRows (rows : list (list Z)) | LRows3 (rows : list (list Z)) | LList (ts : list (list Z)).

(** Value of [t] at index [v], rows at index [v]. [imgaug.py:2076-2120] *)
Definition at_ (t : list Z) (v : Z) : Z := nth (Z.to_nat v) t 0.
(** imgaug.py:2076-2120. *)
Definition row_ (rows : list (list Z)) (v : Z) : list Z := nth (Z.to_nat v) rows [].

(** [np.stack(ts, axis=-1)] of arrays of length [n]: the rows. *)
Definition stack_last (n : nat) (ts : list (list Z)) : list (list Z) :=
  map (fun v => map (fun t => nth v t 0) ts) (seq 0 n).

(** External: [cv2.LUT] on an image whose pixels are the lists of channel
    values: a one-channel table is used for all channels, otherwise channel c
    uses column c. *)
Definition cv2_lut_px (rows : list (list Z)) (px : list Z) : list Z :=
  map (fun cv => match row_ rows (snd cv) with [t] => t | row => nth (fst cv) row 0 end) (combine (seq 0 (length px)) px).

(** Shape of a list of rows: (length, C) if all rows have length C. [imgaug.py:2076-2120] *)
Definition rows_shape (n : nat) (rows : list (list Z)) : bool :=
  Nat.eqb (length rows) 256 && forallb (fun r => Nat.eqb (length r) n) rows.

(** imgaug.py:2076-2120 [apply_lut_] for a uint8 image of shape (H,W,C) with
    [nc] = C (or (H,W), [nc] = 1). The groups of 512 channels satisfy the
    assertions of the recursive calls. *)
Definition apply_lut (nc : nat) (im : arr (list Z)) (table : lut) : res (arr (list Z)) :=
  if (ah im =? 0) || (aw im =? 0) || Nat.eqb nc 0 then Ok im
  else
    do t <- match table with
            | LList ts =>
                if negb (Nat.eqb (length ts) nc) then Err AssertionError
                else if forallb (fun t => Nat.eqb (length t) 256) ts then Ok (LRows3 (stack_last 256 ts))
                else Err AssertionError
            | LRows rows => if rows_shape nc rows then Ok (LRows3 rows) else Err AssertionError
            | LRows3 rows => if rows_shape nc rows then Ok (LRows3 rows) else Err AssertionError
            | LFlat t => if Nat.eqb (length t) 256 then Ok (LFlat t) else Err AssertionError
            end;
    let rows := match t with
                | LRows3 rows => rows
                | LFlat t => if Nat.ltb 512 nc then map (fun v => repeat v nc) t else map (fun v => [v]) t
                | LRows rows | LList rows => rows
                end in
    if Nat.ltb 512 nc
    then Ok (mkArr (ah im) (aw im) (fun y x =>
           concat (map (fun g =>
             cv2_lut_px (map (fun r => firstn 512 (skipn (g * 512) r)) rows) (firstn 512 (skipn (g * 512) (apx im y x))))
             (seq 0 ((nc + 511) / 512)))))
    else Ok (mkArr (ah im) (aw im) (fun y x => cv2_lut_px rows (apx im y x))).

(* ------------------------------------------------------------------ *)
(** * draw_grid *)

(** Smallest integer r with r * r >= n: [int(math.ceil(math.sqrt(n)))] (exact for
    n < 2^52). [int(math.ceil(n / r))]: ceiling division. *)
Definition ceil_sqrt (n : Z) : Z := Z.sqrt_up n.
(** imgaug.py:1856-1861. *)
Definition ceil_div (n r : Z) : Z := - ((- n) / r).

(** [grid[y1:y1+h, x1:x1+w, :] = image]. [imgaug.py:1871-1882] *)
Definition paste {A} (grid : arr A) (y1 x1 : Z) (im : arr A) : arr A :=
  mkArr (ah grid) (aw grid) (fun y x =>
    if (y1 <=? y) && (y <? y1 + ah im) && (x1 <=? x) && (x <? x1 + aw im) then apx im (y - y1) (x - x1)
    else apx grid y x).

(** imgaug.py:1856-1861: number of rows and columns. [GenericException] is a
    ZeroDivisionError. *)
Definition grid_size (n : Z) (rows cols : option Z) : res (Z * Z) :=
  match rows, cols with
  | None, None => Ok (ceil_sqrt n, ceil_sqrt n)
  | Some r, _ => if r =? 0 then Err GenericException else Ok (r, ceil_div n r)
  | None, Some c => if c =? 0 then Err GenericException else Ok (ceil_div n c, c)
  end.

(** imgaug.py:1779-1883 [draw_grid]: images with the same number of channels and
    the same dtype; [zero] is a pixel of zeros. *)
Definition draw_grid {A} (zero : A) (images : list (arr A)) (rows cols : option Z) : res (arr A) :=
  let n := Z.of_nat (length images) in
  if n =? 0 then Err AssertionError
  else
    let cell_height := fold_right Z.max 0 (map ah images) in
    let cell_width := fold_right Z.max 0 (map aw images) in
    do rc <- grid_size n rows cols;
    let '(r, c) := rc in
    if negb (n <=? r * c) then Err AssertionError
    else if (cell_height * r <? 0) || (cell_width * c <? 0) then Err ValueError
    else Ok (fst (fold_left (fun st cell =>
               let '(grid, cell_idx) := st in
               (match nth_error images cell_idx with
                | Some im => paste grid (cell_height * fst cell) (cell_width * snd cell) im
                | None => grid
                end, S cell_idx))
             (flat_map (fun row_idx => map (fun col_idx => (row_idx, col_idx)) (zrange c)) (zrange r))
             (mkArr (cell_height * r) (cell_width * c) (fun _ _ => zero), O))).

(* ------------------------------------------------------------------ *)
(** * flatten *)

(** Nested lists and tuples ([tup]: tuple); everything else is a leaf. [imgaug.py:426-452] *)
Inductive nested (V : Type) := Leaf (v : V) | Node (tup : bool) (ts : list (nested V)).
Arguments Leaf {V} v.
Arguments Node {V} tup ts.
(** imgaug.py:426-452 [flatten], the list of yielded values. *)
Fixpoint flatten {V} (t : nested V) : list V :=
  match t with
  | Leaf v => [v]
  | Node _ ts => flat_map (fun i => match i with Leaf v => [v] | Node _ _ => flatten i end) ts
  end.

(* ------------------------------------------------------------------ *)
(** * Line intersection *)

(** imgaug.py:765-769 [_make_line]. *)
Definition make_line (p1 p2 : Q * Q) : Q * Q * Q :=
  (snd p1 - snd p2, fst p2 - fst p1, - (fst p1 * snd p2 - fst p2 * snd p1))%Q.
(** imgaug.py:721-785 [compute_line_intersection_point], [None] for False. *)
Definition line_intersection (x1 y1 x2 y2 x3 y3 x4 y4 : Q) : option (Q * Q) :=
  let '(a1, b1, c1) := make_line (x1, y1) (x2, y2) in
  let '(a2, b2, c2) := make_line (x3, y3) (x4, y4) in
  let D := (a1 * b2 - b1 * a2)%Q in
  let Dx := (c1 * b2 - b1 * c2)%Q in
  let Dy := (a1 * c2 - c1 * a2)%Q in
  if negb (qeqb D 0) then Some (Dx / D, Dy / D)%Q else None.
