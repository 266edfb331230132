(** Model of imgaug/augmenters/arithmetic.py: cutout_ and Cutout,
    replace_elementwise_ and ReplaceElementwise, Dropout2d, TotalDropout.

    Simplifications: coordinates and samples are exact numbers; the conversion
    of fill values to the image's dtype is a parameter; random numbers are
    given as the lists that were drawn. *)
From Verif Require Import Prelude.

(** ** Cutout *)

(** A pixel of a (H, W, C) image is the list of its C components. (H, W)
    images are those with one component per pixel and [two_dims]. [images as used in 912-1108 (arithmetic.py)] *)
Definition pixel := list Z.

Section Cutout.
(** numpy's conversion of a fill value to the dtype of the image. *)
Variable cast : Q -> Z.

(** arithmetic.py:1092 the parameter [cval]: a number or an iterable. *)
Inductive fill_value := One (q : Q) | Many (qs : list Q).

(** [np.tile(cval, (mul,))]. *)
Definition tile (mul : nat) (qs : list Q) : list Q := concat (repeat qs mul).

(** [image[y1:y2, x1:x2, ...] = cval]: assigning a number, or one value per
    channel (numpy broadcasts lists of length 1). *)
Definition assigned (nc : nat) (v : fill_value) : res pixel :=
  match v with
  | One q => Ok (repeat (cast q) nc)
  | Many [q] => Ok (repeat (cast q) nc)
  | Many qs => if Nat.eqb (length qs) nc then Ok (map cast qs) else Err ValueError
  end.

(** arithmetic.py:1092-1104: an empty iterable divides by zero. *)
Definition first (qs : list Q) : res fill_value :=
  match qs with q :: _ => Ok (One q) | [] => Err IndexError end.

(** arithmetic.py:1092-1104: the value(s) that are assigned. An empty [cval]
    divides by zero (an exception without a name of its own here). *)
Definition constant_value (two_dims : bool) (nc : nat) (v : fill_value) (per_channel : bool) : res fill_value :=
  match v with
  | One q => Ok (One q)
  | Many qs =>
      if per_channel then
        if two_dims then first qs
        else if Nat.ltb (length qs) nc then
          match qs with
          | [] => Err GenericException
          | _ => Ok (Many (firstn nc (tile (Nat.div (nc + length qs - 1) (length qs)) qs)))
          end
        else Ok (Many (firstn nc qs))
      else first qs
  end.

(** The pixels of [y1:y2, x1:x2] replaced. [arithmetic.py:1066-1108] *)
Definition set_rect (im : arr pixel) (x1 y1 x2 y2 : Z) (f : Z -> Z -> pixel) : arr pixel :=
  mkArr (ah im) (aw im) (fun y x =>
    if (y1 <=? y) && (y <? y2) && (x1 <=? x) && (x <? x2) then f y x else apx im y x).

(** arithmetic.py:1066-1108 _fill_rectangle_constant_. *)
Definition fill_constant (two_dims : bool) (nc : nat) (im : arr pixel) (x1 y1 x2 y2 : Z)
    (v : fill_value) (per_channel : bool) : res (arr pixel) :=
  do v' <- constant_value two_dims nc v per_channel;
  do p <- assigned nc v';
  Ok (set_rect im x1 y1 x2 y2 (fun _ _ => p)).

(** arithmetic.py:998-1063 _fill_rectangle_gaussian_. [noise y x c] are the
    normally distributed samples: one per component, or only those for [c] = 0
    if not [per_channel]. [lo], [hi]: value range of the dtype. *)
Definition fill_gaussian (nc : nat) (im : arr pixel) (x1 y1 x2 y2 : Z)
    (lo hi : Q) (noise : Z -> Z -> nat -> Q) (per_channel : bool) : arr pixel :=
  set_rect im x1 y1 x2 y2 (fun y x =>
    map (fun c => cast (qclip (noise (y - y1) (x - x1) (if per_channel then c else 0%nat)) lo hi)) (seq 0 nc)).

(** arithmetic.py:56-59 the keys of _CUTOUT_FILL_MODES, or something else. *)
Inductive fill_mode := Constant | Gaussian | Unknown.

(** arithmetic.py:912-996, the arguments of the fill modes. *)
Record fill := mkFill {
  f_mode : fill_mode; f_value : fill_value; f_per_channel : Q;
  f_noise : Z -> Z -> nat -> Q }.

(** arithmetic.py:912-996 cutout_. *)
Definition cutout (two_dims : bool) (nc : nat) (lo hi : Q) (im : arr pixel) (x1 y1 x2 y2 : Q) (f : fill)
  : res (arr pixel) :=
  let height := ah im in
  let width := aw im in
  let x1 := Z.min (Z.max (py_int x1) 0) width in
  let y1 := Z.min (Z.max (py_int y1) 0) height in
  let x2 := Z.min (Z.max (py_int x2) 0) width in
  let y2 := Z.min (Z.max (py_int y2) 0) height in
  if (x1 <? x2) && (y1 <? y2) then
    match f_mode f with
    | Constant => fill_constant two_dims nc im x1 y1 x2 y2 (f_value f) (qleb (1 # 2) (f_per_channel f))
    | Gaussian => Ok (fill_gaussian nc im x1 y1 x2 y2 lo hi (f_noise f) (qleb (1 # 2) (f_per_channel f)))
    | Unknown => Err AssertionError
    end
  else Ok im.

(** arithmetic.py:2767-2780, 2940-2964 one sampled area. Images in batches
    always have a channel axis. *)
Record area := mkArea { a_x : Q; a_y : Q; a_h : Q; a_w : Q; a_squared : Q; a_fill : fill }.

(** arithmetic.py:2888-2893, 2907-2911, 2972-2978: the corners (x1, y1, x2, y2)
    in pixels of an area in an image of the given size. *)
Definition corners (height width : Z) (a : area) : Q * Q * Q * Q :=
  let hh := (a_h a / 2)%Q in
  let wh := (a_w a / 2)%Q in
  let x1 := ((a_x a - wh) * inject_Z width)%Q in
  let y1 := ((a_y a - hh) * inject_Z height)%Q in
  let x2 := ((a_x a + wh) * inject_Z width)%Q in
  let y2 := ((a_y a + hh) * inject_Z height)%Q in
  if qleb (1 # 2) (a_squared a) then
    let height_h := ((y2 - y1) / 2)%Q in
    let x_center := (x1 + (x2 - x1) / 2)%Q in
    (x_center - height_h, y1, x_center + height_h, y2)%Q
  else (x1, y1, x2, y2).

(** arithmetic.py:2966-2989 _augment_image_by_samples. *)
Fixpoint cutout_image (nc : nat) (lo hi : Q) (im : arr pixel) (areas : list area) : res (arr pixel) :=
  match areas with
  | [] => Ok im
  | a :: rest =>
      let '(x1, y1, x2, y2) := corners (ah im) (aw im) a in
      do im' <- cutout false nc lo hi im x1 y1 x2 y2 (a_fill a);
      cutout_image nc lo hi im' rest
  end.

(** arithmetic.py:2895-2917: image by image, each takes the next
    [nb_iterations] of the samples drawn for the whole batch. *)
Fixpoint cutout_batch (lo hi : Q) (images : list (nat * arr pixel)) (nb_iterations : list nat)
    (samples : list area) (nb_iterations_sum : nat) : res (list (arr pixel)) :=
  match images, nb_iterations with
  | (nc, im) :: images', n :: ns =>
      do r <- cutout_image nc lo hi im (firstn n (skipn nb_iterations_sum samples));
      do rs <- cutout_batch lo hi images' ns samples (nb_iterations_sum + n);
      Ok (r :: rs)
  | _, _ => Ok []
  end.

End Cutout.

(** ** Replacing components *)

(** [image[mask] = values] for a boolean array of the image's shape: values
    are consumed in row-major order; numpy repeats a single value and raises
    if their number is wrong. *)
Fixpoint put (image : list Z) (mask : list bool) (values : list Z) : list Z :=
  match image, mask with
  | v :: image', true :: mask' =>
      match values with
      | u :: values' => u :: put image' mask' values'
      | [] => v :: put image' mask' []
      end
  | v :: image', false :: mask' => v :: put image' mask' values
  | _, _ => image
  end.
(** arithmetic.py:1121-1216, number of masked components. *)
Definition count_true (mask : list bool) : nat := length (filter (fun b => b) mask).
(** arithmetic.py:1121-1216, [image[mask] = values]. *)
Definition assign_masked (image : list Z) (mask : list bool) (values : list Z) : res (list Z) :=
  if Nat.eqb (length values) (count_true mask) then Ok (put image mask values)
  else match values with
       | [u] => Ok (put image mask (repeat u (count_true mask)))
       | _ => Err ValueError
       end.

(** arithmetic.py:1121-1216 replace_elementwise_ for images of boolean or
    integer dtype with range [lo, hi] and float samples. Images are flat lists
    in row-major order with [nc] components per pixel. [per_pixel]: the mask
    has one entry per pixel (its last axis has length 1). *)
Definition replace_elementwise (lo hi : Z) (nc : nat) (image : list Z) (per_pixel : bool)
    (mask : list Q) (replacements : list Q) : res (list Z) :=
  let thresh := map (fun m => qltb (1 # 2) m) mask in
  let thresh := if per_pixel then flat_map (fun b => repeat b nc) thresh else thresh in
  assign_masked image thresh (map (fun r => zclip (np_round r) lo hi) replacements).

(** [sum] of a list of samples. [arithmetic.py:3798-3828] *)
Definition qsum (l : list Q) : Q := fold_right Qplus 0%Q l.

(** arithmetic.py:3798-3828 ReplaceElementwise for one image: [draw_mask n],
    [draw_replacement n] are the first [n] samples of the parameters. The mask
    has [length image] or, if not [per_channel], one sample per pixel. *)
Definition replace_image (lo hi : Z) (nc : nat) (image : list Z) (per_channel : Q)
    (draw_mask draw_replacement : nat -> list Q) : res (list Z) :=
  if qltb (1 # 2) per_channel then
    let mask := draw_mask (length image) in
    replace_elementwise lo hi nc image (Nat.eqb nc 1) mask
      (draw_replacement (Z.to_nat (py_int (qsum mask))))
  else
    let mask := draw_mask (Nat.div (length image) nc) in
    replace_elementwise lo hi nc image true mask
      (flat_map (fun r => repeat r nc) (draw_replacement (Z.to_nat (py_int (qsum mask))))).

(** ** Dropping channels *)

Section Channels.
(** Data of one channel, and the same filled with zeros. *)
Variables (Ch : Type) (zeroed : Ch -> Ch).

(** arithmetic.py:3473-3475 the number of channels given by a shape, written
    without height and width: the test is [len(shape) >= 2], so shapes without
    channel axis are not extended and [shape[2]] raises. *)
Definition channels_of (rest : list nat) : res nat :=
  match rest with n :: _ => Ok n | [] => Err IndexError end.

(** [np.nonzero(p_samples_i < 0.5)[0]]. *)
Definition low_ids (ps : list Q) : list nat :=
  filter (fun i => qltb (nth i ps 0%Q) (1 # 2)) (seq 0 (length ps)).

(** arithmetic.py:3464-3500 _draw_samples: ids of the channels to drop per
    image and the ids of the images that lose all channels. [shuffle i] is the
    random permutation used for image [i]. *)
Fixpoint draw_drops (keep : nat) (nbs : list nat) (ps : list Q) (shuffle : nat -> list nat -> list nat)
    (i : nat) : list (list nat) * list nat :=
  match nbs with
  | [] => ([], [])
  | nb :: nbs' =>
      let ids := low_ids (firstn nb ps) in
      let dropable := (nb - keep)%nat in
      let ids := if Nat.ltb dropable (length ids) then firstn dropable (shuffle i ids) else ids in
      let '(drops, all) := draw_drops keep nbs' (skipn nb ps) shuffle (S i) in
      (ids :: drops, if Nat.eqb (length ids) nb then i :: all else all)
  end.

(** [image[:, :, drop_ids] = 0]; an image is the list of its channels. [arithmetic.py:3464-3500, 3422-3462] *)
Definition drop_channels (image : list Ch) (ids : list nat) : list Ch :=
  map (fun p : nat * Ch => if existsb (Nat.eqb (fst p)) ids then zeroed (snd p) else snd p)
    (combine (seq 0 (length image)) image).

(** Annotations of one kind: per row the content, and what a dropped row
    becomes (arithmetic.py:3434-3460, 3623-3646: constant maps, empty lists). *)
Definition clear_rows {B} (clear : B -> B) (rows : list B) (ids : list nat) : list B :=
  map (fun p : nat * B => if existsb (Nat.eqb (fst p)) ids then clear (snd p) else snd p)
    (combine (seq 0 (length rows)) rows).

(** arithmetic.py:3422-3462 Dropout2d._augment_batch_ with one column of
    annotations; [images] is [None] in batches without images. [shapes]: what
    follows height and width in the rows' shapes. *)
Definition dropout2d {B} (keep : nat) (drop_annotations : bool) (clear : B -> B)
    (draw : nat -> list Q) (shuffle : nat -> list nat -> list nat)
    (shapes : list (list nat)) (images : option (list (list Ch))) (annotations : option (list B))
  : res (option (list (list Ch)) * option (list B)) :=
  do nbs <- mapM channels_of shapes;
  let '(drops, all) := draw_drops keep nbs (draw (fold_right Nat.add 0%nat nbs)) shuffle 0 in
  let images' := option_map (fun ims => map (fun p => drop_channels (fst p) (snd p)) (combine ims drops)) images in
  Ok (images',
      if drop_annotations then option_map (fun rows => clear_rows clear rows all) annotations else annotations).

(** arithmetic.py:3609-3657 TotalDropout: [drop_images] etc. are the class
    attributes [_drop_...]. *)
Definition total_dropout {B} (drop_images drop_annotations : bool) (clear : B -> B) (ps : list Q)
    (images : option (list (list Ch))) (annotations : option (list B))
  : option (list (list Ch)) * option (list B) :=
  let ids := low_ids ps in
  (if drop_images then option_map (fun ims => clear_rows (map zeroed) ims ids) images else images,
   if drop_annotations then option_map (fun rows => clear_rows clear rows ids) annotations else annotations).

End Channels.
Arguments dropout2d {Ch} zeroed {B}.
Arguments total_dropout {Ch} zeroed {B}.
Arguments drop_channels {Ch} zeroed.
