(** What the theorems about drawing say, in plain terms. *)
From Verif Require Import Prelude DtyModel GeoModel ConvModel ConvSpec RszModel RszSpec DrawModel.
Local Open Scope Z_scope.

(** The same dtype, size and channels, and [P y x c v'] for every pixel [v'] of the second image. *)
Definition redrawn (p p' : pic) (P : Z -> Z -> nat -> Q -> Prop) : Prop :=
  p_kind p' = p_kind p /\ p_h p' = p_h p /\ p_w p' = p_w p /\ p_c p' = p_c p /\
  forall y x c, pixel p y x c -> P y x c (p_px p' y x c).
(** Painting [c] over [v] gives [r]: the colour, or for transparent colours a value between both,
    less than 1 from the weighted mean (equal to it for floats). *)
Definition is_floating (k : kind) : Prop := match k with KFloat _ => True | _ => False end.
Definition painted (opaque : Prop) (k : kind) (alpha v c r : Q) : Prop :=
  ((opaque -> r == c) /\
   (~ opaque ->
    (v <= r <= c \/ c <= r <= v) /\
    (r - 1 < (1 - alpha) * v + alpha * c < r + 1) /\
    (is_floating k -> r == (1 - alpha) * v + alpha * c)))%Q.
(** The component of a colour for a channel: numbers and lists of one number stand for all channels,
    longer lists have one number per channel. *)
Definition component (col : color) (c : nat) : Q :=
  match col with CNum q => q | CList [q] => q | CList l => nth c l 0%Q end.
(** The components of the colour are values of the dtype of the image. *)
Definition colour_of (p : pic) (col : color) : Prop := forall c, (c < chans p)%nat -> value_of (p_kind p) (component col c).
(** Converting the image to float32 loses nothing. *)
Definition exact_float32 (p : pic) : Prop := forall y x c, pixel p y x c -> (to_float 24 (p_px p y x c) == p_px p y x c)%Q.

(** The square of a keypoint: all pixels at most [size // 2] rows and columns from the rounded
    position. *)
Definition square (k : keypoint) (size y x : Z) : Prop := Z.abs (y - np_round (ky k)) <= size / 2 /\ Z.abs (x - np_round (kx k)) <= size / 2.
Definition square_visible (k : keypoint) (size : Z) (p : pic) : Prop := exists y x, 0 <= y < p_h p /\ 0 <= x < p_w p /\ square k size y x.
(** The colour can be used for the image. *)
Definition colour_fits (p : pic) (col : color) : Prop :=
  match col with CNum _ => True | CList l => length l = chans p \/ length l = 1%nat end.

(** The rounded sides of a box. Those of a box within the image are at most the last row and column. *)
Definition box_sides (b : bbox) (p : pic) (t d l r : Z) : Prop :=
  if bb_is_fully_within_image b (p_h p, p_w p)
  then t = Z.min (np_round (y1 b)) (p_h p - 1) /\ d = Z.min (np_round (y2 b)) (p_h p - 1) /\
       l = Z.min (np_round (x1 b)) (p_w p - 1) /\ r = Z.min (np_round (x2 b)) (p_w p - 1)
  else t = np_round (y1 b) /\ d = np_round (y2 b) /\ l = np_round (x1 b) /\ r = np_round (x2 b).
(** The frame of thickness [size] around the inner pixels of a box. *)
Definition frame (b : bbox) (p : pic) (size y x : Z) : Prop :=
  exists t d l r, box_sides b p t d l r /\
    t - (size - 1) <= y <= d + (size - 1) /\ l - (size - 1) <= x <= r + (size - 1) /\ 0 < size /\ ~ (t < y < d /\ l < x < r).
Definition proper_box (b : bbox) : Prop := (x1 b <= x2 b)%Q /\ (y1 b <= y2 b)%Q.
(** Pixels and colours from 0 to 255; colours given as lists are integers. *)
Definition bytes (p : pic) : Prop := forall y x c, pixel p y x c -> (0 <= p_px p y x c <= 255)%Q.
Definition byte_colour (p : pic) (col : color) : Prop :=
  match col with
  | CNum q => (0 <= q <= 255)%Q
  | CList l => forall q, In q l -> exists z, q = inject_Z z /\ 0 <= z <= 255
  end.

(** Nearest neighbour interpolation takes every pixel from a position that depends on the sizes
    only. *)
Definition picks_by_position (cv2 : resizer) (fy fx : Z -> Z -> Z -> Z) : Prop :=
  (forall s s' i, 0 < s -> 0 <= i < s' -> 0 <= fy s s' i < s) /\ (forall s s' i, 0 < s -> 0 <= i < s' -> 0 <= fx s s' i < s) /\
  (forall s i, 0 <= i < s -> fy s s i = i /\ fx s s i = i) /\
  forall k h w h' w' px out, cv2 Nearest k h w h' w' 1%nat px = Ok out ->
    forall y x, 0 <= y < h' -> 0 <= x < w' -> (out y x 0%nat == px (fy h h' y) (fx w w' x) 0%nat)%Q.
(** A map of class ids that are not negative. *)
Definition class_map (arr : pic) : Prop :=
  p_kind arr = KInt 32 /\ 0 < p_h arr /\ 0 < p_w arr /\
  forall y x c, pixel arr y x c -> exists z, p_px arr y x c = inject_Z z /\ 0 <= z < 2 ^ 31.
Definition rgb8 (p : pic) : Prop := proper_pic p /\ p_kind p = KUint 8 /\ p_c p = Some 3%nat.
Definition palette (colors : list (list Q)) : Prop :=
  Forall (fun l => length l = 3%nat /\ Forall (fun q => exists z, q = inject_Z z /\ 0 <= z <= 255) l) colors.
(** uint8 blending with one alpha: from 0.99 on the foreground, up to 0.01 the background, otherwise
    within 1/2 of the weighted mean. *)
Definition blended8 (alpha fg bg r : Q) : Prop :=
  ((99 # 100 <= alpha -> r == fg) /\ (alpha <= 1 # 100 -> r == bg) /\
   (1 # 100 < alpha < 99 # 100 -> (exists z, r == inject_Z z) /\ r - (1 # 2) <= alpha * fg + (1 - alpha) * bg <= r + (1 # 2)))%Q.
(** Dtypes of which all values are float32 values: booleans and integers of up to 24 bits. *)
Definition small_dtype (k : kind) : Prop :=
  match k with KBool => True | KUint b | KInt b => b <= 24 | KFloat _ => False end.
(** Drawing a keypoint is accepted. *)
Definition kp_accepted (col : color) (alpha : Q) (size : Z) (raise : bool) (p : pic) (k : keypoint) : Prop :=
  (p_c p = None -> exists q, col = CNum q) /\
  ((alpha < 1 # 100)%Q \/ (square_visible k size p /\ colour_fits p col) \/ (~ square_visible k size p /\ raise = false)).
(** The value lies between two others. *)
Definition between (a b v : Q) : Prop := (a <= v <= b \/ b <= v <= a)%Q.
(** The colour of a box can be used: for a positive size the image needs a channel axis and the
    colour as many components as it has channels, or one. *)
Definition box_accepted (col : color) (size : Z) (raise : bool) (p : pic) (b : bbox) : Prop :=
  ~ (raise = true /\ bb_is_out_of_image b (p_h p, p_w p) true false = true) /\
  (0 < size -> p_c p <> None /\ colour_fits p col).
(** The arguments of an overlay are valid: alpha from 0 to 1 (with a tolerance) and a known [resize]. *)
Definition overlay_ok (alpha : Q) (resize : option bool) : Prop :=
  (- (1 # 100000000) <= alpha <= 1 + (1 # 100000000))%Q /\ resize <> None.
(** Every class of channel [c] has a colour. *)
Definition coloured (arr : pic) (colors : list (list Q)) (c : nat) : Prop :=
  forall y x z, 0 <= y < p_h arr -> 0 <= x < p_w arr -> p_px arr y x c = inject_Z z -> z < Z.of_nat (length colors).
(** The image that is drawn on: the given one, or the given one resized to the size of the map. *)
Definition canvas (cv2 : resizer) (map image : pic) (resize : bool) (image' : pic) : Prop :=
  if resize
  then imresize_single cv2 image (STup [Some (Int (p_h map)); Some (Int (p_w map))]) (Some (Some Cubic)) = Ok image' /\
       rgb8 image' /\ p_h image' = p_h map /\ p_w image' = p_w map
  else image' = image.
(** A proper (H,W,C) array of heatmaps. *)
Definition heat_map (hm : pic) : Prop :=
  p_kind hm = KFloat 32 /\ 0 < p_h hm /\ 0 < p_w hm /\ p_c hm <> None /\ forall y x c, pixel hm y x c -> (0 <= p_px hm y x c <= 1)%Q.
(** The integer below a weighted mean. *)
Definition truncated_mix (alpha fg bg r : Q) : Prop :=
  (exists z, r == inject_Z z)%Q /\ (r <= (1 - alpha) * bg + alpha * fg < r + 1)%Q.
(** A byte for an intensity (within 3/2 of 255 times the intensity), or for a component of a colour
    of the colour map. *)
Definition byte_of (cmap : option (Q -> nat -> Q)) (v : Q) (ch : nat) (d : Q) : Prop :=
  (exists z, (d == inject_Z z)%Q /\ 0 <= z <= 255) /\
  match cmap with
  | None => (255 * v - (3 # 2) <= d <= 255 * v + (1 # 2))%Q
  | Some f => exists u, 0 <= u <= 255 /\ (255 * v - (1 # 2) <= inject_Z u <= 255 * v + (1 # 2))%Q /\
                (0 <= f (inject_Z u / 255) ch <= 1 -> d <= 255 * f (inject_Z u / 255) ch < d + 1)%Q
  end.
(** The overlay [r] for channel [c] of a map, drawn on [image']: every pixel shows the class at the
    nearest position of the map. *)
Definition class_pixels (fy fx : Z -> Z -> Z -> Z) (arr image' : pic) (alpha : Q) (colors : list (list Q)) (draw_background : bool) (background : Z) (c : nat) (r : pic) : Prop :=
  p_kind r = KUint 8 /\ p_h r = p_h image' /\ p_w r = p_w image' /\ p_c r = Some 3%nat /\
  forall y x ch, pixel r y x ch -> exists z, 0 <= z < Z.of_nat (length colors) /\
    p_px arr (fy (p_h arr) (p_h image') y) (fx (p_w arr) (p_w image') x) c = inject_Z z /\
    (draw_background = false -> z = background -> (p_px r y x ch == p_px image' y x ch)%Q) /\
    (draw_background = true \/ z <> background -> blended8 alpha (nth ch (nth (Z.to_nat z) colors []) 0%Q) (p_px image' y x ch) (p_px r y x ch)).
