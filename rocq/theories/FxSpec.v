(** What a user expects of distance maps, Canny edges, snow, clouds and rain. *)
From Coq Require Import List ZArith QArith Reals Qreals Qabs.
From Verif Require Import Prelude BlendSpec ConvModel RszModel ColModel ColSpec FxModel.
Import ListNotations.
Open Scope Z_scope.

(** ** Distance maps *)
(** The distance of the position (x, y) of a map to a point. *)
Definition distance_to (y x : Z) (k : Q * Q) : R :=
  sqrt ((IZR x - Q2R (fst k)) * (IZR x - Q2R (fst k)) + (IZR y - Q2R (snd k)) * (IZR y - Q2R (snd k))).
Definition in_map {A} (a : arr A) (y x : Z) : Prop := 0 <= y < ah a /\ 0 <= x < aw a.
(** (y, x) comes before (y', x') in row order. *)
Definition row_before (y x y' x' : Z) : Prop := y < y' \/ (y = y' /\ x < x').
(** The position of the smallest (largest) value, the first one in row order. *)
Definition best_position (inverted : bool) (a : arr R) (y x : Z) : Prop :=
  in_map a y x /\
  forall y' x', in_map a y' x' ->
    let '(v, v') := (apx a y x, apx a y' x') in
    (if inverted then (v' <= v)%R else (v <= v')%R) /\ (row_before y' x' y x -> v' <> v).
(** Is the value of a map good enough? *)
Definition good (inverted : bool) (threshold : option R) (v : R) : Prop :=
  match threshold with None => True | Some t => if inverted then (t <= v)%R else (v < t)%R end.

(** ** Canny *)
Definition canny_image_ok (im : image) : Prop :=
  has_pixels im /\ im_u8 im = true /\ (im_c im = Some 1%nat \/ im_c im = Some 3%nat \/ im_c im = Some 4%nat).
Definition nb_channels (im : image) : nat := match im_c im with Some c => c | None => 1 end.
Definition bytes_in (im : image) : Prop := forall y x n, inside im y x -> (n < nb_channels im)%nat -> byte (im_px im y x n).
(** The gray value of a colour. *)
Definition luma (c : ColModel.color) : Q :=
  ((299 # 1000) * inject_Z (comp c 0) + (587 # 1000) * inject_Z (comp c 1) + (114 # 1000) * inject_Z (comp c 2))%Q.
(** [v] is [q] rounded down. *)
Definition rounded_down (q : Q) (v : Z) : Prop := (inject_Z v <= q < inject_Z v + 1)%Q.
(** The component [n] of the colour [c] in an image of [nc] channels. *)
Definition painted (nc : nat) (c : ColModel.color) (n : nat) (v : Z) : Prop :=
  if Nat.eqb nc 1 then rounded_down (luma c) v else v = comp c n.
(** Sobel kernel sizes: the largest odd number up to the drawn one. *)
Definition odd_below (s k : Z) : Prop := Z.odd k = true /\ k <= s < k + 2.

(** What Canny draws for an image: alpha, thresholds, kernel size, colours of edges and of other pixels. *)
Definition drawing : Type := Q * (Q * Q) * Z * (ColModel.color * ColModel.color).
Definition alpha_of (d : drawing) : Q := let '(a, _, _, _) := d in a.
Definition thresholds_of (d : drawing) : Q * Q := let '(_, t, _, _) := d in t.
Definition size_of (d : drawing) : Z := let '(_, _, s, _) := d in s.
Definition edge_color (d : drawing) : ColModel.color := let '(_, _, _, (c, _)) := d in c.
Definition other_color (d : drawing) : ColModel.color := let '(_, _, _, (_, c)) := d in c.
(** The image has the same shape and dtype uint8. *)
Definition same_form (a b : image) : Prop := im_h a = im_h b /\ im_w a = im_w b /\ im_c a = im_c b /\ im_u8 a = true.
(** [a] is what OpenCV may be given of [im]: a non-empty uint8 array of the same components, without
    the alpha channel. *)
Definition opencv_input (im a : image) : Prop :=
  im_u8 a = true /\ im_h a <> 0 /\ im_w a <> 0 /\ im_h a = im_h im /\ im_w a = im_w im /\ im_px a = im_px im /\ im_c a = Some (Nat.min (nb_channels im) 3).
(** The result of Canny for one image: unchanged, or every component a mix of the image and of the colour of the pixel,
    the components of an alpha channel being kept. *)
Definition canny_result (cv2 : image -> Q * Q -> Z -> Z -> Z -> bool) (d : drawing) (im out : image) : Prop :=
  ((alpha_of d <= 0)%Q \/ size_of d <= 2 \/ no_pixels im -> out = im) /\
  ((0 < alpha_of d)%Q -> 2 < size_of d -> has_pixels im ->
     same_form out im /\ bytes_in out /\
     exists a t k, opencv_input im a /\ (fst t <= snd t)%Q /\ (t = thresholds_of d \/ t = (snd (thresholds_of d), fst (thresholds_of d))) /\ odd_below (size_of d) k /\
     forall y x n, inside im y x -> (n < nb_channels im)%nat ->
       (n = 3%nat -> im_px out y x n = im_px im y x n) /\
       (n <> 3%nat -> exists v, painted (nb_channels im) (if cv2 a t k y x then edge_color d else other_color d) n v /\
                                blended (1 # 2) (1 # 100) v (im_px im y x n) (alpha_of d) (im_px out y x n))).

(** ** Lightness *)
(** The lightness [l] if it is not below the threshold; otherwise multiplied, rounded and limited to 255. *)
Definition lightened (thresh mul : Q) (l l' : Z) : Prop :=
  ((thresh <= inject_Z l)%Q -> l' = l) /\
  ((inject_Z l < thresh)%Q -> byte l' /\
     ((inject_Z l * mul <= 255)%Q -> (Qabs (inject_Z l' - inject_Z l * mul) <= 1 # 2)%Q) /\ ((255 <= inject_Z l * mul)%Q -> l' = 255)).
Definition lightened_color (thresh mul : Q) (c c' : ColModel.color) : Prop :=
  comp c' 0 = comp c 0 /\ lightened thresh mul (comp c 1) (comp c' 1) /\ comp c' 2 = comp c 2.

(** ** Clouds *)
(** [z]: a component [v] with a cloud of an opacity and intensity: their mix, rounded down. *)
Definition cloudy (a i : Q) (v z : Z) : Prop :=
  byte z /\ rounded_down ((1 - a) * inject_Z v + a * qclip i 0 255)%Q z /\
  ((a == 0)%Q -> z = v) /\ ((inject_Z v <= i)%Q -> v <= z) /\ ((i <= inject_Z v)%Q -> z <= v).

(** ** Noise *)
Definition byte_noise (n : noise) : Prop := forall y x, byte (n y x).
Definition black (n : noise) : Prop := forall y x, n y x = 0.

(** One side of the noise image: smaller for larger flakes, at least 1. *)
Definition small_side (side : Z) (flake_size : Q) (a : Z) : Prop :=
  exists q, rounded_down (inject_Z side * qclip (1 - flake_size) (1 # 1000) 1)%Q q /\ a = Z.max 1 q.
(** [flake] is made for an image of a size as follows: salt on a smaller image, darkened by the gate, resized, blurred with a
    strength from an interval, and, if the speed times the larger side reaches 2, motion blurred with a kernel of at least 3
    pixels. *)
Definition made_from (salt : Z -> Z -> noise) (gate : Z -> Z -> Z -> Z -> Q) (resize : Z -> Z -> noise -> Z -> Z -> noise) (motion : Z -> noise -> noise)
  (blur : Q -> noise -> noise) (h w : Z) (flake_size speed lo hi : Q) (flake : noise) : Prop :=
  exists a b sigma n,
    small_side h flake_size a /\ small_side w flake_size b /\ (lo <= sigma <= hi)%Q /\
    (forall y x, rounded_down (inject_Z (salt a b y x) * qclip (gate a b y x) 0 1)%Q (n y x)) /\
    ((speed * inject_Z (Z.max h w) < 2)%Q -> flake = blur sigma (resize a b n h w)) /\
    ((2 <= speed * inject_Z (Z.max h w))%Q -> exists k, 3 <= k /\ (k = 3 \/ rounded_down (speed * inject_Z (Z.max h w))%Q k) /\ flake = motion k (blur sigma (resize a b n h w))).
