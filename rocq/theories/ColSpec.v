(** What a user expects of the functions on colours. *)
From Coq Require Import Qabs.
From Verif Require Import Prelude BlendSpec ConvModel RszModel ColModel.
Open Scope Z_scope.

(** ** Images *)
Definition has_pixels (im : image) : Prop := 0 < im_h im /\ 0 < im_w im.
Definition no_pixels (im : image) : Prop := im_h im = 0 \/ im_w im = 0.
Definition inside (im : image) (y x : Z) : Prop := 0 <= y < im_h im /\ 0 <= x < im_w im.
Definition same_size (a b : image) : Prop := im_h a = im_h b /\ im_w a = im_w b.
(** The images a colour space conversion accepts: uint8 of shape (H, W, 3), with pixels. *)
Definition colored (im : image) : Prop := has_pixels im /\ im_u8 im = true /\ im_c im = Some 3%nat.
Definition pixel (im : image) (y x : Z) : color := (im_px im y x 0%nat, im_px im y x 1%nat, im_px im y x 2%nat).
Definition same_pixels (a b : image) : Prop :=
  same_size a b /\ forall y x, inside a y x -> pixel a y x = pixel b y x.
Definition byte (v : Z) : Prop := 0 <= v <= 255.
Definition bytes (c : color) : Prop := let '(a, b, d) := c in byte a /\ byte b /\ byte d.
Definition byte_image (im : image) : Prop := forall y x, inside im y x -> bytes (pixel im y x).
(** An array cv2 can write into: it owns its memory and is contiguous. The images of a list of separately
    allocated arrays are, those of an (N, H, W, C) array are not. *)
Definition writable (im : image) : Prop := im_own im = true /\ im_contig im = true.

(** ** Conversions *)
Section Conversions.
Variable cvt : cspace -> cspace -> color -> color.
Variable gray : cspace -> color -> Z.

(** OpenCV converts between any two spaces of which one is RGB or BGR, and to gray from RGB and BGR. *)
Definition offered (from to : cspace) : Prop :=
  (from = RGB \/ from = BGR) \/ (to = RGB \/ to = BGR).
(** One conversion by OpenCV; gray images get three equal components. *)
Definition opencv (from to : cspace) (c : color) : color :=
  match to with GRAY => (gray from c, gray from c, gray from c) | _ => cvt from to c end.
(** [c'] is the colour [c] in another space: converted in one step if OpenCV offers it, else via RGB. *)
Definition converted (from to : cspace) (c c' : color) : Prop :=
  (from = to /\ c' = c) \/
  (from <> to /\ offered from to /\ c' = opencv from to c) \/
  (from <> to /\ ~ offered from to /\ c' = opencv RGB to (opencv from RGB c)).
(** An image in another space. *)
Definition converted_image (from to : cspace) (im out : image) : Prop :=
  colored out /\ same_size out im /\ forall y x, inside im y x -> converted from to (pixel im y x) (pixel out y x).
(** Conversions of bytes give bytes. *)
Definition byte_conversions : Prop :=
  (forall from to c, bytes c -> bytes (cvt from to c)) /\ (forall from c, bytes c -> byte (gray from c)).
End Conversions.

(** The colour spaces a function gets for its [nb] images: one for all, or a list with one per image. *)
Definition named (nb : nat) (a : names) (l : list cname) : Prop :=
  length l = nb /\ (a = NList l \/ exists s, a = NOne s /\ forall x, In x l -> x = s).

(** ** Blending *)
(** Every component of [out] is the mean of those of [fg] and [bg] with weight [a] of [fg], rounded. *)
Definition blend_of (a : Q) (fg bg out : color) : Prop :=
  forall n, (n < 3)%nat -> blended (1 # 2) (1 # 1000) (comp fg n) (comp bg n) a (comp out n).

(** ** Colour temperatures *)
(** Channels of RGB. *)
Definition red : nat := 0.
Definition green : nat := 1.
Definition blue : nat := 2.
(** A component darkened by the factor [m], rounded. *)
Definition darkened (m : Q) (v v' : Z) : Prop :=
  0 <= v' <= v /\ (Qabs (inject_Z v' - m * inject_Z v) <= 1 # 2)%Q.
Definition darkened_color (m : nat -> Q) (c c' : color) : Prop :=
  forall n, (n < 3)%nat -> darkened (m n) (comp c n) (comp c' n).

(** The temperatures a function gets for its [nb] images: one for all, or a list with one per image. *)
Definition one_each (nb : nat) (k : kelvins) (l : list Q) : Prop :=
  length l = nb /\ (k = KList l \/ exists q, k = KNum q /\ forall x, In x l -> x = q).
(** The image converted to RGB, darkened channel by channel, and converted back. *)
Definition recolored cvt gray (kelvin : Q) (from : cspace) (im out : image) : Prop :=
  colored out /\ same_size out im /\
  forall y x, inside im y x -> exists rgb rgb',
    converted cvt gray from RGB (pixel im y x) rgb /\ darkened_color (multiplier kelvin) rgb rgb' /\
    converted cvt gray RGB from rgb' (pixel out y x).

(** ** Hue *)
(** OpenCV's hues are 0..179 and the children's 0..254, both once around the colour circle: the hue [h] of OpenCV
    for the hue [v] of a child is the largest one that is not beyond it. *)
Definition same_angle (v h : Z) : Prop :=
  exists k, 0 <= v - 255 * k < 255 /\ 255 * h <= 180 * (v - 255 * k) < 255 * (h + 1).
(** The two channels given to the children: the angle and the saturation. *)
Definition hue_and_saturation (hsv hs : image) : Prop :=
  same_size hs hsv /\ im_c hs = Some 2%nat /\
  forall y x, inside hsv y x ->
    (0 <= im_px hsv y x 0%nat -> 180 * im_px hs y x 0%nat <= 255 * im_px hsv y x 0%nat < 180 * (im_px hs y x 0%nat + 1)) /\
    im_px hs y x 1%nat = im_px hsv y x 1%nat.
(** The HSV colour [c] made of the hue [v] and the saturation [s] returned by the children and the colour [old] before:
    the hue is the same angle, the saturation is clipped, the value is kept. *)
Definition hs_merged (v s : Z) (old c : color) : Prop :=
  (same_angle v (comp c 0) /\ 0 <= comp c 0 <= 179) /\ comp c 1 = Z.min (Z.max s 0) 255 /\ comp c 2 = comp old 2.

(** ** Brightness *)
(** The component of a colour space that holds the brightness. *)
Definition brightness (s : cspace) (id : nat) : Prop :=
  ((s = YCrCb \/ s = Lab \/ s = Luv \/ s = YUV) /\ id = 0%nat) \/ (s = HLS /\ id = 1%nat) \/ (s = HSV /\ id = 2%nat).
(** An (H, W, 1) image holding one component of [im]. *)
Definition single_channel (id : nat) (im ch : image) : Prop :=
  same_size ch im /\ im_c ch = Some 1%nat /\ im_u8 ch = true /\ forall y x, inside im y x -> im_px ch y x 0%nat = im_px im y x id.
(** The colour [c] is [old] with the component [id] set to [v]. *)
Definition replaced (id : nat) (v : Z) (old c : color) : Prop :=
  forall n, (n < 3)%nat -> (n = id -> comp c n = v) /\ (n <> id -> comp c n = comp old n).

(** ** Quantization *)
Definition same_shape_pic (a b : pic) : Prop := p_h a = p_h b /\ p_w a = p_w b /\ p_c a = p_c b.
Definition in_pic (p : pic) (y x : Z) : Prop := 0 <= y < p_h p /\ 0 <= x < p_w p.
(** The size of [s] is that of [p] if no side of [p] is longer than [m], else it is scaled so that the longer side is [m],
    rounded down. *)
Definition shrunk (m : Z) (p s : pic) : Prop :=
  let size := Z.max (p_h p) (p_w p) in
  (size <= m -> p_h s = p_h p /\ p_w s = p_w p) /\
  (m < size -> p_h s * size <= p_h p * m < (p_h s + 1) * size /\ p_w s * size <= p_w p * m < (p_w s + 1) * size).
Definition channels (im : image) : nat := match im_c im with None => 1%nat | Some c => c end.
Definition byte_channels (im : image) : Prop := forall y x k, inside im y x -> (k < channels im)%nat -> byte (im_px im y x k).
(** What cv2.kmeans returns for [nb] clusters of [pixels] with [nc] components each: one label per pixel, [nb]
    centers. *)
Definition clustering (nc : nat) (pixels : list (list Z)) (nb : Z) (r : list nat * list (list Q)) : Prop :=
  length (fst r) = length pixels /\ Z.of_nat (length (snd r)) = nb /\
  Forall (fun l => (l < length (snd r))%nat) (fst r) /\
  Forall (fun c => length c = nc /\ Forall (fun q => (0 <= q <= 255)%Q) c) (snd r).
