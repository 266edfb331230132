(** What a user expects of dtype gates, dtype promotion, contrast changes and histogram equalization. *)
From Coq Require Import String Ascii List ZArith QArith Qabs Bool.
From Verif Require Import Prelude DtyModel DtySpec ColModel ColSpec CtrModel.
Import ListNotations.
Open Scope Z_scope.

(** ** Gates *)
Definition name (d : dname) : string :=
  match d with
  | Bool => "bool" | U8 => "uint8" | U16 => "uint16" | U32 => "uint32" | U64 => "uint64"
  | I8 => "int8" | I16 => "int16" | I32 => "int32" | I64 => "int64"
  | F16 => "float16" | F32 => "float32" | F64 => "float64" | F128 => "float128"
  end.
(** A word has characters and no spaces. *)
Fixpoint no_space (s : string) : Prop := match s with EmptyString => True | String a r => a <> " "%char /\ no_space r end.
Definition word (s : string) : Prop := s <> EmptyString /\ no_space s.
(** The words of a string, separated by any number of spaces. *)
Inductive has_words : string -> list string -> Prop :=
| words_none : has_words "" []
| words_space : forall s ws, has_words s ws -> has_words (String " " s) ws
| words_last : forall w, word w -> has_words w [w]
| words_next : forall w s ws, word w -> has_words s ws -> has_words (w ++ String " " s) (w :: ws).
(** [s] lists the dtypes [l] by their names. *)
Definition lists (s : string) (l : list dname) : Prop := has_words s (map name l).
Definition unknown (w : string) : Prop := forall d, w <> name d.

(** ** Dtypes *)
(** The values an array of a dtype may hold: booleans are 0 and 1, floats are m 2^k with a limited mantissa m. *)
Definition value_of (d : dname) (v : Q) : Prop :=
  match dty d with
  | DU b => exists z, (v == inject_Z z)%Q /\ 0 <= z < 2 ^ b
  | DI b => exists z, (v == inject_Z z)%Q /\ - 2 ^ (b - 1) <= z < 2 ^ (b - 1)
  | DF p e => (exists m k, (v == inject_Z m * pow2 k)%Q /\ Z.abs m <= 2 ^ p) /\ (Qabs v <= inject_Z ((2 ^ p - 1) * 2 ^ e))%Q
  end.
(** Every value of [a] is one of [b]. *)
Definition includes (b a : dname) : Prop := forall v, value_of a v -> value_of b v.
Definition bits (d : dname) : Z := snd (kind_bits d).
Definition array_ok (a : array) : Prop := Forall (value_of (fst a)) (snd a).
(** The same components in another dtype. *)
Definition same_values (d : dname) (a b : array) : Prop := fst b = d /\ Forall2 Qeq (snd a) (snd b) /\ array_ok b.
Definition is_int64 (d : dname) : Prop := d = U64 \/ d = I64.

(** ** Contrast *)
Definition inside_c (im : cimage) (y x : Z) (c : nat) : Prop := 0 <= y < ci_h im /\ 0 <= x < ci_w im /\ (c < ci_c im)%nat.
Definition same_kind_c (a b : cimage) : Prop := ci_dt a = ci_dt b /\ ci_h a = ci_h b /\ ci_w a = ci_w b /\ ci_c a = ci_c b.
(** [p] holds the [n]-th drawn value of every parameter. *)
Definition drawn_at (samples : list (list Q)) (n : nat) (p : list Q) : Prop := Forall2 (fun s q => nth_error s n = Some q) samples p.
(** Every component is changed by the function with the parameters of its channel if these are drawn per channel, else with
    those drawn first. *)
Definition contrasted (f : cfunc) (pc : Q) (samples : list (list Q)) (im out : cimage) : Prop :=
  same_kind_c out im /\
  forall y x c, inside_c im y x c -> exists p,
    ((1 # 2 < pc)%Q -> drawn_at samples c p) /\ ((pc <= 1 # 2)%Q -> drawn_at samples 0 p) /\ ci_px out y x c = f (ci_dt im) p (ci_px im y x c).
(** As many values of every parameter as channels that need one. *)
Definition enough_samples (pc : Q) (samples : list (list Q)) (im : cimage) : Prop :=
  Forall (fun s => (1 <= length s)%nat /\ ((1 # 2 < pc)%Q -> (ci_c im <= length s)%nat)) samples.
(** The grey that contrast changes keep: the middle of the range of unsigned integers rounded down, else 0. *)
Definition middle (d : dname) : Z :=
  match d with U8 => 127 | U16 => 32767 | U32 => 2147483647 | _ => 0 end.
Definition stretched (d : dname) (alpha v : Q) : Q := (inject_Z (middle d) + alpha * (v - inject_Z (middle d)))%Q.
(** The dtypes LinearContrast accepts; integers among them except uint8. *)
Definition contrast_dtype (d : dname) : Prop := In d [U8; U16; U32; I8; I16; I32; F16; F32; F64].
Definition wide_int (d : dname) (lo hi : Z) : Prop :=
  (d = U16 /\ lo = 0 /\ hi = 65535) \/ (d = U32 /\ lo = 0 /\ hi = 4294967295) \/
  (d = I8 /\ lo = -128 /\ hi = 127) \/ (d = I16 /\ lo = -32768 /\ hi = 32767) \/ (d = I32 /\ lo = -2147483648 /\ hi = 2147483647).
(** [z] is the largest integer that is not above [q]. *)
Definition floor_of (q : Q) (z : Z) : Prop := (inject_Z z <= q < inject_Z z + 1)%Q.
(** Mantissa bits and largest value of a float dtype. *)
Definition small_float (d : dname) (p : Z) (m : Q) : Prop :=
  (d = F16 /\ p = 11 /\ m = inject_Z 65504) \/ (d = F32 /\ p = 24 /\ m = inject_Z ((2 ^ 24 - 1) * 2 ^ 104)).
(** float64 can hold numbers of this size. *)
Definition in_float64 (q : Q) : Prop := (Qabs q <= inject_Z (2 ^ 1023))%Q.

(** ** CLAHE *)
(** Tiles of one pixel leave the channel as it is. *)
Definition clahe_channel (clahe : Q -> Z * Z -> cplane -> cplane) (tile_min : Z) (limit : Q) (h w : Z) (ch out : Z -> Z -> Q) : Prop :=
  (Z.max h tile_min <= 1 /\ Z.max w tile_min <= 1 -> out = ch) /\
  (1 < Z.max h tile_min \/ 1 < Z.max w tile_min -> out = clahe limit (Z.max w tile_min, Z.max h tile_min) ch).

(** ** Intensity channels *)
Definition colors (im : image) : Prop := im_c im = Some 3%nat \/ im_c im = Some 4%nat.
Definition uint8_image (im : image) : Prop := im_u8 im = true /\ 0 <= im_h im /\ 0 <= im_w im /\ im_c im <> None.
Definition same_shape_u8 (a b : image) : Prop := same_size b a /\ im_c b = im_c a /\ im_u8 b = true.
Section Intensity.
Variable cvt : cspace -> cspace -> ColModel.color -> ColModel.color.
Variable gray : cspace -> ColModel.color -> Z.
(** The first three channels of [im] converted. *)
Definition converted_colors (from to : cspace) (im conv : image) : Prop :=
  same_size conv im /\ im_c conv = Some 3%nat /\ im_u8 conv = true /\
  forall y x, inside im y x -> converted cvt gray from to (pixel im y x) (pixel conv y x).
(** What the function sees of an image: the intensity of images of three or four channels, all other images as they are. *)
Definition normalized (from to : cspace) (id : nat) (im n : image) : Prop :=
  (~ colors im -> n = im) /\
  (colors im -> exists conv, converted_colors from to im conv /\ single_channel id conv n).
(** What becomes of an image: its intensity is that of [aug], its other components in [to] and its alpha channel are kept. *)
Definition denormalized (from to : cspace) (id : nat) (im aug out : image) : Prop :=
  (~ colors im -> out = aug) /\
  (colors im -> same_shape_u8 im out /\
    exists conv, converted_colors from to im conv /\
    forall y x, inside im y x ->
      (exists c, replaced id (im_px aug y x 0%nat) (pixel conv y x) c /\ converted cvt gray to from c (pixel out y x)) /\
      (im_c im = Some 4%nat -> im_px out y x 3%nat = im_px im y x 3%nat)).
End Intensity.
(** Every channel is equalized on its own. *)
Definition equalized (equalize : Z -> Z -> (Z -> Z -> Z) -> Z -> Z -> Z) (im out : image) : Prop :=
  same_shape_u8 im out /\ forall y x c, inside im y x -> (c < channels im)%nat -> im_px out y x c = equalize (im_h im) (im_w im) (fun y x => im_px im y x c) y x.
(** Colour spaces with a separate intensity, and those images may come in. *)
Definition may_come_from (s : cspace) : Prop := s = RGB \/ s = BGR \/ s = Lab \/ s = HLS \/ s = HSV.
Definition intensity (s : cspace) (id : nat) : Prop := (s = Lab /\ id = 0%nat) \/ (s = HLS /\ id = 1%nat) \/ (s = HSV /\ id = 2%nat).
