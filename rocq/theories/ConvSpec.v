(** What the theorems about convolutions and blurs say, in plain terms. *)
From Coq Require Import Reals.
From Verif Require Import Prelude ConvModel.

(** Sums over [n] numbers and over a table. *)
Fixpoint sum_n (n : nat) (f : Z -> Q) : Q :=
  match n with O => 0 | S m => sum_n m f + f (Z.of_nat m) end%Q.
Definition sum2 (h w : Z) (f : Z -> Z -> Q) : Q := sum_n (Z.to_nat h) (fun i => sum_n (Z.to_nat w) (fun j => f i j)).
Definition weight (K : arr Q) : Q := sum2 (ah K) (aw K) (fun i j => apx K i j).

(** Index [p] seen in the mirrors placed at the first and the last of [n] pixels. *)
Definition mirrored (n p m : Z) : Prop :=
  0 <= m < n /\ (n = 1 \/ exists t, p = 2 * t * (n - 1) + m \/ p = 2 * t * (n - 1) - m).

(** The value stored for the exact result [q] in an image of dtype [k]. *)
Definition stored (k : kind) (q v : Q) : Prop :=
  match k with
  | KBool => ((1 # 2) < q /\ v == 1) \/ (q <= 1 # 2 /\ v == 0)
  | KUint b => v == inject_Z (zclip (np_round q) 0 (2 ^ b - 1))
  | KInt b => v == inject_Z (zclip (np_round q) (- 2 ^ (b - 1)) (2 ^ (b - 1) - 1))
  | KFloat 16 => v == qclip q (-65504) 65504
  | KFloat _ => v == q
  end%Q.
(** A value that an image of dtype [k] may have. *)
Definition value_of (k : kind) (v : Q) : Prop :=
  match k with
  | KBool => v == 0 \/ v == 1
  | KUint b => exists z, v == inject_Z z /\ (0 <= z <= 2 ^ b - 1)%Z
  | KInt b => exists z, v == inject_Z z /\ (- 2 ^ (b - 1) <= z <= 2 ^ (b - 1) - 1)%Z
  | KFloat 16 => -65504 <= v <= 65504
  | KFloat _ => True
  end%Q.
Definition proper_image (im : img) : Prop :=
  0 <= i_h im /\ 0 <= i_w im /\
  forall ch y x, In ch (i_ch im) -> 0 <= y < i_h im -> 0 <= x < i_w im -> value_of (i_kind im) (ch y x).

(** The same dtype, size and number of channels, and the pixels [v'] fit the channel [ch] of the
    first image: [P c ch y x v']. *)
Definition pixelwise (P : nat -> (Z -> Z -> Q) -> Z -> Z -> Q -> Prop) (im im' : img) : Prop :=
  i_kind im' = i_kind im /\ i_h im' = i_h im /\ i_w im' = i_w im /\ length (i_ch im') = length (i_ch im) /\
  forall c ch ch' y x, nth_error (i_ch im) c = Some ch -> nth_error (i_ch im') c = Some ch' ->
    0 <= y < i_h im -> 0 <= x < i_w im -> P c ch y x (ch' y x).
Definition same_image (im im' : img) : Prop := pixelwise (fun _ ch y x v' => v' == ch y x)%Q im im'.

(** [q] is the weighted sum around ([y], [x]) of channel [ch] with the kernel [K], whose centre is
    the entry [height / 2], [width / 2]; outside of the image the mirrored pixels count. *)
Definition weighted_sum (K : arr Q) (h w : Z) (ch : Z -> Z -> Q) (y x : Z) (q : Q) : Prop :=
  exists my mx : Z -> Z,
    (forall i, mirrored h (y + i - ah K / 2) (my i)) /\ (forall j, mirrored w (x + j - aw K / 2) (mx j)) /\
    (q == sum2 (ah K) (aw K) (fun i j => apx K i j * ch (my i) (mx j)))%Q.
(** The kernel for channel [c]: the one array or the [c]-th entry of the list. *)
Definition kernel_for (k : kernel_arg) (c : nat) : option (arr Q) :=
  match k with KArr K => Some K | KList l => nth c l None | _ => None end.
(** A valid kernel for [n] channels. *)
Definition kernel_fits (k : kernel_arg) (n : nat) : Prop :=
  match k with KArr _ => True | KList l => length l = n | _ => False end.
(** Averaging kernels: no negative entries, total weight 1. *)
Definition averaging (K : arr Q) : Prop :=
  (forall i j, 0 <= i < ah K -> 0 <= j < aw K -> (0 <= apx K i j)%Q) /\ (weight K == 1)%Q.
Definition flat (v : Q) (im : img) : Prop :=
  forall ch y x, In ch (i_ch im) -> 0 <= y < i_h im -> 0 <= x < i_w im -> (ch y x == v)%Q.
(** All pixels of channel [c] are between [lo] and [hi]. *)
Definition between (im : img) (c : nat) (lo hi : Q) : Prop :=
  forall ch y x, nth_error (i_ch im) c = Some ch -> 0 <= y < i_h im -> 0 <= x < i_w im -> (lo <= ch y x <= hi)%Q.

(** The pixels around ([y], [x]): [p dy dx] is the one [dy] rows below and [dx] columns to the right. *)
Definition around (h w : Z) (ch : Z -> Z -> Q) (y x : Z) (p : Z -> Z -> Q) : Prop :=
  exists my mx : Z -> Z, (forall d, mirrored h (y + d) (my d)) /\ (forall d, mirrored w (x + d) (mx d)) /\
    forall dy dx, p dy dx = ch (my dy) (mx dx).
(** The full effects. Sharpen: nine times the pixel minus the sum of the 3x3 pixels, plus
    (lightness) times the pixel. Emboss: the pixel plus the differences from the upper left to the
    lower right. EdgeDetect: the sum of the differences to the four neighbours. *)
Definition sharpened (lightness : Q) (p : Z -> Z -> Q) : Q :=
  (9 * p 0%Z 0%Z - (p (-1)%Z (-1)%Z + p (-1)%Z 0%Z + p (-1)%Z 1%Z + p 0%Z (-1)%Z + p 0%Z 0%Z + p 0%Z 1%Z + p 1%Z (-1)%Z + p 1%Z 0%Z + p 1%Z 1%Z)
   + lightness * p 0%Z 0%Z)%Q.
Definition embossed (strength : Q) (p : Z -> Z -> Q) : Q :=
  (p 0%Z 0%Z + (1 + strength) * (p 1%Z 1%Z - p (-1)%Z (-1)%Z)
   + strength * (p 0%Z 1%Z - p 0%Z (-1)%Z) + strength * (p 1%Z 0%Z - p (-1)%Z 0%Z))%Q.
Definition edges_of (p : Z -> Z -> Q) : Q :=
  ((p (-1)%Z 0%Z - p 0%Z 0%Z) + (p 1%Z 0%Z - p 0%Z 0%Z) + (p 0%Z (-1)%Z - p 0%Z 0%Z) + (p 0%Z 1%Z - p 0%Z 0%Z))%Q.
(** Pixels are [1 - alpha] parts of the original and [alpha] parts of [effect], stored in the dtype. *)
Definition blended (alpha : Q) (effect : (Z -> Z -> Q) -> Q) (im im' : img) : Prop :=
  pixelwise (fun _ ch y x v' => forall p, around (i_h im) (i_w im) ch y x p ->
    stored (i_kind im) ((1 - alpha) * ch y x + alpha * effect p)%Q v') im im'.

(** Cells around the centre of a 3x3 kernel, [x] to the right and [y] downwards. *)
Definition cell (c : Z * Z) : Prop := -1 <= fst c <= 1 /\ -1 <= snd c <= 1 /\ c <> (0, 0).
(** How much cell [c] lies in the direction [deg] degrees clockwise from the top: the cosine of the angle. *)
Definition facing (deg : Z) (c : Z * Z) : R :=
  let a := (IZR deg * PI / 180)%R in
  ((IZR (fst c) * sin a + IZR (snd c) * - cos a) / sqrt (IZR (fst c) * IZR (fst c) + IZR (snd c) * IZR (snd c)))%R.

(** The mean of the [kh] x [kw] pixels around ([y], [x]). *)
Definition mean_around (kh kw : Z) (h w : Z) (ch : Z -> Z -> Q) (y x : Z) (q : Q) : Prop :=
  exists my mx : Z -> Z,
    (forall i, mirrored h (y + i - kh / 2) (my i)) /\ (forall j, mirrored w (x + j - kw / 2) (mx j)) /\
    (q == sum2 kh kw (fun i j => ch (my i) (mx j)) / inject_Z (kh * kw))%Q.

(** What is assumed of rotating a kernel: the size, the sign of the entries and a positive centre are kept. *)
Definition rotates (rotate : arr Z -> arr Z) : Prop :=
  forall m, ah (rotate m) = ah m /\ aw (rotate m) = aw m /\
    ((forall y x, 0 <= y < ah m -> 0 <= x < aw m -> 0 <= apx m y x) -> forall y x, 0 <= y < ah m -> 0 <= x < aw m -> 0 <= apx (rotate m) y x) /\
    (0 < apx m (ah m / 2) (aw m / 2) -> 0 < apx (rotate m) (ah m / 2) (aw m / 2)).
