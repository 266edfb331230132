(** What a user expects of blending. *)
From Coq Require Import Qabs.
From Verif Require Import Prelude GeoModel AriModel BlendModel.

(** The weighted mean of two components. *)
Definition mixed (f b : Z) (a : Q) : Q := (a * inject_Z f + (1 - a) * inject_Z b)%Q.

(** The weight meant for the component at flat index [i]: pixel [i / nc],
    channel [i mod nc]. *)
Definition weight (nc : nat) (a : alphas) (i : nat) : Q :=
  match a with
  | ASingle q => q
  | AChannels l => nth (i mod nc)%nat l 0%Q
  | APixels l => nth (i / nc)%nat l 0%Q
  | AComponents l => nth i l 0%Q
  end.
(** As many weights as there are channels, pixels, components. *)
Definition fits (nc nb_pixels : nat) (a : alphas) : Prop :=
  match a with
  | ASingle _ => True
  | AChannels l => length l = nc
  | APixels l => length l = nb_pixels
  | AComponents l => length l = (nb_pixels * nc)%nat
  end.
Definition in_unit (q : Q) : Prop := (0 <= q /\ q <= 1)%Q.
(** One weight for the image or one per channel. *)
Definition uniform (a : alphas) : Prop := match a with ASingle _ | AChannels _ => True | _ => False end.

Definition uint8 (l : list Z) : Prop := Forall (fun v => 0 <= v <= 255) l.
Definition between (f b r : Z) : Prop := Z.min f b <= r <= Z.max f b.

(** A pixel of a mask, read at a point. *)
Definition in_mask {A} (m : arr A) (y x : Z) : Prop := 0 <= y < ah m /\ 0 <= x < aw m.

(** Pixel (y, x) belongs to a box if its lower right corner does. *)
Definition covered (b : labelled_box) (y x : Z) : Prop :=
  (l_x1 b < inject_Z (x + 1) /\ inject_Z (x + 1) <= l_x2 b /\
   l_y1 b < inject_Z (y + 1) /\ inject_Z (y + 1) <= l_y2 b)%Q.
Definition selected (labels : option (list (option Z))) (b : labelled_box) : Prop :=
  match labels with None => True | Some ls => In (l_label b) ls end.

(** Arrays of cells: all cells have the same size, up to the remainder. *)
Definition cell_size (size nb : Z) : Z := size / Z.min (Z.max nb 1) size.
Definition cell_start (size nb : Z) : Z :=
  let n := Z.min (Z.max nb 1) size in (size - n * (size / n)) / 2.
(** The number of rows (columns) actually used: at least 1, at most one per pixel. *)
Definition clipped (n size : Z) : Z := Z.min (Z.max n 1) size.

(** The blended component is in range, is the weighted mean up to [tol], or is
    exactly one of the two inputs when the weight is within [eps] of an end. *)
Definition blended (tol eps : Q) (f b : Z) (a : Q) (r : Z) : Prop :=
  0 <= r <= 255 /\
  ((Qabs (inject_Z r - mixed f b a) <= tol)%Q \/ ((1 - eps <= a)%Q /\ r = f) \/ ((a <= eps)%Q /\ r = b)) /\
  ((a == 1)%Q -> r = f) /\ ((a == 0)%Q -> r = b).

(** The sum over a mask of its values, resp. their number. *)
Definition sum_to (n : Z) (f : Z -> Q) : Q := fold_right (fun i acc => f (Z.of_nat i) + acc)%Q 0%Q (seq 0 (Z.to_nat n)).
Definition mask_total (m : mask) : Q :=
  sum_to (ah m) (fun y => sum_to (aw m) (fun x => fold_right Qplus 0%Q (apx m y x))).
Definition mask_count (m : mask) : Q :=
  sum_to (ah m) (fun y => sum_to (aw m) (fun x => inject_Z (Z.of_nat (length (apx m y x))))).
