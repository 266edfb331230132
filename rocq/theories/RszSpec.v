(** What the theorems about resizing say, in plain terms. *)
From Verif Require Import Prelude ConvModel ConvSpec RszModel.

Definition chans (p : pic) : nat := match p_c p with None => 1%nat | Some n => n end.
(** Pixels [(y, x, c)] of an image. *)
Definition pixel (p : pic) (y x : Z) (c : nat) : Prop := 0 <= y < p_h p /\ 0 <= x < p_w p /\ (c < chans p)%nat.
Definition proper_pic (p : pic) : Prop :=
  0 <= p_h p /\ 0 <= p_w p /\ forall y x c, pixel p y x c -> value_of (p_kind p) (p_px p y x c).
(** The same dtype, shape and pixels. *)
Definition same_pic (p p' : pic) : Prop :=
  p_kind p' = p_kind p /\ p_h p' = p_h p /\ p_w p' = p_w p /\ p_c p' = p_c p /\
  forall y x c, pixel p y x c -> (p_px p' y x c == p_px p y x c)%Q.
(** The requested size: integers are taken as they are, floats are fractions of the side, rounded. *)
Definition requested (side : Z) (n : num) (side' : Z) : Prop :=
  match n with Int z => side' = z | Flt q => side' = np_round (inject_Z side * q) end.
(** The request [sz] for [s], if it is valid: a positive number for both sides or two numbers that
    are not negative. *)
Definition request (s : sizes) (sz : num * num) : Prop :=
  match s with
  | SNum n => (0 < val n)%Q /\ sz = (n, n)
  | STup l => l = [Some (fst sz); Some (snd sz)] /\ (0 <= val (fst sz))%Q /\ (0 <= val (snd sz))%Q
  end.

(** What is assumed of cv2.resize: for images with pixels and up to 512 channels it returns values of
    the dtype and treats every channel as if it were alone. *)
Notation resizer := (inter -> kind -> Z -> Z -> Z -> Z -> nat -> (Z -> Z -> nat -> Q) -> res (Z -> Z -> nat -> Q)).
Definition resizes (cv2 : resizer) : Prop :=
  forall i k h w h' w' n px, 0 < h -> 0 < w -> 0 < h' -> 0 < w' -> (0 < n <= 512)%nat ->
    (forall y x c, 0 <= y < h -> 0 <= x < w -> (c < n)%nat -> value_of k (px y x c)) ->
    exists out, cv2 i k h w h' w' n px = Ok out /\
      forall y x c, 0 <= y < h' -> 0 <= x < w' -> (c < n)%nat ->
        value_of k (out y x c) /\
        exists out1, cv2 i k h w h' w' 1%nat (fun y x _ => px y x c) = Ok out1 /\ (out y x c == out1 y x 0%nat)%Q.
(** For single channels: nearest neighbour interpolation copies pixels, linear and area
    interpolation stay in the range of the image. *)
Definition picks (cv2 : resizer) : Prop :=
  forall k h w h' w' px out, 0 < h -> 0 < w -> cv2 Nearest k h w h' w' 1%nat px = Ok out ->
    forall y x, 0 <= y < h' -> 0 <= x < w' -> exists y0 x0, 0 <= y0 < h /\ 0 <= x0 < w /\ (out y x 0%nat == px y0 x0 0%nat)%Q.
Definition averages (cv2 : resizer) : Prop :=
  forall i k h w h' w' px out lo hi, i = Nearest \/ i = Linear \/ i = Area -> 0 < h -> 0 < w -> cv2 i k h w h' w' 1%nat px = Ok out ->
    value_of k lo -> value_of k hi -> (forall y x, 0 <= y < h -> 0 <= x < w -> (lo <= px y x 0%nat <= hi)%Q) ->
    forall y x, 0 <= y < h' -> 0 <= x < w' -> (lo <= out y x 0%nat <= hi)%Q.

(** A resize of [p] to [h'] x [w'] that has to compute pixels. *)
Definition must_compute (p : pic) (h' w' : Z) : Prop :=
  ~ (h' = p_h p /\ w' = p_w p) /\ h' <> 0 /\ w' <> 0 /\ chans p <> 0%nat.
(** The dtypes that can be resized with an interpolation. *)
Definition resizable (i : inter) (k : kind) : Prop :=
  In k [KBool; KUint 8; KUint 16; KInt 8; KInt 16; KFloat 16; KFloat 32; KFloat 64] \/ (i = Nearest /\ k = KInt 32).
(** The interpolation used: the given one; otherwise area if a side grows, else linear. *)
Definition interpolation_for (p : pic) (h' w' : Z) (ip : inter_arg) (i : inter) : Prop :=
  match ip with
  | None => (i = Area /\ (p_h p < h' \/ p_w p < w')) \/ (i = Linear /\ h' <= p_h p /\ w' <= p_w p)
  | Some (Some j) => i = j
  | Some None => False
  end.
