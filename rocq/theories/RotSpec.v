(** What a user expects of rotations by multiples of 90 degrees (clockwise). *)
From Verif Require Import Prelude GeoModel GeoSpec RotModel.

(** One quarter turn: the left column, read from the bottom, becomes the top row. *)
Definition quarter_turn {A} (a : arr A) : arr A := mkArr (aw a) (ah a) (fun y x => apx a (ah a - 1 - x) y).
Fixpoint quarter_turns {A} (n : nat) (a : arr A) : arr A :=
  match n with O => a | S n' => quarter_turn (quarter_turns n' a) end.

Local Open Scope Q_scope.

(** Where [k] quarter turns take the point (x, y) of a (h, w) image. *)
Definition turned (k h w : Z) (p : keypoint) : keypoint :=
  match (k mod 4)%Z with
  | 0%Z => p
  | 1%Z => mkKp (inject_Z h - ky p) (kx p)
  | 2%Z => mkKp (inject_Z w - kx p) (inject_Z h - ky p)
  | _ => mkKp (ky p) (inject_Z w - kx p)
  end.
(** The size of the turned image. *)
Definition turned_shape (k : Z) (s : shape2) : shape2 := if Z.odd k then (snd s, fst s) else s.
(** ... and of the turned and then rescaled image: turned (h, w) images that
    are not square are stretched back to (h, w). *)
Definition rescaled (h w h' w' : Z) (p : keypoint) : keypoint :=
  mkKp (kx p * inject_Z w / inject_Z w') (ky p * inject_Z h / inject_Z h').
Definition moved (keep_size : bool) (k h w : Z) (p : keypoint) : keypoint :=
  if keep_size && Z.odd k && negb (h =? w)%Z then rescaled h w w h (turned k h w p) else turned k h w p.

(** The point lies inside pixel (y, x), not on its border. *)
Definition in_pixel (y x : Z) (p : keypoint) : Prop :=
  inject_Z x < kx p /\ kx p < inject_Z (x + 1) /\ inject_Z y < ky p /\ ky p < inject_Z (y + 1).

(** The closed image plane. *)
Definition on_plane (s : shape2) (p : keypoint) : Prop :=
  0 <= kx p /\ kx p <= inject_Z (snd s) /\ 0 <= ky p /\ ky p <= inject_Z (fst s).
