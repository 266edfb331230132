(** What a user expects of a jigsaw augmentation. *)
From Verif Require Import Prelude GeoModel.

(** (r, c) is a cell of the grid [d]. *)
Definition in_grid (d : arr Z) (r c : Z) : Prop := 0 <= r < ah d /\ 0 <= c < aw d.

(** [d] sends the cell (r, c) to the cell (r', c'): the entry is the number of
    the target in reading order. *)
Definition sends (d : arr Z) (r c r' c' : Z) : Prop :=
  0 <= r' < ah d /\ 0 <= c' < aw d /\ apx d r c = r' * aw d + c'.

(** [d] rearranges the cells: every cell goes to a cell and every cell is the
    target of exactly one cell. *)
Definition rearranges (d : arr Z) : Prop :=
  (forall r c, in_grid d r c -> exists r' c', sends d r c r' c') /\
  (forall r' c', in_grid d r' c' -> exists r c, in_grid d r c /\ sends d r c r' c' /\
     forall r2 c2, in_grid d r2 c2 -> sends d r2 c2 r' c' -> r2 = r /\ c2 = c).

(** The pixel (or point) at offset (dy, dx) of cell (r, c) in cells of size
    [ch] x [cw]. *)
Definition at_cell (ch cw r c dy dx : Z) : Z * Z := (r * ch + dy, c * cw + dx).

(** The point lies in the pixel (y, x) (left and upper border included). *)
Definition on_pixel (y x : Z) (p : keypoint) : Prop :=
  (inject_Z x <= kx p /\ kx p < inject_Z (x + 1) /\ inject_Z y <= ky p /\ ky p < inject_Z (y + 1))%Q.

(** The number of moves between two cells, diagonal moves being one or two
    steps. *)
Definition distance (connectivity r c r' c' : Z) : Z :=
  if connectivity =? 8 then Z.max (Z.abs (r - r')) (Z.abs (c - c')) else Z.abs (r - r') + Z.abs (c - c').
