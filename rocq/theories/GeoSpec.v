(** Independent vocabulary for the coordinate properties: what it means for a
    point to lie in a box, in an image plane, and for a box to be proper.
    Nothing here uses the model's functions except field access. *)
From Verif Require Import Prelude GeoModel.
Local Open Scope Q_scope.

(** A proper box: top-left corner is not right of / below the other corner. *)
Definition proper (b : bbox) : Prop := x1 b <= x2 b /\ y1 b <= y2 b.

(** Point lies in the closed box. *)
Definition in_box (b : bbox) (x y : Q) : Prop :=
  x1 b <= x /\ x <= x2 b /\ y1 b <= y /\ y <= y2 b.

(** Same corners. *)
Definition same_corners (a b : bbox) : Prop :=
  x1 a == x1 b /\ y1 a == y1 b /\ x2 a == x2 b /\ y2 a == y2 b.
Definition same_box (a b : bbox) : Prop := same_corners a b /\ label a = label b.

(** All points of [a] are points of [b]. *)
Definition box_subset (a b : bbox) : Prop :=
  forall x y, in_box a x y -> in_box b x y.

(** The half-open image plane of a (height, width) image. *)
Definition in_plane (s : shape2) (x y : Q) : Prop :=
  0 <= x /\ x < inject_Z (snd s) /\ 0 <= y /\ y < inject_Z (fst s).

Definition box_in_plane (b : bbox) (s : shape2) : Prop :=
  forall x y, in_box b x y -> in_plane s x y.

(** Area of the part of a box that overlaps the image [0,W]x[0,H], by the
    textbook formula: overlap length in x times overlap length in y. *)
Definition overlap_len (a1 a2 b1 b2 : Q) : Q := qmax 0 (qmin a2 b2 - qmax a1 b1).
Definition visible_area (b : bbox) (s : shape2) : Q :=
  overlap_len (x1 b) (x2 b) 0 (inject_Z (snd s))
  * overlap_len (y1 b) (y2 b) 0 (inject_Z (fst s)).

Definition pt_eq (p q : point) : Prop := fst p == fst q /\ snd p == snd q.
Definition kp_eq (a b : keypoint) : Prop := kx a == kx b /\ ky a == ky b.

(** [b] is the smallest axis-aligned box containing the given points. *)
Definition smallest_box_around (b : bbox) (four : list keypoint) : Prop :=
  proper b /\
  (forall k, In k four -> in_box b (kx k) (ky k)) /\
  (forall c, (forall k, In k four -> in_box c (kx k) (ky k)) -> box_subset b c).

(** [out] is [items] without the items whose fraction is not below [fr]; order
    is kept and every item is decided by its own fraction. *)
Inductive kept_below {A} (frac : A -> res Q) (fr : Q) : list A -> list A -> Prop :=
| kb_nil : kept_below frac fr [] []
| kb_keep : forall i v items out, frac i = Ok v -> v < fr ->
    kept_below frac fr items out -> kept_below frac fr (i :: items) (i :: out)
| kb_drop : forall i v items out, frac i = Ok v -> fr <= v ->
    kept_below frac fr items out -> kept_below frac fr (i :: items) out.
