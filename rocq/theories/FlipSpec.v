(** Independent vocabulary for the flip property. *)
From Verif Require Import Prelude GeoModel GeoSpec SizeSpec FlipModel.

(** [b] is the left-right (up-down) mirror image of [a]. *)
Definition mirrored_lr {A} (a b : arr A) : Prop :=
  ah b = ah a /\ aw b = aw a /\
  forall y x, 0 <= y < ah a -> 0 <= x < aw a -> apx b y (aw a - 1 - x) = apx a y x.
Definition mirrored_ud {A} (a b : arr A) : Prop :=
  ah b = ah a /\ aw b = aw a /\
  forall y x, 0 <= y < ah a -> 0 <= x < aw a -> apx b (ah a - 1 - y) x = apx a y x.

(** Equality of annotations up to rational equality of coordinates. *)
Definition kpsoi_same (a b : kpsoi) : Prop :=
  kps_shape a = kps_shape b /\ Forall2 kp_eq (kps a) (kps b).
Definition bbsoi_same (a b : bbsoi) : Prop :=
  bbs_shape a = bbs_shape b /\ Forall2 same_box (bbs a) (bbs b).
Definition coordsoi_same (a b : coordsoi) : Prop :=
  cs_shape a = cs_shape b /\ Forall2 (Forall2 pt_eq) (cs_items a) (cs_items b).

(** Two optional columns agree row by row. *)
Definition col_same {A} (R : A -> A -> Prop) (a b : option (list A)) : Prop :=
  match a, b with
  | None, None => True
  | Some l, Some l' => Forall2 R l l'
  | _, _ => False
  end.
Definition fbatch_same (a b : fbatch) : Prop :=
  col_same arr_eq (fb_images a) (fb_images b) /\
  col_same arr_eq (fb_heatmaps a) (fb_heatmaps b) /\
  col_same arr_eq (fb_segmaps a) (fb_segmaps b) /\
  col_same kpsoi_same (fb_keypoints a) (fb_keypoints b) /\
  col_same bbsoi_same (fb_bbs a) (fb_bbs b) /\
  col_same coordsoi_same (fb_polygons a) (fb_polygons b) /\
  col_same coordsoi_same (fb_line_strings a) (fb_line_strings b).

Definition col_all {A} (P : A -> Prop) (c : option (list A)) : Prop :=
  match c with None => True | Some l => Forall P l end.

(** Row [i] of an optional column. *)
Definition col_row {A} (c : option (list A)) (i : nat) : option A :=
  match c with None => None | Some l => nth_error l i end.
