(** Specification for KeepSizeByResize and the pooling augmenters, independent
    of how the model computes its results. *)
From Coq Require Import String QArith.
From Verif Require Import Prelude GeoModel KeepModel.
Import ListNotations.
Open Scope Z_scope.

(** [x] is entry [i] of column [l]. *)
Definition row {A} (l : list A) (i : nat) (x : A) : Prop := nth_error l i = Some x.

(** The method chosen for row [i]. *)
Definition chosen (p : ipparam) (ix : nat -> nat) (i : nat) : ipv :=
  match p with
  | PSame => same_as_images
  | PDet v => v
  | PChoice vs => nth (ix i mod length vs) vs no_resize
  end.

(** The method chosen for a map in row [i]: the one of the image if
    SAME_AS_IMAGES was given or chosen. *)
Definition chosen_map (ph p : ipparam) (ixh ix : nat -> nat) (i : nat) : ipv :=
  if ipv_eqb (chosen ph ixh i) same_as_images then chosen p ix i else chosen ph ixh i.

(** All methods are given by name, not as integers of cv2. *)
Definition is_name (v : ipv) : Prop := match v with IS _ => True | IN _ => False end.
Definition named (p : ipparam) : Prop :=
  match p with PSame => True | PDet v => is_name v | PChoice vs => Forall is_name vs end.

(** [o] is [m], brought to size [s] by method [ip]. *)
Definition resized (cv2_resize : option ipv -> shape2 -> arr Z -> Z -> Z -> Z) (ip : ipv) (m : img) (s : shape2) (o : img) : Prop :=
  i_shape o = s /\ i_nc o = i_nc m /\
  (i_shape m = s -> o = m) /\
  (i_shape m <> s -> fst s <> 0 -> snd s <> 0 -> i_nc m <> 0 ->
   forall y x, apx (i_px o) y x = cv2_resize (Some ip) s (i_px m) y x).

(** Two keypoints at the same relative position of images of size [s], [s']. *)
Definition same_relative (s s' : shape2) (k k' : keypoint) : Prop :=
  (kx k' * inject_Z (snd s) == kx k * inject_Z (snd s') /\
   ky k' * inject_Z (fst s) == ky k * inject_Z (fst s'))%Q.

(** [s] is the image size that row [i] of the batch refers to. *)
Inductive shape_at (b : kbatch) (i : nat) : shape2 -> Prop :=
| at_image : forall l m, b_images b = Some l -> row l i m -> shape_at b i (i_shape m)
| at_heatmap : forall l m, b_heatmaps b = Some l -> row l i m -> shape_at b i (mo_shape m)
| at_segmap : forall l m, b_segmaps b = Some l -> row l i m -> shape_at b i (mo_shape m)
| at_keypoints : forall l k, b_keypoints b = Some l -> row l i k -> shape_at b i (kps_shape k).

(** Images, maps and coordinates of every row refer to the same image size. *)
Definition aligned (b : kbatch) : Prop :=
  forall i s s', shape_at b i s -> shape_at b i s' -> s = s'.

(** The columns present in [b] have [n] rows. *)
Definition col_len {A} (n : nat) (o : option (list A)) : Prop :=
  match o with None => True | Some l => length l = n end.
Definition rows (n : nat) (b : kbatch) : Prop :=
  col_len n (b_images b) /\ col_len n (b_heatmaps b) /\ col_len n (b_segmaps b) /\ col_len n (b_keypoints b).

(** Some column is present. *)
Definition nonempty (b : kbatch) : Prop :=
  b_images b <> None \/ b_heatmaps b <> None \/ b_segmaps b <> None \/ b_keypoints b <> None.

(** The children keep the columns and the number of rows. *)
Definition same_col {A B} (o : option A) (o' : option B) : Prop :=
  (o = None <-> o' = None).
Definition same_columns (b c : kbatch) : Prop :=
  same_col (b_images b) (b_images c) /\ same_col (b_heatmaps b) (b_heatmaps c) /\
  same_col (b_segmaps b) (b_segmaps c) /\ same_col (b_keypoints b) (b_keypoints c).

(** No image, array or image size in the batch has an axis of size zero; the
    arrays of heatmaps are not int32. *)
Definition in_col {A} (P : A -> Prop) (o : option (list A)) : Prop :=
  match o with None => True | Some l => Forall P l end.
Definition pos_shape (s : shape2) : Prop := 0 < fst s /\ 0 < snd s.
Definition pos_img (m : img) : Prop := pos_shape (i_shape m) /\ 0 < i_nc m.
Definition positive (b : kbatch) : Prop :=
  in_col (fun m => pos_img m /\ i_int32 m = false) (b_images b) /\
  in_col (fun m => pos_img (mo_arr m) /\ i_int32 (mo_arr m) = false /\ pos_shape (mo_shape m)) (b_heatmaps b) /\
  in_col (fun m => pos_img (mo_arr m) /\ i_int32 (mo_arr m) = true /\ pos_shape (mo_shape m)) (b_segmaps b) /\
  in_col (fun k => pos_shape (kps_shape k)) (b_keypoints b).
