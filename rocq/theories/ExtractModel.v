(** Model of imgaug/augmentables/bbs.py:964-1090
    [BoundingBox.extract_from_image] for (H,W,C) integer images. Coordinates
    are exact rationals. Simplification: a negative [pad_max] is treated by
    [pad]'s own assertion, as in the code. *)
From Verif Require Import Prelude GeoModel SizeModel.

(** bbs.py:187-229 [x1_int], [y1_int], [x2_int], [y2_int]. *)
Definition x1_int (b : bbox) : Z := np_round (x1 b).
(** bbs.py:187-229. *)
Definition y1_int (b : bbox) : Z := np_round (y1 b).
(** bbs.py:187-229. *)
Definition x2_int (b : bbox) : Z := np_round (x2 b).
(** bbs.py:187-229. *)
Definition y2_int (b : bbox) : Z := np_round (y2 b).

(** bbs.py:1071-1075: Python compares tuples lexicographically. *)
Fixpoint tuple_leb (a b : list Z) : bool :=
  match a, b with
  | x :: a', y :: b' => if x =? y then tuple_leb a' b' else x <? y
  | [], _ => true
  | _ :: _, [] => false
  end.
(** bbs.py:1071-1075. *)
Fixpoint tuple_ltb (a b : list Z) : bool :=
  match a, b with
  | x :: a', y :: b' => if x =? y then tuple_ltb a' b' else x <? y
  | [], _ :: _ => true
  | _, [] => false
  end.

(** bbs.py:1006-1026: rounding, correction near the far image border, minimum
    size. *)
Definition extract_corners (b : bbox) (height width : Z) (prevent_zero_size : bool)
  : (Z * Z) * (Z * Z) :=
  let within := bb_is_fully_within_image b (height, width) in
  let fix_ v n := if within then zclip v 0 (n - 1) else v in
  let ax1 := fix_ (x1_int b) width in
  let ax2 := fix_ (x2_int b) width in
  let ay1 := fix_ (y1_int b) height in
  let ay2 := fix_ (y2_int b) height in
  let ax2 := if prevent_zero_size && (Z.abs (ax2 - ax1) <? 1) then ax1 + 1 else ax2 in
  let ay2 := if prevent_zero_size && (Z.abs (ay2 - ay1) <? 1) then ay1 + 1 else ay2 in
  ((ax1, ay1), (ax2, ay2)).

(** bbs.py:1028-1069: the branch [pad=True]. *)
Definition extract_padded (nb_channels : nat) (a : arr (list Z))
  (ax1 ay1 ax2 ay2 : Z) (pad_max : option Z) : res (arr (list Z)) :=
  let pad_left := if ax1 <? 0 then Z.abs ax1 else 0 in
  let ax2 := ax2 + pad_left in
  let width := aw a + pad_left in
  let ax1 := if ax1 <? 0 then 0 else ax1 in
  let pad_top := if ay1 <? 0 then Z.abs ay1 else 0 in
  let ay2 := ay2 + pad_top in
  let height := ah a + pad_top in
  let ay1 := if ay1 <? 0 then 0 else ay1 in
  let pad_right := if width <=? ax2 then ax2 - width else 0 in
  let pad_bottom := if height <=? ay2 then ay2 - height else 0 in
  let any_padded := (0 <? pad_top) || (0 <? pad_right) || (0 <? pad_bottom) || (0 <? pad_left) in
  do img <- (if any_padded then
               let pm := match pad_max with
                         | None => Z.max (Z.max pad_top pad_right) (Z.max pad_bottom pad_left)
                         | Some m => m end in
               pad 0 255 nb_channels a
                 (mkTrbl (Z.min pad_top pm) (Z.min pad_right pm) (Z.min pad_bottom pm) (Z.min pad_left pm))
                 PMConstant (CvScalar 0)
             else Ok a);
  Ok (slice2 img ay1 ay2 ax1 ax2).

(** bbs.py:1070-1090: the branch [pad=False]. *)
Definition extract_unpadded (nb_channels : nat) (a : arr (list Z))
  (ax1 ay1 ax2 ay2 : Z) (prevent_zero_size : bool) : arr (list Z) :=
  let within_image := tuple_leb [0; 0; 0; 0] [ax1; ay1; ax2; ay2]
                      && tuple_ltb [ax1; ay1; ax2; ay2] [aw a; ah a; aw a; ah a] in
  if within_image && (0 <? ay2 - ay1) && (0 <? ax2 - ax1)
  then slice2 a ay1 ay2 ax1 ax2
  else let n := if prevent_zero_size then 1 else 0 in
       mkArr n n (fun _ _ => repeat 0 nb_channels).

(** bbs.py:964-1090 [extract_from_image]. *)
Definition extract_from_image (nb_channels : nat) (a : arr (list Z)) (b : bbox)
  (pad : bool) (pad_max : option Z) (prevent_zero_size : bool) : res (arr (list Z)) :=
  let '((ax1, ay1), (ax2, ay2)) := extract_corners b (ah a) (aw a) prevent_zero_size in
  if pad then extract_padded nb_channels a ax1 ay1 ax2 ay2 pad_max
  else Ok (extract_unpadded nb_channels a ax1 ay1 ax2 ay2 prevent_zero_size).
