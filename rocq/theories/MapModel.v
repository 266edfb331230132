(** Model of heatmaps (imgaug/augmentables/heatmaps.py) and segmentation maps
    (imgaug/augmentables/segmaps.py). No proofs here. *)
From Verif Require Import Prelude DtyModel.

(** numpy arrays: dtype, shape and the components in row-major order. Values
    are exact rationals; integers and booleans (0, 1) are rationals, too. *)
Inductive adt := ABool | ANum (d : dtype) | AObj.
(** arrays as stored in 43-94 (heatmaps.py). *)
Record nd := mkNd { n_dt : adt; n_shape : list Z; n_flat : list Q }.
Definition float32 : dtype := DF 24 104.
Definition is_float32 (d : adt) : bool :=
  match d with ANum d' => dtype_eqb d' float32 | _ => false end.
(** [np.min] and [np.max] raise ValueError for empty arrays. *)
Definition np_min (l : list Q) : res Q :=
  match l with [] => Err ValueError | x :: l' => Ok (fold_left qmin l' x) end.
(** heatmaps.py:67-75 [np.max]. *)
Definition np_max (l : list Q) : res Q :=
  match l with [] => Err ValueError | x :: l' => Ok (fold_left qmax l' x) end.

(** * Heatmaps *)
(** [hm_2d] is [arr_was_2d]; [hm_arr] is [arr_0to1], always 3d. [heatmaps.py:43-94, the attributes] *)
Record heatmap := mkHm { hm_arr : nd; hm_shape : list Z; hm_min : Q; hm_max : Q; hm_2d : bool }.

(** The tests in lines 84-86 and 117-119. *)
Definition min_is_zero (v : Q) : bool := qltb (0 - f32_eps) v && qltb v (0 + f32_eps).
Definition max_is_one (v : Q) : bool := qltb (1 - f32_eps) v && qltb v (1 + f32_eps).
(** heatmaps.py:84-86, 117-119. *)
Definition unit_range (mn mx : Q) : bool := min_is_zero mn && max_is_one mx.

(** HeatmapsOnImage.__init__ (heatmaps.py 43-94). The warning is left out.
    Simplification: exact arithmetic instead of float32. *)
Definition mk_heatmap (arr : nd) (shape : list Z) (mn mx : Q) : res heatmap :=
  do hw <- match n_shape arr with h :: w :: _ => Ok (h, w) | _ => Err IndexError end;
  if negb ((0 <? fst hw) && (0 <? snd hw)) then Err AssertionError
  else if negb (is_float32 (n_dt arr)) then Err AssertionError
  else if negb (existsb (Nat.eqb (length (n_shape arr))) [2; 3]%nat) then Err AssertionError
  else if negb (existsb (Nat.eqb (length shape)) [2; 3]%nat) then Err AssertionError
  else if negb (qltb mn mx) then Err AssertionError
  else
    let components := firstn 50 (n_flat arr) in
    do lowest <- np_min components;
    do highest <- np_max components;
    let vals := if qltb lowest (mn - f32_eps) || qltb (mx + f32_eps) highest
                then map (fun v => qmin (qmax v mn) mx) (n_flat arr) else n_flat arr in
    let was_2d := Nat.eqb (length (n_shape arr)) 2 in
    let sh := if was_2d then n_shape arr ++ [1] else n_shape arr in
    let vals' := if unit_range mn mx then vals else map (fun v => (v - mn) / (mx - mn))%Q vals in
    Ok (mkHm (mkNd (n_dt arr) sh vals') shape mn mx was_2d).

(** get_arr (96-123). *)
Definition get_arr (hm : heatmap) : nd :=
  let arr := hm_arr hm in
  let sh := if hm_2d hm && (nth 2 (n_shape arr) 0 =? 1) then firstn 2 (n_shape arr) else n_shape arr in
  let vals := if unit_range (hm_min hm) (hm_max hm) then n_flat arr
              else map (fun v => hm_min hm + (hm_max hm - hm_min hm) * v)%Q (n_flat arr) in
  mkNd (n_dt arr) sh vals.

(** from_0to1 (541-582). *)
Definition from_0to1 (arr : nd) (shape : list Z) (mn mx : Q) : res heatmap :=
  do hm <- mk_heatmap arr shape 0 1;
  Ok (mkHm (hm_arr hm) (hm_shape hm) mn mx (hm_2d hm)).

(** invert (254-284). *)
Definition invert (hm : heatmap) : res heatmap :=
  let a := hm_arr hm in
  do inv <- from_0to1 (mkNd (n_dt a) (n_shape a) (map (fun v => 1 - v)%Q (n_flat a)))
                      (hm_shape hm) (hm_min hm) (hm_max hm);
  Ok (mkHm (hm_arr inv) (hm_shape inv) (hm_min inv) (hm_max inv) (hm_2d hm)).

(** pad, avg_pool, max_pool and resize (286-477) apply a function of arrays to
    arr_0to1 and build a new heatmap from the result. *)
Definition rebuild (f : nd -> nd) (hm : heatmap) : res heatmap :=
  from_0to1 (f (hm_arr hm)) (hm_shape hm) (hm_min hm) (hm_max hm).

(** to_uint8 (479-494) and from_uint8 (497-538), with the float32 roundings of
    the multiplication and the division. *)
Definition f32 (q : Q) : Q := to_float 24 q.
(** heatmaps.py:479-494. *)
Definition to_uint8 (hm : heatmap) : nd :=
  let a := hm_arr hm in
  mkNd (ANum (DU 8)) (n_shape a)
    (map (fun v => inject_Z (zclip (np_round (f32 (v * 255))) 0 255)) (n_flat a)).
(** heatmaps.py:497-538. *)
Definition from_uint8 (arr : nd) (shape : list Z) (mn mx : Q) : res heatmap :=
  from_0to1 (mkNd (ANum float32) (n_shape arr) (map (fun v => f32 (v / 255)) (n_flat arr))) shape mn mx.

(** change_normalization (586-657); source and target as tuples. *)
Definition change_normalization (vals : list Q) (source target : Q * Q) : res (list Q) :=
  if negb (qltb (fst source) (snd source)) then Err AssertionError
  else if negb (qltb (fst target) (snd target)) then Err AssertionError
  else
    let near a b := qltb (a - 10 * f32_eps) b && qltb b (a + 10 * f32_eps) in
    if near (fst source) (fst target) && near (snd source) (snd target) then Ok vals
    else Ok (map (fun v => fst target + (v - fst source) / (snd source - fst source) * (snd target - fst target))%Q vals).

(** deepcopy (671-684); copy (660-669) is the same. *)
Definition hm_deepcopy (hm : heatmap) : res heatmap :=
  mk_heatmap (get_arr hm) (hm_shape hm) (hm_min hm) (hm_max hm).

(** * Segmentation maps *)
(** segmaps.py:102-161, the attributes. *)
Record segmap := mkSeg { sg_arr : nd; sg_shape : list Z; sg_dt : adt; sg_ndim : nat }.

(** Consecutive groups of [c] components: the pixels of a (H,W,C) array. [segmaps.py:114-125, iteration over pixels] *)
Fixpoint pixels (fuel : nat) (c : nat) (l : list Q) : list (list Q) :=
  match fuel, l with
  | O, _ | _, [] => []
  | Datatypes.S f, _ => firstn c l :: pixels f c (skipn c l)
  end.
(** [np.argmax]: the first of the largest components. *)
Fixpoint argmax_from (best : Q) (bi i : Z) (l : list Q) : Z :=
  match l with
  | [] => bi
  | x :: l' => if qltb best x then argmax_from x i (i + 1) l' else argmax_from best bi (i + 1) l'
  end.
(** segmaps.py:114-125. *)
Definition np_argmax (l : list Q) : Z :=
  match l with [] => 0 | x :: l' => argmax_from x 0 1 l' end.

(** The deprecated float inputs (segmaps.py 114-125). [np.argmax] over an
    empty axis raises ValueError. *)
Definition from_float (arr : nd) : res nd :=
  match n_shape arr with
  | [h; w] => Ok (mkNd ABool [h; w] (map (fun v => if qltb (1 # 2) v then 1 else 0)%Q (n_flat arr)))
  | [h; w; c] =>
      if c <=? 0 then Err ValueError
      else Ok (mkNd (ANum (DI 32)) [h; w]
                 (map (fun p => inject_Z (np_argmax p)) (pixels (length (n_flat arr)) (Z.to_nat c) (n_flat arr))))
  | _ => Err AssertionError
  end.

(** SegmentationMapsOnImage.__init__ (102-161); [shape] is a tuple. *)
Definition mk_segmap (arr : nd) (shape : list Z) : res segmap :=
  if negb (existsb (Nat.eqb (length (n_shape arr))) [2; 3]%nat) then Err AssertionError
  else
    do a <- match n_dt arr with ANum (DF _ _) => from_float arr | _ => Ok arr end;
    do _ <- match n_dt a with
            | ABool => Ok tt
            | ANum d =>
                do m <- np_min (firstn 100 (n_flat a));
                if negb (qleb 0 m) then Err AssertionError
                else match d with
                     | DU b => if b <=? 16 then Ok tt else Err AssertionError
                     | DI b => if b <=? 32 then Ok tt else Err AssertionError
                     | DF _ _ => Err GenericException
                     end
            | AObj => Err GenericException
            end;
    let ndim := length (n_shape a) in
    let sh := if Nat.eqb ndim 2 then n_shape a ++ [1] else n_shape a in
    Ok (mkSeg (mkNd (ANum (DI 32)) sh (n_flat a)) shape (n_dt a) ndim).

(** [arr.astype(dtype)] on int32 arrays: integers wrap around. *)
Definition astype_from_int32 (d : adt) (v : Q) : Q :=
  match d with
  | ABool => if qeqb v 0 then 0 else 1
  | ANum (DU b) => inject_Z (py_int v mod 2 ^ b)
  | ANum (DI b) => inject_Z ((py_int v + 2 ^ (b - 1)) mod 2 ^ b - 2 ^ (b - 1))
  | _ => v
  end.

(** get_arr (169-202). *)
Definition seg_get_arr (s : segmap) : res nd :=
  let a := sg_arr s in
  let vals := map (astype_from_int32 (sg_dt s)) (n_flat a) in
  if Nat.eqb (sg_ndim s) 2 then
    if nth 2 (n_shape a) 0 =? 1 then Ok (mkNd (sg_dt s) (firstn 2 (n_shape a)) vals)
    else Err AssertionError
  else Ok (mkNd (sg_dt s) (n_shape a) vals).

(** copy and deepcopy (507-569), also used by pad and resize (380-504):
    optionally with another internal array. *)
Definition seg_copy (s : segmap) (arr : option nd) : res segmap :=
  do c <- mk_segmap (match arr with Some a => a | None => sg_arr s end) (sg_shape s);
  Ok (mkSeg (sg_arr c) (sg_shape c) (sg_dt s) (sg_ndim s)).
