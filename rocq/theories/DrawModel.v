(** Model of drawing keypoints, bounding boxes, segmentation maps and heatmaps on images
    (kps.py, bbs.py, segmaps.py, heatmaps.py). Numbers are exact rationals, except for the
    conversion of whole images to float32. *)
From Verif Require Import Prelude UtilModel DtyModel GeoModel ConvModel RszModel.
Local Open Scope Z_scope.

(** The argument [color]: a number or a list of numbers. [kps.py:322-324] *)
Inductive color := CNum (q : Q) | CList (l : list Q).
(** numpy's broadcasting of a colour to the [n] channels of an image (kps.py:396, bbs.py:882). *)
Definition fits (col : color) (n : nat) : bool :=
  match col with CNum _ => true | CList l => Nat.eqb (length l) n || Nat.eqb (length l) 1 end.
(** Its value for channel [c]. [kps.py:396, bbs.py:882] *)
Definition shade (col : color) (c : nat) : Q :=
  match col with CNum q => q | CList l => if Nat.eqb (length l) 1 then nth 0 l 0%Q else nth c l 0%Q end.
(** The number of channels. [kps.py:351-356] *)
Definition depth (p : pic) : nat := match p_c p with None => 1%nat | Some n => n end.
(** Storing a number in an array of a dtype (kps.py:396, bbs.py:882). Simplification: integers
    beyond the range of the dtype and rounding to floats are not modelled. *)
Definition store (k : kind) (q : Q) : Q :=
  match k with
  | KBool => if qeqb q 0 then 0%Q else 1%Q
  | KUint _ | KInt _ => inject_Z (py_int q)
  | KFloat _ => q
  end.

(** ** Keypoints *)
(** The pixels from [max(i - size//2, 0)] to [min(i + 1 + size//2, side)], clipped to the image
    (kps.py:375-381). *)
Definition strip (i size side : Z) : Z * Z :=
  (zclip (Z.max (i - size / 2) 0) 0 side, zclip (Z.min (i + 1 + size / 2) side) 0 side).
(** [x_ooi] and [x_zero_size] (kps.py:383-391). *)
Definition no_strip (s : Z * Z) (side : Z) : bool :=
  (((fst s <? 0) || (side <=? fst s)) && ((snd s <? 0) || (side + 1 <=? snd s))) || (snd s - fst s <? 1).
(** The conversion of a transparent drawing back to the dtype of the image (kps.py:408-411). *)
Definition fin (k : kind) (px : Z -> Z -> nat -> Q) : Z -> Z -> nat -> Q :=
  match k with
  | KUint 8 => fun y x c => store (KUint 8) (qclip (px y x c) 0 255)
  | KFloat 32 => px
  | k => fun y x c => store k (px y x c)
  end.
(** Keypoint.draw_on_image (kps.py:350-412). Simplification: color is not converted beyond
    [store]. *)
Definition kp_draw (col : color) (alpha : Q) (size : Z) (raise : bool) (p : pic) (k : keypoint) : res pic :=
  if match p_c p, col with None, CList _ => true | _, _ => false end then Err AssertionError
  else if qltb alpha (1 # 100) then Ok p
  else
    let opaque := qltb (99 # 100) alpha in
    let px := if opaque then p_px p else fun y x c => to_float 24 (p_px p y x c) in
    let xs := strip (np_round (kx k)) size (p_w p) in
    let ys := strip (np_round (ky k)) size (p_h p) in
    do px' <-
      (if negb (no_strip xs (p_w p)) && negb (no_strip ys (p_h p))
       then
         if fits col (depth p)
         then Ok (fun y x c =>
                    if (fst ys <=? y) && (y <? snd ys) && (fst xs <=? x) && (x <? snd xs)
                    then if opaque then store (p_kind p) (shade col c)
                         else ((1 - alpha) * px y x c + alpha * shade col c)%Q
                    else px y x c)
         else Err ValueError
       else if raise then Err GenericException else Ok px);
    Ok (mkPic (p_kind p) (p_h p) (p_w p) (p_c p)
          (if opaque then px'
           else fin (p_kind p) px')).
(** KeypointsOnImage.draw_on_image (kps.py:788-794). *)
Fixpoint kps_draw (col : color) (alpha : Q) (size : Z) (raise : bool) (p : pic) (l : list keypoint) : res pic :=
  match l with
  | [] => Ok p
  | k :: l => do p' <- kp_draw col alpha size raise p k; kps_draw col alpha size raise p' l
  end.

(** ** Bounding boxes *)
(** The rounded sides (top, bottom, left, right), moved into the image if the box is fully within it
    (bbs.py:864-877). *)
Definition sides (b : bbox) (h w : Z) : (Z * Z) * (Z * Z) :=
  let f := fun side q => if bb_is_fully_within_image b (h, w) then zclip (np_round q) 0 (side - 1) else np_round q in
  ((f h (y1 b), f h (y2 b)), (f w (x1 b), f w (x2 b))).
(** skimage.draw.polygon_perimeter of a rectangle (bbs.py:879-881): the pixels on its sides. *)
Definition perimeter (t d l r : Z) (y x : Z) : bool :=
  (t <=? y) && (y <=? d) && (l <=? x) && (x <=? r) && ((y =? t) || (y =? d) || (x =? l) || (x =? r)).
(** One iteration of the loop of draw_box_on_image (bbs.py:864-898). *)
Definition ring (b : bbox) (col : color) (alpha : Q) (p : pic) (i : Z) : res pic :=
  match p_c p with
  | None => Err IndexError
  | Some n =>
      if negb (fits col n) then Err ValueError
      else
        let '((t, d), (l, r)) := sides b (p_h p) (p_w p) in
        let on := perimeter (t - i) (d + i) (l - i) (r + i) in
        let blend := fun (px : Z -> Z -> nat -> Q) y x c =>
          qclip (if on y x then (1 - alpha) * px y x c + alpha * shade col c else px y x c) 0 255 in
        Ok (mkPic (p_kind p) (p_h p) (p_w p) (p_c p)
              (if qleb (99 # 100) alpha
               then fun y x c => if on y x then store (p_kind p) (shade col c) else p_px p y x c
               else match p_kind p with
                    | KFloat _ => blend (p_px p)
                    | k => fun y x c => store k (blend (fun y x c => to_float 24 (p_px p y x c)) y x c)
                    end))
  end.
(** See [box_draw]: the loop [for i in range(size)]. [bbs.py:864] *)
Fixpoint rings (b : bbox) (col : color) (alpha : Q) (p : pic) (l : list Z) : res pic :=
  match l with [] => Ok p | i :: l => do p' <- ring b col alpha p i; rings b col alpha p' l end.
(** BoundingBox.draw_box_on_image (bbs.py:846-900); lists become arrays of uint8 (861-862). *)
Definition box_draw (col : color) (alpha : Q) (size : Z) (raise : bool) (p : pic) (b : bbox) : res pic :=
  if raise && bb_is_out_of_image b (p_h p, p_w p) true false then Err GenericException
  else
    let col := match col with CNum q => CNum q | CList l => CList (map (fun q => inject_Z (py_int q mod 256)) l) end in
    rings b col alpha p (zrange size).
(** BoundingBoxesOnImage.draw_on_image (bbs.py:1736-1747) for boxes without labels. *)
Fixpoint boxes_draw (col : color) (alpha : Q) (size : Z) (raise : bool) (p : pic) (l : list bbox) : res pic :=
  match l with
  | [] => Ok p
  | b :: l => do p' <- box_draw col alpha size raise p b; boxes_draw col alpha size raise p' l
  end.

(** ** Segmentation maps and heatmaps *)
(** blend_alpha (blend.py:46-277) of two uint8 values with one alpha. *)
Definition mix8 (alpha : Q) (fg bg : Q) : Q :=
  if qleb (99 # 100) alpha then fg
  else if qleb alpha (1 # 100) then bg
  else inject_Z (zclip (np_round (fg * alpha + bg * (1 - alpha))) 0 255).
(** The assertions at the start (segmaps.py:311-326, heatmaps.py:217-234); the argument [resize]:
    None for an invalid value, whether the image is resized otherwise. *)
Definition drawable (image : pic) (alpha : Q) (resize : option bool) : bool :=
  match p_c image, p_kind image with
  | Some 3%nat, KUint 8 => qleb (- (1 # 100000000)) alpha && qleb alpha (1 + (1 # 100000000)) && match resize with Some _ => true | None => false end
  | _, _ => false
  end.
(** All pixels of one channel, as class ids. [segmaps.py:342] *)
Definition classes (arr : pic) (c : nat) : list Z :=
  flat_map (fun y => map (fun x => py_int (p_px arr y x c)) (zrange (p_w arr))) (zrange (p_h arr)).

Section Overlay.
(** cv2.resize, see RszModel. [imgaug.py:1105] *)
Variable cv2 : inter -> kind -> Z -> Z -> Z -> Z -> nat -> (Z -> Z -> nat -> Q) -> res (Z -> Z -> nat -> Q).

(** The iteration for one channel of the map (segmaps.py:339-376). *)
Definition overlay_channel (arr image : pic) (alpha : Q) (colors : list (list Q)) (draw_background : bool) (background : Z) (c : nat) : res pic :=
  match classes arr c with
  | [] => Err ValueError
  | z :: l =>
      if Z.of_nat (length colors) <? 1 + fold_left Z.max l z then Err AssertionError
      else
        let size := STup [Some (Int (p_h image)); Some (Int (p_w image))] in
        do drawn <- imresize_single cv2
          (mkPic (KUint 8) (p_h arr) (p_w arr) (Some 3%nat)
             (fun y x ch => let z := py_int (p_px arr y x c) in
                            if z <? 0 then 0%Q else nth ch (nth (Z.to_nat z) colors []) 0%Q)) size (Some (Some Nearest));
        let mixed := fun y x ch => mix8 alpha (p_px drawn y x ch) (p_px image y x ch) in
        if draw_background then Ok (mkPic (KUint 8) (p_h image) (p_w image) (Some 3%nat) mixed)
        else
          do mask <- imresize_single cv2
            (mkPic KBool (p_h arr) (p_w arr) None
               (fun y x _ => if py_int (p_px arr y x c) =? background then 0%Q else 1%Q)) size (Some (Some Nearest));
          Ok (mkPic (KUint 8) (p_h image) (p_w image) (Some 3%nat)
                (fun y x ch => if qeqb (p_px mask y x 0%nat) 0 then p_px image y x ch else mixed y x ch))
  end.
(** SegmentationMapsOnImage.draw_on_image (segmaps.py:306-378) on the array [arr]. *)
Definition overlay_segmap (arr image : pic) (alpha : Q) (resize : option bool) (colors : list (list Q)) (draw_background : bool) (background : Z) : res (list pic) :=
  if negb (drawable image alpha resize) then Err AssertionError
  else
    do image' <- (if match resize with Some b => b | None => false end
                  then imresize_single cv2 image (STup [Some (Int (p_h arr)); Some (Int (p_w arr))]) (Some (Some Cubic))
                  else Ok image);
    mapM (overlay_channel arr image' alpha colors draw_background background) (seq 0 (depth arr)).

(** HeatmapsOnImage.draw (heatmaps.py:150-185) for one channel: to_uint8 (493-495), resizing,
    np.squeeze, the colour map (a parameter; None for intensities) or np.tile (which puts missing
    axes to the front), and the conversion to uint8. *)
Definition heat_channel (hm : pic) (size : option sizes) (cmap : option (Q -> nat -> Q)) (c : nat) : res pic :=
  let u := mkPic (KUint 8) (p_h hm) (p_w hm) (Some 1%nat) (fun y x _ => inject_Z (zclip (np_round (p_px hm y x c * 255)) 0 255)) in
  do rs <- (match size with Some s => imresize_single cv2 u s (Some (Some Nearest)) | None => Ok u end);
  let value := fun y x => (p_px rs y x 0%nat / 255)%Q in
  let final := fun q => inject_Z (py_int (qclip (q * 255) 0 255)) in
  let h := p_h rs in let w := p_w rs in
  match cmap with
  | Some f => if (h =? 1) || (w =? 1) then Err IndexError
              else Ok (mkPic (KUint 8) h w (Some 3%nat) (fun y x ch => final (f (value y x) ch)))
  | None => if (w =? 1) && negb (h =? 1) then Ok (mkPic (KUint 8) 1 h (Some 3%nat) (fun _ x _ => final (value x 0)))
            else Ok (mkPic (KUint 8) h w (Some 3%nat) (fun y x _ => final (value y x)))
  end.
(** numpy's broadcasting of two sides (heatmaps.py:247-252). *)
Definition broadcast (a b : Z) : res Z := if a =? b then Ok a else if a =? 1 then Ok b else if b =? 1 then Ok a else Err ValueError.
(** The mix of the image with one drawn heatmap (heatmaps.py:247-252). *)
Definition heat_mix (image : pic) (alpha : Q) (d : pic) : res pic :=
  do h <- broadcast (p_h image) (p_h d);
  do w <- broadcast (p_w image) (p_w d);
  let at_ := fun (p : pic) y x ch => p_px p (if p_h p =? 1 then 0 else y) (if p_w p =? 1 then 0 else x) ch in
  Ok (mkPic (KUint 8) h w (Some 3%nat)
        (fun y x ch => inject_Z (py_int (qclip ((1 - alpha) * at_ image y x ch + alpha * at_ d y x ch) 0 255)))).
(** HeatmapsOnImage.draw_on_image (heatmaps.py:216-257) on the array [hm] (arr_0to1). *)
Definition overlay_heatmap (hm image : pic) (alpha : Q) (resize : option bool) (cmap : option (Q -> nat -> Q)) : res (list pic) :=
  if negb (drawable image alpha resize) then Err AssertionError
  else
    do image' <- (if match resize with Some b => b | None => false end
                  then imresize_single cv2 image (STup [Some (Int (p_h hm)); Some (Int (p_w hm))]) (Some (Some Cubic))
                  else Ok image);
    let size := if match resize with Some b => b | None => false end then None
                else Some (STup [Some (Int (p_h image')); Some (Int (p_w image'))]) in
    do drawn <- mapM (heat_channel hm size cmap) (seq 0 (depth hm));
    mapM (heat_mix image' alpha) drawn.
End Overlay.
