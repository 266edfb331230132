(** Model of distance maps of keypoints (augmentables/kps.py), Canny edges (augmenters/edges.py) and of snow,
    clouds and rain (augmenters/weather.py).

    Simplifications: float32 and float64 results are exact; images have a channel axis, as in batches. *)
From Coq Require Import List ZArith QArith Reals Qreals Bool.
From Verif Require Import Prelude PtsModel AriModel BlendModel ConvModel RszModel ColModel.
Import ListNotations.
Open Scope Z_scope.

(** ** Distance maps *)

(** kps.py:1190-1232 to_distance_maps, one map per keypoint. *)
Definition to_distance_maps (h w : Z) (kps : list point) (inverted : bool) : list (arr R) :=
  map (fun k => mkArr h w (fun y x =>
         let d := sqrt (Q2R (dist2 (inject_Z x, inject_Z y) k)) in
         if inverted then (1 / (d + 1))%R else d)) kps.
(** Comparison of two numbers (kps.py:1313-1322). *)
Definition rltb (a b : R) : bool := if Rlt_dec a b then true else false.
(** np.argmax or np.argmin and np.unravel_index (kps.py:1312-1316): the first best position in row order; empty arrays raise. *)
Definition first_best (better : R -> R -> bool) (a : arr R) : res (Z * Z) :=
  match positions (ah a) (aw a) with
  | [] => Err ValueError
  | p :: ps => Ok (fold_left (fun best q => if better (apx a (fst q) (snd q)) (apx a (fst best) (snd best)) then q else best) ps p)
  end.
(** kps.py:1235-1338 from_distance_maps; [not_found]: [if_not_found_coords], None drops the keypoint; ill-typed values are not
    modelled. *)
Definition from_distance_maps (maps : list (arr R)) (inverted : bool) (not_found : option point) (threshold : option R) : res (list point) :=
  do pss <- mapM (fun a =>
      do p <- first_best (fun v w => if inverted then rltb w v else rltb v w) a;
      let v := apx a (fst p) (snd p) in
      let found := match threshold with
                   | None => true
                   | Some t => if inverted then negb (rltb v t) else rltb v t
                   end in
      Ok (if found then [(inject_Z (snd p), inject_Z (fst p))] else match not_found with Some q => [q] | None => [] end)) maps;
  Ok (concat pss).

(** ** Canny *)

(** edges.py:399-401: the smaller threshold first. *)
Definition sort_thresholds (t : Q * Q) : Q * Q := if qltb (snd t) (fst t) then (snd t, fst t) else t.
(** edges.py:406-413: the drawn kernel size, made odd. *)
Definition check_sobel (s : Z) : res Z := if (s <? 0) || (7 <? s) then Err AssertionError else Ok s.
(** edges.py:412-413. *)
Definition odd_sobel (s : Z) : Z := if s mod 2 =? 0 then s - 1 else s.

(** The channel numbers Canny handles (edges.py:126, 435). *)
Definition canny_channels (im : image) : bool :=
  match im_c im with Some 1%nat | Some 3%nat | Some 4%nat => true | _ => false end.
(** An array of the size and channel number of [im] with other components (edges.py:136-157). *)
Definition like (im : image) (px : Z -> Z -> nat -> Z) : image :=
  mkImage true (im_h im) (im_w im) (im_c im) px true true.
(** The gray value of a colour, written to a uint8 array (edges.py:142-149). *)
Definition gray_value (c : ColModel.color) : Z :=
  let '(r, g, b) := c in py_int ((299 # 1000) * inject_Z r + (587 # 1000) * inject_Z g + (114 # 1000) * inject_Z b)%Q.
(** edges.py:116-159 RandomColorsBinaryImageColorizer.colorize, for a boolean (H, W) array and drawn colours. *)
Definition colorize (color_true color_false : ColModel.color) (edge : Z -> Z -> bool) (im : image) : res image :=
  if negb (canny_channels im) then Err AssertionError
  else if negb (im_u8 im) then Err AssertionError
  else Ok (like im (fun y x n =>
         let c := if edge y x then color_true else color_false in
         match im_c im with
         | Some 1%nat => gray_value c
         | _ => if (n <? 3)%nat then comp c n else im_px im y x n
         end)).
(** blend.py:93-261 blend_alpha for two uint8 images of the same shape with pixels and one alpha (see BlendModel.blend_uint8). *)
Definition blend_one (f b : Z) (a : Q) : Z :=
  if qleb (1 - (1 # 100)) a then f else if qleb a (1 # 100) then b else add_weighted f b a.
(** Equal shapes (blend.py:164-166). *)
Definition same_shape (a b : image) : bool :=
  (im_h a =? im_h b) && (im_w a =? im_w b) &&
  match im_c a, im_c b with Some n, Some m => Nat.eqb n m | None, None => true | _, _ => false end.
(** See [blend_one]; the check of alpha (blend.py:235-238) cannot fail for one alpha. *)
Definition blend_canny (fg bg : image) (a : Q) : res image :=
  if negb (same_shape fg bg) then Err AssertionError
  else Ok (like fg (fun y x n => blend_one (im_px fg y x n) (im_px bg y x n) a)).

Section Canny.
(** cv2.Canny: where an image of up to three channels has edges, for two thresholds and a kernel size (edges.py:442-448). *)
Variable cv2_canny : image -> Q * Q -> Z -> Z -> Z -> bool.
(** The colorizer of the augmenter, with the drawn colours of an image (edges.py:452-453). *)
Variable colorizer : (Z -> Z -> bool) -> image -> res image.

(** image[:, :, 0:3] (edges.py:443). *)
Definition first_channels (im : image) : image :=
  mkImage (im_u8 im) (im_h im) (im_w im) (match im_c im with Some c => Some (Nat.min c 3) | None => None end) (im_px im) false (im_contig im).
(** edges.py:434-456, the loop body of Canny._augment_batch_. *)
Definition canny_image (alpha : Q) (th : Q * Q) (sobel : Z) (im : image) : res image :=
  if negb (canny_channels im) then Err AssertionError
  else if qltb 0 alpha && (1 <? sobel) && negb ((im_h im =? 0) || (im_w im =? 0)) then
    do colored <- colorizer (cv2_canny (first_channels im) th sobel) im;
    blend_canny colored im alpha
  else Ok im.
End Canny.

(** edges.py:381-458 Canny._augment_batch_; [drawn]: alphas, thresholds, kernel sizes, colours. *)
Definition canny_batch cv2_canny (drawn : list (Q * (Q * Q) * Z * (ColModel.color * ColModel.color))) (imgs : list image) : res (list image) :=
  if negb (forallb im_u8 imgs) then Err ValueError
  else
    do _ <- mapM (fun d => let '(_, _, s, _) := d in check_sobel s) drawn;
    mapM (fun p => let '(im, (a, th, s, (ct, cf))) := p in
            canny_image cv2_canny (colorize ct cf) a (sort_thresholds th) (odd_sobel s) im) (combine imgs drawn).

(** ** Snowy landscapes *)

(** weather.py:178-180: one lightness; restore_dtypes_ rounds and clips (dtypes.py:72-88). *)
Definition snowy (thresh mul : Q) (l : Z) : Z := if qltb (inject_Z l) thresh then sat8 (inject_Z l * mul)%Q else sat8 (inject_Z l).
Section Landscape.
Variable cvt : cspace -> cspace -> ColModel.color -> ColModel.color.
Variable gray : cspace -> ColModel.color -> Z.
(** weather.py:171-184, the loop body of FastSnowyLandscape._augment_batch_. *)
Definition snowy_image (from : cname) (thresh mul : Q) (im : image) : res image :=
  do r <- change_colorspace cvt gray im (Some HLS) from;
  let hls := snd r in
  let hls' := like hls (fun y x n => if Nat.eqb n 1 then snowy thresh mul (im_px hls y x n) else sat8 (inject_Z (im_px hls y x n))) in
  if (im_h im =? 0) || (im_w im =? 0) then Ok im
  else do r <- change_colorspace cvt gray hls' from (Some HLS); Ok (snd r).
(** weather.py:162-186; [drawn]: thresholds and multipliers. *)
Definition snowy_batch (from : cname) (drawn : list (Q * Q)) (imgs : list image) : res (list image) :=
  mapM (fun p => snowy_image from (fst (snd p)) (snd (snd p)) (fst p)) (combine imgs drawn).
End Landscape.

(** ** Clouds *)

(** weather.py:478-492 _generate_alpha_mask at one position; [power]: [**]. *)
Definition cloud_alpha (power : Q -> Q -> Q) (amin amul sparsity density local : Q) : Q :=
  (qclip (power (amin + amul * local) sparsity * density) 0 1)%Q.
(** weather.py:441, 466-475: the intensity at one position, from the coarse intensities and the noise. *)
Definition cloud_intensity (mean coarse noise : Q) : Q := (coarse + mean * ((2 * noise - 1) / 5))%Q.
(** weather.py:393-416 draw_on_image; the (H, W) maps are drawn by generate_maps. *)
Definition draw_cloud (alpha intensity : Z -> Z -> Q) (p : pic) : res pic :=
  match p_kind p with
  | KFloat _ => Ok (mkPic (p_kind p) (p_h p) (p_w p) (p_c p) (fun y x n => (1 - alpha y x) * p_px p y x n + alpha y x * intensity y x)%Q)
  | KUint 8 => Ok (mkPic (p_kind p) (p_h p) (p_w p) (p_c p) (fun y x n =>
      inject_Z (py_int (qclip ((1 - alpha y x) * p_px p y x n + alpha y x * qclip (intensity y x) 0 255) 0 255)))%Q)
  | _ => Err ValueError
  end.

(** ** Snowflakes and rain *)

(** An (H, W) array of uint8 noise (weather.py:955). *)
Definition noise := Z -> Z -> Z.
(** A float written to a uint8 array after clipping (weather.py:966-968, 1020, 1026, 1336). *)
Definition to_byte (q : Q) : Z := py_int (qclip q 0 255).

Section Layers.
(** arithmetic.Salt on a black image of a size (weather.py:953-955). *)
Variable salt : Z -> Z -> noise.
(** The 8x8 samples of a Beta distribution, resized to a size (weather.py:962-964). *)
Variable gate : Z -> Z -> Z -> Z -> Q.
(** imresize_single_image(noise, (h, w), "cubic") of noise of a size (weather.py:933). *)
Variable resize : Z -> Z -> noise -> Z -> Z -> noise.
(** blur_gaussian_ with a sigma, MotionBlur with a kernel size, GammaContrast with a gain (weather.py:972, 983, 996). *)
Variable gaussian : Q -> noise -> noise.
Variable motion : Z -> noise -> noise.
Variable gamma : Q -> Z -> Z.

(** weather.py:917-920: one side of the noise image. *)
Definition noise_side (side : Z) (flake_size : Q) : Z := Z.max 1 (py_int (inject_Z side * qclip (1 - flake_size) (1 # 1000) 1)%Q).
(** weather.py:957-968 _gate. *)
Definition gated_noise (h w : Z) (n : noise) : noise :=
  fun y x => to_byte (inject_Z (n y x) * qclip (gate h w y x) 0 1)%Q.
(** weather.py:974-985 _motion_blur. *)
Definition motion_blur (h w : Z) (speed : Q) (n : noise) : noise :=
  let k := py_int (speed * inject_Z (Z.max h w))%Q in
  if k <=? 1 then n else motion (Z.max k 3) n.
(** weather.py:917-945: the noise before [_postprocess_noise]; [blur]: [_blur] (971-972, 1306-1308). *)
Definition layer_noise (blur : Q -> noise -> noise) (h w : Z) (flake_size speed sigma_fraction sigma_lo sigma_hi : Q) : noise :=
  let hd := noise_side h flake_size in
  let wd := noise_side w flake_size in
  let n := resize hd wd (gated_noise hd wd (salt hd wd)) h w in
  let sigma := qclip (inject_Z (Z.max h w) * sigma_fraction)%Q sigma_lo sigma_hi in
  motion_blur h w speed (blur sigma n).
(** weather.py:988-1001 _postprocess_noise of SnowflakesLayer, at one position. *)
Definition flakes (uniformity : Q) (v : Z) : Q := (inject_Z (gamma (1 + 2 * (1 - uniformity)) v) * (1 + 5 * (1 - uniformity)))%Q.
(** weather.py:1004-1026 _blend at one component. *)
Definition snow_value (speed f : Q) (v : Z) : Z :=
  let s := to_byte (inject_Z v + ((1 # 10) + 20 * speed) * f)%Q in
  to_byte (qmax (inject_Z s) ((1 + 20 * speed) * f))%Q.
(** The channel numbers of weather.py:900-905. *)
Definition snow_channels (im : image) : bool := match im_c im with Some 1%nat | Some 3%nat => true | _ => false end.
(** weather.py:899-950 SnowflakesLayer.draw_on_image, for a uint8 image and drawn samples. *)
Definition draw_snow (flake_size uniformity speed sigma_fraction sigma_lo sigma_hi : Q) (im : image) : res image :=
  if negb (snow_channels im) then Err AssertionError
  else
    let n := layer_noise gaussian (im_h im) (im_w im) flake_size speed sigma_fraction sigma_lo sigma_hi in
    Ok (like im (fun y x c => snow_value speed (flakes uniformity (n y x)) (im_px im y x c))).

(** The first components of the noise, repeated for every channel (weather.py:1312-1316, 1325). *)
Definition first_values (h w : Z) (nc : nat) (n : noise) : list Z :=
  firstn 1000 (flat_map (fun p => repeat (n (fst p) (snd p)) nc) (positions h w)).
(** weather.py:1325-1327. *)
Definition drop_color (values : list Z) : Z :=
  let s := fold_right Z.add 0 values in
  110 + (240 - 110) mod (if 0 <? s then s else 1).
(** weather.py:1328-1336 at one component. *)
Definition rain_value (color n v : Z) : Z :=
  let a := qclip ((13 # 10) * (inject_Z n / 255))%Q 0 1 in
  to_byte ((1 - a) * inject_Z v + a * inject_Z color)%Q.
(** weather.py:1222-1336 RainLayer.draw_on_image (899-950), for a uint8 image and drawn samples. *)
Definition draw_rain (drop_size speed sigma_fraction sigma_lo sigma_hi : Q) (im : image) : res image :=
  if negb (snow_channels im) then Err AssertionError
  else
    let n := layer_noise (fun _ n => n) (im_h im) (im_w im) drop_size speed sigma_fraction sigma_lo sigma_hi in
    let color := drop_color (first_values (im_h im) (im_w im) (match im_c im with Some c => c | None => 1%nat end) n) in
    Ok (like im (fun y x c => rain_value color (n y x) (im_px im y x c))).
End Layers.
