(** Model of Cartoon (augmenters/artistic.py).

    Simplifications: numbers are exact rationals; functions of OpenCV and conversions between colour spaces are parameters. *)
From Coq Require Import List ZArith QArith Qabs Bool.
From Verif Require Import Prelude DtyModel CtrModel CorModel.
Import ListNotations.
Open Scope Z_scope.

(** max(int(np.round(blur_ksize)), 1) (artistic.py:104), made odd (artistic.py:186-187). *)
Definition kernel_size (blur_ksize : Q) : Z :=
  let k := Z.max (np_round blur_ksize) 1 in if k mod 2 =? 0 then k + 1 else k.
(** max(image.shape[0:2]) < 400 (artistic.py:108). *)
Definition is_small (h w : Z) : bool := Z.max h w <? 400.
(** Spatial and colour radius of the mean shift filter (artistic.py:113-118). *)
Definition radii (small : bool) (size : Q) : Z * Z :=
  if small then (py_int (10 * size), py_int (20 * size)) else (py_int (15 * size), py_int (40 * size)).
(** min(int(a * (1/edge_multiplier)), b) (artistic.py:160, 175); int(inf) raises OverflowError, since samples are numpy numbers. *)
Definition edge_limit (a : Q) (b : Z) (edge_multiplier : Q) : res Z :=
  if qeqb edge_multiplier 0 then Err GenericException else Ok (Z.min (py_int (a * (1 / edge_multiplier))) b).
(** Positions outside of an axis as cv2.filter2D reads them (artistic.py:204), cv2.BORDER_REFLECT_101. *)
Definition mirror (n i : Z) : Z :=
  if n =? 1 then 0 else let m := i mod (2 * (n - 1)) in if m <? n then m else 2 * (n - 1) - m.
(** cv2.filter2D(edges / 255.0, -1, np.ones((size, size))) (artistic.py:203-204) for an odd size 2 r + 1: the number of edges
    around a position. *)
Definition edge_count (h w r : Z) (edges : Z -> Z -> Z) (y x : Z) : Q :=
  fold_right Qplus 0%Q (map (fun d => inject_Z (edges (mirror h (y + fst d)) (mirror w (x + snd d))) / 255)%Q
    (list_prod (map (fun i => Z.of_nat i - r) (seq 0 (Z.to_nat (2 * r + 1)))) (map (fun i => Z.of_nat i - r) (seq 0 (Z.to_nat (2 * r + 1)))))).
(** artistic.py:202-213 _suppress_edge_blobs. *)
Definition suppress (h w r : Z) (thresh : Q) (inverse : bool) (edges : Z -> Z -> Z) : Z -> Z -> Z :=
  fun y x =>
    let c := edge_count h w r edges y x in
    if (if inverse then qltb c thresh else qleb thresh c) then 0 else edges y x.
(** artistic.py:235-241 _blend_edges for one component. *)
Definition blend_edge (v : Q) (e : Z) : Z := zclip (np_round (v * (1 - inject_Z e / 255))%Q) 0 255.
(** np.isclose(factor, 1.0, atol=1e-2) with numpy's relative tolerance 1e-5 (artistic.py:219). *)
Definition close_to_one (f : Q) : bool := qleb (Qabs (f - 1)) ((1 # 100) + (1 # 100000)).

Section Cartoon.
(** cv2.medianBlur (artistic.py:190), for images and maps of edges. *)
Variable median : Z -> picture -> picture.
Variable median_edges : Z -> (Z -> Z -> Z) -> Z -> Z -> Z.
(** cv2.pyrMeanShiftFiltering (artistic.py:123-126). *)
Variable mean_shift : Z -> Z -> picture -> picture.
(** change_colorspace_ to GRAY (artistic.py:156-159, 167-170). *)
Variable gray : picture -> Z -> Z -> Q.
(** cv2.Canny with twice the same threshold (artistic.py:161). *)
Variable canny : Z -> (Z -> Z -> Q) -> Z -> Z -> Z.
(** cv2.Laplacian (artistic.py:171-172) and np.percentile (artistic.py:175). *)
Variable laplacian : (Z -> Z -> Q) -> Z -> Z -> Q.
Variable percentile : Z -> (Z -> Z -> Q) -> Q.
(** change_colorspace_ to and from HSV (artistic.py:222-224, 228-230). *)
Variables to_hsv from_hsv : picture -> picture.

(** artistic.py:155-162 _find_edges_canny. *)
Definition find_edges_canny (im : picture) (edge_multiplier : Q) : res (Z -> Z -> Z) :=
  do t <- edge_limit 200 254 edge_multiplier; Ok (canny t (gray im)).
(** artistic.py:166-181 _find_edges_laplacian. Divisions by a percentile of 0 give nan, which becomes 0 (behaviour of x86). *)
Definition find_edges_laplacian (im : picture) (edge_multiplier : Q) : res (Z -> Z -> Z) :=
  let f := laplacian (fun y x => gray im y x / 255)%Q in
  let f := fun y x => (Qabs (f y x) * Qabs (f y x))%Q in
  do p <- edge_limit 90 99 edge_multiplier;
  let vmax := percentile p f in
  let e := fun y x => if qeqb vmax 0 then 0 else zclip (np_round (qclip (f y x) 0 vmax / vmax * 255)) 0 255 in
  let e := median_edges 3 e in
  Ok (fun y x => if e y x <? 50 then 0 else e y x).
(** artistic.py:217-231 _saturate. *)
Definition saturate (im : picture) (factor : Q) : picture :=
  if close_to_one factor then im
  else
    let hsv := to_hsv im in
    from_hsv (mkP (p_dt hsv) (p_h hsv) (p_w hsv) (p_c hsv) (fun y x c =>
      if Nat.eqb c 1 then inject_Z (py_int (qclip (p_px hsv y x 1%nat * factor) 0 255)) else p_px hsv y x c)).
(** artistic.py:24-151 stylize_cartoon. *)
Definition cartoon (blur_ksize segmentation_size saturation edge_prevalence : Q) (suppress_edges : bool) (im : picture) : res picture :=
  do _ <- allow_only_uint8 [p_dt im];
  if negb (match p_c im with Some 3%nat => true | _ => false end) then Err AssertionError
  else
    let segmentation_size := qmax segmentation_size 0 in
    let saturation := qmax saturation 0 in
    let small := is_small (p_h im) (p_w im) in
    let k := kernel_size blur_ksize in
    let im := if k <=? 1 then im else median k im in
    let seg := if qleb segmentation_size 0 then im else let '(sp, sr) := radii small segmentation_size in mean_shift sp sr im in
    do raw <- (if small then find_edges_canny seg edge_prevalence else find_edges_laplacian seg edge_prevalence);
    let edges := fun y x => if 100 <? raw y x then 255 else 0 in
    let edges := if suppress_edges then suppress (p_h im) (p_w im) 2 3 true (suppress (p_h im) (p_w im) 1 8 false edges) else edges in
    Ok (saturate (mkP U8 (p_h seg) (p_w seg) (p_c seg) (fun y x c => inject_Z (blend_edge (p_px seg y x c) (edges y x)))) saturation).
(** artistic.py:376-389 Cartoon._augment_batch_ on drawn samples. *)
Fixpoint cartoon_batch (imgs : list picture) (ks segs sats edges : list Q) : res (list picture) :=
  match imgs, ks, segs, sats, edges with
  | im :: imgs, k :: ks, g :: segs, s :: sats, e :: edges =>
      do out <- cartoon k g s e true im;
      do out <- overwrite im out;
      do l <- cartoon_batch imgs ks segs sats edges;
      Ok (out :: l)
  | _, _, _, _, _ => Ok imgs
  end.
End Cartoon.
