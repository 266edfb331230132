(** Model of imgaug/augmenters/geometric.py: Affine, that is the matrices of
    lines 331-382 and 617-797 and the augmenter of lines 1265-1631.

    Simplifications: matrices, coordinates and samples are exact rationals (the
    code uses float32 matrices); shapes are (height, width); cos, sin and tanh
    and the factor from degrees to radians are given by an oracle [trig]; the
    resampling of pixels (cv2.warpAffine, skimage.transform.warp) is a
    parameter; in-place changes become returned values. *)
From Verif Require Import Prelude GeoModel.
From Coq Require Import Qround Qabs.
Local Open Scope Q_scope.

(** External: numpy's cos, sin and tanh, and geometric.py:82 _RAD_PER_DEGREE. *)
Record trig := mkTrig { tcos : Q -> Q; tsin : Q -> Q; ttanh : Q -> Q; rad_per_degree : Q }.

(** geometric.py:619-622: a 3x3 matrix, by rows. *)
Record mat := mkMat { m00 : Q; m01 : Q; m02 : Q; m10 : Q; m11 : Q; m12 : Q; m20 : Q; m21 : Q; m22 : Q }.

(** geometric.py:619-622 np.eye(3). *)
Definition eye : mat := mkMat 1 0 0 0 1 0 0 0 1.

(** geometric.py:683-684 np.matmul (fractions are kept in lowest terms). *)
Definition matmul (a b : mat) : mat :=
  mkMat (Qred (m00 a * m00 b + m01 a * m10 b + m02 a * m20 b))
        (Qred (m00 a * m01 b + m01 a * m11 b + m02 a * m21 b))
        (Qred (m00 a * m02 b + m01 a * m12 b + m02 a * m22 b))
        (Qred (m10 a * m00 b + m11 a * m10 b + m12 a * m20 b))
        (Qred (m10 a * m01 b + m11 a * m11 b + m12 a * m21 b))
        (Qred (m10 a * m02 b + m11 a * m12 b + m12 a * m22 b))
        (Qred (m20 a * m00 b + m21 a * m10 b + m22 a * m20 b))
        (Qred (m20 a * m01 b + m21 a * m11 b + m22 a * m21 b))
        (Qred (m20 a * m02 b + m21 a * m12 b + m22 a * m22 b)).

(** geometric.py:683-684 _mul: the new matrix is applied after the others. *)
Definition mul (self matrix : mat) : mat := matmul matrix self.

(** geometric.py:638-680: the literal 1e-4. *)
Definition tiny : Q := 1 # 10000.

(** geometric.py:637-645 translate. The last test is on x, as in the code. *)
Definition gen_translate (self : mat) (x_px y_px : Q) : mat :=
  if qltb x_px tiny || qltb tiny x_px || qltb y_px tiny || qltb tiny x_px
  then mul self (mkMat 1 0 x_px 0 1 y_px 0 0 1) else self.

(** geometric.py:648-657 scale. *)
Definition gen_scale (self : mat) (x_frac y_frac : Q) : mat :=
  if qltb x_frac (1 - tiny) || qltb (1 + tiny) x_frac || qltb y_frac (1 - tiny) || qltb (1 + tiny) y_frac
  then mul self (mkMat x_frac 0 0 0 y_frac 0 0 0 1) else self.

(** geometric.py:660-669 rotate. *)
Definition gen_rotate (t : trig) (self : mat) (rad : Q) : mat :=
  if qltb rad tiny || qltb tiny rad
  then let rad := - rad in mul self (mkMat (tcos t rad) (tsin t rad) 0 (- tsin t rad) (tcos t rad) 0 0 0 1) else self.

(** geometric.py:672-680 shear. *)
Definition gen_shear (t : trig) (self : mat) (x_rad y_rad : Q) : mat :=
  if qltb x_rad tiny || qltb tiny x_rad || qltb y_rad tiny || qltb tiny y_rad
  then mul self (mkMat 1 (ttanh t (- x_rad)) 0 (ttanh t y_rad) 1 0 0 0 1) else self.

(** geometric.py:625-628 centerize. *)
Definition centerize (self : mat) (s : shape2) : mat :=
  let '(height, width) := s in gen_translate self (- inject_Z width / 2) (- inject_Z height / 2).

(** geometric.py:631-634 invert_centerize. *)
Definition invert_centerize (self : mat) (s : shape2) : mat :=
  let '(height, width) := s in gen_translate self (inject_Z width / 2) (inject_Z height / 2).

(** geometric.py:331-349 _warp_affine_coords, one point; also the external
    skimage.transform.matrix_transform, from which it is taken. *)
Definition warp_coord (matrix : mat) (p : keypoint) : keypoint :=
  let d0 := m00 matrix * kx p + m01 matrix * ky p + m02 matrix in
  let d1 := m10 matrix * kx p + m11 matrix * ky p + m12 matrix in
  let d2 := m20 matrix * kx p + m21 matrix * ky p + m22 matrix in
  let d2 := if qeqb d2 0 then 1 # (2 ^ 52) else d2 in
  mkKp (d0 / d2) (d1 / d2).

(** geometric.py:352-382 _compute_affine_warp_output_shape. *)
Definition output_shape (matrix : mat) (s : shape2) : mat * shape2 :=
  let '(height, width) := s in
  if ((height =? 0) || (width =? 0))%Z then (matrix, s)
  else
    let w1 := inject_Z (width - 1) in
    let h1 := inject_Z (height - 1) in
    let corners := map (warp_coord matrix) [mkKp 0 0; mkKp 0 h1; mkKp w1 h1; mkKp w1 0] in
    let minc := qmin_list (map kx corners) in
    let minr := qmin_list (map ky corners) in
    let maxc := qmax_list (map kx corners) in
    let maxr := qmax_list (map ky corners) in
    let out_height := maxr - minr + 1 in
    let out_width := maxc - minc + 1 in
    (gen_translate matrix (- minc) (- minr), (Qceiling out_height, Qceiling out_width)).

(** geometric.py:706-715 translate_mode. *)
Inductive translate_mode := Px | Percent.

(** geometric.py:687-697 _AffineSamplingResult, the entries of one image. *)
Record sample := mkSample {
  scale_x : Q; scale_y : Q; translate_x : Q; translate_y : Q; mode_of : translate_mode;
  rotate_deg : Q; shear_x_deg : Q; shear_y_deg : Q }.

(** geometric.py:710-715: the translation of an array that belongs to an image. *)
Definition translate_px (s : sample) (arr_shape image_shape : shape2) : Q * Q :=
  match mode_of s with
  | Percent => (translate_x s * inject_Z (snd arr_shape), translate_y s * inject_Z (fst arr_shape))
  | Px => (translate_x s / inject_Z (snd image_shape) * inject_Z (snd arr_shape),
           translate_y s / inject_Z (fst image_shape) * inject_Z (fst arr_shape))
  end.

(** geometric.py:700-774 get_affine_parameters and to_matrix. [shift_add] is
    given as (y, x), as in the code. *)
Definition to_matrix (t : trig) (s : sample) (arr_shape image_shape : shape2) (fit_output : bool) (shift_add : Q * Q) : mat * shape2 :=
  if ((fst image_shape =? 0) || (snd image_shape =? 0))%Z then (eye, arr_shape)
  else
    let '(translate_x_px, translate_y_px) := translate_px s arr_shape image_shape in
    let g := centerize eye arr_shape in
    let g := gen_translate g (snd shift_add) (fst shift_add) in
    let g := gen_rotate t g (rotate_deg s * rad_per_degree t) in
    let g := gen_scale g (scale_x s) (scale_y s) in
    let g := gen_shear t g (shear_x_deg s * rad_per_degree t) (shear_y_deg s * rad_per_degree t) in
    let g := gen_translate g translate_x_px translate_y_px in
    let g := gen_translate g (- snd shift_add) (- fst shift_add) in
    let g := invert_centerize g arr_shape in
    if fit_output then output_shape g arr_shape else (g, arr_shape).

(** geometric.py:742-748: the default shift of to_matrix, for images and maps. *)
Definition image_matrix (t : trig) (s : sample) (arr_shape image_shape : shape2) (fit_output : bool) : mat * shape2 :=
  to_matrix t s arr_shape image_shape fit_output (1 # 2, 1 # 2).

(** geometric.py:777-778 to_matrix_cba. *)
Definition cba_matrix (t : trig) (s : sample) (arr_shape : shape2) (fit_output : bool) : mat * shape2 :=
  to_matrix t s arr_shape arr_shape fit_output (0, 0).

(** geometric.py:794-797 _is_identity_matrix. *)
Definition is_identity_matrix (m : mat) : bool :=
  qleb ((Qabs (m00 m - 1) + Qabs (m01 m) + Qabs (m02 m) + Qabs (m10 m) + Qabs (m11 m - 1) + Qabs (m12 m)
         + Qabs (m20 m) + Qabs (m21 m) + Qabs (m22 m - 1)) / 9) tiny.

(** geometric.py:1495-1512 _augment_images_by_samples and 170-171 of
    _warp_affine_arr, one image. [warp m out a]: the external resampling of the
    array [a] into an array of shape [out] that shows at M p what was at p. *)
Definition affine_image {A} (warp : mat -> shape2 -> arr A -> arr A) (t : trig) (s : sample) (fit_output : bool)
  (image_shape : shape2) (a : arr A) : arr A * mat :=
  let '(matrix, out) := image_matrix t s (ah a, aw a) image_shape fit_output in
  (if is_identity_matrix matrix then a
   else if ((ah a =? 0) || (aw a =? 0))%Z then a else warp matrix out a, matrix).

(** A heatmap or segmentation map: its array and the shape of its image. [geometric.py:1529-1571] *)
Record amap (A : Type) := mkAmap { am_arr : arr A; am_shape : shape2 }.
Arguments mkAmap {A}. Arguments am_arr {A}. Arguments am_shape {A}.

(** geometric.py:1529-1571 _augment_maps_by_samples, one map. [clip]: lines
    1560-1561, the clipping of heatmaps to [0, 1] after cubic interpolation. *)
Definition affine_map {A} (warp : mat -> shape2 -> arr A -> arr A) (clip : arr A -> arr A) (t : trig) (s : sample) (fit_output : bool)
  (m : amap A) : amap A :=
  let '(arr_aug, matrix) := affine_image warp t s fit_output (am_shape m) (am_arr m) in
  if ((fst (am_shape m) =? 0) || (snd (am_shape m) =? 0))%Z then m
  else mkAmap (clip arr_aug) (if fit_output then snd (output_shape matrix (am_shape m)) else am_shape m).

(** geometric.py:1456-1458: are the coordinates transformed at all? *)
Definition moves (matrix : mat) (nonempty : bool) (s : shape2) : bool :=
  negb (is_identity_matrix matrix) && nonempty && negb ((fst s =? 0) || (snd s =? 0))%Z.

(** geometric.py:1452-1476 for keypoints. *)
Definition affine_keypoints (t : trig) (s : sample) (fit_output : bool) (k : kpsoi) : kpsoi :=
  let '(matrix, out) := cba_matrix t s (kps_shape k) fit_output in
  mkKpsoi (if moves matrix (negb (Nat.eqb (length (kps k)) 0)) (kps_shape k) then map (warp_coord matrix) (kps k) else kps k) out.

(** geometric.py:1452-1476 for bounding boxes. *)
Definition affine_boxes (t : trig) (s : sample) (fit_output : bool) (b : bbsoi) : res bbsoi :=
  let '(matrix, out) := cba_matrix t s (bbs_shape b) fit_output in
  do b' <- (if moves matrix (negb (Nat.eqb (length (bbs b)) 0)) (bbs_shape b)
            then let k := bbsoi_to_keypoints b in
                 bbsoi_invert_to_keypoints b (mkKpsoi (map (warp_coord matrix) (kps k)) (kps_shape k))
            else Ok b);
  Ok (mkBbsoi (bbs b') out).

(** Polygons or line strings of an image, by their points. [polys.py:1936-1990, lines.py:2170-2224] *)
Record pathsoi := mkPathsoi { paths : list (list keypoint); paths_shape : shape2 }.

(** polys.py:1973-1988 fill_from_xy_array_, the loop and its assertions; the
    same for line strings. *)
Fixpoint fill_paths (ps : list (list keypoint)) (xy : list keypoint) : res (list (list keypoint)) :=
  match ps with
  | [] => match xy with [] => Ok [] | _ => Err AssertionError end
  | p :: r =>
      if Nat.leb (length p) (length xy)
      then do r' <- fill_paths r (skipn (length p) xy); Ok (firstn (length p) xy :: r')
      else Err AssertionError
  end.

(** geometric.py:1452-1476 for polygons and line strings. *)
Definition affine_paths (t : trig) (s : sample) (fit_output : bool) (p : pathsoi) : res pathsoi :=
  let '(matrix, out) := cba_matrix t s (paths_shape p) fit_output in
  do ps <- (if moves matrix (negb (Nat.eqb (length (paths p)) 0)) (paths_shape p)
            then fill_paths (paths p) (map (warp_coord matrix) (concat (paths p)))
            else Ok (paths p));
  Ok (mkPathsoi ps out).

(** ** The sampling of the parameters *)

(** geometric.py:1319-1427: a parameter given for both axes together (a single
    number, or a tuple/list/StochasticParameter), or a dictionary. [P]: the
    stochastic parameters, [num]: the parameter Deterministic(x). *)
Inductive axis_arg (P : Type) := Single (x : Q) | Shared (p : P) | Dict (x y : option P).
Arguments Single {P}. Arguments Shared {P}. Arguments Dict {P}.

(** The result of the handlers: one parameter, or one per axis. [geometric.py:1319-1427] *)
Inductive axis_param (P : Type) := One (single_number : bool) (p : P) | Two (x y : P).
Arguments One {P}. Arguments Two {P}.

(** geometric.py:1319-1337 _handle_scale_arg, 1339-1400 _handle_translate_arg,
    1403-1427 _handle_shear_arg: they differ in the value of an axis that is
    missing in the dictionary (1.0, 0, 0). *)
Definition handle_axes {P} (num : Q -> P) (default : Q) (a : axis_arg P) : res (axis_param P) :=
  match a with
  | Single x => Ok (One true (num x))
  | Shared p => Ok (One false p)
  | Dict None None => Err AssertionError
  | Dict x y => Ok (Two (match x with Some p => p | None => num default end) (match y with Some p => p | None => num default end))
  end.

(** geometric.py:1339-1400: percent or px, but not both; neither means 0 px. *)
Definition handle_translate {P} (num : Q -> P) (px percent : option (axis_arg P)) : res (axis_param P * translate_mode) :=
  match px, percent with
  | Some _, Some _ => Err AssertionError
  | None, Some a => do p <- handle_axes num 0 a; Ok (p, Percent)
  | Some a, None => do p <- handle_axes num 0 a; Ok (p, Px)
  | None, None => do p <- handle_axes num 0 (Single 0); Ok (p, Px)
  end.

(** geometric.py:1576-1596: scale and translate. [draw i p]: the samples that
    the i-th call of draw_samples returns. *)
Definition draw_axes {P} (draw : nat -> P -> list Q) (ix iy i : nat) (p : axis_param P) : list Q * list Q :=
  match p with
  | Two x y => (draw ix x, draw iy y)
  | One _ p => let samples := draw i p in (samples, samples)
  end.

(** geometric.py:1600-1613: shear. *)
Definition draw_shear {P} (draw : nat -> P -> list Q) (p : axis_param P) : list Q * list Q :=
  match p with
  | Two x y => (draw 7%nat x, draw 8%nat y)
  | One true p => let samples := draw 7%nat p in (samples, map (fun _ => 0) samples)
  | One false p => let samples := draw 7%nat p in (samples, samples)
  end.

(** geometric.py:1265-1317 Affine: what the constructor stores. *)
Record affine (P : Type) := mkAffine { a_scale : axis_param P; a_translate : axis_param P; a_mode : translate_mode; a_rotate : P; a_shear : axis_param P }.
Arguments mkAffine {P}. Arguments a_scale {P}. Arguments a_translate {P}. Arguments a_mode {P}. Arguments a_rotate {P}. Arguments a_shear {P}.

(** geometric.py:1281-1298: the constructor, once the five parameters are known
    not to be all missing. *)
Definition affine_of {P} (num : Q -> P) (scale : option (axis_arg P)) (percent px : option (axis_arg P)) (rotate : option P) (shear : option (axis_arg P))
  : res (affine P) :=
  let scale := match scale with Some s => s | None => Single 1 end in
  let rotate := match rotate with Some r => r | None => num 0 end in
  let shear := match shear with Some s => s | None => Single 0 end in
  do sc <- handle_axes num 1 scale;
  do tr <- handle_translate num px percent;
  do sh <- handle_axes num 0 shear;
  Ok (mkAffine sc (fst tr) (snd tr) rotate sh).

(** geometric.py:1274-1298: the constructor; [uniform a b] is the parameter the
    tuple (a, b) stands for. *)
Definition affine_new {P} (num : Q -> P) (uniform : Q -> Q -> P) (scale : option (axis_arg P)) (percent px : option (axis_arg P)) (rotate : option P)
  (shear : option (axis_arg P)) : res (affine P) :=
  let both a b := Some (Dict (Some (uniform a b)) (Some (uniform a b))) in
  match scale, percent, px, rotate, shear with
  | None, None, None, None, None =>
      affine_of num (both (9 # 10) (11 # 10)) (both (- 1 # 10) (1 # 10)) None (Some (uniform (-15) 15)) (both (-10) 10)
  | _, _, _, _, _ => affine_of num scale percent px rotate shear
  end.

(** geometric.py:1573-1631 _draw_samples, and 700-719: the entry of image [i]. *)
Definition draw_sample {P} (draw : nat -> P -> list Q) (a : affine P) (i : nat) : res sample :=
  let '(sx, sy) := draw_axes draw 0 1 2 (a_scale a) in
  let '(tx, ty) := draw_axes draw 3 4 5 (a_translate a) in
  let ro := draw 6%nat (a_rotate a) in
  let '(hx, hy) := draw_shear draw (a_shear a) in
  let at_ (l : list Q) := match nth_error l i with Some v => Ok v | None => Err IndexError end in
  do sx <- at_ sx; do sy <- at_ sy; do tx <- at_ tx; do ty <- at_ ty; do ro <- at_ ro; do hx <- at_ hx; do hy <- at_ hy;
  Ok (mkSample sx sy tx ty (a_mode a) ro hx hy).
