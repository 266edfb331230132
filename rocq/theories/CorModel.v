(** Model of the corruptions of augmenters/imgcorruptlike.py and of debug images (augmenters/debug.py).

    Simplifications: numbers are exact rationals; the package imagecorruptions is installed. *)
From Coq Require Import List ZArith QArith Bool.
From Verif Require Import Prelude DtyModel RngModel CtrModel.
Import ListNotations.
Open Scope Z_scope.

(** ** Corruptions *)

(** An array: dtype, height, width, channels ([None]: no channel axis) and components (imgcorruptlike.py:163-169). *)
Record picture := mkP { p_dt : dname; p_h : Z; p_w : Z; p_c : option nat; p_px : Z -> Z -> nat -> Q }.
(** np.tile(image, (1, 1, 3)) of an array with one channel (imgcorruptlike.py:181-184). *)
Definition tiled (im : picture) : picture := mkP (p_dt im) (p_h im) (p_w im) (Some 3%nat) (fun y x _ => p_px im y x 0%nat).
(** np.uint8(image_aug) (imgcorruptlike.py:205): the fraction is dropped, other numbers than 0..255 wrap around (behaviour
    of x86, undefined in C). *)
Definition as_uint8 (im : picture) : picture :=
  mkP U8 (p_h im) (p_w im) (p_c im) (fun y x c => inject_Z (py_int (p_px im y x c) mod 256)).
(** image_aug[:, :, 0] and image_aug[:, :, 0:1] (imgcorruptlike.py:199-202); [axis]: whether the axis is kept. *)
Definition first_channel (axis : bool) (im : picture) : res picture :=
  match p_c im with
  | None => Err IndexError
  | Some O => if axis then Ok im else Err IndexError
  | Some (S _) => Ok (mkP (p_dt im) (p_h im) (p_w im) (if axis then Some 1%nat else None) (fun y x _ => p_px im y x 0%nat))
  end.
Section Corruption.
(** numpy's global state, and np.random.seed (imgcorruptlike.py:190). *)
Variable S : Type.
Variable of_seed : Z -> S.
(** A function of the package imagecorruptions: severity, image, state (imgcorruptlike.py:191-194). Simplification: conversions
    to and from PIL (imgcorruptlike.py:186-188, 196-197) are left to it. *)
Variable func : Z -> picture -> S -> S * res picture.
(** imgcorruptlike.py:118-207 _call_imgcorrupt_func. *)
Definition corrupt (severity : Z) (seed : option Z) (im : picture) (s : S) : S * res picture :=
  match allow_only_uint8 [p_dt im] with
  | Err e => (s, Err e)
  | Ok _ =>
      if negb ((32 <=? p_h im) && (32 <=? p_w im)) then (s, Err AssertionError)
      else if negb (match p_c im with None => true | Some n => Nat.eqb n 1 || Nat.eqb n 3 end) then (s, Err AssertionError)
      else
        let input := match p_c im with None | Some 1%nat => tiled im | _ => im end in
        let '(s, r) := temporary_numpy_seed S of_seed seed (func severity input) s in
        (s, do out <- r;
            do out <- match p_c im with None => first_channel false out | Some 1%nat => first_channel true out | _ => Ok out end;
            Ok (as_uint8 out))
  end.
(** image[...] = result (imgcorruptlike.py:1033). Simplification: no broadcasting. *)
Definition overwrite (im out : picture) : res picture :=
  if (p_h out =? p_h im) && (p_w out =? p_w im) && match p_c out, p_c im with None, None => true | Some a, Some b => Nat.eqb a b | _, _ => false end
  then Ok (mkP (p_dt im) (p_h im) (p_w im) (p_c im) (p_px out)) else Err ValueError.
(** imgcorruptlike.py:1025-1035 _ImgcorruptAugmenterBase._augment_batch_ on drawn severities and seeds. *)
Fixpoint corrupt_batch (imgs : list picture) (severities seeds : list Z) (s : S) : S * res (list picture) :=
  match imgs, severities, seeds with
  | im :: imgs, v :: severities, e :: seeds =>
      let '(s, r) := corrupt v (Some e) im s in
      match (do out <- r; overwrite im out) with
      | Err e => (s, Err e)
      | Ok out => let '(s, r) := corrupt_batch imgs severities seeds s in (s, do l <- r; Ok (out :: l))
      end
  | _, _, _ => (s, Ok imgs)
  end.
End Corruption.

(** ** Glass blur *)

(** imgcorruptlike.py:466-472: sigma, largest shift and iterations of a severity; negative indices count from the end. *)
Definition glass_params (severity : Z) : res (Q * Z * Z) :=
  let l := [(7 # 10, 1, 2); (9 # 10, 2, 1); (1%Q, 2, 3); (11 # 10, 3, 2); (3 # 2, 4, 2)] in
  let i := severity - 1 in
  let i := if i <? 0 then i + 5 else i in
  if (i <? 0) || (5 <=? i) then Err IndexError
  else match nth_error l (Z.to_nat i) with Some p => Ok p | None => Err IndexError end.
Section Glass.
(** The components of a pixel (imgcorruptlike.py:522). *)
Variable P : Type.
(** x[h, w] = p (imgcorruptlike.py:522). *)
Definition put (x : Z -> Z -> P) (h w : Z) (p : P) : Z -> Z -> P := fun y z => if (y =? h) && (z =? w) then p else x y z.
(** imgcorruptlike.py:522 x[h, w], x[h', w'] = x[h', w'], x[h, w]: the right side is a pair of views of the array, so the
    second assignment reads the pixel that the first one has written. *)
Definition glass_step (x : Z -> Z -> P) (h w h' w' : Z) : Z -> Z -> P :=
  let x := put x h w (x h' w') in put x h' w' (x h w).
(** One turn of the inner loop (imgcorruptlike.py:517-522); positions outside of the array are errors. *)
Definition glass_turn (height width max_delta : Z) (d : Z * Z) (j k : Z) (x : Z -> Z -> P) : res (Z -> Z -> P) :=
  let h := height - max_delta - j in
  let w := width - max_delta - k in
  let h' := h + snd d in
  let w' := w + fst d in
  if (0 <=? h) && (h <? height) && (0 <=? w) && (w <? width) && (0 <=? h') && (h' <? height) && (0 <=? w') && (w' <? width)
  then Ok (glass_step x h w h' w') else Err IndexError.
(** A loop over a list that stops at errors (imgcorruptlike.py:514-516). *)
Fixpoint loop {A B} (l : list A) (f : A -> B -> res B) (b : B) : res B :=
  match l with [] => Ok b | a :: r => do b <- f a b; loop r f b end.
(** range(n) (imgcorruptlike.py:514-516). *)
Definition upto (n : Z) : list Z := map Z.of_nat (seq 0 (Z.to_nat n)).
(** imgcorruptlike.py:505-524 _apply_glass_blur_imgaug_loop; [d]: the drawn shifts. *)
Definition glass_loop (height width iterations max_delta : Z) (d : Z -> Z -> Z -> Z * Z) (x : Z -> Z -> P) : res (Z -> Z -> P) :=
  loop (upto iterations) (fun i => loop (upto (height - 2 * max_delta)) (fun j => loop (upto (width - 2 * max_delta)) (fun k =>
    glass_turn height width max_delta (d i j k) j k))) x.
End Glass.
Section GlassBlur.
Variable S : Type.
(** skimage.filters.gaussian (imgcorruptlike.py:476-479, 499). *)
Variable gaussian : Q -> (Z -> Z -> nat -> Q) -> Z -> Z -> nat -> Q.
(** np.random.randint(-max_delta, max_delta, size=...) (imgcorruptlike.py:483-492): iterations, rows, columns, largest shift. *)
Variable shifts : Z -> Z -> Z -> Z -> S -> (Z -> Z -> Z -> Z * Z) * S.
(** imgcorruptlike.py:457-501 _apply_glass_blur_imgaug. Simplification: the dtype of the result, float64, is not recorded. *)
Definition glass_blur (severity : Z) (im : picture) (s : S) : S * res picture :=
  match glass_params severity with
  | Err e => (s, Err e)
  | Ok (sigma, max_delta, iterations) =>
      let x := gaussian sigma (fun y x c => p_px im y x c / 255)%Q in
      let x := fun y z c => inject_Z (py_int (x y z c * 255)) in
      let '(d, s) := shifts iterations (p_h im - 2 * max_delta) (p_w im - 2 * max_delta) max_delta s in
      (s, do x <- glass_loop (nat -> Q) (p_h im) (p_w im) iterations max_delta d x;
          let x := gaussian sigma (fun y z c => x y z c / 255)%Q in
          Ok (mkP F64 (p_h im) (p_w im) (p_c im) (fun y z c => qclip (x y z c) 0 1 * 255)%Q))
  end.
End GlassBlur.

(** ** Debug images *)

(** debug.py:31-77 _resizepad_to_size: height and width of the resized image, padding (top, right, bottom, left). *)
Definition resizepad (size : Z * Z) (im : Z * Z) : res (Z * Z * (Z * Z * Z * Z)) :=
  let '(height, width) := size in
  let '(h, w) := im in
  if h =? 0 then Err GenericException
  else
    let ratio := (inject_Z w / inject_Z h)%Q in
    if (width - w <=? height - h) && (w =? 0) then Err GenericException
    else
      let '(hr, wr) := if height - h <? width - w then (inject_Z height, inject_Z height * ratio)%Q else (inject_Z width / ratio, inject_Z width)%Q in
      let hr := Z.max (np_round hr) 1 in
      let wr := Z.max (np_round wr) 1 in
      let py := height - hr in
      let px := width - wr in
      let t := py / 2 in
      let rt := Qceiling (inject_Z px / 2) in
      let b := Qceiling (inject_Z py / 2) in
      let l := px / 2 in
      if (t <? 0) || (rt <? 0) || (b <? 0) || (l <? 0) then Err AssertionError
      else Ok ((hr, wr), (t, rt, b, l)).
(** debug.py:219-232: a component of an image as drawn. *)
Definition shown (d : dname) (v : Q) : Q :=
  let unit q := inject_Z (py_int (qclip q 0 1 * 255)) in
  match kind_bits d with
  | (KB, _) => (v * 255)%Q
  | (KU, b) => unit (v / inject_Z (2 ^ b - 1))%Q
  | (KI, b) => unit ((inject_Z (- 2 ^ (b - 1)) + v) / inject_Z (2 ^ b - 1))%Q
  | (KF, _) => unit v
  end.
(** An image under construction; for every position the image and the pixel it shows, [None] for background and text
    (debug.py:187-250). *)
Record canvas := mkCanvas { cv_h : Z; cv_w : Z; cv_px : Z -> Z -> option (nat * Z * Z) }.
(** sizelib.pad (debug.py:71-74, 155-158). *)
Definition pad_canvas (top right bottom left : Z) (c : canvas) : canvas :=
  mkCanvas (top + cv_h c + bottom) (left + cv_w c + right)
    (fun y x => if (top <=? y) && (y <? top + cv_h c) && (left <=? x) && (x <? left + cv_w c) then cv_px c (y - top) (x - left) else None).
(** Cells with texts, by their smallest size (debug.py:162-191), and with the i-th image (debug.py:194-294); overlays and
    drawn coordinates do not matter for the layout. *)
Inductive cell := TextCell (h w : Z) | ImageCell (i : nat) (h w : Z).
(** debug.py:174-176, 208-210. *)
Definition min_height (c : cell) : Z := match c with TextCell h _ | ImageCell _ h _ => h end.
(** debug.py:179-184, 213-215. *)
Definition min_width (c : cell) : Z := match c with TextCell _ w | ImageCell _ _ w => w end.
(** debug.py:187-191, 218-250, 285-294. Simplification: resized images show no particular pixel. *)
Definition draw_cell (height width : Z) (c : cell) : res canvas :=
  match c with
  | TextCell _ _ => Ok (mkCanvas height width (fun _ _ => None))
  | ImageCell i h w =>
      do r <- resizepad (height, width) (h, w);
      let '((hr, wr), (t, rt, b, l)) := r in
      Ok (pad_canvas t rt b l (mkCanvas hr wr (fun y x => if (hr =? h) && (wr =? w) then Some (i, y, x) else None)))
  end.
(** debug.py:129-159 _DebugGridBorderCell of size 1 around a cell. *)
Definition draw_bordered (height width : Z) (c : cell) : res canvas := do r <- draw_cell height width c; Ok (pad_canvas 1 1 1 1 r).
(** np.vstack (debug.py:341). *)
Fixpoint vstack (l : list canvas) : res canvas :=
  match l with
  | [] => Err ValueError
  | [c] => Ok c
  | c :: r => do d <- vstack r;
              if cv_w c =? cv_w d then Ok (mkCanvas (cv_h c + cv_h d) (cv_w c) (fun y x => if y <? cv_h c then cv_px c y x else cv_px d (y - cv_h c) x))
              else Err ValueError
  end.
(** np.hstack (debug.py:373). *)
Fixpoint hstack (l : list canvas) : res canvas :=
  match l with
  | [] => Err ValueError
  | [c] => Ok c
  | c :: r => do d <- hstack r;
              if cv_h c =? cv_h d then Ok (mkCanvas (cv_h c) (cv_w c + cv_w d) (fun y x => if x <? cv_w c then cv_px c y x else cv_px d y (x - cv_w c)))
              else Err ValueError
  end.
(** max(...) of a list (debug.py:323). *)
Definition max_list (l : list Z) : res Z := match l with [] => Err ValueError | a :: r => Ok (fold_left Z.max r a) end.
(** debug.py:334-343 _DebugGridColumn.draw. *)
Definition draw_column (heights : list Z) (cells : list cell) : res canvas :=
  do width <- max_list (map min_width cells);
  do l <- mapM (fun p => draw_bordered (snd p) width (fst p)) (combine cells heights);
  vstack l.
(** debug.py:361-374 _DebugGrid.draw; the check of the constructor (debug.py:358) comes first. *)
Definition draw_grid (columns : list (list cell)) : res canvas :=
  match columns with
  | [] => Err AssertionError
  | first :: _ =>
      if negb (forallb (fun c => Nat.eqb (length c) (length first)) columns) then Err AssertionError
      else
        let heights := fold_left (fun acc c => map (fun p => Z.max (fst p) (snd p)) (combine acc (map min_height c))) columns (map (fun _ => 0) first) in
        do l <- mapM (draw_column heights) columns;
        hstack l
  end.
(** debug.py:470-496 draw_debug_image, 500-668 for the columns: every column has a title, a description ([texts]: their
    sizes) and one cell per image ([sizes]). *)
Definition debug_image (texts : list ((Z * Z) * (Z * Z))) (sizes : list (Z * Z)) : res canvas :=
  let images := map (fun p => ImageCell (fst p) (fst (snd p)) (snd (snd p))) (combine (seq 0 (length sizes)) sizes) in
  do r <- draw_grid (map (fun t => TextCell (fst (fst t)) (snd (fst t)) :: TextCell (fst (snd t)) (snd (snd t)) :: images) texts);
  Ok (pad_canvas 1 1 1 1 r).
