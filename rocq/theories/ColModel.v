(** Model of imgaug/augmenters/color.py: conversion between colour spaces, ChangeColorspace and
    Grayscale, colour temperatures, WithColorspace, WithBrightnessChannels, WithHueAndSaturation,
    k-means colour quantization.

    Simplifications: float32 results are exact; the entries of a list of images are distinct
    arrays. *)
From Coq Require Import Qround.
From Verif Require Import Prelude AriModel UtilModel BlendModel ConvModel RszModel.
Open Scope Z_scope.

(** A numpy array of shape (H, W) (no [im_c]) or (H, W, C): is its dtype uint8, its components, its flags
    OWNDATA and C_CONTIGUOUS (imgaug.py:1996-2003). *)
Record image := mkImage { im_u8 : bool; im_h : Z; im_w : Z; im_c : option nat; im_px : Z -> Z -> nat -> Z;
                          im_own : bool; im_contig : bool }.

(** color.py:48-61. *)
Inductive cspace := RGB | BGR | GRAY | YCrCb | HSV | HLS | Lab | Luv | YUV | CIE.
(** A string: one of CSPACE_ALL (color.py:59-61) or another one. *)
Notation cname := (option cspace).
(** Equality of colour spaces (color.py:269). *)
Definition cspace_eqb (a b : cspace) : bool :=
  match a, b with
  | RGB, RGB | BGR, BGR | GRAY, GRAY | YCrCb, YCrCb | HSV, HSV | HLS, HLS | Lab, Lab | Luv, Luv | YUV, YUV | CIE, CIE => true
  | _, _ => false
  end.

(** The three components of a pixel (color.py:265). *)
Definition color := (Z * Z * Z)%type.
(** One component of a colour (color.py:265). *)
Definition comp (c : color) (n : nat) : Z :=
  let '(a, b, d) := c in match n with O => a | S O => b | _ => d end.
(** The colour of a pixel (color.py:283). *)
Definition color_at (px : Z -> Z -> nat -> Z) (y x : Z) : color := (px y x 0%nat, px y x 1%nat, px y x 2%nat).

(** The pairs of _CSPACE_OPENCV_CONV_VARS (color.py:75-126). *)
Definition direct (from to : cspace) : bool :=
  match from, to with
  | RGB, RGB | BGR, BGR => false
  | RGB, _ | BGR, _ => true
  | GRAY, _ => false
  | _, RGB | _, BGR => true
  | _, _ => false
  end.

(** A freshly allocated array of shape (H, W, 3) (color.py:283, 297). *)
Definition fresh (im : image) (px : Z -> Z -> nat -> Z) : image :=
  mkImage true (im_h im) (im_w im) (Some 3%nat) px true true.
(** May cv2 write into the array itself (_normalize_cv2_input_arr_, imgaug.py:1996-2003)? *)
Definition in_place (im : image) : bool := im_own im && im_contig im.

(** Arguments that are a string, an iterable of strings or something else (color.py:361-373). *)
Inductive names := NOne (s : cname) | NList (l : list cname) | NBad.

(** color.py:361-373 _validate. *)
Definition per_image (nb : nat) (a : names) : res (list cname) :=
  match a with
  | NOne s => Ok (repeat s nb)
  | NList l => if Nat.eqb (length l) nb then Ok l else Err AssertionError
  | NBad => Err AssertionError
  end.

Section Conversion.
(** cv2.cvtColor on a pixel of an image: from a colour space to one of three channels, resp. to gray
    (color.py:283, 291-292). *)
Variable cvt : cspace -> cspace -> color -> color.
Variable gray : cspace -> color -> Z.

(** cv2.cvtColor with [dst] being the image itself: the array [image_aug] after the call and the
    returned one. An image of one channel does not fit into [dst]; it is returned here as the
    (H, W, 3) array made from it in color.py:294-297. [color.py:283, 291-292] *)
Definition cvt_color (from to : cspace) (im : image) : image * image :=
  match to with
  | GRAY => (im, fresh im (fun y x _ => gray from (color_at (im_px im) y x)))
  | _ => let out := fresh im (fun y x n => comp (cvt from to (color_at (im_px im) y x)) n) in (out, out)
  end.

(** color.py:177-299 change_colorspace_: the passed array after the call and the returned one. *)
Definition change_colorspace (im : image) (to from : cname) : res (image * image) :=
  if (im_h im =? 0) || (im_w im =? 0) then Ok (im, im)
  else if negb (im_u8 im) then Err ValueError
  else
    match to, from with
    | Some to, Some from =>
        if cspace_eqb from GRAY then Err AssertionError
        else
          match im_c im with
          | Some 3%nat =>
              if cspace_eqb from to then Ok (im, im)
              else
                let n := fresh im (im_px im) in
                let '(after, out) :=
                  if direct from to then cvt_color from to n
                  else let '(_, mid) := cvt_color from RGB n in cvt_color RGB to mid in
                Ok (if in_place im then after else im, out)
          | _ => Err AssertionError
          end
    | _, _ => Err AssertionError
    end.

(** color.py:377-380, the loop of change_colorspaces_: the arrays after the call, the returned list. *)
Definition change_each (l : list (image * (cname * cname))) : res (list (image * image)) :=
  mapM (fun p => change_colorspace (fst p) (fst (snd p)) (snd (snd p))) l.
(** color.py:302-380 change_colorspaces_: the returned images. *)
Definition change_colorspaces (imgs : list image) (to from : names) : res (list image) :=
  do ts <- per_image (length imgs) to;
  do fs <- per_image (length imgs) from;
  do r <- change_each (combine imgs (combine ts fs));
  Ok (map snd r).

(** ** ChangeColorspace *)

(** blend.py:32-92 blend_alpha for two uint8 (H, W, 3) images and a single alpha (see
    BlendModel.blend_uint8). *)
Definition blend_images (eps : Q) (fg bg : image) (a : Q) : res image :=
  if negb ((im_h fg =? im_h bg) && (im_w fg =? im_w bg)) then Err AssertionError
  else if (im_h fg =? 0) || (im_w fg =? 0) then Ok fg
  else if qleb (1 - eps) a then Ok (fresh fg (im_px fg))
  else if qleb a eps then Ok (fresh fg (im_px bg))
  else if negb (qleb 0 a && qleb a 1) then Err AssertionError
  else Ok (fresh fg (fun y x n => add_weighted (im_px fg y x n) (im_px bg y x n) a)).

(** color.py:2895. *)
Definition cs_eps : Q := 1 # 1000.
(** color.py:2913-2927, the loop body of ChangeColorspace._augment_batch_. *)
Definition change_blended (from : cspace) (to : cname) (alpha : Q) (im : image) : res image :=
  match to with
  | None => Err AssertionError
  | Some t =>
      if qleb alpha cs_eps || cspace_eqb from t then Ok im
      else
        do r <- change_colorspace im to (Some from);
        let '(after, out) := r in
        blend_images cs_eps out after alpha
  end.

(** The argument [to_colorspace] of ChangeColorspace (color.py:2854-2879): a string, an iterable (with
    entries that are no strings), a parameter, something else. *)
Inductive to_arg := TName (s : cname) | TIter (l : list (option cname)) | TParam | TOther.
(** color.py:2854-2892 the checks of the constructor; [None]: [from_colorspace] is no string. *)
Definition check_change (to : to_arg) (from : option cname) : res cspace :=
  do _ <- match to with
          | TName (Some _) => Ok tt
          | TName None => Err AssertionError
          | TIter l => if forallb (fun o => match o with Some (Some _) => true | _ => false end) l then Ok tt else Err AssertionError
          | TParam => Ok tt
          | TOther => Err GenericException
          end;
  match from with
  | Some (Some GRAY) => Err AssertionError
  | Some (Some f) => Ok f
  | _ => Err AssertionError
  end.
(** color.py:2897-2929 ChangeColorspace._augment_batch_; [drawn]: the alphas and colour spaces. *)
Definition change_batch (from : cspace) (drawn : list (Q * cname)) (imgs : list image) : res (list image) :=
  mapM (fun p => change_blended from (snd (snd p)) (fst (snd p)) (fst p)) (combine imgs drawn).
(** color.py:3008-3016 Grayscale. *)
Definition grayscale_batch (from : cspace) (alphas : list Q) (imgs : list image) : res (list image) :=
  change_batch from (map (fun a => (a, Some GRAY)) alphas) imgs.

(** ** Colour temperatures *)

(** color.py:446-838 create_table; row [i] is for 1000 + 100 i kelvin. *)
Definition table : list color :=
  [
   (255, 56, 0); (255, 71, 0); (255, 83, 0); (255, 93, 0); (255, 101, 0); (255, 109, 0);
   (255, 115, 0); (255, 121, 0); (255, 126, 0); (255, 131, 0); (255, 137, 18); (255, 142, 33);
   (255, 147, 44); (255, 152, 54); (255, 157, 63); (255, 161, 72); (255, 165, 79); (255, 169, 87);
   (255, 173, 94); (255, 177, 101); (255, 180, 107); (255, 184, 114); (255, 187, 120); (255, 190, 126);
   (255, 193, 132); (255, 196, 137); (255, 199, 143); (255, 201, 148); (255, 204, 153); (255, 206, 159);
   (255, 209, 163); (255, 211, 168); (255, 213, 173); (255, 215, 177); (255, 217, 182); (255, 219, 186);
   (255, 221, 190); (255, 223, 194); (255, 225, 198); (255, 227, 202); (255, 228, 206); (255, 230, 210);
   (255, 232, 213); (255, 233, 217); (255, 235, 220); (255, 236, 224); (255, 238, 227); (255, 239, 230);
   (255, 240, 233); (255, 242, 236); (255, 243, 239); (255, 244, 242); (255, 245, 245); (255, 246, 248);
   (255, 248, 251); (255, 249, 253); (254, 249, 255); (252, 247, 255); (249, 246, 255); (247, 245, 255);
   (245, 243, 255); (243, 242, 255); (240, 241, 255); (239, 240, 255); (237, 239, 255); (235, 238, 255);
   (233, 237, 255); (231, 236, 255); (230, 235, 255); (228, 234, 255); (227, 233, 255); (225, 232, 255);
   (224, 231, 255); (222, 230, 255); (221, 230, 255); (220, 229, 255); (218, 228, 255); (217, 227, 255);
   (216, 227, 255); (215, 226, 255); (214, 225, 255); (212, 225, 255); (211, 224, 255); (210, 223, 255);
   (209, 223, 255); (208, 222, 255); (207, 221, 255); (207, 221, 255); (206, 220, 255); (205, 220, 255);
   (204, 219, 255); (203, 219, 255); (202, 218, 255); (201, 218, 255); (201, 217, 255); (200, 217, 255);
   (199, 216, 255); (199, 216, 255); (198, 216, 255); (197, 215, 255); (196, 215, 255); (196, 214, 255);
   (195, 214, 255); (195, 214, 255); (194, 213, 255); (193, 213, 255); (193, 212, 255); (192, 212, 255);
   (192, 212, 255); (191, 211, 255); (191, 211, 255); (190, 211, 255); (190, 210, 255); (189, 210, 255);
   (189, 210, 255); (188, 210, 255); (188, 209, 255); (187, 209, 255); (187, 209, 255); (186, 208, 255);
   (186, 208, 255); (185, 208, 255); (185, 208, 255); (185, 207, 255); (184, 207, 255); (184, 207, 255);
   (183, 207, 255); (183, 206, 255); (183, 206, 255); (182, 206, 255); (182, 206, 255); (182, 205, 255);
   (181, 205, 255); (181, 205, 255); (181, 205, 255); (180, 205, 255); (180, 204, 255); (180, 204, 255);
   (179, 204, 255); (179, 204, 255); (179, 204, 255); (178, 203, 255); (178, 203, 255); (178, 203, 255);
   (178, 203, 255); (177, 203, 255); (177, 202, 255); (177, 202, 255); (177, 202, 255); (176, 202, 255);
   (176, 202, 255); (176, 202, 255); (175, 201, 255); (175, 201, 255); (175, 201, 255); (175, 201, 255);
   (175, 201, 255); (174, 201, 255); (174, 201, 255); (174, 200, 255); (174, 200, 255); (173, 200, 255);
   (173, 200, 255); (173, 200, 255); (173, 200, 255); (173, 200, 255); (172, 199, 255); (172, 199, 255);
   (172, 199, 255); (172, 199, 255); (172, 199, 255); (171, 199, 255); (171, 199, 255); (171, 199, 255);
   (171, 198, 255); (171, 198, 255); (170, 198, 255); (170, 198, 255); (170, 198, 255); (170, 198, 255);
   (170, 198, 255); (170, 198, 255); (169, 198, 255); (169, 197, 255); (169, 197, 255); (169, 197, 255);
   (169, 197, 255); (169, 197, 255); (169, 197, 255); (168, 197, 255); (168, 197, 255); (168, 197, 255);
   (168, 197, 255); (168, 196, 255); (168, 196, 255); (168, 196, 255); (167, 196, 255); (167, 196, 255);
   (167, 196, 255); (167, 196, 255); (167, 196, 255); (167, 196, 255); (167, 196, 255); (166, 196, 255);
   (166, 195, 255); (166, 195, 255); (166, 195, 255); (166, 195, 255); (166, 195, 255); (166, 195, 255);
   (166, 195, 255); (165, 195, 255); (165, 195, 255); (165, 195, 255); (165, 195, 255); (165, 195, 255);
   (165, 195, 255); (165, 194, 255); (165, 194, 255); (165, 194, 255); (164, 194, 255); (164, 194, 255);
   (164, 194, 255); (164, 194, 255); (164, 194, 255); (164, 194, 255); (164, 194, 255); (164, 194, 255);
   (164, 194, 255); (164, 194, 255); (163, 194, 255); (163, 194, 255); (163, 193, 255); (163, 193, 255);
   (163, 193, 255); (163, 193, 255); (163, 193, 255); (163, 193, 255); (163, 193, 255); (163, 193, 255);
   (163, 193, 255); (162, 193, 255); (162, 193, 255); (162, 193, 255); (162, 193, 255); (162, 193, 255);
   (162, 193, 255); (162, 193, 255); (162, 193, 255); (162, 192, 255); (162, 192, 255); (162, 192, 255);
   (162, 192, 255); (162, 192, 255); (161, 192, 255); (161, 192, 255); (161, 192, 255); (161, 192, 255);
   (161, 192, 255); (161, 192, 255); (161, 192, 255); (161, 192, 255); (161, 192, 255); (161, 192, 255);
   (161, 192, 255); (161, 192, 255); (161, 192, 255); (161, 192, 255); (160, 192, 255); (160, 192, 255);
   (160, 191, 255); (160, 191, 255); (160, 191, 255); (160, 191, 255); (160, 191, 255); (160, 191, 255);
   (160, 191, 255); (160, 191, 255); (160, 191, 255); (160, 191, 255); (160, 191, 255); (160, 191, 255);
   (160, 191, 255); (159, 191, 255); (159, 191, 255); (159, 191, 255); (159, 191, 255); (159, 191, 255);
   (159, 191, 255); (159, 191, 255); (159, 191, 255); (159, 191, 255); (159, 191, 255); (159, 191, 255);
   (159, 190, 255); (159, 190, 255); (159, 190, 255); (159, 190, 255); (159, 190, 255); (159, 190, 255);
   (159, 190, 255); (158, 190, 255); (158, 190, 255); (158, 190, 255); (158, 190, 255); (158, 190, 255);
   (158, 190, 255); (158, 190, 255); (158, 190, 255); (158, 190, 255); (158, 190, 255); (158, 190, 255);
   (158, 190, 255); (158, 190, 255); (158, 190, 255); (158, 190, 255); (158, 190, 255); (158, 190, 255);
   (158, 190, 255); (158, 190, 255); (158, 190, 255); (158, 190, 255); (157, 190, 255); (157, 190, 255);
   (157, 189, 255); (157, 189, 255); (157, 189, 255); (157, 189, 255); (157, 189, 255); (157, 189, 255);
   (157, 189, 255); (157, 189, 255); (157, 189, 255); (157, 189, 255); (157, 189, 255); (157, 189, 255);
   (157, 189, 255); (157, 189, 255); (157, 189, 255); (157, 189, 255); (157, 189, 255); (157, 189, 255);
   (157, 189, 255); (157, 189, 255); (157, 189, 255); (157, 189, 255); (156, 189, 255); (156, 189, 255);
   (156, 189, 255); (156, 189, 255); (156, 189, 255); (156, 189, 255); (156, 189, 255); (156, 189, 255);
   (156, 189, 255); (156, 189, 255); (156, 189, 255); (156, 189, 255); (156, 189, 255); (156, 189, 255);
   (156, 189, 255); (156, 189, 255); (156, 188, 255); (156, 188, 255); (156, 188, 255); (156, 188, 255);
   (156, 188, 255); (156, 188, 255); (156, 188, 255); (156, 188, 255); (156, 188, 255); (156, 188, 255);
   (156, 188, 255); (156, 188, 255); (155, 188, 255); (155, 188, 255); (155, 188, 255); (155, 188, 255);
   (155, 188, 255); (155, 188, 255); (155, 188, 255); (155, 188, 255); (155, 188, 255); (155, 188, 255);
   (155, 188, 255); (155, 188, 255); (155, 188, 255); (155, 188, 255); (155, 188, 255); (155, 188, 255);
   (155, 188, 255)
  ].
(** One multiplier of a row of the table (color.py:839). *)
Definition row (i : Z) (n : nat) : Q := (inject_Z (comp (nth (Z.to_nat i) table (0, 0, 0)%Z) n) / 255)%Q.
(** color.py:424-443 transform_kelvins_to_rgb_multipliers for one temperature. *)
Definition multiplier (kelvin : Q) (n : nat) : Q :=
  let k := qclip kelvin 1000 40000 in
  let t := (k / 100 - 10)%Q in
  let f := row (Qfloor t) n in
  let g := row (Qceiling t) n in
  (f + (t - inject_Z (Qfloor t)) * (g - f))%Q.

(** color.py:929-931. Simplification: images without pixels that are not of shape (H, W, 3) are refused. *)
Definition adjust (im : image) (kelvin : Q) : res image :=
  match im_c im with
  | Some 3%nat => Ok (fresh im (fun y x n => np_round (inject_Z (im_px im y x n) * multiplier kelvin n) mod 256))
  | _ => Err ValueError
  end.
(** color.py:918-936, the loop body of change_color_temperatures_. *)
Definition temper (im : image) (kelvin : Q) (from : cname) : res image :=
  do rgb <- change_colorspace im (Some RGB) from;
  do adj <- adjust (snd rgb) kelvin;
  do out <- change_colorspace adj from (Some RGB);
  Ok (snd out).

(** The argument [kelvins]: an iterable, a number, something else (color.py:882-898). *)
Inductive kelvins := KList (l : list Q) | KNum (q : Q) | KBad.
(** color.py:882-898 _validate. *)
Definition per_image_kelvins (nb : nat) (k : kelvins) : res (list Q) :=
  match k with
  | KList l => if Nat.eqb (length l) nb then Ok l else Err AssertionError
  | KNum q => Ok (repeat q nb)
  | KBad => Err AssertionError
  end.
(** color.py:845-937 change_color_temperatures_: the returned images. *)
Definition change_color_temperatures (imgs : list image) (k : kelvins) (from : names) : res (list image) :=
  match imgs with
  | [] => Ok []
  | _ =>
      do ks <- per_image_kelvins (length imgs) k;
      do fs <- per_image (length imgs) from;
      match ks with
      | k0 :: _ =>
          if negb (qleb 1000 k0 && qleb k0 40000) then Err AssertionError
          else mapM (fun p => temper (fst p) (fst (snd p)) (snd (snd p))) (combine imgs (combine ks fs))
      | [] => Err IndexError
      end
  end.
(** color.py:940-972 change_color_temperature: the passed array after the call (the view
    [image[np.newaxis, ...]] is written to, color.py:936) and the returned one. *)
Definition change_color_temperature (im : image) (kelvin : Q) (from : cname) : res (image * image) :=
  let view := mkImage (im_u8 im) (im_h im) (im_w im) (im_c im) (im_px im) false (im_contig im) in
  do r <- change_color_temperatures [view] (KList [kelvin]) (NList [from]);
  match r with
  | [out] => Ok (mkImage (im_u8 im) (im_h im) (im_w im) (im_c im) (im_px out) (im_own im) (im_contig im),
                 mkImage (im_u8 im) (im_h im) (im_w im) (im_c im) (im_px out) false (im_contig im))
  | _ => Err IndexError
  end.
(** color.py:3076-3085 ChangeColorTemperature._augment_batch_ on the drawn temperatures. *)
Definition temperature_batch (from : cname) (drawn : list Q) (imgs : list image) : res (list image) :=
  change_color_temperatures imgs (KList drawn) (NOne from).

(** ** Child augmenters in another colour space *)
Section Children.
(** What the children do with the images of the batch. *)
Variable children : list image -> res (list image).

(** color.py:1059-1080 WithColorspace._augment_batch_. *)
Definition with_colorspace (to from : cname) (imgs : list image) : res (list image) :=
  do a <- change_colorspaces imgs (NOne to) (NOne from);
  do b <- children a;
  change_colorspaces b (NOne from) (NOne to).

(** color.py:1189-1196 _CSPACE_TO_CHANNEL_ID. *)
Definition channel_id (s : cname) : res nat :=
  match s with
  | Some YCrCb | Some Lab | Some Luv | Some YUV => Ok 0%nat
  | Some HLS => Ok 1%nat
  | Some HSV => Ok 2%nat
  | _ => Err KeyError_
  end.
(** color.py:1256-1264 _extract_brightness_channels, the loop body. *)
Definition extract_channel (im : image) (s : cname) : res image :=
  do id <- channel_id s;
  match im_c im with
  | None => Err IndexError
  | Some c => Ok (mkImage (im_u8 im) (im_h im) (im_w im) (Some (if Nat.ltb id c then 1%nat else 0%nat))
                          (fun y x n => im_px im y x (id + n)%nat) false false)
  end.
(** color.py:1267-1272 _invert_extract_brightness_channels, the loop body: an assignment with numpy's
    broadcasting and conversion to the dtype of the image. Simplification: channels that are not three-dimensional
    are refused. *)
Definition store_channel (ch im : image) (s : cname) : res image :=
  do id <- channel_id s;
  match im_c im, im_c ch with
  | Some c, Some c' =>
      if ((im_h ch =? im_h im) || (im_h ch =? 1)) && ((im_w ch =? im_w im) || (im_w ch =? 1)) &&
         (Nat.eqb c' 1 || Nat.eqb c' (if Nat.ltb id c then 1 else 0))
      then Ok (mkImage (im_u8 im) (im_h im) (im_w im) (im_c im)
                 (fun y x n => if Nat.eqb n id
                               then let v := im_px ch (if im_h ch =? 1 then 0 else y) (if im_w ch =? 1 then 0 else x) 0%nat in
                                    if im_u8 im then v mod 256 else v
                               else im_px im y x n) (im_own im) (im_contig im))
      else Err ValueError
  | _, _ => Err ValueError
  end.
(** color.py:1267-1272, the loop: images without a channel are left alone. *)
Fixpoint store_channels (chs imgs : list image) (ss : list cname) : res (list image) :=
  match chs, imgs, ss with
  | ch :: chs, im :: imgs, s :: ss =>
      do im' <- store_channel ch im s;
      do r <- store_channels chs imgs ss;
      Ok (im' :: r)
  | _, _, _ => Ok imgs
  end.
(** color.py:1224-1253 WithBrightnessChannels._augment_batch_ on the drawn colour spaces. *)
Definition with_brightness (from : cname) (drawn : list cname) (imgs : list image) : res (list image) :=
  do cvts <- change_colorspaces imgs (NList drawn) (NOne from);
  do chs <- mapM (fun p => extract_channel (fst p) (snd p)) (combine cvts drawn);
  do chs' <- children chs;
  do out <- store_channels chs' cvts drawn;
  change_colorspaces out (NOne from) (NList drawn).

(** color.py:1692-1694: the hue as passed to the children. *)
Definition hue_to_child (h : Z) : Z := py_int (inject_Z h / 180 * 255)%Q.
(** color.py:1714-1717: the hue as returned by the children. *)
Definition hue_from_child (h : Z) : Z := py_int (inject_Z (h mod 255) / 255 * 180)%Q.
(** color.py:1688-1696 the loop body of _images_to_hsv_. *)
Definition to_hs (hsv : image) : res image :=
  match im_c hsv with
  | Some c =>
      if Nat.ltb c 2 then Err IndexError
      else Ok (mkImage false (im_h hsv) (im_w hsv) (Some 2%nat)
                 (fun y x n => match n with O => hue_to_child (im_px hsv y x 0%nat) | _ => im_px hsv y x 1%nat end) true true)
  | None => Err IndexError
  end.
(** color.py:1711-1722 the loop body of _hs_to_images_. *)
Definition from_hs (hs hsv : image) : res image :=
  match im_c hs, im_c hsv with
  | Some c, Some c' =>
      if Nat.ltb c 2 || Nat.ltb c' 3 then Err IndexError
      else if negb ((im_h hs =? im_h hsv) && (im_w hs =? im_w hsv)) then Err ValueError
      else Ok (fresh hsv (fun y x n => match n with
                                       | O => hue_from_child (im_px hs y x 0%nat)
                                       | S O => zclip (im_px hs y x 1%nat) 0 255
                                       | _ => im_px hsv y x 2%nat
                                       end))
  | _, _ => Err IndexError
  end.
(** color.py:1710-1722, the loop. *)
Fixpoint from_hs_all (hs hsv : list image) : res (list image) :=
  match hs, hsv with
  | [], _ => Ok []
  | _ :: _, [] => Err IndexError
  | a :: hs, b :: hsv =>
      do o <- from_hs a b;
      do r <- from_hs_all hs hsv;
      Ok (o :: r)
  end.
(** color.py:1665-1731 WithHueAndSaturation._augment_batch_. *)
Definition with_hue_and_saturation (from : cname) (imgs : list image) : res (list image) :=
  do hsv <- change_colorspaces imgs (NOne (Some HSV)) (NOne from);
  do hs <- mapM to_hs hsv;
  do hs' <- children hs;
  do out <- from_hs_all hs' hsv;
  change_colorspaces out (NOne from) (NOne (Some HSV)).
End Children.
End Conversion.

(** ** Quantization *)

(** The pixels of an image in row-major order (color.py:3488). *)
Definition pixel_vectors (h w : Z) (nc : nat) (px : Z -> Z -> nat -> Z) : list (list Z) :=
  flat_map (fun y => map (fun x => map (px y x) (seq 0 nc)) (zrange w)) (zrange h).

Section KMeans.
(** cv2.kmeans (color.py:3504-3506): the state of OpenCV's RNG, the pixels, the number of clusters and of
    iterations and epsilon; the labels and the centers. *)
Variable kmeans : Z -> list (list Z) -> Z -> Z -> Q -> list nat * list (list Q).
(** The global RNG of imgaug: generate_seed_() (color.py:3509). *)
Variable rng : Type.
Variable generate_seed : rng -> Z * rng.

(** color.py:3403-3515 quantize_kmeans: the result, the states of OpenCV's RNG and of the global RNG. *)
Definition quantize_kmeans (im : image) (nb_clusters nb_max_iter : Z) (eps : Q) (cv : Z) (g : rng) : res (image * Z * rng) :=
  if negb (im_u8 im) then Err ValueError
  else if negb ((2 <=? nb_clusters) && (nb_clusters <=? 256)) then Err AssertionError
  else if im_h im * im_w im <=? nb_clusters then Ok (im, cv, g)
  else
    let nc := match im_c im with None => 1%nat | Some c => c end in
    let '(labels, centers) := kmeans 1 (pixel_vectors (im_h im) (im_w im) nc (im_px im)) nb_clusters nb_max_iter eps in
    let '(seed, g') := generate_seed g in
    Ok (mkImage true (im_h im) (im_w im) (im_c im)
          (fun y x n => py_int (nth n (nth (nth (Z.to_nat (y * im_w im + x)) labels 0%nat) centers []) 0%Q) mod 256) true true,
        seed, g').
End KMeans.

Section Quantization.
(** cv2.resize (see RszModel), the quantization (color.py:3203), the conversions to the colour space used
    for it and back (color.py:3165-3185). *)
Variable cv2 : inter -> kind -> Z -> Z -> Z -> Z -> nat -> (Z -> Z -> nat -> Q) -> res (Z -> Z -> nat -> Q).
Variable quantize : pic -> Z -> res pic.
Variables to_cs from_cs : pic -> res pic.

(** color.py:3217-3228 _ensure_max_size. *)
Definition ensure_max_size (max_size : option Z) (ip : inter_arg) (p : pic) : res pic :=
  match max_size with
  | None => Ok p
  | Some m =>
      let size := Z.max (p_h p) (p_w p) in
      if size <=? m then Ok p
      else
        let factor := (inject_Z m / inject_Z size)%Q in
        imresize_single cv2 p (STup [Some (Int (py_int (inject_Z (p_h p) * factor)));
                                     Some (Int (py_int (inject_Z (p_w p) * factor)))]) ip
  end.
(** image[:, :, 0:3] (color.py:3163). *)
Definition first_three (p : pic) : pic := mkPic (p_kind p) (p_h p) (p_w p) (Some 3%nat) (p_px p).
(** np.concatenate([image_aug, alpha_channel], axis=2) (color.py:3192); [p]: the image with the alpha channel. *)
Definition join_alpha (rgb p : pic) : res pic :=
  if negb ((p_h rgb =? p_h p) && (p_w rgb =? p_w p)) then Err ValueError
  else
    match p_c rgb with
    | Some c => Ok (mkPic (p_kind rgb) (p_h rgb) (p_w rgb) (Some (S c))
                      (fun y x n => if Nat.ltb n c then p_px rgb y x n else p_px p y x 3%nat))
    | None => Err ValueError
    end.
(** color.py:3145-3200 _augment_single_image. *)
Definition quantize_image (max_size : option Z) (ip : inter_arg) (counts : Z) (p : pic) : res pic :=
  match p_c p with
  | Some 1%nat =>
      do s <- ensure_max_size max_size ip p;
      do q <- quantize s counts;
      if same_shape p q then Ok q
      else imresize_single cv2 q (STup [Some (Int (p_h p)); Some (Int (p_w p))]) ip
  | Some (3%nat as c) | Some (4%nat as c) =>
      do s <- ensure_max_size max_size ip p;
      do t <- to_cs (first_three s);
      do q <- quantize t counts;
      do b <- from_cs q;
      do r <- (if Nat.eqb c 4 then join_alpha b s else Ok b);
      if same_shape p r then Ok r
      else imresize_single cv2 r (STup [Some (Int (p_h p)); Some (Int (p_w p))]) ip
  | _ => Err AssertionError
  end.
(** color.py:3118-3129 _draw_samples: the number of colours of one image. *)
Definition draw_count (lo : Z) (hi : option Z) (drawn : Q) : Z :=
  let c := np_round drawn in
  let c := Z.max c lo in
  match hi with Some h => Z.min c h | None => c end.
End Quantization.
