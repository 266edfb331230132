(** Model of dtype gates and promotion (dtypes.py), of the contrast augmenters for all dtypes and of histogram
    equalization and CLAHE (augmenters/contrast.py).

    Simplifications: computations in float64 are exact; images have a channel axis, as in batches. *)
From Coq Require Import String Ascii List ZArith QArith Bool.
From Verif Require Import Prelude DtyModel ConvModel RszModel ColModel.
Import ListNotations.
Open Scope Z_scope.

(** ** Gates *)

(** The dtypes of _DTYPE_NAME_TO_DTYPE (dtypes.py:39-53), float128 being available. *)
Inductive dname := Bool | U8 | U16 | U32 | U64 | I8 | I16 | I32 | I64 | F16 | F32 | F64 | F128.
(** Equality of dtypes (dtypes.py:453). *)
Definition dname_eqb (a b : dname) : bool :=
  match a, b with
  | Bool, Bool | U8, U8 | U16, U16 | U32, U32 | U64, U64 | I8, I8 | I16, I16 | I32, I32 | I64, I64
  | F16, F16 | F32, F32 | F64, F64 | F128, F128 => true
  | _, _ => false
  end.
(** _DTYPE_NAME_TO_DTYPE (dtypes.py:39-53). *)
Definition dtype_named (s : string) : res dname :=
  if String.eqb s "uint8" then Ok U8 else if String.eqb s "uint16" then Ok U16
  else if String.eqb s "uint32" then Ok U32 else if String.eqb s "uint64" then Ok U64
  else if String.eqb s "int8" then Ok I8 else if String.eqb s "int16" then Ok I16
  else if String.eqb s "int32" then Ok I32 else if String.eqb s "int64" then Ok I64
  else if String.eqb s "float16" then Ok F16 else if String.eqb s "float32" then Ok F32
  else if String.eqb s "float64" then Ok F64 else if String.eqb s "float128" then Ok F128
  else if String.eqb s "bool" then Ok Bool else Err KeyError_.
(** [dtypes.split(" ")] (dtypes.py:385); [acc]: the current part, reversed. Other white space than spaces is not modelled. *)
Fixpoint split_spaces (acc : string) (s : string) : list string :=
  match s with
  | EmptyString => [acc]
  | String a r => if Ascii.eqb a " "%char then acc :: split_spaces EmptyString r else split_spaces (acc ++ String a EmptyString)%string r
  end.
(** dtypes.py:383-394 _convert_dtype_strs_to_types. *)
Definition parse_dtypes (s : string) : res (list dname) :=
  mapM dtype_named (filter (fun p => negb (String.eqb p EmptyString)) (split_spaces EmptyString s)).
(** Membership in a set of dtypes (dtypes.py:453-465). *)
Definition mem (d : dname) (l : list dname) : bool := existsb (dname_eqb d) l.
(** dtypes.py:422-511 _gate_dtypes: the dtypes warned about, or an error. *)
Definition gate_types (dtypes allowed disallowed : list dname) : res (list dname) :=
  let others := filter (fun d => negb (mem d allowed)) dtypes in
  if existsb (fun d => mem d disallowed) others then Err ValueError
  else Ok (filter (fun d => negb (mem d disallowed)) others).
(** dtypes.py:323-370 gate_dtypes_strs on the dtypes of the passed arrays. *)
Definition gate_strs (dtypes : list dname) (allowed disallowed : string) : res (list dname) :=
  do a <- parse_dtypes allowed;
  do d <- parse_dtypes disallowed;
  if existsb (fun x => mem x d) a then Err AssertionError else gate_types dtypes a d.
(** dtypes.py:519-543 allow_only_uint8. *)
Definition allow_only_uint8 (dtypes : list dname) : res (list dname) :=
  gate_strs dtypes "uint8" "uint16 uint32 uint64 int8 int16 int32 int64 float16 float32 float64 float128 bool".
(** The gates of the library: the allowed and disallowed names (arithmetic.py:154-155, 282-283, 523-524, 752-753, 1160-1162;
    blur.py:161-166, 383-384; contrast.py:497-499, 602-604, 683-685, 762-764, 1021-1023; convolutional.py:108-109;
    geometric.py:227-229, 262-263, 3189-3191, 3787-3788, 4408-4410, 5354-5356; pillike.py:1498-1501;
    segmentation.py:240-241; weather.py:396-397; dtypes.py:258-260, 537-541; imgaug.py:1073-1076, 1081-1082, 1261-1264). *)
Definition library_gates : list (string * string) := [
  ("bool uint8 uint16 int8 int16 float16 float32", "uint32 uint64 int32 int64 float64 float128");
  ("bool uint8 uint16 uint32 int8 int16 int32 float16 float32 float64", "uint64 int64 float128");
  ("bool uint8 uint16 uint32 int8 int16 int32 int64 uint64 float16 float32 float64", "float128");
  ("bool uint8 uint16 int8 int16 float16 float32 float64", "uint32 uint64 int32 int64 float128");
  ("uint8 uint16 uint32 uint64 int8 int16 int32 int64 float16 float32 float64", "float128 bool");
  ("uint8 uint16 uint32 int8 int16 int32 float16 float32 float64", "uint64 int64 float128 bool");
  ("uint8 uint16", "bool uint32 uint64 int8 int16 int32 int64 float16 float32 float64 float128");
  ("bool uint8 uint16 int8 int16 int32 float16 float32 float64", "uint32 uint64 int64 float128");
  ("bool uint8 uint16 uint32 uint64 int8 int16 int32 int64 float16 float32 float64", "float128");
  ("bool uint8 uint16 uint32 uint64 int8 int16 int32 int64", "float16 float32 float64 float128");
  ("uint8 float16 float32 float64 float128", "bool uint16 uint32 uint64 int8 int16 int32 int64");
  ("bool uint8 uint16 uint32 int8 int16 int32 float16 float32 float64 float128", "uint64 int64");
  ("uint8", "uint16 uint32 uint64 int8 int16 int32 int64 float16 float32 float64 float128 bool")]%string.

(** ** Promotion *)

(** dtype.kind (dtypes.py:168). *)
Inductive kind := KB | KU | KI | KF.
(** dtype.kind and the size in bits (dtypes.py:168). *)
Definition kind_bits (d : dname) : kind * Z :=
  match d with
  | Bool => (KB, 8) | U8 => (KU, 8) | U16 => (KU, 16) | U32 => (KU, 32) | U64 => (KU, 64)
  | I8 => (KI, 8) | I16 => (KI, 16) | I32 => (KI, 32) | I64 => (KI, 64)
  | F16 => (KF, 16) | F32 => (KF, 32) | F64 => (KF, 64) | F128 => (KF, 128)
  end.
(** np.dtype of a kind and a size (dtypes.py:171). *)
Definition dtype_of (k : kind) (bits : Z) : res dname :=
  match k with
  | KB => if bits =? 8 then Ok Bool else Err TypeError_
  | KU => if bits =? 8 then Ok U8 else if bits =? 16 then Ok U16 else if bits =? 32 then Ok U32 else if bits =? 64 then Ok U64 else Err TypeError_
  | KI => if bits =? 8 then Ok I8 else if bits =? 16 then Ok I16 else if bits =? 32 then Ok I32 else if bits =? 64 then Ok I64 else Err TypeError_
  | KF => if bits =? 16 then Ok F16 else if bits =? 32 then Ok F32 else if bits =? 64 then Ok F64 else if bits =? 128 then Ok F128 else Err TypeError_
  end.
(** dtypes.py:154-185 increase_itemsize_of_dtype for integer factors. *)
Definition increase_itemsize (d : dname) (factor : Z) : res dname :=
  if negb ((factor =? 1) || (factor =? 2) || (factor =? 4) || (factor =? 8)) then Err AssertionError
  else match kind_bits d with
       | (KB, _) => Err AssertionError
       | (k, bits) => dtype_of k (bits * factor)
       end.
(** np.promote_types, by the documentation of numpy (dtypes.py:202): signed for mixed signs, floats with enough bits. *)
Definition promote_types (a b : dname) : res dname :=
  match kind_bits a, kind_bits b with
  | (KB, _), _ => Ok b
  | _, (KB, _) => Ok a
  | (KU, n), (KU, m) => dtype_of KU (Z.max n m)
  | (KI, n), (KI, m) => dtype_of KI (Z.max n m)
  | (KF, n), (KF, m) => dtype_of KF (Z.max n m)
  | (KU, n), (KI, m) | (KI, m), (KU, n) => if n <? m then dtype_of KI m else if n <? 64 then dtype_of KI (2 * n) else Ok F64
  | (KU, n), (KF, m) | (KI, n), (KF, m) | (KF, m), (KU, n) | (KF, m), (KI, n) =>
      dtype_of KF (Z.max m (if n <=? 8 then 16 else if n <=? 16 then 32 else 64))
  end.
(** dtypes.py:188-211 get_minimal_dtype. *)
Definition get_minimal (l : list dname) (factor : Z) : res dname :=
  match l with
  | [] => Err AssertionError
  | d :: r =>
      do p <- fold_left (fun acc x => do a <- acc; promote_types a x) r (Ok d);
      if 1 <? factor then increase_itemsize p factor else Ok p
  end.
(** The dtypes as in DtyModel (dtypes.py:9-14); booleans are integers of one bit. *)
Definition dty (d : dname) : dtype :=
  match d with
  | Bool => DU 1 | U8 => DU 8 | U16 => DU 16 | U32 => DU 32 | U64 => DU 64
  | I8 => DI 8 | I16 => DI 16 | I32 => DI 32 | I64 => DI 64
  | F16 => DF 11 5 | F32 => DF 24 104 | F64 => DF 53 971 | F128 => DF 64 16320
  end.
(** An array: its dtype and its components (dtypes.py:215-222). *)
Definition array := (dname * list Q)%type.
(** change_dtypes_ of one array without clipping and rounding (dtypes.py:72-88, 132, 222). *)
Definition change_array (to : dname) (a : array) : res array :=
  do vs <- mapM (fun v => change_dtype (dty (fst a)) (dty to) v false false) (snd a); Ok (to, vs).
(** dtypes.py:215-222 promote_array_dtypes_ with [dtypes=None]. *)
Definition promote_arrays (arrs : list array) (factor : Z) : res (list array) :=
  do d <- get_minimal (map fst arrs) factor; mapM (change_array d) arrs.
(** dtypes.py:225-228 increase_array_resolutions_. *)
Definition increase_resolutions (arrs : list array) (factor : Z) : res (list array) :=
  do ds <- mapM (fun a => increase_itemsize (fst a) factor) arrs;
  mapM (fun p => change_array (snd p) (fst p)) (combine arrs ds).

(** ** Contrast *)

(** An image (contrast.py:52). *)
Record cimage := mkC { ci_dt : dname; ci_h : Z; ci_w : Z; ci_c : nat; ci_px : Z -> Z -> nat -> Q }.
(** A contrast function acting on every component: dtype, sampled parameters, component (contrast.py:82, 90). *)
Definition cfunc := dname -> list Q -> Q -> Q.
(** The parameters of a channel: one of each drawn list (contrast.py:80, 89). *)
Definition params_at (samples : list (list Q)) (c : nat) : res (list Q) :=
  mapM (fun s => match nth_error s c with Some q => Ok q | None => Err IndexError end) samples.
(** contrast.py:68-91, the loop body of _ContrastFuncWrapper._augment_batch_. *)
Definition contrast_image (f : cfunc) (per_channel : Q) (samples : list (list Q)) (im : cimage) : res cimage :=
  if qltb (1 # 2) per_channel then
    do ps <- mapM (params_at samples) (seq 0 (ci_c im));
    match ps with
    | [] => Err ValueError
    | _ => Ok (mkC (ci_dt im) (ci_h im) (ci_w im) (ci_c im) (fun y x c => f (ci_dt im) (nth c ps []) (ci_px im y x c)))
    end
  else
    do p <- params_at samples 0;
    Ok (mkC (ci_dt im) (ci_h im) (ci_w im) (ci_c im) (fun y x c => f (ci_dt im) p (ci_px im y x c))).
(** contrast.py:48-92 _augment_batch_: the dtypes warned about are dropped; [drawn]: per_channel and parameters. *)
Definition contrast_batch (gate : option (string * string)) (f : cfunc) (drawn : list (Q * list (list Q))) (imgs : list cimage) : res (list cimage) :=
  do _ <- match gate with None => Ok [] | Some (a, d) => gate_strs (map ci_dt imgs) a d end;
  mapM (fun p => contrast_image f (fst (snd p)) (snd (snd p)) (fst p)) (combine imgs drawn).
(** contrast.py:414-418: the centre of the value range (dtypes.py:231-244). *)
Definition center (d : dname) : Z :=
  match kind_bits d with (KU, b) => (2 ^ b - 1) / 2 | _ => 0 end.
(** contrast.py:346-423 adjust_contrast_linear at one component; uint8 images use a table of rounded down values.
    An undefined conversion ([Err]) would be any value; CtrProps shows that there is none. *)
Definition linear : cfunc := fun d params v =>
  match params with
  | alpha :: _ =>
      let e := (inject_Z (center d) + alpha * (v - inject_Z (center d)))%Q in
      match d with
      | U8 => inject_Z (py_int (qclip e 0 255))
      | _ => match change_dtype (DF 53 971) (dty d) e true true with Ok r => r | Err _ => e end
      end
  | [] => v
  end.
(** contrast.py:690-766 LinearContrast on drawn samples. *)
Definition linear_contrast := contrast_batch (Some ("uint8 uint16 uint32 int8 int16 int32 float16 float32 float64", "uint64 int64 float128 bool")%string) linear.

(** ** CLAHE *)

(** One channel of an image (contrast.py:1065). *)
Definition cplane := Z -> Z -> Q.
Section Clahe.
(** cv2.createCLAHE(...).apply: clip limit, tile sizes (width, height), channel (contrast.py:1060-1066). *)
Variable clahe : Q -> Z * Z -> cplane -> cplane.
(** contrast.py:1051-1076, the loop body of AllChannelsCLAHE._augment_batch_; tile sizes as drawn. *)
Definition clahe_image (tile_min : Z) (limits : list Q) (tile_h tile_w : list Z) (per_channel : Q) (im : cimage) : res cimage :=
  if (ci_h im =? 0) || (ci_w im =? 0) || Nat.eqb (ci_c im) 0 then Ok im
  else
    do planes <- mapM (fun c =>
        let p := if qltb (1 # 2) per_channel then c else 0%nat in
        match nth_error limits p, nth_error tile_h p, nth_error tile_w p with
        | Some l, Some h, Some w =>
            let h := Z.max h tile_min in
            let w := Z.max w tile_min in
            Ok (if (1 <? w) || (1 <? h) then clahe l (w, h) (fun y x => ci_px im y x c) else fun y x => ci_px im y x c)
        | _, _, _ => Err IndexError
        end) (seq 0 (ci_c im));
    Ok (mkC (ci_dt im) (ci_h im) (ci_w im) (ci_c im) (fun y x c => nth c planes (fun _ _ => 0%Q) y x)).
(** contrast.py:1013-1077; [drawn]: clip limits, tile heights and widths, per_channel. *)
Definition clahe_batch (tile_min : Z) (drawn : list (list Q * list Z * list Z * Q)) (imgs : list cimage) : res (list cimage) :=
  do _ <- gate_strs (map ci_dt imgs) "uint8 uint16" "bool uint32 uint64 int8 int16 int32 int64 float16 float32 float64 float128";
  mapM (fun p => let '(im, (l, h, w, pc)) := p in clahe_image tile_min l h w pc im) (combine imgs drawn).
End Clahe.

(** ** Intensity channels *)

(** _CHANNEL_MAPPING (contrast.py:778-782). *)
Definition intensity_channel (s : cspace) : res nat :=
  match s with HSV => Ok 2%nat | HLS => Ok 1%nat | Lab => Ok 0%nat | _ => Err KeyError_ end.
(** contrast.py:784-800, the checks of the constructor. *)
Definition check_applier (from to : cname) : res (cspace * cspace) :=
  match from, to with
  | Some f, Some t =>
      if negb (existsb (cspace_eqb f) [RGB; BGR; Lab; HLS; HSV]) then Err AssertionError
      else if negb (existsb (cspace_eqb t) [Lab; HLS; HSV]) then Err AssertionError
      else Ok (f, t)
  | _, _ => Err AssertionError
  end.
(** image[..., c:c+1] (contrast.py:850-851, 869). *)
Definition one_channel (im : image) (c : nat) : image :=
  mkImage (im_u8 im) (im_h im) (im_w im) (Some 1%nat) (fun y x _ => im_px im y x c) false false.
(** image[..., 0:3] (contrast.py:828). *)
Definition three_channels (im : image) : image := mkImage (im_u8 im) (im_h im) (im_w im) (Some 3%nat) (im_px im) false false.
(** contrast.py:817-837: the colour image to convert, if any. *)
Definition colors_of (im : image) : option image :=
  match im_c im with Some 3%nat => Some im | Some 4%nat => Some (three_channels im) | _ => None end.
(** Values for the images with colours, in order (contrast.py:847-852, 881-882): the pairs of every image and of its value, if any. *)
Fixpoint assign {A} (imgs : list image) (vals : list A) : list (image * option A) :=
  match imgs with
  | [] => []
  | im :: r => match colors_of im with
               | None => (im, None) :: assign r vals
               | Some _ => match vals with v :: vs => (im, Some v) :: assign r vs | [] => (im, None) :: assign r [] end
               end
  end.
(** image_tmp[..., c:c+1] = image_aug (contrast.py:867). Simplification: no broadcasting of other shapes. *)
Definition store (conv aug : image) (c : nat) : res image :=
  match im_c aug with
  | Some 1%nat => if (im_h aug =? im_h conv) && (im_w aug =? im_w conv)
                  then Ok (mkImage (im_u8 conv) (im_h conv) (im_w conv) (im_c conv) (fun y x n => if Nat.eqb n c then im_px aug y x 0%nat else im_px conv y x n) (im_own conv) (im_contig conv))
                  else Err ValueError
  | _ => Err ValueError
  end.
(** np.dstack((image_new_cs, image[..., 3:4])) for images of four channels (contrast.py:883-889). *)
Definition with_alpha (im out : image) : image :=
  match im_c im with
  | Some 4%nat => mkImage (im_u8 out) (im_h out) (im_w out) (Some 4%nat) (fun y x n => if (n <? 3)%nat then im_px out y x n else im_px im y x n) true true
  | _ => out
  end.
Section Applier.
Variable cvt : cspace -> cspace -> ColModel.color -> ColModel.color.
Variable gray : cspace -> ColModel.color -> Z.
(** The function applied to the intensity images (contrast.py:855). *)
Variable func : list image -> res (list image).
(** contrast.py:802-895 _IntensityChannelBasedApplier.apply. *)
Definition apply_intensity (from to : cspace) (imgs : list image) : res (list image) :=
  do id <- intensity_channel to;
  let colors := flat_map (fun im => match colors_of im with Some c => [c] | None => [] end) imgs in
  do conv <- change_colorspaces cvt gray colors (NOne (Some to)) (NOne (Some from));
  let pairs := assign imgs conv in
  do aug <- func (map (fun p => match snd p with Some c => one_channel c id | None => fst p end) pairs);
  do tmps <- mapM (fun q => match snd (fst q) with Some c => do s <- store c (snd q) id; Ok [s] | None => Ok [] end) (combine pairs aug);
  do back <- change_colorspaces cvt gray (concat tmps) (NOne (Some from)) (NOne (Some to));
  Ok (map (fun q => match snd (fst q) with Some b => with_alpha (fst (fst q)) b | None => snd q end) (combine (assign imgs back) aug)).
End Applier.

Section Equalize.
(** cv2.equalizeHist on a channel of a size (contrast.py:1393). *)
Variable equalize : Z -> Z -> (Z -> Z -> Z) -> Z -> Z -> Z.
(** contrast.py:1388-1398, the loop body of AllChannelsHistogramEqualization._augment_batch_. *)
Definition equalize_image (im : image) : image :=
  match im_c im with
  | Some (S _) => if (im_h im =? 0) || (im_w im =? 0) then im
                  else mkImage true (im_h im) (im_w im) (im_c im) (fun y x c => equalize (im_h im) (im_w im) (fun y x => im_px im y x c) y x) false false
  | _ => im
  end.
(** contrast.py:1380-1399. *)
Definition equalize_batch (imgs : list image) : res (list image) :=
  if negb (forallb im_u8 imgs) then Err ValueError else Ok (map equalize_image imgs).
(** contrast.py:1532-1554 HistogramEqualization._augment_batch_. *)
Definition histogram_equalization cvt gray (from to : cspace) (imgs : list image) : res (list image) :=
  if negb (forallb im_u8 imgs) then Err ValueError else apply_intensity cvt gray equalize_batch from to imgs.
End Equalize.
