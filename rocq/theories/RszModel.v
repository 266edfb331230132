(** Model of imresize_many_images and imresize_single_image (imgaug.py:879-1181) and of resizing
    heatmaps and segmentation maps. cv2.resize is a parameter. Numbers are exact rationals. *)
From Verif Require Import Prelude UtilModel ConvModel.

(** An (H,W) or (H,W,C) array: dtype, height, width, number of channels (None: no channel axis) and
    pixels. [imgaug.py:1005-1008] *)
Record pic := mkPic { p_kind : kind; p_h : Z; p_w : Z; p_c : option nat; p_px : Z -> Z -> nat -> Q }.
(** An (N,H,W) or (N,H,W,C) array. [imgaug.py:1005-1008] *)
Record stack := mkStack { s_kind : kind; s_h : Z; s_w : Z; s_c : option nat; s_imgs : list (Z -> Z -> nat -> Q) }.
(** The argument [images]: a list or an array; arrays with another number of axes have a length
    only. [imgaug.py:970-1003] *)
Inductive images := IList (l : list pic) | IArr (a : stack) | IBad (n : nat).
(** Numbers: integers or floats (imgaug.py:246-298). *)
Inductive num := Int (z : Z) | Flt (q : Q).
(** See [num]. [imgaug.py:246-298] *)
Definition val (n : num) : Q := match n with Int z => inject_Z z | Flt q => q end.
(** The argument [sizes]: a number or a tuple, whose entries may be no numbers (None).
    [imgaug.py:975-990] *)
Inductive sizes := SNum (n : num) | STup (l : list (option num)).
(** The argument [interpolation] and the one used (imgaug.py:1046-1067). *)
Inductive inter := Nearest | Linear | Area | Cubic.
(** None: automatic choice, Some None: not a valid interpolation. [imgaug.py:1044-1067] *)
Notation inter_arg := (option (option inter)).

(** imgaug.py:975-990. *)
Definition check_sizes (s : sizes) : res (num * num) :=
  match s with
  | SNum n => if qleb (val n) 0 then Err ValueError else Ok (n, n)
  | STup [a; b] =>
      match a, b with
      | Some a, Some b => if qleb 0 (val a) && qleb 0 (val b) then Ok (a, b) else Err AssertionError
      | _, _ => Err AssertionError
      end
  | STup _ => Err AssertionError
  end.
(** imgaug.py:1012-1018. *)
Definition target (side : Z) (n : num) : Z :=
  match n with Int z => z | Flt q => np_round (inject_Z side * q) end.
(** imgaug.py:1055-1067. *)
Definition choose (h w h' w' : Z) (i : inter_arg) : res inter :=
  match i with
  | None => Ok (if (h <? h') || (w <? w') then Area else Linear)
  | Some (Some i) => Ok i
  | Some None => Err AssertionError
  end.
(** imgaug.py:1071-1086. *)
Definition allowed (i : inter) (k : kind) : bool :=
  match k with
  | KBool => true
  | KUint b => (b =? 8) || (b =? 16)
  | KInt b => (b =? 8) || (b =? 16) || (b =? 32) && match i with Nearest => true | _ => false end
  | KFloat b => (b =? 16) || (b =? 32) || (b =? 64)
  end.
(** The dtype and pixels passed to cv2.resize (imgaug.py:1096-1101). *)
Definition pre_kind (i : inter) (k : kind) : kind :=
  match k, i with
  | KBool, _ => KUint 8
  | KInt b, Nearest => KInt b
  | KInt b, _ => if b =? 8 then KInt 16 else KInt b
  | KFloat b, _ => if b =? 16 then KFloat 32 else KFloat b
  | KUint b, _ => KUint b
  end.
(** See [pre_kind]. [imgaug.py:1097] *)
Definition pre (k : kind) (q : Q) : Q := match k with KBool => (q * 255)%Q | _ => q end.
(** Restoring the dtype (imgaug.py:1127-1137). Simplification: float16 is clipped, not rounded. *)
Definition post (i : inter) (k : kind) (q : Q) : Q :=
  match k, i with
  | KBool, _ => if qltb 127 q then 1%Q else 0%Q
  | KInt _, Nearest => q
  | KInt b, _ => if b =? 8 then qclip q (-128) 127 else q
  | KFloat b, _ => if b =? 16 then qclip q (-65504) 65504 else q
  | KUint _, _ => q
  end.

Section Resize.
(** cv2.resize (imgaug.py:1105, 1109): interpolation, dtype, size, new size, number of channels
    and pixels. *)
Variable cv2 : inter -> kind -> Z -> Z -> Z -> Z -> nat -> (Z -> Z -> nat -> Q) -> res (Z -> Z -> nat -> Q).

(** One image of the array (imgaug.py:1092-1138). *)
Definition resize_one (i : inter) (k : kind) (h w h' w' : Z) (c : option nat) (px : Z -> Z -> nat -> Q) : res (Z -> Z -> nat -> Q) :=
  let n := match c with None => 1%nat | Some n => n end in
  let px := fun y x c => pre k (px y x c) in
  let k' := pre_kind i k in
  do out <-
    (if Nat.ltb 512 n
     then do chs <- mapM (fun c => cv2 i k' h w h' w' 1 (fun y x _ => px y x c)) (seq 0 n);
          Ok (fun y x c => nth c chs (fun _ _ _ => 0%Q) y x 0%nat)
     else cv2 i k' h w h' w' n px);
  Ok (fun y x c => post i k (out y x c)).
(** imgaug.py:1003-1139. *)
Definition resize_array (a : stack) (sz : num * num) (ip : inter_arg) : res stack :=
  let h := s_h a in let w := s_w a in
  let h' := target h (fst sz) in let w' := target w (snd sz) in
  if (h' =? h) && (w' =? w) then Ok a
  else if (h' =? 0) || (w' =? 0) || (match s_c a with Some O => true | _ => false end)
  then Ok (mkStack (s_kind a) h' w' (s_c a) (map (fun _ _ _ _ => 0%Q) (s_imgs a)))
  else if (h =? 0) || (w =? 0) then Err AssertionError
  else
    do i <- choose h w h' w' ip;
    if negb (allowed i (s_kind a)) then Err ValueError
    else
      do imgs <- mapM (resize_one i (s_kind a) h w h' w' (s_c a)) (s_imgs a);
      Ok (mkStack (s_kind a) h' w' (s_c a) imgs).

(** ** Lists *)
(** numpy's common dtype of two dtypes (np.array, imgaug.py:995). *)
Definition promote (a b : kind) : kind :=
  match a, b with
  | KBool, k | k, KBool => k
  | KUint a, KUint b => KUint (Z.max a b)
  | KInt a, KInt b => KInt (Z.max a b)
  | KFloat a, KFloat b => KFloat (Z.max a b)
  | KUint u, KInt s | KInt s, KUint u => if u <? s then KInt s else if u =? 64 then KFloat 64 else KInt (2 * u)
  | KUint n, KFloat f | KInt n, KFloat f | KFloat f, KUint n | KFloat f, KInt n =>
      KFloat (Z.max f (if n =? 8 then 16 else if n =? 16 then 32 else 64))
  end.
(** np.array(images) for images of one shape (imgaug.py:995). *)
Definition stacked (first : pic) (r : list pic) : stack :=
  mkStack (fold_left promote (map p_kind r) (p_kind first)) (p_h first) (p_w first) (p_c first) (map p_px (first :: r)).
(** list(array), array[0, ...] (imgaug.py:994, 1001). *)
Definition unstacked (a : stack) : list pic := map (mkPic (s_kind a) (s_h a) (s_w a) (s_c a)) (s_imgs a).
(** Equality of the shapes of two images (imgaug.py:992). *)
Definition same_shape (a b : pic) : bool :=
  (p_h a =? p_h b) && (p_w a =? p_w b) &&
  match p_c a, p_c b with None, None => true | Some m, Some n => Nat.eqb m n | _, _ => false end.
(** imresize_many_images for one image of a list (imgaug.py:997-1001). *)
Definition resize_alone (sz : num * num) (ip : inter_arg) (p : pic) : res pic :=
  do a <- resize_array (stacked p []) sz ip;
  match unstacked a with p' :: _ => Ok p' | [] => Err IndexError end.
(** imresize_many_images (imgaug.py:967-1139); the recursive calls are unfolded, since [sizes] is
    a pair then. *)
Definition imresize_many (im : images) (s : sizes) (ip : inter_arg) : res images :=
  match im with
  | IList [] | IBad O => Ok im
  | IArr (mkStack _ _ _ _ []) => Ok im
  | _ =>
      do sz <- check_sizes s;
      match im with
      | IList (p :: r) =>
          if forallb (same_shape p) r
          then do a <- resize_array (stacked p r) sz ip; Ok (IList (unstacked a))
          else do l <- mapM (resize_alone sz ip) (p :: r); Ok (IList l)
      | IArr a => do a <- resize_array a sz ip; Ok (IArr a)
      | _ => Err AssertionError
      end
  end.
(** imresize_single_image (imgaug.py:1150-1181). *)
Definition imresize_single (p : pic) (s : sizes) (ip : inter_arg) : res pic :=
  let c := match p_c p with None => Some 1%nat | c => c end in
  do r <- imresize_many (IArr (mkStack (p_kind p) (p_h p) (p_w p) c [p_px p])) s ip;
  match r with
  | IArr a => match s_imgs a with
              | px :: _ => Ok (mkPic (s_kind a) (s_h a) (s_w a) (match p_c p with None => None | _ => s_c a end) px)
              | [] => Err IndexError
              end
  | _ => Err IndexError
  end.
(** HeatmapsOnImage.resize (heatmaps.py:442-477) on the array [arr_0to1]. *)
Definition heatmap_resize (p : pic) (s : sizes) (ip : inter_arg) : res pic :=
  do r <- imresize_single p s ip;
  Ok (mkPic (p_kind r) (p_h r) (p_w r) (p_c r) (fun y x c => qclip (p_px r y x c) 0 1)).
(** SegmentationMapsOnImage.resize (segmaps.py:480-504) with the default interpolation "nearest", on
    the array [arr]. *)
Definition segmap_resize (p : pic) (s : sizes) : res pic := imresize_single p s (Some (Some Nearest)).
End Resize.
