(** Model of adding to and multiplying images (imgaug/augmenters/arithmetic.py
    62-586, 695-798). Images are flat (row-major) lists of component values.
    No proofs here. *)
From Verif Require Import Prelude DtyModel.

(** [cv2.add]/[cv2.multiply] into CV_8U: the exact result rounded (half to
    even) and saturated. Simplification: the float sum or product itself is
    exact. *)
Definition sat8 (q : Q) : Z := zclip (np_round q) 0 255.

(** The value argument of add_scalar: a Python number, a numpy array (float
    dtype or not) of one or more values, or a plain list. *)
Inductive value := VNum (q : Q) | VArr (floats : bool) (qs : list Q) | VList (qs : list Q).

(** _add_scalar_to_uint8_ (arithmetic.py:163-187). [np.tile(values, size // len(values))]
    repeats the values; sizes that do not match make cv2 raise (here
    [GenericException], also for the division by zero of an empty list). *)
Definition add_tiled (vs : list Z) (qs : list Q) : res (list Z) :=
  let n := length qs in
  if Nat.eqb n 0 then Err GenericException
  else if Nat.eqb (length vs mod n) 0
       then Ok (map (fun iv => sat8 (inject_Z (snd iv) + nth (fst iv mod n) qs 0%Q))
                    (combine (seq 0 (length vs)) vs))
       else Err GenericException.
(** arithmetic.py:163-187, a single value. *)
Definition add_single (vs : list Z) (q : Q) : res (list Z) :=
  Ok (map (fun v => sat8 (inject_Z v + q)) vs).
(** helper for 163-187: values of float dtype are rounded first (arithmetic.py). *)
Definition round_if (b : bool) (q : Q) : Q := if b then inject_Z (np_round q) else q.
(** arithmetic.py:163-187 [_add_scalar_to_uint8_]. *)
Definition add_scalar_uint8 (vs : list Z) (v : value) : res (list Z) :=
  match v with
  | VNum q => add_single vs (round_if true q)
  | VArr floats [q] => add_single vs (round_if floats q)
  | VArr floats qs => add_tiled vs (map (round_if floats) qs)
  | VList qs => add_tiled vs qs
  end.

(** Float dtypes of [b] bits. [arithmetic.py:214-215] *)
Definition float_of_bits (b : Z) : dtype :=
  if b =? 16 then DF 11 5 else if b =? 32 then DF 24 104 else DF 53 971.
(** arithmetic.py:214-215 [itemsize * 8]. *)
Definition bits (d : dtype) : Z :=
  match d with DU b | DI b => b | DF p _ => if p =? 11 then 16 else if p =? 24 then 32 else 64 end.
(** [np.dtype("%s%d" % (value.dtype.kind, image.dtype.itemsize * 2))] (214-215). *)
Definition target_dtype (image value : dtype) : dtype :=
  let b := 2 * bits image in
  match value with DU _ => DU b | DI _ => DI b | DF _ _ => float_of_bits b end.
(** [np.promote_types] for the pairs that occur: integer images of up to 16
    bits and a value dtype of twice the size. *)
Definition promote (a b : dtype) : dtype :=
  match a, b with
  | DU x, DU y => DU (Z.max x y)
  | DI x, DI y => DI (Z.max x y)
  | DU x, DI y | DI y, DU x => if x <? y then DI y else DI (2 * x)
  | _, DF p e => DF p e
  | DF p e, _ => DF p e
  end.
(** [np.add] in a dtype: integers wrap around, floats round. *)
Definition np_add (d : dtype) (a b : Q) : Q :=
  match d with
  | DF p _ => to_float p (a + b)
  | _ => let '(lo, hi) := range_of d in
         inject_Z (lo + (py_int (a + b) - lo) mod (hi - lo + 1))
  end.
(** One component of _add_scalar_to_non_uint8 (arithmetic.py:190-230) and, with the values
    given per component, of _add_elementwise_np_to_non_uint8 (355-397; there
    float values are rounded first for integer images). [clip_] refuses 64 bit
    integers. *)
Definition add_wide (image value : dtype) (v u : Q) : res Q :=
  let target := target_dtype image value in
  let '(lo, hi) := range_of target in
  if negb (qleb (inject_Z lo) u && qleb u (inject_Z hi)) then Err AssertionError
  else
    do u1 <- clip_ value u lo hi;
    let d := promote image target in
    do v2 <- change_dtype image d v false false;
    do u2 <- change_dtype value d u1 false false;
    change_dtype d image (np_add d v2 u2) true true.

(** add_elementwise (arithmetic.py:233-352) for uint8 images. cv2 takes values of most
    dtypes and rounds the sum; numpy (other value dtypes, more than 512
    channels, empty images) rounds the values first. [values] has one entry
    per component, after broadcasting. *)
Definition add_elementwise_uint8 (use_cv2 floats : bool) (vs : list Z) (values : list Q) : list Z :=
  map (fun p =>
         let '(v, u) := p in
         if use_cv2 then sat8 (inject_Z v + u)
         else zclip (v + zclip (np_round (round_if floats u)) (-255) 255) 0 255)
      (combine vs values).

(** multiply_scalar_ (arithmetic.py:458-586) for uint8 images: with at least 224*224*3
    components a lookup table with truncated entries, else [cv2.multiply].
    [nc] is the number of channels ([None] for (H,W) images). The small branch
    reads [multiplier.size] and so fails for Python numbers and lists
    (AttributeError, here [GenericException]). Simplification: products and the
    conversion of the multiplier to float32 are exact. *)
Definition lut_entry (v : Z) (m : Q) : Z := py_int (qclip (inject_Z v * m) 0 (inject_Z 255)).
(** arithmetic.py:458-586, the channel of a component in row-major order. *)
Definition channel_of (nc : nat) (i : nat) : nat := (i mod nc)%nat.
(** arithmetic.py:458-586 [multiply_scalar_] for uint8. *)
Definition multiply_scalar_uint8 (nc : option nat) (vs : list Z) (m : value) : res (list Z) :=
  let size := Z.of_nat (length vs) in
  let indexed := combine (seq 0 (length vs)) vs in
  if size =? 0 then Ok vs
  else if 224 * 224 * 3 <=? size then
    match m with
    | VNum q | VArr _ [q] => Ok (map (fun v => lut_entry v q) vs)
    | VArr _ qs | VList qs =>
        match nc with
        | None => Err AssertionError
        | Some n =>
            if Nat.eqb n (length qs)
            then Ok (map (fun iv => lut_entry (snd iv) (nth (channel_of n (fst iv)) qs 0%Q)) indexed)
            else Err AssertionError
        end
    end
  else
    match m with
    | VNum _ | VList _ => Err GenericException
    | VArr _ [q] => Ok (map (fun v => sat8 (inject_Z v * q)) vs)
    | VArr _ qs =>
        match nc with
        | None => Err ValueError
        | Some n =>
            if Nat.eqb n (length qs)
            then Ok (map (fun iv => sat8 (inject_Z (snd iv) * nth (channel_of n (fst iv)) qs 0%Q)) indexed)
            else Err ValueError
        end
    end.

(** multiply_elementwise_ (arithmetic.py:695-798) for uint8 images: boolean multipliers
    switch components off, others go through [cv2.multiply]. [multipliers] has
    one entry per component, after broadcasting. *)
Definition multiply_by_mask (vs : list Z) (mask : list bool) : list Z :=
  map (fun p : Z * bool => if snd p then fst p else 0) (combine vs mask).
(** arithmetic.py:695-798 [multiply_elementwise_] for uint8. *)
Definition multiply_elementwise_uint8 (vs : list Z) (multipliers : list Q) : list Z :=
  map (fun p => sat8 (inject_Z (fst p) * snd p)) (combine vs multipliers).
(** Masks of shape (H, W, 1) are broadcast along the channels (762, 782). *)
Definition broadcast {A} (nc : nat) (l : list A) : list A := flat_map (fun a => repeat a nc) l.
