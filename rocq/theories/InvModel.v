(** Model of image inversion and solarization (imgaug/augmenters/arithmetic.py
    1219-1662). The functions act on every image component separately; images
    are given by their number of components and a list of component values
    (row-major). No proofs here. *)
From Coq Require Import Qabs.
From Verif Require Import Prelude.

(** Integer and boolean dtypes; booleans have the values 0 and 1. Floats are
    treated separately below. [dtypes accepted by 1334-1401 (arithmetic.py)] *)
Inductive ity := TBool | TU (b : Z) | TI (b : Z).
(** dtypes.py:231-247 for these dtypes. *)
Definition ity_range (t : ity) : Z * Z :=
  match t with
  | TBool => (0, 1)
  | TU b => (0, 2 ^ b - 1)
  | TI b => (- 2 ^ (b - 1), 2 ^ (b - 1) - 1)
  end.
(** allow_dtypes_custom_minmax (arithmetic.py:1347-1349). *)
Definition custom_ok (t : ity) : bool :=
  match t with TU b | TI b => b <=? 32 | TBool => false end.

(** _generate_table_for_invert_uint8 (arithmetic.py:1543-1567). The slices [table[0:t]] and
    [table[t:]] count negative [t] from the end. *)
Definition identity_table : list Z := map Z.of_nat (seq 0 256).
(** arithmetic.py:1543-1567. *)
Definition invert_table (mn mx : Z) (threshold : option Q) (above : bool) : list Z :=
  let raw := if (mn =? 0) && (mx =? 255) then rev identity_table
             else map (fun v => mx - Z.abs (v - mn)) identity_table in
  let table_inv := map (fun v => zclip v mn mx) raw in
  match threshold with
  | None => table_inv
  | Some t =>
      let k := Z.to_nat (py_slice_bound 256 (py_int t)) in
      if above then firstn k identity_table ++ skipn k table_inv
      else firstn k table_inv ++ skipn k identity_table
  end.

(** _InvertTables (arithmetic.py:1571-1602): the singleton's dictionary, keys are pairs
    (threshold, invert_above_threshold) compared with Python's [==]. *)
Definition cache := list ((option Q * bool) * list Z).
(** arithmetic.py:1571-1602 comparison of keys. *)
Definition key_eqb (a b : option Q * bool) : bool :=
  match fst a, fst b with
  | None, None => eqb (snd a) (snd b)
  | Some x, Some y => qeqb x y && eqb (snd a) (snd b)
  | _, _ => false
  end.
(** arithmetic.py:1571-1602. *)
Definition lookup (c : cache) (k : option Q * bool) : option (list Z) :=
  option_map snd (find (fun e => key_eqb (fst e) k) c).
(** arithmetic.py:1571-1602. *)
Definition get_table (c : cache) (mn mx : Z) (threshold : option Q) (above : bool)
  : list Z * cache :=
  if (mn =? 0) && (mx =? 255) then
    let key := (threshold, above) in
    match lookup c key with
    | Some t => (t, c)
    | None => let t := invert_table mn mx threshold above in (t, (key, t) :: c)
    end
  else (invert_table mn mx threshold above, c).

(** _invert_uint8_ (arithmetic.py:1412-1460). [ndim] and [size] are the image's number of
    dimensions and of components; [cv2.subtract(int(max), arr)] saturates;
    apply_lut_ (property C25) replaces each value by its table entry. *)
Definition invert_uint8 (c : cache) (ndim size : Z) (vs : list Z) (mn mx : Z)
           (threshold : option Q) (above : bool) : list Z * cache :=
  let valid_for_cv2 :=
    match threshold with None => (mn =? 0) && (2 <=? ndim) && negb (size =? 4) | Some _ => false end in
  if valid_for_cv2 then (map (fun v => zclip (mx - v) 0 255) vs, c)
  else
    let '(table, c') := get_table c mn mx threshold above in
    (map (fun v => nth (Z.to_nat v) table 0) vs, c').

(** _invert_by_distance for integers (arithmetic.py:1525-1539); the computation runs in
    twice the itemsize for signed dtypes, where nothing overflows, and in the
    dtype itself for unsigned dtypes, where [clip] keeps it in range. *)
Definition invert_by_distance (v mn mx : Z) : Z := mx - Z.abs (zclip v mn mx - mn).

(** _invert_bool, _invert_uint16_or_larger_, _invert_int_ (arithmetic.py:1404-1408,
    1464-1513). *)
Definition invert_component (t : ity) (v mn mx : Z) : Z :=
  match t with
  | TBool => 1 - v
  | TU b => if (mn =? 0) && (mx =? 2 ^ b - 1) then mx - v else invert_by_distance v mn mx
  | TI _ => if mn =? (-1) * mx - 1 then (if v =? mn then mx else (-1) * v - 1)
            else invert_by_distance v mn mx
  end.

(** invert_ (arithmetic.py:1334-1401) for integer and boolean images. Building the message
    of the assertion in 1374-1377 joins dtypes as if they were strings, which
    raises TypeError. *)
Definition invert (c : cache) (t : ity) (ndim : Z) (vs : list Z) (omin omax : option Z)
           (threshold : option Q) (above : bool) : res (list Z) * cache :=
  let size := Z.of_nat (length vs) in
  if size =? 0 then (Ok vs, c)
  else
    let '(dmin, dmax) := ity_range t in
    let mn := match omin with Some m => m | None => dmin end in
    let mx := match omax with Some m => m | None => dmax end in
    if negb (dmin <=? mn) then (Err AssertionError, c)
    else if negb (mx <=? dmax) then (Err AssertionError, c)
    else if negb (mn <? mx) then (Err AssertionError, c)
    else if (negb (mn =? dmin) || negb (mx =? dmax)) && negb (custom_ok t) then (Err TypeError_, c)
    else
      let is_uint8 := match t with TU 8 => true | _ => false end in
      if is_uint8 then
        let '(r, c') := invert_uint8 c ndim size vs mn mx threshold above in (Ok r, c')
      else
        let inv v := invert_component t v mn mx in
        (Ok (match threshold with
             | None => map inv vs
             | Some th =>
                 map (fun v => if (if above then qleb th (inject_Z v) else qltb (inject_Z v) th)
                               then inv v else v) vs
             end), c).

(** solarize_ (arithmetic.py:1631-1662), default threshold 128. *)
Definition solarize (c : cache) (t : ity) (ndim : Z) (vs : list Z) (threshold : Q)
  : res (list Z) * cache := invert c t ndim vs None None (Some threshold) true.

(** The float branch (arithmetic.py:1379-1401, 1516-1539) for a float dtype with largest
    value [fmax]. Simplification: exact rational arithmetic, no rounding;
    [np.isclose] with rtol 0 and its default atol 1e-8. float64 and float128
    refuse custom bounds ([custom]). *)
Definition invert_float_component (v mn mx : Q) : Q :=
  if qleb (Qabs (mx - (-(1)) * mn)) (1 # 100000000) then - v
  else qclip (mx - Qabs (qclip v mn mx - mn)) mn mx.
(** arithmetic.py:1379-1401, 1516-1539. *)
Definition invert_float (fmax : Q) (custom : bool) (vs : list Q) (omin omax : option Q)
           (threshold : option Q) (above : bool) : res (list Q) :=
  match vs with
  | [] => Ok vs
  | _ =>
    let mn := match omin with Some m => m | None => - fmax end%Q in
    let mx := match omax with Some m => m | None => fmax end in
    if negb (qleb (- fmax) mn) then Err AssertionError
    else if negb (qleb mx fmax) then Err AssertionError
    else if negb (qltb mn mx) then Err AssertionError
    else if (negb (qeqb mn (- fmax)) || negb (qeqb mx fmax)) && negb custom then Err TypeError_
    else
      let inv v := invert_float_component v mn mx in
      Ok (match threshold with
          | None => map inv vs
          | Some th =>
              map (fun v => if (if above then qleb th v else qltb v th) then inv v else v) vs
          end)
  end.
