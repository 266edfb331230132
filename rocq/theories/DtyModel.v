(** Model of dtype conversion (imgaug/dtypes.py 72-139, 231-291), one array
    element at a time: the functions act elementwise. No proofs here. *)
From Verif Require Import Prelude.

(** numpy dtypes: unsigned and signed integers of [b] bits, floats with [p]
    mantissa bits and largest value (2^p - 1) 2^e. float16 is [DF 11 5],
    float32 [DF 24 104], float64 [DF 53 971]. Booleans are not modelled. *)
Inductive dtype := DU (b : Z) | DI (b : Z) | DF (p e : Z).
(** comparison of dtypes as in 72-139 (dtypes.py). *)
Definition dtype_eqb (a b : dtype) : bool :=
  match a, b with
  | DU x, DU y | DI x, DI y => x =? y
  | DF p e, DF p' e' => (p =? p') && (e =? e')
  | _, _ => false
  end.
(** kind "f" as in 231-247 (dtypes.py). *)
Definition is_float (d : dtype) : bool := match d with DF _ _ => true | _ => false end.

(** get_value_range_of_dtype (dtypes.py 231-247), minimum and maximum. *)
Definition range_of (d : dtype) : Z * Z :=
  match d with
  | DU b => (0, 2 ^ b - 1)
  | DI b => (- 2 ^ (b - 1), 2 ^ (b - 1) - 1)
  | DF p e => (- ((2 ^ p - 1) * 2 ^ e), (2 ^ p - 1) * 2 ^ e)
  end.

(** A rational as the nearest float with [p] mantissa bits, ties to even.
    Simplification: the exponent is unbounded below (no subnormals). [helper for the rounding to floats (dtypes.py)] *)
Definition pow2 (e : Z) : Q := Qpower (inject_Z 2) e.
(** helper for the rounding to floats (dtypes.py). *)
Definition exponent (q : Q) : Z :=
  let e := Z.log2 (Z.abs (Qnum q)) - Z.log2 (Z.pos (Qden q)) in
  if qleb (pow2 e) (if qleb 0 q then q else - q) then e else e - 1.
(** external: numpy's rounding to a float dtype (dtypes.py). *)
Definition to_float (p : Z) (q : Q) : Q :=
  if qeqb q 0 then 0%Q
  else let s := (p - 1 - exponent q)%Z in (inject_Z (np_round (q * pow2 s)) * pow2 (- s))%Q.

(** Python int or float as a bound of np.clip on an array of dtype [src]:
    numpy converts the bound to the dtype of the array. *)
Definition bound_in (src : dtype) (z : Z) : Q :=
  match src with DF p _ => to_float p (inject_Z z) | _ => inject_Z z end.

(** The dtypes refused by clip_ (dtypes.py:256-261). *)
Definition gated (d : dtype) : bool :=
  match d with DU 64 | DI 64 => true | _ => false end.

(** clip_ (dtypes.py:251-291): bounds outside the value range of the array's dtype are
    dropped. *)
Definition clip_ (src : dtype) (v : Q) (lo hi : Z) : res Q :=
  if gated src then Err ValueError
  else
    let '(slo, shi) := range_of src in
    let v1 := if lo <? slo then v else qmax v (bound_in src lo) in
    let v2 := if shi <? hi then v1 else qmin v1 (bound_in src hi) in
    Ok v2.

(** [arr.astype(dtype)]. Integers wrap around; floats to integers truncate
    and are undefined outside of the target range ([GenericException] stands
    for the undefined value; numpy does not raise). *)
Definition astype (src dst : dtype) (v : Q) : res Q :=
  match dst with
  | DF p _ => Ok (to_float p v)
  | _ =>
      let '(lo, hi) := range_of dst in
      let z := py_int v in
      if (lo <=? z) && (z <=? hi) then Ok (inject_Z z)
      else if is_float src then Err GenericException
      else Ok (inject_Z (lo + (z - lo) mod (hi - lo + 1)))
  end.

(** change_dtype_ (dtypes.py:72-88). *)
Definition change_dtype (src dst : dtype) (v : Q) (clip round : bool) : res Q :=
  if dtype_eqb src dst then Ok v
  else
    let v1 := if round && is_float src && negb (is_float dst) then inject_Z (np_round v) else v in
    do v2 <- (if clip then clip_ src v1 (fst (range_of dst)) (snd (range_of dst)) else Ok v1);
    astype src dst v2.

(** change_dtypes_ for an array with a single dtype (dtypes.py:91-115) and
    restore_dtypes_ (141-143). *)
Definition restore_dtypes (src dst : dtype) (vs : list Q) : res (list Q) :=
  mapM (fun v => change_dtype src dst v true true) vs.
