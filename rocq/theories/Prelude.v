(** Shared vocabulary of the model: exceptions as values, rational
    comparisons, numpy/Python rounding, Python slicing, and arrays.
    No proofs here (see PreludeFacts.v). *)
From Coq Require Export List ZArith QArith Qround Bool.
Export ListNotations.
Global Open Scope Z_scope.

(** Python exceptions as values. *)
Inductive exn :=
| AssertionError | ValueError | TypeError_ | IndexError | KeyError_
| GenericException.

Inductive res (A : Type) :=
| Ok (a : A)
| Err (e : exn).
Arguments Ok {A} a.
Arguments Err {A} e.

Definition bind {A B} (m : res A) (f : A -> res B) : res B :=
  match m with Ok a => f a | Err e => Err e end.
Notation "'do' x <- m ; k" := (bind m (fun x => k))
  (at level 200, x pattern, right associativity).

(** Evaluate a list of computations left to right, stop at the first error. *)
Fixpoint sequence {A} (l : list (res A)) : res (list A) :=
  match l with
  | [] => Ok []
  | m :: ms => do x <- m; do xs <- sequence ms; Ok (x :: xs)
  end.
Definition mapM {A B} (f : A -> res B) (l : list A) : res (list B) :=
  sequence (map f l).

(** Comparisons on rationals as booleans ([<=], [<], [==] of Python). *)
Definition qleb (a b : Q) : bool := Qle_bool a b.
Definition qltb (a b : Q) : bool := negb (Qle_bool b a).
Definition qeqb (a b : Q) : bool := Qeq_bool a b.
(** Python's [max]/[min] of two numbers. *)
Definition qmax (a b : Q) : Q := if qltb a b then b else a.
Definition qmin (a b : Q) : Q := if qltb b a then b else a.
(** [np.clip(v, lo, hi)] = [minimum(maximum(v, lo), hi)]. *)
Definition qclip (v lo hi : Q) : Q := qmin (qmax v lo) hi.
Definition zclip (v lo hi : Z) : Z := Z.min (Z.max v lo) hi.

(** [np.round]: round half to even. *)
Definition np_round (q : Q) : Z :=
  let f := Qfloor q in
  let d := (q - inject_Z f)%Q in
  if qltb d (1#2) then f
  else if qltb (1#2) d then f + 1
  else if Z.even f then f else f + 1.

(** [int(q)]: truncation towards zero. *)
Definition py_int (q : Q) : Z :=
  if qleb 0 q then Qfloor q else Qceiling q.

(** [np.finfo(np.float32).eps]. *)
Definition f32_eps : Q := 1 # 8388608.

(** Python's treatment of one end of a slice of step 1 over an axis of
    length [n]: negative values count from the end, then clip to [0, n]. *)
Definition py_slice_bound (n i : Z) : Z :=
  if i <? 0 then Z.max 0 (i + n) else Z.min i n.

(** A (H, W) array view: shape and pixel lookup. The pixel type [A] is a
    parameter (e.g. a list of channel values for (H, W, C) arrays). Only
    indices [0 <= y < ah], [0 <= x < aw] are meaningful; every statement
    about arrays is restricted to them. *)
Record arr (A : Type) := mkArr {
  ah : Z;
  aw : Z;
  apx : Z -> Z -> A
}.
Arguments mkArr {A} ah aw apx.
Arguments ah {A} a.
Arguments aw {A} a.
Arguments apx {A} a y x.

(** [a[y1:y2, x1:x2, ...]]. *)
Definition slice2 {A} (a : arr A) (y1 y2 x1 x2 : Z) : arr A :=
  let ys := py_slice_bound (ah a) y1 in
  let ye := py_slice_bound (ah a) y2 in
  let xs := py_slice_bound (aw a) x1 in
  let xe := py_slice_bound (aw a) x2 in
  mkArr (Z.max 0 (ye - ys)) (Z.max 0 (xe - xs))
        (fun y x => apx a (ys + y) (xs + x)).

(** Two arrays have the same shape and the same pixels. *)
Definition arr_eq {A} (a b : arr A) : Prop :=
  ah a = ah b /\ aw a = aw b /\
  forall y x, 0 <= y < ah a -> 0 <= x < aw a -> apx a y x = apx b y x.

Definition wf_arr {A} (a : arr A) : Prop := 0 <= ah a /\ 0 <= aw a.
