(** Model of imgaug/parameters.py: stochastic parameters. No proofs here.

    Simplifications: samples are exact rationals, stored as flat lists in C
    order together with their kind of dtype; int32 overflow in arithmetic and
    float rounding are not modelled; parameters of strings are not modelled
    except for the aggregation methods. The automatic prefetching of samples is
    modelled elsewhere (AugModel). *)
From Coq Require Import Qabs.
From Verif Require Import Prelude.
Local Open Scope Q_scope.

(** The dtype of samples: int32 (or another integer dtype), float32, float64. *)
Inductive kind := KInt | KF32 | KF64.
(** parameters.py:2061-2186 [dtype.kind in ["i", "u", "b"]]. *)
Definition int_kind (k : kind) : bool := match k with KInt => true | _ => false end.

(** DeterministicList objects may be shared between parameters and hand out
    views of their values, so their values live in a heap. [parameters.py:1008-1072] *)
Definition loc := nat.
(** parameters.py:1008-1072 [self.values]. *)
Definition heap := loc -> list Q.
(** Writing into the first [length vs] values of an array through a view. [parameters.py:2096-2125, 2335, 2774-2795, writing to the drawn samples] *)
Definition write (h : heap) (view : option loc) (vs : list Q) : heap :=
  match view with
  | None => h
  | Some l => fun l' => if Nat.eqb l' l then vs ++ skipn (length vs) (h l) else h l'
  end.

(** parameters.py:2189-2512 the classes Multiply, Divide, Add, Subtract. *)
Inductive arith := OMultiply | ODivide | OAdd | OSubtract.
(** parameters.py:2703-2760. *)
Inductive sign_mode := SInvert | SReroll.
(** parameters.py:2895-2990. *)
Inductive aggregation := AMin | AMax | AAvg.

(** The classes of parameters. The flag of PDet and PChoice: the values are
    ints. [parameters.py:953-3060, lines per constructor] *)
Inductive sparam :=
| PDet (v : Q) (k : kind)                                      (* 953-1004 *)
| PList (l : loc) (k : kind)                                   (* 1008-1072 *)
| PChoice (a : list Q) (k : kind)                              (* 1075-1191, numbers, replace=True *)
| PBinomial (p : sparam)                                       (* 1194-1247 *)
| PDiscreteUniform (a b : sparam)                              (* 1250-1314 *)
| PUniform (a b : sparam)                                      (* 1717-1780 *)
| PPoisson (lam : sparam)                                      (* 1317-1374 *)
| PNormal (mu scale : sparam)                                  (* 1377-1438 *)
| PBeta (alpha beta : sparam) (epsilon : Q)                    (* 1783-1846 *)
| PClip (p : sparam) (lo hi : option (Q * kind))               (* 2061-2125 *)
| PDiscretize (p : sparam) (round : bool)                      (* 2128-2186 *)
| PArith (op : arith) (p val : sparam) (elementwise : bool)    (* 2189-2512 *)
| PAbsolute (p : sparam)                                       (* 2605-2637 *)
| PRandomSign (p : sparam) (p_positive : Q)                    (* 2640-2700 *)
| PForceSign (p : sparam) (positive : bool) (mode : sign_mode) (reroll_count_max : nat) (* 2703-2805 *)
| PAggregate (p iterations : sparam) (methods : list aggregation). (* 2895-3060 *)

(** External: the methods of RNG, for an abstract state of the generator. *)
Record rng_ops (R : Type) := mkRng {
  rng_uniform : R -> Q -> Q -> nat -> list Q * R;
  rng_integers : R -> Z -> Z -> nat -> list Z * R;
  rng_indices : R -> nat -> nat -> list nat * R;     (* choice(): indices below the first number *)
  rng_binomial : R -> Q -> nat -> list Z * R;        (* binomial(1, p) *)
  rng_poisson : R -> Q -> nat -> list Z * R;
  rng_normal : R -> Q -> Q -> nat -> list Q * R;
  rng_beta : R -> Q -> Q -> nat -> list Q * R;
  rng_advance : R -> R }.

(** [np.prod(size)] in 1055, 1120 and others (parameters.py). *)
Definition prod (size : list nat) : nat := fold_right Nat.mul 1%nat size.

(** External: [astype] of a float to an integer dtype of [bits] bits; numbers
    outside of the range wrap around (behaviour of x86; C leaves it undefined). *)
Definition wrap_int (bits z : Z) : Z := ((z + 2 ^ (bits - 1)) mod 2 ^ bits - 2 ^ (bits - 1))%Z.

(** External: numpy's result dtypes of an arithmetic operation between an array
    of kind [a] and an array (elementwise) or scalar of kind [b]. *)
Definition arith_kind (elementwise : bool) (a b : kind) : kind :=
  match a, b with
  | KInt, KInt => KInt
  | KF32, KF32 => KF32
  | KF32, KInt | KF32, KF64 => if elementwise then KF64 else KF32
  | _, _ => KF64
  end.
(** parameters.py:480-483 [force_np_float_dtype]. *)
Definition force_float (k : kind) : kind := match k with KInt => KF64 | _ => k end.

(** the arrays returned by the methods [_draw_samples] (parameters.py). *)
Record drawn := mkDrawn { d_vals : list Q; d_kind : kind; d_view : option loc }.

(** The values of an array at a later time: a view shows what was written to the
    list in the meantime. [parameters.py:2189-2512, 3032-3047: arrays that are used after another draw] *)
Definition current (h : heap) (d : drawn) : list Q :=
  match d_view d with
  | None => d_vals d
  | Some l => firstn (length (d_vals d)) (h l)
  end.

(** Rows of the first axis (blocks of [n] components) that contain a component
    with the property [bad]: np.where(...)[0]. *)
Definition bad_row (bad : Q -> bool) (n : nat) (vs : list Q) (row : nat) : bool :=
  existsb bad (firstn n (skipn (row * n) vs)).
(** [samples[bad_samples] = f(...)[bad_samples]]: the components of the bad
    rows are replaced by those of [new]. [parameters.py:2774-2795] *)
Definition replace_rows (bad : Q -> bool) (n : nat) (vs new : list Q) : list Q :=
  map (fun i => if bad_row bad n vs (i / n) then nth i new 0 else nth i vs 0) (seq 0 (length vs)).

(** numpy's clip with optional bounds: first the lower, then the upper one. *)
Definition clip_opt (lo hi : option (Q * kind)) (v : Q) : Q :=
  let v := match lo with Some (l, _) => qmax v l | None => v end in
  match hi with Some (u, _) => qmin v u | None => v end.
(** np.clip(samples, lo, hi, out=samples): the result must be castable to the
    dtype of the samples; float bounds on integers are not. *)
Definition clip_castable (k : kind) (lo hi : option (Q * kind)) : bool :=
  let bad b := match b with Some (_, kb) => int_kind k && negb (int_kind kb) | None => false end in
  negb (bad lo) && negb (bad hi).

(** parameters.py:2241-2260, 2322-2330. *)
Definition is_det (p : sparam) : bool := match p with PDet _ _ => true | _ => false end.

Section Drawing.
  Context {R : Type} (g : rng_ops R).
  (** parameters.py:587-615. *)
  Definition outcome := res (drawn * heap * R).

  (** parameters.py:587-615 [draw_samples]: [_draw_samples], then advance_(). *)
  Definition advanced (x : outcome) : outcome :=
    do y <- x; let '(d, h, r) := y in Ok (d, h, rng_advance R g r).
  (** parameters.py:567-585 [draw_sample]: one number, not a view. *)
  Definition one (x : outcome) : res (Q * kind * heap * R) :=
    do y <- advanced x; let '(d, h, r) := y in Ok (nth 0 (d_vals d) 0, d_kind d, h, r).

  (** parameters.py:2189-2512. *)
  Definition arith_op (op : arith) (x y : Q) : Q :=
    match op with
    | OMultiply => x * y
    | ODivide => x / (if qeqb y 0 then 1 else y)
    | OAdd => x + y
    | OSubtract => x - y
    end.
  (** parameters.py:2189-2512, 480-483. *)
  Definition result_kind (op : arith) (elementwise : bool) (a b : kind) : kind :=
    match op with
    | ODivide => if elementwise then arith_kind true (force_float a) (force_float b) else force_float a
    | _ => arith_kind elementwise a b
    end.

  (** parameters.py:2774-2795: the loop of ForceSign in mode "reroll";
      [redraw] draws new samples, [n] is the number of components per row. *)
  Fixpoint reroll (redraw : heap -> R -> outcome) (bad : Q -> bool) (n : nat) (count : nat)
    (d : drawn) (h : heap) (r : R) : outcome :=
    if existsb bad (d_vals d) then
      match count with
      | O =>
          let vs := replace_rows bad n (d_vals d) (map Qopp (d_vals d)) in
          Ok (mkDrawn vs (d_kind d) (d_view d), write h (d_view d) vs, r)
      | S count' =>
          do y <- redraw h r;
          let '(d2, h, r) := y in
          (* casts between draws of different dtypes are not modelled *)
          if negb (Bool.eqb (int_kind (d_kind d)) (int_kind (d_kind d2))) then Err GenericException else
          let vs := replace_rows bad n (current h d) (d_vals d2) in
          reroll redraw bad n count' (mkDrawn vs (d_kind d) (d_view d)) (write h (d_view d) vs) r
      end
    else Ok (d, h, r).

  (** parameters.py:3032-3047: the loop of IterativeNoiseAggregator, after some
      iterations with the current result. *)
  Fixpoint aggregate (redraw : heap -> R -> outcome) (m : aggregation) (first : bool) (count : nat)
    (acc : drawn) (h : heap) (r : R) : outcome :=
    match count with
    | O => Ok (acc, h, r)
    | S count' =>
        do y <- redraw h r;
        let '(d, h, r) := y in
        let combined :=
          match m with
          | AAvg => mkDrawn (map (fun p => fst p + snd p) (combine (current h acc) (d_vals d))) KF32 None
          | AMin => if first then d
                    else mkDrawn (map (fun p => qmin (fst p) (snd p)) (combine (current h acc) (d_vals d)))
                           (arith_kind true (d_kind acc) (d_kind d)) None
          | AMax => if first then d
                    else mkDrawn (map (fun p => qmax (fst p) (snd p)) (combine (current h acc) (d_vals d)))
                           (arith_kind true (d_kind acc) (d_kind d)) None
          end in
        aggregate redraw m false count' combined h r
    end.

  (** The methods [_draw_samples] of the classes (lines see [sparam]). [parameters.py:953-3060, lines per constructor of [sparam]] *)
  Fixpoint draw (p : sparam) (size : list nat) (h : heap) (r : R) {struct p} : outcome :=
    let n := prod size in
    match p with
    | PDet v k => Ok (mkDrawn (repeat v n) k None, h, r)
    | PList l k =>
        let values := h l in
        if Nat.ltb (length values) n
        then
          let multiplier := Z.to_nat (Qceiling (inject_Z (Z.of_nat n) / inject_Z (Z.of_nat (length values)))) in
          Ok (mkDrawn (firstn n (concat (repeat values multiplier))) k None, h, r)
        else Ok (mkDrawn (firstn n values) k (Some l), h, r)
    | PChoice a k =>
        if Nat.eqb (length a) 0 then Err ValueError
        else
          let '(is, r) := rng_indices R g r (length a) n in
          Ok (mkDrawn (map (fun i => nth i a 0) is) k None, h, r)
    | PBinomial p =>
        do y <- one (draw p [1%nat] h r);
        let '(p', _, h, r) := y in
        if qleb 0 p' && qleb p' 1
        then let '(zs, r) := rng_binomial R g r p' n in Ok (mkDrawn (map inject_Z zs) KInt None, h, r)
        else Err AssertionError
    | PDiscreteUniform a b =>
        do y <- one (draw a [1%nat] h r);
        let '(a', ka, h, r) := y in
        do y <- one (draw b [1%nat] h r);
        let '(b', kb, h, r) := y in
        (* float bounds are not modelled *)
        if negb (int_kind ka && int_kind kb) then Err GenericException
        else if qeqb a' b' then Ok (mkDrawn (repeat (inject_Z (py_int a')) n) KInt None, h, r)
        else
          let '(a', b') := if qltb b' a' then (b', a') else (a', b') in
          let '(zs, r) := rng_integers R g r (py_int a') (py_int b' + 1) n in
          Ok (mkDrawn (map inject_Z zs) KInt None, h, r)
    | PUniform a b =>
        do y <- one (draw a [1%nat] h r);
        let '(a', _, h, r) := y in
        do y <- one (draw b [1%nat] h r);
        let '(b', _, h, r) := y in
        if qeqb a' b' then Ok (mkDrawn (repeat a' n) KF32 None, h, r)
        else
          let '(a', b') := if qltb b' a' then (b', a') else (a', b') in
          let '(xs, r) := rng_uniform R g r a' b' n in
          Ok (mkDrawn xs KF32 None, h, r)
    | PPoisson lam =>
        do y <- one (draw lam [1%nat] h r);
        let '(l, _, h, r) := y in
        let '(zs, r) := rng_poisson R g r (qmax l 0) n in
        Ok (mkDrawn (map inject_Z zs) KInt None, h, r)
    | PNormal mu scale =>
        do y <- one (draw mu [1%nat] h r);
        let '(m, _, h, r) := y in
        do y <- one (draw scale [1%nat] h r);
        let '(s, _, h, r) := y in
        if negb (qleb 0 s) then Err AssertionError
        else if qeqb s 0 then Ok (mkDrawn (repeat m n) KF32 None, h, r)
        else let '(xs, r) := rng_normal R g r m s n in Ok (mkDrawn xs KF32 None, h, r)
    | PBeta alpha beta epsilon =>
        do y <- one (draw alpha [1%nat] h r);
        let '(a, _, h, r) := y in
        do y <- one (draw beta [1%nat] h r);
        let '(b, _, h, r) := y in
        let '(xs, r) := rng_beta R g r (qmax a epsilon) (qmax b epsilon) n in
        Ok (mkDrawn xs KF32 None, h, r)
    | PClip p lo hi =>
        do y <- advanced (draw p size h r);
        let '(d, h, r) := y in
        match lo, hi with
        | None, None => Ok (d, h, r)
        | _, _ =>
            if clip_castable (d_kind d) lo hi
            then
              let vs := map (clip_opt lo hi) (d_vals d) in
              Ok (mkDrawn vs (d_kind d) (d_view d), write h (d_view d) vs, r)
            else Err TypeError_
        end
    | PDiscretize p round =>
        do y <- advanced (draw p size h r);
        let '(d, h, r) := y in
        match d_kind d with
        | KInt => Ok (d, h, r)
        | k =>
            let bits := (match k with KF32 => 16 | _ => 32 end)%Z in
            let conv := fun v => wrap_int bits (if round then np_round v else py_int v) in
            Ok (mkDrawn (map (fun v => inject_Z (conv v)) (d_vals d)) KInt None, h, r)
        end
    | PArith op p val elementwise =>
        do y <- advanced (draw p size h r);
        let '(d, h, r) := y in
        if elementwise && negb (is_det val)
        then
          do y <- advanced (draw val size h r);
          let '(dv, h, r) := y in
          (* 2335: val_samples[val_samples == 0] = 1, in-place *)
          let h := match op with
                   | ODivide => write h (d_view dv) (map (fun v => if qeqb v 0 then 1 else v) (d_vals dv))
                   | _ => h
                   end in
          Ok (mkDrawn (map (fun q => arith_op op (fst q) (snd q)) (combine (current h d) (d_vals dv)))
                (result_kind op true (d_kind d) (d_kind dv)) None, h, r)
        else
          do y <- one (draw val [1%nat] h r);
          let '(v, kv, h, r) := y in
          Ok (mkDrawn (map (fun x => arith_op op x v) (current h d)) (result_kind op false (d_kind d) kv) None, h, r)
    | PAbsolute p =>
        do y <- advanced (draw p size h r);
        let '(d, h, r) := y in
        Ok (mkDrawn (map Qabs (d_vals d)) (d_kind d) None, h, r)
    | PRandomSign p p_positive =>
        do y <- advanced (draw p size h r);
        let '(d, h, r) := y in
        let '(coinflips, r) := rng_binomial R g r p_positive n in
        Ok (mkDrawn (map (fun q => Qabs (fst q) * inject_Z (snd q * 2 - 1)) (combine (d_vals d) coinflips))
              (d_kind d) None, h, r)
    | PForceSign p positive mode reroll_count_max =>
        do y <- advanced (draw p size h r);
        let '(d, h, r) := y in
        let bad := fun v => if positive then qltb v 0 else qltb 0 v in
        match mode with
        | SInvert =>
            let vs := map (fun v => if bad v then - v else v) (d_vals d) in
            Ok (mkDrawn vs (d_kind d) (d_view d), write h (d_view d) vs, r)
        | SReroll =>
            reroll (fun h r => advanced (draw p size h r)) bad (prod (tl size)) reroll_count_max d h r
        end
    | PAggregate p iterations methods =>
        if Nat.eqb (length methods) 0 then Err ValueError
        else
          let '(ms, r) := rng_indices R g r (length methods) 1 in
          let m := nth (nth 0 ms 0%nat) methods AMax in
          do y <- one (draw iterations [1%nat] h (rng_advance R g r));
          let '(count, kc, h, r) := y in
          if negb (qltb 0 count) then Err AssertionError
          else if negb (int_kind kc) then Err TypeError_
          else
            do y <- aggregate (fun h r => advanced (draw p size h r)) m true (Z.to_nat (py_int count))
                      (mkDrawn (repeat 0 n) KF32 None) h r;
            let '(d, h, r) := y in
            match m with
            | AAvg => Ok (mkDrawn (map (fun v => v / count) (d_vals d)) KF32 None, h, r)
            | _ => Ok (d, h, r)
            end
    end.

  (** parameters.py:587-615. *)
  Definition draw_samples (p : sparam) (size : list nat) (h : heap) (r : R) : outcome := advanced (draw p size h r).
End Drawing.

(** ** Parsing of arguments *)

(** A Python number or something else. *)
Inductive pyval := VInt (z : Z) | VFloat (q : Q) | VBool (b : bool) | VOther.
(** An argument: a single value, a tuple, another iterable or a stochastic
    parameter. Iterators that can be consumed only once are not modelled. [parameters.py:222-477] *)
Inductive pyarg := AOne (v : pyval) | ATuple (vs : list pyval) | AList (vs : list pyval) | AParam (p : sparam).

(** imgaug.py:246-298 [is_single_integer], [is_single_float], [is_single_number]. *)
Definition is_single_integer (v : pyval) : bool := match v with VInt _ => true | _ => false end.
(** imgaug.py:264-280. *)
Definition is_single_float (v : pyval) : bool := match v with VFloat _ => true | _ => false end.
(** imgaug.py:282-298. *)
Definition is_single_number (v : pyval) : bool := is_single_integer v || is_single_float v.
(** conversion of a Python number (parameters.py). *)
Definition num (v : pyval) : Q := match v with VInt z => inject_Z z | VFloat q => q | _ => 0 end.
(** parameters.py:264-320 [int(param)]. *)
Definition int_of (v : pyval) : Z := match v with VInt z => z | VFloat q => py_int q | _ => 0%Z end.
Definition kind_of (v : pyval) : kind := match v with VInt _ => KInt | _ => KF32 end.
(** External: np.array of numbers: ints unless there is a float. *)
Definition list_kind (vs : list pyval) : kind := if forallb is_single_integer vs then KInt else KF32.

(** The argument [value_range]; callables that return or raise are predicates. [parameters.py:181-217] *)
Inductive value_range := RNone | RTuple (lo hi : option Q) | RCallable (f : Q -> res unit).

(** parameters.py:181-217 [_check_value_range]. *)
Definition check_value_range (v : Q) (rg : value_range) : res unit :=
  match rg with
  | RNone => Ok tt
  | RTuple None None => Ok tt
  | RTuple None (Some hi) => if qleb v hi then Ok tt else Err AssertionError
  | RTuple (Some lo) None => if qleb lo v then Ok tt else Err AssertionError
  | RTuple (Some lo) (Some hi) => if qleb lo v && qleb v hi then Ok tt else Err AssertionError
  | RCallable f => f v
  end.
(** parameters.py:181-217 applied to every element (250-254, 305-310). *)
Fixpoint check_all (vs : list pyval) (rg : value_range) : res unit :=
  match vs with
  | [] => Ok tt
  | v :: vs => do _ <- check_value_range (num v) rg; check_all vs rg
  end.
(** parameters.py:222-261 [Deterministic(param)], 970-990. *)
Definition det (v : pyval) : sparam := PDet (num v) (kind_of v).
(** parameters.py:264-320 [Deterministic(int(param))]. *)
Definition det_int (v : pyval) : sparam := PDet (inject_Z (int_of v)) KInt.

(** parameters.py:222-261 [handle_continuous_param]; prefetching excluded. *)
Definition handle_continuous_param (param : pyarg) (rg : value_range) (tuple_to_uniform list_to_choice : bool) : res sparam :=
  match param with
  | AOne v =>
      if is_single_number v then do _ <- check_value_range (num v) rg; Ok (det v) else Err GenericException
  | ATuple vs =>
      if tuple_to_uniform then
        match vs with
        | [a; b] =>
            if forallb is_single_number vs then
              do _ <- check_value_range (num a) rg;
              do _ <- check_value_range (num b) rg;
              Ok (PUniform (det a) (det b))
            else Err AssertionError
        | _ => Err AssertionError
        end
      else Err GenericException
  | AList vs =>
      if list_to_choice then
        if forallb is_single_number vs then
          do _ <- check_all vs rg; Ok (PChoice (map num vs) (list_kind vs))
        else Err AssertionError
      else Err GenericException
  | AParam p => Ok p
  end.

(** parameters.py:264-320 [handle_discrete_param]; prefetching excluded. *)
Definition valid_number (allow_floats : bool) (v : pyval) : bool :=
  if allow_floats then is_single_number v else is_single_integer v.
(** parameters.py:264-320. *)
Definition handle_discrete_param (param : pyarg) (rg : value_range) (tuple_to_uniform list_to_choice allow_floats : bool)
  : res sparam :=
  match param with
  | AOne v =>
      if is_single_integer v || (allow_floats && is_single_float v)
      then do _ <- check_value_range (num v) rg; Ok (det_int v) else Err GenericException
  | ATuple vs =>
      if tuple_to_uniform then
        match vs with
        | [a; b] =>
            if forallb (valid_number allow_floats) vs then
              do _ <- check_value_range (num a) rg;
              do _ <- check_value_range (num b) rg;
              Ok (PDiscreteUniform (det_int a) (det_int b))
            else Err AssertionError
        | _ => Err AssertionError
        end
      else Err GenericException
  | AList vs =>
      if list_to_choice then
        if forallb (valid_number allow_floats) vs then
          do _ <- check_all vs rg; Ok (PChoice (map (fun v => inject_Z (int_of v)) vs) KInt)
        else Err AssertionError
      else Err GenericException
  | AParam p => Ok p
  end.

(** parameters.py:366-428 [handle_discrete_kernel_size_param]: parameters of
    the height and, if given separately, of the width. Tuples that contain
    stochastic parameters or lists are given as lists of arguments. *)
Inductive kernel_arg := KOne (a : pyarg) | KTuple (args : list pyarg).
(** parameters.py:366-428. *)
Definition arg_is (f : pyval -> bool) (a : pyarg) : bool := match a with AOne v => f v | _ => false end.
(** parameters.py:366-428. *)
Definition arg_val (a : pyarg) : pyval := match a with AOne v => v | _ => VOther end.
(** parameters.py:366-428. *)
Definition handle_kernel_size_param (param : kernel_arg) (rg : value_range) (allow_floats : bool)
  : res (sparam * option sparam) :=
  match param with
  | KOne (AOne v) =>
      if is_single_integer v || (allow_floats && is_single_float v)
      then do _ <- check_value_range (num v) rg; Ok (det_int v, None) else Err GenericException
  | KOne (AList vs) =>
      if forallb (valid_number allow_floats) vs then
        do _ <- check_all vs rg; Ok (PChoice (map (fun v => inject_Z (int_of v)) vs) KInt, None)
      else Err AssertionError
  | KOne (AParam p) => Ok (p, None)
  | KOne (ATuple _) => Err GenericException (* written as KTuple *)
  | KTuple args =>
      match args with
      | [a; b] =>
          if forallb (arg_is is_single_integer) args
             || (allow_floats && forallb (arg_is is_single_float) args) then
            do _ <- check_value_range (num (arg_val a)) rg;
            do _ <- check_value_range (num (arg_val b)) rg;
            Ok (PDiscreteUniform (det_int (arg_val a)) (det_int (arg_val b)), None)
          else
            match a, b with
            | AParam p, AParam q => Ok (p, Some q)
            | _, _ =>
                do p <- handle_discrete_param a rg true true allow_floats;
                do q <- handle_discrete_param b rg true true allow_floats;
                Ok (p, Some q)
            end
      | _ => Err AssertionError
      end
  end.

(** parameters.py:431-477 [handle_probability_param]; prefetching excluded. *)
Definition prob_eps : Q := 1 # 1000000.
(** parameters.py:431-477. *)
Definition in_unit (q : Q) : bool := qleb 0 q && qleb q 1.
(** [param in [True, False, 0, 1]] compares by value. [parameters.py:431-445] *)
Definition is_zero_or_one (v : pyval) : bool :=
  match v with
  | VBool _ => true
  | VOther => false
  | v => qeqb (num v) 0 || qeqb (num v) 1
  end.
(** parameters.py:431-477. *)
Definition handle_probability_param (param : pyarg) (tuple_to_uniform list_to_choice : bool) : res sparam :=
  match param with
  | AOne v =>
      if is_zero_or_one v
      then Ok (PDet (inject_Z (match v with VBool b => if b then 1 else 0 | v => int_of v end)%Z) KInt)
      else if is_single_number v then
        let p := num v in
        if negb (in_unit p) then Err AssertionError
        else if (qltb (0 - prob_eps) p && qltb p (0 + prob_eps)) || (qltb (1 - prob_eps) p && qltb p (1 + prob_eps))
        then Ok (PDet (inject_Z (np_round p)) KInt)
        else Ok (PBinomial (det v))
      else Err GenericException
  | ATuple vs =>
      if tuple_to_uniform then
        if negb (forallb is_single_number vs) then Err AssertionError
        else
          match vs with
          | [a; b] =>
              if in_unit (num a) && in_unit (num b) then Ok (PBinomial (PUniform (det a) (det b))) else Err AssertionError
          | _ => Err AssertionError
          end
      else if list_to_choice then
        (* tuples are iterables, too *)
        if negb (forallb is_single_number vs) then Err AssertionError
        else if forallb (fun v => in_unit (num v)) vs then Ok (PBinomial (PChoice (map num vs) (list_kind vs)))
        else Err AssertionError
      else Err GenericException
  | AList vs =>
      if list_to_choice then
        if negb (forallb is_single_number vs) then Err AssertionError
        else if forallb (fun v => in_unit (num v)) vs then Ok (PBinomial (PChoice (map num vs) (list_kind vs)))
        else Err AssertionError
      else Err GenericException
  | AParam p => Ok p
  end.

(** ** The cached distances of FrequencyNoise *)

(** parameters.py:3616-3630 [_create_distance_matrix]: squared distances. *)
Definition line (n i : Z) : Z := (if i <? n / 2 then i else if (n mod 2 =? 1) && (i =? n / 2) then n / 2 else n - 1 - i)%Z.
(** parameters.py:3616-3630. *)
Definition create_distance_matrix (h w : Z) : arr Z :=
  mkArr h w (fun y x => line h y ^ 2 + line w x ^ 2)%Z.

(** parameters.py:3594-3602, 3604-3614 [_get_distance_matrix_cached],
    [_extract_distance_matrix]: the new cache and the position of the view. *)
Definition cached_matrix (cache : arr Z) (h w : Z) : arr Z :=
  if (ah cache <? h)%Z || (aw cache <? w)%Z
  then create_distance_matrix (Z.max (ah cache) h) (Z.max (aw cache) w)
  else cache.
(** parameters.py:3604-3614. *)
Definition view_start (cache_size size : Z) : Z := ((cache_size - size) / 2)%Z.

(** parameters.py:3527-3537 [_draw_samples_hw]: the squared distances that are
    raised to the exponent, and the cache afterwards: the corners of the view
    are set to 1, which writes to the cache. *)
Definition is_corner (h w y x : Z) : bool :=
  (((y =? 0) || (y =? h - 1)) && ((x =? 0) || (x =? w - 1)))%Z.
(** parameters.py:3527-3537, 3594-3614. *)
Definition distances (cache : arr Z) (h w : Z) : arr Z * arr Z :=
  let m := cached_matrix cache h w in
  let y1 := view_start (ah m) h in
  let x1 := view_start (aw m) w in
  let written := mkArr (ah m) (aw m) (fun y x =>
    if ((y1 <=? y) && (y <? y1 + h) && (x1 <=? x) && (x <? x1 + w))%Z && is_corner h w (y - y1) (x - x1)
    then 1%Z else apx m y x) in
  (mkArr h w (fun y x => apx written (y1 + y) (x1 + x))%Z, written).
(** parameters.py:3485-3493. *)
Definition empty_cache : arr Z := mkArr 0 0 (fun _ _ => 0%Z).
(** A sequence of draws; the requested sizes are those after downscaling. [parameters.py:3495-3537, repeated calls] *)
Fixpoint draws_of_noise (cache : arr Z) (sizes : list (Z * Z)) : list (arr Z) :=
  match sizes with
  | [] => []
  | (h, w) :: sizes =>
      let '(m, cache) := distances cache h w in
      m :: draws_of_noise cache sizes
  end.
