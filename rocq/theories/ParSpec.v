(** Independent descriptions used by the theorems about stochastic parameters. *)
From Coq Require Import Qabs.
From Verif Require Import Prelude ParModel.
Local Open Scope Q_scope.

Definition between (x y v : Q) : Prop := (x <= v /\ v <= y) \/ (y <= v /\ v <= x).
Definition integral (v : Q) : Prop := exists z : Z, v == inject_Z z.
Definition forced (positive : bool) (v : Q) : Prop := if positive then 0 <= v else v <= 0.

(** What is assumed about numpy's generators: the number of samples and their
    ranges. *)
Record sane {R : Type} (g : rng_ops R) : Prop := {
  sane_uniform : forall r a b n, a < b ->
    length (fst (rng_uniform R g r a b n)) = n /\ Forall (fun v => a <= v /\ v <= b) (fst (rng_uniform R g r a b n));
  sane_integers : forall r a b n, (a < b)%Z ->
    length (fst (rng_integers R g r a b n)) = n /\ Forall (fun z => (a <= z < b)%Z) (fst (rng_integers R g r a b n));
  sane_indices : forall r m n, (0 < m)%nat ->
    length (fst (rng_indices R g r m n)) = n /\ Forall (fun i => (i < m)%nat) (fst (rng_indices R g r m n));
  sane_binomial : forall r p n, 0 <= p -> p <= 1 ->
    length (fst (rng_binomial R g r p n)) = n /\
    Forall (fun z => (z = 0%Z /\ ~ p == 1) \/ (z = 1%Z /\ ~ p == 0)) (fst (rng_binomial R g r p n));
  sane_poisson : forall r l n, 0 <= l ->
    length (fst (rng_poisson R g r l n)) = n /\ Forall (fun z => (0 <= z)%Z) (fst (rng_poisson R g r l n));
  sane_normal : forall r m s n, length (fst (rng_normal R g r m s n)) = n;
  sane_beta : forall r a b n,
    length (fst (rng_beta R g r a b n)) = n /\ Forall (fun v => 0 <= v /\ v <= 1) (fst (rng_beta R g r a b n)) }.

(** The number of bits of the integers that Discretize produces. *)
Definition discretize_bits (k : kind) : Z := match k with KF32 => 16 | _ => 32 end.
Definition fits (bits z : Z) : Prop := (- 2 ^ (bits - 1) <= z < 2 ^ (bits - 1))%Z.
(** [z] is [x] without its fraction. *)
Definition truncation (x : Q) (z : Z) : Prop :=
  (0 <= x /\ inject_Z z <= x /\ x < inject_Z z + 1) \/ (x < 0 /\ x <= inject_Z z /\ inject_Z z - 1 < x).
(** [z] is an integer nearest to [x]. *)
Definition nearest (x : Q) (z : Z) : Prop := Qabs (x - inject_Z z) <= 1 # 2.

Definition op_result (op : arith) (x y v : Q) : Prop :=
  match op with
  | OMultiply => v == x * y
  | OAdd => v == x + y
  | OSubtract => v == x - y
  | ODivide => (y == 0 /\ v == x) \/ (~ y == 0 /\ v * y == x)
  end.

(** The arrays of samples that a parameter describes: [samples_of h p size vs k]
    says that an array of the shape [size] with components [vs] and dtype [k]
    may be drawn from [p], where [h] gives the values of the deterministic
    lists. *)
Fixpoint samples_of (h : heap) (p : sparam) (size : list nat) (vs : list Q) (k : kind) {struct p} : Prop :=
  length vs = prod size /\
  match p with
  | PDet v k' => k = k' /\ Forall (Qeq v) vs
  | PList l k' => k = k' /\ forall i, (i < length vs)%nat -> nth i vs 0 == nth (i mod length (h l)) (h l) 0
  | PChoice a k' => k = k' /\ Forall (fun v => In v a) vs
  | PBinomial p =>
      k = KInt /\ exists x kx, samples_of h p [1%nat] [x] kx /\ 0 <= x <= 1 /\
        Forall (fun v => (v == 0 /\ ~ x == 1) \/ (v == 1 /\ ~ x == 0)) vs
  | PDiscreteUniform a b =>
      k = KInt /\ exists x y, samples_of h a [1%nat] [x] KInt /\ samples_of h b [1%nat] [y] KInt /\
        Forall (fun v => integral v /\ between x y v) vs
  | PUniform a b =>
      k = KF32 /\ exists x y kx ky, samples_of h a [1%nat] [x] kx /\ samples_of h b [1%nat] [y] ky /\
        Forall (between x y) vs
  | PPoisson lam => k = KInt /\ (exists x kx, samples_of h lam [1%nat] [x] kx) /\ Forall (fun v => integral v /\ 0 <= v) vs
  | PNormal mu scale =>
      k = KF32 /\ exists m s km ks, samples_of h mu [1%nat] [m] km /\ samples_of h scale [1%nat] [s] ks /\
        0 <= s /\ (s == 0 -> Forall (Qeq m) vs)
  | PBeta _ _ _ => k = KF32 /\ Forall (fun v => 0 <= v /\ v <= 1) vs
  | PClip p lo hi =>
      (k = KInt -> forall b, lo = Some b \/ hi = Some b -> snd b = KInt) /\
      exists xs, samples_of h p size xs k /\
        Forall2 (fun x v =>
          match lo, hi with
          | None, None => v == x
          | Some (l, _), None => (x <= l /\ v == l) \/ (l <= x /\ v == x)
          | None, Some (u, _) => (u <= x /\ v == u) \/ (x <= u /\ v == x)
          | Some (l, _), Some (u, _) =>
              (l <= u -> (x <= l /\ v == l) \/ (u <= x /\ v == u) \/ (l <= x /\ x <= u /\ v == x)) /\
              (u < l -> v == u)
          end) xs vs
  | PDiscretize p round =>
      k = KInt /\ exists xs kx, samples_of h p size xs kx /\
        Forall2 (fun x v =>
          match kx with
          | KInt => v == x
          | _ => exists z, v == inject_Z z /\ fits (discretize_bits kx) z /\
                   exists z', (if round then nearest x z' else truncation x z') /\
                     (fits (discretize_bits kx) z' -> z = z')
          end) xs vs
  | PArith op p val elementwise =>
      exists xs ys, length ys = length vs /\ length xs = length vs /\
        (exists kx ky, samples_of h p size xs kx /\ k = result_kind op (elementwise && negb (is_det val)) kx ky /\
           (if elementwise && negb (is_det val) then samples_of h val size ys ky
            else exists y, samples_of h val [1%nat] [y] ky /\ Forall (eq y) ys)) /\
        forall i, (i < length vs)%nat -> op_result op (nth i xs 0) (nth i ys 0) (nth i vs 0)
  | PAbsolute p => exists xs, samples_of h p size xs k /\ Forall2 (fun x v => v == Qabs x) xs vs
  | PRandomSign p p_positive =>
      exists xs, samples_of h p size xs k /\
        Forall2 (fun x v => (v == Qabs x /\ ~ p_positive == 0) \/ (v == - Qabs x /\ ~ p_positive == 1)) xs vs
  | PForceSign p positive SInvert _ =>
      exists xs, samples_of h p size xs k /\
        Forall2 (fun x v => Qabs v == Qabs x /\ forced positive v) xs vs
  | PForceSign p positive SReroll _ =>
      (length size = 1%nat -> Forall (forced positive) vs) /\
      exists draws, Forall (fun xs => exists kx, samples_of h p size xs kx /\ (k = KInt -> kx = KInt)) draws /\
        Forall (fun v => exists xs x, In xs draws /\ In x xs /\ Qabs v == Qabs x) vs
  | PAggregate p iterations methods =>
      exists m count, In m methods /\ (0 < count)%nat /\ (m = AAvg -> k = KF32) /\
        (exists c, samples_of h iterations [1%nat] [c] KInt /\ c == inject_Z (Z.of_nat count)) /\
        exists rounds, length rounds = count /\
          Forall (fun xs => exists kx, samples_of h p size xs kx /\ (k = KInt -> kx = KInt)) rounds /\
          forall i, (i < length vs)%nat ->
            let column := map (fun xs => nth i xs 0) rounds in
            let v := nth i vs 0 in
            match m with
            | AMin => (exists x, In x column /\ v == x) /\ Forall (fun x => v <= x) column
            | AMax => (exists x, In x column /\ v == x) /\ Forall (fun x => x <= v) column
            | AAvg => v * inject_Z (Z.of_nat count) == fold_right Qplus 0 column
            end
  end.

(** Parameters that may hand out the memory of a deterministic list. *)
Fixpoint hands_out_list (p : sparam) : bool :=
  match p with
  | PList _ _ => true
  | PClip p _ _ | PDiscretize p _ | PForceSign p _ _ _ | PAggregate p _ _ => hands_out_list p
  | _ => false
  end.
(** No parameter that works in-place is applied to a list. *)
Fixpoint no_inplace_on_lists (p : sparam) : Prop :=
  match p with
  | PDet _ _ | PList _ _ | PChoice _ _ => True
  | PBinomial p | PPoisson p | PDiscretize p _ | PAbsolute p | PRandomSign p _ => no_inplace_on_lists p
  | PDiscreteUniform a b | PUniform a b | PNormal a b | PBeta a b _ =>
      no_inplace_on_lists a /\ no_inplace_on_lists b
  | PClip p lo hi => no_inplace_on_lists p /\ hands_out_list p = false
  | PArith op p val ew =>
      no_inplace_on_lists p /\ no_inplace_on_lists val /\ (op = ODivide -> hands_out_list val = false)
  | PForceSign p _ _ _ => no_inplace_on_lists p /\ hands_out_list p = false
  | PAggregate p it _ => no_inplace_on_lists p /\ no_inplace_on_lists it
  end.
(** Checked by the constructors: probabilities of signs are probabilities, lists
    are not empty, and numbers of integer dtypes are integers. *)
Definition valid_bound (b : option (Q * kind)) : Prop :=
  match b with Some (v, KInt) => integral v | _ => True end.
Fixpoint valid (h : heap) (p : sparam) : Prop :=
  match p with
  | PDet v k => k = KInt -> integral v
  | PList l k => h l <> [] /\ (k = KInt -> Forall integral (h l))
  | PChoice a k => k = KInt -> Forall integral a
  | PBinomial p | PPoisson p | PDiscretize p _ | PAbsolute p | PForceSign p _ _ _ => valid h p
  | PClip p lo hi => valid h p /\ valid_bound lo /\ valid_bound hi
  | PRandomSign p pp => 0 <= pp /\ pp <= 1 /\ valid h p
  | PDiscreteUniform a b | PUniform a b | PNormal a b | PBeta a b _ | PArith _ a b _ | PAggregate a b _ =>
      valid h a /\ valid h b
  end.

(** A range of values, as in the documentation of the arguments. *)
Definition in_range (rg : value_range) (v : Q) : Prop :=
  match rg with
  | RNone => True
  | RTuple lo hi =>
      (forall l, lo = Some l -> l <= v) /\ (forall u, hi = Some u -> v <= u)
  | RCallable f => f v = Ok tt
  end.
(** Ranges given by bounds. *)
Definition bounded_range (rg : value_range) : Prop := match rg with RCallable _ => False | _ => True end.

(** A number of a documented type. *)
Definition number (v : pyval) : Prop := (exists z, v = VInt z) \/ (exists q, v = VFloat q).
Definition integer_or_number (allow_floats : bool) (v : pyval) : Prop :=
  (exists z, v = VInt z) \/ (allow_floats = true /\ exists q, v = VFloat q).
(** Documented arguments, for a notion of numbers and a range. *)
Definition accepted (is_number : pyval -> Prop) (rg : value_range) (tuple_to_uniform list_to_choice : bool) (a : pyarg) : Prop :=
  match a with
  | AOne v => is_number v /\ in_range rg (num v)
  | ATuple vs =>
      tuple_to_uniform = true /\
      exists x y, vs = [x; y] /\ is_number x /\ is_number y /\ in_range rg (num x) /\ in_range rg (num y)
  | AList vs => list_to_choice = true /\ forall v, In v vs -> is_number v /\ in_range rg (num v)
  | AParam _ => True
  end.
(** The numbers that an argument stands for. *)
Definition allows (a : pyarg) (v : Q) : Prop :=
  match a with
  | AOne w => v == num w
  | ATuple [x; y] => between (num x) (num y) v
  | ATuple _ => False
  | AList ws => exists w, In w ws /\ v == num w
  | AParam _ => True
  end.
(** The integers that an argument of a discrete parameter stands for: numbers
    lose their fractions first. *)
Definition allows_int (a : pyarg) (v : Q) : Prop :=
  exists z, v == inject_Z z /\
  match a with
  | AOne w => truncation (num w) z
  | ATuple [x; y] => exists zx zy, truncation (num x) zx /\ truncation (num y) zy /\ between (inject_Z zx) (inject_Z zy) v
  | ATuple _ => False
  | AList ws => exists w, In w ws /\ truncation (num w) z
  | AParam _ => True
  end.
Definition not_a_parameter (a : pyarg) : Prop := match a with AParam _ => False | _ => True end.
Definition integral_range (rg : value_range) : Prop :=
  match rg with
  | RNone => True
  | RTuple lo hi => (forall l, lo = Some l -> integral l) /\ (forall u, hi = Some u -> integral u)
  | RCallable _ => False
  end.

(** Documented arguments of probabilities, and the number a single value means. *)
Definition prob_value (v : pyval) : Q := match v with VBool b => if b then 1 else 0 | v => num v end.
Definition probability (v : pyval) : Prop := number v /\ 0 <= num v <= 1.
Definition accepted_probability (tuple_to_uniform list_to_choice : bool) (a : pyarg) : Prop :=
  match a with
  | AOne v => (exists b, v = VBool b) \/ probability v
  | ATuple vs =>
      (tuple_to_uniform = true /\ exists x y, vs = [x; y] /\ probability x /\ probability y) \/
      (tuple_to_uniform = false /\ list_to_choice = true /\ Forall probability vs)
  | AList vs => list_to_choice = true /\ Forall probability vs
  | AParam _ => True
  end.
(** Arguments of kernel sizes without stochastic parameters and empty lists. *)
Definition plain (a : pyarg) : Prop := not_a_parameter a /\ a <> AList [].
Definition plain_kernel (a : kernel_arg) : Prop :=
  match a with KOne a => plain a | KTuple args => Forall plain args end.

(** The distances of FrequencyNoise for a size, without any history: the
    distance to the nearer border per axis, 1 at the corners. *)
Definition fresh_distance (h w y x : Z) : Z :=
  if ((y =? 0) || (y =? h - 1)) && ((x =? 0) || (x =? w - 1)) then 1%Z
  else (Z.min y (h - 1 - y) ^ 2 + Z.min x (w - 1 - x) ^ 2)%Z.
(** Neither axis of a size is smaller than before. *)
Fixpoint growing (h0 w0 : Z) (sizes : list (Z * Z)) : Prop :=
  match sizes with
  | [] => True
  | (h, w) :: sizes => (h0 <= h)%Z /\ (w0 <= w)%Z /\ growing h w sizes
  end.

(** Parameters whose inner parameters never produce values the outer ones
    refuse: probabilities in [0, 1], integer bounds of discrete uniform
    distributions, non-negative scales, bounds of clipping that fit to the
    dtype, dtypes that do not vary between draws, positive iterations and at
    least one element to choose. *)
Fixpoint drawable (h : heap) (p : sparam) : Prop :=
  match p with
  | PDet _ _ | PList _ _ => True
  | PChoice a _ => a <> []
  | PBinomial p => drawable h p /\ forall x k, samples_of h p [1%nat] [x] k -> 0 <= x <= 1
  | PDiscreteUniform a b =>
      drawable h a /\ drawable h b /\
      forall x k, samples_of h a [1%nat] [x] k \/ samples_of h b [1%nat] [x] k -> k = KInt
  | PUniform a b | PBeta a b _ => drawable h a /\ drawable h b
  | PNormal mu scale => drawable h mu /\ drawable h scale /\ forall s k, samples_of h scale [1%nat] [s] k -> 0 <= s
  | PPoisson p | PDiscretize p _ | PAbsolute p | PRandomSign p _ => drawable h p
  | PClip p lo hi =>
      drawable h p /\ forall size vs k b, samples_of h p size vs k -> k = KInt -> lo = Some b \/ hi = Some b -> snd b = KInt
  | PArith _ p val _ => drawable h p /\ drawable h val
  | PForceSign p _ mode _ =>
      drawable h p /\
      (mode = SReroll -> forall size vs vs' k k', samples_of h p size vs k -> samples_of h p size vs' k' -> k = KInt -> k' = KInt)
  | PAggregate p iterations methods =>
      drawable h p /\ drawable h iterations /\ methods <> [] /\
      forall c k, samples_of h iterations [1%nat] [c] k -> k = KInt /\ 0 < c
  end.
