(** C44: converting dtypes saturates and rounds correctly. *)
From Coq Require Import Lia.
From Verif Require Import Prelude DtyModel DtySpec DtyProofs.
Local Open Scope Q_scope.

(** Every finite float becomes the nearest integer of the target dtype (ties
    to even), values outside of the dtype the end of the dtype. Missing: the
    integer dtypes whose largest value is not a float of the source dtype, see
    the refuted theorem below. *)
Theorem C44_float_to_int_saturates_partial : forall p e dst lo hi v,
  (0 < p)%Z -> int_range dst lo hi -> fits_in_mantissa dst p ->
  - inject_Z ((2 ^ p - 1) * 2 ^ e) <= v <= inject_Z ((2 ^ p - 1) * 2 ^ e) ->
  exists n z, nearest v n /\ saturated lo hi n z /\
    change_dtype (DF p e) dst v true true = Ok (inject_Z z).
Proof. exact float_to_int_saturates. Qed.
Print Assumptions C44_float_to_int_saturates_partial.
(** float32 to uint8, at a tie, and beyond the end of the dtype. *)
Example float32_to_uint8 :
  int_range (DU 8) 0 255 /\ fits_in_mantissa (DU 8) 24 /\
  change_dtype (DF 24 104) (DU 8) (5 # 2) true true = Ok (inject_Z 2) /\
  change_dtype (DF 24 104) (DU 8) (2557 # 10) true true = Ok (inject_Z 255) /\
  change_dtype (DF 24 104) (DU 8) (- (7 # 2)) true true = Ok (inject_Z 0).
Proof.
  split; [apply (unsigned_range 8); lia|]. split; [cbn; lia|]. vm_compute. auto.
Qed.

(** Any integer dtype to any integer dtype; 64 bit sources are refused. *)
Theorem C44_int_to_int_saturates : forall src slo shi dst lo hi n,
  int_range src slo shi -> int_range dst lo hi -> not_64_bit src -> (slo <= n <= shi)%Z ->
  exists z, saturated lo hi n z /\ change_dtype src dst (inject_Z n) true true = Ok (inject_Z z).
Proof. exact int_to_int_saturates. Qed.
Print Assumptions C44_int_to_int_saturates.
Example int16_to_uint8 :
  change_dtype (DI 16) (DU 8) (inject_Z (-5)) true true = Ok (inject_Z 0) /\
  change_dtype (DI 16) (DU 8) (inject_Z 300) true true = Ok (inject_Z 255) /\
  change_dtype (DU 8) (DI 8) (inject_Z 200) true true = Ok (inject_Z 127).
Proof. vm_compute. auto. Qed.

(** The same for whole lists of values, in restore_dtypes_. *)
Theorem C44_restoring_saturates_every_value : forall src slo shi dst lo hi ns,
  int_range src slo shi -> int_range dst lo hi -> not_64_bit src ->
  Forall (fun n => (slo <= n <= shi)%Z) ns ->
  exists zs, restore_dtypes src dst (map inject_Z ns) = Ok (map inject_Z zs) /\
             Forall2 (saturated lo hi) ns zs.
Proof. exact restore_list. Qed.
Print Assumptions C44_restoring_saturates_every_value.
Example restore_int16_list :
  restore_dtypes (DI 16) (DU 8) (map inject_Z [(-5); 7; 300]%Z) = Ok (map inject_Z [0; 7; 255]%Z).
Proof. reflexivity. Qed.

Theorem C44_64_bit_source_raises : forall src dst v round, src = DU 64 \/ src = DI 64 -> dst <> src ->
  change_dtype src dst v true round = Err ValueError.
Proof. exact big_int_raises. Qed.
Print Assumptions C44_64_bit_source_raises.
Example int64_to_uint8 : change_dtype (DI 64) (DU 8) (inject_Z 3) true true = Err ValueError.
Proof. reflexivity. Qed.

Theorem C44_same_dtype_is_identity : forall d v clip round, change_dtype d d v clip round = Ok v.
Proof. exact same_dtype_identity. Qed.
Print Assumptions C44_same_dtype_is_identity.
Example same_float32 : change_dtype (DF 24 104) (DF 24 104) (1 # 2) true true = Ok (1 # 2).
Proof. reflexivity. Qed.

(** Widening and restoring loses nothing. *)
Theorem C44_widening_int_is_lossless : forall a alo ahi b blo bhi n,
  int_range a alo ahi -> int_range b blo bhi -> not_64_bit a -> not_64_bit b ->
  (blo <= alo /\ ahi <= bhi)%Z -> (alo <= n <= ahi)%Z ->
  change_dtype a b (inject_Z n) true true = Ok (inject_Z n) /\
  change_dtype b a (inject_Z n) true true = Ok (inject_Z n).
Proof. exact widen_int. Qed.
Print Assumptions C44_widening_int_is_lossless.
Example uint8_in_int16 :
  (int_range (DU 8) 0 255 /\ int_range (DI 16) (-32768) 32767) /\ not_64_bit (DU 8) /\ not_64_bit (DI 16).
Proof.
  split; [split; [apply (unsigned_range 8); lia|apply (signed_range 16); lia]|].
  split; split; discriminate.
Qed.

Theorem C44_widening_int_to_float_is_lossless : forall a lo hi p e n,
  int_range a lo hi -> not_64_bit a -> (0 < p)%Z -> (0 <= e)%Z -> fits_in_mantissa a p ->
  (- ((2 ^ p - 1) * 2 ^ e) < lo /\ hi < (2 ^ p - 1) * 2 ^ e)%Z -> (lo <= n <= hi)%Z ->
  exists r, change_dtype a (DF p e) (inject_Z n) true true = Ok r /\ r == inject_Z n /\
    change_dtype (DF p e) a r true true = Ok (inject_Z n).
Proof. exact widen_to_float. Qed.
Print Assumptions C44_widening_int_to_float_is_lossless.
Example int32_in_float64 :
  int_range (DI 32) (-2147483648) 2147483647 /\ fits_in_mantissa (DI 32) 53 /\
  (- ((2 ^ 53 - 1) * 2 ^ 971) < -2147483648 /\ 2147483647 < (2 ^ 53 - 1) * 2 ^ 971)%Z.
Proof.
  split; [apply (signed_range 32); lia|]. split; [cbn; lia|]. vm_compute. auto.
Qed.

(** Floats: [m 2^k] with at most [p] mantissa bits. *)
Theorem C44_widening_float_is_lossless : forall p e p' e' v m k,
  (0 < p <= p')%Z -> (0 <= e)%Z -> ((2 ^ p - 1) * 2 ^ e < (2 ^ p' - 1) * 2 ^ e')%Z ->
  v == inject_Z m * pow2 k -> (Z.abs m < 2 ^ p)%Z ->
  - inject_Z ((2 ^ p - 1) * 2 ^ e) <= v <= inject_Z ((2 ^ p - 1) * 2 ^ e) ->
  exists r r', change_dtype (DF p e) (DF p' e') v true true = Ok r /\ r == v /\
    change_dtype (DF p' e') (DF p e) r true true = Ok r' /\ r' == v.
Proof. exact widen_float. Qed.
Print Assumptions C44_widening_float_is_lossless.
Example float16_in_float32 :
  (0 < 11 <= 24)%Z /\ ((2 ^ 11 - 1) * 2 ^ 5 = 65504)%Z /\
  ((2 ^ 11 - 1) * 2 ^ 5 < (2 ^ 24 - 1) * 2 ^ 104)%Z /\ (1025 # 1024) == inject_Z 1025 * pow2 (-10).
Proof. split; [lia|]. vm_compute. auto. Qed.

(** Saturation fails when the largest integer is not a float: the clip bound
    is rounded up to the first value outside of the dtype. float16 to int16
    and float32 to int32; [GenericException] is an undefined value here. *)
Theorem C44_saturation_refuted :
  (exists v, v == inject_Z 40000 /\ change_dtype (DF 11 5) (DI 16) v true true = Err GenericException) /\
  (exists v, v == inject_Z 3000000000 /\ change_dtype (DF 24 104) (DI 32) v true true = Err GenericException) /\
  (exists v, v == inject_Z (2 ^ 64) /\ change_dtype (DF 53 971) (DU 64) v true true = Err GenericException).
Proof.
  split; [|split]; eexists; (split; [reflexivity|vm_compute; reflexivity]).
Qed.
Print Assumptions C44_saturation_refuted.
