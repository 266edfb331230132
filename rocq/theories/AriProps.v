(** C56 and C57: adding to and multiplying images saturates. *)
From Coq Require Import Qabs Lia Lqa.
From Verif Require Import Prelude PreludeFacts DtyModel DtyProofs AriModel AriSpec AriProofs.
Local Open Scope Z_scope.

(** ** C56 *)

(** uint8 images: one amount, or one per channel. Each result lies in 0..255
    and within 1/2 of the exact sum limited to 0..255. *)
Theorem C56_add_to_uint8 :
  forall nc vs v,
    nc <> 0%nat -> (length vs mod nc = 0)%nat -> per_image nc v ->
    exists rs, add_scalar_uint8 vs v = Ok rs /\ length rs = length vs /\
      forall i, (i < length vs)%nat ->
        saturates 0 255 (1 # 2) (inject_Z (nth i vs 0%Z) + meant nc v i)%Q (nth i rs 0).
Proof. exact add_uint8. Qed.
Print Assumptions C56_add_to_uint8.

(** The same with one amount per component, on both code paths. *)
Theorem C56_add_elementwise_to_uint8 :
  forall use_cv2 floats vs us,
    uint8_image vs -> length us = length vs ->
    (floats = false -> Forall (fun u => exists z, (u == inject_Z z)%Q) us) ->
    length (add_elementwise_uint8 use_cv2 floats vs us) = length vs /\
    forall i, (i < length vs)%nat ->
      saturates 0 255 (1 # 2) (inject_Z (nth i vs 0%Z) + nth i us 0)%Q
        (nth i (add_elementwise_uint8 use_cv2 floats vs us) 0).
Proof. exact add_elementwise_near. Qed.
Print Assumptions C56_add_elementwise_to_uint8.

(** What [saturates] means for whole amounts: the exact sum, limited. *)
Theorem C56_whole_amounts_are_exact :
  forall lo hi n r, lo <= hi -> saturates lo hi (1 # 2) (inject_Z n) r -> r = zclip n lo hi.
Proof. exact saturates_exact. Qed.
Print Assumptions C56_whole_amounts_are_exact.

(** uint16, int8 and int16 images, integer amounts. Missing: amounts near the
    limits of the dtype used for the sum and unsigned amounts for int16
    images, for which the claim is false; float amounts and float images. *)
Theorem C56_add_to_other_integers_partial :
  forall image value v u,
    wide_image image -> small_int value -> ~ (image = DI 16 /\ unsigned value) ->
    fst (range_of image) <= v <= snd (range_of image) ->
    fst (range_of value) <= u <= snd (range_of value) ->
    moderate image u ->
    add_wide image value (inject_Z v) (inject_Z u)
    = Ok (inject_Z (zclip (v + u) (fst (range_of image)) (snd (range_of image)))).
Proof. exact add_wide_saturates. Qed.
Print Assumptions C56_add_to_other_integers_partial.

(** uint16: 65535 + 2147483647 (int32) gives 0. *)
Theorem C56_extreme_amounts_refuted :
  exists v u,
    0 <= v <= 65535 /\ - 2 ^ 31 <= u < 2 ^ 31 /\ 65535 < v + u /\
    add_wide (DU 16) (DI 32) (inject_Z v) (inject_Z u) = Ok 0%Q.
Proof. exists 65535, 2147483647. split; [lia|]. split; [lia|]. split; [lia|]. vm_compute. reflexivity. Qed.
Print Assumptions C56_extreme_amounts_refuted.

(** int16 images cannot take unsigned amounts and no such image takes int64
    amounts (what numpy makes of a Python int): even adding 1 raises. *)
Theorem C56_some_amounts_raise_refuted :
  add_wide (DI 16) (DU 8) (inject_Z 0) (inject_Z 1) = Err ValueError /\
  add_wide (DU 16) (DI 64) (inject_Z 0) (inject_Z 1) = Err ValueError.
Proof. split; vm_compute; reflexivity. Qed.
Print Assumptions C56_some_amounts_raise_refuted.

Example C56_amounts :
  add_scalar_uint8 [250; 10; 3; 0; 255; 100] (VArr true [7#2; -(20#1); 1#3]%Q) = Ok [254; 0; 3; 4; 235; 100] /\
  per_image 3 (VArr true [7#2; -(20#1); 1#3]%Q) /\
  add_scalar_uint8 [250; 3] (VNum (10 # 1)) = Ok [255; 13] /\
  add_elementwise_uint8 false true [250; 3] [300 # 1; -(5#2)]%Q = [255; 1].
Proof. split; [vm_compute; reflexivity|]. split; [right; reflexivity|]. split; vm_compute; reflexivity. Qed.
Example C56_other_dtypes :
  add_wide (DI 8) (DI 32) (inject_Z 100) (inject_Z 100) = Ok (inject_Z 127) /\
  add_wide (DI 8) (DU 8) (inject_Z (-100)) (inject_Z 50) = Ok (inject_Z (-50)) /\
  add_wide (DI 8) (DI 32) (inject_Z 100) (inject_Z 100000) = Err AssertionError.
Proof. repeat split; vm_compute; reflexivity. Qed.

(** ** C57 *)

(** uint8 images times one factor or one per channel: in 0..255 and within 1
    of the exact product limited to 0..255. Images of fewer than 150528
    components need the factor as a numpy value (next theorems). *)
Theorem C57_multiply_uint8_partial :
  forall nc vs m,
    single_or nc m -> channels nc <> 0%nat ->
    (Z.of_nat (length vs) < 224 * 224 * 3 -> exists f qs, m = VArr f qs) ->
    exists rs, multiply_scalar_uint8 nc vs m = Ok rs /\ length rs = length vs /\
      forall i, (i < length vs)%nat ->
        saturates 0 255 1 (inject_Z (nth i vs 0%Z) * meant (channels nc) m i)%Q (nth i rs 0).
Proof. exact multiply_near. Qed.
Print Assumptions C57_multiply_uint8_partial.

(** One factor per component: within 1/2. *)
Theorem C57_multiply_elementwise_uint8 :
  forall vs ms,
    length ms = length vs ->
    length (multiply_elementwise_uint8 vs ms) = length vs /\
    forall i, (i < length vs)%nat ->
      saturates 0 255 (1 # 2) (inject_Z (nth i vs 0%Z) * nth i ms 0)%Q
        (nth i (multiply_elementwise_uint8 vs ms) 0).
Proof. exact elementwise_near. Qed.
Print Assumptions C57_multiply_elementwise_uint8.

(** The result for a component depends on the size of the image: 3 times 1/2
    is 2 in an image of 3 components and 1 in one of 224*224*3. *)
Theorem C57_size_independence_refuted :
  exists small big m rs bs,
    multiply_scalar_uint8 (Some 3%nat) small m = Ok rs /\
    multiply_scalar_uint8 (Some 3%nat) big m = Ok bs /\
    nth 0 small 0 = nth 0 big 0 /\ nth 0 rs 0 <> nth 0 bs 0.
Proof.
  exists (repeat 3 3), (repeat 3 (Z.to_nat 150528)), (VArr true [1 # 2]%Q), [2; 2; 2],
    (repeat (lut_entry 3 (1 # 2)) (Z.to_nat 150528)).
  split; [vm_compute; reflexivity|]. split; [apply big_multiply; rewrite Z2Nat.id; lia|].
  assert (forall v, nth 0 (repeat v (Z.to_nat 150528)) 0 = v) as R.
  { intros v. destruct (Z.to_nat 150528) eqn:E; [lia|]. reflexivity. }
  rewrite !R. split; [reflexivity|]. vm_compute. discriminate.
Qed.
Print Assumptions C57_size_independence_refuted.

(** A plain Python factor raises for small images. *)
Theorem C57_python_numbers_refuted :
  exists vs q, vs <> [] /\ multiply_scalar_uint8 (Some 3%nat) vs (VNum q) = Err GenericException.
Proof. exists [1; 2; 3], (3 # 2)%Q. split; [discriminate|reflexivity]. Qed.
Print Assumptions C57_python_numbers_refuted.

(** Boolean masks (Dropout): each component is kept exactly or set to 0. *)
Theorem C57_masks_keep_or_zero :
  forall vs mask,
    length mask = length vs ->
    length (multiply_by_mask vs mask) = length vs /\
    forall i, (i < length vs)%nat ->
      nth i (multiply_by_mask vs mask) 0 = (if nth i mask false then nth i vs 0 else 0).
Proof. intros vs mask L. split; [exact (masked_length vs mask L)|]. intros i Hi. exact (masked_nth vs mask i L Hi). Qed.
Print Assumptions C57_masks_keep_or_zero.

(** A mask with one entry per pixel treats all channels of a pixel alike. *)
Theorem C57_pixelwise_masks :
  forall nc vs mask p c,
    nc <> 0%nat -> length vs = (length mask * nc)%nat -> (p < length mask)%nat -> (c < nc)%nat ->
    nth (p * nc + c)%nat (multiply_by_mask vs (broadcast nc mask)) 0
    = (if nth p mask false then nth (p * nc + c)%nat vs 0 else 0).
Proof.
  intros nc vs mask p c NZ L P C.
  assert (p * nc + c < length mask * nc)%nat as I by nia.
  rewrite masked_nth; [|rewrite broadcast_length; congruence|rewrite L; exact I].
  rewrite broadcast_nth by assumption.
  replace ((p * nc + c) / nc)%nat with p; [reflexivity|].
  rewrite Nat.add_comm, Nat.div_add, Nat.div_small by assumption. reflexivity.
Qed.
Print Assumptions C57_pixelwise_masks.

Example C57_factors :
  multiply_scalar_uint8 (Some 2%nat) [10; 200; 3; 7] (VArr true [1 # 2; 2 # 1]%Q) = Ok [5; 255; 2; 14] /\
  single_or (Some 2%nat) (VArr true [1 # 2; 2 # 1]%Q) /\
  multiply_by_mask [1; 2; 3; 4; 5; 6] (broadcast 3 [true; false]) = [1; 2; 3; 0; 0; 0].
Proof. split; [vm_compute; reflexivity|]. split; [right; reflexivity|reflexivity]. Qed.
