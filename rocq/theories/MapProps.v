(** C42, C43, C54: heatmaps and segmentation maps. *)
From Coq Require Import Lia.
From Verif Require Import Prelude DtyModel MapModel MapSpec MapProofs.
Local Open Scope Q_scope.

(** * C42: heatmaps keep their value range and values *)
Theorem C42_values_in_range_come_back : forall arr shape mn mx,
  map_shape arr -> n_dt arr = ANum float32 -> (length shape = 2 \/ length shape = 3)%nat -> mn < mx ->
  all_values (fun v => mn <= v <= mx) arr ->
  exists hm, mk_heatmap arr shape mn mx = Ok hm /\ nd_eq (get_arr hm) arr.
Proof. exact heatmap_keeps_values. Qed.
Print Assumptions C42_values_in_range_come_back.
Definition toy_arr : nd := mkNd (ANum float32) [2; 2]%Z [-1; 0; 1 # 4; 3].
Example toy_heatmap :
  map_shape toy_arr /\ all_values (fun v => -1 <= v <= 3) toy_arr /\
  (exists hm, mk_heatmap toy_arr [10; 10; 3]%Z (-1) 3 = Ok hm /\ nth 2 (n_flat (hm_arr hm)) 0 == 5 # 16 /\
              n_shape (hm_arr hm) = [2; 2; 1]%Z /\ n_shape (get_arr hm) = [2; 2]%Z).
Proof.
  split; [left; exists 2%Z, 2%Z; split; [reflexivity|cbn; lia]|].
  split; [repeat constructor; discriminate|].
  eexists. split; [reflexivity|]. vm_compute. auto.
Qed.

(** Values outside of the range are moved to its ends. Missing: only the first
    50 components are tested, see the refuted theorem. *)
Theorem C42_values_outside_are_clipped_partial : forall arr shape mn mx v,
  map_shape arr -> n_dt arr = ANum float32 -> (length shape = 2 \/ length shape = 3)%nat -> mn < mx ->
  In v (firstn 50 (n_flat arr)) -> v < mn - f32_eps \/ mx + f32_eps < v ->
  exists hm, mk_heatmap arr shape mn mx = Ok hm /\
    n_shape (get_arr hm) = n_shape arr /\ n_dt (get_arr hm) = n_dt arr /\
    Forall2 (moved_into mn mx) (n_flat arr) (n_flat (get_arr hm)).
Proof. exact heatmap_clips. Qed.
Print Assumptions C42_values_outside_are_clipped_partial.
Example toy_clipped :
  exists hm, mk_heatmap toy_arr [10; 10; 3]%Z 0 1 = Ok hm /\ n_flat (get_arr hm) = [0; 0; 1 # 4; 1].
Proof. eexists. split; [reflexivity|]. vm_compute. reflexivity. Qed.

(** The last of 51 values is outside of the range and stays there. *)
Theorem C42_clipping_refuted : exists arr hm v,
  map_shape arr /\ n_dt arr = ANum float32 /\ mk_heatmap arr [51; 1]%Z 0 1 = Ok hm /\
  In v (n_flat (get_arr hm)) /\ 1 < v.
Proof.
  exists (mkNd (ANum float32) [51; 1]%Z (repeat 0 50 ++ [5])). do 2 eexists.
  split; [left; exists 51%Z, 1%Z; split; [reflexivity|cbn; lia]|].
  split; [reflexivity|]. split; [vm_compute; reflexivity|].
  split; [apply (nth_In _ 0 (n := 50)); cbn; lia|]. reflexivity.
Qed.
Print Assumptions C42_clipping_refuted.

(** Inverting mirrors the values in the range, inverting twice restores them.
    (Ranges that differ from the unit interval by less than a float32 epsilon
    are mirrored like the unit interval.) *)
Theorem C42_inverting_twice_restores : forall arr shape mn mx,
  map_shape arr -> n_dt arr = ANum float32 -> (length shape = 2 \/ length shape = 3)%nat -> mn < mx ->
  all_values (fun v => mn <= v <= mx) arr ->
  exists hm h1 h2, mk_heatmap arr shape mn mx = Ok hm /\ invert hm = Ok h1 /\ invert h1 = Ok h2 /\
    nd_eq (get_arr h2) arr /\
    n_shape (get_arr h1) = n_shape arr /\
    (f32_eps <= mn \/ mn <= - f32_eps \/ 1 + f32_eps <= mx \/ mx <= 1 - f32_eps \/ mn == 0 /\ mx == 1 ->
     Forall2 (fun v r => r == mn + mx - v) (n_flat arr) (n_flat (get_arr h1))).
Proof. exact invert_twice. Qed.
Print Assumptions C42_inverting_twice_restores.
Example toy_inverted :
  exists hm h1, mk_heatmap toy_arr [10; 10; 3]%Z (-1) 3 = Ok hm /\ invert hm = Ok h1 /\
    map Qred (n_flat (get_arr h1)) = [3; 2; 7 # 4; -1].
Proof. do 2 eexists. split; [reflexivity|split; [reflexivity|]]. vm_compute. reflexivity. Qed.

(** 8 bit arrays come back exactly (with an axis for the channel), also with
    the rounding of float32. *)
Theorem C42_uint8_comes_back : forall arr shape mn mx,
  map_shape arr -> (length shape = 2 \/ length shape = 3)%nat -> mn < mx ->
  Forall (fun v => exists z, v = inject_Z z /\ (0 <= z <= 255)%Z) (n_flat arr) ->
  exists hm, from_uint8 arr shape mn mx = Ok hm /\ n_flat (to_uint8 hm) = n_flat arr /\
    n_shape (to_uint8 hm) = (if Nat.eqb (length (n_shape arr)) 2 then n_shape arr ++ [1%Z] else n_shape arr) /\
    n_dt (to_uint8 hm) = ANum (DU 8).
Proof. exact uint8_round_trip. Qed.
Print Assumptions C42_uint8_comes_back.
Example toy_uint8 :
  let arr := mkNd (ANum (DU 8)) [1; 3]%Z [0; 77; 255] in
  exists hm, from_uint8 arr [5; 5]%Z (-2) 7 = Ok hm /\ ~ nth 1 (n_flat (hm_arr hm)) 0 == 77 / 255 /\
             n_flat (to_uint8 hm) = [0; 77; 255].
Proof. eexists. split; [reflexivity|]. vm_compute. split; [discriminate|reflexivity]. Qed.

Theorem C42_normalization_there_and_back : forall vals s t,
  fst s < snd s -> fst t < snd t ->
  exists there back, change_normalization vals s t = Ok there /\ change_normalization there t s = Ok back /\
    Forall2 Qeq back vals.
Proof. exact normalization_there_and_back. Qed.
Print Assumptions C42_normalization_there_and_back.
(** The change is linear, ends are mapped to ends. *)
Theorem C42_normalization_is_linear : forall vals s t r,
  change_normalization vals s t = Ok r -> fst s < snd s -> fst t < snd t ->
  ~ (-10 * f32_eps < fst t - fst s < 10 * f32_eps /\ -10 * f32_eps < snd t - snd s < 10 * f32_eps) ->
  Forall2 (fun v w => (w - fst t) * (snd s - fst s) == (v - fst s) * (snd t - fst t)) vals r.
Proof. exact normalization_linear. Qed.
Print Assumptions C42_normalization_is_linear.
Example toy_normalization :
  exists r, change_normalization [0; 1 # 2; 1] (0, 1) (-1, 3) = Ok r /\ map Qred r = [-1; 1; 3].
Proof. eexists. split; [reflexivity|]. vm_compute. reflexivity. Qed.

Theorem C42_copies_are_equal : forall arr shape mn mx,
  map_shape arr -> n_dt arr = ANum float32 -> (length shape = 2 \/ length shape = 3)%nat -> mn < mx ->
  all_values (fun v => mn <= v <= mx) arr ->
  exists hm h', mk_heatmap arr shape mn mx = Ok hm /\ hm_deepcopy hm = Ok h' /\ nd_eq (get_arr h') arr /\
    hm_shape h' = shape /\ hm_min h' = mn /\ hm_max h' = mx.
Proof. exact deepcopy_same. Qed.
Print Assumptions C42_copies_are_equal.

(** * C43: segmentation maps keep class ids *)
Theorem C43_ids_come_back : forall arr shape, segmap_dtype (n_dt arr) -> map_shape arr ->
  Forall (value_of (n_dt arr)) (n_flat arr) -> all_values (fun v => 0 <= v) arr ->
  exists s, mk_segmap arr shape = Ok s /\ seg_get_arr s = Ok arr.
Proof. exact segmap_keeps_ids. Qed.
Print Assumptions C43_ids_come_back.
Definition toy_ids : nd := mkNd (ANum (DU 16)) [2; 1; 2]%Z [0; 40000; 7; 65535].
Example toy_segmap :
  segmap_dtype (n_dt toy_ids) /\ map_shape toy_ids /\ Forall (value_of (n_dt toy_ids)) (n_flat toy_ids).
Proof.
  split; [right; right; left; reflexivity|]. split.
  - right. exists 2%Z, 1%Z, 2%Z. split; [reflexivity|cbn; lia].
  - repeat constructor; cbn; [exists 0%Z|exists 40000%Z|exists 7%Z|exists 65535%Z]; (split; [reflexivity|lia]).
Qed.

Theorem C43_accepted_maps_come_back : forall arr shape s, segmap_dtype (n_dt arr) -> map_shape arr ->
  Forall (value_of (n_dt arr)) (n_flat arr) -> mk_segmap arr shape = Ok s -> seg_get_arr s = Ok arr.
Proof. exact segmap_accepted_comes_back. Qed.
Print Assumptions C43_accepted_maps_come_back.

(** Missing: only the first 100 components are tested. *)
Theorem C43_negative_ids_raise_partial : forall arr shape d v, n_dt arr = ANum d ->
  (match d with DF _ _ => False | _ => True end) -> map_shape arr ->
  In v (firstn 100 (n_flat arr)) -> v < 0 -> mk_segmap arr shape = Err AssertionError.
Proof. exact segmap_negative_raises. Qed.
Print Assumptions C43_negative_ids_raise_partial.
Example toy_negative : mk_segmap (mkNd (ANum (DI 32)) [1; 2]%Z [3; -1]) [1; 2; 3]%Z = Err AssertionError.
Proof. reflexivity. Qed.
Theorem C43_negative_ids_raise_refuted : exists arr s, map_shape arr /\ segmap_dtype (n_dt arr) /\
  Forall (value_of (n_dt arr)) (n_flat arr) /\ In (inject_Z (-1)) (n_flat arr) /\ mk_segmap arr [101; 1; 3]%Z = Ok s.
Proof.
  exists (mkNd (ANum (DI 32)) [101; 1]%Z (repeat (inject_Z 0) 100 ++ [inject_Z (-1)])). eexists.
  split; [left; exists 101%Z, 1%Z; split; [reflexivity|cbn; lia]|].
  split; [do 5 right; reflexivity|].
  split; [|split; [|vm_compute; reflexivity]].
  - cbn [n_dt n_flat]. apply Forall_app. split.
    + apply Forall_forall. intros x I. apply repeat_spec in I. subst x. exists 0%Z. split; [reflexivity|cbn; lia].
    + constructor; [|constructor]. exists (-1)%Z. split; [reflexivity|cbn; lia].
  - cbn [n_flat]. apply in_or_app. right. left. reflexivity.
Qed.
Print Assumptions C43_negative_ids_raise_refuted.

Theorem C43_wide_dtypes_raise : forall arr shape d, n_dt arr = ANum d -> map_shape arr ->
  (exists b, (d = DU b /\ (16 < b)%Z) \/ (d = DI b /\ (32 < b)%Z)) -> mk_segmap arr shape = Err AssertionError.
Proof. exact segmap_wide_raises. Qed.
Print Assumptions C43_wide_dtypes_raise.
Example toy_int64 : mk_segmap (mkNd (ANum (DI 64)) [1; 1]%Z [3]) [1; 1; 3]%Z = Err AssertionError.
Proof. reflexivity. Qed.

(** The deprecated float inputs: a threshold of one half for (H,W), the
    channel with the largest value for (H,W,C). *)
Theorem C43_float_2d_is_thresholded : forall arr shape p e h w, n_dt arr = ANum (DF p e) ->
  n_shape arr = [h; w] ->
  exists s r, mk_segmap arr shape = Ok s /\ seg_get_arr s = Ok r /\ n_dt r = ABool /\ n_shape r = [h; w] /\
    Forall2 (fun v b => (v <= 1 # 2 -> b = 0) /\ (1 # 2 < v -> b = 1)) (n_flat arr) (n_flat r).
Proof. exact segmap_float_2d. Qed.
Print Assumptions C43_float_2d_is_thresholded.
Theorem C43_float_3d_takes_the_largest_channel : forall arr shape p e h w c, n_dt arr = ANum (DF p e) ->
  n_shape arr = [h; w; c] -> (0 < h -> 0 < w -> 0 < c < 2 ^ 31 ->
  Z.of_nat (length (n_flat arr)) = h * w * c ->
  exists s r ps, mk_segmap arr shape = Ok s /\ seg_get_arr s = Ok r /\ n_dt r = ANum (DI 32) /\ n_shape r = [h; w] /\
    concat ps = n_flat arr /\ Z.of_nat (length ps) = h * w /\ Forall (fun p => Z.of_nat (length p) = c) ps /\
    Forall2 (fun p v => exists i, v = inject_Z i /\ first_largest p i) ps (n_flat r))%Z.
Proof. exact segmap_float_3d. Qed.
Print Assumptions C43_float_3d_takes_the_largest_channel.
Example toy_float_maps :
  (exists s, mk_segmap (mkNd (ANum float32) [1; 3]%Z [1 # 2; 3 # 4; 0]) [1; 3]%Z = Ok s /\
             seg_get_arr s = Ok (mkNd ABool [1; 3]%Z [0; 1; 0])) /\
  (exists s, mk_segmap (mkNd (ANum float32) [1; 2; 3]%Z [1; 3; 3; 5; 0; 1]) [1; 2]%Z = Ok s /\
             seg_get_arr s = Ok (mkNd (ANum (DI 32)) [1; 2]%Z [inject_Z 1; inject_Z 0])).
Proof. split; (eexists; split; [reflexivity|vm_compute; reflexivity]). Qed.

Theorem C43_copies_are_equal : forall arr shape, segmap_dtype (n_dt arr) -> map_shape arr ->
  Forall (value_of (n_dt arr)) (n_flat arr) -> all_values (fun v => 0 <= v) arr ->
  exists s c, mk_segmap arr shape = Ok s /\ seg_copy s None = Ok c /\ seg_get_arr c = Ok arr /\ c = s.
Proof. exact seg_copy_same. Qed.
Print Assumptions C43_copies_are_equal.

(** * C54: operations on maps keep dtype and number of dimensions *)
(** Padding and resizing a segmentation map replace the internal (H,W,C)
    array; reading the result yields the dtype and the number of dimensions of
    the original map and the values of the new array. Missing: heatmaps, see
    the refuted theorem. *)
Theorem C54_segmap_operations_keep_form_partial : forall s a c,
  map_shape a -> n_dt a = ANum (DI 32) -> length (n_shape a) = 3%nat ->
  Forall (value_of (sg_dt s)) (n_flat a) -> segmap_dtype (sg_dt s) ->
  sg_ndim s = 2%nat \/ sg_ndim s = 3%nat ->
  (sg_ndim s = 2%nat -> nth 2 (n_shape a) 0%Z = 1%Z) ->
  seg_copy s (Some a) = Ok c ->
  exists r, seg_get_arr c = Ok r /\ n_dt r = sg_dt s /\ length (n_shape r) = sg_ndim s /\ n_flat r = n_flat a /\
            firstn 2 (n_shape r) = firstn 2 (n_shape a).
Proof. exact seg_copy_other. Qed.
Print Assumptions C54_segmap_operations_keep_form_partial.
Example toy_padded :
  let s := mkSeg (mkNd (ANum (DI 32)) [1; 1; 1]%Z [1]) [5; 5]%Z ABool 2 in
  exists c, seg_copy s (Some (mkNd (ANum (DI 32)) [1; 2; 1]%Z [1; 0])) = Ok c /\
            seg_get_arr c = Ok (mkNd ABool [1; 2]%Z [1; 0]).
Proof. eexists. split; [reflexivity|]. reflexivity. Qed.

(** A (H,W) heatmap becomes (H,W,1) by padding, pooling or resizing, even if
    they leave the array as it is. *)
Theorem C54_heatmap_operations_keep_form_refuted : exists arr hm hm',
  map_shape arr /\ mk_heatmap arr [10; 10; 3]%Z 0 1 = Ok hm /\ rebuild (fun a => a) hm = Ok hm' /\
  length (n_shape (get_arr hm)) = 2%nat /\ length (n_shape (get_arr hm')) = 3%nat.
Proof.
  exists (mkNd (ANum float32) [1; 1]%Z [0]). do 2 eexists.
  split; [left; exists 1%Z, 1%Z; split; [reflexivity|cbn; lia]|].
  split; [reflexivity|]. split; [reflexivity|]. split; reflexivity.
Qed.
Print Assumptions C54_heatmap_operations_keep_form_refuted.
