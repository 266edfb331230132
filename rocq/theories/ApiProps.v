(** C107-C110: forms of heatmaps and segmentation maps, augment() and
    augment_batches(). *)
From Verif Require Import Prelude PreludeFacts DtyModel DtySpec MapModel MapSpec NormModel NormSpec NormProofs NormProps
  PolyModel PolySpec ApiModel ApiSpec ApiProofs.
From Coq Require Import Lia Lqa.

(** * C107 *)
(** Whatever the form of the heatmaps: changing the content of every heatmap of
    the normalized data and restoring the form is the same as changing the
    content of every heatmap of the input. *)
Theorem C107_heatmap_forms_are_restored : forall v shapes,
  mwell heat_content heat_object v -> menough v shapes ->
  exists n, mnormalize heat_cls (to_mv v) shapes = Ok n /\
    forall g, mwell heat_content heat_object (on_maps (on_heat g) g v) ->
      minvert heat_cls (all_maps (on_heat g) n) (to_mv v) = Ok (to_mv (on_maps (on_heat g) g v)).
Proof. intros v shapes W E. destruct (heat_round_trip v shapes W E) as (n & A & _ & B). exists n. split; assumption. Qed.
Print Assumptions C107_heatmap_forms_are_restored.
(** An array of two heatmaps with 1 x 2 pixels; only the second one is cropped. *)
Definition halves : mform heatmap := WArray (ANum float32) [1; 2; 1] [[0; 1#2]; [1; 1#4]]%Q.
Definition crop_bright (c : content) : content :=
  match c with ([_; _; _], x :: l) => if qltb (1#2) x then ([1; 1; 1], [x]) else c | _ => c end.
Example two_heatmaps :
  mwell heat_content heat_object halves /\ menough halves (Some [[5; 5; 3]; [4; 4; 3]]) /\
  mwell heat_content heat_object (on_maps (on_heat crop_bright) crop_bright halves) /\
  to_mv (on_maps (on_heat crop_bright) crop_bright halves) =
    MSeq false [MArr (mkNd (ANum float32) [1; 2; 1] [0; 1#2]%Q); MArr (mkNd (ANum float32) [1; 1; 1] [1%Q])].
Proof.
  split; [|split; [|split; [|reflexivity]]].
  - split; [discriminate|]. repeat constructor; try (exists 1, 2, 1; repeat split; lia); cbn [snd]; lra.
  - eexists. split; [reflexivity|]. split; [reflexivity|]. repeat constructor; right; reflexivity.
  - split; [discriminate|]. constructor; [|constructor; [|constructor]].
    + split; [reflexivity|]. split; [exists 1, 2, 1; repeat split; lia|]. repeat constructor; cbn [snd]; lra.
    + split; [reflexivity|]. split; [exists 1, 1, 1; repeat split; lia|]. repeat constructor; cbn [snd]; lra.
Qed.

(** The same for segmentation maps. *)
Theorem C107_segmap_forms_are_restored : forall v shapes,
  mwell seg_content seg_object v -> menough v shapes ->
  exists n, mnormalize seg_cls (to_mv v) shapes = Ok n /\
    forall g, mwell seg_content seg_object (on_maps (on_seg g) g v) ->
      minvert seg_cls (all_maps (on_seg g) n) (to_mv v) = Ok (to_mv (on_maps (on_seg g) g v)).
Proof. intros v shapes W E. destruct (seg_round_trip v shapes W E) as (n & A & _ & B). exists n. split; assumption. Qed.
Print Assumptions C107_segmap_forms_are_restored.
Definition mirror (c : content) : content := (fst c, rev (snd c)).
Example bool_and_int_maps :
  let v : mform segmap := WArray ABool [1; 2; 1] [[0; 1]]%Q in
  let w : mform segmap := WArrays (ANum (DU 8)) [([1; 2; 1], [inject_Z 3; inject_Z 255]); ([1; 1; 1], [inject_Z 7])] in
  mwell seg_content seg_object v /\ menough v (Some [[5; 5; 3]]) /\
  mwell seg_content seg_object (on_maps (on_seg mirror) mirror v) /\
  mwell seg_content seg_object w /\ menough w (Some [[5; 5; 3]; [5; 5; 3]]) /\
  mwell seg_content seg_object (on_maps (on_seg mirror) mirror w).
Proof.
  cbv zeta.
  assert (B : forall a b : Q, (a = 0 \/ a = 1)%Q -> (b = 0 \/ b = 1)%Q -> seg_content ABool ([1; 2; 1], [a; b])).
  { intros a b A B. split; [left; reflexivity|]. split; [exists 1, 2, 1; repeat split; lia|].
    constructor; [split; [exact A|destruct A as [->| ->]; lra]|]. constructor; [split; [exact B|destruct B as [->| ->]; lra]|]. constructor. }
  assert (U : forall z, 0 <= z < 256 -> value_of (ANum (DU 8)) (inject_Z z) /\ (0 <= inject_Z z)%Q).
  { intros z Z. split; [exists z; split; [reflexivity|exact Z]|]. change 0%Q with (inject_Z 0). rewrite <- Zle_Qle. lia. }
  assert (D8 : segmap_dtype (ANum (DU 8))) by (right; left; reflexivity).
  split; [split; [discriminate|]; constructor; [apply B; [left|right]; reflexivity|constructor]|].
  split; [eexists; split; [reflexivity|split; [reflexivity|repeat constructor; right; reflexivity]]|].
  split; [split; [discriminate|]; constructor; [apply B; [right|left]; reflexivity|constructor]|].
  split.
  { split; [discriminate|]. constructor; [|constructor; [|constructor]]; (split; [exact D8|]); split.
    - exists 1, 2, 1; repeat split; lia.
    - constructor; [apply U; lia|]. constructor; [apply U; lia|]. constructor.
    - exists 1, 1, 1; repeat split; lia.
    - constructor; [apply U; lia|]. constructor. }
  split; [eexists; split; [reflexivity|split; [reflexivity|repeat constructor; right; reflexivity]]|].
  split; [discriminate|]. constructor; [|constructor; [|constructor]]; (split; [exact D8|]); split.
  - exists 1, 2, 1; repeat split; lia.
  - constructor; [apply U; lia|]. constructor; [apply U; lia|]. constructor.
  - exists 1, 1, 1; repeat split; lia.
  - constructor; [apply U; lia|]. constructor.
Qed.

(** A wrong number of images (or none) raises. *)
Theorem C107_wrong_number_of_images_raises :
  (forall v shapes n, mwell heat_content heat_object v -> mimages_needed v = Some n ->
     (forall l, shapes = Some l -> length l <> n) -> mnormalize heat_cls (to_mv v) shapes = Err ValueError) /\
  (forall v shapes n, mwell seg_content seg_object v -> mimages_needed v = Some n ->
     (forall l, shapes = Some l -> length l <> n) -> mnormalize seg_cls (to_mv v) shapes = Err ValueError).
Proof. split; [exact heat_wrong_images|exact seg_wrong_images]. Qed.
Print Assumptions C107_wrong_number_of_images_raises.
Example three_images_for_two_maps :
  mimages_needed halves = Some 2%nat /\ forall l, Some [[5; 5; 3]; [4; 4; 3]; [4; 4; 3]] = Some l -> length l <> 2%nat.
Proof. split; [reflexivity|]. intros l H. injection H as <-. discriminate. Qed.

(** Arrays of any other dtype raise, too: heatmaps must be float32, and
    segmentation maps bool, uint8, uint16, int8, int16 or int32. *)
Theorem C107_other_dtypes_raise : forall d q l ss, any_dtype d -> length ss = length (q :: l) ->
  (d <> ANum float32 -> Forall hwc (q :: l) ->
   mnormalize heat_cls (to_mv (WArrays d (q :: l))) (Some ss) = Err AssertionError /\
   (Forall (fun c => fst c = fst q) l ->
    mnormalize heat_cls (to_mv (WArray d (fst q) (map snd (q :: l)))) (Some ss) = Err AssertionError)) /\
  (~ segmap_dtype d -> Forall (seg_content (ANum (DI 32))) (q :: l) ->
   mnormalize seg_cls (to_mv (WArrays d (q :: l))) (Some ss) = Err AssertionError /\
   (Forall (fun c => fst c = fst q) l ->
    mnormalize seg_cls (to_mv (WArray d (fst q) (map snd (q :: l)))) (Some ss) = Err AssertionError)).
Proof.
  intros d q l ss A L. split; intros N F; [exact (heat_dtypes_rejected d q l ss A N F L)|exact (seg_dtypes_rejected d q l ss A N F L)].
Qed.
Print Assumptions C107_other_dtypes_raise.
Example float64_and_int64 :
  any_dtype (ANum (DF 53 971)) /\ ANum (DF 53 971) <> ANum float32 /\ hwc ([1; 1; 1], [1%Q]) /\
  any_dtype (ANum (DI 64)) /\ ~ segmap_dtype (ANum (DI 64)) /\ seg_content (ANum (DI 32)) ([1; 1; 1], [inject_Z 7]).
Proof.
  split; [right; right; eexists; split; [reflexivity|unfold array_dtypes; cbn [In]; tauto]|].
  split; [discriminate|]. split; [exists 1, 1, 1; repeat split; lia|].
  split; [right; right; eexists; split; [reflexivity|unfold array_dtypes; cbn [In]; tauto]|].
  split; [intros [H|[H|[H|[H|[H|H]]]]]; discriminate H|].
  split; [unfold segmap_dtype; tauto|]. split; [exists 1, 1, 1; repeat split; lia|].
  constructor; [|constructor]. split; [exists 7; split; [reflexivity|cbn; lia]|]. discriminate.
Qed.

(** Not true of segmentation maps without a channel axis, although (N,H,W)
    arrays and lists of (H,W) arrays are the documented forms: they always raise. *)
Theorem C107_documented_segmap_forms_refuted : forall d shapes, segmap_dtype d ->
  (forall s l, length s = 2%nat -> mnormalize seg_cls (MArr (stacked d s l)) shapes = Err ValueError) /\
  (forall l, l <> [] -> Forall (fun c => length (fst c) = 2%nat) l ->
     mnormalize seg_cls (MSeq false (map (fun c => MArr (as_array d c)) l)) shapes = Err ValueError).
Proof. exact flat_segmaps. Qed.
Print Assumptions C107_documented_segmap_forms_refuted.
Example hw_map : segmap_dtype (ANum (DI 32)) /\ length [4; 5] = 2%nat /\ [([1; 1], [1%Q])] <> [].
Proof. split; [unfold segmap_dtype; tauto|]. split; [reflexivity|discriminate]. Qed.

(** Arrays of another integer dtype after the augmentation are converted: the restored arrays have
    the dtype of the input, and values beyond its range become its smallest or largest value. *)
Theorem C107_dtype_is_restored : forall {M} (c : mcls M) y lo hi q l ms arrs, int_range y lo hi -> m_kind c (kind_of (ANum y)) = true ->
  Forall2 (fun m a => m_get c m = Ok a) ms arrs ->
  Forall (fun a => exists x slo shi ns, int_range x slo shi /\ not_64_bit x /\ n_dt a = ANum x /\ n_flat a = map inject_Z ns /\ Forall (fun n => slo <= n <= shi) ns) arrs ->
  exists rs, minvert c (Some ms) (to_mv (WArrays (ANum y) (q :: l))) = Ok (MSeq false (map MArr rs)) /\
    Forall2 (fun a r => n_dt r = ANum y /\ n_shape r = n_shape a /\
      exists ns zs, n_flat a = map inject_Z ns /\ n_flat r = map inject_Z zs /\ Forall2 (saturated lo hi) ns zs) arrs rs.
Proof. intros M. exact dtype_restored. Qed.
Print Assumptions C107_dtype_is_restored.
(** Maps of uint8 that became int16: 300 is restored as 255. *)
Example int16_for_uint8 :
  let m := mkSeg (mkNd (ANum (DI 32)) [1; 2; 1] (map inject_Z [300; 7])) [5; 5; 3] (ANum (DI 16)) 3 in
  m_get seg_cls m = Ok (mkNd (ANum (DI 16)) [1; 2; 1] (map inject_Z [300; 7])) /\
  minvert seg_cls (Some [m]) (to_mv (WArrays (ANum (DU 8)) [([1; 2; 1], map inject_Z [3; 4])])) =
    Ok (MSeq false [MArr (mkNd (ANum (DU 8)) [1; 2; 1] (map inject_Z [255; 7]))]).
Proof. split; reflexivity. Qed.

(** * C108 *)
(** All kinds of data of a batch are augmented, each of them comes back in its
    own form, and the unaugmented data and the batch's data stay the same. *)
Theorem C108_every_column_is_augmented_in_its_form : forall x f r (D : Type) (d : D), performs x f -> applies x r ->
  augment_ubatch f (mkUb (python r) u_none d) = Ok (mkUb (python r) (python (act x r)) d).
Proof. exact batch_round_trip. Qed.
Print Assumptions C108_every_column_is_augmented_in_its_form.
(** Two gray images in one array, two heatmaps in another, boolean maps in a
    list, keypoints as lists of tuples: images and maps are mirrored, keypoints
    shifted. *)
Definition photos : request :=
  mkR (VArray (ANum (DU 8)) [1; 2] [[1; 2]; [3; 4]]%Q) (WArray (ANum float32) [1; 2; 1] [[0; 1]; [1#2; 1]]%Q)
      (WArrays ABool [([1; 2; 1], [0; 1]%Q); ([1; 1; 1], [1%Q])])
      (FTupleLists [[]; [[inject_Z 3; inject_Z 4]]]) FNone GNone GNone.
Definition mirrored : action :=
  mkAct mirror mirror mirror shift (fun i => i) (fun p => p) (fun p => p).
Definition as_performed (x : action) : inner := fun n =>
  Ok (mkN (all_images (x_img x) (c_img n)) (all_maps (on_heat (x_heat x)) (c_heat n))
          (all_maps (on_seg (x_seg x)) (c_seg n)) (augment (x_kps x) (c_kps n))
          (augment (x_bbs x) (c_bbs n)) (paugment (x_pol x) (c_pol n)) (paugment (x_lin x) (c_lin n))).
Lemma is_performed : forall x, performs x (as_performed x).
Proof. intros x n. reflexivity. Qed.
Lemma mirror_keeps : keeps_channels mirror.
Proof. intros [s q] L. split; [exact L|reflexivity]. Qed.
Example mirrored_photos :
  applies mirrored photos /\ performs mirrored (as_performed mirrored) /\
  u_img (python (act mirrored photos)) = IArr (mkNd (ANum (DU 8)) [2; 1; 2] [2; 1; 4; 3]%Q) /\
  u_seg (python (act mirrored photos)) =
    MSeq false [MArr (mkNd ABool [1; 2; 1] [1; 0]%Q); MArr (mkNd ABool [1; 1; 1] [1%Q])] /\
  u_kps (python (act mirrored photos)) = PSeq false [PSeq false []; PSeq false [PSeq true [PNum 4; PNum 5]]].
Proof.
  split; [|split; [apply is_performed|repeat split; reflexivity]].
  assert (HC : forall a b : Q, (0 <= a <= 1)%Q -> (0 <= b <= 1)%Q -> heat_content (ANum float32) ([1; 2; 1], [a; b])).
  { intros a b A B. split; [reflexivity|]. split; [exists 1, 2, 1; repeat split; lia|]. repeat constructor; cbn [snd]; lra. }
  assert (SC : forall a b : Q, (a = 0 \/ a = 1)%Q -> (b = 0 \/ b = 1)%Q -> seg_content ABool ([1; 2; 1], [a; b])).
  { intros a b A B. split; [left; reflexivity|]. split; [exists 1, 2, 1; repeat split; lia|].
    constructor; [split; [exact A|destruct A as [->| ->]; lra]|]. constructor; [split; [exact B|destruct B as [->| ->]; lra]|]. constructor. }
  assert (S1 : seg_content ABool ([1; 1; 1], [1%Q])).
  { split; [left; reflexivity|]. split; [exists 1, 1, 1; repeat split; lia|]. constructor; [|constructor]. split; [right; reflexivity|lra]. }
  assert (IO : forall a b : Q, image_ok ([1; 2], [a; b])) by (intros a b; left; exists 1, 2; repeat split; lia).
  split; [|split; [|split]].
  - repeat split; try (repeat constructor; discriminate); try discriminate; cbn [r_img r_heat r_seg r_kps photos].
    + constructor; [apply IO|]. constructor; [apply IO|constructor].
    + constructor; [apply HC; lra|]. constructor; [apply HC; lra|constructor].
    + constructor; [apply SC; tauto|]. constructor; [exact S1|constructor].
    + constructor; [constructor|]. constructor; [|constructor]. constructor; [|constructor].
      split; [split; [reflexivity|exact I]|]. repeat (constructor; [apply holds_float32; lia|]). constructor.
  - repeat split; try exact I; cbn [r_heat r_seg r_kps r_bbs r_img sizes photos with_channel map].
    + eexists. split; [reflexivity|]. split; [reflexivity|]. repeat constructor; right; reflexivity.
    + eexists. split; [reflexivity|]. split; [reflexivity|]. repeat constructor; right; reflexivity.
    + eexists. split; reflexivity.
  - unfold act, photos, mirrored. cbn [r_img r_heat r_seg r_kps r_bbs r_pol r_lin x_img x_heat x_seg x_kps x_bbs x_pol x_lin].
    repeat split; try (repeat constructor; discriminate); try discriminate.
    + constructor; [apply IO|]. constructor; [apply IO|constructor].
    + constructor; [apply HC; lra|]. constructor; [apply HC; lra|constructor].
    + constructor; [apply SC; tauto|]. constructor; [exact S1|constructor].
    + constructor; [constructor|]. constructor; [|constructor]. constructor; [|constructor].
      split; [split; [reflexivity|exact I]|]. unfold on_row, shift. cbn [it_coords map].
      change (Qred (inject_Z 3 + 1)) with (inject_Z 4). change (Qred (inject_Z 4 + 1)) with (inject_Z 5).
      repeat (constructor; [apply holds_float32; lia|]). constructor.
  - exact mirror_keeps.
Qed.

(** The inputs are never changed, whatever the augmenter does. *)
Theorem C108_inputs_and_data_are_kept : forall (D : Type) f (b b' : ubatch D), augment_ubatch f b = Ok b' ->
  ub_in b' = ub_in b /\ ub_data b' = ub_data b.
Proof. exact inputs_kept. Qed.
Print Assumptions C108_inputs_and_data_are_kept.
Example photos_augmented : exists b', augment_ubatch (as_performed mirrored) (mkUb (python photos) u_none 42) = Ok b'.
Proof. eexists. apply batch_round_trip; apply mirrored_photos. Qed.

(** An augmented batch cannot be augmented a second time. *)
Theorem C108_augmented_batches_are_rejected : forall (D : Type) f f' (b b' : ubatch D),
  augment_ubatch f b = Ok b' -> ub_out b' <> u_none -> augment_ubatch f' b' = Err AssertionError.
Proof. exact augment_twice. Qed.
Print Assumptions C108_augmented_batches_are_rejected.
Example photos_have_output : python (act mirrored photos) <> u_none.
Proof. intros H. apply (f_equal u_img) in H. discriminate H. Qed.

(** * C109 *)
(** augment() returns one value per argument, in the order of the arguments,
    each in the form of the argument; a single value is returned as such. *)
Theorem C109_results_match_the_arguments : forall x f args, performs x f -> applies x (request_of args) ->
  args <> [] -> NoDup (map kind_no args) ->
  augment_call true f false (map arg_py args) = Ok (results (map (on_arg x) args)).
Proof. exact augment_new_python. Qed.
Print Assumptions C109_results_match_the_arguments.
Definition photo_args : list argument :=
  [GKps (r_kps photos); GSeg (r_seg photos); GImages (r_img photos); GHeat (r_heat photos)].
Example keypoints_first : applies mirrored (request_of photo_args) /\ photo_args <> [] /\ NoDup (map kind_no photo_args).
Proof.
  split; [change (request_of photo_args) with photos; apply mirrored_photos|]. split; [discriminate|].
  repeat constructor; cbn [map kind_no photo_args In]; intuition discriminate.
Qed.

(** An augmenter that changes nothing gives back the arguments. *)
Theorem C109_nothing_changed : forall f args, performs no_change f -> rwell (request_of args) ->
  rsupported (request_of args) -> args <> [] -> NoDup (map kind_no args) ->
  augment_call true f false (map arg_py args) = Ok (results args).
Proof. exact augment_nothing. Qed.
Print Assumptions C109_nothing_changed.
(** [keypoints_first] meets the hypotheses. *)

(** With return_batch: the batch of the arguments and their augmented versions. *)
Theorem C109_returned_batch : forall py36 x f args, performs x f -> applies x (request_of args) ->
  args <> [] -> NoDup (map kind_no args) ->
  augment_call py36 f true (map arg_py args) =
  Ok (RBatch (mkUb (python (request_of args)) (python (act x (request_of args))) tt)).
Proof. exact augment_returns_batch. Qed.
Print Assumptions C109_returned_batch.
(** [keypoints_first] meets the hypotheses. *)

(** Before Python 3.6: one argument, or images and one more; images come first
    whatever the order of the arguments. More arguments, or two without images,
    raise. *)
Theorem C109_old_python : forall x f, performs x f ->
  (forall a, applies x (request_of [a]) -> augment_call false f false [arg_py a] = Ok (results [on_arg x a])) /\
  (forall a b, kind_no a = 0%nat -> kind_no b <> 0%nat -> r_img (request_of [a]) <> VNone ->
     (applies x (request_of [a; b]) ->
        augment_call false f false [arg_py a; arg_py b] = Ok (results [on_arg x a; on_arg x b])) /\
     (applies x (request_of [b; a]) ->
        augment_call false f false [arg_py b; arg_py a] = Ok (results [on_arg x a; on_arg x b]))) /\
  (forall args, NoDup (map kind_no args) ->
     (2 < length args)%nat \/ (length args = 2%nat /\ r_img (request_of args) = VNone) ->
     augment_call false f false (map arg_py args) = Err ValueError).
Proof.
  intros x f P. split; [intros a; exact (augment_old_one x f a P)|]. split; [intros a b; exact (augment_old_two x f a b P)|].
  exact (augment_old_rejects f).
Qed.
Print Assumptions C109_old_python.
Example image_and_segmap :
  let a := GImage (ANum (DU 8)) ([1; 2], [1; 2]%Q) in let b := GSeg (WObjs [mkSeg (mkNd (ANum (DI 32)) [1; 1; 1] [1%Q]) [1; 2; 1] ABool 3]) in
  applies mirrored (request_of [b; a]) /\ kind_no a = 0%nat /\ kind_no b <> 0%nat /\ r_img (request_of [a]) <> VNone.
Proof.
  cbv zeta. split; [|repeat split; discriminate].
  assert (SO : forall v : segmap, v = mkSeg (mkNd (ANum (DI 32)) [1; 1; 1] [1%Q]) [1; 2; 1] ABool 3 -> seg_object v).
  { intros v ->. split; [reflexivity|]. split; [exists 1, 1, 1; repeat split; lia|]. repeat constructor; cbn; lra. }
  assert (IO : forall a b : Q, image_ok ([1; 2], [a; b])) by (intros a b; left; exists 1, 2; repeat split; lia).
  split; [|split; [|split; [|exact mirror_keeps]]].
  - repeat split; try discriminate.
    + constructor; [apply IO|constructor].
    + constructor; [apply SO; reflexivity|constructor].
  - repeat split; exact I.
  - repeat split; try discriminate.
    + constructor; [apply IO|constructor].
    + constructor; [apply SO; reflexivity|constructor].
Qed.
Example three_arguments : NoDup (map kind_no (tl photo_args)) /\ (2 < length (tl photo_args))%nat.
Proof. split; [repeat constructor; cbn; intuition discriminate|cbn; lia]. Qed.

(** No arguments, unknown names, and image= together with images= raise. *)
Theorem C109_bad_calls_raise : forall py36 f rb kw,
  (kw = [] -> augment_call py36 f rb kw = Err AssertionError) /\
  (forall n, In (AUnknown n) kw -> augment_call py36 f rb kw = Err AssertionError) /\
  (forall a v, In (AImage a) kw -> In (AImages v) kw -> augment_call py36 f rb kw = Err AssertionError).
Proof. exact augment_rejects. Qed.
Print Assumptions C109_bad_calls_raise.
Example a_typo : In (AUnknown 5) [AImage (mkNd ABool [1; 1] [1%Q]); AUnknown 5].
Proof. right. left. reflexivity. Qed.

(** * C110 *)
(** The k-th result belongs to the k-th batch: it is what augmenting that batch
    alone gives, has the same form, the same data and the same inputs. *)
Theorem C110_kth_result_from_kth_batch : forall (D : Type) f (bs rs : list (bin D)), augment_batches f bs = Ok rs ->
  length rs = length bs /\
  forall k b, nth_error bs k = Some b -> exists r, nth_error rs k = Some r /\
    augment_batches (fun _ => f k) [b] = Ok [r] /\
    bkind_of r = bkind_of b /\ data_of r = data_of b /\ unaugmented r = unaugmented b.
Proof. exact kth_batch. Qed.
Print Assumptions C110_kth_result_from_kth_batch.
Definition keyed : bin Z := BUnnorm (mkUb (python photos) u_none 42).
Definition points_batch : bin Z := BKps [mkOi [mkItem [1; 2]%Q (Some 9)] [4; 4; 3]].
Example two_batches : exists rs, augment_batches (fun _ => as_performed mirrored) [keyed; points_batch; BEmpty] = Ok rs.
Proof. eexists. vm_compute. reflexivity. Qed.

(** What is returned for each form. *)
Theorem C110_every_form : forall (D : Type) x (f : nat -> inner), (forall k, performs x (f k)) ->
  (forall r (d : D), applies x r ->
     augment_batches f [BUnnorm (mkUb (python r) u_none d)] = Ok [BUnnorm (mkUb (python r) (python (act x r)) d)]) /\
  (forall l, augment_batches f [@BImgs D l] = Ok [BImgs (map (on_content (x_img x)) l)]) /\
  (forall l, Forall heat_object l -> augment_batches f [@BHeats D l] = Ok [BHeats (map (on_heat (x_heat x)) l)]) /\
  (forall l, Forall seg_object l -> augment_batches f [@BSegs D l] = Ok [BSegs (map (on_seg (x_seg x)) l)]) /\
  (forall l, augment_batches f [@BKps D l] = Ok [BKps (map (on_oi (x_kps x)) l)]) /\
  (forall l, augment_batches f [@BBbs D l] = Ok [BBbs (map (on_oi (x_bbs x)) l)]) /\
  (forall l, augment_batches f [@BPols D l] = Ok [BPols (map (on_poi (x_pol x)) l)]) /\
  augment_batches f [@BEmpty D] = Ok [BEmpty].
Proof. exact each_form. Qed.
Print Assumptions C110_every_form.
(** [mirrored_photos] meets the hypotheses. *)

(** With background processes, whatever the order of loading batches and of
    receiving results: the results are those of the received batches, and if
    all are received in order, the same list is returned. Results with an
    unknown index, or received twice, raise. *)
Theorem C110_background_results : forall (D : Type) f (bs rs : list (bin D)) n ks es, augment_batches f bs = Ok rs ->
  execution f bs n ks es ->
  exists s, steps (bstart D) es = Ok s /\ Forall2 (fun k x => nth_error rs k = Some x) ks (s_out s) /\
    (ks = seq 0 (length bs) -> s_out s = rs) /\
    (forall r k, idx_of (nb_data r) = k -> (k < 0 \/ Z.of_nat n <= k \/ In (Z.to_nat k) ks) ->
       steps (bstart D) (es ++ [ERecv r]) = Err AssertionError).
Proof. exact background_outputs. Qed.
Print Assumptions C110_background_results.
(** The second batch overtakes the first one. *)
Example overtaking : exists es, execution (fun _ => as_performed mirrored) [keyed; points_batch] 2 [1; 0]%nat es.
Proof.
  eexists.
  change [1; 0]%nat with ([1] ++ [0])%nat. eapply ex_recv.
  - change [1]%nat with ([] ++ [1])%nat. eapply ex_recv.
    + eapply ex_load; [|reflexivity]. eapply ex_load; [|reflexivity]. apply ex_start.
    + lia.
    + intros [].
    + reflexivity.
    + reflexivity.
    + reflexivity.
  - lia.
  - intros [H|[]]. discriminate H.
  - reflexivity.
  - vm_compute. reflexivity.
  - vm_compute. reflexivity.
Qed.

(** Not true of lists of line strings: they always raise. *)
Theorem C110_line_strings_refuted : forall (D : Type) f l, l <> [] ->
  @augment_batches D f [BLines l] = Err GenericException.
Proof. reflexivity. Qed.
Print Assumptions C110_line_strings_refuted.
Example one_line : [mkPoi [] [4; 4; 3]] <> [].
Proof. discriminate. Qed.

(** Normalizing a batch that already has results raises; otherwise the normalized batch keeps the
    data and has no results yet. *)
Theorem C110_no_results_before : forall {D} (b : ubatch D),
  (u_is_none (ub_out b) = false -> to_normalized_batch b = Err AssertionError) /\
  (forall n, to_normalized_batch b = Ok n -> ub_out b = u_none /\ nb_out n = n_none /\ nb_data n = ub_data b).
Proof.
  intros D [i o d]. unfold to_normalized_batch. cbn [ub_out ub_in ub_data]. split; [intros ->; reflexivity|]. intros n H.
  destruct (u_is_none o) eqn:E; cbn [negb] in H; [|discriminate]. destruct (normalize_cols i); cbn [bind] in H; [|discriminate]. injection H as <-. split; [|split; reflexivity].
  destruct o as [o1 o2 o3 o4 o5 o6 o7]. unfold u_is_none in E. cbn [u_img u_heat u_seg u_kps u_bbs u_pol u_lin] in E.
  destruct o1; try discriminate E. destruct o2; try discriminate E. destruct o3; try discriminate E. destruct o4; try discriminate E.
  destruct o5; try discriminate E. destruct o6; try discriminate E. destruct o7; try discriminate E. reflexivity.
Qed.
Print Assumptions C110_no_results_before.
Example results_of_nothing : to_normalized_batch (mkUb u_none u_none 7) = Ok (mkNb n_none n_none 7).
Proof. reflexivity. Qed.
