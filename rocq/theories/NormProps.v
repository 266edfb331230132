(** C38: normalizing inputs and restoring outputs. *)
From Verif Require Import Prelude DtyModel DtySpec MapModel NormModel NormSpec NormProofs.
From Coq Require Import Lia Lqa.
Local Open Scope Q_scope.

(** Whatever the form of the keypoints or bounding boxes and the number of
    images: changing every item of the normalized data and restoring the form
    is the same as changing every item of the input. *)
Theorem C38_forms_are_restored_partial : forall c g v shapes,
  well_formed c v -> supported v -> well_formed c (on_items g v) -> enough_shapes v shapes ->
  exists n, normalize c (to_py c v) shapes = Ok n /\
            invert_normalize c (augment g n) (to_py c v) = Ok (to_py c (on_items g v)).
Proof. exact round_trip. Qed.
Print Assumptions C38_forms_are_restored_partial.
(** Two images with lists of keypoint tuples, one of them empty, shifted; and
    a list of two int64 arrays of boxes. *)
Definition shift (i : item) : item := mkItem (map (fun q => Qred (q + 1)) (it_coords i)) (it_label i).
Lemma holds_int : forall (d : dtype) (lo hi n : Z), int_range d lo hi -> (lo <= n <= hi)%Z -> (Z.abs n <= 2 ^ 24)%Z ->
  is_float d = false -> holds d (inject_Z n).
Proof.
  intros d lo hi n R N A F. split.
  - unfold Qred, inject_Z. pose proof (Z.ggcd_gcd n 1) as G. pose proof (Z.ggcd_correct_divisors n 1) as D.
    destruct (Z.ggcd n 1) as [gg [a b]]. cbn [fst snd] in *. rewrite Z.gcd_1_r in G. subst gg.
    destruct D as [D1 D2]. rewrite Z.mul_1_l in D1, D2. subst a b. reflexivity.
  - destruct d; [| |discriminate F]; exists n, lo, hi; repeat split; try assumption; lia.
Qed.
Lemma holds_float32 : forall n, (Z.abs n < 2 ^ 24)%Z -> holds float32 (inject_Z n).
Proof.
  intros n A. split.
  - apply (holds_int (DI 32) (- 2 ^ 31) (2 ^ 31 - 1) n); [constructor; lia|lia|lia|reflexivity].
  - split; [|split].
    + exists n, 0%Z. split; [|lia]. unfold pow2, Qpower. ring.
    + split; [|rewrite <- Zle_Qle; lia]. rewrite <- inject_Z_opp, <- Zle_Qle. lia.
    + split; [|rewrite <- Zle_Qle; lia]. rewrite <- inject_Z_opp, <- Zle_Qle. lia.
Qed.
Example two_images_of_tuples :
  let v := FTupleLists [[]; [[inject_Z 3; inject_Z 4]; [inject_Z 5; inject_Z 6]]] in
  well_formed CKeypoint v /\ supported v /\ well_formed CKeypoint (on_items shift v) /\
  enough_shapes v (Some [[8; 8]; [9; 9]]%Z) /\
  to_py CKeypoint (on_items shift v) =
    PSeq false [PSeq false []; PSeq false [PSeq true [PNum 4; PNum 5]; PSeq true [PNum 6; PNum 7]]].
Proof.
  cbv zeta. split; [|split; [exact I|split; [|split]]].
  - split; [discriminate|]. repeat constructor; apply holds_float32; lia.
  - split; [discriminate|]. cbn [on_items map]. unfold on_row, shift. cbn [it_coords map].
    change (Qred (inject_Z 3 + 1)) with (inject_Z 4). change (Qred (inject_Z 4 + 1)) with (inject_Z 5).
    change (Qred (inject_Z 5 + 1)) with (inject_Z 6). change (Qred (inject_Z 6 + 1)) with (inject_Z 7).
    repeat constructor; apply holds_float32; lia.
  - eexists. split; reflexivity.
  - reflexivity.
Qed.
Example int64_boxes :
  let v := FArrays [(DI 64, [[inject_Z 1; inject_Z 2; inject_Z 3; inject_Z 4]]); (DI 64, [])] in
  well_formed CBox v /\ supported v /\ enough_shapes v (Some [[8; 8]; [9; 9]]%Z).
Proof.
  cbv zeta. split; [|split].
  - assert (D : In (DI 64) array_dtypes) by (unfold array_dtypes; cbn [In]; tauto).
    assert (H : forall n, (0 <= n <= 9)%Z -> holds (DI 64) (inject_Z n)).
    { intros n N. apply (holds_int (DI 64) (- 2 ^ 63) (2 ^ 63 - 1)); [constructor; lia|lia|lia|reflexivity]. }
    split; [discriminate|].
    constructor; [|constructor; [|constructor]]; (split; [exact D|]); cbn [snd fst]; [|constructor].
    constructor; [|constructor]. split; [split; [reflexivity|cbn [ordered]; rewrite <- !Zle_Qle; lia]|].
    repeat (constructor; [apply H; lia|]). constructor.
  - exists (DI 64). repeat constructor.
  - eexists. split; reflexivity.
Qed.

(** Restoring unchanged data gives back the input. *)
Theorem C38_identity_returns_the_input_partial : forall c v shapes,
  well_formed c v -> supported v -> enough_shapes v shapes ->
  exists n, normalize c (to_py c v) shapes = Ok n /\ invert_normalize c n (to_py c v) = Ok (to_py c v).
Proof. exact identity_round_trip. Qed.
Print Assumptions C38_identity_returns_the_input_partial.
(** [two_images_of_tuples] and [int64_boxes] meet the hypotheses. *)
Example one_box_tuple :
  let v := FTuple [1; 2; 3; 5 # 2] in
  well_formed CBox v /\ supported v /\ enough_shapes v (Some [[10; 10]]%Z).
Proof. cbv zeta. split; [|split; [exact I|eexists; split; reflexivity]]. split; [reflexivity|]. cbn [ordered]. lra. Qed.

(** A wrong number of images (or none) raises, for all forms that need to know
    the image shapes. *)
Theorem C38_wrong_number_of_images_raises : forall c v shapes n,
  well_formed c v -> images_needed v = Some n -> (forall l, shapes = Some l -> length l <> n) ->
  normalize c (to_py c v) shapes = Err ValueError.
Proof. exact wrong_shapes. Qed.
Print Assumptions C38_wrong_number_of_images_raises.
Example tuples_for_two_images : (* several (x,y) tuples are for a single image *)
  let v := FTuples [[1; 2]; [3; 4]] in
  well_formed CKeypoint v /\ images_needed v = Some 1%nat /\
  (forall l, Some [[8; 8]; [9; 9]]%Z = Some l -> length l <> 1%nat).
Proof.
  cbv zeta. split; [|split; [reflexivity|intros l H; injection H as <-; discriminate]].
  split; [discriminate|]. repeat constructor.
Qed.

(** Not true of arrays for several images (or none): the form is accepted and
    normalized to one container per image, but restoring always fails. *)
Theorem C38_arrays_for_several_images_refuted : forall c d k mats ss,
  well_formed c (FArray d k mats) -> length ss = length mats -> length mats <> 1%nat ->
  exists l, normalize c (to_py c (FArray d k mats)) (Some ss) = Ok (NOis l) /\ length l = length mats /\
    forall g, invert_normalize c (augment g (NOis l)) (to_py c (FArray d k mats)) = Err AssertionError.
Proof. exact several_images. Qed.
Print Assumptions C38_arrays_for_several_images_refuted.
Example two_images_array :
  let v := FArray (DU 8) 1 [[[inject_Z 1; inject_Z 2]]; [[inject_Z 3; inject_Z 4]]] in
  well_formed CKeypoint v.
Proof.
  cbv zeta. split; [left; reflexivity|]. repeat constructor;
    apply (holds_int (DU 8) 0 (2 ^ 8 - 1)); try (constructor; lia); try lia; reflexivity.
Qed.

(** Not true of lists of arrays with different dtypes: all arrays get the dtype
    of the first one. Keypoint (1/2, 3/2) comes back as (0, 2). *)
Theorem C38_mixed_dtypes_refuted : exists v n,
  well_formed CKeypoint v /\ enough_shapes v (Some [[8; 8]; [8; 8]]%Z) /\
  normalize CKeypoint (to_py CKeypoint v) (Some [[8; 8]; [8; 8]]%Z) = Ok n /\
  exists a b, invert_normalize CKeypoint n (to_py CKeypoint v) = Ok (PSeq false [PArr a; PArr b]) /\
    n_dt b = ANum (DU 8) /\ n_flat b = [0; 2].
Proof.
  exists (FArrays [(DU 8, [[inject_Z 1; inject_Z 2]]); (DF 24 104, [[1 # 2; 3 # 2]])]).
  eexists. split; [|split; [|split; [vm_compute; reflexivity|]]].
  - assert (H : forall n, (0 <= n <= 9)%Z -> holds (DU 8) (inject_Z n)).
    { intros n N. apply (holds_int (DU 8) 0 (2 ^ 8 - 1)); [constructor; lia|lia|lia|reflexivity]. }
    split; [discriminate|].
    constructor; [|constructor; [|constructor]]; (split; [unfold array_dtypes; cbn [In fst]; tauto|]); cbn [snd fst];
      (constructor; [|constructor]); (split; [split; [reflexivity|exact I]|]).
    + repeat (constructor; [apply H; lia|]). constructor.
    + constructor; [|constructor; [|constructor]]; (split; [reflexivity|]).
      * split; [exists 1%Z, (-1)%Z; split; [reflexivity|lia]|split; split; vm_compute; discriminate].
      * split; [exists 3%Z, (-1)%Z; split; [reflexivity|lia]|split; split; vm_compute; discriminate].
  - eexists. split; reflexivity.
  - eexists. eexists. split; [vm_compute; reflexivity|]. split; reflexivity.
Qed.
Print Assumptions C38_mixed_dtypes_refuted.

(** Not true of boxes with x1 > x2 or y1 > y2: they are reordered. *)
Theorem C38_inverted_boxes_refuted :
  exists n, normalize CBox (PSeq true [PNum 5; PNum 1; PNum 2; PNum 3]) (Some [[8; 8]]%Z) = Ok n /\
  invert_normalize CBox n (PSeq true [PNum 5; PNum 1; PNum 2; PNum 3]) = Ok (PSeq true [PNum 2; PNum 1; PNum 5; PNum 3]).
Proof. eexists. split; vm_compute; reflexivity. Qed.
Print Assumptions C38_inverted_boxes_refuted.

(** Images in every supported form come back unchanged. *)
Theorem C38_images_come_back : forall v, images_ok v ->
  exists n, normalize_images v = Ok n /\ invert_normalize_images n v = Ok v.
Proof. exact images_round_trip. Qed.
Print Assumptions C38_images_come_back.
Example gray_and_colour :
  images_ok (IList [mkNd (ANum (DU 8)) [1; 2]%Z [1; 2]; mkNd (ANum (DU 8)) [1; 1; 3]%Z [1; 2; 3]]).
Proof. constructor; [left; reflexivity|]. constructor; [right; reflexivity|constructor]. Qed.

(** Images whose content or size was changed come back in the form of the
    inputs: two-dimensional where the input was, in the same order. *)
Theorem C38_image_lists_keep_their_form : forall news olds, Forall2 image_fits news olds ->
  Forall (fun a => dims a = 2%nat \/ dims a = 3%nat) olds ->
  exists outs, invert_normalize_images (IList news) (IList olds) = Ok (IList outs) /\ length outs = length olds /\
    forall i, (i < length olds)%nat ->
      image_result (nth i news (mkNd AObj [] [])) (nth i outs (mkNd AObj [] [])) (nth i olds (mkNd AObj [] [])).
Proof. exact invert_list_ok. Qed.
Print Assumptions C38_image_lists_keep_their_form.
Example cropped_gray :
  Forall2 image_fits [mkNd (ANum (DU 8)) [1; 1; 1]%Z [2]] [mkNd (ANum (DU 8)) [1; 2]%Z [1; 2]].
Proof. repeat constructor. Qed.

(** The same for an input array whose images ended up with different sizes. *)
Theorem C38_image_arrays_become_lists : forall old n s news,
  n_shape old = Z.of_nat n :: s -> (length s = 2 \/ length s = 3)%nat -> length news = n ->
  Forall (fun a => dims a = 3%nat /\ (length s = 2%nat -> nth 2 (n_shape a) 0 = 1)%Z) news ->
  exists outs, invert_normalize_images (IList news) (IArr old) = Ok (IList outs) /\
    Forall2 (fun new out => n_dt out = n_dt new /\ n_flat out = n_flat new /\ dims out = length s /\
                            firstn 2 (n_shape out) = firstn 2 (n_shape new)) news outs.
Proof. exact array_with_list_result. Qed.
Print Assumptions C38_image_arrays_become_lists.
Example two_gray_images :
  let old := mkNd (ANum (DU 8)) [2; 1; 2]%Z [1; 2; 3; 4] in
  let news := [mkNd (ANum (DU 8)) [1; 2; 1]%Z [1; 2]; mkNd (ANum (DU 8)) [1; 1; 1]%Z [3]] in
  invert_normalize_images (IList news) (IArr old) =
    Ok (IList [mkNd (ANum (DU 8)) [1; 2]%Z [1; 2]; mkNd (ANum (DU 8)) [1; 1]%Z [3]]).
Proof. vm_compute. reflexivity. Qed.
