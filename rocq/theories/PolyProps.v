(** C106: polygons and line strings in any form. *)
From Coq Require Import Qabs Lia Lqa.
From Verif Require Import Prelude DtyModel DtySpec MapModel NormModel NormSpec NormProofs NormProps
  PolyModel PolySpec PolyProofs.

(** The normalized data of a form holds its objects, image by image; changing
    the points of every object of the normalized data and restoring the form is
    the same as changing them in the input. *)
Theorem C106_forms_are_restored_partial : forall c g v shapes,
  pwell v -> psupported c v -> pwell (on_objects g v) -> penough v shapes ->
  exists n, pnormalize c (to_tv v) shapes = Ok n /\ n = normal_form v shapes /\
            pinvert (paugment g n) (to_tv v) = Ok (to_tv (on_objects g v)).
Proof. exact poly_round_trip. Qed.
Print Assumptions C106_forms_are_restored_partial.
Definition rot (pts : list (list Q)) : list (list Q) := map (@rev Q) pts.
Definition tri : list (list Q) := [[inject_Z 1; inject_Z 2]; [inject_Z 5; inject_Z 2]; [inject_Z 4; inject_Z 7]].
Lemma tri_in : pts_in float32 tri /\ pts_in float32 (rot tri).
Proof. split; repeat constructor; apply holds_float32; lia. Qed.
Lemma tri_open : ~ closed_ring tri.
Proof.
  intros C. apply is_closed_iff in C. vm_compute in C. discriminate C.
Qed.
Example lists_of_polygons :
  let v := GPtLists3 true [[]; [tri; rot tri]] in
  pwell v /\ psupported CPoly v /\ pwell (on_objects rot v) /\ penough v (Some [[8; 8]; [9; 9]]).
Proof.
  cbv zeta. pose proof tri_in as [T1 T2].
  split; [|split; [|split]].
  - split; [discriminate|]. constructor; [constructor|]. constructor; [|constructor]. repeat (constructor; try assumption).
  - split; [intros _; reflexivity|]. constructor; [constructor|]. constructor; [|constructor].
    constructor; [intros _; exact tri_open|]. constructor; [|constructor]. intros _ C. apply is_closed_iff in C. vm_compute in C. discriminate C.
  - split; [discriminate|]. constructor; [constructor|]. constructor; [|constructor].
    constructor; [exact T2|]. constructor; [exact T1|constructor].
  - eexists. split; reflexivity.
Qed.
Example array_of_lines :
  let v := GArray float32 1 3 [[tri]; [rot tri]] in
  pwell v /\ psupported CLine v /\ pwell (on_objects rot v) /\ penough v (Some [[8; 8]; [9; 9]]) /\
  normal_form v (Some [[8; 8]; [9; 9]]) = QOis [mkPoi [mkEnt tri None] [8; 8]; mkPoi [mkEnt (rot tri) None] [9; 9]].
Proof.
  cbv zeta. pose proof tri_in as [T1 T2].
  assert (D : In float32 array_dtypes) by (unfold array_dtypes; cbn [In]; tauto).
  split; [|split; [|split; [|split]]].
  - split; [exact D|]. split; [discriminate|]. split; [lia|].
    constructor; [split; [reflexivity|]; constructor; [split; [reflexivity|exact T1]|constructor]|].
    constructor; [split; [reflexivity|]; constructor; [split; [reflexivity|exact T2]|constructor]|constructor].
  - repeat constructor; discriminate.
  - split; [exact D|]. split; [discriminate|]. split; [lia|].
    constructor; [split; [reflexivity|]; constructor; [split; [reflexivity|exact T2]|constructor]|].
    constructor; [split; [reflexivity|]; constructor; [split; [reflexivity|exact T1]|constructor]|constructor].
  - eexists. split; reflexivity.
  - reflexivity.
Qed.

(** Without a change, the input comes back. *)
Theorem C106_unchanged : forall c v shapes, pwell v -> psupported c v -> penough v shapes ->
  pnormalize c (to_tv v) shapes = Ok (normal_form v shapes) /\
  pinvert (normal_form v shapes) (to_tv v) = Ok (to_tv v).
Proof. exact unchanged. Qed.
Print Assumptions C106_unchanged.

(** A number of image shapes that differs from the number of images is an error. *)
Theorem C106_number_of_images : forall c v n shapes, pwell v -> pimages_needed v = Some n ->
  (forall ss, shapes = Some ss -> length ss <> n) -> pnormalize c (to_tv v) shapes = Err ValueError.
Proof. exact wrong_shapes. Qed.
Print Assumptions C106_number_of_images.
Example two_shapes_for_one_polygon : pwell (GPts false tri) /\ pimages_needed (GPts false tri) = Some 1%nat /\
  pnormalize CPoly (to_tv (GPts false tri)) (Some [[8; 8]; [9; 9]]) = Err ValueError.
Proof. split; [split; [discriminate|apply tri_in]|]. split; reflexivity. Qed.

(** Line strings cannot be given as Keypoints, although they are documented as a form. *)
Theorem C106_keypoints_as_lines_refuted : forall pts s, pwell (GPts true pts) ->
  pnormalize CLine (to_tv (GPts true pts)) (Some [s]) = Err TypeError_.
Proof. exact keypoint_lines. Qed.
Print Assumptions C106_keypoints_as_lines_refuted.
Example tri_is_well_formed : pwell (GPts true tri).
Proof. split; [discriminate|apply tri_in]. Qed.

(** A polygon as a tuple of points is not accepted, a line string is. *)
Theorem C106_tuple_of_points_refuted : forall pts s, pts <> [] -> Forall (fun p => length p = 2%nat) pts ->
  pnormalize CPoly (TSeq true (map pt_tuple pts)) (Some [s]) = Err AssertionError.
Proof. exact tuple_polygon. Qed.
Print Assumptions C106_tuple_of_points_refuted.
Example line_as_tuple :
  pnormalize CLine (TSeq true (map pt_tuple tri)) (Some [[8; 8]]) = Ok (QOis [mkPoi [mkEnt tri None] [8; 8]]).
Proof. reflexivity. Qed.

(** A polygon that repeats its first point at the end loses its last point, even
    if nothing is augmented. *)
Theorem C106_closed_polygon_refuted : forall kp pts s, pwell (GPts kp pts) -> closed_ring pts ->
  exists n, pnormalize CPoly (to_tv (GPts kp pts)) (Some [s]) = Ok n /\
            pinvert n (to_tv (GPts kp pts)) = Ok (to_tv (GPts kp (removelast pts))).
Proof.
  intros kp pts s W C. exists (normal_form (GPts kp (removelast pts)) (Some [s])).
  split; [apply closed_dropped; assumption|apply closed_back; assumption].
Qed.
Print Assumptions C106_closed_polygon_refuted.
Example closed_triangle : closed_ring (tri ++ [[inject_Z 1; inject_Z 2]]) /\
  pwell (GPts false (tri ++ [[inject_Z 1; inject_Z 2]])) /\ removelast (tri ++ [[inject_Z 1; inject_Z 2]]) = tri.
Proof.
  split; [apply is_closed_iff; reflexivity|]. split; [|reflexivity].
  split; [discriminate|]. repeat constructor; apply holds_float32; lia.
Qed.

(** An array of n images without any polygon is accepted but cannot be restored. *)
Theorem C106_empty_array_refuted : forall c (d : dtype) n p ss, (1 <= n)%nat -> length ss = n ->
  let a := TArr (mkNd (ANum d) [Z.of_nat n; 0; Z.of_nat p; 2] []) in
  exists m, pnormalize c a (Some ss) = Ok m /\ exists e, pinvert m a = Err e.
Proof. exact no_polygons. Qed.
Print Assumptions C106_empty_array_refuted.
