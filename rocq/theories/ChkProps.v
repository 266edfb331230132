(** C111-C113: AssertShape, Lambda and AssertLambda, RemoveCBAsByOutOfImageFraction and
    ClipCBAsToImagePlanes. *)
From Coq Require Import Qreals Reals.
From Verif Require Import Prelude PreludeFacts GeoModel GeoSpec GeoProofs LineModel LineSpec LineClip LineBox LineRest LineLen
  ChkModel ChkSpec ChkProofs.
From Coq Require Import Lia Lqa.

(** ** C111: AssertShape *)

(** AssertShape lets a batch through, unchanged, if and only if the items of every checked column
    that is not empty fit: their number is allowed by the first entry, and height, width (and, for
    images, channels) of each are allowed by the other entries. *)
Theorem C111_passes_exactly_what_fits : forall {V} inst shape_of target checked (b b' : list (option (list V))),
  length target = 4%nat -> (forall i l, holds b i l -> i <> 0%nat -> forallb (inst i) l = true) ->
  (assert_shape inst shape_of target checked b = Ok b' <->
   b' = b /\ forall i x l, holds b i (x :: l) -> checked i = true ->
     fits (if Nat.eqb i 0 then target else firstn 3 target) (map (shape_of i) (x :: l))).
Proof.
  intros V inst shape_of target checked b b' L C. unfold assert_shape. rewrite L. cbn [Nat.eqb negb]. unfold lambda_. split.
  - intros E. apply each_column_id in E; [|apply shape_column_id]. destruct E as [-> H]. split; [reflexivity|].
    intros i x l I K. specialize (H i x l I). rewrite shape_column in H by (intros N; apply (C i _ I N)). rewrite K in H.
    apply bind_ok in H. destruct H as ([] & H & _). apply check_shapes_ok. exact H.
  - intros [-> H]. apply each_column_same. intros i x l I. rewrite shape_column by (intros N; apply (C i _ I N)).
    destruct (checked i) eqn:K; [|reflexivity]. specialize (H i x l I K). apply check_shapes_ok in H. rewrite H. reflexivity.
Qed.
Print Assumptions C111_passes_exactly_what_fits.

(** Otherwise it raises an AssertionError (for entries as documented and items with the needed
    number of dimensions). *)
Theorem C111_otherwise_assertion_error : forall {V} inst shape_of target checked (b : list (option (list V))),
  Forall documented target -> length target = 4%nat ->
  (forall i l, holds b i l -> i <> 0%nat -> forallb (inst i) l = true) ->
  (forall i l v, holds b i l -> In v l -> ((if Nat.eqb i 0 then 3 else 2) <= length (shape_of i v))%nat) ->
  ~ (forall i x l, holds b i (x :: l) -> checked i = true ->
       fits (if Nat.eqb i 0 then target else firstn 3 target) (map (shape_of i) (x :: l))) ->
  assert_shape inst shape_of target checked b = Err AssertionError.
Proof.
  intros V inst shape_of target checked b D L C S N. destruct (assert_shape inst shape_of target checked b) as [b'|e] eqn:E.
  - apply C111_passes_exactly_what_fits in E; [|exact L|exact C]. contradiction (N (proj2 E)).
  - unfold assert_shape in E. rewrite L in E. cbn [Nat.eqb negb] in E. apply each_column_err in E. destruct E as (i & x & l & I & E). cbn [Nat.add] in E.
    rewrite shape_column in E by (intros N'; apply (C i _ I N')). destruct (checked i); [|discriminate E].
    destruct (check_shapes_err (map (shape_of i) (x :: l)) (if Nat.eqb i 0 then target else firstn 3 target)) as [X|X].
    + destruct target; [discriminate L|]. destruct (Nat.eqb i 0); discriminate.
    + destruct (Nat.eqb i 0); [exact D|]. destruct target as [|t1 [|t2 [|t3 target]]]; try discriminate L.
      inversion D as [|? ? D1 D']; subst. inversion D' as [|? ? D2 D'']; subst. inversion D''; subst. repeat constructor; assumption.
    + apply Forall_forall. intros s J. apply in_map_iff in J. destruct J as (v & <- & J). specialize (S i _ v I J).
      destruct target as [|t1 [|t2 [|t3 [|t4 [|t5 target]]]]]; try discriminate L. destruct (Nat.eqb i 0); cbn [length firstn]; lia.
    + rewrite X in E. discriminate E.
    + rewrite X in E. cbn [bind] in E. congruence.
Qed.
Print Assumptions C111_otherwise_assertion_error.
(** The shape must have four entries. *)
Theorem C111_four_entries : forall {V} inst shape_of target checked (b : list (option (list V))),
  length target <> 4%nat -> assert_shape inst shape_of target checked b = Err AssertionError.
Proof. intros V inst shape_of target checked b N. unfold assert_shape. apply Nat.eqb_neq in N. rewrite N. reflexivity. Qed.
Print Assumptions C111_four_entries.
(** One image of shape (4, 5, 3) and a heatmap of shape (4, 5, 1): the entry for channels does not
    concern the heatmap. *)
Example C111_ex : let b := [Some [[4; 5; 3]]; Some [[4; 5; 1]]; None; Some []]%Z in
  let go t := assert_shape (fun _ _ => true) (fun _ v => v) t (fun _ => true) b in
  go [DNone; DInt 4; DTuple [5; 6]; DList [1; 3]]%Z = Ok b /\
  go [DNone; DInt 4; DTuple [4; 5]; DList [1; 3]]%Z = Err AssertionError /\
  go [DInt 2; DNone; DNone; DNone]%Z = Err AssertionError.
Proof. repeat split; reflexivity. Qed.
(** Finding: a column without items is not looked at, so AssertShape cannot demand that there are
    any: with an expected number of items of 4, a batch of no items passes. *)
Theorem C111_number_of_items_of_empty_columns_refuted : forall {V} inst (shape_of : nat -> V -> list Z) checked t1 t2 t3 (b : list (option (list V))),
  (forall i l, holds b i l -> l = []) ->
  assert_shape inst shape_of [DInt 4%Z; t1; t2; t3] checked b = Ok b /\ ~ allows (DInt 4) 0.
Proof.
  intros V inst shape_of checked t1 t2 t3 b H. split; [|discriminate].
  apply C111_passes_exactly_what_fits; [reflexivity|intros i l I _; rewrite (H i l I); reflexivity|].
  split; [reflexivity|]. intros i x l I. specialize (H i _ I). discriminate H.
Qed.
Print Assumptions C111_number_of_items_of_empty_columns_refuted.

(** ** C112: Lambda and AssertLambda *)

(** Lambda gives exactly what the functions give, column by column; columns without function,
    without items or absent are not changed. Results other than images must be items of the right
    class. *)
Theorem C112_lambda_applies_the_functions : forall {V} inst funcs (b b' : list (option (list V))),
  lambda_ inst funcs b = Ok b' <->
  length b' = length b /\
  forall i, (forall x l f, holds b i (x :: l) -> funcs i = Some f ->
               exists l', f (x :: l) = Ok (Items l') /\ holds b' i l' /\ (i <> 0%nat -> Forall (fun v => inst i v = true) l')) /\
            (forall x l, holds b i (x :: l) -> funcs i = None -> holds b' i (x :: l)) /\
            (holds b i [] -> holds b' i []) /\ (nth_error b i = Some None -> nth_error b' i = Some None).
Proof.
  intros V inst funcs b b'. unfold lambda_. rewrite each_column_ok. cbn [Nat.add]. unfold holds.
  split; intros [L H]; (split; [exact L|]); intros i; specialize (H i).
  - destruct H as (H1 & H2 & H3). split; [|split; [|split; [exact H3|exact H2]]].
    + intros x l f E F. destruct (H1 x l E) as (v & A & B). unfold lambda_column in A. rewrite F in A. apply bind_ok in A. destruct A as ([|l'] & A & A').
      { discriminate A'. }
      exists l'. split; [exact A|]. destruct i; cbn in A'; [injection A' as <-; split; [exact B|congruence]|].
      destruct (forallb (inst (S i)) l') eqn:X; [|discriminate A']. injection A' as <-. split; [exact B|]. intros _. apply Forall_forall.
      apply forallb_forall. exact X.
    + intros x l E F. destruct (H1 x l E) as (v & A & B). unfold lambda_column in A. rewrite F in A. injection A as <-. exact B.
  - destruct H as (H1 & H2 & H3 & H4). split; [|split; assumption]. intros x l E. unfold lambda_column. destruct (funcs i) as [f|] eqn:F.
    + destruct (H1 x l f E eq_refl) as (l' & A & B & C). exists l'. rewrite A. cbn [bind]. split; [|exact B]. destruct i; [reflexivity|]. cbn [Nat.eqb].
      assert (X : forallb (inst (S i)) l' = true).
      { apply forallb_forall. apply Forall_forall. apply C. discriminate. }
      rewrite X. reflexivity.
    + exists (x :: l). split; [reflexivity|]. apply H2; [exact E|reflexivity].
Qed.
Print Assumptions C112_lambda_applies_the_functions.
(** If no function raises anything itself, the only exception is an AssertionError. *)
Theorem C112_lambda_raises_only_assertion_errors : forall {V} inst funcs (b : list (option (list V))) e,
  (forall i f l, funcs i = Some f -> exists r, f l = Ok r) -> lambda_ inst funcs b = Err e -> e = AssertionError.
Proof.
  intros V inst funcs b e H E. apply each_column_err in E. destruct E as (i & x & l & _ & E). unfold lambda_column in E. cbn [Nat.add] in E.
  destruct (funcs i) as [f|] eqn:F; [|discriminate E]. destruct (H i f (x :: l) F) as (r & X). rewrite X in E. cbn [bind] in E.
  destruct r; [congruence|]. destruct (Nat.eqb i 0); [discriminate E|]. destruct (forallb _ _); [discriminate E|congruence].
Qed.
Print Assumptions C112_lambda_raises_only_assertion_errors.
(** Without functions nothing is changed. *)
Theorem C112_lambda_without_functions : forall {V} inst (b : list (option (list V))), lambda_ inst (fun _ => None) b = Ok b.
Proof. intros V inst b. apply each_column_same. reflexivity. Qed.
Print Assumptions C112_lambda_without_functions.
Example C112_ex1 : let f := fun l : list Z => Ok (Items (map (fun v => v + 1) l))%Z in
  lambda_ (fun _ v => (v <? 10)%Z) (fun i => if Nat.eqb i 1 then None else Some f) [Some [20; 3]; Some [4]; None; Some []; Some [5]]%Z
    = Ok [Some [21; 4]; Some [4]; None; Some []; Some [6]]%Z /\
  lambda_ (fun _ v => (v <? 10)%Z) (fun _ => Some f) [Some [20; 3]; Some [9]]%Z = Err AssertionError /\
  lambda_ (fun _ v => (v <? 10)%Z) (fun _ => Some (fun _ => Ok NotIterable)) [None; Some [9]]%Z = Err AssertionError.
Proof. repeat split; reflexivity. Qed.

(** AssertLambda never changes anything: it gives the batch back if the conditions hold for all
    columns with items, otherwise an AssertionError. *)
Theorem C112_assert_lambda : forall {V} inst (preds : nat -> option (list V -> bool)) (b : list (option (list V))),
  (forall i l, holds b i l -> i <> 0%nat -> forallb (inst i) l = true) ->
  let run := assert_lambda inst (fun i => match preds i with Some p => Some (fun l => Ok (p l)) | None => None end) b in
  let all_hold := forall i x l p, holds b i (x :: l) -> preds i = Some p -> p (x :: l) = true in
  (all_hold -> run = Ok b) /\ (~ all_hold -> run = Err AssertionError).
Proof.
  intros V inst preds b C run all_hold.
  assert (X : forall i l, holds b i l -> lambda_column inst
     (fun i => match (match preds i with Some p => Some (fun l => Ok (p l)) | None => None end) with Some p => Some (assert_callback p) | None => None end) i l =
     match preds i with Some p => if p l then Ok l else Err AssertionError | None => Ok l end).
  { intros i l I. unfold lambda_column, assert_callback. destruct (preds i) as [p|]; [|reflexivity]. cbn [bind]. destruct (p l); [|reflexivity]. cbn [bind].
    destruct i; [reflexivity|]. cbn [Nat.eqb]. rewrite (C _ _ I) by discriminate. reflexivity. }
  split; intros H.
  - apply each_column_same. intros i x l I. rewrite (X i _ I). destruct (preds i) as [p|] eqn:P; [|reflexivity]. rewrite (H i x l p I P). reflexivity.
  - destruct run as [b'|e] eqn:E.
    + exfalso. apply H. apply each_column_id in E; [|apply assert_column]. destruct E as [-> E]. intros i x l p I P. specialize (E i x l I).
      rewrite (X i _ I), P in E. destruct (p (x :: l)); [reflexivity|discriminate E].
    + apply each_column_err in E. destruct E as (i & x & l & I & E). cbn [Nat.add] in E. rewrite (X i _ I) in E.
      destruct (preds i) as [p|]; [|discriminate E]. destruct (p (x :: l)); congruence.
Qed.
Print Assumptions C112_assert_lambda.
Example C112_ex2 : let p := fun l : list Z => Nat.ltb (length l) 3 in
  assert_lambda (fun _ _ => true) (fun i => if Nat.eqb i 0 then Some (fun l => Ok (p l)) else None) [Some [20; 3]; Some [4; 4; 4]]%Z = Ok [Some [20; 3]; Some [4; 4; 4]]%Z /\
  assert_lambda (fun _ _ => true) (fun _ => Some (fun l => Ok (p l))) [Some [20; 3]; Some [4; 4; 4]]%Z = Err AssertionError.
Proof. split; reflexivity. Qed.

(** With a function for keypoints that moves every point on its own, bounding boxes become the
    smallest boxes around their moved corners; labels and image shapes are kept. *)
Theorem C112_boxes_follow_keypoints : forall (h : kpsoi -> keypoint -> keypoint) l,
  exists l', boxes_as_keypoints (Some (fun ks => Ok (map (fun k => mkKpsoi (map (h k) (kps k)) (kps_shape k)) ks))) l = Ok l' /\
    Forall2 (fun o o' => bbs_shape o' = bbs_shape o /\
      Forall2 (fun i i' => label i' = label i /\ let g := h (bbsoi_to_keypoints o) in
        smallest_box_around i' [g (mkKp (x1 i) (y1 i)); g (mkKp (x2 i) (y1 i)); g (mkKp (x2 i) (y2 i)); g (mkKp (x1 i) (y2 i))])
        (bbs o) (bbs o')) l l'.
Proof. exact boxes_pointwise. Qed.
Print Assumptions C112_boxes_follow_keypoints.
(** The points of line strings are moved one by one; labels and image shapes are kept. *)
Theorem C112_line_strings_follow_keypoints : forall (h : kpsoi -> keypoint -> keypoint) l,
  lines_as_keypoints (Some (fun ks => Ok (map (fun k => mkKpsoi (map (h k) (kps k)) (kps_shape k)) ks))) l =
  Ok (map (fun o => mkLsoi (map (fun ls => mkLine (map (fun p => let k := h (lines_to_keypoints o) (mkKp (fst p) (snd p)) in (kx k, ky k)) (coords ls)) (ls_label ls))
                                (line_strings o)) (lsoi_shape o)) l).
Proof. exact lines_pointwise. Qed.
Print Assumptions C112_line_strings_follow_keypoints.
Example C112_ex3 : boxes_as_keypoints (Some (fun ks => Ok (map (fun k => mkKpsoi (map (fun p => mkKp (- kx p) (ky p)) (kps k)) (kps_shape k)) ks)))
    [mkBbsoi [mkBB 1 2 3 4 (Some 7%Z)] (9, 9)%Z] = Ok [mkBbsoi [mkBB (-(3)) 2 (-(1)) 4 (Some 7%Z)] (9, 9)%Z].
Proof. reflexivity. Qed.
(** Without a function, line strings stay as they are and bounding boxes become the smallest boxes
    around their corners. *)
Theorem C112_without_keypoint_function : forall (l : list bbsoi) (ls : list lsoi),
  lines_as_keypoints None ls = Ok ls /\
  exists l', boxes_as_keypoints None l = Ok l' /\
    Forall2 (fun o o' => bbs_shape o' = bbs_shape o /\
      Forall2 (fun i i' => label i' = label i /\ smallest_box_around i' [mkKp (x1 i) (y1 i); mkKp (x2 i) (y1 i); mkKp (x2 i) (y2 i); mkKp (x1 i) (y2 i)])
        (bbs o) (bbs o')) l l'.
Proof.
  intros l ls.
  assert (I : forall ks, map (fun k => mkKpsoi (map (fun p => p) (kps k)) (kps_shape k)) ks = ks).
  { intros ks. rewrite <- (map_id ks) at 2. apply map_ext. intros [k s]. cbn [kps kps_shape]. rewrite map_id. reflexivity. }
  split.
  - pose proof (lines_pointwise (fun _ p => p) ls) as H. unfold lines_as_keypoints, lambda_keypoints in *. cbn [bind] in *. rewrite I in H. rewrite H. f_equal.
    rewrite <- (map_id ls) at 2. apply map_ext. intros [o s]. cbn [line_strings lsoi_shape]. f_equal. rewrite <- (map_id o) at 2. apply map_ext. intros [c lb]. cbn [coords ls_label]. f_equal. rewrite <- (map_id c) at 2. apply map_ext. intros [x y]. reflexivity.
  - destruct (boxes_pointwise (fun _ p => p) l) as (l' & E & F). exists l'. unfold boxes_as_keypoints, lambda_keypoints in *. cbn [bind] in *. rewrite I in E. split; [exact E|exact F].
Qed.
Print Assumptions C112_without_keypoint_function.
(** Finding: if the function gives fewer containers than it was given, the rest is lost without an
    error (boxes and line strings). *)
Theorem C112_short_results_refuted : forall (o1 o2 : bbsoi) (s1 s2 : lsoi),
  (exists r, boxes_as_keypoints (Some (fun ks => Ok (firstn 1 ks))) [o1; o2] = Ok [r]) /\
  (exists r, lines_as_keypoints (Some (fun ks => Ok (firstn 1 ks))) [s1; s2] = Ok [r]).
Proof.
  intros o1 o2 s1 s2. split.
  - destruct (bbsoi_map_keypoints o1 (fun k => k)) as (r & E & _). rewrite map_id in E. exists r. unfold boxes_as_keypoints. cbn -[bbsoi_invert_to_keypoints bbsoi_to_keypoints].
    unfold mapM. cbn -[bbsoi_invert_to_keypoints bbsoi_to_keypoints]. change (bbsoi_to_keypoints o1) with (mkKpsoi (kps (bbsoi_to_keypoints o1)) (bbs_shape o1)). rewrite E. reflexivity.
  - pose proof (lines_pointwise (fun _ k => k) [s1]) as E. unfold lines_as_keypoints in *. cbn -[lsoi_invert_to_keypoints lines_to_keypoints] in *. unfold mapM in *.
    cbn -[lsoi_invert_to_keypoints lines_to_keypoints] in *. rewrite map_id in E.
    destruct (lsoi_invert_to_keypoints _ _ _) as [r|]; [exists r; reflexivity|discriminate E].
Qed.
Print Assumptions C112_short_results_refuted.

(** With a function for bounding boxes: boxes of the given objects that are given back have their
    corners put in order (same area, same label). *)
Theorem C112_given_boxes_are_ordered : forall f l inputs_after ks l',
  f l = Ok (inputs_after, map Given ks) -> lambda_boxes f l = Ok l' ->
  Forall2 (fun k o' => exists o, nth_error inputs_after k = Some o /\ bbs_shape o' = bbs_shape o /\ sorted_boxes o' /\
    Forall2 (fun b b' => label b' = label b /\ forall x y, GeoSpec.in_box b' x y <->
      (qmin (x1 b) (x2 b) <= x /\ x <= qmax (x1 b) (x2 b) /\ qmin (y1 b) (y2 b) <= y /\ y <= qmax (y1 b) (y2 b))%Q) (bbs o) (bbs o')) ks l'.
Proof.
  intros f l after ks l' F E. unfold lambda_boxes in E. rewrite F in E. cbn [bind fst snd] in E. unfold mapM in E. clear F.
  revert l' E. induction ks as [|k ks IH]; intros l' E; cbn in E; [injection E as <-; constructor|].
  rewrite nth_error_map in E. destruct (nth_error after k) as [o|] eqn:N; cbn in E; [|discriminate E].
  apply bind_ok in E. destruct E as (r & E & K). injection K as <-. constructor; [|apply IH; exact E].
  exists o. split; [exact N|]. split; [reflexivity|]. unfold sorted_boxes, order_boxes. cbn [bbs]. split.
  - rewrite Forall_map. apply Forall_forall. intros b _. apply order_box_ok.
  - induction (bbs o); cbn; constructor; [|assumption]. split; apply order_box_ok.
Qed.
Print Assumptions C112_given_boxes_are_ordered.
Example C112_ex4 : lambda_boxes (fun l => Ok (l, [Given 0])) [mkBbsoi [mkBB 3 2 1 0 None] (9, 9)%Z] = Ok [mkBbsoi [mkBB 1 0 3 2 None] (9, 9)%Z].
Proof. reflexivity. Qed.
(** Finding: boxes of new objects that the function creates are not put in order: the code looks at
    the boxes it gave to the function instead of those it got back. *)
Theorem C112_new_boxes_are_ordered_refuted : forall l (o : bbsoi), ~ sorted_boxes o ->
  exists l', lambda_boxes (fun l => Ok (l, map (fun _ => New o) l)) l = Ok l' /\ Forall (fun o' => ~ sorted_boxes o') l' /\ length l' = length l.
Proof.
  intros l o N. unfold lambda_boxes. cbn [bind fst snd]. exists (map (fun _ => o) l). split; [|split].
  - generalize (map order_boxes l). intros g. unfold mapM. induction l as [|a l IH]; [reflexivity|]. cbn in IH |- *. rewrite IH. reflexivity.
  - rewrite Forall_map. apply Forall_forall. intros x _. exact N.
  - apply map_length.
Qed.
Print Assumptions C112_new_boxes_are_ordered_refuted.
Example C112_ex5 : ~ sorted_boxes (mkBbsoi [mkBB 3 2 1 0 None] (9, 9)%Z).
Proof. intros H. inversion H as [|? ? [A _] _]. cbn in A. revert A. unfold Qle. cbn. lia. Qed.

(** ** C113: RemoveCBAsByOutOfImageFraction and ClipCBAsToImagePlanes *)

(** RemoveCBAsByOutOfImageFraction keeps, in order, exactly the keypoints, boxes, polygons and line
    strings whose fraction outside of the image is below the given one. Images, maps, image shapes
    and absent columns are not changed. Doing it again changes nothing. *)
Theorem C113_remove : forall isect isect3 area {I} fr (b : cbatch I),
  column_all (fun o => Forall (fun p => exists v, poly_fraction isect isect3 area p (ps_shape o) = Ok v) (ps_polys o)) (b_pol b) ->
  column_all (fun o => has_pixels (lsoi_shape o) /\ Forall (fun l => shapely_ok isect (coords l) (lsoi_shape o)) (line_strings o)) (b_lin b) ->
  exists b', remove_cbas isect isect3 area fr b = Ok b' /\ b_other b' = b_other b /\
    column_rel (fun o o' => kps_shape o' = kps_shape o /\
      those (fun i => (kp_out_of_image_fraction i (kps_shape o) < fr)%Q) (kps o) (kps o')) (b_kps b) (b_kps b') /\
    column_rel (fun o o' => bbs_shape o' = bbs_shape o /\
      those (fun i => exists v, bb_out_of_image_fraction i (bbs_shape o) = Ok v /\ (v < fr)%Q) (bbs o) (bbs o')) (b_bbs b) (b_bbs b') /\
    column_rel (fun o o' => ps_shape o' = ps_shape o /\
      those (fun i => exists v, poly_fraction isect isect3 area i (ps_shape o) = Ok v /\ (v < Q2R fr)%R) (ps_polys o) (ps_polys o')) (b_pol b) (b_pol b') /\
    column_rel (fun o o' => lsoi_shape o' = lsoi_shape o /\
      those (fun i => exists v, out_of_image_fraction isect i (lsoi_shape o) = Ok v /\ (v < Q2R fr)%R) (line_strings o) (line_strings o')) (b_lin b) (b_lin b') /\
    remove_cbas isect isect3 area fr b' = Ok b'.
Proof.
  intros isect isect3 area I fr [oth k x p l] HP HL. cbn [b_other b_kps b_bbs b_pol b_lin] in *. unfold remove_cbas. cbn [b_other b_kps b_bbs b_pol b_lin].
  destruct (on_column_rel (fun o => kpsoi_remove_out_of_image_fraction o fr) (fun o o' => kps_shape o' = kps_shape o /\
      those (fun i => (kp_out_of_image_fraction i (kps_shape o) < fr)%Q) (kps o) (kps o') /\ kpsoi_remove_out_of_image_fraction o' fr = Ok o') k) as (k' & Ek & Rk).
  { destruct k; [|exact Logic.I]. apply Forall_forall. intros o _. apply kps_remove. }
  destruct (on_column_rel (fun o => bbsoi_remove_out_of_image_fraction o fr) (fun o o' => bbs_shape o' = bbs_shape o /\
      those (fun i => exists v, bb_out_of_image_fraction i (bbs_shape o) = Ok v /\ (v < fr)%Q) (bbs o) (bbs o') /\ bbsoi_remove_out_of_image_fraction o' fr = Ok o') x) as (x' & Ex & Rx).
  { destruct x; [|exact Logic.I]. apply Forall_forall. intros o _. destruct (bbsoi_remove_fraction o fr) as (o' & A & B & C & D).
    exists o'. split; [exact A|]. split; [exact B|]. split; [|exact D]. apply kept_those. exact C. }
  destruct (on_column_rel (fun o => psoi_remove_out_of_image_fraction isect isect3 area o fr) (fun o o' => ps_shape o' = ps_shape o /\
      those (fun i => exists v, poly_fraction isect isect3 area i (ps_shape o) = Ok v /\ (v < Q2R fr)%R) (ps_polys o) (ps_polys o') /\
      psoi_remove_out_of_image_fraction isect isect3 area o' fr = Ok o') p) as (p' & Ep & Rp).
  { revert HP. apply column_all_impl. intros o H. exact (polys_remove isect isect3 area o fr H). }
  destruct (on_column_rel (fun o => lsoi_remove_out_of_image_fraction isect o fr) (fun o o' => lsoi_shape o' = lsoi_shape o /\
      those (fun i => exists v, out_of_image_fraction isect i (lsoi_shape o) = Ok v /\ (v < Q2R fr)%R) (line_strings o) (line_strings o') /\
      lsoi_remove_out_of_image_fraction isect o' fr = Ok o') l) as (l' & El & Rl).
  { revert HL. apply column_all_impl. intros o [H1 H2]. exact (lines_remove isect o fr H1 H2). }
  rewrite Ek, Ex, Ep, El. cbn [bind]. eexists. split; [reflexivity|]. cbn [b_other b_kps b_bbs b_pol b_lin]. split; [reflexivity|].
  split; [|split; [|split; [|split]]].
  - revert Rk. apply column_rel_impl. tauto.
  - revert Rx. apply column_rel_impl. tauto.
  - revert Rp. apply column_rel_impl. tauto.
  - revert Rl. apply column_rel_impl. tauto.
  - rewrite (column_fix (fun o => kpsoi_remove_out_of_image_fraction o fr) k'), (column_fix (fun o => bbsoi_remove_out_of_image_fraction o fr) x'),
      (column_fix (fun o => psoi_remove_out_of_image_fraction isect isect3 area o fr) p'), (column_fix (fun o => lsoi_remove_out_of_image_fraction isect o fr) l'); [reflexivity| | | |].
    + revert Rl. apply column_rel_all. tauto.
    + revert Rp. apply column_rel_all. tauto.
    + revert Rx. apply column_rel_all. tauto.
    + revert Rk. apply column_rel_all. tauto.
Qed.
Print Assumptions C113_remove.

(** The fraction of a polygon: a polygon with an area counts by area, one without (in particular
    with fewer than three points) like its outline, a closed line string. *)
Theorem C113_fraction_of_polygons : forall isect isect3 area p s,
  ((length (coords p) < 3)%nat \/ area (coords p) = 0%R ->
     poly_fraction isect isect3 area p s = out_of_image_fraction isect (to_line_string (coords p) (ls_label p) true) s) /\
  ((3 <= length (coords p))%nat -> area (coords p) <> 0%R ->
     (forall parts, poly_clip_out_of_image isect isect3 (coords p) (ls_label p) s = Ok parts ->
        Forall (fun e => (3 <= length e)%nat) parts ->
        poly_fraction isect isect3 area p s = Ok (1 - fold_right Rplus 0 (map area parts) / area (coords p))%R) /\
     (forall e, poly_clip_out_of_image isect isect3 (coords p) (ls_label p) s = Err e -> poly_fraction isect isect3 area p s = Err e)).
Proof.
  intros isect isect3 area p s. unfold poly_fraction, poly_area. split.
  - intros H. destruct (Nat.ltb_spec (length (coords p)) 3); [destruct (Req_EM_T 0 0); [reflexivity|congruence]|].
    destruct H as [H|H]; [lia|]. rewrite H. destruct (Req_EM_T 0 0); [reflexivity|congruence].
  - intros L A. destruct (Nat.ltb_spec (length (coords p)) 3); [lia|]. destruct (Req_EM_T (area (coords p)) 0) as [|N]; [contradiction|]. split.
    + intros parts E F. rewrite E. cbn [bind]. f_equal.
      assert (X : map (fun exterior => if Nat.ltb (length exterior) 3 then 0%R else area exterior) parts = map area parts).
      { apply map_ext_in. rewrite Forall_forall in F. intros e I. specialize (F e I). destruct (Nat.ltb_spec (length e) 3); [lia|reflexivity]. }
      unfold poly_area. rewrite X. field. exact A.
    + intros e E. rewrite E. reflexivity.
Qed.
Print Assumptions C113_fraction_of_polygons.

(** ClipCBAsToImagePlanes never fails (on images with pixels); afterwards everything is inside of its
    image, keypoints inside are kept, and image shapes, labels of boxes, images and maps are kept. *)
Theorem C113_clip : forall isect isect3 {I} (b : cbatch I),
  column_all (fun o => has_pixels (bbs_shape o) /\ Forall proper (bbs o)) (b_bbs b) ->
  column_all (fun o => has_pixels (ps_shape o) /\ Forall (fun p => shapely_ok isect (coords p) (ps_shape o) /\
     ((3 <= length (coords p))%nat -> rect_ok isect3 (coords p) (ps_shape o))) (ps_polys o)) (b_pol b) ->
  column_all (fun o => has_pixels (lsoi_shape o) /\ Forall (fun l => shapely_ok isect (coords l) (lsoi_shape o)) (line_strings o)) (b_lin b) ->
  exists b', clip_cbas isect isect3 b = Ok b' /\ b_other b' = b_other b /\
    column_rel (fun o o' => kps_shape o' = kps_shape o /\ those (fun i => in_plane (kps_shape o) (kx i) (ky i)) (kps o) (kps o')) (b_kps b) (b_kps b') /\
    column_rel (fun o o' => bbs_shape o' = bbs_shape o /\
      Forall2 (fun i i' => bb_clip_out_of_image i (bbs_shape o) = Ok i' /\ bb_is_fully_within_image i' (bbs_shape o) = true)
              (filter (fun i => bb_is_partly_within_image i (bbs_shape o)) (bbs o)) (bbs o')) (b_bbs b) (b_bbs b') /\
    column_rel (fun o o' => ps_shape o' = ps_shape o /\
      exists partss, ps_polys o' = concat partss /\
        Forall2 (fun p parts => poly_clip_out_of_image isect isect3 (coords p) (ls_label p) (ps_shape o) = Ok (map coords parts) /\
          Forall (fun q => ls_label q = ls_label p /\ Forall (in_rectangle (ps_shape o)) (coords q)) parts) (ps_polys o) partss) (b_pol b) (b_pol b') /\
    column_rel (fun o o' => lsoi_shape o' = lsoi_shape o /\
      exists partss, line_strings o' = concat partss /\
        Forall2 (fun l parts => clip_out_of_image isect l (lsoi_shape o) = Ok parts /\
          Forall (fun q => ls_label q = ls_label l /\ coords q <> [] /\ Forall (in_image (lsoi_shape o)) (coords q)) parts) (line_strings o) partss) (b_lin b) (b_lin b').
Proof.
  intros isect isect3 I [oth k x p l] HB HP HL. cbn [b_other b_kps b_bbs b_pol b_lin] in *. unfold clip_cbas. cbn [b_other b_kps b_bbs b_pol b_lin].
  destruct (on_column_rel kpsoi_clip_out_of_image (fun o o' => kps_shape o' = kps_shape o /\ those (fun i => in_plane (kps_shape o) (kx i) (ky i)) (kps o) (kps o')) k) as (k' & Ek & Rk).
  { destruct k; [|exact Logic.I]. apply Forall_forall. intros o _. destruct (kpsoi_clip_filter o) as (o' & A & B & keep & C & D).
    exists o'. split; [exact A|]. split; [exact B|]. rewrite D. clear -C. induction (kps o) as [|i r IH]; cbn; [constructor|].
    destruct (keep i) eqn:E; constructor; try assumption; [apply C; exact E|]. intros X. apply C in X. congruence. }
  destruct (on_column_rel bbsoi_clip_out_of_image (fun o o' => bbs_shape o' = bbs_shape o /\
      Forall2 (fun i i' => bb_clip_out_of_image i (bbs_shape o) = Ok i' /\ bb_is_fully_within_image i' (bbs_shape o) = true)
              (filter (fun i => bb_is_partly_within_image i (bbs_shape o)) (bbs o)) (bbs o')) x) as (x' & Ex & Rx).
  { revert HB. apply column_all_impl. intros o [[A B] C]. destruct (bbs_shape o) as [h w] eqn:S. cbn in A, B.
    destruct (bbsoi_clip_spec o h w) as (o' & E & F & G); [lia|lia|exact S|exact C|]. exists o'. auto. }
  destruct (on_column_rel (psoi_clip_out_of_image isect isect3) (fun o o' => ps_shape o' = ps_shape o /\
      exists partss, ps_polys o' = concat partss /\
        Forall2 (fun p parts => poly_clip_out_of_image isect isect3 (coords p) (ls_label p) (ps_shape o) = Ok (map coords parts) /\
          Forall (fun q => ls_label q = ls_label p /\ Forall (in_rectangle (ps_shape o)) (coords q)) parts) (ps_polys o) partss) p) as (p' & Ep & Rp).
  { revert HP. apply column_all_impl. intros o [A F]. unfold psoi_clip_out_of_image. rewrite Forall_forall in F.
    destruct (mapM_Forall2 (fun p => do parts <- poly_clip_out_of_image isect isect3 (coords p) (ls_label p) (ps_shape o); Ok (map (fun e => mkLine e (ls_label p)) parts))
      (fun p parts => poly_clip_out_of_image isect isect3 (coords p) (ls_label p) (ps_shape o) = Ok (map coords parts) /\
          Forall (fun q => ls_label q = ls_label p /\ Forall (in_rectangle (ps_shape o)) (coords q)) parts) (ps_polys o)) as (partss & E & G).
    { intros q J. destruct (F q J) as [F1 F2]. destruct (poly_clip_rect isect isect3 (coords q) (ls_label q) (ps_shape o) A F1 F2) as (r & E & K).
      rewrite E. cbn [bind]. eexists. split; [reflexivity|]. rewrite map_map. cbn [coords]. rewrite map_id. split; [reflexivity|].
      rewrite Forall_map. revert K. apply Forall_impl. cbn. auto. }
    rewrite E. cbn [bind]. eexists. split; [reflexivity|]. split; [reflexivity|]. exists partss. auto. }
  destruct (on_column_rel (lsoi_clip_out_of_image isect) (fun o o' => lsoi_shape o' = lsoi_shape o /\
      exists partss, line_strings o' = concat partss /\
        Forall2 (fun l parts => clip_out_of_image isect l (lsoi_shape o) = Ok parts /\
          Forall (fun q => ls_label q = ls_label l /\ coords q <> [] /\ Forall (in_image (lsoi_shape o)) (coords q)) parts) (line_strings o) partss) l) as (l' & El & Rl).
  { revert HL. apply column_all_impl. intros o [A F]. unfold lsoi_clip_out_of_image. rewrite Forall_forall in F.
    destruct (mapM_Forall2 (fun l => clip_out_of_image isect l (lsoi_shape o)) (fun l parts => clip_out_of_image isect l (lsoi_shape o) = Ok parts /\
          Forall (fun q => ls_label q = ls_label l /\ coords q <> [] /\ Forall (in_image (lsoi_shape o)) (coords q)) parts) (line_strings o)) as (partss & E & G).
    { intros q J. destruct (clip_some isect q (lsoi_shape o) A (F q J)) as (n & parts & E & R). rewrite E. eexists. split; [reflexivity|]. split; [reflexivity|].
      destruct R as (R1 & R2 & _). rewrite Forall_map. rewrite Forall_forall in *. cbn. auto. }
    rewrite E. cbn [bind]. eexists. split; [reflexivity|]. split; [reflexivity|]. exists partss. auto. }
  rewrite Ek, Ex, Ep, El. cbn [bind]. eexists. split; [reflexivity|]. cbn [b_other b_kps b_bbs b_pol b_lin]. auto 10.
Qed.
Print Assumptions C113_clip.

(** A case that meets the assumptions: one image of 10 times 10 pixels with keypoints, a box that
    leaves the image, a polygon with two points and a line string. *)
Definition some_batch : cbatch (list Z) :=
  mkCb [1; 2; 3]%Z (Some [mkKpsoi [mkKp 3 4; mkKp 10 2; mkKp 5 5] (10, 10)%Z])
       (Some [mkBbsoi [mkBB (-2) 0 6 5 (Some 1%Z); mkBB 20 0 26 5 None] (10, 10)%Z])
       (Some [mkPsoi [mkLine [(5%Q, 5%Q); (6%Q, 6%Q)] (Some 2%Z)] (10, 10)%Z]) (Some [mkLsoi [mkLine [((-5)%Q, 5%Q); (5%Q, 5%Q); (5%Q, 20%Q)] (Some 3%Z)] (10, 10)%Z]).
Example C113_ex :
  column_all (fun o => has_pixels (bbs_shape o) /\ Forall proper (bbs o)) (b_bbs some_batch) /\
  column_all (fun o => has_pixels (ps_shape o) /\ Forall (fun p => shapely_ok box_isect (coords p) (ps_shape o) /\
     ((3 <= length (coords p))%nat -> rect_ok (fun _ _ => PLinesOrPoints) (coords p) (ps_shape o))) (ps_polys o)) (b_pol some_batch) /\
  column_all (fun o => has_pixels (lsoi_shape o) /\ Forall (fun l => shapely_ok box_isect (coords l) (lsoi_shape o)) (line_strings o)) (b_lin some_batch) /\
  column_all (fun o => Forall (fun p => exists v, poly_fraction box_isect (fun _ _ => PLinesOrPoints) (fun _ => 0%R) p (ps_shape o) = Ok v) (ps_polys o)) (b_pol some_batch) /\
  exists b', clip_cbas box_isect (fun _ _ => PLinesOrPoints) some_batch = Ok b' /\ b_kps b' = Some [mkKpsoi [mkKp 3 4; mkKp 5 5] (10, 10)%Z].
Proof.
  assert (HP : has_pixels (10, 10)%Z) by (split; cbn; lia).
  split; [|split; [|split; [|split]]].
  - cbn. constructor; [|constructor]. split; [exact HP|]. cbn. repeat constructor; discriminate.
  - cbn. constructor; [|constructor]. split; [exact HP|]. constructor; [|constructor]. split; [apply box_isect_ok|cbn; lia].
  - cbn. constructor; [|constructor]. split; [exact HP|]. constructor; [|constructor]. apply box_isect_ok.
  - cbn [b_pol some_batch column_all]. constructor; [|constructor]. cbn [ps_polys ps_shape]. constructor; [|constructor]. destruct (C113_fraction_of_polygons box_isect (fun _ _ => PLinesOrPoints) (fun _ => 0%R)
      (mkLine [(5%Q, 5%Q); (6%Q, 6%Q)] (Some 2%Z)) (10, 10)%Z) as [H _]. rewrite H by (left; cbn; lia).
    destruct (fraction_ok box_isect (to_line_string [(5%Q, 5%Q); (6%Q, 6%Q)] (Some 2%Z) true) (10, 10)%Z HP (box_isect_ok _ _)) as (f & E & _). exists f. exact E.
  - eexists. split; vm_compute; reflexivity.
Qed.
