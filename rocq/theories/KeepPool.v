(** Proofs about the pooling augmenters. *)
From Coq Require Import String QArith Qabs Lia Lqa.
From Verif Require Import Prelude PreludeFacts GeoModel GeoProofs SizeModel UtilModel UtilSpec UtilProofs KeepModel KeepSpec KeepProofs KeepRest.
Import ListNotations.
Open Scope Z_scope.

Lemma pool_samples_row : forall hs ws i k,
  row (pool_samples hs ws) i k -> exists h w, row hs i h /\
    (match ws with None => w = h | Some l => row l i w end) /\
    fst k = Z.max 1 h /\ snd k = Z.max 1 w.
Proof.
  intros hs ws i [kh kw] H. apply nth_combine in H. cbn [fst snd] in H. destruct H as [H1 H2].
  apply nth_map_some in H1. destruct H1 as (h & H1 & ->). apply nth_map_some in H2. destruct H2 as (w & H2 & ->).
  exists h, w. cbn. split; [exact H1|]. split; [destruct ws; [exact H2|congruence]|lia].
Qed.

Lemma pool_samples_pos : forall hs ws i kh kw, row (pool_samples hs ws) i (kh, kw) -> 1 <= kh /\ 1 <= kw.
Proof. intros hs ws i kh kw H. apply pool_samples_row in H. destruct H as (h & w & _ & _ & H1 & H2). cbn in *. lia. Qed.

Lemma round_axis : forall n k, 0 < n -> 1 <= k ->
  rounded_up n k ((if 0 <? n mod k then n + (k - n mod k) else n) / k).
Proof.
  intros n k Hn Hk. unfold rounded_up. pose proof (Z.div_mod n k ltac:(lia)) as D. pose proof (Z.mod_pos_bound n k ltac:(lia)) as B.
  destruct (0 <? n mod k) eqn:E.
  - replace (n + (k - n mod k)) with ((n / k + 1) * k) by lia. rewrite Z.div_mul by lia. nia.
  - assert (n mod k = 0) by lia. nia.
Qed.

Lemma rounded_up_unique : forall n k r r', 1 <= k -> rounded_up n k r -> rounded_up n k r' -> r = r'.
Proof. unfold rounded_up. intros. nia. Qed.

Lemma shape_after_spec : forall h w nc kh kw, 0 < h -> 0 < w -> 0 < nc -> 1 <= kh -> 1 <= kw ->
  rounded_up h kh (fst (shape_after_pooling (h, w) nc kh kw)) /\ rounded_up w kw (snd (shape_after_pooling (h, w) nc kh kw)).
Proof.
  intros h w nc kh kw Hh Hw Hc Kh Kw. unfold shape_after_pooling.
  replace ((h =? 0) || (w =? 0) || (nc =? 0)) with false by lia. cbn [fst snd].
  split; apply round_axis; assumption.
Qed.

Lemma shape_after_one : forall s nc, shape_after_pooling s nc 1 1 = s.
Proof.
  intros [h w] nc. unfold shape_after_pooling. destruct (_ || _); [reflexivity|]. rewrite !Z.mod_1_r. cbn. now rewrite !Z.div_1_r.
Qed.

Definition picks (op : Z -> Z -> Z) (le : Z -> Z -> Prop) : Prop := (op = Z.max /\ le = Z.le) \/ (op = Z.min /\ le = Z.ge).

Lemma pool_image_pos : forall uint8 lo hi op le m kh kw o, picks op le -> 1 <= kh -> 1 <= kw -> pos_img m ->
  pool_image uint8 lo hi op m kh kw = Ok o ->
  i_nc o = i_nc m /\ rounded_up (ah (i_px m)) kh (ah (i_px o)) /\ rounded_up (aw (i_px m)) kw (aw (i_px o)) /\
  forall y x, 0 <= y < ah (i_px o) -> 0 <= x < aw (i_px o) ->
    extremum le (fun y' x' => 0 <= y' < ah (i_px m) /\ 0 <= x' < aw (i_px m) /\
                   in_block kh kw y x (y' + (ah (i_px o) * kh - ah (i_px m)) / 2)
                                      (x' + (aw (i_px o) * kw - aw (i_px m)) / 2))
             (apx (i_px m)) (apx (i_px o) y x).
Proof.
  intros uint8 lo hi op le m kh kw o Hp Kh Kw [[H1 H2] H3]. cbn in H1, H2. unfold pool_image.
  replace (i_nc m =? 0) with false by lia.
  destruct (dispatch_edge uint8 lo hi (i_nc m) op le kh kw 0 (i_px m)) as (r & t & l & E & R1 & R2 & -> & -> & H);
    [exact Hp|lia|lia|lia|lia|]. rewrite E. cbn [bind]. intros [= <-]. cbn. auto.
Qed.

Lemma pool_image_shape : forall uint8 lo hi op le m kh kw o, picks op le -> 1 <= kh -> 1 <= kw ->
  0 <= fst (i_shape m) -> 0 <= snd (i_shape m) -> 0 <= i_nc m ->
  pool_image uint8 lo hi op m kh kw = Ok o ->
  i_shape o = shape_after_pooling (i_shape m) (i_nc m) kh kw /\ i_nc o = i_nc m.
Proof.
  intros uint8 lo hi op le m kh kw o Hp Kh Kw H1 H2 H3 E. destruct (i_nc m =? 0) eqn:Ec.
  { unfold pool_image in E. rewrite Ec in E. injection E as <-. split; [|reflexivity].
    unfold shape_after_pooling. destruct (i_shape m). rewrite Ec, orb_true_r. reflexivity. }
  destruct ((ah (i_px m) =? 0) || (aw (i_px m) =? 0)) eqn:Ez.
  - unfold pool_image in E. rewrite Ec in E. unfold pool_dispatch in E.
    replace ((kh =? 0) || (kw =? 0)) with false in E by lia. rewrite Ez, andb_false_r in E. cbn in E. injection E as <-.
    split; [|reflexivity]. unfold shape_after_pooling, i_shape. cbn. rewrite Ez. reflexivity.
  - unfold i_shape in H1, H2. cbn in H1, H2.
    assert (P : pos_img m) by (repeat split; cbn; lia).
    destruct (pool_image_pos _ _ _ _ _ _ _ _ _ Hp Kh Kw P E) as (Q & R1 & R2 & _). split; [|exact Q].
    destruct (shape_after_spec (ah (i_px m)) (aw (i_px m)) (i_nc m) kh kw) as [S1 S2]; try lia.
    unfold i_shape. destruct (shape_after_pooling _ _ _ _) as [h' w']. cbn in S1, S2.
    f_equal; [exact (rounded_up_unique _ _ _ _ Kh R1 S1)|exact (rounded_up_unique _ _ _ _ Kw R2 S2)].
Qed.

Lemma pool_one_image_shape : forall cv2 uint8 lo hi op le m kh kw o, picks op le -> 1 <= kh -> 1 <= kw ->
  0 <= fst (i_shape m) -> 0 <= snd (i_shape m) -> 0 <= i_nc m ->
  pool_one_image cv2 (pool_image uint8 lo hi op) false (m, (kh, kw)) = Ok o ->
  i_shape o = shape_after_pooling (i_shape m) (i_nc m) kh kw.
Proof.
  intros cv2 uint8 lo hi op le m kh kw o Hp Kh Kw H1 H2 H3. unfold pool_one_image.
  destruct ((2 <=? kh) || (2 <=? kw)) eqn:E.
  - destruct (pool_image uint8 lo hi op m kh kw) as [p|] eqn:Ep; [|discriminate]. cbn. intros [= <-].
    eapply pool_image_shape; eassumption.
  - intros [= <-]. assert (kh = 1) by lia. assert (kw = 1) by lia. subst. now rewrite shape_after_one.
Qed.

Lemma pool_batch_inv : forall cv2 pool nc keep ks b r, pool_batch cv2 pool nc keep ks b = Ok r ->
  (b_images b = None /\ keep = true /\ r = b) \/
  (b_array r = b_array b && keep /\
   on_col (fun l => mapM (pool_one_image cv2 pool keep) (combine l ks)) (b_images b) = Ok (b_images r) /\
   on_col (fun l => mapM (pool_one_map cv2 (Some (IS "cubic")) nc keep) (combine l ks)) (b_heatmaps b) = Ok (b_heatmaps r) /\
   on_col (fun l => mapM (pool_one_map cv2 (Some (IS "nearest")) nc keep) (combine l ks)) (b_segmaps b) = Ok (b_segmaps r) /\
   on_col (fun l => mapM (pool_one_kps nc keep) (combine l ks)) (b_keypoints b) = Ok (b_keypoints r)).
Proof.
  intros cv2 pool nc keep ks b r H. unfold pool_batch in H.
  assert (K : (do ims <- on_col (fun l => mapM (pool_one_image cv2 pool keep) (combine l ks)) (b_images b);
      do hms <- on_col (fun l => mapM (pool_one_map cv2 (Some (IS "cubic")) nc keep) (combine l ks)) (b_heatmaps b);
      do sms <- on_col (fun l => mapM (pool_one_map cv2 (Some (IS "nearest")) nc keep) (combine l ks)) (b_segmaps b);
      do kss <- on_col (fun l => mapM (pool_one_kps nc keep) (combine l ks)) (b_keypoints b);
      Ok (mkKb (b_array b && keep) ims hms sms kss)) = Ok r ->
   b_array r = b_array b && keep /\
   on_col (fun l => mapM (pool_one_image cv2 pool keep) (combine l ks)) (b_images b) = Ok (b_images r) /\
   on_col (fun l => mapM (pool_one_map cv2 (Some (IS "cubic")) nc keep) (combine l ks)) (b_heatmaps b) = Ok (b_heatmaps r) /\
   on_col (fun l => mapM (pool_one_map cv2 (Some (IS "nearest")) nc keep) (combine l ks)) (b_segmaps b) = Ok (b_segmaps r) /\
   on_col (fun l => mapM (pool_one_kps nc keep) (combine l ks)) (b_keypoints b) = Ok (b_keypoints r)).
  { clear H. intros H.
    destruct (on_col _ (b_images b)) as [ims|] eqn:E1 in H; [|discriminate]. cbn [bind] in H.
    destruct (on_col _ (b_heatmaps b)) as [hms|] eqn:E2 in H; [|discriminate]. cbn [bind] in H.
    destruct (on_col _ (b_segmaps b)) as [sms|] eqn:E3 in H; [|discriminate]. cbn [bind] in H.
    destruct (on_col _ (b_keypoints b)) as [kss|] eqn:E4 in H; [|discriminate]. cbn [bind] in H.
    injection H as <-. cbn. auto. }
  destruct (b_images b) as [l|] eqn:Eb; [right; exact (K H)|].
  destruct keep; [left|right; exact (K H)]. injection H as <-. auto.
Qed.

Lemma pool_col : forall {A B} (f : A * (Z * Z) -> res B) l ks r, mapM f (combine l ks) = Ok r -> length l = length ks ->
  length r = length l /\ forall i x y k, row l i x -> row r i y -> row ks i k -> f (x, k) = Ok y.
Proof.
  intros A B f l ks r H L. destruct (mapM_rows _ _ _ H) as [Lr R]. rewrite combine_length in Lr. split; [lia|].
  intros i x y k Hx Hy Hk. apply (R i); [now apply combine_nth_error|exact Hy].
Qed.

Lemma pooled_images : forall cv2 uint8 lo hi op le nc hs ws b r ims,
  (op = Z.max /\ le = Z.le) \/ (op = Z.min /\ le = Z.ge) ->
  b_images b = Some ims -> length ims = length (pool_samples hs ws) ->
  pool_batch cv2 (pool_image uint8 lo hi op) nc false (pool_samples hs ws) b = Ok r ->
  b_array r = false /\ exists rs, b_images r = Some rs /\ length rs = length ims /\
    forall i m o kh kw, row ims i m -> row rs i o -> row (pool_samples hs ws) i (kh, kw) ->
      i_nc o = i_nc m /\
      (pos_img m ->
         rounded_up (ah (i_px m)) kh (ah (i_px o)) /\ rounded_up (aw (i_px m)) kw (aw (i_px o)) /\
         forall y x, 0 <= y < ah (i_px o) -> 0 <= x < aw (i_px o) ->
           extremum le (fun y' x' => 0 <= y' < ah (i_px m) /\ 0 <= x' < aw (i_px m) /\
                          in_block kh kw y x (y' + (ah (i_px o) * kh - ah (i_px m)) / 2)
                                             (x' + (aw (i_px o) * kw - aw (i_px m)) / 2))
                    (apx (i_px m)) (apx (i_px o) y x)) /\
      (kh = 1 -> kw = 1 -> o = m).
Proof.
  intros cv2 uint8 lo hi op le nc hs ws b r ims Hp Eb L H.
  apply pool_batch_inv in H. destruct H as [(_ & X & _)|(Ea & E1 & _)]; [discriminate|].
  rewrite andb_false_r in Ea. split; [exact Ea|]. rewrite Eb in E1. apply on_col_some in E1. destruct E1 as (rs & E1 & ->).
  exists rs. split; [reflexivity|]. destruct (pool_col _ _ _ _ E1 L) as [Lr R]. split; [exact Lr|].
  intros i m o kh kw Hm Ho Hk. destruct (pool_samples_pos _ _ _ _ _ Hk) as [Kh Kw].
  specialize (R _ _ _ _ Hm Ho Hk). cbn [pool_one_image] in R.
  destruct ((2 <=? kh) || (2 <=? kw)) eqn:E.
  - destruct (pool_image uint8 lo hi op m kh kw) as [p|] eqn:Ep; [|discriminate]. cbn in R. injection R as <-.
    split; [|split; [|lia]].
    + unfold pool_image in Ep. destruct (i_nc m =? 0); [injection Ep as <-; reflexivity|].
      destruct (pool_dispatch _ _ _ _ _ _ _ _ _ _); [|discriminate]. cbn in Ep. injection Ep as <-. reflexivity.
    + intros P. exact (proj2 (pool_image_pos _ _ _ _ _ _ _ _ _ Hp Kh Kw P Ep)).
  - injection R as <-. assert (kh = 1) by lia. assert (kw = 1) by lia. subst kh kw. split; [reflexivity|]. split; [|reflexivity].
    intros [[P1 P2] _]. unfold i_shape in P1, P2. cbn in P1, P2. unfold rounded_up. split; [lia|]. split; [lia|].
    intros y x Hy Hx. replace (ah (i_px m) * 1 - ah (i_px m)) with 0 by lia. replace (aw (i_px m) * 1 - aw (i_px m)) with 0 by lia.
    change (0 / 2) with 0. unfold extremum, in_block. split.
    + exists y, x. split; [lia|reflexivity].
    + intros y' x' Q. assert (y' = y) by lia. assert (x' = x) by lia. subst. destruct Hp as [[_ ->]|[_ ->]]; lia.
Qed.

Lemma pool_one_map_shape : forall cv2 ip nc m kh kw o, 1 <= kh -> 1 <= kw ->
  pool_one_map cv2 ip nc false (m, (kh, kw)) = Ok o -> mo_shape o = shape_after_pooling (mo_shape m) nc kh kw.
Proof.
  intros cv2 ip nc m kh kw o Kh Kw. unfold pool_one_map, map_resize. destruct ((2 <=? kh) || (2 <=? kw)) eqn:E.
  - destruct (imresize _ _ _ _) as [a|]; [|discriminate]. cbn. intros [= <-]. reflexivity.
  - intros [= <-]. assert (kh = 1) by lia. assert (kw = 1) by lia. subst. now rewrite shape_after_one.
Qed.

Lemma pooled_map_array : forall cv2 nc ip kh kw m o, 1 <= kh -> 1 <= kw -> pos_img (mo_arr m) ->
  pool_one_map cv2 ip nc false (m, (kh, kw)) = Ok o ->
  i_nc (mo_arr o) = i_nc (mo_arr m) /\
  rounded_up (fst (i_shape (mo_arr m))) kh (fst (i_shape (mo_arr o))) /\
  rounded_up (snd (i_shape (mo_arr m))) kw (snd (i_shape (mo_arr o))).
Proof.
  intros cv2 nc ip kh kw m o Kh Kw [[P1 P2] P3]. unfold pool_one_map, map_resize.
  destruct ((2 <=? kh) || (2 <=? kw)) eqn:E.
  - destruct (imresize _ _ _ _) as [a|] eqn:Ea; [|discriminate]. cbn [bind]. intros [= <-]. cbn [mo_arr].
    assert (X : i_shape a = shape_after_pooling (i_shape (mo_arr m)) (i_nc (mo_arr m)) kh kw /\ i_nc a = i_nc (mo_arr m)).
    { destruct ip as [v|]; [apply imresize_spec in Ea; destruct Ea as (A & B & _); auto|exact (imresize_none _ _ _ _ Ea)]. }
    destruct X as [-> ->]. split; [reflexivity|]. destruct (i_shape (mo_arr m)) as [h w]. apply shape_after_spec; assumption.
  - intros [= <-]. assert (kh = 1) by lia. assert (kw = 1) by lia. subst kh kw. unfold rounded_up. split; [reflexivity|]. split; lia.
Qed.

Lemma pool_one_kps_spec : forall nc k kh kw o, 1 <= kh -> 1 <= kw -> pool_one_kps nc false (k, (kh, kw)) = Ok o ->
  kps_shape o = shape_after_pooling (kps_shape k) nc kh kw /\
  Forall2 (same_relative (kps_shape k) (kps_shape o)) (kps k) (kps o).
Proof.
  intros nc k kh kw o Kh Kw. unfold pool_one_kps. destruct ((2 <=? kh) || (2 <=? kw)) eqn:E.
  - intros H. apply kpsoi_on_spec in H. destruct H as [H1 H2]. rewrite H1. auto.
  - intros [= <-]. assert (kh = 1) by lia. assert (kw = 1) by lia. subst. rewrite shape_after_one. split; [reflexivity|].
    induction (kps k); constructor; auto. split; reflexivity.
Qed.

Lemma pooled_keypoints : forall cv2 pool nc hs ws b r ks,
  b_keypoints b = Some ks -> length ks = length (pool_samples hs ws) ->
  pool_batch cv2 pool nc false (pool_samples hs ws) b = Ok r ->
  exists rs, b_keypoints r = Some rs /\ length rs = length ks /\
    forall i k o, row ks i k -> row rs i o ->
      Forall2 (same_relative (kps_shape k) (kps_shape o)) (kps k) (kps o).
Proof.
  intros cv2 pool nc hs ws b r ks Eb L H.
  apply pool_batch_inv in H. destruct H as [(_ & X & _)|(_ & _ & _ & _ & E1)]; [discriminate|].
  rewrite Eb in E1. apply on_col_some in E1. destruct E1 as (rs & E1 & ->).
  exists rs. split; [reflexivity|]. destruct (pool_col _ _ _ _ E1 L) as [Lr R]. split; [exact Lr|].
  intros i k o Hk Ho. destruct (lt_row (pool_samples hs ws) i) as [[kh kw] Hs]; [apply row_lt in Hk; lia|].
  destruct (pool_samples_pos _ _ _ _ _ Hs) as [Kh Kw].
  exact (proj2 (pool_one_kps_spec _ _ _ _ _ Kh Kw (R _ _ _ _ Hk Ho Hs))).
Qed.

Lemma pooling_aligned : forall cv2 uint8 lo hi op nc hs ws b r,
  op = Z.max \/ op = Z.min -> 0 <= nc ->
  in_col (fun m => 0 <= fst (i_shape m) /\ 0 <= snd (i_shape m) /\ i_nc m = nc) (b_images b) ->
  rows (length (pool_samples hs ws)) b -> aligned b ->
  pool_batch cv2 (pool_image uint8 lo hi op) nc false (pool_samples hs ws) b = Ok r -> aligned r.
Proof.
  intros cv2 uint8 lo hi op nc hs ws b r Hp Hn Hi (R1 & R2 & R3 & R4) A H.
  assert (Hp' : exists le, picks op le) by (destruct Hp as [->| ->]; [exists Z.le; left|exists Z.ge; right]; auto).
  destruct Hp' as [le Hp']. apply pool_batch_inv in H. destruct H as [(_ & X & _)|(_ & E1 & E2 & E3 & E4)]; [discriminate|].
  assert (K : forall i t kh kw, row (pool_samples hs ws) i (kh, kw) -> shape_at r i t ->
    exists s, shape_at b i s /\ t = shape_after_pooling s nc kh kw).
  { intros i t kh kw Hs S. destruct (pool_samples_pos _ _ _ _ _ Hs) as [Kh Kw].
    inversion S as [l m El Hm|l m El Hm|l m El Hm|l m El Hm]; subst t; rewrite El in *.
    - destruct (b_images b) as [ims|] eqn:Eb; [|discriminate]. apply on_col_some in E1. destruct E1 as (x & E1 & X). injection X as <-.
      destruct (pool_col _ _ _ _ E1 R1) as [Lr R]. destruct (lt_row ims i) as [m0 H0]; [apply row_lt in Hm; lia|].
      destruct (in_col_row _ _ _ _ Hi H0) as (Q1 & Q2 & Q3). exists (i_shape m0). split; [eapply at_image; eassumption|].
      rewrite <- Q3. eapply pool_one_image_shape; try eassumption; [lia|]. exact (R _ _ _ _ H0 Hm Hs).
    - destruct (b_heatmaps b) as [ims|] eqn:Eb; [|discriminate]. apply on_col_some in E2. destruct E2 as (x & E2 & X). injection X as <-.
      destruct (pool_col _ _ _ _ E2 R2) as [Lr R]. destruct (lt_row ims i) as [m0 H0]; [apply row_lt in Hm; lia|].
      exists (mo_shape m0). split; [eapply at_heatmap; eassumption|].
      exact (pool_one_map_shape _ _ _ _ _ _ _ Kh Kw (R _ _ _ _ H0 Hm Hs)).
    - destruct (b_segmaps b) as [ims|] eqn:Eb; [|discriminate]. apply on_col_some in E3. destruct E3 as (x & E3 & X). injection X as <-.
      destruct (pool_col _ _ _ _ E3 R3) as [Lr R]. destruct (lt_row ims i) as [m0 H0]; [apply row_lt in Hm; lia|].
      exists (mo_shape m0). split; [eapply at_segmap; eassumption|].
      exact (pool_one_map_shape _ _ _ _ _ _ _ Kh Kw (R _ _ _ _ H0 Hm Hs)).
    - destruct (b_keypoints b) as [ims|] eqn:Eb; [|discriminate]. apply on_col_some in E4. destruct E4 as (x & E4 & X). injection X as <-.
      destruct (pool_col _ _ _ _ E4 R4) as [Lr R]. destruct (lt_row ims i) as [m0 H0]; [apply row_lt in Hm; lia|].
      exists (kps_shape m0). split; [eapply at_keypoints; eassumption|].
      exact (proj1 (pool_one_kps_spec _ _ _ _ _ Kh Kw (R _ _ _ _ H0 Hm Hs))). }
  assert (Kl : forall i t, shape_at r i t -> (i < length (pool_samples hs ws))%nat).
  { intros i t S. inversion S as [l m El Hm|l m El Hm|l m El Hm|l m El Hm]; subst t; rewrite El in *.
    - destruct (b_images b) as [ims|] eqn:Eb; [|discriminate]. apply on_col_some in E1. destruct E1 as (x & E1 & X). injection X as <-.
      destruct (pool_col _ _ _ _ E1 R1) as [Lr R]. apply row_lt in Hm. cbn in R1. lia.
    - destruct (b_heatmaps b) as [ims|] eqn:Eb; [|discriminate]. apply on_col_some in E2. destruct E2 as (x & E2 & X). injection X as <-.
      destruct (pool_col _ _ _ _ E2 R2) as [Lr R]. apply row_lt in Hm. cbn in R2. lia.
    - destruct (b_segmaps b) as [ims|] eqn:Eb; [|discriminate]. apply on_col_some in E3. destruct E3 as (x & E3 & X). injection X as <-.
      destruct (pool_col _ _ _ _ E3 R3) as [Lr R]. apply row_lt in Hm. cbn in R3. lia.
    - destruct (b_keypoints b) as [ims|] eqn:Eb; [|discriminate]. apply on_col_some in E4. destruct E4 as (x & E4 & X). injection X as <-.
      destruct (pool_col _ _ _ _ E4 R4) as [Lr R]. apply row_lt in Hm. cbn in R4. lia. }
  intros i t t' S S'. destruct (lt_row _ _ (Kl i t S)) as [[kh kw] Hs].
  destruct (K i t kh kw Hs S) as (s & Q & ->). destruct (K i t' kh kw Hs S') as (s' & Q' & ->).
  now rewrite (A i s s' Q Q').
Qed.

Lemma mapM_id : forall {A B} (f : A * B -> res A) l ks, (forall x k, f (x, k) = Ok x) -> length l = length ks ->
  mapM f (combine l ks) = Ok l.
Proof.
  intros A B f l ks H. unfold mapM. revert ks. induction l as [|x l IH]; intros [|k ks] L; cbn in *; try discriminate; [reflexivity|].
  rewrite H. cbn. rewrite IH by lia. reflexivity.
Qed.

Lemma pooling_keeps : forall cv2 uint8 lo hi op nc hs ws b r,
  op = Z.max \/ op = Z.min -> pool_batch cv2 (pool_image uint8 lo hi op) nc true (pool_samples hs ws) b = Ok r ->
  rows (length (pool_samples hs ws)) b ->
  b_heatmaps r = b_heatmaps b /\ b_segmaps r = b_segmaps b /\ b_keypoints r = b_keypoints b /\ b_array r = b_array b /\
  match b_images b, b_images r with
  | Some l, Some l' => Forall2 (fun m o => i_shape3 o = i_shape3 m) l l'
  | None, None => True
  | _, _ => False
  end.
Proof.
  intros cv2 uint8 lo hi op nc hs ws b r Hp H (R1 & R2 & R3 & R4).
  apply pool_batch_inv in H. destruct H as [(E & _ & ->)|(Ea & E1 & E2 & E3 & E4)]; [rewrite E; auto|].
  rewrite andb_true_r in Ea.
  split. { destruct (b_heatmaps b) as [l|]; cbn in E2, R2; [|congruence]. rewrite mapM_id in E2; [cbn in E2; congruence|intros ? []; reflexivity|exact R2]. }
  split. { destruct (b_segmaps b) as [l|]; cbn in E3, R3; [|congruence]. rewrite mapM_id in E3; [cbn in E3; congruence|intros ? []; reflexivity|exact R3]. }
  split. { destruct (b_keypoints b) as [l|]; cbn in E4, R4; [|congruence]. rewrite mapM_id in E4; [cbn in E4; congruence|intros ? []; reflexivity|exact R4]. }
  split; [exact Ea|].
  destruct (b_images b) as [ims|]; [|cbn in E1; injection E1 as <-; exact I].
  apply on_col_some in E1. destruct E1 as (rs & E1 & ->). clear - E1 R1. cbn in R1.
  apply mapM_Forall2 in E1. revert E1 R1. generalize (pool_samples hs ws) as ks. revert rs.
  induction ims as [|m ims IH]; intros rs [|[kh kw] ks] F L; cbn in *; try discriminate; inversion F as [|x y l r' E F']; subst; constructor.
  - cbn [pool_one_image] in E. destruct ((2 <=? kh) || (2 <=? kw)); [|injection E as <-; reflexivity].
    destruct (pool_image uint8 lo hi op m kh kw) as [p|] eqn:Ep; [|discriminate]. cbn [bind] in E.
    apply imresize_none in E. destruct E as [E E']. unfold i_shape3. rewrite E, E'. f_equal.
    unfold pool_image in Ep. destruct (i_nc m =? 0); [injection Ep as <-; reflexivity|].
    destruct (pool_dispatch _ _ _ _ _ _ _ _ _ _); [|discriminate]. cbn in Ep. injection Ep as <-. reflexivity.
  - eapply IH; [exact F'|lia].
Qed.

(* ------------------------------------------------------------------ *)
(** * Keypoints and pixels of the pooled image *)

Lemma near_axis : forall n k m x x', 0 < n -> 1 <= k -> rounded_up n k m ->
  (x' * inject_Z n == x * inject_Z m)%Q ->
  ((0 <= x <= inject_Z n)%Q -> (Qabs (x' - (x + inject_Z ((m * k - n) / 2)) / inject_Z k) <= 1 # 2)%Q) /\
  ((k | n) -> x' == x / inject_Z k)%Q.
Proof.
  intros n k m x x' Hn Hk [R1 R2] E.
  assert (Qn : (0 < inject_Z n)%Q) by (unfold Qlt, inject_Z; cbn; lia).
  assert (Qk : (0 < inject_Z k)%Q) by (unfold Qlt, inject_Z; cbn; lia).
  set (p := m * k - n) in *. assert (Hp : 0 <= p <= k - 1) by (unfold p; nia).
  set (l := p / 2) in *. assert (Hl : 2 * l <= p <= 2 * l + 1) by (unfold l; pose proof (Z.div_mod p 2); pose proof (Z.mod_pos_bound p 2); lia).
  assert (Em : (inject_Z m * inject_Z k == inject_Z n + inject_Z p)%Q).
  { rewrite <- inject_Z_mult, <- inject_Z_plus. unfold p. replace (n + (m * k - n)) with (m * k) by lia. reflexivity. }
  assert (D : (x' - (x + inject_Z l) / inject_Z k == ((x / inject_Z n) * inject_Z p - inject_Z l) / inject_Z k)%Q).
  { assert (X : (x' == x * inject_Z m / inject_Z n)%Q) by (rewrite <- E; field; lra).
    assert (Y : (inject_Z p == inject_Z m * inject_Z k - inject_Z n)%Q) by lra.
    rewrite X, Y. field. split; lra. }
  split.
  - intros [X1 X2]. rewrite D.
    assert (F1 : (0 <= x / inject_Z n)%Q) by (apply Qle_shift_div_l; [exact Qn|lra]).
    assert (F2 : (x / inject_Z n <= 1)%Q) by (apply Qle_shift_div_r; [exact Qn|lra]).
    set (f := (x / inject_Z n)%Q) in *.
    assert (P0 : (0 <= inject_Z p)%Q) by (unfold Qle, inject_Z; cbn; lia).
    assert (L1 : (2 * inject_Z l <= inject_Z k)%Q) by (change 2%Q with (inject_Z 2); rewrite <- inject_Z_mult, <- Zle_Qle; lia).
    assert (L2 : (2 * (inject_Z p - inject_Z l) <= inject_Z k)%Q).
    { change 2%Q with (inject_Z 2). unfold Qminus. rewrite <- inject_Z_opp, <- inject_Z_plus, <- inject_Z_mult, <- Zle_Qle. lia. }
    assert (G1 : (0 <= f * inject_Z p)%Q) by (apply Qmult_le_0_compat; assumption).
    assert (G2 : (f * inject_Z p <= inject_Z p)%Q) by nra.
    apply Qabs_Qle_condition. split.
    + apply Qle_shift_div_l; [exact Qk|]. lra.
    + apply Qle_shift_div_r; [exact Qk|]. lra.
  - intros [q Hq]. assert (p = 0) by (unfold p in *; subst n; assert (m = q) by nia; subst; lia).
    assert (Em' : (inject_Z m * inject_Z k == inject_Z n)%Q) by (rewrite Em, H; change (inject_Z 0) with 0%Q; ring).
    assert (X : (x' * inject_Z k * inject_Z n == x * inject_Z n)%Q) by (rewrite <- Em' at 2; lra || nra).
    apply Qmult_inj_r in X; [|lra]. rewrite <- X. field. lra.
Qed.

Lemma near_pixel : forall nc kh kw k o,
  pos_shape (kps_shape k) -> 0 < nc -> 1 <= kh -> 1 <= kw ->
  pool_one_kps nc false (k, (kh, kw)) = Ok o ->
  let (h, w) := kps_shape k in
  let (h', w') := kps_shape o in
  Forall2 (fun p q =>
    ((0 <= kx p <= inject_Z w)%Q -> (Qabs (kx q - (kx p + inject_Z ((w' * kw - w) / 2)) / inject_Z kw) <= 1 # 2)%Q) /\
    ((0 <= ky p <= inject_Z h)%Q -> (Qabs (ky q - (ky p + inject_Z ((h' * kh - h) / 2)) / inject_Z kh) <= 1 # 2)%Q) /\
    ((kw | w) -> kx q == kx p / inject_Z kw)%Q /\ ((kh | h) -> ky q == ky p / inject_Z kh)%Q) (kps k) (kps o).
Proof.
  intros nc kh kw k o [P1 P2] Hc Kh Kw H. destruct (pool_one_kps_spec _ _ _ _ _ Kh Kw H) as [E F].
  destruct (kps_shape k) as [h w]. cbn in P1, P2. destruct (shape_after_spec h w nc kh kw P1 P2 Hc Kh Kw) as [R1 R2].
  rewrite <- E in R1, R2. destruct (kps_shape o) as [h' w']. cbn in R1, R2.
  induction F as [|p q l l' [F1 F2] _ IH]; constructor; auto. cbn in F1, F2.
  destruct (near_axis w kw w' (kx p) (kx q) P2 Kw R2 F1). destruct (near_axis h kh h' (ky p) (ky q) P1 Kh R1 F2). auto.
Qed.

Lemma pixel_missed : forall cv2, exists b r m k o k',
  pool_batch cv2 (pool_image true 0 255 Z.max) 1 false [(1, 4)] b = Ok r /\
  b_images b = Some [m] /\ b_images r = Some [o] /\ b_keypoints b = Some [mkKpsoi [k] (i_shape m)] /\
  b_keypoints r = Some [mkKpsoi [k'] (i_shape o)] /\
  (forall y x, apx (i_px m) y x = if (y =? Qfloor (ky k)) && (x =? Qfloor (kx k)) then 255 else 0) /\
  (exists y x, 0 <= y < ah (i_px o) /\ 0 <= x < aw (i_px o) /\ apx (i_px o) y x = 255) /\
  0 <= Qfloor (ky k') < ah (i_px o) /\ 0 <= Qfloor (kx k') < aw (i_px o) /\
  apx (i_px o) (Qfloor (ky k')) (Qfloor (kx k')) = 0.
Proof.
  intros cv2.
  set (m := mkImg false 1 (mkArr 1 5 (fun y x => if (y =? 0) && (x =? 2) then 255 else 0))).
  exists (mkKb false (Some [m]) None None (Some [mkKpsoi [mkKp (5 # 2) (1 # 2)] (1, 5)])). eexists. exists m, (mkKp (5 # 2) (1 # 2)). do 2 eexists.
  split; [reflexivity|]. split; [reflexivity|]. split; [reflexivity|]. split; [reflexivity|]. split; [reflexivity|].
  split; [reflexivity|]. split; [exists 0, 0; repeat split; reflexivity|]. split; [split; discriminate || reflexivity|]. split; [split; discriminate || reflexivity|].
  vm_compute. reflexivity.
Qed.
