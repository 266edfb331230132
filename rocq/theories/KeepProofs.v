(** Proofs about KeepSizeByResize and the pooling augmenters. *)
From Coq Require Import String QArith Qabs Lia Lqa.
From Verif Require Import Prelude PreludeFacts GeoModel GeoProofs SizeModel UtilModel UtilSpec UtilProofs KeepModel KeepSpec.
Import ListNotations.
Open Scope Z_scope.

(* ------------------------------------------------------------------ *)
(** * Interpolations *)

Lemma ipv_eqb_iff : forall a b, ipv_eqb a b = true <-> a = b.
Proof.
  intros [s|m] [t|n]; cbn; try (split; discriminate).
  - rewrite String.eqb_eq. split; [now intros ->|now intros [= ->]].
  - rewrite Z.eqb_eq. split; [now intros ->|now intros [= ->]].
Qed.
Lemma ipv_eqb_neq : forall a b, ipv_eqb a b = false <-> a <> b.
Proof. intros a b. rewrite <- ipv_eqb_iff. destruct (ipv_eqb a b); split; intros; congruence. Qed.
Lemma ipv_dec : forall a b : ipv, {a = b} + {a <> b}.
Proof. intros a b. destruct (ipv_eqb a b) eqn:E; [left; now apply ipv_eqb_iff|right; now apply ipv_eqb_neq]. Qed.

Lemma to_str_no : forall v, to_str v = no_resize <-> v = no_resize.
Proof.
  intros [s|n]; cbn; [tauto|]. split; [|discriminate].
  destruct (n =? 0), (n =? 1), (n =? 2); discriminate.
Qed.
Lemma to_str_same : forall v, to_str v = same_as_images <-> v = same_as_images.
Proof.
  intros [s|n]; cbn; [tauto|]. split; [|discriminate].
  destruct (n =? 0), (n =? 1), (n =? 2); discriminate.
Qed.
Lemma to_str_name : forall v, is_name v -> to_str v = v.
Proof. intros [s|n] H; [reflexivity|destruct H]. Qed.

(** What is drawn, compared with what was chosen. *)
Definition stands_for (named_ : Prop) (v c : ipv) : Prop :=
  (v = no_resize <-> c = no_resize) /\ (v = same_as_images <-> c = same_as_images) /\ (named_ -> v = c).

Lemma np_array_nth : forall vs j, stands_for (Forall is_name vs) (nth j (np_array vs) no_resize) (nth j vs no_resize).
Proof.
  intros vs j. unfold np_array, stands_for. destruct (existsb _ vs); [|tauto].
  change (nth j (map to_str vs) no_resize) with (nth j (map to_str vs) (to_str no_resize)). rewrite map_nth.
  split; [apply to_str_no|]. split; [apply to_str_same|]. intros N. apply to_str_name.
  destruct (Nat.lt_ge_cases j (length vs)) as [L|L].
  - rewrite Forall_forall in N. apply N, nth_In, L.
  - rewrite nth_overflow by exact L. exact I.
Qed.

Lemma nth_error_repeat : forall {A} (x : A) n i y, nth_error (repeat x n) i = Some y -> y = x.
Proof. intros A x n i y H. apply nth_error_In, repeat_spec in H. exact H. Qed.

Lemma nth_error_seq : forall n i y, nth_error (seq 0 n) i = Some y -> y = i.
Proof.
  intros n i y H. assert (L : (i < n)%nat) by (rewrite <- (seq_length n 0); apply nth_error_Some; congruence).
  apply (nth_error_nth (seq 0 n) i 0%nat) in H. rewrite seq_nth in H by exact L. lia.
Qed.

Lemma draw_ips_spec : forall p n ix, p <> PSame ->
  length (draw_ips p n ix) = n /\
  forall i v, row (draw_ips p n ix) i v -> stands_for (named p) v (chosen p ix i).
Proof.
  intros [|w|vs] n ix H; [congruence| |]; cbn [draw_ips chosen named].
  - split; [apply repeat_length|]. intros i v R. apply nth_error_repeat in R. subst v. unfold stands_for. tauto.
  - split; [now rewrite map_length, seq_length|]. intros i v R. unfold row in R.
    rewrite nth_error_map in R. destruct (nth_error (seq 0 n) i) as [j|] eqn:E; [|discriminate].
    apply nth_error_seq in E. subst j. cbn in R. injection R as <-. apply np_array_nth.
Qed.

Lemma validate_not_same : forall a p, validate_param a false = Ok p -> p <> PSame.
Proof.
  intros [v|vs|] p; unfold validate_param; cbn [andb].
  - destruct (ip_in v (valid_ips ++ [no_resize])); [|discriminate]. intros [= <-]. discriminate.
  - destruct vs as [|v0 vs]; [discriminate|]. destruct (forallb (fun v => ip_in v (valid_ips ++ [no_resize])) (v0 :: vs)); [|discriminate].
    intros [= <-]. discriminate.
  - discriminate.
Qed.

Lemma nth_combine : forall {A B} (l : list A) (l' : list B) i z, nth_error (combine l l') i = Some z ->
  nth_error l i = Some (fst z) /\ nth_error l' i = Some (snd z).
Proof.
  induction l as [|a l IH]; intros [|b l'] [|i] z H; cbn in *; try discriminate.
  - injection H as <-. auto.
  - apply IH. exact H.
Qed.
Lemma combine_nth_error : forall {A B} (l : list A) (l' : list B) i a b, nth_error l i = Some a -> nth_error l' i = Some b ->
  nth_error (combine l l') i = Some (a, b).
Proof.
  induction l as [|x l IH]; intros [|y l'] [|i] a b H H'; cbn in *; try discriminate.
  - congruence.
  - now apply IH.
Qed.

Lemma draw_map_ips_spec : forall ph p n ixh ix, p <> PSame ->
  let ips := draw_ips p n ix in
  length (draw_map_ips ph ips n ixh) = n /\
  forall i v, row (draw_map_ips ph ips n ixh) i v ->
    (v = no_resize <-> chosen_map ph p ixh ix i = no_resize) /\
    (named p -> named ph -> v = chosen_map ph p ixh ix i).
Proof.
  intros ph p n ixh ix Hp. cbn zeta. destruct (draw_ips_spec p n ix Hp) as [L S].
  assert (D : ph = PSame \/ ph <> PSame) by (destruct ph; [left|right..]; congruence).
  destruct D as [->|D].
  - cbn [draw_map_ips]. split; [exact L|]. intros i v R. destruct (S _ _ R) as (S1 & _ & S2).
    unfold chosen_map. cbn [chosen]. replace (ipv_eqb same_as_images same_as_images) with true by reflexivity. tauto.
  - destruct (draw_ips_spec ph n ixh D) as [L' S'].
    assert (E : draw_map_ips ph (draw_ips p n ix) n ixh =
      map (fun vw => if ipv_eqb (fst vw) same_as_images then to_str (snd vw) else fst vw) (combine (draw_ips ph n ixh) (draw_ips p n ix)))
      by (destruct ph; [congruence|reflexivity..]).
    rewrite E. split; [rewrite map_length, combine_length, L, L'; lia|].
    intros i v R. unfold row in R. rewrite nth_error_map in R.
    destruct (nth_error (combine _ _) i) as [[w u]|] eqn:Ec; [|discriminate]. cbn in R.
    apply nth_combine in Ec. cbn in Ec. destruct Ec as [E1 E2].
    destruct (S' _ _ E1) as (A1 & A2 & A3). destruct (S _ _ E2) as (B1 & B2 & B3).
    unfold chosen_map. destruct (ipv_eqb w same_as_images) eqn:Ew.
    + apply ipv_eqb_iff in Ew. assert (Ew' := proj1 A2 Ew). rewrite Ew'.
      replace (ipv_eqb same_as_images same_as_images) with true by reflexivity. injection R as <-.
      rewrite to_str_no. split; [exact B1|]. intros N N'. rewrite <- (B3 N). apply to_str_name.
      rewrite (B3 N). destruct p as [|v|vs]; cbn in N |- *; [exact I|exact N|].
      destruct (Nat.lt_ge_cases (ix i mod length vs) (length vs)) as [Q|Q].
      * rewrite Forall_forall in N. apply N, nth_In, Q.
      * rewrite nth_overflow by exact Q. exact I.
    + apply ipv_eqb_neq in Ew. injection R as <-.
      destruct (ipv_eqb (chosen ph ixh i) same_as_images) eqn:Ec.
      * apply ipv_eqb_iff in Ec. tauto.
      * split; [exact A1|]. intros _ N. exact (A3 N).
Qed.

(* ------------------------------------------------------------------ *)
(** * Rows of columns *)

Lemma mapM_rows : forall {A B} (f : A -> res B) l r, mapM f l = Ok r ->
  length r = length l /\
  (forall i x y, nth_error l i = Some x -> nth_error r i = Some y -> f x = Ok y).
Proof.
  intros A B f l r H. apply mapM_Forall2 in H. induction H as [|x y l r E _ [IL IH]]; cbn.
  - split; [reflexivity|]. intros [|i]; discriminate.
  - split; [congruence|]. intros [|i] x' y' Hx Hy; cbn in *; [congruence|eauto].
Qed.

Lemma mapM_rows_ok : forall {A B} (f : A -> res B) l, (forall i x, nth_error l i = Some x -> exists y, f x = Ok y) ->
  exists r, mapM f l = Ok r.
Proof.
  intros A B f l H. apply mapM_total. intros x I. apply In_nth_error in I. destruct I as [i E]. eauto.
Qed.

Lemma shape2_eqb_iff : forall s s', shape2_eqb s s' = true <-> s = s'.
Proof.
  intros [h w] [h' w']. unfold shape2_eqb. cbn. rewrite andb_true_iff, !Z.eqb_eq. split; [intros [-> ->]; reflexivity|intros [= -> ->]; auto].
Qed.

Lemma imresize_spec : forall cv2 m s ip o, imresize cv2 m s (Some ip) = Ok o -> resized cv2 ip m s o.
Proof.
  intros cv2 m [th tw] ip o. unfold imresize, resized. destruct (i_shape m) as [h w] eqn:Es.
  destruct ((th <? 0) || (tw <? 0)); [discriminate|].
  destruct ((th =? h) && (tw =? w)) eqn:E.
  { intros [= <-]. assert ((h, w) = (th, tw)) by (f_equal; lia). repeat split; try congruence. }
  assert (N : (h, w) <> (th, tw)) by (intros X; injection X as -> ->; lia).
  destruct ((th =? 0) || (tw =? 0) || (i_nc m =? 0)) eqn:Z.
  { intros [= <-]. cbn. repeat split; try congruence. intros; lia. }
  destruct ((h =? 0) || (w =? 0)); [discriminate|].
  destruct (negb (ip_in ip valid_ips)); [discriminate|].
  destruct (i_int32 m && negb (is_nearest ip)); [discriminate|].
  intros [= <-]. cbn. repeat split; congruence.
Qed.

Lemma imresize_none : forall cv2 m s o, imresize cv2 m s None = Ok o -> i_shape o = s /\ i_nc o = i_nc m.
Proof.
  intros cv2 m [th tw] o. unfold imresize. destruct (i_shape m) as [h w] eqn:Es.
  destruct ((th <? 0) || (tw <? 0)); [discriminate|].
  destruct ((th =? h) && (tw =? w)) eqn:E.
  { intros [= <-]. split; [rewrite Es; f_equal; lia|reflexivity]. }
  destruct ((th =? 0) || (tw =? 0) || (i_nc m =? 0)) eqn:Z.
  { intros [= <-]. cbn. auto. }
  destruct ((h =? 0) || (w =? 0)); [discriminate|]. cbn [negb].
  destruct (i_int32 m && true); [discriminate|].
  intros [= <-]. cbn. auto.
Qed.

Lemma imresize_ok : forall cv2 m s ip, pos_img m -> pos_shape s -> ip_in ip valid_ips = true ->
  (i_int32 m = true -> is_nearest ip = true) -> exists o, imresize cv2 m s (Some ip) = Ok o.
Proof.
  intros cv2 m [th tw] ip [[H1 H2] H3] [H4 H5] V N. unfold imresize. destruct (i_shape m) as [h w] eqn:Es. cbn in *.
  replace ((th <? 0) || (tw <? 0)) with false by lia.
  destruct ((th =? h) && (tw =? w)); [eauto|].
  replace ((th =? 0) || (tw =? 0) || (i_nc m =? 0)) with false by lia.
  replace ((h =? 0) || (w =? 0)) with false by lia. rewrite V. cbn [negb].
  destruct (i_int32 m); cbn [andb]; [rewrite N by reflexivity; cbn; eauto|eauto].
Qed.

Lemma kpsoi_on_spec : forall k s o, kpsoi_on k s = Ok o ->
  kps_shape o = s /\ Forall2 (same_relative (kps_shape k) s) (kps k) (kps o).
Proof.
  intros k s o. unfold kpsoi_on. destruct (shape2_eqb s (kps_shape k)) eqn:E.
  - apply shape2_eqb_iff in E. intros [= <-]. cbn. split; [reflexivity|]. rewrite E.
    induction (kps k); constructor; auto. split; reflexivity.
  - destruct (mapM _ _) as [r|] eqn:Em; [|discriminate]. cbn. intros [= <-]. cbn. split; [reflexivity|].
    apply mapM_Forall2 in Em. induction Em as [|a b l r Ea _ IH]; constructor; auto.
    unfold kp_project, project_coords in Ea. destruct (shape2_eqb (kps_shape k) s) eqn:E'.
    { apply shape2_eqb_iff in E'. rewrite E' in E. assert (shape2_eqb s s = true) by now apply shape2_eqb_iff. congruence. }
    destruct (kps_shape k) as [h w], s as [h' w']. destruct (forallb _ _) eqn:P; [|discriminate]. cbn in Ea. injection Ea as <-.
    cbn in P. unfold same_relative. cbn [kx ky fst snd].
    assert (Q1 : (0 < inject_Z h)%Q) by (unfold Qlt, inject_Z; cbn; lia).
    assert (Q2 : (0 < inject_Z w)%Q) by (unfold Qlt, inject_Z; cbn; lia).
    split; field; lra.
Qed.

Lemma kpsoi_on_ok : forall k s, pos_shape (kps_shape k) -> pos_shape s -> exists o, kpsoi_on k s = Ok o.
Proof.
  intros k [h w] [H1 H2] [H3 H4]. destruct (kpsoi_on_scale k h w) as (o & E & _); auto. eauto.
Qed.

(* ------------------------------------------------------------------ *)
(** * KeepSizeByResize *)

Lemma keep_size_inv : forall cv2 p ph ps ix ixh ixs child b r, keep_size cv2 p ph ps ix ixh ixs child b = Ok r ->
  let ips := draw_ips p (nb_rows b) ix in
  exists c ims, child b = Ok c /\
  on_col (fun l => do s <- shapes_of i_shape (b_images b); keep_images cv2 l s (b_array b) ips) (b_images c) = Ok ims /\
  on_col (fun l => do s <- shapes_of mo_shape (b_heatmaps b);
                   do s' <- shapes_of (fun m => i_shape (mo_arr m)) (b_heatmaps b);
                   keep_maps cv2 l s s' (draw_map_ips ph ips (nb_rows b) ixh)) (b_heatmaps c) = Ok (b_heatmaps r) /\
  on_col (fun l => do s <- shapes_of mo_shape (b_segmaps b);
                   do s' <- shapes_of (fun m => i_shape (mo_arr m)) (b_segmaps b);
                   keep_maps cv2 l s s' (draw_map_ips ps ips (nb_rows b) ixs)) (b_segmaps c) = Ok (b_segmaps r) /\
  on_col (fun l => do s <- shapes_of kps_shape (b_keypoints b); keep_keypoints l s ips) (b_keypoints c) = Ok (b_keypoints r) /\
  b_images r = option_map snd ims /\ b_array r = match ims with Some (a, _) => a | None => false end.
Proof.
  intros cv2 p ph ps ix ixh ixs child b r H. cbn zeta. unfold keep_size, draw_samples in H.
  destruct (child b) as [c|] eqn:Ec; [|discriminate]. cbn [bind] in H.
  destruct (on_col _ (b_images c)) as [ims|] eqn:E1 in H; [|discriminate]. cbn [bind] in H.
  destruct (on_col _ (b_heatmaps c)) as [hms|] eqn:E2 in H; [|discriminate]. cbn [bind] in H.
  destruct (on_col _ (b_segmaps c)) as [sms|] eqn:E3 in H; [|discriminate]. cbn [bind] in H.
  destruct (on_col _ (b_keypoints c)) as [ks|] eqn:E4 in H; [|discriminate]. cbn [bind] in H.
  injection H as <-. exists c, ims. cbn. repeat split; assumption.
Qed.

Lemma on_col_some : forall {A B} (f : A -> res B) a o, on_col f (Some a) = Ok o -> exists x, f a = Ok x /\ o = Some x.
Proof. intros A B f a o. cbn. destruct (f a) as [x|]; [|discriminate]. cbn. intros [= <-]. eauto. Qed.

Lemma row_lt : forall {A} (l : list A) i x, row l i x -> (i < length l)%nat.
Proof. intros A l i x H. apply nth_error_Some. unfold row in H. congruence. Qed.
Lemma lt_row : forall {A} (l : list A) i, (i < length l)%nat -> exists x, row l i x.
Proof. intros A l i H. unfold row. destruct (nth_error l i) eqn:E; [eauto|]. apply nth_error_None in E. lia. Qed.

Lemma keep_images_spec : forall cv2 p n ix ims cs a q rs, p <> PSame -> length cs = length ims -> n = length ims ->
  keep_images cv2 cs (map i_shape ims) a (draw_ips p n ix) = Ok (q, rs) ->
  q = a && one_shape rs /\ length rs = length ims /\
    forall i m m' o, row ims i m -> row cs i m' -> row rs i o ->
      (chosen p ix i = no_resize -> o = m') /\
      (chosen p ix i <> no_resize -> i_shape o = i_shape m /\ i_nc o = i_nc m') /\
      (chosen p ix i <> no_resize -> named p -> resized cv2 (chosen p ix i) m' (i_shape m) o).
Proof.
  intros cv2 p n ix ims cs a q rs Hp L Hn H. subst n. unfold keep_images in H.
  destruct (mapM _ _) as [r|] eqn:E in H; [|discriminate]. cbn in H. injection H as <- <-. split; [reflexivity|].
  destruct (draw_ips_spec p (length ims) ix Hp) as [Ld S].
  destruct (mapM_rows _ _ _ E) as [Lr R]. rewrite !combine_length, map_length, Ld, L in Lr.
  split; [lia|]. intros i m m' o Hm Hm' Ho.
  destruct (lt_row (draw_ips p (length ims) ix) i) as [v Hv]; [rewrite Ld; apply row_lt in Hm; exact Hm|].
  assert (X : nth_error (combine (combine cs (draw_ips p (length ims) ix)) (map i_shape ims)) i = Some (m', v, i_shape m)).
  { apply combine_nth_error; [apply combine_nth_error; assumption|]. rewrite nth_error_map. unfold row in Hm. rewrite Hm. reflexivity. }
  specialize (R _ _ _ X Ho). cbn [keep_image keep_kps keep_map] in R. destruct (S _ _ Hv) as (S1 & _ & S2).
  destruct (ipv_eqb v no_resize) eqn:Ev.
  - apply ipv_eqb_iff in Ev. injection R as <-. apply S1 in Ev. repeat split; congruence.
  - apply ipv_eqb_neq in Ev. apply imresize_spec in R. split; [tauto|]. split.
    + intros _. destruct R as (R1 & R2 & _). auto.
    + intros _ N. rewrite <- (S2 N). exact R.
Qed.

Lemma keep_size_images : forall cv2 a p ph ps ix ixh ixs child b c r ims cs,
  validate_param a false = Ok p -> child b = Ok c -> keep_size cv2 p ph ps ix ixh ixs child b = Ok r ->
  b_images b = Some ims -> b_images c = Some cs -> length cs = length ims ->
  exists rs, b_images r = Some rs /\ length rs = length ims /\
    forall i m m' o, row ims i m -> row cs i m' -> row rs i o ->
      (chosen p ix i = no_resize -> o = m') /\
      (chosen p ix i <> no_resize -> i_shape o = i_shape m /\ i_nc o = i_nc m') /\
      (chosen p ix i <> no_resize -> named p -> resized cv2 (chosen p ix i) m' (i_shape m) o).
Proof.
  intros cv2 a p ph ps ix ixh ixs child b c r ims cs V Ec H Eb Ecs L.
  apply validate_not_same in V. destruct (keep_size_inv _ _ _ _ _ _ _ _ _ _ H) as (c' & q & E & E1 & _ & _ & _ & Er & _).
  rewrite Ec in E. injection E as <-. rewrite Ecs in E1. apply on_col_some in E1. destruct E1 as ([q' rs] & E1 & ->).
  rewrite Eb in E1. cbn [shapes_of bind] in E1. rewrite Er. cbn. exists rs. split; [reflexivity|].
  apply keep_images_spec in E1; auto; [tauto|]. unfold nb_rows. now rewrite Eb.
Qed.

Lemma keep_keypoints_spec : forall p n ix ks cs rs, p <> PSame -> length cs = length ks -> n = length ks ->
  keep_keypoints cs (map kps_shape ks) (draw_ips p n ix) = Ok rs ->
  length rs = length ks /\
    forall i k k' o, row ks i k -> row cs i k' -> row rs i o ->
      (chosen p ix i = no_resize -> o = k') /\
      (chosen p ix i <> no_resize -> kps_shape o = kps_shape k /\
         Forall2 (same_relative (kps_shape k') (kps_shape k)) (kps k') (kps o)).
Proof.
  intros p n ix ks cs rs Hp L Hn H. subst n. unfold keep_keypoints in H.
  destruct (draw_ips_spec p (length ks) ix Hp) as [Ld S].
  destruct (mapM_rows _ _ _ H) as [Lr R]. rewrite !combine_length, map_length, Ld, L in Lr.
  split; [lia|]. intros i m m' o Hm Hm' Ho.
  destruct (lt_row (draw_ips p (length ks) ix) i) as [v Hv]; [rewrite Ld; apply row_lt in Hm; exact Hm|].
  assert (X : nth_error (combine (combine cs (draw_ips p (length ks) ix)) (map kps_shape ks)) i = Some (m', v, kps_shape m)).
  { apply combine_nth_error; [apply combine_nth_error; assumption|]. rewrite nth_error_map. unfold row in Hm. rewrite Hm. reflexivity. }
  specialize (R _ _ _ X Ho). cbn [keep_image keep_kps keep_map] in R. destruct (S _ _ Hv) as (S1 & _ & S2).
  destruct (ipv_eqb v no_resize) eqn:Ev.
  - apply ipv_eqb_iff in Ev. injection R as <-. apply S1 in Ev. split; congruence.
  - apply ipv_eqb_neq in Ev. apply kpsoi_on_spec in R. split; [tauto|]. intros _. exact R.
Qed.

Lemma keep_size_keypoints : forall cv2 a p ph ps ix ixh ixs child b c r ks cs,
  validate_param a false = Ok p -> child b = Ok c -> keep_size cv2 p ph ps ix ixh ixs child b = Ok r ->
  rows (nb_rows b) b -> b_keypoints b = Some ks -> b_keypoints c = Some cs -> length cs = length ks ->
  exists rs, b_keypoints r = Some rs /\ length rs = length ks /\
    forall i k k' o, row ks i k -> row cs i k' -> row rs i o ->
      (chosen p ix i = no_resize -> o = k') /\
      (chosen p ix i <> no_resize -> kps_shape o = kps_shape k /\
         Forall2 (same_relative (kps_shape k') (kps_shape k)) (kps k') (kps o)).
Proof.
  intros cv2 a p ph ps ix ixh ixs child b c r ims cs V Ec H Rw Eb Ecs L.
  apply validate_not_same in V. destruct (keep_size_inv _ _ _ _ _ _ _ _ _ _ H) as (c' & q & E & _ & _ & _ & E1 & _).
  rewrite Ec in E. injection E as <-. rewrite Ecs in E1. apply on_col_some in E1. destruct E1 as (rs & E1 & ->).
  rewrite Eb in E1. cbn [shapes_of bind] in E1. exists rs. split; [reflexivity|].
  destruct Rw as (_ & _ & _ & Rw). rewrite Eb in Rw. cbn in Rw.
  exact (keep_keypoints_spec _ _ _ _ _ _ V L (eq_sym Rw) E1).
Qed.

Lemma keep_maps_spec : forall cv2 p ph n ix ixh ms cs rs, p <> PSame -> length cs = length ms -> n = length ms ->
  keep_maps cv2 cs (map mo_shape ms) (map (fun m => i_shape (mo_arr m)) ms) (draw_map_ips ph (draw_ips p n ix) n ixh) = Ok rs ->
  length rs = length ms /\
    forall i m m' o, row ms i m -> row cs i m' -> row rs i o ->
      (chosen_map ph p ixh ix i = no_resize -> o = m') /\
      (chosen_map ph p ixh ix i <> no_resize -> i_shape (mo_arr o) = i_shape (mo_arr m) /\ mo_shape o = mo_shape m) /\
      (chosen_map ph p ixh ix i <> no_resize -> named p -> named ph ->
         resized cv2 (chosen_map ph p ixh ix i) (mo_arr m') (i_shape (mo_arr m)) (mo_arr o)).
Proof.
  intros cv2 p ph n ix ixh ms cs rs Hp L Hn H. unfold keep_maps in H.
  destruct (draw_map_ips_spec ph p n ixh ix Hp) as [Ld S]. cbn zeta in Ld, S.
  set (ips := draw_map_ips ph (draw_ips p n ix) n ixh) in *.
  destruct (mapM_rows _ _ _ H) as [Lr R]. rewrite !combine_length, !map_length, Ld, L in Lr.
  split; [lia|]. intros i m m' o Hm Hm' Ho.
  destruct (lt_row ips i) as [v Hv]; [rewrite Ld, Hn; apply row_lt in Hm; exact Hm|].
  assert (X : nth_error (combine (combine (combine cs ips) (map (fun m => i_shape (mo_arr m)) ms)) (map mo_shape ms)) i
              = Some (m', v, i_shape (mo_arr m), mo_shape m)).
  { unfold row in Hm. apply combine_nth_error; [apply combine_nth_error; [apply combine_nth_error; assumption|]|];
      rewrite nth_error_map, Hm; reflexivity. }
  specialize (R _ _ _ X Ho). cbn [keep_image keep_kps keep_map] in R. destruct (S _ _ Hv) as (S1 & S2).
  destruct (ipv_eqb v no_resize) eqn:Ev.
  - apply ipv_eqb_iff in Ev. injection R as <-. apply S1 in Ev. repeat split; congruence.
  - apply ipv_eqb_neq in Ev. unfold map_resize in R.
    destruct (imresize _ _ _ _) as [a|] eqn:Ea; [|discriminate]. cbn in R. injection R as <-.
    apply imresize_spec in Ea. cbn [mo_arr mo_shape]. split; [tauto|]. split.
    + intros _. split; [exact (proj1 Ea)|reflexivity].
    + intros _ N N'. rewrite <- (S2 N N'). exact Ea.
Qed.

Lemma keep_size_heatmaps : forall cv2 a ah p ph ps ix ixh ixs child b c r ms cs,
  validate_param a false = Ok p -> validate_param ah true = Ok ph ->
  child b = Ok c -> keep_size cv2 p ph ps ix ixh ixs child b = Ok r ->
  rows (nb_rows b) b -> b_heatmaps b = Some ms -> b_heatmaps c = Some cs -> length cs = length ms ->
  exists rs, b_heatmaps r = Some rs /\ length rs = length ms /\
    forall i m m' o, row ms i m -> row cs i m' -> row rs i o ->
      (chosen_map ph p ixh ix i = no_resize -> o = m') /\
      (chosen_map ph p ixh ix i <> no_resize -> i_shape (mo_arr o) = i_shape (mo_arr m) /\ mo_shape o = mo_shape m) /\
      (chosen_map ph p ixh ix i <> no_resize -> named p -> named ph ->
         resized cv2 (chosen_map ph p ixh ix i) (mo_arr m') (i_shape (mo_arr m)) (mo_arr o)).
Proof.
  intros cv2 a a' p ph ps ix ixh ixs child b c r ims cs V _ Ec H Rw Eb Ecs L.
  apply validate_not_same in V. destruct (keep_size_inv _ _ _ _ _ _ _ _ _ _ H) as (c' & q & E & _ & E1 & _).
  rewrite Ec in E. injection E as <-. rewrite Ecs in E1. apply on_col_some in E1. destruct E1 as (rs & E1 & ->).
  rewrite Eb in E1. cbn [shapes_of bind] in E1. exists rs. split; [reflexivity|].
  destruct Rw as (_ & Rw & _ & _). rewrite Eb in Rw. cbn in Rw.
  exact (keep_maps_spec _ _ _ _ _ _ _ _ _ V L (eq_sym Rw) E1).
Qed.

Lemma keep_size_segmaps : forall cv2 a as_ p ph ps ix ixh ixs child b c r ms cs,
  validate_param a false = Ok p -> validate_param as_ true = Ok ps ->
  child b = Ok c -> keep_size cv2 p ph ps ix ixh ixs child b = Ok r ->
  rows (nb_rows b) b -> b_segmaps b = Some ms -> b_segmaps c = Some cs -> length cs = length ms ->
  exists rs, b_segmaps r = Some rs /\ length rs = length ms /\
    forall i m m' o, row ms i m -> row cs i m' -> row rs i o ->
      (chosen_map ps p ixs ix i = no_resize -> o = m') /\
      (chosen_map ps p ixs ix i <> no_resize -> i_shape (mo_arr o) = i_shape (mo_arr m) /\ mo_shape o = mo_shape m) /\
      (chosen_map ps p ixs ix i <> no_resize -> named p -> named ps ->
         resized cv2 (chosen_map ps p ixs ix i) (mo_arr m') (i_shape (mo_arr m)) (mo_arr o)).
Proof.
  intros cv2 a a' p ph ps ix ixh ixs child b c r ims cs V _ Ec H Rw Eb Ecs L.
  apply validate_not_same in V. destruct (keep_size_inv _ _ _ _ _ _ _ _ _ _ H) as (c' & q & E & _ & _ & E1 & _).
  rewrite Ec in E. injection E as <-. rewrite Ecs in E1. apply on_col_some in E1. destruct E1 as (rs & E1 & ->).
  rewrite Eb in E1. cbn [shapes_of bind] in E1. exists rs. split; [reflexivity|].
  destruct Rw as (_ & _ & Rw & _). rewrite Eb in Rw. cbn in Rw.
  exact (keep_maps_spec _ _ _ _ _ _ _ _ _ V L (eq_sym Rw) E1).
Qed.
