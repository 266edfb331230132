From Coq Require Import Lia Lqa.
From Verif Require Import Prelude PreludeFacts GeoModel GeoSpec GeoProofs SizeSpec FlipModel FlipSpec.

Lemma fliplr_sliced_mirrored : forall {A} (a : arr A), mirrored_lr a (fliplr_sliced a).
Proof.
  intros A a. split; [reflexivity|]. split; [reflexivity|]. intros y x Hy Hx. cbn. f_equal. lia.
Qed.

Lemma map_nth_seq : forall {V} (d : V) l, map (fun c => nth c l d) (seq 0 (length l)) = l.
Proof.
  intros V d l. induction l as [|v l IH]; [reflexivity|]. cbn. f_equal.
  rewrite <- seq_shift, map_map. exact IH.
Qed.

Lemma fliplr_mirrored : forall {V} (d : V) ok nc a, has_channels nc a -> mirrored_lr a (fliplr d ok nc a).
Proof.
  intros V d ok nc a H. unfold fliplr. destruct ok; [|apply fliplr_sliced_mirrored].
  unfold fliplr_cv2.
  destruct ((ah a =? 0) || (aw a =? 0)) eqn:E0.
  { cbn [orb]. split; [reflexivity|]. split; [reflexivity|]. intros y x Hy Hx.
    apply Bool.orb_true_iff in E0 as [E0|E0]; apply Z.eqb_eq in E0; lia. }
  cbn [orb]. destruct (Nat.eqb nc 0) eqn:E1.
  { apply Nat.eqb_eq in E1. subst nc. split; [reflexivity|]. split; [reflexivity|]. intros y x Hy Hx.
    assert (forall x', 0 <= x' < aw a -> apx a y x' = []) as K.
    { intros x' Hx'. specialize (H y x' Hy Hx'). destruct (apx a y x'); [reflexivity|discriminate]. }
    rewrite !K by lia. reflexivity. }
  destruct (Nat.ltb 512 nc).
  - split; [reflexivity|]. split; [reflexivity|]. intros y x Hy Hx. cbn. rewrite map_map. cbn.
    replace (aw a - 1 - (aw a - 1 - x)) with x by lia.
    rewrite <- (H y x Hy Hx). apply map_nth_seq.
  - split; [reflexivity|]. split; [reflexivity|]. intros y x Hy Hx. cbn. f_equal. lia.
Qed.

Lemma flipud_mirrored : forall {A} (a : arr A), mirrored_ud a (flipud a).
Proof.
  intros A a. split; [reflexivity|]. split; [reflexivity|]. intros y x Hy Hx. cbn. f_equal. lia.
Qed.

Lemma mirrored_lr_twice : forall {A} (a b c : arr A), mirrored_lr a b -> mirrored_lr b c -> arr_eq c a.
Proof.
  intros A a b c (H1 & W1 & P1) (H2 & W2 & P2). split; [lia|]. split; [lia|].
  intros y x Hy Hx. specialize (P2 y (aw a - 1 - x) ltac:(lia) ltac:(lia)).
  rewrite W1 in P2. replace (aw a - 1 - (aw a - 1 - x)) with x in P2 by lia.
  rewrite P2. apply P1; lia.
Qed.

Lemma mirrored_ud_twice : forall {A} (a b c : arr A), mirrored_ud a b -> mirrored_ud b c -> arr_eq c a.
Proof.
  intros A a b c (H1 & W1 & P1) (H2 & W2 & P2). split; [lia|]. split; [lia|].
  intros y x Hy Hx. specialize (P2 (ah a - 1 - y) x ltac:(lia) ltac:(lia)).
  rewrite H1 in P2. replace (ah a - 1 - (ah a - 1 - y)) with y in P2 by lia.
  rewrite P2. apply P1; lia.
Qed.

Lemma mirrored_channels : forall {V} nc (a b : arr (list V)), mirrored_lr a b -> has_channels nc a -> has_channels nc b.
Proof.
  intros V nc a b (H1 & W1 & P1) H y x Hy Hx. rewrite H1, W1 in *.
  specialize (P1 y (aw a - 1 - x) Hy ltac:(lia)).
  replace (aw a - 1 - (aw a - 1 - x)) with x in P1 by lia. rewrite P1. apply H; lia.
Qed.

Lemma fliplr_twice : forall {V} (d : V) ok nc a, has_channels nc a ->
  arr_eq (fliplr d ok nc (fliplr d ok nc a)) a.
Proof.
  intros V d ok nc a H. pose proof (fliplr_mirrored d ok nc a H) as M.
  eapply mirrored_lr_twice; [exact M|]. apply fliplr_mirrored. eapply mirrored_channels; eauto.
Qed.

Lemma flipud_twice : forall {A} (a : arr A), arr_eq (flipud (flipud a)) a.
Proof. intros A a. eapply mirrored_ud_twice; apply flipud_mirrored. Qed.

Local Open Scope Q_scope.

Lemma Forall2_map_self : forall {A} (R : A -> A -> Prop) (f : A -> A) l,
  (forall x, R (f x) x) -> Forall2 R (map f l) l.
Proof. intros A R f l H. induction l; cbn; constructor; auto. Qed.

Lemma kpsoi_fliplr_twice : forall k, kpsoi_same (kpsoi_fliplr (kpsoi_fliplr k)) k.
Proof.
  intro k. split; [reflexivity|]. unfold kpsoi_fliplr. cbn [kps kps_shape]. rewrite map_map.
  apply Forall2_map_self. intro x. unfold kp_eq. cbn. split; [lra|reflexivity].
Qed.
Lemma kpsoi_flipud_twice : forall k, kpsoi_same (kpsoi_flipud (kpsoi_flipud k)) k.
Proof.
  intro k. split; [reflexivity|]. unfold kpsoi_flipud. cbn [kps kps_shape]. rewrite map_map.
  apply Forall2_map_self. intro x. unfold kp_eq. cbn. split; [reflexivity|lra].
Qed.
Lemma bbsoi_fliplr_twice : forall b, bbsoi_same (bbsoi_fliplr (bbsoi_fliplr b)) b.
Proof.
  intro k. split; [reflexivity|]. unfold bbsoi_fliplr. cbn [bbs bbs_shape]. rewrite map_map.
  apply Forall2_map_self. intro x. unfold same_box, same_corners. cbn. split; [|reflexivity].
  split; [lra|]. split; [reflexivity|]. split; [lra|reflexivity].
Qed.
Lemma bbsoi_flipud_twice : forall b, bbsoi_same (bbsoi_flipud (bbsoi_flipud b)) b.
Proof.
  intro k. split; [reflexivity|]. unfold bbsoi_flipud. cbn [bbs bbs_shape]. rewrite map_map.
  apply Forall2_map_self. intro x. unfold same_box, same_corners. cbn. split; [|reflexivity].
  split; [reflexivity|]. split; [lra|]. split; [reflexivity|lra].
Qed.
Lemma coordsoi_fliplr_twice : forall c, coordsoi_same (coordsoi_fliplr (coordsoi_fliplr c)) c.
Proof.
  intro k. split; [reflexivity|]. unfold coordsoi_fliplr. cbn [cs_items cs_shape]. rewrite map_map.
  apply Forall2_map_self. intro l. rewrite map_map. apply Forall2_map_self. intro p.
  unfold pt_eq. cbn. split; [lra|reflexivity].
Qed.
Lemma coordsoi_flipud_twice : forall c, coordsoi_same (coordsoi_flipud (coordsoi_flipud c)) c.
Proof.
  intro k. split; [reflexivity|]. unfold coordsoi_flipud. cbn [cs_items cs_shape]. rewrite map_map.
  apply Forall2_map_self. intro l. rewrite map_map. apply Forall2_map_self. intro p.
  unfold pt_eq. cbn. split; [reflexivity|lra].
Qed.

(** rows *)
Lemma flip_rows_twice : forall {A} (R : A -> A -> Prop) (P : A -> Prop) f samples l,
  (forall x, R x x) -> (forall x, P x -> R (f (f x)) x) -> Forall P l ->
  Forall2 R (flip_rows f samples (flip_rows f samples l)) l.
Proof.
  intros A R P f samples l Rr Rf. revert l. induction samples as [|s ss IH]; intros l HP.
  - cbn. induction l; constructor; auto. apply IHl. inversion HP; assumption.
  - destruct l as [|x xs]; [cbn; constructor|]. inversion HP; subst. cbn. constructor; [|auto].
    destruct (qleb (1#2) s); auto.
Qed.

Lemma flip_col_twice : forall {A} (R : A -> A -> Prop) (P : A -> Prop) f samples c,
  (forall x, R x x) -> (forall x, P x -> R (f (f x)) x) -> col_all P c ->
  col_same R (flip_col f samples (flip_col f samples c)) c.
Proof.
  intros A R P f samples [l|] Rr Rf HP; cbn; [|exact I]. eapply flip_rows_twice; eauto.
Qed.

Lemma kpsoi_same_refl : forall k, kpsoi_same k k.
Proof. intro k. split; [reflexivity|]. induction (kps k); constructor; auto. split; reflexivity. Qed.
Lemma bbsoi_same_refl : forall k, bbsoi_same k k.
Proof.
  intro k. split; [reflexivity|]. induction (bbs k); constructor; auto.
  split; [|reflexivity]. repeat split; reflexivity.
Qed.
Lemma coordsoi_same_refl : forall k, coordsoi_same k k.
Proof.
  intro k. split; [reflexivity|]. induction (cs_items k) as [|l ls IH]; constructor; auto.
  clear. induction l; constructor; auto. split; reflexivity.
Qed.

Lemma col_all_T : forall {A} (c : option (list A)), col_all (fun _ => True) c.
Proof. intros A [l|]; cbn; [|exact I]. induction l; constructor; auto. Qed.

Lemma fliplr_batch_twice : forall cvi cvh cvs nci nch ncs samples b,
  col_all (has_channels nci) (fb_images b) -> col_all (has_channels nch) (fb_heatmaps b) ->
  col_all (has_channels ncs) (fb_segmaps b) ->
  fbatch_same (fliplr_batch cvi cvh cvs nci nch ncs samples
                (fliplr_batch cvi cvh cvs nci nch ncs samples b)) b.
Proof.
  intros cvi cvh cvs nci nch ncs samples b H1 H2 H3. unfold fbatch_same, fliplr_batch. cbn.
  split; [apply flip_col_twice with (P := has_channels nci); auto using arr_eq_refl, fliplr_twice|].
  split; [apply flip_col_twice with (P := has_channels nch); auto using arr_eq_refl, fliplr_twice|].
  split; [apply flip_col_twice with (P := has_channels ncs); auto using arr_eq_refl, fliplr_twice|].
  split; [apply flip_col_twice with (P := fun _ => True); auto using kpsoi_same_refl, kpsoi_fliplr_twice, col_all_T|].
  split; [apply flip_col_twice with (P := fun _ => True); auto using bbsoi_same_refl, bbsoi_fliplr_twice, col_all_T|].
  split; apply flip_col_twice with (P := fun _ => True); auto using coordsoi_same_refl, coordsoi_fliplr_twice, col_all_T.
Qed.

Lemma flipud_batch_twice : forall samples b,
  fbatch_same (flipud_batch samples (flipud_batch samples b)) b.
Proof.
  intros samples b. unfold fbatch_same, flipud_batch. cbn.
  split; [apply flip_col_twice with (P := fun _ => True); auto using arr_eq_refl, flipud_twice, col_all_T|].
  split; [apply flip_col_twice with (P := fun _ => True); auto using arr_eq_refl, flipud_twice, col_all_T|].
  split; [apply flip_col_twice with (P := fun _ => True); auto using arr_eq_refl, flipud_twice, col_all_T|].
  split; [apply flip_col_twice with (P := fun _ => True); auto using kpsoi_same_refl, kpsoi_flipud_twice, col_all_T|].
  split; [apply flip_col_twice with (P := fun _ => True); auto using bbsoi_same_refl, bbsoi_flipud_twice, col_all_T|].
  split; apply flip_col_twice with (P := fun _ => True); auto using coordsoi_same_refl, coordsoi_flipud_twice, col_all_T.
Qed.

Lemma flip_rows_nth : forall {A} (f : A -> A) samples l i,
  nth_error (flip_rows f samples l) i =
  match nth_error samples i with
  | Some s => if qleb (1#2) s then option_map f (nth_error l i) else nth_error l i
  | None => nth_error l i
  end.
Proof.
  intros A f samples. induction samples as [|s ss IH]; intros l i.
  - cbn. destruct i; reflexivity.
  - destruct l as [|x xs].
    + cbn. destruct i; cbn; [destruct (qleb (1#2) s); reflexivity|].
      destruct (nth_error ss i) as [q|]; [destruct (qleb (1#2) q); reflexivity|reflexivity].
    + destruct i; cbn; [destruct (qleb (1#2) s); reflexivity|]. apply IH.
Qed.

Lemma flip_col_row : forall {A} (f : A -> A) samples c i,
  col_row (flip_col f samples c) i =
  match nth_error samples i with
  | Some s => if qleb (1#2) s then option_map f (col_row c i) else col_row c i
  | None => col_row c i
  end.
Proof.
  intros A f samples [l|] i; cbn; [apply flip_rows_nth|].
  destruct (nth_error samples i) as [s|]; [destruct (qleb (1#2) s); reflexivity|reflexivity].
Qed.

(** A sampled row is flipped in every column, an unsampled one in none. *)
Lemma fliplr_batch_row : forall cvi cvh cvs nci nch ncs samples b i s,
  nth_error samples i = Some s ->
  let b' := fliplr_batch cvi cvh cvs nci nch ncs samples b in
  (s < 1#2 ->
     col_row (fb_images b') i = col_row (fb_images b) i /\
     col_row (fb_heatmaps b') i = col_row (fb_heatmaps b) i /\
     col_row (fb_segmaps b') i = col_row (fb_segmaps b) i /\
     col_row (fb_keypoints b') i = col_row (fb_keypoints b) i /\
     col_row (fb_bbs b') i = col_row (fb_bbs b) i /\
     col_row (fb_polygons b') i = col_row (fb_polygons b) i /\
     col_row (fb_line_strings b') i = col_row (fb_line_strings b) i) /\
  (1#2 <= s ->
     col_row (fb_images b') i = option_map (fliplr 0%Z cvi nci) (col_row (fb_images b) i) /\
     col_row (fb_heatmaps b') i = option_map (fliplr 0 cvh nch) (col_row (fb_heatmaps b) i) /\
     col_row (fb_segmaps b') i = option_map (fliplr 0%Z cvs ncs) (col_row (fb_segmaps b) i) /\
     col_row (fb_keypoints b') i = option_map kpsoi_fliplr (col_row (fb_keypoints b) i) /\
     col_row (fb_bbs b') i = option_map bbsoi_fliplr (col_row (fb_bbs b) i) /\
     col_row (fb_polygons b') i = option_map coordsoi_fliplr (col_row (fb_polygons b) i) /\
     col_row (fb_line_strings b') i = option_map coordsoi_fliplr (col_row (fb_line_strings b) i)).
Proof.
  intros cvi cvh cvs nci nch ncs samples b i s Hs. unfold fliplr_batch. cbn.
  rewrite !flip_col_row, Hs. split; intro H.
  - assert (qleb (1#2) s = false) as -> by (destruct (qleb (1#2) s) eqn:E; qbool; [lra|reflexivity]). auto 10.
  - assert (qleb (1#2) s = true) as -> by (destruct (qleb (1#2) s) eqn:E; qbool; [reflexivity|lra]). auto 10.
Qed.

Lemma flipud_batch_row : forall samples b i s,
  nth_error samples i = Some s ->
  let b' := flipud_batch samples b in
  (s < 1#2 ->
     col_row (fb_images b') i = col_row (fb_images b) i /\
     col_row (fb_heatmaps b') i = col_row (fb_heatmaps b) i /\
     col_row (fb_segmaps b') i = col_row (fb_segmaps b) i /\
     col_row (fb_keypoints b') i = col_row (fb_keypoints b) i /\
     col_row (fb_bbs b') i = col_row (fb_bbs b) i /\
     col_row (fb_polygons b') i = col_row (fb_polygons b) i /\
     col_row (fb_line_strings b') i = col_row (fb_line_strings b) i) /\
  (1#2 <= s ->
     col_row (fb_images b') i = option_map flipud (col_row (fb_images b) i) /\
     col_row (fb_heatmaps b') i = option_map flipud (col_row (fb_heatmaps b) i) /\
     col_row (fb_segmaps b') i = option_map flipud (col_row (fb_segmaps b) i) /\
     col_row (fb_keypoints b') i = option_map kpsoi_flipud (col_row (fb_keypoints b) i) /\
     col_row (fb_bbs b') i = option_map bbsoi_flipud (col_row (fb_bbs b) i) /\
     col_row (fb_polygons b') i = option_map coordsoi_flipud (col_row (fb_polygons b) i) /\
     col_row (fb_line_strings b') i = option_map coordsoi_flipud (col_row (fb_line_strings b) i)).
Proof.
  intros samples b i s Hs. unfold flipud_batch. cbn.
  rewrite !flip_col_row, Hs. split; intro H.
  - assert (qleb (1#2) s = false) as -> by (destruct (qleb (1#2) s) eqn:E; qbool; [lra|reflexivity]). auto 10.
  - assert (qleb (1#2) s = true) as -> by (destruct (qleb (1#2) s) eqn:E; qbool; [reflexivity|lra]). auto 10.
Qed.

(** Pixels and coordinates move together: a keypoint strictly inside the cell
    of pixel (r, c) is, after the flip, strictly inside the cell of the pixel
    that now shows the value of (r, c). *)
Lemma fliplr_cell : forall {V} (d : V) ok nc (a : arr (list V)) ks r c k,
  has_channels nc a -> (0 <= r < ah a)%Z -> (0 <= c < aw a)%Z ->
  In k ks -> inject_Z r < ky k < inject_Z (r + 1) -> inject_Z c < kx k < inject_Z (c + 1) ->
  exists k', In k' (kps (kpsoi_fliplr (mkKpsoi ks (ah a, aw a)))) /\
    exists r' c', (0 <= r' < ah (fliplr d ok nc a))%Z /\ (0 <= c' < aw (fliplr d ok nc a))%Z /\
      inject_Z r' < ky k' < inject_Z (r' + 1) /\ inject_Z c' < kx k' < inject_Z (c' + 1) /\
      apx (fliplr d ok nc a) r' c' = apx a r c.
Proof.
  intros V d ok nc a ks r c k Hch Hr Hc Hk Hy Hx.
  destruct (fliplr_mirrored d ok nc a Hch) as (M1 & M2 & M3).
  exists (mkKp (inject_Z (aw a) - kx k) (ky k)). split.
  { unfold kpsoi_fliplr. cbn. apply in_map_iff. exists k. auto. }
  exists r, (aw a - 1 - c)%Z. split; [lia|]. split; [lia|]. split; [exact Hy|]. split.
  - cbn [kx]. replace (aw a - 1 - c + 1)%Z with (aw a - c)%Z by lia.
    unfold Zminus. rewrite !inject_Z_plus, !inject_Z_opp. rewrite inject_Z_plus in Hx.
    change (inject_Z 1) with 1 in *. lra.
  - apply M3; assumption.
Qed.

Lemma flipud_cell : forall {A} (a : arr A) ks r c k,
  (0 <= r < ah a)%Z -> (0 <= c < aw a)%Z ->
  In k ks -> inject_Z r < ky k < inject_Z (r + 1) -> inject_Z c < kx k < inject_Z (c + 1) ->
  exists k', In k' (kps (kpsoi_flipud (mkKpsoi ks (ah a, aw a)))) /\
    exists r' c', (0 <= r' < ah (flipud a))%Z /\ (0 <= c' < aw (flipud a))%Z /\
      inject_Z r' < ky k' < inject_Z (r' + 1) /\ inject_Z c' < kx k' < inject_Z (c' + 1) /\
      apx (flipud a) r' c' = apx a r c.
Proof.
  intros A a ks r c k Hr Hc Hk Hy Hx.
  destruct (flipud_mirrored a) as (M1 & M2 & M3).
  exists (mkKp (kx k) (inject_Z (ah a) - ky k)). split.
  { unfold kpsoi_flipud. cbn. apply in_map_iff. exists k. auto. }
  exists (ah a - 1 - r)%Z, c. split; [lia|]. split; [lia|]. split; [|split; [exact Hx|apply M3; assumption]].
  cbn [ky]. replace (ah a - 1 - r + 1)%Z with (ah a - r)%Z by lia.
  unfold Zminus. rewrite !inject_Z_plus, !inject_Z_opp. rewrite inject_Z_plus in Hy.
  change (inject_Z 1) with 1 in *. lra.
Qed.

(** Boxes: as point sets they are mirrored, and stay proper. *)
Lemma bbsoi_fliplr_points : forall b,
  bbs_shape (bbsoi_fliplr b) = bbs_shape b /\
  Forall2 (fun i o => label o = label i /\ (proper i -> proper o) /\
    forall x y, in_box o x y <-> in_box i (inject_Z (snd (bbs_shape b)) - x) y)
    (bbs b) (bbs (bbsoi_fliplr b)).
Proof.
  intros [l s]. split; [reflexivity|]. unfold bbsoi_fliplr. cbn [bbs bbs_shape].
  induction l as [|i l IH]; cbn; constructor; auto. split; [reflexivity|].
  unfold proper, in_box. cbn. split; [lra|]. intros x y. lra.
Qed.
Lemma bbsoi_flipud_points : forall b,
  bbs_shape (bbsoi_flipud b) = bbs_shape b /\
  Forall2 (fun i o => label o = label i /\ (proper i -> proper o) /\
    forall x y, in_box o x y <-> in_box i x (inject_Z (fst (bbs_shape b)) - y))
    (bbs b) (bbs (bbsoi_flipud b)).
Proof.
  intros [l s]. split; [reflexivity|]. unfold bbsoi_flipud. cbn [bbs bbs_shape].
  induction l as [|i l IH]; cbn; constructor; auto. split; [reflexivity|].
  unfold proper, in_box. cbn. split; [lra|]. intros x y. lra.
Qed.

Lemma coords_fliplr : forall k c,
  Forall2 (fun i o => kx o == inject_Z (snd (kps_shape k)) - kx i /\ ky o == ky i) (kps k) (kps (kpsoi_fliplr k)) /\
  Forall2 (Forall2 (fun i o => fst o == inject_Z (snd (cs_shape c)) - fst i /\ snd o == snd i))
    (cs_items c) (cs_items (coordsoi_fliplr c)).
Proof.
  intros [ks s] [l s']. cbn. split.
  - induction ks; cbn; constructor; auto. cbn. split; reflexivity.
  - induction l as [|x l IH]; cbn; constructor; auto. clear. induction x; cbn; constructor; auto. cbn. split; reflexivity.
Qed.
Lemma coords_flipud : forall k c,
  Forall2 (fun i o => kx o == kx i /\ ky o == inject_Z (fst (kps_shape k)) - ky i) (kps k) (kps (kpsoi_flipud k)) /\
  Forall2 (Forall2 (fun i o => fst o == fst i /\ snd o == inject_Z (fst (cs_shape c)) - snd i))
    (cs_items c) (cs_items (coordsoi_flipud c)).
Proof.
  intros [ks s] [l s']. cbn. split.
  - induction ks; cbn; constructor; auto. cbn. split; reflexivity.
  - induction l as [|x l IH]; cbn; constructor; auto. clear. induction x; cbn; constructor; auto. cbn. split; reflexivity.
Qed.
