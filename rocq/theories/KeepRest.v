(** Further proofs about KeepSizeByResize and the pooling augmenters. *)
From Coq Require Import String QArith Qabs Lia Lqa.
From Verif Require Import Prelude PreludeFacts GeoModel GeoProofs SizeModel UtilModel UtilSpec UtilProofs KeepModel KeepSpec KeepProofs.
Import ListNotations.
Open Scope Z_scope.

Lemma ip_in_In : forall v l, ip_in v l = true <-> In v l.
Proof.
  intros v l. unfold ip_in. rewrite existsb_exists. split.
  - intros (x & I & E). apply ipv_eqb_iff in E. now subst.
  - intros I. exists v. split; [exact I|now apply ipv_eqb_iff].
Qed.

Lemma validate_chosen : forall a al p ix i, validate_param a al = Ok p ->
  chosen p ix i = no_resize \/ ip_in (chosen p ix i) valid_ips = true \/ (al = true /\ chosen p ix i = same_as_images).
Proof.
  intros a al p ix i H.
  assert (K : forall v, ip_in v (valid_ips ++ [no_resize]) = true -> v = no_resize \/ ip_in v valid_ips = true).
  { intros v I. apply ip_in_In, in_app_or in I. destruct I as [I|[I|[]]]; [right; now apply ip_in_In|left; auto]. }
  destruct a as [v|vs|]; unfold validate_param in H; [| |discriminate].
  - destruct (al && ipv_eqb v same_as_images) eqn:E.
    + injection H as <-. right. right. split; [destruct al; [reflexivity|discriminate]|reflexivity].
    + destruct (ip_in v (valid_ips ++ [no_resize])) eqn:I; [|discriminate]. injection H as <-. cbn [chosen].
      destruct (K v I); auto.
  - destruct vs as [|v0 vs]; [discriminate|].
    destruct (forallb _ (v0 :: vs)) eqn:F in H; [|discriminate]. injection H as <-.
    rewrite forallb_forall in F. cbn [chosen]. set (l := v0 :: vs) in *.
    specialize (F (nth (ix i mod length l) l no_resize)).
    assert (I : In (nth (ix i mod length l) l no_resize) l) by (apply nth_In, Nat.mod_upper_bound; discriminate).
    specialize (F I). destruct al.
    + apply ip_in_In, in_app_or in F. destruct F as [F|[F|[]]]; [|right; right; auto].
      apply ip_in_In in F. destruct (K _ F); auto.
    + destruct (K _ F); auto.
Qed.

Lemma chosen_map_valid : forall a ah p ph ix ixh i, validate_param a false = Ok p -> validate_param ah true = Ok ph ->
  chosen_map ph p ixh ix i = no_resize \/ ip_in (chosen_map ph p ixh ix i) valid_ips = true.
Proof.
  intros a ah p ph ix ixh i H H'. unfold chosen_map. destruct (ipv_eqb (chosen ph ixh i) same_as_images) eqn:E.
  - destruct (validate_chosen _ _ _ ix i H) as [?|[?|[? _]]]; auto. discriminate.
  - destruct (validate_chosen _ _ _ ixh i H') as [?|[?|[_ ?]]]; auto. apply ipv_eqb_neq in E. contradiction.
Qed.

Lemma on_col_ok : forall {A B} (f : A -> res B) o, (forall a, o = Some a -> exists b, f a = Ok b) -> exists r, on_col f o = Ok r.
Proof.
  intros A B f [a|] H; cbn; [|eauto]. destruct (H a eq_refl) as [b ->]. cbn. eauto.
Qed.

Lemma on_col_none : forall {A B} (f : A -> res B) o r, on_col f o = Ok r -> (o = None <-> r = None).
Proof.
  intros A B f [a|] r; cbn; [|intros [= <-]; tauto].
  destruct (f a); [|discriminate]. cbn. intros [= <-]. split; discriminate.
Qed.

Lemma in_col_row : forall {A} (P : A -> Prop) l i x, Forall P l -> row l i x -> P x.
Proof. intros A P l i x F R. rewrite Forall_forall in F. apply F. eapply nth_error_In. exact R. Qed.

Lemma nth_map_some : forall {A B} (f : A -> B) l i y, nth_error (map f l) i = Some y -> exists x, nth_error l i = Some x /\ y = f x.
Proof. intros A B f l i y H. rewrite nth_error_map in H. destruct (nth_error l i); [|discriminate]. injection H as <-. eauto. Qed.

Lemma keep_maps_ok : forall cv2 p ph a ah ix ixh n ms cs, validate_param a false = Ok p -> validate_param ah true = Ok ph ->
  named p -> named ph -> Forall (fun m => pos_img (mo_arr m)) ms -> Forall (fun m => pos_img (mo_arr m)) cs ->
  n = length ms ->
  (forall i m, (i < n)%nat -> row cs i m -> i_int32 (mo_arr m) = true ->
     chosen_map ph p ixh ix i = IS "nearest" \/ chosen_map ph p ixh ix i = no_resize) ->
  exists rs, keep_maps cv2 cs (map mo_shape ms) (map (fun m => i_shape (mo_arr m)) ms) (draw_map_ips ph (draw_ips p n ix) n ixh) = Ok rs.
Proof.
  intros cv2 p ph a ah_ ix ixh n ms cs V V' N N' F F' Hn C. unfold keep_maps. apply mapM_rows_ok.
  intros i (((m', v), s), s') X. apply nth_combine in X. destruct X as [X _]. apply nth_combine in X. destruct X as [X Xs].
  apply nth_combine in X. destruct X as [Xm Xv]. cbn [fst snd] in *.
  apply nth_map_some in Xs. destruct Xs as (m & Xm' & ->).
  destruct (draw_map_ips_spec ph p n ixh ix (validate_not_same _ _ V)) as [_ S]. destruct (S _ _ Xv) as [S1 S2]. specialize (S2 N N').
  cbn [keep_map]. destruct (ipv_eqb v no_resize) eqn:Ev; [eauto|]. apply ipv_eqb_neq in Ev.
  assert (L : (i < n)%nat) by (subst n; exact (row_lt _ _ _ Xm')).
  destruct (imresize_ok cv2 (mo_arr m') (i_shape (mo_arr m)) v) as [o E].
  - exact (in_col_row _ _ _ _ F' Xm).
  - exact (proj1 (in_col_row _ _ _ _ F Xm')).
  - destruct (chosen_map_valid _ _ _ _ ix ixh i V V') as [Q|Q]; [tauto|now rewrite S2].
  - intros E32. destruct (C i m' L Xm E32) as [Q|Q]; [|tauto]. rewrite S2, Q. reflexivity.
  - unfold map_resize. rewrite E. cbn. eauto.
Qed.

Lemma Forall_impl' : forall {A} (P Q : A -> Prop) l, Forall P l -> (forall x, P x -> Q x) -> Forall Q l.
Proof. intros A P Q l F H. eapply Forall_impl; [|exact F]. exact H. Qed.

Lemma keep_size_ok : forall cv2 a ah as_ p ph ps ix ixh ixs child b c,
  validate_param a false = Ok p -> validate_param ah true = Ok ph -> validate_param as_ true = Ok ps ->
  named p -> named ph -> named ps ->
  (forall i, (i < nb_rows b)%nat -> chosen_map ps p ixs ix i = IS "nearest" \/ chosen_map ps p ixs ix i = no_resize) ->
  child b = Ok c -> same_columns b c -> rows (nb_rows b) b -> rows (nb_rows b) c -> positive b -> positive c ->
  exists r, keep_size cv2 p ph ps ix ixh ixs child b = Ok r /\ rows (nb_rows b) r /\ same_columns b r.
Proof.
  intros cv2 a a1 a2 p ph ps ix ixh ixs child b c V V1 V2 N N1 N2 C Ec (M1 & M2 & M3 & M4) Rb Rc (P1 & P2 & P3 & P4) (P1' & P2' & P3' & P4').
  assert (K : exists r, keep_size cv2 p ph ps ix ixh ixs child b = Ok r).
  { unfold keep_size, draw_samples. rewrite Ec. cbn [bind].
    destruct Rb as (R1 & R2 & R3 & R4). 
    match goal with |- context [bind (on_col ?f (b_images c))] => destruct (on_col_ok f (b_images c)) as [r1 ->] end.
    { intros cs E. destruct (b_images b) as [ims|] eqn:Eb; [|destruct M1 as [M1 _]; rewrite M1 in E by reflexivity; discriminate].
      cbn [shapes_of bind]. unfold keep_images. rewrite E in P1'. cbn in P1, P1', R1.
      destruct (mapM_rows_ok (keep_image cv2) (combine (combine cs (draw_ips p (nb_rows b) ix)) (map i_shape ims))) as [r ->]; [|cbn; eauto].
      intros i ((m', v), s) X. apply nth_combine in X. destruct X as [X Xs]. apply nth_combine in X. destruct X as [Xm Xv]. cbn [fst snd] in *.
      apply nth_map_some in Xs. destruct Xs as (m & Xm' & ->).
      destruct (draw_ips_spec p (nb_rows b) ix (validate_not_same _ _ V)) as [_ S]. destruct (S _ _ Xv) as (S1 & _ & S2). specialize (S2 N).
      cbn [keep_image]. destruct (ipv_eqb v no_resize) eqn:Ev; [eauto|]. apply ipv_eqb_neq in Ev.
      destruct (in_col_row _ _ _ _ P1' Xm) as [Q1 Q2]. destruct (in_col_row _ _ _ _ P1 Xm') as [Q3 Q4].
      apply imresize_ok; [exact Q1|exact (proj1 Q3)| |congruence].
      destruct (validate_chosen _ _ _ ix i V) as [Q|[Q|[Q _]]]; [tauto|now rewrite S2|discriminate]. }
    cbn [bind].
    match goal with |- context [bind (on_col ?f (b_heatmaps c))] => destruct (on_col_ok f (b_heatmaps c)) as [r2 ->] end.
    { intros cs E. destruct (b_heatmaps b) as [ms|] eqn:Eb; [|destruct M2 as [M2 _]; rewrite M2 in E by reflexivity; discriminate].
      cbn [shapes_of bind]. rewrite E in P2'. cbn in P2, P2', R2.
      apply (keep_maps_ok cv2 p ph a a1); auto.
      - apply (Forall_impl' _ _ _ P2). tauto.
      - apply (Forall_impl' _ _ _ P2'). tauto.
      - intros i m _ X Q. destruct (in_col_row _ _ _ _ P2' X) as (_ & Q' & _). congruence. }
    cbn [bind].
    match goal with |- context [bind (on_col ?f (b_segmaps c))] => destruct (on_col_ok f (b_segmaps c)) as [r3 ->] end.
    { intros cs E. destruct (b_segmaps b) as [ms|] eqn:Eb; [|destruct M3 as [M3 _]; rewrite M3 in E by reflexivity; discriminate].
      cbn [shapes_of bind]. rewrite E in P3'. cbn in P3, P3', R3.
      apply (keep_maps_ok cv2 p ps a a2); auto.
      - apply (Forall_impl' _ _ _ P3). tauto.
      - apply (Forall_impl' _ _ _ P3'). tauto. }
    cbn [bind].
    match goal with |- context [bind (on_col ?f (b_keypoints c))] => destruct (on_col_ok f (b_keypoints c)) as [r4 ->] end.
    { intros cs E. destruct (b_keypoints b) as [ks|] eqn:Eb; [|destruct M4 as [M4 _]; rewrite M4 in E by reflexivity; discriminate].
      cbn [shapes_of bind]. rewrite E in P4'. cbn in P4, P4'. unfold keep_keypoints. apply mapM_rows_ok.
      intros i ((k', v), s) X. apply nth_combine in X. destruct X as [X Xs]. apply nth_combine in X. destruct X as [Xm Xv]. cbn [fst snd] in *.
      apply nth_map_some in Xs. destruct Xs as (m & Xm' & ->). cbn [keep_kps]. destruct (ipv_eqb v no_resize); [eauto|].
      apply kpsoi_on_ok; [exact (in_col_row _ _ _ _ P4' Xm)|exact (in_col_row _ _ _ _ P4 Xm')]. }
    cbn [bind]. eauto. }
  destruct K as [r K]. exists r. split; [exact K|].
  destruct (keep_size_inv _ _ _ _ _ _ _ _ _ _ K) as (c' & q & E & E1 & E2 & E3 & E4 & Er & _).
  rewrite Ec in E. injection E as <-.
  assert (V' := validate_not_same _ _ V).
  assert (M1' : b_images c = None <-> b_images r = None).
  { apply on_col_none in E1. rewrite Er, E1. destruct q; cbn; split; congruence. }
  split; [|unfold same_columns, same_col in *; rewrite M1, M2, M3, M4; apply on_col_none in E2, E3, E4; auto].
  destruct Rb as (R1 & R2 & R3 & R4). destruct Rc as (R1' & R2' & R3' & R4'). unfold rows.
  split.
  { destruct (b_images c) as [cs|] eqn:E0.
    - destruct (b_images b) as [ims|] eqn:Eb; [|destruct M1 as [M1 _]; specialize (M1 eq_refl); discriminate].
      cbn in R1, R1'. destruct (keep_size_images cv2 a p ph ps ix ixh ixs child b c r ims cs V Ec K Eb E0) as (rs & -> & L & _); [congruence|].
      cbn. congruence.
    - destruct M1' as [M1' _]. rewrite M1' by reflexivity. exact I. }
  split.
  { destruct (b_heatmaps c) as [cs|] eqn:E0.
    - destruct (b_heatmaps b) as [ims|] eqn:Eb; [|destruct M2 as [M2 _]; specialize (M2 eq_refl); discriminate].
      cbn in R2, R2'. apply on_col_some in E2. destruct E2 as (rs & E2 & ->). cbn [shapes_of bind] in E2.
      apply keep_maps_spec in E2; [cbn; destruct E2; congruence|exact V'|congruence|congruence].
    - cbn in E2. injection E2 as <-. exact I. }
  split.
  { destruct (b_segmaps c) as [cs|] eqn:E0.
    - destruct (b_segmaps b) as [ims|] eqn:Eb; [|destruct M3 as [M3 _]; specialize (M3 eq_refl); discriminate].
      cbn in R3, R3'. apply on_col_some in E3. destruct E3 as (rs & E3 & ->). cbn [shapes_of bind] in E3.
      apply keep_maps_spec in E3; [cbn; destruct E3; congruence|exact V'|congruence|congruence].
    - cbn in E3. injection E3 as <-. exact I. }
  { destruct (b_keypoints c) as [cs|] eqn:E0.
    - destruct (b_keypoints b) as [ims|] eqn:Eb; [|destruct M4 as [M4 _]; specialize (M4 eq_refl); discriminate].
      cbn in R4, R4'. apply on_col_some in E4. destruct E4 as (rs & E4 & ->). cbn [shapes_of bind] in E4.
      apply keep_keypoints_spec in E4; [cbn; destruct E4; congruence|exact V'|congruence|congruence].
    - cbn in E4. injection E4 as <-. exact I. }
Qed.

(** The size a row of the result refers to is the size before, or the one after
    the children. *)
Lemma keep_size_shape_at : forall cv2 a ah as_ p ph ps ix ixh ixs child b c r i s,
  validate_param a false = Ok p -> validate_param ah true = Ok ph -> validate_param as_ true = Ok ps ->
  (forall i, (i < nb_rows b)%nat ->
     (chosen p ix i = no_resize <-> chosen_map ph p ixh ix i = no_resize) /\
     (chosen p ix i = no_resize <-> chosen_map ps p ixs ix i = no_resize)) ->
  child b = Ok c -> same_columns b c -> rows (nb_rows b) b -> rows (nb_rows b) c ->
  keep_size cv2 p ph ps ix ixh ixs child b = Ok r -> shape_at r i s ->
  (chosen p ix i = no_resize -> shape_at c i s) /\ (chosen p ix i <> no_resize -> shape_at b i s).
Proof.
  intros cv2 a a1 a2 p ph ps ix ixh ixs child b c r i s V V1 V2 C Ec (M1 & M2 & M3 & M4) Rb Rc K S.
  assert (Rb0 := Rb). destruct Rb as (R1 & R2 & R3 & R4). destruct Rc as (R1' & R2' & R3' & R4').
  destruct (keep_size_inv _ _ _ _ _ _ _ _ _ _ K) as (c' & q & E & E1 & E2 & E3 & E4 & Er & _).
  rewrite Ec in E. injection E as <-. apply on_col_none in E1, E2, E3, E4.
  inversion S as [l m El Hm|l m El Hm|l m El Hm|l m El Hm]; subst s.
  - destruct (b_images c) as [cs|] eqn:E0; [|destruct E1 as [E1 _]; rewrite E1 in Er by reflexivity; rewrite Er in El; discriminate].
    destruct (b_images b) as [ims|] eqn:Eb; [|destruct M1 as [M1 _]; specialize (M1 eq_refl); discriminate]. cbn in R1, R1'.
    destruct (keep_size_images cv2 a p ph ps ix ixh ixs child b c r ims cs V Ec K Eb E0) as (rs & El' & L & H); [congruence|].
    rewrite El in El'. injection El' as <-. assert (Li := row_lt _ _ _ Hm).
    destruct (lt_row ims i) as [m0 H0]; [lia|]. destruct (lt_row cs i) as [m1 H1]; [lia|].
    destruct (H i m0 m1 m H0 H1 Hm) as (A1 & A2 & _). split.
    + intros Q. rewrite (A1 Q). econstructor; eassumption.
    + intros Q. rewrite (proj1 (A2 Q)). econstructor; eassumption.
  - destruct (b_heatmaps c) as [cs|] eqn:E0; [|destruct E2 as [E2 _]; rewrite E2 in El by reflexivity; discriminate].
    destruct (b_heatmaps b) as [ims|] eqn:Eb; [|destruct M2 as [M2 _]; specialize (M2 eq_refl); discriminate]. cbn in R2, R2'.
    destruct (keep_size_heatmaps cv2 a a1 p ph ps ix ixh ixs child b c r ims cs V V1 Ec K Rb0 Eb E0) as (rs & El' & L & H); [congruence|].
    rewrite El in El'. injection El' as <-. assert (Li := row_lt _ _ _ Hm).
    destruct (lt_row ims i) as [m0 H0]; [lia|]. destruct (lt_row cs i) as [m1 H1]; [lia|].
    destruct (H i m0 m1 m H0 H1 Hm) as (A1 & A2 & _). destruct (C i) as [C1 _]; [lia|]. split.
    + intros Q. rewrite (A1 (proj1 C1 Q)). eapply at_heatmap; eassumption.
    + intros Q. rewrite (proj2 (A2 ltac:(tauto))). eapply at_heatmap; eassumption.
  - destruct (b_segmaps c) as [cs|] eqn:E0; [|destruct E3 as [E3 _]; rewrite E3 in El by reflexivity; discriminate].
    destruct (b_segmaps b) as [ims|] eqn:Eb; [|destruct M3 as [M3 _]; specialize (M3 eq_refl); discriminate]. cbn in R3, R3'.
    destruct (keep_size_segmaps cv2 a a2 p ph ps ix ixh ixs child b c r ims cs V V2 Ec K Rb0 Eb E0) as (rs & El' & L & H); [congruence|].
    rewrite El in El'. injection El' as <-. assert (Li := row_lt _ _ _ Hm).
    destruct (lt_row ims i) as [m0 H0]; [lia|]. destruct (lt_row cs i) as [m1 H1]; [lia|].
    destruct (H i m0 m1 m H0 H1 Hm) as (A1 & A2 & _). destruct (C i) as [_ C1]; [lia|]. split.
    + intros Q. rewrite (A1 (proj1 C1 Q)). eapply at_segmap; eassumption.
    + intros Q. rewrite (proj2 (A2 ltac:(tauto))). eapply at_segmap; eassumption.
  - destruct (b_keypoints c) as [cs|] eqn:E0; [|destruct E4 as [E4 _]; rewrite E4 in El by reflexivity; discriminate].
    destruct (b_keypoints b) as [ims|] eqn:Eb; [|destruct M4 as [M4 _]; specialize (M4 eq_refl); discriminate]. cbn in R4, R4'.
    destruct (keep_size_keypoints cv2 a p ph ps ix ixh ixs child b c r ims cs V Ec K Rb0 Eb E0) as (rs & El' & L & H); [congruence|].
    rewrite El in El'. injection El' as <-. assert (Li := row_lt _ _ _ Hm).
    destruct (lt_row ims i) as [m0 H0]; [lia|]. destruct (lt_row cs i) as [m1 H1]; [lia|].
    destruct (H i m0 m1 m H0 H1 Hm) as (A1 & A2). split.
    + intros Q. rewrite (A1 Q). eapply at_keypoints; eassumption.
    + intros Q. rewrite (proj1 (A2 Q)). eapply at_keypoints; eassumption.
Qed.

Lemma keep_size_aligned : forall cv2 a ah as_ p ph ps ix ixh ixs child b c r,
  validate_param a false = Ok p -> validate_param ah true = Ok ph -> validate_param as_ true = Ok ps ->
  (forall i, (i < nb_rows b)%nat ->
     (chosen p ix i = no_resize <-> chosen_map ph p ixh ix i = no_resize) /\
     (chosen p ix i = no_resize <-> chosen_map ps p ixs ix i = no_resize)) ->
  child b = Ok c -> same_columns b c -> rows (nb_rows b) b -> rows (nb_rows b) c -> aligned b -> aligned c ->
  keep_size cv2 p ph ps ix ixh ixs child b = Ok r -> aligned r.
Proof.
  intros cv2 a a1 a2 p ph ps ix ixh ixs child b c r V V1 V2 C Ec M Rb Rc Ab Ac K i s s' S S'.
  destruct (keep_size_shape_at cv2 a a1 a2 p ph ps ix ixh ixs child b c r i s V V1 V2 C Ec M Rb Rc K S) as [A1 A2].
  destruct (keep_size_shape_at cv2 a a1 a2 p ph ps ix ixh ixs child b c r i s' V V1 V2 C Ec M Rb Rc K S') as [B1 B2].
  destruct (ipv_dec (chosen p ix i) no_resize) as [Q|Q].
  - exact (Ac i s s' (A1 Q) (B1 Q)).
  - exact (Ab i s s' (A2 Q) (B2 Q)).
Qed.

(* ------------------------------------------------------------------ *)
(** * Cases where the property fails *)

(** One row: an image, a heatmap and a segmentation map, all of size n x n. *)
Definition ex_img (int32 : bool) (n : Z) : img := mkImg int32 1 (mkArr n n (fun y x => y + x)).
Definition ex_batch (n : Z) : kbatch :=
  mkKb false (Some [ex_img false n]) (Some [mkMapoi (ex_img false n) (n, n)]) (Some [mkMapoi (ex_img true n) (n, n)]) None.

Lemma ex_aligned : forall n, aligned (ex_batch n).
Proof.
  intros n i s s' H H'.
  assert (K : forall t, shape_at (ex_batch n) i t -> t = (n, n)).
  { intros t S. inversion S as [l m E R|l m E R|l m E R|l m E R]; subst t; cbn in E; try discriminate;
      injection E as <-; unfold row in R; destruct i as [|[|i]]; cbn in R; try discriminate; injection R as <-; reflexivity. }
  rewrite (K s H), (K s' H'). reflexivity.
Qed.
Lemma ex_positive : forall n, 0 < n -> positive (ex_batch n).
Proof.
  intros n Hn. unfold positive, ex_batch, in_col, pos_img, pos_shape. cbn.
  repeat split; repeat constructor; cbn; auto.
Qed.
Lemma ex_same : forall n n', same_columns (ex_batch n) (ex_batch n').
Proof. intros. unfold same_columns, same_col. cbn. repeat split; intros; discriminate || reflexivity. Qed.

(** The child: it halves the size, 4 x 4 -> 2 x 2. *)
Definition ex_child (b : kbatch) : res kbatch := Ok (ex_batch 2).

Lemma map_no_resize : forall cv2, exists p ph ps ix child b c r,
  validate_param (AVal (IS "cubic")) false = Ok p /\ validate_param (AVal same_as_images) true = Ok ph /\
  validate_param (AVal no_resize) true = Ok ps /\
  child b = Ok c /\ same_columns b c /\ positive b /\ positive c /\ aligned b /\ aligned c /\
  keep_size cv2 p ph ps ix ix ix child b = Ok r /\ ~ aligned r.
Proof.
  intros cv2. exists (PDet (IS "cubic")), PSame, (PDet no_resize), (fun _ => 0%nat), ex_child, (ex_batch 4), (ex_batch 2). eexists.
  do 4 (split; [reflexivity|]). split; [apply ex_same|]. do 2 (split; [now apply ex_positive|]).
  do 2 (split; [apply ex_aligned|]). split; [reflexivity|].
  intros A. specialize (A 0%nat (4, 4) (2, 2)).
  assert (X : (4, 4) = (2, 2)); [|discriminate X]. apply A.
  - set (m := mkImg false 1 (mkArr 4 4 (cv2 (Some (IS "cubic")) (4, 4) (i_px (ex_img false 2))))).
    change (4, 4) with (i_shape m). apply (at_image _ 0%nat [m] m); reflexivity.
  - set (m := mkMapoi (ex_img true 2) (2, 2)).
    apply (at_segmap _ 0%nat [m] m); reflexivity.
Qed.

Lemma integer_becomes_string : forall cv2, exists p ph ps ix child b c,
  validate_param (AVal (IN 2)) false = Ok p /\ validate_param (AList [same_as_images; IS "nearest"]) true = Ok ph /\
  validate_param (AVal (IS "nearest")) true = Ok ps /\
  child b = Ok c /\ same_columns b c /\ positive b /\ positive c /\ aligned b /\ aligned c /\
  keep_size cv2 p ph ps ix ix ix child b = Err AssertionError.
Proof.
  intros cv2. exists (PDet (IN 2)), (PChoice [same_as_images; IS "nearest"]), (PDet (IS "nearest")), (fun _ => 0%nat), ex_child, (ex_batch 4), (ex_batch 2).
  do 4 (split; [reflexivity|]). split; [apply ex_same|]. do 2 (split; [now apply ex_positive|]).
  do 2 (split; [apply ex_aligned|]). reflexivity.
Qed.

Lemma mixed_list : forall cv2, exists p ph ps ix child b c,
  validate_param (AList [IS "nearest"; IN 2]) false = Ok p /\ validate_param (AVal same_as_images) true = Ok ph /\
  validate_param (AVal (IS "nearest")) true = Ok ps /\
  child b = Ok c /\ same_columns b c /\ positive b /\ positive c /\ aligned b /\ aligned c /\
  keep_size cv2 p ph ps ix ix ix child b = Err AssertionError.
Proof.
  intros cv2. exists (PChoice [IS "nearest"; IN 2]), PSame, (PDet (IS "nearest")), (fun _ => 1%nat), ex_child, (ex_batch 4), (ex_batch 2).
  do 4 (split; [reflexivity|]). split; [apply ex_same|]. do 2 (split; [now apply ex_positive|]).
  do 2 (split; [apply ex_aligned|]). reflexivity.
Qed.

Lemma segmaps_as_images : forall cv2, exists p ph ps ix child b c,
  validate_param (AVal (IS "cubic")) false = Ok p /\ validate_param (AVal same_as_images) true = Ok ph /\
  validate_param (AVal same_as_images) true = Ok ps /\
  child b = Ok c /\ same_columns b c /\ positive b /\ positive c /\ aligned b /\ aligned c /\
  keep_size cv2 p ph ps ix ix ix child b = Err ValueError.
Proof.
  intros cv2. exists (PDet (IS "cubic")), PSame, PSame, (fun _ => 1%nat), ex_child, (ex_batch 4), (ex_batch 2).
  do 4 (split; [reflexivity|]). split; [apply ex_same|]. do 2 (split; [now apply ex_positive|]).
  do 2 (split; [apply ex_aligned|]). reflexivity.
Qed.

Lemma empty_array : forall cv2, exists p ph ps ix child b r,
  validate_param (AVal (IS "cubic")) false = Ok p /\ validate_param (AVal same_as_images) true = Ok ph /\
  validate_param (AVal (IS "nearest")) true = Ok ps /\
  child b = Ok b /\ b_array b = true /\ b_images b = Some [] /\
  keep_size cv2 p ph ps ix ix ix child b = Ok r /\ b_images r = Some [] /\ b_array r = false.
Proof.
  intros cv2. exists (PDet (IS "cubic")), PSame, (PDet (IS "nearest")), (fun _ => 0%nat), (fun b => Ok b), (mkKb true (Some []) None None None).
  eexists. repeat split; reflexivity.
Qed.

(* ------------------------------------------------------------------ *)
(** * Array or list *)

Lemma one_shape_iff : forall l, one_shape l = true <-> l <> [] /\ forall m m', In m l -> In m' l -> i_shape3 m = i_shape3 m'.
Proof.
  intros [|m l]; cbn [one_shape]; [split; [discriminate|intros [H _]; congruence]|].
  rewrite forallb_forall. split.
  - intros H. split; [discriminate|].
    assert (K : forall x, In x (m :: l) -> i_shape3 x = i_shape3 m).
    { intros x [->|I]; [reflexivity|]. specialize (H x I). apply andb_prop in H. destruct H as [H1 H2].
      apply shape2_eqb_iff in H1. apply Z.eqb_eq in H2. unfold i_shape3. congruence. }
    intros x y Hx Hy. now rewrite (K x Hx), (K y Hy).
  - intros [_ H] x I. assert (E := H m x (or_introl eq_refl) (or_intror I)). injection E as E1 E2 E3.
    apply andb_true_intro. split; [apply shape2_eqb_iff; unfold i_shape; congruence|lia].
Qed.

Lemma array_stays : forall cv2 a p ph ps ix ixh ixs child b c r ims cs s nc,
  validate_param a false = Ok p -> child b = Ok c -> keep_size cv2 p ph ps ix ixh ixs child b = Ok r ->
  b_images b = Some ims -> b_images c = Some cs -> length cs = length ims ->
  b_array b = true -> ims <> [] -> Forall (fun m => i_shape m = s) ims -> Forall (fun m => i_nc m = nc) cs ->
  (forall i, (i < length ims)%nat -> chosen p ix i <> no_resize) ->
  b_array r = true.
Proof.
  intros cv2 a p ph ps ix ixh ixs child b c r ims cs s nc V Ec H Eb Ecs L Ba Ne Fs Fc C.
  apply validate_not_same in V. destruct (keep_size_inv _ _ _ _ _ _ _ _ _ _ H) as (c' & q & E & E1 & _ & _ & _ & Er & Ea).
  rewrite Ec in E. injection E as <-. rewrite Ecs in E1. apply on_col_some in E1. destruct E1 as ([q' rs] & E1 & ->).
  rewrite Eb in E1. cbn [shapes_of bind] in E1. apply keep_images_spec in E1; auto; [|unfold nb_rows; now rewrite Eb].
  destruct E1 as (-> & Lr & R). rewrite Ea, Ba. cbn [andb]. apply one_shape_iff.
  split; [intros ->; destruct ims; [congruence|discriminate]|].
  assert (K : forall m, In m rs -> i_shape3 m = (s, nc)).
  { intros m I. apply In_nth_error in I. destruct I as [i I]. assert (Li := row_lt _ _ _ I).
    destruct (lt_row ims i) as [m0 H0]; [lia|]. destruct (lt_row cs i) as [m1 H1]; [lia|].
    destruct (R i m0 m1 m H0 H1 I) as (_ & R2 & _). destruct (R2 (C i ltac:(lia))) as [R3 R4].
    unfold i_shape3. rewrite R3, R4, (in_col_row _ _ _ _ Fs H0), (in_col_row _ _ _ _ Fc H1). reflexivity. }
  intros m m' I I'. now rewrite (K m I), (K m' I').
Qed.

Lemma array_only : forall cv2 p ph ps ix ixh ixs child b r rs,
  keep_size cv2 p ph ps ix ixh ixs child b = Ok r -> b_array r = true -> b_images r = Some rs ->
  b_array b = true /\ rs <> [] /\ forall m m', In m rs -> In m' rs -> i_shape3 m = i_shape3 m'.
Proof.
  intros cv2 p ph ps ix ixh ixs child b r rs H Ba Er.
  destruct (keep_size_inv _ _ _ _ _ _ _ _ _ _ H) as (c & q & E & E1 & _ & _ & _ & Er' & Ea).
  destruct q as [[q' l]|]; [|congruence]. rewrite Er in Er'. cbn in Er'. injection Er' as <-. rewrite Ba in Ea. subst q'.
  destruct (b_images c) as [cs|]; [|discriminate]. apply on_col_some in E1. destruct E1 as ([q' l] & E1 & X). injection X as <- <-.
  destruct (shapes_of i_shape (b_images b)) as [s|]; [|discriminate]. cbn [bind] in E1. unfold keep_images in E1.
  destruct (mapM _ _) as [l|] in E1; [|discriminate]. cbn in E1. injection E1 as E1 ->.
  apply andb_prop in E1. destruct E1 as [E1 E2]. split; [exact E1|]. now apply one_shape_iff.
Qed.
