From Coq Require Import Lia Lqa ZifyBool.
From Verif Require Import Prelude PreludeFacts GeoModel GeoSpec.
Local Open Scope Q_scope.

(* ---------- projection ---------- *)

Lemma shape2_eqb_iff : forall a b, shape2_eqb a b = true <-> a = b.
Proof.
  intros [a1 a2] [b1 b2]. unfold shape2_eqb. cbn. split; intro H.
  - apply andb_true_iff in H. destruct H as [H1 H2].
    apply Z.eqb_eq in H1. apply Z.eqb_eq in H2. congruence.
  - injection H as -> ->. rewrite !Z.eqb_refl. reflexivity.
Qed.

Lemma pos_inject : forall z, (0 < z)%Z -> 0 < inject_Z z.
Proof. intros z H. change 0 with (inject_Z 0). apply inject_Z_lt. exact H. Qed.

Lemma project_coords_scale : forall pts h w h' w',
  (0 < h)%Z -> (0 < w)%Z -> (0 < h')%Z -> (0 < w')%Z ->
  exists out, project_coords pts (h, w) (h', w') = Ok out /\
  Forall2 (fun p q => fst q == fst p * (inject_Z w' / inject_Z w) /\
                      snd q == snd p * (inject_Z h' / inject_Z h)) pts out.
Proof.
  intros pts h w h' w' Hh Hw Hh' Hw'. unfold project_coords.
  apply pos_inject in Hw as Qw. apply pos_inject in Hh as Qh.
  destruct (shape2_eqb (h, w) (h', w')) eqn:E.
  - apply shape2_eqb_iff in E. injection E as <- <-.
    exists pts. split; [reflexivity|].
    induction pts as [|p ps IH]; constructor; auto.
    split; field; lra.
  - cbn. replace (0 <? h)%Z with true by lia. replace (0 <? w)%Z with true by lia.
    replace (0 <? h')%Z with true by lia. replace (0 <? w')%Z with true by lia. cbn.
    eexists. split; [reflexivity|].
    induction pts as [|p ps IH]; cbn; constructor; auto. cbn.
    split; field; lra.
Qed.

Lemma Forall2_compose : forall {A B C} (R1 : A -> B -> Prop) (R2 : B -> C -> Prop)
  (R3 : A -> C -> Prop) l1 l2 l3,
  (forall a b c, R1 a b -> R2 b c -> R3 a c) ->
  Forall2 R1 l1 l2 -> Forall2 R2 l2 l3 -> Forall2 R3 l1 l3.
Proof.
  intros A B C R1 R2 R3 l1 l2 l3 HR H. revert l3.
  induction H as [|a b l1 l2 Hab H IH]; intros l3 H3; inversion H3; subst; constructor; eauto.
Qed.

Lemma project_coords_roundtrip : forall pts h w h' w',
  (0 < h)%Z -> (0 < w)%Z -> (0 < h')%Z -> (0 < w')%Z ->
  exists mid out, project_coords pts (h, w) (h', w') = Ok mid /\
  project_coords mid (h', w') (h, w) = Ok out /\ Forall2 pt_eq pts out.
Proof.
  intros pts h w h' w' Hh Hw Hh' Hw'.
  destruct (project_coords_scale pts h w h' w') as (mid & E1 & F1); auto.
  destruct (project_coords_scale mid h' w' h w) as (out & E2 & F2); auto.
  exists mid, out. split; [exact E1|]. split; [exact E2|].
  apply pos_inject in Hw as Qw. apply pos_inject in Hh as Qh.
  apply pos_inject in Hw' as Qw'. apply pos_inject in Hh' as Qh'.
  eapply Forall2_compose; [|exact F1|exact F2].
  intros a b c [X1 Y1] [X2 Y2]. split; cbv beta.
  - rewrite X2, X1. field. split; lra.
  - rewrite Y2, Y1. field. split; lra.
Qed.

Lemma project_coords_compose : forall pts h w h' w' h'' w'',
  (0 < h)%Z -> (0 < w)%Z -> (0 < h')%Z -> (0 < w')%Z -> (0 < h'')%Z -> (0 < w'')%Z ->
  exists mid out out', project_coords pts (h, w) (h', w') = Ok mid /\
  project_coords mid (h', w') (h'', w'') = Ok out /\
  project_coords pts (h, w) (h'', w'') = Ok out' /\ Forall2 pt_eq out out'.
Proof.
  intros pts h w h' w' h'' w'' Hh Hw Hh' Hw' Hh'' Hw''.
  destruct (project_coords_scale pts h w h' w') as (mid & E1 & F1); auto.
  destruct (project_coords_scale mid h' w' h'' w'') as (out & E2 & F2); auto.
  destruct (project_coords_scale pts h w h'' w'') as (out' & E3 & F3); auto.
  exists mid, out, out'. repeat (split; [assumption|]).
  apply pos_inject in Hw as Qw. apply pos_inject in Hh as Qh.
  apply pos_inject in Hw' as Qw'. apply pos_inject in Hh' as Qh'.
  assert (Forall2 (fun p q => fst q == fst p * (inject_Z w'' / inject_Z w) /\
                              snd q == snd p * (inject_Z h'' / inject_Z h)) pts out) as F4.
  { eapply Forall2_compose; [|exact F1|exact F2].
    intros a b c [X1 Y1] [X2 Y2]. split.
    - rewrite X2, X1. field. split; lra.
    - rewrite Y2, Y1. field. split; lra. }
  clear - F3 F4. revert out' F3.
  induction F4 as [|p q ps qs Hpq F4 IH]; intros out' F3; inversion F3; subst; constructor; auto.
  destruct Hpq as [X Y]. match goal with H : _ /\ _ |- _ => destruct H as [X' Y'] end.
  split; [rewrite X, X'|rewrite Y, Y']; reflexivity.
Qed.

Lemma project_coords_same : forall pts s, project_coords pts s s = Ok pts.
Proof.
  intros pts s. unfold project_coords.
  replace (shape2_eqb s s) with true; [reflexivity|].
  symmetry. apply shape2_eqb_iff. reflexivity.
Qed.

Lemma project_coords_reject : forall pts h w h' w',
  (h, w) <> (h', w') -> (h <= 0 \/ w <= 0 \/ h' <= 0 \/ w' <= 0)%Z ->
  project_coords pts (h, w) (h', w') = Err AssertionError.
Proof.
  intros pts h w h' w' Hne Hneg. unfold project_coords.
  destruct (shape2_eqb (h, w) (h', w')) eqn:E.
  - apply shape2_eqb_iff in E. contradiction.
  - cbn. destruct (0 <? h)%Z eqn:?, (0 <? w)%Z eqn:?, (0 <? h')%Z eqn:?, (0 <? w')%Z eqn:?;
    cbn; try reflexivity; lia.
Qed.

Lemma kp_project_scale : forall k h w h' w',
  (0 < h)%Z -> (0 < w)%Z -> (0 < h')%Z -> (0 < w')%Z ->
  exists k', kp_project k (h, w) (h', w') = Ok k' /\
    kx k' == kx k * (inject_Z w' / inject_Z w) /\ ky k' == ky k * (inject_Z h' / inject_Z h).
Proof.
  intros k h w h' w' Hh Hw Hh' Hw'. unfold kp_project.
  destruct (project_coords_scale [(kx k, ky k)] h w h' w') as (out & E & F); auto.
  rewrite E. inversion F as [|p q ps qs Hpq F' E1 E2]; subst. inversion F'; subst.
  destruct q as [qx qy]. cbn in *. eexists. split; [reflexivity|]. cbn. exact Hpq.
Qed.

Lemma bb_project_scale : forall b h w h' w',
  (0 < h)%Z -> (0 < w)%Z -> (0 < h')%Z -> (0 < w')%Z ->
  exists b', bb_project b (h, w) (h', w') = Ok b' /\ label b' = label b /\
    x1 b' == x1 b * (inject_Z w' / inject_Z w) /\ y1 b' == y1 b * (inject_Z h' / inject_Z h) /\
    x2 b' == x2 b * (inject_Z w' / inject_Z w) /\ y2 b' == y2 b * (inject_Z h' / inject_Z h).
Proof.
  intros b h w h' w' Hh Hw Hh' Hw'. unfold bb_project.
  destruct (project_coords_scale [(x1 b, y1 b); (x2 b, y2 b)] h w h' w') as (out & E & F); auto.
  rewrite E. inversion F as [|p q ps qs Hpq F' E1 E2]; subst.
  inversion F' as [|p' q' ps' qs' Hpq' F'' E1' E2']; subst. inversion F''; subst.
  destruct q as [qx qy]. destruct q' as [qx' qy']. cbn in *.
  eexists. split; [reflexivity|]. cbn. tauto.
Qed.

Lemma kpsoi_on_scale : forall k h' w',
  (0 < fst (kps_shape k))%Z -> (0 < snd (kps_shape k))%Z -> (0 < h')%Z -> (0 < w')%Z ->
  exists k', kpsoi_on k (h', w') = Ok k' /\ kps_shape k' = (h', w') /\
   Forall2 (fun a b => kx b == kx a * (inject_Z w' / inject_Z (snd (kps_shape k))) /\
                       ky b == ky a * (inject_Z h' / inject_Z (fst (kps_shape k))))
           (kps k) (kps k').
Proof.
  intros [ks [h w]] h' w' Hh Hw Hh' Hw'. unfold kpsoi_on. cbn [kps kps_shape fst snd] in *.
  apply pos_inject in Hw as Qw. apply pos_inject in Hh as Qh.
  destruct (shape2_eqb (h', w') (h, w)) eqn:E.
  - apply shape2_eqb_iff in E. injection E as -> ->.
    eexists. split; [reflexivity|]. split; [reflexivity|]. cbn [kps].
    induction ks as [|p ps IH]; constructor; auto. split; field; lra.
  - unfold mapM. induction ks as [|p ps IH].
    + cbn. eexists. split; [reflexivity|]. split; [reflexivity|]. constructor.
    + destruct (kp_project_scale p h w h' w') as (p' & Ep & Xp & Yp); auto.
      destruct IH as (k' & Ek & Sk & Fk).
      destruct (sequence (map (fun i => kp_project i (h, w) (h', w')) ps)) as [r|e] eqn:Er;
        cbn in Ek; [|discriminate].
      injection Ek as <-. cbn [map sequence]. rewrite Ep. cbn [bind]. rewrite Er. cbn [bind].
      eexists. split; [reflexivity|]. split; [reflexivity|]. cbn [kps] in *.
      constructor; auto.
Qed.

Lemma bbsoi_on_scale : forall k h' w',
  (0 < fst (bbs_shape k))%Z -> (0 < snd (bbs_shape k))%Z -> (0 < h')%Z -> (0 < w')%Z ->
  exists k', bbsoi_on k (h', w') = Ok k' /\ bbs_shape k' = (h', w') /\
   Forall2 (fun a b => label b = label a /\
                       x1 b == x1 a * (inject_Z w' / inject_Z (snd (bbs_shape k))) /\
                       y1 b == y1 a * (inject_Z h' / inject_Z (fst (bbs_shape k))) /\
                       x2 b == x2 a * (inject_Z w' / inject_Z (snd (bbs_shape k))) /\
                       y2 b == y2 a * (inject_Z h' / inject_Z (fst (bbs_shape k))))
           (bbs k) (bbs k').
Proof.
  intros [ks [h w]] h' w' Hh Hw Hh' Hw'. unfold bbsoi_on. cbn [bbs bbs_shape fst snd] in *.
  apply pos_inject in Hw as Qw. apply pos_inject in Hh as Qh.
  destruct (shape2_eqb (h', w') (h, w)) eqn:E.
  - apply shape2_eqb_iff in E. injection E as -> ->.
    eexists. split; [reflexivity|]. split; [reflexivity|]. cbn [bbs].
    induction ks as [|p ps IH]; constructor; auto.
    repeat split; field; lra.
  - unfold mapM. induction ks as [|p ps IH].
    + cbn. eexists. split; [reflexivity|]. split; [reflexivity|]. constructor.
    + destruct (bb_project_scale p h w h' w') as (p' & Ep & Xp); auto.
      destruct IH as (k' & Ek & Sk & Fk).
      destruct (sequence (map (fun i => bb_project i (h, w) (h', w')) ps)) as [r|e] eqn:Er;
        cbn in Ek; [|discriminate].
      injection Ek as <-. cbn [map sequence]. rewrite Ep. cbn [bind]. rewrite Er. cbn [bind].
      eexists. split; [reflexivity|]. split; [reflexivity|]. cbn [bbs] in *.
      constructor; auto.
Qed.

(* ---------- boxes ---------- *)

Lemma bb_new_proper : forall a b c d l, proper (bb_new a b c d l).
Proof.
  intros a b c d l. unfold bb_new, proper.
  destruct (qltb c a) eqn:E1; destruct (qltb d b) eqn:E2; cbn; qbool; split; lra.
Qed.

Lemma bb_new_corners : forall a b c d l,
  same_corners (bb_new a b c d l)
    (mkBB (qmin a c) (qmin b d) (qmax a c) (qmax b d) l)
  /\ label (bb_new a b c d l) = l.
Proof.
  intros a b c d l. unfold bb_new, same_corners.
  destruct (qltb c a) eqn:E1; destruct (qltb d b) eqn:E2; cbn; qbool;
  (split; [|reflexivity]); qminmax; repeat split; lra.
Qed.

Lemma bb_new_id : forall a b c d l, a <= c -> b <= d -> bb_new a b c d l = mkBB a b c d l.
Proof.
  intros a b c d l H1 H2. unfold bb_new.
  apply qltb_false in H1. apply qltb_false in H2. rewrite H1, H2. reflexivity.
Qed.

Lemma bb_contains_iff : forall b x y, bb_contains b (x, y) = true <-> in_box b x y.
Proof.
  intros b x y. unfold bb_contains, in_box. cbn.
  rewrite !andb_true_iff, !qleb_iff. tauto.
Qed.

Lemma bb_intersection_inv : forall a b c, bb_intersection a b = Some c ->
  c = mkBB (qmax (x1 a) (x1 b)) (qmax (y1 a) (y1 b)) (qmin (x2 a) (x2 b)) (qmin (y2 a) (y2 b)) None
  /\ qmax (x1 a) (x1 b) <= qmin (x2 a) (x2 b) /\ qmax (y1 a) (y1 b) <= qmin (y2 a) (y2 b).
Proof.
  intros a b c H. unfold bb_intersection in H.
  destruct (qltb (qmin (x2 a) (x2 b)) (qmax (x1 a) (x1 b))) eqn:E1; cbn in H; [discriminate|].
  destruct (qltb (qmin (y2 a) (y2 b)) (qmax (y1 a) (y1 b))) eqn:E2; cbn in H; [discriminate|].
  qbool. injection H as <-. rewrite bb_new_id by assumption. auto.
Qed.

Lemma bb_intersection_none : forall a b, bb_intersection a b = None ->
  qmin (x2 a) (x2 b) < qmax (x1 a) (x1 b) \/ qmin (y2 a) (y2 b) < qmax (y1 a) (y1 b).
Proof.
  intros a b H. unfold bb_intersection in H.
  destruct (qltb (qmin (x2 a) (x2 b)) (qmax (x1 a) (x1 b))) eqn:E1.
  { qbool. left; assumption. }
  destruct (qltb (qmin (y2 a) (y2 b)) (qmax (y1 a) (y1 b))) eqn:E2.
  { qbool. right; assumption. }
  discriminate.
Qed.

Lemma bb_intersection_points : forall a b c x y,
  bb_intersection a b = Some c ->
  (in_box c x y <-> in_box a x y /\ in_box b x y).
Proof.
  intros a b c x y H. apply bb_intersection_inv in H. destruct H as (-> & _ & _).
  unfold in_box. cbn. qminmax; split; intros; repeat split; lra.
Qed.

Lemma bb_intersection_some_proper : forall a b c,
  bb_intersection a b = Some c -> proper c /\ exists x y, in_box a x y /\ in_box b x y.
Proof.
  intros a b c H. pose proof H as H0. apply bb_intersection_inv in H.
  destruct H as (-> & H1 & H2). split; [split; assumption|].
  exists (qmax (x1 a) (x1 b)), (qmax (y1 a) (y1 b)).
  apply (bb_intersection_points _ _ _ _ _ H0). unfold in_box. cbn. repeat split; try assumption; lra.
Qed.

Lemma bb_intersection_none_points : forall a b,
  bb_intersection a b = None -> forall x y, ~ (in_box a x y /\ in_box b x y).
Proof.
  intros a b H x y [A B]. apply bb_intersection_none in H. unfold in_box in *.
  qminmax; destruct H; lra.
Qed.

Lemma bb_intersection_comm : forall a b,
  match bb_intersection a b, bb_intersection b a with
  | Some c, Some d => same_corners c d
  | None, None => True
  | _, _ => False
  end.
Proof.
  intros a b.
  destruct (bb_intersection a b) as [c|] eqn:E1; destruct (bb_intersection b a) as [d|] eqn:E2; auto.
  - apply bb_intersection_inv in E1. apply bb_intersection_inv in E2.
    destruct E1 as (-> & _). destruct E2 as (-> & _). unfold same_corners. cbn.
    repeat split; qminmax; lra.
  - apply bb_intersection_some_proper in E1. destruct E1 as (_ & x & y & A & B).
    eapply bb_intersection_none_points; eauto.
  - apply bb_intersection_some_proper in E2. destruct E2 as (_ & x & y & A & B).
    eapply bb_intersection_none_points; eauto.
Qed.

Lemma bb_union_corners : forall a b, proper a -> proper b ->
  bb_union a b = mkBB (qmin (x1 a) (x1 b)) (qmin (y1 a) (y1 b))
                      (qmax (x2 a) (x2 b)) (qmax (y2 a) (y2 b)) None.
Proof.
  intros a b [A1 A2] [B1 B2]. unfold bb_union. apply bb_new_id; qminmax; lra.
Qed.

Lemma bb_union_contains : forall a b, proper a -> proper b ->
  box_subset a (bb_union a b) /\ box_subset b (bb_union a b) /\ proper (bb_union a b).
Proof.
  intros a b Ha Hb. rewrite (bb_union_corners a b Ha Hb).
  destruct Ha as [A1 A2], Hb as [B1 B2].
  unfold box_subset, in_box, proper. cbn.
  split; [|split]; [intros x y H; qminmax; lra|intros x y H; qminmax; lra|qminmax; lra].
Qed.

Lemma bb_union_least : forall a b c, proper a -> proper b ->
  box_subset a c -> box_subset b c -> box_subset (bb_union a b) c.
Proof.
  intros a b c Ha Hb Sa Sb. rewrite (bb_union_corners a b Ha Hb).
  destruct Ha as [A1 A2], Hb as [B1 B2].
  pose proof (Sa (x1 a) (y1 a)) as P1. pose proof (Sa (x2 a) (y2 a)) as P2.
  pose proof (Sb (x1 b) (y1 b)) as P3. pose proof (Sb (x2 b) (y2 b)) as P4.
  unfold box_subset, in_box in *. cbn.
  destruct P1 as (?&?&?&?); [repeat split; lra|].
  destruct P2 as (?&?&?&?); [repeat split; lra|].
  destruct P3 as (?&?&?&?); [repeat split; lra|].
  destruct P4 as (?&?&?&?); [repeat split; lra|].
  intros x y Hxy. qminmax; lra.
Qed.

Lemma bb_union_comm : forall a b, same_corners (bb_union a b) (bb_union b a).
Proof.
  intros a b. unfold bb_union.
  destruct (bb_new_corners (qmin (x1 a) (x1 b)) (qmin (y1 a) (y1 b))
                      (qmax (x2 a) (x2 b)) (qmax (y2 a) (y2 b)) None) as [(P1&P2&P3&P4) _].
  destruct (bb_new_corners (qmin (x1 b) (x1 a)) (qmin (y1 b) (y1 a))
                      (qmax (x2 b) (x2 a)) (qmax (y2 b) (y2 a)) None) as [(Q1&Q2&Q3&Q4) _].
  unfold same_corners. cbn in *.
  rewrite P1, P2, P3, P4, Q1, Q2, Q3, Q4.
  repeat split; first [apply qmin_compat | apply qmax_compat];
    first [apply qmin_comm | apply qmax_comm].
Qed.

(* ---------- areas ---------- *)

Lemma Qmult_nonneg : forall a b, 0 <= a -> 0 <= b -> 0 <= a * b.
Proof. intros a b Ha Hb. apply Qmult_le_0_compat; assumption. Qed.

Lemma Qmult_mono : forall a b c d, 0 <= a -> a <= c -> 0 <= b -> b <= d -> a * b <= c * d.
Proof.
  intros a b c d H1 H2 H3 H4.
  apply Qle_trans with (c * b).
  - apply Qmult_le_compat_r; assumption.
  - rewrite (Qmult_comm c b), (Qmult_comm c d). apply Qmult_le_compat_r; [assumption|lra].
Qed.

Lemma area_nonneg : forall b, proper b -> 0 <= bb_area b.
Proof. intros b [H1 H2]. unfold bb_area, bb_height, bb_width. apply Qmult_nonneg; lra. Qed.

Lemma area_same : forall a b, same_corners a b -> bb_area a == bb_area b.
Proof.
  intros a b (H1&H2&H3&H4). unfold bb_area, bb_height, bb_width.
  rewrite H1, H2, H3, H4. reflexivity.
Qed.

Lemma inter_area_le : forall a b c, bb_intersection a b = Some c ->
  0 <= bb_area c /\ bb_area c <= bb_area a /\ bb_area c <= bb_area b.
Proof.
  intros a b c H. apply bb_intersection_inv in H. destruct H as (-> & H1 & H2).
  unfold bb_area, bb_height, bb_width. cbn.
  split; [|split].
  - apply Qmult_nonneg; lra.
  - apply Qmult_mono; try lra; qminmax; lra.
  - apply Qmult_mono; try lra; qminmax; lra.
Qed.

Lemma bb_iou_cases : forall a b, proper a -> proper b ->
  exists v, bb_iou a b = Ok v /\
    match bb_intersection a b with
    | None => v == 0
    | Some c => let u := bb_area a + bb_area b - bb_area c in
                (0 < u /\ v == bb_area c / u) \/ (u == 0 /\ v == 0)
    end.
Proof.
  intros a b Ha Hb. unfold bb_iou.
  destruct (bb_intersection a b) as [c|] eqn:E.
  - destruct (inter_area_le _ _ _ E) as (I0 & Ia & Ib).
    pose proof (area_nonneg a Ha). pose proof (area_nonneg b Hb).
    destruct (qltb 0 (bb_area a + bb_area b - bb_area c)) eqn:E2; qbool.
    + unfold py_div. destruct (qeqb (bb_area a + bb_area b - bb_area c) 0) eqn:E3; qbool; [lra|].
      eexists. split; [reflexivity|]. left. split; [assumption|reflexivity].
    + eexists. split; [reflexivity|]. right. split; [lra|reflexivity].
  - eexists. split; reflexivity.
Qed.

Lemma bb_iou_range : forall a b, proper a -> proper b ->
  exists v, bb_iou a b = Ok v /\ 0 <= v /\ v <= 1.
Proof.
  intros a b Ha Hb. destruct (bb_iou_cases a b Ha Hb) as (v & Ev & Cv).
  exists v. split; [exact Ev|].
  destruct (bb_intersection a b) as [c|] eqn:E; [|lra].
  destruct (inter_area_le _ _ _ E) as (I0 & Ia & Ib).
  pose proof (area_nonneg a Ha). pose proof (area_nonneg b Hb).
  cbn in Cv. destruct Cv as [[U V]|[U V]]; [|lra].
  rewrite V. split.
  - apply Qle_shift_div_l; lra.
  - apply Qle_shift_div_r; lra.
Qed.

Lemma bb_iou_sym : forall a b, proper a -> proper b ->
  exists v w, bb_iou a b = Ok v /\ bb_iou b a = Ok w /\ v == w.
Proof.
  intros a b Ha Hb.
  destruct (bb_iou_cases a b Ha Hb) as (v & Ev & Cv).
  destruct (bb_iou_cases b a Hb Ha) as (w & Ew & Cw).
  exists v, w. split; [exact Ev|]. split; [exact Ew|].
  pose proof (bb_intersection_comm a b) as C.
  destruct (bb_intersection a b) as [c|] eqn:E1; destruct (bb_intersection b a) as [d|] eqn:E2;
    try contradiction; [|lra].
  apply area_same in C. cbn in Cv, Cw.
  destruct Cv as [[U V]|[U V]]; destruct Cw as [[U' V']|[U' V']]; rewrite V, V'; try lra.
  assert (bb_area b + bb_area a - bb_area d == bb_area a + bb_area b - bb_area c) as EU by lra.
  rewrite EU, C. reflexivity.
Qed.

Lemma bb_iou_disjoint : forall a b,
  (forall x y, ~ (in_box a x y /\ in_box b x y)) -> bb_iou a b = Ok 0.
Proof.
  intros a b H. unfold bb_iou. destruct (bb_intersection a b) as [c|] eqn:E; [|reflexivity].
  apply bb_intersection_some_proper in E. destruct E as (_ & x & y & P). exfalso. eapply H; eauto.
Qed.

Lemma bb_iou_self : forall a, proper a -> 0 < bb_area a ->
  exists v, bb_iou a a = Ok v /\ v == 1.
Proof.
  intros a Ha Hp. destruct (bb_iou_cases a a Ha Ha) as (v & Ev & Cv).
  exists v. split; [exact Ev|].
  destruct (bb_intersection a a) as [c|] eqn:E.
  - assert (bb_area c == bb_area a) as EA.
    { apply area_same. apply bb_intersection_inv in E. destruct E as (-> & _).
      unfold same_corners. cbn. repeat split; qminmax; lra. }
    cbn in Cv. destruct Cv as [[U V]|[U V]]; [|lra].
    rewrite V, EA. field. lra.
  - exfalso. eapply (bb_intersection_none_points a a E (x1 a) (y1 a)).
    destruct Ha. unfold in_box. repeat split; lra.
Qed.

Lemma prod_eq_sides : forall w h W Hh, 0 <= w -> w <= W -> 0 <= h -> h <= Hh ->
  w * h == W * Hh -> 0 < w * h -> w == W /\ h == Hh.
Proof.
  intros w h W Hh H1 H2 H3 H4 E P.
  assert (0 < w) as Pw.
  { destruct (Qlt_le_dec 0 w) as [L|L]; [exact L|]. assert (w == 0) as W0 by lra.
    rewrite W0 in P. lra. }
  assert (0 < h) as Ph.
  { destruct (Qlt_le_dec 0 h) as [L|L]; [exact L|]. assert (h == 0) as W0 by lra.
    rewrite W0 in P. lra. }
  assert (w * h <= W * h) by (apply Qmult_le_compat_r; lra).
  assert (W * h <= W * Hh).
  { rewrite (Qmult_comm W h), (Qmult_comm W Hh). apply Qmult_le_compat_r; lra. }
  assert (W * h == w * h) as A by lra.
  assert (W * h == W * Hh) as B by lra.
  split.
  - apply Qmult_inj_r with h; [lra|]. symmetry. exact A.
  - apply Qmult_inj_l with W; [lra|]. exact B.
Qed.

Lemma bb_iou_one : forall a b v, proper a -> proper b ->
  bb_iou a b = Ok v -> v == 1 -> same_corners a b.
Proof.
  intros a b v Ha Hb Ev V1. destruct (bb_iou_cases a b Ha Hb) as (v' & Ev' & Cv).
  rewrite Ev in Ev'. injection Ev' as <-.
  destruct (bb_intersection a b) as [c|] eqn:E; [|lra].
  destruct (inter_area_le _ _ _ E) as (I0 & Ia & Ib).
  cbn in Cv. destruct Cv as [[U V]|[U V]]; [|lra].
  assert (bb_area c == bb_area a + bb_area b - bb_area c) as EA.
  { rewrite V1 in V. symmetry in V.
    assert (bb_area c == bb_area c / (bb_area a + bb_area b - bb_area c) * (bb_area a + bb_area b - bb_area c)) as K
      by (field; lra).
    rewrite V in K. lra. }
  assert (bb_area c == bb_area a) as Ea by lra.
  assert (bb_area c == bb_area b) as Eb by lra.
  assert (0 < bb_area c) as Pc by lra.
  apply bb_intersection_inv in E. destruct E as (-> & H1 & H2).
  unfold bb_area, bb_height, bb_width in Ea, Eb, Pc. cbn in Ea, Eb, Pc.
  destruct Ha as [A1 A2], Hb as [B1 B2].
  apply prod_eq_sides in Ea; [|qminmax; lra|qminmax; lra|qminmax; lra|qminmax; lra|exact Pc].
  apply prod_eq_sides in Eb; [|qminmax; lra|qminmax; lra|qminmax; lra|qminmax; lra|exact Pc].
  destruct Ea as [Ea1 Ea2], Eb as [Eb1 Eb2].
  unfold same_corners. repeat split; qminmax; lra.
Qed.

(* ---------- clipping ---------- *)

Lemma eps_range : 0 < f32_eps /\ f32_eps < 1.
Proof. split; reflexivity. Qed.

Lemma inject_ge1 : forall z, (0 < z)%Z -> 1 <= inject_Z z.
Proof. intros z H. change 1 with (inject_Z 1). apply inject_Z_le. lia. Qed.

Lemma bb_clip_ok : forall b h w, (0 < h)%Z -> (0 < w)%Z ->
  bb_clip_out_of_image b (h, w) =
  Ok (mkBB (qclip (x1 b) 0 (inject_Z w - f32_eps)) (qclip (y1 b) 0 (inject_Z h - f32_eps))
           (qclip (x2 b) 0 (inject_Z w - f32_eps)) (qclip (y2 b) 0 (inject_Z h - f32_eps))
           (label b)).
Proof.
  intros b h w Hh Hw. unfold bb_clip_out_of_image.
  replace (0 <? h)%Z with true by lia. replace (0 <? w)%Z with true by lia. reflexivity.
Qed.

Lemma bb_clip_reject : forall b h w, (h <= 0 \/ w <= 0)%Z ->
  bb_clip_out_of_image b (h, w) = Err AssertionError.
Proof.
  intros b h w H. unfold bb_clip_out_of_image.
  destruct (0 <? h)%Z eqn:E1; cbn; [|reflexivity].
  destruct (0 <? w)%Z eqn:E2; cbn; [lia|reflexivity].
Qed.

Lemma qclip_mono : forall a b lo hi, a <= b -> qclip a lo hi <= qclip b lo hi.
Proof. intros a b lo hi H. unfold qclip. qminmax; lra. Qed.

Lemma bb_clip_in_plane : forall b b' s, proper b ->
  bb_clip_out_of_image b s = Ok b' ->
  proper b' /\ label b' = label b /\ box_in_plane b' s /\ bb_is_fully_within_image b' s = true
  /\ bb_width b' <= bb_width b /\ bb_height b' <= bb_height b.
Proof.
  intros b b' [h w] [P1 P2] H.
  destruct (Z_lt_le_dec 0 h) as [Hh|Hh]; [|rewrite bb_clip_reject in H by lia; discriminate].
  destruct (Z_lt_le_dec 0 w) as [Hw|Hw]; [|rewrite bb_clip_reject in H by lia; discriminate].
  rewrite bb_clip_ok in H by assumption. injection H as <-.
  pose proof (inject_ge1 h Hh). pose proof (inject_ge1 w Hw).
  destruct eps_range as [E1 E2].
  set (wl := inject_Z w - f32_eps) in *. set (hl := inject_Z h - f32_eps) in *.
  assert (0 <= wl) by (unfold wl; lra). assert (0 <= hl) by (unfold hl; lra).
  destruct (qclip_in (x1 b) 0 wl) as [A1 A2]; [assumption|].
  destruct (qclip_in (x2 b) 0 wl) as [A3 A4]; [assumption|].
  destruct (qclip_in (y1 b) 0 hl) as [A5 A6]; [assumption|].
  destruct (qclip_in (y2 b) 0 hl) as [A7 A8]; [assumption|].
  pose proof (qclip_mono (x1 b) (x2 b) 0 wl P1).
  pose proof (qclip_mono (y1 b) (y2 b) 0 hl P2).
  assert (wl < inject_Z w) by (unfold wl; lra). assert (hl < inject_Z h) by (unfold hl; lra).
  split; [split; assumption|]. split; [reflexivity|].
  split. { intros x y (?&?&?&?). unfold in_plane. cbn in *. repeat split; lra. }
  split.
  { unfold bb_is_fully_within_image. cbn. rewrite !andb_true_iff, !qleb_iff, !qltb_iff.
    repeat split; lra. }
  unfold bb_width, bb_height. cbn.
  clearbody wl hl.
  split; unfold qclip; qminmax; lra.
Qed.

Lemma bb_clip_idem : forall b b' s, proper b ->
  bb_clip_out_of_image b s = Ok b' ->
  exists b'', bb_clip_out_of_image b' s = Ok b'' /\ same_box b'' b'.
Proof.
  intros b b' [h w] [P1 P2] H.
  destruct (Z_lt_le_dec 0 h) as [Hh|Hh]; [|rewrite bb_clip_reject in H by lia; discriminate].
  destruct (Z_lt_le_dec 0 w) as [Hw|Hw]; [|rewrite bb_clip_reject in H by lia; discriminate].
  rewrite bb_clip_ok in H by assumption. injection H as <-.
  rewrite bb_clip_ok by assumption. eexists. split; [reflexivity|].
  pose proof (inject_ge1 h Hh). pose proof (inject_ge1 w Hw).
  destruct eps_range as [E1 E2].
  split; [|reflexivity]. unfold same_corners. cbn [x1 y1 x2 y2].
  repeat split; apply qclip_id; apply qclip_in; lra.
Qed.

Lemma bb_clip_inside_id : forall b h w, (0 < h)%Z -> (0 < w)%Z -> proper b ->
  0 <= x1 b -> x2 b <= inject_Z w - f32_eps -> 0 <= y1 b -> y2 b <= inject_Z h - f32_eps ->
  exists b', bb_clip_out_of_image b (h, w) = Ok b' /\ same_box b' b.
Proof.
  intros b h w Hh Hw [P1 P2] H1 H2 H3 H4. rewrite bb_clip_ok by assumption.
  eexists. split; [reflexivity|]. split; [|reflexivity].
  unfold same_corners. cbn. repeat split; apply qclip_id; lra.
Qed.

Lemma bb_partly_iff : forall b h w, (0 < h)%Z -> (0 < w)%Z -> proper b ->
  (bb_is_partly_within_image b (h, w) = true <->
   exists x y, in_box b x y /\ 0 <= x /\ x <= inject_Z w - f32_eps /\
               0 <= y /\ y <= inject_Z h - f32_eps).
Proof.
  intros b h w Hh Hw P. unfold bb_is_partly_within_image.
  pose proof (inject_ge1 h Hh). pose proof (inject_ge1 w Hw). destruct eps_range as [E1 E2].
  rewrite bb_new_id by lra.
  set (im := mkBB 0 0 (inject_Z w - f32_eps) (inject_Z h - f32_eps) None).
  destruct (bb_intersection b im) as [c|] eqn:E; split; intro K; try discriminate; auto.
  - apply bb_intersection_some_proper in E. destruct E as (_ & x & y & A & B).
    exists x, y. unfold in_box in B. cbn in B. tauto.
  - destruct K as (x & y & A & B). exfalso.
    eapply (bb_intersection_none_points b im E x y). split; [exact A|].
    unfold in_box. cbn. tauto.
Qed.

Lemma bb_clip_points : forall b b' h w, proper b ->
  bb_is_partly_within_image b (h, w) = true ->
  bb_clip_out_of_image b (h, w) = Ok b' ->
  forall x y, in_box b' x y <->
    in_box b x y /\ 0 <= x /\ x <= inject_Z w - f32_eps /\ 0 <= y /\ y <= inject_Z h - f32_eps.
Proof.
  intros b b' h w P HP H x y.
  destruct (Z_lt_le_dec 0 h) as [Hh|Hh]; [|rewrite bb_clip_reject in H by lia; discriminate].
  destruct (Z_lt_le_dec 0 w) as [Hw|Hw]; [|rewrite bb_clip_reject in H by lia; discriminate].
  rewrite bb_clip_ok in H by assumption. injection H as <-.
  apply bb_partly_iff in HP; try assumption.
  destruct HP as (px & py & A & B1 & B2 & B3 & B4). unfold in_box in *. cbn.
  destruct P as [P1 P2].
  set (wl := inject_Z w - f32_eps) in *. set (hl := inject_Z h - f32_eps) in *.
  clearbody wl hl. unfold qclip.
  destruct A as (A1&A2&A3&A4).
  assert (forall v a c p L, a <= p -> p <= c -> 0 <= p -> p <= L ->
    (qmin (qmax a 0) L <= v /\ v <= qmin (qmax c 0) L <-> (a <= v /\ v <= c) /\ (0 <= v /\ v <= L))) as K.
  { clear. intros v a c p L H1 H2 H3 H4. qminmax; split; intros; repeat split; lra. }
  pose proof (K x (x1 b) (x2 b) px wl A1 A2 B1 B2) as Kx.
  pose proof (K y (y1 b) (y2 b) py hl A3 A4 B3 B4) as Ky.
  tauto.
Qed.

Lemma mapM_Forall2 : forall {A B} (f : A -> res B) l r,
  mapM f l = Ok r -> Forall2 (fun a b => f a = Ok b) l r.
Proof.
  intros A B f l. unfold mapM. induction l as [|x xs IH]; intros r H; cbn in H.
  - injection H as <-. constructor.
  - destruct (f x) as [y|e] eqn:E; cbn in H; [|discriminate].
    destruct (sequence (map f xs)) as [ys|e] eqn:E2; cbn in H; [|discriminate].
    injection H as <-. constructor; auto.
Qed.

Lemma mapM_total : forall {A B} (f : A -> res B) l,
  (forall x, In x l -> exists y, f x = Ok y) -> exists r, mapM f l = Ok r.
Proof.
  intros A B f l. unfold mapM. induction l as [|x xs IH]; intro H; cbn.
  - eexists; reflexivity.
  - destruct (H x) as (y & E); [left; reflexivity|].
    destruct IH as (r & Er); [intros z Hz; apply H; right; exact Hz|].
    rewrite E, Er. cbn. eexists; reflexivity.
Qed.

Lemma bbsoi_clip_spec : forall b h w, (0 < h)%Z -> (0 < w)%Z -> bbs_shape b = (h, w) ->
  Forall proper (bbs b) ->
  exists b', bbsoi_clip_out_of_image b = Ok b' /\ bbs_shape b' = (h, w) /\
    Forall2 (fun i o => bb_clip_out_of_image i (h, w) = Ok o /\
                        bb_is_fully_within_image o (h, w) = true)
            (filter (fun i => bb_is_partly_within_image i (h, w)) (bbs b)) (bbs b').
Proof.
  intros b h w Hh Hw Hs HP. unfold bbsoi_clip_out_of_image. rewrite Hs.
  set (l := filter _ _).
  destruct (mapM_total (fun i => bb_clip_out_of_image i (h, w)) l) as (r & Er).
  { intros x _. rewrite bb_clip_ok by assumption. eexists; reflexivity. }
  rewrite Er. cbn. eexists. split; [reflexivity|]. split; [reflexivity|]. cbn.
  apply mapM_Forall2 in Er.
  assert (Forall proper l) as HPl.
  { apply Forall_forall. intros x Hx. unfold l in Hx. apply filter_In in Hx.
    rewrite Forall_forall in HP. apply HP. tauto. }
  clearbody l. induction Er as [|i o is os Hio Er IH]; constructor.
  - split; [exact Hio|]. inversion HPl; subst.
    destruct (bb_clip_in_plane i o (h, w)) as (_&_&_&K&_); auto.
  - apply IH. inversion HPl; assumption.
Qed.

(* ---------- out of image fraction ---------- *)

Lemma out_area_visible : forall b s, proper b -> (0 <= fst s)%Z -> (0 <= snd s)%Z ->
  bb_out_of_image_area b s == bb_area b - visible_area b s.
Proof.
  intros b [h w] [P1 P2] Hh Hw. cbn [fst snd] in *. unfold bb_out_of_image_area, visible_area, overlap_len.
  assert (0 <= inject_Z h) by (change 0 with (inject_Z 0); apply inject_Z_le; exact Hh).
  assert (0 <= inject_Z w) by (change 0 with (inject_Z 0); apply inject_Z_le; exact Hw).
  rewrite bb_new_id by assumption. cbn [fst snd].
  set (H' := inject_Z h) in *. set (W' := inject_Z w) in *. clearbody H' W'.
  destruct (bb_intersection b (mkBB 0 0 W' H' None)) as [c|] eqn:E.
  - apply bb_intersection_inv in E. destruct E as (-> & X & Y).
    unfold bb_area, bb_height, bb_width. cbn in *.
    assert (qmax 0 (qmin (x2 b) W' - qmax (x1 b) 0) == qmin (x2 b) W' - qmax (x1 b) 0) as ->.
    { set (u := qmin (x2 b) W') in *. set (v := qmax (x1 b) 0) in *. clearbody u v. qminmax; lra. }
    assert (qmax 0 (qmin (y2 b) H' - qmax (y1 b) 0) == qmin (y2 b) H' - qmax (y1 b) 0) as ->.
    { set (u := qmin (y2 b) H') in *. set (v := qmax (y1 b) 0) in *. clearbody u v. qminmax; lra. }
    ring.
  - apply bb_intersection_none in E. cbn in E.
    assert (forall a, a < 0 -> qmax 0 a == 0) as Z0 by (intros; qminmax; lra).
    destruct E as [X|Y].
    + rewrite (Z0 (qmin (x2 b) W' - qmax (x1 b) 0)) by lra. ring.
    + rewrite (Z0 (qmin (y2 b) H' - qmax (y1 b) 0)) by lra. ring.
Qed.

Lemma visible_area_bounds : forall b s, proper b -> (0 <= fst s)%Z -> (0 <= snd s)%Z ->
  0 <= visible_area b s /\ visible_area b s <= bb_area b.
Proof.
  intros b [h w] [P1 P2] Hh Hw. cbn [fst snd] in *. unfold visible_area, overlap_len.
  assert (0 <= inject_Z h) by (change 0 with (inject_Z 0); apply inject_Z_le; exact Hh).
  assert (0 <= inject_Z w) by (change 0 with (inject_Z 0); apply inject_Z_le; exact Hw).
  cbn [fst snd]. set (H' := inject_Z h) in *. set (W' := inject_Z w) in *. clearbody H' W'.
  assert (forall a c L, a <= c -> 0 <= L -> 0 <= qmax 0 (qmin c L - qmax a 0) /\
    qmax 0 (qmin c L - qmax a 0) <= c - a) as K.
  { clear. intros a c L H1 H2.
    pose proof (qmin_spec c L) as (M1&M2&_). pose proof (qmax_spec a 0) as (M3&M4&_).
    set (u := qmin c L) in *. set (v := qmax a 0) in *. clearbody u v. qminmax; lra. }
  destruct (K (x1 b) (x2 b) W') as [X1 X2]; auto.
  destruct (K (y1 b) (y2 b) H') as [Y1 Y2]; auto.
  split; [apply Qmult_nonneg; assumption|].
  unfold bb_area, bb_height, bb_width. rewrite (Qmult_comm (y2 b - y1 b)).
  apply Qmult_mono; assumption.
Qed.

Lemma fraction_spec : forall b s, proper b -> (0 <= fst s)%Z -> (0 <= snd s)%Z ->
  exists f, bb_out_of_image_fraction b s = Ok f /\ 0 <= f /\ f <= 1 /\
    (0 < bb_area b -> f * bb_area b + visible_area b s == bb_area b) /\
    (bb_area b == 0 -> f == 0 \/ f == 1).
Proof.
  intros b s P Hh Hw. pose proof (area_nonneg b P) as A0.
  destruct (visible_area_bounds b s P Hh Hw) as [V0 V1].
  pose proof (out_area_visible b s P Hh Hw) as OA.
  unfold bb_out_of_image_fraction.
  destruct (qeqb (bb_area b) 0) eqn:E; qbool.
  - destruct s as [h w]. set (c := _ || _). clearbody c.
    exists (if c then 1 else 0). split; [reflexivity|].
    destruct c; (split; [lra|]); (split; [lra|]); (split; [intro; lra|]); intros _.
    + right; reflexivity.
    + left; reflexivity.
  - assert (0 < bb_area b) as Pa by lra.
    unfold py_div. destruct (qeqb (bb_area b) 0) eqn:E2; qbool; [lra|].
    eexists. split; [reflexivity|].
    rewrite OA.
    split; [apply Qle_shift_div_l; lra|]. split; [apply Qle_shift_div_r; lra|].
    split; [intros _; field; lra|]. intro C. lra.
Qed.

Lemma fraction_inside : forall b s, proper b ->
  bb_is_fully_within_image b s = true ->
  exists f, bb_out_of_image_fraction b s = Ok f /\ f == 0.
Proof.
  intros b [h w] P Hin. pose proof P as [P1 P2].
  unfold bb_is_fully_within_image in Hin. qbool.
  assert (0 <= h)%Z. { apply inject_Z_le. change (inject_Z 0) with 0. lra. }
  assert (0 <= w)%Z. { apply inject_Z_le. change (inject_Z 0) with 0. lra. }
  assert (visible_area b (h, w) == bb_area b) as EV.
  { unfold visible_area, overlap_len, bb_area, bb_height, bb_width. cbn [fst snd].
    assert (forall a c L, 0 <= a -> a <= c -> c <= L ->
      qmax 0 (qmin c L - qmax a 0) == c - a) as K.
    { clear. intros a c L K1 K2 K3.
      assert (qmin c L == c) as -> by (qminmax; lra).
      assert (qmax a 0 == a) as -> by (qminmax; lra). qminmax; lra. }
    rewrite (K (x1 b) (x2 b)) by lra. rewrite (K (y1 b) (y2 b)) by lra. ring. }
  destruct (fraction_spec b (h, w) P) as (f & Ef & F0 & F1 & F2 & F3); cbn; auto.
  exists f. split; [exact Ef|].
  destruct (Qlt_le_dec 0 (bb_area b)) as [L|L].
  - specialize (F2 L). rewrite EV in F2.
    assert (f * bb_area b == 0) as Z by lra.
    apply Qmult_integral in Z. destruct Z; lra.
  - pose proof (area_nonneg b P). assert (bb_area b == 0) as EA by lra.
    unfold bb_out_of_image_fraction in Ef.
    destruct (qeqb (bb_area b) 0) eqn:E; qbool; [|lra].
    assert (qltb (y1 b) 0 = false) as E0 by (apply qltb_false; lra).
    assert (qleb (inject_Z h) (y1 b) = false) as E1 by (apply qleb_false; lra).
    assert (qltb (x1 b) 0 = false) as E2 by (apply qltb_false; lra).
    assert (qleb (inject_Z w) (x1 b) = false) as E3 by (apply qleb_false; lra).
    rewrite E0, E1, E2, E3 in Ef. cbn in Ef. injection Ef as <-. reflexivity.
Qed.

Lemma fraction_outside : forall b s, proper b -> (0 <= fst s)%Z -> (0 <= snd s)%Z ->
  0 < bb_area b -> visible_area b s == 0 ->
  exists f, bb_out_of_image_fraction b s = Ok f /\ f == 1.
Proof.
  intros b s P Hh Hw A V.
  destruct (fraction_spec b s P Hh Hw) as (f & Ef & _ & _ & F2 & _).
  exists f. split; [exact Ef|]. specialize (F2 A). rewrite V in F2.
  apply Qmult_inj_r with (bb_area b); lra.
Qed.

(* ---------- filters ---------- *)

(** Specification of an order-preserving filter by an error-free fraction. *)
Lemma remove_fraction_filter : forall {A} (frac : A -> res Q) (g : A -> Q) fr items,
  (forall i, In i items -> frac i = Ok (g i)) ->
  remove_out_of_image_fraction frac fr items = Ok (filter (fun i => qltb (g i) fr) items).
Proof.
  intros A frac g fr items. induction items as [|i is IH]; intro H; cbn.
  - reflexivity.
  - rewrite (H i) by (left; reflexivity). cbn.
    rewrite IH by (intros; apply H; right; assumption). cbn. reflexivity.
Qed.

(* ---------- shift / extend ---------- *)

Lemma bb_shift_compose : forall b a c d e,
  same_box (bb_shift (bb_shift b a c) d e) (bb_shift b (a + d) (c + e)).
Proof. intros. unfold same_box, same_corners. cbn. repeat split; ring. Qed.

Lemma bb_shift_back : forall b a c, same_box (bb_shift (bb_shift b a c) (-a) (-c)) b.
Proof. intros. unfold same_box, same_corners. cbn. repeat split; ring. Qed.

Lemma bb_shift_sizes : forall b a c,
  bb_width (bb_shift b a c) == bb_width b /\ bb_height (bb_shift b a c) == bb_height b /\
  bb_area (bb_shift b a c) == bb_area b.
Proof. intros. unfold bb_area, bb_width, bb_height. cbn. repeat split; ring. Qed.

Lemma bb_intersection_shift : forall a b dx dy,
  match bb_intersection a b, bb_intersection (bb_shift a dx dy) (bb_shift b dx dy) with
  | Some c, Some d => same_corners (bb_shift c dx dy) d
  | None, None => True
  | _, _ => False
  end.
Proof.
  intros a b dx dy.
  destruct (bb_intersection a b) as [c|] eqn:E1;
  destruct (bb_intersection (bb_shift a dx dy) (bb_shift b dx dy)) as [d|] eqn:E2; auto.
  - apply bb_intersection_inv in E1. apply bb_intersection_inv in E2.
    destruct E1 as (-> & _). destruct E2 as (-> & _). unfold same_corners. cbn.
    repeat split; qminmax; lra.
  - apply bb_intersection_some_proper in E1. destruct E1 as (_ & x & y & A & B).
    eapply (bb_intersection_none_points _ _ E2 (x + dx) (y + dy)).
    unfold in_box in *. cbn. split; repeat split; lra.
  - apply bb_intersection_some_proper in E2. destruct E2 as (_ & x & y & A & B).
    eapply (bb_intersection_none_points _ _ E1 (x - dx) (y - dy)).
    unfold in_box in *. cbn in *. split; repeat split; lra.
Qed.

Lemma bb_iou_shift : forall a b dx dy, proper a -> proper b ->
  exists v w, bb_iou a b = Ok v /\ bb_iou (bb_shift a dx dy) (bb_shift b dx dy) = Ok w /\ v == w.
Proof.
  intros a b dx dy Ha Hb.
  assert (proper (bb_shift a dx dy)) as Ha' by (destruct Ha; split; cbn; lra).
  assert (proper (bb_shift b dx dy)) as Hb' by (destruct Hb; split; cbn; lra).
  destruct (bb_iou_cases a b Ha Hb) as (v & Ev & Cv).
  destruct (bb_iou_cases _ _ Ha' Hb') as (w & Ew & Cw).
  exists v, w. split; [exact Ev|]. split; [exact Ew|].
  destruct (bb_shift_sizes a dx dy) as (_ & _ & Sa).
  destruct (bb_shift_sizes b dx dy) as (_ & _ & Sb).
  pose proof (bb_intersection_shift a b dx dy) as C.
  destruct (bb_intersection a b) as [c|] eqn:E1;
  destruct (bb_intersection (bb_shift a dx dy) (bb_shift b dx dy)) as [d|] eqn:E2;
    try contradiction; [|lra].
  apply area_same in C. destruct (bb_shift_sizes c dx dy) as (_ & _ & Sc).
  rewrite Sc in C. cbn in Cv, Cw.
  set (aa := bb_area a) in *. set (ab := bb_area b) in *.
  set (aa' := bb_area (bb_shift a dx dy)) in *. set (ab' := bb_area (bb_shift b dx dy)) in *.
  destruct Cv as [[U V]|[U V]]; destruct Cw as [[U' V']|[U' V']]; rewrite V, V'; try lra.
  assert (aa' + ab' - bb_area d == aa + ab - bb_area c) as EU by lra.
  rewrite EU, C. reflexivity.
Qed.

Lemma shift_args_spec : forall x y t r b l,
  pt_eq (normalize_shift_args x y t r b l)
    (let z := fun o => match o with Some v => v | None => 0 end in
     (x + z l - z r, y + z t - z b)).
Proof.
  intros x y t r b l. unfold normalize_shift_args, pt_eq.
  destruct t, r, b, l; cbn; split; lra.
Qed.

(* ---------- boxes <-> keypoints ---------- *)

Lemma invert_boxes_app : forall boxes i pre ks,
  length pre = (4 * i)%nat ->
  invert_boxes i boxes (pre ++ ks) = invert_boxes 0 boxes ks.
Proof.
  assert (forall boxes i j pre ks, length pre = (4 * j)%nat ->
    invert_boxes (j + i) boxes (pre ++ ks) = invert_boxes i boxes ks) as G.
  { induction boxes as [|b r IH]; intros i j pre ks H; cbn [invert_boxes].
    - reflexivity.
    - unfold kp_at. rewrite !app_nth2 by lia.
      replace (4 * (j + i) + 0 - length pre)%nat with (4 * i + 0)%nat by lia.
      replace (4 * (j + i) + 1 - length pre)%nat with (4 * i + 1)%nat by lia.
      replace (4 * (j + i) + 2 - length pre)%nat with (4 * i + 2)%nat by lia.
      replace (4 * (j + i) + 3 - length pre)%nat with (4 * i + 3)%nat by lia.
      f_equal. replace (S (j + i)) with (j + S i)%nat by lia. apply IH. exact H. }
  intros boxes i pre ks H. rewrite <- (G boxes 0%nat i pre ks H).
  f_equal. lia.
Qed.

Lemma qmin_list4 : forall a b c d, let m := qmin_list [a; b; c; d] in
  m <= a /\ m <= b /\ m <= c /\ m <= d /\ (m = a \/ m = b \/ m = c \/ m = d).
Proof. intros a b c d. cbn. qminmax; repeat split; try lra; auto. Qed.

Lemma qmax_list4 : forall a b c d, let m := qmax_list [a; b; c; d] in
  a <= m /\ b <= m /\ c <= m /\ d <= m /\ (m = a \/ m = b \/ m = c \/ m = d).
Proof. intros a b c d. cbn. qminmax; repeat split; try lra; auto. Qed.

Lemma smallest_box_four : forall k0 k1 k2 k3 l,
  smallest_box_around
    (mkBB (qmin_list (map kx [k0;k1;k2;k3])) (qmin_list (map ky [k0;k1;k2;k3]))
          (qmax_list (map kx [k0;k1;k2;k3])) (qmax_list (map ky [k0;k1;k2;k3])) l)
    [k0; k1; k2; k3].
Proof.
  intros k0 k1 k2 k3 l. cbn [map].
  pose proof (qmin_list4 (kx k0) (kx k1) (kx k2) (kx k3)) as (A1&A2&A3&A4&A5).
  pose proof (qmin_list4 (ky k0) (ky k1) (ky k2) (ky k3)) as (B1&B2&B3&B4&B5).
  pose proof (qmax_list4 (kx k0) (kx k1) (kx k2) (kx k3)) as (C1&C2&C3&C4&C5).
  pose proof (qmax_list4 (ky k0) (ky k1) (ky k2) (ky k3)) as (D1&D2&D3&D4&D5).
  set (mx := qmin_list [kx k0; kx k1; kx k2; kx k3]) in *.
  set (my := qmin_list [ky k0; ky k1; ky k2; ky k3]) in *.
  set (Mx := qmax_list [kx k0; kx k1; kx k2; kx k3]) in *.
  set (My := qmax_list [ky k0; ky k1; ky k2; ky k3]) in *.
  clearbody mx my Mx My.
  split; [split; cbn; lra|]. split.
  - intros k [<-|[<-|[<-|[<-|[]]]]]; unfold in_box; cbn; repeat split; lra.
  - intros c H x y Hb. unfold in_box in Hb. cbn in Hb.
    pose proof (H k0 (or_introl eq_refl)) as (?&?&?&?).
    pose proof (H k1 (or_intror (or_introl eq_refl))) as (?&?&?&?).
    pose proof (H k2 (or_intror (or_intror (or_introl eq_refl)))) as (?&?&?&?).
    pose proof (H k3 (or_intror (or_intror (or_intror (or_introl eq_refl))))) as (?&?&?&?).
    unfold in_box.
    assert (x1 c <= mx) by (destruct A5 as [ -> | [ -> | [ -> | -> ] ] ]; assumption).
    assert (y1 c <= my) by (destruct B5 as [ -> | [ -> | [ -> | -> ] ] ]; assumption).
    assert (Mx <= x2 c) by (destruct C5 as [ -> | [ -> | [ -> | -> ] ] ]; assumption).
    assert (My <= y2 c) by (destruct D5 as [ -> | [ -> | [ -> | -> ] ] ]; assumption).
    repeat split; lra.
Qed.

Lemma invert_boxes_groups : forall boxes (groups : list (keypoint * keypoint * keypoint * keypoint)),
  length groups = length boxes ->
  Forall2 (fun (bg : bbox * (keypoint * keypoint * keypoint * keypoint)) o =>
             let '(b, (k0,k1,k2,k3)) := bg in
             label o = label b /\ smallest_box_around o [k0;k1;k2;k3])
          (combine boxes groups)
          (invert_boxes 0 boxes (flat_map (fun '(k0,k1,k2,k3) => [k0;k1;k2;k3]) groups)).
Proof.
  induction boxes as [|b r IH]; intros groups H; destruct groups as [|[[[k0 k1] k2] k3] gs];
    cbn in H; try discriminate; cbn [combine flat_map invert_boxes].
  - constructor.
  - constructor.
    + split; [reflexivity|]. cbn [kp_at nth Nat.add Nat.mul app]. apply smallest_box_four.
    + rewrite (invert_boxes_app r 1 [k0;k1;k2;k3]) by reflexivity.
      apply IH. lia.
Qed.

Lemma bbsoi_keypoints_roundtrip : forall b, Forall proper (bbs b) ->
  exists b', bbsoi_invert_to_keypoints b (bbsoi_to_keypoints b) = Ok b' /\
    bbs_shape b' = bbs_shape b /\ Forall2 same_box (bbs b') (bbs b).
Proof.
  intros [boxes s] HP. unfold bbsoi_invert_to_keypoints, bbsoi_to_keypoints. cbn [kps bbs kps_shape bbs_shape] in *.
  assert (length (flat_map bb_corners boxes) = (length boxes * 4)%nat) as L.
  { clear. induction boxes as [|b r IH]; cbn; [reflexivity|]. rewrite IH. reflexivity. }
  rewrite L, Nat.eqb_refl. eexists. split; [reflexivity|]. split; [reflexivity|].
  cbn [bbs]. clear L. induction HP as [|b r Pb HP IH]; cbn [flat_map invert_boxes]; constructor.
  - destruct Pb as [P1 P2]. unfold same_box, same_corners.
    cbn [label kp_at nth Nat.add Nat.mul app bb_corners map kx ky x1 x2 y1 y2].
    split; [|reflexivity].
    pose proof (qmin_list4 (x1 b) (x2 b) (x2 b) (x1 b)) as (A1&A2&A3&A4&A5).
    pose proof (qmin_list4 (y1 b) (y1 b) (y2 b) (y2 b)) as (B1&B2&B3&B4&B5).
    pose proof (qmax_list4 (x1 b) (x2 b) (x2 b) (x1 b)) as (C1&C2&C3&C4&C5).
    pose proof (qmax_list4 (y1 b) (y1 b) (y2 b) (y2 b)) as (D1&D2&D3&D4&D5).
    repeat split; [destruct A5 as [E|[E|[E|E]]]|destruct B5 as [E|[E|[E|E]]]
                  |destruct C5 as [E|[E|[E|E]]]|destruct D5 as [E|[E|[E|E]]]]; rewrite E in *; lra.
  - rewrite (invert_boxes_app r 1 (bb_corners b)) by reflexivity. exact IH.
Qed.

Lemma bbsoi_invert_wrong_count : forall b k,
  length (kps k) <> (length (bbs b) * 4)%nat ->
  bbsoi_invert_to_keypoints b k = Err AssertionError.
Proof.
  intros b k H. unfold bbsoi_invert_to_keypoints.
  apply Nat.eqb_neq in H. rewrite H. reflexivity.
Qed.

(* ---------- more about filters ---------- *)

Lemma filter_idem : forall {A} (f : A -> bool) l, filter f (filter f l) = filter f l.
Proof.
  intros A f l. induction l as [|x xs IH]; cbn; [reflexivity|].
  destruct (f x) eqn:E; cbn; [rewrite E, IH; reflexivity|exact IH].
Qed.

Lemma remove_fraction_Ok : forall {A} (frac : A -> res Q) fr items,
  (forall i, In i items -> exists v, frac i = Ok v) ->
  exists out, remove_out_of_image_fraction frac fr items = Ok out.
Proof.
  intros A frac fr items. induction items as [|i is IH]; intro H; cbn; [eauto|].
  destruct (H i) as (v & ->); [left; reflexivity|].
  destruct IH as (o & ->); [intros; apply H; right; assumption|]. cbn. eauto.
Qed.

(** The result is the sublist of exactly the items below the threshold. *)
Lemma remove_fraction_kept : forall {A} (frac : A -> res Q) fr items out,
  remove_out_of_image_fraction frac fr items = Ok out -> kept_below frac fr items out.
Proof.
  intros A frac fr items. induction items as [|i is IH]; intros out H; cbn in H.
  - injection H as <-. constructor.
  - destruct (frac i) as [v|e] eqn:E; cbn in H; [|discriminate].
    destruct (remove_out_of_image_fraction frac fr is) as [o|e]; cbn in H; [|discriminate].
    destruct (qltb v fr) eqn:Q; injection H as <-.
    + apply kb_keep with v; auto. apply qltb_iff; exact Q.
    + apply kb_drop with v; auto. apply qltb_false in Q; exact Q.
Qed.

Lemma remove_fraction_idem : forall {A} (frac : A -> res Q) fr items out,
  remove_out_of_image_fraction frac fr items = Ok out ->
  remove_out_of_image_fraction frac fr out = Ok out.
Proof.
  intros A frac fr items. induction items as [|i is IH]; intros out H; cbn in H.
  - injection H as <-. reflexivity.
  - destruct (frac i) as [v|e] eqn:E; cbn in H; [|discriminate].
    destruct (remove_out_of_image_fraction frac fr is) as [o|e]; cbn in H; [|discriminate].
    destruct (qltb v fr) eqn:Q; injection H as <-.
    + cbn. rewrite E. cbn. rewrite (IH _ eq_refl). cbn. rewrite Q. reflexivity.
    + apply IH. reflexivity.
Qed.

Lemma remove_fraction_mono : forall {A} (frac : A -> res Q) f1 f2 items o1 o2,
  f1 <= f2 ->
  remove_out_of_image_fraction frac f1 items = Ok o1 ->
  remove_out_of_image_fraction frac f2 items = Ok o2 ->
  remove_out_of_image_fraction frac f1 o2 = Ok o1.
Proof.
  intros A frac f1 f2 items o1 o2 L. revert o1 o2.
  induction items as [|i is IH]; intros o1 o2 H1 H2; cbn in H1, H2.
  - injection H1 as <-. injection H2 as <-. reflexivity.
  - destruct (frac i) as [v|e] eqn:E; cbn in H1, H2; [|discriminate].
    destruct (remove_out_of_image_fraction frac f1 is) as [p1|e]; cbn in H1; [|discriminate].
    destruct (remove_out_of_image_fraction frac f2 is) as [p2|e]; cbn in H2; [|discriminate].
    injection H1 as <-. injection H2 as <-.
    specialize (IH p1 p2 eq_refl eq_refl).
    destruct (qltb v f2) eqn:Q2.
    + cbn. rewrite E. cbn. rewrite IH. reflexivity.
    + destruct (qltb v f1) eqn:Q1; [|exact IH]. qbool. lra.
Qed.

Lemma bb_fraction_total : forall b s, exists v, bb_out_of_image_fraction b s = Ok v.
Proof.
  intros b [h w]. unfold bb_out_of_image_fraction, py_div.
  destruct (qeqb (bb_area b) 0); eauto.
Qed.

Lemma bbsoi_remove_fraction : forall b fr,
  exists b', bbsoi_remove_out_of_image_fraction b fr = Ok b' /\ bbs_shape b' = bbs_shape b /\
    kept_below (fun i => bb_out_of_image_fraction i (bbs_shape b)) fr (bbs b) (bbs b') /\
    bbsoi_remove_out_of_image_fraction b' fr = Ok b'.
Proof.
  intros [l s] fr. unfold bbsoi_remove_out_of_image_fraction. cbn [bbs bbs_shape].
  destruct (remove_fraction_Ok (fun i => bb_out_of_image_fraction i s) fr l) as (o & E).
  { intros. apply bb_fraction_total. }
  rewrite E. cbn. exists (mkBbsoi o s). split; [reflexivity|]. split; [reflexivity|].
  split; [apply remove_fraction_kept; exact E|].
  cbn. rewrite (remove_fraction_idem _ _ _ _ E). reflexivity.
Qed.

Lemma bbsoi_remove_fraction_mono : forall b f1 f2 b1 b2, f1 <= f2 ->
  bbsoi_remove_out_of_image_fraction b f1 = Ok b1 ->
  bbsoi_remove_out_of_image_fraction b f2 = Ok b2 ->
  bbsoi_remove_out_of_image_fraction b2 f1 = Ok b1.
Proof.
  intros [l s] f1 f2 b1 b2 L. unfold bbsoi_remove_out_of_image_fraction. cbn [bbs bbs_shape].
  destruct (remove_out_of_image_fraction _ f1 l) as [o1|e] eqn:E1; cbn; intro H1; [|discriminate].
  destruct (remove_out_of_image_fraction _ f2 l) as [o2|e] eqn:E2; cbn; intro H2; [|discriminate].
  injection H1 as <-. injection H2 as <-. cbn [bbs bbs_shape].
  rewrite (remove_fraction_mono _ _ _ _ _ _ L E1 E2). reflexivity.
Qed.

Lemma kp_out_iff : forall k s,
  kp_is_out_of_image k s = true <-> ~ in_plane s (kx k) (ky k).
Proof.
  intros k [h w]. unfold kp_is_out_of_image, in_plane. cbn [fst snd].
  destruct (qleb 0 (ky k)) eqn:E1, (qltb (ky k) (inject_Z h)) eqn:E2,
           (qleb 0 (kx k)) eqn:E3, (qltb (kx k) (inject_Z w)) eqn:E4; cbn; qbool;
  split; intro H; try reflexivity; try discriminate; try (intros (?&?&?&?); lra);
  exfalso; apply H; repeat split; assumption.
Qed.

Lemma kpsoi_clip_filter : forall k,
  exists k', kpsoi_clip_out_of_image k = Ok k' /\ kps_shape k' = kps_shape k /\
    exists keep, (forall i, keep i = true <-> in_plane (kps_shape k) (kx i) (ky i)) /\
    kps k' = filter keep (kps k).
Proof.
  intros [l s]. unfold kpsoi_clip_out_of_image, kpsoi_remove_out_of_image_fraction. cbn [kps kps_shape].
  rewrite (remove_fraction_filter _ (fun i => kp_out_of_image_fraction i s)) by reflexivity.
  cbn. eexists. split; [reflexivity|]. split; [reflexivity|].
  exists (fun i => negb (kp_is_out_of_image i s)). split.
  - intro i. rewrite negb_true_iff. pose proof (kp_out_iff i s) as K.
    destruct (kp_is_out_of_image i s); split; intro H.
    + discriminate.
    + exfalso. apply K; auto.
    + destruct s as [h w]. unfold in_plane in *. cbn [fst snd] in *.
      destruct (Qlt_le_dec (kx i) 0); [exfalso; apply diff_false_true; apply K; intros (?&?&?&?); lra|].
      destruct (Qlt_le_dec (kx i) (inject_Z w)); [|exfalso; apply diff_false_true; apply K; intros (?&?&?&?); lra].
      destruct (Qlt_le_dec (ky i) 0); [exfalso; apply diff_false_true; apply K; intros (?&?&?&?); lra|].
      destruct (Qlt_le_dec (ky i) (inject_Z h)); [|exfalso; apply diff_false_true; apply K; intros (?&?&?&?); lra].
      repeat split; assumption.
    + reflexivity.
  - cbn [kps]. apply filter_ext. intro i. unfold kp_out_of_image_fraction.
    destruct (kp_is_out_of_image i s); reflexivity.
Qed.

Lemma remove_out_of_image_flags : forall b fully partly, 
  bbs_shape (bbsoi_remove_out_of_image b fully partly) = bbs_shape b /\
    exists keep, bbs (bbsoi_remove_out_of_image b fully partly) = filter keep (bbs b) /\
    forall i, keep i = true <->
    (bb_is_fully_within_image i (bbs_shape b) = true
     \/ (bb_is_fully_within_image i (bbs_shape b) = false /\
    bb_is_partly_within_image i (bbs_shape b) = true /\ partly = false)
     \/ (bb_is_fully_within_image i (bbs_shape b) = false /\
    bb_is_partly_within_image i (bbs_shape b) = false /\ fully = false)).
Proof.
  intros [l s] fully partly. cbn [bbs bbs_shape bbsoi_remove_out_of_image].
  split; [reflexivity|]. eexists. split; [reflexivity|].
  intro i. unfold bb_is_out_of_image.
  destruct (bb_is_fully_within_image i s), (bb_is_partly_within_image i s), fully, partly; cbn;
  intuition congruence.
Qed.

Lemma fully_within_iff : forall b s, proper b ->
  (bb_is_fully_within_image b s = true <-> box_in_plane b s).
Proof.
  intros b [h w] [P1 P2]. unfold bb_is_fully_within_image, box_in_plane, in_plane, in_box. cbn [fst snd].
  rewrite !andb_true_iff, !qleb_iff, !qltb_iff. split.
  - intros [[[A B] C] D] x y H. repeat split; lra.
  - intro H. pose proof (H (x1 b) (y1 b)) as HA. pose proof (H (x2 b) (y2 b)) as HB.
    destruct HA as (?&?&?&?); [repeat split; lra|]. destruct HB as (?&?&?&?); [repeat split; lra|].
    repeat split; assumption.
Qed.

(* ---------- containers: shift ---------- *)

Lemma bbsoi_shift_spec : forall b x y,
  bbs_shape (bbsoi_shift b x y) = bbs_shape b /\
    Forall2 (fun i o => label o = label i /\ x1 o == x1 i + x /\ y1 o == y1 i + y /\
    x2 o == x2 i + x /\ y2 o == y2 i + y) (bbs b) (bbs (bbsoi_shift b x y)).
Proof.
  intros [l s] x y. cbn. split; [reflexivity|].
  induction l as [|b r IH]; cbn; constructor; auto. repeat split; reflexivity.
Qed.

Lemma kpsoi_shift_spec : forall k x y,
  kps_shape (kpsoi_shift k x y) = kps_shape k /\
    Forall2 (fun i o => kx o == kx i + x /\ ky o == ky i + y) (kps k) (kps (kpsoi_shift k x y)).
Proof.
  intros [l s] x y. cbn. split; [reflexivity|].
  induction l as [|b r IH]; cbn; constructor; auto. split; reflexivity.
Qed.

Lemma bb_extend_spec : forall b a t r bo l,
  let e := bb_extend b a t r bo l in
  x1 b - x1 e == a + l /\ y1 b - y1 e == a + t /\ x2 e - x2 b == a + r /\ y2 e - y2 b == a + bo
  /\ label e = label b.
Proof. intros. unfold e. cbn. repeat split; ring. Qed.

(* ---------- boxes <-> keypoints, transformed in between ---------- *)

Lemma bbsoi_invert_transformed : forall b s (groups : list (keypoint * keypoint * keypoint * keypoint)),
  length groups = length (bbs b) ->
  exists b',
    bbsoi_invert_to_keypoints b
      (mkKpsoi (flat_map (fun '(k0,k1,k2,k3) => [k0;k1;k2;k3]) groups) s) = Ok b' /\
    bbs_shape b' = s /\
    Forall2 (fun (bg : bbox * (keypoint * keypoint * keypoint * keypoint)) o =>
               let '(i, (k0,k1,k2,k3)) := bg in
               label o = label i /\ smallest_box_around o [k0;k1;k2;k3])
            (combine (bbs b) groups) (bbs b').
Proof.
  intros [boxes s0] s groups H. unfold bbsoi_invert_to_keypoints. cbn [bbs kps] in *.
  assert (length (flat_map (fun '(k0,k1,k2,k3) => [k0;k1;k2;k3]) groups) = (length boxes * 4)%nat) as L.
  { rewrite <- H. clear. induction groups as [|[[[? ?] ?] ?] r IH]; cbn; [reflexivity|].
    rewrite IH. reflexivity. }
  rewrite L, Nat.eqb_refl. eexists. split; [reflexivity|]. split; [reflexivity|].
  cbn [bbs]. apply invert_boxes_groups. exact H.
Qed.

(** Writing back keypoints transformed pointwise by [f]. *)
Lemma bbsoi_map_keypoints : forall b (f : keypoint -> keypoint),
  exists b', bbsoi_invert_to_keypoints b
      (mkKpsoi (map f (kps (bbsoi_to_keypoints b))) (bbs_shape b)) = Ok b' /\
    Forall2 (fun i o => label o = label i /\
    smallest_box_around o [f (mkKp (x1 i) (y1 i)); f (mkKp (x2 i) (y1 i));
                              f (mkKp (x2 i) (y2 i)); f (mkKp (x1 i) (y2 i))])
      (bbs b) (bbs b').
Proof.
  intros [boxes s] f.
  set (g := fun i : bbox => (f (mkKp (x1 i) (y1 i)), f (mkKp (x2 i) (y1 i)),
                             f (mkKp (x2 i) (y2 i)), f (mkKp (x1 i) (y2 i)))).
  destruct (bbsoi_invert_transformed (mkBbsoi boxes s) s (map g boxes)) as (b' & E & _ & F).
  { cbn. apply map_length. }
  cbn [bbsoi_to_keypoints kps bbs bbs_shape] in *.
  assert (flat_map (fun '(k0, k1, k2, k3) => [k0; k1; k2; k3]) (map g boxes)
          = map f (flat_map bb_corners boxes)) as EQ.
  { clear. induction boxes as [|b r IH]; cbn; [reflexivity|]. rewrite IH. reflexivity. }
  rewrite EQ in E. exists b'. split; [exact E|].
  clear - F. revert F. generalize (bbs b') as out. induction boxes as [|b r IH]; intros out F;
    cbn in F; inversion F; subst; constructor; auto.
Qed.

(* ---------- from_point_soup ---------- *)

Lemma fold_qmin_spec : forall l a, fold_left qmin l a <= a /\ (forall x, In x l -> fold_left qmin l a <= x)
  /\ (fold_left qmin l a = a \/ In (fold_left qmin l a) l).
Proof.
  induction l as [|x l IH]; intro a; cbn.
  - split; [lra|]. split; [tauto|auto].
  - destruct (IH (qmin a x)) as (A & B & C). pose proof (qmin_spec a x) as (M1 & M2 & M3).
    split; [lra|]. split.
    + intros y [<-|Hy]; [lra|apply B; exact Hy].
    + destruct C as [C|C]; [|auto]. destruct M3 as [M3|M3]; rewrite C, M3; auto.
Qed.
Lemma fold_qmax_spec : forall l a, a <= fold_left qmax l a /\ (forall x, In x l -> x <= fold_left qmax l a)
  /\ (fold_left qmax l a = a \/ In (fold_left qmax l a) l).
Proof.
  induction l as [|x l IH]; intro a; cbn.
  - split; [lra|]. split; [tauto|auto].
  - destruct (IH (qmax a x)) as (A & B & C). pose proof (qmax_spec a x) as (M1 & M2 & M3).
    split; [lra|]. split.
    + intros y [<-|Hy]; [lra|apply B; exact Hy].
    + destruct C as [C|C]; [|auto]. destruct M3 as [M3|M3]; rewrite C, M3; auto.
Qed.

Lemma from_point_soup_smallest : forall pts, pts <> [] ->
  exists b, bb_from_point_soup pts = Ok b /\
    smallest_box_around b (map (fun p => mkKp (fst p) (snd p)) pts).
Proof.
  intros [|p ps] H; [congruence|]. clear H. unfold bb_from_point_soup. unfold point in *. cbv zeta beta.
  eexists. split; [reflexivity|].
  pose proof (fold_qmin_spec (map fst ps) (fst p)) as (A1 & A2 & A3).
  pose proof (fold_qmin_spec (map snd ps) (snd p)) as (B1 & B2 & B3).
  pose proof (fold_qmax_spec (map fst ps) (fst p)) as (C1 & C2 & C3).
  pose proof (fold_qmax_spec (map snd ps) (snd p)) as (D1 & D2 & D3).
  set (mx := fold_left qmin (map fst ps) (fst p)) in *.
  set (my := fold_left qmin (map snd ps) (snd p)) in *.
  set (Mx := fold_left qmax (map fst ps) (fst p)) in *.
  set (My := fold_left qmax (map snd ps) (snd p)) in *.
  clearbody mx my Mx My. rewrite bb_new_id by (eapply Qle_trans; eassumption).
  split; [split; cbn; eapply Qle_trans; eassumption|]. split.
  - cbn [map]. intros k [<-|Hk]; [unfold in_box; cbn; repeat split; assumption|].
    apply in_map_iff in Hk. destruct Hk as (q & <- & Hq). unfold in_box. cbn.
    repeat split; [apply A2|apply C2|apply B2|apply D2]; apply in_map; exact Hq.
  - intros c Hc x y Hb. unfold in_box in Hb. cbn in Hb.
    assert (forall q, In q (p :: ps) -> in_box c (fst q) (snd q)) as Hc'.
    { intros q Hq. apply (Hc (mkKp (fst q) (snd q))). apply in_map_iff. exists q. auto. }
    assert (x1 c <= mx).
    { destruct A3 as [E|E]; [rewrite E; apply (Hc' p); left; reflexivity|].
      apply in_map_iff in E. destruct E as (q & E & Hq). rewrite <- E. apply (Hc' q). right; exact Hq. }
    assert (y1 c <= my).
    { destruct B3 as [E|E]; [rewrite E; apply (Hc' p); left; reflexivity|].
      apply in_map_iff in E. destruct E as (q & E & Hq). rewrite <- E. apply (Hc' q). right; exact Hq. }
    assert (Mx <= x2 c).
    { destruct C3 as [E|E]; [rewrite E; apply (Hc' p); left; reflexivity|].
      apply in_map_iff in E. destruct E as (q & E & Hq). rewrite <- E. apply (Hc' q). right; exact Hq. }
    assert (My <= y2 c).
    { destruct D3 as [E|E]; [rewrite E; apply (Hc' p); left; reflexivity|].
      apply in_map_iff in E. destruct E as (q & E & Hq). rewrite <- E. apply (Hc' q). right; exact Hq. }
    unfold in_box. repeat split; lra.
Qed.

Lemma bb_iou_value : forall a b c, proper a -> proper b ->
  bb_intersection a b = Some c -> 0 < bb_area a + bb_area b - bb_area c ->
  exists v, bb_iou a b = Ok v /\ v * (bb_area a + bb_area b - bb_area c) == bb_area c.
Proof.
  intros a b c Ha Hb E U. destruct (bb_iou_cases a b Ha Hb) as (v & Ev & Cv).
  exists v. split; [exact Ev|]. rewrite E in Cv. cbn in Cv.
  destruct Cv as [[_ V]|[U' V]]; [rewrite V; field; lra|lra].
Qed.

Lemma clip_changes_inside : exists b b' s,
  proper b /\ bb_is_fully_within_image b s = true /\
  bb_clip_out_of_image b s = Ok b' /\ ~ same_box b' b.
Proof.
  exists (mkBB 0 0 (10 - (1#16777216)) 5 None). eexists. exists (10, 10)%Z.
  split; [split; discriminate|]. split; [reflexivity|]. split; [reflexivity|].
  intros [(_ & _ & H & _) _]. vm_compute in H. discriminate.
Qed.
