From Verif Require Import Prelude PreludeFacts GeoModel PspModel PspSpec PspProofs PspShape.
From Coq Require Import Lia Lqa Qabs Setoid Qfield.
Local Open Scope Q_scope.

Lemma inject_pos : forall n, (0 < n)%Z -> 0 < inject_Z n.
Proof. intros n H. change 0 with (inject_Z 0). rewrite <- Zlt_Qlt. exact H. Qed.

Lemma rect_convex : forall h w, (0 < h)%Z -> (0 < w)%Z -> convex (rect h w).
Proof.
  intros h w H W. apply inject_pos in H, W. unfold convex, area2, rect. cbn [tl tr br bl fst snd].
  assert (P : 0 < inject_Z w * inject_Z h) by (apply Qmult_lt_0_compat; assumption).
  repeat split; lra.
Qed.

Lemma convex_general : forall q, convex q -> general_position q.
Proof. intros q (A & B & C & D). repeat split; intro E; rewrite E in *; discriminate || (apply (Qlt_irrefl 0); assumption). Qed.

(** ** Fuel *)
Lemma widen_more : forall n k m q r, widen n m q = Some r -> widen (n + k) m q = Some r.
Proof.
  induction n as [|n IH]; intros k m q r; [discriminate|]. simpl.
  destruct (Z.min (int_dist (tl q) (tr q)) (int_dist (bl q) (br q)) <? m)%Z; [apply IH|trivial].
Qed.
Lemma heighten_more : forall n k m q r, heighten n m q = Some r -> heighten (n + k) m q = Some r.
Proof.
  induction n as [|n IH]; intros k m q r; [discriminate|]. simpl.
  destruct (Z.min (int_dist (br q) (tr q)) (int_dist (bl q) (tl q)) <? m)%Z; [apply IH|trivial].
Qed.
Lemma draw_quad_mono : forall n k s j r, draw_quad n s j = Some r -> draw_quad (n + k) s j = Some r.
Proof.
  intros n k [h w] j r. unfold draw_quad. generalize (order_points (corner_points j h w)). intro q.
  destruct (widen n min_side q) as [[q1 m1]|] eqn:W; [|discriminate].
  rewrite (widen_more _ k _ _ _ W).
  destruct (heighten n min_side q1) as [[q2 m2]|] eqn:H; [|discriminate].
  rewrite (heighten_more _ k _ _ _ H). trivial.
Qed.
Lemma draw_quad_more : forall n s j, draw_quad (3 + n) s j = draw_quad 3 s j.
Proof.
  intros n [h w] j. destruct (draw_quad_spec 0 h w j) as (q & mw & mh & sx & sy & E & _).
  rewrite Nat.add_0_r in E. rewrite E. apply draw_quad_mono. exact E.
Qed.

(** ** The drawn quad for small jitter *)
Lemma draw_small : forall n h w j t, small_jitter j t h w ->
  exists q0 q mw mh sx sy,
    draw_quad (3 + n) (h, w) j = Some (q, mw, mh) /\ moved_corners j h w q0 /\
    0 <= sx /\ 0 <= sy /\ quad_eq q (enlarged sx sy q0) /\
    (sides_at_least 2 q0 -> sx == 0 /\ sy == 0) /\ convex q /\ (2 <= mw)%Z /\ (2 <= mh)%Z.
Proof.
  intros n h w j t S.
  destruct (draw_quad_spec n h w j) as (q & mw & mh & sx & sy & E & SX & SY & QE & _ & _ & _ & _ & MW & MH & U).
  pose proof (corner_points_moved _ _ _ _ S) as M.
  rewrite (order_points_id _ (moved_well_ordered _ _ _ _ _ S M)) in QE, U.
  exists (corner_points j h w), q, mw, mh, sx, sy.
  split; [exact E|]. split; [exact M|]. split; [exact SX|]. split; [exact SY|]. split; [exact QE|].
  split.
  { intro SD. specialize (U SD). subst q. destruct QE as ((A & B) & _). unfold enlarged in A, B. cbn [tl fst snd] in A, B.
    split; lra. }
  split; [|split; assumption].
  apply (convex_eq (enlarged sx sy (corner_points j h w))); [apply quad_eq_sym; exact QE|].
  apply enlarged_convex; [exact SX|exact SY| |apply (moved_convex j t h w); assumption].
  rewrite <- (order_points_id _ (moved_well_ordered _ _ _ _ _ S M)). apply order_points_aligned.
Qed.

Lemma rect_box : forall h w, (0 < h)%Z -> (0 < w)%Z ->
  forall c, In c [tl (rect h w); tr (rect h w); br (rect h w); bl (rect h w)] ->
  0 <= fst c /\ fst c <= inject_Z w /\ 0 <= snd c /\ snd c <= inject_Z h.
Proof.
  intros h w H W c I. apply inject_pos in H, W. simpl in I.
  destruct I as [<-|[<-|[<-|[<-|[]]]]]; simpl; repeat split; lra.
Qed.

Lemma draw_region : forall solve n h w j t, good_solver solve -> small_jitter j t h w ->
  exists s q0 q sx sy, draw_sample solve false (3 + n) (h, w) j = Some s /\
    moved_corners j h w q0 /\ 0 <= sx /\ 0 <= sy /\ quad_eq q (enlarged sx sy q0) /\
    (sides_at_least 2 q0 -> sx == 0 /\ sy == 0) /\
    (2 <= max_height s)%Z /\ (2 <= max_width s)%Z /\
    takes_quad (matrix s) q (rect (max_height s) (max_width s)) /\ convex q /\
    forall p, in_quad q p -> ~ weight (matrix s) p == 0 /\
      on_plane (max_height s) (max_width s) (perspective (matrix s) p).
Proof.
  intros solve n h w j t G S.
  destruct (draw_small n h w j t S) as (q0 & q & mw & mh & sx & sy & E & M & SX & SY & QE & U & C & MW & MH).
  exists (mkSample (solve q (rect mh mw)) mh mw), q0, q, sx, sy.
  assert (CR : convex (rect mh mw)) by (apply rect_convex; lia).
  assert (T : takes_quad (solve q (rect mh mw)) q (rect mh mw)) by (apply G; apply convex_general; assumption).
  split; [unfold draw_sample; rewrite E; reflexivity|]. cbn [matrix max_height max_width].
  repeat (split; [assumption|]).
  intros p I.
  destruct (hull_box _ _ _ p 0 (inject_Z mw) 0 (inject_Z mh) T C CR I) as (NZ & B); [apply rect_box; lia|].
  split; [exact NZ|exact B].
Qed.

(** ** Keypoints *)
Lemma kpsoi_sample_ok : forall keep s k h w, kps_shape k = (h, w) -> (0 < h)%Z -> (0 < w)%Z ->
  (0 < max_height s)%Z -> (0 < max_width s)%Z ->
  exists k', kpsoi_by_sample keep s k = Ok k' /\
    kps_shape k' = (if keep then (h, w) else (max_height s, max_width s)) /\
    Forall2 (fun p p' => peq (relative (fst (kps_shape k')) (snd (kps_shape k')) (kx p', ky p'))
                             (relative (max_height s) (max_width s) (perspective (matrix s) (kx p, ky p))))
            (kps k) (kps k').
Proof.
  intros keep s k h w SH H W MH MW. unfold kpsoi_by_sample. rewrite SH. cbn [fst snd].
  destruct (h =? 0)%Z eqn:E1; [apply Z.eqb_eq in E1; lia|].
  destruct (w =? 0)%Z eqn:E2; [apply Z.eqb_eq in E2; lia|]. cbn [orb].
  set (warped := map (fun p => let '(x, y) := perspective (matrix s) (kx p, ky p) in mkKp x y) (kps k)).
  assert (F : Forall2 (fun p p' => (kx p', ky p') = perspective (matrix s) (kx p, ky p)) (kps k) warped).
  { unfold warped. clear. induction (kps k) as [|a l IH]; cbn [map]; constructor; [|exact IH].
    destruct (perspective (matrix s) (kx a, ky a)); reflexivity. }
  clearbody warped. generalize dependent (kps k). intros l F. clear SH k. rename warped into l'.
  destruct keep.
  - unfold kpsoi_on. cbn [kps_shape kps].
    destruct (shape2_eqb (h, w) (max_height s, max_width s)) eqn:E.
    + eexists. split; [reflexivity|]. split; [reflexivity|]. cbn [kps kps_shape fst snd].
      unfold shape2_eqb in E. cbn [fst snd] in E. apply andb_prop in E. destruct E as (EH & EW).
      apply Z.eqb_eq in EH, EW. subst h w.
      induction F as [|a b l l' Hh F IH]; constructor; [|exact IH]. rewrite Hh. apply peq_refl.
    + assert (P : forall x y, kp_project (mkKp x y) (max_height s, max_width s) (h, w)
        = Ok (mkKp ((x / inject_Z (max_width s)) * inject_Z w) ((y / inject_Z (max_height s)) * inject_Z h))).
      { intros x y. unfold kp_project, project_coords.
        destruct (shape2_eqb (max_height s, max_width s) (h, w)) eqn:E'.
        - unfold shape2_eqb in E, E'. cbn [fst snd] in E, E'. rewrite Z.eqb_sym, (Z.eqb_sym (max_width s)) in E'. congruence.
        - cbn [forallb fst snd kx ky map].
          replace (0 <? max_height s)%Z with true by (symmetry; apply Z.ltb_lt; exact MH).
          replace (0 <? max_width s)%Z with true by (symmetry; apply Z.ltb_lt; exact MW).
          replace (0 <? h)%Z with true by (symmetry; apply Z.ltb_lt; exact H).
          replace (0 <? w)%Z with true by (symmetry; apply Z.ltb_lt; exact W). reflexivity. }
      assert (HH : 0 < inject_Z h) by (apply inject_pos; exact H).
      assert (WW : 0 < inject_Z w) by (apply inject_pos; exact W).
      assert (R : exists r, mapM (fun i => kp_project i (max_height s, max_width s) (h, w)) l' = Ok r /\
         Forall2 (fun p p' => peq (relative h w (kx p', ky p'))
                             (relative (max_height s) (max_width s) (perspective (matrix s) (kx p, ky p)))) l r).
      { induction F as [|a b l l' Hh F (r & R1 & R2)].
        - exists []. split; [reflexivity|constructor].
        - exists (mkKp ((kx b / inject_Z (max_width s)) * inject_Z w) ((ky b / inject_Z (max_height s)) * inject_Z h) :: r).
          split.
          + unfold mapM in *. simpl. destruct b as [bx by']. rewrite P. simpl. rewrite R1. reflexivity.
          + constructor; [|exact R2]. rewrite <- Hh. unfold peq, relative. simpl.
            assert (N1 : ~ inject_Z h == 0) by (intro Z; rewrite Z in HH; lra).
            assert (N2 : ~ inject_Z w == 0) by (intro Z; rewrite Z in WW; lra).
            assert (N3 : ~ inject_Z (max_height s) == 0) by (intro Z; apply inject_pos in MH; rewrite Z in MH; lra).
            assert (N4 : ~ inject_Z (max_width s) == 0) by (intro Z; apply inject_pos in MW; rewrite Z in MW; lra).
            split; field; split; assumption. }
      destruct R as (r & R1 & R2). rewrite R1. eexists. split; [reflexivity|]. split; [reflexivity|]. exact R2.
  - eexists. split; [reflexivity|]. split; [reflexivity|]. cbn [kps kps_shape fst snd].
    induction F as [|a b l l' Hh F IH]; constructor; [|exact IH]. rewrite Hh. apply peq_refl.
Qed.

Lemma image_sample_shape : forall A (warp : warper A) resize keep s img,
  good_warp warp -> good_resize resize -> (0 < ah img)%Z -> (0 < aw img)%Z ->
  (ah (image_by_sample warp resize keep s img), aw (image_by_sample warp resize keep s img))
  = if keep then (ah img, aw img) else (max_height s, max_width s).
Proof.
  intros A warp resize keep s img GW GR H W. unfold image_by_sample.
  destruct (ah img =? 0)%Z eqn:E1; [apply Z.eqb_eq in E1; lia|].
  destruct (aw img =? 0)%Z eqn:E2; [apply Z.eqb_eq in E2; lia|]. cbn [orb].
  destruct keep.
  - destruct (GR (warp img (matrix s) (max_width s) (max_height s)) (ah img) (aw img)) as (R1 & R2). rewrite R1, R2. reflexivity.
  - destruct (GW img (matrix s) (max_width s) (max_height s)) as (R1 & R2 & _). rewrite R1, R2. reflexivity.
Qed.

(** ** Maps *)
Definition rescale (sx sy ux uy : Q) (m : mat3) : mat3 :=
  mkMat (m11 m * sx * ux) (m12 m * sy * ux) (m13 m * ux)
        (m21 m * sx * uy) (m22 m * sy * uy) (m23 m * uy)
        (m31 m * sx) (m32 m * sy) (m33 m).

Lemma rescale_weight : forall sx sy ux uy m p,
  weight (rescale sx sy ux uy m) p == weight m (fst p * sx, snd p * sy).
Proof. intros. unfold weight, rescale. simpl. ring. Qed.

Lemma rescale_persp : forall sx sy ux uy m p, ~ weight m (fst p * sx, snd p * sy) == 0 ->
  peq (perspective (rescale sx sy ux uy m) p)
      (fst (perspective m (fst p * sx, snd p * sy)) * ux, snd (perspective m (fst p * sx, snd p * sy)) * uy).
Proof.
  intros sx sy ux uy m p NZ. pose proof (rescale_weight sx sy ux uy m p) as E.
  assert (NZ' : ~ weight (rescale sx sy ux uy m) p == 0) by (rewrite E; exact NZ).
  unfold peq, perspective. cbn [fst snd].
  rewrite !E. unfold rescale. cbn [m11 m12 m13 m21 m22 m23].
  split; field; exact NZ.
Qed.

Lemma takes_rescale : forall sx sy ux uy m p d p',
  peq p' (fst p * sx, snd p * sy) -> takes m p' d ->
  takes (rescale sx sy ux uy m) p (fst d * ux, snd d * uy).
Proof.
  intros sx sy ux uy m p d p' (P1 & P2) (NZ & D1 & D2). cbn [fst snd] in P1, P2.
  assert (E : weight m p' == weight m (fst p * sx, snd p * sy)) by (unfold weight; simpl; rewrite P1, P2; reflexivity).
  assert (NZ' : ~ weight m (fst p * sx, snd p * sy) == 0) by (rewrite <- E; exact NZ).
  split; [rewrite rescale_weight; exact NZ'|].
  destruct (rescale_persp sx sy ux uy m p NZ') as (R1 & R2). unfold peq. rewrite R1, R2. cbn [fst snd].
  rewrite <- D1, <- D2.
  split; unfold perspective; cbn [fst snd]; rewrite <- E, P1, P2; reflexivity.
Qed.

Definition unit_square : quad := mkQuad (0, 0) (1, 0) (1, 1) (0, 1).

Lemma takes_eq : forall m p d d', peq d d' -> takes m p d -> takes m p d'.
Proof. intros m p d d' (A & B) (NZ & C & D). split; [exact NZ|]. split; [rewrite C|rewrite D]; assumption. Qed.

Lemma normalised : forall m q q0 h w sx sy,
  (0 < h)%Z -> (0 < w)%Z -> takes_quad m q (rect h w) ->
  quad_eq q (map_quad (fun p => (fst p * sx, snd p * sy)) q0) ->
  takes_quad (rescale sx sy (/ inject_Z w) (/ inject_Z h) m) q0 unit_square.
Proof.
  intros m q q0 h w sx sy H W (T0 & T1 & T2 & T3) (E0 & E1 & E2 & E3).
  apply inject_pos in H, W.
  assert (NH : ~ inject_Z h == 0) by (intro Z; rewrite Z in H; lra).
  assert (NW : ~ inject_Z w == 0) by (intro Z; rewrite Z in W; lra).
  assert (G : forall p p' d d', peq p' (fst p * sx, snd p * sy) -> takes m p' d ->
    fst d / inject_Z w == fst d' -> snd d / inject_Z h == snd d' ->
    takes (rescale sx sy (/ inject_Z w) (/ inject_Z h) m) p d').
  { intros p p' d d' E T D1 D2. apply (takes_eq _ _ (fst d * / inject_Z w, snd d * / inject_Z h)).
    - split; assumption.
    - apply (takes_rescale _ _ _ _ _ _ _ p'); assumption. }
  split; [|split; [|split]].
  - apply (G _ _ _ _ E0 T0); simpl; field; assumption.
  - apply (G _ _ _ _ E1 T1); simpl; field; assumption.
  - apply (G _ _ _ _ E2 T2); simpl; field; assumption.
  - apply (G _ _ _ _ E3 T3); simpl; field; assumption.
Qed.

Lemma moved_scaled : forall j h w h' w' q q', (0 < h)%Z -> (0 < w)%Z ->
  moved_corners j h w q -> moved_corners j h' w' q' ->
  quad_eq q' (map_quad (fun p => (fst p * (inject_Z w' / inject_Z w), snd p * (inject_Z h' / inject_Z h))) q).
Proof.
  intros j h w h' w' q q' H W ((A1&A2)&(A3&A4)&(A5&A6)&(A7&A8)) ((B1&B2)&(B3&B4)&(B5&B6)&(B7&B8)).
  apply inject_pos in H, W.
  assert (NH : ~ inject_Z h == 0) by (intro Z; rewrite Z in H; lra).
  assert (NW : ~ inject_Z w == 0) by (intro Z; rewrite Z in W; lra).
  unfold quad_eq, peq, map_quad. cbn [tl tr br bl fst snd] in *.
  rewrite A1, A2, A3, A4, A5, A6, A7, A8, B1, B2, B3, B4, B5, B6, B7, B8.
  repeat split; field; assumption.
Qed.

Lemma moved_same : forall j h w q q', moved_corners j h w q -> moved_corners j h w q' -> quad_eq q q'.
Proof.
  intros j h w q q' ((A1&A2)&(A3&A4)&(A5&A6)&(A7&A8)) ((B1&B2)&(B3&B4)&(B5&B6)&(B7&B8)).
  unfold quad_eq, peq. rewrite A1, A2, A3, A4, A5, A6, A7, A8, B1, B2, B3, B4, B5, B6, B7, B8.
  repeat split; reflexivity.
Qed.

Lemma sides_eq : forall n a b, quad_eq a b -> sides_at_least n a -> sides_at_least n b.
Proof.
  intros n a b ((A1&A2)&(A3&A4)&(A5&A6)&(A7&A8)). unfold sides_at_least, dist2.
  rewrite A1, A2, A3, A4, A5, A6, A7, A8. tauto.
Qed.

Lemma takes_quad_src : forall m q q' d, quad_eq q q' -> takes_quad m q d -> takes_quad m q' d.
Proof.
  intros m q q' d ((A1&A2)&(A3&A4)&(A5&A6)&(A7&A8)) (T0 & T1 & T2 & T3).
  assert (G : forall p p' e, fst p == fst p' -> snd p == snd p' -> takes m p e -> takes m p' e).
  { intros p p' e X Y. unfold takes, peq, perspective, weight. cbn [fst snd]. rewrite X, Y. trivial. }
  split; [|split; [|split]].
  - apply (G _ _ _ A1 A2 T0).
  - apply (G _ _ _ A3 A4 T1).
  - apply (G _ _ _ A5 A6 T2).
  - apply (G _ _ _ A7 A8 T3).
Qed.

Lemma draw_exact : forall solve n h w j t, good_solver solve -> small_jitter j t h w ->
  (forall q, moved_corners j h w q -> sides_at_least 2 q) ->
  exists s q, draw_sample solve false (3 + n) (h, w) j = Some s /\ moved_corners j h w q /\
    (0 < max_height s)%Z /\ (0 < max_width s)%Z /\
    takes_quad (matrix s) q (rect (max_height s) (max_width s)) /\ convex q.
Proof.
  intros solve n h w j t G S SD.
  destruct (draw_region solve n h w j t G S) as (s & q0 & q & sx & sy & E & M & SX & SY & QE & U & MH & MW & T & C & _).
  destruct (U (SD q0 M)) as (Z1 & Z2).
  assert (QE' : quad_eq q q0).
  { apply (quad_eq_trans _ _ _ QE). apply (quad_eq_trans _ (enlarged 0 0 q0)); [apply enlarged_ext; assumption|apply enlarged_0]. }
  exists s, q0. split; [exact E|]. split; [exact M|]. split; [lia|]. split; [lia|].
  split; [apply (takes_quad_src _ q); assumption|apply (convex_eq q); assumption].
Qed.

Lemma unit_convex : convex unit_square.
Proof. repeat split; reflexivity. Qed.

Lemma maps_follow : forall solve n h w h' w' j t t', good_solver solve ->
  small_jitter j t h w -> small_jitter j t' h' w' ->
  (forall q, moved_corners j h w q -> sides_at_least 2 q) ->
  (forall q, moved_corners j h' w' q -> sides_at_least 2 q) ->
  exists s s', draw_sample solve false (3 + n) (h, w) j = Some s /\
    draw_sample solve false (3 + n) (h', w') j = Some s' /\
    forall p, ~ weight (matrix s) p == 0 ->
      let p' := (fst p * (inject_Z w' / inject_Z w), snd p * (inject_Z h' / inject_Z h)) in
      ~ weight (matrix s') p' == 0 /\
      peq (relative (max_height s) (max_width s) (perspective (matrix s) p))
          (relative (max_height s') (max_width s') (perspective (matrix s') p')).
Proof.
  intros solve n h w h' w' j t t' G S S' SD SD'.
  destruct (draw_exact solve n h w j t G S SD) as (s & q & E & M & MH & MW & T & C).
  destruct (draw_exact solve n h' w' j t' G S' SD') as (s' & q' & E' & M' & MH' & MW' & T' & C').
  exists s, s'. split; [exact E|]. split; [exact E'|]. intros p NZ.
  destruct S as (_ & H & W & _).
  set (rx := inject_Z w' / inject_Z w). set (ry := inject_Z h' / inject_Z h).
  assert (I : quad_eq q (map_quad (fun p => (fst p * 1, snd p * 1)) q))
    by (unfold quad_eq, peq, map_quad; simpl; repeat split; ring).
  pose proof (normalised _ _ q _ _ 1 1 MH MW T I) as N.
  pose proof (normalised _ _ q _ _ rx ry MH' MW' T' (moved_scaled _ _ _ _ _ _ _ H W M M')) as N'.
  assert (P1 : weight (matrix s) (fst p * 1, snd p * 1) == weight (matrix s) p) by (unfold weight; simpl; ring).
  assert (NZ1 : ~ weight (matrix s) (fst p * 1, snd p * 1) == 0) by (rewrite P1; exact NZ).
  destruct (matrix_unique _ _ q unit_square p (convex_general _ C) (convex_general _ unit_convex) N N') as (NZ' & PE).
  { rewrite rescale_weight. exact NZ1. }
  rewrite rescale_weight in NZ'. cbv zeta. split; [exact NZ'|].
  destruct PE as (PX & PY).
  destruct (rescale_persp 1 1 (/ inject_Z (max_width s)) (/ inject_Z (max_height s)) (matrix s) p NZ1) as (RX & RY).
  destruct (rescale_persp rx ry (/ inject_Z (max_width s')) (/ inject_Z (max_height s')) (matrix s') p NZ') as (RX' & RY').
  rewrite RX, RX' in PX. rewrite RY, RY' in PY. cbn [fst snd] in PX, PY.
  unfold relative, peq. cbn [fst snd]. unfold Qdiv. rewrite <- PX, <- PY.
  split; unfold perspective; cbn [fst snd]; unfold weight; cbn [fst snd]; rewrite !Qmult_1_r; reflexivity.
Qed.

(** ** fit_output *)
Lemma plane_in_rect : forall h w p, (0 < h)%Z -> (0 < w)%Z -> on_plane h w p -> in_quad (rect h w) p.
Proof.
  intros h w [x y] H W (X1 & X2 & Y1 & Y2). apply inject_pos in H, W. cbn [fst snd] in *.
  assert (NH : ~ inject_Z h == 0) by (intro Z; rewrite Z in H; lra).
  assert (NW : ~ inject_Z w == 0) by (intro Z; rewrite Z in W; lra).
  set (u := x / inject_Z w). set (v := y / inject_Z h).
  assert (U1 : 0 <= u) by (apply Qle_shift_div_l; lra).
  assert (U2 : u <= 1) by (apply Qle_shift_div_r; lra).
  assert (V1 : 0 <= v) by (apply Qle_shift_div_l; lra).
  assert (V2 : v <= 1) by (apply Qle_shift_div_r; lra).
  exists ((1 - u) * (1 - v)), (u * (1 - v)), (u * v), ((1 - u) * v).
  unfold rect. cbn [tl tr br bl fst snd].
  repeat split; try (apply Qmult_le_0_compat; lra); unfold u, v; field; try split; assumption.
Qed.

Lemma quad_min_le : forall c q p, In p [tl q; tr q; br q; bl q] -> quad_min c q <= c p.
Proof.
  intros c q p I. unfold quad_min.
  assert (L : forall a b, qmin a b <= a /\ qmin a b <= b).
  { intros a b. unfold qmin. destruct (qltb b a) eqn:E; [apply qltb_iff in E|apply qltb_false in E]; split; lra. }
  destruct (L (c (tl q)) (c (tr q))). destruct (L (c (br q)) (c (bl q))).
  destruct (L (qmin (c (tl q)) (c (tr q))) (qmin (c (br q)) (c (bl q)))).
  destruct I as [<-|[<-|[<-|[<-|[]]]]]; lra.
Qed.
Lemma quad_max_ge : forall c q p, In p [tl q; tr q; br q; bl q] -> c p <= quad_max c q.
Proof.
  intros c q p I. unfold quad_max.
  assert (L : forall a b, a <= qmax a b /\ b <= qmax a b).
  { intros a b. unfold qmax. destruct (qltb a b) eqn:E; [apply qltb_iff in E|apply qltb_false in E]; split; lra. }
  destruct (L (c (tl q)) (c (tr q))). destruct (L (c (br q)) (c (bl q))).
  destruct (L (qmax (c (tl q)) (c (tr q))) (qmax (c (br q)) (c (bl q)))).
  destruct I as [<-|[<-|[<-|[<-|[]]]]]; lra.
Qed.
Lemma quad_min_in : forall c q, exists p, In p [tl q; tr q; br q; bl q] /\ quad_min c q = c p.
Proof.
  intros c q. unfold quad_min, qmin. simpl.
  repeat match goal with |- context [if ?b then _ else _] => destruct b end; eexists; split; try reflexivity; tauto.
Qed.
Lemma quad_max_in : forall c q, exists p, In p [tl q; tr q; br q; bl q] /\ quad_max c q = c p.
Proof.
  intros c q. unfold quad_max, qmax. simpl.
  repeat match goal with |- context [if ?b then _ else _] => destruct b end; eexists; split; try reflexivity; tauto.
Qed.

Lemma np_round_0 : forall q, 0 <= q -> (0 <= np_round q)%Z.
Proof. intros q H. rewrite <- (np_round_Z 0). apply np_round_mono. exact H. Qed.

Lemma map_quad_in : forall f q p, In p (corners (map_quad f q)) -> exists c, In c (corners q) /\ p = f c.
Proof.
  intros f q p I. destruct I as [<-|[<-|[<-|[<-|[]]]]]; eexists; (split; [|reflexivity]); simpl; tauto.
Qed.
Lemma map_quad_in2 : forall f q c, In c (corners q) -> In (f c) (corners (map_quad f q)).
Proof. intros f q c I. destruct I as [<-|[<-|[<-|[<-|[]]]]]; simpl; tauto. Qed.

(** the targets of the corners are whole numbers, from 0 to the size *)
Lemma expand_dst_box : forall m h w c, In c (corners (expand_dst m h w)) ->
  0 <= fst c /\ fst c <= inject_Z (py_int (quad_max fst (expand_dst m h w))) /\
  0 <= snd c /\ snd c <= inject_Z (py_int (quad_max snd (expand_dst m h w))).
Proof.
  intros m h w c I.
  assert (INT : forall p, In p (corners (expand_dst m h w)) ->
     exists a b, fst p = inject_Z a /\ snd p = inject_Z b /\ (0 <= a)%Z /\ (0 <= b)%Z).
  { intros p J. unfold expand_dst in J. apply map_quad_in in J. destruct J as (r & R & ->).
    eexists. eexists. split; [reflexivity|]. split; [reflexivity|].
    split; apply np_round_0.
    - pose proof (quad_min_le fst (map_quad (perspective m) (rect h w)) r R). lra.
    - pose proof (quad_min_le snd (map_quad (perspective m) (rect h w)) r R). lra. }
  assert (MX : inject_Z (py_int (quad_max fst (expand_dst m h w))) = quad_max fst (expand_dst m h w)).
  { destruct (quad_max_in fst (expand_dst m h w)) as (p & J & E). rewrite E.
    destruct (INT p J) as (a & b & A & _). rewrite A, py_int_Z. reflexivity. }
  assert (MY : inject_Z (py_int (quad_max snd (expand_dst m h w))) = quad_max snd (expand_dst m h w)).
  { destruct (quad_max_in snd (expand_dst m h w)) as (p & J & E). rewrite E.
    destruct (INT p J) as (a & b & _ & B & _). rewrite B, py_int_Z. reflexivity. }
  rewrite MX, MY.
  destruct (INT c I) as (a & b & A & B & A0 & B0).
  repeat split.
  - rewrite A. change 0 with (inject_Z 0). rewrite <- Zle_Qle. exact A0.
  - apply quad_max_ge. exact I.
  - rewrite B. change 0 with (inject_Z 0). rewrite <- Zle_Qle. exact B0.
  - apply quad_max_ge. exact I.
Qed.

Lemma expand_tight : forall m h w,
  (exists c, In c (corners (expand_dst m h w)) /\ fst c == 0) /\
  (exists c, In c (corners (expand_dst m h w)) /\ snd c == 0) /\
  (exists c, In c (corners (expand_dst m h w)) /\ fst c == inject_Z (py_int (quad_max fst (expand_dst m h w)))) /\
  (exists c, In c (corners (expand_dst m h w)) /\ snd c == inject_Z (py_int (quad_max snd (expand_dst m h w)))).
Proof.
  intros m h w.
  set (dst := map_quad (perspective m) (rect h w)).
  set (f := fun p : point => (inject_Z (np_round (fst p - quad_min fst dst)), inject_Z (np_round (snd p - quad_min snd dst)))).
  assert (ED : expand_dst m h w = map_quad f dst) by reflexivity.
  assert (Z0 : forall a b : Q, a = b -> np_round (b - a) = 0%Z).
  { intros a b ->. apply np_round_unique; change (inject_Z 0) with 0; lra. }
  repeat split.
  - destruct (quad_min_in fst dst) as (p & J & E). exists (f p). split; [rewrite ED; apply map_quad_in2; exact J|].
    unfold f. cbn [fst]. rewrite (Z0 _ _ E). reflexivity.
  - destruct (quad_min_in snd dst) as (p & J & E). exists (f p). split; [rewrite ED; apply map_quad_in2; exact J|].
    unfold f. cbn [snd]. rewrite (Z0 _ _ E). reflexivity.
  - destruct (quad_max_in fst (expand_dst m h w)) as (p & J & E). exists p. split; [exact J|]. rewrite E.
    rewrite ED in J. apply map_quad_in in J. destruct J as (r & _ & ->). unfold f. cbn [fst]. rewrite py_int_Z. reflexivity.
  - destruct (quad_max_in snd (expand_dst m h w)) as (p & J & E). exists p. split; [exact J|]. rewrite E.
    rewrite ED in J. apply map_quad_in in J. destruct J as (r & _ & ->). unfold f. cbn [snd]. rewrite py_int_Z. reflexivity.
Qed.

Lemma expand_ok : forall solve m h w m' mw mh, good_solver solve -> (0 < h)%Z -> (0 < w)%Z ->
  convex (expand_dst m h w) -> expand_transform solve m h w = (m', mw, mh) ->
  (forall p, on_plane h w p -> ~ weight m' p == 0 /\ on_plane mh mw (perspective m' p)) /\
  (exists dx dy, forall c, In c (corners (rect h w)) ->
     Qabs (fst (perspective m' c) - (fst (perspective m c) + dx)) <= 1 # 2 /\
     Qabs (snd (perspective m' c) - (snd (perspective m c) + dy)) <= 1 # 2) /\
  (exists c, In c (corners (rect h w)) /\ fst (perspective m' c) == 0) /\
  (exists c, In c (corners (rect h w)) /\ snd (perspective m' c) == 0) /\
  (exists c, In c (corners (rect h w)) /\ fst (perspective m' c) == inject_Z mw) /\
  (exists c, In c (corners (rect h w)) /\ snd (perspective m' c) == inject_Z mh).
Proof.
  intros solve m h w m' mw mh G H W C E. unfold expand_transform in E. injection E as <- <- <-.
  assert (CR : convex (rect h w)) by (apply rect_convex; assumption).
  assert (T : takes_quad (solve (rect h w) (expand_dst m h w)) (rect h w) (expand_dst m h w))
    by (apply G; apply convex_general; assumption).
  set (m' := solve (rect h w) (expand_dst m h w)) in *.
  assert (CC : forall c', In c' (corners (expand_dst m h w)) -> exists c, In c (corners (rect h w)) /\ peq (perspective m' c) c').
  { intros c' I. destruct T as ((_ & T0) & (_ & T1) & (_ & T2) & (_ & T3)).
    clearbody m'. generalize dependent (expand_dst m h w). intros dst C T0 T1 T2 T3 I.
    destruct I as [<-|[<-|[<-|[<-|[]]]]].
    - exists (tl (rect h w)). split; [left; reflexivity|exact T0].
    - exists (tr (rect h w)). split; [right; left; reflexivity|exact T1].
    - exists (br (rect h w)). split; [right; right; left; reflexivity|exact T2].
    - exists (bl (rect h w)). split; [right; right; right; left; reflexivity|exact T3]. }
  split; [|split].
  - intros p P. apply (hull_box m' _ _ p 0 _ 0 _ T CR C).
    + apply plane_in_rect; assumption.
    + apply expand_dst_box.
  - exists (- quad_min fst (map_quad (perspective m) (rect h w))), (- quad_min snd (map_quad (perspective m) (rect h w))).
    intros c I.
    assert (PC : peq (perspective m' c)
       (inject_Z (np_round (fst (perspective m c) - quad_min fst (map_quad (perspective m) (rect h w)))),
        inject_Z (np_round (snd (perspective m c) - quad_min snd (map_quad (perspective m) (rect h w)))))).
    { destruct T as ((_ & T0) & (_ & T1) & (_ & T2) & (_ & T3)).
      clearbody m'. destruct I as [<-|[<-|[<-|[<-|[]]]]]; [exact T0|exact T1|exact T2|exact T3]. }
    destruct PC as (PX & PY). cbn [fst snd] in PX, PY. rewrite PX, PY.
    assert (R : forall q : Q, Qabs (inject_Z (np_round q) - q) <= 1 # 2).
    { intro q. destruct (np_round_spec q) as (R1 & R2 & _). apply Qabs_Qle_condition. split; lra. }
    assert (RW : forall a b, Qabs (inject_Z (np_round (a - b)) - (a + - b)) <= 1 # 2) by (intros a b; apply (R (a - b))).
    split; apply RW.
  - destruct (expand_tight m h w) as ((a & A & A') & (b & B & B') & (c & C1 & C') & (d & D & D')).
    destruct (CC a A) as (a1 & A1 & AX & AY). destruct (CC b B) as (b1 & B1 & BX & BY).
    destruct (CC c C1) as (c1 & C1' & CX & CY). destruct (CC d D) as (d1 & D1 & DX & DY).
    repeat split.
    + exists a1. split; [exact A1|]. rewrite AX. exact A'.
    + exists b1. split; [exact B1|]. rewrite BY. exact B'.
    + exists c1. split; [exact C1'|]. rewrite CX. exact C'.
    + exists d1. split; [exact D1|]. rewrite DY. exact D'.
Qed.

(** ** Invertible matrices, and a warp *)

Lemma takes_invertible : forall m q d, takes_quad m q d -> general_position d -> invertible m.
Proof.
  intros m q d (T0 & T1 & T2 & _) (_ & _ & _ & B) Z.
  apply takes_num in T0, T1, T2. destruct T0 as (W0 & X0 & Y0). destruct T1 as (W1 & X1 & Y1). destruct T2 as (W2 & X2 & Y2).
  set (D := m11 m * (m22 m * m33 m - m23 m * m32 m) - m12 m * (m21 m * m33 m - m23 m * m31 m)
    + m13 m * (m21 m * m32 m - m22 m * m31 m)) in Z.
  assert (E : D * area2 (tl q) (tr q) (br q) ==
     numx m (tl q) * (numy m (tr q) * weight m (br q) - numy m (br q) * weight m (tr q))
     - numx m (tr q) * (numy m (tl q) * weight m (br q) - numy m (br q) * weight m (tl q))
     + numx m (br q) * (numy m (tl q) * weight m (tr q) - numy m (tr q) * weight m (tl q))).
  { unfold D, area2, numx, numy, weight, lin. ring. }
  rewrite X0, X1, X2, Y0, Y1, Y2, Z in E.
  assert (E2 : weight m (tl q) * weight m (tr q) * weight m (br q) * area2 (tl d) (tr d) (br d) == 0).
  { unfold area2. unfold area2 in E. setoid_replace 0 with (0 * ((fst (tr q) - fst (tl q)) * (snd (br q) - snd (tl q)) - (snd (tr q) - snd (tl q)) * (fst (br q) - fst (tl q)))) by ring.
    rewrite E. ring. }
  destruct (Qmult_integral _ _ E2) as [E3|]; [|contradiction].
  destruct (Qmult_integral _ _ E3) as [E4|]; [|contradiction].
  destruct (Qmult_integral _ _ E4); contradiction.
Qed.

Lemma takes_injective : forall m p p' d, invertible m -> takes m p d -> takes m p' d -> peq p p'.
Proof.
  intros m p p' d I T T'. apply takes_num in T, T'. destruct T as (W & X & Y). destruct T' as (W' & X' & Y').
  unfold invertible in I. set (D := m11 m * (m22 m * m33 m - m23 m * m32 m) - m12 m * (m21 m * m33 m - m23 m * m31 m)
    + m13 m * (m21 m * m32 m - m22 m * m31 m)) in I.
  set (w := weight m p) in *. set (w' := weight m p') in *.
  (* v = w' p - w p', in homogeneous coordinates, is taken to 0 *)
  set (vx := w' * fst p - w * fst p'). set (vy := w' * snd p - w * snd p'). set (vz := w' - w).
  assert (R1 : m11 m * vx + m12 m * vy + m13 m * vz == 0).
  { setoid_replace (m11 m * vx + m12 m * vy + m13 m * vz) with (w' * numx m p - w * numx m p')
      by (unfold vx, vy, vz, numx, lin; ring). rewrite X, X'. ring. }
  assert (R2 : m21 m * vx + m22 m * vy + m23 m * vz == 0).
  { setoid_replace (m21 m * vx + m22 m * vy + m23 m * vz) with (w' * numy m p - w * numy m p')
      by (unfold vx, vy, vz, numy, lin; ring). rewrite Y, Y'. ring. }
  assert (R3 : m31 m * vx + m32 m * vy + m33 m * vz == 0).
  { setoid_replace (m31 m * vx + m32 m * vy + m33 m * vz) with (w' * weight m p - w * weight m p')
      by (unfold vx, vy, vz, weight; ring). fold w w'. ring. }
  assert (VX : D * vx == 0).
  { setoid_replace (D * vx) with ((m22 m * m33 m - m23 m * m32 m) * (m11 m * vx + m12 m * vy + m13 m * vz)
      - (m12 m * m33 m - m13 m * m32 m) * (m21 m * vx + m22 m * vy + m23 m * vz)
      + (m12 m * m23 m - m13 m * m22 m) * (m31 m * vx + m32 m * vy + m33 m * vz)) by (unfold D; ring).
    rewrite R1, R2, R3. ring. }
  assert (VY : D * vy == 0).
  { setoid_replace (D * vy) with (- (m21 m * m33 m - m23 m * m31 m) * (m11 m * vx + m12 m * vy + m13 m * vz)
      + (m11 m * m33 m - m13 m * m31 m) * (m21 m * vx + m22 m * vy + m23 m * vz)
      - (m11 m * m23 m - m13 m * m21 m) * (m31 m * vx + m32 m * vy + m33 m * vz)) by (unfold D; ring).
    rewrite R1, R2, R3. ring. }
  assert (VZ : D * vz == 0).
  { setoid_replace (D * vz) with ((m21 m * m32 m - m22 m * m31 m) * (m11 m * vx + m12 m * vy + m13 m * vz)
      - (m11 m * m32 m - m12 m * m31 m) * (m21 m * vx + m22 m * vy + m23 m * vz)
      + (m11 m * m22 m - m12 m * m21 m) * (m31 m * vx + m32 m * vy + m33 m * vz)) by (unfold D; ring).
    rewrite R1, R2, R3. ring. }
  assert (Z : forall v, D * v == 0 -> v == 0) by (intros v E; destruct (Qmult_integral _ _ E); [contradiction|assumption]).
  apply Z in VX, VY, VZ. unfold vz in VZ.
  assert (WW : w' == w) by lra. unfold vx in VX. unfold vy in VY. rewrite WW in VX, VY.
  assert (G : forall a b : Q, w * a - w * b == 0 -> a == b).
  { intros a b E. assert (E2 : w * a == w * b) by lra. apply Qmult_inj_l in E2; assumption. }
  split; apply G; assumption.
Qed.

(** look the pixel up *)
Definition takesb (m : mat3) (p d : point) : bool :=
  negb (qeqb (weight m p) 0) && (qeqb (fst (perspective m p)) (fst d) && qeqb (snd (perspective m p)) (snd d)).
Lemma takesb_iff : forall m p d, takesb m p d = true <-> takes m p d.
Proof.
  intros m p d. unfold takesb, takes, peq. rewrite !andb_true_iff, negb_true_iff, !qeqb_iff.
  destruct (qeqb (weight m p) 0) eqn:E.
  - apply qeqb_iff in E. split; [intros (A & _); discriminate|]. intros (A & _). contradiction.
  - split; [|tauto]. intros (_ & B). split; [|exact B]. intro Z. apply qeqb_iff in Z. congruence.
Qed.
Definition zrange (n : Z) : list Z := map Z.of_nat (seq 0 (Z.to_nat n)).
Lemma zrange_in : forall n i, In i (zrange n) <-> (0 <= i < n)%Z.
Proof.
  intros n i. unfold zrange. rewrite in_map_iff. split.
  - intros (k & <- & K). apply in_seq in K. lia.
  - intro H. exists (Z.to_nat i). split; [lia|]. apply in_seq. lia.
Qed.
Definition ref_warp (A : Type) (bg : A) : warper A := fun a m w h =>
  mkArr h w (fun y' x' =>
    match find (fun yx => takesb m (inject_Z (snd yx), inject_Z (fst yx)) (inject_Z x', inject_Z y'))
               (list_prod (zrange (ah a)) (zrange (aw a))) with
    | Some yx => apx a (fst yx) (snd yx)
    | None => bg
    end).
Lemma ref_warp_good : forall A (bg : A), good_warp (ref_warp A bg).
Proof.
  intros A bg a m w h. split; [reflexivity|]. split; [reflexivity|].
  intros y x y' x' Y X _ _ I T. unfold ref_warp. cbn [apx].
  destruct (find _ _) as [[y2 x2]|] eqn:F.
  - apply find_some in F. destruct F as (_ & F). apply takesb_iff in F. cbn [fst snd] in *.
    destruct (takes_injective _ _ _ _ I T F) as (E1 & E2). cbn [fst snd] in E1, E2.
    assert (J : forall a b, inject_Z a == inject_Z b -> a = b).
    { intros u v E. apply (inject_Z_injective u v). exact E. }
    rewrite (J _ _ E1), (J _ _ E2). reflexivity.
  - exfalso. assert (B : takesb m (inject_Z x, inject_Z y) (inject_Z x', inject_Z y') = true) by (apply takesb_iff; exact T).
    assert (C := find_none _ _ F (y, x)). cbn [fst snd] in C. rewrite C in B; [discriminate|].
    apply in_prod; apply zrange_in; assumption.
Qed.
