From Coq Require Import Lia Lqa.
From Verif Require Import Prelude PreludeFacts GeoModel GeoSpec GeoProofs SizeModel SizeSpec SizeProofs
  ExtractModel ExtractSpec.

Lemma repeat_from_nth : forall {A} (v : A) n l, length l = n ->
  (forall i, (i < n)%nat -> nth_error l i = Some v) -> l = repeat v n.
Proof.
  intros A v n. induction n as [|n IH]; intros [|x l] L H; try discriminate; [reflexivity|].
  cbn. f_equal.
  - specialize (H 0%nat ltac:(lia)). cbn in H. congruence.
  - apply IH; [cbn in L; lia|]. intros i Hi. exact (H (S i) ltac:(lia)).
Qed.

Lemma pad_zero : forall nc a p, nonneg p -> wf_arr a -> has_channels nc a ->
  exists r, pad 0 255 nc a p PMConstant (CvScalar 0) = Ok r /\
    ah r = ah a + t_top p + t_bottom p /\ aw r = aw a + t_left p + t_right p /\
    forall y x, 0 <= y < ah r -> 0 <= x < aw r ->
      apx r y x = on_zero_plane nc a (y - t_top p) (x - t_left p).
Proof.
  intros nc a p Np W Hc.
  destruct (pad_spec 0 255 nc a p PMConstant (CvScalar 0) ltac:(lia) Np W Hc I) as (r & E & H1 & H2 & H3 & H4).
  exists r. split; [exact E|]. split; [exact H1|]. split; [exact H2|]. intros y x Hy Hx.
  unfold on_zero_plane.
  destruct ((0 <=? y - t_top p) && (y - t_top p <? ah a) && (0 <=? x - t_left p) && (x - t_left p <? aw a)) eqn:C.
  - apply Bool.andb_true_iff in C as [C C4]. apply Bool.andb_true_iff in C as [C C3].
    apply Bool.andb_true_iff in C as [C1 C2].
    rewrite <- (H3 (y - t_top p) (x - t_left p)) by lia. f_equal; lia.
  - specialize (H4 y x Hy Hx). cbn [orb] in H4.
    destruct H4 as [L N].
    { intros [K1 K2]. apply Bool.andb_false_iff in C as [C|C]; [apply Bool.andb_false_iff in C as [C|C]; [apply Bool.andb_false_iff in C as [C|C]|]|]; lia. }
    apply repeat_from_nth; [exact L|]. intros i Hi. exact (N i 0 Hi eq_refl).
Qed.

Lemma inject_pos_inv : forall z, (0 < inject_Z z)%Q -> 0 < z.
Proof. intros z H. change 0%Q with (inject_Z 0) in H. rewrite <- Zlt_Qlt in H. exact H. Qed.

Lemma axis_arith : forall s e n m p q st N,
  0 <= n -> s <= e -> 0 <= m -> p <= m -> p = Z.max 0 (- s) -> q = Z.max 0 (e - n) -> st = s + p ->
  N = n + p + Z.min q m ->
  Z.max 0 (Z.min (e + p) N - Z.min st N) = Z.max 0 (Z.min e (n + m) - s) /\
  forall y, 0 <= y < Z.max 0 (Z.min (e + p) N - Z.min st N) ->
    0 <= Z.min st N + y < N /\ Z.min st N + y - p = s + y.
Proof.
  intros s e n m p q st N Hn Hs Hm Hp Ep Eq Est EN. split; [lia|]. intros y Hy. lia.
Qed.

Lemma extract_padded_spec : forall nc a ax1 ay1 ax2 ay2 pm,
  wf_arr a -> has_channels nc a -> ax1 <= ax2 -> ay1 <= ay2 ->
  match pm with None => True | Some m => 0 <= m /\ - m <= ax1 /\ - m <= ay1 end ->
  exists r, extract_padded nc a ax1 ay1 ax2 ay2 pm = Ok r /\
    cut_out nc a ax1 ay1
      (match pm with None => ax2 | Some m => Z.min ax2 (aw a + m) end)
      (match pm with None => ay2 | Some m => Z.min ay2 (ah a + m) end) r.
Proof.
  intros nc a ax1 ay1 ax2 ay2 pm [Wh Ww] Hc Hx Hy Hm. unfold extract_padded.
  set (pl := if ax1 <? 0 then Z.abs ax1 else 0).
  set (pt := if ay1 <? 0 then Z.abs ay1 else 0).
  set (pr := if aw a + pl <=? ax2 + pl then ax2 + pl - (aw a + pl) else 0).
  set (pb := if ah a + pt <=? ay2 + pt then ay2 + pt - (ah a + pt) else 0).
  set (sx := if ax1 <? 0 then 0 else ax1). set (sy := if ay1 <? 0 then 0 else ay1).
  assert (Epl : pl = Z.max 0 (- ax1)) by (unfold pl; destruct (ax1 <? 0) eqn:?; lia).
  assert (Ept : pt = Z.max 0 (- ay1)) by (unfold pt; destruct (ay1 <? 0) eqn:?; lia).
  assert (Epr : pr = Z.max 0 (ax2 - aw a)) by (unfold pr; destruct (aw a + pl <=? ax2 + pl) eqn:?; lia).
  assert (Epb : pb = Z.max 0 (ay2 - ah a)) by (unfold pb; destruct (ah a + pt <=? ay2 + pt) eqn:?; lia).
  assert (Esx : sx = ax1 + pl) by (unfold sx; destruct (ax1 <? 0) eqn:?; lia).
  assert (Esy : sy = ay1 + pt) by (unfold sy; destruct (ay1 <? 0) eqn:?; lia).
  clearbody pl pt pr pb sx sy.
  set (m := match pm with None => Z.max (Z.max pt pr) (Z.max pb pl) | Some m => m end).
  assert (Hm' : 0 <= m /\ pl <= m /\ pt <= m) by (unfold m; destruct pm; lia).
  assert (Gx : Z.min pr m = match pm with None => pr | Some m => Z.min pr m end) by (unfold m; destruct pm; lia).
  assert (Gy : Z.min pb m = match pm with None => pb | Some m => Z.min pb m end) by (unfold m; destruct pm; lia).
  assert (exists img, (if (0 <? pt) || (0 <? pr) || (0 <? pb) || (0 <? pl)
     then pad 0 255 nc a (mkTrbl (Z.min pt m) (Z.min pr m) (Z.min pb m) (Z.min pl m)) PMConstant (CvScalar 0)
     else Ok a) = Ok img /\ ah img = ah a + pt + Z.min pb m /\ aw img = aw a + pl + Z.min pr m /\
     forall y x, 0 <= y < ah img -> 0 <= x < aw img -> apx img y x = on_zero_plane nc a (y - pt) (x - pl)) as (img & Ei & Ih & Iw & Ip).
  { destruct ((0 <? pt) || (0 <? pr) || (0 <? pb) || (0 <? pl)) eqn:C.
    - destruct (pad_zero nc a (mkTrbl (Z.min pt m) (Z.min pr m) (Z.min pb m) (Z.min pl m))) as (r & E & A1 & A2 & A3).
      { unfold nonneg. cbn [t_top t_right t_bottom t_left]. lia. }
      { split; assumption. } { assumption. }
      cbn [t_top t_right t_bottom t_left] in *. exists r. split; [exact E|]. split; [lia|]. split; [lia|].
      intros y x Y X. rewrite A3 by assumption. f_equal; lia.
    - apply Bool.orb_false_iff in C as [C C4]. apply Bool.orb_false_iff in C as [C C3].
      apply Bool.orb_false_iff in C as [C1 C2].
      exists a. split; [reflexivity|]. split; [lia|]. split; [lia|]. intros y x Y X.
      unfold on_zero_plane. replace (y - pt) with y by lia. replace (x - pl) with x by lia.
      replace ((0 <=? y) && (y <? ah a) && (0 <=? x) && (x <? aw a)) with true; [reflexivity|].
      symmetry. rewrite !Bool.andb_true_iff. lia. }
  rewrite Ei. cbn [bind]. eexists. split; [reflexivity|].
  unfold slice2, cut_out. cbn [ah aw apx].
  assert (Bx1 : py_slice_bound (aw img) sx = Z.min sx (aw img)) by (unfold py_slice_bound; destruct (sx <? 0) eqn:?; lia).
  assert (By1 : py_slice_bound (ah img) sy = Z.min sy (ah img)) by (unfold py_slice_bound; destruct (sy <? 0) eqn:?; lia).
  assert (Bx2 : py_slice_bound (aw img) (ax2 + pl) = Z.min (ax2 + pl) (aw img)) by (unfold py_slice_bound; destruct (ax2 + pl <? 0) eqn:?; lia).
  assert (By2 : py_slice_bound (ah img) (ay2 + pt) = Z.min (ay2 + pt) (ah img)) by (unfold py_slice_bound; destruct (ay2 + pt <? 0) eqn:?; lia).
  rewrite Bx1, By1, Bx2, By2.
  assert (Ex : match pm with None => ax2 | Some m => Z.min ax2 (aw a + m) end = Z.min ax2 (aw a + m)).
  { clear - Epr Hm' Ww. unfold m in *. destruct pm; [reflexivity|]. lia. }
  assert (Ey : match pm with None => ay2 | Some m => Z.min ay2 (ah a + m) end = Z.min ay2 (ah a + m)).
  { clear - Epb Hm' Wh. unfold m in *. destruct pm; [reflexivity|]. lia. }
  rewrite Ex, Ey. clear Ex Ey Bx1 By1 Bx2 By2 Gx Gy Hm. clearbody m.
  destruct (axis_arith ax1 ax2 (aw a) m pl pr sx (aw img)) as [Ax Px]; try tauto.
  destruct (axis_arith ay1 ay2 (ah a) m pt pb sy (ah img)) as [Ay Py]; try tauto.
  split; [exact Ay|]. split; [exact Ax|]. intros y x Y X.
  destruct (Px x X) as [Px1 Px2]. destruct (Py y Y) as [Py1 Py2].
  rewrite Ip by assumption. f_equal; assumption.
Qed.

Lemma corners_prevent : forall (p : bool) s e, s <= e ->
  (if p && (Z.abs (e - s) <? 1) then s + 1 else e) = far_end p s e.
Proof. intros [|] s e H; unfold far_end; cbn [andb]; destruct (Z.abs (e - s) <? 1) eqn:?; lia. Qed.

Lemma within_iff : forall b h w, bb_is_fully_within_image b (h, w) = true <-> inside_image b h w.
Proof.
  intros b h w. unfold bb_is_fully_within_image, inside_image. rewrite !Bool.andb_true_iff.
  rewrite !qleb_iff, !qltb_iff. tauto.
Qed.

Lemma round_lt_bound : forall q n, (0 <= q)%Q -> (q < inject_Z n)%Q -> 0 <= np_round q <= n.
Proof.
  intros q n H0 H1. pose proof (np_round_mono 0 q H0) as A. pose proof (np_round_mono q (inject_Z n) (Qlt_le_weak _ _ H1)) as B.
  change 0%Q with (inject_Z 0) in A. rewrite np_round_Z in A, B. lia.
Qed.

(** General form: corners after rounding; inside the image the far border is
    moved in by one. *)
Definition rounded (b : bbox) (h w : Z) (q : Q) (n : Z) : Z :=
  if bb_is_fully_within_image b (h, w) then Z.min (np_round q) (n - 1) else np_round q.

Lemma extract_corners_spec : forall b h w p, proper b ->
  extract_corners b h w p =
  ((rounded b h w (x1 b) w, rounded b h w (y1 b) h),
   (far_end p (rounded b h w (x1 b) w) (rounded b h w (x2 b) w),
    far_end p (rounded b h w (y1 b) h) (rounded b h w (y2 b) h))) /\
  rounded b h w (x1 b) w <= rounded b h w (x2 b) w /\ rounded b h w (y1 b) h <= rounded b h w (y2 b) h.
Proof.
  intros b h w p [Px Py].
  pose proof (np_round_mono _ _ Px) as Mx. pose proof (np_round_mono _ _ Py) as My.
  unfold extract_corners, rounded. destruct (bb_is_fully_within_image b (h, w)) eqn:E.
  - apply within_iff in E. destruct E as (A & B & C & D).
    pose proof (round_lt_bound (x1 b) w A ltac:(lra)) as R1.
    pose proof (round_lt_bound (x2 b) w ltac:(lra) B) as R2.
    pose proof (round_lt_bound (y1 b) h C ltac:(lra)) as R3.
    pose proof (round_lt_bound (y2 b) h ltac:(lra) D) as R4.
    assert (0 < w) by (apply inject_pos_inv; lra). assert (0 < h) by (apply inject_pos_inv; lra).
    unfold x1_int, x2_int, y1_int, y2_int, zclip.
    rewrite !Z.max_l by lia. rewrite !corners_prevent by lia. split; [reflexivity|lia].
  - unfold x1_int, x2_int, y1_int, y2_int. rewrite !corners_prevent by lia. split; [reflexivity|lia].
Qed.

Lemma far_end_ge : forall p s e, s <= e -> s <= far_end p s e.
Proof. intros [|] s e H; unfold far_end; lia. Qed.

Lemma extract_general : forall nc a b pm p,
  wf_arr a -> has_channels nc a -> proper b ->
  let X1 := rounded b (ah a) (aw a) (x1 b) (aw a) in
  let Y1 := rounded b (ah a) (aw a) (y1 b) (ah a) in
  let X2 := far_end p X1 (rounded b (ah a) (aw a) (x2 b) (aw a)) in
  let Y2 := far_end p Y1 (rounded b (ah a) (aw a) (y2 b) (ah a)) in
  match pm with None => True | Some m => 0 <= m /\ - m <= X1 /\ - m <= Y1 end ->
  exists r, extract_from_image nc a b true pm p = Ok r /\
    cut_out nc a X1 Y1
      (match pm with None => X2 | Some m => Z.min X2 (aw a + m) end)
      (match pm with None => Y2 | Some m => Z.min Y2 (ah a + m) end) r.
Proof.
  intros nc a b pm p W Hc P X1 Y1 X2 Y2 Hm. unfold extract_from_image.
  destruct (extract_corners_spec b (ah a) (aw a) p P) as (E & Hx & Hy). rewrite E. fold X1 Y1 X2 Y2.
  apply extract_padded_spec; auto; apply far_end_ge; assumption.
Qed.

(** Exact rounding unless a fully contained box rounds to the far border. *)
Lemma extract_exact : forall nc a b pm p,
  wf_arr a -> has_channels nc a -> proper b ->
  (inside_image b (ah a) (aw a) -> np_round (x2 b) < aw a /\ np_round (y2 b) < ah a) ->
  match pm with None => True | Some m => 0 <= m /\ - m <= np_round (x1 b) /\ - m <= np_round (y1 b) end ->
  exists r, extract_from_image nc a b true pm p = Ok r /\
    let X2 := far_end p (np_round (x1 b)) (np_round (x2 b)) in
    let Y2 := far_end p (np_round (y1 b)) (np_round (y2 b)) in
    cut_out nc a (np_round (x1 b)) (np_round (y1 b))
      (match pm with None => X2 | Some m => Z.min X2 (aw a + m) end)
      (match pm with None => Y2 | Some m => Z.min Y2 (ah a + m) end) r.
Proof.
  intros nc a b pm p W Hc P Hin Hm.
  pose proof (np_round_mono _ _ (proj1 P)) as Mx. pose proof (np_round_mono _ _ (proj2 P)) as My.
  assert (K : rounded b (ah a) (aw a) (x1 b) (aw a) = np_round (x1 b) /\
              rounded b (ah a) (aw a) (y1 b) (ah a) = np_round (y1 b) /\
              rounded b (ah a) (aw a) (x2 b) (aw a) = np_round (x2 b) /\
              rounded b (ah a) (aw a) (y2 b) (ah a) = np_round (y2 b)).
  { unfold rounded. destruct (bb_is_fully_within_image b (ah a, aw a)) eqn:E; [|auto].
    apply within_iff in E. apply Hin in E. lia. }
  destruct K as (K1 & K2 & K3 & K4).
  destruct (extract_general nc a b pm p W Hc P) as (r & E & C).
  { rewrite K1, K2. exact Hm. }
  exists r. split; [exact E|]. rewrite K1, K2, K3, K4 in C. exact C.
Qed.

(** A box inside the image that rounds to the far border loses the last
    row/column; nothing else changes. *)
Lemma extract_inside : forall nc a b pm p,
  wf_arr a -> has_channels nc a -> proper b -> inside_image b (ah a) (aw a) ->
  match pm with None => True | Some m => 0 <= m end ->
  exists r, extract_from_image nc a b true pm p = Ok r /\
    is_window a r (mkTrbl (Z.min (np_round (y1 b)) (ah a - 1))
       (aw a - far_end p (Z.min (np_round (x1 b)) (aw a - 1)) (Z.min (np_round (x2 b)) (aw a - 1)))
       (ah a - far_end p (Z.min (np_round (y1 b)) (ah a - 1)) (Z.min (np_round (y2 b)) (ah a - 1)))
       (Z.min (np_round (x1 b)) (aw a - 1))).
Proof.
  intros nc a b pm p W Hc P Hin Hm.
  pose proof (np_round_mono _ _ (proj1 P)) as Mx. pose proof (np_round_mono _ _ (proj2 P)) as My.
  assert (Hin' := Hin). destruct Hin' as (A & B & C & D). destruct P as [Px Py].
  pose proof (round_lt_bound (x1 b) (aw a) A ltac:(lra)) as R1.
  pose proof (round_lt_bound (x2 b) (aw a) ltac:(lra) B) as R2.
  pose proof (round_lt_bound (y1 b) (ah a) C ltac:(lra)) as R3.
  pose proof (round_lt_bound (y2 b) (ah a) ltac:(lra) D) as R4.
  assert (0 < aw a) by (apply inject_pos_inv; lra). assert (0 < ah a) by (apply inject_pos_inv; lra).
  assert (E : bb_is_fully_within_image b (ah a, aw a) = true) by (apply within_iff; exact Hin).
  pose proof (extract_general nc a b pm p W Hc (conj Px Py)) as G.
  cbn zeta in G. unfold rounded in G. rewrite E in G.
  destruct G as (r & Er & G1 & G2 & G3).
  { destruct pm; [|exact I]. lia. }
  exists r. split; [exact Er|].
  assert (Fx : forall s e n, 0 < n -> s <= n - 1 -> e <= n - 1 -> s <= e -> s <= far_end p s e <= n) by (intros s e n; unfold far_end; destruct p; lia).
  pose proof (Fx (Z.min (np_round (x1 b)) (aw a - 1)) (Z.min (np_round (x2 b)) (aw a - 1)) (aw a) ltac:(lia) ltac:(lia) ltac:(lia) ltac:(lia)) as F1.
  pose proof (Fx (Z.min (np_round (y1 b)) (ah a - 1)) (Z.min (np_round (y2 b)) (ah a - 1)) (ah a) ltac:(lia) ltac:(lia) ltac:(lia) ltac:(lia)) as F2.
  set (fx := far_end p (Z.min (np_round (x1 b)) (aw a - 1)) _) in *.
  set (fy := far_end p (Z.min (np_round (y1 b)) (ah a - 1)) _) in *.
  clearbody fx fy. unfold is_window. cbn [t_top t_right t_bottom t_left].
  assert (M1 : match pm with None => fx | Some m => Z.min fx (aw a + m) end = fx) by (destruct pm; lia).
  assert (M2 : match pm with None => fy | Some m => Z.min fy (ah a + m) end = fy) by (destruct pm; lia).
  rewrite M1, M2 in *. split; [lia|]. split; [lia|]. intros y x Hy Hx. rewrite G3 by assumption.
  unfold on_zero_plane.
  replace (_ && _ && _ && _) with true by (symmetry; rewrite !Bool.andb_true_iff; lia). f_equal; lia.
Qed.

(** pad=False. *)
Lemma extract_unpadded_inside : forall nc a b p,
  wf_arr a -> proper b ->
  (inside_image b (ah a) (aw a) -> np_round (x2 b) < aw a /\ np_round (y2 b) < ah a) ->
  let X1 := np_round (x1 b) in let Y1 := np_round (y1 b) in
  let X2 := far_end p X1 (np_round (x2 b)) in let Y2 := far_end p Y1 (np_round (y2 b)) in
  0 <= X1 < X2 -> X2 <= aw a -> 0 <= Y1 < Y2 -> Y2 <= ah a ->
  exists r, extract_from_image nc a b false None p = Ok r /\
    is_window a r (mkTrbl Y1 (aw a - X2) (ah a - Y2) X1).
Proof.
  intros nc a b p W P Hin X1 Y1 X2 Y2 HX HX2 HY HY2.
  pose proof (np_round_mono _ _ (proj1 P)) as Mx. pose proof (np_round_mono _ _ (proj2 P)) as My.
  assert (K : rounded b (ah a) (aw a) (x1 b) (aw a) = X1 /\
              rounded b (ah a) (aw a) (y1 b) (ah a) = Y1 /\
              rounded b (ah a) (aw a) (x2 b) (aw a) = np_round (x2 b) /\
              rounded b (ah a) (aw a) (y2 b) (ah a) = np_round (y2 b)).
  { unfold rounded. destruct (bb_is_fully_within_image b (ah a, aw a)) eqn:E; [|auto].
    apply within_iff in E. apply Hin in E. unfold X1, Y1. lia. }
  destruct K as (K1 & K2 & K3 & K4). unfold extract_from_image.
  destruct (extract_corners_spec b (ah a) (aw a) p P) as (E & _ & _). rewrite E, K1, K2, K3, K4. fold X2 Y2.
  eexists. split; [reflexivity|]. unfold extract_unpadded.
  replace (tuple_leb [0; 0; 0; 0] [X1; Y1; X2; Y2]) with true.
  2:{ symmetry. cbn. destruct X1 as [|q|q] eqn:?; try reflexivity; [|lia].
      destruct Y1 as [|q|q] eqn:?; try reflexivity; [|lia].
      destruct X2 as [|q|q] eqn:?; try reflexivity; lia. }
  replace (tuple_ltb [X1; Y1; X2; Y2] [aw a; ah a; aw a; ah a]) with true.
  2:{ symmetry. cbn [tuple_ltb]. destruct (X1 =? aw a) eqn:?; lia. }
  replace (0 <? Y2 - Y1) with true by lia. replace (0 <? X2 - X1) with true by lia. cbn [andb].
  clearbody X1 Y1 X2 Y2.
  unfold is_window, slice2. cbn [ah aw apx t_top t_right t_bottom t_left].
  rewrite !py_slice_bound_in by lia. split; [lia|]. split; [lia|]. intros y x Hy Hx. f_equal; lia.
Qed.

Lemma extract_unpadded_left_right : forall nc a b p,
  wf_arr a -> proper b -> (np_round (x1 b) < 0 \/ aw a < np_round (x1 b)) ->
  exists r, extract_from_image nc a b false None p = Ok r /\ all_zero nc r /\
    ah r = (if p then 1 else 0) /\ aw r = (if p then 1 else 0).
Proof.
  intros nc a b p W P HX.
  assert (K : rounded b (ah a) (aw a) (x1 b) (aw a) = np_round (x1 b)).
  { unfold rounded. destruct (bb_is_fully_within_image b (ah a, aw a)) eqn:E; [|auto].
    apply within_iff in E. destruct E as (A & B & C & D).
    pose proof (round_lt_bound (x1 b) (aw a) A). destruct P. assert (x1 b < inject_Z (aw a))%Q by lra. intuition lia. }
  unfold extract_from_image.
  destruct (extract_corners_spec b (ah a) (aw a) p P) as (E & _ & _). rewrite E, K.
  eexists. split; [reflexivity|]. unfold extract_unpadded.
  set (X1 := np_round (x1 b)) in *. clearbody X1.
  match goal with |- context [tuple_leb ?l ?m && tuple_ltb ?m ?n] => replace (tuple_leb l m && tuple_ltb m n) with false end.
  2:{ symmetry. apply Bool.andb_false_iff. destruct HX as [HX|HX].
      - left. cbn [tuple_leb]. destruct (0 =? X1) eqn:?; lia.
      - right. cbn [tuple_ltb]. destruct (X1 =? aw a) eqn:?; lia. }
  cbn [andb]. split; [|split; reflexivity]. intros y x _ _. reflexivity.
Qed.
