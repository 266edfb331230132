(** Proofs about debug images. *)
From Coq Require Import List ZArith QArith Qround Bool Lia Lqa.
From Verif Require Import Prelude PreludeFacts DtyModel CtrModel CorModel CorSpec CorProofs.
From Verif Require ParSpec ParProofs RszProofs.
Import ListNotations.
Open Scope Z_scope.

Lemma half_up : forall p, Qceiling (inject_Z p / 2) = p - p / 2.
Proof.
  intros p. unfold Qceiling. assert (E : Qfloor (- (inject_Z p / 2)) = (- p) / 2).
  { unfold Qfloor, Qopp, Qdiv, Qmult, Qinv, inject_Z. cbn [Qnum Qden]. rewrite Z.mul_1_r. reflexivity. }
  rewrite E. pose proof (Z.div_mod p 2 ltac:(lia)). pose proof (Z.mod_pos_bound p 2 ltac:(lia)).
  pose proof (Z.div_mod (- p) 2 ltac:(lia)). pose proof (Z.mod_pos_bound (- p) 2 ltac:(lia)). lia.
Qed.
Lemma round_Z : forall q z, (q == inject_Z z)%Q -> np_round q = z.
Proof.
  intros q z E. pose proof (ParProofs.np_round_nearest q) as N. unfold ParSpec.nearest in N.
  assert (N' : (Qabs.Qabs (inject_Z z - inject_Z (np_round q)) <= 1 # 2)%Q) by (setoid_rewrite <- E; exact N). clear N. rename N' into N. assert (A : (-(1 # 2) <= inject_Z (z - np_round q) <= 1 # 2)%Q).
  { unfold Z.sub. rewrite inject_Z_plus, inject_Z_opp. apply Qabs.Qabs_Qle_condition. exact N. }
  destruct A as [A B]. assert (L : (inject_Z (-1) < inject_Z (z - np_round q) < inject_Z 1)%Q) by (change (inject_Z (-1)) with (-1)%Q; change (inject_Z 1) with 1%Q; split; Lqa.lra).
  destruct L as [L1 L2]. rewrite <- Zlt_Qlt in L1, L2. lia.
Qed.
Lemma resizepad_fits : forall height width h w hr wr t r b l, resizepad (height, width) (h, w) = Ok ((hr, wr), (t, r, b, l)) ->
  1 <= hr /\ 1 <= wr /\ t + hr + b = height /\ l + wr + r = width /\ 0 <= t <= b /\ b <= t + 1 /\ 0 <= l <= r /\ r <= l + 1.
Proof.
  intros height width h w hr wr t r b l H. unfold resizepad in H.
  destruct (h =? 0); [discriminate|]. cbv zeta in H. destruct (_ && _); [discriminate|].
  destruct (if height - h <? width - w then _ else _) as [a c]. rewrite !half_up in H.
  set (hr0 := Z.max (np_round a) 1) in *. set (wr0 := Z.max (np_round c) 1) in *.
  destruct (_ || _) eqn:E in H; [discriminate|]. injection H as <- <- <- <- <- <-.
  rewrite !orb_false_iff, !Z.ltb_ge in E. destruct E as [[[E1 E2] E3] E4].
  pose proof (Z.div_mod (height - hr0) 2 ltac:(lia)). pose proof (Z.mod_pos_bound (height - hr0) 2 ltac:(lia)).
  pose proof (Z.div_mod (width - wr0) 2 ltac:(lia)). pose proof (Z.mod_pos_bound (width - wr0) 2 ltac:(lia)).
  repeat split; try lia.
Qed.
Lemma resizepad_row : forall h width w, 0 < h -> 0 < w <= width ->
  exists r l, resizepad (h, width) (h, w) = Ok ((h, w), (0, r, 0, l)) /\ 0 <= l <= r /\ r <= l + 1 /\ l + w + r = width.
Proof.
  intros h width w H W. unfold resizepad. destruct (Z.eqb_spec h 0); [lia|]. cbv zeta.
  destruct (Z.eqb_spec w 0) as [|N]; [lia|]. rewrite andb_false_r. rewrite Z.sub_diag.
  assert (NH : ~ (inject_Z h == 0)%Q) by (change 0%Q with (inject_Z 0); intros X; apply (proj1 (inject_Z_injective _ _)) in X; lia).
  assert (NW : ~ (inject_Z w == 0)%Q) by (change 0%Q with (inject_Z 0); intros X; apply (proj1 (inject_Z_injective _ _)) in X; lia).
  assert (E : exists a c, (if 0 <? width - w then (inject_Z h, inject_Z h * (inject_Z w / inject_Z h))%Q else (inject_Z width / (inject_Z w / inject_Z h), inject_Z width)%Q) = (a, c) /\ np_round a = h /\ np_round c = w).
  { destruct (Z.ltb_spec 0 (width - w)).
    - eexists. eexists. split; [reflexivity|]. split; [apply round_Z; reflexivity|apply round_Z; field; exact NH].
    - assert (width = w) as -> by lia. eexists. eexists. split; [reflexivity|]. split; [apply round_Z; field; split; assumption|apply round_Z; reflexivity]. }
  destruct E as (a & c & -> & -> & ->). rewrite !Z.max_l by lia. rewrite !half_up, Z.sub_diag. change (0 / 2) with 0. change (0 - 0) with 0.
  pose proof (Z.div_mod (width - w) 2 ltac:(lia)). pose proof (Z.mod_pos_bound (width - w) 2 ltac:(lia)).
  rewrite !(proj2 (Z.ltb_ge _ _)) by lia. cbn [orb]. eexists. eexists. split; [reflexivity|]. lia.
Qed.

(** * Values *)
Lemma py_int_floor : forall q, (0 <= q)%Q -> py_int q = Qfloor q.
Proof.
  intros q H. destruct (ParProofs.py_int_truncation q) as [(_ & A & B)|(N & _)]; [|Lqa.lra].
  pose proof (Qfloor_le q). pose proof (Qlt_floor q).
  assert (X : (inject_Z (py_int q) < inject_Z (Qfloor q + 1))%Q) by Lqa.lra.
  assert (Y : (inject_Z (Qfloor q) < inject_Z (py_int q + 1))%Q) by (rewrite inject_Z_plus; change (inject_Z 1) with 1%Q; Lqa.lra).
  rewrite <- Zlt_Qlt in X, Y. lia.
Qed.
Lemma shown_byte_unit : forall q, value_in 0 255 (inject_Z (py_int (qclip q 0 1 * 255))).
Proof.
  intros q. pose proof (qclip_in q 0 1 ltac:(Lqa.lra)) as [A B]. eexists. split; [reflexivity|].
  rewrite py_int_floor by Lqa.lra. set (x := (qclip q 0 1 * 255)%Q).
  assert (X : (0 <= x <= 255)%Q) by (unfold x; split; Lqa.lra). clearbody x.
  pose proof (Qfloor_le x) as L. pose proof (Qlt_floor x) as U. split.
  - assert (Y : (inject_Z 0 < inject_Z (Qfloor x + 1))%Q) by (change (inject_Z 0) with 0%Q; Lqa.lra). rewrite <- Zlt_Qlt in Y. lia.
  - assert (Y : (inject_Z (Qfloor x) <= inject_Z 255)%Q) by (change (inject_Z 255) with 255%Q; Lqa.lra). rewrite <- Zle_Qle in Y. lia.
Qed.
Lemma shown_byte : forall d v, (d = Bool -> value_in 0 1 v) -> value_in 0 255 (shown d v).
Proof.
  intros d v H. destruct d; unfold shown; cbn [kind_bits]; try apply shown_byte_unit.
  destruct (H eq_refl) as (z & E & L). exists (z * 255). split; [rewrite E, inject_Z_mult; reflexivity|lia].
Qed.
Lemma shown_uint8 : forall v, value_in 0 255 v -> (shown U8 v == v)%Q.
Proof.
  intros v (z & E & L). unfold shown. cbn [kind_bits]. change (inject_Z (2 ^ 8 - 1)) with 255%Q.
  assert (C : (qclip (v / 255) 0 1 * 255 == inject_Z z)%Q).
  { rewrite qclip_id; [rewrite E; field|rewrite E; apply Qle_shift_div_l; [reflexivity|]|rewrite E; apply Qle_shift_div_r; [reflexivity|]].
    - rewrite Qmult_0_l. change 0%Q with (inject_Z 0). rewrite <- Zle_Qle. lia.
    - rewrite Qmult_1_l. change 255%Q with (inject_Z 255). rewrite <- Zle_Qle. lia. }
  transitivity (inject_Z z); [|symmetry; exact E]. apply (proj2 (inject_Z_injective _ _)). apply ParProofs.py_int_eq. exact C.
Qed.
Lemma qclip_low : forall q, (q <= 0)%Q -> (qclip q 0 1 == 0)%Q.
Proof. intros q H. unfold qclip. qminmax; Lqa.lra. Qed.
Lemma shown_signed : forall d b v, kind_bits d = (KI, b) -> value_in (- 2 ^ (b - 1)) (2 ^ (b - 1) - 1) v -> (shown d v == 0)%Q.
Proof.
  intros d b v K (z & E & L). unfold shown. rewrite K.
  assert (B : 0 < 2 ^ (b - 1) /\ 0 < 2 ^ b - 1) by (destruct d; try discriminate K; injection K as <-; vm_compute; split; reflexivity).
  transitivity (inject_Z 0); [|reflexivity]. apply (proj2 (inject_Z_injective _ _)). apply ParProofs.py_int_eq.
  rewrite qclip_low; [reflexivity|].
  rewrite E. assert (P : (0 < inject_Z (2 ^ b - 1))%Q) by (change 0%Q with (inject_Z 0); rewrite <- Zlt_Qlt; lia).
  apply Qle_shift_div_r; [exact P|]. rewrite Qmult_0_l, <- inject_Z_plus. change 0%Q with (inject_Z 0). rewrite <- Zle_Qle. lia.
Qed.
Lemma shown_mono : forall d b a v, kind_bits d = (KU, b) \/ kind_bits d = (KF, b) -> (a <= v)%Q -> (shown d a <= shown d v)%Q.
Proof.
  intros d b a v K L.
  assert (M : forall x y, (x <= y)%Q -> (inject_Z (py_int (qclip x 0 1 * 255)) <= inject_Z (py_int (qclip y 0 1 * 255)))%Q).
  { intros x y H. pose proof (qclip_in x 0 1 ltac:(Lqa.lra)) as [A B]. pose proof (qclip_in y 0 1 ltac:(Lqa.lra)) as [A' B'].
    rewrite !py_int_floor by Lqa.lra. rewrite <- Zle_Qle. apply Qfloor_resp_le.
    assert (C : (qclip x 0 1 <= qclip y 0 1)%Q) by (clear -H; unfold qclip; qminmax; Lqa.lra). Lqa.lra. }
  destruct K as [K|K]; unfold shown; rewrite K; apply M; [|exact L].
  assert (P : (0 < inject_Z (2 ^ b - 1))%Q) by (change 0%Q with (inject_Z 0); rewrite <- Zlt_Qlt; destruct d; try discriminate K; injection K as <-; vm_compute; reflexivity).
  apply Qmult_le_compat_r; [exact L|]. apply Qinv_le_0_compat. Lqa.lra.
Qed.

(** * Layout *)
Lemma part_refl : forall c, 0 <= cv_h c -> 0 <= cv_w c -> part_of c c 0 0.
Proof. intros c. unfold part_of. intros; repeat split; try lia. Qed.
Lemma part_trans : forall a b c y x y' x', part_of a b y x -> part_of b c y' x' -> part_of a c (y' + y) (x' + x).
Proof.
  intros a b c y x y' x' (A1 & A2 & A3 & A4 & A5) (B1 & B2 & B3 & B4 & B5). unfold part_of. repeat (split; [lia|]).
  intros u v U V. rewrite <- A5 by assumption. rewrite <- B5 by lia. f_equal; lia.
Qed.
Lemma part_pad : forall t r b l c, 0 <= t -> 0 <= r -> 0 <= b -> 0 <= l -> part_of c (pad_canvas t r b l c) t l.
Proof.
  intros t r b l c T R B L. unfold part_of, pad_canvas. cbn [cv_h cv_w cv_px]. repeat (split; [lia|]). intros y x Y X.
  rewrite !(proj2 (Z.leb_le _ _)) by lia. rewrite !(proj2 (Z.ltb_lt _ _)) by lia. cbn [andb]. f_equal; lia.
Qed.
Definition sized (h w : Z) (c : canvas) : Prop := cv_h c = h /\ cv_w c = w.
Definition zsum (l : list Z) : Z := fold_right Z.add 0 l.
Lemma zsum_nonneg : forall l, Forall (fun h => 0 <= h) l -> 0 <= zsum l.
Proof. induction 1; cbn [zsum fold_right] in *; [lia|]. unfold zsum in *. lia. Qed.
Lemma vstack_ok : forall w l hs, l <> [] -> Forall2 (fun h c => sized h w c) hs l -> Forall (fun h => 0 <= h) hs -> 0 <= w ->
  exists c, vstack l = Ok c /\ sized (zsum hs) w c /\ forall i ci, nth_error l i = Some ci -> part_of ci c (zsum (firstn i hs)) 0.
Proof.
  intros w l. induction l as [|c l IH]; intros hs N F P W; [congruence|].
  inversion F as [|h c' hs' l' S1 F' E1 E2]; subst. inversion P as [|a b P1 P2]; subst. destruct S1 as [SH SW].
  destruct l as [|c2 l].
  - inversion F'; subst. exists c. split; [reflexivity|]. cbn. split; [split; lia|].
    intros [|i] ci H; [|destruct i; discriminate]. injection H as <-. apply part_refl; lia.
  - destruct (IH hs' ltac:(discriminate) F' P2 W) as (d & E & [SD SE] & PD). cbn [vstack]. cbn [vstack] in E. rewrite E. cbn [bind].
    rewrite SW, SE, Z.eqb_refl. eexists. split; [reflexivity|]. pose proof (zsum_nonneg hs' P2) as ZN.
    split; [split; cbn [cv_h cv_w zsum fold_right]; [unfold zsum in *|]; lia|].
    intros [|i] ci H; cbn [nth_error firstn zsum fold_right] in *.
    + injection H as <-. unfold part_of. cbn [cv_h cv_w cv_px]. repeat (split; [lia|]). intros y x Y X. cbn [Z.add].
      rewrite (proj2 (Z.ltb_lt _ _)) by lia. reflexivity.
    + specialize (PD i ci H). replace (h + fold_right Z.add 0 (firstn i hs')) with (cv_h c + zsum (firstn i hs')) by (unfold zsum; lia).
      apply (part_trans ci d _ (zsum (firstn i hs')) 0 (cv_h c) 0).
      * exact PD.
      * unfold part_of. cbn [cv_h cv_w cv_px]. repeat (split; [lia|]). intros y x Y X. rewrite (proj2 (Z.ltb_ge _ _)) by lia. f_equal; lia.
Qed.
Lemma hstack_ok : forall h l ws, l <> [] -> Forall2 (fun w c => sized h w c) ws l -> Forall (fun w => 0 <= w) ws -> 0 <= h ->
  exists c, hstack l = Ok c /\ sized h (zsum ws) c /\ forall i ci, nth_error l i = Some ci -> part_of ci c 0 (zsum (firstn i ws)).
Proof.
  intros h l. induction l as [|c l IH]; intros ws N F P W; [congruence|].
  inversion F as [|w c' ws' l' S1 F' E1 E2]; subst. inversion P as [|a b P1 P2]; subst. destruct S1 as [SH SW].
  destruct l as [|c2 l].
  - inversion F'; subst. exists c. split; [reflexivity|]. cbn. split; [split; lia|].
    intros [|i] ci H; [|destruct i; discriminate]. injection H as <-. apply part_refl; lia.
  - destruct (IH ws' ltac:(discriminate) F' P2 W) as (d & E & [SD SE] & PD). cbn [hstack]. cbn [hstack] in E. rewrite E. cbn [bind].
    rewrite SH, SD, Z.eqb_refl. eexists. split; [reflexivity|]. pose proof (zsum_nonneg ws' P2) as ZN.
    split; [split; cbn [cv_h cv_w zsum fold_right]; [|unfold zsum in *]; lia|].
    intros [|i] ci H; cbn [nth_error firstn zsum fold_right] in *.
    + injection H as <-. unfold part_of. cbn [cv_h cv_w cv_px]. repeat (split; [lia|]). intros y x Y X. cbn [Z.add].
      rewrite (proj2 (Z.ltb_lt _ _)) by lia. reflexivity.
    + specialize (PD i ci H). replace (w + fold_right Z.add 0 (firstn i ws')) with (cv_w c + zsum (firstn i ws')) by (unfold zsum; lia).
      apply (part_trans ci d _ 0 (zsum (firstn i ws')) 0 (cv_w c)).
      * exact PD.
      * unfold part_of. cbn [cv_h cv_w cv_px]. repeat (split; [lia|]). intros y x Y X. rewrite (proj2 (Z.ltb_ge _ _)) by lia. f_equal; lia.
Qed.
