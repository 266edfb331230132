From Verif Require Import Prelude PreludeFacts GeoModel PspModel PspSpec.
From Coq Require Import Lia Lqa Qabs Setoid Qfield.
Local Open Scope Q_scope.

(** ** Affine functions and four points *)

Definition lin (a b c : Q) (p : point) : Q := a * fst p + b * snd p + c.

Lemma lin_quad : forall a b c q,
  area2 (tr q) (br q) (bl q) * lin a b c (tl q) - area2 (tl q) (br q) (bl q) * lin a b c (tr q)
  + area2 (tl q) (tr q) (bl q) * lin a b c (br q) - area2 (tl q) (tr q) (br q) * lin a b c (bl q) == 0.
Proof. intros. unfold lin, area2. ring. Qed.

Definition numx (m : mat3) := lin (m11 m) (m12 m) (m13 m).
Definition numy (m : mat3) := lin (m21 m) (m22 m) (m23 m).
Lemma weight_lin : forall m p, weight m p = lin (m31 m) (m32 m) (m33 m) p.
Proof. reflexivity. Qed.

Lemma takes_num : forall m p d, takes m p d <->
  ~ weight m p == 0 /\ numx m p == fst d * weight m p /\ numy m p == snd d * weight m p.
Proof.
  intros m p d. unfold takes, peq, perspective, numx, numy, lin. simpl. split.
  - intros (W & X & Y). split; [exact W|]. split.
    + rewrite <- X. field. exact W.
    + rewrite <- Y. field. exact W.
  - intros (W & X & Y). split; [exact W|]. split.
    + rewrite X. field. exact W.
    + rewrite Y. field. exact W.
Qed.

(** four numbers with the three dependencies of [d] are proportional to its
    areas (with signs) *)
Lemma dependency : forall (d : quad) v0 v1 v2 v3,
  v0 - v1 + v2 - v3 == 0 ->
  v0 * fst (tl d) - v1 * fst (tr d) + v2 * fst (br d) - v3 * fst (bl d) == 0 ->
  v0 * snd (tl d) - v1 * snd (tr d) + v2 * snd (br d) - v3 * snd (bl d) == 0 ->
  v0 * area2 (tl d) (br d) (bl d) == v1 * area2 (tr d) (br d) (bl d) /\
  v1 * area2 (tl d) (tr d) (bl d) == v2 * area2 (tl d) (br d) (bl d) /\
  v2 * area2 (tl d) (tr d) (br d) == v3 * area2 (tl d) (tr d) (bl d).
Proof.
  intros [[x0 y0] [x1 y1] [x2 y2] [x3 y3]] v0 v1 v2 v3. unfold area2. simpl. intros E X Y.
  set (SE := v0 - v1 + v2 - v3) in E. set (SX := v0 * x0 - v1 * x1 + v2 * x2 - v3 * x3) in X.
  set (SY := v0 * y0 - v1 * y1 + v2 * y2 - v3 * y3) in Y.
  assert (G : forall a b (l : Q), a - b == l -> l == 0 -> a == b) by (intros; lra).
  repeat split.
  - apply (G _ _ ((x2*y3 - x3*y2) * SE + (y2 - y3) * SX + (x3 - x2) * SY)).
    + unfold SE, SX, SY. ring.
    + rewrite E, X, Y. ring.
  - apply (G _ _ ((x0*y3 - x3*y0) * SE + (y0 - y3) * SX + (x3 - x0) * SY)).
    + unfold SE, SX, SY. ring.
    + rewrite E, X, Y. ring.
  - apply (G _ _ ((x0*y1 - x1*y0) * SE + (y0 - y1) * SX + (x1 - x0) * SY)).
    + unfold SE, SX, SY. ring.
    + rewrite E, X, Y. ring.
Qed.

(** the weights of the corners *)
Lemma weights : forall m q d, takes_quad m q d ->
  area2 (tr q) (br q) (bl q) * weight m (tl q) * area2 (tl d) (br d) (bl d)
  == area2 (tl q) (br q) (bl q) * weight m (tr q) * area2 (tr d) (br d) (bl d) /\
  area2 (tl q) (br q) (bl q) * weight m (tr q) * area2 (tl d) (tr d) (bl d)
  == area2 (tl q) (tr q) (bl q) * weight m (br q) * area2 (tl d) (br d) (bl d) /\
  area2 (tl q) (tr q) (bl q) * weight m (br q) * area2 (tl d) (tr d) (br d)
  == area2 (tl q) (tr q) (br q) * weight m (bl q) * area2 (tl d) (tr d) (bl d).
Proof.
  intros m q d (T0 & T1 & T2 & T3).
  apply takes_num in T0, T1, T2, T3.
  destruct T0 as (_ & X0 & Y0). destruct T1 as (_ & X1 & Y1).
  destruct T2 as (_ & X2 & Y2). destruct T3 as (_ & X3 & Y3).
  apply dependency.
  - rewrite !weight_lin. apply lin_quad.
  - pose proof (lin_quad (m11 m) (m12 m) (m13 m) q) as L. fold (numx m) in L.
    rewrite X0, X1, X2, X3 in L. rewrite <- L. ring.
  - pose proof (lin_quad (m21 m) (m22 m) (m23 m) q) as L. fold (numy m) in L.
    rewrite Y0, Y1, Y2, Y3 in L. rewrite <- L. ring.
Qed.

Lemma lin_hull : forall a b c q p r s t u,
  r + s + t + u == 1 ->
  fst p == r * fst (tl q) + s * fst (tr q) + t * fst (br q) + u * fst (bl q) ->
  snd p == r * snd (tl q) + s * snd (tr q) + t * snd (br q) + u * snd (bl q) ->
  lin a b c p == r * lin a b c (tl q) + s * lin a b c (tr q) + t * lin a b c (br q) + u * lin a b c (bl q).
Proof.
  intros a b c q p r s t u E X Y. unfold lin. rewrite X, Y.
  setoid_replace c with (c * (r + s + t + u)) at 1 by (rewrite E; ring). ring.
Qed.

Lemma pos_prod : forall a w b a' w' b', 0 < a -> 0 < b -> 0 < a' -> 0 < b' ->
  a * w * b == a' * w' * b' -> (0 < w -> 0 < w') /\ (w < 0 -> w' < 0).
Proof.
  intros a w b a' w' b' A B A' B' E. split; intro W.
  - assert (0 < a * w * b) by (apply Qmult_lt_0_compat; [apply Qmult_lt_0_compat|]; assumption).
    rewrite E in H. destruct (Qlt_le_dec 0 w') as [|L]; [assumption|]. exfalso.
    assert (0 <= (a' * b') * (- w')) by (apply Qmult_le_0_compat; [apply Qlt_le_weak, Qmult_lt_0_compat; assumption|lra]).
    assert (a' * w' * b' == - ((a' * b') * (- w'))) by ring. lra.
  - assert (0 < a * (- w) * b) by (apply Qmult_lt_0_compat; [apply Qmult_lt_0_compat|]; lra).
    assert (E2 : a * (- w) * b == - (a' * w' * b')) by (rewrite <- E; ring).
    rewrite E2 in H. destruct (Qlt_le_dec w' 0) as [|L]; [assumption|]. exfalso.
    assert (0 <= (a' * b') * w') by (apply Qmult_le_0_compat; [apply Qlt_le_weak, Qmult_lt_0_compat; assumption|lra]).
    assert (a' * w' * b' == ((a' * b') * w')) by ring. lra.
Qed.

Definition scaled_mat (k : Q) (m : mat3) : mat3 :=
  mkMat (k * m11 m) (k * m12 m) (k * m13 m) (k * m21 m) (k * m22 m) (k * m23 m)
        (k * m31 m) (k * m32 m) (k * m33 m).

(** between convex quads: all weights have one sign *)
Lemma weights_sign : forall m q d, takes_quad m q d -> convex q -> convex d ->
  (0 < weight m (tl q) /\ 0 < weight m (tr q) /\ 0 < weight m (br q) /\ 0 < weight m (bl q)) \/
  (weight m (tl q) < 0 /\ weight m (tr q) < 0 /\ weight m (br q) < 0 /\ weight m (bl q) < 0).
Proof.
  intros m q d T (A0 & A1 & A2 & A3) (B0 & B1 & B2 & B3).
  destruct (weights m q d T) as (E1 & E2 & E3).
  apply pos_prod in E1; try assumption. apply pos_prod in E2; try assumption.
  apply pos_prod in E3; try assumption.
  destruct T as ((W & _) & _).
  destruct (Qlt_le_dec 0 (weight m (tl q))) as [P|P].
  - left. tauto.
  - right. assert (weight m (tl q) < 0).
    { destruct (Qlt_le_dec (weight m (tl q)) 0); [assumption|]. exfalso. apply W. lra. }
    tauto.
Qed.

Lemma weighted_le : forall r s t u a b c d lo hi n w,
  0 <= r -> 0 <= s -> 0 <= t -> 0 <= u -> 0 < r + s + t + u ->
  lo <= a -> a <= hi -> lo <= b -> b <= hi -> lo <= c -> c <= hi -> lo <= d -> d <= hi ->
  n == r * a + s * b + t * c + u * d -> w == r + s + t + u ->
  lo <= n / w /\ n / w <= hi.
Proof.
  intros r s t u a b c d lo hi n w R S T U P A1 A2 B1 B2 C1 C2 D1 D2 N W.
  assert (Wp : 0 < w) by (rewrite W; exact P).
  split.
  - apply Qle_shift_div_l; [exact Wp|]. rewrite N, W.
    assert (0 <= r * (a - lo)) by (apply Qmult_le_0_compat; lra).
    assert (0 <= s * (b - lo)) by (apply Qmult_le_0_compat; lra).
    assert (0 <= t * (c - lo)) by (apply Qmult_le_0_compat; lra).
    assert (0 <= u * (d - lo)) by (apply Qmult_le_0_compat; lra).
    lra.
  - apply Qle_shift_div_r; [exact Wp|]. rewrite N, W.
    assert (0 <= r * (hi - a)) by (apply Qmult_le_0_compat; lra).
    assert (0 <= s * (hi - b)) by (apply Qmult_le_0_compat; lra).
    assert (0 <= t * (hi - c)) by (apply Qmult_le_0_compat; lra).
    assert (0 <= u * (hi - d)) by (apply Qmult_le_0_compat; lra).
    lra.
Qed.

(** the hull is taken into the hull, hence into any box around the corners *)
Lemma hull_box : forall m q d p lox hix loy hiy,
  takes_quad m q d -> convex q -> convex d -> in_quad q p ->
  (forall c, In c [tl d; tr d; br d; bl d] -> lox <= fst c /\ fst c <= hix /\ loy <= snd c /\ snd c <= hiy) ->
  ~ weight m p == 0 /\
  lox <= fst (perspective m p) /\ fst (perspective m p) <= hix /\
  loy <= snd (perspective m p) /\ snd (perspective m p) <= hiy.
Proof.
  intros m q d p lox hix loy hiy T CQ CD (r & s & t & u & R & S & U & V & E & X & Y) B.
  pose proof (weights_sign m q d T CQ CD) as SG.
  destruct T as (T0 & T1 & T2 & T3). apply takes_num in T0, T1, T2, T3.
  destruct T0 as (_ & X0 & Y0). destruct T1 as (_ & X1 & Y1).
  destruct T2 as (_ & X2 & Y2). destruct T3 as (_ & X3 & Y3).
  assert (LW : weight m p == r * weight m (tl q) + s * weight m (tr q) + t * weight m (br q) + u * weight m (bl q))
    by (rewrite !weight_lin; apply lin_hull; assumption).
  assert (LX : numx m p == r * weight m (tl q) * fst (tl d) + s * weight m (tr q) * fst (tr d)
                           + t * weight m (br q) * fst (br d) + u * weight m (bl q) * fst (bl d)).
  { unfold numx. rewrite (lin_hull _ _ _ q p r s t u E X Y). fold (numx m). rewrite X0, X1, X2, X3. ring. }
  assert (LY : numy m p == r * weight m (tl q) * snd (tl d) + s * weight m (tr q) * snd (tr d)
                           + t * weight m (br q) * snd (br d) + u * weight m (bl q) * snd (bl d)).
  { unfold numy. rewrite (lin_hull _ _ _ q p r s t u E X Y). fold (numy m). rewrite Y0, Y1, Y2, Y3. ring. }
  clear X0 X1 X2 X3 Y0 Y1 Y2 Y3.
  destruct (B (tl d)) as (P1 & P2 & P3 & P4); [simpl; tauto|].
  destruct (B (tr d)) as (Q1 & Q2 & Q3 & Q4); [simpl; tauto|].
  destruct (B (br d)) as (R1 & R2 & R3 & R4); [simpl; tauto|].
  destruct (B (bl d)) as (S1 & S2 & S3 & S4); [simpl; tauto|].
  assert (FX : fst (perspective m p) = numx m p / weight m p) by reflexivity.
  assert (FY : snd (perspective m p) = numy m p / weight m p) by reflexivity.
  rewrite FX, FY.
  remember (weight m (tl q)) as w0. remember (weight m (tr q)) as w1.
  remember (weight m (br q)) as w2. remember (weight m (bl q)) as w3.
  assert (SUM : forall a b c e, 0 < a -> 0 < b -> 0 < c -> 0 < e -> 0 < r * a + s * b + t * c + u * e).
  { intros a b c e Ha Hb Hc He.
    assert (0 <= r * a) by (apply Qmult_le_0_compat; lra).
    assert (0 <= s * b) by (apply Qmult_le_0_compat; lra).
    assert (0 <= t * c) by (apply Qmult_le_0_compat; lra).
    assert (0 <= u * e) by (apply Qmult_le_0_compat; lra).
    destruct (Qlt_le_dec 0 r) as [Z|Z].
    { assert (0 < r * a) by (apply Qmult_lt_0_compat; assumption). lra. }
    destruct (Qlt_le_dec 0 s) as [Z1|Z1].
    { assert (0 < s * b) by (apply Qmult_lt_0_compat; assumption). lra. }
    destruct (Qlt_le_dec 0 t) as [Z2|Z2].
    { assert (0 < t * c) by (apply Qmult_lt_0_compat; assumption). lra. }
    assert (0 < u * e) by (apply Qmult_lt_0_compat; lra). lra. }
  destruct SG as [(W0 & W1 & W2 & W3)|(W0 & W1 & W2 & W3)].
  - pose proof (SUM _ _ _ _ W0 W1 W2 W3) as P.
    assert (0 <= r * w0) by (apply Qmult_le_0_compat; lra).
    assert (0 <= s * w1) by (apply Qmult_le_0_compat; lra).
    assert (0 <= t * w2) by (apply Qmult_le_0_compat; lra).
    assert (0 <= u * w3) by (apply Qmult_le_0_compat; lra).
    destruct (weighted_le (r * w0) (s * w1) (t * w2) (u * w3) _ _ _ _ lox hix _ _ H H0 H1 H2 P P1 P2 Q1 Q2 R1 R2 S1 S2 LX LW).
    destruct (weighted_le (r * w0) (s * w1) (t * w2) (u * w3) _ _ _ _ loy hiy _ _ H H0 H1 H2 P P3 P4 Q3 Q4 R3 R4 S3 S4 LY LW).
    split; [|tauto]. intro Z. rewrite Z in LW. lra.
  - assert (V0 : 0 < - w0) by lra. assert (V1 : 0 < - w1) by lra.
    assert (V2 : 0 < - w2) by lra. assert (V3 : 0 < - w3) by lra.
    pose proof (SUM _ _ _ _ V0 V1 V2 V3) as P.
    assert (0 <= r * - w0) by (apply Qmult_le_0_compat; lra).
    assert (0 <= s * - w1) by (apply Qmult_le_0_compat; lra).
    assert (0 <= t * - w2) by (apply Qmult_le_0_compat; lra).
    assert (0 <= u * - w3) by (apply Qmult_le_0_compat; lra).
    assert (NZ : ~ weight m p == 0) by (intro Z; rewrite Z in LW; lra).
    assert (GX : numx m p / weight m p == (- numx m p) / (- weight m p)) by (field; exact NZ).
    assert (GY : numy m p / weight m p == (- numy m p) / (- weight m p)) by (field; exact NZ).
    assert (LX' : - numx m p == r * - w0 * fst (tl d) + s * - w1 * fst (tr d)
                           + t * - w2 * fst (br d) + u * - w3 * fst (bl d)) by (rewrite LX; ring).
    assert (LY' : - numy m p == r * - w0 * snd (tl d) + s * - w1 * snd (tr d)
                           + t * - w2 * snd (br d) + u * - w3 * snd (bl d)) by (rewrite LY; ring).
    assert (LW' : - weight m p == r * - w0 + s * - w1 + t * - w2 + u * - w3) by (rewrite LW; ring).
    destruct (weighted_le _ _ _ _ _ _ _ _ lox hix _ _ H H0 H1 H2 P P1 P2 Q1 Q2 R1 R2 S1 S2 LX' LW').
    destruct (weighted_le _ _ _ _ _ _ _ _ loy hiy _ _ H H0 H1 H2 P P3 P4 Q3 Q4 R3 R4 S3 S4 LY' LW').
    split; [exact NZ|]. rewrite GX, GY. tauto.
Qed.

(** ** The matrix is determined by the four points *)

Lemma lin_interp : forall a b c p0 p1 p2 p,
  area2 p0 p1 p2 * lin a b c p ==
  area2 p p1 p2 * lin a b c p0 + area2 p0 p p2 * lin a b c p1 + area2 p0 p1 p * lin a b c p2.
Proof. intros. unfold lin, area2. ring. Qed.

Lemma lin_zero : forall a b c p0 p1 p2 p, ~ area2 p0 p1 p2 == 0 ->
  lin a b c p0 == 0 -> lin a b c p1 == 0 -> lin a b c p2 == 0 -> lin a b c p == 0.
Proof.
  intros a b c p0 p1 p2 p A Z0 Z1 Z2. pose proof (lin_interp a b c p0 p1 p2 p) as E.
  rewrite Z0, Z1, Z2 in E.
  assert (E2 : area2 p0 p1 p2 * lin a b c p == 0) by (rewrite E; ring).
  destruct (Qmult_integral _ _ E2); [contradiction|assumption].
Qed.

(** two affine functions, one a multiple of the other on three points *)
Lemma lin_prop : forall a b c a' b' c' k k' p0 p1 p2 p, ~ area2 p0 p1 p2 == 0 ->
  k * lin a b c p0 == k' * lin a' b' c' p0 -> k * lin a b c p1 == k' * lin a' b' c' p1 ->
  k * lin a b c p2 == k' * lin a' b' c' p2 -> k * lin a b c p == k' * lin a' b' c' p.
Proof.
  intros a b c a' b' c' k k' p0 p1 p2 p A Z0 Z1 Z2.
  assert (G : forall r, lin (k * a - k' * a') (k * b - k' * b') (k * c - k' * c') r
                        == k * lin a b c r - k' * lin a' b' c' r) by (intro; unfold lin; ring).
  assert (Z : lin (k * a - k' * a') (k * b - k' * b') (k * c - k' * c') p == 0).
  { apply (lin_zero _ _ _ p0 p1 p2 p A); rewrite G; [rewrite Z0|rewrite Z1|rewrite Z2]; ring. }
  rewrite G in Z. lra.
Qed.

Lemma ratio_step : forall a b a' b' w w' v v',
  ~ a' == 0 -> ~ b' == 0 ->
  a * w * b == a' * v * b' -> a * w' * b == a' * v' * b' -> w' * v == w * v'.
Proof.
  intros a b a' b' w w' v v' A B E E'.
  assert (P : (a' * b') * (w' * v) == (a' * b') * (w * v')).
  { setoid_replace ((a' * b') * (w' * v)) with (w' * (a' * v * b')) by ring. rewrite <- E.
    setoid_replace ((a' * b') * (w * v')) with (w * (a' * v' * b')) by ring. rewrite <- E'. ring. }
  apply Qmult_inj_l in P; [exact P|]. intro Z. destruct (Qmult_integral _ _ Z); contradiction.
Qed.

Lemma cross_trans : forall w w' v v' u u', ~ v == 0 ->
  w' * v == w * v' -> v' * u == v * u' -> w' * u == w * u'.
Proof.
  intros w w' v v' u u' V E F.
  assert (P : v * (w' * u) == v * (w * u')).
  { setoid_replace (v * (w' * u)) with ((w' * v) * u) by ring. rewrite E.
    setoid_replace (w * v' * u) with (w * (v' * u)) by ring. rewrite F. ring. }
  apply Qmult_inj_l in P; assumption.
Qed.

Lemma matrix_unique : forall m m' q d p, general_position q -> general_position d ->
  takes_quad m q d -> takes_quad m' q d -> ~ weight m p == 0 ->
  ~ weight m' p == 0 /\ peq (perspective m p) (perspective m' p).
Proof.
  intros m m' q d p (A0 & A1 & A2 & A3) (B0 & B1 & B2 & B3) T T' NZ.
  destruct (weights m q d T) as (E1 & E2 & E3).
  destruct (weights m' q d T') as (E1' & E2' & E3').
  destruct T as (T0 & T1 & T2 & T3). apply takes_num in T0, T1, T2, T3.
  destruct T0 as (W0 & X0 & Y0). destruct T1 as (W1 & X1 & Y1).
  destruct T2 as (W2 & X2 & Y2). destruct T3 as (W3 & X3 & Y3).
  destruct T' as (T0 & T1 & T2 & T3). apply takes_num in T0, T1, T2, T3.
  destruct T0 as (W0' & X0' & Y0'). destruct T1 as (W1' & X1' & Y1').
  destruct T2 as (W2' & X2' & Y2'). destruct T3 as (W3' & X3' & Y3').
  pose proof (ratio_step _ _ _ _ _ _ _ _ A1 B0 E1 E1') as R1.
  pose proof (ratio_step _ _ _ _ _ _ _ _ A2 B1 E2 E2') as R2.
  pose proof (cross_trans _ _ _ _ _ _ W1 R1 R2) as R2'.
  set (w0 := weight m (tl q)) in *. set (w0' := weight m' (tl q)) in *.
  assert (RW : w0' * weight m p == w0 * weight m' p).
  { rewrite !weight_lin. apply (lin_prop _ _ _ _ _ _ _ _ (tl q) (tr q) (br q) p A3);
      rewrite <- !weight_lin; fold w0 w0'; [ring| |]; assumption. }
  assert (RX : w0' * numx m p == w0 * numx m' p).
  { unfold numx. apply (lin_prop _ _ _ _ _ _ _ _ (tl q) (tr q) (br q) p A3); fold (numx m) (numx m').
    - rewrite X0, X0'. ring.
    - rewrite X1, X1'. setoid_replace (w0' * (fst (tr d) * weight m (tr q))) with (fst (tr d) * (w0' * weight m (tr q))) by ring.
      rewrite R1. ring.
    - rewrite X2, X2'. setoid_replace (w0' * (fst (br d) * weight m (br q))) with (fst (br d) * (w0' * weight m (br q))) by ring.
      rewrite R2'. ring. }
  assert (RY : w0' * numy m p == w0 * numy m' p).
  { unfold numy. apply (lin_prop _ _ _ _ _ _ _ _ (tl q) (tr q) (br q) p A3); fold (numy m) (numy m').
    - rewrite Y0, Y0'. ring.
    - rewrite Y1, Y1'. setoid_replace (w0' * (snd (tr d) * weight m (tr q))) with (snd (tr d) * (w0' * weight m (tr q))) by ring.
      rewrite R1. ring.
    - rewrite Y2, Y2'. setoid_replace (w0' * (snd (br d) * weight m (br q))) with (snd (br d) * (w0' * weight m (br q))) by ring.
      rewrite R2'. ring. }
  assert (NZ' : ~ weight m' p == 0).
  { intro Z. rewrite Z in RW. assert (Z2 : w0' * weight m p == 0) by (rewrite RW; ring).
    destruct (Qmult_integral _ _ Z2); contradiction. }
  split; [exact NZ'|].
  assert (FX : forall m, fst (perspective m p) = numx m p / weight m p) by reflexivity.
  assert (FY : forall m, snd (perspective m p) = numy m p / weight m p) by reflexivity.
  assert (G : forall n n', w0' * n == w0 * n' -> n / weight m p == n' / weight m' p).
  { intros n n' R.
    setoid_replace (n / weight m p) with ((w0' * n) / (w0' * weight m p)) by (field; split; assumption).
    rewrite R, RW. field. split; assumption. }
  split; rewrite FX || rewrite FY; rewrite ?FX, ?FY; apply G; assumption.
Qed.

(** ** A solver *)

Definition interp (p0 p1 p2 : point) (f0 f1 f2 : Q) : Q * Q * Q :=
  let A := area2 p0 p1 p2 in
  (((snd p1 - snd p2) * f0 + (snd p2 - snd p0) * f1 + (snd p0 - snd p1) * f2) / A,
   ((fst p2 - fst p1) * f0 + (fst p0 - fst p2) * f1 + (fst p1 - fst p0) * f2) / A,
   ((fst p1 * snd p2 - fst p2 * snd p1) * f0 + (fst p2 * snd p0 - fst p0 * snd p2) * f1
    + (fst p0 * snd p1 - fst p1 * snd p0) * f2) / A).

Lemma interp_ok : forall p0 p1 p2 f0 f1 f2, ~ area2 p0 p1 p2 == 0 ->
  let '(a, b, c) := interp p0 p1 p2 f0 f1 f2 in
  lin a b c p0 == f0 /\ lin a b c p1 == f1 /\ lin a b c p2 == f2.
Proof.
  intros p0 p1 p2 f0 f1 f2 A. unfold interp, lin. unfold area2 in *.
  repeat split; field; exact A.
Qed.

Definition ref_solver : solver := fun q d =>
  let w0 := area2 (tr d) (br d) (bl d) / area2 (tr q) (br q) (bl q) in
  let w1 := area2 (tl d) (br d) (bl d) / area2 (tl q) (br q) (bl q) in
  let w2 := area2 (tl d) (tr d) (bl d) / area2 (tl q) (tr q) (bl q) in
  let '(g, h, i) := interp (tl q) (tr q) (br q) w0 w1 w2 in
  let '(a, b, c) := interp (tl q) (tr q) (br q) (fst (tl d) * w0) (fst (tr d) * w1) (fst (br d) * w2) in
  let '(e, f, k) := interp (tl q) (tr q) (br q) (snd (tl d) * w0) (snd (tr d) * w1) (snd (br d) * w2) in
  mkMat a b c e f k g h i.

Lemma ref_solver_good : good_solver ref_solver.
Proof.
  intros q d (A0 & A1 & A2 & A3) (B0 & B1 & B2 & B3). unfold ref_solver.
  set (w0 := area2 (tr d) (br d) (bl d) / area2 (tr q) (br q) (bl q)).
  set (w1 := area2 (tl d) (br d) (bl d) / area2 (tl q) (br q) (bl q)).
  set (w2 := area2 (tl d) (tr d) (bl d) / area2 (tl q) (tr q) (bl q)).
  pose proof (interp_ok (tl q) (tr q) (br q) w0 w1 w2 A3) as IW.
  pose proof (interp_ok (tl q) (tr q) (br q) (fst (tl d) * w0) (fst (tr d) * w1) (fst (br d) * w2) A3) as IX.
  pose proof (interp_ok (tl q) (tr q) (br q) (snd (tl d) * w0) (snd (tr d) * w1) (snd (br d) * w2) A3) as IY.
  destruct (interp (tl q) (tr q) (br q) w0 w1 w2) as [[g h] i].
  destruct (interp (tl q) (tr q) (br q) (fst (tl d) * w0) (fst (tr d) * w1) (fst (br d) * w2)) as [[a b] c].
  destruct (interp (tl q) (tr q) (br q) (snd (tl d) * w0) (snd (tr d) * w1) (snd (br d) * w2)) as [[e f] k].
  destruct IW as (IW0 & IW1 & IW2). destruct IX as (IX0 & IX1 & IX2). destruct IY as (IY0 & IY1 & IY2).
  assert (NZ : forall x y, ~ x == 0 -> ~ y == 0 -> ~ x / y == 0).
  { intros x y X Y Z. apply X. setoid_replace x with (x / y * y) by (field; exact Y). rewrite Z. ring. }
  assert (N3 : forall u0 u1 u2 u3 x y z, 
     lin x y z (tl q) == u0 * w0 -> lin x y z (tr q) == u1 * w1 -> lin x y z (br q) == u2 * w2 ->
     area2 (tr d) (br d) (bl d) * u0 - area2 (tl d) (br d) (bl d) * u1
      + area2 (tl d) (tr d) (bl d) * u2 - area2 (tl d) (tr d) (br d) * u3 == 0 ->
     lin x y z (bl q) == u3 * (area2 (tl d) (tr d) (br d) / area2 (tl q) (tr q) (br q))).
  { intros u0 u1 u2 u3 x y z L0 L1 L2 E.
    pose proof (lin_quad x y z q) as L. rewrite L0, L1, L2 in L.
    assert (K : area2 (tl q) (tr q) (br q) * lin x y z (bl q) == area2 (tl d) (tr d) (br d) * u3).
    { assert (K1 : area2 (tl q) (tr q) (br q) * lin x y z (bl q)
        == area2 (tr q) (br q) (bl q) * (u0 * w0) - area2 (tl q) (br q) (bl q) * (u1 * w1)
           + area2 (tl q) (tr q) (bl q) * (u2 * w2)) by lra.
      rewrite K1. unfold w0, w1, w2.
      setoid_replace (area2 (tr q) (br q) (bl q) * (u0 * (area2 (tr d) (br d) (bl d) / area2 (tr q) (br q) (bl q))))
        with (area2 (tr d) (br d) (bl d) * u0) by (field; exact A0).
      setoid_replace (area2 (tl q) (br q) (bl q) * (u1 * (area2 (tl d) (br d) (bl d) / area2 (tl q) (br q) (bl q))))
        with (area2 (tl d) (br d) (bl d) * u1) by (field; exact A1).
      setoid_replace (area2 (tl q) (tr q) (bl q) * (u2 * (area2 (tl d) (tr d) (bl d) / area2 (tl q) (tr q) (bl q))))
        with (area2 (tl d) (tr d) (bl d) * u2) by (field; exact A2).
      lra. }
    setoid_replace (lin x y z (bl q)) with ((area2 (tl q) (tr q) (br q) * lin x y z (bl q)) / area2 (tl q) (tr q) (br q)) by (field; exact A3).
    rewrite K. field. exact A3. }
  assert (IW3 := N3 1 1 1 1 g h i ltac:(rewrite IW0; ring) ltac:(rewrite IW1; ring) ltac:(rewrite IW2; ring)
                    ltac:(unfold area2; ring)).
  assert (IX3 := N3 _ _ _ (fst (bl d)) a b c IX0 IX1 IX2 ltac:(unfold area2; ring)).
  assert (IY3 := N3 _ _ _ (snd (bl d)) e f k IY0 IY1 IY2 ltac:(unfold area2; ring)).
  unfold takes_quad. rewrite !takes_num. unfold numx, numy. rewrite !weight_lin. simpl m11. simpl m12. simpl m13.
  simpl m21. simpl m22. simpl m23. simpl m31. simpl m32. simpl m33.
  rewrite IW0, IW1, IW2, IW3, IX0, IX1, IX2, IX3, IY0, IY1, IY2, IY3.
  repeat split; try reflexivity; try (apply NZ; assumption).
  - intro Z. apply (NZ _ _ B3 A3). rewrite <- Z. ring.
  - ring.
  - ring.
Qed.

(** ** Order of the points *)

Lemma first_min_in : forall key l best, In (first_min key best l) (best :: l).
Proof.
  intros key l. induction l as [|p l IH]; intro best; simpl; [tauto|].
  destruct (IH (if qltb (key p) (key best) then p else best)) as [E|I].
  - rewrite <- E. destruct (qltb (key p) (key best)); tauto.
  - tauto.
Qed.
Lemma first_max_in : forall key l best, In (first_max key best l) (best :: l).
Proof.
  intros key l. induction l as [|p l IH]; intro best; simpl; [tauto|].
  destruct (IH (if qltb (key best) (key p) then p else best)) as [E|I].
  - rewrite <- E. destruct (qltb (key best) (key p)); tauto.
  - tauto.
Qed.
Lemma first_min_le : forall key l best p, In p (best :: l) -> key (first_min key best l) <= key p.
Proof.
  intros key l. induction l as [|a l IH]; intros best p I.
  - destruct I as [<-|[]]. simpl. lra.
  - simpl first_min. destruct (qltb (key a) (key best)) eqn:E.
    + apply qltb_iff in E. destruct I as [<-|[<-|I]].
      * apply Qle_trans with (key a); [|lra]. apply IH. left. reflexivity.
      * apply IH. left. reflexivity.
      * apply IH. right. exact I.
    + apply qltb_false in E. destruct I as [<-|[<-|I]].
      * apply IH. left. reflexivity.
      * apply Qle_trans with (key best); [|lra]. apply IH. left. reflexivity.
      * apply IH. right. exact I.
Qed.
Lemma first_max_ge : forall key l best p, In p (best :: l) -> key p <= key (first_max key best l).
Proof.
  intros key l. induction l as [|a l IH]; intros best p I.
  - destruct I as [<-|[]]. simpl. lra.
  - simpl first_max. destruct (qltb (key best) (key a)) eqn:E.
    + apply qltb_iff in E. destruct I as [<-|[<-|I]].
      * apply Qle_trans with (key a); [lra|]. apply IH. left. reflexivity.
      * apply IH. left. reflexivity.
      * apply IH. right. exact I.
    + apply qltb_false in E. destruct I as [<-|[<-|I]].
      * apply IH. left. reflexivity.
      * apply Qle_trans with (key best); [lra|]. apply IH. left. reflexivity.
      * apply IH. right. exact I.
Qed.

(** what the order of the points always yields *)
Definition aligned (q : quad) : Prop :=
  fst (tl q) <= fst (tr q) /\ fst (bl q) <= fst (br q) /\
  snd (tl q) <= snd (bl q) /\ snd (tr q) <= snd (br q).

Lemma order_points_aligned : forall q, aligned (order_points q).
Proof.
  intro q. set (l := [tr q; br q; bl q]).
  set (sum := fun p : point => fst p + snd p). set (diff := fun p : point => snd p - fst p).
  assert (S0 : forall p, In p (tl q :: l) -> sum (tl (order_points q)) <= sum p) by apply (first_min_le sum l).
  assert (S2 : forall p, In p (tl q :: l) -> sum p <= sum (br (order_points q))) by apply (first_max_ge sum l).
  assert (D1 : forall p, In p (tl q :: l) -> diff (tr (order_points q)) <= diff p) by apply (first_min_le diff l).
  assert (D3 : forall p, In p (tl q :: l) -> diff p <= diff (bl (order_points q))) by apply (first_max_ge diff l).
  assert (I0 : In (tl (order_points q)) (tl q :: l)) by apply (first_min_in sum l).
  assert (I1 : In (tr (order_points q)) (tl q :: l)) by apply (first_min_in diff l).
  assert (I2 : In (br (order_points q)) (tl q :: l)) by apply (first_max_in sum l).
  assert (I3 : In (bl (order_points q)) (tl q :: l)) by apply (first_max_in diff l).
  unfold sum, diff in S0, S2, D1, D3.
  pose proof (S0 _ I1). pose proof (S0 _ I3). pose proof (S2 _ I1). pose proof (S2 _ I3).
  pose proof (D1 _ I0). pose proof (D1 _ I2). pose proof (D3 _ I0). pose proof (D3 _ I2).
  cbv beta in *. unfold aligned. repeat split; lra.
Qed.

Lemma order_points_corners : forall q p,
  In p [tl (order_points q); tr (order_points q); br (order_points q); bl (order_points q)] ->
  In p [tl q; tr q; br q; bl q].
Proof.
  intros q p [<-|[<-|[<-|[<-|[]]]]]; [apply (first_min_in _ [tr q; br q; bl q])|apply (first_min_in _ [tr q; br q; bl q])
    |apply (first_max_in _ [tr q; br q; bl q])|apply (first_max_in _ [tr q; br q; bl q])].
Qed.

Lemma fold01_small : forall x, Qabs x < 1 -> fold01 x == Qabs x.
Proof.
  intros x H. unfold fold01.
  assert (E : (if qltb x 0 then - x else x) == Qabs x).
  { destruct (qltb x 0) eqn:E; [apply qltb_iff in E; rewrite Qabs_neg by lra|apply qltb_false in E; rewrite Qabs_pos by lra]; lra. }
  assert (F : Qfloor (if qltb x 0 then - x else x) = 0%Z).
  { pose proof (Qabs_nonneg x). rewrite E.
    pose proof (Qfloor_le (Qabs x)). pose proof (Qlt_floor (Qabs x)).
    assert (A : inject_Z (Qfloor (Qabs x)) < inject_Z 1) by (change (inject_Z 1) with 1; lra).
    assert (B : inject_Z 0 < inject_Z (Qfloor (Qabs x) + 1)) by (change (inject_Z 0) with 0; lra).
    rewrite <- Zlt_Qlt in A, B. lia. }
  rewrite F, E. change (inject_Z 0) with 0. ring.
Qed.

Lemma small_jitter_t : forall j t h w, small_jitter j t h w ->
  0 <= t /\ t < 1 /\ 0 < inject_Z h /\ 0 < inject_Z w /\
  t * (inject_Z h + inject_Z w) < (1 - t) * inject_Z h /\
  t * (inject_Z h + inject_Z w) < (1 - t) * inject_Z w.
Proof.
  intros j t h w (J & H & W & L).
  assert (T : 0 <= t).
  { destruct (J (tl j)) as (A & _); [simpl; tauto|]. pose proof (Qabs_nonneg (fst (tl j))). lra. }
  assert (HQ : 0 < inject_Z h) by (change 0 with (inject_Z 0); rewrite <- Zlt_Qlt; exact H).
  assert (WQ : 0 < inject_Z w) by (change 0 with (inject_Z 0); rewrite <- Zlt_Qlt; exact W).
  assert (MQ : 0 < inject_Z (Z.min h w)) by (change 0 with (inject_Z 0); rewrite <- Zlt_Qlt; lia).
  assert (M1 : inject_Z (Z.min h w) <= inject_Z h) by (rewrite <- Zle_Qle; lia).
  assert (M2 : inject_Z (Z.min h w) <= inject_Z w) by (rewrite <- Zle_Qle; lia).
  assert (T1 : t < 1).
  { destruct (Qlt_le_dec t 1) as [|G]; [assumption|]. exfalso.
    assert (0 <= t * (inject_Z h + inject_Z w)) by (apply Qmult_le_0_compat; lra).
    assert (0 <= (t - 1) * inject_Z (Z.min h w)) by (apply Qmult_le_0_compat; lra). lra. }
  assert (0 <= (1 - t) * (inject_Z h - inject_Z (Z.min h w))) by (apply Qmult_le_0_compat; lra).
  assert (0 <= (1 - t) * (inject_Z w - inject_Z (Z.min h w))) by (apply Qmult_le_0_compat; lra).
  repeat split; try assumption; lra.
Qed.

Lemma corner_points_moved : forall j t h w, small_jitter j t h w ->
  moved_corners j h w (corner_points j h w).
Proof.
  intros j t h w S. pose proof (small_jitter_t _ _ _ _ S) as (_ & T1 & _).
  destruct S as (J & _).
  assert (F : forall c, In c [tl j; tr j; br j; bl j] -> fold01 (fst c) == Qabs (fst c) /\ fold01 (snd c) == Qabs (snd c)).
  { intros c I. destruct (J c I). split; apply fold01_small; lra. }
  destruct (F (tl j)) as (a & a'); [simpl; tauto|]. destruct (F (tr j)) as (b & b'); [simpl; tauto|].
  destruct (F (br j)) as (c & c'); [simpl; tauto|]. destruct (F (bl j)) as (d & d'); [simpl; tauto|].
  unfold moved_corners, corner_points, peq. simpl.
  rewrite a, a', b, b', c, c', d, d'. repeat split; ring.
Qed.

Lemma first_min_best : forall key l best, (forall p, In p l -> key best <= key p) -> first_min key best l = best.
Proof.
  intros key l. induction l as [|a l IH]; intros best H; simpl; [reflexivity|].
  destruct (qltb (key a) (key best)) eqn:E.
  - apply qltb_iff in E. pose proof (H a (or_introl eq_refl)). lra.
  - apply IH. intros p I. apply H. right. exact I.
Qed.
Lemma first_max_best : forall key l best, (forall p, In p l -> key p <= key best) -> first_max key best l = best.
Proof.
  intros key l. induction l as [|a l IH]; intros best H; simpl; [reflexivity|].
  destruct (qltb (key best) (key a)) eqn:E.
  - apply qltb_iff in E. pose proof (H a (or_introl eq_refl)). lra.
  - apply IH. intros p I. apply H. right. exact I.
Qed.

(** a quad each of whose corners is the only extreme one in its direction *)
Definition well_ordered (q : quad) : Prop :=
  let s := fun p : point => fst p + snd p in
  let d := fun p : point => snd p - fst p in
  s (tl q) < s (tr q) /\ s (tl q) < s (br q) /\ s (tl q) < s (bl q) /\
  s (tr q) < s (br q) /\ s (bl q) < s (br q) /\
  d (tr q) < d (tl q) /\ d (tr q) < d (br q) /\ d (tr q) < d (bl q) /\
  d (tl q) < d (bl q) /\ d (br q) < d (bl q).

Lemma order_points_id : forall q, well_ordered q -> order_points q = q.
Proof.
  intros [a b c d]. unfold well_ordered, order_points. cbv zeta. cbn [tl tr br bl].
  intros (H1 & H2 & H3 & H4 & H5 & H6 & H7 & H8 & H9 & H10). f_equal.
  - apply first_min_best. intros p [<-|[<-|[<-|[]]]]; lra.
  - cbn [first_min]. replace (qltb (snd b - fst b) (snd a - fst a)) with true by (symmetry; apply qltb_iff; lra).
    apply (first_min_best (fun p : point => snd p - fst p) [c; d]). intros p [<-|[<-|[]]]; lra.
  - cbn [first_max]. replace (qltb (fst a + snd a) (fst b + snd b)) with true by (symmetry; apply qltb_iff; lra).
    replace (qltb (fst b + snd b) (fst c + snd c)) with true by (symmetry; apply qltb_iff; lra).
    replace (qltb (fst c + snd c) (fst d + snd d)) with false; [reflexivity|].
    symmetry. apply qltb_false. lra.
  - cbn [first_max].
    assert (E : forall x y : point, snd x - fst x < snd d - fst d -> snd y - fst y < snd d - fst d ->
        forall (bb : bool), snd (if bb then x else y) - fst (if bb then x else y) < snd d - fst d) by (intros x y ? ? []; assumption).
    set (z := if qltb (snd a - fst a) (snd b - fst b) then b else a).
    assert (Z : snd z - fst z < snd d - fst d) by (apply E; lra).
    set (z' := if qltb (snd z - fst z) (snd c - fst c) then c else z).
    assert (Z' : snd z' - fst z' < snd d - fst d) by (apply E; lra).
    replace (qltb (snd z' - fst z') (snd d - fst d)) with true by (symmetry; apply qltb_iff; lra). reflexivity.
Qed.

(** jitter as four pairs in [0, t], in a plane of size (H, W) *)
Lemma moved_well_ordered : forall j t h w q, small_jitter j t h w -> moved_corners j h w q ->
  well_ordered q.
Proof.
  intros j t h w q S M. pose proof (small_jitter_t _ _ _ _ S) as (T0 & T1 & HP & WP & LH & LW).
  destruct S as (J & _).
  assert (F : forall c, In c [tl j; tr j; br j; bl j] ->
    0 <= Qabs (fst c) * inject_Z w /\ Qabs (fst c) * inject_Z w <= t * inject_Z w /\
    0 <= Qabs (snd c) * inject_Z h /\ Qabs (snd c) * inject_Z h <= t * inject_Z h).
  { intros c I. destruct (J c I) as (A & B). pose proof (Qabs_nonneg (fst c)). pose proof (Qabs_nonneg (snd c)).
    repeat split.
    - apply Qmult_le_0_compat; lra.
    - apply Qmult_le_compat_r; lra.
    - apply Qmult_le_0_compat; lra.
    - apply Qmult_le_compat_r; lra. }
  destruct (F (tl j)) as (a1 & a2 & a3 & a4); [simpl; tauto|]. destruct (F (tr j)) as (b1 & b2 & b3 & b4); [simpl; tauto|].
  destruct (F (br j)) as (c1 & c2 & c3 & c4); [simpl; tauto|]. destruct (F (bl j)) as (d1 & d2 & d3 & d4); [simpl; tauto|].
  destruct M as ((X0 & Y0) & (X1 & Y1) & (X2 & Y2) & (X3 & Y3)). cbn [fst snd] in *.
  unfold well_ordered. rewrite X0, Y0, X1, Y1, X2, Y2, X3, Y3.
  repeat split; lra.
Qed.
