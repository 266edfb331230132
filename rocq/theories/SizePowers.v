(** The logarithm estimate used by compute_*_to_reach_powers_of, related to the
    real logarithm. *)
From Coq Require Import Lia Reals Lra Qreals.
From Coq Require Import ZArith QArith Qround.
From Verif Require Import Prelude PreludeFacts GeoModel SizeModel SizeSpec SizeProofs.
Local Open Scope R_scope.

(** The estimate is within [2^-46] of the real number log_b n (double precision
    gives about [2^-50] for the sizes below), and a number divided by itself is 1. *)
Definition log_accurate (lq : Z -> Z -> Q) : Prop :=
  (forall b, (1 < b)%Z -> (lq b b == 1)%Q) /\
  forall n b, (1 < b)%Z -> (b < n)%Z -> (n <= 2 ^ 40)%Z ->
    Rabs (Q2R (lq n b) - ln (IZR n) / ln (IZR b)) < / IZR (2 ^ 46).

Lemma ln_le_sub1 : forall u, 0 < u -> ln u <= u - 1.
Proof.
  intros u Hu. destruct (Req_dec u 1) as [->|N]; [rewrite ln_1; lra|].
  left. rewrite <- (ln_exp (u - 1)). apply ln_increasing; [exact Hu|].
  pose proof (exp_ineq1 (u - 1)). lra.
Qed.

Lemma ln_gap : forall n m, 1 <= n -> n + 1 <= m -> / (n + 1) <= ln m - ln n.
Proof.
  intros n m Hn Hm.
  assert (ln (n / m) <= n / m - 1) as H.
  { apply ln_le_sub1. apply Rmult_lt_0_compat; [lra|]. apply Rinv_0_lt_compat. lra. }
  unfold Rdiv in H. rewrite ln_mult in H; [|lra|apply Rinv_0_lt_compat; lra].
  rewrite ln_Rinv in H by lra.
  assert (n * / m <= 1 - / (n + 1)) as K.
  { apply Rmult_le_reg_r with m; [lra|]. rewrite Rmult_assoc, Rinv_l, Rmult_1_r by lra.
    apply Rmult_le_reg_r with (n + 1); [lra|].
    replace ((1 - / (n + 1)) * m * (n + 1)) with (m * n) by (field; lra). nra. }
  lra.
Qed.

Lemma ln_pow_Z : forall b k, (0 < b)%Z -> (0 <= k)%Z -> ln (IZR (b ^ k)) = IZR k * ln (IZR b).
Proof.
  intros b k Hb Hk. rewrite <- (Z2Nat.id k Hk). generalize (Z.to_nat k) as m. clear k Hk.
  induction m as [|m IH].
  - cbn. rewrite ln_1. lra.
  - rewrite Nat2Z.inj_succ, Z.pow_succ_r by lia. rewrite mult_IZR, ln_mult.
    + rewrite IH, succ_IZR. ring.
    + apply (IZR_lt 0). lia.
    + apply (IZR_lt 0). apply Z.pow_pos_nonneg; lia.
Qed.

Lemma ln_bound : forall b, (1 < b)%Z -> (b <= 2 ^ 40)%Z -> 0 < ln (IZR b) /\ ln (IZR b) <= 40.
Proof.
  intros b H1 H2. apply (IZR_lt 1) in H1. apply IZR_le in H2. split.
  - rewrite <- ln_1. apply ln_increasing; lra.
  - assert (ln (IZR b) <= ln (IZR (2 ^ 40))) as L.
    { destruct (Rle_lt_or_eq_dec _ _ H2) as [L|E]; [left; apply ln_increasing; lra|rewrite E; lra]. }
    rewrite ln_pow_Z in L by lia. pose proof (ln_le_sub1 2 ltac:(lra)). lra.
Qed.

(** Between two consecutive powers the estimate lies strictly between the two
    exponents. *)
Lemma estimate_between : forall lq n b k, log_accurate lq ->
  (1 < b)%Z -> (b < n)%Z -> (n <= 2 ^ 40)%Z -> (0 <= k)%Z ->
  (b ^ k < n)%Z -> (n < b ^ (k + 1))%Z ->
  IZR k < Q2R (lq n b) < IZR (k + 1).
Proof.
  intros lq n b k [_ HA] Hb Hn Hs Hk H1 H2. specialize (HA n b Hb Hn Hs).
  destruct (ln_bound b Hb ltac:(lia)) as [B1 B2].
  assert (0 < b ^ k)%Z as Pk by (apply Z.pow_pos_nonneg; lia).
  assert (/ IZR (2 ^ 46) * 40 <= / (IZR n + 1)) as G.
  { apply IZR_le in Hs. assert (1 < IZR n) by (apply (IZR_lt 1); lia).
    apply Rmult_le_reg_r with (IZR n + 1); [lra|]. rewrite Rinv_l by lra.
    change (2 ^ 46)%Z with 70368744177664%Z. change (2 ^ 40)%Z with 1099511627776%Z in Hs. lra. }
  assert (0 < / IZR (2 ^ 46)) as D0 by (apply Rinv_0_lt_compat; apply (IZR_lt 0); lia).
  assert (1 <= IZR (b ^ k)) as Q1 by (apply (IZR_le 1); lia).
  assert (IZR (b ^ k) + 1 <= IZR n) as Q2 by (rewrite <- plus_IZR; apply IZR_le; lia).
  assert (IZR n + 1 <= IZR (b ^ (k + 1))) as Q3 by (rewrite <- plus_IZR; apply IZR_le; lia).
  pose proof (ln_gap _ _ Q1 Q2) as L1. pose proof (ln_gap (IZR n) _ ltac:(lra) Q3) as L2.
  rewrite ln_pow_Z in L1 by lia. rewrite ln_pow_Z in L2 by lia.
  assert (/ (IZR n + 1) <= / (IZR (b ^ k) + 1)) as G2.
  { apply Rinv_le_contravar; lra. }
  assert (ln (IZR n) = ln (IZR n) / ln (IZR b) * ln (IZR b)) as E by (field; lra).
  set (x := ln (IZR n) / ln (IZR b)) in *. rewrite E in L1, L2.
  assert (/ IZR (2 ^ 46) * ln (IZR b) <= / IZR (2 ^ 46) * 40) as G3 by (apply Rmult_le_compat_l; lra).
  assert (IZR k + / IZR (2 ^ 46) <= x) as X1.
  { apply Rmult_le_reg_r with (ln (IZR b)); [lra|]. lra. }
  assert (x + / IZR (2 ^ 46) <= IZR (k + 1)) as X2.
  { apply Rmult_le_reg_r with (ln (IZR b)); [lra|]. lra. }
  apply Rabs_def2 in HA. lra.
Qed.

Lemma Q2R_inject_Z : forall z, Q2R (inject_Z z) = IZR z.
Proof. intro z. unfold Q2R, inject_Z. cbn. lra. Qed.

Lemma rounding_between : forall q k, (0 <= k)%Z -> IZR k < Q2R q < IZR (k + 1) ->
  Qceiling q = (k + 1)%Z /\ py_int q = k.
Proof.
  intros q k Hk [H1 H2]. rewrite <- Q2R_inject_Z in H1, H2.
  apply Rlt_Qlt in H1. apply Rlt_Qlt in H2.
  assert (0 <= inject_Z k)%Q by (change 0%Q with (inject_Z 0); apply inject_Z_le; exact Hk).
  rewrite inject_Z_plus in H2. change (inject_Z 1) with 1%Q in H2.
  split.
  - apply Qceiling_unique; rewrite ?inject_Z_plus; change (inject_Z 1) with 1%Q; Lqa.lra.
  - destruct (py_int_nonneg q) as (P0 & P1 & P2); [Lqa.lra|].
    assert (k < py_int q + 1)%Z by (apply inject_Z_lt; rewrite inject_Z_plus; change (inject_Z 1) with 1%Q; Lqa.lra).
    assert (py_int q < k + 1)%Z by (apply inject_Z_lt; rewrite inject_Z_plus; change (inject_Z 1) with 1%Q; Lqa.lra).
    lia.
Qed.

(** Every integer above 1 lies between two consecutive powers of b. *)
Lemma bracket : forall b n, (1 < b)%Z -> (1 <= n)%Z ->
  exists k, (0 <= k)%Z /\ (b ^ k <= n)%Z /\ (n < b ^ (k + 1))%Z.
Proof.
  intros b n Hb Hn.
  enough (forall m : nat, (n < b ^ Z.of_nat m)%Z -> exists k, (0 <= k)%Z /\ (b ^ k <= n)%Z /\ (n < b ^ (k + 1))%Z) as K.
  { apply (K (Z.to_nat n)). rewrite Z2Nat.id by lia.
    apply Z.pow_gt_lin_r; lia. }
  induction m as [|m IH]; intro H.
  - cbn in H. lia.
  - destruct (Z.lt_ge_cases n (b ^ Z.of_nat m)) as [L|G]; [auto|].
    exists (Z.of_nat m). split; [lia|]. split; [exact G|].
    rewrite Nat2Z.inj_succ in H. exact H.
Qed.

Lemma log_up_of_bracket : forall b n k, (1 < b)%Z -> (0 <= k)%Z ->
  (b ^ k < n)%Z -> (n <= b ^ (k + 1))%Z -> log_up n b (k + 1).
Proof.
  intros b n k Hb Hk H1 H2. split; [lia|]. split; [exact H2|].
  intros j Hj Hn. assert (b ^ k < b ^ j)%Z as L by lia. apply Z.pow_lt_mono_r_iff in L; lia.
Qed.

Lemma log_down_of_bracket : forall b n k, (1 < b)%Z -> (0 <= k)%Z ->
  (b ^ k <= n)%Z -> (n < b ^ (k + 1))%Z -> log_down n b k.
Proof.
  intros b n k Hb Hk H1 H2. split; [lia|]. split; [exact H1|].
  intros j Hj Hn. assert (b ^ j < b ^ (k + 1))%Z as L by lia. apply Z.pow_lt_mono_r_iff in L; lia.
Qed.

(** The estimate is right for every size that is not itself a power. *)
Lemma estimate_up : forall lq n b, log_accurate lq ->
  (1 < b)%Z -> (b < n)%Z -> (n <= 2 ^ 40)%Z -> ~ power_of b 0 n ->
  log_up n b (Qceiling (lq n b)) /\ log_down n b (py_int (lq n b)).
Proof.
  intros lq n b HA Hb Hn Hs NP. destruct (bracket b n Hb ltac:(lia)) as (k & K0 & K1 & K2).
  assert (b ^ k < n)%Z as K1'.
  { destruct (Z.eq_dec (b ^ k) n) as [E|]; [|lia]. exfalso. apply NP. exists k. split; [lia|congruence]. }
  destruct (rounding_between (lq n b) k K0) as [-> ->].
  { apply estimate_between; assumption. }
  split; [apply log_up_of_bracket|apply log_down_of_bracket]; auto; lia.
Qed.

(** At an exact power the estimate is off by at most one exponent. *)
Lemma estimate_at_power : forall lq b k, log_accurate lq ->
  (1 < b)%Z -> (2 <= k)%Z -> (b ^ k <= 2 ^ 40)%Z ->
  (Qceiling (lq (b ^ k) b) = k \/ Qceiling (lq (b ^ k) b) = k + 1)%Z /\
  (py_int (lq (b ^ k) b) = k \/ py_int (lq (b ^ k) b) = k - 1)%Z.
Proof.
  intros lq b k [_ HA] Hb Hk Hs.
  assert (b < b ^ k)%Z as L.
  { rewrite <- (Z.pow_1_r b) at 1. apply Z.pow_lt_mono_r; lia. }
  specialize (HA (b ^ k)%Z b Hb L Hs). destruct (ln_bound b Hb ltac:(lia)) as [B1 B2].
  rewrite ln_pow_Z in HA by lia.
  replace (IZR k * ln (IZR b) / ln (IZR b)) with (IZR k) in HA by (field; lra).
  apply Rabs_def2 in HA.
  assert (/ IZR (2 ^ 46) < 1) as D by (change (2 ^ 46)%Z with 70368744177664%Z; lra).
  remember (lq (b ^ k)%Z b) as q eqn:Eq. clear Eq.
  assert (inject_Z (k - 1) < q)%Q as A1.
  { apply Rlt_Qlt. rewrite Q2R_inject_Z, minus_IZR. lra. }
  assert (q < inject_Z (k + 1))%Q as A2.
  { apply Rlt_Qlt. rewrite Q2R_inject_Z, plus_IZR. lra. }
  assert (0 <= inject_Z (k - 1))%Q by (change 0%Q with (inject_Z 0); apply inject_Z_le; lia).
  destruct (Qceiling_spec q) as [C1 C2]. destruct (py_int_nonneg q) as (P0 & P1 & P2); [Lqa.lra|].
  split.
  - assert (k - 1 < Qceiling q)%Z by (apply inject_Z_lt; Lqa.lra).
    assert (Qceiling q < k + 1 + 1)%Z.
    { apply inject_Z_lt. rewrite (inject_Z_plus (k + 1) 1). change (inject_Z 1) with 1%Q. Lqa.lra. }
    lia.
  - assert (k - 1 < py_int q + 1)%Z.
    { apply inject_Z_lt. rewrite (inject_Z_plus (py_int q) 1). change (inject_Z 1) with 1%Q. Lqa.lra. }
    assert (py_int q < k + 1)%Z by (apply inject_Z_lt; Lqa.lra).
    lia.
Qed.

(** A concrete accurate estimate (rounded up to a multiple of 2^-47). *)
Definition lq_up (n b : Z) : Q :=
  if (n =? b)%Z then 1 else up (ln (IZR n) / ln (IZR b) * IZR (2 ^ 47)) # (2 ^ 47).

Lemma lq_up_accurate : log_accurate lq_up.
Proof.
  split.
  { intros b _. unfold lq_up. rewrite Z.eqb_refl. reflexivity. }
  intros n b _ Hn _. unfold lq_up. destruct (n =? b)%Z eqn:E; [apply Z.eqb_eq in E; lia|]. set (x := ln (IZR n) / ln (IZR b)).
  destruct (archimed (x * IZR (2 ^ 47))) as [A B]. unfold Q2R. cbn [Qnum Qden].
  set (u := up (x * IZR (2 ^ 47))) in *. clearbody u x.
  change (Z.pos (2 ^ 47)) with 140737488355328%Z.
  change (2 ^ 47)%Z with 140737488355328%Z in *. change (2 ^ 46)%Z with 70368744177664%Z.
  apply Rabs_def1; lra.
Qed.

Lemma pad_overshoots : exists lq, log_accurate lq /\
  (125 + pad_power_axis lq false 125 (Some 5))%Z = 625%Z.
Proof.
  exists lq_up. split; [exact lq_up_accurate|].
  unfold pad_power_axis. cbn - [Z.pow Qceiling lq_up].
  assert (Qceiling (lq_up 125 5) = 4%Z) as ->; [|reflexivity].
  unfold lq_up. change (125 =? 5)%Z with false. cbv iota. change 125%Z with (5 ^ 3)%Z. rewrite ln_pow_Z by lia.
  assert (0 < ln 5) by (rewrite <- ln_1; apply ln_increasing; lra).
  replace (3 * ln 5 / ln 5 * IZR (2 ^ 47)) with (IZR (3 * 2 ^ 47)).
  2:{ rewrite mult_IZR. field. lra. }
  assert (up (IZR (3 * 2 ^ 47)) = 3 * 2 ^ 47 + 1)%Z as ->.
  { symmetry. apply tech_up; rewrite plus_IZR; lra. }
  reflexivity.
Qed.

Local Open Scope Z_scope.

Lemma pad_power_axis_full : forall lq az n b, log_accurate lq ->
  0 <= n <= 2 ^ 40 -> 1 < b -> ~ (az = true /\ n = 1) ->
  let d := pad_power_axis lq az n (Some b) in
  let e0 := if az then 0 else 1 in
  0 <= d /\ power_of b e0 (n + d) /\
  ((forall v, power_of b e0 v -> n <= v -> n + d <= v) \/ (power_of b 2 n /\ n + d = b * n)).
Proof.
  intros lq az n b HA Hn Hb Hx d e0.
  assert ((b < n -> log_up n b (Qceiling (lq n b))) \/
          (b < n /\ exists k, 2 <= k /\ n = b ^ k /\ Qceiling (lq n b) = k + 1)) as [HL|(L & k & K & En & EC)].
  { destruct (Z.le_gt_cases n b) as [L|L]; [left; intro; lia|].
    destruct (bracket b n Hb ltac:(lia)) as (k & K0 & K1 & K2).
    destruct (Z.eq_dec (b ^ k) n) as [E|NE].
    - assert (2 <= k) as Hk.
      { destruct (Z.eq_dec k 0) as [->|]; [cbn in *; lia|]. destruct (Z.eq_dec k 1) as [->|]; [rewrite Z.pow_1_r in *; lia|lia]. }
      destruct (estimate_at_power lq b k HA Hb Hk ltac:(lia)) as [[C|C] _]; rewrite E in C.
      + left. intros _. rewrite C. replace k with ((k - 1) + 1) by lia. apply log_up_of_bracket; auto; try lia.
        * rewrite <- E. apply Z.pow_lt_mono_r; lia.
        * replace (k - 1 + 1) with k by lia. lia.
      + right. split; [exact L|]. exists k. auto.
    - left. intros _. apply estimate_up; auto; try lia. intros (j & J & Ej).
      assert (b ^ k < b ^ j) as L1 by lia. assert (b ^ j < b ^ (k + 1)) as L2 by lia.
      apply Z.pow_lt_mono_r_iff in L1; try lia. apply Z.pow_lt_mono_r_iff in L2; lia. }
  - destruct (pad_power_axis_spec lq az n b ltac:(lia) Hb Hx HL) as (A & B & C). auto.
  - unfold d, pad_power_axis. destruct (n =? 0) eqn:E0; [apply Z.eqb_eq in E0; lia|].
    destruct (n <=? b) eqn:E1; [apply Z.leb_le in E1; lia|]. rewrite EC.
    assert (b ^ (k + 1) = b * n) as EP by (rewrite En, Z.pow_add_r, Z.pow_1_r by lia; ring).
    rewrite EP. split; [nia|]. replace (n + (b * n - n)) with (b * n) by lia. split.
    + exists (k + 1). split; [unfold e0; destruct az; lia|congruence].
    + right. split; [exists k; auto|reflexivity].
Qed.

Lemma crop_power_axis_full : forall lq az n b, log_accurate lq ->
  1 <= n <= 2 ^ 40 -> 1 < b ->
  let d := crop_power_axis lq az n (Some b) in
  let e0 := if az then 0 else 1 in
  0 <= d < n /\
  ((exists v, power_of b e0 v /\ v <= n) ->
     power_of b e0 (n - d) /\
     ((forall v, power_of b e0 v -> v <= n -> v <= n - d) \/ (power_of b 2 n /\ b * (n - d) = n))) /\
  (~ (exists v, power_of b e0 v /\ v <= n) -> d = 0).
Proof.
  intros lq az n b HA Hn Hb d e0.
  assert ((b <= n -> log_down n b (py_int (lq n b))) \/
          (b < n /\ exists k, 2 <= k /\ n = b ^ k /\ py_int (lq n b) = k - 1)) as [HL|(L & k & K & En & EC)].
  { destruct (Z.le_gt_cases n b) as [L|L].
    { left. intro. assert (n = b) as -> by lia. destruct HA as [H1 _].
      rewrite (py_int_compat _ _ (H1 b Hb)). change (py_int 1) with 1.
      apply log_down_of_bracket; try lia. rewrite Z.pow_add_r, Z.pow_1_r by lia. nia. }
    destruct (bracket b n Hb ltac:(lia)) as (k & K0 & K1 & K2).
    destruct (Z.eq_dec (b ^ k) n) as [E|NE].
    - assert (2 <= k) as Hk.
      { destruct (Z.eq_dec k 0) as [->|]; [cbn in *; lia|]. destruct (Z.eq_dec k 1) as [->|]; [rewrite Z.pow_1_r in *; lia|lia]. }
      destruct (estimate_at_power lq b k HA Hb Hk ltac:(lia)) as [_ [C|C]]; rewrite E in C.
      + left. intros _. rewrite C. apply log_down_of_bracket; auto; lia.
      + right. split; [exact L|]. exists k. auto.
    - left. intros _. apply estimate_up; auto; try lia. intros (j & J & Ej).
      assert (b ^ k < b ^ j) as L1 by lia. assert (b ^ j < b ^ (k + 1)) as L2 by lia.
      apply Z.pow_lt_mono_r_iff in L1; try lia. apply Z.pow_lt_mono_r_iff in L2; lia. }
  - destruct (crop_power_axis_spec lq az n b ltac:(lia) Hb HL) as (A & B & C).
    split; [exact A|]. split; [|exact C]. intro V. destruct (B V) as [B1 B2]. auto.
  - unfold d, crop_power_axis. destruct (n =? 0) eqn:E0; [apply Z.eqb_eq in E0; lia|].
    destruct (n <? b) eqn:E1; [apply Z.ltb_lt in E1; lia|]. rewrite EC.
    assert (b * b ^ (k - 1) = n) as EP.
    { rewrite En, <- Z.pow_succ_r by lia. f_equal. lia. }
    assert (0 < b ^ (k - 1)) by (apply Z.pow_pos_nonneg; lia).
    replace (n - (n - b ^ (k - 1))) with (b ^ (k - 1)) by lia.
    split; [nia|]. split.
    + intros _. split; [exists (k - 1); split; [unfold e0; destruct az; lia|reflexivity]|].
      right. split; [exists k; auto|exact EP].
    + intro N. exfalso. apply N. exists n. split; [|lia]. exists k. split; [unfold e0; destruct az; lia|exact En].
Qed.

Lemma paddings_powers_full : forall lq az h w bh bw p, log_accurate lq ->
  0 <= h <= 2 ^ 40 -> 0 <= w <= 2 ^ 40 ->
  paddings_powers_of lq az (h, w) bh bw = Ok p ->
  (forall b, bh = Some b -> ~ (az = true /\ h = 1) -> pad_power_result az b h (t_top p) (t_bottom p)) /\
  (forall b, bw = Some b -> ~ (az = true /\ w = 1) -> pad_power_result az b w (t_left p) (t_right p)) /\
  (bh = None -> t_top p = 0 /\ t_bottom p = 0) /\ (bw = None -> t_left p = 0 /\ t_right p = 0).
Proof.
  intros lq az h w bh bw p HA Hh Hw H. apply compute_axes_ok in H. cbn [fst snd] in H.
  destruct H as (K1 & K2 & -> & -> & -> & ->).
  assert (forall n b, 0 <= n <= 2 ^ 40 -> check_opt (fun b => 1 <? b) (Some b) = true ->
    ~ (az = true /\ n = 1) ->
    pad_power_result az b n (pad_power_axis lq az n (Some b) / 2) ((pad_power_axis lq az n (Some b) + 1) / 2)) as K.
  { intros n b Hn C Hx. cbn [check_opt] in C. apply Z.ltb_lt in C.
    destruct (pad_power_axis_full lq az n b HA Hn C Hx) as (A & B & D).
    destruct (halves_split _ A) as (S1 & S2 & S3 & S4). unfold pad_power_result. cbn zeta.
    rewrite <- Z.add_assoc, S3. auto. }
  split; [intros b ->; apply K; assumption|]. split; [intros b ->; apply K; assumption|].
  split; intros ->; cbn; lia.
Qed.

Lemma croppings_powers_full : forall lq az h w bh bw c, log_accurate lq ->
  1 <= h <= 2 ^ 40 -> 1 <= w <= 2 ^ 40 ->
  croppings_powers_of lq az (h, w) bh bw = Ok c ->
  (forall b, bh = Some b -> crop_power_result az b h (t_top c) (t_bottom c)) /\
  (forall b, bw = Some b -> crop_power_result az b w (t_left c) (t_right c)) /\
  (bh = None -> t_top c = 0 /\ t_bottom c = 0) /\ (bw = None -> t_left c = 0 /\ t_right c = 0).
Proof.
  intros lq az h w bh bw p HA Hh Hw H. apply compute_axes_ok in H. cbn [fst snd] in H.
  destruct H as (K1 & K2 & -> & -> & -> & ->).
  assert (forall n b, 1 <= n <= 2 ^ 40 -> check_opt (fun b => 1 <? b) (Some b) = true ->
    crop_power_result az b n (crop_power_axis lq az n (Some b) / 2) ((crop_power_axis lq az n (Some b) + 1) / 2)) as K.
  { intros n b Hn C. cbn [check_opt] in C. apply Z.ltb_lt in C.
    destruct (crop_power_axis_full lq az n b HA Hn C) as (A & B & D).
    destruct (halves_split (crop_power_axis lq az n (Some b)) ltac:(lia)) as (S1 & S2 & S3 & S4).
    unfold crop_power_result. cbn zeta.
    rewrite <- Z.sub_add_distr, S3. split; [exact S1|]. split; [exact S4|]. split; [lia|]. split; [exact B|].
    intro N. specialize (D N). lia. }
  split; [intros b ->; apply K; assumption|]. split; [intros b ->; apply K; assumption|].
  split; intros ->; cbn; lia.
Qed.
