From Coq Require Import Lia Lqa Qpower.
From Verif Require Import Prelude PreludeFacts DtyModel DtySpec.
Local Open Scope Q_scope.

Ltac lcase a b :=
  let E := fresh "Hl" in
  destruct (qleb a b) eqn:E; [apply qleb_iff in E|apply qleb_false in E].

(** * Powers of two *)
Lemma two_nz : ~ inject_Z 2 == 0.
Proof. intro H. discriminate H. Qed.
Lemma pow2_pos : forall e, 0 < pow2 e.
Proof. intro e. apply Qpower_0_lt. reflexivity. Qed.
Lemma pow2_add : forall a b, pow2 (a + b) == pow2 a * pow2 b.
Proof. intros. apply Qpower_plus, two_nz. Qed.
Lemma pow2_Z : forall e, (0 <= e)%Z -> pow2 e == inject_Z (2 ^ e).
Proof. intros e H. symmetry. apply Zpower_Qpower. exact H. Qed.
Lemma pow2_0 : pow2 0 == 1.
Proof. reflexivity. Qed.
Lemma pow2_opp : forall s, pow2 s * pow2 (- s) == 1.
Proof. intro s. rewrite <- pow2_add. replace (s + - s)%Z with 0%Z by lia. reflexivity. Qed.
Lemma pow2_le : forall a b, (a <= b)%Z -> pow2 a <= pow2 b.
Proof.
  intros a b H. replace b with (a + (b - a))%Z by lia. rewrite pow2_add.
  assert (1 <= pow2 (b - a)).
  { rewrite pow2_Z by lia. change 1 with (inject_Z 1). apply inject_Z_le.
    assert (0 < 2 ^ (b - a))%Z by (apply Z.pow_pos_nonneg; lia). lia. }
  pose proof (pow2_pos a). nra.
Qed.
Lemma pow2_lt_inv : forall a b, pow2 a < pow2 b -> (a < b)%Z.
Proof.
  intros a b H. destruct (Z.lt_ge_cases a b) as [L|G]; [exact L|].
  apply pow2_le in G. lra.
Qed.
Lemma pow2_le_inv : forall a b, pow2 a <= pow2 b -> (a <= b)%Z.
Proof.
  intros a b H. destruct (Z.le_gt_cases a b) as [L|G]; [exact L|].
  assert (E : (b + 1 <= a)%Z) by lia. apply pow2_le in E. rewrite pow2_add in E.
  change (pow2 1) with (2 # 1) in E. pose proof (pow2_pos b). lra.
Qed.

Definition qabs (q : Q) : Q := if qleb 0 q then q else - q.
Lemma qabs_spec : forall q, 0 <= qabs q /\ (qabs q == q \/ qabs q == - q).
Proof. intro q. unfold qabs. lcase 0 q; split; [lra|left; lra|lra|right; lra]. Qed.
Lemma qabs_comp : forall a b, a == b -> qabs a == qabs b.
Proof. intros a b H. unfold qabs. lcase 0 a; lcase 0 b; lra. Qed.
Lemma qabs_num : forall q, qabs q == Z.abs (Qnum q) # Qden q.
Proof.
  intro q. unfold qabs. destruct (qleb 0 q) eqn:E; [apply qleb_iff in E|apply qleb_false in E].
  - unfold Qle in E. cbn in E. unfold Qeq. cbn. rewrite Z.abs_eq by lia. reflexivity.
  - unfold Qlt in E. cbn in E. unfold Qeq. cbn. rewrite Z.abs_neq by lia. reflexivity.
Qed.

Lemma exponent_spec : forall q, ~ q == 0 -> pow2 (exponent q) <= qabs q < pow2 (exponent q + 1).
Proof.
  intros q N. unfold exponent. fold (qabs q).
  set (a := Z.log2 (Z.abs (Qnum q))). set (b := Z.log2 (Z.pos (Qden q))).
  assert (P : (0 < Z.abs (Qnum q))%Z).
  { destruct (Z.eq_dec (Qnum q) 0) as [E|E]; [|lia].
    exfalso. apply N. unfold Qeq. rewrite E. reflexivity. }
  pose proof (Z.log2_spec _ P) as A. fold a in A.
  pose proof (Z.log2_spec (Z.pos (Qden q)) eq_refl) as B. fold b in B.
  assert (0 <= a)%Z by apply Z.log2_nonneg. assert (0 <= b)%Z by apply Z.log2_nonneg.
  destruct A as [A1 A2]. destruct B as [B1 B2].
  unfold Z.succ in A2, B2.
  apply inject_Z_le in A1, B1. apply inject_Z_lt in A2, B2.
  rewrite <- pow2_Z in A1, A2, B1, B2 by lia.
  rewrite pow2_add in A2, B2. change (pow2 1) with (2 # 1) in A2, B2.
  set (n := inject_Z (Z.abs (Qnum q))) in *. set (d := inject_Z (Z.pos (Qden q))) in *.
  assert (D : 0 < d) by reflexivity.
  assert (Q1 : qabs q * d == n).
  { rewrite qabs_num. unfold n, d, Qeq, Qmult, inject_Z. cbn. nia. }
  pose proof (pow2_pos a) as PA. pose proof (pow2_pos b) as PB.
  assert (E : pow2 (a - b) * pow2 b == pow2 a).
  { rewrite <- pow2_add. replace (a - b + b)%Z with a by lia. reflexivity. }
  pose proof (pow2_pos (a - b)) as PE. set (x := pow2 (a - b)) in *.
  set (r := qabs q) in *. set (u := pow2 a) in *. set (v := pow2 b) in *.
  (* x v = u <= n < 2u, v <= d < 2v, r d = n *)
  destruct (qabs_spec q) as [R0 _]. fold r in R0.
  assert (Up : r < (2 # 1) * x).
  { destruct (Qlt_le_dec r ((2 # 1) * x)) as [L|G]; [exact L|exfalso].
    assert ((2 # 1) * x * v <= r * d) by nra. nra. }
  assert (Lo : x < (2 # 1) * r).
  { destruct (Qlt_le_dec x ((2 # 1) * r)) as [L|G]; [exact L|exfalso].
    assert (r * d < r * ((2 # 1) * v) \/ r == 0).
    { destruct (Qlt_le_dec 0 r); [left; nra|right; lra]. }
    destruct H1 as [H1|H1]; nra. }
  clearbody n d u v.
  destruct (qleb x r) eqn:EE.
  - apply qleb_iff in EE. rewrite pow2_add. change (pow2 1) with (2 # 1). fold x. split; [exact EE|].
    rewrite Qmult_comm. exact Up.
  - apply qleb_false in EE.
    assert (X : pow2 (a - b - 1) * (2 # 1) == x).
    { change (2 # 1) with (pow2 1). rewrite <- pow2_add.
      replace (a - b - 1 + 1)%Z with (a - b)%Z by lia. reflexivity. }
    replace (a - b - 1 + 1)%Z with (a - b)%Z by lia. fold x. split; [lra|exact EE].
Qed.

Lemma np_round_eq : forall q z, q == inject_Z z -> np_round q = z.
Proof. intros q z H. apply np_round_unique; lra. Qed.
Lemma py_int_eq : forall q z, q == inject_Z z -> py_int q = z.
Proof.
  intros q z H. unfold py_int. destruct (qleb 0 q).
  - apply Qfloor_unique; lra.
  - apply Qceiling_unique; lra.
Qed.

(** A float of [p] mantissa bits is not changed by rounding to [p'] bits. *)
Lemma to_float_exact : forall p p' v m k,
  (0 < p <= p')%Z -> v == inject_Z m * pow2 k -> (Z.abs m <= 2 ^ p)%Z -> to_float p' v == v.
Proof.
  intros p p' v m k P V M. unfold to_float.
  destruct (qeqb v 0) eqn:E; [apply qeqb_iff in E; lra|apply qeqb_false in E].
  destruct (exponent_spec v E) as [E1 E2]. set (e := exponent v) in *. clearbody e.
  set (s := (p' - 1 - e)%Z).
  assert (A : qabs v == inject_Z (Z.abs m) * pow2 k).
  { pose proof (pow2_pos k). rewrite (qabs_comp _ _ V). unfold qabs.
    destruct (Z.abs_spec m) as [[M1 ->]|[M1 ->]].
    - apply inject_Z_le in M1. change (inject_Z 0) with 0 in M1.
      lcase 0 (inject_Z m * pow2 k); nra.
    - apply inject_Z_lt in M1. change (inject_Z 0) with 0 in M1. rewrite inject_Z_opp.
      lcase 0 (inject_Z m * pow2 k); nra. }
  assert (L : (e <= p + k)%Z).
  { apply pow2_le_inv. rewrite pow2_add, (pow2_Z p) by lia.
    apply inject_Z_le in M. pose proof (pow2_pos k). rewrite A in E1.
    apply (Qle_trans _ _ _ E1). apply Qmult_le_compat_r; lra. }
  assert (I : exists z, inject_Z m * pow2 (k + s) == inject_Z z).
  { destruct (Z.le_gt_cases 0 (k + s)) as [K|K].
    - exists (m * 2 ^ (k + s))%Z. rewrite inject_Z_mult, pow2_Z by exact K. reflexivity.
    - assert (e = p + k /\ p' = p)%Z as [-> ->] by (unfold s in K; lia).
      assert (M' : (Z.abs m = 2 ^ p)%Z).
      { assert (inject_Z (2 ^ p) <= inject_Z (Z.abs m)) as G; [|rewrite <- Zle_Qle in G; lia].
        rewrite A, pow2_add, (pow2_Z p) in E1 by lia. pose proof (pow2_pos k) as PK.
        exact (proj1 (Qmult_le_r _ _ _ PK) E1). }
      assert (H2 : (2 ^ p = 2 * 2 ^ (p - 1))%Z).
      { rewrite <- Z.pow_succ_r by lia. f_equal. lia. }
      replace (k + s)%Z with (-1)%Z by (unfold s; lia).
      exists (Z.sgn m * 2 ^ (p - 1))%Z.
      assert (Em : m = (Z.sgn m * 2 ^ (p - 1) * 2)%Z) by (pose proof (Z.abs_sgn m); pose proof (Z.sgn_abs m); lia).
      rewrite Em at 1. rewrite inject_Z_mult. change (pow2 (-1)) with (1 # 2).
      change (inject_Z 2) with (2 # 1). ring. }
  destruct I as [z I].
  assert (R : np_round (v * pow2 s) = z).
  { apply np_round_eq. rewrite <- I, pow2_add, V. ring. }
  rewrite R, <- I, pow2_add, V.
  transitivity (inject_Z m * pow2 k * (pow2 s * pow2 (- s))); [ring|].
  rewrite pow2_opp. ring.
Qed.

Lemma to_float_Z : forall p z, (0 < p)%Z -> (Z.abs z <= 2 ^ p)%Z -> to_float p (inject_Z z) == inject_Z z.
Proof.
  intros p z P H. apply (to_float_exact p p _ z 0); [lia| |exact H].
  rewrite pow2_0. ring.
Qed.

(** * Ranges *)
Lemma range_of_int : forall d lo hi, int_range d lo hi -> range_of d = (lo, hi).
Proof. intros d lo hi H. destruct H; reflexivity. Qed.
Lemma int_not_float : forall d lo hi, int_range d lo hi -> is_float d = false.
Proof. intros d lo hi H. destruct H; reflexivity. Qed.
Lemma int_range_ne : forall d lo hi, int_range d lo hi -> (lo <= 0 <= hi)%Z.
Proof.
  intros d lo hi H. destruct H as [b H|b H].
  - pose proof (Z.pow_pos_nonneg 2 b). lia.
  - pose proof (Z.pow_pos_nonneg 2 (b - 1)). lia.
Qed.
Lemma fits_bounds : forall d lo hi p, (0 < p)%Z -> int_range d lo hi -> fits_in_mantissa d p ->
  (Z.abs lo <= 2 ^ p /\ Z.abs hi <= 2 ^ p)%Z.
Proof.
  intros d lo hi p P H F. destruct H as [b H|b H]; cbn in F.
  - pose proof (Z.pow_pos_nonneg 2 b). pose proof (Z.pow_le_mono_r 2 b p). lia.
  - pose proof (Z.pow_pos_nonneg 2 (b - 1)). pose proof (Z.pow_le_mono_r 2 (b - 1) p). lia.
Qed.
Lemma dtype_eqb_eq : forall a b, dtype_eqb a b = true <-> a = b.
Proof.
  intros a b. split.
  - destruct a as [x|x|p e], b as [y|y|p' e']; cbn; intro H; try discriminate H.
    + apply Z.eqb_eq in H. now subst.
    + apply Z.eqb_eq in H. now subst.
    + apply andb_prop in H as [H1 H2]. apply Z.eqb_eq in H1, H2. now subst.
  - intros ->. destruct b; cbn; rewrite ?Z.eqb_refl; reflexivity.
Qed.
Lemma gated_iff : forall d, gated d = true <-> d = DU 64 \/ d = DI 64.
Proof.
  intro d. split.
  - destruct d as [b|b|p e]; cbn; intro H; try discriminate H.
    + left. f_equal. destruct b as [|b|b]; try discriminate H.
      do 8 (try (destruct b as [b|b|]; try discriminate H)). reflexivity.
    + right. f_equal. destruct b as [|b|b]; try discriminate H.
      do 8 (try (destruct b as [b|b|]; try discriminate H)). reflexivity.
  - intros [-> | ->]; reflexivity.
Qed.
Lemma not_gated : forall d, not_64_bit d -> gated d = false.
Proof.
  intros d [A B]. destruct (gated d) eqn:E; [|reflexivity].
  apply gated_iff in E as [E|E]; congruence.
Qed.

(** Clipping an integer and converting it. *)
Definition sat (lo hi n : Z) : Z := Z.max lo (Z.min hi n).
Lemma sat_saturated : forall lo hi n, (lo <= hi)%Z -> saturated lo hi n (sat lo hi n).
Proof. intros lo hi n H. unfold saturated, sat. lia. Qed.
Lemma saturated_unique : forall lo hi n z, (lo <= hi)%Z -> saturated lo hi n z -> z = sat lo hi n.
Proof. intros lo hi n z H (A & B & C). unfold sat. lia. Qed.

Lemma clip_saturates : forall src slo shi v n lo hi,
  gated src = false -> range_of src = (slo, shi) -> v == inject_Z n ->
  (slo <= n <= shi)%Z -> (lo <= hi)%Z ->
  bound_in src lo == inject_Z lo -> bound_in src hi == inject_Z hi ->
  exists r, clip_ src v lo hi = Ok r /\ r == inject_Z (sat lo hi n).
Proof.
  intros src slo shi v n lo hi G R V N L B1 B2.
  unfold clip_. rewrite G, R. eexists. split; [reflexivity|].
  apply inject_Z_le in L as L'.
  assert (V1 : (if (lo <? slo)%Z then v else qmax v (bound_in src lo)) == inject_Z (Z.max lo n)).
  { destruct (Z.ltb_spec lo slo).
    - rewrite V. replace (Z.max lo n) with n by lia. reflexivity.
    - rewrite (qmax_compat _ _ _ _ V B1). destruct (Z.max_spec lo n) as [[H1 ->]|[H1 ->]].
      + apply inject_Z_lt in H1. qminmax; lra.
      + apply inject_Z_le in H1. qminmax; lra. }
  set (v1 := if (lo <? slo)%Z then v else qmax v (bound_in src lo)) in *. clearbody v1.
  destruct (Z.ltb_spec shi hi).
  - rewrite V1. unfold sat. f_equiv. f_equal. lia.
  - rewrite (qmin_compat _ _ _ _ V1 B2).
    destruct (Z.le_gt_cases (Z.max lo n) hi) as [H1|H1].
    + replace (sat lo hi n) with (Z.max lo n) by (unfold sat; lia). apply inject_Z_le in H1. qminmax; lra.
    + replace (sat lo hi n) with hi by (unfold sat; lia). apply inject_Z_lt in H1. qminmax; lra.
Qed.

Lemma astype_int : forall src dst lo hi v n, int_range dst lo hi -> v == inject_Z n -> (lo <= n <= hi)%Z ->
  astype src dst v = Ok (inject_Z n).
Proof.
  intros src dst lo hi v n R V N.
  assert (P : py_int v = n) by (apply py_int_eq; exact V).
  destruct R as [b R|b R]; cbn [astype range_of]; rewrite P;
    apply proj1 in N as N1; apply proj2 in N as N2; apply Z.leb_le in N1, N2;
    rewrite N1, N2; reflexivity.
Qed.

Lemma sat_in : forall lo hi n, (lo <= hi)%Z -> (lo <= sat lo hi n <= hi)%Z.
Proof. intros. unfold sat. lia. Qed.

Lemma float_value_range : forall p e, range_of (DF p e) = (- ((2 ^ p - 1) * 2 ^ e), (2 ^ p - 1) * 2 ^ e)%Z.
Proof. reflexivity. Qed.

Lemma round_in_range : forall v M, - inject_Z M <= v <= inject_Z M -> (- M <= np_round v <= M)%Z.
Proof.
  intros v M [A B]. apply np_round_mono in A, B.
  rewrite <- inject_Z_opp in A. rewrite np_round_Z in A, B. lia.
Qed.

Lemma nearest_np_round : forall v, nearest v (np_round v).
Proof.
  intro v. destruct (np_round_spec v) as (A & B & C). split; [lra|].
  intros [E|E]; apply C; [left; lra|right; exact E].
Qed.

Lemma float_to_int_saturates : forall p e dst lo hi v,
  (0 < p)%Z -> int_range dst lo hi -> fits_in_mantissa dst p ->
  - inject_Z ((2 ^ p - 1) * 2 ^ e) <= v <= inject_Z ((2 ^ p - 1) * 2 ^ e) ->
  exists n z, nearest v n /\ saturated lo hi n z /\
    change_dtype (DF p e) dst v true true = Ok (inject_Z z).
Proof.
  intros p e dst lo hi v P R F V.
  destruct (fits_bounds dst lo hi p P R F) as [F1 F2].
  pose proof (int_range_ne _ _ _ R) as NE. assert (LH : (lo <= hi)%Z) by lia.
  exists (np_round v), (sat lo hi (np_round v)). split; [apply nearest_np_round|].
  split; [apply sat_saturated; exact LH|].
  unfold change_dtype.
  assert (X : dtype_eqb (DF p e) dst = false) by (destruct R; reflexivity).
  rewrite X, (range_of_int _ _ _ R), (int_not_float _ _ _ R). cbn [andb is_float negb fst snd].
  destruct (clip_saturates (DF p e) _ _ (inject_Z (np_round v)) (np_round v) lo hi eq_refl
              (float_value_range p e)) as (r & Cl & Er).
  - reflexivity.
  - apply round_in_range. exact V.
  - exact LH.
  - apply to_float_Z; assumption.
  - apply to_float_Z; assumption.
  - rewrite Cl. cbn [bind]. apply (astype_int _ _ lo hi); [exact R|exact Er|apply sat_in; exact LH].
Qed.

Lemma int_to_int_saturates : forall src slo shi dst lo hi n,
  int_range src slo shi -> int_range dst lo hi -> not_64_bit src -> (slo <= n <= shi)%Z ->
  exists z, saturated lo hi n z /\ change_dtype src dst (inject_Z n) true true = Ok (inject_Z z).
Proof.
  intros src slo shi dst lo hi n S R G N.
  pose proof (int_range_ne _ _ _ R) as NE. assert (LH : (lo <= hi)%Z) by lia.
  exists (sat lo hi n). split; [apply sat_saturated; exact LH|].
  unfold change_dtype. destruct (dtype_eqb src dst) eqn:X.
  - apply dtype_eqb_eq in X. subst dst.
    pose proof (range_of_int _ _ _ R) as E1. rewrite (range_of_int _ _ _ S) in E1.
    injection E1 as <- <-. unfold sat. do 2 f_equal. lia.
  - rewrite (range_of_int _ _ _ R), (int_not_float _ _ _ S). rewrite andb_false_r. cbn [andb negb fst snd].
    destruct (clip_saturates src _ _ (inject_Z n) n lo hi (not_gated _ G) (range_of_int _ _ _ S))
      as (r & Cl & Er).
    + reflexivity.
    + exact N.
    + exact LH.
    + destruct S; reflexivity.
    + destruct S; reflexivity.
    + rewrite Cl. cbn [bind]. apply (astype_int _ _ lo hi); [exact R|exact Er|apply sat_in; exact LH].
Qed.

Lemma same_dtype_identity : forall d v clip round, change_dtype d d v clip round = Ok v.
Proof.
  intros. unfold change_dtype. assert (E : dtype_eqb d d = true) by (apply dtype_eqb_eq; reflexivity).
  rewrite E. reflexivity.
Qed.

Lemma big_int_raises : forall src dst v round, src = DU 64 \/ src = DI 64 -> dst <> src ->
  change_dtype src dst v true round = Err ValueError.
Proof.
  intros src dst v round G N. unfold change_dtype.
  destruct (dtype_eqb src dst) eqn:E; [apply dtype_eqb_eq in E; congruence|].
  unfold clip_. apply gated_iff in G. rewrite G. reflexivity.
Qed.

Lemma widen_int : forall a alo ahi b blo bhi n,
  int_range a alo ahi -> int_range b blo bhi -> not_64_bit a -> not_64_bit b ->
  (blo <= alo /\ ahi <= bhi)%Z -> (alo <= n <= ahi)%Z ->
  change_dtype a b (inject_Z n) true true = Ok (inject_Z n) /\
  change_dtype b a (inject_Z n) true true = Ok (inject_Z n).
Proof.
  intros a alo ahi b blo bhi n A B GA GB W N.
  destruct (int_to_int_saturates a alo ahi b blo bhi n A B GA N) as (z & (_ & S1 & _) & ->).
  rewrite S1 by lia.
  destruct (int_to_int_saturates b blo bhi a alo ahi n B A GB) as (z' & (_ & S2 & _) & ->); [lia|].
  rewrite S2 by lia. split; reflexivity.
Qed.

Lemma clip_float_bounds : forall d p e v,
  gated d = false -> (0 <= p)%Z -> (0 <= e)%Z ->
  (fst (range_of (DF p e)) < fst (range_of d))%Z -> (snd (range_of d) < snd (range_of (DF p e)))%Z ->
  clip_ d v (fst (range_of (DF p e))) (snd (range_of (DF p e))) = Ok v.
Proof.
  intros d p e v G P E A B. unfold clip_. rewrite G.
  destruct (range_of d) as [slo shi]. cbn [fst snd] in *.
  apply Z.ltb_lt in A. apply Z.ltb_lt in B.
  change (fst (range_of (DF p e))) with (- ((2 ^ p - 1) * 2 ^ e))%Z in *.
  change (snd (range_of (DF p e))) with ((2 ^ p - 1) * 2 ^ e)%Z in *.
  rewrite A, B. reflexivity.
Qed.

Lemma widen_to_float : forall a lo hi p e n,
  int_range a lo hi -> not_64_bit a -> (0 < p)%Z -> (0 <= e)%Z -> fits_in_mantissa a p ->
  (- ((2 ^ p - 1) * 2 ^ e) < lo /\ hi < (2 ^ p - 1) * 2 ^ e)%Z -> (lo <= n <= hi)%Z ->
  exists r, change_dtype a (DF p e) (inject_Z n) true true = Ok r /\ r == inject_Z n /\
    change_dtype (DF p e) a r true true = Ok (inject_Z n).
Proof.
  intros a lo hi p e n A G P E F W N.
  destruct (fits_bounds a lo hi p P A F) as [F1 F2].
  exists (to_float p (inject_Z n)). assert (T : to_float p (inject_Z n) == inject_Z n).
  { apply to_float_Z; lia. }
  split; [|split; [exact T|]].
  - unfold change_dtype. assert (X : dtype_eqb a (DF p e) = false) by (destruct A; reflexivity).
    rewrite X. cbn [is_float negb]. rewrite !andb_false_r.
    rewrite clip_float_bounds; [reflexivity|apply not_gated; exact G|lia|exact E| |];
      rewrite (range_of_int _ _ _ A); cbn [fst snd range_of]; lia.
  - destruct (float_to_int_saturates p e a lo hi (to_float p (inject_Z n)) P A F)
      as (m & z & (M & _) & (_ & S & _) & ->).
    + rewrite T, <- inject_Z_opp, <- !Zle_Qle. lia.
    + rewrite T in M. assert (m = n).
      { destruct M as [M1 M2].
        assert (inject_Z m < inject_Z (n + 1)) as U by (rewrite inject_Z_plus; change (inject_Z 1) with 1; lra).
        assert (inject_Z n < inject_Z (m + 1)) as D by (rewrite inject_Z_plus; change (inject_Z 1) with 1; lra).
        rewrite <- Zlt_Qlt in U, D. lia. }
      subst m. rewrite S by exact N. reflexivity.
Qed.

(** Floats with [p] bits and exponent at least [-k] in a wider float dtype. *)
Lemma bound_float_exact : forall p e p' e', (0 < p <= p')%Z -> (0 <= e)%Z ->
  bound_in (DF p' e') ((2 ^ p - 1) * 2 ^ e) == inject_Z ((2 ^ p - 1) * 2 ^ e) /\
  bound_in (DF p' e') (- ((2 ^ p - 1) * 2 ^ e)) == inject_Z (- ((2 ^ p - 1) * 2 ^ e)).
Proof.
  intros p e p' e' P E. cbn [bound_in].
  assert (0 < 2 ^ p)%Z by (apply Z.pow_pos_nonneg; lia).
  split.
  - apply (to_float_exact p p' _ (2 ^ p - 1) e); [exact P| |lia].
    rewrite inject_Z_mult, pow2_Z by exact E. reflexivity.
  - apply (to_float_exact p p' _ (- (2 ^ p - 1)) e); [exact P| |lia].
    rewrite pow2_Z by exact E. rewrite <- inject_Z_mult. f_equiv. f_equal. lia.
Qed.

Lemma widen_float : forall p e p' e' v m k,
  (0 < p <= p')%Z -> (0 <= e)%Z -> ((2 ^ p - 1) * 2 ^ e < (2 ^ p' - 1) * 2 ^ e')%Z ->
  v == inject_Z m * pow2 k -> (Z.abs m < 2 ^ p)%Z ->
  - inject_Z ((2 ^ p - 1) * 2 ^ e) <= v <= inject_Z ((2 ^ p - 1) * 2 ^ e) ->
  exists r r', change_dtype (DF p e) (DF p' e') v true true = Ok r /\ r == v /\
    change_dtype (DF p' e') (DF p e) r true true = Ok r' /\ r' == v.
Proof.
  intros p e p' e' v m k P E W V M B.
  assert (X : (p =? p')%Z && (e =? e')%Z = false).
  { destruct (Z.eqb_spec p p') as [->|]; [|reflexivity]. destruct (Z.eqb_spec e e') as [->|]; [lia|reflexivity]. }
  assert (X' : (p' =? p)%Z && (e' =? e)%Z = false) by (rewrite (Z.eqb_sym p'), (Z.eqb_sym e'); exact X).
  exists (to_float p' v).
  assert (T : to_float p' v == v) by (apply (to_float_exact p p' v m k); [exact P|exact V|lia]).
  set (w := to_float p' v) in *.
  destruct (bound_float_exact p e p' e' P E) as [B1 B2].
  set (M0 := ((2 ^ p - 1) * 2 ^ e)%Z) in *. set (M1 := ((2 ^ p' - 1) * 2 ^ e')%Z) in *.
  assert (C : exists c, clip_ (DF p' e') w (- M0) M0 = Ok c /\ c == v).
  { unfold clip_. cbn [gated range_of]. fold M1. eexists. split; [reflexivity|].
    destruct (Z.ltb_spec (- M0) (- M1)); [lia|]. destruct (Z.ltb_spec M1 M0); [lia|].
    rewrite (qmin_compat _ _ _ _ (qmax_compat _ _ _ _ T B2) B1). rewrite inject_Z_opp. qminmax; lra. }
  destruct C as (c & C1 & C2). exists (to_float p c).
  split; [|split; [exact T|split]].
  - unfold change_dtype. cbn [dtype_eqb]. rewrite X. cbn [is_float negb andb].
    cbn [range_of fst snd]. fold M1. unfold clip_. cbn [gated range_of]. fold M0.
    destruct (Z.ltb_spec (- M1) (- M0)); [|lia]. destruct (Z.ltb_spec M0 M1); [|lia]. reflexivity.
  - unfold change_dtype. cbn [dtype_eqb]. rewrite X'. cbn [is_float negb andb range_of fst snd].
    fold M0. rewrite C1. reflexivity.
  - rewrite <- C2. apply (to_float_exact p p c m k); [lia|rewrite C2; exact V|lia].
Qed.

(** Restoring a list of values. *)
Lemma restore_list : forall src slo shi dst lo hi ns,
  int_range src slo shi -> int_range dst lo hi -> not_64_bit src ->
  Forall (fun n => (slo <= n <= shi)%Z) ns ->
  exists zs, restore_dtypes src dst (map inject_Z ns) = Ok (map inject_Z zs) /\
             Forall2 (saturated lo hi) ns zs.
Proof.
  intros src slo shi dst lo hi ns S D G F. unfold restore_dtypes, mapM.
  induction F as [|n ns N F IH].
  - exists []. split; [reflexivity|constructor].
  - destruct IH as (zs & E & F2).
    destruct (int_to_int_saturates src slo shi dst lo hi n S D G N) as (z & Sz & Ez).
    exists (z :: zs). split; [|constructor; assumption].
    cbn [map sequence]. rewrite Ez, E. reflexivity.
Qed.
