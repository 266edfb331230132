(** Facts about rounding to floats ([DtyModel.to_float]). *)
From Verif Require Import Prelude PreludeFacts DtyModel DtyProofs.
From Coq Require Import Lia Lqa Qround.
Local Open Scope Q_scope.

Lemma exponent_unique q e : ~ q == 0 -> pow2 e <= qabs q < pow2 (e + 1) -> exponent q = e.
Proof.
  intros N [L H]. destruct (exponent_spec q N) as [L' H'].
  assert (exponent q < e + 1)%Z by (apply pow2_lt_inv; lra).
  assert (e < exponent q + 1)%Z by (apply pow2_lt_inv; lra). lia.
Qed.

Lemma exponent_compat a b : ~ a == 0 -> a == b -> exponent a = exponent b.
Proof.
  intros N E. apply exponent_unique; [exact N|]. rewrite (qabs_comp _ _ E). apply exponent_spec. lra.
Qed.

Lemma np_round_compat' a b : a == b -> np_round a = np_round b.
Proof. intros E. apply Z.le_antisymm; apply np_round_mono; lra. Qed.

Lemma qeqb_compat a b : a == b -> qeqb a 0 = qeqb b 0.
Proof.
  intros E. destruct (qeqb a 0) eqn:A, (qeqb b 0) eqn:B; try reflexivity.
  - apply qeqb_iff in A. apply qeqb_false in B. lra.
  - apply qeqb_iff in B. apply qeqb_false in A. lra.
Qed.

Lemma to_float_compat p a b : a == b -> to_float p a = to_float p b.
Proof.
  intros E. unfold to_float. rewrite (qeqb_compat a b E). destruct (qeqb b 0) eqn:B; [reflexivity|]. apply qeqb_false in B.
  rewrite (exponent_compat a b) by (exact E || lra).
  assert (np_round (a * pow2 (p - 1 - exponent b)) = np_round (b * pow2 (p - 1 - exponent b))) as -> by (apply np_round_compat'; rewrite E; reflexivity).
  reflexivity.
Qed.

Lemma to_float_0 p a : a == 0 -> to_float p a = 0.
Proof. intros E. unfold to_float. destruct (qeqb a 0) eqn:A; [reflexivity|]. apply qeqb_false in A. lra. Qed.

Lemma np_round_opp q : np_round (- q) = (- np_round q)%Z.
Proof.
  destruct (np_round_spec q) as [A [B C]]. destruct (np_round_spec (- q)) as [A' [B' C']].
  set (n := np_round q) in *. set (m := np_round (- q)) in *. clearbody n m.
  assert (inject_Z (m + n - 1) <= 0) as U by (unfold Zminus; rewrite !inject_Z_plus; change (inject_Z (-(1))) with (- (1)); lra).
  assert (0 <= inject_Z (m + n + 1)) as V by (rewrite !inject_Z_plus; change (inject_Z 1) with 1; lra).
  change 0 with (inject_Z 0) in U, V. rewrite <- Zle_Qle in U, V.
  assert (m + n = 0 \/ m + n = 1 \/ m + n = -1)%Z as [K|[K|K]] by lia; [lia| |].
  - assert (inject_Z m == 1 - inject_Z n) as KK by (replace m with (1 - n)%Z by lia; unfold Zminus; rewrite inject_Z_plus, inject_Z_opp; reflexivity).
    assert (Z.even n = true) as E1 by (apply C; left; lra). assert (Z.even m = true) as E2 by (apply C'; left; lra).
    replace m with (1 - n)%Z in E2 by lia. rewrite Z.even_sub, E1 in E2. discriminate.
  - assert (inject_Z m == - (1) - inject_Z n) as KK by (replace m with (-1 - n)%Z by lia; unfold Zminus; rewrite inject_Z_plus, inject_Z_opp; reflexivity).
    assert (Z.even n = true) as E1 by (apply C; right; lra). assert (Z.even m = true) as E2 by (apply C'; right; lra).
    replace m with (-1 - n)%Z in E2 by lia. rewrite Z.even_sub, E1 in E2. discriminate.
Qed.

Lemma qabs_opp q : qabs (- q) == qabs q.
Proof. destruct (qabs_spec q) as [P [E|E]], (qabs_spec (- q)) as [P' [E'|E']]; lra. Qed.

Lemma to_float_opp p q : to_float p (- q) == - to_float p q.
Proof.
  destruct (Qeq_dec q 0) as [E|N].
  - rewrite (to_float_0 p q E), (to_float_0 p (- q)) by lra. reflexivity.
  - unfold to_float. destruct (qeqb q 0) eqn:A; [apply qeqb_iff in A; contradiction|].
    destruct (qeqb (- q) 0) eqn:B; [apply qeqb_iff in B; exfalso; apply N; lra|].
    assert (exponent (- q) = exponent q) as ->.
    { apply exponent_unique; [lra|]. rewrite qabs_opp. apply exponent_spec. exact N. }
    rewrite (np_round_compat' (- q * pow2 (p - 1 - exponent q)) (- (q * pow2 (p - 1 - exponent q)))) by ring.
    rewrite np_round_opp, inject_Z_opp. ring.
Qed.

Lemma to_float_nonneg p q : 0 <= q -> 0 <= to_float p q.
Proof.
  intros H. unfold to_float. destruct (qeqb q 0); [lra|]. set (s := (p - 1 - exponent q)%Z).
  assert (0 <= np_round (q * pow2 s))%Z as R.
  { rewrite <- (np_round_Z 0). apply np_round_mono. change (inject_Z 0) with 0. pose proof (pow2_pos s). nra. }
  rewrite Zle_Qle in R. change (inject_Z 0) with 0 in R. pose proof (pow2_pos (- s)). nra.
Qed.

(** For a positive number: at least the power of two below it, at most the one above. *)
Lemma to_float_binade p q : (0 < p)%Z -> 0 < q -> pow2 (exponent q) <= to_float p q <= pow2 (exponent q + 1).
Proof.
  intros P H. assert (~ q == 0) as N by lra. destruct (exponent_spec q N) as [L U].
  assert (qabs q == q) as A by (destruct (qabs_spec q) as [? [?|?]]; lra). rewrite A in L, U.
  unfold to_float. destruct (qeqb q 0) eqn:B; [apply qeqb_iff in B; contradiction|]. set (e := exponent q) in *. clearbody e.
  set (s := (p - 1 - e)%Z). pose proof (pow2_pos s) as PS. pose proof (pow2_pos (- s)) as PM.
  assert (pow2 e == inject_Z (2 ^ (p - 1)) * pow2 (- s)) as E1.
  { rewrite <- pow2_Z by lia. rewrite <- pow2_add. replace (p - 1 + - s)%Z with e by (unfold s; lia). reflexivity. }
  assert (pow2 (e + 1) == inject_Z (2 ^ p) * pow2 (- s)) as E2.
  { rewrite <- pow2_Z by lia. rewrite <- pow2_add. replace (p + - s)%Z with (e + 1)%Z by (unfold s; lia). reflexivity. }
  pose proof (pow2_opp s) as O.
  assert (inject_Z (2 ^ (p - 1)) <= q * pow2 s) as L2.
  { rewrite E1 in L. setoid_replace (inject_Z (2 ^ (p - 1))) with (inject_Z (2 ^ (p - 1)) * pow2 (- s) * pow2 s) by (rewrite <- Qmult_assoc, (Qmult_comm (pow2 (- s))), O; ring). nra. }
  assert (q * pow2 s <= inject_Z (2 ^ p)) as U2.
  { rewrite E2 in U. setoid_replace (inject_Z (2 ^ p)) with (inject_Z (2 ^ p) * pow2 (- s) * pow2 s) by (rewrite <- Qmult_assoc, (Qmult_comm (pow2 (- s))), O; ring). nra. }
  apply np_round_mono in L2, U2. rewrite np_round_Z in L2, U2. rewrite Zle_Qle in L2, U2. rewrite E1, E2. split; nra.
Qed.

Lemma to_float_mono_pos p a b : (0 < p)%Z -> 0 < a -> a <= b -> to_float p a <= to_float p b.
Proof.
  intros P A H. assert (~ a == 0) as NA by lra. assert (~ b == 0) as NB by lra.
  assert (qabs a == a) as QA by (destruct (qabs_spec a) as [? [?|?]]; lra). assert (qabs b == b) as QB by (destruct (qabs_spec b) as [? [?|?]]; lra).
  destruct (exponent_spec a NA) as [LA UA]. destruct (exponent_spec b NB) as [LB UB]. rewrite QA in LA, UA. rewrite QB in LB, UB.
  assert (exponent a < exponent b + 1)%Z as X by (apply pow2_lt_inv; lra).
  destruct (Z.eq_dec (exponent a) (exponent b)) as [E|E].
  - unfold to_float. destruct (qeqb a 0) eqn:B; [apply qeqb_iff in B; contradiction|]. destruct (qeqb b 0) eqn:B'; [apply qeqb_iff in B'; contradiction|].
    rewrite E. set (s := (p - 1 - exponent b)%Z). pose proof (pow2_pos s). pose proof (pow2_pos (- s)).
    assert (np_round (a * pow2 s) <= np_round (b * pow2 s))%Z as M by (apply np_round_mono; nra). rewrite Zle_Qle in M. nra.
  - destruct (to_float_binade p a P A) as [_ U]. destruct (to_float_binade p b P) as [L _]; [lra|].
    assert (pow2 (exponent a + 1) <= pow2 (exponent b)) by (apply pow2_le; lia). lra.
Qed.

Lemma to_float_mono p a b : (0 < p)%Z -> a <= b -> to_float p a <= to_float p b.
Proof.
  intros P H. destruct (Qlt_le_dec 0 a) as [A|A].
  - apply to_float_mono_pos; assumption.
  - destruct (Qlt_le_dec b 0) as [B|B].
    + assert (to_float p (- b) <= to_float p (- a)) as M by (apply to_float_mono_pos; [exact P|lra|lra]). rewrite !to_float_opp in M. lra.
    + pose proof (to_float_nonneg p b B). assert (0 <= to_float p (- a)) as M by (apply to_float_nonneg; lra). rewrite to_float_opp in M. lra.
Qed.

(** The relative error is at most 2^-p. *)
Lemma to_float_near p q : (0 < p)%Z -> - (qabs q * pow2 (- p)) <= to_float p q - q <= qabs q * pow2 (- p).
Proof.
  intros P. destruct (Qeq_dec q 0) as [E|N].
  { rewrite (to_float_0 p q E). destruct (qabs_spec q) as [QP _]. pose proof (pow2_pos (- p)). nra. }
  destruct (exponent_spec q N) as [L U]. unfold to_float. destruct (qeqb q 0) eqn:B; [apply qeqb_iff in B; contradiction|].
  set (e := exponent q) in *. clearbody e. set (s := (p - 1 - e)%Z). destruct (np_round_spec (q * pow2 s)) as [R1 [R2 _]].
  set (n := inject_Z (np_round (q * pow2 s))) in *. clearbody n. pose proof (pow2_opp s) as O. pose proof (pow2_pos (- s)) as PM.
  assert (pow2 (- s) * (1 # 2) <= qabs q * pow2 (- p)) as K.
  { assert (pow2 (- s) * (1 # 2) == pow2 e * pow2 (- p)) as ->.
    { change (1 # 2) with (pow2 (-1)). rewrite <- !pow2_add. replace (- s + -1)%Z with (e + - p)%Z by (unfold s; lia). reflexivity. }
    pose proof (pow2_pos (- p)). nra. }
  assert (q == q * pow2 s * pow2 (- s)) as EQ by (rewrite <- Qmult_assoc, O; ring).
  assert (n * pow2 (- s) - q == (n - q * pow2 s) * pow2 (- s)) as D by (rewrite EQ at 1; ring).
  split; nra.
Qed.

Lemma to_float_small p z : (0 < p)%Z -> (Z.abs z <= 2 ^ p)%Z -> forall q, q == inject_Z z -> to_float p q == inject_Z z.
Proof. intros P H q E. rewrite (to_float_compat p q (inject_Z z) E). apply to_float_Z; assumption. Qed.
