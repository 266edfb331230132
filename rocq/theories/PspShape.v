From Verif Require Import Prelude PreludeFacts GeoModel PspModel PspSpec PspProofs.
From Coq Require Import Lia Lqa Qabs Setoid Qfield.
Local Open Scope Q_scope.

(** ** Small jitter: a convex quad *)

Lemma core : forall a b c d e f t,
  0 <= a <= t -> 0 <= b <= t -> 0 <= c <= t -> 0 <= d <= t -> 0 <= e <= t -> 0 <= f <= t -> 3 * t < 1 ->
  0 < (1 - c - a) * (1 - f - b) - (d - b) * (1 - e - a).
Proof.
  intros a b c d e f t A B C D E F T.
  assert (P1 : (d - b) * (1 - e - a) <= (t - b) * (1 - e - a)) by (apply Qmult_le_compat_r; lra).
  assert (P2 : (1 - e - a) * (t - b) <= (1 - a) * (t - b)) by (apply Qmult_le_compat_r; lra).
  assert (P3 : (1 - t - a) * (1 - f - b) <= (1 - c - a) * (1 - f - b)) by (apply Qmult_le_compat_r; lra).
  assert (P4 : (1 - t - b) * (1 - t - a) <= (1 - f - b) * (1 - t - a)) by (apply Qmult_le_compat_r; lra).
  assert (P5 : 0 <= (t - a) * (1 - 2 * t)) by (apply Qmult_le_0_compat; lra).
  assert (P6 : 0 < (1 - t) * (1 - 3 * t)) by (apply Qmult_lt_0_compat; lra).
  assert (P7 : 0 <= t * b) by (apply Qmult_le_0_compat; lra).
  lra.
Qed.

Lemma moved_convex : forall j t h w q, small_jitter j t h w -> moved_corners j h w q -> convex q.
Proof.
  intros j t h w q S M. pose proof (small_jitter_t _ _ _ _ S) as (T0 & T1 & HP & WP & LH & LW).
  assert (T3 : 3 * t < 1).
  { destruct (Qlt_le_dec (inject_Z h) (inject_Z w)) as [L|L].
    - assert (0 <= t * (inject_Z w - inject_Z h)) by (apply Qmult_le_0_compat; lra).
      destruct (Qlt_le_dec (3 * t) 1) as [|G]; [assumption|].
      assert (0 <= (3 * t - 1) * inject_Z h) by (apply Qmult_le_0_compat; lra). lra.
    - assert (0 <= t * (inject_Z h - inject_Z w)) by (apply Qmult_le_0_compat; lra).
      destruct (Qlt_le_dec (3 * t) 1) as [|G]; [assumption|].
      assert (0 <= (3 * t - 1) * inject_Z w) by (apply Qmult_le_0_compat; lra). lra. }
  destruct S as (J & _).
  assert (F : forall c, In c [tl j; tr j; br j; bl j] -> 0 <= Qabs (fst c) <= t /\ 0 <= Qabs (snd c) <= t).
  { intros c I. destruct (J c I). repeat split; try apply Qabs_nonneg; assumption. }
  destruct (F (tl j)) as (a & b); [simpl; tauto|]. destruct (F (tr j)) as (c & d); [simpl; tauto|].
  destruct (F (br j)) as (e & f); [simpl; tauto|]. destruct (F (bl j)) as (g & k); [simpl; tauto|].
  destruct M as ((X0 & Y0) & (X1 & Y1) & (X2 & Y2) & (X3 & Y3)). cbn [fst snd] in *.
  set (a_ := Qabs (fst (tl j))) in *. set (b_ := Qabs (snd (tl j))) in *.
  set (c_ := Qabs (fst (tr j))) in *. set (d_ := Qabs (snd (tr j))) in *.
  set (e_ := Qabs (fst (br j))) in *. set (f_ := Qabs (snd (br j))) in *.
  set (g_ := Qabs (fst (bl j))) in *. set (k_ := Qabs (snd (bl j))) in *.
  set (W := inject_Z w) in *. set (H := inject_Z h) in *.
  assert (WH : 0 < W * H) by (apply Qmult_lt_0_compat; assumption).
  unfold convex, area2. rewrite X0, Y0, X1, Y1, X2, Y2, X3, Y3.
  assert (G : forall x y, 0 < x -> y == (W * H) * x -> 0 < y).
  { intros x y X E. rewrite E. apply Qmult_lt_0_compat; assumption. }
  repeat split.
  - apply (G _ _ (core d_ c_ f_ e_ k_ g_ t d c f e k g T3)). ring.
  - apply (G _ _ (core e_ f_ g_ k_ a_ b_ t e f g k a b T3)). ring.
  - apply (G _ _ (core k_ g_ b_ a_ d_ c_ t k g b a d c T3)). ring.
  - apply (G _ _ (core a_ b_ c_ d_ e_ f_ t a b c d e f T3)). ring.
Qed.

(** ** Enlarging *)

Lemma peq_refl : forall p, peq p p. Proof. split; reflexivity. Qed.
Lemma quad_eq_refl : forall q, quad_eq q q. Proof. intro. repeat split; reflexivity. Qed.
Lemma quad_eq_trans : forall a b c, quad_eq a b -> quad_eq b c -> quad_eq a c.
Proof.
  intros a b c ((A1&A2)&(A3&A4)&(A5&A6)&(A7&A8)) ((B1&B2)&(B3&B4)&(B5&B6)&(B7&B8)).
  repeat split; etransitivity; eassumption.
Qed.
Lemma quad_eq_sym : forall a b, quad_eq a b -> quad_eq b a.
Proof. intros a b ((A1&A2)&(A3&A4)&(A5&A6)&(A7&A8)). repeat split; symmetry; assumption. Qed.

Lemma convex_eq : forall a b, quad_eq a b -> convex a -> convex b.
Proof.
  intros a b ((A1&A2)&(A3&A4)&(A5&A6)&(A7&A8)). unfold convex, area2.
  rewrite A1, A2, A3, A4, A5, A6, A7, A8. tauto.
Qed.
Lemma aligned_eq : forall a b, quad_eq a b -> aligned a -> aligned b.
Proof.
  intros a b ((A1&A2)&(A3&A4)&(A5&A6)&(A7&A8)). unfold aligned.
  rewrite A1, A2, A3, A4, A5, A6, A7, A8. tauto.
Qed.
Lemma enlarged_eq : forall sx sy a b, quad_eq a b -> quad_eq (enlarged sx sy a) (enlarged sx sy b).
Proof.
  intros sx sy a b ((A1&A2)&(A3&A4)&(A5&A6)&(A7&A8)). unfold quad_eq, peq, enlarged. simpl.
  rewrite A1, A2, A3, A4, A5, A6, A7, A8. repeat split; reflexivity.
Qed.
Lemma enlarged_enlarged : forall sx sy tx ty q,
  quad_eq (enlarged sx sy (enlarged tx ty q)) (enlarged (sx + tx) (sy + ty) q).
Proof. intros. unfold quad_eq, peq, enlarged. simpl. repeat split; ring. Qed.
Lemma enlarged_ext : forall sx sy tx ty q, sx == tx -> sy == ty ->
  quad_eq (enlarged sx sy q) (enlarged tx ty q).
Proof. intros sx sy tx ty q X Y. unfold quad_eq, peq, enlarged. simpl. rewrite X, Y. repeat split; reflexivity. Qed.
Lemma enlarged_0 : forall q, quad_eq (enlarged 0 0 q) q.
Proof. intros. unfold quad_eq, peq, enlarged. simpl. repeat split; ring. Qed.
Lemma enlarged_aligned : forall sx sy q, 0 <= sx -> 0 <= sy -> aligned q -> aligned (enlarged sx sy q).
Proof. intros sx sy q X Y (A & B & C & D). unfold aligned, enlarged. simpl. repeat split; lra. Qed.
Lemma enlarged_convex : forall sx sy q, 0 <= sx -> 0 <= sy -> aligned q -> convex q -> convex (enlarged sx sy q).
Proof.
  intros sx sy [[x0 y0] [x1 y1] [x2 y2] [x3 y3]] X Y (A & B & C & D). unfold convex, area2, enlarged.
  cbn [tl tr br bl fst snd] in *. intros (P0 & P1 & P2 & P3).
  assert (M : forall s d, 0 <= s -> 0 <= d -> 0 <= s * d) by (intros; apply Qmult_le_0_compat; lra).
  pose proof (M sx (y3 - y0) X ltac:(lra)). pose proof (M sx (y2 - y1) X ltac:(lra)).
  pose proof (M sy (x1 - x0) Y ltac:(lra)). pose proof (M sy (x2 - x3) Y ltac:(lra)).
  pose proof (M sx sy X Y).
  repeat split; lra.
Qed.

(** ** Lengths *)

Lemma int_dist_ge : forall p q n, (0 <= n)%Z -> (inject_Z (n * n) <= dist2 p q <-> (n <= int_dist p q)%Z).
Proof.
  intros p q n N. unfold int_dist. fold (dist2 p q).
  assert (P : 0 <= dist2 p q).
  { unfold dist2. assert (S : forall x : Q, 0 <= x * x).
    { intro x. destruct (Qlt_le_dec x 0); [setoid_replace (x * x) with ((- x) * (- x)) by ring; apply Qmult_le_0_compat; lra|apply Qmult_le_0_compat; lra]. }
    pose proof (S (fst q - fst p)). pose proof (S (snd q - snd p)). lra. }
  assert (F : (0 <= Qfloor (dist2 p q))%Z) by (change 0%Z with (Qfloor 0); apply Qfloor_resp_le; exact P).
  split.
  - intro L. apply Z.sqrt_le_square; [exact F|exact N|].
    rewrite <- (Qfloor_Z (n * n)). apply Qfloor_resp_le. exact L.
  - intro L. apply Z.sqrt_le_square in L; [|exact F|exact N].
    apply Qle_trans with (inject_Z (Qfloor (dist2 p q))); [rewrite <- Zle_Qle; exact L|apply Qfloor_le].
Qed.

Lemma int_dist_nonneg : forall p q, (0 <= int_dist p q)%Z.
Proof. intros. apply Z.sqrt_nonneg. Qed.

Lemma int_dist_eq : forall p q r s, dist2 p q == dist2 r s -> int_dist p q = int_dist r s.
Proof. intros p q r s E. unfold int_dist. fold (dist2 p q) (dist2 r s). rewrite E. reflexivity. Qed.

Lemma sq_le : forall n d : Q, 0 <= n -> n <= d -> n * n <= d * d.
Proof.
  intros n d N L. apply Qle_trans with (d * n).
  - apply Qmult_le_compat_r; lra.
  - setoid_replace (d * n) with (n * d) by ring. apply Qmult_le_compat_r; lra.
Qed.
Lemma sq_pos : forall x : Q, 0 <= x * x.
Proof.
  intro x. destruct (Qlt_le_dec x 0).
  - setoid_replace (x * x) with ((- x) * (- x)) by ring. apply Qmult_le_0_compat; lra.
  - apply Qmult_le_0_compat; lra.
Qed.

Lemma int_dist_x : forall p q n, (0 <= n)%Z -> inject_Z n <= fst q - fst p -> (n <= int_dist p q)%Z.
Proof.
  intros p q n N L. apply int_dist_ge; [exact N|]. rewrite inject_Z_mult. unfold dist2.
  pose proof (sq_le (inject_Z n) (fst q - fst p)) as S. pose proof (sq_pos (snd q - snd p)).
  assert (0 <= inject_Z n) by (change 0 with (inject_Z 0); rewrite <- Zle_Qle; exact N).
  specialize (S H0 L). lra.
Qed.
Lemma int_dist_y : forall p q n, (0 <= n)%Z -> inject_Z n <= snd p - snd q -> (n <= int_dist p q)%Z.
Proof.
  intros p q n N L. apply int_dist_ge; [exact N|]. rewrite inject_Z_mult. unfold dist2.
  pose proof (sq_le (inject_Z n) (snd p - snd q)) as S. pose proof (sq_pos (fst q - fst p)).
  assert (0 <= inject_Z n) by (change 0 with (inject_Z 0); rewrite <- Zle_Qle; exact N).
  specialize (S H0 L).
  setoid_replace ((snd q - snd p) * (snd q - snd p)) with ((snd p - snd q) * (snd p - snd q)) by ring. lra.
Qed.

(** ** The loops *)

Definition widths (q : quad) : Z := Z.min (int_dist (tl q) (tr q)) (int_dist (bl q) (br q)).
Definition heights (q : quad) : Z := Z.min (int_dist (br q) (tr q)) (int_dist (bl q) (tl q)).

Lemma widen_S : forall fuel q, widen (S fuel) 2 q =
  if (widths q <? 2)%Z
  then widen fuel 2
         (mkQuad (fst (tl q) - inject_Z (2 - widths q) / 2, snd (tl q)) (fst (tr q) + inject_Z (2 - widths q) / 2, snd (tr q))
                 (fst (br q) + inject_Z (2 - widths q) / 2, snd (br q)) (fst (bl q) - inject_Z (2 - widths q) / 2, snd (bl q)))
  else Some (q, Z.max (int_dist (tl q) (tr q)) (int_dist (bl q) (br q))).
Proof. reflexivity. Qed.
Lemma heighten_S : forall fuel q, heighten (S fuel) 2 q =
  if (heights q <? 2)%Z
  then heighten fuel 2
         (mkQuad (fst (tl q), snd (tl q) - inject_Z (2 - heights q) / 2) (fst (tr q), snd (tr q) - inject_Z (2 - heights q) / 2)
                 (fst (br q), snd (br q) + inject_Z (2 - heights q) / 2) (fst (bl q), snd (bl q) + inject_Z (2 - heights q) / 2))
  else Some (q, Z.max (int_dist (br q) (tr q)) (int_dist (bl q) (tl q))).
Proof. reflexivity. Qed.

Lemma half_step : forall n, (0 <= n)%Z -> 0 <= inject_Z n / 2.
Proof.
  intros n N. apply Qle_shift_div_l; [reflexivity|].
  assert (0 <= inject_Z n) by (change 0 with (inject_Z 0); rewrite <- Zle_Qle; exact N). lra.
Qed.

(** [k] more rounds suffice if the horizontal extents are at least [2 - k] and ... *)
Lemma widen_spec : forall n k q, aligned q -> (k <= 2)%nat -> (k <= n)%nat ->
  inject_Z (2 - Z.of_nat k) <= fst (tr q) - fst (tl q) ->
  inject_Z (2 - Z.of_nat k) <= fst (br q) - fst (bl q) ->
  exists s q', widen (S n) 2 q = Some (q', Z.max (int_dist (tl q') (tr q')) (int_dist (bl q') (br q'))) /\
    0 <= s /\ quad_eq q' (enlarged s 0 q) /\ (2 <= widths q')%Z /\ ((2 <= widths q)%Z -> q' = q).
Proof.
  induction n as [|n IH]; intros k q AL K2 KN D1 D2.
  - assert (k = O) by lia. subst k. rewrite widen_S.
    assert (W : (2 <= widths q)%Z).
    { unfold widths. apply Z.min_glb; apply int_dist_x; try lia; assumption. }
    destruct (widths q <? 2)%Z eqn:E; [apply Z.ltb_lt in E; lia|].
    exists 0, q. split; [reflexivity|]. split; [lra|]. split; [apply quad_eq_sym, enlarged_0|]. tauto.
  - rewrite widen_S. destruct (widths q <? 2)%Z eqn:E.
    + apply Z.ltb_lt in E.
      assert (WN : (0 <= widths q)%Z) by (unfold widths; apply Z.min_glb; apply int_dist_nonneg).
      assert (KW : (2 - Z.of_nat k <= widths q)%Z).
      { unfold widths. apply Z.min_glb; apply int_dist_x; try lia; assumption. }
      set (st := inject_Z (2 - widths q) / 2).
      assert (ST : 0 <= st) by (apply half_step; lia).
      assert (ST2 : 2 * st == inject_Z (2 - widths q)) by (unfold st; field).
      set (q1 := mkQuad (fst (tl q) - st, snd (tl q)) (fst (tr q) + st, snd (tr q))
                        (fst (br q) + st, snd (br q)) (fst (bl q) - st, snd (bl q))).
      assert (Q1 : quad_eq q1 (enlarged st 0 q)) by (unfold quad_eq, peq, enlarged, q1; simpl; repeat split; ring).
      assert (L : inject_Z (2 - Z.of_nat k) + 1 <= inject_Z (2 - Z.of_nat k) + 2 * st).
      { rewrite ST2. assert (inject_Z 1 <= inject_Z (2 - widths q)) by (rewrite <- Zle_Qle; lia). change (inject_Z 1) with 1 in H. lra. }
      destruct k as [|k']; [lia|].
      assert (EK : inject_Z (2 - Z.of_nat k') == inject_Z (2 - Z.of_nat (S k')) + 1).
      { replace (2 - Z.of_nat k')%Z with (2 - Z.of_nat (S k') + 1)%Z by lia. rewrite inject_Z_plus. reflexivity. }
      destruct (IH k' q1) as (s & q' & R & S0 & QE & W & _); try lia.
      * apply (aligned_eq (enlarged st 0 q)); [apply quad_eq_sym; exact Q1|]. apply enlarged_aligned; [exact ST|lra|exact AL].
      * unfold q1. simpl fst. lra.
      * unfold q1. simpl fst. lra.
      * exists (s + st), q'. split; [exact R|]. split; [lra|]. split.
        -- apply (quad_eq_trans _ (enlarged s 0 q1) _ QE).
           apply (quad_eq_trans _ (enlarged s 0 (enlarged st 0 q))); [apply enlarged_eq; exact Q1|].
           apply (quad_eq_trans _ (enlarged (s + st) (0 + 0) q)); [apply enlarged_enlarged|].
           unfold quad_eq, peq, enlarged; simpl; repeat split; ring.
        -- split; [exact W|]. intro. lia.
    + apply Z.ltb_ge in E. exists 0, q. split; [reflexivity|]. split; [lra|].
      split; [apply quad_eq_sym, enlarged_0|]. tauto.
Qed.

Lemma heighten_spec : forall n k q, aligned q -> (k <= 2)%nat -> (k <= n)%nat ->
  inject_Z (2 - Z.of_nat k) <= snd (bl q) - snd (tl q) ->
  inject_Z (2 - Z.of_nat k) <= snd (br q) - snd (tr q) ->
  exists s q', heighten (S n) 2 q = Some (q', Z.max (int_dist (br q') (tr q')) (int_dist (bl q') (tl q'))) /\
    0 <= s /\ quad_eq q' (enlarged 0 s q) /\ (2 <= heights q')%Z /\ ((2 <= heights q)%Z -> q' = q).
Proof.
  induction n as [|n IH]; intros k q AL K2 KN D1 D2.
  - assert (k = O) by lia. subst k. rewrite heighten_S.
    assert (W : (2 <= heights q)%Z).
    { unfold heights. apply Z.min_glb; apply int_dist_y; try lia; assumption. }
    destruct (heights q <? 2)%Z eqn:E; [apply Z.ltb_lt in E; lia|].
    exists 0, q. split; [reflexivity|]. split; [lra|]. split; [apply quad_eq_sym, enlarged_0|]. tauto.
  - rewrite heighten_S. destruct (heights q <? 2)%Z eqn:E.
    + apply Z.ltb_lt in E.
      assert (WN : (0 <= heights q)%Z) by (unfold heights; apply Z.min_glb; apply int_dist_nonneg).
      assert (KW : (2 - Z.of_nat k <= heights q)%Z).
      { unfold heights. apply Z.min_glb; apply int_dist_y; try lia; assumption. }
      set (st := inject_Z (2 - heights q) / 2).
      assert (ST : 0 <= st) by (apply half_step; lia).
      assert (ST2 : 2 * st == inject_Z (2 - heights q)) by (unfold st; field).
      set (q1 := mkQuad (fst (tl q), snd (tl q) - st) (fst (tr q), snd (tr q) - st)
                        (fst (br q), snd (br q) + st) (fst (bl q), snd (bl q) + st)).
      assert (Q1 : quad_eq q1 (enlarged 0 st q)) by (unfold quad_eq, peq, enlarged, q1; simpl; repeat split; ring).
      assert (L : inject_Z (2 - Z.of_nat k) + 1 <= inject_Z (2 - Z.of_nat k) + 2 * st).
      { rewrite ST2. assert (inject_Z 1 <= inject_Z (2 - heights q)) by (rewrite <- Zle_Qle; lia). change (inject_Z 1) with 1 in H. lra. }
      destruct k as [|k']; [lia|].
      assert (EK : inject_Z (2 - Z.of_nat k') == inject_Z (2 - Z.of_nat (S k')) + 1).
      { replace (2 - Z.of_nat k')%Z with (2 - Z.of_nat (S k') + 1)%Z by lia. rewrite inject_Z_plus. reflexivity. }
      destruct (IH k' q1) as (s & q' & R & S0 & QE & W & _); try lia.
      * apply (aligned_eq (enlarged 0 st q)); [apply quad_eq_sym; exact Q1|]. apply enlarged_aligned; [lra|exact ST|exact AL].
      * unfold q1. simpl snd. lra.
      * unfold q1. simpl snd. lra.
      * exists (s + st), q'. split; [exact R|]. split; [lra|]. split.
        -- apply (quad_eq_trans _ (enlarged 0 s q1) _ QE).
           apply (quad_eq_trans _ (enlarged 0 s (enlarged 0 st q))); [apply enlarged_eq; exact Q1|].
           apply (quad_eq_trans _ (enlarged (0 + 0) (s + st) q)); [apply enlarged_enlarged|].
           unfold quad_eq, peq, enlarged; simpl; repeat split; ring.
        -- split; [exact W|]. intro. lia.
    + apply Z.ltb_ge in E. exists 0, q. split; [reflexivity|]. split; [lra|].
      split; [apply quad_eq_sym, enlarged_0|]. tauto.
Qed.

Lemma widths_eq : forall a b, quad_eq a b -> int_dist (tl a) (tr a) = int_dist (tl b) (tr b) /\
  int_dist (bl a) (br a) = int_dist (bl b) (br b).
Proof.
  intros a b ((A1&A2)&(A3&A4)&(A5&A6)&(A7&A8)). split; apply int_dist_eq; unfold dist2.
  - rewrite A1, A2, A3, A4. reflexivity.
  - rewrite A5, A6, A7, A8. reflexivity.
Qed.
Lemma widths_heighten : forall s q, int_dist (tl (enlarged 0 s q)) (tr (enlarged 0 s q)) = int_dist (tl q) (tr q) /\
  int_dist (bl (enlarged 0 s q)) (br (enlarged 0 s q)) = int_dist (bl q) (br q).
Proof. intros. split; apply int_dist_eq; unfold dist2, enlarged; simpl; ring. Qed.

Lemma dist2_sym : forall p q, dist2 p q == dist2 q p.
Proof. intros. unfold dist2. ring. Qed.

Lemma longer_side_max : forall p q r s,
  longer_side (Z.max (int_dist p q) (int_dist r s)) (dist2 p q) (dist2 r s).
Proof.
  intros p q r s. pose proof (int_dist_nonneg p q). pose proof (int_dist_nonneg r s).
  set (n := Z.max (int_dist p q) (int_dist r s)).
  assert (Q1 : forall a b, a <= qmax a b /\ b <= qmax a b /\ (forall c, a < c -> b < c -> qmax a b < c)).
  { intros a b. unfold qmax. destruct (qltb a b) eqn:E; [apply qltb_iff in E|apply qltb_false in E]; repeat split; try lra; intros; assumption. }
  destruct (Q1 (dist2 p q) (dist2 r s)) as (M1 & M2 & M3).
  split; [lia|]. split.
  - destruct (Z.max_spec (int_dist p q) (int_dist r s)) as [(_ & E)|(_ & E)]; fold n in E.
    + apply Qle_trans with (dist2 r s); [|exact M2]. apply int_dist_ge; lia.
    + apply Qle_trans with (dist2 p q); [|exact M1]. apply int_dist_ge; lia.
  - assert (UP : forall a b, (int_dist a b <= n)%Z -> dist2 a b < inject_Z ((n + 1) * (n + 1))).
    { intros a b L. destruct (Qlt_le_dec (dist2 a b) (inject_Z ((n + 1) * (n + 1)))) as [|G]; [assumption|].
      apply int_dist_ge in G; lia. }
    apply M3; apply UP; lia.
Qed.

Lemma sides_widths : forall q, sides_at_least 2 q <-> (2 <= widths q)%Z /\ (2 <= heights q)%Z.
Proof.
  intro q. unfold sides_at_least, widths, heights.
  assert (E : forall a b, 2 * 2 <= dist2 a b <-> (2 <= int_dist a b)%Z)
    by (intros; apply (int_dist_ge a b 2); lia).
  rewrite !Z.min_glb_iff. rewrite (dist2_sym (tl q) (bl q)), (dist2_sym (tr q) (br q)).
  rewrite !E. tauto.
Qed.

(** the drawn quad *)
Lemma draw_quad_spec : forall n h w j, exists q mw mh sx sy,
  draw_quad (3 + n) (h, w) j = Some (q, mw, mh) /\
  0 <= sx /\ 0 <= sy /\ quad_eq q (enlarged sx sy (order_points (corner_points j h w))) /\
  (2 <= widths q)%Z /\ (2 <= heights q)%Z /\
  longer_side mw (dist2 (tl q) (tr q)) (dist2 (bl q) (br q)) /\
  longer_side mh (dist2 (tr q) (br q)) (dist2 (tl q) (bl q)) /\
  (2 <= mw)%Z /\ (2 <= mh)%Z /\
  (sides_at_least 2 (order_points (corner_points j h w)) -> q = order_points (corner_points j h w)).
Proof.
  intros n h w j. set (q0 := order_points (corner_points j h w)).
  pose proof (order_points_aligned (corner_points j h w)) as AL. fold q0 in AL.
  destruct (widen_spec (S (S n)) 2 q0 AL) as (sx & q1 & R1 & SX & E1 & W1 & U1); try lia.
  { destruct AL as (A & _). change (inject_Z (2 - Z.of_nat 2)) with 0. lra. }
  { destruct AL as (_ & A & _). change (inject_Z (2 - Z.of_nat 2)) with 0. lra. }
  assert (AL1 : aligned q1).
  { apply (aligned_eq (enlarged sx 0 q0)); [apply quad_eq_sym; exact E1|]. apply enlarged_aligned; [exact SX|lra|exact AL]. }
  destruct (heighten_spec (S (S n)) 2 q1 AL1) as (sy & q2 & R2 & SY & E2 & H2 & U2); try lia.
  { destruct AL1 as (_ & _ & A & _). change (inject_Z (2 - Z.of_nat 2)) with 0. lra. }
  { destruct AL1 as (_ & _ & _ & A). change (inject_Z (2 - Z.of_nat 2)) with 0. lra. }
  destruct (widths_eq _ _ E2) as (V1 & V2). destruct (widths_heighten sy q1) as (V3 & V4).
  rewrite V3 in V1. rewrite V4 in V2.
  assert (W2 : widths q2 = widths q1) by (unfold widths; rewrite V1, V2; reflexivity).
  exists q2, (Z.max (int_dist (tl q2) (tr q2)) (int_dist (bl q2) (br q2))),
    (Z.max (int_dist (br q2) (tr q2)) (int_dist (bl q2) (tl q2))), sx, sy.
  split.
  { unfold draw_quad. fold q0. change min_side with 2%Z. change (3 + n)%nat with (S (S (S n))). rewrite R1, R2.
    rewrite V1, V2. reflexivity. }
  split; [exact SX|]. split; [exact SY|]. split.
  { apply (quad_eq_trans _ _ _ E2). apply (quad_eq_trans _ (enlarged 0 sy (enlarged sx 0 q0))); [apply enlarged_eq; exact E1|].
    apply (quad_eq_trans _ _ _ (enlarged_enlarged _ _ _ _ _)). apply enlarged_ext; ring. }
  split; [lia|]. split; [exact H2|].
  split; [apply longer_side_max|].
  split.
  { pose proof (longer_side_max (br q2) (tr q2) (bl q2) (tl q2)) as (L0 & L1 & L2).
    assert (QE : qmax (dist2 (br q2) (tr q2)) (dist2 (bl q2) (tl q2)) == qmax (dist2 (tr q2) (br q2)) (dist2 (tl q2) (bl q2))).
    { assert (Q1 : forall a b c d, a == c -> b == d -> qmax a b == qmax c d).
      { intros a b c d A B. unfold qmax. destruct (qltb a b) eqn:X; destruct (qltb c d) eqn:Y;
        [apply qltb_iff in X|apply qltb_iff in X|apply qltb_false in X|apply qltb_false in X];
        [apply qltb_iff in Y|apply qltb_false in Y|apply qltb_iff in Y|apply qltb_false in Y]; lra. }
      apply Q1; apply dist2_sym. }
    split; [exact L0|]. rewrite QE in L1, L2. split; assumption. }
  unfold widths in W1, W2. unfold heights in H2.
  split; [lia|]. split; [lia|].
  intro SD. apply sides_widths in SD. destruct SD as (SW & SH).
  rewrite (U1 SW) in U2. apply U2. exact SH.
Qed.
