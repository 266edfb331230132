(** Proofs about the measures of line strings and polygons. *)
From Coq Require Import List ZArith QArith Reals Qreals Lia Lqa Psatz Setoid Morphisms.
From Verif Require Import Prelude PreludeFacts PtsModel LineModel MeaModel MeaSpec.
Import ListNotations.
Open Scope Q_scope.

(** ** Points and segments *)
Lemma same_refl : forall p, same_point p p.
Proof. intros p. split; reflexivity. Qed.
Lemma same_sym : forall p q, same_point p q -> same_point q p.
Proof. intros p q [A B]. split; symmetry; assumption. Qed.
Lemma same_trans : forall p q r, same_point p q -> same_point q r -> same_point p r.
Proof. intros p q r [A B] [C D]. split; etransitivity; eassumption. Qed.
Lemma d2_dist2 : forall p q, dist2 p q == d2 p q.
Proof. intros [a b] [c d]. unfold dist2, d2. cbn [fst snd]. ring. Qed.
Lemma d2_compat : forall p p' q q', same_point p p' -> same_point q q' -> d2 p q == d2 p' q'.
Proof. intros p p' q q' [A B] [C D]. unfold d2. rewrite A, B, C, D. reflexivity. Qed.
Lemma sq_nonneg : forall x : Q, 0 <= x ^ 2.
Proof. intros x. nra. Qed.
Lemma d2_nonneg : forall p q, 0 <= d2 p q.
Proof. intros p q. unfold d2. pose proof (sq_nonneg (fst p - fst q)). pose proof (sq_nonneg (snd p - snd q)). lra. Qed.
Lemma d2_sym : forall p q, d2 p q == d2 q p.
Proof. intros p q. unfold d2. ring. Qed.
Lemma d2_zero : forall p q, d2 p q == 0 -> same_point p q.
Proof.
  intros p q H. unfold d2 in H. pose proof (sq_nonneg (fst p - fst q)) as A. pose proof (sq_nonneg (snd p - snd q)) as B.
  assert (X : (fst p - fst q) ^ 2 == 0) by lra. assert (Y : (snd p - snd q) ^ 2 == 0) by lra.
  assert (Z : forall x, x ^ 2 == 0 -> x == 0). { intros x E. assert (E2 : x * x == 0) by (rewrite <- E; ring). apply Qmult_integral in E2. tauto. }
  apply Z in X. apply Z in Y. split; lra.
Qed.
Lemma seg_compat : forall a a' b b' q, same_point a a' -> same_point b b' -> on_segment a b q -> on_segment a' b' q.
Proof. intros a a' b b' q [A1 A2] [B1 B2] (t & T0 & T1 & X & Y). exists t. rewrite A1, B1 in X. rewrite A2, B2 in Y. auto. Qed.
Lemma seg_point : forall a b q q', same_point q q' -> on_segment a b q -> on_segment a b q'.
Proof. intros a b q q' [A1 A2] (t & T0 & T1 & X & Y). exists t. rewrite A1 in X. rewrite A2 in Y. auto. Qed.
Lemma seg_left : forall a b q, same_point q a -> on_segment a b q.
Proof. intros a b q [A B]. exists 0. split; [lra|]. split; [lra|]. split; [rewrite A|rewrite B]; ring. Qed.
Lemma seg_right : forall a b q, same_point q b -> on_segment a b q.
Proof. intros a b q [A B]. exists 1. split; [lra|]. split; [lra|]. split; [rewrite A|rewrite B]; ring. Qed.
Lemma seg_sym : forall a b q, on_segment a b q -> on_segment b a q.
Proof. intros a b q (t & T0 & T1 & X & Y). exists (1 - t). split; [lra|]. split; [lra|]. split; [rewrite X|rewrite Y]; ring. Qed.
Lemma div_unit : forall s t, 0 <= s -> s <= t -> 0 < t -> 0 <= s / t /\ s / t <= 1 /\ s / t * t == s.
Proof.
  intros s t A B C. assert (N : ~ t == 0) by lra. split; [apply Qle_shift_div_l; lra|]. split; [apply Qle_shift_div_r; lra|]. field. exact N.
Qed.
Lemma seg_split : forall a b c q, on_segment a b c -> (on_segment a b q <-> on_segment a c q \/ on_segment c b q).
Proof.
  intros a b c q (t & T0 & T1 & X & Y). split.
  - intros (s & S0 & S1 & U & V). destruct (Qlt_le_dec t s) as [L|L].
    + right. destruct (div_unit (s - t) (1 - t)) as (D0 & D1 & D2); [lra|lra|lra|]. set (u := (s - t) / (1 - t)) in *. exists u. split; [exact D0|]. split; [exact D1|].
      assert (E : s == t + u * (1 - t)) by lra. rewrite U, V, X, Y. rewrite E. split; ring.
    + left. destruct (Qlt_le_dec 0 t) as [P|P].
      * destruct (div_unit s t) as (D0 & D1 & D2); [lra|lra|lra|]. set (u := s / t) in *. exists u. split; [exact D0|]. split; [exact D1|].
        assert (E : s == u * t) by lra. rewrite U, V, X, Y. rewrite E. split; ring.
      * exists 0. assert (E : s == 0) by lra. rewrite U, V. rewrite E. split; [lra|]. split; [lra|]. split; ring.
  - intros [(s & S0 & S1 & U & V)|(s & S0 & S1 & U & V)].
    + exists (s * t). split; [nra|]. split; [nra|]. rewrite U, V, X, Y. split; ring.
    + exists (t + s * (1 - t)). split; [nra|]. split; [nra|]. rewrite U, V, X, Y. split; ring.
Qed.

(** ** Paths *)
Lemma path_cons : forall a b r q, on_path (a :: b :: r) q <-> on_segment a b q \/ on_path (b :: r) q.
Proof.
  intros a b r q. cbn [on_path]. split.
  - intros (l1 & c & d & l2 & E & S). destruct l1 as [|x l1].
    + injection E as -> -> ->. left. exact S.
    + injection E as -> E. right. destruct r as [|c' r].
      * destruct l1 as [|? [|]]; discriminate.
      * exists l1, c, d, l2. split; [exact E|exact S].
  - intros [S|S].
    + exists [], a, b, r. split; [reflexivity|exact S].
    + destruct r as [|c r].
      * exists [], a, b, []. split; [reflexivity|]. apply seg_right. exact S.
      * destruct S as (l1 & x & y & l2 & E & S). exists (a :: l1), x, y, l2. split; [cbn; rewrite E; reflexivity|exact S].
Qed.
Lemma path_nil : forall q, ~ on_path [] q.
Proof. intros q (l1 & a & b & l2 & E & _). destruct l1; discriminate. Qed.
Lemma path_point : forall cs q q', same_point q q' -> on_path cs q -> on_path cs q'.
Proof.
  intros cs q q' S. destruct cs as [|a [|b r]].
  - intros H. elim (path_nil _ H).
  - cbn. intros H. eapply same_trans; [apply same_sym; exact S|exact H].
  - intros (l1 & x & y & l2 & E & H). exists l1, x, y, l2. split; [exact E|]. eapply seg_point; eassumption.
Qed.
Lemma path_vertex : forall cs q, In q cs -> on_path cs q.
Proof.
  induction cs as [|a cs IH]; intros q H; [destruct H|]. destruct cs as [|b r].
  - destruct H as [->|[]]. apply same_refl.
  - apply path_cons. destruct H as [->|H]; [left; apply seg_left, same_refl|right; apply IH; exact H].
Qed.

(** ** Additive measures of paths *)
Lemma subdivide_cons : forall a b r n, (1 <= n)%Z -> subdivide (a :: b :: r) n = (a :: interpolate_pair a b n) ++ subdivide (b :: r) n.
Proof.
  intros a b r n N. unfold subdivide. assert (E : (n <? 1)%Z = false) by (apply Z.ltb_ge; lia). rewrite E. rewrite !Bool.orb_false_r. cbn [length Nat.leb].
  unfold interpolate_points. cbn [length Nat.leb close]. destruct r as [|c r].
  - cbn. rewrite app_nil_r. reflexivity.
  - cbn [length Nat.leb]. unfold neighbours. cbn [removelast tl combine flat_map fst snd]. rewrite <- app_assoc. cbn [app]. f_equal. f_equal. cbn [app]. f_equal.
    unfold last_if_open. cbn [rev]. assert (X : forall (l : list point) x y, match (l ++ [x]) ++ [y] with [] => [] | p :: _ => [p] end = match l ++ [x] with [] => [] | p :: _ => [p] end) by (intros [|] x y; reflexivity).
    f_equal. apply X.
Qed.
Lemma subdivide_one : forall a n, subdivide [a] n = [a].
Proof. reflexivity. Qed.
Lemma subdivide_less : forall cs n, (n < 1)%Z -> subdivide cs n = cs.
Proof. intros cs n N. unfold subdivide. assert (E : (n <? 1)%Z = true) by (apply Z.ltb_lt; lia). rewrite E, Bool.orb_true_r. reflexivity. Qed.
Lemma subdivide_hd : forall a r n, exists l, subdivide (a :: r) n = a :: l.
Proof.
  intros a r n. destruct (Z_lt_le_dec n 1) as [L|L]; [rewrite subdivide_less by exact L; eauto|]. destruct r as [|b r]; [eexists; reflexivity|]. rewrite subdivide_cons by exact L. cbn. eauto.
Qed.

Section Additive.
Variable M : Type.
Variable eqM : M -> M -> Prop.
Hypothesis eq_equiv : Equivalence eqM.
Variable op : M -> M -> M.
Hypothesis op_proper : forall x x' y y', eqM x x' -> eqM y y' -> eqM (op x y) (op x' y').
Hypothesis op_assoc : forall x y z, eqM (op x (op y z)) (op (op x y) z).
Variable w : point -> point -> M.
Hypothesis w_proper : forall a a' b b', same_point a a' -> same_point b b' -> eqM (w a b) (w a' b').
Hypothesis w_split : forall a b c, on_segment a b c -> eqM (op (w a c) (w c b)) (w a b).
Variable F : list point -> M.
Hypothesis F_cons : forall a b r, eqM (F (a :: b :: r)) (op (w a b) (F (b :: r))).
Hypothesis F_unit : forall a b, eqM (op (w a b) (F [b])) (w a b).

Let refl := @Equivalence_Reflexive _ _ eq_equiv.
Let sym := @Equivalence_Symmetric _ _ eq_equiv.
Let trans := @Equivalence_Transitive _ _ eq_equiv.

(** The point number [i] of [n + 1] steps. *)
Definition step_point (a b : point) (n i : Z) : point := lerp a b (inject_Z i / inject_Z (1 + n)).
Lemma inject_nz : forall n, (1 <= n)%Z -> ~ inject_Z (1 + n) == 0.
Proof. intros n N E. assert (X : 0 < inject_Z (1 + n)) by (change 0 with (inject_Z 0); rewrite <- Zlt_Qlt; lia). lra. Qed.
Lemma interp_point : forall a b n i, (1 <= n)%Z ->
  same_point ((fst a + inject_Z (Z.of_nat i + 1) * ((fst b - fst a) / inject_Z (1 + n)), snd a + inject_Z (Z.of_nat i + 1) * ((snd b - snd a) / inject_Z (1 + n)))) (step_point a b n (Z.of_nat i + 1)).
Proof. intros a b n i N. pose proof (inject_nz n N) as X. unfold step_point, lerp. split; cbn [fst snd]; field; exact X. Qed.
Lemma next_between : forall a b n i, (1 <= n)%Z -> (0 <= i <= n)%Z -> on_segment (step_point a b n i) b (step_point a b n (i + 1)).
Proof.
  intros a b n i N I. pose proof (inject_nz n N) as X.
  assert (P : 0 < inject_Z (1 + n - i)) by (change 0 with (inject_Z 0); rewrite <- Zlt_Qlt; lia).
  assert (L : 1 <= inject_Z (1 + n - i)) by (change 1 with (inject_Z 1); rewrite <- Zle_Qle; lia).
  destruct (div_unit 1 (inject_Z (1 + n - i))) as (A & B & C); [lra|lra|lra|].
  exists (1 / inject_Z (1 + n - i)). split; [exact A|]. split; [exact B|].
  assert (P2 : ~ inject_Z (1 + n - i) == 0) by lra. unfold step_point, lerp. cbn [fst snd].
  assert (E : inject_Z (1 + n - i) == inject_Z (1 + n) - inject_Z i) by (unfold Z.sub; rewrite !inject_Z_plus, inject_Z_opp; lra).
  assert (E2 : inject_Z (i + 1) == inject_Z i + 1) by (rewrite inject_Z_plus; reflexivity). rewrite E2. rewrite E in *. generalize dependent (inject_Z (1 + n)). intros d. generalize (inject_Z i). intros e; intros. split; field; repeat split; intros Z0; lra.
Qed.
Lemma chain : forall a b r n, (1 <= n)%Z -> forall m k p, (k + m = Z.to_nat n)%nat -> same_point p (step_point a b n (Z.of_nat k)) ->
  eqM (F (p :: map (fun i => (fst a + inject_Z (Z.of_nat i + 1) * ((fst b - fst a) / inject_Z (1 + n)), snd a + inject_Z (Z.of_nat i + 1) * ((snd b - snd a) / inject_Z (1 + n)))) (seq k m) ++ b :: r))
      (op (w (step_point a b n (Z.of_nat k)) b) (F (b :: r))).
Proof.
  intros a b r n N. induction m as [|m IH]; intros k p K P.
  - cbn [seq map app]. eapply trans; [apply F_cons|]. apply op_proper; [|apply refl]. apply w_proper; [exact P|apply same_refl].
  - cbn [seq map app]. eapply trans; [apply F_cons|]. set (f := fun i : nat => _) in *.
    eapply trans; [apply op_proper; [apply refl|apply (IH (S k))]|].
    + lia.
    + unfold f. replace (Z.of_nat (S k)) with (Z.of_nat k + 1)%Z by lia. apply interp_point. exact N.
    + eapply trans; [apply op_assoc|]. apply op_proper; [|apply refl]. eapply trans; [apply op_proper|].
      * apply w_proper; [exact P|unfold f; apply interp_point; exact N].
      * apply refl.
      * replace (Z.of_nat (S k)) with (Z.of_nat k + 1)%Z by lia. apply w_split. apply next_between; [exact N|lia].
Qed.
Lemma F_step : forall a b l r n, F (b :: l) = F (b :: l) -> (1 <= n)%Z -> eqM (F (b :: l)) (F (b :: r)) -> eqM (F ((a :: interpolate_pair a b n) ++ b :: l)) (op (w a b) (F (b :: r))).
Proof.
  intros a b l r n _ N E. unfold interpolate_pair. assert (X : (n <? 1)%Z = false) by (apply Z.ltb_ge; lia). rewrite X. cbn [app].
  assert (S0 : same_point a (step_point a b n 0)). { unfold step_point, lerp. pose proof (inject_nz n N) as Y. split; cbn [fst snd]; change (inject_Z 0) with 0; field; exact Y. }
  eapply trans; [apply (chain a b l n N (Z.to_nat n) 0 a); [reflexivity|exact S0]|].
  apply op_proper; [|exact E]. apply w_proper; [apply same_sym; exact S0|apply same_refl].
Qed.
Lemma F_subdivide : forall cs n, eqM (F (subdivide cs n)) (F cs).
Proof.
  intros cs n. destruct (Z_lt_le_dec n 1) as [L|L]; [rewrite subdivide_less by exact L; apply refl|].
  induction cs as [|a cs IH]; [apply refl|]. destruct cs as [|b r]; [apply refl|]. rewrite subdivide_cons by exact L. destruct (subdivide_hd b r n) as [l E]. rewrite E in *.
  eapply trans; [apply F_step; [reflexivity|exact L|exact IH]|]. apply sym, F_cons.
Qed.
Lemma F_two : forall a b, eqM (F [a; b]) (w a b).
Proof. intros a b. eapply trans; [apply F_cons|apply F_unit]. Qed.
Lemma F_app : forall x a m y, eqM (F ((a :: x) ++ m :: y)) (op (F ((a :: x) ++ [m])) (F (m :: y))).
Proof.
  induction x as [|b x IH]; intros a m y.
  - cbn [app]. eapply trans; [apply F_cons|]. apply op_proper; [apply sym, F_two|apply refl].
  - cbn [app]. eapply trans; [apply F_cons|]. eapply trans; [apply op_proper; [apply refl|apply (IH b m y)]|]. eapply trans; [apply op_assoc|]. apply op_proper; [|apply refl]. apply sym. apply F_cons.
Qed.
Hypothesis op_comm : forall x y, eqM (op x y) (op y x).
Lemma F_rotate1 : forall a b l, eqM (F (outline ((b :: l) ++ [a]))) (F (outline (a :: b :: l))).
Proof.
  intros a b l. assert (E1 : outline ((b :: l) ++ [a]) = (b :: l) ++ a :: [b]). { destruct l; cbn; [reflexivity|rewrite <- app_assoc; reflexivity]. }
  assert (E2 : outline (a :: b :: l) = a :: b :: l ++ [a]) by reflexivity. rewrite E1, E2.
  eapply trans; [apply F_app|]. eapply trans; [|apply sym, F_cons]. eapply trans; [apply op_comm|]. apply op_proper; [apply F_two|apply refl].
Qed.
Lemma F_rotate : forall l1 l2, eqM (F (outline (l2 ++ l1))) (F (outline (l1 ++ l2))).
Proof.
  induction l1 as [|a l1 IH]; intros l2; [rewrite app_nil_r; apply refl|].
  replace (l2 ++ a :: l1) with ((l2 ++ [a]) ++ l1) by (rewrite <- app_assoc; reflexivity). eapply trans; [apply IH|].
  rewrite app_assoc. destruct (l1 ++ l2) as [|b l] eqn:E; cbn [app]; rewrite E; [apply refl|]. apply F_rotate1.
Qed.
Variable inv : M -> M.
Hypothesis inv_proper : forall x y, eqM x y -> eqM (inv x) (inv y).
Hypothesis inv_op : forall x y, eqM (inv (op x y)) (op (inv x) (inv y)).
Hypothesis w_inv : forall a b, eqM (w b a) (inv (w a b)).
Hypothesis F_one : forall a, eqM (F [a]) (inv (F [a])).
Hypothesis F_nil : eqM (F []) (inv (F [])).
Lemma F_rev : forall l, eqM (F (rev l)) (inv (F l)).
Proof.
  induction l as [|a l IH]; [apply F_nil|]. destruct l as [|b l]; [apply F_one|]. cbn [rev]. rewrite <- app_assoc. cbn [app].
  eapply trans; [|apply inv_proper, sym, F_cons]. eapply trans; [|apply sym, inv_op].
  destruct (rev l) as [|c m] eqn:E.
  - cbn [app]. eapply trans; [apply F_two|]. cbn [rev] in IH. rewrite E in IH. cbn [app] in IH.
    eapply trans; [|apply op_proper; [apply w_inv|exact IH]]. apply sym.
    eapply trans; [apply op_comm|]. eapply trans; [apply op_comm|]. eapply trans; [|apply refl].
    (* w b a op F [b] *)
    destruct l; [|cbn in E; destruct (rev l); discriminate]. eapply trans; [apply op_proper; [apply w_inv|apply F_one]|]. eapply trans; [apply sym, inv_op|]. eapply trans; [apply inv_proper, F_unit|]. apply sym, w_inv.
  - eapply trans; [apply F_app|]. cbn [rev] in IH. rewrite E in IH. eapply trans; [apply op_comm|]. apply op_proper; [|exact IH].
    eapply trans; [apply F_two|apply w_inv].
Qed.
End Additive.

(** ** The set of points of a path *)
Definition eqS (A B : point -> Prop) : Prop := forall q, A q <-> B q.
Lemma eqS_equiv : Equivalence eqS.
Proof. split; [intros A q; tauto|intros A B H q; symmetry; apply H|intros A B C H K q; rewrite (H q); apply K]. Qed.
Definition unionS (A B : point -> Prop) (q : point) : Prop := A q \/ B q.
Lemma unionS_proper : forall x x' y y', eqS x x' -> eqS y y' -> eqS (unionS x y) (unionS x' y').
Proof. intros x x' y y' A B q. unfold unionS. rewrite (A q), (B q). tauto. Qed.
Lemma seg_proper : forall a a' b b', same_point a a' -> same_point b b' -> eqS (on_segment a b) (on_segment a' b').
Proof. intros a a' b b' A B q. split; intros H; [eapply seg_compat; eassumption|eapply seg_compat; [apply same_sym; exact A|apply same_sym; exact B|exact H]]. Qed.
Lemma seg_split' : forall a b c, on_segment a b c -> eqS (unionS (on_segment a c) (on_segment c b)) (on_segment a b).
Proof. intros a b c H q. symmetry. apply seg_split. exact H. Qed.
Lemma path_cons' : forall a b r, eqS (on_path (a :: b :: r)) (unionS (on_segment a b) (on_path (b :: r))).
Proof. intros a b r q. apply path_cons. Qed.
Lemma path_unit : forall a b, eqS (unionS (on_segment a b) (on_path [b])) (on_segment a b).
Proof. intros a b q. unfold unionS. cbn. split; [intros [H|H]; [exact H|apply seg_right; exact H]|tauto]. Qed.
Lemma path_subdivide : forall cs n, same_path (subdivide cs n) cs.
Proof.
  intros cs n. apply (F_subdivide _ eqS eqS_equiv unionS unionS_proper) with (w := on_segment).
  - intros x y z q. unfold unionS. tauto.
  - exact seg_proper.
  - exact seg_split'.
  - exact path_cons'.
Qed.
Lemma path_rotate : forall l1 l2, same_path (outline (l2 ++ l1)) (outline (l1 ++ l2)).
Proof.
  intros l1 l2. apply (F_rotate _ eqS eqS_equiv unionS unionS_proper) with (w := on_segment).
  - intros x y z q. unfold unionS. tauto.
  - exact path_cons'.
  - exact path_unit.
  - intros x y q. unfold unionS. tauto.
Qed.
Lemma path_rev : forall l, same_path (rev l) l.
Proof.
  intros l. apply (F_rev _ eqS eqS_equiv unionS unionS_proper) with (w := on_segment) (inv := fun A => A).
  - intros x y z q. unfold unionS. tauto.
  - exact path_cons'.
  - exact path_unit.
  - intros x y q. unfold unionS. tauto.
  - intros x y H. exact H.
  - intros x y q. tauto.
  - intros a b q. split; apply seg_sym.
  - intros a q. tauto.
  - intros q. tauto.
Qed.

(** ** Lengths *)
Lemma R_equiv : Equivalence (@eq R).
Proof. typeclasses eauto. Qed.
Lemma length_cons : forall a b r, path_length (a :: b :: r) = (distance a b + path_length (b :: r))%R.
Proof.
  intros a b r. unfold path_length at 1. unfold segments. cbn [tl combine map fold_right fst snd]. unfold distance. reflexivity.
Qed.
Lemma length_one : forall a, path_length [a] = 0%R.
Proof. reflexivity. Qed.
Lemma distance_proper : forall a a' b b', same_point a a' -> same_point b b' -> distance a b = distance a' b'.
Proof. intros a a' b b' A B. unfold distance. f_equal. apply Qeq_eqR. apply d2_compat; assumption. Qed.
Lemma distance_sym : forall a b, distance a b = distance b a.
Proof. intros a b. unfold distance. f_equal. apply Qeq_eqR, d2_sym. Qed.
Lemma distance_part : forall a b c t, 0 <= t -> fst c == (1 - t) * fst a + t * fst b -> snd c == (1 - t) * snd a + t * snd b -> distance a c = (Q2R t * distance a b)%R.
Proof.
  intros a b c t T X Y. unfold distance. assert (T' : (0 <= Q2R t)%R) by (replace 0%R with (Q2R 0) by (unfold Q2R; cbn; lra); apply Qle_Rle; exact T).
  assert (E : d2 a c == t * t * d2 a b) by (unfold d2; rewrite X, Y; ring). rewrite (Qeq_eqR _ _ E), !Q2R_mult.
  assert (D : (0 <= Q2R (d2 a b))%R) by (replace 0%R with (Q2R 0) by (unfold Q2R; cbn; lra); apply Qle_Rle, d2_nonneg).
  rewrite sqrt_mult by nra. f_equal. apply sqrt_square. exact T'.
Qed.
Lemma distance_split : forall a b c, on_segment a b c -> (distance a c + distance c b = distance a b)%R.
Proof.
  intros a b c (t & T0 & T1 & X & Y). rewrite (distance_part a b c t T0 X Y). rewrite (distance_sym c b). rewrite (distance_part b a c (1 - t)).
  - rewrite (distance_sym b a). rewrite Q2R_minus. unfold Q2R at 2. cbn [Qnum Qden]. field.
  - lra.
  - rewrite X. ring.
  - rewrite Y. ring.
Qed.
Lemma length_subdivide : forall cs n, path_length (subdivide cs n) = path_length cs.
Proof.
  intros cs n. apply (F_subdivide _ (@eq R) R_equiv Rplus) with (w := distance).
  - intros x x' y y' -> ->. reflexivity.
  - intros x y z. ring.
  - exact distance_proper.
  - exact distance_split.
  - exact length_cons.
Qed.
Lemma length_app : forall x a m y, path_length ((a :: x) ++ m :: y) = (path_length ((a :: x) ++ [m]) + path_length (m :: y))%R.
Proof.
  intros x a m y. apply (F_app _ (@eq R) R_equiv Rplus) with (w := distance).
  - intros u u' v v' -> ->. reflexivity.
  - intros u v z. ring.
  - exact length_cons.
  - intros u v. rewrite length_one. ring.
Qed.
Lemma length_last : forall x a m d, path_length ((a :: x) ++ [m]) = (path_length (a :: x) + distance (last (a :: x) d) m)%R.
Proof.
  induction x as [|b x IH]; intros a m d; cbn [app].
  - rewrite length_cons, !length_one. cbn. ring.
  - rewrite !length_cons. specialize (IH b m d). cbn [app] in IH. rewrite IH. change (last (a :: b :: x) d) with (last (b :: x) d). ring.
Qed.
Lemma length_concat : forall x a y b d, path_length (concatenate (a :: x) (b :: y)) = (path_length (a :: x) + distance (last (a :: x) d) b + path_length (b :: y))%R.
Proof. intros x a y b d. unfold concatenate. rewrite length_app, (length_last x a b d). reflexivity. Qed.
Lemma length_rev : forall l, path_length (rev l) = path_length l.
Proof.
  intros l. apply (F_rev _ (@eq R) R_equiv Rplus) with (w := distance) (inv := fun A => A).
  - intros x x' y y' -> ->. reflexivity.
  - intros x y z. ring.
  - exact length_cons.
  - intros u v. rewrite length_one. ring.
  - intros x y. ring.
  - intros x y H. exact H.
  - reflexivity.
  - intros a b. apply distance_sym.
  - reflexivity.
  - reflexivity.
Qed.
Lemma distance_nonneg : forall a b, (0 <= distance a b)%R.
Proof. intros a b. apply sqrt_pos. Qed.
Lemma length_nonneg : forall l, (0 <= path_length l)%R.
Proof. induction l as [|a [|b r] IH]; [apply Rle_refl|apply Rle_refl|]. rewrite length_cons. pose proof (distance_nonneg a b). lra. Qed.
Lemma distance_xy : forall a b, distance a b = sqrt ((Q2R (fst a) - Q2R (fst b))² + (Q2R (snd a) - Q2R (snd b))²).
Proof.
  intros a b. unfold distance, d2. f_equal. rewrite Q2R_plus. assert (S : forall x y : Q, Q2R ((x - y) ^ 2) = (Q2R x - Q2R y)²%R).
  { intros x y. rewrite <- Q2R_minus. unfold Rsqr. rewrite <- Q2R_mult. apply Qeq_eqR. ring. }
  rewrite !S. reflexivity.
Qed.
Lemma triangle : forall a b c, (distance a c <= distance a b + distance b c)%R.
Proof. intros a b c. rewrite !distance_xy. apply (Rgeom.triangle (Q2R (fst a)) (Q2R (snd a)) (Q2R (fst c)) (Q2R (snd c)) (Q2R (fst b)) (Q2R (snd b))). Qed.
Lemma length_ends : forall r a d, (distance a (last (a :: r) d) <= path_length (a :: r))%R.
Proof.
  induction r as [|b r IH]; intros a d.
  - cbn. rewrite distance_xy. unfold Rminus. rewrite !Rplus_opp_r. rewrite Rsqr_0, Rplus_0_r, sqrt_0. unfold path_length. cbn. lra.
  - rewrite length_cons. specialize (IH b d). change (last (a :: b :: r) d) with (last (b :: r) d). pose proof (triangle a b (last (b :: r) d)). lra.
Qed.

(** ** Areas *)
Lemma Qeq_equiv : Equivalence Qeq.
Proof. typeclasses eauto. Qed.
Definition cross (a b : point) : Q := fst a * snd b - fst b * snd a.
Definition cross_path (l : list point) : Q := match l with [] => 0 | p :: r => cross_sum p r end.
Lemma cross_cons : forall a b r, cross_path (a :: b :: r) == cross a b + cross_path (b :: r).
Proof. reflexivity. Qed.
Lemma cross_proper : forall a a' b b', same_point a a' -> same_point b b' -> cross a b == cross a' b'.
Proof. intros a a' b b' [A B] [C D]. unfold cross. rewrite A, B, C, D. reflexivity. Qed.
Lemma cross_split : forall a b c, on_segment a b c -> cross a c + cross c b == cross a b.
Proof. intros a b c (t & _ & _ & X & Y). unfold cross. rewrite X, Y. ring. Qed.
Lemma plus_proper : forall x x' y y', x == x' -> y == y' -> x + y == x' + y'.
Proof. intros x x' y y' A B. rewrite A, B. reflexivity. Qed.
Lemma cross_subdivide : forall cs n, cross_path (subdivide cs n) == cross_path cs.
Proof.
  intros cs n. apply (F_subdivide _ Qeq Qeq_equiv Qplus plus_proper) with (w := cross).
  - intros x y z. ring.
  - exact cross_proper.
  - exact cross_split.
  - exact cross_cons.
Qed.
Lemma cross_unit : forall a b, cross a b + cross_path [b] == cross a b.
Proof. intros a b. cbn. ring. Qed.
Lemma cross_rotate : forall l1 l2, cross_path (outline (l2 ++ l1)) == cross_path (outline (l1 ++ l2)).
Proof.
  intros l1 l2. apply (F_rotate _ Qeq Qeq_equiv Qplus plus_proper) with (w := cross).
  - intros x y z. ring.
  - exact cross_cons.
  - exact cross_unit.
  - intros x y. ring.
Qed.
Lemma cross_rev : forall l, cross_path (rev l) == - cross_path l.
Proof.
  intros l. apply (F_rev _ Qeq Qeq_equiv Qplus plus_proper) with (w := cross) (inv := Qopp).
  - intros x y z. ring.
  - exact cross_cons.
  - exact cross_unit.
  - intros x y. ring.
  - intros x y H. rewrite H. reflexivity.
  - intros x y. ring.
  - intros a b. unfold cross. ring.
  - intros a. cbn. reflexivity.
  - cbn. reflexivity.
Qed.
Lemma qabs_compat : forall x y, x == y -> qabs x == qabs y.
Proof. intros x y E. unfold qabs. qminmax; lra. Qed.
Lemma qabs_opp : forall x, qabs (- x) == qabs x.
Proof. intros x. unfold qabs. qminmax; lra. Qed.
Lemma qabs_nonneg : forall x, 0 <= qabs x.
Proof. intros x. unfold qabs. qminmax; lra. Qed.
Lemma qabs_mult : forall x y, qabs (x * y) == qabs x * qabs y.
Proof. intros x y. unfold qabs. qminmax; nra. Qed.
Lemma area_outline : forall ext, area ext == qabs (cross_path (outline ext)) / 2.
Proof.
  intros [|a [|b [|c r]]]; unfold area; try reflexivity.
  cbn [outline app firstn cross_path cross_sum]. assert (E : fst a * snd b - fst b * snd a + (fst b * snd a - fst a * snd b + 0) == 0) by ring. rewrite (qabs_compat _ _ E). reflexivity.
Qed.
Lemma div2_compat : forall x y, x == y -> x / 2 == y / 2.
Proof. intros x y E. rewrite E. reflexivity. Qed.
Lemma area_from : forall e e', cross_path (outline e) == cross_path (outline e') -> area e == area e'.
Proof. intros e e' E. rewrite !area_outline. apply div2_compat, qabs_compat, E. Qed.
Lemma area_rotate : forall l1 l2, area (l2 ++ l1) == area (l1 ++ l2).
Proof. intros l1 l2. apply area_from, cross_rotate. Qed.
Lemma outline_rev : forall a l, exists m, outline (rev (a :: l)) = outline m /\ m = rev l ++ [a].
Proof. intros a l. exists (rev l ++ [a]). split; reflexivity. Qed.
Lemma rev_outline : forall a l, rev (outline (a :: l)) = outline (a :: rev l).
Proof.
  intros a [|b l]; [reflexivity|]. change (outline (a :: b :: l)) with (a :: (b :: l) ++ [a]). cbn [rev]. rewrite (rev_app_distr (b :: l) [a]). cbn [rev app].
  destruct (rev l ++ [b]) as [|c m] eqn:E; [destruct (rev l); discriminate|]. reflexivity.
Qed.
Lemma area_rev : forall l, area (rev l) == area l.
Proof.
  intros [|a l]; [reflexivity|]. cbn [rev]. rewrite area_rotate. cbn [app]. rewrite !area_outline. apply div2_compat. rewrite <- rev_outline.
  rewrite (qabs_compat _ _ (cross_rev _)). apply qabs_opp.
Qed.
Lemma path_outline_rev : forall l, same_path (outline (rev l)) (outline l).
Proof.
  intros [|a l] q; [tauto|]. cbn [rev]. rewrite (path_rotate [a] (rev l) q). cbn [app]. rewrite <- rev_outline. apply path_rev.
Qed.
Lemma cross_moved : forall dx dy l p d, cross_sum (moved dx dy p) (map (moved dx dy) l) == cross_sum p l + dx * (snd (last (p :: l) d) - snd p) - dy * (fst (last (p :: l) d) - fst p).
Proof.
  intros dx dy. induction l as [|q l IH]; intros p d; [cbn; ring|]. cbn [map cross_sum]. rewrite (IH q d). change (last (p :: q :: l) d) with (last (q :: l) d). unfold moved at 1 2 3 4. cbn [fst snd]. ring.
Qed.
Lemma area_moved : forall dx dy ext, area (map (moved dx dy) ext) == area ext.
Proof.
  intros dx dy ext. destruct ext as [|a [|b [|c r]]]; try reflexivity. unfold area. cbn [map]. apply div2_compat, qabs_compat.
  set (l := b :: c :: r). assert (E : moved dx dy b :: moved dx dy c :: map (moved dx dy) r ++ [moved dx dy a] = map (moved dx dy) (l ++ [a])) by (rewrite map_app; reflexivity).
  cbn [app]. rewrite E. rewrite (cross_moved dx dy (l ++ [a]) a a). assert (L : last (a :: l ++ [a]) a = a) by (rewrite app_comm_cons; apply last_last). rewrite L. cbn [app l]. ring.
Qed.
Lemma cross_scaled : forall fx fy l p, cross_sum (scaled fx fy p) (map (scaled fx fy) l) == fx * fy * cross_sum p l.
Proof. intros fx fy. induction l as [|q l IH]; intros p; [cbn; ring|]. cbn [map cross_sum]. rewrite IH. unfold scaled at 1 2 3 4. cbn [fst snd]. ring. Qed.
Lemma area_scaled : forall fx fy ext, area (map (scaled fx fy) ext) == qabs (fx * fy) * area ext.
Proof.
  intros fx fy ext. destruct ext as [|a [|b [|c r]]]; try (unfold area; cbn [map]; ring). unfold area. cbn [map].
  assert (E : (scaled fx fy b :: scaled fx fy c :: map (scaled fx fy) r) ++ [scaled fx fy a] = map (scaled fx fy) ((b :: c :: r) ++ [a])) by (rewrite map_app; reflexivity).
  rewrite E. rewrite (qabs_compat _ _ (cross_scaled fx fy _ a)), qabs_mult. unfold Qdiv. ring.
Qed.
Lemma area_nonneg : forall ext, 0 <= area ext.
Proof. intros ext. rewrite area_outline. pose proof (qabs_nonneg (cross_path (outline ext))). unfold Qdiv. change (/ 2) with (1 # 2). lra. Qed.
Lemma area_rectangle : forall x1 y1 x2 y2, x1 <= x2 -> y1 <= y2 -> area [(x1, y1); (x2, y1); (x2, y2); (x1, y2)] == (x2 - x1) * (y2 - y1).
Proof.
  intros x1 y1 x2 y2 X Y. unfold area. cbn [app cross_sum fst snd].
  assert (E : x1 * y1 - x2 * y1 + (x2 * y2 - x2 * y1 + (x2 * y2 - x1 * y2 + (x1 * y1 - x1 * y2 + 0))) == 2 * ((x2 - x1) * (y2 - y1))) by ring.
  rewrite (qabs_compat _ _ E). assert (P : 0 <= (x2 - x1) * (y2 - y1)) by (apply Qmult_le_0_compat; lra). unfold qabs, Qdiv. change (/ 2) with (1 # 2). qminmax; lra.
Qed.

(** ** Distances *)
Lemma lerp_on : forall a b t, 0 <= t -> t <= 1 -> on_segment a b (lerp a b t).
Proof. intros a b t T0 T1. exists t. split; [exact T0|]. split; [exact T1|]. unfold lerp. cbn [fst snd]. split; ring. Qed.
Lemma quad : forall l u s t, 0 < l -> 0 <= s -> s <= 1 -> (t == qclip (u / l) 0 1) -> 0 <= (s - t) * (l * (s + t) - 2 * u).
Proof.
  intros l u s t L S0 S1 T. assert (N : ~ l == 0) by lra. assert (U : u == u / l * l) by (field; exact N). set (v := u / l) in *.
  assert (C : (t == v /\ 0 <= v /\ v <= 1) \/ (t == 0 /\ v <= 0) \/ (t == 1 /\ 1 <= v)). { rewrite T. unfold qclip. qminmax; lra. }
  rewrite U. destruct C as [(E & _)|[(E & V)|(E & V)]]; rewrite E.
  - assert (X : (s - v) * (l * (s + v) - 2 * (v * l)) == l * ((s - v) ^ 2)) by ring. rewrite X. apply Qmult_le_0_compat; [lra|]. apply sq_nonneg.
  - assert (X : (s - 0) * (l * (s + 0) - 2 * (v * l)) == l * (s * (s - 2 * v))) by ring. rewrite X. apply Qmult_le_0_compat; [lra|]. apply Qmult_le_0_compat; lra.
  - assert (X : (s - 1) * (l * (s + 1) - 2 * (v * l)) == l * ((1 - s) * (2 * v - s - 1))) by ring. rewrite X. apply Qmult_le_0_compat; [lra|]. apply Qmult_le_0_compat; lra.
Qed.
Lemma seg_closest : forall p a b, closest_d2 p (on_segment a b) (segment_d2 p a b).
Proof.
  intros p a b. unfold segment_d2. destruct (qeqb (dist2 a b) 0) eqn:E.
  - apply qeqb_iff in E. rewrite d2_dist2 in E. apply d2_zero in E. split.
    + intros q (t & _ & _ & X & Y). rewrite d2_dist2. assert (S : same_point q a). { destruct E as [E1 E2]. split; [rewrite X, E1|rewrite Y, E2]; ring. }
      rewrite (d2_compat p p q a (same_refl p) S). apply Qle_refl.
    + exists a. split; [apply seg_left, same_refl|]. symmetry. apply d2_dist2.
  - assert (L : 0 < dist2 a b). { apply qeqb_false in E. rewrite d2_dist2 in *. pose proof (d2_nonneg a b). destruct (Qlt_le_dec 0 (d2 a b)) as [|C]; [assumption|]. elim E. lra. }
    set (u := (fst p - fst a) * (fst b - fst a) + (snd p - snd a) * (snd b - snd a)). set (t := qclip (u / dist2 a b) 0 1).
    assert (T : 0 <= t /\ t <= 1) by (unfold t; apply qclip_in; lra). cbn zeta. split.
    + intros q (s & S0 & S1 & X & Y). rewrite d2_dist2. pose proof (quad (dist2 a b) u s t L S0 S1 (Qeq_refl _)) as H.
      assert (Z : d2 p q - d2 p (lerp a b t) == (s - t) * (dist2 a b * (s + t) - 2 * u)).
      { unfold d2, lerp, dist2, u. rewrite X, Y. cbn [fst snd]. ring. }
      lra.
    + exists (lerp a b t). split; [apply lerp_on; apply T|]. symmetry. apply d2_dist2.
Qed.
Lemma line_closest : forall r p a b, closest_d2 p (on_path (a :: b :: r)) (line_d2 p a b r).
Proof.
  induction r as [|c r IH]; intros p a b.
  - cbn [line_d2]. destruct (seg_closest p a b) as [A (q & B & C)]. split.
    + intros x H. apply path_cons in H. apply A. destruct H as [H|H]; [exact H|apply seg_right; exact H].
    + exists q. split; [apply path_cons; left; exact B|exact C].
  - cbn [line_d2]. destruct (seg_closest p a b) as [A (q & B & C)]. destruct (IH p b c) as [A2 (q2 & B2 & C2)]. split.
    + intros x H. apply path_cons in H. destruct H as [H|H]; [apply A in H|apply A2 in H]; qminmax; lra.
    + destruct (Qlt_le_dec (line_d2 p b c r) (segment_d2 p a b)) as [L|L].
      * exists q2. split; [apply path_cons; right; exact B2|]. rewrite C2. qminmax; lra.
      * exists q. split; [apply path_cons; left; exact B|]. rewrite C. qminmax; lra.
Qed.
Lemma point_closest : forall p q, closest_d2 p (fun x => same_point x q) (dist2 p q).
Proof.
  intros p q. split.
  - intros x H. rewrite d2_dist2. rewrite (d2_compat p p x q (same_refl p) H). apply Qle_refl.
  - exists q. split; [apply same_refl|]. symmetry. apply d2_dist2.
Qed.
Lemma pointwise : forall cs o l, pointwise_d2 cs o = Ok (Some l) -> Forall2 (fun p d => closest_d2 p (others o) d) cs l.
Proof.
  assert (G : forall (f : point -> Q) o cs, (forall p, closest_d2 p (others o) (f p)) -> Forall2 (fun p d => closest_d2 p (others o) d) cs (map f cs)).
  { intros f o cs H. induction cs; constructor; auto. }
  intros cs o l H. unfold pointwise_d2 in H. destruct o as [q|[|a [|b r]]|[|x [|y [|z t]]]|]; try discriminate; injection H as <-; apply G; intros p; cbn [others].
  - apply point_closest.
  - destruct (point_closest p a) as [A (q & B & C)]. split; [intros x [_ H]; apply A; exact H|]. exists q. split; [split; [discriminate|exact B]|exact C].
  - destruct (line_closest r p a b) as [A (q & B & C)]. split; [intros x [_ H]; apply A; exact H|]. exists q. split; [split; [discriminate|exact B]|exact C].
  - apply point_closest.
Qed.
Lemma pointwise_cases : forall cs o,
  match pointwise_d2 cs o with
  | Ok (Some l) => length l = length cs /\ exists q, others o q
  | Ok None => o = OLine []
  | Err e => (e = AssertionError /\ exists l, o = OTuple l /\ length l <> 2%nat) \/ (e = ValueError /\ o = OElse)
  end.
Proof.
  intros cs o. unfold pointwise_d2. destruct o as [q|[|a [|b r]]|[|x [|y [|z t]]]|]; try (split; [apply map_length|]).
  - exists q. apply same_refl.
  - reflexivity.
  - exists a. split; [discriminate|apply same_refl].
  - exists a. split; [discriminate|]. apply path_vertex. left. reflexivity.
  - left. split; [reflexivity|]. exists []. split; [reflexivity|discriminate].
  - left. split; [reflexivity|]. exists [x]. split; [reflexivity|discriminate].
  - exists (x, y). apply same_refl.
  - left. split; [reflexivity|]. exists (x :: y :: z :: t). split; [reflexivity|discriminate].
  - right. auto.
Qed.
Lemma min_list_spec : forall l a, In (min_list a l) (a :: l) /\ forall x, In x (a :: l) -> min_list a l <= x.
Proof.
  induction l as [|b l IH]; intros a.
  - split; [left; reflexivity|]. intros x [->|[]]. apply Qle_refl.
  - cbn [min_list]. destruct (IH b) as [A B]. unfold qmin. destruct (qltb (min_list b l) a) eqn:E.
    + apply qltb_iff in E. split; [right; exact A|]. intros x [->|H]; [lra|]. apply B. exact H.
    + apply qltb_false in E. split; [left; reflexivity|]. intros x [->|H]; [apply Qle_refl|]. specialize (B x H). lra.
Qed.
Lemma Forall2_In_l : forall {A B} (R : A -> B -> Prop) l r x, Forall2 R l r -> In x l -> exists y, In y r /\ R x y.
Proof. intros A B R l r x H. induction H; intros I; [destruct I|]. destruct I as [->|I]; [exists y; split; [left; reflexivity|assumption]|]. destruct (IHForall2 I) as (z & Z1 & Z2). exists z. split; [right; exact Z1|exact Z2]. Qed.
Lemma Forall2_In_r : forall {A B} (R : A -> B -> Prop) l r y, Forall2 R l r -> In y r -> exists x, In x l /\ R x y.
Proof. intros A B R l r y H. induction H; intros I; [destruct I|]. destruct I as [->|I]; [exists x; split; [left; reflexivity|assumption]|]. destruct (IHForall2 I) as (z & Z1 & Z2). exists z. split; [right; exact Z1|exact Z2]. Qed.
Lemma distance_of_vertices : forall cs o d, compute_d2 cs o = Ok (Some d) ->
  (forall p q, In p cs -> others o q -> d <= d2 p q) /\ exists p q, In p cs /\ others o q /\ d2 p q == d.
Proof.
  intros cs o d H. unfold compute_d2 in H. destruct (pointwise_d2 cs o) as [[[|a r]|]|e] eqn:E; cbn [bind] in H; try discriminate. injection H as <-.
  apply pointwise in E. destruct (min_list_spec r a) as [A B]. split.
  - intros p q P Q. destruct (Forall2_In_l _ _ _ p E P) as (y & Y1 & Y2 & _). specialize (B y Y1). specialize (Y2 q Q). lra.
  - destruct (Forall2_In_r _ _ _ _ E A) as (p & P & _ & q & Q1 & Q2). exists p, q. auto.
Qed.
Lemma closer_iff : forall d m, closer d m = true <-> 0 < m /\ d < m * m.
Proof. intros d m. unfold closer. rewrite andb_true_iff, !qltb_iff. reflexivity. Qed.
Lemma near_closest : forall m S p d, closest_d2 p S d -> (closer d m = true <-> near_set m S p).
Proof.
  intros m S p d [A (q & B & C)]. rewrite closer_iff. split.
  - intros [M D]. exists q. split; [exact B|]. split; [exact M|]. lra.
  - intros (x & X & M & D). split; [exact M|]. specialize (A x X). lra.
Qed.
Lemma contains_iff : forall cs o m b, contains cs o m = Ok b -> (b = true <-> exists p, In p cs /\ near_set m (others o) p).
Proof.
  intros cs o m b H. unfold contains, compute_d2 in H. pose proof (pointwise_cases cs o) as PC. destruct (pointwise_d2 cs o) as [[l|]|e] eqn:E; cbn [bind] in H; [| |discriminate].
  - destruct PC as [L _]. apply pointwise in E. destruct l as [|a r].
    + injection H as <-. split; [discriminate|]. intros (p & P & _). destruct cs; [destruct P|discriminate].
    + injection H as <-. destruct (min_list_spec r a) as [A B]. split.
      * intros C. destruct (Forall2_In_r _ _ _ _ E A) as (p & P & CL). exists p. split; [exact P|]. apply (near_closest m _ p _ CL). exact C.
      * intros (p & P & N). destruct (Forall2_In_l _ _ _ p E P) as (y & Y1 & Y2). apply (near_closest m _ p _ Y2) in N. apply closer_iff in N. apply closer_iff. specialize (B y Y1). split; [apply N|]. destruct N. lra.
  - injection H as <-. subst o. split; [discriminate|]. intros (p & P & q & [Q _] & _). congruence.
Qed.

(** ** Comparison *)
Lemma forall_closer : forall m S l r, Forall2 (fun p d => closest_d2 p S d) l r -> (forallb (fun d => closer d m) r = true <-> forall p, In p l -> near_set m S p).
Proof.
  intros m S l r H. rewrite forallb_forall. split.
  - intros A p P. destruct (Forall2_In_l _ _ _ p H P) as (d & D & C). apply (near_closest m S p d C). apply A. exact D.
  - intros A d D. destruct (Forall2_In_r _ _ _ d H D) as (p & P & C). apply (near_closest m S p d C). apply A. exact P.
Qed.
Lemma near_same : forall m S S' p, (forall q, S q <-> S' q) -> near_set m S p <-> near_set m S' p.
Proof. intros m S S' p H. split; intros (q & Q & R); exists q; (split; [apply H; exact Q|exact R]). Qed.
Lemma equals_iff : forall a b m n, a <> [] -> b <> [] -> exists r, coords_almost_equals a b m n = Ok r /\
  (r = true <-> (forall p, In p (subdivide a n) -> near_set m (on_path b) p) /\ (forall p, In p (subdivide b n) -> near_set m (on_path a) p)).
Proof.
  intros a b m n A B. assert (H : forall c, c <> [] -> subdivide c n <> []). { intros [|x c] C; [congruence|]. destruct (subdivide_hd x c n) as [l ->]. discriminate. }
  pose proof (pointwise_cases (subdivide a n) (OLine (subdivide b n))) as P1. pose proof (pointwise_cases (subdivide b n) (OLine (subdivide a n))) as P2.
  destruct (pointwise_d2 (subdivide a n) (OLine (subdivide b n))) as [[l1|]|e] eqn:E1.
  2: { injection P1 as P1. elim (H b B P1). }
  2: { destruct P1 as [(_ & l & P1 & _)|[_ P1]]; discriminate. }
  destruct (pointwise_d2 (subdivide b n) (OLine (subdivide a n))) as [[l2|]|e] eqn:E2.
  2: { injection P2 as P2. elim (H a A P2). }
  2: { destruct P2 as [(_ & l & P2 & _)|[_ P2]]; discriminate. }
  exists (forallb (fun d => closer d m) l1 && forallb (fun d => closer d m) l2). split.
  - unfold coords_almost_equals. destruct a as [|x a]; [congruence|]. destruct b as [|y b]; [congruence|]. rewrite E1, E2. reflexivity.
  - apply pointwise in E1. apply pointwise in E2. rewrite andb_true_iff, (forall_closer m _ _ _ E1), (forall_closer m _ _ _ E2). cbn [others].
    assert (N : forall c p, c <> [] -> near_set m (fun q => subdivide c n <> [] /\ on_path (subdivide c n) q) p <-> near_set m (on_path c) p).
    { intros c p C. apply near_same. intros q. rewrite (path_subdivide c n q). specialize (H c C). tauto. }
    split; intros [X Y]; split; intros p P.
    + apply (N b p B). apply X. exact P.
    + apply (N a p A). apply Y. exact P.
    + apply (N b p B). apply X. exact P.
    + apply (N a p A). apply Y. exact P.
Qed.
Lemma equals_empty : forall a m n, coords_almost_equals [] a m n = Ok (match a with [] => true | _ => false end) /\ coords_almost_equals a [] m n = Ok (match a with [] => true | _ => false end).
Proof. intros [|x a] m n; split; reflexivity. Qed.
Lemma equals_sym : forall a b m n, coords_almost_equals a b m n = coords_almost_equals b a m n.
Proof.
  intros a b m n. destruct a as [|x a]; [destruct b; reflexivity|]. destruct b as [|y b]; [reflexivity|].
  destruct (equals_iff (x :: a) (y :: b) m n) as (r & E & R); [discriminate|discriminate|]. destruct (equals_iff (y :: b) (x :: a) m n) as (r' & E' & R'); [discriminate|discriminate|]. rewrite E, E'. f_equal.
  destruct r, r'; try reflexivity; [symmetry; apply R'; tauto|apply R; tauto].
Qed.
Lemma near_self : forall m (S : point -> Prop) p, 0 < m -> S p -> near_set m S p.
Proof. intros m S p M H. exists p. split; [exact H|]. split; [exact M|]. assert (E : d2 p p == 0) by (unfold d2; ring). rewrite E. nra. Qed.
Lemma equals_same : forall a b m n, 0 < m -> same_path a b -> (a = [] <-> b = []) -> coords_almost_equals a b m n = Ok true.
Proof.
  intros a b m n M S E. destruct a as [|x a]; [rewrite (proj1 E eq_refl); reflexivity|]. assert (B : b <> []) by (intros C; apply E in C; discriminate).
  destruct (equals_iff (x :: a) b m n) as (r & H & R); [discriminate|exact B|]. rewrite H. f_equal. apply R. split; intros p P; apply near_self; try exact M.
  - apply S. apply (path_subdivide (x :: a) n). apply path_vertex. exact P.
  - apply S. apply (path_subdivide b n). apply path_vertex. exact P.
Qed.

(** ** Boxes *)
Lemma lowest_spec : forall f l p, (forall q, In q (p :: l) -> lowest f p l <= f q) /\ exists q, In q (p :: l) /\ f q = lowest f p l.
Proof.
  intros f. induction l as [|a l IH]; intros p.
  - split; [intros q [->|[]]; apply Qle_refl|]. exists p. split; [left; reflexivity|reflexivity].
  - cbn [lowest]. destruct (IH a) as [A (b & B & C)]. unfold qmin. destruct (qltb (lowest f a l) (f p)) eqn:E.
    + apply qltb_iff in E. split; [intros q [->|H]; [lra|apply A; exact H]|]. exists b. split; [right; exact B|exact C].
    + apply qltb_false in E. split; [intros q [->|H]; [apply Qle_refl|specialize (A q H); lra]|]. exists p. split; [left; reflexivity|reflexivity].
Qed.
Lemma highest_spec : forall f l p, (forall q, In q (p :: l) -> f q <= highest f p l) /\ exists q, In q (p :: l) /\ f q = highest f p l.
Proof.
  intros f. induction l as [|a l IH]; intros p.
  - split; [intros q [->|[]]; apply Qle_refl|]. exists p. split; [left; reflexivity|reflexivity].
  - cbn [highest]. destruct (IH a) as [A (b & B & C)]. unfold qmax. destruct (qltb (f p) (highest f a l)) eqn:E.
    + apply qltb_iff in E. split; [intros q [->|H]; [lra|apply A; exact H]|]. exists b. split; [right; exact B|exact C].
    + apply qltb_false in E. split; [intros q [->|H]; [apply Qle_refl|specialize (A q H); lra]|]. exists p. split; [left; reflexivity|reflexivity].
Qed.
Lemma path_between : forall f lo hi, (f = @fst Q Q \/ f = @snd Q Q) -> forall cs q, (forall p, In p cs -> lo <= f p /\ f p <= hi) -> on_path cs q -> lo <= f q /\ f q <= hi.
Proof.
  intros f lo hi F cs q H P. destruct cs as [|a [|b r]]; [elim (path_nil _ P)| |].
  - cbn in P. destruct (H a (or_introl eq_refl)) as [A B]. destruct P as [X Y]. destruct F as [-> | ->]; lra.
  - destruct P as (l1 & c & d & l2 & E & t & T0 & T1 & X & Y). destruct (H c) as [C1 C2]; [rewrite E; apply in_or_app; right; left; reflexivity|].
    destruct (H d) as [D1 D2]; [rewrite E; apply in_or_app; right; right; left; reflexivity|].
    assert (G : f q == (1 - t) * f c + t * f d) by (destruct F as [-> | ->]; assumption). rewrite G.
    assert (K1 : 0 <= (1 - t) * (f c - lo)) by (apply Qmult_le_0_compat; lra). assert (K2 : 0 <= t * (f d - lo)) by (apply Qmult_le_0_compat; lra).
    assert (K3 : 0 <= (1 - t) * (hi - f c)) by (apply Qmult_le_0_compat; lra). assert (K4 : 0 <= t * (hi - f d)) by (apply Qmult_le_0_compat; lra). split; lra.
Qed.
Lemma box_of : forall cs cs' b, (forall p, In p cs <-> In p cs') -> to_bounding_box cs = Some b -> smallest_box (on_path cs') b.
Proof.
  intros [|p r] cs' b M H; [discriminate|]. injection H as <-. unfold smallest_box.
  destruct (lowest_spec fst r p) as [A1 (a & A2 & A3)]. destruct (lowest_spec snd r p) as [B1 (b & B2 & B3)]. destruct (highest_spec fst r p) as [C1 (c & C2 & C3)]. destruct (highest_spec snd r p) as [D1 (d & D2 & D3)].
  split; [|split; [|split; [|split]]].
  - intros q Q. destruct (path_between fst (lowest fst p r) (highest fst p r) (or_introl eq_refl) _ q (fun x X => conj (A1 x (proj2 (M x) X)) (C1 x (proj2 (M x) X))) Q).
    destruct (path_between snd (lowest snd p r) (highest snd p r) (or_intror eq_refl) _ q (fun x X => conj (B1 x (proj2 (M x) X)) (D1 x (proj2 (M x) X))) Q). tauto.
  - exists a. split; [apply path_vertex, M; exact A2|rewrite A3; reflexivity].
  - exists b. split; [apply path_vertex, M; exact B2|rewrite B3; reflexivity].
  - exists c. split; [apply path_vertex, M; exact C2|rewrite C3; reflexivity].
  - exists d. split; [apply path_vertex, M; exact D2|rewrite D3; reflexivity].
Qed.
Lemma box_smallest : forall cs b, to_bounding_box cs = Some b -> smallest_box (on_path cs) b.
Proof. intros cs b H. apply (box_of cs cs b); [reflexivity|exact H]. Qed.
Lemma box_outline : forall ext b, to_bounding_box ext = Some b -> smallest_box (on_path (outline ext)) b.
Proof.
  intros ext b H. apply (box_of ext _ b); [|exact H]. intros p. destruct ext as [|a [|c r]]; try reflexivity. cbn [outline firstn]. rewrite in_app_iff. split; [auto|]. intros [X|[->|[]]]; [exact X|left; reflexivity].
Qed.
Lemma box_unique : forall S b b', smallest_box S b -> smallest_box S b' ->
  let '(x1, y1, x2, y2) := b in let '(u1, v1, u2, v2) := b' in x1 == u1 /\ y1 == v1 /\ x2 == u2 /\ y2 == v2.
Proof.
  intros S [[[x1 y1] x2] y2] [[[u1 v1] u2] v2] (A & (p1 & P1 & E1) & (p2 & P2 & E2) & (p3 & P3 & E3) & (p4 & P4 & E4)) (B & (q1 & Q1 & F1) & (q2 & Q2 & F2) & (q3 & Q3 & F3) & (q4 & Q4 & F4)).
  pose proof (A _ Q1). pose proof (A _ Q2). pose proof (A _ Q3). pose proof (A _ Q4). pose proof (B _ P1). pose proof (B _ P2). pose proof (B _ P3). pose proof (B _ P4). repeat split; lra.
Qed.
Lemma extents : forall cs x1 y1 x2 y2, to_bounding_box cs = Some (x1, y1, x2, y2) -> extent fst cs == x2 - x1 /\ extent snd cs == y2 - y1.
Proof. intros [|p [|q r]] x1 y1 x2 y2 H; [discriminate| |]; injection H as <- <- <- <-; cbn [extent lowest highest]; split; lra. Qed.

(** ** Points of subdivisions *)
Lemma interp_length : forall a b n, (1 <= n)%Z -> @length point (interpolate_pair a b n) = Z.to_nat n.
Proof. intros a b n N. unfold interpolate_pair. assert (X : (n <? 1)%Z = false) by (apply Z.ltb_ge; lia). rewrite X, map_length, seq_length. reflexivity. Qed.
Lemma piece_nth : forall a b n i d, (1 <= n)%Z -> (i <= Z.to_nat n)%nat -> same_point (nth i (a :: interpolate_pair a b n) d) (lerp a b (inject_Z (Z.of_nat i) / inject_Z (1 + n))).
Proof.
  intros a b n i d N I. destruct i as [|i].
  - cbn [nth]. unfold lerp. pose proof (inject_nz n N) as Y. split; cbn [fst snd]; change (inject_Z (Z.of_nat 0)) with 0; field; exact Y.
  - cbn [nth]. unfold interpolate_pair. assert (X : (n <? 1)%Z = false) by (apply Z.ltb_ge; lia). rewrite X. cbn zeta.
    match goal with |- context [map ?f (seq 0 _)] => rewrite (nth_indep _ d (f 0%nat)) by (rewrite map_length, seq_length; lia); rewrite (map_nth f) end. rewrite seq_nth by lia.
    rewrite Nat.add_0_l. replace (Z.of_nat (S i)) with (Z.of_nat i + 1)%Z by lia. apply (interp_point a b n i N).
Qed.
Lemma subdivide_points : forall n cs, (1 <= n)%Z -> cs <> [] ->
  length (subdivide cs n) = ((length cs - 1) * S (Z.to_nat n) + 1)%nat /\
  forall j i d, (S j < length cs)%nat -> (i <= Z.to_nat n)%nat ->
    same_point (nth (j * S (Z.to_nat n) + i) (subdivide cs n) d) (lerp (nth j cs d) (nth (S j) cs d) (inject_Z (Z.of_nat i) / inject_Z (1 + n))).
Proof.
  intros n cs N. induction cs as [|a cs IH]; intros NE; [congruence|]. destruct cs as [|b r].
  - split; [reflexivity|]. intros j i d J. cbn in J. lia.
  - rewrite subdivide_cons by exact N. destruct IH as [L H]; [discriminate|]. split.
    + rewrite app_length, L. cbn [length]. rewrite (interp_length a b n N). lia.
    + intros [|j] i d J I.
      * cbn [Nat.mul Nat.add]. rewrite app_nth1 by (cbn [length]; rewrite (interp_length a b n N); lia). apply piece_nth; assumption.
      * rewrite app_nth2 by (cbn [length]; rewrite (interp_length a b n N); lia). cbn [length]. rewrite (interp_length a b n N).
        replace (S j * S (Z.to_nat n) + i - S (Z.to_nat n))%nat with (j * S (Z.to_nat n) + i)%nat by lia. apply (H j i d); [cbn in J |- *; lia|exact I].
Qed.
Lemma subdivide_last : forall n cs d, last (subdivide cs n) d = last cs d.
Proof.
  intros n cs d. destruct (Z_lt_le_dec n 1) as [L|L]; [rewrite subdivide_less by exact L; reflexivity|].
  induction cs as [|a cs IH]; [reflexivity|]. destruct cs as [|b r]; [reflexivity|]. rewrite subdivide_cons by exact L. destruct (subdivide_hd b r n) as [l E]. rewrite E in *.
  transitivity (last (b :: l) d); [|exact IH]. clear. assert (G : forall (x : list point) y z, last (x ++ y :: z) d = last (y :: z) d).
  { induction x as [|u x IHx]; intros y z; [reflexivity|]. cbn [app]. rewrite <- (IHx y z). destruct x; reflexivity. }
  apply G.
Qed.
Lemma lerp_lerp : forall a b t u s, same_point (lerp (lerp a b t) (lerp a b u) s) (lerp a b (t + s * (u - t))).
Proof. intros a b t u s. unfold lerp. split; cbn [fst snd]; ring. Qed.
Lemma lerp_compat : forall a a' b b' t t', same_point a a' -> same_point b b' -> t == t' -> same_point (lerp a b t) (lerp a' b' t').
Proof. intros a a' b b' t t' [A B] [C D] T. unfold lerp. split; cbn [fst snd]; rewrite ?A, ?B, ?C, ?D, T; reflexivity. Qed.
Lemma same_points_nth : forall l r d, length l = length r -> (forall i, (i < length l)%nat -> same_point (nth i l d) (nth i r d)) -> same_points l r.
Proof.
  induction l as [|a l IH]; intros [|b r] d L H; try discriminate; [constructor|]. constructor; [apply (H 0%nat); cbn; lia|]. apply (IH r d); [cbn in L; lia|]. intros i I. apply (H (S i)). cbn. lia.
Qed.
Lemma last_nth : forall (l : list point) d, l <> [] -> last l d = nth (length l - 1) l d.
Proof.
  induction l as [|a l IH]; intros d H; [congruence|]. destruct l as [|b l]; [reflexivity|]. change (last (a :: b :: l) d) with (last (b :: l) d). rewrite IH by discriminate. cbn [length]. replace (S (S (length l)) - 1)%nat with (S (length l)) by lia. cbn [nth]. replace (S (length l) - 1)%nat with (length l) by lia. reflexivity.
Qed.
(** Subdividing twice. *)
Lemma subdivide_twice : forall m n cs, (1 <= m)%Z -> (1 <= n)%Z -> same_points (subdivide (subdivide cs m) n) (subdivide cs ((m + 1) * (n + 1) - 1)).
Proof.
  intros m n cs M N. destruct cs as [|a cs]; [constructor|]. set (c := a :: cs). assert (C : c <> []) by discriminate.
  destruct (subdivide_points m c M C) as [L1 H1]. assert (C1 : subdivide c m <> []) by (destruct (subdivide_hd a cs m) as [l E]; unfold c; rewrite E; discriminate).
  destruct (subdivide_points n (subdivide c m) N C1) as [L2 H2]. set (k := ((m + 1) * (n + 1) - 1)%Z). assert (K : (1 <= k)%Z) by (unfold k; nia).
  destruct (subdivide_points k c K C) as [L3 H3].
  assert (KN : S (Z.to_nat k) = (S (Z.to_nat m) * S (Z.to_nat n))%nat) by (unfold k; nia).
  assert (LE : length (subdivide (subdivide c m) n) = length (subdivide c k)). { rewrite L2, L1, L3, KN. rewrite Nat.add_sub. rewrite Nat.mul_assoc. reflexivity. }
  apply (same_points_nth _ _ a LE). intros i I. rewrite L2, L1, Nat.add_sub in I.
  set (P := S (Z.to_nat m)) in *. set (Q := S (Z.to_nat n)) in *. set (e := (length c - 1)%nat) in *.
  destruct (Nat.eq_dec i (e * P * Q)) as [EQ|NE].
  - assert (X1 : nth i (subdivide (subdivide c m) n) a = last c a). { rewrite <- (subdivide_last m c a), <- (subdivide_last n (subdivide c m) a). rewrite (last_nth (subdivide (subdivide c m) n)).
      - f_equal. rewrite L2, L1, Nat.add_sub. rewrite EQ, Nat.add_sub. reflexivity.
      - destruct (subdivide c m) as [|x l] eqn:E; [congruence|]. destruct (subdivide_hd x l n) as [l' ->]. discriminate. }
    assert (X2 : nth i (subdivide c k) a = last c a). { rewrite <- (subdivide_last k c a). rewrite (last_nth (subdivide c k)).
      - f_equal. rewrite L3, KN, EQ, Nat.add_sub. fold P Q. rewrite Nat.mul_assoc. reflexivity.
      - destruct (subdivide_hd a cs k) as [l E]. unfold c. rewrite E. discriminate. }
    rewrite X1, X2. apply same_refl.
  - assert (IL : (i < e * P * Q)%nat) by lia.
    (* i = (j * P + u) * Q + v *)
    set (v := (i mod Q)%nat). set (h := (i / Q)%nat). set (u := (h mod P)%nat). set (j := (h / P)%nat).
    assert (Q0 : Q <> 0%nat) by (unfold Q; lia). assert (P0 : P <> 0%nat) by (unfold P; lia).
    assert (E1 : i = (h * Q + v)%nat) by (unfold h, v; rewrite Nat.mul_comm; apply Nat.div_mod; exact Q0). assert (E2 : h = (j * P + u)%nat) by (unfold j, u; rewrite Nat.mul_comm; apply Nat.div_mod; exact P0).
    assert (V : (v < Q)%nat) by (apply Nat.mod_upper_bound; exact Q0). assert (U : (u < P)%nat) by (apply Nat.mod_upper_bound; exact P0).
    assert (HL : (h < e * P)%nat) by (apply Nat.div_lt_upper_bound; [exact Q0|]; rewrite Nat.mul_comm; exact IL). assert (J : (j < e)%nat) by (apply Nat.div_lt_upper_bound; [exact P0|]; rewrite Nat.mul_comm; exact HL).
    clearbody v u h j. assert (LC : (length c = S e)%nat) by (unfold e, c; cbn; lia).
    rewrite E1 at 1. pose proof (H2 h v a ltac:(rewrite L1; lia) ltac:(unfold Q in V; lia)) as T2. fold Q in T2.
    eapply same_trans; [exact T2|].
    pose proof (H1 j u a ltac:(lia) ltac:(unfold P in U; lia)) as T1. fold P in T1. rewrite <- E2 in T1.
    assert (T1' : same_point (nth (S h) (subdivide c m) a) (lerp (nth j c a) (nth (S j) c a) (inject_Z (Z.of_nat (S u)) / inject_Z (1 + m)))).
    { destruct (Nat.eq_dec (S u) P) as [EP|NP].
      - assert (T : same_point (nth (S h) (subdivide c m) a) (nth (S j) c a)).
        { destruct (Nat.eq_dec (S j) e) as [EJ|NJ].
          - assert (X : nth (S h) (subdivide c m) a = last c a). { rewrite <- (subdivide_last m c a), (last_nth (subdivide c m) a C1). f_equal. rewrite L1, Nat.add_sub, <- EJ, E2. cbn [Nat.mul]. lia. }
            rewrite X, (last_nth c a C). fold e. rewrite <- EJ. apply same_refl.
          - pose proof (H1 (S j) 0%nat a ltac:(lia) ltac:(lia)) as T. fold P in T. replace (S j * P + 0)%nat with (S h) in T by (cbn [Nat.mul]; lia). eapply same_trans; [exact T|].
            unfold lerp. pose proof (inject_nz m M) as Y. split; cbn [fst snd]; change (inject_Z (Z.of_nat 0)) with 0; field; exact Y. }
        eapply same_trans; [exact T|]. unfold lerp. assert (EM : Z.of_nat (S u) = (1 + m)%Z) by (rewrite EP; unfold P; lia). rewrite EM. pose proof (inject_nz m M) as Y. split; cbn [fst snd]; field; exact Y.
      - pose proof (H1 j (S u) a ltac:(lia) ltac:(unfold P in *; lia)) as T. fold P in T. replace (j * P + S u)%nat with (S h) in T by lia. exact T. }
    eapply same_trans; [apply (lerp_compat _ _ _ _ _ _ T1 T1' (Qeq_refl _))|]. eapply same_trans; [apply lerp_lerp|].
    apply same_sym. pose proof (H3 j (u * Q + v)%nat a ltac:(lia)) as T3. rewrite KN in T3. fold P Q in T3. replace (j * (P * Q) + (u * Q + v))%nat with i in T3 by (rewrite E1, E2; ring).
    eapply same_trans; [apply T3; assert (u * Q + v < P * Q)%nat by (pose proof (Nat.mul_le_mono_r (S u) P Q U) as Z0; cbn [Nat.mul] in Z0; lia); lia|]. apply lerp_compat; try apply same_refl.
    assert (EK : inject_Z (1 + k) == inject_Z (1 + m) * inject_Z (1 + n)) by (rewrite <- inject_Z_mult; apply inject_Z_injective; unfold k; ring).
    assert (EU : inject_Z (Z.of_nat (u * Q + v)) == inject_Z (Z.of_nat u) * inject_Z (1 + n) + inject_Z (Z.of_nat v)).
    { rewrite <- inject_Z_mult, <- inject_Z_plus. apply inject_Z_injective. rewrite Nat2Z.inj_add, Nat2Z.inj_mul. unfold Q. lia. }
    assert (ES : inject_Z (Z.of_nat (S u)) == inject_Z (Z.of_nat u) + 1) by (rewrite Nat2Z.inj_succ; unfold Z.succ; rewrite inject_Z_plus; reflexivity).
    rewrite EK, EU, ES. pose proof (inject_nz m M). pose proof (inject_nz n N). field. split; assumption.
Qed.

(** ** Subdivided polygons *)
Lemma outline_line : forall ext, coords (to_line_string ext None true) = outline ext.
Proof. intros [|a [|b r]]; reflexivity. Qed.
Lemma poly_subdivide_outline : forall ext n, settled ext -> outline (poly_subdivide ext n) = subdivide (outline ext) n.
Proof.
  intros ext n S. unfold poly_subdivide. rewrite S. destruct ext as [|a [|b r]]; [reflexivity|reflexivity|]. rewrite outline_line. set (o := outline (a :: b :: r)).
  assert (O : o = a :: b :: r ++ [a]) by reflexivity. assert (L : last (subdivide o n) a = a). { rewrite subdivide_last, O. rewrite !app_comm_cons. apply last_last. }
  assert (NE : subdivide o n <> []) by (rewrite O; destruct (subdivide_hd a (b :: r ++ [a]) n) as [l ->]; discriminate).
  pose proof (app_removelast_last a NE) as E. rewrite L in E.
  assert (LN : (3 <= length (subdivide o n))%nat). { destruct (Z_lt_le_dec n 1) as [X|X]; [rewrite subdivide_less by exact X; rewrite O; cbn; rewrite app_length; cbn; lia|].
    destruct (subdivide_points n o X) as [LL _]; [rewrite O; discriminate|]. rewrite LL, O. cbn [length]. rewrite app_length. cbn [length]. nia. }
  destruct (removelast (subdivide o n)) as [|x [|y z]] eqn:R.
  - rewrite E in LN. cbn in LN. lia.
  - rewrite E in LN. cbn in LN. lia.
  - cbn [outline firstn]. assert (X : x = a). { destruct (subdivide_hd a (b :: r ++ [a]) n) as [l EL]. rewrite O, EL in E. injection E as E _. symmetry. exact E. } subst x. symmetry. exact E.
Qed.
Lemma area_subdivide : forall ext n, settled ext -> area (poly_subdivide ext n) == area ext.
Proof. intros ext n S. rewrite !area_outline. apply div2_compat, qabs_compat. rewrite (poly_subdivide_outline ext n S). apply cross_subdivide. Qed.
Lemma outline_nil : forall ext, outline ext = [] <-> ext = [].
Proof. intros [|a [|b r]]; split; intros H; try discriminate; reflexivity. Qed.
Lemma ext_equals : forall a b m n, 0 < m -> same_path (outline a) (outline b) -> (a = [] <-> b = []) -> exterior_almost_equals a b m n = Ok true.
Proof. intros a b m n M S E. unfold exterior_almost_equals. rewrite !outline_line. apply equals_same; [exact M|exact S|]. rewrite !outline_nil. exact E. Qed.
Lemma poly_box : forall ext x1 y1 x2 y2, poly_to_bounding_box ext = Ok (x1, y1, x2, y2) ->
  smallest_box (on_path (outline ext)) (x1, y1, x2, y2) /\
  exists w h, poly_extent fst ext = Ok w /\ poly_extent snd ext = Ok h /\ w == x2 - x1 /\ h == y2 - y1.
Proof.
  intros [|p r] x1 y1 x2 y2 H; [discriminate|]. unfold poly_to_bounding_box in H. destruct (to_bounding_box (p :: r)) as [b|] eqn:E; [|discriminate]. injection H as ->.
  split; [apply box_outline; exact E|]. injection E as <- <- <- <-. cbn [poly_extent]. eexists. eexists. split; [reflexivity|]. split; [reflexivity|]. split; reflexivity.
Qed.
Lemma midpoint_missed : forall a b m, 0 < m -> 4 * (m * m) <= d2 a b ->
  on_path [a; b] (lerp a b (1 # 2)) /\ contains [a; b] (OKeypoint (lerp a b (1 # 2))) m = Ok false.
Proof.
  intros a b m M D. split.
  - apply path_cons. left. apply lerp_on; lra.
  - destruct (contains [a; b] (OKeypoint (lerp a b (1 # 2))) m) as [[|]|e] eqn:E; [|reflexivity|discriminate].
    exfalso. destruct (contains_iff _ _ _ _ E) as [X _]. destruct (X eq_refl) as (p & P & q & Q & _ & L). cbn [others] in Q.
    assert (L2 : d2 p (lerp a b (1 # 2)) < m * m) by (rewrite <- (d2_compat p p q _ (same_refl p) Q); exact L).
    assert (F : 4 * d2 p (lerp a b (1 # 2)) == d2 a b). { destruct P as [<-|[<-|[]]]; unfold d2, lerp; cbn [fst snd]; field. } lra.
Qed.
