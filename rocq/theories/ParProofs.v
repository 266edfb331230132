(** Proofs about stochastic parameters. *)
From Coq Require Import Qabs Lia Lqa Bool.
From Verif Require Import Prelude PreludeFacts ParModel ParSpec UtilProofs AriProofs.
Local Open Scope Q_scope.

(** ** Lists and rounding *)

Lemma nth_tiled : forall (l : list Q) m i, l <> [] -> (i < m * length l)%nat ->
  nth i (concat (repeat l m)) 0 = nth (i mod length l) l 0.
Proof.
  intros l m. induction m as [|m IH]; intros i NE Hi; [simpl in Hi; lia|].
  assert (L : (length l <> 0)%nat) by (destruct l; simpl; congruence).
  cbn [repeat concat]. destruct (Nat.lt_ge_cases i (length l)) as [C|C].
  - rewrite app_nth1 by assumption. now rewrite Nat.mod_small.
  - rewrite app_nth2 by assumption. rewrite IH by (auto; simpl in Hi; lia).
    f_equal. replace i with ((i - length l) + 1 * length l)%nat at 2 by lia.
    now rewrite Nat.mod_add.
Qed.

Lemma length_tiled : forall (l : list Q) m, length (concat (repeat l m)) = (m * length l)%nat.
Proof. induction m; simpl; [reflexivity|]. rewrite app_length. lia. Qed.

Lemma multiplier_enough : forall n m, (0 < m)%nat ->
  (n <= Z.to_nat (Qceiling (inject_Z (Z.of_nat n) / inject_Z (Z.of_nat m))) * m)%nat.
Proof.
  intros n m M.
  set (q := inject_Z (Z.of_nat n) / inject_Z (Z.of_nat m)).
  assert (P : 0 < inject_Z (Z.of_nat m)) by (replace 0 with (inject_Z 0) by reflexivity; rewrite <- Zlt_Qlt; lia).
  assert (E : q * inject_Z (Z.of_nat m) == inject_Z (Z.of_nat n)) by (unfold q; field; lra).
  pose proof (Qle_ceiling q) as C.
  assert (inject_Z (Z.of_nat n) <= inject_Z (Qceiling q) * inject_Z (Z.of_nat m)).
  { rewrite <- E. apply Qmult_le_compat_r; lra. }
  rewrite <- inject_Z_mult, <- Zle_Qle in H. nia.
Qed.

Lemma wrap_fits : forall bits z, (0 < bits)%Z -> fits bits (wrap_int bits z).
Proof.
  intros bits z B. unfold fits, wrap_int.
  assert (0 < 2 ^ bits)%Z by (apply Z.pow_pos_nonneg; lia).
  assert (2 ^ bits = 2 * 2 ^ (bits - 1))%Z by (rewrite <- Z.pow_succ_r by lia; f_equal; lia).
  pose proof (Z.mod_pos_bound (z + 2 ^ (bits - 1)) (2 ^ bits) H). lia.
Qed.
Lemma wrap_id : forall bits z, (0 < bits)%Z -> fits bits z -> wrap_int bits z = z.
Proof.
  intros bits z B [F1 F2]. unfold wrap_int.
  assert (2 ^ bits = 2 * 2 ^ (bits - 1))%Z by (rewrite <- Z.pow_succ_r by lia; f_equal; lia).
  rewrite Z.mod_small; lia.
Qed.


Lemma py_int_truncation : forall x, truncation x (py_int x).
Proof.
  intros x. unfold truncation, py_int.
  destruct (qleb 0 x) eqn:E.
  - apply qleb_iff in E. left. destruct (Qfloor_spec x) as [A B].
    split; [assumption|]. split; lra.
  - assert (x < 0) by (apply Qnot_le_lt; intros C; apply qleb_iff in C; congruence).
    right. split; [assumption|]. exact (Qceiling_spec x).
Qed.
Lemma np_round_nearest : forall x, nearest x (np_round x).
Proof. intros x. unfold nearest. pose proof (np_round_near x). rewrite Qabs_Qminus. assumption. Qed.

Lemma py_int_integral : forall x, integral x -> x == inject_Z (py_int x).
Proof.
  intros x [z E]. pose proof (py_int_truncation x) as T. unfold truncation in T.
  assert (C : py_int x = z).
  { destruct T as [[A [B C]]|[A [B C]]].
    - assert (B' : inject_Z (py_int x) <= inject_Z z) by lra. rewrite <- Zle_Qle in B'.
      assert (C' : inject_Z z < inject_Z (py_int x + 1)) by (rewrite inject_Z_plus; change (inject_Z 1) with 1; lra).
      rewrite <- Zlt_Qlt in C'. lia.
    - assert (B' : inject_Z z <= inject_Z (py_int x)) by lra. rewrite <- Zle_Qle in B'.
      assert (C' : inject_Z (py_int x) < inject_Z (z + 1)) by (rewrite inject_Z_plus; change (inject_Z 1) with 1; lra).
      rewrite <- Zlt_Qlt in C'. lia. }
  now rewrite C.
Qed.

Lemma py_int_eq : forall q z, q == inject_Z z -> py_int q = z.
Proof.
  intros q z E. pose proof (py_int_integral q (ex_intro _ z E)) as IQ.
  apply inject_Z_injective. transitivity q; [symmetry; exact IQ|exact E].
Qed.

Lemma Forall2_map_right : forall {A B} (P : A -> B -> Prop) (f : A -> B) l,
  (forall x, P x (f x)) -> Forall2 P l (map f l).
Proof. induction l; intros; constructor; auto. Qed.

Lemma integral_compat : forall x y, x == y -> integral x -> integral y.
Proof. intros x y E [z Z]. exists z. now rewrite <- E. Qed.
Lemma integral_opp : forall x, integral x -> integral (- x).
Proof. intros x [z E]. exists (- z)%Z. rewrite inject_Z_opp. now rewrite E. Qed.
Lemma integral_abs : forall x, integral x -> integral (Qabs x).
Proof.
  intros x I. apply (Qabs_case x (fun v => integral v)); intros; [assumption|now apply integral_opp].
Qed.
Lemma integral_abs_inv : forall v x, Qabs v == Qabs x -> integral x -> integral v.
Proof.
  intros v x E I. apply integral_abs in I. apply (integral_compat _ _ (Qeq_sym _ _ E)) in I.
  revert I. apply (Qabs_case v (fun w => integral w -> integral v)); auto.
  intros _ I. apply integral_opp in I. apply (integral_compat (- - v)); [ring|assumption].
Qed.

Lemma Forall2_integral : forall (P : Q -> Q -> Prop) xs vs,
  (forall x v, P x v -> integral x -> integral v) -> Forall2 P xs vs -> Forall integral xs -> Forall integral vs.
Proof.
  intros P xs vs F H. induction H; intros A; constructor; inversion A; subst; eauto.
Qed.

Lemma Forall_nth_Q : forall (P : Q -> Prop) l, Forall P l <-> forall i, (i < length l)%nat -> P (nth i l 0).
Proof.
  intros P l. rewrite Forall_forall. split.
  - intros H i Hi. apply H. now apply nth_In.
  - intros H x Hx. apply (In_nth _ _ 0) in Hx. destruct Hx as [i [Hi E]]. rewrite <- E. auto.
Qed.

Lemma result_int : forall op ew a b, result_kind op ew a b = KInt -> op <> ODivide /\ a = KInt /\ b = KInt.
Proof. intros [] [] [] []; simpl; intros; try discriminate; repeat split; congruence. Qed.

Lemma Forall_eq_single : forall (y : Q) (P : Q -> Prop) ys, Forall (eq y) ys -> P y -> Forall P ys.
Proof. intros y P ys H HP. induction H; constructor; subst; auto. Qed.

Lemma samples_integral : forall h p size vs, valid h p -> samples_of h p size vs KInt -> Forall integral vs.
Proof.
  intros h p. induction p; intros size vs V S; cbn [samples_of] in S; destruct S as [L S]; cbn [valid] in V.
  - destruct S as [E S]. symmetry in E. specialize (V E).
    eapply Forall_impl; [|exact S]. intros a A. cbv beta in A. now apply (integral_compat v).
  - destruct S as [E S]. destruct V as [NE V]. symmetry in E. specialize (V E).
    apply Forall_nth_Q. intros i Hi. apply (integral_compat _ _ (Qeq_sym _ _ (S i Hi))).
    apply (proj1 (Forall_nth_Q integral (h l)) V). apply Nat.mod_upper_bound.
    destruct (h l); simpl; congruence.
  - destruct S as [E S]. symmetry in E. specialize (V E). rewrite Forall_forall in V.
    eapply Forall_impl; [|exact S]. cbv beta. auto.
  - destruct S as [_ [x [kx [_ [_ S]]]]]. eapply Forall_impl; [|exact S]. cbv beta.
    intros a [[A _]|[A _]]; [exists 0%Z|exists 1%Z]; now rewrite A.
  - destruct S as [_ [x [y [_ [_ S]]]]]. eapply Forall_impl; [|exact S]. cbv beta. tauto.
  - destruct S as [E _]. discriminate.
  - destruct S as [_ [_ S]]. eapply Forall_impl; [|exact S]. cbv beta. tauto.
  - destruct S as [E _]. discriminate.
  - destruct S as [E _]. discriminate.
  - destruct S as [K [xs [SX F]]]. destruct V as [V [VL VH]].
    specialize (IHp size xs V SX). specialize (K eq_refl).
    refine (Forall2_integral _ xs vs _ F IHp). intros x v.
    destruct lo as [[l kl]|]; destruct hi as [[u ku]|]; cbn [valid_bound] in *.
    + pose proof (K _ (or_introl eq_refl)) as KL. pose proof (K _ (or_intror eq_refl)) as KU.
      simpl in KL, KU. subst. intros [A B] I.
      destruct (Qlt_le_dec u l) as [C|C].
      * apply (integral_compat u); [symmetry; auto|assumption].
      * destruct (A C) as [[_ E]|[[_ E]|[_ [_ E]]]]; symmetry in E; now apply (integral_compat _ _ E).
    + pose proof (K _ (or_introl eq_refl)) as KL. simpl in KL. subst.
      intros [[_ E]|[_ E]] I; symmetry in E; now apply (integral_compat _ _ E).
    + pose proof (K _ (or_intror eq_refl)) as KL. simpl in KL. subst.
      intros [[_ E]|[_ E]] I; symmetry in E; now apply (integral_compat _ _ E).
    + intros E I; symmetry in E; now apply (integral_compat _ _ E).
  - destruct S as [_ [xs [kx [SX F]]]].
    assert (D : kx = KInt \/ kx <> KInt) by (destruct kx; [now left|right; discriminate|right; discriminate]).
    destruct D as [D|D].
    + subst. specialize (IHp size xs V SX).
      refine (Forall2_integral _ xs vs _ F IHp). intros x v E I. symmetry in E. now apply (integral_compat _ _ E).
    + clear - F D. induction F; constructor; auto.
      destruct kx; [congruence| |]; destruct H as [z [E _]]; now exists z.
  - destruct S as [xs [ys [LY [LX [[kx [ky [SX [E SY]]]] S]]]]]. destruct V as [VP VV].
    symmetry in E. apply result_int in E. destruct E as [NO [-> ->]].
    specialize (IHp1 _ _ VP SX).
    assert (IY : Forall integral ys).
    { destruct (elementwise && negb (is_det p2)); [exact (IHp2 _ _ VV SY)|].
      destruct SY as [y [SY F]]. specialize (IHp2 _ _ VV SY). inversion IHp2; subst.
      now apply (Forall_eq_single y). }
    apply Forall_nth_Q. intros i Hi. specialize (S i Hi).
    rewrite Forall_nth_Q in IHp1, IY.
    destruct (IHp1 i ltac:(lia)) as [a A]. destruct (IY i ltac:(lia)) as [b B].
    destruct op; cbn [op_result] in S; [exists (a * b)%Z|congruence|exists (a + b)%Z|exists (a - b)%Z]; rewrite S, A, B.
    + now rewrite inject_Z_mult.
    + now rewrite inject_Z_plus.
    + unfold Z.sub. rewrite inject_Z_plus, inject_Z_opp. reflexivity.
  - destruct S as [xs [SX F]]. specialize (IHp _ _ V SX).
    refine (Forall2_integral _ xs vs _ F IHp). intros x v E I. symmetry in E. apply (integral_compat _ _ E).
    now apply integral_abs.
  - destruct S as [xs [SX F]]. destruct V as [_ [_ V]]. specialize (IHp _ _ V SX).
    refine (Forall2_integral _ xs vs _ F IHp). intros x v [[E _]|[E _]] I; symmetry in E; apply (integral_compat _ _ E).
    + now apply integral_abs.
    + now apply integral_opp, integral_abs.
  - destruct mode.
    + destruct S as [xs [SX F]]. specialize (IHp _ _ V SX).
      refine (Forall2_integral _ xs vs _ F IHp). intros x v [E _] I. now apply (integral_abs_inv v x).
    + destruct S as [_ [draws [D F]]]. rewrite Forall_forall in F, D. apply Forall_forall.
      intros v Hv. destruct (F v Hv) as [xs [x [X1 [X2 E]]]].
      destruct (D xs X1) as [kx [SX K]]. specialize (K eq_refl). subst kx.
      specialize (IHp _ _ V SX). rewrite Forall_forall in IHp.
      apply (integral_abs_inv v x E). auto.
  - destruct S as [m [count [IM [C [NK [_ [rounds [LR [FR F]]]]]]]]]. destruct V as [V _].
    apply Forall_nth_Q. intros i Hi. specialize (F i Hi). cbv zeta in F.
    assert (COL : forall x, In x (map (fun xs => nth i xs 0) rounds) -> integral x).
    { intros x X. apply in_map_iff in X. destruct X as [xs [E X]]. rewrite Forall_forall in FR.
      destruct (FR xs X) as [kx [SX K]]. specialize (K eq_refl). subst kx.
      pose proof (IHp1 _ _ V SX) as G. rewrite Forall_nth_Q in G. rewrite <- E. apply G.
      assert (length xs = prod size).
      { clear - SX. destruct p1; cbn [samples_of] in SX; tauto. }
      lia. }
    destruct m.
    + destruct F as [[x [X E]] _]. symmetry in E. apply (integral_compat _ _ E). auto.
    + destruct F as [[x [X E]] _]. symmetry in E. apply (integral_compat _ _ E). auto.
    + specialize (NK eq_refl). discriminate.
Qed.

(** ** Drawing *)

Lemma samples_length : forall h p size vs k, samples_of h p size vs k -> length vs = prod size.
Proof. intros h p size vs k S. destruct p; cbn [samples_of] in S; tauto. Qed.

Lemma samples_intro : forall (P : Prop) (vs : list Q) n, length vs = n -> P -> length vs = n /\ P.
Proof. auto. Qed.

Lemma replace_rows_length : forall bad n vs new, length (replace_rows bad n vs new) = length vs.
Proof. intros. unfold replace_rows. now rewrite map_length, seq_length. Qed.

Lemma replace_rows_nth : forall bad n vs new i, (i < length vs)%nat ->
  nth i (replace_rows bad n vs new) 0 = if bad_row bad n vs (i / n) then nth i new 0 else nth i vs 0.
Proof.
  intros. unfold replace_rows.
  set (f := fun i0 : nat => if bad_row bad n vs (i0 / n) then nth i0 new 0 else nth i0 vs 0).
  rewrite (nth_indep _ 0 (f 0%nat)) by now rewrite map_length, seq_length.
  rewrite map_nth. rewrite seq_nth by assumption. reflexivity.
Qed.

Lemma bad_row_one : forall bad vs i, (i < length vs)%nat -> bad_row bad 1 vs i = bad (nth i vs 0).
Proof.
  intros bad vs i Hi. unfold bad_row. rewrite Nat.mul_1_r.
  assert (E : skipn i vs = nth i vs 0 :: skipn (S i) vs).
  { clear bad. revert i Hi. induction vs as [|v vs IH]; intros i Hi; [simpl in Hi; lia|].
    destruct i; [reflexivity|]. cbn [skipn nth]. rewrite IH by (simpl in Hi; lia). reflexivity. }
  rewrite E. simpl. now rewrite orb_false_r.
Qed.

Lemma nth_repeat_lt : forall {A} (x d : A) n i, (i < n)%nat -> nth i (repeat x n) d = x.
Proof. intros A x d n. induction n; intros i H; [lia|]. destruct i; [reflexivity|]. simpl. apply IHn. lia. Qed.

Section Draws.
  Context {R : Type} (g : rng_ops R) (G : sane g).

  Definition view_ok (h : heap) (p : sparam) (d : drawn) : Prop :=
    match d_view d with
    | None => True
    | Some l => hands_out_list p = true /\ d_vals d = firstn (length (d_vals d)) (h l)
    end.
  Definition described (h : heap) (p : sparam) (size : list nat) (o : drawn * heap * R) : Prop :=
    let '(d, h', _) := o in
    h' = h /\ samples_of h p size (d_vals d) (d_kind d) /\ view_ok h p d.

  Lemma advanced_described : forall h p size x o,
    (forall o, x = Ok o -> described h p size o) -> advanced g x = Ok o -> described h p size o.
  Proof.
    intros h p size x o H E. unfold advanced in E. destruct x as [[[d h'] r]|e]; cbn [bind] in E; [|discriminate].
    injection E as E. subst o. exact (H _ eq_refl).
  Qed.

  Lemma one_described : forall h p x v k h' r,
    (forall o, x = Ok o -> described h p [1%nat] o) -> one g x = Ok (v, k, h', r) ->
    h' = h /\ samples_of h p [1%nat] [v] k.
  Proof.
    intros h p x v k h' r H E. unfold one in E.
    destruct (advanced g x) as [[[d h2] r2]|e] eqn:A; cbn [bind] in E; [|discriminate].
    pose proof (advanced_described _ _ _ _ _ H A) as [D1 [D2 _]].
    injection E as E1 E2 E3 E4. subst.
    pose proof (samples_length _ _ _ _ _ D2) as L. cbn in L.
    destruct (d_vals d) as [|w [|]]; try discriminate L. split; [reflexivity|exact D2].
  Qed.

  Lemma current_same : forall h p d, view_ok h p d -> current h d = d_vals d.
  Proof.
    intros h p d V. unfold view_ok, current in *. destruct (d_view d); [|reflexivity]. now rewrite <- (proj2 V).
  Qed.

  Lemma no_view : forall h p d, view_ok h p d -> hands_out_list p = false -> d_view d = None.
  Proof. intros h p d V N. unfold view_ok in V. destruct (d_view d); [|reflexivity]. destruct V. congruence. Qed.

  Lemma uniform_fact : forall r a b n xs r', a < b -> rng_uniform R g r a b n = (xs, r') ->
    length xs = n /\ Forall (fun v => a <= v /\ v <= b) xs.
  Proof. intros r a b n xs r' L E. pose proof (sane_uniform g G r a b n L) as H. now rewrite E in H. Qed.
  Lemma integers_fact : forall r a b n xs r', (a < b)%Z -> rng_integers R g r a b n = (xs, r') ->
    length xs = n /\ Forall (fun z => (a <= z < b)%Z) xs.
  Proof. intros r a b n xs r' L E. pose proof (sane_integers g G r a b n L) as H. now rewrite E in H. Qed.
  Lemma indices_fact : forall r m n xs r', (0 < m)%nat -> rng_indices R g r m n = (xs, r') ->
    length xs = n /\ Forall (fun i => (i < m)%nat) xs.
  Proof. intros r m n xs r' L E. pose proof (sane_indices g G r m n L) as H. now rewrite E in H. Qed.
  Lemma binomial_fact : forall r p n xs r', 0 <= p -> p <= 1 -> rng_binomial R g r p n = (xs, r') ->
    length xs = n /\ Forall (fun z => (z = 0%Z /\ ~ p == 1) \/ (z = 1%Z /\ ~ p == 0)) xs.
  Proof. intros r p n xs r' A B E. pose proof (sane_binomial g G r p n A B) as H. now rewrite E in H. Qed.
  Lemma poisson_fact : forall r l n xs r', 0 <= l -> rng_poisson R g r l n = (xs, r') ->
    length xs = n /\ Forall (fun z => (0 <= z)%Z) xs.
  Proof. intros r l n xs r' A E. pose proof (sane_poisson g G r l n A) as H. now rewrite E in H. Qed.

  (** The loop of rerolling. *)
  Lemma reroll_described : forall h p size (positive : bool) (redraw : heap -> R -> outcome),
    (forall r o, redraw h r = Ok o -> described h p size o) ->
    hands_out_list p = false ->
    forall count draws (d : drawn) (r : R) (o : drawn * heap * R),
    let bad := (fun v => if positive then qltb v 0 else qltb 0 v) : Q -> bool in
    d_view d = None -> length (d_vals d) = prod size ->
    Forall (fun xs => exists kx, samples_of h p size xs kx /\ (d_kind d = KInt -> kx = KInt)) draws ->
    Forall (fun v => exists xs x, In xs draws /\ In x xs /\ Qabs v == Qabs x) (d_vals d) ->
    reroll redraw bad (prod (tl size)) count d h r = Ok o ->
    let '(d', h', _) := o in
    h' = h /\ d_view d' = None /\ d_kind d' = d_kind d /\ length (d_vals d') = prod size /\
    (length size = 1%nat -> Forall (forced positive) (d_vals d')) /\
    exists draws', Forall (fun xs => exists kx, samples_of h p size xs kx /\ (d_kind d = KInt -> kx = KInt)) draws' /\
      Forall (fun v => exists xs x, In xs draws' /\ In x xs /\ Qabs v == Qabs x) (d_vals d').
  Proof.
    intros h p size positive redraw RD HO count.
    assert (GOOD : forall v, (if positive then qltb v 0 else qltb 0 v) = false -> forced positive v).
    { intros v Hv. unfold forced. destruct positive; apply qltb_false in Hv; lra. }
    induction count as [|count IH]; intros draws d r o bad NV L FD FV E; cbn [reroll] in E;
      destruct (existsb bad (d_vals d)) eqn:EX.
    - (* final negation *)
      rewrite NV in E. cbn [write] in E. injection E as E. subst o. cbn [d_vals d_kind d_view].
      split; [reflexivity|]. split; [reflexivity|]. split; [reflexivity|].
      rewrite replace_rows_length. split; [assumption|]. split.
      + intros ONE. destruct size as [|m [|]]; try discriminate ONE. cbn [tl prod fold_right].
        apply Forall_nth_Q. rewrite replace_rows_length. intros i Hi.
        rewrite replace_rows_nth by assumption. rewrite Nat.div_1_r, bad_row_one by assumption.
        destruct (bad (nth i (d_vals d) 0)) eqn:B.
        * change 0 with (- 0) at 1. rewrite map_nth. unfold bad in B. unfold forced.
          destruct positive; apply qltb_iff in B; lra.
        * now apply GOOD.
      + exists draws. split; [assumption|]. apply Forall_nth_Q. rewrite replace_rows_length. intros i Hi.
        rewrite replace_rows_nth by assumption. rewrite Forall_nth_Q in FV.
        destruct (FV i Hi) as [xs [x [X1 [X2 X3]]]].
        exists xs, x. split; [assumption|]. split; [assumption|].
        destruct (bad_row _ _ _ _); [|assumption].
        change 0 with (- 0) at 1. rewrite map_nth. now rewrite Qabs_opp.
    - injection E as E. subst o. split; [reflexivity|]. split; [assumption|]. split; [reflexivity|].
      split; [assumption|]. split; [|exists draws; split; assumption].
      intros _. apply Forall_forall. intros v Hv. apply GOOD.
      destruct (if positive then qltb v 0 else qltb 0 v) eqn:B; [|reflexivity].
      assert (existsb bad (d_vals d) = true) by (apply existsb_exists; exists v; split; [assumption|exact B]).
      congruence.
    - destruct (redraw h r) as [[[d2 h2] r2]|e] eqn:RR; cbn [bind] in E; [|discriminate].
      destruct (RD _ _ RR) as [H2 [S2 V2]]. subst h2.
      destruct (negb (Bool.eqb (int_kind (d_kind d)) (int_kind (d_kind d2)))) eqn:KK; [discriminate|].
      assert (KE : d_kind d = KInt -> d_kind d2 = KInt).
      { intros K. rewrite K in KK. cbn in KK. destruct (d_kind d2); [reflexivity|discriminate|discriminate]. }
      assert (C : current h d = d_vals d) by (unfold current; now rewrite NV).
      rewrite C, NV in E. cbn [write] in E.
      pose proof (samples_length _ _ _ _ _ S2) as L2.
      refine (IH (d_vals d2 :: draws) _ _ _ _ _ _ _ E); cbn [d_vals d_kind d_view].
      + reflexivity.
      + now rewrite replace_rows_length.
      + constructor; [|assumption]. exists (d_kind d2). now split.
      + apply Forall_nth_Q. rewrite replace_rows_length. intros i Hi.
        rewrite replace_rows_nth by assumption.
        destruct (bad_row _ _ _ _).
        * exists (d_vals d2), (nth i (d_vals d2) 0). split; [now left|]. split; [|reflexivity].
          apply nth_In. lia.
        * rewrite Forall_nth_Q in FV. destruct (FV i Hi) as [xs [x [X1 X2]]].
          exists xs, x. split; [now right|assumption].
    - injection E as E. subst o. split; [reflexivity|]. split; [assumption|]. split; [reflexivity|].
      split; [assumption|]. split; [|exists draws; split; assumption].
      intros _. apply Forall_forall. intros v Hv. apply GOOD.
      destruct (if positive then qltb v 0 else qltb 0 v) eqn:B; [|reflexivity].
      assert (existsb bad (d_vals d) = true) by (apply existsb_exists; exists v; split; [assumption|exact B]).
      congruence.
  Qed.

  (** The loop of the aggregation. *)
  Definition agg_ok (h : heap) (p : sparam) (size : list nat) (m : aggregation) (rounds : list (list Q)) (acc : drawn) : Prop :=
    length (d_vals acc) = prod size /\ view_ok h p acc /\
    Forall (fun xs => exists kx, samples_of h p size xs kx /\ (m <> AAvg -> d_kind acc = KInt -> kx = KInt)) rounds /\
    (m = AAvg -> d_kind acc = KF32 /\ d_view acc = None) /\
    forall i, (i < prod size)%nat ->
      let column := map (fun xs => nth i xs 0) rounds in
      let v := nth i (d_vals acc) 0 in
      match m with
      | AMin => rounds <> [] -> (exists x, In x column /\ v == x) /\ Forall (fun x => v <= x) column
      | AMax => rounds <> [] -> (exists x, In x column /\ v == x) /\ Forall (fun x => x <= v) column
      | AAvg => v == fold_right Qplus 0 column
      end.

  Lemma nth_zip : forall (f : Q * Q -> Q) (a b : list Q) i, length a = length b -> (i < length a)%nat ->
    nth i (map f (combine a b)) 0 = f (nth i a 0, nth i b 0).
  Proof.
    intros f a b i L Hi. rewrite (nth_indep _ 0 (f (0, 0))) by (rewrite map_length, combine_length; lia).
    rewrite map_nth. now rewrite combine_nth.
  Qed.

  Lemma zip_length : forall (f : Q * Q -> Q) (a b : list Q), length a = length b ->
    length (map f (combine a b)) = length a.
  Proof. intros. rewrite map_length, combine_length. lia. Qed.

  Lemma arith_kind_int : forall a b, arith_kind true a b = KInt -> a = KInt /\ b = KInt.
  Proof. intros [] []; simpl; intros; try discriminate; auto. Qed.

  Lemma aggregate_described : forall h p size m redraw,
    (forall r o, redraw h r = Ok o -> described h p size o) ->
    forall count rounds (first : bool) (acc : drawn) (r : R) (o : drawn * heap * R),
    (first = true <-> rounds = []) ->
    agg_ok h p size m rounds acc ->
    aggregate redraw m first count acc h r = Ok o ->
    let '(d', h', _) := o in
    h' = h /\ exists rounds', length rounds' = (length rounds + count)%nat /\ agg_ok h p size m rounds' d'.
  Proof.
    intros h p size m redraw RD count.
    induction count as [|count IH]; intros rounds first acc r o FI A E; cbn [aggregate] in E.
    - injection E as E. subst o. split; [reflexivity|]. exists rounds. split; [lia|assumption].
    - destruct (redraw h r) as [[[d h2] r2]|e] eqn:RR; cbn [bind] in E; [|discriminate].
      destruct (RD _ _ RR) as [H2 [S2 V2]]. subst h2.
      pose proof (samples_length _ _ _ _ _ S2) as L2.
      destruct A as [AL [AV [AF [AK AI]]]].
      pose proof (current_same _ _ _ AV) as CS. rewrite CS in E.
      match type of E with aggregate _ _ _ _ ?c _ _ = _ => set (comb := c) in * end.
      assert (STEP : agg_ok h p size m (d_vals d :: rounds) comb).
      { destruct m.
        - (* min *)
          destruct first.
          + assert (rounds = []) by tauto. subst rounds. subst comb. cbv beta iota. repeat split; try assumption.
            * constructor; [|constructor]. exists (d_kind d). now split.
            * intros; discriminate.
            * intros; discriminate.
            * exists (nth i (d_vals d) 0). split; [now left|reflexivity].
            * constructor; [apply Qle_refl|constructor].
          + assert (NE : rounds <> []) by (intros C; apply FI in C; discriminate).
            subst comb. cbv beta iota. unfold agg_ok. cbn [d_vals d_kind d_view].
            rewrite zip_length by lia. split; [assumption|]. split; [exact I|]. split.
            { constructor.
              - exists (d_kind d). split; [assumption|]. intros _ K. now apply arith_kind_int in K.
              - eapply Forall_impl; [|exact AF]. cbv beta. intros xs [kx [X1 X2]]. exists kx. split; [assumption|].
                intros N K. apply arith_kind_int in K. tauto. }
            split; [intros; discriminate|]. intros i Hi. cbv zeta. intros _. rewrite nth_zip by lia. cbn [fst snd].
            destruct (AI i Hi NE) as [[x [X1 X2]] X3].
            split.
            * destruct (Qlt_le_dec (nth i (d_vals acc) 0) (nth i (d_vals d) 0)) as [C|C].
              -- exists x. split; [now right|]. qminmax; lra.
              -- exists (nth i (d_vals d) 0). split; [now left|]. qminmax; lra.
            * cbn [map]. constructor; [qminmax; lra|]. eapply Forall_impl; [|exact X3]. cbv beta.
              intros a Ha. qminmax; lra.
        - (* max *)
          destruct first.
          + assert (rounds = []) by tauto. subst rounds. subst comb. cbv beta iota. repeat split; try assumption.
            * constructor; [|constructor]. exists (d_kind d). now split.
            * intros; discriminate.
            * intros; discriminate.
            * exists (nth i (d_vals d) 0). split; [now left|reflexivity].
            * constructor; [apply Qle_refl|constructor].
          + assert (NE : rounds <> []) by (intros C; apply FI in C; discriminate).
            subst comb. cbv beta iota. unfold agg_ok. cbn [d_vals d_kind d_view].
            rewrite zip_length by lia. split; [assumption|]. split; [exact I|]. split.
            { constructor.
              - exists (d_kind d). split; [assumption|]. intros _ K. now apply arith_kind_int in K.
              - eapply Forall_impl; [|exact AF]. cbv beta. intros xs [kx [X1 X2]]. exists kx. split; [assumption|].
                intros N K. apply arith_kind_int in K. tauto. }
            split; [intros; discriminate|]. intros i Hi. cbv zeta. intros _. rewrite nth_zip by lia. cbn [fst snd].
            destruct (AI i Hi NE) as [[x [X1 X2]] X3].
            split.
            * destruct (Qlt_le_dec (nth i (d_vals acc) 0) (nth i (d_vals d) 0)) as [C|C].
              -- exists (nth i (d_vals d) 0). split; [now left|]. qminmax; lra.
              -- exists x. split; [now right|]. qminmax; lra.
            * cbn [map]. constructor; [qminmax; lra|]. eapply Forall_impl; [|exact X3]. cbv beta.
              intros a Ha. qminmax; lra.
        - (* avg *)
          subst comb. cbv beta iota. unfold agg_ok. cbn [d_vals d_kind d_view].
          rewrite zip_length by lia. split; [assumption|]. split; [exact I|]. split.
          { constructor.
            - exists (d_kind d). split; [assumption|]. intros; congruence.
            - eapply Forall_impl; [|exact AF]. cbv beta. intros xs [kx [X1 X2]]. exists kx. split; [assumption|].
              intros; congruence. }
          split; [intros; split; reflexivity|]. intros i Hi. cbv zeta. rewrite nth_zip by lia. cbn [fst snd].
          specialize (AI i Hi). cbv beta zeta iota in AI. cbn [map fold_right]. rewrite AI. ring. }
      specialize (IH (d_vals d :: rounds) false comb r2 o).
      specialize (IH ltac:(split; intros; discriminate) STEP E).
      destruct o as [[d' h'] r']. destruct IH as [H1 [rounds' [L' A']]]. split; [assumption|].
      exists rounds'. split; [simpl in L'; lia|assumption].
  Qed.

  Tactic Notation "step" hyp(E) ident(a) ident(b) ident(c) ident(d) ident(H) :=
    match type of E with bind ?x _ = Ok _ => destruct x as [[[[a b] c] d]|] eqn:H; cbn [bind] in E; [|discriminate E] end.
  Tactic Notation "step3" hyp(E) ident(a) ident(b) ident(c) ident(H) :=
    match type of E with bind ?x _ = Ok _ => destruct x as [[[a b] c]|] eqn:H; cbn [bind] in E; [|discriminate E] end.

  Lemma Forall2_map_l : forall {A B} (P : A -> B -> Prop) (f : A -> B) l,
    (forall x, In x l -> P x (f x)) -> Forall2 P l (map f l).
  Proof. induction l; intros; constructor; [apply H; now left|]. apply IHl. intros. apply H. now right. Qed.

  Lemma inject_between : forall a b x y z, x == inject_Z a -> y == inject_Z b -> (a <= z < b + 1)%Z ->
    integral (inject_Z z) /\ between x y (inject_Z z).
  Proof.
    intros a b x y z A B H. split; [now exists z|]. left. rewrite A, B, <- !Zle_Qle. lia.
  Qed.

  Lemma between_sym : forall x y v, between x y v -> between y x v.
  Proof. unfold between. intros. tauto. Qed.

  Theorem draw_described : forall p size h r o, valid h p -> no_inplace_on_lists p ->
    draw g p size h r = Ok o -> described h p size o.
  Proof.
    induction p; intros size h r o V N E; cbn [draw] in E; cbn [valid] in V; cbn [no_inplace_on_lists] in N.
    - (* Deterministic *)
      injection E as E. subst o. split; [reflexivity|]. cbn [d_vals d_kind samples_of]. split; [|exact I].
      split; [now rewrite repeat_length|]. split; [reflexivity|].
      apply Forall_forall. intros x X. apply repeat_spec in X. subst. reflexivity.
    - (* DeterministicList *)
      destruct V as [NE V].
      assert (LP : (0 < length (h l))%nat) by (destruct (h l); simpl; [congruence|lia]).
      destruct (Nat.ltb_spec (length (h l)) (prod size)) as [C|C]; injection E as E; subst o;
        (split; [reflexivity|]); cbn [d_vals d_kind samples_of].
      + pose proof (multiplier_enough (prod size) (length (h l)) LP) as M.
        set (m := Z.to_nat (Qceiling (inject_Z (Z.of_nat (prod size)) / inject_Z (Z.of_nat (length (h l)))))) in *.
        assert (LEN : length (firstn (prod size) (concat (repeat (h l) m))) = prod size)
          by (rewrite firstn_length, length_tiled; lia).
        split; [|exact I]. split; [assumption|]. split; [reflexivity|].
        intros i Hi. rewrite LEN in Hi.
        rewrite <- (nth_tiled (h l) m i NE ltac:(lia)).
        rewrite <- (firstn_skipn (prod size) (concat (repeat (h l) m))) at 2.
        rewrite app_nth1 by lia. reflexivity.
      + assert (LEN : length (firstn (prod size) (h l)) = prod size) by (rewrite firstn_length; lia).
        split.
        * split; [assumption|]. split; [reflexivity|]. intros i Hi. rewrite LEN in Hi.
          rewrite Nat.mod_small by lia.
          rewrite <- (firstn_skipn (prod size) (h l)) at 2.
          rewrite app_nth1 by lia. reflexivity.
        * split; [reflexivity|]. cbn [d_vals]. now rewrite LEN.
    - (* Choice *)
      destruct (Nat.eqb_spec (length a) 0); [discriminate|].
      destruct (rng_indices R g r (length a) (prod size)) as [is r'] eqn:RI. injection E as E. subst o.
      assert (LA : (0 < length a)%nat) by lia.
      destruct (indices_fact _ _ _ _ _ LA RI) as [L F].
      split; [reflexivity|]. cbn [d_vals d_kind samples_of]. split; [|exact I].
      split; [now rewrite map_length|]. split; [reflexivity|].
      apply Forall_forall. intros x X. apply in_map_iff in X. destruct X as [i [<- X]].
      apply nth_In. rewrite Forall_forall in F. auto.
    - (* Binomial *)
      step E q k hh1 r1 Heqr0. destruct (one_described h p _ _ _ _ _ (fun o => IHp [1%nat] h r o V N) Heqr0) as [-> S].
      destruct (qleb 0 q && qleb q 1) eqn:B; [|discriminate].
      apply andb_true_iff in B. destruct B as [B1 B2]. apply qleb_iff in B1, B2.
      destruct (rng_binomial R g r1 q (prod size)) as [zs r'] eqn:RB. injection E as E. subst o.
      destruct (binomial_fact _ _ _ _ _ B1 B2 RB) as [L F].
      split; [reflexivity|]. cbn [d_vals d_kind samples_of]. split; [|exact I].
      split; [now rewrite map_length|]. split; [reflexivity|]. exists q, k. split; [assumption|]. split; [now split|].
      apply Forall_forall. intros x X. apply in_map_iff in X. destruct X as [z [<- X]].
      rewrite Forall_forall in F. destruct (F z X) as [[-> C]|[-> C]]; [left|right]; split; try assumption; reflexivity.
    - (* DiscreteUniform *)
      destruct V as [V1 V2]. destruct N as [N1 N2].
      step E q k hh1 r1 Heqr0. destruct (one_described h p1 _ _ _ _ _ (fun o => IHp1 [1%nat] h r o V1 N1) Heqr0) as [-> S1].
      step E q0 k0 hh2 r3 Heqr2. destruct (one_described h p2 _ _ _ _ _ (fun o => IHp2 [1%nat] h r1 o V2 N2) Heqr2) as [-> S2].
      destruct (negb (int_kind k && int_kind k0)) eqn:K; [discriminate|].
      destruct k; try discriminate K. destruct k0; try discriminate K.
      pose proof (samples_integral _ _ _ _ V1 S1) as I1. pose proof (samples_integral _ _ _ _ V2 S2) as I2.
      inversion I1 as [|? ? J1 _]; subst. inversion I2 as [|? ? J2 _]; subst.
      pose proof (py_int_integral _ J1) as P1. pose proof (py_int_integral _ J2) as P2.
      destruct (qeqb q q0) eqn:Q0.
      + injection E as E. subst o. split; [reflexivity|]. cbn [d_vals d_kind samples_of]. split; [|exact I].
        split; [now rewrite repeat_length|]. split; [reflexivity|]. exists q, q0. split; [assumption|]. split; [assumption|].
        apply Forall_forall. intros x X. apply repeat_spec in X. subst x. split; [now exists (py_int q)|].
        left. apply qeqb_iff in Q0. lra.
      + assert (NEQ : ~ q == q0) by (intros C; apply qeqb_iff in C; congruence).
        destruct (qltb q0 q) eqn:SW.
        * apply qltb_iff in SW.
          destruct (rng_integers R g r3 (py_int q0) (py_int q + 1) (prod size)) as [zs r'] eqn:RI. injection E as E. subst o.
          assert (LT : (py_int q0 < py_int q + 1)%Z) by (rewrite P1, P2 in SW; rewrite <- Zlt_Qlt in SW; lia).
          destruct (integers_fact _ _ _ _ _ _ LT RI) as [L F].
          split; [reflexivity|]. cbn [d_vals d_kind samples_of]. split; [|exact I].
          split; [now rewrite map_length|]. split; [reflexivity|]. exists q, q0. split; [assumption|]. split; [assumption|].
          apply Forall_forall. intros x X. apply in_map_iff in X. destruct X as [z [<- X]].
          rewrite Forall_forall in F.
          destruct (inject_between _ _ _ _ _ P2 P1 (F z X)) as [U1 U2]. split; [assumption|now apply between_sym].
        * apply qltb_false in SW.
          destruct (rng_integers R g r3 (py_int q) (py_int q0 + 1) (prod size)) as [zs r'] eqn:RI. injection E as E. subst o.
          assert (LT : (py_int q < py_int q0 + 1)%Z) by (rewrite P1, P2 in SW; rewrite <- Zle_Qle in SW; lia).
          destruct (integers_fact _ _ _ _ _ _ LT RI) as [L F].
          split; [reflexivity|]. cbn [d_vals d_kind samples_of]. split; [|exact I].
          split; [now rewrite map_length|]. split; [reflexivity|]. exists q, q0. split; [assumption|]. split; [assumption|].
          apply Forall_forall. intros x X. apply in_map_iff in X. destruct X as [z [<- X]].
          rewrite Forall_forall in F. exact (inject_between _ _ _ _ _ P1 P2 (F z X)).
    - (* Uniform *)
      destruct V as [V1 V2]. destruct N as [N1 N2].
      step E q k hh1 r1 Heqr0. destruct (one_described h p1 _ _ _ _ _ (fun o => IHp1 [1%nat] h r o V1 N1) Heqr0) as [-> S1].
      step E q0 k0 hh2 r3 Heqr2. destruct (one_described h p2 _ _ _ _ _ (fun o => IHp2 [1%nat] h r1 o V2 N2) Heqr2) as [-> S2].
      destruct (qeqb q q0) eqn:Q0.
      + injection E as E. subst o. split; [reflexivity|]. cbn [d_vals d_kind samples_of]. split; [|exact I].
        split; [now rewrite repeat_length|]. split; [reflexivity|].
        exists q, q0, k, k0. split; [assumption|]. split; [assumption|].
        apply Forall_forall. intros x X. apply repeat_spec in X. subst x. left. apply qeqb_iff in Q0. lra.
      + assert (NEQ : ~ q == q0) by (intros C; apply qeqb_iff in C; congruence).
        destruct (qltb q0 q) eqn:SW.
        * apply qltb_iff in SW.
          destruct (rng_uniform R g r3 q0 q (prod size)) as [xs r'] eqn:RI. injection E as E. subst o.
          destruct (uniform_fact _ _ _ _ _ _ SW RI) as [L F].
          split; [reflexivity|]. cbn [d_vals d_kind samples_of]. split; [|exact I].
          split; [assumption|]. split; [reflexivity|]. exists q, q0, k, k0. split; [assumption|]. split; [assumption|].
          eapply Forall_impl; [|exact F]. intros a A. now right.
        * apply qltb_false in SW. assert (SW' : q < q0) by (apply Qle_lteq in SW; destruct SW as [SW|SW]; [assumption|contradiction]).
          destruct (rng_uniform R g r3 q q0 (prod size)) as [xs r'] eqn:RI. injection E as E. subst o.
          destruct (uniform_fact _ _ _ _ _ _ SW' RI) as [L F].
          split; [reflexivity|]. cbn [d_vals d_kind samples_of]. split; [|exact I].
          split; [assumption|]. split; [reflexivity|]. exists q, q0, k, k0. split; [assumption|]. split; [assumption|].
          eapply Forall_impl; [|exact F]. intros a A. now left.
    - (* Poisson *)
      step E q k hh1 r1 Heqr0. destruct (one_described h p _ _ _ _ _ (fun o => IHp [1%nat] h r o V N) Heqr0) as [-> S].
      destruct (rng_poisson R g r1 (qmax q 0) (prod size)) as [zs r'] eqn:RB. injection E as E. subst o.
      assert (LA : 0 <= qmax q 0) by (qminmax; lra).
      destruct (poisson_fact _ _ _ _ _ LA RB) as [L F].
      split; [reflexivity|]. cbn [d_vals d_kind samples_of]. split; [|exact I].
      split; [now rewrite map_length|]. split; [reflexivity|]. split; [now exists q, k|].
      apply Forall_forall. intros x X. apply in_map_iff in X. destruct X as [z [<- X]].
      rewrite Forall_forall in F. split; [now exists z|]. change 0 with (inject_Z 0). rewrite <- Zle_Qle. auto.
    - (* Normal *)
      destruct V as [V1 V2]. destruct N as [N1 N2].
      step E q k hh1 r1 Heqr0. destruct (one_described h p1 _ _ _ _ _ (fun o => IHp1 [1%nat] h r o V1 N1) Heqr0) as [-> S1].
      step E q0 k0 hh2 r3 Heqr2. destruct (one_described h p2 _ _ _ _ _ (fun o => IHp2 [1%nat] h r1 o V2 N2) Heqr2) as [-> S2].
      destruct (qleb 0 q0) eqn:P; cbn [negb] in E; [|discriminate]. apply qleb_iff in P.
      destruct (qeqb q0 0) eqn:Q0.
      + injection E as E. subst o. split; [reflexivity|]. cbn [d_vals d_kind samples_of]. split; [|exact I].
        split; [now rewrite repeat_length|]. split; [reflexivity|].
        exists q, q0, k, k0. repeat split; try assumption. intros _.
        apply Forall_forall. intros x X. apply repeat_spec in X. subst x. reflexivity.
      + destruct (rng_normal R g r3 q q0 (prod size)) as [xs r'] eqn:RN. injection E as E. subst o.
        pose proof (sane_normal g G r3 q q0 (prod size)) as L. rewrite RN in L.
        split; [reflexivity|]. cbn [d_vals d_kind samples_of]. split; [|exact I].
        split; [assumption|]. split; [reflexivity|]. exists q, q0, k, k0. repeat split; try assumption.
        intros Z. apply qeqb_iff in Z. congruence.
    - (* Beta *)
      destruct V as [V1 V2]. destruct N as [N1 N2].
      step E q k hh1 r1 Heqr0. destruct (one_described h p1 _ _ _ _ _ (fun o => IHp1 [1%nat] h r o V1 N1) Heqr0) as [-> S1].
      step E q0 k0 hh2 r3 Heqr2. destruct (one_described h p2 _ _ _ _ _ (fun o => IHp2 [1%nat] h r1 o V2 N2) Heqr2) as [-> S2].
      destruct (rng_beta R g r3 (qmax q epsilon) (qmax q0 epsilon) (prod size)) as [xs r'] eqn:RN. injection E as E. subst o.
      pose proof (sane_beta g G r3 (qmax q epsilon) (qmax q0 epsilon) (prod size)) as L. rewrite RN in L. destruct L as [L F].
      split; [reflexivity|]. cbn [d_vals d_kind samples_of]. split; [|exact I].
      split; [assumption|]. split; [reflexivity|assumption].
    - (* Clip *)
      destruct V as [V [VL VH]]. destruct N as [N HO].
      step3 E d hh1 r1 Heqr0. destruct (advanced_described h p size _ _ (fun o => IHp size h r o V N) Heqr0) as [-> [S VO]].
      assert (NV := no_view _ _ _ VO HO).
      destruct lo as [[l kl]|]; destruct hi as [[u ku]|].
      + destruct (clip_castable (d_kind d) (Some (l, kl)) (Some (u, ku))) eqn:CC; [|discriminate].
        injection E as E. subst o. rewrite NV. cbn [write]. split; [reflexivity|]. cbn [d_vals d_kind samples_of].
        split; [|exact I]. split; [rewrite map_length; now apply samples_length in S|]. split.
        { intros K. rewrite K in CC. intros [b kb] [B|B]; injection B as <- <-; cbn in *; destruct kl, ku; cbn in *; congruence. }
        exists (d_vals d). split; [assumption|]. apply Forall2_map_right. intros x. cbn [clip_opt]. split.
        * intros LU. destruct (Qlt_le_dec x l); [left; split; [lra|qminmax; lra]|right].
          destruct (Qlt_le_dec u x); [left; split; [lra|qminmax; lra]|right]. split; [lra|]. split; [lra|qminmax; lra].
        * intros LU. qminmax; lra.
      + destruct (clip_castable (d_kind d) (Some (l, kl)) None) eqn:CC; [|discriminate].
        injection E as E. subst o. rewrite NV. cbn [write]. split; [reflexivity|]. cbn [d_vals d_kind samples_of].
        split; [|exact I]. split; [rewrite map_length; now apply samples_length in S|]. split.
        { intros K. rewrite K in CC. intros [b kb] [B|B]; [injection B as <- <-|discriminate]; cbn in *; destruct kl; cbn in *; congruence. }
        exists (d_vals d). split; [assumption|]. apply Forall2_map_right. intros x. cbn [clip_opt].
        destruct (Qlt_le_dec x l); [left; split; [lra|qminmax; lra]|right; split; [lra|qminmax; lra]].
      + destruct (clip_castable (d_kind d) None (Some (u, ku))) eqn:CC; [|discriminate].
        injection E as E. subst o. rewrite NV. cbn [write]. split; [reflexivity|]. cbn [d_vals d_kind samples_of].
        split; [|exact I]. split; [rewrite map_length; now apply samples_length in S|]. split.
        { intros K. rewrite K in CC. intros [b kb] [B|B]; [discriminate|injection B as <- <-]; cbn in *; destruct ku; cbn in *; congruence. }
        exists (d_vals d). split; [assumption|]. apply Forall2_map_right. intros x. cbn [clip_opt].
        destruct (Qlt_le_dec u x); [left; split; [lra|qminmax; lra]|right; split; [lra|qminmax; lra]].
      + injection E as E. subst o. split; [reflexivity|]. split; [|exact VO].
        cbn [samples_of]. split; [now apply samples_length in S|]. split; [intros _ b [B|B]; discriminate|].
        exists (d_vals d). split; [assumption|]. clear. induction (d_vals d); constructor; [reflexivity|assumption].
    - (* Discretize *)
      step3 E d hh1 r1 Heqr0. destruct (advanced_described h p size _ _ (fun o => IHp size h r o V N) Heqr0) as [-> [S VO]].
      pose proof (samples_length _ _ _ _ _ S) as L.
      destruct (d_kind d) eqn:K; injection E as E; subst o; (split; [reflexivity|]); cbn [d_vals d_kind samples_of].
      + split; [|exact VO]. split; [assumption|]. split; [assumption|].
        exists (d_vals d), KInt. split; [assumption|]. clear. induction (d_vals d); constructor; [reflexivity|assumption].
      + split; [|exact I]. split; [now rewrite map_length|]. split; [reflexivity|]. exists (d_vals d), KF32. split; [assumption|].
        apply Forall2_map_right. intros x. eexists. split; [reflexivity|]. split; [now apply wrap_fits|].
        exists (if round then np_round x else py_int x). split.
        * destruct round; [apply np_round_nearest|apply py_int_truncation].
        * intros F. now apply wrap_id.
      + split; [|exact I]. split; [now rewrite map_length|]. split; [reflexivity|]. exists (d_vals d), KF64. split; [assumption|].
        apply Forall2_map_right. intros x. eexists. split; [reflexivity|]. split; [now apply wrap_fits|].
        exists (if round then np_round x else py_int x). split.
        * destruct round; [apply np_round_nearest|apply py_int_truncation].
        * intros F. now apply wrap_id.
    - (* arithmetic *)
      destruct V as [V1 V2]. destruct N as [N1 [N2 N3]].
      step3 E d hh1 r1 Heqr0. destruct (advanced_described h p1 size _ _ (fun o => IHp1 size h r o V1 N1) Heqr0) as [-> [S VO]].
      pose proof (samples_length _ _ _ _ _ S) as L.
      assert (OP : forall x y, op_result op x y (arith_op op x y)).
      { intros x y. destruct op; cbn [op_result arith_op]; try reflexivity.
        destruct (qeqb y 0) eqn:Y.
        - apply qeqb_iff in Y. left. split; [assumption|]. field.
        - assert (~ y == 0) by (intros C; apply qeqb_iff in C; congruence).
          right. split; [assumption|]. field. assumption. }
      destruct (elementwise && negb (is_det p2)) eqn:EW.
      + step3 E d0 hh2 r3 Heqr2. destruct (advanced_described h p2 size _ _ (fun o => IHp2 size h r1 o V2 N2) Heqr2) as [-> [S2 VO2]].
        pose proof (samples_length _ _ _ _ _ S2) as L2.
        set (h' := match op with ODivide => _ | _ => h end) in E.
        assert (EH : h' = h).
        { subst h'. destruct op; try reflexivity. rewrite (no_view _ _ _ VO2 (N3 eq_refl)). reflexivity. }
        rewrite EH in E. rewrite (current_same _ _ _ VO) in E. injection E as E. subst o.
        split; [reflexivity|]. cbn [d_vals d_kind samples_of]. split; [|exact I].
        rewrite zip_length by lia. split; [assumption|].
        exists (d_vals d), (d_vals d0). rewrite EW. split; [lia|]. split; [reflexivity|]. split.
        * exists (d_kind d), (d_kind d0). split; [assumption|]. split; [reflexivity|assumption].
        * intros i Hi. rewrite nth_zip by lia. apply OP.
      + step E q k hh2 r3 Heqr2. destruct (one_described h p2 _ _ _ _ _ (fun o => IHp2 [1%nat] h r1 o V2 N2) Heqr2) as [-> S2].
        rewrite (current_same _ _ _ VO) in E. injection E as E. subst o.
        split; [reflexivity|]. cbn [d_vals d_kind samples_of]. split; [|exact I].
        rewrite map_length. split; [assumption|].
        exists (d_vals d), (repeat q (length (d_vals d))). rewrite EW. split; [apply repeat_length|]. split; [reflexivity|]. split.
        * exists (d_kind d), k. split; [assumption|]. split; [reflexivity|]. exists q. split; [assumption|].
          apply Forall_forall. intros x X. apply repeat_spec in X. congruence.
        * intros i Hi. rewrite (nth_indep (map _ _) 0 (arith_op op 0 q)) by now rewrite map_length.
          rewrite (map_nth (fun x => arith_op op x q)). rewrite nth_repeat_lt by assumption. apply OP.
    - (* Absolute *)
      step3 E d hh1 r1 Heqr0. destruct (advanced_described h p size _ _ (fun o => IHp size h r o V N) Heqr0) as [-> [S VO]].
      injection E as E. subst o. split; [reflexivity|]. cbn [d_vals d_kind samples_of]. split; [|exact I].
      split; [rewrite map_length; now apply samples_length in S|]. exists (d_vals d). split; [assumption|].
      apply Forall2_map_right. reflexivity.
    - (* RandomSign *)
      destruct V as [P1 [P2 V]].
      step3 E d hh1 r1 Heqr0. destruct (advanced_described h p size _ _ (fun o => IHp size h r o V N) Heqr0) as [-> [S VO]].
      destruct (rng_binomial R g r1 p_positive (prod size)) as [zs r'] eqn:RB. injection E as E. subst o.
      destruct (binomial_fact _ _ _ _ _ P1 P2 RB) as [L F].
      pose proof (samples_length _ _ _ _ _ S) as L2.
      split; [reflexivity|]. cbn [d_vals d_kind samples_of]. split; [|exact I].
      split; [rewrite map_length, combine_length; lia|]. exists (d_vals d). split; [assumption|].
      assert (LL : length (d_vals d) = length zs) by lia. clear - F LL. revert zs F LL.
      induction (d_vals d) as [|x xs IH]; intros [|z zs] F LL; try discriminate LL; cbn [combine map]; constructor.
      + inversion F; subst. cbn [fst snd]. destruct H1 as [[-> C]|[-> C]]; [right|left]; (split; [|assumption]).
        * change (inject_Z (0 * 2 - 1)) with (- (1)). ring.
        * change (inject_Z (1 * 2 - 1)) with 1. ring.
      + inversion F; subst. apply IH; [assumption|]. simpl in LL. lia.
    - (* ForceSign *)
      destruct N as [N HO].
      step3 E d hh1 r1 Heqr0. destruct (advanced_described h p size _ _ (fun o => IHp size h r o V N) Heqr0) as [-> [S VO]].
      assert (NV := no_view _ _ _ VO HO). pose proof (samples_length _ _ _ _ _ S) as L.
      destruct mode.
      + injection E as E. subst o. rewrite NV. cbn [write]. split; [reflexivity|]. cbn [d_vals d_kind samples_of]. split; [|exact I].
        split; [now rewrite map_length|]. exists (d_vals d). split; [assumption|].
        apply Forall2_map_right. intros x. unfold forced.
        destruct positive.
        * destruct (qltb x 0) eqn:B; [apply qltb_iff in B|apply qltb_false in B].
          -- split; [now rewrite Qabs_opp|lra].
          -- split; [reflexivity|lra].
        * destruct (qltb 0 x) eqn:B; [apply qltb_iff in B|apply qltb_false in B].
          -- split; [now rewrite Qabs_opp|lra].
          -- split; [reflexivity|lra].
      + pose proof (reroll_described h p size positive (fun h r => advanced g (draw g p size h r))
          (fun r o => advanced_described h p size _ o (fun o => IHp size h r o V N)) HO
          reroll_count_max [d_vals d] d r1 o NV L) as RR. cbv beta zeta in RR.
        specialize (RR ltac:(constructor; [exists (d_kind d); split; [assumption|auto]|constructor])).
        specialize (RR ltac:(apply Forall_forall; intros v Hv; exists (d_vals d), v; split; [now left|]; split; [assumption|reflexivity]) E).
        destruct o as [[d' h'] r']. destruct RR as [-> [NV' [K [L' [F1 [draws [F2 F3]]]]]]].
        split; [reflexivity|]. cbn [samples_of]. split.
        * split; [assumption|]. split; [assumption|]. exists draws. rewrite K. split; assumption.
        * unfold view_ok. now rewrite NV'.
    - (* IterativeNoiseAggregator *)
      destruct V as [V1 V2]. destruct N as [N1 N2].
      destruct (Nat.eqb_spec (length methods) 0) as [|ML]; [discriminate|].
      destruct (rng_indices R g r (length methods) 1) as [ms r'] eqn:RI.
      assert (LA : (0 < length methods)%nat) by lia.
      destruct (indices_fact _ _ _ _ _ LA RI) as [LM FM].
      destruct ms as [|mi [|]]; try discriminate LM. cbn [nth] in E.
      inversion FM as [|? ? MI _]; subst.
      set (m := nth mi methods AMax) in *.
      assert (IM : In m methods) by (apply nth_In; assumption).
      step E q k hh1 r1 Heqr0. destruct (one_described h p2 _ _ _ _ _ (fun o => IHp2 [1%nat] h _ o V2 N2) Heqr0) as [-> S2].
      destruct (qltb 0 q) eqn:Q0; cbn [negb] in E; [|discriminate]. apply qltb_iff in Q0.
      destruct k; cbn [int_kind negb] in E; try discriminate E.
      pose proof (samples_integral _ _ _ _ V2 S2) as I2. inversion I2 as [|? ? J2 _]; subst.
      pose proof (py_int_integral _ J2) as P2.
      assert (PZ : (0 < py_int q)%Z) by (rewrite P2 in Q0; change 0 with (inject_Z 0) in Q0; now rewrite <- Zlt_Qlt in Q0).
      set (count := Z.to_nat (py_int q)) in *.
      assert (CZ : Z.of_nat count = py_int q) by (unfold count; lia).
      step3 E d hh2 r3 Heqr2.
      assert (A0 : agg_ok h p1 size m [] (mkDrawn (repeat 0 (prod size)) KF32 None)).
      { unfold agg_ok. cbn [d_vals d_kind d_view]. split; [apply repeat_length|]. split; [exact I|]. split; [constructor|].
        split; [intros; split; reflexivity|]. intros i Hi. cbv zeta. destruct m; try congruence.
        cbn [map fold_right]. rewrite nth_repeat_lt by assumption. reflexivity. }
      pose proof (aggregate_described h p1 size m (fun h r => advanced g (draw g p1 size h r))
        (fun r o => advanced_described h p1 size _ o (fun o => IHp1 size h r o V1 N1))
        count [] true _ _ _ ltac:(split; auto) A0 Heqr2) as [-> [rounds [LR [AL [AV [AF [AK AI]]]]]]].
      assert (SPEC : forall vs k, length vs = prod size -> (m = AAvg -> k = KF32) -> (m <> AAvg -> k = d_kind d) ->
        (forall i, (i < prod size)%nat ->
            let column := map (fun xs => nth i xs 0) rounds in
            let v := nth i vs 0 in
            match m with
            | AMin => (exists x, In x column /\ v == x) /\ Forall (fun x => v <= x) column
            | AMax => (exists x, In x column /\ v == x) /\ Forall (fun x => x <= v) column
            | AAvg => v * inject_Z (Z.of_nat count) == fold_right Qplus 0 column
            end) -> samples_of h (PAggregate p1 p2 methods) size vs k).
      { intros vs k LV K1 K2 H. cbn [samples_of]. split; [assumption|]. exists m, count. split; [assumption|].
        split; [unfold count; lia|]. split; [assumption|]. split; [exists q; split; [assumption|now rewrite CZ]|].
        exists rounds. split; [simpl in LR; assumption|]. split.
        - eapply Forall_impl; [|exact AF]. cbv beta. intros xs [kx [X1 X2]]. exists kx. split; [assumption|].
          intros K. destruct m; [apply X2; [discriminate|rewrite <- K2; [assumption|discriminate]]
            |apply X2; [discriminate|rewrite <- K2; [assumption|discriminate]]
            |specialize (K1 eq_refl); congruence].
        - intros i Hi. apply H. lia. }
      assert (RN : rounds <> []) by (intros ->; simpl in LR; unfold count in LR; lia).
      destruct m eqn:EM; injection E as E; subst o; (split; [reflexivity|]); cbn [d_vals d_kind].
      + split; [|exact AV]. apply SPEC; auto; [discriminate|]. intros i Hi. exact (AI i Hi RN).
      + split; [|exact AV]. apply SPEC; auto; [discriminate|]. intros i Hi. exact (AI i Hi RN).
      + split; [|exact I]. apply SPEC; [now rewrite map_length|reflexivity|congruence|].
        intros i Hi. cbv zeta. rewrite (nth_indep _ 0 (0 / q)) by (rewrite map_length; lia).
        rewrite (map_nth (fun v => v / q)). specialize (AI i Hi). cbv beta iota zeta in AI. rewrite AI, CZ, <- P2. field. lra.
  Qed.
End Draws.

(** ** Parsing *)

Lemma number_iff : forall v, is_single_number v = true <-> number v.
Proof.
  intros v. unfold number. destruct v; cbn; split; intros H; try discriminate; try reflexivity.
  - left; eauto.
  - right; eauto.
  - destruct H as [[? ?]|[? ?]]; discriminate.
  - destruct H as [[? ?]|[? ?]]; discriminate.
Qed.

Lemma valid_number_iff : forall f v, valid_number f v = true <-> integer_or_number f v.
Proof.
  intros f v. unfold valid_number, integer_or_number. destruct f, v; cbn; split; intros H; try discriminate; try reflexivity;
    eauto; destruct H as [[? ?]|[? [? ?]]]; discriminate.
Qed.

Lemma check_iff : forall v rg, check_value_range v rg = Ok tt <-> in_range rg v.
Proof.
  intros v rg. unfold check_value_range, in_range. destruct rg as [|[l|] [u|]|f].
  - tauto.
  - split.
    + destruct (qleb l v && qleb v u) eqn:E; [|discriminate]. apply andb_true_iff in E. destruct E as [A B].
      apply qleb_iff in A, B. intros _. split; intros ? H; injection H as <-; assumption.
    + intros [A B]. specialize (A _ eq_refl). specialize (B _ eq_refl). apply qleb_iff in A, B. now rewrite A, B.
  - split.
    + destruct (qleb l v) eqn:E; [|discriminate]. apply qleb_iff in E. intros _. split; intros ? H; [injection H as <-; assumption|discriminate].
    + intros [A B]. specialize (A _ eq_refl). apply qleb_iff in A. now rewrite A.
  - split.
    + destruct (qleb v u) eqn:E; [|discriminate]. apply qleb_iff in E. intros _. split; intros ? H; [discriminate|injection H as <-; assumption].
    + intros [A B]. specialize (B _ eq_refl). apply qleb_iff in B. now rewrite B.
  - split; [|reflexivity]. intros _. split; intros ? H; discriminate.
  - tauto.
Qed.

Lemma check_all_iff : forall vs rg, check_all vs rg = Ok tt <-> forall v, In v vs -> in_range rg (num v).
Proof.
  induction vs as [|v vs IH]; intros rg; cbn [check_all].
  - split; [intros _ v []|reflexivity].
  - destruct (check_value_range (num v) rg) as [[]|e] eqn:E; cbn [bind].
    + rewrite IH. apply check_iff in E. split.
      * intros H w [<-|W]; auto.
      * intros H w W. apply H. now right.
    + split; [discriminate|]. intros H. specialize (H v (or_introl eq_refl)). apply check_iff in H. congruence.
Qed.

Lemma ok_tt : forall (x : res unit) A (k : res A) p, bind x (fun _ => k) = Ok p <-> x = Ok tt /\ k = Ok p.
Proof.
  intros [[]|e] A k p; cbn [bind]; split; try tauto; try discriminate. intros [H _]. discriminate.
Qed.

Lemma continuous_accepts : forall a rg tu lc,
  (exists p, handle_continuous_param a rg tu lc = Ok p) <-> accepted number rg tu lc a.
Proof.
  intros a rg tu lc. destruct a as [v|vs|vs|p]; cbn [handle_continuous_param accepted].
  - rewrite <- number_iff. destruct (is_single_number v).
    + split.
      * intros [p EP]. rewrite ok_tt, check_iff in EP. tauto.
      * intros [_ H]. eexists. rewrite ok_tt, check_iff. eauto.
    + split; [intros [? ?]; discriminate|intros [? _]; discriminate].
  - destruct tu; [|split; [intros [? ?]; discriminate|intros [? _]; discriminate]].
    destruct vs as [|x [|y [|z vs]]];
      try (split; [intros [? ?]; discriminate|intros [_ [? [? [H _]]]]; discriminate]).
    cbn [forallb]. rewrite andb_true_r. destruct (is_single_number x && is_single_number y) eqn:N.
    + apply andb_true_iff in N. destruct N as [N1 N2]. apply number_iff in N1, N2.
      split.
      * intros [p E]. rewrite !ok_tt, !check_iff in E. destruct E as [A [B _]]. split; [reflexivity|]. exists x, y. auto 6.
      * intros [_ [x' [y' [E [_ [_ [A B]]]]]]]. injection E as <- <-. eexists. rewrite !ok_tt, !check_iff. eauto.
    + split; [intros [? ?]; discriminate|]. intros [_ [x' [y' [E [A [B _]]]]]]. injection E as <- <-.
      apply number_iff in A, B. rewrite A, B in N. discriminate.
  - destruct lc; [|split; [intros [? ?]; discriminate|intros [? _]; discriminate]].
    destruct (forallb is_single_number vs) eqn:N.
    + rewrite forallb_forall in N. split.
      * intros [p E]. rewrite ok_tt, check_all_iff in E. destruct E as [A _]. split; [reflexivity|]. intros v Hv. split; [apply number_iff; auto|auto].
      * intros [_ H]. eexists. rewrite ok_tt, check_all_iff. split; [intros v Hv; now apply H|reflexivity].
    + split; [intros [? ?]; discriminate|]. intros [_ H].
      assert (forallb is_single_number vs = true) by (apply forallb_forall; intros v Hv; apply number_iff; now apply H). congruence.
  - split; [tauto|eauto].
Qed.

Lemma discrete_accepts : forall a rg tu lc f,
  (exists p, handle_discrete_param a rg tu lc f = Ok p) <-> accepted (integer_or_number f) rg tu lc a.
Proof.
  intros a rg tu lc f. destruct a as [v|vs|vs|p]; cbn [handle_discrete_param accepted].
  - rewrite <- valid_number_iff.
    assert (E : is_single_integer v || (f && is_single_float v) = valid_number f v).
    { unfold valid_number, is_single_number. destruct f; [reflexivity|]. cbn. now rewrite orb_false_r. }
    rewrite E. destruct (valid_number f v).
    + split.
      * intros [p EP]. rewrite ok_tt, check_iff in EP. tauto.
      * intros [_ H]. eexists. rewrite ok_tt, check_iff. eauto.
    + split; [intros [? ?]; discriminate|intros [? _]; discriminate].
  - destruct tu; [|split; [intros [? ?]; discriminate|intros [? _]; discriminate]].
    destruct vs as [|x [|y [|z vs]]];
      try (split; [intros [? ?]; discriminate|intros [_ [? [? [H _]]]]; discriminate]).
    cbn [forallb]. rewrite andb_true_r. destruct (valid_number f x && valid_number f y) eqn:N.
    + apply andb_true_iff in N. destruct N as [N1 N2]. apply valid_number_iff in N1, N2.
      split.
      * intros [p E]. rewrite !ok_tt, !check_iff in E. destruct E as [A [B _]]. split; [reflexivity|]. exists x, y. auto 6.
      * intros [_ [x' [y' [E [_ [_ [A B]]]]]]]. injection E as <- <-. eexists. rewrite !ok_tt, !check_iff. eauto.
    + split; [intros [? ?]; discriminate|]. intros [_ [x' [y' [E [A [B _]]]]]]. injection E as <- <-.
      apply valid_number_iff in A, B. rewrite A, B in N. discriminate.
  - destruct lc; [|split; [intros [? ?]; discriminate|intros [? _]; discriminate]].
    destruct (forallb (valid_number f) vs) eqn:N.
    + rewrite forallb_forall in N. split.
      * intros [p E]. rewrite ok_tt, check_all_iff in E. destruct E as [A _]. split; [reflexivity|]. intros v Hv. split; [apply valid_number_iff; auto|auto].
      * intros [_ H]. eexists. rewrite ok_tt, check_all_iff. split; [intros v Hv; now apply H|reflexivity].
    + split; [intros [? ?]; discriminate|]. intros [_ H].
      assert (forallb (valid_number f) vs = true) by (apply forallb_forall; intros v Hv; apply valid_number_iff; now apply H). congruence.
  - split; [tauto|eauto].
Qed.

Lemma det_valid : forall h v, valid h (det v).
Proof. intros h v. cbn. destruct v; cbn; intros; try discriminate. now exists z. Qed.
Lemma det_int_valid : forall h v, valid h (det_int v).
Proof. intros h v. cbn. intros _. eexists. reflexivity. Qed.
Lemma choice_valid : forall h vs, forallb is_single_number vs = true -> valid h (PChoice (map num vs) (list_kind vs)).
Proof.
  intros h vs N. cbn. unfold list_kind. destruct (forallb is_single_integer vs) eqn:E; [|discriminate].
  intros _. apply Forall_forall. intros x X. apply in_map_iff in X. destruct X as [v [<- X]].
  rewrite forallb_forall in E. specialize (E v X). destruct v; try discriminate. now exists z.
Qed.
Lemma choice_int_valid : forall h vs, valid h (PChoice (map (fun v => inject_Z (int_of v)) vs) KInt).
Proof.
  intros h vs. cbn. intros _. apply Forall_forall. intros x X. apply in_map_iff in X. destruct X as [v [<- X]].
  eexists. reflexivity.
Qed.

Section Parsed.
  Context {R : Type} (g : rng_ops R) (G : sane g).

  Lemma uniform_total : forall v k w k' size h r,
    exists o, draw g (PUniform (PDet v k) (PDet w k')) size h r = Ok o.
  Proof.
    intros. cbn. destruct (qeqb v w); [eauto|]. destruct (qltb w v); match goal with |- context [rng_uniform ?a ?b ?c ?d ?e ?f] => destruct (rng_uniform a b c d e f) end; eauto.
  Qed.
  Lemma discrete_uniform_total : forall v w size h r,
    exists o, draw g (PDiscreteUniform (PDet v KInt) (PDet w KInt)) size h r = Ok o.
  Proof.
    intros. cbn. destruct (qeqb v w); [eauto|]. destruct (qltb w v); match goal with |- context [rng_integers ?a ?b ?c ?d ?e ?f] => destruct (rng_integers a b c d e f) end; eauto.
  Qed.
  Lemma choice_total : forall a k size h r, a <> [] -> exists o, draw g (PChoice a k) size h r = Ok o.
  Proof.
    intros. cbn. destruct a; [congruence|]. cbn [length Nat.eqb]. match goal with |- context [rng_indices ?a ?b ?c ?d ?e] => destruct (rng_indices a b c d e) end. eauto.
  Qed.

  Lemma parsed_draw : forall (P : list Q -> kind -> Prop) p size h r,
    valid h p -> no_inplace_on_lists p ->
    (exists o, draw g p size h r = Ok o) ->
    (forall vs k, samples_of h p size vs k -> P vs k) ->
    exists d r', draw_samples g p size h r = Ok (d, h, r') /\ length (d_vals d) = prod size /\ P (d_vals d) (d_kind d).
  Proof.
    intros P p size h r V N [[[d h'] r'] E] H.
    destruct (draw_described g G p size h r _ V N E) as [-> [S _]].
    exists d, (rng_advance R g r'). unfold draw_samples, advanced. rewrite E. cbn [bind].
    split; [reflexivity|]. split; [now apply samples_length in S|auto].
  Qed.

  Lemma det_single : forall h v k x kx, samples_of h (PDet v k) [1%nat] [x] kx -> x == v /\ kx = k.
  Proof.
    intros h v k x kx S. cbn [samples_of] in S. destruct S as [_ [-> F]]. inversion F; subst. split; [now symmetry|reflexivity].
  Qed.

  Lemma between_compat : forall x x' y y' v, x == x' -> y == y' -> between x y v -> between x' y' v.
  Proof. intros x x' y y' v A B. unfold between. rewrite A, B. auto. Qed.

  (** An empty list is accepted, but nothing can be drawn. *)
  Lemma continuous_draws : forall a rg tu lc p, handle_continuous_param a rg tu lc = Ok p -> not_a_parameter a ->
    a <> AList [] -> forall size h r,
    exists d r', draw_samples g p size h r = Ok (d, h, r') /\ length (d_vals d) = prod size /\ Forall (allows a) (d_vals d).
  Proof.
    intros a rg tu lc p E NP NE size h r.
    apply (parsed_draw (fun vs _ => Forall (allows a) vs)).
    - destruct a as [v|vs|vs|q]; cbn [handle_continuous_param] in E; [| | |contradiction].
      + destruct (is_single_number v); [|discriminate]. apply ok_tt in E. destruct E as [_ E]. injection E as <-. apply det_valid.
      + destruct tu; [|discriminate]. destruct vs as [|x [|y [|z vs]]]; try discriminate.
        destruct (forallb is_single_number [x; y]); [|discriminate]. rewrite !ok_tt in E. destruct E as [_ [_ E]]. injection E as <-.
        split; apply det_valid.
      + destruct lc; [|discriminate]. destruct (forallb is_single_number vs) eqn:N; [|discriminate]. apply ok_tt in E. destruct E as [_ E].
        injection E as <-. now apply choice_valid.
    - destruct a as [v|vs|vs|q]; cbn [handle_continuous_param] in E; [| | |contradiction].
      + destruct (is_single_number v); [|discriminate]. apply ok_tt in E. destruct E as [_ E]. injection E as <-. exact I.
      + destruct tu; [|discriminate]. destruct vs as [|x [|y [|z vs]]]; try discriminate.
        destruct (forallb is_single_number [x; y]); [|discriminate]. rewrite !ok_tt in E. destruct E as [_ [_ E]]. injection E as <-.
        split; exact I.
      + destruct lc; [|discriminate]. destruct (forallb is_single_number vs) eqn:N; [|discriminate]. apply ok_tt in E. destruct E as [_ E].
        injection E as <-. exact I.
    - destruct a as [v|vs|vs|q]; cbn [handle_continuous_param] in E; [| | |contradiction].
      + destruct (is_single_number v); [|discriminate]. apply ok_tt in E. destruct E as [_ E]. injection E as <-. cbn. eauto.
      + destruct tu; [|discriminate]. destruct vs as [|x [|y [|z vs]]]; try discriminate.
        destruct (forallb is_single_number [x; y]); [|discriminate]. rewrite !ok_tt in E. destruct E as [_ [_ E]]. injection E as <-.
        apply uniform_total.
      + destruct lc; [|discriminate]. destruct (forallb is_single_number vs) eqn:N; [|discriminate]. apply ok_tt in E. destruct E as [_ E].
        injection E as <-. apply choice_total. destruct vs; [congruence|discriminate].
    - intros vs k S. destruct a as [v|ws|ws|q]; cbn [handle_continuous_param] in E; [| | |contradiction].
      + destruct (is_single_number v); [|discriminate]. apply ok_tt in E. destruct E as [_ E]. injection E as <-.
        destruct S as [_ [_ S]]. eapply Forall_impl; [|exact S]. intros x X. now symmetry.
      + destruct tu; [|discriminate]. destruct ws as [|x [|y [|z ws]]]; try discriminate.
        destruct (forallb is_single_number [x; y]); [|discriminate]. rewrite !ok_tt in E. destruct E as [_ [_ E]]. injection E as <-.
        destruct S as [_ [_ [a [b [ka [kb [S1 [S2 S]]]]]]]].
        destruct (det_single _ _ _ _ _ S1) as [A _]. destruct (det_single _ _ _ _ _ S2) as [B _].
        eapply Forall_impl; [|exact S]. intros v X. exact (between_compat _ _ _ _ _ A B X).
      + destruct lc; [|discriminate]. destruct (forallb is_single_number ws) eqn:N; [|discriminate]. apply ok_tt in E. destruct E as [_ E].
        injection E as <-. destruct S as [_ [_ S]]. eapply Forall_impl; [|exact S]. intros x X. cbv beta in X.
        apply in_map_iff in X. destruct X as [w [<- X]]. exists w. split; [assumption|reflexivity].
  Qed.

  Lemma int_of_truncation : forall v, is_single_number v = true -> truncation (num v) (int_of v).
  Proof.
    intros [z|q|b|]; cbn; intros H; try discriminate.
    - unfold truncation. destruct (Qlt_le_dec (inject_Z z) 0); [right|left]; (split; [assumption|]); split; lra.
    - apply py_int_truncation.
  Qed.
  Lemma valid_is_number : forall f v, valid_number f v = true -> is_single_number v = true.
  Proof. intros [] []; cbn; intros; congruence. Qed.

  Lemma discrete_draws : forall a rg tu lc f p, handle_discrete_param a rg tu lc f = Ok p -> not_a_parameter a ->
    a <> AList [] -> forall size h r,
    exists d r', draw_samples g p size h r = Ok (d, h, r') /\ length (d_vals d) = prod size /\ Forall (allows_int a) (d_vals d).
  Proof.
    intros a rg tu lc f p E NP NE size h r.
    assert (EV : forall v, is_single_integer v || (f && is_single_float v) = valid_number f v).
    { intros v. unfold valid_number, is_single_number. destruct f; [reflexivity|]. cbn. now rewrite orb_false_r. }
    apply (parsed_draw (fun vs _ => Forall (allows_int a) vs)).
    - destruct a as [v|vs|vs|q]; cbn [handle_discrete_param] in E; [| | |contradiction].
      + rewrite EV in E. destruct (valid_number f v); [|discriminate]. apply ok_tt in E. destruct E as [_ E]. injection E as <-. apply det_int_valid.
      + destruct tu; [|discriminate]. destruct vs as [|x [|y [|z vs]]]; try discriminate.
        destruct (forallb (valid_number f) [x; y]); [|discriminate]. rewrite !ok_tt in E. destruct E as [_ [_ E]]. injection E as <-.
        split; apply det_int_valid.
      + destruct lc; [|discriminate]. destruct (forallb (valid_number f) vs) eqn:N; [|discriminate]. apply ok_tt in E. destruct E as [_ E].
        injection E as <-. now apply choice_int_valid.
    - destruct a as [v|vs|vs|q]; cbn [handle_discrete_param] in E; [| | |contradiction].
      + rewrite EV in E. destruct (valid_number f v); [|discriminate]. apply ok_tt in E. destruct E as [_ E]. injection E as <-. exact I.
      + destruct tu; [|discriminate]. destruct vs as [|x [|y [|z vs]]]; try discriminate.
        destruct (forallb (valid_number f) [x; y]); [|discriminate]. rewrite !ok_tt in E. destruct E as [_ [_ E]]. injection E as <-.
        split; exact I.
      + destruct lc; [|discriminate]. destruct (forallb (valid_number f) vs) eqn:N; [|discriminate]. apply ok_tt in E. destruct E as [_ E].
        injection E as <-. exact I.
    - destruct a as [v|vs|vs|q]; cbn [handle_discrete_param] in E; [| | |contradiction].
      + rewrite EV in E. destruct (valid_number f v); [|discriminate]. apply ok_tt in E. destruct E as [_ E]. injection E as <-. cbn. eauto.
      + destruct tu; [|discriminate]. destruct vs as [|x [|y [|z vs]]]; try discriminate.
        destruct (forallb (valid_number f) [x; y]); [|discriminate]. rewrite !ok_tt in E. destruct E as [_ [_ E]]. injection E as <-.
        apply discrete_uniform_total.
      + destruct lc; [|discriminate]. destruct (forallb (valid_number f) vs) eqn:N; [|discriminate]. apply ok_tt in E. destruct E as [_ E].
        injection E as <-. apply choice_total. destruct vs; [congruence|discriminate].
    - intros vs k S. destruct a as [v|ws|ws|q]; cbn [handle_discrete_param] in E; [| | |contradiction].
      + rewrite EV in E. destruct (valid_number f v) eqn:VN; [|discriminate]. apply ok_tt in E. destruct E as [_ E]. injection E as <-.
        destruct S as [_ [_ S]]. eapply Forall_impl; [|exact S]. intros x X. exists (int_of v). split; [now symmetry|].
        apply int_of_truncation. now apply (valid_is_number f).
      + destruct tu; [|discriminate]. destruct ws as [|x [|y [|z ws]]]; try discriminate.
        destruct (forallb (valid_number f) [x; y]) eqn:VN; [|discriminate]. rewrite !ok_tt in E. destruct E as [_ [_ E]]. injection E as <-.
        cbn [forallb] in VN. rewrite andb_true_r in VN. apply andb_true_iff in VN. destruct VN as [VX VY].
        destruct S as [_ [_ [a [b [S1 [S2 S]]]]]].
        destruct (det_single _ _ _ _ _ S1) as [A _]. destruct (det_single _ _ _ _ _ S2) as [B _].
        eapply Forall_impl; [|exact S]. intros v [[z Z] X]. exists z. split; [assumption|].
        exists (int_of x), (int_of y). split; [apply int_of_truncation; now apply (valid_is_number f)|].
        split; [apply int_of_truncation; now apply (valid_is_number f)|]. exact (between_compat _ _ _ _ _ A B X).
      + destruct lc; [|discriminate]. destruct (forallb (valid_number f) ws) eqn:N; [|discriminate]. apply ok_tt in E. destruct E as [_ E].
        injection E as <-. destruct S as [_ [_ S]]. eapply Forall_impl; [|exact S]. intros x X. cbv beta in X.
        apply in_map_iff in X. destruct X as [w [<- X]]. exists (int_of w). split; [reflexivity|]. exists w. split; [assumption|].
        rewrite forallb_forall in N. apply int_of_truncation. apply (valid_is_number f). auto.
  Qed.
End Parsed.

(** Ranges of the samples follow from the ranges of the argument. *)
Lemma allows_in_range : forall rg tu lc is_number a v, bounded_range rg -> not_a_parameter a ->
  accepted is_number rg tu lc a -> allows a v -> in_range rg v.
Proof.
  intros rg tu lc isn a v B NP A X. destruct rg as [|lo hi|f]; [exact I| |contradiction].
  destruct a as [w|ws|ws|p]; cbn [accepted allows in_range] in *; [| | |contradiction].
  - destruct A as [_ [A1 A2]]. split; intros b Hb; rewrite X; auto.
  - destruct A as [_ [x [y [-> [_ [_ [[X1 X2] [Y1 Y2]]]]]]]].
    split; intros b Hb; [specialize (X1 b Hb); specialize (Y1 b Hb)|specialize (X2 b Hb); specialize (Y2 b Hb)];
      destruct X as [[P Q]|[P Q]]; lra.
  - destruct X as [w [W E]]. destruct A as [_ A]. destruct (A w W) as [_ [A1 A2]]. split; intros b Hb; rewrite E; auto.
Qed.

Lemma truncation_range : forall x z lo hi,
  (forall l, lo = Some l -> integral l) -> (forall u, hi = Some u -> integral u) -> truncation x z ->
  (forall l : Q, lo = Some l -> l <= x) -> (forall u : Q, hi = Some u -> x <= u) ->
  (forall l : Q, lo = Some l -> l <= inject_Z z) /\ (forall u : Q, hi = Some u -> inject_Z z <= u).
Proof.
  intros x z lo hi IL IU T L U. split.
  - intros l Hl. destruct (IL l Hl) as [zl E]. specialize (L l Hl).
    destruct T as [[A [B C]]|[A [B C]]]; [|lra].
    rewrite E in *. assert (D : inject_Z zl < inject_Z (z + 1)) by (rewrite inject_Z_plus; change (inject_Z 1) with 1; lra).
    rewrite <- Zlt_Qlt in D. rewrite <- Zle_Qle. lia.
  - intros u Hu. destruct (IU u Hu) as [zu E]. specialize (U u Hu).
    destruct T as [[A [B C]]|[A [B C]]]; [lra|].
    rewrite E in *. assert (D : inject_Z z < inject_Z (zu + 1)) by (rewrite inject_Z_plus; change (inject_Z 1) with 1; lra).
    rewrite <- Zlt_Qlt in D. rewrite <- Zle_Qle. lia.
Qed.

Lemma allows_int_in_range : forall rg tu lc is_number a v, integral_range rg -> not_a_parameter a ->
  accepted is_number rg tu lc a -> allows_int a v -> in_range rg v.
Proof.
  intros rg tu lc isn a v B NP A [z [E X]]. destruct rg as [|lo hi|f]; [exact I| |contradiction].
  destruct B as [BL BU].
  destruct a as [w|ws|ws|p]; cbn [accepted in_range] in *; [| | |contradiction].
  - destruct A as [_ [A1 A2]]. destruct (truncation_range _ _ lo hi BL BU X A1 A2) as [C D].
    split; intros b Hb; rewrite E; auto.
  - destruct A as [_ [x [y [-> [_ [_ [[X1 X2] [Y1 Y2]]]]]]]]. destruct X as [zx [zy [TX [TY BT]]]].
    destruct (truncation_range _ _ lo hi BL BU TX X1 X2) as [CX DX].
    destruct (truncation_range _ _ lo hi BL BU TY Y1 Y2) as [CY DY].
    split; intros b Hb; [specialize (CX b Hb); specialize (CY b Hb)|specialize (DX b Hb); specialize (DY b Hb)];
      destruct BT as [[P Q]|[P Q]]; lra.
  - destruct X as [w [W T]]. destruct A as [_ A]. destruct (A w W) as [_ [A1 A2]].
    destruct (truncation_range _ _ lo hi BL BU T A1 A2) as [C D]. split; intros b Hb; rewrite E; auto.
Qed.

(** ** Probabilities *)

Lemma in_unit_iff : forall q, in_unit q = true <-> 0 <= q <= 1.
Proof. intros q. unfold in_unit. rewrite andb_true_iff, !qleb_iff. tauto. Qed.

Lemma forall_probability : forall vs,
  forallb is_single_number vs = true -> (forallb (fun v => in_unit (num v)) vs = true <-> Forall probability vs).
Proof.
  intros vs N. rewrite forallb_forall in N. rewrite forallb_forall, Forall_forall. split.
  - intros H v Hv. split; [apply number_iff; auto|apply in_unit_iff; auto].
  - intros H v Hv. apply in_unit_iff. now apply H.
Qed.
Lemma probabilities_are_numbers : forall vs, Forall probability vs -> forallb is_single_number vs = true.
Proof.
  intros vs H. apply forallb_forall. intros v Hv. rewrite Forall_forall in H. apply number_iff. now apply H.
Qed.

Lemma choice_probability_iff : forall vs,
  (exists p, (if negb (forallb is_single_number vs) then Err AssertionError
     else if forallb (fun v => in_unit (num v)) vs then Ok (PBinomial (PChoice (map num vs) (list_kind vs)))
     else Err AssertionError) = Ok p) <-> Forall probability vs.
Proof.
  intros vs. destruct (forallb is_single_number vs) eqn:N; cbn [negb].
  - rewrite <- (forall_probability vs N). destruct (forallb (fun v => in_unit (num v)) vs).
    + split; eauto.
    + split; [intros [? ?]; discriminate|discriminate].
  - split; [intros [? ?]; discriminate|]. intros H. apply probabilities_are_numbers in H. congruence.
Qed.

Lemma probability_accepts : forall a tu lc,
  (exists p, handle_probability_param a tu lc = Ok p) <-> accepted_probability tu lc a.
Proof.
  intros a tu lc. destruct a as [v|vs|vs|p]; cbn [handle_probability_param accepted_probability].
  - destruct (is_zero_or_one v) eqn:Z.
    + split; [intros _|intros _; eexists; reflexivity]. destruct v; cbn in Z; try discriminate.
      * right. split; [left; eauto|]. apply orb_true_iff in Z. cbn. destruct Z as [Z|Z]; apply qeqb_iff in Z; rewrite Z; split; lra.
      * right. split; [right; eauto|]. apply orb_true_iff in Z. cbn. destruct Z as [Z|Z]; apply qeqb_iff in Z; rewrite Z; split; lra.
      * left; eauto.
    + destruct (is_single_number v) eqn:N.
      * cbv zeta. destruct (in_unit (num v)) eqn:U; cbn [negb].
        -- apply number_iff in N. apply in_unit_iff in U. split; [intros _; right; split; assumption|intros _].
           match goal with |- context [if ?b then _ else _] => destruct b end; eauto.
        -- split; [intros [? ?]; discriminate|]. intros [[b ->]|[_ H]]; [discriminate|]. apply in_unit_iff in H. congruence.
      * split; [intros [? ?]; discriminate|]. intros [[b ->]|[H _]]; [discriminate|]. apply number_iff in H. congruence.
  - destruct tu.
    + destruct (forallb is_single_number vs) eqn:N; cbn [negb].
      * destruct vs as [|x [|y [|z vs]]];
          try (split; [intros [? ?]; discriminate|intros [[_ [? [? [H _]]]]|[H _]]; discriminate]).
        cbn [forallb] in N. rewrite andb_true_r in N. apply andb_true_iff in N. destruct N as [N1 N2]. apply number_iff in N1, N2.
        destruct (in_unit (num x) && in_unit (num y)) eqn:U.
        -- apply andb_true_iff in U. destruct U as [U1 U2]. apply in_unit_iff in U1, U2.
           split; [intros _|eauto]. left. split; [reflexivity|]. exists x, y. repeat split; tauto.
        -- split; [intros [? ?]; discriminate|]. intros [[_ [x' [y' [E [A B]]]]]|[H _]]; [|discriminate].
           injection E as <- <-. destruct A as [_ A], B as [_ B]. apply in_unit_iff in A, B. rewrite A, B in U. discriminate.
      * split; [intros [? ?]; discriminate|]. intros [[_ [x' [y' [-> [A B]]]]]|[H _]]; [|discriminate].
        assert (forallb is_single_number [x'; y'] = true) by (apply probabilities_are_numbers; auto). congruence.
    + destruct lc.
      * rewrite choice_probability_iff. split; [intros H; right; auto|]. intros [[H _]|[_ [_ H]]]; [discriminate|assumption].
      * split; [intros [? ?]; discriminate|]. intros [[H _]|[_ [H _]]]; discriminate.
  - destruct lc.
    + rewrite choice_probability_iff. tauto.
    + split; [intros [? ?]; discriminate|]. intros [H _]; discriminate.
  - split; [tauto|eauto].
Qed.

Section ParsedProbabilities.
  Context {R : Type} (g : rng_ops R) (G : sane g).

  Lemma binomial_total : forall p size h r, valid h p -> no_inplace_on_lists p ->
    (forall r, exists o, draw g p [1%nat] h r = Ok o) ->
    (forall x k, samples_of h p [1%nat] [x] k -> 0 <= x <= 1) ->
    exists o, draw g (PBinomial p) size h r = Ok o.
  Proof.
    intros p size h r V N T U. cbn [draw]. destruct (T r) as [[[d h'] r'] E].
    destruct (draw_described g G p [1%nat] h r _ V N E) as [-> [S _]].
    unfold one, advanced. rewrite E. cbn [bind].
    pose proof (samples_length _ _ _ _ _ S) as L. cbn in L. destruct (d_vals d) as [|x [|]]; try discriminate L.
    specialize (U x _ S). apply in_unit_iff in U. unfold in_unit in U. cbn [nth]. rewrite U.
    match goal with |- context [rng_binomial ?a ?b ?c ?d ?e] => destruct (rng_binomial a b c d e) end. eauto.
  Qed.

  (** Drawing from drawable parameters succeeds. *)
  Lemma one_total : forall h p, valid h p -> no_inplace_on_lists p -> (forall size r, exists o, draw g p size h r = Ok o) ->
    forall r, exists x k r', one g (draw g p [1%nat] h r) = Ok (x, k, h, r') /\ samples_of h p [1%nat] [x] k.
  Proof.
    intros h p V N T r. destruct (T [1%nat] r) as [[[d h'] r'] E].
    destruct (draw_described g G p [1%nat] h r _ V N E) as [-> [S _]].
    pose proof (samples_length _ _ _ _ _ S) as L. cbn in L.
    destruct (d_vals d) as [|x [|]] eqn:DV; try discriminate L.
    exists x, (d_kind d), (rng_advance R g r'). unfold one, advanced. rewrite E. cbn [bind]. rewrite DV. split; [reflexivity|assumption].
  Qed.
  Lemma advanced_total : forall h p size, valid h p -> no_inplace_on_lists p -> (forall size r, exists o, draw g p size h r = Ok o) ->
    forall r, exists d r', advanced g (draw g p size h r) = Ok (d, h, r') /\ samples_of h p size (d_vals d) (d_kind d) /\ view_ok h p d.
  Proof.
    intros h p size V N T r. destruct (T size r) as [[[d h'] r'] E].
    destruct (draw_described g G p size h r _ V N E) as [-> [S W]].
    exists d, (rng_advance R g r'). unfold advanced. rewrite E. cbn [bind]. auto.
  Qed.
  Lemma reroll_total : forall h p size bad n (redraw : heap -> R -> outcome),
    (forall r, exists d r', redraw h r = Ok (d, h, r') /\ samples_of h p size (d_vals d) (d_kind d)) ->
    (forall vs vs' k k', samples_of h p size vs k -> samples_of h p size vs' k' -> k = KInt -> k' = KInt) ->
    forall count d r vs0, samples_of h p size vs0 (d_kind d) -> d_view d = None ->
    exists o, reroll redraw bad n count d h r = Ok o.
  Proof.
    intros h p size bad n redraw RD K count. induction count as [|count IH]; intros d r vs0 S W; cbn [reroll].
    - destruct (existsb bad (d_vals d)); eauto.
    - destruct (existsb bad (d_vals d)); [|eauto]. destruct (RD r) as [d2 [r2 [E S2]]]. rewrite E. cbn [bind].
      assert (KK : Bool.eqb (int_kind (d_kind d)) (int_kind (d_kind d2)) = true).
      { pose proof (K _ _ _ _ S S2) as K1. pose proof (K _ _ _ _ S2 S) as K2.
        destruct (d_kind d), (d_kind d2); try reflexivity; try (specialize (K1 eq_refl); discriminate); specialize (K2 eq_refl); discriminate. }
      rewrite KK. cbn [negb]. rewrite W. cbn [write]. apply (IH _ _ vs0); [exact S|reflexivity].
  Qed.
  Lemma aggregate_total : forall h m (redraw : heap -> R -> outcome),
    (forall r, exists d r', redraw h r = Ok (d, h, r')) ->
    forall count first acc r, exists o, aggregate redraw m first count acc h r = Ok o.
  Proof.
    intros h m redraw RD count. induction count as [|count IH]; intros first acc r; cbn [aggregate]; [eauto|].
    destruct (RD r) as [d [r' E]]. rewrite E. cbn [bind]. apply IH.
  Qed.

  Lemma draw_total : forall p h, valid h p -> no_inplace_on_lists p -> drawable h p ->
    forall size r, exists o, draw g p size h r = Ok o.
  Proof.
    induction p; intros h V N D size r; cbn [valid] in V; cbn [no_inplace_on_lists] in N; cbn [drawable] in D; cbn [draw].
    - eauto.
    - destruct (Nat.ltb _ _); eauto.
    - destruct a; [congruence|]. cbn [length Nat.eqb]. destruct (rng_indices _ _ _ _ _). eauto.
    - destruct D as [D U]. destruct (one_total h p V N (IHp h V N D) r) as [x [kx [r' [E S]]]]. rewrite E. cbn [bind].
      destruct (U _ _ S) as [U1 U2]. apply qleb_iff in U1, U2. rewrite U1, U2. cbn [andb]. destruct (rng_binomial _ _ _ _ _). eauto.
    - destruct D as [D1 [D2 K]], V as [V1 V2], N as [N1 N2].
      destruct (one_total h p1 V1 N1 (IHp1 h V1 N1 D1) r) as [x [kx [r' [E S]]]]. rewrite E. cbn [bind].
      destruct (one_total h p2 V2 N2 (IHp2 h V2 N2 D2) r') as [y [ky [r2 [E2 S2]]]]. rewrite E2. cbn [bind].
      rewrite (K x kx (or_introl S)), (K y ky (or_intror S2)). cbn [int_kind andb negb].
      destruct (qeqb x y); [eauto|]. destruct (qltb y x); destruct (rng_integers _ _ _ _ _ _); eauto.
    - destruct D as [D1 D2], V as [V1 V2], N as [N1 N2].
      destruct (one_total h p1 V1 N1 (IHp1 h V1 N1 D1) r) as [x [kx [r' [E S]]]]. rewrite E. cbn [bind].
      destruct (one_total h p2 V2 N2 (IHp2 h V2 N2 D2) r') as [y [ky [r2 [E2 S2]]]]. rewrite E2. cbn [bind].
      destruct (qeqb x y); [eauto|]. destruct (qltb y x); destruct (rng_uniform _ _ _ _ _ _); eauto.
    - destruct (one_total h p V N (IHp h V N D) r) as [x [kx [r' [E S]]]]. rewrite E. cbn [bind]. destruct (rng_poisson _ _ _ _ _). eauto.
    - destruct D as [D1 [D2 K]], V as [V1 V2], N as [N1 N2].
      destruct (one_total h p1 V1 N1 (IHp1 h V1 N1 D1) r) as [x [kx [r' [E S]]]]. rewrite E. cbn [bind].
      destruct (one_total h p2 V2 N2 (IHp2 h V2 N2 D2) r') as [y [ky [r2 [E2 S2]]]]. rewrite E2. cbn [bind].
      pose proof (K _ _ S2) as NN. apply qleb_iff in NN. rewrite NN. cbn [negb].
      destruct (qeqb y 0); [eauto|]. destruct (rng_normal _ _ _ _ _ _). eauto.
    - destruct D as [D1 D2], V as [V1 V2], N as [N1 N2].
      destruct (one_total h p1 V1 N1 (IHp1 h V1 N1 D1) r) as [x [kx [r' [E S]]]]. rewrite E. cbn [bind].
      destruct (one_total h p2 V2 N2 (IHp2 h V2 N2 D2) r') as [y [ky [r2 [E2 S2]]]]. rewrite E2. cbn [bind].
      destruct (rng_beta _ _ _ _ _ _). eauto.
    - destruct D as [D K], V as [V VB], N as [N NH].
      destruct (advanced_total h p size V N (IHp h V N D) r) as [d [r' [E [S W]]]]. rewrite E. cbn [bind].
      assert (CC : clip_castable (d_kind d) lo hi = true).
      { unfold clip_castable. destruct (d_kind d) eqn:DK; cbn [int_kind andb].
        - destruct lo as [[l kl]|], hi as [[u ku]|]; cbn [negb andb];
            try (pose proof (K _ _ _ _ S eq_refl (or_introl eq_refl)) as K1; cbn [snd] in K1; subst kl);
            try (pose proof (K _ _ _ _ S eq_refl (or_intror eq_refl)) as K2; cbn [snd] in K2; subst ku); reflexivity.
        - destruct lo as [[l kl]|], hi as [[u ku]|]; reflexivity.
        - destruct lo as [[l kl]|], hi as [[u ku]|]; reflexivity. }
      rewrite CC. destruct lo, hi; eauto.
    - destruct (advanced_total h p size V N (IHp h V N D) r) as [d [r' [E [S W]]]]. rewrite E. cbn [bind]. destruct (d_kind d); eauto.
    - destruct D as [D1 D2], V as [V1 V2], N as [N1 [N2 N3]].
      destruct (advanced_total h p1 size V1 N1 (IHp1 h V1 N1 D1) r) as [d [r' [E [S W]]]]. rewrite E. cbn [bind].
      destruct (elementwise && negb (is_det p2)).
      + destruct (advanced_total h p2 size V2 N2 (IHp2 h V2 N2 D2) r') as [d2 [r2 [E2 [S2 W2]]]]. rewrite E2. cbn [bind]. eauto.
      + destruct (one_total h p2 V2 N2 (IHp2 h V2 N2 D2) r') as [y [ky [r2 [E2 S2]]]]. rewrite E2. cbn [bind]. eauto.
    - destruct (advanced_total h p size V N (IHp h V N D) r) as [d [r' [E [S W]]]]. rewrite E. cbn [bind]. eauto.
    - destruct V as [_ [_ V]]. destruct (advanced_total h p size V N (IHp h V N D) r) as [d [r' [E [S W]]]]. rewrite E. cbn [bind].
      destruct (rng_binomial _ _ _ _ _). eauto.
    - destruct D as [D K], N as [N NH].
      destruct (advanced_total h p size V N (IHp h V N D) r) as [d [r' [E [S W]]]]. rewrite E. cbn [bind].
      destruct mode; [eauto|].
      apply (reroll_total h p size _ _ _) with (vs0 := d_vals d); [| |exact S|exact (no_view _ _ _ W NH)].
      + intros r0. destruct (advanced_total h p size V N (IHp h V N D) r0) as [d0 [r0' [E0 [S0 _]]]]. eauto.
      + exact (K eq_refl size).
    - destruct D as [D1 [D2 [ME K]]], V as [V1 V2], N as [N1 N2].
      destruct methods as [|m0 ms]; [congruence|]. cbn [length Nat.eqb].
      destruct (rng_indices _ _ _ _ _) as [is r0].
      destruct (one_total h p2 V2 N2 (IHp2 h V2 N2 D2) (rng_advance R g r0)) as [c [kc [r1 [E S]]]]. rewrite E. cbn [bind].
      destruct (K _ _ S) as [-> PC]. apply qltb_iff in PC. rewrite PC. cbn [negb int_kind].
      match goal with |- context [aggregate ?rd ?m true ?c ?acc h r1] =>
        destruct (aggregate_total h m rd ltac:(intros rr; destruct (advanced_total h p1 size V1 N1 (IHp1 h V1 N1 D1) rr) as [dd [rr' [EE _]]]; eauto) c true acc r1) as [o EO] end.
      rewrite EO. cbn [bind]. destruct o as [[d h'] r'].
      match goal with |- context [match ?m with AMin => _ | AMax => _ | AAvg => _ end] => destruct m end; eauto.
  Qed.

  Definition zero_or_one (vs : list Q) : Prop := Forall (fun v => v == 0 \/ v == 1) vs.

  Lemma binomial_samples : forall h p size vs k, samples_of h (PBinomial p) size vs k -> zero_or_one vs.
  Proof.
    intros h p size vs k [_ [_ [x [kx [_ [_ F]]]]]]. eapply Forall_impl; [|exact F]. cbv beta. tauto.
  Qed.

  Lemma choice_probability_draws : forall vs, Forall probability vs -> vs <> [] ->
    forall size h r, exists d r', draw_samples g (PBinomial (PChoice (map num vs) (list_kind vs))) size h r = Ok (d, h, r') /\
    length (d_vals d) = prod size /\ zero_or_one (d_vals d).
  Proof.
    intros vs F NE size h r. pose proof (probabilities_are_numbers _ F) as N.
    apply (parsed_draw g G (fun vs _ => zero_or_one vs)).
    - exact (choice_valid h vs N).
    - exact I.
    - apply binomial_total; [exact (choice_valid h vs N)|exact I| |].
      + intros r'. apply choice_total. destruct vs; [congruence|discriminate].
      + intros x k [_ [_ S]]. inversion S as [|? ? X _]; subst. apply in_map_iff in X. destruct X as [w [<- X]].
        rewrite Forall_forall in F. now apply F.
    - intros ws k S. exact (binomial_samples _ _ _ _ _ S).
  Qed.

  Lemma probability_draws : forall a tu lc p, handle_probability_param a tu lc = Ok p -> not_a_parameter a ->
    a <> AList [] -> a <> ATuple [] -> forall size h r,
    exists d r', draw_samples g p size h r = Ok (d, h, r') /\ length (d_vals d) = prod size /\
      zero_or_one (d_vals d) /\
      (forall v, a = AOne v -> prob_value v == 0 -> Forall (fun s => s == 0) (d_vals d)) /\
      (forall v, a = AOne v -> prob_value v == 1 -> Forall (fun s => s == 1) (d_vals d)).
  Proof.
    intros a tu lc p E NP NE NT size h r.
    assert (PA : accepted_probability tu lc a) by (apply probability_accepts; eauto).
    destruct a as [v|vs|vs|q]; cbn [handle_probability_param] in E; [| | |contradiction].
    - assert (DET : forall z, (z = 0 \/ z = 1)%Z -> (prob_value v == 0 -> z = 0%Z) -> (prob_value v == 1 -> z = 1%Z) ->
        exists d r', draw_samples g (PDet (inject_Z z) KInt) size h r = Ok (d, h, r') /\ length (d_vals d) = prod size /\
        zero_or_one (d_vals d) /\
        (forall v', AOne v = AOne v' -> prob_value v' == 0 -> Forall (fun s => s == 0) (d_vals d)) /\
        (forall v', AOne v = AOne v' -> prob_value v' == 1 -> Forall (fun s => s == 1) (d_vals d))).
      { intros z Z Z0 Z1. unfold draw_samples, advanced. cbn. eexists. eexists. split; [reflexivity|]. cbn.
        rewrite repeat_length. split; [reflexivity|].
        assert (F : Forall (eq (inject_Z z)) (repeat (inject_Z z) (prod size))).
        { apply Forall_forall. intros x X. apply repeat_spec in X. congruence. }
        split.
        - eapply Forall_impl; [|exact F]. intros x <-. destruct Z as [-> | ->]; [left|right]; reflexivity.
        - split.
          + intros v' EV P. injection EV as <-. eapply Forall_impl; [|exact F]. intros x <-. rewrite (Z0 P). reflexivity.
          + intros v' EV P. injection EV as <-. eapply Forall_impl; [|exact F]. intros x <-. rewrite (Z1 P). reflexivity. }
      destruct (is_zero_or_one v) eqn:Z.
      + injection E as <-. apply DET.
        * destruct v as [z|q|[]|]; cbn in Z |- *; try discriminate; auto.
          -- apply orb_true_iff in Z. destruct Z as [Z|Z]; apply qeqb_iff in Z.
             ++ change 0 with (inject_Z 0) in Z. apply (proj1 (inject_Z_injective _ _)) in Z. auto.
             ++ change 1 with (inject_Z 1) in Z. apply (proj1 (inject_Z_injective _ _)) in Z. auto.
          -- apply orb_true_iff in Z. destruct Z as [Z|Z]; apply qeqb_iff in Z.
             ++ left. now apply (py_int_eq q 0).
             ++ right. now apply (py_int_eq q 1).
        * intros P. destruct v as [z|q|[]|]; cbn in Z, P |- *; try discriminate; auto.
          -- change 0 with (inject_Z 0) in P. apply (proj1 (inject_Z_injective _ _)) in P. exact P.
          -- now apply (py_int_eq q 0).
        * intros P. destruct v as [z|q|[]|]; cbn in Z, P |- *; try discriminate; auto.
          -- change 1 with (inject_Z 1) in P. apply (proj1 (inject_Z_injective _ _)) in P. exact P.
          -- now apply (py_int_eq q 1).
      + destruct (is_single_number v) eqn:N; [|discriminate]. cbv zeta in E.
        destruct (in_unit (num v)) eqn:U; cbn [negb] in E; [|discriminate]. apply in_unit_iff in U.
        assert (PV : prob_value v = num v) by (destruct v; try discriminate; reflexivity).
        assert (NZ : ~ num v == 0 /\ ~ num v == 1).
        { destruct v; try discriminate N; cbn in Z |- *; apply orb_false_iff in Z; destruct Z as [Z1 Z2];
            (split; intros C; apply qeqb_iff in C; congruence). }
        destruct ((qltb (0 - prob_eps) (num v) && qltb (num v) (0 + prob_eps))
                  || (qltb (1 - prob_eps) (num v) && qltb (num v) (1 + prob_eps))) eqn:EP.
        * injection E as <-.
          apply DET; [|rewrite PV; intros C; now destruct NZ|rewrite PV; intros C; now destruct NZ].
          pose proof (np_round_spec (num v)) as SP.
          apply orb_true_iff in EP. unfold prob_eps in EP. destruct EP as [EP|EP]; apply andb_true_iff in EP; destruct EP as [P1 P2];
            apply qltb_iff in P1, P2; [left|right].
          -- apply np_round_unique; [change (inject_Z 0) with 0 || change (inject_Z 1) with 1; lra|change (inject_Z 0) with 0 || change (inject_Z 1) with 1; lra].
          -- apply np_round_unique; [change (inject_Z 0) with 0 || change (inject_Z 1) with 1; lra|change (inject_Z 0) with 0 || change (inject_Z 1) with 1; lra].
        * injection E as <-.
          destruct (parsed_draw g G (fun vs _ => zero_or_one vs) (PBinomial (det v)) size h r) as [d [r' [D1 [D2 D3]]]].
          -- apply det_valid.
          -- exact I.
          -- apply binomial_total; [apply det_valid|exact I|intros r'; cbn; eauto|].
             intros x k S. apply det_single in S. destruct S as [S _]. rewrite S. assumption.
          -- intros ws k S. exact (binomial_samples _ _ _ _ _ S).
          -- exists d, r'. split; [assumption|]. split; [assumption|]. split; [assumption|].
             split; intros v' EV C; injection EV as <-; rewrite PV in C; now destruct NZ.
    - assert (CH : Forall probability vs -> vs <> [] ->
        p = PBinomial (PChoice (map num vs) (list_kind vs)) ->
        exists d r', draw_samples g p size h r = Ok (d, h, r') /\ length (d_vals d) = prod size /\
        zero_or_one (d_vals d) /\
        (forall v', ATuple vs = AOne v' -> prob_value v' == 0 -> Forall (fun s => s == 0) (d_vals d)) /\
        (forall v', ATuple vs = AOne v' -> prob_value v' == 1 -> Forall (fun s => s == 1) (d_vals d))).
      { intros F N0 ->. destruct (choice_probability_draws vs F N0 size h r) as [d [r' [D1 [D2 D3]]]].
        exists d, r'. repeat split; try assumption; discriminate. }
      destruct tu.
      + destruct (negb (forallb is_single_number vs)) eqn:N; [discriminate|].
        destruct vs as [|x [|y [|z vs]]]; try discriminate.
        destruct (in_unit (num x) && in_unit (num y)) eqn:U; [|discriminate]. injection E as <-.
        apply andb_true_iff in U. destruct U as [U1 U2]. apply in_unit_iff in U1, U2.
        destruct (parsed_draw g G (fun vs _ => zero_or_one vs) (PBinomial (PUniform (det x) (det y))) size h r) as [d [r' [D1 [D2 D3]]]].
        * split; apply det_valid.
        * split; exact I.
        * apply binomial_total; [split; apply det_valid|split; exact I|intros r'; apply uniform_total|].
          intros w k [_ [_ [a [b [ka [kb [S1 [S2 S]]]]]]]].
          destruct (det_single _ _ _ _ _ S1) as [A _]. destruct (det_single _ _ _ _ _ S2) as [B _].
          inversion S as [|? ? X _]; subst. destruct X as [[X1 X2]|[X1 X2]]; lra.
        * intros ws k S. exact (binomial_samples _ _ _ _ _ S).
        * exists d, r'. repeat split; try assumption; discriminate.
      + destruct lc; [|discriminate]. destruct PA as [[H _]|[_ [_ F]]]; [discriminate|].
        apply CH; [assumption|congruence|].
        rewrite (probabilities_are_numbers _ F) in E. cbn [negb] in E.
        rewrite (proj2 (forall_probability vs (probabilities_are_numbers _ F)) F) in E. injection E as <-. reflexivity.
    - destruct lc; [|discriminate]. destruct PA as [_ F].
      rewrite (probabilities_are_numbers _ F) in E. cbn [negb] in E.
      rewrite (proj2 (forall_probability vs (probabilities_are_numbers _ F)) F) in E. injection E as <-.
      destruct (choice_probability_draws vs F ltac:(congruence) size h r) as [d [r' [D1 [D2 D3]]]].
      exists d, r'. repeat split; try assumption; discriminate.
  Qed.

  (** Between the thresholds, the number is the probability of the coin flips. *)
  Lemma probability_kept : forall v tu lc, number v -> prob_eps <= num v -> num v <= 1 - prob_eps ->
    handle_probability_param (AOne v) tu lc = Ok (PBinomial (det v)).
  Proof.
    intros v tu lc N A B. unfold prob_eps in A, B. cbn [handle_probability_param].
    assert (Z : is_zero_or_one v = false).
    { destruct N as [[z ->]|[q ->]]; cbn in A, B |- *; apply orb_false_iff; split;
        match goal with |- qeqb ?a ?b = false => destruct (qeqb a b) eqn:E; [apply qeqb_iff in E; lra|reflexivity] end. }
    rewrite Z. apply number_iff in N. rewrite N. cbv zeta.
    assert (U : in_unit (num v) = true) by (apply in_unit_iff; lra). rewrite U. cbn [negb].
    unfold prob_eps.
    assert (L1 : qltb (num v) (0 + (1 # 1000000)) = false) by (destruct (qltb (num v) (0 + (1 # 1000000))) eqn:E; [apply qltb_iff in E; lra|reflexivity]).
    assert (L2 : qltb (1 - (1 # 1000000)) (num v) = false) by (destruct (qltb (1 - (1 # 1000000)) (num v)) eqn:E; [apply qltb_iff in E; lra|reflexivity]).
    rewrite L1, L2, andb_false_r. reflexivity.
  Qed.

  (** ** Kernel sizes *)
  Lemma plain_draws : forall a rg f p, handle_discrete_param a rg true true f = Ok p -> plain a -> integral_range rg ->
    forall size h r, exists d r', draw_samples g p size h r = Ok (d, h, r') /\ length (d_vals d) = prod size /\
      Forall (fun v => integral v /\ in_range rg v) (d_vals d).
  Proof.
    intros a rg f p E [NP NE] IR size h r.
    destruct (discrete_draws g G a rg true true f p E NP NE size h r) as [d [r' [D1 [D2 D3]]]].
    exists d, r'. split; [assumption|]. split; [assumption|]. eapply Forall_impl; [|exact D3].
    intros v A. split; [destruct A as [z [A _]]; now exists z|].
    apply (allows_int_in_range rg true true (integer_or_number f) a v IR NP); [|assumption].
    apply discrete_accepts. eauto.
  Qed.

  Lemma kernel_from_discrete : forall a rg f p q, handle_kernel_size_param a rg f = Ok (p, q) -> plain_kernel a ->
    (exists b, plain b /\ handle_discrete_param b rg true true f = Ok p) /\
    (forall q', q = Some q' -> exists b, plain b /\ handle_discrete_param b rg true true f = Ok q').
  Proof.
    intros a rg f p q E P. destruct a as [a|args]; cbn [handle_kernel_size_param plain_kernel] in *.
    - destruct a as [v|vs|vs|p']; [| discriminate | | destruct P; contradiction].
      + split.
        * exists (AOne v). split; [assumption|]. cbn [handle_discrete_param]. destruct (_ || _)%bool; [|discriminate].
          apply ok_tt in E. destruct E as [C E]. injection E as <- <-. rewrite C. reflexivity.
        * intros q' ->. destruct (_ || _)%bool; [|discriminate]. apply ok_tt in E. destruct E as [C E]. discriminate.
      + split.
        * exists (AList vs). split; [assumption|]. cbn [handle_discrete_param]. destruct (forallb _ _); [|discriminate].
          apply ok_tt in E. destruct E as [C E]. injection E as <- <-. rewrite C. reflexivity.
        * intros q' ->. destruct (forallb _ _); [|discriminate]. apply ok_tt in E. destruct E as [C E]. discriminate.
    - destruct args as [|a [|b [|c args]]]; try discriminate.
      inversion P as [|? ? PA PB']; subst. inversion PB' as [|? ? PB _]; subst.
      destruct (forallb (arg_is is_single_integer) [a; b] || (f && forallb (arg_is is_single_float) [a; b])) eqn:K.
      + rewrite !ok_tt in E. destruct E as [C1 [C2 E]]. injection E as <- <-. split; [|discriminate].
        exists (ATuple [arg_val a; arg_val b]). split; [split; [exact I|discriminate]|].
        assert (V : forallb (valid_number f) [arg_val a; arg_val b] = true).
        { cbn [forallb] in *. destruct a as [[]| | |], b as [[]| | |], f; cbn in K |- *; congruence. }
        cbn [handle_discrete_param]. rewrite V, C1, C2. reflexivity.
      + assert (E' : (do p <- handle_discrete_param a rg true true f; do q <- handle_discrete_param b rg true true f; Ok (p, Some q)) = Ok (p, q)).
        { destruct a as [?|?|?|?], b as [?|?|?|?]; exact E. }
        destruct (handle_discrete_param a rg true true f) as [p1|e] eqn:EA; cbn [bind] in E'; [|discriminate].
        destruct (handle_discrete_param b rg true true f) as [q1|e] eqn:EB; cbn [bind] in E'; [|discriminate].
        injection E' as <- <-. split; [exists a; auto|]. intros q' EQ. injection EQ as <-. exists b; auto.
  Qed.
End ParsedProbabilities.

(** ** FrequencyNoise *)

Lemma line_min : forall n i, (0 <= i < n)%Z -> line n i = Z.min i (n - 1 - i).
Proof.
  intros n i H. unfold line. pose proof (Z.div_mod n 2 ltac:(lia)) as D. pose proof (Z.mod_pos_bound n 2 ltac:(lia)).
  destruct (Z.ltb_spec i (n / 2)); [lia|]. destruct (Z.eqb_spec (n mod 2) 1), (Z.eqb_spec i (n / 2)); cbn [andb]; lia.
Qed.

Definition is_fresh (m : arr Z) (h w : Z) : Prop :=
  ah m = h /\ aw m = w /\ forall y x, (0 <= y < h -> 0 <= x < w -> apx m y x = fresh_distance h w y x)%Z.

Lemma distances_monotone : forall cache h w, (1 <= h)%Z -> (1 <= w)%Z ->
  (cache = empty_cache \/ exists H W, is_fresh cache H W /\ (H <= h)%Z /\ (W <= w)%Z) ->
  is_fresh (fst (distances cache h w)) h w /\ is_fresh (snd (distances cache h w)) h w.
Proof.
  intros cache h w Hh Hw C.
  assert (M : ah (cached_matrix cache h w) = h /\ aw (cached_matrix cache h w) = w /\
    forall y x, (0 <= y < h -> 0 <= x < w -> is_corner h w y x = false ->
      apx (cached_matrix cache h w) y x = fresh_distance h w y x)%Z).
  { assert (NEW : forall H W, (H <= h)%Z -> (W <= w)%Z ->
      ah (create_distance_matrix (Z.max H h) (Z.max W w)) = h /\ aw (create_distance_matrix (Z.max H h) (Z.max W w)) = w /\
      forall y x, (0 <= y < h -> 0 <= x < w -> is_corner h w y x = false ->
      apx (create_distance_matrix (Z.max H h) (Z.max W w)) y x = fresh_distance h w y x)%Z).
    { intros H W LH LW. cbn [create_distance_matrix ah aw apx]. rewrite (Z.max_r H h LH), (Z.max_r W w LW). split; [reflexivity|]. split; [reflexivity|].
      intros y x Y X NC. rewrite !line_min by assumption. unfold fresh_distance. unfold is_corner in NC. now rewrite NC. }
    unfold cached_matrix. destruct C as [->|[H [W [[F1 [F2 F3]] [LH LW]]]]].
    - cbn [empty_cache ah aw]. destruct (Z.ltb_spec 0 h); [|lia]. cbn [orb]. apply NEW; lia.
    - rewrite F1, F2. destruct ((H <? h)%Z || (W <? w)%Z) eqn:B.
      + now apply NEW.
      + apply orb_false_iff in B. destruct B as [B1 B2]. apply Z.ltb_ge in B1, B2.
        assert (EH : H = h) by lia. assert (EW : W = w) by lia. rewrite EH, EW in F3. split; [lia|]. split; [lia|].
        intros y x Y X _. now apply F3. }
  destruct M as [M1 [M2 M3]]. unfold distances. cbv zeta. rewrite M1, M2.
  assert (V : forall n, view_start n n = 0%Z) by (intros; unfold view_start; rewrite Z.sub_diag; reflexivity).
  rewrite !V. cbn [fst snd].
  assert (K : forall y x, (0 <= y < h -> 0 <= x < w ->
    (if (0 <=? y) && (y <? 0 + h) && (0 <=? x) && (x <? 0 + w) && is_corner h w (y - 0) (x - 0) then 1
     else apx (cached_matrix cache h w) y x) = fresh_distance h w y x)%Z).
  { intros y x Y X. rewrite !Z.sub_0_r.
    destruct (Z.leb_spec 0 y); [|lia]. destruct (Z.ltb_spec y (0 + h)); [|lia].
    destruct (Z.leb_spec 0 x); [|lia]. destruct (Z.ltb_spec x (0 + w)); [|lia]. cbn [andb].
    destruct (is_corner h w y x) eqn:NC; [|now apply M3].
    unfold fresh_distance. unfold is_corner in NC. now rewrite NC. }
  split; (split; [reflexivity|]; split; [reflexivity|]); intros y x Y X; cbn [apx].
  - rewrite !Z.add_0_l. now apply K.
  - now apply K.
Qed.

(** Sizes that never shrink. *)

Lemma growing_noise : forall sizes cache h0 w0, growing h0 w0 sizes -> (1 <= h0)%Z -> (1 <= w0)%Z ->
  (cache = empty_cache \/ is_fresh cache h0 w0) ->
  Forall2 (fun m s => is_fresh m (fst s) (snd s)) (draws_of_noise cache sizes) sizes.
Proof.
  induction sizes as [|[h w] sizes IH]; intros cache h0 w0 GR P1 P2 C; cbn [draws_of_noise]; [constructor|].
  destruct GR as [G1 [G2 G3]].
  assert (D : is_fresh (fst (distances cache h w)) h w /\ is_fresh (snd (distances cache h w)) h w).
  { apply distances_monotone; try lia. destruct C as [C|C]; [now left|right]. exists h0, w0. auto. }
  destruct (distances cache h w) as [m cache'] eqn:E. cbn [fst snd] in D. destruct D as [D1 D2].
  constructor; [assumption|]. apply (IH cache' h w); auto; lia.
Qed.
