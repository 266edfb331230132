(** Properties C66-C69: stochastic parameters. *)
From Coq Require Import Qabs Lia Lqa Bool.
From Verif Require Import Prelude PreludeFacts ParModel ParSpec ParProofs.
Local Open Scope Q_scope.

(** A generator that meets the assumptions, for examples. *)
Definition toy : rng_ops unit := {|
  rng_uniform := fun r a b n => (repeat ((a + b) / 2) n, r);
  rng_integers := fun r a b n => (map (fun i => a + Z.of_nat i mod (b - a))%Z (seq 0 n), r);
  rng_indices := fun r m n => (map (fun i => i mod m)%nat (seq 0 n), r);
  rng_binomial := fun r p n => (map (fun i => if qeqb p 0 then 0 else if qeqb p 1 then 1 else if Nat.even i then 0 else 1)%Z (seq 0 n), r);
  rng_poisson := fun r l n => (map Z.of_nat (seq 0 n), r);
  rng_normal := fun r m s n => (map (fun i => m + s * inject_Z (Z.of_nat i)) (seq 0 n), r);
  rng_beta := fun r a b n => (repeat (1 # 2) n, r);
  rng_advance := fun r => r |}.

Lemma Forall_map_seq : forall {A} (P : A -> Prop) (f : nat -> A) n, (forall i, P (f i)) -> Forall P (map f (seq 0 n)).
Proof. intros A P f n H. apply Forall_forall. intros x X. apply in_map_iff in X. destruct X as [i [<- _]]. auto. Qed.
Lemma Forall_repeat : forall {A} (P : A -> Prop) x n, P x -> Forall P (repeat x n).
Proof. intros A P x n H. apply Forall_forall. intros y Y. apply repeat_spec in Y. now subst. Qed.

Theorem toy_sane : sane toy.
Proof.
  split; cbn; intros; rewrite ?map_length, ?seq_length, ?repeat_length; try (split; [reflexivity|]); try reflexivity.
  - apply Forall_repeat.
    assert (E : (a + b) / 2 == a * (1 # 2) + b * (1 # 2)) by field. split; lra.
  - apply Forall_map_seq. intros i. pose proof (Z.mod_pos_bound (Z.of_nat i) (b - a) ltac:(lia)). lia.
  - apply Forall_map_seq. intros i. apply Nat.mod_upper_bound. lia.
  - apply Forall_map_seq. intros i. destruct (qeqb p 0) eqn:E0.
    + apply qeqb_iff in E0. left. split; [reflexivity|lra].
    + assert (N0 : ~ p == 0) by (intros C; apply qeqb_iff in C; congruence).
      destruct (qeqb p 1) eqn:E1; [right; split; [reflexivity|assumption]|].
      assert (N1 : ~ p == 1) by (intros C; apply qeqb_iff in C; congruence).
      destruct (Nat.even i); [left|right]; (split; [reflexivity|assumption]).
  - apply Forall_map_seq. intros i. lia.
  - apply Forall_repeat. split; lra.
Qed.

Definition lists (l : loc) : list Q := match l with O => [5; -3; 0] | _ => [2; 7] end.

(** ** C66: samples *)

(** Whatever is drawn is an array of the requested shape that the parameter
    describes. *)
Theorem C66_described : forall R (g : rng_ops R) p size h r d h' r', sane g -> valid h p -> no_inplace_on_lists p ->
  draw_samples g p size h r = Ok (d, h', r') ->
  length (d_vals d) = prod size /\ samples_of h p size (d_vals d) (d_kind d).
Proof.
  intros R g p size h r d h' r' G V N E.
  destruct (advanced_described g h p size _ _ (fun o => draw_described g G p size h r o V N) E) as [_ [S _]].
  split; [exact (samples_length _ _ _ _ _ S)|exact S].
Qed.
Print Assumptions C66_described.
Example C66_described_case :
  let p := PArith OAdd (PClip (PNormal (PDet 0 KF32) (PDet 1 KF32)) (Some (0, KF32)) (Some (2, KF32)))
             (PForceSign (PChoice [-1; 1] KInt) true SReroll 2%nat) true in
  valid lists p /\ no_inplace_on_lists p /\
  exists d, draw_samples toy p [2%nat; 2%nat] lists tt = Ok (d, lists, tt) /\ length (d_vals d) = 4%nat.
Proof.
  split; [|split; [cbn; repeat split; discriminate|eexists; split; reflexivity]].
  cbn. repeat split; try discriminate. intros _. repeat constructor; [exists (-1)%Z|exists 1%Z]; reflexivity.
Qed.

(** Drawing succeeds for every size if the inner parameters produce what the
    outer ones expect. *)
Theorem C66_total : forall R (g : rng_ops R) p size h r, sane g -> valid h p -> no_inplace_on_lists p -> drawable h p ->
  exists d r', draw_samples g p size h r = Ok (d, h, r') /\ samples_of h p size (d_vals d) (d_kind d).
Proof.
  intros R g p size h r G V N D.
  destruct (advanced_total g G h p size V N (draw_total g G p h V N D) r) as [d [r' [E [S _]]]]. eauto.
Qed.
Print Assumptions C66_total.
Example C66_total_case : drawable lists (PBinomial (PUniform (PDet (1 # 4) KF32) (PDet 1 KInt))) /\
  drawable lists (PAggregate (PNormal (PDet 0 KInt) (PDet 1 KF32)) (PDet 2 KInt) [AMin]).
Proof.
  split.
  - split; [split; exact I|]. intros x k [_ [_ [a [b [ka [kb [A [B F]]]]]]]].
    destruct (det_single _ _ _ _ _ A) as [A' _]. destruct (det_single _ _ _ _ _ B) as [B' _].
    inversion F as [|? ? X _]; subst. apply (between_compat _ _ _ _ _ A' B') in X. unfold between in X. lra.
  - cbn [drawable]. split; [split; [exact I|split; [exact I|]]|split; [exact I|split; [discriminate|]]].
    + intros s k S. destruct (det_single _ _ _ _ _ S) as [E _]. lra.
    + intros c k S. destruct (det_single _ _ _ _ _ S) as [E ->]. split; [reflexivity|lra].
Qed.

(** Uniform: within the two bounds, in any order; DiscreteUniform: integers. *)
Theorem C66_uniform : forall R (g : rng_ops R) a ka b kb size h r d h' r', sane g ->
  (ka = KInt -> integral a) -> (kb = KInt -> integral b) ->
  draw_samples g (PUniform (PDet a ka) (PDet b kb)) size h r = Ok (d, h', r') ->
  length (d_vals d) = prod size /\ Forall (between a b) (d_vals d).
Proof.
  intros R g a ka b kb size h r d h' r' G VA VB E.
  destruct (C66_described R g (PUniform (PDet a ka) (PDet b kb)) size h _ _ _ _ G (conj VA VB) (conj I I) E) as [L S]. split; [assumption|].
  destruct S as [_ [_ [x [y [kx [ky [S1 [S2 S]]]]]]]].
  destruct (det_single _ _ _ _ _ S1) as [A _]. destruct (det_single _ _ _ _ _ S2) as [B _].
  eapply Forall_impl; [|exact S]. intros v X. exact (between_compat _ _ _ _ _ A B X).
Qed.
Print Assumptions C66_uniform.
Theorem C66_discrete_uniform : forall R (g : rng_ops R) a b size h r d h' r', sane g ->
  draw_samples g (PDiscreteUniform (PDet (inject_Z a) KInt) (PDet (inject_Z b) KInt)) size h r = Ok (d, h', r') ->
  length (d_vals d) = prod size /\
  Forall (fun v => exists z, v == inject_Z z /\ (Z.min a b <= z <= Z.max a b)%Z) (d_vals d).
Proof.
  intros R g a b size h r d h' r' G E.
  assert (V : valid h (PDiscreteUniform (PDet (inject_Z a) KInt) (PDet (inject_Z b) KInt))).
  { split; intros _; eexists; reflexivity. }
  destruct (C66_described R g _ size h _ _ _ _ G V (conj I I) E) as [L S]. split; [assumption|].
  destruct S as [_ [_ [x [y [S1 [S2 S]]]]]].
  destruct (det_single _ _ _ _ _ S1) as [A _]. destruct (det_single _ _ _ _ _ S2) as [B _].
  eapply Forall_impl; [|exact S]. intros v [[z Z] X]. exists z. split; [assumption|].
  apply (between_compat _ _ _ _ _ A B) in X. unfold between in X. rewrite Z, <- !Zle_Qle in X. lia.
Qed.
Print Assumptions C66_discrete_uniform.
Example C66_uniform_case : exists d,
  draw_samples toy (PUniform (PDet 4 KInt) (PDet (-2) KInt)) [3%nat] lists tt = Ok (d, lists, tt) /\ nth 0 (d_vals d) 0 == 1.
Proof. eexists. split; reflexivity. Qed.
Example C66_discrete_uniform_case : exists d,
  draw_samples toy (PDiscreteUniform (PDet 3 KInt) (PDet 1 KInt)) [5%nat] lists tt = Ok (d, lists, tt) /\ d_vals d = [1; 2; 3; 1; 2].
Proof. eexists. split; reflexivity. Qed.

(** A deterministic list is repeated as often as needed. *)
Theorem C66_list : forall R (g : rng_ops R) l k size h r, h l <> [] ->
  exists d r', draw_samples g (PList l k) size h r = Ok (d, h, r') /\ length (d_vals d) = prod size /\
  forall i, (i < prod size)%nat -> nth i (d_vals d) 0 == nth (i mod length (h l)) (h l) 0.
Proof.
  intros R g l k size h r NE. unfold draw_samples, advanced. cbn [draw].
  assert (LP : (0 < length (h l))%nat) by (destruct (h l); simpl; [congruence|lia]).
  destruct (Nat.ltb_spec (length (h l)) (prod size)) as [C|C]; cbn [bind]; eexists; eexists; (split; [reflexivity|]); cbn [d_vals].
  - pose proof (multiplier_enough (prod size) (length (h l)) LP) as M.
    set (m := Z.to_nat _) in *.
    assert (LEN : length (firstn (prod size) (concat (repeat (h l) m))) = prod size)
      by (rewrite firstn_length, length_tiled; lia).
    split; [assumption|]. intros i Hi. rewrite <- (nth_tiled (h l) m i NE ltac:(lia)).
    rewrite <- (firstn_skipn (prod size) (concat (repeat (h l) m))) at 2. rewrite app_nth1 by lia. reflexivity.
  - assert (LEN : length (firstn (prod size) (h l)) = prod size) by (rewrite firstn_length; lia).
    split; [assumption|]. intros i Hi. rewrite Nat.mod_small by lia.
    rewrite <- (firstn_skipn (prod size) (h l)) at 2. rewrite app_nth1 by lia. reflexivity.
Qed.
Print Assumptions C66_list.
Example C66_list_case : exists d,
  draw_samples toy (PList 0%nat KInt) [2%nat; 2%nat] lists tt = Ok (d, lists, tt) /\ d_vals d = [5; -3; 0; 5].
Proof. eexists. split; reflexivity. Qed.

(** Clip: all samples are within the bounds, and samples that already were are
    unchanged (see C66_described). *)
Theorem C66_clip : forall R (g : rng_ops R) p lo klo hi khi size h r d h' r', sane g ->
  valid h (PClip p (Some (lo, klo)) (Some (hi, khi))) -> no_inplace_on_lists (PClip p (Some (lo, klo)) (Some (hi, khi))) -> lo <= hi ->
  draw_samples g (PClip p (Some (lo, klo)) (Some (hi, khi))) size h r = Ok (d, h', r') ->
  Forall (fun v => lo <= v /\ v <= hi) (d_vals d).
Proof.
  intros R g p lo klo hi khi size h r d h' r' G V N LU E.
  destruct (C66_described R g _ _ _ _ _ _ _ G V N E) as [L [_ [_ [xs [_ F]]]]].
  clear - F LU. induction F as [|x v xs vs [H _] F IH]; constructor; [|assumption].
  destruct (H LU) as [[A B]|[[A B]|[A [A' B]]]]; lra.
Qed.
Print Assumptions C66_clip.
Example C66_clip_case : exists d,
  draw_samples toy (PClip (PNormal (PDet (-1) KF32) (PDet 1 KF32)) (Some (0, KF32)) (Some (1, KF32))) [4%nat] lists tt = Ok (d, lists, tt)
  /\ Forall2 Qeq (d_vals d) [0; 0; 1; 1].
Proof. eexists. split; [reflexivity|]. repeat constructor. Qed.

(** Positive() and Negative(): the signs of all samples, for inverting and, if
    the size has one axis, for rerolling. *)
Theorem C66_signs : forall R (g : rng_ops R) p positive mode count size h r d h' r', sane g -> valid h p ->
  no_inplace_on_lists (PForceSign p positive mode count) ->
  mode = SInvert \/ length size = 1%nat ->
  draw_samples g (PForceSign p positive mode count) size h r = Ok (d, h', r') ->
  Forall (fun v => if positive then 0 <= v else v <= 0) (d_vals d).
Proof.
  intros R g p positive mode count size h r d h' r' G V N M E.
  destruct (C66_described R g (PForceSign p positive mode count) _ _ _ _ _ _ G V N E) as [L [_ S]].
  destruct mode.
  - destruct S as [xs [_ F]]. clear - F. induction F as [|x v xs vs [_ H] F IH]; constructor; assumption.
  - destruct S as [F _]. apply F. destruct M as [M|M]; [discriminate|assumption].
Qed.
Print Assumptions C66_signs.
Example C66_signs_case : exists d,
  draw_samples toy (PForceSign (PChoice [3; -4] KInt) true SReroll 2%nat) [4%nat] lists tt = Ok (d, lists, tt) /\ d_vals d = [3; 4; 3; 4].
Proof. eexists. split; reflexivity. Qed.
(** Rerolling in images or other sizes with several axes: wrong signs. *)
Theorem C66_reroll_refuted : exists (R : Type) (g : rng_ops R) p size h r d h' r', sane g /\ valid h p /\
  no_inplace_on_lists p /\ p = PForceSign (PChoice [1; -1] KInt) true SReroll 2%nat /\
  draw_samples g p size h r = Ok (d, h', r') /\ exists v, In v (d_vals d) /\ v < 0.
Proof.
  exists unit, toy, (PForceSign (PChoice [1; -1] KInt) true SReroll 2%nat), [1%nat; 2%nat], lists, tt.
  eexists. exists lists, tt. split; [exact toy_sane|]. split.
  { intros _. repeat constructor; eexists; reflexivity. }
  split; [split; [exact I|reflexivity]|]. split; [reflexivity|]. split; [reflexivity|].
  exists (-1). split; [now left|reflexivity].
Qed.
Print Assumptions C66_reroll_refuted.

(** RandomSign: the absolute values are kept. *)
Theorem C66_random_sign : forall R (g : rng_ops R) p pp size h r d h' r', sane g -> valid h (PRandomSign p pp) -> no_inplace_on_lists p ->
  draw_samples g (PRandomSign p pp) size h r = Ok (d, h', r') ->
  exists xs, samples_of h p size xs (d_kind d) /\
  Forall2 (fun x v => Qabs v == Qabs x /\ (pp == 1 -> 0 <= v) /\ (pp == 0 -> v <= 0)) xs (d_vals d).
Proof.
  intros R g p pp size h r d h' r' G V N E.
  destruct (C66_described R g (PRandomSign p pp) _ _ _ _ _ _ G V N E) as [L [_ [xs [S F]]]].
  exists xs. split; [assumption|]. clear - F. induction F as [|x v xs vs H F IH]; constructor; [|assumption].
  pose proof (Qabs_nonneg x) as NN.
  destruct H as [[H C]|[H C]]; rewrite H.
  - rewrite (Qabs_pos (Qabs x) NN). split; [reflexivity|]. split; intros; [assumption|contradiction].
  - rewrite Qabs_opp, (Qabs_pos (Qabs x) NN). split; [reflexivity|]. split; intros; [contradiction|lra].
Qed.
Print Assumptions C66_random_sign.
Example C66_random_sign_case : exists d,
  draw_samples toy (PRandomSign (PList 0%nat KInt) (1 # 2)) [3%nat] lists tt = Ok (d, lists, tt) /\ Forall2 Qeq (d_vals d) [-5; 3; 0].
Proof. eexists. split; [reflexivity|]. repeat constructor. Qed.

(** Discretize: integers, which are the rounded samples if these fit. *)
Theorem C66_discretize : forall R (g : rng_ops R) p size h r d h' r' lim, sane g -> valid h p -> no_inplace_on_lists p ->
  (forall xs k, samples_of h p size xs k -> Forall (fun x => Qabs x <= lim) xs) -> lim <= 32766 ->
  draw_samples g (PDiscretize p true) size h r = Ok (d, h', r') ->
  exists xs k, samples_of h p size xs k /\
  Forall2 (fun x v => integral v /\ Qabs (v - x) <= 1 # 2) xs (d_vals d).
Proof.
  intros R g p size h r d h' r' lim G V N B LIM E.
  destruct (C66_described R g (PDiscretize p true) _ _ _ _ _ _ G V N E) as [L [_ [K [xs [kx [S F]]]]]].
  exists xs, kx. split; [assumption|].
  specialize (B _ _ S).
  assert (FI : kx = KInt -> Forall integral xs) by (intros ->; exact (samples_integral _ _ _ _ V S)).
  clear - F B LIM FI. induction F as [|x v xs vs H F IH]; constructor.
  - inversion B as [|? ? BX _]; subst. apply Qabs_Qle_condition in BX.
    assert (CASE : kx <> KInt -> integral v /\ Qabs (v - x) <= 1 # 2).
    { intros NK.
      assert (H' : exists z, v == inject_Z z /\ exists z', nearest x z' /\ (fits (discretize_bits kx) z' -> z = z')).
      { destruct kx; [congruence| |]; destruct H as [z [Z1 [_ [z' Z2]]]]; exists z; split; eauto. }
      destruct H' as [z [Z [z' [NR FT]]]]. unfold nearest in NR. apply Qabs_Qle_condition in NR.
      assert (B1 : inject_Z z' <= inject_Z 32767) by (change (inject_Z 32767) with 32767; lra).
      assert (B2 : inject_Z (-32767) <= inject_Z z') by (change (inject_Z (-32767)) with (-32767); lra).
      rewrite <- Zle_Qle in B1, B2.
      assert (FF : fits (discretize_bits kx) z').
      { unfold fits. destruct kx; cbn [discretize_bits]; [congruence| |].
        - change (2 ^ (16 - 1))%Z with 32768%Z. lia.
        - change (2 ^ (32 - 1))%Z with 2147483648%Z. lia. }
      specialize (FT FF). subst z'. split; [now exists z|]. rewrite Z. apply Qabs_Qle_condition. lra. }
    destruct kx; [|apply CASE; discriminate|apply CASE; discriminate].
    specialize (FI eq_refl). inversion FI as [|? ? FX _]; subst. split; [apply (integral_compat x); [now symmetry|assumption]|].
    rewrite H. setoid_replace (x - x) with 0 by ring. discriminate.
  - inversion B; subst. apply IH; [assumption|]. intros K. specialize (FI K). now inversion FI.
Qed.
Print Assumptions C66_discretize.
Example C66_discretize_case : exists d,
  draw_samples toy (PDiscretize (PNormal (PDet 0 KF32) (PDet (2 # 3) KF32)) true) [4%nat] lists tt = Ok (d, lists, tt) /\ d_vals d = [0; 1; 1; 2].
Proof. eexists. split; reflexivity. Qed.
(** Larger float32 samples are not rounded but become unrelated integers. *)
Theorem C66_discretize_large_refuted : exists (R : Type) (g : rng_ops R) size h r d h' r', sane g /\
  draw_samples g (PDiscretize (PUniform (PDet 40000 KInt) (PDet 40002 KInt)) true) size h r = Ok (d, h', r') /\
  exists v, In v (d_vals d) /\ v < 0.
Proof.
  exists unit, toy, [1%nat], lists, tt. eexists. exists lists, tt. split; [exact toy_sane|]. split; [reflexivity|].
  exists (inject_Z (-25535)). split; [now left|reflexivity].
Qed.
Print Assumptions C66_discretize_large_refuted.

(** Arithmetic: without [elementwise] all components are combined with one and
    the same sample; with it, with one sample each. A divisor of 0 counts as 1. *)
Theorem C66_arithmetic : forall R (g : rng_ops R) op p val elementwise size h r d h' r', sane g ->
  valid h (PArith op p val elementwise) -> no_inplace_on_lists (PArith op p val elementwise) ->
  draw_samples g (PArith op p val elementwise) size h r = Ok (d, h', r') ->
  exists xs ys kx ky, samples_of h p size xs kx /\ length xs = prod size /\ length ys = prod size /\
    (elementwise = true -> (forall v k, val <> PDet v k) -> samples_of h val size ys ky) /\
    (elementwise = false \/ (exists v k, val = PDet v k) -> exists y, samples_of h val [1%nat] [y] ky /\ Forall (eq y) ys) /\
    forall i, (i < prod size)%nat ->
      let x := nth i xs 0 in let y := nth i ys 0 in let v := nth i (d_vals d) 0 in
      match op with
      | OMultiply => v == x * y
      | OAdd => v == x + y
      | OSubtract => v == x - y
      | ODivide => v == x / (if Qeq_dec y 0 then 1 else y)
      end.
Proof.
  intros R g op p val elementwise size h r d h' r' G V N E.
  destruct (C66_described R g (PArith op p val elementwise) _ _ _ _ _ _ G V N E)
    as [L [_ [xs [ys [LY [LX [[kx [ky [S [K SV]]]] F]]]]]]].
  exists xs, ys, kx, ky. split; [assumption|]. split; [lia|]. split; [lia|]. split; [|split].
  - intros -> ND. cbn [andb] in SV. destruct val; try exact SV. exfalso. now apply (ND v k).
  - intros [->|[v [k ->]]]; [exact SV|]. cbn [is_det negb] in SV. rewrite andb_false_r in SV. exact SV.
  - intros i Hi. specialize (F i ltac:(lia)). cbv zeta. destruct op; cbn [op_result] in F; try exact F.
    destruct (Qeq_dec (nth i ys 0) 0) as [C|C].
    + destruct F as [[_ F]|[F _]]; [|contradiction]. rewrite F. field.
    + destruct F as [[F _]|[_ F]]; [contradiction|]. rewrite <- F. field. assumption.
Qed.
Print Assumptions C66_arithmetic.
Example C66_arithmetic_case : exists d,
  draw_samples toy (PArith ODivide (PList 0%nat KInt) (PChoice [0; 2] KInt) true) [4%nat] lists tt = Ok (d, lists, tt) /\
  Forall2 Qeq (d_vals d) [5; -(3 # 2); 0; 5 # 2].
Proof. eexists. split; [reflexivity|]. repeat constructor. Qed.

(** IterativeNoiseAggregator stays within the range of the aggregated noise. *)
Theorem C66_aggregate_range : forall R (g : rng_ops R) p it methods size h r d h' r' lo hi, sane g ->
  valid h (PAggregate p it methods) -> no_inplace_on_lists (PAggregate p it methods) ->
  (forall xs k, samples_of h p size xs k -> Forall (fun x => lo <= x /\ x <= hi) xs) ->
  draw_samples g (PAggregate p it methods) size h r = Ok (d, h', r') ->
  Forall (fun v => lo <= v /\ v <= hi) (d_vals d).
Proof.
  intros R g p it methods size h r d h' r' lo hi G V N B E.
  destruct (C66_described R g (PAggregate p it methods) _ _ _ _ _ _ G V N E)
    as [L [_ [m [count [IM [CP [_ [_ [rounds [LR [FR F]]]]]]]]]]].
  apply Forall_nth_Q. intros i Hi. specialize (F i Hi). cbv zeta in F.
  set (column := map (fun xs => nth i xs 0) rounds) in *.
  assert (COL : Forall (fun x => lo <= x /\ x <= hi) column).
  { apply Forall_forall. intros x X. unfold column in X. apply in_map_iff in X. destruct X as [xs [<- X]].
    rewrite Forall_forall in FR. destruct (FR xs X) as [kx [SX _]]. specialize (B _ _ SX).
    rewrite Forall_nth_Q in B. apply B. pose proof (samples_length _ _ _ _ _ SX). lia. }
  destruct m.
  - destruct F as [[x [X EX]] _]. rewrite Forall_forall in COL. specialize (COL x X). lra.
  - destruct F as [[x [X EX]] _]. rewrite Forall_forall in COL. specialize (COL x X). lra.
  - assert (SUM : inject_Z (Z.of_nat (length column)) * lo <= fold_right Qplus 0 column /\
      fold_right Qplus 0 column <= inject_Z (Z.of_nat (length column)) * hi).
    { clear - COL. induction column as [|x l IH]; cbn [fold_right length].
      - change (inject_Z (Z.of_nat 0)) with 0. split; lra.
      - inversion COL; subst. specialize (IH H2). rewrite Nat2Z.inj_succ. unfold Z.succ. rewrite inject_Z_plus.
        change (inject_Z 1) with 1. split; lra. }
    assert (LC : length column = count) by (unfold column; rewrite map_length; assumption).
    rewrite LC in SUM.
    assert (P : 0 < inject_Z (Z.of_nat count)) by (change 0 with (inject_Z 0); rewrite <- Zlt_Qlt; lia).
    split.
    + apply (Qmult_le_r _ _ (inject_Z (Z.of_nat count)) P). rewrite F. lra.
    + apply (Qmult_le_r _ _ (inject_Z (Z.of_nat count)) P). rewrite F. lra.
Qed.
Print Assumptions C66_aggregate_range.
Example C66_aggregate_case : exists d,
  draw_samples toy (PAggregate (PList 0%nat KInt) (PDet 3 KInt) [AAvg; AMax]) [2%nat] lists tt = Ok (d, lists, tt) /\
  Forall2 Qeq (d_vals d) [5; -3].
Proof. eexists. split; [reflexivity|]. repeat constructor. Qed.

(** ** C67: arguments *)

Theorem C67_continuous_accepts : forall a rg tuple_to_uniform list_to_choice,
  (exists p, handle_continuous_param a rg tuple_to_uniform list_to_choice = Ok p) <->
  accepted number rg tuple_to_uniform list_to_choice a.
Proof. exact continuous_accepts. Qed.
Print Assumptions C67_continuous_accepts.
Theorem C67_discrete_accepts : forall a rg tuple_to_uniform list_to_choice allow_floats,
  (exists p, handle_discrete_param a rg tuple_to_uniform list_to_choice allow_floats = Ok p) <->
  accepted (integer_or_number allow_floats) rg tuple_to_uniform list_to_choice a.
Proof. exact discrete_accepts. Qed.
Print Assumptions C67_discrete_accepts.
Theorem C67_probability_accepts : forall a tuple_to_uniform list_to_choice,
  (exists p, handle_probability_param a tuple_to_uniform list_to_choice = Ok p) <->
  accepted_probability tuple_to_uniform list_to_choice a.
Proof. exact probability_accepts. Qed.
Print Assumptions C67_probability_accepts.

(** What was accepted produces the numbers the argument stands for, without
    failing and within the value range. Empty lists are accepted, too, but
    nothing can be drawn from them. *)
Theorem C67_continuous_draws : forall R (g : rng_ops R) a rg tu lc p, sane g -> handle_continuous_param a rg tu lc = Ok p ->
  not_a_parameter a -> a <> AList [] -> forall size h r,
  exists d r', draw_samples g p size h r = Ok (d, h, r') /\ length (d_vals d) = prod size /\
    Forall (fun v => allows a v /\ (bounded_range rg -> in_range rg v)) (d_vals d).
Proof.
  intros R g a rg tu lc p G E NP NE size h r.
  destruct (continuous_draws g G a rg tu lc p E NP NE size h r) as [d [r' [D1 [D2 D3]]]].
  exists d, r'. split; [assumption|]. split; [assumption|]. eapply Forall_impl; [|exact D3].
  intros v A. split; [assumption|]. intros B. apply (allows_in_range rg tu lc number a v B NP); [|assumption].
  apply continuous_accepts. eauto.
Qed.
Print Assumptions C67_continuous_draws.
Theorem C67_discrete_draws : forall R (g : rng_ops R) a rg tu lc f p, sane g -> handle_discrete_param a rg tu lc f = Ok p ->
  not_a_parameter a -> a <> AList [] -> forall size h r,
  exists d r', draw_samples g p size h r = Ok (d, h, r') /\ length (d_vals d) = prod size /\
    Forall (fun v => allows_int a v /\ (integral_range rg -> in_range rg v)) (d_vals d).
Proof.
  intros R g a rg tu lc f p G E NP NE size h r.
  destruct (discrete_draws g G a rg tu lc f p E NP NE size h r) as [d [r' [D1 [D2 D3]]]].
  exists d, r'. split; [assumption|]. split; [assumption|]. eapply Forall_impl; [|exact D3].
  intros v A. split; [assumption|]. intros B. apply (allows_int_in_range rg tu lc (integer_or_number f) a v B NP); [|assumption].
  apply discrete_accepts. eauto.
Qed.
Print Assumptions C67_discrete_draws.
Theorem C67_probability_draws : forall R (g : rng_ops R) a tu lc p, sane g -> handle_probability_param a tu lc = Ok p ->
  not_a_parameter a -> a <> AList [] -> a <> ATuple [] -> forall size h r,
  exists d r', draw_samples g p size h r = Ok (d, h, r') /\ length (d_vals d) = prod size /\
    Forall (fun v => v == 0 \/ v == 1) (d_vals d) /\
    (forall v, a = AOne v -> prob_value v == 0 -> Forall (fun s => s == 0) (d_vals d)) /\
    (forall v, a = AOne v -> prob_value v == 1 -> Forall (fun s => s == 1) (d_vals d)).
Proof. intros R g a tu lc p G. exact (probability_draws g G a tu lc p). Qed.
Print Assumptions C67_probability_draws.
Theorem C67_probability_kept : forall v tu lc, number v -> (1 # 1000000) <= num v -> num v <= 1 - (1 # 1000000) ->
  handle_probability_param (AOne v) tu lc = Ok (PBinomial (det v)).
Proof. exact probability_kept. Qed.
Print Assumptions C67_probability_kept.
(** Smaller probabilities are treated as never. *)
Theorem C67_small_probability_refuted : exists v, number v /\ 0 < num v /\
  forall R (g : rng_ops R) size h r, exists d r',
    (do p <- handle_probability_param (AOne v) false false; draw_samples g p size h r) = Ok (d, h, r') /\
    Forall (fun s => s == 0) (d_vals d).
Proof.
  exists (VFloat (1 # 10000000)). split; [right; eauto|]. split; [reflexivity|]. intros R g size h r.
  eexists. eexists. split; [reflexivity|]. cbn. apply Forall_repeat. reflexivity.
Qed.
Print Assumptions C67_small_probability_refuted.

(** Kernel sizes: every accepted argument leads to integers in the range. *)
Theorem C67_kernel_draws : forall R (g : rng_ops R) a rg f p q, sane g -> handle_kernel_size_param a rg f = Ok (p, q) ->
  plain_kernel a -> integral_range rg -> forall param, param = p \/ Some param = q -> forall size h r,
  exists d r', draw_samples g param size h r = Ok (d, h, r') /\ length (d_vals d) = prod size /\
    Forall (fun v => integral v /\ in_range rg v) (d_vals d).
Proof.
  intros R g a rg f p q G E P IR param C size h r.
  destruct (kernel_from_discrete a rg f p q E P) as [[b [PB EB]] K2].
  destruct C as [->|C].
  - exact (plain_draws g G b rg f p EB PB IR size h r).
  - destruct (K2 param (eq_sym C)) as [c [PC EC]]. exact (plain_draws g G c rg f param EC PC IR size h r).
Qed.
Print Assumptions C67_kernel_draws.
(** Two integers, or two floats, are a range for both axes. *)
Theorem C67_kernel_ranges : forall x y rg, in_range rg (num x) -> in_range rg (num y) ->
  ((exists a, x = VInt a) /\ (exists b, y = VInt b)) \/ ((exists a, x = VFloat a) /\ (exists b, y = VFloat b)) ->
  handle_kernel_size_param (KTuple [AOne x; AOne y]) rg true = Ok (PDiscreteUniform (det_int x) (det_int y), None).
Proof.
  intros x y rg X Y H. apply check_iff in X, Y. cbn [handle_kernel_size_param].
  destruct H as [[[a ->] [b ->]]|[[a ->] [b ->]]]; cbn [forallb arg_is is_single_integer is_single_float andb orb arg_val];
    rewrite X, Y; reflexivity.
Qed.
Print Assumptions C67_kernel_ranges.
(** An integer and a float are the sizes of the two axes instead. *)
Theorem C67_kernel_mixed_refuted : exists x y, number x /\ number y /\
  handle_kernel_size_param (KTuple [AOne x; AOne y]) (RTuple (Some 1) None) true
    = Ok (PDet 3 KInt, Some (PDet 5 KInt)) /\
  num x == 3 /\ num y == 5.
Proof.
  exists (VInt 3), (VFloat 5). split; [left; eauto|]. split; [right; eauto|]. repeat split.
Qed.
Print Assumptions C67_kernel_mixed_refuted.
Example C67_continuous_case :
  accepted number (RTuple (Some 0) (Some 10)) true true (ATuple [VFloat (7 # 2); VInt 1]) /\
  ~ accepted number (RTuple (Some 0) (Some 10)) true true (ATuple [VFloat (-(1 # 2)); VInt 1]) /\
  handle_continuous_param (AList [VInt 1; VBool true]) RNone true true = Err AssertionError.
Proof.
  split; [|split; [|reflexivity]].
  - split; [reflexivity|]. exists (VFloat (7 # 2)), (VInt 1). split; [reflexivity|]. split; [right; eauto|]. split; [left; eauto|].
    split; split; intros ? H; injection H as <-; discriminate.
  - intros [_ [x [y [E [_ [_ [[A _] _]]]]]]]. injection E as <- <-. specialize (A 0 eq_refl). apply A. reflexivity.
Qed.
Example C67_discrete_case : exists d,
  (do p <- handle_discrete_param (ATuple [VFloat (7 # 2); VInt 1]) (RTuple (Some 1) None) true true true;
   draw_samples toy p [4%nat] lists tt) = Ok (d, lists, tt) /\ d_vals d = [1; 2; 3; 1].
Proof. eexists. split; reflexivity. Qed.
Example C67_probability_case : exists d,
  (do p <- handle_probability_param (AOne (VFloat (1 # 4))) false false; draw_samples toy p [3%nat] lists tt) = Ok (d, lists, tt)
  /\ d_vals d = [0; 1; 0].
Proof. eexists. split; reflexivity. Qed.
Example C67_empty_list_accepted :
  handle_continuous_param (AList []) RNone true true = Ok (PChoice [] KInt) /\
  draw_samples toy (PChoice [] KInt) [1%nat] lists tt = Err ValueError.
Proof. split; reflexivity. Qed.

(** ** C68: drawing does not change parameters *)

Theorem C68_unchanged : forall R (g : rng_ops R) p size h r d h' r', sane g -> valid h p -> no_inplace_on_lists p ->
  draw_samples g p size h r = Ok (d, h', r') -> forall l, h' l = h l.
Proof.
  intros R g p size h r d h' r' G V N E l.
  destruct (advanced_described g h p size _ _ (fun o => draw_described g G p size h r o V N) E) as [-> _]. reflexivity.
Qed.
Print Assumptions C68_unchanged.
(** Clipping, forcing signs and dividing change the values of deterministic
    lists, so that other parameters using the list produce other values. *)
Theorem C68_unchanged_refuted : forall p,
  p = PClip (PList 0%nat KInt) (Some (0, KInt)) None \/ p = PForceSign (PList 0%nat KInt) true SInvert 0%nat \/
  p = PArith ODivide (PDet 1 KInt) (PList 0%nat KInt) true ->
  exists d h' d1 d2, draw_samples toy p [3%nat] lists tt = Ok (d, h', tt) /\
    draw_samples toy (PList 0%nat KInt) [3%nat] lists tt = Ok (d1, lists, tt) /\
    draw_samples toy (PList 0%nat KInt) [3%nat] h' tt = Ok (d2, h', tt) /\ ~ Forall2 Qeq (d_vals d1) (d_vals d2).
Proof.
  intros p [-> | [-> | ->]]; eexists; eexists; eexists; eexists;
    (split; [reflexivity|]); (split; [reflexivity|]); (split; [reflexivity|]); cbn; intros F;
    inversion F as [|? ? ? ? _ F1]; subst; inversion F1 as [|? ? ? ? E2 F2]; subst; inversion F2 as [|? ? ? ? E3 _]; subst;
    solve [discriminate E2 | discriminate E3].
Qed.
Print Assumptions C68_unchanged_refuted.
Example C68_unchanged_case : no_inplace_on_lists (PClip (PArith OAdd (PList 0%nat KInt) (PList 1%nat KInt) true) (Some (0, KInt)) None).
Proof. cbn. repeat split. discriminate. Qed.

(** ** C69: frequency noise does not depend on earlier draws *)

Theorem C69_growing : forall sizes, Forall (fun s => (1 <= fst s)%Z /\ (1 <= snd s)%Z) sizes -> growing 1 1 sizes ->
  Forall2 (fun m s => ah m = fst s /\ aw m = snd s /\
    forall y x, (0 <= y < fst s -> 0 <= x < snd s -> apx m y x = fresh_distance (fst s) (snd s) y x)%Z)
    (draws_of_noise empty_cache sizes) sizes.
Proof.
  intros sizes _ GR. exact (growing_noise sizes empty_cache 1 1 GR ltac:(lia) ltac:(lia) (or_introl eq_refl)).
Qed.
Print Assumptions C69_growing.
(** The same size is drawn twice, with a smaller one in between. *)
Theorem C69_history_refuted : exists sizes m1 m2 m3 y x, sizes = [(8, 8); (4, 4); (8, 8)]%Z /\
  draws_of_noise empty_cache sizes = [m1; m2; m3] /\ (0 <= y < 8)%Z /\ (0 <= x < 8)%Z /\ apx m1 y x <> apx m3 y x.
Proof.
  exists [(8, 8); (4, 4); (8, 8)]%Z. eexists. eexists. eexists. exists 2%Z, 2%Z.
  split; [reflexivity|]. split; [reflexivity|]. split; [lia|]. split; [lia|]. vm_compute. discriminate.
Qed.
Print Assumptions C69_history_refuted.
(** A smaller size after a larger one leads to other distances than it would
    with a new parameter. *)
Theorem C69_smaller_refuted : exists m1 m2 m y x, draws_of_noise empty_cache [(8, 8); (4, 4)]%Z = [m1; m2] /\
  draws_of_noise empty_cache [(4, 4)]%Z = [m] /\ (0 <= y < 4)%Z /\ (0 <= x < 4)%Z /\ apx m y x <> apx m2 y x.
Proof.
  eexists. eexists. eexists. exists 0%Z, 1%Z.
  split; [reflexivity|]. split; [reflexivity|]. split; [lia|]. split; [lia|]. vm_compute. discriminate.
Qed.
Print Assumptions C69_smaller_refuted.
Example C69_case : growing 1 1 [(4, 4); (4, 7); (9, 7)]%Z /\ fresh_distance 4 7 1 3 = 10%Z.
Proof. split; [|reflexivity]. cbn. lia. Qed.
