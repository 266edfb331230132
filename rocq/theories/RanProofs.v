(** Proofs about the parameters of RandAugment. *)
From Coq Require Import Qabs Qround Lia Lqa Bool.
From Verif Require Import Prelude PreludeFacts ParModel ParSpec ParProofs ParProps RanModel RanSpec.
Local Open Scope Q_scope.

Lemma every_intro : forall h p P, valid h p -> no_inplace_on_lists p -> drawable h p -> (forall size vs k, samples_of h p size vs k -> Forall P vs) -> every_sample h p P.
Proof.
  intros h p P V N D H R g size r G. destruct (C66_total R g p size h r G V N D) as (d & r' & E & S). exists d, r'.
  split; [exact E|]. split; [exact (samples_length _ _ _ _ _ S)|]. exact (H _ _ _ S).
Qed.
Lemma F2_right : forall (P : Q -> Q -> Prop) (A B : Q -> Prop) xs vs, Forall2 P xs vs -> Forall A xs -> (forall x v, A x -> P x v -> B v) -> Forall B vs.
Proof. intros P A B xs vs F. induction F as [|x v xs vs H F IH]; intros FA HB; constructor; inversion FA; subst; [eapply HB; eassumption|apply IH; assumption]. Qed.
Lemma qmin_case : forall a b, (a <= b /\ qmin a b = a) \/ (b < a /\ qmin a b = b).
Proof.
  intros a b. unfold qmin. destruct (qltb b a) eqn:E; [right|left]; (split; [|reflexivity]).
  - apply qltb_iff. exact E.
  - apply Qnot_lt_le. rewrite <- qltb_iff. congruence.
Qed.

Section Level.
Variables (h : heap) (m : sparam) (lo hi : Q).
Hypothesis L : level h m lo hi.
Hypothesis NN : 0 <= lo.

Definition times (q : Q) (v : Q) : Prop := exists x, lo <= x /\ x <= hi /\ v == x * q.
Lemma float_samples : forall mx size vs k, samples_of h (float_parameter m mx) size vs k -> k = KF64 /\ Forall (times (mx / 30)) vs.
Proof.
  intros mx size vs k S. destruct L as (_ & _ & _ & LS). unfold float_parameter in S.
  cbn [samples_of is_det andb negb] in S. destruct S as (LV & xs & ys & LY & LX & (kx & ky & SX & -> & y & SY & FY) & O).
  destruct (LS _ _ _ SX) as (-> & FX). destruct SY as (_ & -> & FY'). inversion FY' as [|a b E _]; subst.
  split; [reflexivity|]. apply Forall_nth_Q. intros i I. specialize (O i I). cbn [op_result] in O.
  rewrite Forall_nth_Q in FX. specialize (FX i ltac:(lia)). exists (nth i xs 0). repeat split; try tauto.
  rewrite O. rewrite Forall_nth_Q in FY. rewrite <- (FY i ltac:(lia)), E. reflexivity.
Qed.
Lemma float_fine : forall mx, valid h (float_parameter m mx) /\ no_inplace_on_lists (float_parameter m mx) /\ drawable h (float_parameter m mx).
Proof.
  intros mx. destruct L as (V & N & D & _). unfold float_parameter. cbn. repeat split; auto; intros X; discriminate.
Qed.
Lemma sign_samples : forall mx size vs k, samples_of h (rnd_sign (float_parameter m mx)) size vs k -> k = KF64 /\ Forall (fun v => exists w, times (mx / 30) w /\ (v == Qabs w \/ v == - Qabs w)) vs.
Proof.
  intros mx size vs k S. unfold rnd_sign in S. change (length vs = prod size /\ exists xs, samples_of h (float_parameter m mx) size xs k /\
    Forall2 (fun x v => (v == Qabs x /\ ~ (1 # 2) == 0) \/ (v == - Qabs x /\ ~ (1 # 2) == 1)) xs vs) in S.
  destruct S as (_ & xs & S & F). destruct (float_samples mx size xs k S) as (-> & FX). split; [reflexivity|].
  apply (F2_right _ _ _ _ _ F FX). intros x v T [[H _]|[H _]]; exists x; auto.
Qed.
Lemma sign_fine : forall mx, valid h (rnd_sign (float_parameter m mx)) /\ no_inplace_on_lists (rnd_sign (float_parameter m mx)) /\ drawable h (rnd_sign (float_parameter m mx)).
Proof.
  intros mx. destruct (float_fine mx) as (V & N & D). unfold rnd_sign. split; [|split; assumption].
  change (0 <= 1 # 2 /\ (1 # 2) <= 1 /\ valid h (float_parameter m mx)). split; [discriminate|]. split; [discriminate|exact V].
Qed.
Lemma abs_times : forall q w, 0 <= q -> times q w -> Qabs w == w /\ 0 <= w.
Proof. intros q w Q0 (x & A & B & E). assert (P : 0 <= w) by (rewrite E; apply Qmult_le_0_compat; lra). split; [apply Qabs_pos; exact P|exact P]. Qed.
Lemma signed_every : forall mx, 0 <= mx -> every_sample h (rnd_sign (float_parameter m mx)) (from_level lo hi (fun x v => Qabs v == x * (mx / 30))).
Proof.
  intros mx M. destruct (sign_fine mx) as (V & N & D). apply every_intro; auto. intros size vs k S. destruct (sign_samples mx size vs k S) as (_ & F).
  eapply Forall_impl; [|exact F]. intros v (w & T & H). assert (Q0 : 0 <= mx / 30) by (apply Qle_shift_div_l; lra).
  destruct (abs_times _ w Q0 T) as [A B]. destruct T as (x & X1 & X2 & E). exists x. repeat split; auto.
  rewrite <- E. destruct H as [H|H]; rewrite H, ?Qabs_opp, A; exact A.
Qed.
Lemma enhance_every : every_sample h (enhance_parameter m) (from_level lo hi (fun x v => Qabs (v - 1) == qmin (x * (3 # 100)) (9 # 10))).
Proof.
  destruct (sign_fine (9 # 10)) as (V & N & D). unfold enhance_parameter.
  apply every_intro.
  - split; [|split; exact Logic.I]. split; [intros X; discriminate X|exact V].
  - split; [|reflexivity]. split; [exact Logic.I|]. split; [exact N|discriminate].
  - cbn [drawable]. split; [split; [exact Logic.I|exact D]|]. intros size vs k b S K. subst k. exfalso.
    destruct S as (_ & xs & ys & _ & _ & (kx & ky & SX & E & _) & _). cbn [is_det andb negb rnd_sign] in E. destruct SX as (_ & -> & _).
    destruct ky; discriminate.
  - intros size vs k S. destruct S as (_ & _ & xs & S & F).
    assert (FX : Forall (fun x => exists w, times ((9 # 10) / 30) w /\ (x == 1 + w \/ x == 1 - w)) xs).
    { destruct S as (LV & us & ys & LY & LX & (kx & ky & SX & _ & SY) & O). cbn [is_det andb negb rnd_sign] in SY.
      destruct SX as (_ & -> & FU). destruct (sign_samples (9 # 10) size ys ky SY) as (_ & FY). apply Forall_nth_Q. intros i I. specialize (O i I). cbn [op_result] in O.
      rewrite Forall_nth_Q in FU, FY. specialize (FU i ltac:(lia)). destruct (FY i ltac:(lia)) as (w & T & H). exists w. split; [exact T|].
      destruct (abs_times ((9 # 10) / 30) w ltac:(discriminate) T) as [A _]. destruct H as [H|H]; [left|right]; lra. }
    apply (F2_right _ _ _ _ _ F FX). intros x v (w & T & H) C. destruct C as [C _]. specialize (C ltac:(discriminate)).
    destruct (abs_times ((9 # 10) / 30) w ltac:(discriminate) T) as [_ W0]. destruct T as (z & Z1 & Z2 & E). exists z. split; [exact Z1|]. split; [exact Z2|].
    assert (E' : w == z * (3 # 100)) by (rewrite E; field). clear E.
    assert (G : v - 1 == qmin (z * (3 # 100)) (9 # 10) \/ v - 1 == - qmin (z * (3 # 100)) (9 # 10)).
    { destruct (qmin_case (z * (3 # 100)) (9 # 10)) as [[B ->]|[B ->]];
        destruct H as [H|H]; [left|right|left|right]; destruct C as [[C1 C2]|[[C1 C2]|[C1 [C2 C3]]]]; lra. }
    assert (P : 0 <= qmin (z * (3 # 100)) (9 # 10)) by (destruct (qmin_case (z * (3 # 100)) (9 # 10)) as [[B ->]|[B ->]]; lra).
    destruct G as [G|G]; rewrite G, ?Qabs_opp; apply Qabs_pos; exact P.
Qed.
Lemma cutout_every : every_sample h (cutout_size m) (from_level lo hi (fun x v => v == qmin (x / 48) (5 # 8))).
Proof.
  destruct (float_fine (20 / 32)) as (V & N & D). unfold cutout_size. apply every_intro.
  - cbn [valid]. split; [exact V|]. split; [exists 0%Z; reflexivity|exact Logic.I].
  - cbn [no_inplace_on_lists]. split; [exact N|reflexivity].
  - cbn [drawable]. split; [exact D|]. intros size vs k b S K. destruct (float_samples _ _ _ _ S) as (X & _). congruence.
  - intros size vs k (_ & _ & xs & S & F). destruct (float_samples _ _ _ _ S) as (_ & FX).
    apply (F2_right _ _ _ _ _ F FX). intros x v T [C _]. specialize (C ltac:(discriminate)).
    destruct T as (z & Z1 & Z2 & E). exists z. split; [exact Z1|]. split; [exact Z2|].
    assert (E' : x == z / 48) by (rewrite E; field). assert (E2 : 20 / 32 == 5 # 8) by reflexivity.
    assert (X0 : 0 <= z / 48) by (apply Qle_shift_div_l; lra). set (zz := z / 48) in *. clearbody zz. rewrite E2 in C.
    destruct (qmin_case zz (5 # 8)) as [[B ->]|[B ->]]; destruct C as [[C1 C2]|[[C1 C2]|[C1 [C2 C3]]]]; lra.
Qed.
Lemma crop_every : every_sample h (crop_percent m) (fun v => 0 <= v /\ v <= hi / 224).
Proof.
  destruct L as (V & N & D & LS). unfold crop_percent. apply every_intro.
  - split; [split; [intros _; exists 0%Z; reflexivity|exact V]|intros _; exists 224%Z; reflexivity].
  - split; [split; [exact Logic.I|exact N]|]. split; [exact Logic.I|intros _; reflexivity].
  - split; [split; [exact Logic.I|exact D]|exact Logic.I].
  - intros size vs k S. cbn [samples_of is_det andb negb] in S.
    destruct S as (LV & xs & ys & LY & LX & (kx & ky & (_ & _ & a & b & ka & kb & (_ & _ & SA) & SB & FX) & _ & y & (_ & _ & SY) & FY) & O).
    inversion SA as [|? ? EA _]; subst. inversion SY as [|? ? EY _]; subst. destruct (LS _ _ _ SB) as (_ & FB). inversion FB as [|? ? (B1 & B2) _]; subst.
    apply Forall_nth_Q. intros i I. specialize (O i I). cbn [op_result] in O. rewrite Forall_nth_Q in FX, FY.
    specialize (FX i ltac:(lia)). rewrite <- (FY i ltac:(lia)) in O. destruct O as [[O _]|[_ O]]; [lra|]. rewrite <- EY in O.
    assert (X : 0 <= nth i xs 0 /\ nth i xs 0 <= hi) by (destruct FX as [[? ?]|[? ?]]; lra).
    split; [lra|]. apply Qle_shift_div_l; lra.
Qed.

Definition floors (q : Q) (v : Q) : Prop := exists x, lo <= x /\ x <= hi /\ v == inject_Z (Qfloor (x * q)).
Lemma int_samples : forall mx size vs k, 0 <= mx -> samples_of h (int_parameter m mx) size vs k ->
  k = KInt /\ Forall integral vs /\ (hi * (mx / 30) < inject_Z (2 ^ 31) -> Forall (floors (mx / 30)) vs).
Proof.
  intros mx size vs k M S. unfold int_parameter in S. destruct S as (_ & -> & xs & kx & S & F). destruct (float_samples _ _ _ _ S) as (-> & FX).
  split; [reflexivity|]. split.
  - apply (F2_right _ _ (fun v => integral v) _ _ F FX). intros x v _ (z & E & _). exists z. exact E.
  - intros B. apply (F2_right _ _ (floors (mx / 30)) _ _ F FX). intros x v T (z & E & _ & z' & TR & FZ).
    assert (Q0 : 0 <= mx / 30) by (apply Qle_shift_div_l; lra). destruct (abs_times _ _ Q0 T) as [_ X0].
    destruct T as (y & Y1 & Y2 & EY). exists y. split; [exact Y1|]. split; [exact Y2|]. rewrite E. apply (proj2 (inject_Z_injective _ _)).
    destruct TR as [(_ & T1 & T2)|(T1 & _)]; [|lra].
    pose proof (Qfloor_le (y * (mx / 30))) as F1. pose proof (Qlt_floor (y * (mx / 30))) as F2.
    assert (A : (z' < Qfloor (y * (mx / 30)) + 1)%Z) by (rewrite Zlt_Qlt; lra).
    assert (A' : (Qfloor (y * (mx / 30)) < z' + 1)%Z) by (rewrite Zlt_Qlt, inject_Z_plus; change (inject_Z 1) with 1; lra).
    assert (A0 : (-1 < z')%Z) by (assert (Y : inject_Z 0 < inject_Z (z' + 1)) by (rewrite inject_Z_plus; change (inject_Z 1) with 1; change (inject_Z 0) with 0; lra); rewrite <- Zlt_Qlt in Y; lia).
    assert (A1 : (z' < 2 ^ 31)%Z) by (rewrite Zlt_Qlt; assert (y * (mx / 30) <= hi * (mx / 30)) by (apply Qmult_le_compat_r; [exact Y2|exact Q0]); lra).
    rewrite FZ; [lia|]. unfold fits. cbn [discretize_bits]. change (32 - 1)%Z with 31%Z. lia.
Qed.
Lemma int_fine : forall mx, valid h (int_parameter m mx) /\ no_inplace_on_lists (int_parameter m mx) /\ drawable h (int_parameter m mx).
Proof. intros mx. destruct (float_fine mx) as (V & N & D). unfold int_parameter. split; [exact V|]. split; [exact N|exact D]. Qed.
Lemma bits_every : every_sample h (nb_bits m) (fun v => integral v /\ 2 <= v /\ v <= 8 /\ (hi / 5 < inject_Z (2 ^ 31) -> from_level lo hi (fun x v => v == inject_Z (8 - Z.min (Qfloor (x / 5)) 6)) v)).
Proof.
  destruct (int_fine 6) as (V & N & D). unfold nb_bits. apply every_intro.
  - cbn [valid valid_bound]. split; [intros _; exists 8%Z; reflexivity|]. split; [exact V|]. split; [exists 0%Z|exists 6%Z]; reflexivity.
  - split; [exact Logic.I|]. split; [split; [exact N|reflexivity]|discriminate].
  - cbn [drawable]. split; [exact Logic.I|]. split; [exact D|]. intros size vs k b _ _ [E|E]; injection E as <-; reflexivity.
  - intros size vs k S. destruct S as (LV & us & ys & LY & LX & (kx & ky & (_ & _ & FU) & _ & SY) & O). cbn [is_det andb negb] in SY.
    destruct SY as (_ & _ & ws & SW & F). destruct (int_samples 6 size ws ky ltac:(lra) SW) as (_ & FI & FF).
    assert (FY : Forall (fun v => exists z, (v == inject_Z z /\ 0 <= z <= 6)%Z /\ (hi / 5 < inject_Z (2 ^ 31) -> exists x, lo <= x /\ x <= hi /\ z = Z.min (Qfloor (x / 5)) 6)) ys).
    { assert (FW : Forall (fun w => integral w /\ (hi / 5 < inject_Z (2 ^ 31) -> floors (6 / 30) w)) ws).
      { rewrite Forall_forall in *. intros w HW. split; [apply FI; exact HW|]. intros B. assert (E : hi * (6 / 30) == hi / 5) by field. rewrite E in FF. exact (FF B w HW). }
      apply (F2_right _ _ _ _ _ F FW). intros w v ((z & EZ) & FL) [C _]. specialize (C ltac:(discriminate)).
      exists (Z.max 0 (Z.min z 6)). split.
      - split; [|lia]. rewrite EZ in C. destruct C as [[C1 C2]|[[C1 C2]|[C1 [C2 C3]]]]; rewrite C2 || rewrite C3.
        + change 0 with (inject_Z 0) in C1. rewrite <- Zle_Qle in C1. replace (Z.max 0 (Z.min z 6)) with 0%Z by lia. reflexivity.
        + change 6 with (inject_Z 6) in C1. rewrite <- Zle_Qle in C1. replace (Z.max 0 (Z.min z 6)) with 6%Z by lia. reflexivity.
        + change 0 with (inject_Z 0) in C1. change 6 with (inject_Z 6) in C2. rewrite <- Zle_Qle in C1, C2. replace (Z.max 0 (Z.min z 6)) with z by lia. reflexivity.
      - intros B. destruct (FL B) as (x & X1 & X2 & EX). exists x. split; [exact X1|]. split; [exact X2|]. rewrite EZ in EX. apply (proj1 (inject_Z_injective _ _)) in EX.
        assert (E5 : x * (6 / 30) == x / 5) by field. rewrite E5 in EX. subst z.
        assert (0 <= Qfloor (x / 5))%Z; [|lia]. change 0%Z with (Qfloor 0). apply Qfloor_resp_le. apply Qle_shift_div_l; lra. }
    apply Forall_nth_Q. intros i I. specialize (O i I). cbn [op_result] in O. rewrite Forall_nth_Q in FU, FY. specialize (FU i ltac:(lia)).
    destruct (FY i ltac:(lia)) as (z & (EZ & Z0) & FZ). assert (EV : nth i vs 0 == inject_Z (8 - z)) by (unfold Z.sub; rewrite inject_Z_plus, inject_Z_opp; change (inject_Z 8) with 8; lra).
    split; [exists (8 - z)%Z; exact EV|]. split; [rewrite EV; change 2 with (inject_Z 2); rewrite <- Zle_Qle; lia|]. split; [rewrite EV; change 8 with (inject_Z 8); rewrite <- Zle_Qle; lia|].
    intros B. destruct (FZ B) as (x & X1 & X2 & ->). exists x. repeat split; assumption.
Qed.
Lemma threshold_every : every_sample h (threshold m) (fun v => integral v /\ 0 <= v /\ v <= 256 /\ (hi * (128 # 15) < inject_Z (2 ^ 31) -> from_level lo hi (fun x v => v == inject_Z (Z.max 0 (256 - Qfloor (x * (128 # 15))))) v)).
Proof.
  destruct (int_fine 256) as (V & N & D). unfold threshold. apply every_intro.
  - cbn [valid valid_bound]. split; [split; [intros _; exists 256%Z; reflexivity|exact V]|]. split; [exists 0%Z|exists 256%Z]; reflexivity.
  - split; [|reflexivity]. split; [exact Logic.I|]. split; [exact N|discriminate].
  - cbn [drawable]. split; [split; [exact Logic.I|exact D]|]. intros size vs k b _ _ [E|E]; injection E as <-; reflexivity.
  - intros size vs k (_ & _ & xs & S & F).
    assert (FX : Forall (fun w => exists z, w == inject_Z (256 - z) /\ (hi * (128 # 15) < inject_Z (2 ^ 31) -> exists x, lo <= x /\ x <= hi /\ z = Qfloor (x * (128 # 15)))) xs).
    { destruct S as (LV & us & ys & LY & LX & (kx & ky & (_ & _ & FU) & _ & SY) & O). cbn [is_det andb negb] in SY. change (is_det (int_parameter m 256)) with false in SY. cbn [negb andb] in SY.
      destruct (int_samples 256 size ys ky ltac:(lra) SY) as (_ & FI & FF). apply Forall_nth_Q. intros i I. specialize (O i I). cbn [op_result] in O.
      rewrite Forall_nth_Q in FU, FI. specialize (FU i ltac:(lia)). destruct (FI i ltac:(lia)) as (z & EZ).
      exists z. split; [unfold Z.sub; rewrite inject_Z_plus, inject_Z_opp; change (inject_Z 256) with 256; lra|].
      intros B. assert (E : hi * (256 / 30) == hi * (128 # 15)) by field. rewrite E in FF. specialize (FF B). rewrite Forall_nth_Q in FF.
      destruct (FF i ltac:(lia)) as (x & X1 & X2 & EX). exists x. split; [exact X1|]. split; [exact X2|]. rewrite EZ in EX. apply (proj1 (inject_Z_injective _ _)) in EX.
      assert (E5 : x * (256 / 30) == x * (128 # 15)) by field. rewrite E5 in EX. exact EX. }
    apply (F2_right _ _ _ _ _ F FX). intros w v (z & EZ & FZ) [C _]. specialize (C ltac:(discriminate)).
    assert (EV : v == inject_Z (Z.max 0 (Z.min (256 - z) 256))).
    { rewrite EZ in C. destruct C as [[C1 C2]|[[C1 C2]|[C1 [C2 C3]]]]; rewrite C2 || rewrite C3.
      - change 0 with (inject_Z 0) in C1. rewrite <- Zle_Qle in C1. replace (Z.max 0 (Z.min (256 - z) 256)) with 0%Z by lia. reflexivity.
      - change 256 with (inject_Z 256) in C1. rewrite <- Zle_Qle in C1. replace (Z.max 0 (Z.min (256 - z) 256)) with 256%Z by lia. reflexivity.
      - change 0 with (inject_Z 0) in C1. change 256 with (inject_Z 256) in C2. rewrite <- Zle_Qle in C1, C2. replace (Z.max 0 (Z.min (256 - z) 256)) with (256 - z)%Z by lia. reflexivity. }
    split; [exists (Z.max 0 (Z.min (256 - z) 256)); exact EV|]. split; [rewrite EV; change 0 with (inject_Z 0); rewrite <- Zle_Qle; lia|]. split; [rewrite EV; change 256 with (inject_Z 256); rewrite <- Zle_Qle; lia|].
    intros B. destruct (FZ B) as (x & X1 & X2 & ->). exists x. split; [exact X1|]. split; [exact X2|]. rewrite EV.
    assert (0 <= Qfloor (x * (128 # 15)))%Z. { change 0%Z with (Qfloor 0). apply Qfloor_resp_le. apply Qmult_le_0_compat; [lra|discriminate]. }
    replace (Z.max 0 (Z.min (256 - Qfloor (x * (128 # 15))) 256)) with (Z.max 0 (256 - Qfloor (x * (128 # 15)))) by lia. reflexivity.
Qed.
End Level.

(** Levels as given by users. *)
Lemma det_level : forall h z, level h (PDet (inject_Z z) KInt) (inject_Z z) (inject_Z z).
Proof.
  intros h z. split; [intros _; exists z; reflexivity|]. split; [exact I|]. split; [exact I|]. intros size vs k (_ & -> & F). split; [reflexivity|].
  eapply Forall_impl; [|exact F]. intros v E. split; lra.
Qed.
Lemma uniform_level : forall h a b, (a <= b)%Z -> level h (PDiscreteUniform (PDet (inject_Z a) KInt) (PDet (inject_Z b) KInt)) (inject_Z a) (inject_Z b).
Proof.
  intros h a b AB. split; [split; intros _; eexists; reflexivity|]. split; [split; exact I|]. split; [split; [exact I|split; [exact I|]]|].
  - intros x k [(_ & -> & _)|(_ & -> & _)]; reflexivity.
  - intros size vs k (_ & -> & x & y & SX & SY & F). split; [reflexivity|]. destruct (det_single _ _ _ _ _ SX) as [EX _]. destruct (det_single _ _ _ _ _ SY) as [EY _].
    rewrite Zle_Qle in AB. eapply Forall_impl; [|exact F]. intros v (_ & [[A B]|[A B]]); split; lra.
Qed.
