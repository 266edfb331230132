(** C143: the parameters of RandAugment. *)
From Coq Require Import Qabs Qround Lia Lqa Bool.
From Verif Require Import Prelude PreludeFacts ParModel ParSpec ParProofs ParProps RanModel RanSpec RanProofs.
Local Open Scope Q_scope.

(** C143: an integer level and a range of integer levels are levels. *)
Theorem C143_levels : forall h a b, (a <= b)%Z ->
  level h (PDet (inject_Z a) KInt) (inject_Z a) (inject_Z a) /\
  level h (PDiscreteUniform (PDet (inject_Z a) KInt) (PDet (inject_Z b) KInt)) (inject_Z a) (inject_Z b).
Proof. intros h a b AB. split; [apply det_level|apply uniform_level; exact AB]. Qed.
Print Assumptions C143_levels.

(** C143: the angles, shears and translations are, up to their signs, proportional to the drawn levels: one degree,
    a 30th of the maximum shear, and 1.1 percent of the image size per level. *)
Theorem C143_signed : forall h m lo hi, level h m lo hi -> 0 <= lo ->
  every_sample h (rotate m) (from_level lo hi (fun x v => Qabs v == x)) /\
  (forall shear_max, 0 <= shear_max -> every_sample h (shear shear_max m) (from_level lo hi (fun x v => Qabs v == x * shear_max / 30))) /\
  every_sample h (translate m) (from_level lo hi (fun x v => Qabs v == x * (11 # 1000))).
Proof.
  assert (W : forall h p lo hi (P P' : Q -> Q -> Prop), (forall x v, P x v -> P' x v) -> every_sample h p (from_level lo hi P) -> every_sample h p (from_level lo hi P')).
  { intros h p lo hi P P' H E R g size r G. destruct (E R g size r G) as (d & r' & D & LN & F). exists d, r'. split; [exact D|]. split; [exact LN|].
    eapply Forall_impl; [|exact F]. intros v (x & A & B & C). exists x. auto. }
  intros h m lo hi L NN. split; [|split].
  - refine (W _ _ _ _ _ _ _ (signed_every h m lo hi L NN 30 ltac:(lra))). intros x v ->. field.
  - intros s S. refine (W _ _ _ _ _ _ _ (signed_every h m lo hi L NN s S)). intros x v ->. field.
  - refine (W _ _ _ _ _ _ _ (signed_every h m lo hi L NN (33 # 100) ltac:(lra))). intros x v ->. field.
Qed.
Print Assumptions C143_signed.

(** C143: the factors of the enhancing augmenters differ from 1 by three percent per level, and by 90 percent at most. *)
Theorem C143_enhance : forall h m lo hi, level h m lo hi -> 0 <= lo ->
  every_sample h (enhance_parameter m) (from_level lo hi (fun x v => (x <= 30 -> Qabs (v - 1) == x * (3 # 100)) /\ (30 <= x -> Qabs (v - 1) == 9 # 10))).
Proof.
  intros h m lo hi L NN R g size r G. destruct (enhance_every h m lo hi L NN R g size r G) as (d & r' & D & LN & F). exists d, r'. split; [exact D|]. split; [exact LN|].
  eapply Forall_impl; [|exact F]. intros v (x & A & B & C). exists x. split; [exact A|]. split; [exact B|].
  destruct (qmin_case (x * (3 # 100)) (9 # 10)) as [[K E]|[K E]]; rewrite E in C; split; intros X; lra.
Qed.
Print Assumptions C143_enhance.

(** C143: posterization keeps from 2 to 8 bits, one less per five levels; the samples are integers. *)
Theorem C143_bits : forall h m lo hi, level h m lo hi -> 0 <= lo ->
  every_sample h (nb_bits m) (fun v => integral v /\ 2 <= v /\ v <= 8 /\
    (hi / 5 < inject_Z (2 ^ 31) -> from_level lo hi (fun x v => v == inject_Z (8 - Z.min (Qfloor (x / 5)) 6)) v)).
Proof. exact bits_every. Qed.
Print Assumptions C143_bits.

(** C143: the thresholds of solarization are integers from 0 to 256 and fall by 256/30 per level. *)
Theorem C143_threshold : forall h m lo hi, level h m lo hi -> 0 <= lo ->
  every_sample h (threshold m) (fun v => integral v /\ 0 <= v /\ v <= 256 /\
    (hi * (128 # 15) < inject_Z (2 ^ 31) -> from_level lo hi (fun x v => v == inject_Z (Z.max 0 (256 - Qfloor (x * (128 # 15))))) v)).
Proof. exact threshold_every. Qed.
Print Assumptions C143_threshold.

(** C143: cut-out areas have a 48th of the image size per level, and five eighths at most. *)
Theorem C143_cutout : forall h m lo hi, level h m lo hi -> 0 <= lo ->
  every_sample h (cutout_size m) (from_level lo hi (fun x v => (x <= 30 -> v == x / 48) /\ (30 <= x -> v == 5 # 8))).
Proof.
  intros h m lo hi L NN R g size r G. destruct (cutout_every h m lo hi L NN R g size r G) as (d & r' & D & LN & F). exists d, r'. split; [exact D|]. split; [exact LN|].
  eapply Forall_impl; [|exact F]. intros v (x & A & B & C). exists x. split; [exact A|]. split; [exact B|].
  assert (E48 : x / 48 == x * (1 # 48)) by field. rewrite E48. clear E48.
  destruct (qmin_case (x / 48) (5 # 8)) as [[K E]|[K E]]; rewrite E in C; assert (E48 : x / 48 == x * (1 # 48)) by field; rewrite E48 in *; split; intros X; lra.
Qed.
Print Assumptions C143_cutout.

(** C143: crops are fractions that are not negative and take away at most a 224th of the image size per level. *)
Theorem C143_crop : forall h m lo hi, level h m lo hi -> 0 <= lo -> every_sample h (crop_percent m) (fun v => 0 <= v /\ v <= hi / 224).
Proof. exact crop_every. Qed.
Print Assumptions C143_crop.

(** C143: at level zero the parameters leave images unchanged. *)
Theorem C143_zero : forall h m, level h m 0 0 ->
  every_sample h (rotate m) (fun v => v == 0) /\ (forall s, 0 <= s -> every_sample h (shear s m) (fun v => v == 0)) /\
  every_sample h (translate m) (fun v => v == 0) /\ every_sample h (enhance_parameter m) (fun v => v == 1) /\
  every_sample h (nb_bits m) (fun v => v == 8) /\ every_sample h (threshold m) (fun v => v == 256) /\
  every_sample h (cutout_size m) (fun v => v == 0) /\ every_sample h (crop_percent m) (fun v => v == 0).
Proof.
  intros h m L.
  assert (W : forall p (P P' : Q -> Prop), (forall v, P v -> P' v) -> every_sample h p P -> every_sample h p P').
  { intros p P P' H E R g size r G. destruct (E R g size r G) as (d & r' & D & LN & F). exists d, r'. split; [exact D|]. split; [exact LN|].
    eapply Forall_impl; [|exact F]. exact H. }
  assert (Z0 : 0 <= 0) by lra. destruct (C143_signed h m 0 0 L Z0) as (R1 & R2 & R3).
  assert (AZ : forall v : Q, Qabs v == 0 -> v == 0) by (intros v A; pose proof (Qle_Qabs v); pose proof (Qle_Qabs (- v)) as B; rewrite Qabs_opp in B; lra).
  split; [|split; [|split; [|split; [|split; [|split; [|split]]]]]].
  - refine (W _ _ _ _ R1). intros v (x & A & B & C). apply AZ. lra.
  - intros s S. refine (W _ _ _ _ (R2 s S)). intros v (x & A & B & C). apply AZ. assert (x == 0) by lra. rewrite C, H. field.
  - refine (W _ _ _ _ R3). intros v (x & A & B & C). apply AZ. lra.
  - refine (W _ _ _ _ (C143_enhance h m 0 0 L Z0)). intros v (x & A & B & C & _). specialize (C ltac:(lra)).
    assert (E : v - 1 == 0) by (apply AZ; lra). lra.
  - refine (W _ _ _ _ (C143_bits h m 0 0 L Z0)). intros v (_ & _ & _ & H). destruct (H ltac:(reflexivity)) as (x & A & B & ->).
    assert (E : x == 0) by lra. rewrite (Qfloor_comp (x / 5) 0); [reflexivity|]. rewrite E. reflexivity.
  - refine (W _ _ _ _ (C143_threshold h m 0 0 L Z0)). intros v (_ & _ & _ & H). destruct (H ltac:(reflexivity)) as (x & A & B & ->).
    assert (E : x == 0) by lra. rewrite (Qfloor_comp (x * (128 # 15)) 0); [reflexivity|]. rewrite E. reflexivity.
  - refine (W _ _ _ _ (C143_cutout h m 0 0 L Z0)). intros v (x & A & B & C & _). specialize (C ltac:(lra)). assert (E : x == 0) by lra. rewrite C, E. reflexivity.
  - refine (W _ _ _ _ (C143_crop h m 0 0 L Z0)). intros v (A & B). assert (E : 0 / 224 == 0) by reflexivity. lra.
Qed.
Print Assumptions C143_zero.

(** A concrete case: levels from 6 to 12 and a generator of pseudo-random numbers. *)
Example C143_case : level lists (PDiscreteUniform (PDet 6 KInt) (PDet 12 KInt)) 6 12 /\ sane toy /\
  (exists d r, draw_samples toy (rotate (PDet 12 KInt)) [2%nat] lists tt = Ok (d, lists, r) /\ Forall2 Qeq (d_vals d) [-(12); 12]) /\
  (exists d r, draw_samples toy (enhance_parameter (PDet 10 KInt)) [2%nat] lists tt = Ok (d, lists, r) /\ Forall2 Qeq (d_vals d) [7 # 10; 13 # 10]) /\
  (exists d r, draw_samples toy (nb_bits (PDet 12 KInt)) [2%nat] lists tt = Ok (d, lists, r) /\ Forall2 Qeq (d_vals d) [6; 6]) /\
  (exists d r, draw_samples toy (cutout_size (PDet 40 KInt)) [1%nat] lists tt = Ok (d, lists, r) /\ Forall2 Qeq (d_vals d) [5 # 8]).
Proof.
  split; [exact (uniform_level lists 6 12 ltac:(lia))|]. split; [exact toy_sane|]. repeat split; do 2 eexists; (split; [vm_compute; reflexivity|]); repeat constructor.
Qed.
