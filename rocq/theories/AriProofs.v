(** Proofs about adding and multiplying. *)
From Coq Require Import Qabs Lia Lqa.
From Verif Require Import Prelude PreludeFacts DtyModel DtySpec DtyProofs AriModel AriSpec.
Local Open Scope Q_scope.

Lemma np_round_near q : Qabs (inject_Z (np_round q) - q) <= 1 # 2.
Proof. pose proof (np_round_spec q) as H. apply Qabs_case; intros; lra. Qed.

Lemma inject_255 : inject_Z 255 == 255. Proof. reflexivity. Qed.

(** Rounding and limiting an amount within 1/2 of the exact result. *)
Lemma limit_near lo hi x z :
  (lo <= hi)%Z -> Qabs (inject_Z z - x) <= 1 # 2 -> saturates lo hi (1 # 2) x (zclip z lo hi).
Proof.
  intros H A. split; [unfold zclip; lia|].
  apply Qabs_Qle_condition in A. destruct A as [A1 A2].
  assert (inject_Z lo <= inject_Z hi) as HQ by (rewrite <- Zle_Qle; exact H).
  apply Qabs_Qle_condition. unfold limited, zclip.
  destruct (Z.max_spec z lo) as [[M ->]|[M ->]]; destruct (Z.min_spec lo hi) as [[N E]|[N E]];
    try rewrite E; try lia;
    [ assert (inject_Z z < inject_Z lo) by (rewrite <- Zlt_Qlt; lia)
    | assert (inject_Z z < inject_Z lo) by (rewrite <- Zlt_Qlt; lia)
    | destruct (Z.min_spec z hi) as [[P ->]|[P ->]];
      [ assert (inject_Z z < inject_Z hi) by (rewrite <- Zlt_Qlt; lia)
      | assert (inject_Z hi <= inject_Z z) by (rewrite <- Zle_Qle; lia)];
      assert (inject_Z lo <= inject_Z z) by (rewrite <- Zle_Qle; lia)
    | destruct (Z.min_spec z hi) as [[P ->]|[P ->]];
      [ assert (inject_Z z < inject_Z hi) by (rewrite <- Zlt_Qlt; lia)
      | assert (inject_Z hi <= inject_Z z) by (rewrite <- Zle_Qle; lia)];
      assert (inject_Z lo <= inject_Z z) by (rewrite <- Zle_Qle; lia) ];
    try (assert (inject_Z hi <= inject_Z lo) by (rewrite <- Zle_Qle; lia));
    qminmax; lra.
Qed.

Lemma sat8_near x : saturates 0 255 (1 # 2) x (sat8 x).
Proof. unfold sat8. apply limit_near; [lia|]. apply np_round_near. Qed.

Lemma sat8_rounded v u : saturates 0 255 (1 # 2) (inject_Z v + u) (sat8 (inject_Z v + round_if true u)).
Proof.
  unfold sat8, round_if. apply limit_near; [lia|].
  assert (np_round (inject_Z v + inject_Z (np_round u)) = (v + np_round u)%Z) as ->.
  { rewrite <- (np_round_Z (v + np_round u)). apply np_round_eq.
    rewrite np_round_Z. rewrite inject_Z_plus. reflexivity. }
  rewrite inject_Z_plus.
  pose proof (np_round_near u) as N. apply Qabs_Qle_condition in N.
  apply Qabs_Qle_condition. lra.
Qed.

Lemma sat8_if f v u : saturates 0 255 (1 # 2) (inject_Z v + u) (sat8 (inject_Z v + round_if f u)).
Proof. destruct f; [apply sat8_rounded|apply sat8_near]. Qed.

(** Pointwise statements about indexed maps. *)
Lemma nth_indexed {A B} (f : nat * A -> B) (l : list A) d i :
  (i < length l)%nat ->
  forall e, nth i (map f (combine (seq 0 (length l)) l)) e = f (i, nth i l d).
Proof.
  intros H e.
  assert (forall k, nth i (map f (combine (seq k (length l)) l)) e = f ((k + i)%nat, nth i l d)) as G.
  { revert i H. induction l as [|a l IH]; intros i H k; cbn in H; [lia|].
    destruct i; cbn [length seq combine map nth].
    - rewrite Nat.add_0_r. reflexivity.
    - rewrite IH by lia. f_equal. f_equal. lia. }
  apply (G 0%nat).
Qed.
Lemma indexed_length {A B} (f : nat * A -> B) (l : list A) :
  length (map f (combine (seq 0 (length l)) l)) = length l.
Proof. rewrite map_length, combine_length, seq_length. lia. Qed.
Lemma nth_map' {A B} (f : A -> B) l i d e : (i < length l)%nat -> nth i (map f l) e = f (nth i l d).
Proof. intros H. rewrite (nth_indep _ e (f d)) by (rewrite map_length; exact H). apply map_nth. Qed.

Lemma tiled nc vs qs rs f :
  nc <> 0%nat -> length qs = nc ->
  add_tiled vs (map (round_if f) qs) = Ok rs ->
  length rs = length vs /\
  forall i, (i < length vs)%nat ->
    saturates 0 255 (1 # 2) (inject_Z (nth i vs 0%Z) + nth (i mod nc)%nat qs 0) (nth i rs 0%Z).
Proof.
  intros NZ L. unfold add_tiled. rewrite map_length, L.
  destruct (Nat.eqb_spec nc 0); [contradiction|].
  destruct (Nat.eqb_spec (length vs mod nc) 0); [|discriminate].
  intros [= <-]. rewrite indexed_length. split; [reflexivity|].
  intros i Hi. rewrite (nth_indexed _ vs 0%Z i Hi). cbn [fst snd].
  rewrite (nth_map' (round_if f) qs (i mod nc)%nat 0).
  - apply sat8_if.
  - rewrite L. apply Nat.mod_upper_bound. exact NZ.
Qed.

Lemma tiled_ok nc vs qs :
  nc <> 0%nat -> length qs = nc -> (length vs mod nc = 0)%nat -> exists rs, add_tiled vs qs = Ok rs.
Proof.
  intros NZ L M. unfold add_tiled. rewrite L.
  destruct (Nat.eqb_spec nc 0); [contradiction|]. rewrite M. cbn. eexists; reflexivity.
Qed.

Lemma single vs q f :
  exists rs, add_single vs (round_if f q) = Ok rs /\ length rs = length vs /\
  forall i, (i < length vs)%nat -> saturates 0 255 (1 # 2) (inject_Z (nth i vs 0%Z) + q) (nth i rs 0%Z).
Proof.
  eexists. split; [reflexivity|]. split; [apply map_length|].
  intros i Hi. rewrite (nth_map' _ vs i 0%Z) by exact Hi. apply sat8_if.
Qed.

Lemma add_uint8 nc vs v :
  nc <> 0%nat -> (length vs mod nc = 0)%nat -> per_image nc v ->
  exists rs, add_scalar_uint8 vs v = Ok rs /\ length rs = length vs /\
    forall i, (i < length vs)%nat ->
      saturates 0 255 (1 # 2) (inject_Z (nth i vs 0%Z) + meant nc v i) (nth i rs 0%Z).
Proof.
  intros NZ M P. destruct v as [q|f qs|qs]; cbn [add_scalar_uint8 meant per_image] in *.
  - apply (single vs q true).
  - destruct qs as [|q [|q2 qs]].
    + destruct P as [P|P]; cbn in P; [discriminate|congruence].
    + apply (single vs q f).
    + destruct P as [P|P]; [cbn in P; discriminate|].
      destruct (tiled_ok nc vs (map (round_if f) (q :: q2 :: qs)) NZ) as [rs E]; [rewrite map_length; exact P|exact M|].
      exists rs. split; [exact E|]. exact (tiled nc vs _ rs f NZ P E).
  - destruct (tiled_ok nc vs qs NZ P M) as [rs E].
    exists rs. split; [exact E|].
    apply (tiled nc vs qs rs false NZ P).
    replace (map (round_if false) qs) with qs; [exact E|].
    symmetry. apply map_id.
Qed.

Lemma combine_nth' {A B} (l : list A) (m : list B) i a b :
  length l = length m -> nth i (combine l m) (a, b) = (nth i l a, nth i m b).
Proof. intros E. apply combine_nth. exact E. Qed.

Lemma add_elementwise_near use_cv2 floats vs us :
  uint8_image vs -> length us = length vs ->
  (floats = false -> Forall (fun u => exists z, u == inject_Z z) us) ->
  length (add_elementwise_uint8 use_cv2 floats vs us) = length vs /\
  forall i, (i < length vs)%nat ->
    saturates 0 255 (1 # 2) (inject_Z (nth i vs 0%Z) + nth i us 0)
      (nth i (add_elementwise_uint8 use_cv2 floats vs us) 0%Z).
Proof.
  intros V L INT. unfold add_elementwise_uint8. split.
  { rewrite map_length, combine_length. lia. }
  intros i Hi. rewrite (nth_map' _ _ i (0%Z, 0)) by (rewrite combine_length; lia).
  rewrite combine_nth' by (symmetry; exact L).
  assert (0 <= nth i vs 0 <= 255)%Z as Hv.
  { unfold uint8_image in V. rewrite Forall_forall in V. apply V. apply nth_In. exact Hi. }
  assert (floats = false -> exists z, nth i us 0 == inject_Z z) as Hu.
  { intros F. specialize (INT F). rewrite Forall_forall in INT. apply INT. apply nth_In. lia. }
  set (v := nth i vs 0%Z) in *. set (u := nth i us 0) in *. clearbody v u. clear - Hv Hu.
  destruct use_cv2; [apply sat8_near|].
  assert (Qabs (inject_Z (np_round (round_if floats u)) - u) <= 1 # 2) as N.
  { destruct floats; cbn [round_if].
    - rewrite np_round_Z. apply np_round_near.
    - apply np_round_near. }
  set (k := np_round (round_if floats u)) in *. clearbody k.
  assert (zclip (v + zclip k (-255) 255) 0 255 = zclip (v + k) 0 255)%Z as -> by (unfold zclip; lia).
  apply limit_near; [lia|]. rewrite inject_Z_plus.
  apply Qabs_Qle_condition in N. apply Qabs_Qle_condition. lra.
Qed.

(** Integral amounts are added exactly. *)
Lemma saturates_exact lo hi n r :
  (lo <= hi)%Z -> saturates lo hi (1 # 2) (inject_Z n) r -> r = zclip n lo hi.
Proof.
  intros H [B A]. unfold limited in A.
  assert (exists m, qmax (inject_Z lo) (qmin (inject_Z hi) (inject_Z n)) == inject_Z m /\ m = zclip n lo hi) as (m & E & ->).
  { exists (zclip n lo hi). split; [|reflexivity]. unfold zclip.
    destruct (Z.max_spec n lo) as [[M ->]|[M ->]];
    destruct (Z.min_spec lo hi) as [[N E]|[N E]];
    destruct (Z.min_spec n hi) as [[P F]|[P F]]; rewrite ?E, ?F;
    try (assert (inject_Z n < inject_Z lo) by (rewrite <- Zlt_Qlt; lia));
    try (assert (inject_Z lo <= inject_Z n) by (rewrite <- Zle_Qle; lia));
    try (assert (inject_Z n < inject_Z hi) by (rewrite <- Zlt_Qlt; lia));
    try (assert (inject_Z hi <= inject_Z n) by (rewrite <- Zle_Qle; lia));
    assert (inject_Z lo <= inject_Z hi) by (rewrite <- Zle_Qle; lia);
    try (assert (inject_Z hi <= inject_Z lo) by (rewrite <- Zle_Qle; lia));
    qminmax; lra. }
  rewrite E in A. apply Qabs_Qle_condition in A. destruct A as [A1 A2].
  set (m := zclip n lo hi) in *. clearbody m.
  rewrite <- inject_Z_opp, <- inject_Z_plus in A1, A2 || idtac.
  assert (inject_Z (r - m) == inject_Z r - inject_Z m) as D.
  { unfold Z.sub, Qminus. rewrite inject_Z_plus, inject_Z_opp. reflexivity. }
  assert (inject_Z (r - m) < inject_Z 1) as U by (rewrite D; change (inject_Z 1) with 1; lra).
  assert (inject_Z (-1) < inject_Z (r - m)) as W by (rewrite D; change (inject_Z (-1)) with (-(1)); lra).
  rewrite <- Zlt_Qlt in U, W. lia.
Qed.

(** ** Integer images of other dtypes *)
Local Open Scope Z_scope.
Lemma py_int_sum a b : py_int (inject_Z a + inject_Z b)%Q = a + b.
Proof. apply py_int_eq. rewrite inject_Z_plus. reflexivity. Qed.

Lemma qmaxZ a b : qmax (inject_Z a) (inject_Z b) = inject_Z (Z.max a b).
Proof.
  unfold qmax. destruct (qltb (inject_Z a) (inject_Z b)) eqn:E.
  - apply qltb_iff in E. rewrite <- Zlt_Qlt in E. f_equal. lia.
  - apply qltb_false in E. rewrite <- Zle_Qle in E. f_equal. lia.
Qed.
Lemma qminZ a b : qmin (inject_Z a) (inject_Z b) = inject_Z (Z.min a b).
Proof.
  unfold qmin. destruct (qltb (inject_Z b) (inject_Z a)) eqn:E.
  - apply qltb_iff in E. rewrite <- Zlt_Qlt in E. f_equal. lia.
  - apply qltb_false in E. rewrite <- Zle_Qle in E. f_equal. lia.
Qed.

Definition is_int (d : dtype) : Prop := match d with DF _ _ => False | _ => True end.

Lemma clip_int src z lo hi :
  is_int src -> gated src = false ->
  clip_ src (inject_Z z) lo hi =
  Ok (inject_Z (let z1 := if lo <? fst (range_of src) then z else Z.max z lo in
                if snd (range_of src) <? hi then z1 else Z.min z1 hi)).
Proof.
  intros I G. unfold clip_. rewrite G.
  destruct (range_of src) as [slo shi] eqn:R. cbn [fst snd].
  assert (forall k, bound_in src k = inject_Z k) as B.
  { intros k. destruct src; try contradiction; reflexivity. }
  rewrite !B.
  destruct (lo <? slo); destruct (shi <? hi); rewrite ?qmaxZ, ?qminZ; reflexivity.
Qed.

Lemma astype_fits src dst z :
  is_int dst -> fst (range_of dst) <= z <= snd (range_of dst) ->
  astype src dst (inject_Z z) = Ok (inject_Z z).
Proof.
  intros I H. unfold astype. destruct dst; try contradiction;
  destruct (range_of _) as [lo hi]; cbn [fst snd] in H; rewrite py_int_Z;
  (destruct (Z.leb_spec lo z); [|lia]); (destruct (Z.leb_spec z hi); [|lia]); reflexivity.
Qed.

Lemma change_fits src dst z :
  is_int src -> is_int dst -> fst (range_of dst) <= z <= snd (range_of dst) ->
  change_dtype src dst (inject_Z z) false false = Ok (inject_Z z).
Proof.
  intros I J H. unfold change_dtype. destruct (dtype_eqb src dst); [reflexivity|].
  cbn [andb]. unfold bind. apply astype_fits; assumption.
Qed.

Lemma restore_int src dst z :
  is_int src -> is_int dst -> gated src = false -> dtype_eqb src dst = false ->
  fst (range_of src) <= fst (range_of dst) -> snd (range_of dst) <= snd (range_of src) ->
  fst (range_of dst) <= snd (range_of dst) ->
  change_dtype src dst (inject_Z z) true true = Ok (inject_Z (zclip z (fst (range_of dst)) (snd (range_of dst)))).
Proof.
  intros I J G E L U O. unfold change_dtype. rewrite E.
  assert (is_float src = false) as -> by (destruct src; try contradiction; reflexivity).
  cbn [andb]. rewrite clip_int by assumption. unfold bind.
  destruct (Z.ltb_spec (fst (range_of dst)) (fst (range_of src))); [lia|].
  destruct (Z.ltb_spec (snd (range_of src)) (snd (range_of dst))); [lia|].
  cbv zeta. apply astype_fits; [exact J|]. unfold zclip. lia.
Qed.

Lemma np_add_fits d a b :
  is_int d -> fst (range_of d) <= a + b <= snd (range_of d) ->
  np_add d (inject_Z a) (inject_Z b) = inject_Z (a + b).
Proof.
  intros I H. unfold np_add. destruct d; try contradiction;
  destruct (range_of _) as [lo hi]; cbn [fst snd] in H; rewrite py_int_sum; f_equal;
  rewrite Z.mod_small by lia; lia.
Qed.

Lemma clip_inside src z lo hi :
  is_int src -> gated src = false -> lo <= z <= hi -> clip_ src (inject_Z z) lo hi = Ok (inject_Z z).
Proof.
  intros I G H. rewrite clip_int by assumption. f_equal. f_equal. cbv zeta.
  destruct (lo <? fst (range_of src)); destruct (snd (range_of src) <? hi); lia.
Qed.

Lemma add_wide_general image value v u :
  let target := target_dtype image value in
  let d := promote image target in
  is_int image -> is_int value -> is_int target -> is_int d ->
  gated value = false -> gated d = false -> dtype_eqb d image = false ->
  fst (range_of d) <= fst (range_of image) -> snd (range_of image) <= snd (range_of d) ->
  fst (range_of image) <= snd (range_of image) ->
  fst (range_of image) <= v <= snd (range_of image) ->
  fst (range_of target) <= u <= snd (range_of target) ->
  fst (range_of d) <= u <= snd (range_of d) ->
  fst (range_of d) <= v + u <= snd (range_of d) ->
  add_wide image value (inject_Z v) (inject_Z u)
  = Ok (inject_Z (zclip (v + u) (fst (range_of image)) (snd (range_of image)))).
Proof.
  intros target d I1 I2 I3 I4 G1 G2 E L U O Hv Ht Hu Hs.
  unfold add_wide. fold target. fold d.
  destruct (range_of target) as [lo hi] eqn:R. cbn [fst snd] in Ht.
  assert (qleb (inject_Z lo) (inject_Z u) = true) as -> by (apply qleb_iff; rewrite <- Zle_Qle; lia).
  assert (qleb (inject_Z u) (inject_Z hi) = true) as -> by (apply qleb_iff; rewrite <- Zle_Qle; lia).
  cbn [andb negb].
  rewrite (clip_inside value u lo hi I2 G1 Ht). cbn [bind].
  rewrite (change_fits image d v I1 I4) by lia. cbn [bind].
  rewrite (change_fits value d u I2 I4) by lia. cbn [bind].
  rewrite (np_add_fits d v u I4 Hs).
  apply restore_int; assumption.
Qed.

Lemma add_wide_saturates image value v u :
  wide_image image -> small_int value -> ~ (image = DI 16 /\ unsigned value) ->
  fst (range_of image) <= v <= snd (range_of image) ->
  fst (range_of value) <= u <= snd (range_of value) ->
  moderate image u ->
  add_wide image value (inject_Z v) (inject_Z u)
  = Ok (inject_Z (zclip (v + u) (fst (range_of image)) (snd (range_of image)))).
Proof.
  intros WI SV NS Hv Hu M.
  destruct WI as [-> | [-> | ->]]; destruct SV as [-> | [-> | [-> | [-> | [-> | ->]]]]];
    cbn [range_of fst snd moderate] in *;
    try (exfalso; apply NS; split; [reflexivity|exact I]);
    (apply add_wide_general;
     [exact I|exact I|exact I|exact I|reflexivity|reflexivity|reflexivity|..]);
    cbn in *; lia.
Qed.

(** ** Multiplication *)
Local Open Scope Q_scope.
Lemma lut_near v m :
  saturates 0 255 1 (inject_Z v * m) (lut_entry v m) /\
  inject_Z (lut_entry v m) <= limited 0 255 (inject_Z v * m).
Proof.
  unfold lut_entry. set (x := inject_Z v * m). clearbody x.
  assert (0 <= qclip x 0 (inject_Z 255) <= inject_Z 255) as B.
  { unfold qclip. change (inject_Z 255) with 255. qminmax; lra. }
  assert (qclip x 0 (inject_Z 255) == limited 0 255 x) as E.
  { unfold qclip, limited. change (inject_Z 255) with 255. change (inject_Z 0) with 0. qminmax; lra. }
  set (y := qclip x 0 (inject_Z 255)) in *. clearbody y.
  pose proof (py_int_nonneg y ltac:(lra)) as P.
  unfold saturates. rewrite <- E. clear E.
  assert (inject_Z (py_int y) <= y /\ y < inject_Z (py_int y) + 1) as [P1 P2].
  { unfold py_int. assert (qleb 0 y = true) as -> by (apply qleb_iff; lra). apply Qfloor_spec. }
  split; [split|exact P1].
  - split.
    + assert (inject_Z (-1) < inject_Z (py_int y)) as W by (change (inject_Z (-1)) with (-(1)); lra).
      rewrite <- Zlt_Qlt in W. lia.
    + rewrite Zle_Qle. lra.
  - apply Qabs_Qle_condition. lra.
Qed.

Lemma saturates_weaken lo hi e e' x r : e <= e' -> saturates lo hi e x r -> saturates lo hi e' x r.
Proof. intros H [A B]. split; [exact A|]. lra. Qed.

Lemma multiply_near nc vs m :
  single_or nc m -> channels nc <> 0%nat ->
  ((Z.of_nat (length vs) < 224 * 224 * 3)%Z -> exists f qs, m = VArr f qs) ->
  exists rs, multiply_scalar_uint8 nc vs m = Ok rs /\ length rs = length vs /\
    forall i, (i < length vs)%nat ->
      saturates 0 255 1 (inject_Z (nth i vs 0%Z) * meant (channels nc) m i) (nth i rs 0%Z).
Proof.
  intros S NZ AR. unfold multiply_scalar_uint8.
  destruct (Z.eqb_spec (Z.of_nat (length vs)) 0) as [Z0|Z0].
  { exists vs. split; [reflexivity|]. split; [reflexivity|]. intros i Hi. lia. }
  assert (forall q, saturates 0 255 1 q (sat8 q)) as SA.
  { intros q. eapply saturates_weaken; [|apply sat8_near]. lra. }
  assert (forall v q, saturates 0 255 1 (inject_Z v * q) (lut_entry v q)) as SL.
  { intros v q. apply lut_near. }
  destruct (Z.leb_spec (224 * 224 * 3) (Z.of_nat (length vs))) as [B|B].
  - assert (forall q, exists rs, Ok (map (fun v => lut_entry v q) vs) = Ok rs /\ length rs = length vs /\
      forall i, (i < length vs)%nat -> saturates 0 255 1 (inject_Z (nth i vs 0%Z) * q) (nth i rs 0%Z)) as ONE.
    { intros q. eexists. split; [reflexivity|]. split; [apply map_length|].
      intros i Hi. rewrite (nth_map' _ vs i 0%Z) by exact Hi. apply SL. }
    assert (forall n qs, exists rs,
      Ok (map (fun iv => lut_entry (snd iv) (nth (channel_of n (fst iv)) qs 0)) (combine (seq 0 (length vs)) vs)) = Ok rs
      /\ length rs = length vs /\
      forall i, (i < length vs)%nat -> saturates 0 255 1 (inject_Z (nth i vs 0%Z) * nth (i mod n)%nat qs 0) (nth i rs 0%Z)) as MANY.
    { intros n qs. eexists. split; [reflexivity|]. split; [apply indexed_length|].
      intros i Hi. rewrite (nth_indexed _ vs 0%Z i Hi). cbn [fst snd]. apply SL. }
    destruct m as [q|f [|q [|q2 qs]]|qs]; cbn [meant].
    + apply ONE.
    + destruct nc as [n|]; cbn in S; [destruct S as [S|S]; [discriminate|]|discriminate].
      cbn [channels] in NZ. congruence.
    + apply ONE.
    + destruct nc as [n|]; cbn [single_or per_image] in S; [|discriminate].
      destruct S as [S|S]; [discriminate|]. rewrite S, Nat.eqb_refl. apply MANY.
    + destruct nc as [n|]; cbn [single_or per_image] in S; [|contradiction].
      rewrite S, Nat.eqb_refl. apply MANY.
  - destruct (AR B) as (f & qs & ->).
    assert (forall q, exists rs, Ok (map (fun v => sat8 (inject_Z v * q)) vs) = Ok rs /\ length rs = length vs /\
      forall i, (i < length vs)%nat -> saturates 0 255 1 (inject_Z (nth i vs 0%Z) * q) (nth i rs 0%Z)) as ONE.
    { intros q. eexists. split; [reflexivity|]. split; [apply map_length|].
      intros i Hi. rewrite (nth_map' _ vs i 0%Z) by exact Hi. apply SA. }
    destruct qs as [|q [|q2 qs]]; cbn [meant].
    + destruct nc as [n|]; cbn in S; [destruct S as [S|S]; [discriminate|]|discriminate].
      cbn [channels] in NZ. congruence.
    + apply ONE.
    + destruct nc as [n|]; cbn [single_or per_image] in S; [|discriminate].
      destruct S as [S|S]; [discriminate|]. rewrite S, Nat.eqb_refl.
      eexists. split; [reflexivity|]. split; [apply indexed_length|].
      intros i Hi. rewrite (nth_indexed _ vs 0%Z i Hi). cbn [fst snd]. apply SA.
Qed.

Lemma big_multiply n v q :
  (224 * 224 * 3 <= Z.of_nat n)%Z ->
  multiply_scalar_uint8 (Some 3%nat) (repeat v n) (VArr true [q]) = Ok (repeat (lut_entry v q) n).
Proof.
  intros H. unfold multiply_scalar_uint8. rewrite repeat_length.
  destruct (Z.eqb_spec (Z.of_nat n) 0); [lia|].
  destruct (Z.leb_spec (224 * 224 * 3) (Z.of_nat n)); [|lia].
  f_equal. clear. induction n; cbn; [reflexivity|]. f_equal. exact IHn.
Qed.

(** ** Boolean masks *)
Lemma broadcast_nth {A} nc (l : list A) i d :
  nc <> 0%nat -> (i < length l * nc)%nat -> nth i (broadcast nc l) d = nth (i / nc)%nat l d.
Proof.
  intros NZ. revert i. induction l as [|a l IH]; intros i H; cbn in H; [lia|].
  unfold broadcast in *. cbn [flat_map].
  destruct (Nat.lt_ge_cases i nc) as [L|G].
  - rewrite app_nth1 by (rewrite repeat_length; exact L).
    rewrite Nat.div_small by exact L. cbn.
    clear - L. revert i L. induction nc; intros i L; [lia|]. destruct i; cbn; [reflexivity|]. apply IHnc. lia.
  - rewrite app_nth2 by (rewrite repeat_length; exact G). rewrite repeat_length.
    rewrite IH by lia.
    replace i with ((i - nc) + 1 * nc)%nat at 2 by lia.
    rewrite Nat.div_add by exact NZ. rewrite Nat.add_comm. reflexivity.
Qed.
Lemma broadcast_length {A} nc (l : list A) : length (broadcast nc l) = (length l * nc)%nat.
Proof.
  unfold broadcast. induction l; cbn; [reflexivity|]. rewrite app_length, repeat_length, IHl. reflexivity.
Qed.

Lemma masked_nth vs mask i :
  length mask = length vs -> (i < length vs)%nat ->
  nth i (multiply_by_mask vs mask) 0%Z = if nth i mask false then nth i vs 0%Z else 0%Z.
Proof.
  intros L Hi. unfold multiply_by_mask.
  rewrite (nth_map' _ _ i (0%Z, false)) by (rewrite combine_length; lia).
  rewrite combine_nth' by (symmetry; exact L). reflexivity.
Qed.
Lemma masked_length vs mask : length mask = length vs -> length (multiply_by_mask vs mask) = length vs.
Proof. intros L. unfold multiply_by_mask. rewrite map_length, combine_length. lia. Qed.

Lemma elementwise_near vs ms :
  length ms = length vs ->
  length (multiply_elementwise_uint8 vs ms) = length vs /\
  forall i, (i < length vs)%nat ->
    saturates 0 255 (1 # 2) (inject_Z (nth i vs 0%Z) * nth i ms 0) (nth i (multiply_elementwise_uint8 vs ms) 0%Z).
Proof.
  intros L. unfold multiply_elementwise_uint8. split; [rewrite map_length, combine_length; lia|].
  intros i Hi. rewrite (nth_map' _ _ i (0%Z, 0)) by (rewrite combine_length; lia).
  rewrite combine_nth' by (symmetry; exact L). apply sat8_near.
Qed.
