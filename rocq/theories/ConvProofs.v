(** Proofs about convolutions. *)
From Coq Require Import Reals Lia Lqa.
From Verif Require Import Prelude PreludeFacts UtilModel UtilProofs ConvModel ConvSpec.
Local Open Scope Z_scope.

(** * Sums *)
Lemma sum_n_ext : forall n f g, (forall i, 0 <= i < Z.of_nat n -> (f i == g i)%Q) -> (sum_n n f == sum_n n g)%Q.
Proof. induction n as [|n IH]; intros f g H; cbn; [reflexivity|]. rewrite (IH f g), (H (Z.of_nat n)); [reflexivity|lia|]. intros i Hi. apply H. lia. Qed.
Lemma sum2_ext : forall h w f g, (forall i j, 0 <= i < h -> 0 <= j < w -> (f i j == g i j)%Q) -> (sum2 h w f == sum2 h w g)%Q.
Proof. intros h w f g H. apply sum_n_ext. intros i Hi. apply sum_n_ext. intros j Hj. apply H; lia. Qed.
Lemma sum_n_scale : forall n c f, (sum_n n (fun i => c * f i) == c * sum_n n f)%Q.
Proof. induction n as [|n IH]; intros c f; cbn; [ring|]. rewrite IH. ring. Qed.
Lemma sum_n_plus : forall n f g, (sum_n n (fun i => f i + g i) == sum_n n f + sum_n n g)%Q.
Proof. induction n as [|n IH]; intros f g; cbn; [ring|]. rewrite IH. ring. Qed.
Lemma sum2_scale : forall h w c f, (sum2 h w (fun i j => c * f i j) == c * sum2 h w f)%Q.
Proof. intros h w c f. unfold sum2. rewrite <- sum_n_scale. apply sum_n_ext. intros i _. apply sum_n_scale. Qed.
Lemma sum2_plus : forall h w f g, (sum2 h w (fun i j => f i j + g i j) == sum2 h w f + sum2 h w g)%Q.
Proof. intros h w f g. unfold sum2. rewrite <- sum_n_plus. apply sum_n_ext. intros i _. apply sum_n_plus. Qed.
Lemma sum_n_le : forall n f g, (forall i, 0 <= i < Z.of_nat n -> (f i <= g i)%Q) -> (sum_n n f <= sum_n n g)%Q.
Proof.
  induction n as [|n IH]; intros f g H; cbn; [lra|]. assert (H1 : (sum_n n f <= sum_n n g)%Q) by (apply IH; intros i Hi; apply H; lia).
  assert (H2 : (f (Z.of_nat n) <= g (Z.of_nat n))%Q) by (apply H; lia). lra.
Qed.
Lemma sum2_le : forall h w f g, (forall i j, 0 <= i < h -> 0 <= j < w -> (f i j <= g i j)%Q) -> (sum2 h w f <= sum2 h w g)%Q.
Proof. intros h w f g H. apply sum_n_le. intros i Hi. apply sum_n_le. intros j Hj. apply H; lia. Qed.
Lemma qsum_app : forall a b, (qsum (a ++ b) == qsum a + qsum b)%Q.
Proof.
  induction a as [|x a IH]; intros b; [unfold qsum; cbn; ring|]. cbn [app]. change (qsum (x :: a ++ b)) with (x + qsum (a ++ b))%Q.
  change (qsum (x :: a)) with (x + qsum a)%Q. rewrite IH. ring.
Qed.
Lemma qsum_zrange : forall n f, (qsum (map f (zrange n)) == sum_n (Z.to_nat n) f)%Q.
Proof.
  intros n f. unfold zrange. rewrite map_map. induction (Z.to_nat n) as [|k IH]; [reflexivity|].
  rewrite seq_S, map_app, qsum_app, IH. cbn. ring.
Qed.
Lemma qsum_ext : forall {A} (f g : A -> Q) l, (forall x, In x l -> (f x == g x)%Q) -> (qsum (map f l) == qsum (map g l))%Q.
Proof.
  intros A f g l H. induction l as [|x l IH]; [reflexivity|]. cbn. unfold qsum in IH. rewrite IH, (H x); [reflexivity|now left|]. intros y I. apply H. now right.
Qed.
Lemma qsum2 : forall h w f, (qsum (map (fun i => qsum (map (fun j => f i j) (zrange w))) (zrange h)) == sum2 h w f)%Q.
Proof. intros h w f. rewrite qsum_zrange. apply sum_n_ext. intros i _. apply qsum_zrange. Qed.

(** * Mirroring *)
Lemma mirror_mirrored : forall n p, 0 < n -> mirrored n p (mirror n p).
Proof.
  intros n p Hn. unfold mirror, mirrored. destruct (Z.leb_spec n 1) as [H|H]; [split; [lia|left; lia]|].
  cbn zeta. pose proof (Z.mod_pos_bound p (2 * (n - 1))) as B. pose proof (Z.div_mod p (2 * (n - 1))) as D.
  set (m := p mod (2 * (n - 1))) in *. set (t := p / (2 * (n - 1))) in *.
  destruct (Z.ltb_spec m n) as [H1|H1].
  - split; [lia|]. right. exists t. left. lia.
  - split; [lia|]. right. exists (t + 1). right. lia.
Qed.
Lemma mirrored_unique : forall n p m m', mirrored n p m -> mirrored n p m' -> m = m'.
Proof.
  intros n p m m' [B H] [B' H']. destruct H as [H|(t & H)], H' as [H'|(t' & H')]; try lia.
  destruct (Z.eq_dec n 1) as [->|N]; [lia|].
  assert (P : 0 < n - 1) by lia. set (d := n - 1) in *. assert (B1 : 0 <= m <= d) by lia. assert (B2 : 0 <= m' <= d) by lia. clearbody d.
  assert (T : t - t' = 0 \/ t - t' = 1 \/ t - t' = -1).
  { assert (- (2 * d) <= 2 * d * (t - t') <= 2 * d) by (destruct H, H'; nia). nia. }
  destruct T as [T|[T|T]]; destruct H as [H|H], H' as [H'|H']; nia.
Qed.

(** * Values *)
Lemma np_round_compat : forall a b, (a == b)%Q -> np_round a = np_round b.
Proof. intros a b H. apply Z.le_antisymm; apply np_round_mono; rewrite H; apply Qle_refl. Qed.
Lemma qclip_compat : forall a b lo hi, (a == b)%Q -> (qclip a lo hi == qclip b lo hi)%Q.
Proof. intros a b lo hi H. unfold qclip. apply qmin_compat; [apply qmax_compat; [exact H|reflexivity]|reflexivity]. Qed.
Lemma stored_compat : forall k q q' v v', (q == q')%Q -> (v == v')%Q -> stored k q v -> stored k q' v'.
Proof.
  intros k q q' v v' E Ev H. destruct k as [|b|b|b]; cbn [stored] in *.
  - rewrite <- E, <- Ev. exact H.
  - rewrite <- Ev, <- (np_round_compat q q' E). exact H.
  - rewrite <- Ev, <- (np_round_compat q q' E). exact H.
  - destruct b as [|[[[[[]|[]|]|[[]|[]|]|]|[[[]|[]|]|[[]|[]|]|]|]|[[[[]|[]|]|[[]|[]|]|]|[[[]|[]|]|[[]|[]|]|]|]|]|]; rewrite <- Ev; try (rewrite <- E; exact H).
    rewrite <- (qclip_compat q q' _ _ E). exact H.
Qed.
Lemma stored_float : forall b q v, stored (KFloat b) q v <-> (v == if b =? 16 then qclip q (-65504) 65504 else q)%Q.
Proof.
  intros b q v. destruct (Z.eqb_spec b 16) as [->|N]; [reflexivity|]. cbn [stored].
  destruct b as [|[[[[[]|[]|]|[[]|[]|]|]|[[[]|[]|]|[[]|[]|]|]|]|[[[[]|[]|]|[[]|[]|]|]|[[[]|[]|]|[[]|[]|]|]|]|]|]; try reflexivity. congruence.
Qed.
Lemma value_float : forall b v, value_of (KFloat b) v <-> (if b =? 16 then (-65504 <= v <= 65504)%Q else True).
Proof.
  intros b v. destruct (Z.eqb_spec b 16) as [->|N]; [reflexivity|]. cbn [value_of].
  destruct b as [|[[[[[]|[]|]|[[]|[]|]|]|[[[]|[]|]|[[]|[]|]|]|]|[[[[]|[]|]|[[]|[]|]|]|[[[]|[]|]|[[]|[]|]|]|]|]|]; try reflexivity. congruence.
Qed.
Lemma zclip_int8 : forall z, zclip (zclip z (- 2 ^ 15) (2 ^ 15 - 1)) (-128) 127 = zclip z (-128) 127.
Proof. intros z. unfold zclip. lia. Qed.
Lemma qclip_Z : forall z lo hi, (qclip (inject_Z z) (inject_Z lo) (inject_Z hi) == inject_Z (zclip z lo hi))%Q.
Proof.
  intros z lo hi. unfold qclip, zclip, qmin, qmax.
  destruct (qltb (inject_Z z) (inject_Z lo)) eqn:E1; [apply qltb_iff in E1|apply qltb_false in E1]; rewrite ?inject_Z_lt, ?inject_Z_le in E1.
  - replace (Z.max z lo) with lo by lia. destruct (qltb (inject_Z hi) (inject_Z lo)) eqn:E2; [apply qltb_iff in E2|apply qltb_false in E2];
      rewrite ?inject_Z_lt, ?inject_Z_le in E2; [replace (Z.min lo hi) with hi by lia|replace (Z.min lo hi) with lo by lia]; reflexivity.
  - replace (Z.max z lo) with z by lia. destruct (qltb (inject_Z hi) (inject_Z z)) eqn:E2; [apply qltb_iff in E2|apply qltb_false in E2];
      rewrite ?inject_Z_lt, ?inject_Z_le in E2; [replace (Z.min z hi) with hi by lia|replace (Z.min z hi) with z by lia]; reflexivity.
Qed.
Lemma finish_stored : forall k q, supported k = true -> stored k q (finish k (saturate (internal k) q)).
Proof.
  intros k q HS. destruct k as [|b|b|b].
  - cbn. destruct (qltb (1 # 2) q) eqn:E; [apply qltb_iff in E; left; split; [exact E|reflexivity]|apply qltb_false in E; right; split; [exact E|reflexivity]].
  - cbn. reflexivity.
  - cbn [internal finish stored]. destruct (Z.eqb_spec b 8) as [->|N]; [|reflexivity]. cbn [saturate].
    change (-128)%Q with (inject_Z (-128)). change 127%Q with (inject_Z 127). rewrite qclip_Z. rewrite zclip_int8. reflexivity.
  - apply stored_float. cbn [internal finish]. destruct (Z.eqb_spec b 16) as [->|N]; [cbn; reflexivity|]. cbn. reflexivity.
Qed.
Lemma finish_value : forall k v, value_of k v -> (finish k v == v)%Q.
Proof.
  intros k v H. destruct k as [|b|b|b].
  - cbn in *. destruct (qltb (1 # 2) v) eqn:E; [apply qltb_iff in E|apply qltb_false in E]; destruct H as [H|H]; rewrite H in *; try reflexivity; lra.
  - reflexivity.
  - cbn [finish]. destruct (Z.eqb_spec b 8) as [->|N]; [|reflexivity]. destruct H as (z & Ez & B). rewrite (qclip_compat v (inject_Z z)) by exact Ez.
    change (-128)%Q with (inject_Z (-128)). change 127%Q with (inject_Z 127). rewrite qclip_Z, Ez. cbn in B. unfold zclip. replace (Z.min (Z.max z (-128)) 127) with z by lia. reflexivity.
  - apply value_float in H. cbn [finish]. destruct (b =? 16); [|reflexivity]. unfold qclip, qmin, qmax.
    destruct H as [H1 H2]. destruct (qltb v (-65504)) eqn:E1; [apply qltb_iff in E1; lra|]. destruct (qltb 65504 v) eqn:E2; [apply qltb_iff in E2; lra|reflexivity].
Qed.
Lemma zclip_in : forall z lo hi, lo <= z <= hi -> zclip z lo hi = z.
Proof. intros z lo hi H. unfold zclip. lia. Qed.
Lemma stored_value : forall k q, value_of k q -> forall v, stored k q v -> (v == q)%Q.
Proof.
  intros k q H v S. destruct k as [|b|b|b].
  - cbn in *. destruct S as [[S1 S2]|[S1 S2]], H as [H|H]; rewrite H in *; try exact S2; lra.
  - cbn [stored value_of] in *. destruct H as (z & Ez & B). rewrite S, (np_round_compat q (inject_Z z) Ez), np_round_Z, zclip_in by exact B. symmetry. exact Ez.
  - cbn [stored value_of] in *. destruct H as (z & Ez & B). rewrite S, (np_round_compat q (inject_Z z) Ez), np_round_Z, zclip_in by exact B. symmetry. exact Ez.
  - apply stored_float in S. apply value_float in H. destruct (b =? 16); [|exact S]. rewrite S. unfold qclip, qmin, qmax.
    destruct H as [H1 H2]. destruct (qltb q (-65504)) eqn:E1; [apply qltb_iff in E1; lra|]. destruct (qltb 65504 q) eqn:E2; [apply qltb_iff in E2; lra|reflexivity].
Qed.
Lemma zclip_mono : forall a b lo hi, a <= b -> zclip a lo hi <= zclip b lo hi.
Proof. intros a b lo hi H. unfold zclip. lia. Qed.
Lemma qclip_mono : forall a b lo hi, (a <= b)%Q -> (qclip a lo hi <= qclip b lo hi)%Q.
Proof.
  intros a b lo hi H. unfold qclip. qminmax; lra.
Qed.
Lemma stored_mono : forall k q q' v v', (q <= q')%Q -> stored k q v -> stored k q' v' -> (v <= v')%Q.
Proof.
  intros k q q' v v' H S S'. destruct k as [|b|b|b].
  - cbn in S, S'. destruct S as [[A B]|[A B]], S' as [[A' B']|[A' B']]; rewrite B, B'; lra.
  - cbn in S, S'. rewrite S, S'. apply inject_Z_le, zclip_mono, np_round_mono, H.
  - cbn in S, S'. rewrite S, S'. apply inject_Z_le, zclip_mono, np_round_mono, H.
  - apply stored_float in S, S'. rewrite S, S'. destruct (b =? 16); [|exact H]. apply qclip_mono. exact H.
Qed.
Lemma stored_exists : forall k q, exists v, stored k q v.
Proof.
  intros k q. destruct k as [|b|b|b]; [|eexists; cbn; reflexivity|eexists; cbn; reflexivity|eexists; apply stored_float; reflexivity].
  cbn. destruct (qltb (1 # 2) q) eqn:E; [apply qltb_iff in E; exists 1%Q; left|apply qltb_false in E; exists 0%Q; right]; split; auto; reflexivity.
Qed.

(** * Filtering *)
Definition raw (h w : Z) (K : arr Q) (ch : Z -> Z -> Q) (y x : Z) : Q :=
  qsum (map (fun i => qsum (map (fun j =>
    (apx K i j * ch (mirror h (y + i - ah K / 2)%Z) (mirror w (x + j - aw K / 2)%Z))%Q) (zrange (aw K)))) (zrange (ah K))).
Lemma filter_raw : forall k h w K ch y x, filter2D k h w K ch y x = saturate k (raw h w K ch y x).
Proof. reflexivity. Qed.
Lemma raw_sum : forall h w K ch y x, 0 < h -> 0 < w -> weighted_sum K h w ch y x (raw h w K ch y x).
Proof.
  intros h w K ch y x Hh Hw. exists (fun i => mirror h (y + i - ah K / 2)), (fun j => mirror w (x + j - aw K / 2)).
  split; [intros i; apply mirror_mirrored; exact Hh|]. split; [intros j; apply mirror_mirrored; exact Hw|]. unfold raw. rewrite qsum2. reflexivity.
Qed.
Lemma weighted_unique : forall K h w ch y x q q', weighted_sum K h w ch y x q -> weighted_sum K h w ch y x q' -> (q == q')%Q.
Proof.
  intros K h w ch y x q q' (my & mx & Hy & Hx & E) (my' & mx' & Hy' & Hx' & E'). rewrite E, E'. apply sum2_ext. intros i j _ _.
  rewrite (mirrored_unique _ _ _ _ (Hy i) (Hy' i)), (mirrored_unique _ _ _ _ (Hx j) (Hx' j)). reflexivity.
Qed.
Lemma filter_stored : forall k h w K ch y x q, supported k = true -> 0 < h -> 0 < w -> weighted_sum K h w ch y x q ->
  stored k q (finish k (filter2D (internal k) h w K ch y x)).
Proof.
  intros k h w K ch y x q HS Hh Hw H. rewrite filter_raw. eapply (stored_compat k (raw h w K ch y x) q); [|reflexivity|apply finish_stored; exact HS].
  exact (weighted_unique _ _ _ _ _ _ _ _ (raw_sum h w K ch y x Hh Hw) H).
Qed.

(** * convolve_ *)
Lemma no_pixels_false : forall im, no_pixels im = false -> i_h im <> 0 /\ i_w im <> 0 /\ i_ch im <> [].
Proof.
  intros im H. unfold no_pixels in H. apply orb_false_iff in H. destruct H as [H H3]. apply orb_false_iff in H. destruct H as [H1 H2].
  apply Z.eqb_neq in H1, H2. apply Nat.eqb_neq in H3. split; [exact H1|]. split; [exact H2|]. intros E. rewrite E in H3. apply H3. reflexivity.
Qed.
Lemma nth_error_map' : forall {A B} (f : A -> B) l n, nth_error (map f l) n = option_map f (nth_error l n).
Proof. intros A B f l. induction l as [|x l IH]; intros [|n]; cbn; auto. Qed.
Lemma nth_error_combine : forall {A B} (l : list A) (l' : list B) n x y, nth_error l n = Some x -> nth_error l' n = Some y -> nth_error (combine l l') n = Some (x, y).
Proof. intros A B. induction l as [|a l IH]; intros [|b l'] [|n] x y H H'; cbn in *; try discriminate; [congruence|]. apply IH; assumption. Qed.
Lemma map_pair_nth : forall {A B C} (f : A -> B -> C) l l' n y z, length l = length l' -> nth_error l' n = Some y ->
  nth_error (map (fun p => f (fst p) (snd p)) (combine l l')) n = Some z -> exists x, nth_error l n = Some x /\ z = f x y.
Proof.
  intros A B C f. induction l as [|a l IH]; intros [|b l'] [|n] y z HL H H'; cbn in *; try discriminate.
  - injection H as ->. injection H' as <-. exists a. auto.
  - injection HL as HL. exact (IH l' n y z HL H H').
Qed.
Lemma nth_repeat' : forall {A} (x : A) n k, (k < n)%nat -> nth_error (repeat x n) k = Some x.
Proof. intros A x. induction n as [|n IH]; intros [|k] H; cbn; try lia; [reflexivity|]. apply IH. lia. Qed.

(** The filtered channels and the kernel of each. *)
Lemma convolve_ok : forall im k, supported (i_kind im) = true -> no_pixels im = false -> kernel_fits k (length (i_ch im)) ->
  exists im', convolve im k = Ok im' /\ i_kind im' = i_kind im /\ i_h im' = i_h im /\ i_w im' = i_w im /\ length (i_ch im') = length (i_ch im) /\
  forall c ch ch', nth_error (i_ch im) c = Some ch -> nth_error (i_ch im') c = Some ch' ->
    forall y x, ch' y x = finish (i_kind im) (filter_channel (internal (i_kind im)) (i_h im) (i_w im) (kernel_for k c) ch y x).
Proof.
  intros im k HS HN HK. destruct (no_pixels_false im HN) as (_ & _ & NE). unfold convolve. rewrite HS, HN. cbn [negb]. cbn zeta.
  set (n := length (i_ch im)) in *. set (kd := internal (i_kind im)).
  assert (Hn : (0 < n)%nat) by (unfold n; destruct (i_ch im); [congruence|cbn; lia]).
  assert (HM : exists ms, matrices_of k n = Ok ms /\ (ms = [kernel_for k 0] /\ (forall c, (c < n)%nat -> kernel_for k c = kernel_for k 0) \/
    length ms = n /\ (forall c, (c < n)%nat -> nth_error ms c = Some (kernel_for k c)))).
  { destruct k as [K| |l|]; cbn in HK; try contradiction.
    - exists [Some K]. split; [reflexivity|]. left. split; reflexivity.
    - exists l. cbn. rewrite HK, Nat.eqb_refl. split; [reflexivity|]. right. split; [reflexivity|]. intros c Hc. apply nth_error_nth'. lia. }
  destruct HM as (ms & -> & HM). cbn [bind].
  set (ms' := if (Nat.ltb 512 n && Nat.eqb (length ms) 1)%bool then repeat (hd None ms) n else ms).
  assert (HM' : (ms' = [kernel_for k 0] /\ (forall c, (c < n)%nat -> kernel_for k c = kernel_for k 0)) \/
    length ms' = n /\ (forall c, (c < n)%nat -> nth_error ms' c = Some (kernel_for k c))).
  { unfold ms'. destruct (Nat.ltb 512 n && Nat.eqb (length ms) 1)%bool eqn:E; [|exact HM]. right. rewrite repeat_length. split; [reflexivity|].
    intros c Hc. rewrite nth_repeat' by exact Hc. f_equal. destruct HM as [[-> HM]|[HL HM]]; [cbn; symmetry; apply HM; exact Hc|].
    apply andb_prop in E. destruct E as [E1 E2]. apply Nat.ltb_lt in E1. apply Nat.eqb_eq in E2. lia. }
  eexists. split; [reflexivity|]. cbn [i_kind i_h i_w i_ch]. split; [reflexivity|]. split; [reflexivity|]. split; [reflexivity|].
  assert (G : forall chs : list (Z -> Z -> Q), length chs = n ->
    (forall c ch z, nth_error (i_ch im) c = Some ch -> nth_error chs c = Some z -> z = filter_channel kd (i_h im) (i_w im) (kernel_for k c) ch) ->
    length (map (fun ch y x => finish (i_kind im) (ch y x)) chs) = n /\
    forall c ch ch', nth_error (i_ch im) c = Some ch -> nth_error (map (fun ch y x => finish (i_kind im) (ch y x)) chs) c = Some ch' ->
      forall y x, ch' y x = finish (i_kind im) (filter_channel kd (i_h im) (i_w im) (kernel_for k c) ch y x)).
  { intros chs HL H. rewrite map_length. split; [exact HL|]. intros c ch ch' Hc Hc' y x. rewrite nth_error_map' in Hc'.
    destruct (nth_error chs c) as [z|] eqn:Ez; [|discriminate]. cbn in Hc'. injection Hc' as <-. rewrite (H c ch z Hc Ez). reflexivity. }
  assert (Lt : forall c ch, nth_error (i_ch im) c = Some ch -> (c < n)%nat).
  { intros c ch H. apply nth_error_Some. unfold n in *. congruence. }
  destruct HM' as [[-> HM']|[HL HM']].
  - apply G; [apply map_length|]. intros c ch z Hc Hz. rewrite nth_error_map', Hc in Hz. cbn in Hz. injection Hz as <-. rewrite (HM' c (Lt c ch Hc)). reflexivity.
  - assert (G2 : forall c ch z, nth_error (i_ch im) c = Some ch ->
      nth_error (map (fun p => filter_channel kd (i_h im) (i_w im) (fst p) (snd p)) (combine ms' (i_ch im))) c = Some z ->
      z = filter_channel kd (i_h im) (i_w im) (kernel_for k c) ch).
    { intros c ch z Hc Hz. destruct (map_pair_nth (filter_channel kd (i_h im) (i_w im)) ms' (i_ch im) c ch z HL Hc Hz) as (m & Hm & ->).
      rewrite (HM' c (Lt c ch Hc)) in Hm. injection Hm as <-. reflexivity. }
    destruct ms' as [|m [|m' ms'']].
    + cbn in HL. lia.
    + apply G; [apply map_length|]. intros c ch z Hc Hz. rewrite nth_error_map', Hc in Hz. cbn in Hz. injection Hz as <-.
      pose proof (Lt c ch Hc) as L. cbn in HL. assert (c = 0)%nat by lia. subst c. specialize (HM' 0%nat Hn). cbn in HM'. injection HM' as ->. reflexivity.
    + apply G; [|exact G2]. rewrite map_length, combine_length, HL. unfold n. lia.
Qed.

Lemma convolve_pixels : forall im k, proper_image im -> supported (i_kind im) = true -> no_pixels im = false -> kernel_fits k (length (i_ch im)) ->
  exists im', convolve im k = Ok im' /\
    pixelwise (fun c ch y x v' => match kernel_for k c with
                                  | None => v' == ch y x
                                  | Some K => forall q, weighted_sum K (i_h im) (i_w im) ch y x q -> stored (i_kind im) q v'
                                  end)%Q im im'.
Proof.
  intros im k (P1 & P2 & PV) HS HN HK. destruct (convolve_ok im k HS HN HK) as (im' & E & A & B & C & D & F). exists im'. split; [exact E|].
  destruct (no_pixels_false im HN) as (N1 & N2 & _).
  split; [exact A|]. split; [exact B|]. split; [exact C|]. split; [exact D|]. intros c ch ch' y x Hc Hc' Hy Hx. rewrite (F c ch ch' Hc Hc' y x).
  destruct (kernel_for k c) as [K|]; cbn [filter_channel].
  - intros q Hq. apply filter_stored; auto; lia.
  - apply finish_value. apply PV; auto. exact (nth_error_In _ _ Hc).
Qed.

(** ** Weighted sums of special kernels and images *)
Lemma weighted_bounds : forall K h w ch y x q lo hi, averaging K -> weighted_sum K h w ch y x q ->
  (forall y x, 0 <= y < h -> 0 <= x < w -> (lo <= ch y x <= hi)%Q) -> (lo <= q <= hi)%Q.
Proof.
  intros K h w ch y x q lo hi [HP HW] (my & mx & Hy & Hx & E) HB. unfold weight in HW. rewrite E. split.
  - assert (X : (sum2 (ah K) (aw K) (fun i j => lo * apx K i j) <= sum2 (ah K) (aw K) (fun i j => apx K i j * ch (my i) (mx j)))%Q).
    { apply sum2_le. intros i j Hi Hj. destruct (HB (my i) (mx j)) as [L _]; [apply Hy|apply Hx|]. specialize (HP i j Hi Hj). nra. }
    rewrite sum2_scale, HW in X. lra.
  - assert (X : (sum2 (ah K) (aw K) (fun i j => apx K i j * ch (my i) (mx j)) <= sum2 (ah K) (aw K) (fun i j => hi * apx K i j))%Q).
    { apply sum2_le. intros i j Hi Hj. destruct (HB (my i) (mx j)) as [_ L]; [apply Hy|apply Hx|]. specialize (HP i j Hi Hj). nra. }
    rewrite sum2_scale, HW in X. lra.
Qed.
Lemma weighted_flat : forall K h w ch y x q v, weighted_sum K h w ch y x q ->
  (forall y x, 0 <= y < h -> 0 <= x < w -> (ch y x == v)%Q) -> (q == weight K * v)%Q.
Proof.
  intros K h w ch y x q v (my & mx & Hy & Hx & E) HB. rewrite E. unfold weight. rewrite Qmult_comm, <- sum2_scale. apply sum2_ext. intros i j _ _.
  rewrite (HB (my i) (mx j)); [ring|apply Hy|apply Hx].
Qed.
Lemma mirrored_self : forall n p, 0 <= p < n -> mirrored n p p.
Proof. intros n p H. split; [exact H|]. right. exists 0. left. lia. Qed.
Lemma sum33 : forall f, (sum2 3 3 f == f 0%Z 0%Z + f 0%Z 1%Z + f 0%Z 2%Z + f 1%Z 0%Z + f 1%Z 1%Z + f 1%Z 2%Z + f 2%Z 0%Z + f 2%Z 1%Z + f 2%Z 2%Z)%Q.
Proof. intros f. unfold sum2. change (Z.to_nat 3) with 3%nat. cbn [sum_n Z.of_nat Pos.of_succ_nat Pos.succ]. ring. Qed.
Lemma sum33_arr : forall a b c d e f g h i (p : Z -> Z -> Q), (sum2 3 3 (fun y x => apx (arr33 a b c d e f g h i) y x * p y x) ==
  a * p 0%Z 0%Z + b * p 0%Z 1%Z + c * p 0%Z 2%Z + d * p 1%Z 0%Z + e * p 1%Z 1%Z + f * p 1%Z 2%Z + g * p 2%Z 0%Z + h * p 2%Z 1%Z + i * p 2%Z 2%Z)%Q.
Proof. intros. rewrite sum33. reflexivity. Qed.
Lemma weight33 : forall a b c d e f g h i, (weight (arr33 a b c d e f g h i) == a + b + c + d + e + f + g + h + i)%Q.
Proof. intros. unfold weight. change (ah (arr33 a b c d e f g h i)) with 3. change (aw (arr33 a b c d e f g h i)) with 3. rewrite sum33. reflexivity. Qed.
(** A kernel with the centre only. *)
Lemma weighted_centre : forall K h w ch y x q, ah K = 3 -> aw K = 3 -> (forall i j, (apx K i j == apx matrix_nochange i j)%Q) ->
  0 <= y < h -> 0 <= x < w -> weighted_sum K h w ch y x q -> (q == ch y x)%Q.
Proof.
  intros K h w ch y x q Eh Ew EK By Bx (my & mx & Hy & Hx & E). rewrite E, Eh, Ew.
  rewrite (sum2_ext 3 3 _ (fun i j => apx matrix_nochange i j * ch (my i) (mx j))%Q) by (intros i j _ _; rewrite EK; reflexivity).
  unfold matrix_nochange. rewrite (sum33_arr _ _ _ _ _ _ _ _ _ (fun i j => ch (my i) (mx j))). rewrite Eh in Hy. rewrite Ew in Hx.
  assert (E1 : my 1 = y). { apply (mirrored_unique h y); [|apply mirrored_self; exact By]. specialize (Hy 1). replace (y + 1 - 3 / 2) with y in Hy by (cbn; lia). exact Hy. }
  assert (E2 : mx 1 = x). { apply (mirrored_unique w x); [|apply mirrored_self; exact Bx]. specialize (Hx 1). replace (x + 1 - 3 / 2) with x in Hx by (cbn; lia). exact Hx. }
  rewrite E1, E2. ring.
Qed.
(** Mixing kernels mixes the weighted sums. *)
Lemma weighted_mix : forall alpha E h w ch y x q qe, ah E = 3 -> aw E = 3 -> 0 <= y < h -> 0 <= x < w ->
  weighted_sum (mix alpha E) h w ch y x q -> weighted_sum E h w ch y x qe -> (q == (1 - alpha) * ch y x + alpha * qe)%Q.
Proof.
  intros alpha E h w ch y x q qe Eh Ew By Bx (my & mx & Hy & Hx & EQ) HE.
  assert (HE2 : weighted_sum E h w ch y x (sum2 3 3 (fun i j => apx E i j * ch (my i) (mx j)))%Q).
  { exists my, mx. rewrite Eh, Ew. split; [exact Hy|]. split; [exact Hx|]. reflexivity. }
  rewrite (weighted_unique _ _ _ _ _ _ _ _ HE HE2).
  assert (HN : weighted_sum matrix_nochange h w ch y x (sum2 3 3 (fun i j => apx matrix_nochange i j * ch (my i) (mx j)))%Q).
  { exists my, mx. split; [exact Hy|]. split; [exact Hx|]. reflexivity. }
  rewrite <- (weighted_centre matrix_nochange h w ch y x _ eq_refl eq_refl (fun i j => Qeq_refl _) By Bx HN).
  rewrite EQ, <- !sum2_scale, <- sum2_plus. apply sum2_ext. intros i j _ _. cbn [mix apx]. ring.
Qed.
Lemma weight_mix : forall alpha E, ah E = 3 -> aw E = 3 -> (weight (mix alpha E) == (1 - alpha) + alpha * weight E)%Q.
Proof.
  intros alpha E Eh Ew. unfold weight. rewrite Eh, Ew. cbn [mix ah aw apx].
  rewrite (sum2_plus 3 3 (fun i j => (1 - alpha) * apx matrix_nochange i j)%Q (fun i j => alpha * apx E i j)%Q), !sum2_scale.
  
  assert (W : (sum2 3 3 (apx matrix_nochange) == 1)%Q) by exact (weight33 0 0 0 0 1 0 0 0 0). rewrite W. change (sum2 3 3 (fun i j : Z => apx E i j)) with (sum2 3 3 (apx E)). ring.
Qed.

(** ** Consequences *)
Lemma pixelwise_impl : forall (P P' : nat -> (Z -> Z -> Q) -> Z -> Z -> Q -> Prop) im im',
  (forall c ch y x v, nth_error (i_ch im) c = Some ch -> 0 <= y < i_h im -> 0 <= x < i_w im -> P c ch y x v -> P' c ch y x v) ->
  pixelwise P im im' -> pixelwise P' im im'.
Proof. intros P P' im im' H (A & B & C & D & E). split; [exact A|]. split; [exact B|]. split; [exact C|]. split; [exact D|]. intros c ch ch' y x Hc Hc' Hy Hx. apply H; auto. Qed.
Lemma same_image_refl : forall im, same_image im im.
Proof. intros im. split; [reflexivity|]. split; [reflexivity|]. split; [reflexivity|]. split; [reflexivity|]. intros c ch ch' y x Hc Hc' _ _. rewrite Hc in Hc'. injection Hc' as <-. reflexivity. Qed.
Lemma pixel_positive : forall im c ch y x, proper_image im -> nth_error (i_ch im) c = Some ch -> 0 <= y < i_h im -> 0 <= x < i_w im -> 0 < i_h im /\ 0 < i_w im.
Proof. intros. lia. Qed.
Lemma convolve_flat : forall im K v, proper_image im -> supported (i_kind im) = true -> flat v im ->
  exists im', convolve im (KArr K) = Ok im' /\ pixelwise (fun _ _ _ _ v' => stored (i_kind im) (weight K * v) v')%Q im im'.
Proof.
  intros im K v HP HS HF. destruct (no_pixels im) eqn:HN.
  - exists im. split; [unfold convolve; rewrite HS, HN; reflexivity|]. split; [reflexivity|]. split; [reflexivity|]. split; [reflexivity|]. split; [reflexivity|].
    intros c ch ch' y x Hc _ Hy Hx. exfalso. unfold no_pixels in HN. apply orb_prop in HN. destruct HN as [HN|HN]; [lia|]. apply Nat.eqb_eq in HN.
    destruct (i_ch im); [destruct c; discriminate Hc|discriminate HN].
  - destruct (convolve_pixels im (KArr K) HP HS HN I) as (im' & E & H). exists im'. split; [exact E|]. revert H. apply pixelwise_impl.
    intros c ch y x v' Hc Hy Hx H. cbn in H. pose proof (raw_sum (i_h im) (i_w im) K ch y x) as R. specialize (R ltac:(lia) ltac:(lia)).
    apply (stored_compat _ (raw (i_h im) (i_w im) K ch y x) _ v' v'); [|reflexivity|apply H; exact R].
    apply (weighted_flat _ _ _ _ _ _ _ v R). intros y0 x0 Hy0 Hx0. apply (HF ch); auto. exact (nth_error_In _ _ Hc).
Qed.
Lemma convolve_between : forall im k im' c K lo hi, proper_image im -> supported (i_kind im) = true -> convolve im k = Ok im' -> kernel_fits k (length (i_ch im)) ->
  kernel_for k c = Some K -> averaging K -> value_of (i_kind im) lo -> value_of (i_kind im) hi -> between im c lo hi -> between im' c lo hi.
Proof.
  intros im k im' c K lo hi HP HS HE HK Ek HA VL VH HB. destruct (no_pixels im) eqn:HN.
  - unfold convolve in HE. rewrite HS, HN in HE. injection HE as <-. exact HB.
  - destruct (convolve_pixels im k HP HS HN HK) as (im2 & E & H). rewrite E in HE. injection HE as ->.
    destruct H as (A & B & C & D & H). intros ch' y x Hc' Hy Hx. rewrite B in Hy. rewrite C in Hx.
    destruct (nth_error (i_ch im) c) as [ch|] eqn:Hc; [|apply nth_error_None in Hc; rewrite <- D in Hc; apply nth_error_None in Hc; congruence].
    specialize (H c ch ch' y x Hc Hc' Hy Hx). rewrite Ek in H. pose proof (raw_sum (i_h im) (i_w im) K ch y x) as R. specialize (R ltac:(lia) ltac:(lia)).
    specialize (H _ R). destruct (weighted_bounds _ _ _ _ _ _ _ lo hi HA R) as [B1 B2]; [intros y0 x0 Hy0 Hx0; apply HB; auto|].
    destruct (stored_exists (i_kind im) lo) as (vl & SL), (stored_exists (i_kind im) hi) as (vh & SH).
    rewrite <- (stored_value _ _ VL _ SL) at 1. rewrite <- (stored_value _ _ VH _ SH). split.
    + exact (stored_mono _ _ _ _ _ B1 SL H).
    + exact (stored_mono _ _ _ _ _ B2 H SH).
Qed.
Lemma convolve_array_as_list : forall im K, convolve im (KArr K) = convolve im (KList (repeat (Some K) (length (i_ch im)))).
Proof.
  intros im K. unfold convolve. destruct (supported (i_kind im)); [|reflexivity]. cbn [negb]. destruct (no_pixels im) eqn:HN; [reflexivity|].
  destruct (no_pixels_false im HN) as (_ & _ & NE). cbn zeta. cbn [matrices_of]. rewrite repeat_length, Nat.eqb_refl. cbn [bind length Nat.eqb hd].
  rewrite repeat_length. rewrite andb_true_r.
  set (kd := internal (i_kind im)). set (n := length (i_ch im)) in *.
  assert (Hn : (0 < n)%nat) by (unfold n; destruct (i_ch im); [congruence|cbn; lia]).
  assert (M : map (fun p => filter_channel kd (i_h im) (i_w im) (fst p) (snd p)) (combine (repeat (Some K) n) (i_ch im)) = map (filter_channel kd (i_h im) (i_w im) (Some K)) (i_ch im)).
  { unfold n. clear. induction (i_ch im) as [|c l IH]; [reflexivity|]. cbn. f_equal. exact IH. }
  destruct (Nat.ltb_spec 512 n) as [H|H].
  - replace (Nat.eqb n 1) with false by (symmetry; apply Nat.eqb_neq; lia). cbn [andb]. reflexivity.
  - cbn [andb]. destruct n as [|[|n]]; [lia|reflexivity|]. cbn [repeat] in *. rewrite M. reflexivity.
Qed.

(** * Sharpen, Emboss, EdgeDetect *)
Lemma with_alpha_ok : forall alpha E, (0 <= alpha <= 1)%Q -> with_alpha alpha E = Ok (mix alpha E).
Proof. intros alpha E [H1 H2]. unfold with_alpha. rewrite (proj2 (qleb_iff _ _) H1), (proj2 (qleb_iff _ _) H2). reflexivity. Qed.
Lemma with_alpha_bad : forall alpha E, ~ (0 <= alpha <= 1)%Q -> with_alpha alpha E = Err AssertionError.
Proof.
  intros alpha E H. unfold with_alpha. destruct (qleb 0 alpha) eqn:E1; [|reflexivity]. destruct (qleb alpha 1) eqn:E2; [|reflexivity].
  apply qleb_iff in E1, E2. exfalso. apply H. split; assumption.
Qed.
Lemma around_sum : forall E h w ch y x p, ah E = 3 -> aw E = 3 -> around h w ch y x p ->
  weighted_sum E h w ch y x (sum2 3 3 (fun i j => apx E i j * p (i - 1)%Z (j - 1)%Z))%Q.
Proof.
  intros E h w ch y x p Eh Ew (my & mx & Hy & Hx & P). exists (fun i => my (i - 1)), (fun j => mx (j - 1)). rewrite Eh, Ew.
  split; [intros i; replace (y + i - 3 / 2) with (y + (i - 1)) by (cbn; lia); apply Hy|].
  split; [intros j; replace (x + j - 3 / 2) with (x + (j - 1)) by (cbn; lia); apply Hx|].
  apply sum2_ext. intros i j _ _. rewrite P. reflexivity.
Qed.
Lemma no_pixels_pixelwise : forall P im, no_pixels im = true -> pixelwise P im im.
Proof.
  intros P im HN. split; [reflexivity|]. split; [reflexivity|]. split; [reflexivity|]. split; [reflexivity|].
  intros c ch ch' y x Hc _ Hy Hx. exfalso. unfold no_pixels in HN. apply orb_prop in HN. destruct HN as [HN|HN]; [lia|]. apply Nat.eqb_eq in HN.
  destruct (i_ch im); [destruct c; discriminate Hc|discriminate HN].
Qed.
Lemma effect_ok : forall im alpha E (effect : (Z -> Z -> Q) -> Q), proper_image im -> supported (i_kind im) = true -> (0 <= alpha <= 1)%Q ->
  ah E = 3 -> aw E = 3 -> (forall p, sum2 3 3 (fun i j => apx E i j * p (i - 1)%Z (j - 1)%Z) == effect p)%Q ->
  exists K im', with_alpha alpha E = Ok K /\ convolve im (KArr K) = Ok im' /\ blended alpha effect im im'.
Proof.
  intros im alpha E effect HP HS HA Eh Ew HE. exists (mix alpha E). rewrite with_alpha_ok by exact HA. destruct (no_pixels im) eqn:HN.
  - exists im. split; [reflexivity|]. split; [unfold convolve; rewrite HS, HN; reflexivity|]. apply no_pixels_pixelwise. exact HN.
  - destruct (convolve_pixels im (KArr (mix alpha E)) HP HS HN I) as (im' & EC & H). exists im'. split; [reflexivity|]. split; [exact EC|].
    revert H. apply pixelwise_impl. intros c ch y x v Hc Hy Hx H p Hp. cbn [kernel_for] in H.
    pose proof (raw_sum (i_h im) (i_w im) (mix alpha E) ch y x ltac:(lia) ltac:(lia)) as R.
    apply (stored_compat _ (raw (i_h im) (i_w im) (mix alpha E) ch y x) _ v v); [|reflexivity|apply H; exact R].
    rewrite (weighted_mix alpha E _ _ ch y x _ _ Eh Ew Hy Hx R (around_sum E _ _ ch y x p Eh Ew Hp)), (HE p). reflexivity.
Qed.
Lemma sharpen_sum : forall l p, (sum2 3 3 (fun i j => apx (sharpen_effect l) i j * p (i - 1)%Z (j - 1)%Z) == sharpened l p)%Q.
Proof. intros l p. unfold sharpen_effect. rewrite (sum33_arr _ _ _ _ _ _ _ _ _ (fun i j => p (i - 1)%Z (j - 1)%Z)). unfold sharpened. cbn [Z.sub Z.add Z.opp Pos.sub Pos.sub_mask Z.pos_sub Pos.pred_double]. ring. Qed.
Lemma emboss_sum : forall l p, (sum2 3 3 (fun i j => apx (emboss_effect l) i j * p (i - 1)%Z (j - 1)%Z) == embossed l p)%Q.
Proof. intros l p. unfold emboss_effect. rewrite (sum33_arr _ _ _ _ _ _ _ _ _ (fun i j => p (i - 1)%Z (j - 1)%Z)). unfold embossed. cbn [Z.sub Z.add Z.opp Pos.sub Pos.sub_mask Z.pos_sub Pos.pred_double]. ring. Qed.
Lemma edge_sum : forall p, (sum2 3 3 (fun i j => apx edge_effect i j * p (i - 1)%Z (j - 1)%Z) == edges_of p)%Q.
Proof. intros p. unfold edge_effect. rewrite (sum33_arr _ _ _ _ _ _ _ _ _ (fun i j => p (i - 1)%Z (j - 1)%Z)). unfold edges_of. cbn [Z.sub Z.add Z.opp Pos.sub Pos.sub_mask Z.pos_sub Pos.pred_double]. ring. Qed.
Lemma around_exists : forall h w ch y x, 0 < h -> 0 < w -> exists p, around h w ch y x p.
Proof.
  intros h w ch y x Hh Hw. exists (fun dy dx => ch (mirror h (y + dy)) (mirror w (x + dx))), (fun d => mirror h (y + d)), (fun d => mirror w (x + d)).
  split; [intros d; apply mirror_mirrored; exact Hh|]. split; [intros d; apply mirror_mirrored; exact Hw|]. reflexivity.
Qed.
Lemma blended_zero : forall alpha effect im im', proper_image im -> (alpha == 0)%Q -> blended alpha effect im im' -> same_image im im'.
Proof.
  intros alpha effect im im' (_ & _ & HP) HA. apply pixelwise_impl. intros c ch y x v Hc Hy Hx H.
  destruct (around_exists (i_h im) (i_w im) ch y x ltac:(lia) ltac:(lia)) as (p & Hp).
  apply (stored_value (i_kind im)); [apply HP; auto; exact (nth_error_In _ _ Hc)|].
  eapply stored_compat; [|reflexivity|apply H; exact Hp]. rewrite HA. ring.
Qed.
Lemma blended_flat : forall alpha effect s im im' v, (forall p, (forall dy dx, (p dy dx == v)%Q) -> (effect p == s * v)%Q) -> flat v im -> blended alpha effect im im' ->
  pixelwise (fun _ _ _ _ v' => stored (i_kind im) (((1 - alpha) + alpha * s) * v)%Q v') im im'.
Proof.
  intros alpha effect s im im' v HE HF. apply pixelwise_impl. intros c ch y x v' Hc Hy Hx H.
  destruct (around_exists (i_h im) (i_w im) ch y x ltac:(lia) ltac:(lia)) as (p & Hp).
  eapply stored_compat; [|reflexivity|apply H; exact Hp]. pose proof (nth_error_In _ _ Hc) as I1. rewrite (HF ch y x I1 Hy Hx).
  rewrite (HE p); [ring|]. destruct Hp as (my & mx & Hmy & Hmx & P). intros dy dx. rewrite P. apply HF; [exact I1|apply Hmy|apply Hmx].
Qed.
Lemma blended_float : forall alpha effect im im1 ima b, i_kind im = KFloat b -> b <> 16 -> blended 1 effect im im1 -> blended alpha effect im ima ->
  pixelwise (fun c ch y x v' => forall ch1, nth_error (i_ch im1) c = Some ch1 -> (v' == (1 - alpha) * ch y x + alpha * ch1 y x)%Q) im ima.
Proof.
  intros alpha effect im im1 ima b EK Nb (A1 & B1 & C1 & D1 & H1). apply pixelwise_impl. intros c ch y x v Hc Hy Hx H ch1 Hc1.
  destruct (around_exists (i_h im) (i_w im) ch y x ltac:(lia) ltac:(lia)) as (p & Hp). specialize (H p Hp). specialize (H1 c ch ch1 y x Hc Hc1 Hy Hx p Hp).
  rewrite EK in H, H1. apply stored_float in H, H1. apply Z.eqb_neq in Nb. rewrite Nb in H, H1. rewrite H, H1. ring.
Qed.

(** * Blurs *)
Lemma odd_mod : forall k, Z.odd k = negb (k mod 2 =? 0).
Proof. intros k. rewrite Zmod_odd. destruct (Z.odd k); reflexivity. Qed.
Lemma bump_odd : forall k, Z.odd (if k mod 2 =? 0 then k + 1 else k) = true.
Proof.
  intros k. destruct (k mod 2 =? 0) eqn:E; [|rewrite odd_mod, E; reflexivity]. rewrite Z.odd_add. cbn. rewrite odd_mod, E. reflexivity.
Qed.
Lemma bump_bounds : forall k, k <= (if k mod 2 =? 0 then k + 1 else k) <= k + 1.
Proof. intros k. destruct (k mod 2 =? 0); lia. Qed.
Lemma sum_n_const : forall n c, (sum_n n (fun _ => c) == inject_Z (Z.of_nat n) * c)%Q.
Proof.
  induction n as [|n IH]; intros c; cbn [sum_n]; [ring|]. rewrite IH. rewrite Nat2Z.inj_succ. unfold Z.succ. rewrite inject_Z_plus. ring.
Qed.
Lemma sum2_const : forall h w c, 0 <= h -> 0 <= w -> (sum2 h w (fun _ _ => c) == inject_Z (h * w) * c)%Q.
Proof.
  intros h w c Hh Hw. unfold sum2. rewrite (sum_n_ext _ _ (fun _ => inject_Z w * c)%Q).
  - rewrite sum_n_const, Z2Nat.id by exact Hh. rewrite inject_Z_mult. ring.
  - intros i _. rewrite sum_n_const, Z2Nat.id by exact Hw. reflexivity.
Qed.
Lemma box_averaging : forall kh kw, 0 < kh -> 0 < kw -> averaging (box kh kw).
Proof.
  intros kh kw Hh Hw. assert (P : (0 < inject_Z (kh * kw))%Q) by (apply (inject_Z_lt 0); nia). split.
  - intros i j _ _. cbn [box apx]. apply Qle_shift_div_l; [exact P|]. lra.
  - unfold weight. cbn [box ah aw apx]. rewrite sum2_const by lia. field. intros E. rewrite E in P. lra.
Qed.
Lemma mean_weighted : forall kh kw h w ch y x q, 0 < kh -> 0 < kw -> mean_around kh kw h w ch y x q <-> weighted_sum (box kh kw) h w ch y x q.
Proof.
  intros kh kw h w ch y x q Hh Hw. assert (P : ~ (inject_Z (kh * kw) == 0)%Q).
  { intros E. assert (P : (0 < inject_Z (kh * kw))%Q) by (apply (inject_Z_lt 0); nia). rewrite E in P. lra. }
  split; intros (my & mx & Hy & Hx & E); exists my, mx; (split; [exact Hy|]); (split; [exact Hx|]); rewrite E; cbn [box ah aw apx];
    rewrite sum2_scale; field; exact P.
Qed.
Lemma blur_avg_convolve : forall im kh kw, 0 < kh -> 0 < kw -> ~ (kh = 1 /\ kw = 1) ->
  no_pixels im = false -> blur_avg im kh kw = convolve im (KArr (box kh kw)).
Proof.
  intros im kh kw Hh Hw HN HP. unfold blur_avg, convolve. rewrite HP. replace (kh <=? 0) with false by (symmetry; apply Z.leb_gt; lia).
  replace (kw <=? 0) with false by (symmetry; apply Z.leb_gt; lia). cbn [orb].
  destruct ((kh =? 1) && (kw =? 1)) eqn:E; [apply andb_prop in E; destruct E as [E1 E2]; apply Z.eqb_eq in E1, E2; tauto|].
  destruct (supported (i_kind im)); cbn [negb]; [|reflexivity]. cbn zeta. cbn [matrices_of bind].
  cbn [length Nat.eqb hd]. rewrite andb_true_r. destruct (no_pixels_false im HP) as (_ & _ & NE). destruct (Nat.ltb_spec 512 (length (i_ch im))) as [L|L].
  - destruct (i_ch im) as [|c0 [|c1 l]] eqn:El; [congruence|cbn in L; lia|]. cbn [length repeat]. f_equal. f_equal.
    assert (M : forall chs, map (fun p => filter_channel (internal (i_kind im)) (i_h im) (i_w im) (fst p) (snd p)) (combine (repeat (Some (box kh kw)) (length chs)) chs) =
      map (filter_channel (internal (i_kind im)) (i_h im) (i_w im) (Some (box kh kw))) chs) by (induction chs as [|c' l' IH]; [reflexivity|cbn; f_equal; exact IH]).
    change (Some (box kh kw) :: Some (box kh kw) :: repeat (Some (box kh kw)) (length l)) with (repeat (Some (box kh kw)) (length (c0 :: c1 :: l))).
    rewrite M, map_map. reflexivity.
  - rewrite map_map. reflexivity.
Qed.
Lemma blur_avg_pixels : forall im kh kw, proper_image im -> supported (i_kind im) = true -> 0 < kh -> 0 < kw ->
  exists im', blur_avg im kh kw = Ok im' /\
    pixelwise (fun _ ch y x v' => forall q, mean_around kh kw (i_h im) (i_w im) ch y x q -> stored (i_kind im) q v') im im'.
Proof.
  intros im kh kw HP HS Hh Hw. destruct (no_pixels im) eqn:HN.
  - exists im. split; [unfold blur_avg; rewrite HN; reflexivity|]. apply no_pixels_pixelwise. exact HN.
  - destruct (Z.eq_dec kh 1) as [E1|E1]; [destruct (Z.eq_dec kw 1) as [E2|E2]|].
    + subst. exists im. split; [unfold blur_avg; rewrite HN; reflexivity|]. destruct HP as (_ & _ & HV).
      split; [reflexivity|]. split; [reflexivity|]. split; [reflexivity|]. split; [reflexivity|]. intros c ch ch' y x Hc Hc' Hy Hx q (my & mx & Hmy & Hmx & Eq).
      rewrite Hc in Hc'. injection Hc' as <-. assert (Q1 : (q == ch y x)%Q).
      { rewrite Eq. change (sum2 1 1 (fun i j => ch (my i) (mx j))) with (0 + (0 + ch (my 0%Z) (mx 0%Z)))%Q. specialize (Hmy 0). specialize (Hmx 0).
        rewrite (mirrored_unique _ _ _ y Hmy), (mirrored_unique _ _ _ x Hmx); [change (inject_Z (1 * 1)) with 1%Q; field| |];
        [replace (x + 0 - 1 / 2) with x by (cbn; lia)|replace (y + 0 - 1 / 2) with y by (cbn; lia)]; apply mirrored_self; assumption. }
      destruct (stored_exists (i_kind im) (ch y x)) as (v & Sv). pose proof (stored_value _ _ (HV ch y x (nth_error_In _ _ Hc) Hy Hx) v Sv) as Ev.
      apply (stored_compat _ (ch y x) q v (ch y x)); [symmetry; exact Q1|exact Ev|exact Sv].
    + rewrite blur_avg_convolve by (auto; lia). destruct (convolve_pixels im (KArr (box kh kw)) HP HS HN I) as (im' & E & H). exists im'. split; [exact E|].
      revert H. apply pixelwise_impl. intros c ch y x v Hc Hy Hx H q Hq. apply H. apply mean_weighted; assumption.
    + rewrite blur_avg_convolve by (auto; lia). destruct (convolve_pixels im (KArr (box kh kw)) HP HS HN I) as (im' & E & H). exists im'. split; [exact E|].
      revert H. apply pixelwise_impl. intros c ch y x v Hc Hy Hx H q Hq. apply H. apply mean_weighted; assumption.
Qed.
Lemma blur_avg_between : forall im kh kw im' c lo hi, proper_image im -> supported (i_kind im) = true -> blur_avg im kh kw = Ok im' ->
  value_of (i_kind im) lo -> value_of (i_kind im) hi -> between im c lo hi -> between im' c lo hi.
Proof.
  intros im kh kw im' c lo hi HP HS HE VL VH HB. destruct (no_pixels im) eqn:HN; [unfold blur_avg in HE; rewrite HN in HE; injection HE as <-; exact HB|].
  destruct (Z.leb_spec kh 0) as [L1|L1]; [unfold blur_avg in HE; rewrite HN in HE; replace (kh <=? 0) with true in HE by (symmetry; apply Z.leb_le; lia); injection HE as <-; exact HB|].
  destruct (Z.leb_spec kw 0) as [L2|L2]; [unfold blur_avg in HE; rewrite HN in HE; replace (kw <=? 0) with true in HE by (symmetry; apply Z.leb_le; lia); rewrite orb_true_r in HE; injection HE as <-; exact HB|].
  destruct (Z.eq_dec kh 1) as [E1|E1]; [destruct (Z.eq_dec kw 1) as [E2|E2]|].
  - subst. unfold blur_avg in HE. rewrite HN in HE. injection HE as <-. exact HB.
  - rewrite blur_avg_convolve in HE by (auto; lia). exact (convolve_between im (KArr (box kh kw)) im' c (box kh kw) lo hi HP HS HE I eq_refl (box_averaging kh kw L1 L2) VL VH HB).
  - rewrite blur_avg_convolve in HE by (auto; lia). exact (convolve_between im (KArr (box kh kw)) im' c (box kh kw) lo hi HP HS HE I eq_refl (box_averaging kh kw L1 L2) VL VH HB).
Qed.

(** ** Gaussian kernel sizes *)
Lemma gaussian_ksize_odd : forall s, Z.odd (gaussian_ksize s) = true.
Proof. intros s. unfold gaussian_ksize. apply bump_odd. Qed.
Lemma gaussian_ksize_bounds : forall s, 5 <= gaussian_ksize s /\ ((26 # 10) * s - 1 < inject_Z (gaussian_ksize s))%Q /\
  (inject_Z (gaussian_ksize s) <= qmax 5 ((33 # 10) * s) + 1)%Q.
Proof.
  intros s. unfold gaussian_ksize. cbn zeta.
  set (q := if qltb s 3 then ((33 # 10) * s)%Q else if qltb s 5 then ((29 # 10) * s)%Q else ((26 # 10) * s)%Q).
  assert (Q1 : ((26 # 10) * s <= qmax q 5)%Q /\ (qmax q 5 <= qmax 5 ((33 # 10) * s))%Q).
  { unfold q. destruct (qltb s 3) eqn:E1; [apply qltb_iff in E1|apply qltb_false in E1; destruct (qltb s 5) eqn:E2; [apply qltb_iff in E2|apply qltb_false in E2]];
    split; qminmax; lra. }
  assert (Q2 : (5 <= qmax q 5)%Q) by (qminmax; lra). clearbody q. set (m := qmax q 5) in *. set (M := qmax 5 ((33 # 10) * s)) in *.
  clearbody m M. destruct (py_int_nonneg m) as (_ & F1 & F2); [lra|]. set (f := py_int m) in *. clearbody f.
  assert (F5 : 5 <= f). { assert (X : (4 < inject_Z f)%Q) by lra. apply (proj1 (inject_Z_lt 4 f)) in X. lia. }
  pose proof (bump_bounds f) as [B1 B2]. set (k := if f mod 2 =? 0 then f + 1 else f) in *. clearbody k.
  split; [lia|]. apply inject_Z_le in B1, B2. rewrite inject_Z_plus in B2. change (inject_Z 1) with 1%Q in B2. destruct Q1. split; lra.
Qed.

(** ** MotionBlur *)
Lemma sum_n_nonneg : forall n f, (forall i, 0 <= i < Z.of_nat n -> (0 <= f i)%Q) -> (0 <= sum_n n f)%Q.
Proof. induction n as [|n IH]; intros f H; cbn [sum_n]; [lra|]. assert (A := H (Z.of_nat n) ltac:(lia)). assert (B : (0 <= sum_n n f)%Q) by (apply IH; intros i Hi; apply H; lia). lra. Qed.
Lemma sum_n_pos : forall n f k, (forall i, 0 <= i < Z.of_nat n -> (0 <= f i)%Q) -> 0 <= k < Z.of_nat n -> (0 < f k)%Q -> (0 < sum_n n f)%Q.
Proof.
  induction n as [|n IH]; intros f k H Hk Hp; [cbn in Hk; lia|]. cbn [sum_n].
  assert (A := H (Z.of_nat n) ltac:(lia)). assert (B : (0 <= sum_n n f)%Q) by (apply sum_n_nonneg; intros i Hi; apply H; lia).
  destruct (Z.eq_dec k (Z.of_nat n)) as [->|N]; [lra|]. assert (C : (0 < sum_n n f)%Q) by (apply (IH f k); [intros i Hi; apply H; lia|lia|exact Hp]). lra.
Qed.
Lemma sum2_pos : forall h w f y x, (forall i j, 0 <= i < h -> 0 <= j < w -> (0 <= f i j)%Q) -> 0 <= y < h -> 0 <= x < w -> (0 < f y x)%Q -> (0 < sum2 h w f)%Q.
Proof.
  intros h w f y x H Hy Hx Hp. unfold sum2. apply (sum_n_pos _ _ y); [|lia|].
  - intros i Hi. apply sum_n_nonneg. intros j Hj. apply H; lia.
  - apply (sum_n_pos _ _ x); [|lia|exact Hp]. intros j Hj. apply H; lia.
Qed.
Lemma motion_column_nonneg : forall k d y x, 1 < k -> 0 <= y < k -> 0 <= x < k -> 0 <= apx (motion_column k d) y x.
Proof.
  intros k d y x Hk Hy Hx. cbn [motion_column apx]. destruct (x =? k / 2); [|lia].
  assert (D : (0 <= (qclip d (-1) 1 + 1) / 2 <= 1)%Q).
  { assert (B : (-1 <= qclip d (-1) 1 <= 1)%Q) by (apply qclip_in; lra). set (c := qclip d (-1) 1) in *. clearbody c. split; [apply Qle_shift_div_l; lra|apply Qle_shift_div_r; lra]. }
  set (e := ((qclip d (-1) 1 + 1) / 2)%Q) in *. clearbody e. change 0 with (Qfloor 0). apply Qfloor_resp_le. unfold linspace.
  replace (k <=? 1) with false by (symmetry; apply Z.leb_gt; lia).
  assert (T : (0 <= inject_Z y / inject_Z (k - 1) <= 1)%Q).
  { assert (P : (0 < inject_Z (k - 1))%Q) by (apply (inject_Z_lt 0); lia). split.
    - apply Qle_shift_div_l; [exact P|]. rewrite Qmult_0_l. apply (inject_Z_le 0). lia.
    - apply Qle_shift_div_r; [exact P|]. rewrite Qmult_1_l. apply inject_Z_le. lia. }
  assert (NZ : ~ (inject_Z (k - 1) == 0)%Q). { intros E. assert (P : (0 < inject_Z (k - 1))%Q) by (apply (inject_Z_lt 0); lia). rewrite E in P. lra. }
  assert (R : (e + inject_Z y * ((1 - e - e) / inject_Z (k - 1)) == e + (inject_Z y / inject_Z (k - 1)) * (1 - 2 * e))%Q) by (field; exact NZ).
  rewrite R. set (t := (inject_Z y / inject_Z (k - 1))%Q) in *. clearbody t. clear R NZ. assert (X : (0 <= e * (1 - t) + t * (1 - e))%Q) by nra. nra.
Qed.
Lemma motion_column_centre : forall k d, 1 < k -> Z.odd k = true -> 0 < apx (motion_column k d) (k / 2) (k / 2).
Proof.
  intros k d Hk Ho. cbn [motion_column apx]. rewrite Z.eqb_refl. unfold linspace. replace (k <=? 1) with false by (symmetry; apply Z.leb_gt; lia).
  set (e := ((qclip d (-1) 1 + 1) / 2)%Q). clearbody e. apply Z.odd_spec in Ho. destruct Ho as (t & ->).
  replace ((2 * t + 1) / 2) with t by (rewrite Z.mul_comm, Z.div_add_l by lia; cbn; lia). replace (2 * t + 1 - 1) with (2 * t) by lia.
  assert (NT : ~ (inject_Z t == 0)%Q). { intros E. assert (P : (0 < inject_Z t)%Q) by (apply (inject_Z_lt 0); lia). rewrite E in P. lra. }
  assert (R : ((e + inject_Z t * ((1 - e - e) / inject_Z (2 * t))) * 255 == 255 # 2)%Q). { rewrite inject_Z_mult. field. exact NT. }
  rewrite (Qfloor_comp _ _ R). reflexivity.
Qed.
Lemma motion_ok : forall rotate k d n, rotates rotate -> 2 <= k ->
  exists K, motion_matrix rotate k d n = Ok (KList (repeat (Some K) n)) /\ ah K = aw K /\ Z.odd (ah K) = true /\ k <= ah K <= k + 1 /\ averaging K.
Proof.
  intros rotate k d n HR Hk. pose proof (bump_bounds k) as B. pose proof (bump_odd k) as O. unfold motion_matrix. fold (motion_k k) in B, O.
  set (c := motion_column (motion_k k) d). destruct (HR c) as (Eh & Ew & HN & HC). change (ah c) with (motion_k k) in *. change (aw c) with (motion_k k) in *.
  set (K := motion_k k) in *. assert (P1 : forall y x, 0 <= y < K -> 0 <= x < K -> 0 <= apx (rotate c) y x).
  { apply HN. intros y x Hy Hx. apply motion_column_nonneg; lia. }
  assert (P2 : 0 < apx (rotate c) (K / 2) (K / 2)). { apply HC. apply motion_column_centre; [lia|exact O]. }
  cbn zeta. set (m := rotate c) in *. clearbody m. rewrite Eh, Ew.
  set (f := fun i j => (inject_Z (apx m i j) / 255)%Q).
  assert (T : (qsum (map (fun i => qsum (map (fun j => f i j) (zrange K))) (zrange K)) == sum2 K K f)%Q) by apply qsum2.
  change (qsum (map (fun i => qsum (map (fun j => (inject_Z (apx m i j) / 255)%Q) (zrange K))) (zrange K))) with (qsum (map (fun i => qsum (map (fun j => f i j) (zrange K))) (zrange K))).
  set (total := qsum (map (fun i => qsum (map (fun j => f i j) (zrange K))) (zrange K))) in *. clearbody total.
  assert (F0 : forall i j, 0 <= i < K -> 0 <= j < K -> (0 <= f i j)%Q).
  { intros i j Hi Hj. unfold f. apply Qle_shift_div_l; [reflexivity|]. rewrite Qmult_0_l. apply (inject_Z_le 0). apply P1; assumption. }
  assert (TP : (0 < total)%Q).
  { rewrite T. assert (HB : 0 <= K / 2 < K) by (split; [apply Z.div_pos; lia|apply Z.div_lt; lia]). apply (sum2_pos K K f (K / 2) (K / 2)); auto. unfold f.
    apply Qlt_shift_div_l; [reflexivity|]. rewrite Qmult_0_l. apply (inject_Z_lt 0). exact P2. }
  destruct (qeqb total 0) eqn:E; [apply qeqb_iff in E; rewrite E in TP; lra|]. eexists. split; [reflexivity|]. cbn [ah aw apx].
  split; [reflexivity|]. split; [exact O|]. split; [exact B|]. split.
  - cbn [ah aw apx]. intros i j Hi Hj. apply Qle_shift_div_l; [exact TP|]. rewrite Qmult_0_l. apply F0; assumption.
  - unfold weight. cbn [ah aw apx]. rewrite (sum2_ext K K _ (fun i j => / total * f i j)%Q) by (intros i j _ _; unfold f, Qdiv; ring).
    rewrite sum2_scale, <- T. field. intros E2. rewrite E2 in TP. lra.
Qed.

(** * DirectedEdgeDetect *)
From Coq Require Import Lra.
Local Open Scope R_scope.
Definition rad (deg : Z) : R := IZR deg * PI / 180.
Lemma direction_vector_eq : forall deg, direction_vector deg = (sin (rad deg), - cos (rad deg)).
Proof.
  intros deg. unfold direction_vector. fold (rad deg). set (a := rad deg). replace (a - 1 / 2 * PI) with (- (PI / 2 - a)) by field.
  rewrite cos_neg, sin_neg, cos_shift, sin_shift. reflexivity.
Qed.
Lemma direction_norm : forall deg, sqrt (fst (direction_vector deg) * fst (direction_vector deg) + snd (direction_vector deg) * snd (direction_vector deg)) = 1.
Proof.
  intros deg. rewrite direction_vector_eq. cbn [fst snd]. replace (sin (rad deg) * sin (rad deg) + - cos (rad deg) * - cos (rad deg)) with (Rsqr (sin (rad deg)) + Rsqr (cos (rad deg))) by (unfold Rsqr; ring).
  rewrite sin2_cos2. apply sqrt_1.
Qed.
Lemma cell_norm : forall x y, cell (x, y) -> 0 < IZR x * IZR x + IZR y * IZR y.
Proof.
  intros x y (Hx & Hy & N). cbn in Hx, Hy. rewrite <- !mult_IZR, <- plus_IZR. apply (IZR_lt 0). assert (x <> 0 \/ y <> 0)%Z.
  { destruct (Z.eq_dec x 0) as [->|]; [|lia]. destruct (Z.eq_dec y 0) as [->|]; [|lia]. congruence. } nia.
Qed.
Lemma facing_bound : forall deg x y, cell (x, y) -> -1 <= facing deg (x, y) <= 1.
Proof.
  intros deg x y HC. pose proof (cell_norm x y HC) as P. unfold facing. cbn [fst snd]. cbn zeta. fold (rad deg).
  set (n2 := IZR x * IZR x + IZR y * IZR y) in *. pose proof (sqrt_lt_R0 n2 P) as Q. set (n := sqrt n2) in *. assert (E : n * n = n2) by (unfold n; apply sqrt_sqrt; lra).
  set (s := sin (rad deg)). set (c := cos (rad deg)). assert (SC : s * s + c * c = 1) by (unfold s, c; pose proof (sin2_cos2 (rad deg)) as H; unfold Rsqr in H; exact H).
  set (a := IZR x) in *. set (b := IZR y) in *. assert (N2 : n2 = a * a + b * b) by reflexivity. clearbody s c a b n n2.
  assert (CS : (a * s + b * - c) * (a * s + b * - c) <= n * n).
  { rewrite E, N2. assert (0 <= (a * c + b * s) * (a * c + b * s)) by apply Rle_0_sqr.
    assert ((a * s + b * - c) * (a * s + b * - c) + (a * c + b * s) * (a * c + b * s) = (a * a + b * b) * (s * s + c * c)) by ring. rewrite SC in H0. lra. }
  set (d := a * s + b * - c) in *. assert (-n <= d <= n) by nra.
  split; [apply (Rmult_le_reg_r n); [exact Q|]; unfold Rdiv; rewrite Rmult_assoc, Rinv_l by lra; lra|apply (Rmult_le_reg_r n); [exact Q|]; unfold Rdiv; rewrite Rmult_assoc, Rinv_l by lra; lra].
Qed.
Lemma angle_facing : forall deg x y, cell (x, y) -> angle_between (IZR x, IZR y) (direction_vector deg) = acos (facing deg (x, y)).
Proof.
  intros deg x y HC. pose proof (cell_norm x y HC) as P. pose proof (facing_bound deg x y HC) as B. unfold angle_between. cbn zeta. rewrite direction_norm. cbn [fst snd].
  destruct (Rlt_dec 0 (sqrt (IZR x * IZR x + IZR y * IZR y))) as [Q|Q]; [|exfalso; apply Q; apply sqrt_lt_R0; exact P].
  destruct (Rlt_dec 0 1) as [_|N]; [|lra]. cbn [fst snd]. rewrite direction_vector_eq. cbn [fst snd].
  match goal with |- acos (Rmin (Rmax ?t (-1)) 1) = _ => replace t with (facing deg (x, y)) end.
  - rewrite Rmax_left by lra. rewrite Rmin_left by lra. reflexivity.
  - unfold facing. cbn [fst snd]. cbn zeta. fold (rad deg). field. lra.
Qed.
Lemma acos_lt : forall u v, -1 <= u -> u < v -> v <= 1 -> acos v < acos u.
Proof.
  intros u v Hu Huv Hv. destruct (Rlt_or_le (acos v) (acos u)) as [H|H]; [exact H|]. exfalso.
  pose proof (acos_bound u) as B1. pose proof (acos_bound v) as B2. pose proof (cos_decr_1 (acos u) (acos v)) as D.
  rewrite !cos_acos in D by lra. lra.
Qed.
Lemma similarity_facing : forall deg x y, cell (x, y) -> similarity deg x y = (1 - acos (facing deg (x, y)) / PI) ^ 4.
Proof. intros deg x y H. unfold similarity. rewrite angle_facing by exact H. reflexivity. Qed.
Lemma frac_bound : forall u, 0 <= 1 - acos u / PI <= 1.
Proof.
  intros u. pose proof (acos_bound u) as B. pose proof PI_RGT_0 as P. assert (0 <= acos u / PI <= 1); [|lra].
  split; [apply Rmult_le_pos; [lra|left; apply Rinv_0_lt_compat; exact P]|apply (Rmult_le_reg_r PI); [exact P|]; unfold Rdiv; rewrite Rmult_assoc, Rinv_l by lra; lra].
Qed.
Lemma frac_lt : forall u v, -1 <= u -> u < v -> v <= 1 -> 1 - acos u / PI < 1 - acos v / PI.
Proof.
  intros u v H1 H2 H3. pose proof (acos_lt u v H1 H2 H3) as H. pose proof PI_RGT_0 as P. pose proof (Rinv_0_lt_compat _ P) as Q. unfold Rdiv. nra.
Qed.
Lemma similarity_nonneg : forall deg x y, 0 <= similarity deg x y.
Proof.
  intros deg x y. unfold similarity. set (t := 1 - _). clearbody t. replace (t ^ 4) with ((t * t) * (t * t)) by ring. apply Rle_0_sqr.
Qed.
Lemma pow4_lt : forall a b, 0 <= a -> a < b -> a ^ 4 < b ^ 4.
Proof. intros a b Ha Hb. assert (a * a < b * b) by nra. assert (0 <= a * a) by nra. replace (a ^ 4) with ((a * a) * (a * a)) by ring. replace (b ^ 4) with ((b * b) * (b * b)) by ring. nra. Qed.
Lemma similarity_lt : forall deg x y x' y', cell (x, y) -> cell (x', y') -> facing deg (x, y) < facing deg (x', y') -> similarity deg x y < similarity deg x' y'.
Proof.
  intros deg x y x' y' H H' L. rewrite !similarity_facing by assumption. apply pow4_lt; [apply frac_bound|]. apply frac_lt; [apply facing_bound; exact H|exact L|apply facing_bound; exact H'].
Qed.
Lemma similarity_le : forall deg x y x' y', cell (x, y) -> cell (x', y') -> facing deg (x, y) <= facing deg (x', y') -> similarity deg x y <= similarity deg x' y'.
Proof.
  intros deg x y x' y' H H' [L|L]; [left; apply similarity_lt; assumption|]. rewrite !similarity_facing by assumption. rewrite L. apply Rle_refl.
Qed.
Definition total_similarity (deg : Z) : R := fold_right Rplus 0 (map (fun c => similarity deg (fst c) (snd c)) cells).
Lemma total_eq : forall deg, total_similarity deg = similarity deg (-1) (-1) + similarity deg (-1) 0 + similarity deg (-1) 1 + similarity deg 0 (-1) +
  similarity deg 0 1 + similarity deg 1 (-1) + similarity deg 1 0 + similarity deg 1 1.
Proof. intros deg. unfold total_similarity. cbn [map cells fold_right fst snd]. ring. Qed.
Lemma cell_ok : forall x y, (-1 <= x <= 1)%Z -> (-1 <= y <= 1)%Z -> (x <> 0 \/ y <> 0)%Z -> cell (x, y).
Proof. intros x y Hx Hy N. split; [exact Hx|]. split; [exact Hy|]. intros E. injection E as -> ->. lia. Qed.
Lemma total_pos : forall deg, 0 < total_similarity deg.
Proof.
  intros deg. rewrite total_eq.
  pose proof (similarity_nonneg deg (-1) (-1)); pose proof (similarity_nonneg deg (-1) 0); pose proof (similarity_nonneg deg (-1) 1); pose proof (similarity_nonneg deg 0 (-1)).
  pose proof (similarity_nonneg deg 0 1); pose proof (similarity_nonneg deg 1 (-1)); pose proof (similarity_nonneg deg 1 0); pose proof (similarity_nonneg deg 1 1).
  assert (C1 : cell (1, 0)%Z) by (apply cell_ok; lia). assert (C2 : cell (-1, 0)%Z) by (apply cell_ok; lia). assert (C3 : cell (0, 1)%Z) by (apply cell_ok; lia). assert (C4 : cell (0, -1)%Z) by (apply cell_ok; lia).
  assert (F : forall a b, cell (a, b) -> cell (- a, - b)%Z -> facing deg (- a, - b)%Z = - facing deg (a, b)).
  { intros a b _ _. unfold facing. cbn [fst snd]. cbn zeta. rewrite !opp_IZR. replace (- IZR a * - IZR a + - IZR b * - IZR b) with (IZR a * IZR a + IZR b * IZR b) by ring. unfold Rdiv. ring. }
  pose proof (F 1%Z 0%Z C1 C2) as F1.
  destruct (Rtotal_order (facing deg (1, 0)%Z) (facing deg (-1, 0)%Z)) as [L|[L|L]].
  - pose proof (similarity_lt deg 1 0 (-1) 0 C1 C2 L). lra.
  - cbn in F1. rewrite <- L in F1. assert (Z0 : facing deg (1, 0)%Z = 0) by lra.
    pose proof (similarity_facing deg 1 0 C1) as E. rewrite Z0, acos_0 in E. replace (1 - PI / 2 / PI) with (1 / 2) in E by (field; apply PI_neq0). lra.
  - pose proof (similarity_lt deg (-1) 0 1 0 C2 C1 L). lra.
Qed.
Lemma directed_centre : forall alpha deg, directed_entry alpha deg 0 0 = 1.
Proof. intros alpha deg. unfold directed_entry. cbn. ring. Qed.
Lemma directed_cell : forall alpha deg x y, cell (x, y) -> directed_entry alpha deg x y = - (alpha * (similarity deg x y / total_similarity deg)).
Proof.
  intros alpha deg x y (_ & _ & N). unfold directed_entry. cbn zeta. destruct ((x =? 0)%Z && (y =? 0)%Z) eqn:E.
  - apply andb_prop in E. destruct E as [E1 E2]. apply Z.eqb_eq in E1, E2. subst. congruence.
  - fold (total_similarity deg). ring.
Qed.
Lemma directed_total : forall alpha deg,
  fold_right Rplus 0 (map (fun c => directed_entry alpha deg (fst c) (snd c)) ((0, 0)%Z :: cells)) = 1 - alpha.
Proof.
  intros alpha deg. cbn [map cells fold_right fst snd]. rewrite directed_centre, !directed_cell by (apply cell_ok; lia).
  pose proof (total_pos deg) as P. set (t := total_similarity deg) in *.
  assert (E : (similarity deg (-1) (-1) / t + similarity deg (-1) 0 / t + similarity deg (-1) 1 / t + similarity deg 0 (-1) / t +
    similarity deg 0 1 / t + similarity deg 1 (-1) / t + similarity deg 1 0 / t + similarity deg 1 1 / t) = 1).
  { pose proof (total_eq deg) as T. fold t in T. unfold Rdiv. rewrite <- !Rmult_plus_distr_r, <- T. apply Rinv_r. lra. }
  replace (1 - alpha) with (1 - alpha * 1) by ring. rewrite <- E. ring.
Qed.
Lemma directed_mono : forall alpha deg x y x' y', 0 <= alpha -> cell (x, y) -> cell (x', y') -> facing deg (x, y) <= facing deg (x', y') ->
  directed_entry alpha deg x' y' <= directed_entry alpha deg x y.
Proof.
  intros alpha deg x y x' y' HA H H' L. rewrite !directed_cell by assumption. pose proof (similarity_le deg x y x' y' H H' L) as S1. pose proof (total_pos deg) as P. pose proof (Rinv_0_lt_compat _ P) as Q.
  unfold Rdiv. apply Ropp_le_contravar. apply Rmult_le_compat_l; [exact HA|]. apply Rmult_le_compat_r; lra.
Qed.
Lemma directed_strict : forall alpha deg x y x' y', 0 < alpha -> cell (x, y) -> cell (x', y') -> facing deg (x, y) < facing deg (x', y') ->
  directed_entry alpha deg x' y' < directed_entry alpha deg x y.
Proof.
  intros alpha deg x y x' y' HA H H' L. rewrite !directed_cell by assumption. pose proof (similarity_lt deg x y x' y' H H' L) as S1. pose proof (total_pos deg) as P. pose proof (Rinv_0_lt_compat _ P) as Q.
  unfold Rdiv. apply Ropp_lt_contravar. apply Rmult_lt_compat_l; [exact HA|]. apply Rmult_lt_compat_r; lra.
Qed.
Lemma directed_range : forall alpha deg x y, 0 <= alpha -> cell (x, y) -> - alpha <= directed_entry alpha deg x y <= 0.
Proof.
  intros alpha deg x y HA H. rewrite directed_cell by exact H. pose proof (total_pos deg) as P. pose proof (similarity_nonneg deg x y) as S1.
  assert (S2 : similarity deg x y <= total_similarity deg).
  { rewrite total_eq. pose proof (similarity_nonneg deg (-1) (-1)); pose proof (similarity_nonneg deg (-1) 0); pose proof (similarity_nonneg deg (-1) 1); pose proof (similarity_nonneg deg 0 (-1)).
    pose proof (similarity_nonneg deg 0 1); pose proof (similarity_nonneg deg 1 (-1)); pose proof (similarity_nonneg deg 1 0); pose proof (similarity_nonneg deg 1 1).
    destruct H as (Hx & Hy & N). cbn in Hx, Hy. assert (X : x = (-1)%Z \/ x = 0%Z \/ x = 1%Z) by lia. assert (Y : y = (-1)%Z \/ y = 0%Z \/ y = 1%Z) by lia.
    destruct X as [->|[->| ->]], Y as [->|[->| ->]]; try lra. congruence. }
  set (t := total_similarity deg) in *. set (s := similarity deg x y) in *. clearbody t s.
  assert (0 <= s / t <= 1). { split; [apply Rmult_le_pos; [exact S1|left; apply Rinv_0_lt_compat; exact P]|apply (Rmult_le_reg_r t); [exact P|]; unfold Rdiv; rewrite Rmult_assoc, Rinv_l by lra; lra]. }
  nra.
Qed.
(** Quarter turns. *)
Lemma rad_turn : forall d, sin (rad ((d + 90) mod 360)) = cos (rad d) /\ cos (rad ((d + 90) mod 360)) = - sin (rad d).
Proof.
  intros d. assert (P : forall e k, rad (e + 360 * Z.of_nat k) = rad e + 2 * INR k * PI).
  { intros e k. unfold rad. rewrite plus_IZR, mult_IZR, <- INR_IZR_INZ. field. }
  assert (Q : sin (rad (d + 90)) = cos (rad d) /\ cos (rad (d + 90)) = - sin (rad d)).
  { replace (rad (d + 90)) with (PI / 2 + rad d) by (unfold rad; rewrite plus_IZR; field). split; [symmetry; apply cos_sin|].
    rewrite (sin_cos (rad d)). ring. }
  pose proof (Z.div_mod (d + 90) 360 ltac:(lia)) as D. set (m := ((d + 90) mod 360)%Z) in *. set (q := ((d + 90) / 360)%Z) in *. clearbody m q.
  destruct (Z.le_gt_cases 0 q) as [L|L].
  - rewrite D in Q. replace (360 * q + m)%Z with (m + 360 * Z.of_nat (Z.to_nat q))%Z in Q by lia. rewrite P in Q. rewrite sin_period, cos_period in Q. exact Q.
  - assert (E : m = (d + 90 + 360 * Z.of_nat (Z.to_nat (- q)))%Z) by lia. rewrite E, P, sin_period, cos_period. exact Q.
Qed.
Lemma facing_turn : forall d x y, facing ((d + 90) mod 360) (- y, x)%Z = facing d (x, y).
Proof.
  intros d x y. unfold facing. cbn [fst snd]. cbn zeta. fold (rad ((d + 90) mod 360)) (rad d). destruct (rad_turn d) as [-> ->]. rewrite opp_IZR.
  replace (- IZR y * - IZR y + IZR x * IZR x) with (IZR x * IZR x + IZR y * IZR y) by ring. f_equal. ring.
Qed.
Lemma cell_turn : forall x y, cell (x, y) -> cell (- y, x)%Z.
Proof. intros x y (Hx & Hy & N). cbn in Hx, Hy. apply cell_ok; [lia|lia|]. destruct (Z.eq_dec x 0) as [->|]; [|lia]. destruct (Z.eq_dec y 0) as [->|]; [congruence|lia]. Qed.
Lemma similarity_turn : forall d x y, cell (x, y) -> similarity ((d + 90) mod 360) (- y) x = similarity d x y.
Proof. intros d x y H. rewrite !similarity_facing by (auto using cell_turn). rewrite facing_turn. reflexivity. Qed.
Lemma total_turn : forall d, total_similarity ((d + 90) mod 360) = total_similarity d.
Proof.
  intros d. rewrite !total_eq.
  rewrite <- (similarity_turn d (-1) (-1)), <- (similarity_turn d (-1) 0), <- (similarity_turn d (-1) 1), <- (similarity_turn d 0 (-1)),
    <- (similarity_turn d 0 1), <- (similarity_turn d 1 (-1)), <- (similarity_turn d 1 0), <- (similarity_turn d 1 1) by (apply cell_ok; lia).
  change (- (-1))%Z with 1%Z. change (- 0)%Z with 0%Z. change (Z.opp 1) with (-1)%Z. ring.
Qed.
Lemma directed_turn : forall alpha d x y, (-1 <= x <= 1)%Z -> (-1 <= y <= 1)%Z ->
  directed_entry alpha ((d + 90) mod 360) (- y) x = directed_entry alpha d x y.
Proof.
  intros alpha d x y Hx Hy. destruct (Z.eq_dec x 0) as [Ex|Ex]; [destruct (Z.eq_dec y 0) as [Ey|Ey]|].
  - subst. change (- 0)%Z with 0%Z. rewrite !directed_centre. reflexivity.
  - assert (C : cell (x, y)) by (apply cell_ok; lia). rewrite !directed_cell by (auto using cell_turn). rewrite similarity_turn by exact C. rewrite total_turn. reflexivity.
  - assert (C : cell (x, y)) by (apply cell_ok; lia). rewrite !directed_cell by (auto using cell_turn). rewrite similarity_turn by exact C. rewrite total_turn. reflexivity.
Qed.
Local Close Scope R_scope.
Lemma degrees_quarter : forall q, (0 <= q)%Q -> degrees (q + (1 # 4)) = (degrees q + 90) mod 360.
Proof.
  intros q H. unfold degrees. rewrite Zplus_mod_idemp_l. f_equal. assert (A : (0 <= q * 360)%Q) by (apply Qmult_le_0_compat; [exact H|discriminate]).
  assert (E : ((q + (1 # 4)) * 360 == q * 360 + 90)%Q) by ring.
  destruct (py_int_nonneg (q * 360) A) as (_ & B1 & B2). assert (A2 : (0 <= (q + (1 # 4)) * 360)%Q) by (rewrite E; apply Qle_trans with (q * 360)%Q; [exact A|rewrite <- Qplus_0_r at 1; apply Qplus_le_r; discriminate]).
  destruct (py_int_nonneg _ A2) as (_ & C1 & C2). set (u := py_int ((q + (1 # 4)) * 360)) in *. clearbody u. rewrite E in C1, C2. clear E A2. set (t := (q * 360)%Q) in *. clearbody t. set (v := py_int t) in *. clearbody v.
  assert (U : (inject_Z u < inject_Z (v + 91))%Q). { rewrite inject_Z_plus. change (inject_Z 91) with 91%Q. Lqa.lra. }
  assert (V : (inject_Z (v + 90) < inject_Z (u + 1))%Q). { rewrite !inject_Z_plus. change (inject_Z 90) with 90%Q. change (inject_Z 1) with 1%Q. Lqa.lra. }
  apply (proj1 (inject_Z_lt _ _)) in U. apply (proj1 (inject_Z_lt _ _)) in V. lia.
Qed.
