(** Proofs for CtrProps: contrast. *)
From Coq Require Import String Ascii List ZArith QArith Qabs Bool Lia Lqa.
From Verif Require Import Prelude PreludeFacts DtyModel DtySpec DtyProofs RszProofs ColModel ColSpec ColProofs FxProofs CtrModel CtrSpec CtrProofs.
Import ListNotations.
Open Scope Z_scope.

(** ** Wrapper *)
Lemma params_ok : forall samples n p, params_at samples n = Ok p <-> drawn_at samples n p.
Proof.
  intros samples n p. unfold params_at, drawn_at. rewrite mapM_Ok_iff. split; intros H; (induction H as [|s q ss qs E H IH]; constructor; [|exact IH]);
    destruct (nth_error s n); congruence.
Qed.
Lemma params_total : forall samples n, Forall (fun s => (n < length s)%nat) samples -> exists p, params_at samples n = Ok p.
Proof.
  intros samples n H. unfold params_at. induction H as [|s ss L H [p IH]]; [exists []; reflexivity|]. rewrite RszProofs.mapM_cons. destruct (nth_error s n) as [q|] eqn:E; [|apply nth_error_None in E; lia].
  cbn [bind]. rewrite IH. eexists; reflexivity.
Qed.
Lemma mapM_seq : forall {A} (g : nat -> res A) n k, (forall i, (k <= i < k + n)%nat -> exists a, g i = Ok a) ->
  exists r, mapM g (seq k n) = Ok r /\ length r = n /\ forall i d, (i < n)%nat -> g (k + i)%nat = Ok (nth i r d).
Proof.
  intros A g n. induction n as [|n IH]; intros k H; [exists []; repeat split; intros; lia|]. cbn [seq]. rewrite RszProofs.mapM_cons.
  destruct (H k) as [a E]; [lia|]. rewrite E. cbn [bind]. destruct (IH (S k)) as (r & R & L & N); [intros i Hi; apply H; lia|]. rewrite R. exists (a :: r). split; [reflexivity|]. split; [cbn; lia|].
  intros [|i] d Hi; cbn [nth]; [rewrite Nat.add_0_r; exact E|]. rewrite <- N by lia. f_equal. lia.
Qed.
Lemma contrast_ok : forall f pc samples im, enough_samples pc samples im -> ((1 # 2 < pc)%Q -> (0 < ci_c im)%nat) ->
  exists out, contrast_image f pc samples im = Ok out /\ contrasted f pc samples im out.
Proof.
  intros f pc samples im E Z0. unfold contrast_image. destruct (qltb (1 # 2) pc) eqn:Q0.
  - apply qltb_iff in Q0. specialize (Z0 Q0).
    destruct (mapM_seq (params_at samples) (ci_c im) 0) as (ps & R & L & N).
    { intros i Hi. apply params_total. eapply Forall_impl; [|exact E]. cbn. intros s [_ S]. specialize (S Q0). lia. }
    rewrite R. cbn [bind]. destruct ps as [|p0 ps']; [cbn in L; lia|]. eexists. split; [reflexivity|]. split; [repeat split; reflexivity|].
    cbn [ci_px ci_dt]. intros y x c (_ & _ & C). exists (nth c (p0 :: ps') []). repeat split.
    + intros _. apply params_ok. apply (N c [] C).
    + intros H. lra.
  - apply qltb_false in Q0. destruct (params_total samples 0) as [p P]; [eapply Forall_impl; [|exact E]; cbn; intros s [S _]; lia|].
    rewrite P. cbn [bind]. eexists. split; [reflexivity|]. split; [repeat split; reflexivity|]. intros y x c _. exists p. repeat split.
    + intros H. lra.
    + intros _. apply params_ok. exact P.
Qed.
Lemma batch_ok : forall gate f drawn imgs, length drawn = length imgs ->
  (match gate with None => True | Some (a, d) => exists w, gate_strs (map ci_dt imgs) a d = Ok w end) ->
  (forall i im pc samples, nth_error imgs i = Some im -> nth_error drawn i = Some (pc, samples) -> enough_samples pc samples im /\ ((1 # 2 < pc)%Q -> (0 < ci_c im)%nat)) ->
  exists outs, contrast_batch gate f drawn imgs = Ok outs /\ length outs = length imgs /\
    forall i im out pc samples, nth_error imgs i = Some im -> nth_error drawn i = Some (pc, samples) -> nth_error outs i = Some out -> contrasted f pc samples im out.
Proof.
  intros gate f drawn imgs L G H. unfold contrast_batch.
  assert (GG : exists w, match gate with None => Ok [] | Some (a, d) => gate_strs (map ci_dt imgs) a d end = Ok w) by (destruct gate as [[a d]|]; [exact G|exists []; reflexivity]).
  destruct GG as [w ->]. cbn [bind]. clear w G. revert drawn L H. induction imgs as [|im imgs IH]; intros [|[pc ss] drawn] L H; try discriminate L.
  - exists []. split; [reflexivity|]. split; [reflexivity|]. intros [|i] ? ? ? ? E; discriminate E.
  - cbn [combine]. rewrite RszProofs.mapM_cons. cbn [fst snd]. destruct (H 0%nat im pc ss eq_refl eq_refl) as [H1 H2]. destruct (contrast_ok f pc ss im H1 H2) as (o & O & C). rewrite O. cbn [bind].
    destruct (IH drawn) as (outs & E & L' & N); [cbn in L; lia|intros i; apply (H (S i))|]. rewrite E. exists (o :: outs). split; [reflexivity|]. split; [cbn; lia|].
    intros [|i] im' out pc' ss' E1 E2 E3; cbn [nth_error] in *; [injection E1 as <-; injection E2 as <- <-; injection E3 as <-; exact C|]. apply (N i); assumption.
Qed.
Lemma batch_gated : forall a d f drawn imgs e, gate_strs (map ci_dt imgs) a d = Err e -> contrast_batch (Some (a, d)) f drawn imgs = Err e.
Proof. intros a d f drawn imgs e G. unfold contrast_batch. rewrite G. reflexivity. Qed.
Lemma no_channels : forall f pc samples im, ci_c im = 0%nat -> (1 # 2 < pc)%Q -> contrast_image f pc samples im = Err ValueError.
Proof. intros f pc samples im C P. unfold contrast_image. rewrite (proj2 (qltb_iff _ _) P), C. reflexivity. Qed.

(** ** Rounding to floats *)
Local Open Scope Q_scope.
Lemma to_float_bounds : forall p q, (0 < p)%Z -> ~ q == 0 -> exists E z s, to_float p q = inject_Z z * pow2 (- s) /\ s = (p - 1 - E)%Z /\ z = np_round (q * pow2 s) /\
  pow2 E <= qabs q < pow2 (E + 1) /\ (0 < q -> (2 ^ (p - 1) <= z <= 2 ^ p)%Z) /\ (q < 0 -> (- 2 ^ p <= z <= - 2 ^ (p - 1))%Z).
Proof.
  intros p q P N. pose proof (exponent_spec q N) as [E1 E2]. exists (exponent q), (np_round (q * pow2 (p - 1 - exponent q))), (p - 1 - exponent q)%Z.
  set (E := exponent q) in *. unfold to_float. fold E. assert (X : qeqb q 0 = false) by (apply qeqb_false; exact N). rewrite X. split; [reflexivity|]. split; [reflexivity|]. split; [reflexivity|]. split; [split; assumption|].
  clearbody E. set (s := (p - 1 - E)%Z). pose proof (pow2_pos s) as PS.
  assert (B1 : pow2 E * pow2 s == inject_Z (2 ^ (p - 1))) by (rewrite <- pow2_add, <- pow2_Z by lia; replace (E + s)%Z with (p - 1)%Z by (unfold s; lia); reflexivity).
  assert (B2 : pow2 (E + 1) * pow2 s == inject_Z (2 ^ p)) by (rewrite <- pow2_add, <- pow2_Z by lia; replace (E + 1 + s)%Z with p by (unfold s; lia); reflexivity).
  unfold qabs in E1, E2. split; intros S.
  - assert (Y : qleb 0 q = true) by (apply qleb_iff; lra). rewrite Y in E1, E2.
    assert (C1 : inject_Z (2 ^ (p - 1)) <= q * pow2 s) by (rewrite <- B1; apply Qmult_le_compat_r; lra).
    assert (C2 : q * pow2 s <= inject_Z (2 ^ p)) by (rewrite <- B2; apply Qmult_le_compat_r; lra).
    apply np_round_mono in C1, C2. rewrite np_round_Z in C1, C2. lia.
  - assert (Y : qleb 0 q = false) by (apply qleb_false; lra). rewrite Y in E1, E2.
    assert (C1 : inject_Z (2 ^ (p - 1)) <= - q * pow2 s) by (rewrite <- B1; apply Qmult_le_compat_r; lra).
    assert (C2 : - q * pow2 s <= inject_Z (2 ^ p)) by (rewrite <- B2; apply Qmult_le_compat_r; lra).
    assert (C3 : q * pow2 s <= inject_Z (- 2 ^ (p - 1))) by (rewrite inject_Z_opp; lra). assert (C4 : inject_Z (- 2 ^ p) <= q * pow2 s) by (rewrite inject_Z_opp; lra).
    apply np_round_mono in C3, C4. rewrite np_round_Z in C3, C4. lia.
Qed.
Lemma to_float_0 : forall p q, q == 0 -> to_float p q = 0.
Proof. intros p q H. unfold to_float. rewrite (proj2 (qeqb_iff q 0) H). reflexivity. Qed.
Lemma to_float_pos : forall p q, (0 < p)%Z -> 0 < q -> exists E, pow2 E <= q < pow2 (E + 1) /\ pow2 E <= to_float p q <= pow2 (E + 1).
Proof.
  intros p q P S. destruct (to_float_bounds p q P) as (E & z & s & T & ES & _ & Q1 & Z1 & _); [lra|]. exists E. specialize (Z1 S).
  assert (A : qabs q == q) by (unfold qabs; rewrite (proj2 (qleb_iff 0 q)) by lra; reflexivity). rewrite A in Q1. split; [exact Q1|]. rewrite T.
  pose proof (pow2_pos (- s)) as PS. split.
  - setoid_replace (pow2 E) with (inject_Z (2 ^ (p - 1)) * pow2 (- s)) by (rewrite <- pow2_Z, <- pow2_add by lia; replace (p - 1 + - s)%Z with E by lia; reflexivity). apply Qmult_le_compat_r; [rewrite <- Zle_Qle; lia|lra].
  - setoid_replace (pow2 (E + 1)) with (inject_Z (2 ^ p) * pow2 (- s)) by (rewrite <- pow2_Z, <- pow2_add by lia; replace (p + - s)%Z with (E + 1)%Z by lia; reflexivity). apply Qmult_le_compat_r; [rewrite <- Zle_Qle; lia|lra].
Qed.
Lemma to_float_neg : forall p q, (0 < p)%Z -> q < 0 -> exists E, pow2 E <= - q < pow2 (E + 1) /\ pow2 E <= - to_float p q <= pow2 (E + 1).
Proof.
  intros p q P S. destruct (to_float_bounds p q P) as (E & z & s & T & ES & _ & Q1 & _ & Z1); [lra|]. exists E. specialize (Z1 S).
  assert (A : qabs q == - q) by (unfold qabs; rewrite (proj2 (qleb_false 0 q)) by lra; reflexivity). rewrite A in Q1. split; [exact Q1|]. rewrite T.
  pose proof (pow2_pos (- s)) as PS. setoid_replace (- (inject_Z z * pow2 (- s))) with (inject_Z (- z) * pow2 (- s)) by (rewrite inject_Z_opp; ring). split.
  - setoid_replace (pow2 E) with (inject_Z (2 ^ (p - 1)) * pow2 (- s)) by (rewrite <- pow2_Z, <- pow2_add by lia; replace (p - 1 + - s)%Z with E by lia; reflexivity). apply Qmult_le_compat_r; [rewrite <- Zle_Qle; lia|lra].
  - setoid_replace (pow2 (E + 1)) with (inject_Z (2 ^ p) * pow2 (- s)) by (rewrite <- pow2_Z, <- pow2_add by lia; replace (p + - s)%Z with (E + 1)%Z by lia; reflexivity). apply Qmult_le_compat_r; [rewrite <- Zle_Qle; lia|lra].
Qed.
Lemma exponent_unique : forall a b x, pow2 a <= x < pow2 (a + 1) -> pow2 b <= x < pow2 (b + 1) -> a = b.
Proof.
  intros a b x [A1 A2] [B1 B2]. assert (pow2 a < pow2 (b + 1)) as C by lra. assert (pow2 b < pow2 (a + 1)) as D by lra. apply pow2_lt_inv in C, D. lia.
Qed.
Lemma to_float_at : forall p q E, (0 < p)%Z -> ~ q == 0 -> pow2 E <= qabs q < pow2 (E + 1) -> to_float p q = inject_Z (np_round (q * pow2 (p - 1 - E))) * pow2 (- (p - 1 - E)).
Proof.
  intros p q E P N B. destruct (to_float_bounds p q P N) as (E' & z & s & T & ES & Z0 & B' & _). pose proof (exponent_unique _ _ _ B B') as <-. rewrite T, Z0, ES. reflexivity.
Qed.
Lemma to_float_mono : forall p q r, (0 < p)%Z -> q <= r -> to_float p q <= to_float p r.
Proof.
  intros p q r P H. pose proof (pow2_pos) as PP.
  assert (NP : forall x, 0 < x -> 0 < to_float p x). { intros x X. destruct (to_float_pos p x P X) as (E & _ & F & _). pose proof (PP E). lra. }
  assert (NN : forall x, x < 0 -> to_float p x < 0). { intros x X. destruct (to_float_neg p x P X) as (E & _ & F & _). pose proof (PP E). lra. }
  destruct (Qlt_le_dec q 0) as [Q0|Q0]; destruct (Qlt_le_dec r 0) as [R0|R0].
  - destruct (to_float_neg p q P Q0) as (E & B & F). destruct (to_float_neg p r P R0) as (E' & B' & F').
    assert (L : (E' <= E)%Z) by (assert (pow2 E' < pow2 (E + 1)) as C by lra; apply pow2_lt_inv in C; lia).
    destruct (Z.eq_dec E' E) as [->|NE].
    + assert (A : qabs q == - q) by (unfold qabs; rewrite (proj2 (qleb_false 0 q)) by lra; reflexivity). assert (A' : qabs r == - r) by (unfold qabs; rewrite (proj2 (qleb_false 0 r)) by lra; reflexivity).
      assert (BQ : pow2 E <= qabs q < pow2 (E + 1)) by (rewrite A; exact B). assert (BR : pow2 E <= qabs r < pow2 (E + 1)) by (rewrite A'; exact B').
      rewrite (to_float_at p q E P) by (exact BQ || lra). rewrite (to_float_at p r E P) by (exact BR || lra).
      pose proof (PP (- (p - 1 - E))%Z). apply Qmult_le_compat_r; [|lra]. rewrite <- Zle_Qle. apply np_round_mono. pose proof (PP (p - 1 - E)%Z). apply Qmult_le_compat_r; lra.
    + assert (pow2 (E' + 1) <= pow2 E) as C by (apply pow2_le; lia). lra.
  - destruct (Qlt_le_dec 0 r) as [R1|R1]; [pose proof (NP r R1); pose proof (NN q Q0); lra|]. rewrite (to_float_0 p r) by lra. pose proof (NN q Q0). lra.
  - lra.
  - destruct (Qlt_le_dec 0 q) as [Q1|Q1].
    + assert (R1 : 0 < r) by lra. destruct (to_float_pos p q P Q1) as (E & B & F). destruct (to_float_pos p r P R1) as (E' & B' & F').
      assert (L : (E <= E')%Z) by (assert (pow2 E < pow2 (E' + 1)) as C by lra; apply pow2_lt_inv in C; lia).
      destruct (Z.eq_dec E' E) as [->|NE].
      * assert (A : qabs q == q) by (unfold qabs; rewrite (proj2 (qleb_iff 0 q)) by lra; reflexivity). assert (A' : qabs r == r) by (unfold qabs; rewrite (proj2 (qleb_iff 0 r)) by lra; reflexivity).
        assert (BQ : pow2 E <= qabs q < pow2 (E + 1)) by (rewrite A; exact B). assert (BR : pow2 E <= qabs r < pow2 (E + 1)) by (rewrite A'; exact B').
      rewrite (to_float_at p q E P) by (exact BQ || lra). rewrite (to_float_at p r E P) by (exact BR || lra).
        pose proof (PP (- (p - 1 - E))%Z). apply Qmult_le_compat_r; [|lra]. rewrite <- Zle_Qle. apply np_round_mono. pose proof (PP (p - 1 - E)%Z). apply Qmult_le_compat_r; lra.
      * assert (pow2 (E + 1) <= pow2 E') as C by (apply pow2_le; lia). lra.
    + rewrite (to_float_0 p q) by lra. destruct (Qlt_le_dec 0 r) as [R1|R1]; [pose proof (NP r R1); lra|]. rewrite (to_float_0 p r) by lra. lra.
Qed.
Lemma to_float_err : forall p q, (0 < p)%Z -> Qabs (to_float p q - q) * inject_Z (2 ^ p) <= Qabs q.
Proof.
  intros p q P. destruct (Qeq_dec q 0) as [N|N].
  - rewrite (to_float_0 p q N), N. vm_compute. discriminate.
  - destruct (to_float_bounds p q P N) as (E & z & s & T & ES & Z0 & B & _). rewrite T. destruct (np_round_spec (q * pow2 s)) as (A1 & A2 & _). rewrite <- Z0 in A1, A2.
    assert (A : qabs q == Qabs q). { unfold qabs. destruct (qleb 0 q) eqn:X; [apply qleb_iff in X; rewrite Qabs_pos by exact X; reflexivity|apply qleb_false in X; rewrite Qabs_neg by lra; reflexivity]. }
    rewrite A in B. assert (D : Qabs (inject_Z z * pow2 (- s) - q) <= (1 # 2) * pow2 (- s)).
    { setoid_replace (inject_Z z * pow2 (- s) - q) with ((inject_Z z - q * pow2 s) * pow2 (- s)) by (pose proof (pow2_opp s) as O; setoid_replace ((inject_Z z - q * pow2 s) * pow2 (- s)) with (inject_Z z * pow2 (- s) - q * (pow2 s * pow2 (- s))) by ring; rewrite O; ring).
      rewrite Qabs_Qmult. pose proof (pow2_pos (- s)) as PS. rewrite (Qabs_pos (pow2 (- s))) by lra. apply Qmult_le_compat_r; [|lra]. apply Qabs_Qle_condition. lra. }
    assert (F : (1 # 2) * pow2 (- s) * inject_Z (2 ^ p) == pow2 E).
    { rewrite <- pow2_Z by lia. rewrite <- Qmult_assoc, <- pow2_add. replace (- s + p)%Z with (1 + E)%Z by lia. rewrite pow2_add. change (pow2 1) with (2 # 1). ring. }
    apply (Qle_trans _ ((1 # 2) * pow2 (- s) * inject_Z (2 ^ p))); [apply Qmult_le_compat_r; [exact D|]|rewrite F; lra].
    change 0 with (inject_Z 0). rewrite <- Zle_Qle. pose proof (Z.pow_pos_nonneg 2 p). lia.
Qed.
Lemma to_float_value : forall p q, (0 < p)%Z -> exists m k, to_float p q == inject_Z m * pow2 k /\ (Z.abs m <= 2 ^ p)%Z.
Proof.
  intros p q P. pose proof (Z.pow_pos_nonneg 2 p). pose proof (Z.pow_pos_nonneg 2 (p - 1)). destruct (Qeq_dec q 0) as [N|N].
  - exists 0%Z, 0%Z. rewrite (to_float_0 p q N). split; [reflexivity|lia].
  - destruct (to_float_bounds p q P N) as (E & z & s & T & _ & _ & _ & Z1 & Z2). exists z, (- s)%Z. rewrite T. split; [reflexivity|].
    destruct (Qlt_le_dec 0 q) as [S|S]; [specialize (Z1 S); lia|]. assert (S' : q < 0) by lra. specialize (Z2 S'). lia.
Qed.

(** ** Linear contrast *)
Notation nearest := DtySpec.nearest.
Lemma nearest_unique : forall q a b, nearest q a -> nearest q b -> a = b.
Proof.
  intros q a b H1 H2. assert (X : forall z, nearest q z -> np_round q = z).
  { intros z [[A B] C]. pose proof (nearest_np_round q) as [[A' B'] C']. set (n := np_round q) in *. clearbody n.
    assert (U : inject_Z n <= inject_Z (z + 1)) by (rewrite inject_Z_plus; change (inject_Z 1) with 1; lra). assert (D : inject_Z z <= inject_Z (n + 1)) by (rewrite inject_Z_plus; change (inject_Z 1) with 1; lra).
    rewrite <- Zle_Qle in U, D. assert (n = z \/ n = z + 1 \/ z = n + 1)%Z as [E|[E|E]] by lia; [exact E| |]; subst; exfalso; rewrite inject_Z_plus in *; change (inject_Z 1) with 1 in *.
    - assert (T1 : Z.even (z + 1) = true) by (apply C'; left; lra). assert (T2 : Z.even z = true) by (apply C; right; lra). rewrite Z.even_add in T1. rewrite T2 in T1. discriminate.
    - assert (T1 : Z.even (n + 1) = true) by (apply C; left; lra). assert (T2 : Z.even n = true) by (apply C'; right; lra). rewrite Z.even_add in T1. rewrite T2 in T1. discriminate. }
  apply X in H1, H2. congruence.
Qed.
Lemma center_middle : forall d, contrast_dtype d -> center d = middle d.
Proof. intros d H. unfold contrast_dtype in H. cbn [In] in H. decompose [or] H; subst; try reflexivity; contradiction. Qed.
Lemma wide_contrast : forall d lo hi, wide_int d lo hi -> contrast_dtype d /\ d <> U8 /\ int_range (dty d) lo hi /\ fits_in_mantissa (dty d) 53.
Proof.
  intros d lo hi H. unfold wide_int in H. unfold contrast_dtype. decompose [or and] H; subst; (split; [cbn; tauto|]); (split; [discriminate|]); (split; [|cbn; lia]).
  - apply (unsigned_range 16); lia.
  - apply (unsigned_range 32); lia.
  - apply (signed_range 8); lia.
  - apply (signed_range 16); lia.
  - apply (signed_range 32); lia.
Qed.
Lemma float64_big : (2 ^ 1023 <= (2 ^ 53 - 1) * 2 ^ 971)%Z.
Proof. apply Z.leb_le. vm_compute. reflexivity. Qed.
Lemma in_float64_range : forall q, in_float64 q -> - inject_Z ((2 ^ 53 - 1) * 2 ^ 971) <= q <= inject_Z ((2 ^ 53 - 1) * 2 ^ 971).
Proof.
  intros q H. unfold in_float64 in H. apply Qabs_Qle_condition in H. pose proof float64_big as B. rewrite Zle_Qle in B. set (M := inject_Z _) in B at 2. set (m := inject_Z (2 ^ 1023)) in *. change (inject_Z ((2 ^ 53 - 1) * 2 ^ 971)) with M. clearbody m M. lra.
Qed.
Lemma linear_form : forall d alpha rest v, contrast_dtype d -> d <> U8 ->
  linear d (alpha :: rest) v = match change_dtype (DF 53 971) (dty d) (stretched d alpha v) true true with Ok r => r | Err _ => stretched d alpha v end.
Proof. intros d alpha rest v C N. unfold linear, stretched. rewrite (center_middle d C). destruct d; try reflexivity; contradiction. Qed.
Lemma linear_wide : forall d lo hi alpha rest v, wide_int d lo hi -> in_float64 (stretched d alpha v) ->
  exists n z, nearest (stretched d alpha v) n /\ saturated lo hi n z /\ linear d (alpha :: rest) v = inject_Z z.
Proof.
  intros d lo hi alpha rest v W F. destruct (wide_contrast d lo hi W) as (C & N & R & FM). rewrite (linear_form d alpha rest v C N).
  destruct (float_to_int_saturates 53 971 (dty d) lo hi (stretched d alpha v) ltac:(lia) R FM (in_float64_range _ F)) as (n & z & A & B & E). exists n, z. rewrite E. auto.
Qed.
Lemma linear_u8 : forall alpha rest v, exists z, linear U8 (alpha :: rest) v = inject_Z z /\
  let s := stretched U8 alpha v in (s < 0 -> z = 0%Z) /\ (0 <= s <= 255 -> floor_of s z) /\ (255 < s -> z = 255%Z).
Proof.
  intros alpha rest v. exists (py_int (qclip (stretched U8 alpha v) 0 255)). split; [reflexivity|]. cbv zeta. set (s := stretched U8 alpha v). clearbody s.
  assert (X : forall z, qclip s 0 255 == inject_Z z -> py_int (qclip s 0 255) = z) by (intros z E; apply py_int_eq; exact E). split; [|split].
  - intros H. apply (X 0%Z). change (inject_Z 0) with 0. unfold qclip. qminmax; lra.
  - intros [A B]. rewrite FxProofs.py_int_clip by assumption. destruct (py_int_nonneg s A) as (P1 & P2 & P3). split; [assumption|]. lra.
  - intros H. apply (X 255%Z). change (inject_Z 255) with 255. unfold qclip. qminmax; lra.
Qed.
Lemma linear_f64 : forall alpha rest v, linear F64 (alpha :: rest) v = stretched F64 alpha v.
Proof. reflexivity. Qed.
Lemma small_contrast : forall d p m, small_float d p m -> exists e, contrast_dtype d /\ d <> U8 /\ dty d = DF p e /\ (0 < p < 53)%Z /\ (0 <= e < 971)%Z /\ m = inject_Z ((2 ^ p - 1) * 2 ^ e).
Proof.
  intros d p m H. unfold small_float in H. unfold contrast_dtype. decompose [or and] H; subst; [exists 5%Z|exists 104%Z]; repeat split; try lia; try discriminate; cbn; tauto.
Qed.
Lemma narrow_float : forall p e p' e' s, (0 < p < p')%Z -> (0 <= e < e')%Z -> exists c, change_dtype (DF p' e') (DF p e) s true true = Ok (to_float p c) /\ c == qclip s (- inject_Z ((2 ^ p - 1) * 2 ^ e)) (inject_Z ((2 ^ p - 1) * 2 ^ e)).
Proof.
  intros p e p' e' s P E. unfold change_dtype. assert (X : dtype_eqb (DF p' e') (DF p e) = false) by (cbn [dtype_eqb]; destruct (Z.eqb_spec p' p); [lia|reflexivity]). rewrite X. cbn [is_float negb andb range_of fst snd].
  destruct (bound_float_exact p e p' e' ltac:(lia) ltac:(lia)) as [B1 B2].
  assert (L : ((2 ^ p - 1) * 2 ^ e <= (2 ^ p' - 1) * 2 ^ e')%Z).
  { pose proof (Z.pow_le_mono_r 2 p p'). pose proof (Z.pow_le_mono_r 2 e e'). pose proof (Z.pow_pos_nonneg 2 p). pose proof (Z.pow_pos_nonneg 2 e). apply Z.mul_le_mono_nonneg; lia. }
  unfold clip_. cbn [gated range_of]. set (M0 := ((2 ^ p - 1) * 2 ^ e)%Z) in *. set (M1 := ((2 ^ p' - 1) * 2 ^ e')%Z) in *. clearbody M0 M1.
  destruct (Z.ltb_spec (- M0) (- M1)); [lia|]. destruct (Z.ltb_spec M1 M0); [lia|]. cbn [bind astype]. eexists. split; [reflexivity|].
  unfold qclip. apply qmin_compat; [|exact B1]. apply qmax_compat; [reflexivity|]. rewrite B2. rewrite inject_Z_opp. reflexivity.
Qed.
Lemma small_form : forall d p m alpha rest v, small_float d p m -> exists c, linear d (alpha :: rest) v = to_float p c /\ c == qclip (stretched d alpha v) (- m) m.
Proof.
  intros d p m alpha rest v S. destruct (small_contrast d p m S) as (e & C & N & D & P & E & M). rewrite (linear_form d alpha rest v C N), D. subst m.
  destruct (narrow_float p e 53 971 (stretched d alpha v) P E) as (c & F & G). exists c. rewrite F. auto.
Qed.
Lemma to_float_compat : forall p q r, (0 < p)%Z -> q == r -> to_float p q == to_float p r.
Proof. intros p q r P H. apply Qle_antisym; apply to_float_mono; try exact P; lra. Qed.
Lemma small_max : forall d p m, small_float d p m -> to_float p m == m /\ to_float p (- m) == - m /\ 0 < m.
Proof.
  intros d p m S. destruct (small_contrast d p m S) as (e & _ & _ & _ & P & E & M). pose proof (Z.pow_pos_nonneg 2 p). pose proof (Z.pow_le_mono_r 2 1 p). pose proof (Z.pow_pos_nonneg 2 e). split; [|split].
  - apply (to_float_exact p p m (2 ^ p - 1) e); [lia| |lia]. rewrite M, inject_Z_mult, pow2_Z by lia. reflexivity.
  - apply (to_float_exact p p _ (- (2 ^ p - 1)) e); [lia| |lia]. rewrite M, inject_Z_opp, inject_Z_mult, pow2_Z by lia. ring.
  - rewrite M. change 0 with (inject_Z 0). rewrite <- Zlt_Qlt. change (2 ^ 1)%Z with 2%Z in *. nia.
Qed.
Lemma linear_small : forall d p m alpha rest v, small_float d p m -> let s := stretched d alpha v in let r := linear d (alpha :: rest) v in
  (s < - m -> r == - m) /\ (- m <= s <= m -> Qabs (r - s) * inject_Z (2 ^ p) <= Qabs s) /\ (m < s -> r == m).
Proof.
  intros d p m alpha rest v S. cbv zeta. destruct (small_form d p m alpha rest v S) as (c & -> & C). destruct (small_max d p m S) as (T1 & T2 & T3). assert (P : (0 < p)%Z) by (destruct (small_contrast d p m S) as (? & _ & _ & _ & ? & _); lia).
  set (s := stretched d alpha v) in *. clearbody s. split; [|split].
  - intros H. transitivity (to_float p (- m)); [|exact T2]. apply to_float_compat; [exact P|]. rewrite C. unfold qclip. qminmax; lra.
  - intros [A B]. pose proof (to_float_err p c P) as E. rewrite (qclip_id s (- m) m A B) in C. rewrite C in E at 2 3. exact E.
  - intros H. transitivity (to_float p m); [|exact T1]. apply to_float_compat; [exact P|]. rewrite C. unfold qclip. qminmax; lra.
Qed.
Lemma value_inject : forall d z lo hi, int_range (dty d) lo hi -> (lo <= z <= hi)%Z -> value_of d (inject_Z z).
Proof. intros d z lo hi R B. unfold value_of. inversion R as [b Hb E|b Hb E]; subst; exists z; (split; [reflexivity|lia]). Qed.
Lemma value_get : forall d v lo hi, int_range (dty d) lo hi -> value_of d v -> exists z, v == inject_Z z /\ (lo <= z <= hi)%Z.
Proof. intros d v lo hi R V. unfold value_of in V. inversion R as [b Hb E|b Hb E]; subst; rewrite <- E in V; destruct V as (z & V & B); exists z; (split; [exact V|lia]). Qed.
Lemma u8_range : int_range (dty U8) 0 255.
Proof. apply (unsigned_range 8). lia. Qed.
Lemma contrast_cases : forall d, contrast_dtype d -> d = U8 \/ d = F64 \/ (exists lo hi, wide_int d lo hi) \/ (exists p m, small_float d p m).
Proof.
  intros d H. unfold contrast_dtype in H. cbn [In] in H. unfold wide_int, small_float.
  decompose [or] H; subst; try contradiction; auto.
  1-5: right; right; left; eexists _, _; intuition reflexivity.
  all: right; right; right; eexists _, _; intuition reflexivity.
Qed.
Lemma linear_range : forall d alpha rest v, contrast_dtype d -> d <> F64 -> (in_float64 (stretched d alpha v)) -> value_of d (linear d (alpha :: rest) v).
Proof.
  intros d alpha rest v C N F. destruct (contrast_cases d C) as [->|[->|[(lo & hi & W)|(p & m & S)]]]; [|contradiction| |].
  - destruct (linear_u8 alpha rest v) as (z & -> & A). cbv zeta in A. set (s := stretched U8 alpha v) in *. clearbody s. destruct A as (A1 & A2 & A3). apply (value_inject U8 z 0 255 u8_range).
    destruct (Qlt_le_dec s 0) as [X|X]; [rewrite (A1 X); lia|]. destruct (Qlt_le_dec 255 s) as [Y|Y]; [rewrite (A3 Y); lia|]. destruct (A2 (conj X Y)) as [B1 B2].
    assert (D1 : inject_Z (-1) < inject_Z z) by (change (inject_Z (-1)) with (- (1)); lra). assert (D2 : inject_Z z <= inject_Z 255) by (change (inject_Z 255) with 255; lra). rewrite <- Zlt_Qlt in D1. rewrite <- Zle_Qle in D2. lia.
  - destruct (linear_wide d lo hi alpha rest v W F) as (n & z & _ & (A1 & A2 & A3) & ->). destruct (wide_contrast d lo hi W) as (_ & _ & R & _). apply (value_inject d z lo hi R). pose proof (int_range_ne _ _ _ R). destruct (Z.lt_ge_cases n lo); [rewrite A1 by assumption; lia|]. destruct (Z.lt_ge_cases hi n); [rewrite A3 by assumption; lia|]. rewrite A2 by lia. lia.
  - destruct (small_form d p m alpha rest v S) as (c & -> & X). destruct (small_max d p m S) as (T1 & T2 & T3). destruct (small_contrast d p m S) as (e & _ & _ & D & P & E & M). unfold value_of. rewrite D. split; [apply to_float_value; lia|]. rewrite <- M.
    apply Qabs_Qle_condition. destruct (qclip_in (stretched d alpha v) (- m) m ltac:(lra)) as [Q1 Q2]. rewrite <- X in Q1, Q2. split; [apply (Qle_trans _ (to_float p (- m))); [rewrite T2; apply Qle_refl|apply to_float_mono; [lia|exact Q1]]|apply (Qle_trans _ (to_float p m)); [apply to_float_mono; [lia|exact Q2]|rewrite T1; apply Qle_refl]].
Qed.
Lemma nearest_Z : forall s z, s == inject_Z z -> nearest s z.
Proof. intros s z E. split; [lra|]. intros [X|X]; exfalso; lra. Qed.
Lemma linear_exact : forall d alpha rest v z lo hi, int_range (dty d) lo hi -> contrast_dtype d -> (lo <= z <= hi)%Z -> stretched d alpha v == inject_Z z -> linear d (alpha :: rest) v == inject_Z z.
Proof.
  intros d alpha rest v z lo hi R C B E. destruct (contrast_cases d C) as [->|[->|[(lo' & hi' & W)|(p & m & S)]]].
  - inversion R; subst. destruct (linear_u8 alpha rest v) as (n & -> & A). cbv zeta in A. set (s := stretched U8 alpha v) in *. clearbody s. destruct A as (_ & A2 & _). change (2 ^ 8 - 1)%Z with 255%Z in B.
    destruct B as [B1 B2]. rewrite Zle_Qle in B1, B2. change (inject_Z 0) with 0 in B1. change (inject_Z 255) with 255 in B2. destruct A2 as [D1 D2]; [rewrite E; split; assumption|].
    assert (X1 : inject_Z n < inject_Z (z + 1)) by (rewrite inject_Z_plus; change (inject_Z 1) with 1; lra). assert (X2 : inject_Z z < inject_Z (n + 1)) by (rewrite inject_Z_plus; change (inject_Z 1) with 1; lra). rewrite <- Zlt_Qlt in X1, X2. replace n with z by lia. reflexivity.
  - inversion R.
  - destruct (wide_contrast d lo' hi' W) as (_ & _ & R' & FM). assert (lo' = lo /\ hi' = hi) as [-> ->] by (apply range_of_int in R, R'; split; congruence).
    assert (IN : in_float64 (stretched d alpha v)).
    { unfold in_float64. rewrite E. destruct (fits_bounds _ _ _ 53 ltac:(lia) R FM) as [F1 F2]. apply Qabs_Qle_condition. rewrite <- inject_Z_opp, <- !Zle_Qle. pose proof (Z.pow_le_mono_r 2 53 1023 ltac:(lia) ltac:(lia)). set (a := (2 ^ 1023)%Z) in *. clearbody a. lia. }
    destruct (linear_wide d lo hi alpha rest v W IN) as (n & z' & N & (_ & A & _) & ->). assert (n = z) by (apply (nearest_unique (stretched d alpha v)); [exact N|apply nearest_Z; exact E]). subst n. rewrite A by exact B. reflexivity.
  - exfalso. destruct (small_contrast d p m S) as (e & _ & _ & D & _). rewrite D in R. inversion R.
Qed.
Lemma linear_one : forall d rest v, contrast_dtype d -> value_of d v -> linear d (1 :: rest) v == v.
Proof.
  intros d rest v C V. assert (E : stretched d 1 v == v) by (unfold stretched; ring). destruct (contrast_cases d C) as [X|[->|[(lo & hi & W)|(p & m & S)]]].
  - subst. destruct (value_get U8 v 0 255 u8_range V) as (z & Z1 & Z2). rewrite (linear_exact U8 1 rest v z 0 255 u8_range C Z2); [symmetry; exact Z1|]. rewrite E. exact Z1.
  - rewrite linear_f64. exact E.
  - destruct (wide_contrast d lo hi W) as (_ & _ & R & _). destruct (value_get d v lo hi R V) as (z & Z1 & Z2). rewrite (linear_exact d 1 rest v z lo hi R C Z2); [symmetry; exact Z1|]. rewrite E. exact Z1.
  - destruct (small_form d p m 1 rest v S) as (c & -> & X). destruct (small_contrast d p m S) as (e & _ & _ & D & P & _ & M). unfold value_of in V. rewrite D in V. destruct V as [(k & j & V1 & V2) V3]. rewrite <- M in V3. apply Qabs_Qle_condition in V3.
    assert (CV : c == v) by (rewrite X; transitivity (stretched d 1 v); [apply qclip_id; rewrite E; lra|exact E]). transitivity c; [|exact CV]. apply (to_float_exact p p c k j); [lia|rewrite CV; exact V1|exact V2].
Qed.
Lemma linear_zero : forall d rest v, contrast_dtype d -> linear d (0 :: rest) v == inject_Z (middle d).
Proof.
  intros d rest v C. assert (E : stretched d 0 v == inject_Z (middle d)) by (unfold stretched; ring). destruct (contrast_cases d C) as [X|[->|[(lo & hi & W)|(p & m & S)]]].
  - subst. apply (linear_exact U8 0 rest v 127 0 255 u8_range C); [lia|exact E].
  - rewrite linear_f64. exact E.
  - destruct (wide_contrast d lo hi W) as (_ & _ & R & _). apply (linear_exact d 0 rest v _ lo hi R C); [|exact E]. unfold wide_int in W. decompose [or and] W; subst; cbn; lia.
  - destruct (small_form d p m 0 rest v S) as (c & -> & X). destruct (small_max d p m S) as (_ & _ & T3). assert (MD : inject_Z (middle d) = 0) by (unfold small_float in S; decompose [or and] S; subst; reflexivity). rewrite MD in *.
    rewrite to_float_0; [reflexivity|]. rewrite X. unfold qclip. qminmax; lra.
Qed.
Lemma linear_mono : forall d alpha rest v w, contrast_dtype d -> 0 <= alpha -> v <= w -> in_float64 (stretched d alpha v) -> in_float64 (stretched d alpha w) ->
  linear d (alpha :: rest) v <= linear d (alpha :: rest) w.
Proof.
  intros d alpha rest v w C A V F1 F2. assert (E : stretched d alpha v <= stretched d alpha w).
  { unfold stretched. assert (0 <= alpha * (w - v)) by (apply Qmult_le_0_compat; lra). lra. }
  destruct (contrast_cases d C) as [X|[->|[(lo & hi & W)|(p & m & S)]]].
  - subst. change (linear U8 (alpha :: rest) v) with (inject_Z (FxModel.to_byte (stretched U8 alpha v))). change (linear U8 (alpha :: rest) w) with (inject_Z (FxModel.to_byte (stretched U8 alpha w))). rewrite <- Zle_Qle. apply to_byte_mono. exact E.
  - rewrite !linear_f64. exact E.
  - destruct (linear_wide d lo hi alpha rest v W F1) as (n & z & N & SZ & ->). destruct (linear_wide d lo hi alpha rest w W F2) as (n' & z' & N' & SZ' & ->). rewrite <- Zle_Qle.
    assert (NN : (n <= n')%Z). { rewrite (nearest_unique _ _ _ N (nearest_np_round _)), (nearest_unique _ _ _ N' (nearest_np_round _)). apply np_round_mono. exact E. }
    destruct (wide_contrast d lo hi W) as (_ & _ & R & _). pose proof (int_range_ne _ _ _ R). destruct SZ as (S1 & S2 & S3), SZ' as (T1 & T2 & T3).
    destruct (Z.lt_ge_cases n lo); [rewrite S1 by assumption|destruct (Z.lt_ge_cases hi n); [rewrite S3 by assumption|rewrite S2 by lia]];
    (destruct (Z.lt_ge_cases n' lo); [rewrite T1 by assumption|destruct (Z.lt_ge_cases hi n'); [rewrite T3 by assumption|rewrite T2 by lia]]); lia.
  - destruct (small_form d p m alpha rest v S) as (c & -> & X). destruct (small_form d p m alpha rest w S) as (c' & -> & X'). assert (P : (0 < p)%Z) by (destruct (small_contrast d p m S) as (? & _ & _ & _ & ? & _); lia). apply to_float_mono; [exact P|]. rewrite X, X'. unfold qclip. qminmax; lra.
Qed.
