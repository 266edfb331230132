(** Proofs about Cartoon. *)
From Coq Require Import List ZArith QArith Qabs Bool Lia Lqa.
From Verif Require Import Prelude PreludeFacts DtyModel CtrModel CorModel CorSpec CarModel CarSpec.
From Verif Require CorProofs ParProofs DtyProofs AriProofs.
Import ListNotations.
Open Scope Z_scope.

(** * Windows *)
Lemma mirror_ok : forall n i, 1 <= n -> reflected n i (mirror n i).
Proof.
  intros n i N. unfold mirror. destruct (Z.eqb_spec n 1) as [->|N1].
  - split; [lia|]. left. reflexivity.
  - cbv zeta. pose proof (Z.mod_pos_bound i (2 * (n - 1)) ltac:(lia)) as B. pose proof (Z.div_mod i (2 * (n - 1)) ltac:(lia)) as D.
    destruct (Z.ltb_spec (i mod (2 * (n - 1))) n).
    + split; [lia|]. right. exists (i / (2 * (n - 1))). left. lia.
    + split; [lia|]. right. exists (i / (2 * (n - 1)) + 1). right. nia.
Qed.
Lemma mirror_id : forall n i, 0 <= i < n -> mirror n i = i.
Proof.
  intros n i H. unfold mirror. destruct (Z.eqb_spec n 1) as [->|N1]; [lia|]. cbv zeta. rewrite Z.mod_small by lia.
  destruct (Z.ltb_spec i n); lia.
Qed.
Lemma NoDup_prod : forall A B (l : list A) (m : list B), NoDup l -> NoDup m -> NoDup (list_prod l m).
Proof.
  intros A B l m L M. induction L as [|a l NI L IH]; [constructor|]. cbn [list_prod].
  assert (G : forall x r, NoDup x -> NoDup r -> (forall p, In p x -> ~ In p r) -> NoDup (x ++ r : list (A * B))).
  { induction x as [|p x IHx]; intros r X R D; [exact R|]. inversion X; subst. cbn. constructor.
    - rewrite in_app_iff. intros [H|H]; [contradiction|]. exact (D p (or_introl eq_refl) H).
    - apply IHx; auto. intros q Q. apply D. right. exact Q. }
  apply G; [|exact IH|].
  - clear - M. induction M as [|b m NI M IH]; [constructor|]. cbn. constructor; [|exact IH]. intros H. apply in_map_iff in H. destruct H as (c & E & C). injection E as ->. contradiction.
  - intros p P Q. apply in_map_iff in P. destruct P as (b & <- & _). apply in_prod_iff in Q. destruct Q; contradiction.
Qed.
Definition offsets (r : Z) : list Z := map (fun i => Z.of_nat i - r) (seq 0 (Z.to_nat (2 * r + 1))).
Lemma offsets_in : forall r d, 0 <= r -> In d (offsets r) <-> - r <= d <= r.
Proof.
  intros r d R. unfold offsets. rewrite in_map_iff. split.
  - intros (i & <- & I). apply in_seq in I. lia.
  - intros H. exists (Z.to_nat (d + r)). split; [lia|]. apply in_seq. lia.
Qed.
Lemma offsets_nodup : forall r, NoDup (offsets r).
Proof.
  intros r. unfold offsets. generalize (seq_NoDup (Z.to_nat (2 * r + 1)) 0). generalize (seq 0 (Z.to_nat (2 * r + 1))). induction l as [|a l IH]; intros N; [constructor|].
  inversion N; subst. cbn. constructor; [|apply IH; assumption]. intros H. apply in_map_iff in H. destruct H as (b & E & I). assert (a = b) by lia. subst. contradiction.
Qed.
Definition two_valued (e : Z -> Z -> Z) : Prop := forall y x, e y x = 255 \/ e y x = 0.
Lemma count_ok : forall h w r e y x, 1 <= h -> 1 <= w -> 0 <= r -> two_valued e ->
  exists n, edges_around h w r (fun a b => e a b = 255) y x n /\ (edge_count h w r e y x == inject_Z (Z.of_nat n))%Q.
Proof.
  intros h w r e y x H W R T. unfold edge_count. fold (offsets r).
  set (P := fun d : Z * Z => e (mirror h (y + fst d)) (mirror w (x + snd d)) =? 255).
  exists (length (filter P (list_prod (offsets r) (offsets r)))). split.
  - exists (fun d => mirror h (y + d)), (fun d => mirror w (x + d)), (filter P (list_prod (offsets r) (offsets r))).
    split; [intros d; apply mirror_ok; exact H|]. split; [intros d; apply mirror_ok; exact W|]. split; [apply NoDup_filter; apply NoDup_prod; apply offsets_nodup|]. split; [reflexivity|].
    intros dy dx. rewrite filter_In, in_prod_iff, !offsets_in by exact R. unfold P. cbn [fst snd]. rewrite Z.eqb_eq. tauto.
  - generalize (list_prod (offsets r) (offsets r)). induction l as [|d l IH]; [reflexivity|]. cbn [map fold_right filter]. rewrite IH. unfold P at 2.
    destruct (T (mirror h (y + fst d)) (mirror w (x + snd d))) as [E|E]; rewrite E.
    + change (255 =? 255) with true. cbn [length]. rewrite Nat2Z.inj_succ, <- Z.add_1_l, inject_Z_plus. setoid_replace (inject_Z 255 / 255)%Q with (inject_Z 1) by reflexivity. reflexivity.
    + change (0 =? 255) with false. setoid_replace (inject_Z 0 / 255)%Q with 0%Q by reflexivity. apply Qplus_0_l.
Qed.
Lemma suppress_ok : forall h w r t inverse e, 1 <= h -> 1 <= w -> 0 <= r -> two_valued e ->
  two_valued (suppress h w r (inject_Z (Z.of_nat t)) inverse e) /\
  forall y x, exists n, edges_around h w r (fun a b => e a b = 255) y x n /\
    (suppress h w r (inject_Z (Z.of_nat t)) inverse e y x = 255 <-> e y x = 255 /\ if inverse then (t <= n)%nat else (n < t)%nat).
Proof.
  intros h w r t inverse e H W R T. split.
  - intros y x. unfold suppress. cbv zeta. destruct (if inverse then _ else _); [right; reflexivity|apply T].
  - intros y x. destruct (count_ok h w r e y x H W R T) as (n & A & C). exists n. split; [exact A|]. unfold suppress. cbv zeta.
    destruct inverse.
    + destruct (qltb _ _) eqn:B.
      * apply qltb_iff in B. rewrite C in B. rewrite <- Zlt_Qlt in B. split; [discriminate|]. intros [_ K]. lia.
      * assert (K : ~ (edge_count h w r e y x < inject_Z (Z.of_nat t))%Q) by (rewrite <- qltb_iff; congruence). apply Qnot_lt_le in K. rewrite C in K. rewrite <- Zle_Qle in K.
        split; [intros X; split; [exact X|lia]|tauto].
    + destruct (qleb _ _) eqn:B.
      * apply qleb_iff in B. rewrite C in B. rewrite <- Zle_Qle in B. split; [discriminate|]. intros [_ K]. lia.
      * assert (K : ~ (inject_Z (Z.of_nat t) <= edge_count h w r e y x)%Q) by (rewrite <- qleb_iff; congruence). apply Qnot_le_lt in K. rewrite C in K. rewrite <- Zlt_Qlt in K.
        split; [intros X; split; [exact X|lia]|tauto].
Qed.

(** * Numbers *)
Lemma py_int_comp : forall a b, (a == b)%Q -> py_int a = py_int b.
Proof.
  intros a b E. unfold py_int. assert (Q : qleb 0 a = qleb 0 b) by (apply eq_true_iff_eq; rewrite !qleb_iff; rewrite E; reflexivity).
  rewrite Q, (Qround.Qfloor_comp _ _ E), (Qround.Qceiling_comp _ _ E). reflexivity.
Qed.
Lemma kernel_ok : forall q, exists k, kernel_size q = k /\ Z.odd k = true /\ 1 <= k /\ ((q < 3 # 2)%Q -> k = 1) /\ ((3 # 2 <= q)%Q -> 3 <= k /\ (Qabs (inject_Z k - q) <= 3 # 2)%Q).
Proof.
  intros q. eexists. split; [reflexivity|]. unfold kernel_size. cbv zeta.
  pose proof (AriProofs.np_round_near q) as R. pose proof (np_round_mono (3 # 2) q) as MO. change (np_round (3 # 2)) with 2 in MO. set (r := np_round q) in *. clearbody r.
  apply Qabs_Qle_condition in R. destruct R as [R1 R2].
  assert (UP : (q < 3 # 2)%Q -> r <= 1). { intros H. assert (X : (inject_Z r < inject_Z 2)%Q) by (change (inject_Z 2) with 2%Q; Lqa.lra). rewrite <- Zlt_Qlt in X. lia. }
  pose proof (Zmod_odd (Z.max r 1)) as OD. destruct (Z.eqb_spec (Z.max r 1 mod 2) 0) as [E|E].
  - rewrite E in OD. destruct (Z.odd (Z.max r 1)) eqn:O; [discriminate|]. split; [rewrite Z.add_1_r, Z.odd_succ, <- Z.negb_odd, O; reflexivity|].
    split; [lia|]. split; [intros H; specialize (UP H); replace (Z.max r 1) with 1 in E by lia; discriminate E|]. intros H. specialize (MO H).
    split; [lia|]. replace (Z.max r 1) with r by lia. rewrite inject_Z_plus. change (inject_Z 1) with 1%Q. apply Qabs_Qle_condition. split; Lqa.lra.
  - destruct (Z.odd (Z.max r 1)) eqn:O; [|congruence]. split; [reflexivity|]. split; [lia|]. split; [intros H; specialize (UP H); lia|]. intros H. specialize (MO H).
    replace (Z.max r 1) with r in * by lia. split; [|apply Qabs_Qle_condition; split; Lqa.lra]. destruct (Z.eq_dec r 2) as [->|]; [discriminate O|lia].
Qed.
Lemma limit_ok : forall a b e, (0 <= a)%Q -> 0 <= b -> (0 < e)%Q -> exists t, edge_limit a b e = Ok t /\ 0 <= t <= b /\
  ((a / e < inject_Z b + 1)%Q -> (inject_Z t <= a / e < inject_Z t + 1)%Q) /\ ((inject_Z b <= a / e)%Q -> t = b).
Proof.
  intros a b e A B E. unfold edge_limit. destruct (qeqb e 0) eqn:Z0; [apply qeqb_iff in Z0; Lqa.lra|]. eexists. split; [reflexivity|].
  assert (EQ : (a * (1 / e) == a / e)%Q) by (field; Lqa.lra). rewrite (py_int_comp _ _ EQ).
  assert (N : (0 <= a / e)%Q) by (apply Qle_shift_div_l; Lqa.lra). destruct (CorProofs.py_int_whole _ N) as (z & EZ & L & U).
  apply (proj1 (inject_Z_injective _ _)) in EZ. rewrite EZ. set (v := (a / e)%Q) in *. clearbody v.
  assert (Z0' : 0 <= z). { assert (X : (inject_Z 0 < inject_Z (z + 1))%Q) by (rewrite inject_Z_plus; change (inject_Z 0) with 0%Q; change (inject_Z 1) with 1%Q; Lqa.lra). rewrite <- Zlt_Qlt in X. lia. }
  split; [lia|]. split.
  - intros H. assert (X : (inject_Z z < inject_Z (b + 1))%Q) by (rewrite inject_Z_plus; change (inject_Z 1) with 1%Q; Lqa.lra). rewrite <- Zlt_Qlt in X.
    rewrite Z.min_l by lia. split; assumption.
  - intros H. assert (X : (inject_Z b < inject_Z (z + 1))%Q) by (rewrite inject_Z_plus; change (inject_Z 1) with 1%Q; Lqa.lra). rewrite <- Zlt_Qlt in X. lia.
Qed.
Lemma blend_ok : forall z e, 0 <= z <= 255 -> (e = 255 -> blend_edge (inject_Z z) e = 0) /\ (e = 0 -> blend_edge (inject_Z z) e = z).
Proof.
  intros z e Z0. unfold blend_edge, zclip. split; intros ->.
  - rewrite (DtyProofs.np_round_eq _ 0); [lia|]. setoid_replace (1 - inject_Z 255 / 255)%Q with 0%Q by reflexivity. apply Qmult_0_r.
  - rewrite (DtyProofs.np_round_eq _ z); [lia|]. setoid_replace (1 - inject_Z 0 / 255)%Q with 1%Q by reflexivity. apply Qmult_1_r.
Qed.
Lemma edges_two : forall raw : Z -> Z -> Z, two_valued (fun y x => if 100 <? raw y x then 255 else 0).
Proof. intros raw y x. destruct (100 <? raw y x); auto. Qed.

Section Cartoon.
Variable median : Z -> picture -> picture.
Variable median_edges : Z -> (Z -> Z -> Z) -> Z -> Z -> Z.
Variable mean_shift : Z -> Z -> picture -> picture.
Variable gray : picture -> Z -> Z -> Q.
Variable canny : Z -> (Z -> Z -> Q) -> Z -> Z -> Z.
Variable laplacian : (Z -> Z -> Q) -> Z -> Z -> Q.
Variable percentile : Z -> (Z -> Z -> Q) -> Q.
Variables to_hsv from_hsv : picture -> picture.
Hypothesis MS : forall k im, same_shape (median k im) im.
Hypothesis MB : forall k im, bytes im -> bytes (median k im).
Hypothesis SS : forall a b im, same_shape (mean_shift a b im) im.
Hypothesis SB : forall a b im, bytes im -> bytes (mean_shift a b im).
Local Notation cart := (cartoon median median_edges mean_shift gray canny laplacian percentile to_hsv from_hsv).
Local Notation lap := (find_edges_laplacian median_edges gray laplacian percentile).

Lemma refuses : forall k g s e sup im, ~ (p_dt im = U8 /\ p_c im = Some 3%nat) ->
  cart k g s e sup im = Err (if dname_eqb (p_dt im) U8 then AssertionError else ValueError).
Proof.
  intros k g s e sup im N. unfold cartoon. rewrite CorProofs.only_uint8_one. destruct (dname_eqb (p_dt im) U8) eqn:D; [|reflexivity].
  apply CorProofs.dname_eqb_u8 in D. cbn [bind]. destruct (p_c im) as [[|[|[|[|n]]]]|]; try reflexivity. exfalso. apply N. split; [exact D|reflexivity].
Qed.
Lemma zero_prevalence : forall k g s sup im, p_dt im = U8 -> p_c im = Some 3%nat -> cart k g s 0 sup im = Err GenericException.
Proof.
  intros k g s sup im D C. unfold cartoon. rewrite CorProofs.only_uint8_one, D, C. cbn [dname_eqb bind negb]. cbv zeta.
  destruct (is_small (p_h im) (p_w im)); reflexivity.
Qed.
Lemma picture_ok : forall k g s e sup im, p_dt im = U8 -> p_c im = Some 3%nat -> 1 <= p_h im -> 1 <= p_w im -> bytes im -> (0 < e)%Q ->
  exists blurred seg raw edge drawn,
    ((k < 3 # 2)%Q -> blurred = im) /\
    ((3 # 2 <= k)%Q -> exists n, Z.odd n = true /\ 3 <= n /\ (Qabs (inject_Z n - k) <= 3 # 2)%Q /\ blurred = median n im) /\
    ((g <= 0)%Q -> seg = blurred) /\
    ((0 < g)%Q -> exists a b, seg = mean_shift a b blurred /\
       let small := p_h im < 400 /\ p_w im < 400 in
       (small -> whole_part (10 * g) (inject_Z a) /\ whole_part (20 * g) (inject_Z b)) /\
       (~ small -> whole_part (15 * g) (inject_Z a) /\ whole_part (40 * g) (inject_Z b))) /\
    (p_h im < 400 /\ p_w im < 400 -> exists t, raw = canny t (gray seg) /\ 0 <= t <= 254 /\
       ((200 / e < 255)%Q -> whole_part (200 / e) (inject_Z t)) /\ ((254 <= 200 / e)%Q -> t = 254)) /\
    (~ (p_h im < 400 /\ p_w im < 400) -> lap seg e = Ok raw) /\
    (sup = false -> forall y x, edge y x <-> 100 < raw y x) /\
    (sup = true -> exists kept : Z -> Z -> Prop, forall y x,
       (exists n, edges_around (p_h im) (p_w im) 1 (fun y x => 100 < raw y x) y x n /\ (kept y x <-> 100 < raw y x /\ (n < 8)%nat)) /\
       (exists n, edges_around (p_h im) (p_w im) 2 kept y x n /\ (edge y x <-> kept y x /\ (3 <= n)%nat))) /\
    p_dt drawn = U8 /\ same_shape drawn im /\
    (forall y x c, position im y x c -> (edge y x -> p_px drawn y x c = 0%Q) /\ (~ edge y x -> p_px drawn y x c = p_px seg y x c)) /\
    cart k g s e sup im = Ok (saturate to_hsv from_hsv drawn (qmax s 0)).
Proof.
  intros k g s e sup im D C H W BY E. unfold cartoon. rewrite CorProofs.only_uint8_one, D, C. cbn [dname_eqb bind negb]. cbv zeta.
  destruct (kernel_ok k) as (n & EK & OD & N1 & KL & KH). rewrite EK.
  set (blurred := if n <=? 1 then im else median n im). set (small := is_small (p_h im) (p_w im)).
  assert (SM : small = true <-> p_h im < 400 /\ p_w im < 400) by (unfold small, is_small; rewrite Z.ltb_lt; lia).
  assert (BL : same_shape blurred im /\ bytes blurred) by (unfold blurred; destruct (n <=? 1); [split; [repeat split|exact BY]|split; [apply MS|apply MB; exact BY]]).
  destruct BL as [BLS BLB].
  set (seg := if qleb (qmax g 0) 0 then blurred else let '(sp, sr) := radii small (qmax g 0) in mean_shift sp sr blurred).
  assert (SG : same_shape seg blurred /\ bytes seg) by (unfold seg; destruct (qleb (qmax g 0) 0); [split; [repeat split|exact BLB]|destruct (radii small (qmax g 0)); split; [apply SS|apply SB; exact BLB]]).
  destruct SG as [SGS SGB]. destruct BLS as (BH & BW & BC). destruct SGS as (SH & SW & SC).
  assert (RAW : exists raw, (if small then find_edges_canny gray canny seg e else lap seg e) = Ok raw /\
    (small = true -> exists t, raw = canny t (gray seg) /\ 0 <= t <= 254 /\ ((200 / e < 255)%Q -> whole_part (200 / e) (inject_Z t)) /\ ((254 <= 200 / e)%Q -> t = 254)) /\
    (small = false -> lap seg e = Ok raw)).
  { destruct small.
    - destruct (limit_ok 200 254 e ltac:(discriminate) ltac:(lia) E) as (t & ET & T1 & T2 & T3). unfold find_edges_canny. rewrite ET. cbn [bind]. eexists. split; [reflexivity|]. split; [|discriminate].
      intros _. exists t. split; [reflexivity|]. split; [exact T1|]. split; [|exact T3]. intros X. exists t. split; [reflexivity|]. apply T2. change (inject_Z 254 + 1)%Q with 255%Q. exact X.
    - unfold find_edges_laplacian. cbv zeta. destruct (limit_ok 90 99 e ltac:(discriminate) ltac:(lia) E) as (t & ET & _). rewrite ET. cbn [bind]. eexists. split; [reflexivity|]. split; [discriminate|reflexivity]. }
  destruct RAW as (raw & ER & RS & RL). rewrite ER. cbn [bind].
  set (e0 := fun y x => if 100 <? raw y x then 255 else 0).
  set (e1 := suppress (p_h blurred) (p_w blurred) 1 8 false e0). set (e2 := suppress (p_h blurred) (p_w blurred) 2 3 true e1).
  set (ee := if sup then e2 else e0).
  assert (T0 : two_valued e0) by apply edges_two.
  destruct (suppress_ok (p_h blurred) (p_w blurred) 1 8 false e0 ltac:(lia) ltac:(lia) ltac:(lia) T0) as [T1 S1]. change (inject_Z (Z.of_nat 8)) with 8%Q in T1, S1. fold e1 in T1, S1.
  destruct (suppress_ok (p_h blurred) (p_w blurred) 2 3 true e1 ltac:(lia) ltac:(lia) ltac:(lia) T1) as [T2 S2]. change (inject_Z (Z.of_nat 3)) with 3%Q in T2, S2. fold e2 in T2, S2.
  assert (TE : two_valued ee) by (unfold ee; destruct sup; assumption).
  assert (E0 : forall y x, e0 y x = 255 <-> 100 < raw y x).
  { intros y x. unfold e0. destruct (Z.ltb_spec 100 (raw y x)); split; intros; try lia; discriminate. }
  exists blurred, seg, raw, (fun y x => ee y x = 255), (mkP U8 (p_h seg) (p_w seg) (p_c seg) (fun y x c => inject_Z (blend_edge (p_px seg y x c) (ee y x)))).
  split; [intros X; unfold blurred; rewrite (KL X); reflexivity|].
  split; [intros X; destruct (KH X) as [K3 KA]; exists n; split; [exact OD|]; split; [exact K3|]; split; [exact KA|]; unfold blurred; destruct (Z.leb_spec n 1); [lia|reflexivity]|].
  split; [intros X; unfold seg; assert (Q0 : qleb (qmax g 0) 0 = true) by (apply qleb_iff; qminmax; Lqa.lra); rewrite Q0; reflexivity|].
  split.
  { intros X. unfold seg. destruct (qleb (qmax g 0) 0) eqn:Q0; [exfalso; apply qleb_iff in Q0; revert Q0; qminmax; Lqa.lra|].
    assert (QM : (qmax g 0 == g)%Q) by (qminmax; Lqa.lra).
    assert (WP : forall c, (0 <= c)%Q -> whole_part (c * g) (inject_Z (py_int (c * qmax g 0)))).
    { intros c C0. assert (EQ : (c * qmax g 0 == c * g)%Q) by (rewrite QM; reflexivity). rewrite (py_int_comp _ _ EQ). apply CorProofs.py_int_whole. apply Qmult_le_0_compat; Lqa.lra. }
    unfold radii. destruct small eqn:SE; do 2 eexists; (split; [reflexivity|]); cbv zeta; split; intros Y; try (split; apply WP; discriminate).
    - exfalso. apply Y. apply SM. reflexivity.
    - exfalso. apply SM in Y. congruence. }
  split; [intros X; apply RS; apply SM; exact X|].
  split; [intros X; apply RL; destruct small eqn:SE; [exfalso; apply X; apply SM; reflexivity|reflexivity]|].
  split; [intros ->; exact E0|].
  split.
  { intros ->. exists (fun y x => e1 y x = 255). intros y x. rewrite <- BH, <- BW. split.
    - destruct (S1 y x) as (m & A & B). exists m. split.
      + destruct A as (iy & ix & ds & A1 & A2 & A3 & A4 & A5). exists iy, ix, ds. repeat split; auto; try (intros; apply A1); try (intros; apply A2).
        all: try (apply A5 in H0; intuition lia).
        * apply E0. apply A5 in H0. tauto.
        * intros (X1 & X2 & X3). apply A5. rewrite E0. auto.
      + rewrite B, E0. tauto.
    - exact (S2 y x). }
  split; [reflexivity|]. split; [repeat split; cbn; congruence|]. split; [|reflexivity].
  intros y x c PO. cbn [p_px]. assert (PS : position seg y x c) by (unfold position in *; rewrite SH, SW, SC, BH, BW, BC; exact PO).
  destruct (SGB y x c PS) as (z & EZ & Z0). rewrite EZ. destruct (blend_ok z (ee y x) Z0) as [B1 B2]. split; intros X.
  - rewrite (B1 X). reflexivity.
  - destruct (TE y x) as [X'|X']; [contradiction|]. rewrite (B2 X'). reflexivity.
Qed.
Lemma saturate_ok : forall im f, (0 <= f)%Q ->
  ((Qabs (f - 1) <= 1001 # 100000)%Q -> saturate to_hsv from_hsv im f = im) /\
  ((1001 # 100000 < Qabs (f - 1))%Q -> exists hsv, saturate to_hsv from_hsv im f = from_hsv hsv /\ same_shape hsv (to_hsv im) /\ p_dt hsv = p_dt (to_hsv im) /\
     forall y x, p_px hsv y x 0%nat = p_px (to_hsv im) y x 0%nat /\ p_px hsv y x 2%nat = p_px (to_hsv im) y x 2%nat /\
       ((0 <= p_px (to_hsv im) y x 1%nat)%Q -> 
         ((p_px (to_hsv im) y x 1%nat * f <= 255)%Q -> whole_part (p_px (to_hsv im) y x 1%nat * f) (p_px hsv y x 1%nat)) /\
         ((255 <= p_px (to_hsv im) y x 1%nat * f)%Q -> p_px hsv y x 1%nat = 255%Q))).
Proof.
  intros im f F. unfold saturate. destruct (close_to_one f) eqn:C.
  - apply qleb_iff in C. change ((1 # 100) + (1 # 100000))%Q with (101000 # 10000000)%Q in C || idtac.
    split; [reflexivity|]. intros X. exfalso. assert (Y : ((1 # 100) + (1 # 100000) == 1001 # 100000)%Q) by reflexivity. Lqa.lra.
  - assert (C' : ~ (Qabs (f - 1) <= (1 # 100) + (1 # 100000))%Q) by (rewrite <- qleb_iff; unfold close_to_one in C; congruence). apply Qnot_le_lt in C'.
    assert (Y : ((1 # 100) + (1 # 100000) == 1001 # 100000)%Q) by reflexivity. split; [intros X; exfalso; Lqa.lra|]. intros _. cbv zeta.
    eexists. split; [reflexivity|]. split; [repeat split|]. split; [reflexivity|]. intros y x. cbn [p_px Nat.eqb]. split; [reflexivity|]. split; [reflexivity|].
    intros P0. set (v := (p_px (to_hsv im) y x 1%nat * f)%Q). assert (V0 : (0 <= v)%Q) by (apply Qmult_le_0_compat; assumption). clearbody v. split; intros V.
    + assert (K : (qclip v 0 255 == v)%Q) by (apply qclip_id; assumption). rewrite (py_int_comp _ _ K). apply CorProofs.py_int_whole. exact V0.
    + assert (K : (qclip v 0 255 == inject_Z 255)%Q) by (change (inject_Z 255) with 255%Q; unfold qclip; qminmax; Lqa.lra). rewrite (ParProofs.py_int_eq _ _ K). reflexivity.
Qed.
Lemma flat_no_edges : forall im e raw, (forall m, (forall y x, m y x = 0) -> forall k y x, median_edges k m y x = 0) -> (forall p f, (percentile p f == 0)%Q) ->
  lap im e = Ok raw -> forall y x, raw y x = 0.
Proof.
  intros im e raw M P H y x. unfold find_edges_laplacian in H. cbv zeta in H. destruct (edge_limit 90 99 e) as [p|]; [|discriminate]. cbn [bind] in H. injection H as <-.
  rewrite M; [reflexivity|]. intros a b. destruct (qeqb _ 0) eqn:Z0; [reflexivity|]. exfalso. rewrite <- not_true_iff_false, qeqb_iff in Z0. apply Z0. apply P.
Qed.
Lemma batch_ok : forall imgs ks gs ss es outs, length ks = length imgs -> length gs = length imgs -> length ss = length imgs -> length es = length imgs ->
  cartoon_batch median median_edges mean_shift gray canny laplacian percentile to_hsv from_hsv imgs ks gs ss es = Ok outs ->
  length outs = length imgs /\ forall i im k g s e, nth_error imgs i = Some im -> nth_error ks i = Some k -> nth_error gs i = Some g -> nth_error ss i = Some s -> nth_error es i = Some e ->
    exists out alone, nth_error outs i = Some out /\ cart k g s e true im = Ok alone /\ p_dt out = p_dt im /\ same_shape out im /\ p_px out = p_px alone.
Proof.
  induction imgs as [|im imgs IH]; intros [|k ks] [|g gs] [|s ss] [|e es] outs L1 L2 L3 L4 H; try discriminate; cbn [cartoon_batch] in H.
  - injection H as <-. split; [reflexivity|]. intros [|i]; discriminate.
  - destruct (cart k g s e true im) as [alone|] eqn:C; [|discriminate]. cbn [bind] in H. destruct (overwrite im alone) as [out|] eqn:O; [|discriminate]. cbn [bind] in H.
    destruct (cartoon_batch _ _ _ _ _ _ _ _ _ imgs ks gs ss es) as [l|] eqn:B; [|discriminate]. cbn [bind] in H. injection H as <-.
    cbn in L1, L2, L3, L4. destruct (IH ks gs ss es l ltac:(lia) ltac:(lia) ltac:(lia) ltac:(lia) B) as [LL N]. split; [cbn; lia|].
    intros [|i] im' k' g' s' e' I1 I2 I3 I4 I5.
    + cbn in *. injection I1 as <-. injection I2 as <-. injection I3 as <-. injection I4 as <-. injection I5 as <-. exists out, alone. split; [reflexivity|]. split; [exact C|].
      unfold overwrite in O. destruct (_ && _); [|discriminate]. injection O as <-. repeat split.
    + exact (N i im' k' g' s' e' I1 I2 I3 I4 I5).
Qed.
End Cartoon.

(** * The number of edges around a position is unique *)
Lemma reflected_unique : forall n i j j', reflected n i j -> reflected n i j' -> j = j'.
Proof.
  intros n i j j' [J H] [J' H']. destruct (Z.eq_dec n 1) as [->|N]; [lia|]. destruct H as [H|(k & H)]; [lia|]. destruct H' as [H'|(k' & H')]; [lia|].
  assert (M : exists m, j - j' = 2 * (n - 1) * m \/ j + j' = 2 * (n - 1) * m).
  { destruct H as [H|H], H' as [H'|H'].
    - exists (k' - k). left. lia.
    - exists (k' - k). right. lia.
    - exists (k - k'). right. lia.
    - exists (k - k'). left. lia. }
  destruct M as (m & [M|M]).
  - assert (m = 0) by nia. subst m. lia.
  - assert (m = 0 \/ m = 1) by nia. destruct H0 as [-> | ->]; lia.
Qed.
Lemma around_unique : forall h w r edge y x n n', edges_around h w r edge y x n -> edges_around h w r edge y x n' -> n = n'.
Proof.
  intros h w r edge y x n n' (iy & ix & ds & A1 & A2 & A3 & A4 & A5) (iy' & ix' & ds' & B1 & B2 & B3 & B4 & B5).
  assert (S : forall p, In p ds <-> In p ds').
  { intros [a b]. rewrite A5, B5, (reflected_unique _ _ _ _ (A1 a) (B1 a)), (reflected_unique _ _ _ _ (A2 b) (B2 b)). reflexivity. }
  pose proof (NoDup_incl_length A3 (fun p H => proj1 (S p) H)). pose proof (NoDup_incl_length B3 (fun p H => proj2 (S p) H)). lia.
Qed.

(** * Edges of large images *)
Lemma large_ok : forall (median_edges : Z -> (Z -> Z -> Z) -> Z -> Z -> Z) gray laplacian percentile im e, (0 < e)%Q ->
  exists p strength scaled raw,
    0 <= p <= 99 /\ ((90 / e < 100)%Q -> whole_part (90 / e) (inject_Z p)) /\ ((99 <= 90 / e)%Q -> p = 99) /\
    (forall y x, let l := laplacian (fun y x => gray im y x / 255)%Q y x in (strength y x == l * l)%Q) /\
    (let top := percentile p strength in (0 < top)%Q -> forall y x, 0 <= scaled y x <= 255 /\
       ((top <= strength y x)%Q -> scaled y x = 255) /\
       ((strength y x <= top)%Q -> (Qabs (inject_Z (scaled y x) - 255 * (strength y x / top)) <= 1 # 2)%Q)) /\
    find_edges_laplacian median_edges gray laplacian percentile im e = Ok raw /\
    (forall y x, (median_edges 3 scaled y x < 50 -> raw y x = 0) /\ (50 <= median_edges 3 scaled y x -> raw y x = median_edges 3 scaled y x)).
Proof.
  intros me gr la pe im e E. unfold find_edges_laplacian.
  destruct (limit_ok 90 99 e) as (p & -> & P1 & P2 & P3); [Lqa.lra|lia|exact E|]. cbn [bind].
  set (st := fun y x => (Qabs (la (fun y x => gr im y x / 255)%Q y x) * Qabs (la (fun y x => gr im y x / 255)%Q y x))%Q).
  exists p, st, (fun y x => if qeqb (pe p st) 0 then 0 else zclip (np_round (qclip (st y x) 0 (pe p st) / pe p st * 255)) 0 255).
  exists (fun y x => let m := me 3 (fun y x => if qeqb (pe p st) 0 then 0 else zclip (np_round (qclip (st y x) 0 (pe p st) / pe p st * 255)) 0 255) y x in if m <? 50 then 0 else m). split; [exact P1|]. split.
  { intros H. exists p. split; [reflexivity|]. apply P2. change (inject_Z 99 + 1)%Q with (100)%Q. exact H. }
  split; [exact P3|]. split.
  { intros y x. unfold st. rewrite <- Qabs_Qmult. apply Qabs_pos. destruct (Qlt_le_dec (la (fun y x => gr im y x / 255)%Q y x) 0); nra. }
  split; [|split; [reflexivity|]].
  2:{ intros y x. cbv beta zeta. split; intros H. rewrite (proj2 (Z.ltb_lt _ _) H); reflexivity. rewrite (proj2 (Z.ltb_ge _ _) H); reflexivity. }
  set (top := pe p st). intros T y x. cbv beta. fold top. destruct (qeqb top 0) eqn:Q0; [apply qeqb_iff in Q0; Lqa.lra|].
  assert (S0 : (0 <= st y x)%Q) by (unfold st; apply Qmult_le_0_compat; apply Qabs_nonneg).
  set (v := st y x) in *. clearbody v.
  assert (Z1 : forall z, 0 <= zclip z 0 255 <= 255) by (intros; unfold zclip; lia).
  split; [apply Z1|]. split; intros H.
  - assert (EQ : (qclip v 0 top / top * 255 == inject_Z 255)%Q).
    { unfold qclip. assert (qmin (qmax v 0) top == top)%Q by (qminmax; Lqa.lra). rewrite H0. field. Lqa.lra. }
    rewrite (DtyProofs.np_round_eq _ _ EQ). reflexivity.
  - assert (EQ : (qclip v 0 top / top * 255 == 255 * (v / top))%Q).
    { unfold qclip. assert (qmin (qmax v 0) top == v)%Q by (qminmax; Lqa.lra). rewrite H0. field. Lqa.lra. }
    assert (B : (0 <= v / top <= 1)%Q) by (split; [apply Qle_shift_div_l|apply Qle_shift_div_r]; Lqa.lra).
    pose proof (AriProofs.np_round_near (qclip v 0 top / top * 255)) as N.
    set (n := np_round (qclip v 0 top / top * 255)) in *. rewrite EQ in N. set (u := (v / top)%Q) in *. clearbody u n.
    assert (N' : 0 <= n <= 255).
    { apply Qabs_Qle_condition in N. split.
      - assert (X : (inject_Z (-1) < inject_Z n)%Q) by (change (inject_Z (-1)) with (-1)%Q; Lqa.lra). rewrite <- Zlt_Qlt in X. lia.
      - assert (X : (inject_Z n < inject_Z 256)%Q) by (change (inject_Z 256) with 256%Q; Lqa.lra). rewrite <- Zlt_Qlt in X. lia. }
    unfold zclip. rewrite Z.max_l, Z.min_l by lia. exact N.
Qed.
