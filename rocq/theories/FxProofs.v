(** Proofs about distance maps, Canny edges, snow, clouds and rain. *)
From Coq Require Import List ZArith QArith Reals Qreals Qabs Lia Lqa Lra Sorted.
From Verif Require Import Prelude PreludeFacts PtsModel PtsProofs AriModel BlendModel BlendSpec BlendProofs ConvModel RszModel RszProofs ColModel ColSpec ColProofs FxModel FxSpec.
Import ListNotations.
Open Scope Z_scope.

(** ** Distance maps *)
Lemma rltb_iff : forall a b, rltb a b = true <-> (a < b)%R.
Proof. intros a b. unfold rltb. destruct (Rlt_dec a b); split; intros H; try assumption; try reflexivity; try discriminate; contradiction. Qed.
Lemma rltb_false : forall a b, rltb a b = false <-> (b <= a)%R.
Proof. intros a b. unfold rltb. destruct (Rlt_dec a b); split; intros H; try discriminate; try reflexivity; lra. Qed.

Section Best.
Variable val : Z * Z -> R.
Let before (p q : Z * Z) : Prop := row_before (fst p) (snd p) (fst q) (snd q).
Lemma fold_best : forall ps p, StronglySorted before (p :: ps) ->
  let b := fold_left (fun best q => if rltb (val q) (val best) then q else best) ps p in
  In b (p :: ps) /\ (forall q, In q (p :: ps) -> (val b <= val q)%R) /\ (forall q, In q (p :: ps) -> before q b -> (val b < val q)%R).
Proof.
  induction ps as [|q0 ps IH]; intros p S; cbn [fold_left].
  - split; [left; reflexivity|]. split; [intros q [->|[]]; lra|]. intros q [->|[]] B. unfold before, row_before in B. lia.
  - inversion S as [|? ? S1 F1]; subst. inversion S1 as [|? ? S2 F2]; subst. inversion F1 as [|? ? F3 F4]; subst. destruct (rltb (val q0) (val p)) eqn:E.
    + apply rltb_iff in E. destruct (IH q0 S1) as (A & B & C). set (b := fold_left _ ps q0) in *. split; [right; exact A|]. split.
      * intros q [->|H]; [|apply B; exact H]. specialize (B q0 (or_introl eq_refl)). lra.
      * intros q [->|H] Q; [|apply C; assumption]. specialize (B q0 (or_introl eq_refl)). lra.
    + apply rltb_false in E. destruct (IH p (SSorted_cons _ S2 F4)) as (A & B & C). set (b := fold_left _ ps p) in *. split; [destruct A as [A|A]; [left; exact A|right; right; exact A]|]. split.
      * intros q [->|[->|H]]; [apply B; left; reflexivity| |apply B; right; exact H]. specialize (B p (or_introl eq_refl)). lra.
      * intros q [->|[->|H]] Q; [apply C; [left; reflexivity|exact Q]| |apply C; [right; exact H|exact Q]].
        destruct A as [A|A]; [rewrite <- A in Q; unfold before, row_before in *; lia|]. rewrite Forall_forall in F4. specialize (C p (or_introl eq_refl) (F4 b A)). lra.
Qed.
End Best.

Lemma positions_sorted : forall h w, 0 < w -> StronglySorted (fun p q => row_before (fst p) (snd p) (fst q) (snd q)) (positions h w).
Proof.
  intros h w W. unfold positions. generalize 0%nat. induction (Z.to_nat (h * w)) as [|m IH]; intros k; [constructor|]. cbn [seq map]. constructor; [apply IH|].
  apply Forall_forall. intros q Q. apply in_map_iff in Q. destruct Q as (i & <- & I). apply in_seq in I. cbn [fst snd]. unfold row_before.
  pose proof (Z.div_mod (Z.of_nat k) w ltac:(lia)). pose proof (Z.div_mod (Z.of_nat i) w ltac:(lia)). pose proof (Z.mod_pos_bound (Z.of_nat k) w W). pose proof (Z.mod_pos_bound (Z.of_nat i) w W). 
  assert (Z.of_nat k / w <= Z.of_nat i / w) by (apply Z.div_le_mono; lia). destruct (Z.eq_dec (Z.of_nat k / w) (Z.of_nat i / w)) as [E|E]; [|lia]. right. split; [exact E|]. rewrite E in *. lia.
Qed.
Lemma positions_in : forall h w y x, 0 < w -> In (y, x) (positions h w) <-> 0 <= y < h /\ 0 <= x < w.
Proof.
  intros h w y x W. unfold positions. rewrite in_map_iff. split.
  - intros (i & E & I). apply in_seq in I. injection E as <- <-. pose proof (Z.mod_pos_bound (Z.of_nat i) w W). split; [|assumption]. split; [apply Z.div_pos; lia|]. apply Z.div_lt_upper_bound; [lia|]. rewrite Z.mul_comm. lia.
  - intros [Y X]. exists (Z.to_nat (y * w + x)). assert (0 <= y * w + x < h * w) by nia. rewrite Z2Nat.id by lia. split.
    + f_equal; [symmetry; apply (Z.div_unique _ _ _ x); lia|symmetry; apply (Z.mod_unique _ _ y); lia].
    + apply in_seq. lia.
Qed.
Lemma positions_nil : forall h w, 0 <= h -> 0 <= w -> (positions h w = [] <-> h = 0 \/ w = 0).
Proof.
  intros h w H W. unfold positions. split.
  - intros E. apply (f_equal (@length (Z * Z))) in E. rewrite map_length, seq_length in E. cbn in E. nia.
  - intros [->| ->]; [reflexivity|]. rewrite Z.mul_0_r. reflexivity.
Qed.
Lemma first_best_spec : forall (inv : bool) (a : arr R), 0 < ah a -> 0 < aw a -> exists y x, first_best (fun v w => if inv then rltb w v else rltb v w) a = Ok (y, x) /\ best_position inv a y x.
Proof.
  intros inv a H W. unfold first_best. destruct (positions (ah a) (aw a)) as [|p ps] eqn:E; [apply positions_nil in E; lia|].
  pose proof (positions_sorted (ah a) (aw a) W) as S. rewrite E in S. set (val := fun p : Z * Z => if inv then (- apx a (fst p) (snd p))%R else apx a (fst p) (snd p)).
  destruct (fold_best val ps p S) as (A & B & C).
  assert (F : fold_left (fun best q => if (if inv then rltb (apx a (fst best) (snd best)) (apx a (fst q) (snd q)) else rltb (apx a (fst q) (snd q)) (apx a (fst best) (snd best))) then q else best) ps p
              = fold_left (fun best q => if rltb (val q) (val best) then q else best) ps p).
  { clear A B C S E. revert p. induction ps as [|q ps IH]; intros p; [reflexivity|]. cbn [fold_left].
    assert (X : (if inv then rltb (apx a (fst p) (snd p)) (apx a (fst q) (snd q)) else rltb (apx a (fst q) (snd q)) (apx a (fst p) (snd p))) = rltb (val q) (val p)).
    { unfold val. destruct inv; [|reflexivity]. destruct (rltb (- _) _) eqn:Y; [apply rltb_iff; apply rltb_iff in Y; lra|apply rltb_false; apply rltb_false in Y; lra]. }
    rewrite X. apply IH. }
  rewrite F. set (b := fold_left _ ps p) in *. exists (fst b), (snd b). split; [rewrite <- surjective_pairing; reflexivity|].
  rewrite <- E in *. split; [apply positions_in; [exact W|rewrite <- surjective_pairing; exact A]|]. intros y' x' I. apply (positions_in _ _ _ _ W) in I. specialize (B _ I). unfold val in B. cbn [fst snd] in B. split; [destruct inv; lra|].
  intros R V. specialize (C _ I R). unfold val in C. cbn [fst snd] in C. destruct inv; lra.
Qed.
Lemma best_unique : forall inv a y x y' x', best_position inv a y x -> best_position inv a y' x' -> y = y' /\ x = x'.
Proof.
  intros inv a y x y' x' [A B] [A' B']. destruct (B _ _ A') as [C D]. destruct (B' _ _ A) as [C' D'].
  assert (V : apx a y' x' = apx a y x) by (destruct inv; lra). unfold row_before in *.
  destruct (Z_lt_le_dec y y'); [elim (D' (or_introl l)); auto|]. destruct (Z_lt_le_dec y' y); [elim (D (or_introl l0)); auto|].
  destruct (Z_lt_le_dec x x'); [elim D'; [lia|auto]|]. destruct (Z_lt_le_dec x' x); [elim D; [lia|auto]|]. lia.
Qed.
Lemma from_maps : forall maps inv (nf : option point) thr, Forall (fun a => 0 < ah a /\ 0 < aw a) maps -> exists pss, from_distance_maps maps inv nf thr = Ok (concat pss) /\
  Forall2 (fun a ps => exists y x, best_position inv a y x /\
    ((good inv thr (apx a y x) /\ ps = [(inject_Z x, inject_Z y)]) \/ (~ good inv thr (apx a y x) /\ ps = match nf with Some q => [q] | None => [] end))) maps pss.
Proof.
  intros maps inv nf thr H. unfold from_distance_maps.
  match goal with |- context [mapM ?f0 maps] => set (f := f0) end.
  assert (X : exists pss, mapM f maps = Ok pss /\
   Forall2 (fun a ps => exists y x, best_position inv a y x /\
    ((good inv thr (apx a y x) /\ ps = [(inject_Z x, inject_Z y)]) \/ (~ good inv thr (apx a y x) /\ ps = match nf with Some q => [q] | None => [] end))) maps pss).
  { induction H as [|a maps [A B] H IH]; [exists []; split; [reflexivity|constructor]|]. destruct IH as (pss & E & F). destruct (first_best_spec inv a A B) as (y & x & G & K).
    eexists (_ :: pss). split; [unfold mapM in *; cbn [map sequence]; rewrite E; unfold f; rewrite G; cbn [bind fst snd]; reflexivity|]. constructor; [|exact F]. exists y, x. split; [exact K|].
    destruct thr as [t|]; [|left; split; [exact Logic.I|reflexivity]]. cbn [good]. destruct inv.
    - destruct (rltb (apx a y x) t) eqn:R; cbn [negb]; [right|left]; (split; [|reflexivity]); [apply rltb_iff in R|apply rltb_false in R]; lra.
    - destruct (rltb (apx a y x) t) eqn:R; [left|right]; (split; [|reflexivity]); [apply rltb_iff in R|apply rltb_false in R]; lra. }
  destruct X as (pss & E & F). exists pss. rewrite E. split; [reflexivity|exact F].
Qed.
Lemma mapM_Err_in : forall {A B} (f : A -> res B) l e, (forall x, In x l -> (exists y, f x = Ok y) \/ f x = Err e) -> (exists x, In x l /\ f x = Err e) -> mapM f l = Err e.
Proof.
  intros A B f l e. induction l as [|a l IH]; intros H (x & I & E); [destruct I|]. unfold mapM in *. cbn [map sequence]. destruct (H a (or_introl eq_refl)) as [[y Y]|Y].
  - rewrite Y. destruct I as [->|I]; [congruence|]. rewrite IH; [reflexivity| |exists x; auto]. intros z Z. apply H. right. exact Z.
  - rewrite Y. reflexivity.
Qed.
Lemma from_empty : forall maps inv nf thr a, Forall (fun a => 0 <= ah a /\ 0 <= aw a) maps -> In a maps -> ah a = 0 \/ aw a = 0 -> from_distance_maps maps inv nf thr = Err ValueError.
Proof.
  intros maps inv nf thr a F I N. unfold from_distance_maps. rewrite (mapM_Err_in _ _ ValueError); [reflexivity| |].
  - intros x X. rewrite Forall_forall in F. destruct (F x X) as [H W]. unfold first_best. destruct (positions (ah x) (aw x)); [right|left; eexists]; reflexivity.
  - exists a. split; [exact I|]. rewrite Forall_forall in F. destruct (F a I) as [H W]. unfold first_best. rewrite (proj2 (positions_nil (ah a) (aw a) H W) N). reflexivity.
Qed.
Lemma map_value : forall y x k, sqrt (Q2R (dist2 (inject_Z x, inject_Z y) k)) = distance_to y x k.
Proof.
  intros y x [kx ky]. unfold distance_to, dist2. cbn [fst snd]. f_equal. rewrite Q2R_plus, !Q2R_mult, !Q2R_minus.
  assert (X : forall z, Q2R (inject_Z z) = IZR z) by (intros z; unfold Q2R; cbn; field). rewrite !X. reflexivity.
Qed.
Lemma distance_to_pos : forall y x k, (0 <= distance_to y x k)%R.
Proof. intros. apply sqrt_pos. Qed.
Lemma inv_mono : forall d e, (0 <= d)%R -> (0 <= e)%R -> (1 / (e + 1) <= 1 / (d + 1))%R <-> (d <= e)%R.
Proof.
  intros d e D E. unfold Rdiv. rewrite !Rmult_1_l. split; intros H.
  - destruct (Rle_lt_dec d e) as [L|L]; [exact L|]. exfalso. assert (/ (d + 1) < / (e + 1))%R by (apply Rinv_lt_contravar; [apply Rmult_lt_0_compat; lra|lra]). lra.
  - apply Rinv_le_contravar; lra.
Qed.
Lemma best_inverted : forall h w k y x, best_position true (mkArr h w (fun y x => (1 / (distance_to y x k + 1))%R)) y x <-> best_position false (mkArr h w (fun y x => distance_to y x k)) y x.
Proof.
  intros h w k y x. unfold best_position, in_map. cbn [ah aw apx]. split; intros [A B]; (split; [exact A|]); intros y' x' I; destruct (B y' x' I) as [C D]; pose proof (distance_to_pos y x k) as P; pose proof (distance_to_pos y' x' k) as P'.
  - split; [apply inv_mono; assumption|]. intros R E. apply (D R). rewrite E. reflexivity.
  - split; [apply inv_mono; assumption|]. intros R E. apply (D R). apply Rle_antisym; [apply inv_mono; [assumption..|]|apply inv_mono; [assumption..|]]; rewrite E; lra.
Qed.
Lemma mapM_map : forall {A B C} (f : B -> res C) (g : A -> B) l, mapM f (map g l) = mapM (fun x => f (g x)) l.
Proof. intros. unfold mapM. rewrite map_map. reflexivity. Qed.
Lemma mapM_Ok_map : forall {A B} (f : A -> res B) (g : A -> B) l, (forall x, In x l -> f x = Ok (g x)) -> mapM f l = Ok (map g l).
Proof.
  intros A B f g l H. induction l as [|a l IH]; [reflexivity|]. unfold mapM in *. cbn [map sequence]. rewrite (H a (or_introl eq_refl)), IH by (intros x X; apply H; right; exact X). reflexivity.
Qed.
Lemma concat_single : forall {A B} (f : A -> B) l, concat (map (fun x => [f x]) l) = map f l.
Proof. intros A B f l. induction l as [|a l IH]; [reflexivity|]. cbn. rewrite IH. reflexivity. Qed.
(** The round trip. *)
Lemma round_trip : forall h w kps inv nf, 0 < h -> 0 < w -> exists l, from_distance_maps (to_distance_maps h w kps inv) inv nf None = Ok l /\
  Forall2 (fun k p => exists y x, p = (inject_Z x, inject_Z y) /\ 0 <= y < h /\ 0 <= x < w /\
    forall y' x', 0 <= y' < h -> 0 <= x' < w -> (distance_to y x k <= distance_to y' x' k)%R /\ (row_before y' x' y x -> distance_to y' x' k <> distance_to y x k)) kps l.
Proof.
  intros h w kps inv nf H W. destruct (from_maps (to_distance_maps h w kps inv) inv nf None) as (pss & E & F).
  { apply Forall_forall. intros a A. apply in_map_iff in A. destruct A as (k & <- & _). auto. }
  rewrite E. exists (concat pss). split; [reflexivity|]. clear E. unfold to_distance_maps in F. revert pss F. induction kps as [|k kps IH]; intros pss F; inversion F as [|? ps ? pss' K F']; subst; [constructor|].
  destruct K as (y & x & B & [[_ ->]|[G _]]); [|elim G; exact Logic.I]. cbn [concat app]. constructor; [|apply IH; exact F']. exists y, x. split; [reflexivity|].
  assert (B' : best_position false (mkArr h w (fun y x => distance_to y x k)) y x).
  { destruct inv; [apply best_inverted|]; destruct B as [B1 B2]; (split; [exact B1|]); intros y' x' I; specialize (B2 y' x' I); cbn [apx] in *; rewrite !map_value in B2; exact B2. }
  destruct B' as [[B1 B2] B3]. cbn [ah aw apx] in *. split; [exact B1|]. split; [exact B2|]. intros y' x' Y X. exact (B3 y' x' (conj Y X)).
Qed.
Lemma distance_zero : forall y x k, (distance_to y x k = 0)%R <-> (fst k == inject_Z x /\ snd k == inject_Z y)%Q.
Proof.
  intros y x [kx ky]. unfold distance_to. cbn [fst snd]. assert (X : forall z q, (IZR z - Q2R q = 0)%R <-> (q == inject_Z z)%Q).
  { intros z q. assert (Z0 : Q2R (inject_Z z) = IZR z) by (unfold Q2R; cbn; field). rewrite <- Z0. split; intros H; [apply eqR_Qeq; lra|apply Qeq_eqR in H; lra]. }
  rewrite <- !X. set (a := (IZR x - Q2R kx)%R). set (b := (IZR y - Q2R ky)%R). split; [|intros [-> ->]; rewrite !Rmult_0_l, Rplus_0_r; apply sqrt_0].
  intros H. assert (P : (a * a + b * b = 0)%R) by (apply sqrt_eq_0 in H; [exact H|nra]). split; nra.
Qed.
Lemma round_trip_exact : forall h w kps inv nf, Forall (fun k => exists y x, (fst k == inject_Z x /\ snd k == inject_Z y)%Q /\ 0 <= y < h /\ 0 <= x < w) kps ->
  exists l, from_distance_maps (to_distance_maps h w kps inv) inv nf None = Ok l /\ Forall2 (fun k p => (fst p == fst k /\ snd p == snd k)%Q) kps l.
Proof.
  intros h w kps inv nf F. destruct kps as [|k0 kps0] eqn:K; [exists []; split; [reflexivity|constructor]|]. rewrite <- K in *.
  assert (H : 0 < h /\ 0 < w) by (rewrite K in F; inversion F as [|? ? (y & x & _ & A & B) _]; lia). clear k0 kps0 K. destruct (round_trip h w kps inv nf (proj1 H) (proj2 H)) as (l & E & G).
  exists l. split; [exact E|]. clear E. induction G as [|k p kps l G1 G IH]; [constructor|]. inversion F as [|? ? (y0 & x0 & D & Y0 & X0) F']; subst. constructor; [|apply IH; exact F'].
  destruct G1 as (y & x & -> & Y & X & M). destruct (M y0 x0 Y0 X0) as [M1 _]. rewrite (proj2 (distance_zero y0 x0 k) D) in M1. pose proof (distance_to_pos y x k).
  assert (Z0 : (distance_to y x k = 0)%R) by lra. apply distance_zero in Z0. cbn [fst snd]. destruct Z0. split; symmetry; assumption.
Qed.
Lemma maps_cells : forall h w kps inv i k y x, nth_error kps i = Some k -> exists a, nth_error (to_distance_maps h w kps inv) i = Some a /\ ah a = h /\ aw a = w /\
  apx a y x = if inv then (1 / (distance_to y x k + 1))%R else distance_to y x k.
Proof.
  intros h w kps inv i k y x H. unfold to_distance_maps. rewrite nth_error_map, H. eexists. split; [reflexivity|]. split; [reflexivity|]. split; [reflexivity|]. cbn [apx]. rewrite map_value. reflexivity.
Qed.

(** ** Canny *)
Lemma channels_bool : forall im, canny_channels im = true <-> im_c im = Some 1%nat \/ im_c im = Some 3%nat \/ im_c im = Some 4%nat.
Proof.
  intros im. unfold canny_channels. destruct (im_c im) as [[|[|[|[|[|n]]]]]|]; split; intros H; try discriminate; try reflexivity; auto;
    destruct H as [H|[H|H]]; discriminate.
Qed.
Lemma same_shape_refl : forall im px, same_shape (like im px) im = true.
Proof.
  intros im px. unfold same_shape, like. cbn. rewrite !Z.eqb_refl. cbn. destruct (im_c im); [apply Nat.eqb_refl|reflexivity].
Qed.
Lemma byteQ : forall z, byte z -> (0 <= inject_Z z <= 255)%Q.
Proof. intros z [A B]. split; [change 0%Q with (inject_Z 0)|change 255%Q with (inject_Z 255)]; apply (proj2 (inject_Z_le _ _)); assumption. Qed.
Lemma below256 : forall z q, 0 <= z -> (inject_Z z <= q)%Q -> (q <= 255)%Q -> byte z.
Proof.
  intros z q A B C. split; [exact A|]. assert (H : (inject_Z z < inject_Z 256)%Q) by (change (inject_Z 256) with 256%Q; Lqa.lra). apply (proj1 (inject_Z_lt _ _)) in H. lia.
Qed.
Lemma luma_bounds : forall c, bytes c -> (0 <= luma c <= 255)%Q.
Proof.
  intros [[r g] b] (R & G & B). unfold luma in *. cbn [comp] in *. apply byteQ in R, G, B. split; Lqa.lra.
Qed.
Lemma gray_rounded : forall c, bytes c -> rounded_down (luma c) (gray_value c) /\ byte (gray_value c).
Proof.
  intros c B. pose proof (luma_bounds c B) as [L1 L2]. destruct c as [[r g] b]. unfold gray_value, luma in *. cbn [comp] in *.
  destruct (py_int_nonneg _ L1) as (P1 & P2 & P3). split; [split; assumption|]. exact (below256 _ _ P1 P2 L2).
Qed.
Lemma blend_one_ok : forall f b a, byte f -> byte b -> in_unit a -> blended (1 # 2) (1 # 100) f b a (blend_one f b a) /\ byte (blend_one f b a).
Proof.
  intros f b a F B U. assert (X : blended (1 # 2) (1 # 100) f b a (blend_one f b a)).
  { unfold blend_one. destruct (qleb (1 - (1 # 100)) a) eqn:E1.
    - apply qleb_iff in E1. split; [exact F|]. split; [right; left; split; [exact E1|reflexivity]|]. split; [reflexivity|]. intros A. exfalso. Lqa.lra.
    - apply qleb_false in E1. destruct (qleb a (1 # 100)) eqn:E2; [|apply blended_weighted; assumption].
      apply qleb_iff in E2. split; [exact B|]. split; [right; right; split; [exact E2|reflexivity]|]. split; [intros A; exfalso; Lqa.lra|reflexivity]. }
  split; [exact X|]. exact (proj1 X).
Qed.
Lemma blend_one_same : forall v a, byte v -> blend_one v v a = v.
Proof.
  intros v a V. unfold blend_one. destruct (qleb _ a); [reflexivity|]. destruct (qleb a _); [reflexivity|]. unfold add_weighted. rewrite (sat8_compat _ (inject_Z v)); [apply sat8_Z; exact V|]. ring.
Qed.
Lemma painted_bytes : forall nc c n, bytes c -> (n < 3)%nat -> byte (if Nat.eqb nc 1 then gray_value c else comp c n).
Proof. intros nc c n B N. destruct (Nat.eqb nc 1); [apply gray_rounded; exact B|]. destruct c as [[r g] b]. destruct B as (R & G & B). destruct n as [|[|n]]; cbn; assumption. Qed.
Lemma canny_ok : forall cv2 ct cf alpha th sobel im, canny_image_ok im -> bytes_in im -> bytes ct -> bytes cf -> in_unit alpha -> (0 < alpha)%Q -> 1 < sobel ->
  exists out, canny_image cv2 (colorize ct cf) alpha th sobel im = Ok out /\ same_form out im /\ bytes_in out /\
    forall y x n, inside im y x -> (n < nb_channels im)%nat ->
      (n = 3%nat -> im_px out y x n = im_px im y x n) /\
      (n <> 3%nat -> exists v, painted (nb_channels im) (if cv2 (first_channels im) th sobel y x then ct else cf) n v /\ blended (1 # 2) (1 # 100) v (im_px im y x n) alpha (im_px out y x n)).
Proof.
  intros cv2 ct cf alpha th sobel im (P & U & C) B T F IU A S. unfold canny_image. rewrite (proj2 (channels_bool im) C). cbn [negb]. rewrite (proj2 (qltb_iff 0 alpha) A), (proj2 (Z.ltb_lt 1 sobel) S), (size_bool im P). cbn [andb negb].
  unfold colorize. rewrite (proj2 (channels_bool im) C), U. cbn [negb bind]. unfold blend_canny. rewrite same_shape_refl. cbn [negb]. eexists. split; [reflexivity|].
  split; [repeat split|]. cbn [like im_px im_c im_h im_w]. set (edge := cv2 (first_channels im) th sobel).
  assert (V : forall y x n, inside im y x -> (n < nb_channels im)%nat -> let c := if edge y x then ct else cf in
     let v := match im_c im with Some 1%nat => gray_value c | _ => if (n <? 3)%nat then comp c n else im_px im y x n end in
     (n = 3%nat -> v = im_px im y x n) /\ (n <> 3%nat -> painted (nb_channels im) c n v) /\ byte v).
  { intros y x n I N. cbn zeta. assert (BC : bytes (if edge y x then ct else cf)) by (destruct (edge y x); assumption). set (c := if edge y x then ct else cf) in *.
    unfold nb_channels in *. destruct C as [C|[C|C]]; rewrite C in *.
    - split; [lia|]. split; [intros _; exact (proj1 (gray_rounded c BC))|apply gray_rounded; exact BC].
    - assert (X : (n <? 3)%nat = true) by (apply Nat.ltb_lt; lia). rewrite X. split; [lia|]. split; [intros _; reflexivity|]. apply (painted_bytes 3 c n BC). lia.
    - destruct (Nat.eq_dec n 3) as [->|N3].
      + change (3 <? 3)%nat with false. cbv iota. split; [reflexivity|]. split; [lia|]. apply B; [exact I|]. unfold nb_channels. rewrite C. lia.
      + assert (X : (n <? 3)%nat = true) by (apply Nat.ltb_lt; lia). rewrite X. split; [lia|]. split; [intros _; reflexivity|]. apply (painted_bytes 4 c n BC). lia. }
  split.
  - intros y x n I N. cbn [im_px]. unfold nb_channels in N. cbn [im_c] in N. change (inside im y x) in I. destruct (V y x n I N) as (_ & _ & V3). apply (blend_one_ok _ _ _ V3 (B y x n I N) IU).
  - intros y x n I N. destruct (V y x n I N) as (V1 & V2 & V3). split.
    + intros E. rewrite (V1 E). apply blend_one_same, B; assumption.
    + intros E. eexists. split; [apply V2; exact E|]. apply (blend_one_ok _ _ _ V3 (B y x n I N) IU).
Qed.
Lemma canny_skip : forall cv2 colorizer alpha th sobel im, canny_channels im = true -> (alpha <= 0)%Q \/ sobel <= 1 \/ no_pixels im -> canny_image cv2 colorizer alpha th sobel im = Ok im.
Proof.
  intros cv2 colorizer alpha th sobel im C H. unfold canny_image. rewrite C. cbn [negb]. destruct H as [H|[H|H]].
  - apply qltb_false in H. rewrite H. reflexivity.
  - apply Z.ltb_ge in H. rewrite H, Bool.andb_false_r. reflexivity.
  - rewrite (size_bool0 im H), Bool.andb_false_r. reflexivity.
Qed.
Lemma odd_sobel_spec : forall s, odd_below s (odd_sobel s).
Proof.
  intros s. unfold odd_below, odd_sobel. rewrite Zmod_even. destruct (Z.even s) eqn:E.
  - cbn. split; [|lia]. rewrite Z.odd_sub, <- (Z.negb_even s), E. reflexivity.
  - cbn. split; [|lia]. rewrite <- Z.negb_even, E. reflexivity.
Qed.
Lemma odd_below_unique : forall s k k', odd_below s k -> odd_below s k' -> k = k'.
Proof.
  intros s k k' [A B] [C D]. apply Z.odd_spec in A, C. destruct A as [a ->], C as [c ->]. lia.
Qed.
Lemma sorted_thresholds : forall t, (fst (sort_thresholds t) <= snd (sort_thresholds t))%Q /\ (sort_thresholds t = t \/ sort_thresholds t = (snd t, fst t)).
Proof.
  intros [a b]. unfold sort_thresholds. cbn [fst snd]. destruct (qltb b a) eqn:E; [apply qltb_iff in E|apply qltb_false in E]; cbn [fst snd]; (split; [Lqa.lra|auto]).
Qed.
Lemma canny_calls : forall cv2 cv2' colorizer alpha th s im, (forall y x, has_pixels im -> cv2 (first_channels im) th s y x = cv2' (first_channels im) th s y x) ->
  (forall e e' i, (forall y x, e y x = e' y x) -> colorizer e i = colorizer e' i) -> canny_image cv2 colorizer alpha th s im = canny_image cv2' colorizer alpha th s im \/ ~ has_pixels im.
Proof.
  intros cv2 cv2' colorizer alpha th s im H X. destruct (Z_lt_le_dec 0 (im_h im)) as [A|A]; [|right; unfold has_pixels; lia]. destruct (Z_lt_le_dec 0 (im_w im)) as [B|B]; [|right; unfold has_pixels; lia].
  left. unfold canny_image. rewrite (X (cv2 (first_channels im) th s) (cv2' (first_channels im) th s)); [reflexivity|]. intros y x. apply H. split; assumption.
Qed.

(** ** Snowy landscapes *)
Lemma snowy_lightened : forall thresh mul l, byte l -> (0 <= mul)%Q -> lightened thresh mul l (snowy thresh mul l).
Proof.
  intros thresh mul l B M. unfold lightened, snowy. split; intros H.
  - apply qltb_false in H. rewrite H. apply sat8_Z. exact B.
  - apply qltb_iff in H. rewrite H. unfold sat8. assert (P : (0 <= inject_Z l * mul)%Q). { apply Qmult_le_0_compat; [|exact M]. apply (byteQ l B). }
    pose proof (np_round_mono _ _ P) as N0. change 0%Q with (inject_Z 0) in N0. rewrite np_round_Z in N0. split; [unfold zclip, byte; lia|]. split.
    + intros H1. pose proof (np_round_mono _ _ H1) as N1. change 255%Q with (inject_Z 255) in N1. rewrite np_round_Z in N1. unfold zclip. rewrite Z.max_l, Z.min_l by lia. apply AriProofs.np_round_near.
    + intros H1. pose proof (np_round_mono _ _ H1) as N1. change 255%Q with (inject_Z 255) in N1. rewrite np_round_Z in N1. unfold zclip. lia.
Qed.
Lemma lightened_brighter : forall thresh mul l l', (1 <= mul)%Q -> byte l -> lightened thresh mul l l' -> l <= l'.
Proof.
  intros thresh mul l l' M B [A C]. destruct (Qlt_le_dec (inject_Z l) thresh) as [H|H]; [|rewrite (A H); lia].
  destruct (C H) as (B' & C1 & C2). destruct (Qlt_le_dec (inject_Z l * mul) 255) as [X|X]; [|rewrite (C2 X); unfold byte in B; lia].
  assert (Y : (inject_Z l * mul <= 255)%Q) by Lqa.lra. specialize (C1 Y). apply Qabs_Qle_condition in C1. assert (G : (inject_Z l <= inject_Z l * mul)%Q).
  { assert (0 <= inject_Z l * (mul - 1))%Q; [|Lqa.lra]. apply Qmult_le_0_compat; [|Lqa.lra]. apply (byteQ l B). }
  assert (L : (inject_Z (l - 1) < inject_Z l')%Q) by (unfold Z.sub; rewrite inject_Z_plus; change (inject_Z (- (1))) with (- (1))%Q; Lqa.lra). apply (proj1 (inject_Z_lt _ _)) in L. lia.
Qed.
Lemma snowy_ok : forall cvt gray from thresh mul im, byte_conversions cvt gray -> colored im -> byte_image im -> from <> GRAY -> (0 <= mul)%Q ->
  exists out, snowy_image cvt gray (Some from) thresh mul im = Ok out /\ colored out /\ same_size out im /\
    forall y x, inside im y x -> exists c c', converted cvt gray from HLS (pixel im y x) c /\ lightened_color thresh mul c c' /\ converted cvt gray HLS from c' (pixel out y x).
Proof.
  intros cvt gray from thresh mul im BC C B G M. unfold snowy_image. destruct (change_image cvt gray im HLS from C G) as (after & hls & E & (C1 & S1 & P1)). rewrite E. cbn [bind snd].
  rewrite (size_bool im (proj1 C)). set (hls' := like hls _).
  assert (C2 : colored hls') by (destruct C1 as (A1 & A2 & A3); repeat split; [apply A1|apply A1|exact A3]).
  destruct (change_image cvt gray hls' from HLS C2 ltac:(discriminate)) as (after2 & out & E2 & (C3 & S2 & P2)). rewrite E2. cbn [bind snd]. exists out. split; [reflexivity|]. split; [exact C3|].
  assert (S3 : same_size hls' hls) by (split; reflexivity). split; [destruct S1, S2, S3; split; congruence|].
  intros y x I. assert (I2 : inside hls' y x) by (unfold inside in *; destruct S1, S3; lia).
  exists (pixel hls y x), (pixel hls' y x). split; [apply P1; exact I|]. split; [|apply P2; exact I2].
  pose proof (converted_image_bytes cvt gray from HLS im hls BC B (conj C1 (conj S1 P1)) y x ltac:(unfold inside in *; destruct S1; lia)) as BB.
  destruct BB as (B0 & B1 & B2). unfold lightened_color. rewrite !pixel_comp by lia. unfold hls'. cbn [like im_px Nat.eqb]. split; [apply sat8_Z; exact B0|]. split; [apply snowy_lightened; assumption|apply sat8_Z; exact B2].
Qed.

(** ** Clouds *)
Lemma convex : forall a u v, (0 <= a)%Q -> (a <= 1)%Q -> (u <= v)%Q -> (u <= (1 - a) * u + a * v <= v)%Q.
Proof. intros a u v A B H. assert (0 <= a * (v - u))%Q by (apply Qmult_le_0_compat; Lqa.lra). assert (0 <= (1 - a) * (v - u))%Q by (apply Qmult_le_0_compat; Lqa.lra). split; Lqa.lra. Qed.
Lemma to_byte_mono : forall p q, (p <= q)%Q -> to_byte p <= to_byte q.
Proof.
  intros p q H. unfold to_byte. assert (C : (qclip p 0 255 <= qclip q 0 255)%Q) by (unfold qclip; qminmax; Lqa.lra). destruct (qclip_in p 0 255 ltac:(Lqa.lra)) as [A _]. destruct (qclip_in q 0 255 ltac:(Lqa.lra)) as [B _].
  destruct (py_int_nonneg _ A) as (P1 & P2 & P3). destruct (py_int_nonneg _ B) as (Q1 & Q2 & Q3).
  assert (X : (inject_Z (py_int (qclip p 0 255)) < inject_Z (py_int (qclip q 0 255) + 1))%Q) by (rewrite inject_Z_plus; change (inject_Z 1) with 1%Q; Lqa.lra). apply (proj1 (inject_Z_lt _ _)) in X. lia.
Qed.
Lemma to_byte_compat : forall p q, (p == q)%Q -> to_byte p = to_byte q.
Proof. intros p q H. apply Z.le_antisymm; apply to_byte_mono; Lqa.lra. Qed.
Lemma py_int_clip : forall q, (0 <= q)%Q -> (q <= 255)%Q -> py_int (qclip q 0 255) = py_int q.
Proof.
  intros q A B. pose proof (qclip_id q 0 255 A B) as E. assert (A' : (0 <= qclip q 0 255)%Q) by (rewrite E; exact A).
  destruct (py_int_nonneg _ A) as (P1 & P2 & P3). destruct (py_int_nonneg _ A') as (Q1 & Q2 & Q3).
  assert (X : (inject_Z (py_int (qclip q 0 255)) < inject_Z (py_int q + 1))%Q) by (rewrite inject_Z_plus; change (inject_Z 1) with 1%Q; Lqa.lra).
  assert (Y : (inject_Z (py_int q) < inject_Z (py_int (qclip q 0 255) + 1))%Q) by (rewrite inject_Z_plus; change (inject_Z 1) with 1%Q; Lqa.lra).
  apply (proj1 (inject_Z_lt _ _)) in X. apply (proj1 (inject_Z_lt _ _)) in Y. lia.
Qed.
Lemma to_byte_spec : forall q, (0 <= q)%Q -> (q <= 255)%Q -> rounded_down q (to_byte q) /\ byte (to_byte q).
Proof.
  intros q A B. unfold to_byte. rewrite (py_int_clip q A B). destruct (py_int_nonneg q A) as (P1 & P2 & P3). split; [split; assumption|].
  exact (below256 _ _ P1 P2 B).
Qed.
Lemma to_byte_byte : forall q, byte (to_byte q).
Proof.
  intros q. unfold to_byte. destruct (qclip_in q 0 255 ltac:(Lqa.lra)) as [A B]. destruct (py_int_nonneg _ A) as (P1 & P2 & P3). exact (below256 _ _ P1 P2 B).
Qed.
Lemma to_byte_Z : forall z, byte z -> to_byte (inject_Z z) = z.
Proof.
  intros z Bz. apply byteQ in Bz. destruct Bz as [A B]. unfold to_byte. rewrite (py_int_clip _ A B). apply py_int_Z.
Qed.
Lemma to_byte_below : forall z q, byte z -> (inject_Z z <= q)%Q -> z <= to_byte q.
Proof. intros z q B H. rewrite <- (to_byte_Z z B) at 1. apply to_byte_mono. exact H. Qed.
Lemma to_byte_above : forall z q, byte z -> (q <= inject_Z z)%Q -> to_byte q <= z.
Proof. intros z q B H. rewrite <- (to_byte_Z z B). apply to_byte_mono. exact H. Qed.

(** ** Batches of Canny *)
Lemma check_sobel_ok : forall s, 0 <= s <= 7 -> check_sobel s = Ok s.
Proof. intros s H. unfold check_sobel. rewrite (proj2 (Z.ltb_ge s 0)), (proj2 (Z.ltb_ge 7 s)) by lia. reflexivity. Qed.
Lemma check_sobel_bad : forall s, ~ 0 <= s <= 7 -> check_sobel s = Err AssertionError.
Proof. intros s H. unfold check_sobel. destruct (Z.ltb_spec s 0); [reflexivity|]. rewrite (proj2 (Z.ltb_lt 7 s)) by lia. reflexivity. Qed.
Lemma mapM_first_err : forall {A B} (f : A -> res B) (e : exn) l, (forall x, In x l -> (exists y, f x = Ok y) \/ f x = Err e) -> (exists x, In x l /\ f x = Err e) -> mapM f l = Err e.
Proof.
  intros A B f e l. induction l as [|a l IH]; intros H (x & I & E); [destruct I|]. rewrite RszProofs.mapM_cons. destruct (H a (or_introl eq_refl)) as [[y Y]|Y]; rewrite Y; cbn [bind]; [|reflexivity].
  rewrite IH; [reflexivity| |].
  - intros z Z. apply H. right. exact Z.
  - destruct I as [<-|I]; [congruence|]. exists x. split; assumption.
Qed.
Lemma mapM_pairs : forall {A B D} (f : A * B -> res D) (R : A -> B -> D -> Prop) la lb (a : A) (b : B) (d : D), length lb = length la ->
  (forall i, (i < length la)%nat -> exists o, f (nth i la a, nth i lb b) = Ok o /\ R (nth i la a) (nth i lb b) o) ->
  exists outs, mapM f (combine la lb) = Ok outs /\ length outs = length la /\ forall i, (i < length la)%nat -> R (nth i la a) (nth i lb b) (nth i outs d).
Proof.
  intros A B D f R la. induction la as [|x la IH]; intros lb a b d LB H.
  - exists []. split; [reflexivity|]. split; [reflexivity|]. intros i Hi. cbn in Hi. lia.
  - destruct lb as [|y lb]; [discriminate|]. destruct (H 0%nat) as (o & O1 & O2); [cbn; lia|]. cbn in O1, O2.
    destruct (IH lb a b d) as (outs & E & L & R'); [cbn in LB; lia| |].
    { intros i Hi. destruct (H (S i)) as (p & P1 & P2); [cbn; lia|]. exists p. split; assumption. }
    exists (o :: outs). cbn [combine]. rewrite RszProofs.mapM_cons, O1. cbn [bind]. rewrite E. cbn [bind]. split; [reflexivity|]. split; [cbn; lia|]. intros [|i] Hi; [exact O2|]. cbn. apply R'. cbn in Hi. lia.
Qed.
Lemma mapM_ext_in : forall {A B} (f g : A -> res B) l, (forall x, In x l -> f x = g x) -> mapM f l = mapM g l.
Proof.
  intros A B f g l. induction l as [|a l IH]; intros H; [reflexivity|]. rewrite !RszProofs.mapM_cons, (H a (or_introl eq_refl)). destruct (g a); [|reflexivity]. cbn [bind]. rewrite IH; [reflexivity|]. intros x I. apply H. right. exact I.
Qed.
Lemma sobels_ok : forall (drawn : list drawing), Forall (fun d => 0 <= size_of d <= 7) drawn -> exists l, mapM (fun d : drawing => let '(_, _, s, _) := d in check_sobel s) drawn = Ok l.
Proof.
  intros drawn H. induction H as [|d l D H (r & E)]; [exists []; reflexivity|]. rewrite RszProofs.mapM_cons. destruct d as [[[a t] s] c]. cbn in D. rewrite (check_sobel_ok s D). cbn [bind]. rewrite E. cbn [bind]. eexists. reflexivity.
Qed.
Lemma sobels_bad : forall (drawn : list drawing), Exists (fun d => ~ 0 <= size_of d <= 7) drawn -> mapM (fun d : drawing => let '(_, _, s, _) := d in check_sobel s) drawn = Err AssertionError.
Proof.
  intros drawn H. apply mapM_first_err.
  - intros [[[a t] s] c] _. destruct (Z_le_dec 0 s) as [A|A]; [destruct (Z_le_dec s 7) as [B|B]|]; [left; exists s; apply check_sobel_ok; lia|right; apply check_sobel_bad; lia|right; apply check_sobel_bad; lia].
  - apply Exists_exists in H. destruct H as (d & I & D). exists d. split; [exact I|]. destruct d as [[[a t] s] c]. apply check_sobel_bad. exact D.
Qed.
Lemma all_u8 : forall imgs, Forall (fun im => im_u8 im = true) imgs <-> forallb im_u8 imgs = true.
Proof. intros imgs. rewrite forallb_forall, Forall_forall. reflexivity. Qed.
Lemma first_input : forall im, im_u8 im = true -> canny_channels im = true -> has_pixels im -> opencv_input im (first_channels im).
Proof.
  intros im U C [P1 P2]. unfold opencv_input, nb_channels. cbn [first_channels im_u8 im_h im_w im_c im_px]. apply channels_bool in C. repeat split; try assumption; try lia.
  destruct C as [C|[C|C]]; rewrite C; reflexivity.
Qed.
Lemma canny_batch_ok : forall cv2 drawn imgs im0 d0, length drawn = length imgs -> Forall (fun im => im_u8 im = true /\ canny_channels im = true /\ bytes_in im /\ (has_pixels im \/ no_pixels im)) imgs ->
  Forall (fun d => 0 <= size_of d <= 7 /\ in_unit (alpha_of d) /\ bytes (edge_color d) /\ bytes (other_color d)) drawn ->
  exists outs, canny_batch cv2 drawn imgs = Ok outs /\ length outs = length imgs /\
    forall i, (i < length imgs)%nat -> canny_result cv2 (nth i drawn d0) (nth i imgs im0) (nth i outs im0).
Proof.
  intros cv2 drawn imgs im0 d0 L HI HD. unfold canny_batch. rewrite (proj1 (all_u8 imgs)). 2:{ revert HI. apply Forall_impl. tauto. } cbn [negb].
  destruct (sobels_ok drawn) as (l & E). { revert HD. apply Forall_impl. tauto. } unfold drawing in E. rewrite E. cbn [bind].
  apply (mapM_pairs _ (fun im d out => canny_result cv2 d im out) imgs drawn im0 d0 im0 L). intros i Hi.
  assert (I : In (nth i imgs im0) imgs) by (apply nth_In; exact Hi). assert (D : In (nth i drawn d0) drawn) by (apply nth_In; rewrite L; exact Hi).
  pose proof (proj1 (Forall_forall _ _) HI _ I) as (U & C & B & P). pose proof (proj1 (Forall_forall _ _) HD _ D) as (S & IU & T & F). clear I D.
  destruct (nth i drawn d0) as [[[al th] s] [ct cf]]. cbn [size_of alpha_of edge_color other_color] in *. set (im := nth i imgs im0) in *. clearbody im.
  pose proof (odd_sobel_spec s) as O. unfold canny_result. cbn [size_of alpha_of edge_color other_color thresholds_of].
  destruct (Qlt_le_dec 0 al) as [A|A]; [|exists im; split; [apply canny_skip; auto|split; [auto|intros X; exfalso; Lqa.lra]]].
  destruct (Z_lt_le_dec 2 s) as [S2|S2].
  2:{ exists im. split; [apply canny_skip; [exact C|]; right; left; destruct O as [O O']; apply Z.odd_spec in O; destruct O as [k O]; lia|]. split; [auto|lia]. }
  destruct P as [P|P]; [|exists im; split; [apply canny_skip; auto|split; [auto|intros _ _ X; unfold has_pixels, no_pixels in *; lia]]].
  assert (O2 : 1 < odd_sobel s). { destruct O as [O O']. apply Z.odd_spec in O. destruct O as [k O]. lia. }
  destruct (canny_ok cv2 ct cf al (sort_thresholds th) (odd_sobel s) im) as (out & E1 & SF & BI & PX); [split; [exact P|split; [exact U|apply channels_bool; exact C]]|assumption..|].
  exists out. split; [exact E1|]. split.
  { intros [X|[X|X]]; exfalso; [Lqa.lra|lia|unfold has_pixels, no_pixels in *; lia]. }
  intros _ _ _. split; [exact SF|]. split; [exact BI|]. exists (first_channels im), (sort_thresholds th), (odd_sobel s). split; [apply first_input; assumption|]. pose proof (sorted_thresholds th) as [ST1 ST2]. split; [exact ST1|]. split; [exact ST2|]. split; [exact O|exact PX].
Qed.
Lemma canny_batch_errors : forall cv2 drawn imgs, length drawn = length imgs ->
  match canny_batch cv2 drawn imgs with
  | Ok _ => True
  | Err e => (e = ValueError /\ Exists (fun im => im_u8 im = false) imgs) \/
             (e = AssertionError /\ Forall (fun im => im_u8 im = true) imgs /\ (Exists (fun d => ~ 0 <= size_of d <= 7) drawn \/ Exists (fun im => canny_channels im = false) imgs))
  end /\
  (Exists (fun im => im_u8 im = false) imgs \/ Exists (fun d => ~ 0 <= size_of d <= 7) drawn \/ Exists (fun im => canny_channels im = false) imgs -> exists e, canny_batch cv2 drawn imgs = Err e).
Proof.
  intros cv2 drawn imgs L. unfold canny_batch. destruct (forallb im_u8 imgs) eqn:U; cbn [negb].
  2:{ assert (X : Exists (fun im => im_u8 im = false) imgs). { clear L. induction imgs as [|a l IH]; [discriminate|]. cbn in U. destruct (im_u8 a) eqn:E; [right; apply IH; exact U|left; exact E]. }
      split; [left; auto|]. intros _. eexists. reflexivity. }
  apply all_u8 in U. destruct (Forall_Exists_dec (fun d : drawing => 0 <= size_of d <= 7) (fun d => ltac:(destruct (Z_le_dec 0 (size_of d)); [destruct (Z_le_dec (size_of d) 7)|]; [left|right|right]; lia)) drawn) as [D|D].
  2:{ pose proof (sobels_bad drawn D) as E. unfold drawing in E. rewrite E. cbn [bind]. split; [right; auto|]. intros _. eexists. reflexivity. }
  destruct (sobels_ok drawn D) as (l & E). unfold drawing in E. rewrite E. cbn [bind]. clear E l.
  assert (NX : ~ Exists (fun im => im_u8 im = false) imgs). { intros X. apply Exists_exists in X. destruct X as (x & I & X). rewrite Forall_forall in U. rewrite (U x I) in X. discriminate. }
  assert (ND : ~ Exists (fun d : drawing => ~ 0 <= size_of d <= 7) drawn). { intros X. apply Exists_exists in X. destruct X as (x & I & X). rewrite Forall_forall in D. exact (X (D x I)). }
  match goal with |- context [mapM ?f0 (combine imgs drawn)] => set (f := f0) end.
  assert (F : forall p, In p (combine imgs drawn) -> (canny_channels (fst p) = true -> exists o, f p = Ok o) /\ (canny_channels (fst p) = false -> f p = Err AssertionError)).
  { intros [im [[[a t] s] [ct cf]]] I. apply in_combine_l in I. cbn [fst]. unfold f, canny_image. split; intros C; rewrite C; cbn [negb]; [|reflexivity].
    destruct (_ && _); [|eexists; reflexivity]. unfold colorize. rewrite C. rewrite Forall_forall in U. rewrite (U im I). cbn [negb bind]. unfold blend_canny. rewrite same_shape_refl. cbn. eexists. reflexivity. }
  destruct (Forall_Exists_dec (fun im => canny_channels im = true) (fun im => Bool.bool_dec _ _) imgs) as [C|C].
  - assert (X : exists o, mapM f (combine imgs drawn) = Ok o).
    { assert (Y : forall q, In q (combine imgs drawn) -> exists o, f q = Ok o). { intros q I. apply F; [exact I|]. rewrite Forall_forall in C. destruct q as [im d]. apply in_combine_l in I. exact (C im I). }
      clearbody f. clear - Y. induction (combine imgs drawn) as [|q r IH]; [exists []; reflexivity|]. rewrite RszProofs.mapM_cons. destruct (Y q (or_introl eq_refl)) as (o & ->). cbn [bind]. destruct IH as (os & ->); [intros z Z; apply Y; right; exact Z|]. eexists. reflexivity. }
    destruct X as (o & X). rewrite X. split; [exact Logic.I|]. intros [Z|[Z|Z]]; [contradiction|contradiction|]. apply Exists_exists in Z. destruct Z as (x & I & Z). rewrite Forall_forall in C. rewrite (C x I) in Z. discriminate.
  - assert (C' : Exists (fun im => canny_channels im = false) imgs) by (revert C; apply Exists_impl; intros a; destruct (canny_channels a); congruence).
    assert (X : mapM f (combine imgs drawn) = Err AssertionError).
    { apply mapM_first_err.
      - intros q I. destruct (canny_channels (fst q)) eqn:Z; [left; apply F; assumption|right; apply F; assumption].
      - apply Exists_exists in C'. destruct C' as (x & I & Z). apply (In_nth _ _ x) in I. destruct I as (i & Hi & Hn). destruct drawn as [|d0 dr] eqn:ED; [cbn in L; lia|]. rewrite <- ED in *.
        exists (x, nth i drawn d0). assert (IN : In (x, nth i drawn d0) (combine imgs drawn)). { rewrite <- Hn, <- combine_nth by (symmetry; exact L). apply nth_In. rewrite combine_length, L. lia. }
        split; [exact IN|]. apply F; assumption. }
    rewrite X. split; [right; auto|]. intros _. eexists. reflexivity.
Qed.
Lemma canny_batch_calls : forall cv2 cv2' drawn imgs,
  (forall im a t1 t2 k, In im imgs -> opencv_input im a -> (t1 <= t2)%Q -> k = 3 \/ k = 5 \/ k = 7 -> cv2 a (t1, t2) k = cv2' a (t1, t2) k) ->
  canny_batch cv2 drawn imgs = canny_batch cv2' drawn imgs.
Proof.
  intros cv2 cv2' drawn imgs H. unfold canny_batch. destruct (forallb im_u8 imgs) eqn:U; [|reflexivity]. cbn [negb]. apply all_u8 in U.
  destruct (mapM _ drawn) as [l|e] eqn:E; [|reflexivity]. cbn [bind].
  assert (D : Forall (fun d : drawing => 0 <= size_of d <= 7) drawn).
  { destruct (Forall_Exists_dec (fun d : drawing => 0 <= size_of d <= 7) (fun d => ltac:(destruct (Z_le_dec 0 (size_of d)); [destruct (Z_le_dec (size_of d) 7)|]; [left|right|right]; lia)) drawn) as [D|D]; [exact D|].
    pose proof (sobels_bad drawn D) as X. unfold drawing in X. congruence. }
  apply mapM_ext_in. intros [im [[[a t] s] [ct cf]]] I. pose proof (in_combine_l _ _ _ _ I) as I1. apply in_combine_r in I. unfold canny_image. destruct (canny_channels im) eqn:C; [|reflexivity]. cbn [negb].
  destruct (qltb 0 a && (1 <? odd_sobel s) && negb ((im_h im =? 0) || (im_w im =? 0))) eqn:G; [|reflexivity]. apply Bool.andb_true_iff in G. destruct G as [G G3]. apply Bool.andb_true_iff in G. destruct G as [_ G2]. apply Z.ltb_lt in G2.
  pose proof (proj1 (sorted_thresholds t)) as ST. destruct (sort_thresholds t) as [t1 t2]. cbn [fst snd] in ST.
  rewrite (H im (first_channels im) t1 t2 (odd_sobel s)); [reflexivity|exact I1| |exact ST|].
  - apply Bool.negb_true_iff, Bool.orb_false_iff in G3. destruct G3 as [G3 G4]. apply Z.eqb_neq in G3, G4. rewrite Forall_forall in U. unfold opencv_input, nb_channels. cbn [first_channels im_u8 im_h im_w im_c im_px]. rewrite (U im I1). apply channels_bool in C.
    repeat split; try assumption. destruct C as [C|[C|C]]; rewrite C; reflexivity.
  - rewrite Forall_forall in D. pose proof (D _ I) as X. cbn [size_of] in X. pose proof (odd_sobel_spec s) as [O O']. apply Z.odd_spec in O. destruct O as [k O]. lia.
Qed.

(** ** Batches of snowy landscapes *)
Lemma snowy_bad : forall cvt gray from thresh mul im, has_pixels im -> im_u8 im = false \/ im_c im <> Some 3%nat \/ from = None \/ from = Some GRAY ->
  snowy_image cvt gray from thresh mul im = Err (if im_u8 im then AssertionError else ValueError).
Proof.
  intros cvt gray from thresh mul im P H. unfold snowy_image. pose proof (change_errors cvt gray im (Some HLS) from P) as E. destruct (change_colorspace cvt gray im (Some HLS) from) as [r|e].
  - exfalso. destruct E as (E1 & E2 & E3 & E4 & E5). destruct H as [H|[H|[H|H]]]; congruence.
  - cbn [bind]. destruct E as [(E1 & ->)|(E1 & -> & _)]; rewrite E1; reflexivity.
Qed.
Lemma snowy_none : forall cvt gray from thresh mul im, no_pixels im -> snowy_image cvt gray from thresh mul im = Ok im.
Proof. intros cvt gray from thresh mul im P. unfold snowy_image. rewrite (change_none cvt gray im _ _ P). cbn [bind]. rewrite (size_bool0 im P). reflexivity. Qed.
Lemma snowy_batch_ok : forall cvt gray from drawn imgs im0 d0, byte_conversions cvt gray -> from <> GRAY -> length drawn = length imgs ->
  Forall (fun im => colored im /\ byte_image im) imgs -> Forall (fun d => (0 <= snd d)%Q) drawn ->
  exists outs, snowy_batch cvt gray (Some from) drawn imgs = Ok outs /\ length outs = length imgs /\
    forall i, (i < length imgs)%nat -> let '(im, out, (thresh, mul)) := (nth i imgs im0, nth i outs im0, nth i drawn d0) in colored out /\ same_size out im /\
      forall y x, inside im y x -> exists c c', converted cvt gray from HLS (pixel im y x) c /\ lightened_color thresh mul c c' /\ converted cvt gray HLS from c' (pixel out y x).
Proof.
  intros cvt gray from drawn imgs im0 d0 BC G L HI HD. unfold snowy_batch.
  destruct (mapM_pairs (fun p : image * (Q * Q) => snowy_image cvt gray (Some from) (fst (snd p)) (snd (snd p)) (fst p))
    (fun im d out => colored out /\ same_size out im /\ forall y x, inside im y x -> exists c c', converted cvt gray from HLS (pixel im y x) c /\ lightened_color (fst d) (snd d) c c' /\ converted cvt gray HLS from c' (pixel out y x))
    imgs drawn im0 d0 im0 L) as (outs & E & LO & R).
  - intros i Hi. cbn [fst snd]. assert (I : In (nth i imgs im0) imgs) by (apply nth_In; exact Hi). assert (D : In (nth i drawn d0) drawn) by (apply nth_In; rewrite L; exact Hi).
    rewrite Forall_forall in HI, HD. destruct (HI _ I) as [C B]. pose proof (HD _ D) as M. destruct (snowy_ok cvt gray from (fst (nth i drawn d0)) (snd (nth i drawn d0)) (nth i imgs im0) BC C B G M) as (out & E & X). exists out. split; assumption.
  - exists outs. split; [exact E|]. split; [exact LO|]. intros i Hi. specialize (R i Hi). destruct (nth i drawn d0) as [t m]. exact R.
Qed.

(** ** Drawing clouds *)
Lemma cloud_alpha_unit : forall power amin amul sparsity density local, in_unit (cloud_alpha power amin amul sparsity density local).
Proof. intros. unfold cloud_alpha, in_unit. apply qclip_in. Lqa.lra. Qed.
Lemma cloud_alpha_density : forall power amin amul sparsity d d' local, (0 <= power (amin + amul * local) sparsity)%Q -> (d <= d')%Q -> (cloud_alpha power amin amul sparsity d local <= cloud_alpha power amin amul sparsity d' local)%Q.
Proof.
  intros power amin amul sparsity d d' local P H. unfold cloud_alpha. set (k := power _ _) in *. clearbody k. assert (X : (k * d <= k * d')%Q) by (assert (0 <= k * (d' - d))%Q by (apply Qmult_le_0_compat; Lqa.lra); Lqa.lra).
  unfold qclip. qminmax; Lqa.lra.
Qed.
Lemma cloud_alpha_none : forall power amin amul sparsity local, (cloud_alpha power amin amul sparsity 0 local == 0)%Q.
Proof. intros. unfold cloud_alpha. set (k := power _ _). clearbody k. assert (X : (k * 0 == 0)%Q) by ring. unfold qclip. qminmax; Lqa.lra. Qed.
Lemma cloud_intensity_near : forall mean coarse noise, (0 <= mean)%Q -> (0 <= noise <= 1)%Q -> (Qabs (cloud_intensity mean coarse noise - coarse) <= mean * (1 # 5))%Q.
Proof.
  intros mean coarse n M N. unfold cloud_intensity. apply Qabs_Qle_condition. assert (E : (mean * ((2 * n - 1) / 5) == mean * (1 # 5) * (2 * n - 1))%Q) by field. rewrite E.
  assert (A : (0 <= mean * n)%Q) by (apply Qmult_le_0_compat; Lqa.lra). assert (B : (0 <= mean * (1 - n))%Q) by (apply Qmult_le_0_compat; Lqa.lra). split; Lqa.lra.
Qed.
Lemma clip255 : forall q, (0 <= qclip q 0 255 <= 255)%Q.
Proof. intros q. apply qclip_in. Lqa.lra. Qed.
Lemma clip_compat : forall a v w lo hi, (v == w)%Q -> (qclip v lo hi == a)%Q -> (qclip w lo hi == a)%Q.
Proof. intros a v w lo hi E H. rewrite <- H. unfold qclip. qminmax; Lqa.lra. Qed.
Lemma mix_range : forall a u v, in_unit a -> (0 <= u <= 255)%Q -> (0 <= v <= 255)%Q -> (0 <= (1 - a) * u + a * v <= 255)%Q.
Proof.
  intros a u v [A B] [U1 U2] [V1 V2]. assert (X1 : (0 <= (1 - a) * u)%Q) by (apply Qmult_le_0_compat; Lqa.lra). assert (X2 : (0 <= a * v)%Q) by (apply Qmult_le_0_compat; Lqa.lra).
  assert (Y1 : (0 <= (1 - a) * (255 - u))%Q) by (apply Qmult_le_0_compat; Lqa.lra). assert (Y2 : (0 <= a * (255 - v))%Q) by (apply Qmult_le_0_compat; Lqa.lra). split; Lqa.lra.
Qed.
Lemma cloud_u8 : forall alpha intensity p, p_kind p = KUint 8 -> (forall y x, in_unit (alpha y x)) -> 
  exists out, draw_cloud alpha intensity p = Ok out /\ (p_kind out, p_h out, p_w out, p_c out) = (p_kind p, p_h p, p_w p, p_c p) /\
    forall y x n v, byte v -> p_px p y x n = inject_Z v -> exists z, p_px out y x n = inject_Z z /\ cloudy (alpha y x) (intensity y x) v z.
Proof.
  intros alpha intensity p K U. unfold draw_cloud. rewrite K. eexists. split; [reflexivity|]. split; [rewrite <- K; reflexivity|]. cbn [p_px]. intros y x n v B V. rewrite V. eexists. split; [reflexivity|].
  pose proof (byteQ v B) as BQ. pose proof (clip255 (intensity y x)) as CI. specialize (U y x). set (a := alpha y x) in *. set (c := qclip (intensity y x) 0 255) in *.
  pose proof (mix_range a _ _ U BQ CI) as [M1 M2]. pose proof (to_byte_spec _ M1 M2) as [R BT]. unfold to_byte in R, BT. unfold cloudy. fold c. split; [exact BT|]. split; [exact R|].
  fold (to_byte ((1 - a) * inject_Z v + a * c)). destruct U as [U1 U2]. split; [|split].
  - intros E. rewrite (to_byte_compat _ (inject_Z v)); [apply to_byte_Z; exact B|]. rewrite E. ring.
  - intros H. assert (X : (inject_Z v <= c)%Q). { subst c. unfold qclip. qminmax; Lqa.lra. } apply to_byte_below; [exact B|]. apply (convex a _ _ U1 U2 X).
  - intros H. apply to_byte_above; [exact B|]. assert (X : (c <= inject_Z v)%Q). { subst c. unfold qclip. qminmax; Lqa.lra. } assert (0 <= a * (inject_Z v - c))%Q by (apply Qmult_le_0_compat; Lqa.lra). Lqa.lra.
Qed.
Lemma cloud_float : forall alpha intensity p b, p_kind p = KFloat b -> exists out, draw_cloud alpha intensity p = Ok out /\ (p_kind out, p_h out, p_w out, p_c out) = (p_kind p, p_h p, p_w p, p_c p) /\
  forall y x n, (p_px out y x n == (1 - alpha y x) * p_px p y x n + alpha y x * intensity y x)%Q.
Proof. intros alpha intensity p b K. unfold draw_cloud. rewrite K. eexists. split; [reflexivity|]. split; [rewrite <- K; reflexivity|]. intros. reflexivity. Qed.
Lemma cloud_other : forall alpha intensity p, p_kind p <> KUint 8 -> (forall b, p_kind p <> KFloat b) -> draw_cloud alpha intensity p = Err ValueError.
Proof.
  intros alpha intensity p K F. unfold draw_cloud. destruct (p_kind p) as [|b|b|b] eqn:E; try reflexivity; [|exfalso; exact (F b eq_refl)].
  destruct (Z.eq_dec b 8) as [->|N]; [contradiction|]. destruct b as [|[[[|[]|]|[|[]|]|]|[[|[]|]|[[]|[]|]|]|]|]; try reflexivity; try contradiction.
Qed.

(** ** Snow *)
Lemma snow_value_ok : forall speed f v, (0 <= speed)%Q -> (0 <= f)%Q -> byte v -> byte (snow_value speed f v) /\ v <= snow_value speed f v /\ ((f == 0)%Q -> snow_value speed f v = v) /\ to_byte ((1 + 20 * speed) * f) <= snow_value speed f v.
Proof.
  intros speed f v S F B. unfold snow_value. set (s := to_byte (inject_Z v + _)). assert (P : (0 <= ((1 # 10) + 20 * speed) * f)%Q) by (apply Qmult_le_0_compat; Lqa.lra).
  assert (S1 : v <= s). { apply to_byte_below; [exact B|]. Lqa.lra. } assert (S2 : byte s) by apply to_byte_byte.
  split; [apply to_byte_byte|]. split; [|split].
  - apply Z.le_trans with s; [exact S1|]. apply to_byte_below; [exact S2|]. qminmax; Lqa.lra.
  - intros Z. assert (S3 : s = v). { unfold s. rewrite (to_byte_compat _ (inject_Z v)); [apply to_byte_Z; exact B|]. rewrite Z. ring. } rewrite (to_byte_compat _ (inject_Z v)); [apply to_byte_Z; exact B|].
    rewrite S3. assert (X : ((1 + 20 * speed) * f == 0)%Q) by (rewrite Z; ring). destruct (byteQ v B) as [V1 V2]. set (k := ((1 + 20 * speed) * f)%Q) in *. clearbody k. clear - X V1. qminmax; Lqa.lra.
  - apply to_byte_mono. qminmax; Lqa.lra.
Qed.
Lemma snow_value_mono : forall speed f g v w, (0 <= speed)%Q -> (f <= g)%Q -> v <= w -> snow_value speed f v <= snow_value speed g w.
Proof.
  intros speed f g v w S H V. apply (proj2 (inject_Z_le _ _)) in V. unfold snow_value. apply to_byte_mono.
  assert (A : (((1 # 10) + 20 * speed) * f <= ((1 # 10) + 20 * speed) * g)%Q) by (assert (0 <= ((1 # 10) + 20 * speed) * (g - f))%Q by (apply Qmult_le_0_compat; Lqa.lra); Lqa.lra).
  assert (B : ((1 + 20 * speed) * f <= (1 + 20 * speed) * g)%Q) by (assert (0 <= (1 + 20 * speed) * (g - f))%Q by (apply Qmult_le_0_compat; Lqa.lra); Lqa.lra).
  assert (C : to_byte (inject_Z v + ((1 # 10) + 20 * speed) * f)%Q <= to_byte (inject_Z w + ((1 # 10) + 20 * speed) * g)%Q) by (apply to_byte_mono; Lqa.lra). apply (proj2 (inject_Z_le _ _)) in C.
  qminmax; Lqa.lra.
Qed.
Lemma snow_channels_bool : forall im, snow_channels im = true <-> im_c im = Some 1%nat \/ im_c im = Some 3%nat.
Proof.
  intros im. unfold snow_channels. destruct (im_c im) as [[|[|[|[|n]]]]|]; split; intros H; try discriminate; try reflexivity; auto; destruct H as [H|H]; discriminate.
Qed.
Lemma rd_pos : forall q, (0 <= q)%Q -> rounded_down q (py_int q).
Proof. intros q H. destruct (py_int_nonneg q H) as (_ & A & B). split; assumption. Qed.
Section LayerProofs.
Variable salt : Z -> Z -> noise.
Variable gate : Z -> Z -> Z -> Z -> Q.
Variable resize : Z -> Z -> noise -> Z -> Z -> noise.
Variable gaussian : Q -> noise -> noise.
Variable motion : Z -> noise -> noise.
Variable gamma : Q -> Z -> Z.
Lemma flakes_pos : forall u v, (forall g v, byte v -> byte (gamma g v)) -> (0 <= u <= 1)%Q -> byte v -> (0 <= flakes gamma u v)%Q.
Proof. intros u v G U B. unfold flakes. apply Qmult_le_0_compat; [apply byteQ, G; exact B|Lqa.lra]. Qed.
Lemma gated_below : forall h w n, byte_noise n -> byte_noise (gated_noise gate h w n) /\ forall y x, gated_noise gate h w n y x <= n y x.
Proof.
  intros h w n B. split; intros y x; unfold gated_noise; [apply to_byte_byte|]. apply to_byte_above; [apply B|]. pose proof (byteQ _ (B y x)) as BQ.
  assert (X : (0 <= qclip (gate h w y x) 0 1 <= 1)%Q) by (apply qclip_in; Lqa.lra). set (c := qclip _ 0 1) in *. clearbody c. assert (0 <= inject_Z (n y x) * (1 - c))%Q by (apply Qmult_le_0_compat; Lqa.lra). Lqa.lra.
Qed.
Lemma gated_black : forall h w n, black n -> black (gated_noise gate h w n).
Proof.
  intros h w n B y x. unfold gated_noise. rewrite (B y x). rewrite (to_byte_compat _ (inject_Z 0)); [apply to_byte_Z; split; lia|]. change (inject_Z 0) with 0%Q. ring.
Qed.
Lemma noise_side_range : forall side f, 1 <= noise_side side f /\ noise_side side f <= Z.max 1 side.
Proof.
  intros side f. unfold noise_side. split; [lia|]. destruct (Z_le_dec 0 side) as [S|S].
  - apply Z.max_le_compat_l. assert (C : (1 # 1000 <= qclip (1 - f) (1 # 1000) 1 <= 1)%Q) by (apply qclip_in; Lqa.lra). set (c := qclip _ _ _) in *. clearbody c.
    assert (SQ : (0 <= inject_Z side)%Q) by (change 0%Q with (inject_Z 0); apply (proj2 (inject_Z_le _ _)); exact S).
    assert (P : (0 <= inject_Z side * c)%Q) by (apply Qmult_le_0_compat; Lqa.lra). destruct (py_int_nonneg _ P) as (P1 & P2 & P3). assert (P4 : (0 <= inject_Z side * (1 - c))%Q) by (apply Qmult_le_0_compat; Lqa.lra).
    assert (X : (inject_Z (py_int (inject_Z side * c)) <= inject_Z side)%Q) by Lqa.lra. apply (proj1 (inject_Z_le _ _)) in X. exact X.
  - assert (C : (1 # 1000 <= qclip (1 - f) (1 # 1000) 1 <= 1)%Q) by (apply qclip_in; Lqa.lra). set (c := qclip _ _ _) in *. clearbody c.
    assert (X : py_int (inject_Z side * c) <= 0). { unfold py_int. assert (SQ : (inject_Z side < 0)%Q) by (change 0%Q with (inject_Z 0); apply (proj2 (inject_Z_lt _ _)); lia).
      assert (N : (inject_Z side * c < 0)%Q) by (assert (0 < (- inject_Z side) * c)%Q by (apply Qmult_lt_0_compat; Lqa.lra); Lqa.lra). destruct (qleb 0 (inject_Z side * c)) eqn:E; [apply qleb_iff in E; Lqa.lra|].
      assert (Z : (inject_Z (Qceiling (inject_Z side * c)) < 1)%Q). { pose proof (Qceiling_lt (inject_Z side * c)) as Q. unfold Z.sub in Q. rewrite inject_Z_plus in Q. change (inject_Z (-(1))) with (-(1))%Q in Q. Lqa.lra. }
      change 1%Q with (inject_Z 1) in Z. apply (proj1 (inject_Z_lt _ _)) in Z. lia. }
    lia.
Qed.
Lemma layer_bytes : forall blur h w fs sp sf lo hi, (forall a b, byte_noise (salt a b)) -> (forall a b n c d, byte_noise n -> byte_noise (resize a b n c d)) -> (forall s n, byte_noise n -> byte_noise (blur s n)) ->
  (forall k n, byte_noise n -> byte_noise (motion k n)) -> byte_noise (layer_noise salt gate resize motion blur h w fs sp sf lo hi).
Proof.
  intros blur h w fs sp sf lo hi S R B M. unfold layer_noise, motion_blur. destruct (_ <=? 1); [|apply M]; apply B, R, gated_below, S.
Qed.
Lemma layer_black : forall blur h w fs sp sf lo hi, (forall a b, black (salt a b)) -> (forall a b n c d, black n -> black (resize a b n c d)) -> (forall s n, black n -> black (blur s n)) ->
  (forall k n, black n -> black (motion k n)) -> black (layer_noise salt gate resize motion blur h w fs sp sf lo hi).
Proof.
  intros blur h w fs sp sf lo hi S R B M. unfold layer_noise, motion_blur. destruct (_ <=? 1); [|apply M]; apply B, R, gated_black, S.
Qed.
Lemma small_side_ok : forall side f, 0 <= side -> small_side side f (noise_side side f).
Proof.
  intros side f S. unfold noise_side. assert (C : (1 # 1000 <= qclip (1 - f) (1 # 1000) 1 <= 1)%Q) by (apply qclip_in; Lqa.lra). exists (py_int (inject_Z side * qclip (1 - f) (1 # 1000) 1)). split; [|reflexivity].
  assert (SQ : (0 <= inject_Z side)%Q) by (change 0%Q with (inject_Z 0); apply (proj2 (inject_Z_le _ _)); exact S). apply rd_pos. apply Qmult_le_0_compat; Lqa.lra.
Qed.
Lemma layer_made : forall blur h w fs sp sf lo hi, 0 <= h -> 0 <= w -> (0 <= sp)%Q -> (lo <= hi)%Q -> (forall a b, byte_noise (salt a b)) ->
  made_from salt gate resize motion blur h w fs sp lo hi (layer_noise salt gate resize motion blur h w fs sp sf lo hi).
Proof.
  intros blur h w fs sp sf lo hi H W SP L S. exists (noise_side h fs), (noise_side w fs), (qclip (inject_Z (Z.max h w) * sf) lo hi), (gated_noise gate (noise_side h fs) (noise_side w fs) (salt (noise_side h fs) (noise_side w fs))).
  split; [apply small_side_ok; exact H|]. split; [apply small_side_ok; exact W|]. split; [apply qclip_in; exact L|]. split.
  { intros y x. unfold gated_noise. pose proof (byteQ _ (S (noise_side h fs) (noise_side w fs) y x)) as BQ. assert (X : (0 <= qclip (gate (noise_side h fs) (noise_side w fs) y x) 0 1 <= 1)%Q) by (apply qclip_in; Lqa.lra). set (c := qclip _ 0 1) in *. clearbody c.
    set (v := inject_Z _) in *. clearbody v. assert (Z1 : (0 <= v * c)%Q) by (apply Qmult_le_0_compat; Lqa.lra). assert (Z2 : (0 <= v * (1 - c))%Q) by (apply Qmult_le_0_compat; Lqa.lra). apply to_byte_spec; Lqa.lra. }
  assert (MQ : (0 <= inject_Z (Z.max h w))%Q) by (change 0%Q with (inject_Z 0); apply (proj2 (inject_Z_le _ _)); lia). assert (KP : (0 <= sp * inject_Z (Z.max h w))%Q) by (apply Qmult_le_0_compat; assumption).
  pose proof (rd_pos _ KP) as [R1 R2]. unfold layer_noise, motion_blur. set (q := (sp * inject_Z (Z.max h w))%Q) in *. clearbody q. set (k := py_int q) in *. clearbody k. split; intros G.
  - assert (K1 : (inject_Z k < inject_Z 2)%Q) by (change (inject_Z 2) with 2%Q; Lqa.lra). apply (proj1 (inject_Z_lt _ _)) in K1. rewrite (proj2 (Z.leb_le k 1)) by lia. reflexivity.
  - assert (K1 : (inject_Z 1 < inject_Z k)%Q) by (change (inject_Z 1) with 1%Q; Lqa.lra). apply (proj1 (inject_Z_lt _ _)) in K1. rewrite (proj2 (Z.leb_gt k 1)) by lia. exists (Z.max k 3). split; [lia|]. split; [|reflexivity].
    destruct (Z_le_dec k 3) as [K|K]; [left; lia|right]. rewrite Z.max_l by lia. split; assumption.
Qed.
Lemma snow_ok : forall fs u sp sf lo hi im, im_c im = Some 1%nat \/ im_c im = Some 3%nat -> bytes_in im -> (0 <= u <= 1)%Q -> (0 <= sp)%Q ->
  (forall a b, byte_noise (salt a b)) -> (forall a b n c d, byte_noise n -> byte_noise (resize a b n c d)) -> (forall s n, byte_noise n -> byte_noise (gaussian s n)) ->
  (forall k n, byte_noise n -> byte_noise (motion k n)) -> (forall g v, byte v -> byte (gamma g v)) -> (forall g, gamma g 0 = 0) -> (forall g, gamma g 255 = 255) -> 0 <= im_h im -> 0 <= im_w im -> (lo <= hi)%Q ->
  exists out flake, draw_snow salt gate resize gaussian motion gamma fs u sp sf lo hi im = Ok out /\ same_form out im /\ bytes_in out /\ byte_noise flake /\
    (forall y x n, inside im y x -> (n < nb_channels im)%nat -> im_px im y x n <= im_px out y x n /\ (flake y x = 0 -> im_px out y x n = im_px im y x n) /\ (flake y x = 255 -> im_px out y x n = 255)) /\
    made_from salt gate resize motion gaussian (im_h im) (im_w im) fs sp lo hi flake /\
    ((forall a b, black (salt a b)) -> (forall a b n c d, black n -> black (resize a b n c d)) -> (forall s n, black n -> black (gaussian s n)) -> (forall k n, black n -> black (motion k n)) -> black flake).
Proof.
  intros fs u sp sf lo hi im C B U SP HS HR HG HM HGa HG0 HG1 H0 W0 LH. unfold draw_snow. rewrite (proj2 (snow_channels_bool im) C). cbn [negb]. set (n := layer_noise _ _ _ _ _ _ _ _ _ _ _ _).
  assert (BN : byte_noise n) by (apply layer_bytes; assumption). eexists. exists n. split; [reflexivity|]. split; [repeat split|].
  assert (V : forall y x c, inside im y x -> (c < nb_channels im)%nat -> _) by (intros y x c I N; exact (snow_value_ok sp (flakes gamma u (n y x)) (im_px im y x c) SP (flakes_pos u (n y x) HGa U (BN y x)) (B y x c I N))).
  split; [intros y x c I N; exact (proj1 (V y x c I N))|]. split; [exact BN|]. split.
  - intros y x c I N. destruct (V y x c I N) as (V1 & V2 & V3 & V4). split; [exact V2|]. split; [intros E; apply V3; unfold flakes; rewrite E, HG0; ring|]. intros E.
    assert (T : 255 <= to_byte ((1 + 20 * sp) * flakes gamma u (n y x))). { apply to_byte_below; [split; lia|]. unfold flakes. rewrite E, HG1. change (inject_Z 255) with 255%Q. assert (P : (0 <= sp * (1 - u))%Q) by (apply Qmult_le_0_compat; Lqa.lra). Lqa.lra. }
    apply Z.le_antisymm; [exact (proj2 V1)|exact (Z.le_trans _ _ _ T V4)].
  - split; [apply layer_made; assumption|]. intros S R G M. apply layer_black; assumption.
Qed.
Lemma snow_bad : forall fs u sp sf lo hi im, im_c im <> Some 1%nat -> im_c im <> Some 3%nat -> draw_snow salt gate resize gaussian motion gamma fs u sp sf lo hi im = Err AssertionError.
Proof.
  intros fs u sp sf lo hi im A B. unfold draw_snow. destruct (snow_channels im) eqn:E; [|reflexivity]. apply snow_channels_bool in E. tauto.
Qed.
Lemma first_values_in : forall h w nc (n : noise) y x, 0 <= y < h /\ 0 <= x < w -> (0 < nc)%nat -> (y * w + x) * Z.of_nat nc < 1000 -> In (n y x) (first_values h w nc n).
Proof.
  intros h w nc n y x (Y & X) NC K. unfold first_values, positions. set (N := Z.to_nat (h * w)). set (i := Z.to_nat (y * w + x)). assert (IZ : Z.of_nat i = y * w + x) by (unfold i; apply Z2Nat.id; nia).
  assert (IN : (i < N)%nat). { apply Nat2Z.inj_lt. rewrite IZ. unfold N. rewrite Z2Nat.id by nia. nia. }
  replace N with (i + S (N - i - 1))%nat by lia. rewrite seq_app, map_app, flat_map_app, firstn_app. apply in_or_app. right.
  assert (L : length (flat_map (fun p : Z * Z => repeat (n (fst p) (snd p)) nc) (map (fun i0 : nat => (Z.of_nat i0 / w, Z.of_nat i0 mod w)) (seq 0 i))) = (i * nc)%nat).
  { assert (G : forall l : list nat, length (flat_map (fun p : Z * Z => repeat (n (fst p) (snd p)) nc) (map (fun i0 : nat => (Z.of_nat i0 / w, Z.of_nat i0 mod w)) l)) = (length l * nc)%nat).
    { induction l as [|a l IH]; [reflexivity|]. cbn [map flat_map]. rewrite app_length, repeat_length, IH. reflexivity. }
    rewrite G, seq_length. reflexivity. }
  rewrite L. assert (K' : (i * nc < 1000)%nat) by (apply Nat2Z.inj_lt; rewrite Nat2Z.inj_mul, IZ; exact K). destruct (1000 - i * nc)%nat as [|m] eqn:E; [lia|]. cbn [Nat.add seq map flat_map fst snd]. destruct nc as [|nc]; [lia|]. cbn [repeat app firstn]. left.
  rewrite IZ. rewrite (Z.div_add_l y w x) by lia. rewrite Z.div_small by lia. rewrite Z.add_0_r. rewrite Z.add_comm, Z.mod_add by lia. rewrite Z.mod_small by lia. reflexivity.
Qed.
Lemma drop_color_range : forall l, Forall (fun v => 0 <= v) l -> 110 <= drop_color l <= 240 /\ (130 < fold_right Z.add 0 l -> drop_color l = 240) /\ (fold_right Z.add 0 l = 0 -> drop_color l = 110).
Proof.
  intros l H. unfold drop_color. assert (S : 0 <= fold_right Z.add 0 l) by (induction H; cbn; lia). set (s := fold_right Z.add 0 l) in *. clearbody s. clear H. change (240 - 110) with 130.
  destruct (Z.ltb_spec 0 s) as [P|P].
  - pose proof (Z.mod_pos_bound 130 s P). pose proof (Z.mod_le 130 s ltac:(lia) P). split; [lia|]. split; [|lia]. intros X. rewrite Z.mod_small by lia. lia.
  - rewrite Z.mod_1_r. split; [lia|]. split; lia.
Qed.
Lemma rain_value_ok : forall color n v, byte color -> byte n -> byte v -> let z := rain_value color n v in
  byte z /\ Z.min v color <= z <= Z.max v color /\ (n = 0 -> z = v) /\ (197 <= n -> z = color).
Proof.
  intros color n v C N V z. subst z. unfold rain_value. assert (U : (0 <= qclip ((13 # 10) * (inject_Z n / 255)) 0 1 <= 1)%Q) by (apply qclip_in; Lqa.lra).
  assert (A0 : n = 0 -> (qclip ((13 # 10) * (inject_Z n / 255)) 0 1 == 0)%Q). { intros ->. reflexivity. }
  assert (A1 : 197 <= n -> (qclip ((13 # 10) * (inject_Z n / 255)) 0 1 == 1)%Q). { intros H. apply (proj2 (inject_Z_le _ _)) in H. change (inject_Z 197) with 197%Q in H. assert (E : ((13 # 10) * (inject_Z n / 255) == (13 # 2550) * inject_Z n)%Q) by field.
    unfold qclip. qminmax; Lqa.lra. }
  set (a := qclip _ 0 1) in *. clearbody a. destruct U as [U1 U2]. pose proof (byteQ _ C) as CQ. pose proof (byteQ _ V) as VQ.
  split; [apply to_byte_byte|]. split; [|split].
  - destruct (Z_le_dec v color) as [H|H].
    + rewrite Z.min_l, Z.max_r by exact H. apply (proj2 (inject_Z_le _ _)) in H. pose proof (convex a _ _ U1 U2 H) as [X Y]. split; [apply to_byte_below; assumption|apply to_byte_above; assumption].
    + assert (H' : color <= v) by lia. rewrite Z.min_r, Z.max_l by lia. apply (proj2 (inject_Z_le _ _)) in H'. assert (Y1 : (0 <= 1 - a)%Q) by Lqa.lra. assert (Y2 : (1 - a <= 1)%Q) by Lqa.lra.
      pose proof (convex (1 - a) _ _ Y1 Y2 H') as [X Y]. split; [apply to_byte_below; [exact C|Lqa.lra]|apply to_byte_above; [exact V|Lqa.lra]].
  - intros H. rewrite (to_byte_compat _ (inject_Z v)); [apply to_byte_Z; exact V|]. rewrite (A0 H). ring.
  - intros H. rewrite (to_byte_compat _ (inject_Z color)); [apply to_byte_Z; exact C|]. rewrite (A1 H). ring.
Qed.
Lemma rain_ok : forall ds sp sf lo hi im, im_c im = Some 1%nat \/ im_c im = Some 3%nat -> bytes_in im ->
  (forall a b, byte_noise (salt a b)) -> (forall a b n c d, byte_noise n -> byte_noise (resize a b n c d)) -> (forall k n, byte_noise n -> byte_noise (motion k n)) -> 0 <= im_h im -> 0 <= im_w im -> (0 <= sp)%Q -> (lo <= hi)%Q ->
  exists out drop color, draw_rain salt gate resize motion ds sp sf lo hi im = Ok out /\ same_form out im /\ bytes_in out /\ byte_noise drop /\ 110 <= color <= 240 /\
    (forall y x n, inside im y x -> (n < nb_channels im)%nat ->
       Z.min (im_px im y x n) color <= im_px out y x n <= Z.max (im_px im y x n) color /\ (drop y x = 0 -> im_px out y x n = im_px im y x n) /\ (197 <= drop y x -> im_px out y x n = color)) /\
    made_from salt gate resize motion (fun _ n => n) (im_h im) (im_w im) ds sp lo hi drop /\
    ((forall a b, black (salt a b)) -> (forall a b n c d, black n -> black (resize a b n c d)) -> (forall k n, black n -> black (motion k n)) -> black drop) /\
    (forall y x, inside im y x -> (y * im_w im + x) * Z.of_nat (nb_channels im) < 1000 -> 130 < drop y x -> color = 240).
Proof.
  intros ds sp sf lo hi im C B HS HR HM H0 W0 SP LH. unfold draw_rain. rewrite (proj2 (snow_channels_bool im) C). cbn [negb]. set (n := layer_noise _ _ _ _ _ _ _ _ _ _ _ _).
  assert (BN : byte_noise n) by (apply layer_bytes; try assumption; intros s m X; exact X). set (l := first_values _ _ _ _). set (color := drop_color l).
  assert (NL : Forall (fun v => 0 <= v) l). { apply Forall_forall. intros v I. unfold l, first_values in I. assert (IN : forall (A : Type) k (m : list A) x, In x (firstn k m) -> In x m) by (intros A k m x HH; rewrite <- (firstn_skipn k m); apply in_or_app; left; exact HH).
    apply IN in I. apply in_flat_map in I. destruct I as (p & _ & I). apply repeat_spec in I. subst v. apply BN. }
  destruct (drop_color_range l NL) as (R1 & R2 & _). fold color in R1, R2. assert (BC : byte color) by (unfold byte; lia).
  eexists. exists n, color. split; [reflexivity|]. split; [repeat split|]. split; [intros y x c I N; exact (proj1 (rain_value_ok color (n y x) _ BC (BN y x) (B y x c I N)))|]. split; [exact BN|]. split; [exact R1|]. split; [|split; [apply layer_made; assumption|split]].
  - intros y x c I N. exact (proj2 (rain_value_ok color (n y x) _ BC (BN y x) (B y x c I N))).
  - intros S R M. apply layer_black; try assumption. intros s m X. exact X.
  - intros y x I K D. apply R2. assert (IL : In (n y x) l).
    { apply first_values_in; [exact I| |exact K]. destruct C as [C|C]; unfold nb_channels; rewrite C; lia. }
    assert (SM : forall m v, Forall (fun v => 0 <= v) m -> In v m -> v <= fold_right Z.add 0 m).
    { clear. intros m v H. induction H as [|a r A H IH]; intros I; [destruct I|]. cbn. assert (0 <= fold_right Z.add 0 r) by (clear - H; induction H; cbn; lia). destruct I as [->|I]; [lia|]. specialize (IH I). lia. }
    specialize (SM l _ NL IL). lia.
Qed.
Lemma rain_bad : forall ds sp sf lo hi im, im_c im <> Some 1%nat -> im_c im <> Some 3%nat -> draw_rain salt gate resize motion ds sp sf lo hi im = Err AssertionError.
Proof.
  intros ds sp sf lo hi im A B. unfold draw_rain. destruct (snow_channels im) eqn:E; [|reflexivity]. apply snow_channels_bool in E. tauto.
Qed.
End LayerProofs.
Lemma layer_calls : forall salt salt' gate gate' resize resize' motion motion' blur h w fs sp sf lo hi,
  (forall a b, 1 <= a <= Z.max 1 h -> 1 <= b <= Z.max 1 w -> salt a b = salt' a b /\ gate a b = gate' a b /\ forall n, resize a b n h w = resize' a b n h w) ->
  (forall k, 3 <= k -> motion k = motion' k) ->
  layer_noise salt gate resize motion blur h w fs sp sf lo hi = layer_noise salt' gate' resize' motion' blur h w fs sp sf lo hi.
Proof.
  intros salt salt' gate gate' resize resize' motion motion' blur h w fs sp sf lo hi H M. unfold layer_noise, motion_blur. destruct (H (noise_side h fs) (noise_side w fs)) as (E1 & E2 & E3); [apply noise_side_range|apply noise_side_range|].
  rewrite E1, E3. assert (E4 : gated_noise gate (noise_side h fs) (noise_side w fs) = gated_noise gate' (noise_side h fs) (noise_side w fs)) by (unfold gated_noise; rewrite E2; reflexivity). rewrite E4.
  destruct (_ <=? 1); [reflexivity|]. rewrite M by lia. reflexivity.
Qed.
