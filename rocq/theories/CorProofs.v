(** Proofs about corruptions and glass blur. *)
From Coq Require Import List ZArith QArith Bool Lia Lqa.
From Verif Require Import Prelude PreludeFacts DtyModel RngModel CtrModel CorModel CorSpec.
From Verif Require DtyProofs RszProofs ParSpec ParProofs.
Import ListNotations.
Open Scope Z_scope.

(** * The wrapper *)
Lemma only_uint8_one : forall d, allow_only_uint8 [d] = if dname_eqb d U8 then Ok [] else Err ValueError.
Proof. intros []; vm_compute; reflexivity. Qed.
Lemma dname_eqb_u8 : forall d, dname_eqb d U8 = true <-> d = U8.
Proof. intros []; split; intros H; (reflexivity || discriminate). Qed.
Lemma refuses : forall S of_seed func v seed im s, ~ corruptible im ->
  corrupt S of_seed func v seed im s = (s, Err (if dname_eqb (p_dt im) U8 then AssertionError else ValueError)).
Proof.
  intros S os f v seed im s N. unfold corrupt. rewrite only_uint8_one. destruct (dname_eqb (p_dt im) U8) eqn:D; [|reflexivity].
  apply dname_eqb_u8 in D.
  destruct ((32 <=? p_h im) && (32 <=? p_w im)) eqn:B; [|reflexivity]. cbn [negb].
  apply andb_prop in B. destruct B as [B1 B2]. apply Z.leb_le in B1, B2.
  destruct (p_c im) as [n|] eqn:C; [|exfalso; apply N; repeat split; auto].
  destruct (Nat.eqb_spec n 1) as [->|N1]; [exfalso; apply N; repeat split; auto|].
  destruct (Nat.eqb_spec n 3) as [->|N3]; [exfalso; apply N; repeat split; auto|]. reflexivity.
Qed.
Definition widened (im : picture) : picture := match p_c im with None | Some 1%nat => tiled im | _ => im end.
Definition narrowed (im out : picture) : res picture :=
  match p_c im with None => first_channel false out | Some 1%nat => first_channel true out | _ => Ok out end.
Lemma accepted : forall S of_seed func v seed im s, corruptible im ->
  corrupt S of_seed func v seed im s =
  (let '(s, r) := temporary_numpy_seed S of_seed seed (func v (widened im)) s in (s, do out <- r; do out <- narrowed im out; Ok (as_uint8 out))).
Proof.
  intros S os f v seed im s (D & H & W & C). unfold corrupt. rewrite only_uint8_one, D. cbn [dname_eqb].
  apply Z.leb_le in H, W. rewrite H, W. cbn [andb negb]. unfold widened, narrowed. destruct C as [C|[C|C]]; rewrite C; reflexivity.
Qed.
Lemma widened_color : forall im, corruptible im -> color_version im (widened im).
Proof.
  intros im (D & H & W & C). unfold widened, color_version. destruct C as [C|[C|C]]; rewrite C; repeat split; auto.
Qed.
Lemma whole_mod : forall q, (0 <= q < 256)%Q -> whole_part q (inject_Z (py_int q mod 256)).
Proof.
  intros q [A B]. destruct (ParProofs.py_int_truncation q) as [(_ & L & U)|(N & _)]; [|Lqa.lra].
  assert (R : 0 <= py_int q < 256).
  { split.
    - assert (X : (inject_Z 0 < inject_Z (py_int q + 1))%Q) by (rewrite inject_Z_plus; change (inject_Z 0) with 0%Q; change (inject_Z 1) with 1%Q; Lqa.lra). rewrite <- Zlt_Qlt in X. lia.
    - assert (X : (inject_Z (py_int q) < inject_Z 256)%Q) by (change (inject_Z 256) with 256%Q; Lqa.lra). rewrite <- Zlt_Qlt in X. lia. }
  rewrite Z.mod_small by lia. exists (py_int q). split; [reflexivity|]. split; assumption.
Qed.
Definition run {S} (of_seed : Z -> S) (seed : option Z) (s : S) : S := match seed with Some e => of_seed e | None => s end.
Lemma result : forall S of_seed func v seed im s, corruptible im -> exists im3, color_version im im3 /\
  let r := func v im3 (run of_seed seed s) in
  fst (corrupt S of_seed func v seed im s) = match seed with Some _ => s | None => fst r end /\
  (forall e, snd r = Err e -> snd (corrupt S of_seed func v seed im s) = Err e) /\
  (forall out, snd r = Ok out -> same_shape out im3 ->
     exists im', snd (corrupt S of_seed func v seed im s) = Ok im' /\ p_dt im' = U8 /\ same_shape im' im /\
       forall y x c, position im y x c -> (0 <= p_px out y x c < 256)%Q -> whole_part (p_px out y x c) (p_px im' y x c)).
Proof.
  intros S os f v seed im s C. exists (widened im). split; [apply widened_color; exact C|]. cbv zeta.
  rewrite (accepted S os f v seed im s C). unfold temporary_numpy_seed, run.
  assert (E : (let '(s0, r) := match seed with Some e => let '(_, r) := f v (widened im) (os e) in (s, r) | None => f v (widened im) s end in
               (s0, do out <- r; do out <- narrowed im out; Ok (as_uint8 out)))
              = (match seed with Some _ => s | None => fst (f v (widened im) s) end,
                 do out <- snd (f v (widened im) match seed with Some e => os e | None => s end); do out <- narrowed im out; Ok (as_uint8 out))).
  { destruct seed as [e|]; [destruct (f v (widened im) (os e))|destruct (f v (widened im) s)]; reflexivity. }
  rewrite E. clear E. cbn [fst snd]. split; [destruct seed; reflexivity|].
  split; [intros e ->; reflexivity|].
  intros out -> (H & W & D). cbn [bind].
  destruct C as (_ & _ & _ & C). unfold narrowed, widened, first_channel in *.
  destruct C as [C|[C|C]]; rewrite C in *; cbn [tiled p_h p_w p_c] in H, W, D; try rewrite D; cbn [bind]; eexists; (split; [reflexivity|]);
    unfold same_shape, position; cbn [as_uint8 p_dt p_h p_w p_c p_px]; rewrite ?C;
    (split; [reflexivity|split; [split; [assumption|split; [assumption|congruence]]|]]); intros y x c (Y & X & L) B;
    (assert (c = 0%nat) as -> by lia) || idtac; apply whole_mod; exact B.
Qed.

Lemma state_kept : forall S of_seed func v e im s, fst (corrupt S of_seed func v (Some e) im s) = s /\
  forall s', snd (corrupt S of_seed func v (Some e) im s') = snd (corrupt S of_seed func v (Some e) im s).
Proof.
  intros S os f v e im s. unfold corrupt. destruct (allow_only_uint8 [p_dt im]) as [o|]; [|split; reflexivity].
  destruct (negb _); [split; reflexivity|]. destruct (negb _); [split; reflexivity|].
  cbn [temporary_numpy_seed]. destruct (f v _ (os e)) as [s1 r]. split; reflexivity.
Qed.
Lemma batch_state : forall S of_seed func imgs vs es s, fst (corrupt_batch S of_seed func imgs vs es s) = s.
Proof.
  intros S os f imgs. induction imgs as [|im imgs IH]; intros vs es s; [reflexivity|].
  destruct vs as [|v vs]; [reflexivity|]. destruct es as [|e es]; [reflexivity|]. cbn [corrupt_batch].
  pose proof (proj1 (state_kept S os f v e im s)) as K. destruct (corrupt S os f v (Some e) im s) as [s1 r]. cbn [fst] in K. subst s1.
  destruct (do out <- r; overwrite im out) as [o|x]; [|reflexivity]. specialize (IH vs es s).
  destruct (corrupt_batch S os f imgs vs es s) as [s2 r2]. exact IH.
Qed.
Lemma overwrite_same : forall im out, same_shape out im -> overwrite im out = Ok (mkP (p_dt im) (p_h im) (p_w im) (p_c im) (p_px out)).
Proof.
  intros im out (H & W & C). unfold overwrite. rewrite H, W, C, !Z.eqb_refl. cbn [andb].
  destruct (p_c im); [rewrite Nat.eqb_refl|]; reflexivity.
Qed.
Lemma batch_images : forall S of_seed (func : Z -> picture -> S -> S * res picture) imgs vs es s, well_behaved func -> Forall corruptible imgs -> length vs = length imgs -> length es = length imgs ->
  exists outs, snd (corrupt_batch S of_seed func imgs vs es s) = Ok outs /\ length outs = length imgs /\
  forall i im v e, nth_error imgs i = Some im -> nth_error vs i = Some v -> nth_error es i = Some e ->
    exists out alone, nth_error outs i = Some out /\ (forall s', snd (corrupt S of_seed func v (Some e) im s') = Ok alone) /\
      p_dt out = U8 /\ same_shape out im /\ p_px out = p_px alone.
Proof.
  intros S os f imgs. induction imgs as [|im imgs IH]; intros vs es s G F LV LE.
  - exists []. split; [destruct vs; reflexivity|]. split; [reflexivity|]. intros [|i] im v e H; discriminate.
  - destruct vs as [|v vs]; [discriminate|]. destruct es as [|e es]; [discriminate|]. cbn [corrupt_batch].
    inversion F as [|a l F1 F2]; subst.
    destruct (result S os f v (Some e) im s F1) as (im3 & CV & _ & _ & R). cbn [run] in R.
    destruct (G v im3 (os e)) as (out & RO & SS & _). destruct (R out RO SS) as (im' & E & D & SI & _).
    destruct (state_kept S os f v e im s) as [K1 K2].
    destruct (corrupt S os f v (Some e) im s) as [s1 r] eqn:EC. cbn [fst snd] in *. subst s1 r. cbn [bind].
    rewrite (overwrite_same im im' SI).
    cbn [length] in LV, LE. destruct (IH vs es s G F2 ltac:(lia) ltac:(lia)) as (outs & E2 & L2 & R2).
    destruct (corrupt_batch S os f imgs vs es s) as [s2 r2]. cbn [snd] in *. subst r2. cbn [bind].
    eexists. split; [reflexivity|]. split; [cbn [length]; lia|].
    intros [|i] im0 v0 e0 H1 H2 H3; cbn [nth_error] in *.
    + injection H1 as <-. injection H2 as <-. injection H3 as <-. eexists. exists im'. split; [reflexivity|].
      split; [intros s'; rewrite K2; reflexivity|]. cbn [p_dt p_px]. destruct F1 as (U & _). repeat split; assumption.
    + exact (R2 i im0 v0 e0 H1 H2 H3).
Qed.
Lemma batch_error : forall S of_seed (func : Z -> picture -> S -> S * res picture) imgs vs es s x, snd (corrupt_batch S of_seed func imgs vs es s) = Err x ->
  exists i im v e, nth_error imgs i = Some im /\ nth_error vs i = Some v /\ nth_error es i = Some e /\
    (snd (corrupt S of_seed func v (Some e) im s) = Err x \/ exists out, snd (corrupt S of_seed func v (Some e) im s) = Ok out /\ x = ValueError /\ ~ same_shape out im).
Proof.
  intros S os f imgs. induction imgs as [|im imgs IH]; intros vs es s x H; [discriminate|].
  destruct vs as [|v vs]; [discriminate|]. destruct es as [|e es]; [discriminate|]. cbn [corrupt_batch] in H.
  pose proof (proj1 (state_kept S os f v e im s)) as K. destruct (corrupt S os f v (Some e) im s) as [s1 r] eqn:EC. cbn [fst] in K. subst s1.
  destruct r as [out|x0]; cbn [bind] in H.
  - destruct (overwrite im out) as [o|x1] eqn:OV.
    + destruct (corrupt_batch S os f imgs vs es s) as [s2 r2] eqn:EB. cbn [snd] in H. destruct r2 as [l|x2]; [discriminate|]. cbn [bind] in H. injection H as ->.
      destruct (IH vs es s x) as (i & im0 & v0 & e0 & A & B & C & D); [rewrite EB; reflexivity|].
      exists (Datatypes.S i), im0, v0, e0. repeat split; assumption.
    + cbn [snd] in H. injection H as ->. exists 0%nat, im, v, e. repeat (split; [reflexivity|]). right. exists out. rewrite EC. split; [reflexivity|].
      split.
      * unfold overwrite in OV. destruct (_ && _ && _); congruence.
      * intros SS. rewrite (overwrite_same im out SS) in OV. discriminate.
  - cbn [snd] in H. injection H as ->. exists 0%nat, im, v, e. repeat (split; [reflexivity|]). left. rewrite EC. reflexivity.
Qed.

(** * Glass blur *)
Lemma step_at : forall P (x : Z -> Z -> P) h w h' w' a b, glass_step P x h w h' w' a b = if (a =? h) && (b =? w) then x h' w' else x a b.
Proof.
  intros P x h w h' w' a b. unfold glass_step, put. rewrite !Z.eqb_refl. cbn [andb].
  destruct ((a =? h') && (b =? w')) eqn:E1; [|reflexivity].
  apply andb_prop in E1. destruct E1 as [E1 E2]. apply Z.eqb_eq in E1, E2. subst. destruct ((h' =? h) && (w' =? w)); reflexivity.
Qed.
Lemma loop_inv : forall A B (I : B -> Prop) (f : A -> B -> res B) l b, (forall a b, In a l -> I b -> exists b', f a b = Ok b' /\ I b') -> I b -> exists b', loop l f b = Ok b' /\ I b'.
Proof.
  intros A B I f l. induction l as [|a l IH]; intros b H Hb; [exists b; split; [reflexivity|exact Hb]|].
  cbn [loop]. destruct (H a b (or_introl eq_refl) Hb) as (b1 & -> & H1). cbn [bind]. apply IH; [|exact H1]. intros a' b' HI. apply H. right. exact HI.
Qed.
Lemma in_upto : forall n j, In j (upto n) -> 0 <= j < n.
Proof. intros n j H. unfold upto in H. apply in_map_iff in H. destruct H as (k & <- & H). apply in_seq in H. lia. Qed.
Definition invariant {P} (x : Z -> Z -> P) (height width m : Z) (y : Z -> Z -> P) : Prop :=
  (forall a b, inside height width a b -> exists a' b', inside height width a' b' /\ y a b = x a' b') /\
  (forall a b, a <= m \/ height - m < a \/ b <= m \/ width - m < b -> y a b = x a b).
Lemma glass_invariant : forall P height width n m d (x : Z -> Z -> P), 1 <= m -> shifts_in m d ->
  exists y, glass_loop P height width n m d x = Ok y /\ invariant x height width m y.
Proof.
  intros P height width n m d x M D. unfold glass_loop.
  apply loop_inv; [|split; [intros a b H; exists a, b; split; [exact H|reflexivity]|reflexivity]].
  intros i y0 _ I0. apply loop_inv; [|exact I0]. intros j y1 HJ I1. apply loop_inv; [|exact I1]. intros k y2 HK I2. clear y0 I0 y1 I1.
  apply in_upto in HJ, HK. destruct (D i j k) as [D1 D2]. unfold glass_turn.
  set (h := height - m - j). set (w := width - m - k). set (h' := h + snd (d i j k)). set (w' := w + fst (d i j k)).
  assert (HI : inside height width h w /\ inside height width h' w') by (unfold inside, h', w', h, w; lia).
  assert (T : (0 <=? h) && (h <? height) && (0 <=? w) && (w <? width) && (0 <=? h') && (h' <? height) && (0 <=? w') && (w' <? width) = true).
  { destruct HI as [[[] []] [[] []]]. rewrite !andb_true_iff, !Z.leb_le, !Z.ltb_lt. repeat split; lia. }
  rewrite T. eexists. split; [reflexivity|]. destruct I2 as [I2 J2]. split.
  - intros a b AB. rewrite step_at. destruct ((a =? h) && (b =? w)); apply I2; [exact (proj2 HI)|exact AB].
  - intros a b AB. rewrite step_at. destruct ((a =? h) && (b =? w)) eqn:E; [|apply J2; exact AB].
    apply andb_prop in E. destruct E as [E1 E2]. apply Z.eqb_eq in E1, E2. unfold h, w in *. lia.
Qed.
Lemma params_table : forall v,
  (v = 1 \/ v = -4 -> glass_params v = Ok (7 # 10, 1, 2)) /\
  (v = 2 \/ v = -3 -> glass_params v = Ok (9 # 10, 2, 1)) /\
  (v = 3 \/ v = -2 -> glass_params v = Ok (1%Q, 2, 3)) /\
  (v = 4 \/ v = -1 -> glass_params v = Ok (11 # 10, 3, 2)) /\
  (v = 5 \/ v = 0 -> glass_params v = Ok (3 # 2, 4, 2)) /\
  (v < -4 \/ 5 < v -> glass_params v = Err IndexError).
Proof.
  intros v. repeat split; try (intros [-> | ->]; reflexivity).
  intros H. unfold glass_params. cbv zeta. destruct (Z.ltb_spec (v - 1) 0) as [L|L].
  - destruct (Z.ltb_spec (v - 1 + 5) 0); [reflexivity|lia].
  - destruct (Z.ltb_spec (v - 1) 0); [reflexivity|]. destruct (Z.leb_spec 5 (v - 1)); [reflexivity|lia].
Qed.
Lemma params_positive : forall v sigma m n, glass_params v = Ok (sigma, m, n) -> 1 <= m <= 4 /\ 1 <= n <= 3.
Proof.
  intros v sigma m n H. destruct (params_table v) as (A & B & C & D & E & F).
  destruct (Z_lt_dec v (-4)); [rewrite F in H by lia; discriminate|]. destruct (Z_lt_dec 5 v); [rewrite F in H by lia; discriminate|].
  assert (V : v = 1 \/ v = -4 \/ v = 2 \/ v = -3 \/ v = 3 \/ v = -2 \/ v = 4 \/ v = -1 \/ v = 5 \/ v = 0) by lia.
  decompose [or] V; subst v; [rewrite A in H|rewrite A in H|rewrite B in H|rewrite B in H|rewrite C in H|rewrite C in H|rewrite D in H|rewrite D in H|rewrite E in H|rewrite E in H]; auto; injection H as <- <- <-; lia.
Qed.
Lemma clip_unit : forall q, (0 <= qclip q 0 1 * 255 < 256)%Q.
Proof.
  intros q. pose proof (qclip_in q 0 1 ltac:(Lqa.lra)) as [A B].
  split; Lqa.lra.
Qed.
Lemma glass_result : forall S gaussian shifts v im (s : S), (forall n h w m s, shifts_in m (fst (shifts n h w m s))) -> -4 <= v <= 5 ->
  exists out, snd (glass_blur S gaussian shifts v im s) = Ok out /\ same_shape out im /\ forall y x c, (0 <= p_px out y x c < 256)%Q.
Proof.
  intros S G sh v im s D V. unfold glass_blur.
  assert (E : exists sigma m n, glass_params v = Ok (sigma, m, n)).
  { destruct (params_table v) as (A & B & C & E & F & _).
    assert (U : (v = 1 \/ v = -4) \/ (v = 2 \/ v = -3) \/ (v = 3 \/ v = -2) \/ (v = 4 \/ v = -1) \/ (v = 5 \/ v = 0)) by lia.
    destruct U as [U|[U|[U|[U|U]]]]; [rewrite (A U)|rewrite (B U)|rewrite (C U)|rewrite (E U)|rewrite (F U)]; eauto. }
  destruct E as (sigma & m & n & E). rewrite E. pose proof (params_positive v sigma m n E) as [M N].
  specialize (D n (p_h im - 2 * m) (p_w im - 2 * m) m s). destruct (sh n (p_h im - 2 * m) (p_w im - 2 * m) m s) as [d s1]. cbn [fst snd] in *.
  match goal with |- context [glass_loop _ _ _ _ _ _ ?x] => destruct (glass_invariant (nat -> Q) (p_h im) (p_w im) n m d x (proj1 M) D) as (y & -> & _) end.
  cbn [bind]. eexists. split; [reflexivity|]. split; [repeat split|]. intros y0 x c. cbn [p_px]. apply clip_unit.
Qed.
Lemma py_int_whole : forall q, (0 <= q)%Q -> whole_part q (inject_Z (py_int q)).
Proof.
  intros q A. destruct (ParProofs.py_int_truncation q) as [(_ & L & U)|(N & _)]; [|Lqa.lra].
  exists (py_int q). split; [reflexivity|]. split; assumption.
Qed.
Lemma glass_stages : forall S gaussian shifts v im (s : S) sigma m n, (forall n h w m s, shifts_in m (fst (shifts n h w m s))) ->
  (forall sigma f y x c, (0 <= gaussian sigma f y x c)%Q) -> glass_params v = Ok (sigma, m, n) ->
  exists d s' first z out, shifts n (p_h im - 2 * m) (p_w im - 2 * m) m s = (d, s') /\ glass_blur S gaussian shifts v im s = (s', Ok out) /\
    (forall y x c, whole_part (gaussian sigma (fun y x c => p_px im y x c / 255)%Q y x c * 255) (first y x c)) /\
    glass_loop (nat -> Q) (p_h im) (p_w im) n m d first = Ok z /\
    forall y x c, let q := gaussian sigma (fun y x c => z y x c / 255)%Q y x c in
      ((q <= 1)%Q -> (p_px out y x c == q * 255)%Q) /\ ((1 <= q)%Q -> (p_px out y x c == 255)%Q).
Proof.
  intros S G sh v im s sigma m n D NN E. unfold glass_blur. rewrite E. pose proof (params_positive v sigma m n E) as [M N].
  specialize (D n (p_h im - 2 * m) (p_w im - 2 * m) m s). destruct (sh n (p_h im - 2 * m) (p_w im - 2 * m) m s) as [d s1]. cbn [fst snd] in *.
  set (first := fun y z c => inject_Z (py_int (G sigma (fun y x c => p_px im y x c / 255)%Q y z c * 255))).
  destruct (glass_invariant (nat -> Q) (p_h im) (p_w im) n m d first (proj1 M) D) as (z & EZ & _).
  exists d, s1, first, z. eexists. split; [reflexivity|]. split; [cbv zeta; fold first; rewrite EZ; reflexivity|]. split; [|split; [exact EZ|]].
  - intros y x c. unfold first. apply py_int_whole. apply Qmult_le_0_compat; [apply NN|discriminate].
  - intros y x c. cbn [p_px]. set (q := G sigma (fun y x c => (z y x c / 255)%Q) y x c). pose proof (NN sigma (fun y x c => z y x c / 255)%Q y x c) as Q0. change (0 <= q)%Q in Q0. clearbody q.
    split; intros H.
    + assert (K : (qclip q 0 1 == q)%Q) by (apply qclip_id; assumption). rewrite K. reflexivity.
    + assert (K : (qclip q 0 1 == 1)%Q) by (unfold qclip; clear - H Q0; qminmax; Lqa.lra).
      rewrite K. reflexivity.
Qed.
Lemma loop_app : forall A B (f : A -> B -> res B) l1 l2 b, loop (l1 ++ l2) f b = match loop l1 f b with Ok y => loop l2 f y | Err e => Err e end.
Proof. intros A B f l1. induction l1 as [|a l1 IH]; intros l2 b; [reflexivity|]. cbn [app loop bind]. destruct (f a b); cbn [bind]; [apply IH|reflexivity]. Qed.
Lemma glass_passes : forall P height width n m d (x : Z -> Z -> P), 0 <= n ->
  glass_loop P height width 0 m d x = Ok x /\
  glass_loop P height width (n + 1) m d x =
    match glass_loop P height width n m d x with Ok y => glass_loop P height width 1 m (fun _ => d n) y | Err e => Err e end.
Proof.
  intros P height width n m d x N. split; [reflexivity|]. unfold glass_loop at 1 2.
  assert (U : upto (n + 1) = upto n ++ [n]).
  { unfold upto. replace (Z.to_nat (n + 1)) with (Z.to_nat n + 1)%nat by lia. rewrite seq_app, map_app. cbn [seq map Nat.add]. rewrite Z2Nat.id by lia. reflexivity. }
  rewrite U, loop_app. destruct (loop (upto n) _ x) as [y|e]; [|reflexivity]. reflexivity.
Qed.
