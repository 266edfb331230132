(** Proofs about AffModel. *)
From Verif Require Import Prelude PreludeFacts GeoModel GeoSpec GeoProofs RotProofs AffModel AffSpec.
From Coq Require Import Qround Qabs Qfield Lia Lqa.
Local Open Scope Q_scope.

Lemma kp_eq_refl p : kp_eq p p. Proof. split; reflexivity. Qed.
Lemma kp_eq_sym p q : kp_eq p q -> kp_eq q p. Proof. intros [A B]. split; symmetry; assumption. Qed.
Lemma kp_eq_trans p q r : kp_eq p q -> kp_eq q r -> kp_eq p r.
Proof. intros [A B] [C D]. split; [rewrite A; exact C|rewrite B; exact D]. Qed.

(** ** Matrices as functions on points *)

Definition linear (m : mat) (p : keypoint) : keypoint :=
  mkKp (m00 m * kx p + m01 m * ky p + m02 m) (m10 m * kx p + m11 m * ky p + m12 m).

Lemma warp_linear m p : is_affine m -> kp_eq (warp_coord m p) (linear m p).
Proof.
  intros [A [B C]]. unfold warp_coord, linear.
  assert (m20 m * kx p + m21 m * ky p + m22 m == 1) as D by (rewrite A, B, C; ring).
  destruct (qeqb (m20 m * kx p + m21 m * ky p + m22 m) 0) eqn:E.
  - apply qeqb_iff in E. rewrite D in E. lra.
  - split; cbn [kx ky]; rewrite D; field.
Qed.

Definition proper_fun (f : keypoint -> keypoint) : Prop := forall p q, kp_eq p q -> kp_eq (f p) (f q).
Definition acts (m : mat) (f : keypoint -> keypoint) : Prop := is_affine m /\ forall p, kp_eq (linear m p) (f p).

Lemma acts_warp m f : acts m f -> forall p, kp_eq (warp_coord m p) (f p).
Proof. intros [A F] p. eapply kp_eq_trans; [apply warp_linear; exact A|apply F]. Qed.

Lemma linear_proper m : proper_fun (linear m).
Proof. intros p q [A B]. unfold linear. split; cbn [kx ky]; rewrite A, B; reflexivity. Qed.

Lemma acts_mul m a f g : acts m f -> acts a g -> proper_fun g -> acts (mul m a) (fun p => g (f p)).
Proof.
  intros [[M1 [M2 M3]] F] [[A1 [A2 A3]] G] PG. split.
  - unfold is_affine, mul, matmul. cbn [m20 m21 m22]. rewrite !Qred_correct, A1, A2, A3, M1, M2, M3. repeat split; ring.
  - intros p. eapply kp_eq_trans; [|apply PG, F]. eapply kp_eq_trans; [|apply G].
    unfold mul, matmul, linear. cbn [m00 m01 m02 m10 m11 m12 kx ky]. split; cbn [kx ky]; rewrite !Qred_correct, M1, M2, M3; ring.
Qed.

Lemma acts_eye : acts eye (fun p => p).
Proof. split; [repeat split; reflexivity|]. intros p. unfold linear, eye. split; cbn; ring. Qed.

Lemma acts_ext m f g : acts m f -> (forall p, kp_eq (f p) (g p)) -> acts m g.
Proof. intros [A F] E. split; [exact A|]. intros p. eapply kp_eq_trans; [apply F|apply E]. Qed.

Lemma moved_proper dx dy : proper_fun (moved_by dx dy).
Proof. intros p q [A B]. unfold moved_by. split; cbn; rewrite ?A, ?B; reflexivity. Qed.

(** What each step of the generator does, left-out steps included. *)
Definition translates (x y : Q) : bool := qltb x tiny || qltb tiny x || qltb y tiny || qltb tiny x.
Definition scales (x y : Q) : bool := qltb x (1 - tiny) || qltb (1 + tiny) x || qltb y (1 - tiny) || qltb (1 + tiny) y.
Definition rotates (r : Q) : bool := qltb r tiny || qltb tiny r.
Definition shears (x y : Q) : bool := qltb x tiny || qltb tiny x || qltb y tiny || qltb tiny y.

Definition f_translate (x y : Q) (p : keypoint) : keypoint := if translates x y then moved_by x y p else p.
Definition f_scale (x y : Q) (p : keypoint) : keypoint := if scales x y then scaled x y p else p.
Definition f_rotate (t : trig) (r : Q) (p : keypoint) : keypoint :=
  if rotates r then mkKp (tcos t (- r) * kx p + tsin t (- r) * ky p) (- tsin t (- r) * kx p + tcos t (- r) * ky p) else p.
Definition f_shear (t : trig) (x y : Q) (p : keypoint) : keypoint :=
  if shears x y then sheared (ttanh t (- x)) (ttanh t y) p else p.

Lemma acts_translate m f x y : acts m f -> acts (gen_translate m x y) (fun p => f_translate x y (f p)).
Proof.
  intros M. unfold gen_translate, f_translate. fold (translates x y). destruct (translates x y); [|exact M].
  apply (acts_mul m _ f (moved_by x y) M); [|apply moved_proper]. split; [repeat split; reflexivity|].
  intros p. unfold linear, moved_by. split; cbn; ring.
Qed.
Lemma scaled_proper x y : proper_fun (scaled x y).
Proof. intros p q [A B]. unfold scaled. split; cbn; rewrite ?A, ?B; reflexivity. Qed.
Lemma sheared_proper x y : proper_fun (sheared x y).
Proof. intros p q [A B]. unfold sheared. split; cbn; rewrite ?A, ?B; reflexivity. Qed.
Lemma acts_scale m f x y : acts m f -> acts (gen_scale m x y) (fun p => f_scale x y (f p)).
Proof.
  intros M. unfold gen_scale, f_scale. fold (scales x y). destruct (scales x y); [|exact M].
  apply (acts_mul m _ f (scaled x y) M); [|apply scaled_proper]. split; [repeat split; reflexivity|].
  intros p. unfold linear, scaled. split; cbn; ring.
Qed.
Lemma acts_rotate t m f r : acts m f -> acts (gen_rotate t m r) (fun p => f_rotate t r (f p)).
Proof.
  intros M. unfold gen_rotate, f_rotate. fold (rotates r). destruct (rotates r); [|exact M]. cbv zeta.
  apply (acts_mul m _ f (fun p => mkKp (tcos t (- r) * kx p + tsin t (- r) * ky p) (- tsin t (- r) * kx p + tcos t (- r) * ky p)) M).
  - split; [repeat split; reflexivity|]. intros p. unfold linear. split; cbn; ring.
  - intros p q [A B]. split; cbn; rewrite ?A, ?B; reflexivity.
Qed.
Lemma acts_shear t m f x y : acts m f -> acts (gen_shear t m x y) (fun p => f_shear t x y (f p)).
Proof.
  intros M. unfold gen_shear, f_shear. fold (shears x y). destruct (shears x y); [|exact M].
  apply (acts_mul m _ f (sheared (ttanh t (- x)) (ttanh t y)) M); [|apply sheared_proper].
  split; [repeat split; reflexivity|]. intros p. unfold linear, sheared. split; cbn; ring.
Qed.

(** The linear part of all steps together. *)
Definition f_inner (t : trig) (s : sample) (p : keypoint) : keypoint :=
  let r := rad_per_degree t in
  f_shear t (shear_x_deg s * r) (shear_y_deg s * r) (f_scale (scale_x s) (scale_y s) (f_rotate t (rotate_deg s * r) p)).

(** It is linear. *)
Lemma inner_linear t s : exists a b c d, forall p, kp_eq (f_inner t s p) (mkKp (a * kx p + b * ky p) (c * kx p + d * ky p)).
Proof.
  unfold f_inner. cbv zeta. unfold f_shear, f_scale, f_rotate, sheared, scaled.
  destruct (rotates (rotate_deg s * rad_per_degree t)), (scales (scale_x s) (scale_y s)),
    (shears (shear_x_deg s * rad_per_degree t) (shear_y_deg s * rad_per_degree t)); cbn [kx ky];
  (* read off the coefficients at (1,0) and (0,1) *)
  match goal with
  | |- exists a b c d, forall p, kp_eq (@?f p) _ =>
      exists (kx (f (mkKp 1 0))), (kx (f (mkKp 0 1))), (ky (f (mkKp 1 0))), (ky (f (mkKp 0 1)))
  end; intros p; split; cbn [kx ky]; ring.
Qed.

Lemma translates_iff x y : translates x y = false <-> x == tiny /\ tiny <= y.
Proof.
  unfold translates. rewrite !orb_false_iff, !qltb_false. unfold tiny. split; [intros [[[A B] C] D]|intros [A B]]; repeat split; lra.
Qed.
Lemma translates_true x y : ~ x == tiny -> translates x y = true.
Proof. intros N. destruct (translates x y) eqn:E; [reflexivity|]. apply translates_iff in E. tauto. Qed.
Lemma rotates_iff r : rotates r = false <-> r == tiny.
Proof. unfold rotates. rewrite !orb_false_iff, !qltb_false. unfold tiny. split; [intros [A B]|intros A; split]; lra. Qed.
Lemma shears_iff x y : shears x y = false <-> x == tiny /\ y == tiny.
Proof. unfold shears. rewrite !orb_false_iff, !qltb_false. unfold tiny. split; [intros [[[A B] C] D]|intros [A B]]; repeat split; lra. Qed.
Lemma scales_iff x y : scales x y = false <-> Qabs (x - 1) <= tiny /\ Qabs (y - 1) <= tiny.
Proof.
  unfold scales. rewrite !orb_false_iff, !qltb_false, !Qabs_Qle_condition. unfold tiny.
  split; [intros [[[A B] C] D]|intros [[A B] [C D]]]; repeat split; lra.
Qed.

Lemma half_not_tiny z : ~ inject_Z z / 2 == tiny.
Proof.
  intros E. assert (inject_Z (z * 5000) == inject_Z 1) as F.
  { rewrite inject_Z_mult. assert (inject_Z z == 2 * tiny) as G by (rewrite <- E; field). rewrite G. reflexivity. }
  unfold Qeq in F. cbn in F. lia.
Qed.
Lemma neg_half_not_tiny z : ~ - inject_Z z / 2 == tiny.
Proof. rewrite <- inject_Z_opp. apply half_not_tiny. Qed.

Definition f_outer (t : trig) (s : sample) (arr image : shape2) : keypoint -> keypoint :=
  f_translate (fst (translate_px s arr image)) (snd (translate_px s arr image)).

(** to_matrix without fit_output, for the two shifts in use. *)
Definition half_or_zero (v : Q) : Prop := v == 1 # 2 \/ v == 0.
Lemma to_matrix_acts t s arr image sh : nonzero image -> half_or_zero sh ->
  acts (fst (to_matrix t s arr image false (sh, sh)))
    (fun p => moved_by (- sh) (- sh) (about_centre arr (fun q => f_outer t s arr image (f_inner t s q)) (moved_by sh sh p))) /\
  snd (to_matrix t s arr image false (sh, sh)) = arr.
Proof.
  intros [I1 I2] HZ. unfold to_matrix.
  destruct (Z.eqb_spec (fst image) 0) as [E|_]; [contradiction|]. destruct (Z.eqb_spec (snd image) 0) as [E|_]; [contradiction|].
  cbn [orb]. unfold f_outer. destruct (translate_px s arr image) as [tx ty] eqn:T. cbv zeta. cbn [fst snd]. split; [|reflexivity].
  unfold centerize, invert_centerize. destruct arr as [h w].
  eapply acts_ext.
  { repeat first [apply acts_translate | apply acts_shear | apply acts_scale | apply acts_rotate | apply acts_eye]. }
  intros p. cbv beta. unfold about_centre. cbn [fst snd].
  assert (translates (- inject_Z w / 2) (- inject_Z h / 2) = true) as T1 by apply translates_true, neg_half_not_tiny.
  assert (translates (inject_Z w / 2) (inject_Z h / 2) = true) as T2 by apply translates_true, half_not_tiny.
  assert (translates sh sh = true) as T3 by (apply translates_true; unfold tiny; destruct HZ; lra).
  assert (translates (- sh) (- sh) = true) as T4 by (apply translates_true; unfold tiny; destruct HZ; lra).
  unfold f_translate at 1 2 4 5. rewrite T1, T2, T3, T4. fold (f_inner t s).
  change (f_shear t (shear_x_deg s * rad_per_degree t) (shear_y_deg s * rad_per_degree t)
            (f_scale (scale_x s) (scale_y s) (f_rotate t (rotate_deg s * rad_per_degree t) (moved_by sh sh (moved_by (- inject_Z w / 2) (- inject_Z h / 2) p)))))
    with (f_inner t s (moved_by sh sh (moved_by (- inject_Z w / 2) (- inject_Z h / 2) p))).
  assert (kp_eq (moved_by sh sh (moved_by (- inject_Z w / 2) (- inject_Z h / 2) p))
                (moved_by (- (inject_Z w / 2)) (- (inject_Z h / 2)) (moved_by sh sh p))) as C.
  { unfold moved_by. split; cbn [kx ky]; field. }
  destruct (inner_linear t s) as [a [b [c [d L]]]].
  assert (kp_eq (f_inner t s (moved_by sh sh (moved_by (- inject_Z w / 2) (- inject_Z h / 2) p)))
                (f_inner t s (moved_by (- (inject_Z w / 2)) (- (inject_Z h / 2)) (moved_by sh sh p)))) as D.
  { eapply kp_eq_trans; [apply L|]. eapply kp_eq_trans; [|apply kp_eq_sym, L]. destruct C as [C1 C2].
    split; cbn [kx ky]; rewrite C1, C2; reflexivity. }
  revert D. generalize (f_inner t s (moved_by sh sh (moved_by (- inject_Z w / 2) (- inject_Z h / 2) p))).
  generalize (f_inner t s (moved_by (- (inject_Z w / 2)) (- (inject_Z h / 2)) (moved_by sh sh p))).
  intros u v [D1 D2]. unfold f_translate, moved_by. destruct (translates tx ty); split; cbn [kx ky]; rewrite ?D1, ?D2; ring.
Qed.

(** ** What is intended *)

Lemma asked_translate s arr image : nonzero image ->
  fst (translate_px s arr image) == fst (asked_shift s arr image) /\ snd (translate_px s arr image) == snd (asked_shift s arr image).
Proof.
  intros [N1 N2]. unfold translate_px, asked_shift. destruct (mode_of s); cbn [fst snd]; split; try reflexivity.
  - field. intros E. apply N2. change 0 with (inject_Z 0) in E. apply (proj1 (inject_Z_injective _ _)) in E. exact E.
  - field. intros E. apply N1. change 0 with (inject_Z 0) in E. apply (proj1 (inject_Z_injective _ _)) in E. exact E.
Qed.

Lemma rotate_intended t r p : sane t -> ~ r == tiny -> kp_eq (f_rotate t r p) (rotated t r p).
Proof.
  intros [_ [PAR _]] N. unfold f_rotate, rotated. destruct (rotates r) eqn:E; [|apply rotates_iff in E; contradiction].
  destruct (PAR r) as [C [S _]]. split; cbn [kx ky]; rewrite C, S; ring.
Qed.
Lemma scale_intended sx sy p : (sx == 1 /\ sy == 1) \/ ~ (Qabs (sx - 1) <= 1 # 10000 /\ Qabs (sy - 1) <= 1 # 10000) ->
  kp_eq (f_scale sx sy p) (scaled sx sy p).
Proof.
  intros H. unfold f_scale, scaled. destruct (scales sx sy) eqn:E; [apply kp_eq_refl|]. apply scales_iff in E.
  destruct H as [[A B]|N]; [|contradiction]. split; cbn [kx ky]; rewrite ?A, ?B; ring.
Qed.
Lemma shear_intended t x y p : ~ (x == tiny /\ y == tiny) -> kp_eq (f_shear t x y p) (sheared (ttanh t (- x)) (ttanh t y) p).
Proof.
  intros N. unfold f_shear. destruct (shears x y) eqn:E; [apply kp_eq_refl|]. apply shears_iff in E. contradiction.
Qed.
Lemma translate_intended x y x' y' p : x == x' -> y == y' -> ~ (x' == tiny /\ tiny <= y') -> kp_eq (f_translate x y p) (moved_by x' y' p).
Proof.
  intros A B N. unfold f_translate. destruct (translates x y) eqn:E.
  - unfold moved_by. split; cbn [kx ky]; rewrite ?A, ?B; reflexivity.
  - apply translates_iff in E. exfalso. apply N. rewrite <- A, <- B. exact E.
Qed.

Lemma intended_acts t s arr image p : sane t -> nonzero image -> carried_out t s arr image ->
  kp_eq (about_centre arr (fun q => f_outer t s arr image (f_inner t s q)) p) (intended t s arr image p).
Proof.
  intros SN NZ [SC [RO [SH TR]]]. unfold about_centre, intended. cbv zeta. unfold about_centre.
  set (cx := inject_Z (snd arr) / 2). set (cy := inject_Z (fst arr) / 2). set (q := moved_by (- cx) (- cy) p).
  assert (kp_eq (f_inner t s q)
    (sheared (ttanh t (- (shear_x_deg s * rad_per_degree t))) (ttanh t (shear_y_deg s * rad_per_degree t))
       (scaled (scale_x s) (scale_y s) (rotated t (rotate_deg s * rad_per_degree t) q)))) as I.
  { unfold f_inner. cbv zeta. eapply kp_eq_trans; [apply shear_intended; exact SH|]. apply sheared_proper.
    eapply kp_eq_trans; [apply scale_intended; exact SC|]. apply scaled_proper. apply rotate_intended; assumption. }
  revert I. generalize (f_inner t s q). intros u I.
  destruct (asked_translate s arr image NZ) as [T1 T2]. unfold f_outer.
  destruct (translate_intended _ _ _ _ u T1 T2 TR) as [O1 O2]. destruct I as [I1 I2].
  unfold moved_by in *. cbn [kx ky] in *. split; cbn [kx ky]; rewrite ?O1, ?O2, ?I1, ?I2; ring.
Qed.

Lemma moved_cancel sh p : kp_eq (moved_by sh sh (moved_by (- sh) (- sh) p)) p.
Proof. unfold moved_by. split; cbn [kx ky]; ring. Qed.
Lemma moved_zero p : kp_eq (moved_by 0 0 p) p.
Proof. unfold moved_by. split; cbn [kx ky]; ring. Qed.
Lemma outer_proper t s arr image : proper_fun (f_outer t s arr image).
Proof. intros p q E. unfold f_outer, f_translate. destruct (translates _ _); [apply moved_proper|]; exact E. Qed.
Lemma inner_proper t s : proper_fun (f_inner t s).
Proof.
  intros p q [A B]. destruct (inner_linear t s) as [a [b [c [d L]]]]. eapply kp_eq_trans; [apply L|]. eapply kp_eq_trans; [|apply kp_eq_sym, L].
  split; cbn [kx ky]; rewrite A, B; reflexivity.
Qed.
Lemma centre_proper s f : proper_fun f -> proper_fun (about_centre s f).
Proof. intros P p q E. unfold about_centre. apply moved_proper, P, moved_proper, E. Qed.

Definition plain (t : trig) (s : sample) (arr image : shape2) : keypoint -> keypoint :=
  about_centre arr (fun q => f_outer t s arr image (f_inner t s q)).
Lemma plain_proper t s arr image : proper_fun (plain t s arr image).
Proof. apply centre_proper. intros p q E. apply outer_proper, inner_proper, E. Qed.

Lemma image_acts t s arr image : nonzero image ->
  acts (fst (image_matrix t s arr image false)) (fun p => moved_by (- (1 # 2)) (- (1 # 2)) (plain t s arr image (moved_by (1 # 2) (1 # 2) p))) /\
  snd (image_matrix t s arr image false) = arr.
Proof. intros N. apply (to_matrix_acts t s arr image (1 # 2) N). left. reflexivity. Qed.
Lemma cba_acts t s arr : nonzero arr ->
  acts (fst (cba_matrix t s arr false)) (plain t s arr arr) /\ snd (cba_matrix t s arr false) = arr.
Proof.
  intros N. destruct (to_matrix_acts t s arr arr 0 N (or_intror (Qeq_refl 0))) as [A S]. split; [|exact S].
  eapply acts_ext; [exact A|]. intros p. eapply kp_eq_trans; [|apply plain_proper, (moved_zero p)].
  unfold plain, moved_by. split; cbn [kx ky]; ring.
Qed.

Lemma image_coordinates t s arr image p : sane t -> nonzero image -> carried_out t s arr image ->
  kp_eq (moved_by (1 # 2) (1 # 2) (warp_coord (fst (image_matrix t s arr image false)) p)) (intended t s arr image (moved_by (1 # 2) (1 # 2) p)).
Proof.
  intros SN N C. destruct (image_acts t s arr image N) as [A _].
  eapply kp_eq_trans; [apply moved_proper, (acts_warp _ _ A)|]. eapply kp_eq_trans; [apply moved_cancel|]. apply intended_acts; assumption.
Qed.
Lemma cba_coordinates t s arr p : sane t -> nonzero arr -> carried_out t s arr arr ->
  kp_eq (warp_coord (fst (cba_matrix t s arr false)) p) (intended t s arr arr p).
Proof.
  intros SN N C. destruct (cba_acts t s arr N) as [A _]. eapply kp_eq_trans; [apply (acts_warp _ _ A)|]. apply intended_acts; assumption.
Qed.

(** Images and coordinates are moved together. *)
Lemma aligned t s shape p : nonzero shape ->
  kp_eq (warp_coord (fst (cba_matrix t s shape false)) (moved_by (1 # 2) (1 # 2) p))
        (moved_by (1 # 2) (1 # 2) (warp_coord (fst (image_matrix t s shape shape false)) p)).
Proof.
  intros N. destruct (image_acts t s shape shape N) as [A _]. destruct (cba_acts t s shape N) as [B _].
  eapply kp_eq_trans; [apply (acts_warp _ _ B)|]. apply kp_eq_sym. eapply kp_eq_trans; [apply moved_proper, (acts_warp _ _ A)|]. apply moved_cancel.
Qed.

(** ** Fitting the output *)

(** [lo] and [hi] are the extreme values of [f] on the pixel grid. *)
Definition extremes (s : shape2) (f : keypoint -> Q) (lo hi : Q) : Prop :=
  (forall p, on_grid s p -> lo <= f p /\ f p <= hi) /\
  (exists p, on_grid s p /\ f p == lo) /\ (exists p, on_grid s p /\ f p == hi).

Lemma corner_bounds a b c w1 h1 x y : 0 <= x -> x <= w1 -> 0 <= y -> y <= h1 ->
  let f x y := a * x + b * y + c in
  (f 0 0 <= f x y \/ f 0 h1 <= f x y \/ f w1 h1 <= f x y \/ f w1 0 <= f x y) /\
  (f x y <= f 0 0 \/ f x y <= f 0 h1 \/ f x y <= f w1 h1 \/ f x y <= f w1 0).
Proof.
  intros X0 X1 Y0 Y1. cbv zeta.
  assert (forall k u v, u <= v -> 0 <= k -> k * u <= k * v) as P.
  { intros k u v U K. rewrite !(Qmult_comm k). apply Qmult_le_compat_r; assumption. }
  assert (forall k u v, u <= v -> k <= 0 -> k * v <= k * u) as N.
  { intros k u v U K. assert (- k * u <= - k * v) by (apply P; [exact U|lra]). lra. }
  destruct (Qlt_le_dec a 0) as [A|A], (Qlt_le_dec b 0) as [B|B].
  - pose proof (N a 0 x X0 ltac:(lra)). pose proof (N a x w1 X1 ltac:(lra)). pose proof (N b 0 y Y0 ltac:(lra)). pose proof (N b y h1 Y1 ltac:(lra)).
    split; [right; right; left; lra|left; lra].
  - pose proof (N a 0 x X0 ltac:(lra)). pose proof (N a x w1 X1 ltac:(lra)). pose proof (P b 0 y Y0 ltac:(lra)). pose proof (P b y h1 Y1 ltac:(lra)).
    split; [right; right; right; lra|right; left; lra].
  - pose proof (P a 0 x X0 ltac:(lra)). pose proof (P a x w1 X1 ltac:(lra)). pose proof (N b 0 y Y0 ltac:(lra)). pose proof (N b y h1 Y1 ltac:(lra)).
    split; [right; left; lra|right; right; right; lra].
  - pose proof (P a 0 x X0 ltac:(lra)). pose proof (P a x w1 X1 ltac:(lra)). pose proof (P b 0 y Y0 ltac:(lra)). pose proof (P b y h1 Y1 ltac:(lra)).
    split; [left; lra|right; right; left; lra].
Qed.

Lemma corners_extremes s (f : keypoint -> Q) a b c : has_pixels s ->
  (forall p, f p == a * kx p + b * ky p + c) ->
  let w1 := inject_Z (snd s - 1) in let h1 := inject_Z (fst s - 1) in
  let vs := [f (mkKp 0 0); f (mkKp 0 h1); f (mkKp w1 h1); f (mkKp w1 0)] in
  extremes s f (qmin_list vs) (qmax_list vs).
Proof.
  intros [PH PW] F. cbv zeta. set (w1 := inject_Z (snd s - 1)). set (h1 := inject_Z (fst s - 1)).
  assert (0 <= w1) as W by (unfold w1; change 0 with (inject_Z 0); rewrite <- Zle_Qle; lia).
  assert (0 <= h1) as H by (unfold h1; change 0 with (inject_Z 0); rewrite <- Zle_Qle; lia).
  destruct (qmin_list4 (f (mkKp 0 0)) (f (mkKp 0 h1)) (f (mkKp w1 h1)) (f (mkKp w1 0))) as [L1 [L2 [L3 [L4 LE]]]].
  destruct (qmax_list4 (f (mkKp 0 0)) (f (mkKp 0 h1)) (f (mkKp w1 h1)) (f (mkKp w1 0))) as [U1 [U2 [U3 [U4 UE]]]].
  cbv zeta in *.
  set (lo := qmin_list _) in *. set (hi := qmax_list _) in *.
  assert (on_grid s (mkKp 0 0)) as G1 by (unfold on_grid; cbn [kx ky]; fold w1 h1; lra).
  assert (on_grid s (mkKp 0 h1)) as G2 by (unfold on_grid; cbn [kx ky]; fold w1 h1; lra).
  assert (on_grid s (mkKp w1 h1)) as G3 by (unfold on_grid; cbn [kx ky]; fold w1 h1; lra).
  assert (on_grid s (mkKp w1 0)) as G4 by (unfold on_grid; cbn [kx ky]; fold w1 h1; lra).
  split; [|split].
  - intros p [X0 [X1 [Y0 Y1]]]. fold w1 in X1. fold h1 in Y1.
    destruct (corner_bounds a b c w1 h1 (kx p) (ky p) X0 X1 Y0 Y1) as [LB UB].
    pose proof (F p). pose proof (F (mkKp 0 0)). pose proof (F (mkKp 0 h1)). pose proof (F (mkKp w1 h1)). pose proof (F (mkKp w1 0)).
    cbn [kx ky] in *. split; [destruct LB as [?|[?|[?|?]]]|destruct UB as [?|[?|[?|?]]]]; lra.
  - destruct LE as [-> | [-> | [-> | ->]]]; eexists; (split; [|reflexivity]); assumption.
  - destruct UE as [-> | [-> | [-> | ->]]]; eexists; (split; [|reflexivity]); assumption.
Qed.

Lemma output_shape_ok m s : is_affine m -> has_pixels s ->
  exists minc minr maxc maxr,
    output_shape m s = (gen_translate m (- minc) (- minr), (Qceiling (maxr - minr + 1), Qceiling (maxc - minc + 1))) /\
    extremes s (fun p => kx (warp_coord m p)) minc maxc /\ extremes s (fun p => ky (warp_coord m p)) minr maxr.
Proof.
  intros A P. destruct s as [h w]. pose proof P as [PH PW]. cbn [fst snd] in *. unfold output_shape.
  destruct (Z.eqb_spec h 0) as [E|_]; [lia|]. destruct (Z.eqb_spec w 0) as [E|_]; [lia|]. cbn [orb map]. cbv zeta.
  do 4 eexists. split; [reflexivity|]. split.
  - apply (corners_extremes (h, w) (fun p => kx (warp_coord m p)) (m00 m) (m01 m) (m02 m) P). intros p. apply (warp_linear m p A).
  - apply (corners_extremes (h, w) (fun p => ky (warp_coord m p)) (m10 m) (m11 m) (m12 m) P). intros p. apply (warp_linear m p A).
Qed.

Lemma extremes_shift s f g lo hi lo' hi' d : (forall p, g p == f p + d) -> extremes s f lo hi -> extremes s g lo' hi' ->
  lo' == lo + d /\ hi' == hi + d.
Proof.
  intros E [B [[p [P1 P2]] [q [Q1 Q2]]]] [B' [[p' [P1' P2']] [q' [Q1' Q2']]]].
  pose proof (B p' P1'). pose proof (B q' Q1'). pose proof (B' p P1). pose proof (B' q Q1).
  pose proof (E p). pose proof (E q). pose proof (E p'). pose proof (E q'). split; lra.
Qed.

Lemma gen_translate_warp m x y p : is_affine m -> ~ x == tiny ->
  is_affine (gen_translate m x y) /\ kp_eq (warp_coord (gen_translate m x y) p) (moved_by x y (warp_coord m p)).
Proof.
  intros A N. assert (acts m (warp_coord m)) as M by (split; [exact A|]; intros q; apply kp_eq_sym, warp_linear, A).
  pose proof (acts_translate m _ x y M) as T. split; [apply T|]. eapply kp_eq_trans; [apply (acts_warp _ _ T)|].
  unfold f_translate. rewrite (translates_true x y N). apply kp_eq_refl.
Qed.

(** The fitted matrix keeps all pixels on the canvas, which is no larger than
    needed. *)
Lemma fitted m s m' out : is_affine m -> has_pixels s -> fit_carried_out m s -> output_shape m s = (m', out) ->
  is_affine m' /\ has_pixels out /\
  (forall p, on_grid s p -> on_grid out (warp_coord m' p)) /\
  (exists p, on_grid s p /\ kx (warp_coord m' p) == 0) /\ (exists p, on_grid s p /\ ky (warp_coord m' p) == 0) /\
  (exists p, on_grid s p /\ inject_Z (snd out - 1) < kx (warp_coord m' p) + 1) /\
  (exists p, on_grid s p /\ inject_Z (fst out - 1) < ky (warp_coord m' p) + 1).
Proof.
  intros A P C O. destruct (output_shape_ok m s A P) as [minc [minr [maxc [maxr [E [EC ER]]]]]].
  rewrite E in O. injection O as <- <-. cbn [fst snd].
  assert (~ - minc == tiny) as N.
  { intros T. apply (C minc). - destruct EC as [B [L _]]. split; [exact L|]. intros p G. apply (B p G). - unfold tiny in T. lra. }
  assert (forall p, kp_eq (warp_coord (gen_translate m (- minc) (- minr)) p) (moved_by (- minc) (- minr) (warp_coord m p))) as W
    by (intros p; apply gen_translate_warp; assumption).
  split; [apply (gen_translate_warp m _ _ (mkKp 0 0) A N)|].
  destruct (Qceiling_spec (maxc - minc + 1)) as [C1 C2]. destruct (Qceiling_spec (maxr - minr + 1)) as [R1 R2].
  set (W' := Qceiling (maxc - minc + 1)) in *. set (H' := Qceiling (maxr - minr + 1)) in *.
  destruct EC as [BC [[pc [GPC LC]] [qc [GQC UC]]]]. destruct ER as [BR [[pr [GPR LR]] [qr [GQR UR]]]].
  assert (inject_Z (W' - 1) == inject_Z W' - 1) as EW by (unfold Z.sub; rewrite inject_Z_plus; reflexivity).
  assert (inject_Z (H' - 1) == inject_Z H' - 1) as EH by (unfold Z.sub; rewrite inject_Z_plus; reflexivity).
  split; [|split; [|split; [|split; [|split]]]].
  - pose proof (BC pc GPC). pose proof (BR pr GPR). split; cbn [fst snd]; rewrite Zlt_Qlt; change (inject_Z 0) with 0; lra.
  - intros p G. destruct (W p) as [WX WY]. unfold moved_by in WX, WY. cbn [kx ky] in WX, WY.
    pose proof (BC p G). pose proof (BR p G). unfold on_grid. cbn [fst snd]. repeat split; lra.
  - exists pc. split; [exact GPC|]. destruct (W pc) as [WX _]. unfold moved_by in WX. cbn [kx] in WX. lra.
  - exists pr. split; [exact GPR|]. destruct (W pr) as [_ WY]. unfold moved_by in WY. cbn [ky] in WY. lra.
  - exists qc. split; [exact GQC|]. destruct (W qc) as [WX _]. unfold moved_by in WX. cbn [kx] in WX. lra.
  - exists qr. split; [exact GQR|]. destruct (W qr) as [_ WY]. unfold moved_by in WY. cbn [ky] in WY. lra.
Qed.

(** Two matrices that differ only by a translation are fitted to one and the
    same canvas, and become the same. *)
Lemma fitted_same m n s dx dy : is_affine m -> is_affine n -> has_pixels s ->
  (forall p, kp_eq (warp_coord n p) (moved_by dx dy (warp_coord m p))) ->
  snd (output_shape n s) = snd (output_shape m s) /\
  (fit_carried_out m s -> fit_carried_out n s -> forall p, kp_eq (warp_coord (fst (output_shape n s)) p) (warp_coord (fst (output_shape m s)) p)).
Proof.
  intros A B P D.
  destruct (output_shape_ok m s A P) as [minc [minr [maxc [maxr [E [EC ER]]]]]].
  destruct (output_shape_ok n s B P) as [minc' [minr' [maxc' [maxr' [E' [EC' ER']]]]]].
  destruct (extremes_shift s _ _ _ _ _ _ dx (fun p => proj1 (D p)) EC EC') as [X1 X2].
  destruct (extremes_shift s _ _ _ _ _ _ dy (fun p => proj2 (D p)) ER ER') as [Y1 Y2].
  rewrite E, E'. cbn [fst snd]. split.
  - f_equal; apply Qceiling_comp; lra.
  - intros CM CN p.
    assert (~ - minc == tiny) as N1.
    { intros T. apply (CM minc). - destruct EC as [Bd [L _]]. split; [exact L|]. intros q G. apply (Bd q G). - unfold tiny in T. lra. }
    assert (~ - minc' == tiny) as N2.
    { intros T. apply (CN minc'). - destruct EC' as [Bd [L _]]. split; [exact L|]. intros q G. apply (Bd q G). - unfold tiny in T. lra. }
    eapply kp_eq_trans; [apply (gen_translate_warp n _ _ p B N2)|]. apply kp_eq_sym. eapply kp_eq_trans; [apply (gen_translate_warp m _ _ p A N1)|].
    destruct (D p) as [D1 D2]. unfold moved_by in *. cbn [kx ky] in *. split; cbn [kx ky]; lra.
Qed.

Lemma to_matrix_fit t s arr image sh : nonzero image ->
  to_matrix t s arr image true sh = output_shape (fst (to_matrix t s arr image false sh)) arr.
Proof.
  intros [I1 I2]. unfold to_matrix.
  destruct (Z.eqb_spec (fst image) 0) as [E|_]; [contradiction|]. destruct (Z.eqb_spec (snd image) 0) as [E|_]; [contradiction|].
  cbn [orb]. destruct (translate_px s arr image). reflexivity.
Qed.

(** ** All matrices of one sample share their linear part *)

Definition lin4 (f : keypoint -> keypoint) (a b c d : Q) : Prop :=
  forall p, kp_eq (f p) (mkKp (a * kx p + b * ky p) (c * kx p + d * ky p)).
Definition invertible (f : keypoint -> keypoint) : Prop := exists a b c d, lin4 f a b c d /\ ~ a * d - b * c == 0.

Lemma invertible_compose f g : invertible f -> invertible g -> proper_fun g -> invertible (fun p => g (f p)).
Proof.
  intros [a [b [c [d [F DF]]]]] [a' [b' [c' [d' [G DG]]]]] PG.
  exists (a' * a + b' * c), (a' * b + b' * d), (c' * a + d' * c), (c' * b + d' * d). split.
  - intros p. eapply kp_eq_trans; [apply PG, F|]. eapply kp_eq_trans; [apply G|]. split; cbn [kx ky]; ring.
  - intros E. assert ((a' * d' - b' * c') * (a * d - b * c) == 0) as Z by (rewrite <- E; ring).
    apply Qmult_integral in Z. tauto.
Qed.
Lemma invertible_id : invertible (fun p => p).
Proof. exists 1, 0, 0, 1. split; [intros p; split; cbn [kx ky]; ring|]. intros E. revert E. vm_compute. discriminate. Qed.

Lemma inner_invertible t s : sane t -> 0 < scale_x s -> 0 < scale_y s -> invertible (f_inner t s).
Proof.
  intros [_ [_ [PY [_ TH]]]] SX SY. unfold f_inner. cbv zeta.
  assert (invertible (f_rotate t (rotate_deg s * rad_per_degree t))) as R.
  { unfold f_rotate. destruct (rotates _); [|apply invertible_id].
    set (x := - (rotate_deg s * rad_per_degree t)). exists (tcos t x), (tsin t x), (- tsin t x), (tcos t x). split; [intros p; split; cbn [kx ky]; ring|].
    intros E. pose proof (PY x). assert (tcos t x * tcos t x - tsin t x * - tsin t x == tcos t x * tcos t x + tsin t x * tsin t x) by ring. lra. }
  assert (invertible (f_scale (scale_x s) (scale_y s))) as S.
  { unfold f_scale. destruct (scales _ _); [|apply invertible_id]. exists (scale_x s), 0, 0, (scale_y s).
    split; [intros p; unfold scaled; split; cbn [kx ky]; ring|]. intros E.
    assert (scale_x s * scale_y s == 0) as Z by (rewrite <- E; ring). apply Qmult_integral in Z. lra. }
  assert (invertible (f_shear t (shear_x_deg s * rad_per_degree t) (shear_y_deg s * rad_per_degree t))) as H.
  { unfold f_shear. destruct (shears _ _); [|apply invertible_id].
    destruct (TH (- (shear_x_deg s * rad_per_degree t))) as [A1 A2]. destruct (TH (shear_y_deg s * rad_per_degree t)) as [B1 B2].
    set (a := ttanh t (- (shear_x_deg s * rad_per_degree t))) in *. set (b := ttanh t (shear_y_deg s * rad_per_degree t)) in *.
    exists 1, a, b, 1. split; [intros p; unfold sheared; split; cbn [kx ky]; ring|]. intros E. nra. }
  assert (proper_fun (f_shear t (shear_x_deg s * rad_per_degree t) (shear_y_deg s * rad_per_degree t))) as PH
    by (intros p q E; unfold f_shear; destruct (shears _ _); [apply sheared_proper|]; exact E).
  assert (proper_fun (f_scale (scale_x s) (scale_y s))) as PS
    by (intros p q E; unfold f_scale; destruct (scales _ _); [apply scaled_proper|]; exact E).
  exact (invertible_compose _ _ (invertible_compose _ _ R S PS) H PH).
Qed.

(** The matrix is the inner part followed by some translation. *)
Definition inner_then_shift (t : trig) (s : sample) (f : keypoint -> keypoint) : Prop :=
  exists dx dy, forall p, kp_eq (f p) (moved_by dx dy (f_inner t s p)).

Lemma plain_inner t s arr image : inner_then_shift t s (plain t s arr image).
Proof.
  destruct (inner_linear t s) as [a [b [c [d L]]]].
  set (cx := inject_Z (snd arr) / 2). set (cy := inject_Z (fst arr) / 2).
  assert (exists ex ey, forall p, kp_eq (f_outer t s arr image p) (moved_by ex ey p)) as [ex [ey O]].
  { unfold f_outer, f_translate. destruct (translates _ _); [eexists _, _; intros p; apply kp_eq_refl|].
    exists 0, 0. intros p. apply kp_eq_sym, moved_zero. }
  exists (cx + ex - a * cx - b * cy), (cy + ey - c * cx - d * cy). intros p.
  unfold plain, about_centre. fold cx cy.
  destruct (O (f_inner t s (moved_by (- cx) (- cy) p))) as [O1 O2]. destruct (L (moved_by (- cx) (- cy) p)) as [L1 L2]. destruct (L p) as [P1 P2].
  unfold moved_by in *. cbn [kx ky] in *. split; cbn [kx ky]; rewrite ?O1, ?O2, ?L1, ?L2, ?P1, ?P2; ring.
Qed.

Lemma image_inner t s arr image : nonzero image -> inner_then_shift t s (warp_coord (fst (image_matrix t s arr image false))).
Proof.
  intros N. destruct (image_acts t s arr image N) as [A _]. destruct (plain_inner t s arr image) as [dx [dy P]].
  destruct (inner_linear t s) as [a [b [c [d L]]]].
  exists (dx - (1 # 2) + (a + b) / 2), (dy - (1 # 2) + (c + d) / 2). intros p. eapply kp_eq_trans; [apply (acts_warp _ _ A)|].
  destruct (P (moved_by (1 # 2) (1 # 2) p)) as [P1 P2]. destruct (L (moved_by (1 # 2) (1 # 2) p)) as [L1 L2]. destruct (L p) as [Q1 Q2].
  unfold moved_by in *. cbn [kx ky] in *. split; cbn [kx ky]; rewrite ?P1, ?P2, ?L1, ?L2, ?Q1, ?Q2; field.
Qed.
Lemma cba_inner t s arr : nonzero arr -> inner_then_shift t s (warp_coord (fst (cba_matrix t s arr false))).
Proof.
  intros N. destruct (cba_acts t s arr N) as [A _]. destruct (plain_inner t s arr arr) as [dx [dy P]]. exists dx, dy. intros p.
  eapply kp_eq_trans; [apply (acts_warp _ _ A)|apply P].
Qed.
Lemma inner_diff t s f g : inner_then_shift t s f -> inner_then_shift t s g ->
  exists dx dy, forall p, kp_eq (g p) (moved_by dx dy (f p)).
Proof.
  intros [fx [fy F]] [gx [gy G]]. exists (gx - fx), (gy - fy). intros p. destruct (F p) as [F1 F2]. destruct (G p) as [G1 G2].
  unfold moved_by in *. cbn [kx ky] in *. split; cbn [kx ky]; rewrite ?F1, ?F2, ?G1, ?G2; ring.
Qed.
Lemma translate_inner t s m x y : is_affine m -> inner_then_shift t s (warp_coord m) ->
  is_affine (gen_translate m x y) /\ inner_then_shift t s (warp_coord (gen_translate m x y)).
Proof.
  intros A [dx [dy M]]. assert (acts m (warp_coord m)) as W by (split; [exact A|]; intros q; apply kp_eq_sym, warp_linear, A).
  pose proof (acts_translate m _ x y W) as T. split; [apply T|].
  unfold f_translate in T. destruct (translates x y).
  - exists (dx + x), (dy + y). intros p. eapply kp_eq_trans; [apply (acts_warp _ _ T)|]. destruct (M p) as [M1 M2].
    unfold moved_by in *. cbn [kx ky] in *. split; cbn [kx ky]; rewrite ?M1, ?M2; ring.
  - exists dx, dy. intros p. eapply kp_eq_trans; [apply (acts_warp _ _ T)|]. apply M.
Qed.

Lemma has_pixels_nonzero s : has_pixels s -> nonzero s.
Proof. unfold has_pixels, nonzero. lia. Qed.

Lemma cba_matrix_fit t s shape : nonzero shape -> cba_matrix t s shape true = output_shape (fst (cba_matrix t s shape false)) shape.
Proof. intros N. apply to_matrix_fit. exact N. Qed.
Lemma image_matrix_fit t s arr image : nonzero image -> image_matrix t s arr image true = output_shape (fst (image_matrix t s arr image false)) arr.
Proof. intros N. apply to_matrix_fit. exact N. Qed.

(** image matrix with fit_output: affine, and inner then shift *)
Lemma image_matrix_inner t s arr image fit : has_pixels arr -> nonzero image ->
  is_affine (fst (image_matrix t s arr image fit)) /\ inner_then_shift t s (warp_coord (fst (image_matrix t s arr image fit))).
Proof.
  intros P N. pose proof (proj1 (image_acts t s arr image N)) as A. pose proof (image_inner t s arr image N) as I.
  destruct fit; [|split; [apply A|exact I]]. rewrite image_matrix_fit by exact N.
  destruct (output_shape_ok _ arr (proj1 A) P) as [minc [minr [maxc [maxr [E _]]]]]. rewrite E. cbn [fst].
  apply translate_inner; [apply A|exact I].
Qed.


(** One canvas for the image and everything on it. *)
Lemma one_canvas t s shape : has_pixels shape ->
  snd (cba_matrix t s shape true) = snd (image_matrix t s shape shape true) /\
  (fit_carried_out (fst (image_matrix t s shape shape false)) shape -> fit_carried_out (fst (cba_matrix t s shape false)) shape ->
   forall p, kp_eq (warp_coord (fst (cba_matrix t s shape true)) p) (warp_coord (fst (image_matrix t s shape shape true)) p)).
Proof.
  intros P. pose proof (has_pixels_nonzero _ P) as N. rewrite cba_matrix_fit, image_matrix_fit by exact N.
  destruct (inner_diff t s _ _ (image_inner t s shape shape N) (cba_inner t s shape N)) as [dx [dy D]].
  destruct (fitted_same _ _ shape dx dy (proj1 (proj1 (image_acts t s shape shape N))) (proj1 (proj1 (cba_acts t s shape N))) P D) as [S C].
  split; [exact S|]. intros FI FC. apply C; assumption.
Qed.

Lemma map_canvas t s arr image : has_pixels arr -> has_pixels image ->
  snd (output_shape (fst (image_matrix t s arr image true)) image) = snd (image_matrix t s image image true).
Proof.
  intros PA PI. pose proof (has_pixels_nonzero _ PI) as N. rewrite (image_matrix_fit t s image image N).
  destruct (image_matrix_inner t s arr image true PA N) as [A I].
  destruct (inner_diff t s _ _ (image_inner t s image image N) I) as [dx [dy D]].
  apply (fitted_same _ _ image dx dy (proj1 (proj1 (image_acts t s image image N))) A PI D).
Qed.

(** ** Coordinates *)

Lemma abs_sum_bound a x b y c : Qabs (a * x + b * y + c) <= (Qabs a + Qabs b + Qabs c) * (Qabs x + Qabs y + 1).
Proof.
  pose proof (Qabs_triangle (a * x + b * y) c). pose proof (Qabs_triangle (a * x) (b * y)).
  rewrite (Qabs_Qmult a x), (Qabs_Qmult b y) in H0.
  pose proof (Qabs_nonneg a). pose proof (Qabs_nonneg b). pose proof (Qabs_nonneg c). pose proof (Qabs_nonneg x). pose proof (Qabs_nonneg y).
  nra.
Qed.

Lemma ninth u : u / 9 <= 1 # 10000 -> u <= 9 # 10000.
Proof. intros U. setoid_replace u with (u / 9 * 9) by field. lra. Qed.

Lemma at_most_tiny u (P : Prop) : (u / 9 <= tiny -> P) -> qleb (u / 9) tiny = true -> P.
Proof. intros H I. apply H, qleb_iff, I. Qed.
(** (In this form the kernel unfolds the right side of the conversion.) *)
Lemma identity_sum m (P : Prop) :
  ((Qabs (m00 m - 1) + Qabs (m01 m) + Qabs (m02 m) + Qabs (m10 m) + Qabs (m11 m - 1) + Qabs (m12 m)
     + Qabs (m20 m) + Qabs (m21 m) + Qabs (m22 m - 1)) / 9 <= tiny -> P) -> is_identity_matrix m = true -> P.
Proof. exact (at_most_tiny _ P). Qed.
Lemma two_rows (a b c d e f g h i : Q) : 0 <= a -> 0 <= b -> 0 <= c -> 0 <= d -> 0 <= e -> 0 <= f -> 0 <= g -> 0 <= h -> 0 <= i ->
  a + b + c + d + e + f + g + h + i <= 9 # 10000 -> a + b + c <= 9 # 10000 /\ d + e + f <= 9 # 10000.
Proof. intros. split; lra. Qed.
Lemma identity_rows m : is_identity_matrix m = true ->
  Qabs (m00 m - 1) + Qabs (m01 m) + Qabs (m02 m) <= 9 # 10000 /\ Qabs (m10 m) + Qabs (m11 m - 1) + Qabs (m12 m) <= 9 # 10000.
Proof.
  apply identity_sum. intros I. apply ninth in I. revert I. apply two_rows; apply Qabs_nonneg.
Qed.

Lemma row_bound k a x b y c : Qabs a + Qabs b + Qabs c <= k -> Qabs (a * x + b * y + c) <= k * (Qabs x + Qabs y + 1).
Proof.
  intros K. eapply Qle_trans; [apply abs_sum_bound|]. apply Qmult_le_compat_r; [exact K|].
  pose proof (Qabs_nonneg x). pose proof (Qabs_nonneg y). lra.
Qed.

Lemma identity_hardly m p q : is_affine m -> is_identity_matrix m = true -> kp_eq (warp_coord m p) q -> hardly_moved p q.
Proof.
  intros A I E. apply identity_rows in I. destruct I as [I1 I2].
  pose proof (kp_eq_trans _ _ _ (kp_eq_sym _ _ E) (warp_linear m p A)) as [L1 L2]. unfold linear in L1, L2. cbn [kx ky] in L1, L2.
  apply (row_bound _ _ (kx p) _ (ky p) _) in I1. apply (row_bound _ _ (kx p) _ (ky p) _) in I2. split.
  - setoid_replace (kx q - kx p) with ((m00 m - 1) * kx p + m01 m * ky p + m02 m) by (rewrite L1; ring). exact I1.
  - setoid_replace (ky q - ky p) with (m10 m * kx p + (m11 m - 1) * ky p + m12 m) by (rewrite L2; ring). exact I2.
Qed.

Lemma has_pixels_nz s : has_pixels s -> ((fst s =? 0) || (snd s =? 0))%Z = false.
Proof. unfold has_pixels. destruct (Z.eqb_spec (fst s) 0), (Z.eqb_spec (snd s) 0); cbn; lia || reflexivity. Qed.

Lemma moves_generic b n s : has_pixels s -> negb b && n && negb ((fst s =? 0) || (snd s =? 0))%Z = negb b && n.
Proof. intros P. rewrite (has_pixels_nz s P). apply andb_true_r. Qed.
Lemma moves_eq m n s : has_pixels s -> moves m n s = negb (is_identity_matrix m) && n.
Proof. exact (moves_generic (is_identity_matrix m) n s). Qed.

Lemma cba_sent t s shape : sane t -> has_pixels shape -> carried_out t s shape shape ->
  (is_identity_matrix (fst (cba_matrix t s shape false)) = false /\
   forall p, kp_eq (warp_coord (fst (cba_matrix t s shape false)) p) (intended t s shape shape p)) \/
  (is_identity_matrix (fst (cba_matrix t s shape false)) = true /\ forall p, hardly_moved p (intended t s shape shape p)).
Proof.
  intros SN P C. pose proof (has_pixels_nonzero _ P) as N. destruct (is_identity_matrix _) eqn:I.
  - right. split; [reflexivity|]. intros p. apply (identity_hardly _ p _ (proj1 (proj1 (cba_acts t s shape N))) I). apply cba_coordinates; assumption.
  - left. split; [reflexivity|]. intros p. apply cba_coordinates; assumption.
Qed.

Lemma Forall2_map_sent {A B} (R : A -> B -> Prop) (f : A -> B) l : (forall x, R x (f x)) -> Forall2 R l (map f l).
Proof. intros H. induction l; constructor; auto. Qed.
Lemma Forall2_impl' {A B} (R S : A -> B -> Prop) l l' : (forall x y, R x y -> S x y) -> Forall2 R l l' -> Forall2 S l l'.
Proof. intros H F. induction F; constructor; auto. Qed.
Lemma Forall2_same {A} (R : A -> A -> Prop) l : (forall x, R x x) -> Forall2 R l l.
Proof. intros H. induction l; constructor; auto. Qed.

Lemma affine_keypoints_ok t s k : sane t -> has_pixels (kps_shape k) -> carried_out t s (kps_shape k) (kps_shape k) ->
  kps_shape (affine_keypoints t s false k) = kps_shape k /\
  Forall2 (sent t s (kps_shape k)) (kps k) (kps (affine_keypoints t s false k)).
Proof.
  intros SN P C. destruct (cba_sent t s _ SN P C) as [[I W]|[I W]].
  - unfold affine_keypoints. pose proof (proj2 (cba_acts t s (kps_shape k) (has_pixels_nonzero _ P))) as S.
    destruct (cba_matrix t s (kps_shape k) false) as [m out] eqn:M. cbn [fst snd] in *. split; [exact S|]. cbn [kps].
    unfold moves. rewrite I, (has_pixels_nz _ P). cbn [negb andb]. destruct (kps k) as [|p r]; [constructor|]. cbn [length Nat.eqb negb andb].
    apply Forall2_map_sent. intros x. left. apply W.
  - unfold affine_keypoints. pose proof (proj2 (cba_acts t s (kps_shape k) (has_pixels_nonzero _ P))) as S.
    destruct (cba_matrix t s (kps_shape k) false) as [m out] eqn:M. cbn [fst snd] in *. split; [exact S|]. cbn [kps].
    unfold moves. rewrite I. cbn [negb andb]. apply Forall2_same. intros x. right. auto.
Qed.

Lemma affine_boxes_ok t s b : sane t -> has_pixels (bbs_shape b) -> carried_out t s (bbs_shape b) (bbs_shape b) ->
  exists r, affine_boxes t s false b = Ok r /\ bbs_shape r = bbs_shape b /\
    Forall2 (fun c o => label o = label c /\
      ((exists k0 k1 k2 k3, let to := fun x y k => kp_eq k (intended t s (bbs_shape b) (bbs_shape b) (mkKp x y)) in
          to (x1 c) (y1 c) k0 /\ to (x2 c) (y1 c) k1 /\ to (x2 c) (y2 c) k2 /\ to (x1 c) (y2 c) k3 /\ smallest_box_around o [k0; k1; k2; k3]) \/
       (o = c /\ forall p, hardly_moved p (intended t s (bbs_shape b) (bbs_shape b) p)))) (bbs b) (bbs r).
Proof.
  intros SN P C. destruct (cba_sent t s _ SN P C) as [[I W]|[I W]]; unfold affine_boxes;
    pose proof (proj2 (cba_acts t s (bbs_shape b) (has_pixels_nonzero _ P))) as S;
    destruct (cba_matrix t s (bbs_shape b) false) as [m out] eqn:M; cbn [fst snd] in *; unfold moves; rewrite I, ?(has_pixels_nz _ P); cbn [negb andb].
  - destruct (bbs b) as [|c l] eqn:B.
    { cbn [length Nat.eqb negb andb bind]. rewrite B. eexists. split; [reflexivity|]. split; [exact S|]. constructor. }
    rewrite <- B. replace (Nat.eqb (length (bbs b)) 0) with false by (rewrite B; reflexivity). cbn [negb andb].
    unfold bbsoi_invert_to_keypoints, bbsoi_to_keypoints. cbn [kps kps_shape].
    destruct (invert_boxes_related (fun p q => kp_eq q (intended t s (bbs_shape b) (bbs_shape b) p)) (bbs b)
                (map (warp_coord m) (flat_map bb_corners (bbs b)))) as [L F].
    { apply Forall2_map_sent. exact W. }
    rewrite L, Nat.eqb_refl. cbn [bind]. eexists. split; [reflexivity|]. split; [exact S|]. cbn [bbs]. eapply Forall2_impl'; [|exact F].
    intros c' o [LB [k0 [k1 [k2 [k3 K]]]]]. split; [exact LB|]. left. exists k0, k1, k2, k3. exact K.
  - cbn [bind]. eexists. split; [reflexivity|]. split; [exact S|]. cbn [bbs]. apply Forall2_same. intros c. split; [reflexivity|]. right. auto.
Qed.

Lemma fill_paths_ok (f : keypoint -> keypoint) ps : fill_paths ps (map f (concat ps)) = Ok (map (map f) ps).
Proof.
  induction ps as [|p r IH]; [reflexivity|]. cbn [concat map fill_paths]. rewrite map_app.
  assert (length p = length (map f p)) as L by (symmetry; apply map_length).
  assert (Nat.leb (length p) (length (map f p ++ map f (concat r))) = true) as -> by (apply Nat.leb_le; rewrite app_length; lia).
  rewrite L, skipn_app, skipn_all, Nat.sub_diag. cbn [app skipn]. rewrite IH. cbn [bind].
  rewrite firstn_app, Nat.sub_diag, firstn_all. cbn [firstn]. rewrite app_nil_r. reflexivity.
Qed.

Lemma affine_paths_ok t s p : sane t -> has_pixels (paths_shape p) -> carried_out t s (paths_shape p) (paths_shape p) ->
  exists r, affine_paths t s false p = Ok r /\ paths_shape r = paths_shape p /\
    Forall2 (Forall2 (sent t s (paths_shape p))) (paths p) (paths r).
Proof.
  intros SN P C. destruct (cba_sent t s _ SN P C) as [[I W]|[I W]]; unfold affine_paths;
    pose proof (proj2 (cba_acts t s (paths_shape p) (has_pixels_nonzero _ P))) as S;
    destruct (cba_matrix t s (paths_shape p) false) as [m out] eqn:M; cbn [fst snd] in *; unfold moves; rewrite I, ?(has_pixels_nz _ P); cbn [negb andb].
  - destruct (negb (Nat.eqb (length (paths p)) 0)) eqn:E; cbn [andb].
    + rewrite fill_paths_ok. cbn [bind]. eexists. split; [reflexivity|]. split; [exact S|]. cbn [paths].
      apply Forall2_map_sent. intros l. apply Forall2_map_sent. intros x. left. apply W.
    + cbn [bind]. eexists. split; [reflexivity|]. split; [exact S|]. cbn [paths]. destruct (paths p); [constructor|discriminate].
  - cbn [bind]. eexists. split; [reflexivity|]. split; [exact S|]. cbn [paths].
    apply Forall2_same. intros l. apply Forall2_same. intros x. right. auto.
Qed.

(** ** Maps *)

Lemma inject_nonzero z : (z <> 0)%Z -> ~ inject_Z z == 0.
Proof. intros N E. apply N. apply (proj1 (inject_Z_injective z 0)). exact E. Qed.

Lemma map_proportional t s arr image r p : has_pixels arr -> has_pixels image ->
  inject_Z (snd arr) == r * inject_Z (snd image) -> inject_Z (fst arr) == r * inject_Z (fst image) ->
  shift_carried_out s arr image -> shift_carried_out s image image ->
  kp_eq (plain t s arr image (scaled r r p)) (scaled r r (plain t s image image p)).
Proof.
  intros PA PI RW RH SA SI. pose proof (has_pixels_nonzero _ PI) as N.
  destruct (inner_linear t s) as [a [b [c [d L]]]].
  assert (fst (asked_shift s arr image) == r * fst (asked_shift s image image) /\ snd (asked_shift s arr image) == r * snd (asked_shift s image image)) as [T1 T2].
  { destruct N as [N1 N2]. apply inject_nonzero in N1, N2. unfold asked_shift. destruct (mode_of s); cbn [fst snd]; rewrite RW, RH; split; try ring; field; assumption. }
  unfold plain, about_centre.
  set (cx := inject_Z (snd image) / 2). set (cy := inject_Z (fst image) / 2).
  assert (inject_Z (snd arr) / 2 == r * cx) as CX by (unfold cx; rewrite RW; field).
  assert (inject_Z (fst arr) / 2 == r * cy) as CY by (unfold cy; rewrite RH; field).
  set (ax := inject_Z (snd arr) / 2) in *. set (ay := inject_Z (fst arr) / 2) in *.
  destruct (asked_translate s arr image N) as [A1 A2]. destruct (asked_translate s image image N) as [B1 B2].
  unfold f_outer.
  destruct (translate_intended _ _ _ _ (f_inner t s (moved_by (- ax) (- ay) (scaled r r p))) A1 A2 SA) as [O1 O2].
  destruct (translate_intended _ _ _ _ (f_inner t s (moved_by (- cx) (- cy) p)) B1 B2 SI) as [Q1 Q2].
  destruct (L (moved_by (- ax) (- ay) (scaled r r p))) as [L1 L2]. destruct (L (moved_by (- cx) (- cy) p)) as [M1 M2].
  unfold moved_by, scaled in *. cbn [kx ky] in *. split; cbn [kx ky].
  - rewrite O1, Q1, L1, M1, T1, CX, CY. ring.
  - rewrite O2, Q2, L2, M2, T2, CX, CY. ring.
Qed.

Lemma image_det t s arr image fit : has_pixels arr -> nonzero image -> sane t -> 0 < scale_x s -> 0 < scale_y s ->
  forall m, m = fst (image_matrix t s arr image fit) -> ~ m00 m * m11 m - m01 m * m10 m == 0.
Proof.
  intros PA N SN SX SY m EM. destruct (image_matrix_inner t s arr image fit PA N) as [A [dx [dy I]]]. rewrite <- EM in A, I.
  destruct (inner_invertible t s SN SX SY) as [a [b [c [d [L D]]]]].
  assert (forall p, kp_eq (linear m p) (mkKp (a * kx p + b * ky p + dx) (c * kx p + d * ky p + dy))) as K.
  { intros p. destruct (warp_linear m p A) as [W1 W2]. destruct (I p) as [I1 I2]. destruct (L p) as [L1 L2].
    unfold moved_by in *. cbn [kx ky] in *. split; cbn [kx ky]; lra. }
  destruct (K (mkKp 0 0)) as [Z1 Z2]. destruct (K (mkKp 1 0)) as [X1 X2]. destruct (K (mkKp 0 1)) as [Y1 Y2].
  unfold linear in *. cbn [kx ky] in *.
  assert (m00 m == a) as E1 by lra. assert (m01 m == b) as E2 by lra. assert (m10 m == c) as E3 by lra. assert (m11 m == d) as E4 by lra.
  rewrite E1, E2, E3, E4. exact D.
Qed.

Lemma affine_keypoints_eq t s fit k : affine_keypoints t s fit k =
  mkKpsoi (if moves (fst (cba_matrix t s (kps_shape k) fit)) (negb (Nat.eqb (length (kps k)) 0)) (kps_shape k)
           then map (warp_coord (fst (cba_matrix t s (kps_shape k) fit))) (kps k) else kps k) (snd (cba_matrix t s (kps_shape k) fit)).
Proof. unfold affine_keypoints. destruct (cba_matrix t s (kps_shape k) fit) as [m out]. reflexivity. Qed.
Lemma affine_image_eq {A} (warp : mat -> shape2 -> arr A -> arr A) t s fit image a : affine_image warp t s fit image a =
  (if is_identity_matrix (fst (image_matrix t s (ah a, aw a) image fit)) then a
   else if ((ah a =? 0) || (aw a =? 0))%Z then a
   else warp (fst (image_matrix t s (ah a, aw a) image fit)) (snd (image_matrix t s (ah a, aw a) image fit)) a,
   fst (image_matrix t s (ah a, aw a) image fit)).
Proof. unfold affine_image. destruct (image_matrix t s (ah a, aw a) image fit) as [m out]. reflexivity. Qed.

Lemma one_keypoint t s fit p shape : kps (affine_keypoints t s fit (mkKpsoi [p] shape)) =
  if moves (fst (cba_matrix t s shape fit)) true shape then [warp_coord (fst (cba_matrix t s shape fit)) p] else [p].
Proof. rewrite affine_keypoints_eq. cbn [kps kps_shape length Nat.eqb negb map]. reflexivity. Qed.
Lemma moved_points_generic (b : bool) (f : keypoint -> keypoint) l n : n = negb (Nat.eqb (length l) 0) ->
  (if negb b && n then map f l else l) = if b then l else map f l.
Proof. intros ->. destruct b, l; reflexivity. Qed.
Lemma moved_points t s fit l shape : has_pixels shape -> kps (affine_keypoints t s fit (mkKpsoi l shape)) =
  if is_identity_matrix (fst (cba_matrix t s shape fit)) then l else map (warp_coord (fst (cba_matrix t s shape fit))) l.
Proof.
  intros P. unfold affine_keypoints. cbn [kps kps_shape]. destruct (cba_matrix t s shape fit) as [m out]. cbn [kps fst].
  rewrite (moves_eq m _ _ P). apply moved_points_generic. reflexivity.
Qed.
Lemma affine_image_fst {A} (warp : mat -> shape2 -> arr A -> arr A) t s fit image a : fst (affine_image warp t s fit image a) =
  if is_identity_matrix (fst (image_matrix t s (ah a, aw a) image fit)) then a
  else if ((ah a =? 0) || (aw a =? 0))%Z then a
  else warp (fst (image_matrix t s (ah a, aw a) image fit)) (snd (image_matrix t s (ah a, aw a) image fit)) a.
Proof. rewrite affine_image_eq. reflexivity. Qed.

(** A point that goes from the centre of one cell to the centre of another. *)
Lemma cell_moves t s arr H W y x y' x' q m c : has_pixels arr -> has_pixels (H, W) -> (fst arr * W = H * snd arr)%Z ->
  shift_carried_out s arr (H, W) -> shift_carried_out s (H, W) (H, W) ->
  acts m (fun p => moved_by (- (1 # 2)) (- (1 # 2)) (plain t s arr (H, W) (moved_by (1 # 2) (1 # 2) p))) ->
  acts c (plain t s (H, W) (H, W)) ->
  kp_eq (warp_coord c (cell_centre arr (H, W) y x)) q -> kp_eq q (cell_centre arr (H, W) y' x') ->
  kp_eq (warp_coord m (mkKp (inject_Z x) (inject_Z y))) (mkKp (inject_Z x') (inject_Z y')).
Proof.
  intros PA PI ASP SA SI IA CA QC E. destruct arr as [h w]. cbn [fst snd] in ASP.
  assert (~ inject_Z h == 0) as NH by (apply inject_nonzero; destruct PA as [PA1 PA2]; cbn in *; lia).
  assert (~ inject_Z w == 0) as NW by (apply inject_nonzero; destruct PA as [PA1 PA2]; cbn in *; lia).
  assert (~ inject_Z H == 0) as NIH by (apply inject_nonzero; destruct PI as [PI1 PI2]; cbn in *; lia).
  assert (~ inject_Z W == 0) as NIW by (apply inject_nonzero; destruct PI as [PI1 PI2]; cbn in *; lia).
  set (r := inject_Z w / inject_Z W).
  assert (inject_Z h * inject_Z W == inject_Z H * inject_Z w) as ASPQ by (rewrite <- !inject_Z_mult, ASP; reflexivity).
  assert (inject_Z w == r * inject_Z W) as RW by (unfold r; field; auto).
  assert (inject_Z h == r * inject_Z H) as RH.
  { unfold r. assert (inject_Z h == inject_Z h * inject_Z W / inject_Z W) as -> by (field; auto). rewrite ASPQ. field; auto. }
  assert (~ r == 0) as NR by (intros Z; apply NW; rewrite RW, Z; ring).
  assert (forall j i, kp_eq (scaled r r (cell_centre (h, w) (H, W) j i)) (moved_by (1 # 2) (1 # 2) (mkKp (inject_Z i) (inject_Z j)))) as CC.
  { intros j i. unfold scaled, cell_centre, moved_by. split; cbn [kx ky fst snd]; rewrite ?RW, ?RH; field; auto. }
  eapply kp_eq_trans; [apply (acts_warp _ _ IA)|].
  pose proof (map_proportional t s (h, w) (H, W) r (cell_centre (h, w) (H, W) y x) PA PI RW RH SA SI) as MP.
  pose proof (plain_proper t s (h, w) (H, W) _ _ (CC y x)) as PP.
  pose proof (kp_eq_trans _ _ _ (kp_eq_sym _ _ (acts_warp _ _ CA (cell_centre (h, w) (H, W) y x))) (kp_eq_trans _ _ _ QC E)) as QE.
  pose proof (scaled_proper r r _ _ QE) as QS.
  pose proof (kp_eq_trans _ _ _ (kp_eq_sym _ _ PP) (kp_eq_trans _ _ _ MP (kp_eq_trans _ _ _ QS (CC y' x')))) as FIN.
  revert FIN. generalize (plain t s (h, w) (H, W) (moved_by (1 # 2) (1 # 2) (mkKp (inject_Z x) (inject_Z y)))). intros u [F1 F2].
  unfold moved_by in *. cbn [kx ky] in *. split; cbn [kx ky]; rewrite ?F1, ?F2; ring.
Qed.
Lemma cell_centre_inj arr image y x y' x' : has_pixels arr -> has_pixels image ->
  kp_eq (cell_centre arr image y x) (cell_centre arr image y' x') -> y = y' /\ x = x'.
Proof.
  intros PA PI [E1 E2]. destruct arr as [h w], image as [H W]. unfold cell_centre in *. cbn [kx ky fst snd] in *.
  assert (~ inject_Z h == 0) as NH by (apply inject_nonzero; destruct PA as [PA1 PA2]; cbn in *; lia).
  assert (~ inject_Z w == 0) as NW by (apply inject_nonzero; destruct PA as [PA1 PA2]; cbn in *; lia).
  assert (~ inject_Z H == 0) as NIH by (apply inject_nonzero; destruct PI as [PI1 PI2]; cbn in *; lia).
  assert (~ inject_Z W == 0) as NIW by (apply inject_nonzero; destruct PI as [PI1 PI2]; cbn in *; lia).
  assert (forall u v a b, ~ a == 0 -> ~ b == 0 -> (u + (1 # 2)) * a / b == (v + (1 # 2)) * a / b -> u == v) as C.
  { intros u v a b NA NB E. assert (u + (1 # 2) == v + (1 # 2)) as G; [|lra].
    setoid_replace (u + (1 # 2)) with ((u + (1 # 2)) * a / b * (b / a)) by (field; auto). rewrite E. field; auto. }
  split; apply (proj1 (inject_Z_injective _ _)); [apply (C _ _ (inject_Z H) (inject_Z h))|apply (C _ _ (inject_Z W) (inject_Z w))]; assumption.
Qed.

Lemma maps_core {A} (warp : mat -> shape2 -> arr A -> arr A) t s (a : arr A) H W y x y' x' q m c out :
  resampler warp -> has_pixels (ah a, aw a) -> has_pixels (H, W) -> (ah a * W = H * aw a)%Z ->
  shift_carried_out s (ah a, aw a) (H, W) -> shift_carried_out s (H, W) (H, W) ->
  acts m (fun p => moved_by (- (1 # 2)) (- (1 # 2)) (plain t s (ah a, aw a) (H, W) (moved_by (1 # 2) (1 # 2) p))) ->
  acts c (plain t s (H, W) (H, W)) -> out = (ah a, aw a) ->
  ~ m00 m * m11 m - m01 m * m10 m == 0 -> is_identity_matrix m = is_identity_matrix c ->
  (0 <= y < ah a)%Z -> (0 <= x < aw a)%Z -> (0 <= y' < ah a)%Z -> (0 <= x' < aw a)%Z ->
  (if moves c true (H, W) then [warp_coord c (cell_centre (ah a, aw a) (H, W) y x)] else [cell_centre (ah a, aw a) (H, W) y x]) = [q] ->
  kp_eq q (cell_centre (ah a, aw a) (H, W) y' x') ->
  apx (if is_identity_matrix m then a else if ((ah a =? 0) || (aw a =? 0))%Z then a else warp m out a) y' x' = apx a y x.
Proof.
  intros RS PA PI ASP SA SI IA CA -> DET ID Y X Y' X' K E. rewrite (moves_eq c true _ PI), <- ID in K. revert K. destruct (is_identity_matrix m); intros K; cbn [negb andb] in K; injection K as K.
  - rewrite <- K in E. destruct (cell_centre_inj _ _ _ _ _ _ PA PI E) as [-> ->]. reflexivity.
  - pose proof (has_pixels_nz _ PA) as NZ. cbn [fst snd] in NZ. rewrite NZ.
    destruct (RS m (ah a, aw a) a) as [_ [_ RSP]]. apply RSP; try assumption; [apply IA|].
    apply (cell_moves t s (ah a, aw a) H W y x y' x' q m c); try assumption. rewrite K. apply kp_eq_refl.
Qed.

(** The cell that a point of the image lies in goes where the point goes. *)
Lemma maps_and_points {A} (warp : mat -> shape2 -> arr A -> arr A) t s (a : arr A) image y x y' x' q :
  resampler warp -> sane t -> 0 < scale_x s -> 0 < scale_y s ->
  has_pixels (ah a, aw a) -> has_pixels image -> (ah a * snd image = fst image * aw a)%Z ->
  shift_carried_out s (ah a, aw a) image -> shift_carried_out s image image ->
  is_identity_matrix (fst (image_matrix t s (ah a, aw a) image false)) = is_identity_matrix (fst (cba_matrix t s image false)) ->
  (0 <= y < ah a)%Z -> (0 <= x < aw a)%Z -> (0 <= y' < ah a)%Z -> (0 <= x' < aw a)%Z ->
  kps (affine_keypoints t s false (mkKpsoi [cell_centre (ah a, aw a) image y x] image)) = [q] ->
  kp_eq q (cell_centre (ah a, aw a) image y' x') ->
  apx (fst (affine_image warp t s false image a)) y' x' = apx a y x.
Proof.
  intros RS SN SX SY PA PI ASP SA SI ID Y X Y' X' K E. pose proof (has_pixels_nonzero _ PI) as N.
  rewrite one_keypoint in K. rewrite affine_image_fst. destruct image as [H W]. revert K. revert ID.
  pose proof (image_det t s (ah a, aw a) (H, W) false PA N SN SX SY _ eq_refl) as DET. revert DET.
  destruct (image_acts t s (ah a, aw a) (H, W) N) as [IA IS]. destruct (cba_acts t s (H, W) N) as [CA CS]. revert IA IS CA CS.
  generalize (cba_matrix t s (H, W) false). generalize (image_matrix t s (ah a, aw a) (H, W) false). intros [m out] [c cout].
  cbn [fst snd]. intros IA IS CA CS DET ID K.
  apply (maps_core warp t s a H W y x y' x' q m c out); assumption.
Qed.

(** ** Parameters *)

Lemma nth_some (l : list Q) i n : length l = n -> (i < n)%nat -> exists v, nth_error l i = Some v.
Proof. intros L I. destruct (nth_error l i) as [v|] eqn:E; [eauto|]. apply nth_error_None in E. lia. Qed.
Lemma nth_repeat_some (v : Q) n i : (i < n)%nat -> nth_error (repeat v n) i = Some v.
Proof. revert i. induction n as [|n IH]; intros i I; [lia|]. destruct i; [reflexivity|]. apply IH. lia. Qed.

Lemma draw_axes_ok {P} (num : Q -> P) draw n i neutral arg p jx jy j : draws num draw n -> (i < n)%nat -> jx <> jy ->
  handle_axes num neutral arg = Ok p ->
  exists vx vy, nth_error (fst (draw_axes draw jx jy j p)) i = Some vx /\ nth_error (snd (draw_axes draw jx jy j p)) i = Some vy /\
    on_both_axes draw i neutral arg vx vy.
Proof.
  intros [L F] I NE H. unfold handle_axes in H. destruct arg as [v|q|[x|] [y|]].
  - injection H as <-. cbn [draw_axes fst snd]. rewrite F, nth_repeat_some by exact I. exists v, v. cbn. auto.
  - injection H as <-. cbn [draw_axes fst snd]. destruct (nth_some _ i n (L j q) I) as [v V]. exists v, v. cbn. eauto.
  - injection H as <-. cbn [draw_axes fst snd]. destruct (nth_some _ i n (L jx x) I) as [v V]. destruct (nth_some _ i n (L jy y) I) as [u U].
    exists v, u. split; [exact V|]. split; [exact U|]. exists jx, jy. auto.
  - injection H as <-. cbn [draw_axes fst snd]. destruct (nth_some _ i n (L jx x) I) as [v V]. rewrite F, nth_repeat_some by exact I.
    exists v, neutral. split; [exact V|]. split; [reflexivity|]. exists jx, jy. auto.
  - injection H as <-. cbn [draw_axes fst snd]. destruct (nth_some _ i n (L jy y) I) as [v V]. rewrite F, nth_repeat_some by exact I.
    exists neutral, v. split; [reflexivity|]. split; [exact V|]. exists jx, jy. auto.
  - discriminate.
Qed.

Lemma draw_shear_ok {P} (num : Q -> P) draw n i arg p : draws num draw n -> (i < n)%nat -> handle_axes num 0 arg = Ok p ->
  exists vx vy, nth_error (fst (draw_shear draw p)) i = Some vx /\ nth_error (snd (draw_shear draw p)) i = Some vy /\
    on_shear_axes draw i arg vx vy.
Proof.
  intros [L F] I H. unfold handle_axes in H. destruct arg as [v|q|[x|] [y|]].
  - injection H as <-. cbn [draw_shear fst snd]. rewrite F. exists v, 0. rewrite nth_error_map, nth_repeat_some by exact I. cbn. auto.
  - injection H as <-. cbn [draw_shear fst snd]. destruct (nth_some _ i n (L 7%nat q) I) as [v V]. exists v, v. cbn. eauto.
  - injection H as <-. cbn [draw_shear fst snd]. destruct (nth_some _ i n (L 7%nat x) I) as [v V]. destruct (nth_some _ i n (L 8%nat y) I) as [u U].
    exists v, u. split; [exact V|]. split; [exact U|]. exists 7%nat, 8%nat. auto.
  - injection H as <-. cbn [draw_shear fst snd]. destruct (nth_some _ i n (L 7%nat x) I) as [v V]. rewrite F, nth_repeat_some by exact I.
    exists v, 0. split; [exact V|]. split; [reflexivity|]. exists 7%nat, 8%nat. auto.
  - injection H as <-. cbn [draw_shear fst snd]. destruct (nth_some _ i n (L 8%nat y) I) as [v V]. rewrite F, nth_repeat_some by exact I.
    exists 0, v. split; [reflexivity|]. split; [exact V|]. exists 7%nat, 8%nat. auto.
  - discriminate.
Qed.

Lemma handle_translate_ok {P} (num : Q -> P) px percent : handle_translate num px percent =
  match translate_arg px percent with Some (a, u) => do p <- handle_axes num 0 a; Ok (p, u) | None => Err AssertionError end.
Proof. unfold handle_translate, translate_arg. destruct px, percent; reflexivity. Qed.

Lemma draw_sample_ok {P} (num : Q -> P) draw n i scale percent px rotate shear a :
  draws num draw n -> (i < n)%nat -> affine_of num scale percent px rotate shear = Ok a ->
  exists smp ta, draw_sample draw a i = Ok smp /\ translate_arg px percent = Some (ta, mode_of smp) /\
    on_both_axes draw i 1 (match scale with Some s => s | None => Single 1 end) (scale_x smp) (scale_y smp) /\
    on_both_axes draw i 0 ta (translate_x smp) (translate_y smp) /\
    match rotate with Some r => exists j, nth_error (draw j r) i = Some (rotate_deg smp) | None => rotate_deg smp = 0 end /\
    on_shear_axes draw i (match shear with Some s => s | None => Single 0 end) (shear_x_deg smp) (shear_y_deg smp).
Proof.
  intros D I H. unfold affine_of in H. rewrite handle_translate_ok in H.
  destruct (handle_axes num 1 _) as [sc|] eqn:SC in H; [|discriminate]. cbn [bind] in H.
  destruct (translate_arg px percent) as [[ta u]|] eqn:TA; [|discriminate].
  destruct (handle_axes num 0 ta) as [tr|] eqn:TR; [|discriminate]. cbn [bind] in H.
  destruct (handle_axes num 0 _) as [sh|] eqn:SH in H; [|discriminate]. cbn [bind fst snd] in H. injection H as <-.
  destruct (draw_axes_ok num draw n i 1 _ sc 0 1 2 D I ltac:(discriminate) SC) as [sx [sy [SX [SY OS]]]].
  destruct (draw_axes_ok num draw n i 0 _ tr 3 4 5 D I ltac:(discriminate) TR) as [tx [ty [TX [TY OT]]]].
  destruct (draw_shear_ok num draw n i _ sh D I SH) as [hx [hy [HX [HY OH]]]].
  assert (exists ro, nth_error (draw 6%nat (match rotate with Some r => r | None => num 0 end)) i = Some ro /\
            match rotate with Some r => exists j, nth_error (draw j r) i = Some ro | None => ro = 0 end) as [ro [RO OR]].
  { destruct D as [L F]. destruct rotate as [r|].
    - destruct (nth_some _ i n (L 6%nat r) I) as [v V]. exists v. eauto.
    - exists 0. rewrite F, nth_repeat_some by exact I. auto. }
  exists (mkSample sx sy tx ty u ro hx hy), ta. cbn [mode_of scale_x scale_y translate_x translate_y rotate_deg shear_x_deg shear_y_deg].
  split; [|auto 10]. unfold draw_sample. cbn [a_scale a_translate a_mode a_rotate a_shear].
  destruct (draw_axes draw 0 1 2 sc) as [lsx lsy]. destruct (draw_axes draw 3 4 5 tr) as [ltx lty]. destruct (draw_shear draw sh) as [lhx lhy].
  cbn [fst snd] in *. rewrite SX, SY, TX, TY, RO, HX, HY. reflexivity.
Qed.

Lemma affine_new_given {P} (num : Q -> P) uniform scale percent px rotate shear :
  ~ (scale = None /\ percent = None /\ px = None /\ rotate = None /\ shear = None) ->
  affine_new num uniform scale percent px rotate shear = affine_of num scale percent px rotate shear.
Proof. intros N. unfold affine_new. destruct scale, percent, px, rotate, shear; try reflexivity. exfalso. apply N. auto. Qed.

Lemma given_dec {P} (scale percent px : option (axis_arg P)) (rotate : option P) (shear : option (axis_arg P)) :
  ~ (scale = None /\ percent = None /\ px = None /\ rotate = None /\ shear = None) \/
  (scale = None /\ percent = None /\ px = None /\ rotate = None /\ shear = None).
Proof. destruct scale, percent, px, rotate, shear; try (left; intros [? [? [? [? ?]]]]; discriminate). right. auto. Qed.
