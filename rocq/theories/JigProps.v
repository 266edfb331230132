(** C65: jigsaw augmentation. *)
From Coq Require Import Lia Lqa Bool.
From Verif Require Import Prelude PreludeFacts GeoModel GeoSpec SizeModel SizeSpec SizeProofs UtilModel UtilProofs JigModel JigSpec JigProofs.

(** Whatever is drawn, generated destinations are a rearrangement of the cells. *)
Theorem C65_destinations : forall nb_rows nb_cols max_steps steps directions,
  rearranges (generate_jigsaw_destinations nb_rows nb_cols max_steps steps directions).
Proof. exact generate_rearranges. Qed.
Print Assumptions C65_destinations.

Definition right_steps : Z -> Z -> Z := fun _ _ => 2.
Definition right_directions : Z -> Z -> nat -> Z := fun _ _ _ => 1.
Example C65_ex1 : let d := generate_jigsaw_destinations 2 3 2 right_steps right_directions in
  map (fun c => apx d (fst c) (snd c)) (cells 2 3) = [1; 2; 0; 4; 5; 3].
Proof. vm_compute. reflexivity. Qed.

(** No steps: every cell stays. *)
Theorem C65_no_steps : forall nb_rows nb_cols max_steps steps directions,
  (forall r c, 0 <= r < nb_rows -> 0 <= c < nb_cols -> steps r c = 0) ->
  let d := generate_jigsaw_destinations nb_rows nb_cols max_steps steps directions in
  forall r c, in_grid d r c -> sends d r c r c.
Proof.
  intros nr nc ms steps dirs Z0 d r c G. unfold in_grid in G. cbn [d ah aw generate_jigsaw_destinations] in G. destruct G as [R C].
  split; [exact R|]. split; [exact C|]. apply generate_zero; [|exact R|exact C]. intros r0 c0 R0 C0. rewrite Z0 by assumption. lia.
Qed.
Print Assumptions C65_no_steps.

(** With the default max_steps=1, every cell stays or swaps with a neighbour. *)
Theorem C65_one_step : forall nb_rows nb_cols connectivity steps directions,
  connectivity = 4 \/ connectivity = 8 ->
  (forall r c, 0 <= r < nb_rows -> 0 <= c < nb_cols -> 0 <= steps r c <= 1) ->
  (forall r c k, 0 <= r < nb_rows -> 0 <= c < nb_cols -> 0 <= directions r c k < connectivity) ->
  let d := generate_jigsaw_destinations nb_rows nb_cols 1 steps directions in
  forall r c, in_grid d r c ->
    exists r' c', sends d r c r' c' /\ sends d r' c' r c /\ distance connectivity r c r' c' <= 1.
Proof. intros nr nc conn steps dirs K S D d r c [R C]. apply (generate_one_step nr nc conn); assumption. Qed.
Print Assumptions C65_one_step.
Example C65_ex2 : let d := generate_jigsaw_destinations 2 3 1 (fun _ _ => 1) right_directions in
  map (fun c => apx d (fst c) (snd c)) (cells 2 3) = [1; 0; 2; 4; 3; 5].
Proof. vm_compute. reflexivity. Qed.

(** Documented for any max_steps ("maximum number of cells that each cell may
    be moved") but false: the steps are counted per position and not per moved
    cell. Here max_steps = 2 and a cell moves by three cells. *)
Theorem C65_max_steps_refuted :
  exists nb_rows nb_cols max_steps steps directions,
    (forall r c, 0 <= steps r c <= Z.of_nat max_steps) /\
    (forall r c k, 0 <= directions r c k < 4) /\
    exists r c r' c', let d := generate_jigsaw_destinations nb_rows nb_cols max_steps steps directions in
      in_grid d r c /\ sends d r c r' c' /\ Z.of_nat max_steps < distance 4 r c r' c' /\ Z.of_nat max_steps < distance 8 r c r' c'.
Proof.
  exists 1, 4, 2%nat, right_steps, right_directions. split; [intros; unfold right_steps; lia|].
  split; [intros; unfold right_directions; lia|]. exists 0, 3, 0, 0. cbv zeta. split; [|split; [|split]].
  - unfold in_grid. cbn [ah aw generate_jigsaw_destinations]. lia.
  - unfold sends. cbn [ah aw generate_jigsaw_destinations]. split; [lia|]. split; [lia|]. vm_compute. reflexivity.
  - vm_compute. reflexivity.
  - vm_compute. reflexivity.
Qed.
Print Assumptions C65_max_steps_refuted.

(** Images: the pixel at an offset in a cell goes to the same offset in the
    cell's destination. *)
Theorem C65_pixels : forall (A : Type) (zero : A) (a : arr A) d ch cw,
  rearranges d -> 0 < ah d -> 0 < aw d -> ah a = ah d * ch -> aw a = aw d * cw ->
  exists b, apply_jigsaw zero a d = Ok b /\ ah b = ah a /\ aw b = aw a /\
    forall r c r' c' dy dx, in_grid d r c -> sends d r c r' c' -> 0 <= dy < ch -> 0 <= dx < cw ->
      let '(y, x) := at_cell ch cw r c dy dx in
      let '(y', x') := at_cell ch cw r' c' dy dx in apx b y' x' = apx a y x.
Proof. exact apply_jigsaw_ok. Qed.
Print Assumptions C65_pixels.

(** ... no pixel is lost or duplicated: every pixel of the result comes from a
    pixel of the image, different ones from different ones. *)
Theorem C65_no_pixel_lost : forall (A : Type) (zero : A) (a b : arr A) d,
  rearranges d -> 0 < ah d -> 0 < aw d -> 0 <= ah a -> 0 <= aw a -> apply_jigsaw zero a d = Ok b ->
  exists src : Z -> Z -> Z * Z,
    (forall y x, 0 <= y < ah a -> 0 <= x < aw a ->
       let '(y0, x0) := src y x in 0 <= y0 < ah a /\ 0 <= x0 < aw a /\ apx b y x = apx a y0 x0) /\
    (forall y x y2 x2, 0 <= y < ah a -> 0 <= x < aw a -> 0 <= y2 < ah a -> 0 <= x2 < aw a ->
       src y x = src y2 x2 -> y = y2 /\ x = x2).
Proof.
  intros A zero a b d RE H W HA WA E.
  assert ((ah d | ah a) /\ (aw d | aw a)) as [[ch EH] [cw EW]].
  { unfold apply_jigsaw in E. destruct (Z.eqb_spec (ah d) 0); [lia|]. destruct (Z.eqb_spec (aw d) 0); [lia|].
    destruct (Z.eqb_spec (ah a mod ah d) 0) as [E1|]; [|discriminate]. destruct (Z.eqb_spec (aw a mod aw d) 0) as [E2|]; [|discriminate].
    split; apply Z.mod_divide; lia. }
  rewrite Z.mul_comm in EH, EW.
  destruct (C65_pixels A zero a d ch cw RE H W EH EW) as [b' [E' [_ [_ PX]]]]. rewrite E in E'. injection E' as <-.
  (* the inverse of d, from the list of all cells *)
  set (inv := fun r' c' => match find (fun rc => apx d (fst rc) (snd rc) =? r' * aw d + c') (cells (ah d) (aw d)) with
                           | Some rc => rc | None => (0, 0) end).
  assert (forall r' c', in_grid d r' c' -> in_grid d (fst (inv r' c')) (snd (inv r' c')) /\
            sends d (fst (inv r' c')) (snd (inv r' c')) r' c') as INV.
  { intros r' c' G. unfold inv. destruct (find _ _) as [[r c]|] eqn:F.
    - apply find_some in F as [F1 F2]. apply in_cells in F1. cbn [fst snd] in *. split; [exact F1|].
      unfold sends. unfold in_grid in G. split; [lia|]. split; lia.
    - exfalso. destruct (proj2 RE r' c' G) as [r [c [G0 [[_ [_ S]] _]]]].
      apply (find_none _ _ F (r, c)) in G0 as N || (pose proof (find_none _ _ F (r, c) (proj2 (in_cells _ _ _ _) G0)) as N). cbn [fst snd] in N. lia. }
  exists (fun y x => let rc := inv (y / ch) (x / cw) in (fst rc * ch + y mod ch, snd rc * cw + x mod cw)).
  assert (forall y, 0 <= y < ah a -> 0 < ch /\ 0 <= y / ch < ah d /\ 0 <= y mod ch < ch /\ y = y / ch * ch + y mod ch) as DY.
  { intros y Y. assert (0 < ch) by nia. pose proof (number_cell (ah d) ch y ltac:(lia) ltac:(lia)). tauto. }
  assert (forall x, 0 <= x < aw a -> 0 < cw /\ 0 <= x / cw < aw d /\ 0 <= x mod cw < cw /\ x = x / cw * cw + x mod cw) as DX.
  { intros x X. assert (0 < cw) by nia. pose proof (number_cell (aw d) cw x ltac:(lia) ltac:(lia)). tauto. }
  split.
  - intros y x Y X. destruct (DY y Y) as [PC [Y1 [Y2 Y3]]]. destruct (DX x X) as [PW [X1 [X2 X3]]].
    destruct (INV (y / ch) (x / cw) ltac:(split; assumption)) as [[G1 G2] S]. cbv zeta.
    set (rc := inv (y / ch) (x / cw)) in *. clearbody rc.
    assert (apx b (y / ch * ch + y mod ch) (x / cw * cw + x mod cw) = apx a (fst rc * ch + y mod ch) (snd rc * cw + x mod cw)) as E0
      by (apply PX; [split; assumption|exact S|assumption|assumption]).
    rewrite <- Y3, <- X3 in E0. clear PX INV.
    split; [nia|]. split; [nia|exact E0].
  - intros y x y2 x2 Y X Yb Xb EQ. destruct (DY y Y) as [PC [Y1 [Y2 Y3]]]. destruct (DX x X) as [PW [X1 [X2 X3]]].
    destruct (DY y2 Yb) as [_ [Z1 [Z2 Z3]]]. destruct (DX x2 Xb) as [_ [V1 [V2 V3]]].
    destruct (INV (y / ch) (x / cw) ltac:(split; assumption)) as [[G1 G2] [_ [_ S]]].
    destruct (INV (y2 / ch) (x2 / cw) ltac:(split; assumption)) as [[K1 K2] [_ [_ S2]]].
    set (rc := inv (y / ch) (x / cw)) in *. set (rc2 := inv (y2 / ch) (x2 / cw)) in *. clearbody rc rc2.
    cbv zeta in EQ. injection EQ as EQ1 EQ2.
    assert (fst rc = fst rc2 /\ y mod ch = y2 mod ch) as [A1 A2].
    { assert (fst rc = fst rc2) by (apply (block_unique ch) with (v := fst rc * ch + y mod ch); lia). nia. }
    assert (snd rc = snd rc2 /\ x mod cw = x2 mod cw) as [B1 B2].
    { assert (snd rc = snd rc2) by (apply (block_unique cw) with (v := snd rc * cw + x mod cw); lia). nia. }
    rewrite <- A1, <- B1 in S2. rewrite S in S2.
    destruct (cell_number (aw d) (y / ch) (x / cw) X1), (cell_number (aw d) (y2 / ch) (x2 / cw) V1). rewrite S2 in *.
    assert (y / ch = y2 / ch) by lia. assert (x / cw = x2 / cw) by lia. split; congruence.
Qed.
Print Assumptions C65_no_pixel_lost.

Definition numbered (h w : Z) : arr Z := mkArr h w (fun y x => 10 * y + x).
Definition swapped_cells : arr Z := mkArr 1 2 (fun _ x => 1 - x).
Example C65_ex3 : exists b, apply_jigsaw 0 (numbered 2 4) swapped_cells = Ok b /\
  map (fun c => apx b (fst c) (snd c)) (cells 2 4) = [2; 3; 0; 1; 12; 13; 10; 11].
Proof. eexists. split; [vm_compute; reflexivity|vm_compute; reflexivity]. Qed.

(** Sizes that are not multiples of the number of rows and columns are refused. *)
Theorem C65_sizes_refused : forall (A : Type) (zero : A) (a : arr A) d, 0 < ah d -> 0 < aw d ->
  ~ multiple_of (ah d) (ah a) \/ ~ multiple_of (aw d) (aw a) -> apply_jigsaw zero a d = Err AssertionError.
Proof. exact apply_jigsaw_raises. Qed.
Print Assumptions C65_sizes_refused.
Example C65_ex4 : apply_jigsaw 0 (numbered 2 5) swapped_cells = Err AssertionError.
Proof. reflexivity. Qed.

(** Keypoints: one by one, inside of the image they move like the pixels of
    their cell (by whole cells), outside they stay. *)
Theorem C65_keypoints : forall d ch cw ps, rearranges d -> 0 < ah d -> 0 < aw d -> 0 < ch -> 0 < cw ->
  exists qs, apply_jigsaw_to_coords ps d (ah d * ch, aw d * cw) = Ok qs /\
    Forall2 (fun p q =>
      (forall r c r' c' dy dx, in_grid d r c -> sends d r c r' c' -> 0 <= dy < ch -> 0 <= dx < cw ->
         let '(y, x) := at_cell ch cw r c dy dx in
         let '(y', x') := at_cell ch cw r' c' dy dx in
         on_pixel y x p -> on_pixel y' x' q /\
           (kx q - inject_Z x' == kx p - inject_Z x)%Q /\ (ky q - inject_Z y' == ky p - inject_Z y)%Q) /\
      ((kx p < 0 \/ inject_Z (aw d * cw) <= kx p \/ ky p < 0 \/ inject_Z (ah d * ch) <= ky p)%Q -> q = p)) ps qs.
Proof.
  intros d ch cw ps RE H W CH CW. destruct (rearranges_injective d RE) as [B I].
  unfold apply_jigsaw_to_coords. replace ((ah d =? 0) || (aw d =? 0)) with false by lia.
  rewrite (bounded_unravels d B). cbn [negb fst snd].
  induction ps as [|p ps [qs [E F]]]; [exists []; split; [reflexivity|constructor]|].
  assert (exists q, jigsaw_coord d (ah d * ch) (aw d * cw) p = Ok q) as [q Q].
  { assert ((kx p < 0 \/ inject_Z (aw d * cw) <= kx p \/ ky p < 0 \/ inject_Z (ah d * ch) <= ky p) \/
      ((0 <= kx p /\ kx p < inject_Z (aw d * cw)) /\ (0 <= ky p /\ ky p < inject_Z (ah d * ch))))%Q as [O|[[X1 X2] [Y1 Y2]]].
    { destruct (Qlt_le_dec (kx p) 0); [tauto|]. destruct (Qlt_le_dec (kx p) (inject_Z (aw d * cw))); [|tauto].
      destruct (Qlt_le_dec (ky p) 0); [tauto|]. destruct (Qlt_le_dec (ky p) (inject_Z (ah d * ch))); [|tauto]. tauto. }
    - exists p. apply jigsaw_coord_outside. exact O.
    - destruct (inside_cell (aw d) cw (kx p) CW X1 X2) as [c [C1 [C2 C3]]].
      destruct (inside_cell (ah d) ch (ky p) CH Y1 Y2) as [r [R1 [R2 R3]]].
      assert (in_grid d r c) as G by (split; assumption).
      destruct (proj1 RE r c G) as [r' [c' S]].
      destruct (jigsaw_coord_cell d ch cw r c r' c' p B CH CW G S C2 C3 R2 R3) as [q [Q _]]. exists q. exact Q. }
  exists (q :: qs). split.
  - unfold mapM in *. cbn [map sequence]. rewrite Q. cbn [bind]. rewrite E. reflexivity.
  - constructor; [|exact F]. split.
    + intros r c r' c' dy dx G S DY DX. cbn [at_cell]. intros [P1 [P2 [P3 P4]]].
      destruct (pixel_in_cell cw c dx (kx p) DX P1 P2) as [X1 X2]. destruct (pixel_in_cell ch r dy (ky p) DY P3 P4) as [Y1 Y2].
      destruct (jigsaw_coord_cell d ch cw r c r' c' p B CH CW G S X1 X2 Y1 Y2) as [q' [Q' [K1 K2]]].
      rewrite Q in Q'. injection Q' as <-.
      assert (inject_Z (c' * cw + dx) == inject_Z (c * cw + dx) + inject_Z ((c' - c) * cw))%Q as E1
        by (rewrite <- inject_Z_plus; apply inject_Z_injective; ring).
      assert (inject_Z (r' * ch + dy) == inject_Z (r * ch + dy) + inject_Z ((r' - r) * ch))%Q as E2
        by (rewrite <- inject_Z_plus; apply inject_Z_injective; ring).
      unfold on_pixel. rewrite !inject_Z_plus with (y := 1) in *. change (inject_Z 1) with 1%Q in *. rewrite !E1, !E2, K1, K2.
      split; [repeat split; lra|]. split; lra.
    + intros O. rewrite (jigsaw_coord_outside d _ _ p O) in Q. injection Q as <-. reflexivity.
Qed.
Print Assumptions C65_keypoints.
Example C65_ex5 : apply_jigsaw_to_coords [mkKp (5 # 2) 1; mkKp 4 0; mkKp (-1) 0] swapped_cells (2, 4) =
  Ok [mkKp (0 + ((5 # 2) - 2)) (0 + (1 - 0)); mkKp 4 0; mkKp (-1) 0]%Q.
Proof. vm_compute. reflexivity. Qed.

(** Jigsaw with allow_pad (the default) accepts every image size. The image is
    padded to the smallest multiples of the numbers of rows and columns, and
    afterwards every pixel of the input is found somewhere in the output
    together with the keypoints that lay on it. *)
Theorem C65_augmenter : forall (A : Type) (zero : A) (a : arr A) d ps,
  rearranges d -> 0 < ah d -> 0 < aw d -> 0 <= ah a -> 0 <= aw a ->
  exists b ks, jigsaw_image zero true a d = Ok b /\ jigsaw_keypoints true (mkKpsoi ps (ah a, aw a)) d = Ok ks /\
    kps_shape ks = (ah b, aw b) /\
    (multiple_of (ah d) (ah b) /\ ah a <= ah b /\ 0 < ah b /\ forall v, multiple_of (ah d) v -> 0 < v -> ah a <= v -> ah b <= v) /\
    (multiple_of (aw d) (aw b) /\ aw a <= aw b /\ 0 < aw b /\ forall v, multiple_of (aw d) v -> 0 < v -> aw a <= v -> aw b <= v) /\
    exists to : Z -> Z -> Z * Z,
      (forall y x, 0 <= y < ah a -> 0 <= x < aw a ->
         let '(y', x') := to y x in 0 <= y' < ah b /\ 0 <= x' < aw b /\ apx b y' x' = apx a y x) /\
      Forall2 (fun p q => forall y x, 0 <= y < ah a -> 0 <= x < aw a -> on_pixel y x p ->
         let '(y', x') := to y x in on_pixel y' x' q) ps (kps ks).
Proof.
  intros A zero a d ps RE H W HA WA. destruct (rearranges_injective d RE) as [B I].
  destruct (jigsaw_paddings_ok (ah a) (aw a) d HA WA H W) as [p [P [N [[ch [CH EH]] [[cw [CW EW]] [MH MW]]]]]].
  unfold jigsaw_image, jigsaw_keypoints. cbn [kps_shape]. rewrite P. cbn [bind].
  destruct (C65_pixels A zero (copy_make_border a p PMConstant zero) d ch cw RE H W) as [b [EB [HB [WB PX]]]].
  { cbn [copy_make_border ah]. exact EH. } { cbn [copy_make_border aw]. exact EW. }
  cbn [copy_make_border ah aw] in HB, WB.
  unfold crop_and_pad_kpsoi, shape_after_crop_and_pad. cbn [kps_shape fst snd]. rewrite no_crop by assumption. cbn [bind kps kps_shape kpsoi_shift].
  rewrite Z.add_0_l, !Z.sub_0_r. change (- 0 + t_top p) with (t_top p).
  set (ps' := map (fun i => kp_shift i (inject_Z (t_left p)) (inject_Z (t_top p))) ps).
  destruct (C65_keypoints d ch cw ps' RE H W CH CW) as [qs [EQ FQ]].
  rewrite EH. replace (aw a + t_right p + t_left p) with (aw d * cw) by lia. rewrite EQ. cbn [bind].
  exists b, (mkKpsoi qs (ah d * ch, aw d * cw)). split; [exact EB|]. split; [reflexivity|].
  cbn [kps_shape kps]. rewrite HB, WB. split; [f_equal; lia|].
  destruct N as [N1 [N2 [N3 N4]]].
  split; [|split].
  - split; [exists ch; lia|]. split; [lia|]. split; [nia|exact MH].
  - split; [exists cw; lia|]. split; [lia|]. split; [nia|exact MW].
  - exists (fun y x => let y1 := y + t_top p in let x1 := x + t_left p in
      let v := apx d (y1 / ch) (x1 / cw) in (v / aw d * ch + y1 mod ch, v mod aw d * cw + x1 mod cw)).
    assert (forall y, 0 <= y < ah a -> 0 <= (y + t_top p) / ch < ah d /\ 0 <= (y + t_top p) mod ch < ch /\
              y + t_top p = (y + t_top p) / ch * ch + (y + t_top p) mod ch) as DY
      by (intros y Y; apply number_cell; lia).
    assert (forall x, 0 <= x < aw a -> 0 <= (x + t_left p) / cw < aw d /\ 0 <= (x + t_left p) mod cw < cw /\
              x + t_left p = (x + t_left p) / cw * cw + (x + t_left p) mod cw) as DX
      by (intros x X; apply number_cell; lia).
    split.
    + intros y x Y X. cbv zeta. destruct (DY y Y) as [Y1 [Y2 Y3]]. destruct (DX x X) as [X1 [X2 X3]].
      set (y1 := y + t_top p) in *. set (x1 := x + t_left p) in *.
      assert (in_grid d (y1 / ch) (x1 / cw)) as G by (split; assumption).
      destruct (proj1 RE _ _ G) as [r' [c' S]]. pose proof S as [S1 [S2 S3]].
      pose proof (proj1 (sends_iff d _ _ r' c' B G) S) as [E1 E2]. rewrite <- E1, <- E2.
      split; [nia|]. split; [nia|].
      assert (apx b (r' * ch + y1 mod ch) (c' * cw + x1 mod cw) =
              apx (copy_make_border a p PMConstant zero) (y1 / ch * ch + y1 mod ch) (x1 / cw * cw + x1 mod cw)) as EX
        by (apply PX; assumption).
      rewrite EX, <- Y3, <- X3. cbn [copy_make_border apx]. subst y1 x1.
      rewrite !Z.add_simpl_r. rewrite !border_index_inside by assumption. reflexivity.
    + subst ps'. clear EQ EB PX. remember (map _ ps) as ps' eqn:EP. revert ps EP.
      induction FQ as [|p' q ps' qs [K _] FQ IH]; intros ps EP; destruct ps as [|p0 ps]; try discriminate; constructor.
      * injection EP as EP1 EP2. intros y x Y X [P1 [P2 [P3 P4]]]. cbv zeta.
        destruct (DY y Y) as [Y1 [Y2 Y3]]. destruct (DX x X) as [X1 [X2 X3]].
        set (y1 := y + t_top p) in *. set (x1 := x + t_left p) in *.
        assert (in_grid d (y1 / ch) (x1 / cw)) as G by (split; assumption).
        destruct (proj1 RE _ _ G) as [r' [c' S]].
        pose proof (proj1 (sends_iff d _ _ r' c' B G) S) as [E1 E2]. rewrite <- E1, <- E2.
        specialize (K _ _ _ _ (y1 mod ch) (x1 mod cw) G S Y2 X2). cbn [at_cell] in K. rewrite <- Y3, <- X3 in K.
        apply K. subst p' y1 x1. unfold on_pixel, kp_shift. cbn [kx ky]. rewrite !inject_Z_plus in *.
        repeat split; lra.
      * apply IH. injection EP as _ EP. exact EP.
Qed.
Print Assumptions C65_augmenter.
Example C65_ex6 : exists b, jigsaw_image 0 true (numbered 2 3) swapped_cells = Ok b /\
  map (fun c => apx b (fst c) (snd c)) (cells 2 4) = [2; 0; 0; 1; 12; 0; 10; 11] /\
  jigsaw_keypoints true (mkKpsoi [mkKp 2 1] (2, 3)) swapped_cells = Ok (mkKpsoi [mkKp (0 + (2 + 0 - 2)) (0 + (1 + 0 - 0))] (2, 4)%Z)%Q.
Proof. eexists. split; [vm_compute; reflexivity|]. split; vm_compute; reflexivity. Qed.

(** Heatmaps and segmentation maps keep the size of their array, their shape
    becomes that of the padded image; if the map has the image's size and no
    padding is needed, it moves like the image. *)
Theorem C65_maps : forall (A : Type) (zero : A) (resize : arr A -> shape2 -> arr A) (img : arr A) a d b,
  (forall m s, ah (resize m s) = fst s /\ aw (resize m s) = snd s) -> (forall m, resize m (ah m, aw m) = m) ->
  rearranges d -> 0 < ah d -> 0 < aw d -> 0 <= ah img -> 0 <= aw img -> jigsaw_image zero true img d = Ok b ->
  exists m s, jigsaw_map zero resize true a (ah img, aw img) d = Ok (m, s) /\
    ah m = ah a /\ aw m = aw a /\ s = (ah b, aw b) /\
    (multiple_of (ah d) (ah a) -> multiple_of (aw d) (aw a) -> 0 < ah a -> 0 < aw a -> ah a = ah img -> aw a = aw img ->
       exists m', jigsaw_image zero true a d = Ok m' /\ m = m').
Proof.
  intros A zero resize img a d b RS RI RE H W HI WI EB.
  destruct (jigsaw_paddings_ok (ah img) (aw img) d HI WI H W) as [p [P [N [[ch [CH EH]] [[cw [CW EW]] [MH MW]]]]]].
  unfold jigsaw_map, jigsaw_image in *. rewrite P in EB |- *. cbn [bind] in *.
  destruct (RS a (ah img, aw img)) as [R1 R2]. cbn [fst snd] in R1, R2.
  destruct (C65_pixels A zero (copy_make_border (resize a (ah img, aw img)) p PMConstant zero) d ch cw RE H W) as [mv [EM [HM [WM _]]]].
  { cbn [copy_make_border ah]. rewrite R1. exact EH. } { cbn [copy_make_border aw]. rewrite R2. exact EW. }
  rewrite EM. cbn [bind]. eexists. eexists. split; [reflexivity|]. destruct (RS mv (ah a, aw a)) as [Q1 Q2].
  split; [exact Q1|]. split; [exact Q2|].
  destruct (C65_pixels A zero (copy_make_border img p PMConstant zero) d ch cw RE H W EH EW) as [b' [EB' [HB [WB _]]]].
  rewrite EB in EB'. injection EB' as <-. cbn [copy_make_border ah aw] in HB, WB. rewrite HB, WB. split; [reflexivity|].
  intros MA MB PA PB E1 E2. rewrite E1, E2 in *. rewrite P. cbn [bind].
  rewrite <- E1, <- E2 in EM.
  rewrite (RI a) in EM. exists mv. split; [exact EM|].
  assert (ah mv = ah a /\ aw mv = aw a) as [V1 V2].
  { rewrite HM, WM. cbn [copy_make_border ah aw]. rewrite R1, R2. destruct N as [N1 [N2 [N3 N4]]].
    pose proof (MH (ah img) MA ltac:(lia) ltac:(lia)).
    pose proof (MW (aw img) MB ltac:(lia) ltac:(lia)). lia. }
  rewrite <- E1, <- E2. rewrite <- V1, <- V2. apply RI.
Qed.
Print Assumptions C65_maps.
Example C65_ex7 : let resize := fun (m : arr Z) (s : shape2) => if (ah m =? fst s) && (aw m =? snd s) then m else mkArr (fst s) (snd s) (fun _ _ => 7) in
  exists m, jigsaw_map 0 resize true (numbered 2 4) (2, 4) swapped_cells = Ok (m, (2, 4)) /\
    map (fun c => apx m (fst c) (snd c)) (cells 2 4) = [2; 3; 0; 1; 12; 13; 10; 11].
Proof. eexists. split; [vm_compute; reflexivity|vm_compute; reflexivity]. Qed.

(** Without allow_pad the size never changes; sizes that are not multiples
    are refused. *)
Theorem C65_without_padding : forall (A : Type) (zero : A) (a : arr A) d, 0 < ah d -> 0 < aw d ->
  (~ multiple_of (ah d) (ah a) \/ ~ multiple_of (aw d) (aw a) -> jigsaw_image zero false a d = Err AssertionError) /\
  (forall b, jigsaw_image zero false a d = Ok b -> ah b = ah a /\ aw b = aw a).
Proof.
  intros A zero a d H W. unfold jigsaw_image, jigsaw_paddings. cbn [bind].
  assert (ah (copy_make_border a (mkTrbl 0 0 0 0) PMConstant zero) = ah a /\ aw (copy_make_border a (mkTrbl 0 0 0 0) PMConstant zero) = aw a)
    as [E1 E2] by (cbn [copy_make_border ah aw t_top t_bottom t_left t_right]; lia).
  split.
  - intros N. apply C65_sizes_refused; [assumption..|]. rewrite E1, E2. exact N.
  - intros b. unfold apply_jigsaw. destruct (ah d =? 0); [discriminate|]. destruct (negb _); [discriminate|].
    destruct (aw d =? 0); [discriminate|]. destruct (negb _); [discriminate|]. destruct (negb _); [discriminate|].
    intros E. injection E as <-. cbn [ah aw] in *. lia.
Qed.
Print Assumptions C65_without_padding.
Example C65_ex8 : jigsaw_image 0 false (numbered 2 5) swapped_cells = Err AssertionError /\
  exists b, jigsaw_image 0 false (numbered 2 4) swapped_cells = Ok b /\ aw b = 4.
Proof. split; [reflexivity|]. eexists. split; vm_compute; reflexivity. Qed.
