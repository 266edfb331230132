(** C61-C63: blending of images, of annotations, and masks. *)
From Coq Require Import Qabs Lia Lqa.
From Verif Require Import Prelude PreludeFacts GeoModel SizeModel AriModel AriProofs DropSpec BlendModel BlendSpec BlendProofs.

(** ** C61: blending two images *)

(** uint8: every component is the weighted mean up to 1, and exactly the
    foreground at weight 1, exactly the background at weight 0. *)
Theorem C61_uint8 : forall eps nc np fg bg a,
  (0 <= eps)%Q -> (eps < 1)%Q -> nc <> 0%nat ->
  length fg = (np * nc)%nat -> length bg = length fg -> uint8 fg -> uint8 bg ->
  fits nc np a -> Forall in_unit (values a) ->
  exists r bg', blend_uint8 eps nc fg bg a = Ok (r, bg') /\ length r = length fg /\
    forall i, (i < length fg)%nat -> blended 1 eps (nth i fg 0) (nth i bg 0) (weight nc a i) (nth i r 0).
Proof.
  intros eps nc np fg bg a E0 E1 N L1 L2 U1 U2 F U.
  destruct (blend_ok eps nc np fg bg a E0 E1 N L1 L2 U1 U2 F U) as [r [bg' [A [B [C _]]]]]. exists r, bg'. auto.
Qed.
Print Assumptions C61_uint8.
Example C61_uint8_witness :
  blend_uint8 (1 # 100) 3 [10; 20; 30; 40; 50; 60] [0; 0; 0; 255; 255; 255] (APixels [1 # 4; 1]%Q) =
  Ok ([2; 5; 8; 40; 50; 60], [0; 0; 0; 0; 0; 0]) /\ fits 3 2 (APixels [1 # 4; 1]%Q) /\
  blend_uint8 (1 # 100) 3 [10; 20; 30] [0; 0; 0] (AChannels [1 # 4; 1; 0]%Q) = Ok ([2; 20; 0], [0; 0; 0]).
Proof. vm_compute. repeat split. Qed.

(** One weight for the whole image or one per channel: the result lies between
    the two images, is the nearest integer to the mean, and neither image's
    memory is written. *)
Theorem C61_uniform_weights : forall eps nc np fg bg a,
  (0 <= eps)%Q -> (eps < 1)%Q -> nc <> 0%nat ->
  length fg = (np * nc)%nat -> length bg = length fg -> uint8 fg -> uint8 bg ->
  fits nc np a -> Forall in_unit (values a) -> uniform a ->
  exists r, blend_uint8 eps nc fg bg a = Ok (r, bg) /\ length r = length fg /\
    forall i, (i < length fg)%nat ->
      between (nth i fg 0) (nth i bg 0) (nth i r 0) /\
      blended (1 # 2) eps (nth i fg 0) (nth i bg 0) (weight nc a i) (nth i r 0).
Proof.
  intros eps nc np fg bg a E0 E1 N L1 L2 U1 U2 F U UN.
  destruct (blend_ok eps nc np fg bg a E0 E1 N L1 L2 U1 U2 F U) as [r [bg' [A [B [C [D G]]]]]].
  rewrite (G (or_introl UN)) in A. exists r. split; [exact A|]. split; [exact B|].
  intros i Hi. destruct (D UN i Hi) as [X Y]. split; [exact X|]. destruct (C i Hi) as [C1 [_ [C2 C3]]].
  split; [exact C1|]. split; [exact Y|]. split; assumption.
Qed.
Print Assumptions C61_uniform_weights.

(** Two equal images blend to themselves under uniform weights ... *)
Theorem C61_same_images : forall eps nc np im a,
  (0 <= eps)%Q -> (eps < 1)%Q -> nc <> 0%nat -> length im = (np * nc)%nat -> uint8 im ->
  fits nc np a -> Forall in_unit (values a) -> uniform a ->
  exists r, blend_uint8 eps nc im im a = Ok (r, im) /\ forall i, (i < length im)%nat -> nth i r 0 = nth i im 0.
Proof.
  intros eps nc np im a E0 E1 N L U F V UN.
  destruct (C61_uniform_weights eps nc np im im a E0 E1 N L eq_refl U U F V UN) as [r [A [B C]]].
  exists r. split; [exact A|]. intros i Hi. destruct (C i Hi) as [X _]. unfold between in X. lia.
Qed.
Print Assumptions C61_same_images.

(** ... but not under a mask: each of the two products is rounded, so that 1
    becomes 0 and 3 becomes 4 at weight 1/2. *)
Theorem C61_same_images_masked_refuted :
  blend_uint8 (1 # 100) 1 [1; 3] [1; 3] (APixels [1 # 2; 1 # 2]%Q) = Ok ([0; 4], [0; 2]).
Proof. vm_compute. reflexivity. Qed.
Print Assumptions C61_same_images_masked_refuted.

(** The array given as background is left alone by large images (64*64 pixels
    or more) with one weight per pixel, but is overwritten with its own share
    by smaller ones. The documentation only allows [image_fg] to change. *)
Theorem C61_background_untouched_partial : forall eps nc np fg bg l,
  (0 <= eps)%Q -> (eps < 1)%Q -> nc <> 0%nat ->
  length fg = (np * nc)%nat -> length bg = length fg -> uint8 fg -> uint8 bg ->
  length l = np -> Forall in_unit l -> (64 * 64 <= np)%nat ->
  exists r, blend_uint8 eps nc fg bg (APixels l) = Ok (r, bg).
Proof.
  intros eps nc np fg bg l E0 E1 N L1 L2 U1 U2 F U BIG.
  destruct (blend_ok eps nc np fg bg (APixels l) E0 E1 N L1 L2 U1 U2 F U) as [r [bg' [A [_ [_ [_ G]]]]]].
  exists r. rewrite A, G; [reflexivity|]. right. split; [exact BIG|]. exists l. reflexivity.
Qed.
Print Assumptions C61_background_untouched_partial.
Theorem C61_background_untouched_refuted :
  exists eps nc fg bg a r bg', fits nc 2 a /\ Forall in_unit (values a) /\
    blend_uint8 eps nc fg bg a = Ok (r, bg') /\ bg' <> bg.
Proof.
  exists (1 # 100)%Q, 1%nat, [100; 100], [50; 50], (APixels [1 # 2; 1 # 4]%Q), [75; 63], [25; 38].
  split; [reflexivity|]. split; [repeat constructor; cbn; lra|]. split; [vm_compute; reflexivity|discriminate].
Qed.
Print Assumptions C61_background_untouched_refuted.

(** Weights outside [0, 1] are meant to be refused: only the first is looked at. *)
Theorem C61_first_weight_checked : forall eps nc fg bg q l,
  (0 <= eps)%Q -> (eps < 1)%Q -> length bg = length fg -> fg <> [] ->
  (length (q :: l) = length fg / nc)%nat -> ((q < 0)%Q /\ Exists (fun p => (eps < p)%Q) l \/ (1 < q)%Q /\ Exists (fun p => (p < 1 - eps)%Q) l) ->
  blend_uint8 eps nc fg bg (APixels (q :: l)) = Err AssertionError.
Proof.
  intros eps nc fg bg q l E0 E1 LB NE LL H. unfold blend_uint8. rewrite LB, Nat.eqb_refl. cbn [negb].
  destruct (Nat.eqb_spec (length fg) 0) as [Z|_]; [destruct fg; [contradiction|discriminate]|].
  assert (normalize_alphas nc (length fg / nc) (APixels (q :: l)) = Ok (APixels (q :: l))) as ->.
  { unfold normalize_alphas. cbn [values]. rewrite <- LL, Nat.eqb_refl. destruct l; [|reflexivity].
    destruct H as [[_ X]|[_ X]]; inversion X. }
  cbn [bind values hd].
  destruct (forallb (fun q0 => qleb (1 - eps) q0) (q :: l)) eqn:A.
  { exfalso. rewrite forallb_forall in A. destruct H as [[Q _]|[_ X]].
    - specialize (A q (or_introl eq_refl)). apply qleb_iff in A. lra.
    - apply Exists_exists in X. destruct X as [p [P X]]. specialize (A p (or_intror P)). apply qleb_iff in A. lra. }
  destruct (forallb (fun q0 => qleb q0 eps) (q :: l)) eqn:B.
  { exfalso. rewrite forallb_forall in B. destruct H as [[_ X]|[Q _]].
    - apply Exists_exists in X. destruct X as [p [P X]]. specialize (B p (or_intror P)). apply qleb_iff in B. lra.
    - specialize (B q (or_introl eq_refl)). apply qleb_iff in B. lra. }
  destruct (qleb 0 q) eqn:C; [|reflexivity]. destruct (qleb q 1) eqn:D; [|reflexivity]. qbool.
  destruct H as [[Q _]|[Q _]]; exfalso; lra.
Qed.
Print Assumptions C61_first_weight_checked.
Theorem C61_weights_checked_refuted :
  blend_uint8 (1 # 100) 1 [100; 100] [50; 50] (APixels [1 # 2; 3]%Q) = Ok ([75; 255], [25; 0]).
Proof. vm_compute. reflexivity. Qed.
Print Assumptions C61_weights_checked_refuted.

(** Other integers and booleans. *)
Theorem C61_other_integers : forall eps nc np fg bg a,
  (0 <= eps)%Q -> (eps < 1)%Q -> nc <> 0%nat ->
  length fg = (np * nc)%nat -> length bg = length fg ->
  fits nc np a -> Forall in_unit (values a) ->
  exists r, blend_other false eps nc fg bg a = Ok r /\ length r = length fg /\
    forall i, (i < length fg)%nat ->
      let f := nth i fg 0 in let b := nth i bg 0 in let w := weight nc a i in
      between f b (nth i r 0) /\ ((w == 1)%Q -> nth i r 0 = f) /\ ((w == 0)%Q -> nth i r 0 = b) /\
      ((Qabs (inject_Z (nth i r 0%Z) - mixed f b w) <= 1 # 2)%Q \/
       ((1 - eps <= w)%Q /\ nth i r 0 = f) \/ ((w <= eps)%Q /\ nth i r 0 = b)).
Proof.
  intros eps nc np fg bg a E0 E1 N L1 L2 F U.
  destruct (blend_other_ok false eps nc np fg bg a E0 E1 N L1 L2 ltac:(discriminate) F U) as [r [A [B C]]].
  exists r. split; [exact A|]. split; [exact B|]. intros i Hi. destruct (C i Hi) as [C1 [C2 [C3 [C4 _]]]].
  cbv zeta. auto.
Qed.
Print Assumptions C61_other_integers.
Example C61_other_integers_witness :
  blend_other false (1 # 100) 1 [1000; -3] [-1000; -3] (APixels [1 # 4; 1 # 2]%Q) = Ok [-500; -3].
Proof. vm_compute. reflexivity. Qed.

Theorem C61_booleans : forall eps nc np fg bg a,
  (0 <= eps)%Q -> (eps < 1)%Q -> nc <> 0%nat ->
  length fg = (np * nc)%nat -> length bg = length fg ->
  Forall (fun v => v = 0 \/ v = 1) fg -> Forall (fun v => v = 0 \/ v = 1) bg ->
  fits nc np a -> Forall in_unit (values a) ->
  exists r, blend_other true eps nc fg bg a = Ok r /\ length r = length fg /\
    forall i, (i < length fg)%nat ->
      let f := nth i fg 0 in let b := nth i bg 0 in let w := weight nc a i in
      between f b (nth i r 0) /\
      ((1 # 2 < w)%Q -> nth i r 0 = f) /\ ((w < 1 # 2)%Q -> nth i r 0 = b).
Proof.
  intros eps nc np fg bg a E0 E1 N L1 L2 BF BB F U.
  destruct (blend_other_ok true eps nc np fg bg a E0 E1 N L1 L2 ltac:(auto) F U) as [r [A [B C]]].
  exists r. split; [exact A|]. split; [exact B|]. intros i Hi. destruct (C i Hi) as [C1 [_ [_ [_ C5]]]]. cbv zeta.
  split; [exact C1|]. rewrite (C5 eq_refl). clear C C1 C5.
  assert (nth i fg 0 = 0 \/ nth i fg 0 = 1) as FB by (rewrite Forall_forall in BF; apply BF; apply nth_In; lia).
  assert (nth i bg 0 = 0 \/ nth i bg 0 = 1) as BB' by (rewrite Forall_forall in BB; apply BB; apply nth_In; lia).
  unfold mixed. destruct FB as [-> | ->], BB' as [-> | ->]; change (inject_Z 0) with 0%Q; change (inject_Z 1) with 1%Q;
    split; intros W; destruct (qltb _ _) eqn:T; qbool; try reflexivity; exfalso; lra.
Qed.
Print Assumptions C61_booleans.
Example C61_booleans_witness :
  blend_other true (1 # 100) 1 [1; 1; 0] [0; 0; 1] (APixels [3 # 4; 1 # 4; 1 # 4]%Q) = Ok [1; 0; 1].
Proof. vm_compute. reflexivity. Qed.

(** Wrong numbers of weights, and images of different sizes, are refused. *)
Theorem C61_wrong_sizes_raise : forall eps nc fg bg a,
  (length fg <> length bg -> blend_uint8 eps nc fg bg a = Err AssertionError /\
                             forall isb, blend_other isb eps nc fg bg a = Err AssertionError) /\
  (length fg = length bg -> fg <> [] -> length (values a) <> 1%nat ->
   (exists l, a = APixels l /\ length l <> (length fg / nc)%nat \/ a = AComponents l /\ length l <> (length fg / nc * nc)%nat) ->
   blend_uint8 eps nc fg bg a = Err AssertionError /\ forall isb, blend_other isb eps nc fg bg a = Err AssertionError).
Proof.
  intros eps nc fg bg a. unfold blend_uint8, blend_other. split.
  - intros H. apply Nat.eqb_neq in H. rewrite H. split; reflexivity.
  - intros H NE V [l D]. rewrite H, Nat.eqb_refl. cbn [negb].
    destruct (Nat.eqb_spec (length bg) 0) as [Z|_]; [destruct fg; [contradiction|cbn in H; lia]|].
    assert (normalize_alphas nc (length bg / nc) a = Err AssertionError) as ->; [|split; reflexivity].
    rewrite H in D. unfold normalize_alphas.
    destruct D as [[-> D]|[-> D]]; apply Nat.eqb_neq in D; cbn [values] in *; rewrite D;
      destruct l as [|q [|q2 l2]]; (reflexivity || (cbn in V; contradiction V; reflexivity)).
Qed.
Print Assumptions C61_wrong_sizes_raise.

(** ** C62: annotations of blended images *)

(** With constant weights, all annotations of a row come from the same branch;
    a single weight decides by itself, weights per channel by their mean. *)
Theorem C62_constant_weights : forall (B : Type) pc nb drawn (fg bg : list B),
  (blend_row pc nb drawn fg bg = fg \/ blend_row pc nb drawn fg bg = bg) /\
  ((pc <= 1 # 2)%Q -> forall q rest, drawn = q :: rest ->
     ((1 # 2 <= q)%Q -> blend_row pc nb drawn fg bg = fg) /\ ((q < 1 # 2)%Q -> blend_row pc nb drawn fg bg = bg)) /\
  ((1 # 2 < pc)%Q -> nb <> 0%nat -> (nb <= length drawn)%nat ->
     (Forall (fun q => (1 # 2 <= q)%Q) (firstn nb drawn) -> blend_row pc nb drawn fg bg = fg) /\
     (Forall (fun q => (q < 1 # 2)%Q) (firstn nb drawn) -> blend_row pc nb drawn fg bg = bg)).
Proof.
  intros B pc nb drawn fg bg. split; [apply blend_row_one_branch|]. split.
  - intros P q rest ->. apply blend_row_single. exact P.
  - intros. apply blend_row_channels; assumption.
Qed.
Print Assumptions C62_constant_weights.
Example C62_constant_weights_witness :
  blend_row 1 3 [1 # 10; 9 # 10; 8 # 10; 0]%Q [1; 2] [3; 4] = [1; 2] /\ blend_row 0 3 [1 # 10]%Q [1; 2] [3; 4] = [3; 4].
Proof. split; vm_compute; reflexivity. Qed.

(** Pointwise mode: a point inside the mask comes from the foreground where
    the mask exceeds 1/2, else from the background, and the number and order
    of the points stay. *)
Theorem C62_points_inside : forall m ps fg bg, length ps = length fg -> length fg = length bg ->
  exists r, blend_coordinates true m ps fg bg = Ok r /\ length r = length ps /\
    forall i d q, (i < length ps)%nat ->
      let y := np_round (snd (nth i ps d)) in let x := np_round (fst (nth i ps d)) in
      in_mask m y x -> apx m y x = [q] ->
      ((1 # 2 < q)%Q -> nth i r d = nth i fg d) /\ ((q <= 1 # 2)%Q -> nth i r d = nth i bg d).
Proof.
  intros m ps fg bg A B. destruct (blend_coordinates_pointwise m ps fg bg A B) as [r [R [L N]]].
  exists r. split; [exact R|]. split; [exact L|]. intros i d q Hi. cbv zeta. intros [Y X] M.
  rewrite (N i d Hi). unfold blend_point.
  set (y := np_round (snd (nth i ps d))) in *. set (x := np_round (fst (nth i ps d))) in *.
  replace ((0 <=? y) && (y <? ah m) && (0 <=? x) && (x <? aw m)) with true by lia.
  rewrite M. cbn [average_or_1]. pose proof (average_one q) as AV.
  destruct (qltb (1 # 2) (average [q])) eqn:T; qbool; split; intros; try reflexivity; exfalso; lra.
Qed.
Print Assumptions C62_points_inside.
Example C62_points_inside_witness :
  blend_coordinates true (mkArr 2 2 (fun y x => if x =? 0 then [1%Q] else [0%Q])) [(0, 1); (1, 0)]%Q [(10, 10); (11, 11)]%Q [(20, 20); (21, 21)]%Q
  = Ok [(10, 10); (21, 21)]%Q.
Proof. vm_compute. reflexivity. Qed.

(** Points outside of the image follow neither branch: they become their own
    position before the augmentation, rounded to integers. *)
Theorem C62_points_outside_refuted :
  exists m p f b r, blend_coordinates true m [p] [f] [b] = Ok [r] /\ (f = p /\ b = p) /\ ~ (fst r == fst p)%Q.
Proof.
  exists (mkArr 4 4 (fun _ _ => [0%Q])), (- (27 # 10), 1)%Q, (- (27 # 10), 1)%Q, (- (27 # 10), 1)%Q, (- (3), 1)%Q.
  split; [vm_compute; reflexivity|]. split; [split; reflexivity|]. cbn. lra.
Qed.
Print Assumptions C62_points_outside_refuted.

(** Either-or mode: all points from one branch, by the mean of the mask. *)
Theorem C62_either_or : forall m ps fg bg, length ps = length fg -> length fg = length bg ->
  ((mask_count m == 0)%Q -> blend_coordinates false m ps fg bg = Ok fg) /\
  ((mask_count m * (1 # 2) < mask_total m)%Q -> blend_coordinates false m ps fg bg = Ok fg) /\
  (~ (mask_count m == 0)%Q -> (mask_total m <= mask_count m * (1 # 2))%Q -> blend_coordinates false m ps fg bg = Ok bg).
Proof. exact blend_coordinates_mean. Qed.
Print Assumptions C62_either_or.
Example C62_either_or_witness :
  blend_coordinates false (mkArr 1 2 (fun y x => [3 # 4]%Q)) [(0, 0)]%Q [(1, 1)]%Q [(2, 2)]%Q = Ok [(1, 1)]%Q /\
  (mask_total (mkArr 1 2 (fun y x => [3 # 4]%Q)) == 3 # 2)%Q /\ (mask_count (mkArr 1 2 (fun y x => [3 # 4]%Q)) == 2)%Q.
Proof. repeat split; vm_compute; reflexivity. Qed.

(** A branch that adds or removes points is refused. *)
Theorem C62_changed_counts_raise : forall pointwise m ps fg bg,
  length ps <> length fg \/ length fg <> length bg -> blend_coordinates pointwise m ps fg bg = Err AssertionError.
Proof. exact blend_coordinates_counts. Qed.
Print Assumptions C62_changed_counts_raise.

(** Cells of maps come from exactly one branch: no blended class ids. *)
Theorem C62_maps : forall (B : Type) m y x (fg bg : B) q, apx m y x = [q] -> in_unit q ->
  ((1 # 2 <= q)%Q -> blend_map_cell m y x fg bg = fg) /\ ((q < 1 # 2)%Q -> blend_map_cell m y x fg bg = bg).
Proof.
  intros B m y x fg bg q M [U0 U1]. unfold blend_map_cell. rewrite M. cbn [average_or_1].
  pose proof (average_one q) as A. unfold qclip. destruct (qleb (1 # 2) _) eqn:T; qbool; revert T; qminmax; intros T;
    split; intros; try reflexivity; exfalso; lra.
Qed.
Print Assumptions C62_maps.

(** Where the mask is exactly 1/2, maps follow the foreground and points the
    background. *)
Theorem C62_same_branch_refuted :
  exists m, in_mask m 0 0 /\ apx m 0 0 = [1 # 2]%Q /\
    blend_map_cell m 0 0 1 2 = 1 /\ blend_coordinates true m [(0, 0)%Q] [(1, 1)%Q] [(2, 2)%Q] = Ok [(2, 2)%Q].
Proof. exists (mkArr 1 1 (fun _ _ => [1 # 2]%Q)). vm_compute. repeat split; discriminate. Qed.
Print Assumptions C62_same_branch_refuted.

(** ** C63: masks *)

(** A gradient that starts before it ends: one value per pixel of the axis,
    moving monotonically from the first value to the second, never outside of
    them, constant before the start and after the end. *)
Theorem C63_gradient : forall size lo hi start_at end_at,
  0 <= size -> in_unit lo -> in_unit hi -> (start_at <= end_at)%Q ->
  length (gradient size lo hi start_at end_at) = Z.to_nat size /\
  exists t : nat -> Q,
    (forall i, in_unit (t i)) /\ (forall i j, (i <= j)%nat -> (t i <= t j)%Q) /\
    (forall i, (i < Z.to_nat size)%nat ->
       (nth i (gradient size lo hi start_at end_at) 0%Q == lo + (hi - lo) * t i)%Q /\
       ((inject_Z (Z.of_nat i + 1) <= start_at * inject_Z size)%Q -> (t i == 0)%Q) /\
       ((end_at * inject_Z size < inject_Z (Z.of_nat i + 1))%Q -> (t i == 1)%Q)).
Proof. exact gradient_ok. Qed.
Print Assumptions C63_gradient.
Example C63_gradient_witness :
  map Qred (gradient 8 (1 # 4) 1 (1 # 4) (3 # 4)) = [1 # 4; 1 # 4; 1 # 4; 1 # 2; 3 # 4; 1; 1; 1]%Q.
Proof. vm_compute. reflexivity. Qed.

(** A gradient whose end comes before its start leaves the requested values. *)
Theorem C63_inverted_gradient_refuted :
  map Qred (gradient 4 0 (1 # 4) 1 0) = [1; 11 # 12; 5 # 6; 3 # 4]%Q.
Proof. vm_compute. reflexivity. Qed.
Print Assumptions C63_inverted_gradient_refuted.

(** Grids: as large as the image; every cell is filled with its own value,
    every pixel, also in the remainder along the borders, has one of the values. *)
Theorem C63_grid : forall h w nr nc alphas, 0 < h -> 0 < w ->
  clipped nr h * clipped nc w <= Z.of_nat (length alphas) ->
  exists m, grid_mask h w nr nc alphas = Ok m /\ ah m = h /\ aw m = w /\
    (forall r c dy dx, 0 <= r < clipped nr h -> 0 <= c < clipped nc w ->
       0 <= dy < cell_size h nr -> 0 <= dx < cell_size w nc ->
       apx m (cell_start h nr + r * cell_size h nr + dy) (cell_start w nc + c * cell_size w nc + dx)
       = nth (Z.to_nat (r * clipped nc w + c)) alphas 0%Q) /\
    (forall y x, In (apx m y x) (firstn (Z.to_nat (clipped nr h * clipped nc w)) alphas)).
Proof. exact grid_ok. Qed.
Print Assumptions C63_grid.
Example C63_grid_witness :
  exists m, grid_mask 5 4 2 2 [1 # 10; 2 # 10; 3 # 10; 4 # 10]%Q = Ok m /\ rows_of m =
    [1 # 10; 1 # 10; 2 # 10; 2 # 10;  1 # 10; 1 # 10; 2 # 10; 2 # 10;
     3 # 10; 3 # 10; 4 # 10; 4 # 10;  3 # 10; 3 # 10; 4 # 10; 4 # 10;
     3 # 10; 3 # 10; 4 # 10; 4 # 10]%Q.
Proof. eexists. split; [vm_compute; reflexivity|]. vm_compute. reflexivity. Qed.

Theorem C63_grid_too_few_values : forall h w nr nc alphas, 0 < h -> 0 < w ->
  Z.of_nat (length alphas) < clipped nr h * clipped nc w -> grid_mask h w nr nc alphas = Err AssertionError.
Proof. exact grid_short. Qed.
Print Assumptions C63_grid_too_few_values.

(** Checkerboards: neighbouring cells differ, the upper left one is 1, nothing
    but 0 and 1 occurs. *)
Theorem C63_checkerboard : forall h w nr nc, 0 < h -> 0 < w ->
  exists m, checkerboard_mask h w nr nc = Ok m /\ ah m = h /\ aw m = w /\
    (forall r c dy dx, 0 <= r < clipped nr h -> 0 <= c < clipped nc w ->
       0 <= dy < cell_size h nr -> 0 <= dx < cell_size w nc ->
       (apx m (cell_start h nr + r * cell_size h nr + dy) (cell_start w nc + c * cell_size w nc + dx)
       == if Z.even (r + c) then 1 else 0)%Q) /\
    (forall y x, (apx m y x == 0)%Q \/ (apx m y x == 1)%Q).
Proof. exact checkerboard_ok. Qed.
Print Assumptions C63_checkerboard.
Example C63_checkerboard_witness :
  exists m, checkerboard_mask 2 4 2 4 = Ok m /\ rows_of m = [1; 0; 1; 0; 0; 1; 0; 1]%Q.
Proof. eexists. split; [vm_compute; reflexivity|]. vm_compute. reflexivity. Qed.

(** Class ids: 1 exactly where some channel of the map holds one of the ids. *)
Theorem C63_class_ids : forall sm ids y x,
  ((exists id, In id ids /\ In id (apx sm y x)) -> apx (class_id_mask sm ids) y x = 1%Q) /\
  ((forall id, In id ids -> ~ In id (apx sm y x)) -> apx (class_id_mask sm ids) y x = 0%Q).
Proof. exact class_mask_ok. Qed.
Print Assumptions C63_class_ids.
Example C63_class_ids_witness :
  rows_of (class_id_mask (mkArr 1 3 (fun _ x => [x; x + 1])) [2; 7]) = [0; 1; 1]%Q.
Proof. vm_compute. reflexivity. Qed.

(** Bounding boxes: 1 exactly at the pixels of the image that some box with a
    wanted label covers. *)
Theorem C63_boxes : forall h w boxes labels y x, 0 <= y < h -> 0 <= x < w ->
  ((exists b, In b boxes /\ selected labels b /\ covered b y x) -> apx (box_mask h w boxes labels) y x = 1%Q) /\
  ((forall b, In b boxes -> ~ (selected labels b /\ covered b y x)) -> apx (box_mask h w boxes labels) y x = 0%Q).
Proof.
  intros h w boxes labels y x Y X. unfold box_mask. cbn [apx].
  destruct (paint_all h w labels boxes (fun _ _ => 0%Q) y x Y X) as [A [B _]]. split; assumption.
Qed.
Print Assumptions C63_boxes.
Example C63_boxes_witness :
  rows_of (box_mask 2 3 [mkLbox (1 # 2) (-1) 2 1 (Some 5); mkLbox 0 0 3 3 (Some 6)] (Some [Some 5])) = [1; 1; 0; 0; 0; 0]%Q.
Proof. vm_compute. reflexivity. Qed.

(** Inverting twice, or not at all, gives the mask back; inverting keeps
    values in [0, 1]. *)
Theorem C63_inverted_masks : forall p m,
  ah (invert_mask p m) = ah m /\ aw (invert_mask p m) = aw m /\
  (forall y x, in_unit (apx m y x) -> in_unit (apx (invert_mask p m) y x)) /\
  (forall y x, (apx (invert_mask p (invert_mask p m)) y x == apx m y x)%Q) /\
  ((p < 1 # 2)%Q -> invert_mask p m = m) /\
  ((1 # 2 <= p)%Q -> forall y x, (apx (invert_mask p m) y x + apx m y x == 1)%Q).
Proof.
  intros p m. unfold invert_mask. destruct (qleb (1 # 2) p) eqn:E; cbn [ah aw apx]; qbool; unfold in_unit.
  - split; [reflexivity|]. split; [reflexivity|]. split; [intros; lra|]. split; [intros; lra|]. split; [intros; exfalso; lra|intros; lra].
  - split; [reflexivity|]. split; [reflexivity|]. split; [auto|]. split; [reflexivity|]. split; [reflexivity|intros; exfalso; lra].
Qed.
Print Assumptions C63_inverted_masks.
Example C63_inverted_masks_witness :
  map Qred (rows_of (invert_mask 1 (mkArr 1 2 (fun _ x => if x =? 0 then 1 # 4 else 1)%Q))) = [3 # 4; 0]%Q.
Proof. vm_compute. reflexivity. Qed.

(** Values drawn for a batch are dealt out in order, none lost or used twice. *)
Theorem C63_values_dealt_out : forall (A : Type) (l : list A) sizes,
  length l = fold_right plus 0%nat sizes -> cut l sizes (split_list l sizes 0).
Proof. intros A l sizes H. apply (split_list_cut l sizes 0). exact H. Qed.
Print Assumptions C63_values_dealt_out.
Example C63_values_dealt_out_witness : split_list [1; 2; 3; 4] [1; 0; 3]%nat 0 = [[1]; []; [2; 3; 4]].
Proof. reflexivity. Qed.
