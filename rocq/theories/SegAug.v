(** Proofs about Voronoi and Superpixels. *)
From Coq Require Import Lia Lqa.
From Verif Require Import Prelude PreludeFacts GeoModel UtilModel UtilProofs KeepModel KeepProofs SegModel SegSpec SegProofs SegRest SegPts.

Section A.
Variable cv2_resize : option ipv -> shape2 -> arr Z -> Z -> Z -> Z.
Variable kd_query : list point -> point -> nat.
Variable slic : shape2 -> Z -> arr Z.

Lemma imresize_some : forall m th tw ip, usable m -> 0 < th -> 0 < tw -> ip_in ip valid_ips = true ->
  exists m', imresize cv2_resize m (th, tw) (Some ip) = Ok m' /\ i_shape m' = (th, tw) /\
    i_nc m' = i_nc m /\ i_int32 m' = i_int32 m.
Proof.
  intros m th tw ip [H [W [N I]]] TH TW V. unfold imresize, i_shape.
  destruct (Z.ltb_spec th 0); [lia|]. destruct (Z.ltb_spec tw 0); [lia|]. cbn [orb].
  destruct ((th =? ah (i_px m)) && (tw =? aw (i_px m))) eqn:E.
  - apply andb_true_iff in E as [E1 E2]. apply Z.eqb_eq in E1, E2. exists m. subst. auto.
  - destruct (Z.eqb_spec th 0); [lia|]. destruct (Z.eqb_spec tw 0); [lia|]. destruct (Z.eqb_spec (i_nc m) 0); [lia|].
    destruct (Z.eqb_spec (ah (i_px m)) 0); [lia|]. destruct (Z.eqb_spec (aw (i_px m)) 0); [lia|]. cbn [orb].
    rewrite V, I. cbn. eexists. split; [reflexivity|]. auto.
Qed.
Lemma imresize_zero : forall m th tw ip, usable m -> 0 <= th -> 0 <= tw -> th = 0 \/ tw = 0 ->
  exists m', imresize cv2_resize m (th, tw) (Some ip) = Ok m' /\ i_shape m' = (th, tw) /\
    i_nc m' = i_nc m /\ i_int32 m' = i_int32 m.
Proof.
  intros m th tw ip [H [W [N I]]] TH TW Z. unfold imresize, i_shape.
  destruct (Z.ltb_spec th 0); [lia|]. destruct (Z.ltb_spec tw 0); [lia|]. cbn [orb].
  destruct ((th =? ah (i_px m)) && (tw =? aw (i_px m))) eqn:E.
  - apply andb_true_iff in E as [E1 E2]. apply Z.eqb_eq in E1, E2. lia.
  - assert ((th =? 0) || (tw =? 0) || (i_nc m =? 0) = true) as ->.
    { destruct Z as [-> | ->]; [reflexivity|]. rewrite Z.eqb_refl, orb_true_r. reflexivity. }
    eexists. split; [reflexivity|]. auto.
Qed.
Lemma imresize_from_zero : forall m th tw ip, ah (i_px m) = 0 \/ aw (i_px m) = 0 -> i_nc m <> 0 -> 0 < th -> 0 < tw ->
  imresize cv2_resize m (th, tw) (Some ip) = Err AssertionError.
Proof.
  intros m th tw ip Z N TH TW. unfold imresize, i_shape.
  destruct (Z.ltb_spec th 0); [lia|]. destruct (Z.ltb_spec tw 0); [lia|]. cbn [orb].
  destruct ((th =? ah (i_px m)) && (tw =? aw (i_px m))) eqn:E.
  - apply andb_true_iff in E as [E1 E2]. apply Z.eqb_eq in E1, E2. lia.
  - destruct (Z.eqb_spec th 0); [lia|]. destruct (Z.eqb_spec tw 0); [lia|]. destruct (Z.eqb_spec (i_nc m) 0); [lia|]. cbn [orb].
    assert ((ah (i_px m) =? 0) || (aw (i_px m) =? 0) = true) as ->; [|reflexivity].
    destruct Z as [-> | ->]; [reflexivity|]. rewrite Z.eqb_refl, orb_true_r. reflexivity.
Qed.

(** The size of an axis after the reduction. *)
Lemma reduced : forall n ms size, 0 <= n -> 0 <= ms -> 0 < size ->
  py_int (inject_Z n * (inject_Z ms / inject_Z size)) = n * ms / size.
Proof.
  intros n ms size N M S.
  assert (inject_Z n * (inject_Z ms / inject_Z size) == inject_Z (n * ms) / inject_Z size)%Q as E.
  { rewrite inject_Z_mult. field. apply inject_nz. lia. }
  assert (0 <= inject_Z (n * ms) / inject_Z size)%Q as P.
  { apply Qle_shift_div_l; [apply inject_pos, S|]. rewrite Qmult_0_l. apply inject_nonneg. nia. }
  unfold py_int. assert (qleb 0 (inject_Z n * (inject_Z ms / inject_Z size)) = true) as -> by (apply qleb_iff; rewrite E; exact P).
  rewrite E. rewrite Zdiv_Qdiv. reflexivity.
Qed.

Lemma ensure_fits : forall m ms ip, fits m ms -> ensure_max_size cv2_resize m ms ip = Ok m.
Proof.
  intros m [ms|] ip F; [|reflexivity]. unfold ensure_max_size. cbn in *.
  destruct (Z.gtb_spec (Z.max (ah (i_px m)) (aw (i_px m))) ms); [lia|reflexivity].
Qed.
Lemma ensure_thick : forall m ms ip, usable m -> thick m ms -> ip_in ip valid_ips = true ->
  exists m1, ensure_max_size cv2_resize m ms ip = Ok m1 /\ usable m1 /\ i_nc m1 = i_nc m.
Proof.
  intros m [ms|] ip U T V; [|exists m; auto]. pose proof U as [H [W [N I]]]. unfold ensure_max_size. cbn in T |- *.
  destruct (Z.gtb_spec (Z.max (ah (i_px m)) (aw (i_px m))) ms) as [L|L]; [|exists m; auto].
  destruct T as [T|[P T]]; [lia|]. unfold max_size_shape. cbn [fst snd i_shape].
  set (h := ah (i_px m)) in *. set (w := aw (i_px m)) in *.
  rewrite !reduced by lia.
  destruct (imresize_some m (h * ms / Z.max h w) (w * ms / Z.max h w) ip U) as [m1 [R [S [C J]]]];
    [apply Z.div_str_pos; nia|apply Z.div_str_pos; nia|exact V|].
  exists m1. split; [exact R|]. split; [|exact C]. unfold i_shape in S. injection S as S1 S2.
  split; [rewrite S1; apply Z.div_str_pos; nia|]. split; [rewrite S2; apply Z.div_str_pos; nia|]. split; [lia|congruence].
Qed.
Lemma ensure_thin : forall m ms ip, usable m -> 0 < ms -> ms < Z.max (ah (i_px m)) (aw (i_px m)) ->
  Z.min (ah (i_px m)) (aw (i_px m)) * ms < Z.max (ah (i_px m)) (aw (i_px m)) ->
  exists m1, ensure_max_size cv2_resize m (Some ms) ip = Ok m1 /\ (ah (i_px m1) = 0 \/ aw (i_px m1) = 0) /\
    wf_arr (i_px m1) /\ i_nc m1 = i_nc m.
Proof.
  intros m ms ip U P L T. pose proof U as [H [W [N I]]]. unfold ensure_max_size. cbn.
  destruct (Z.gtb_spec (Z.max (ah (i_px m)) (aw (i_px m))) ms) as [L'|L']; [|lia].
  unfold max_size_shape. cbn [fst snd i_shape].
  set (h := ah (i_px m)) in *. set (w := aw (i_px m)) in *. rewrite !reduced by lia.
  assert (0 <= h * ms / Z.max h w) as A1 by (apply Z.div_pos; nia).
  assert (0 <= w * ms / Z.max h w) as A2 by (apply Z.div_pos; nia).
  assert (h * ms / Z.max h w = 0 \/ w * ms / Z.max h w = 0) as Z0.
  { destruct (Z.le_gt_cases h w); [left|right]; apply Z.div_small; nia. }
  destruct (imresize_zero m (h * ms / Z.max h w) (w * ms / Z.max h w) ip U A1 A2 Z0) as [m1 [R [S [C J]]]].
  exists m1. split; [exact R|]. unfold i_shape in S. injection S as S1 S2.
  split; [rewrite S1, S2; exact Z0|]. split; [split; [rewrite S1|rewrite S2]; assumption|exact C].
Qed.

Lemma back_shape : forall m m1 px ip, usable m -> usable m1 -> ah px = ah (i_px m1) -> aw px = aw (i_px m1) ->
  i_nc m1 = i_nc m -> ip_in ip valid_ips = true ->
  exists out, back_to cv2_resize (mkImg (i_int32 m1) (i_nc m1) px) (i_shape3 m) ip = Ok out /\
    i_shape out = i_shape m /\ i_nc out = i_nc m.
Proof.
  intros m m1 px ip U [H [W [N I]]] H1 W1 C V. unfold back_to, i_shape3. cbn [fst snd i_nc].
  destruct (shape2_eqb (i_shape (mkImg (i_int32 m1) (i_nc m1) px)) (i_shape m) && (i_nc m1 =? i_nc m)) eqn:E.
  - eexists. split; [reflexivity|]. apply andb_true_iff in E as [E _]. apply shape2_eqb_iff in E. split; [exact E|exact C].
  - destruct (imresize_some (mkImg (i_int32 m1) (i_nc m1) px) (ah (i_px m)) (aw (i_px m)) ip) as [out [R [S [C' _]]]].
    + unfold usable. cbn. rewrite H1, W1. auto.
    + apply U.
    + apply U.
    + exact V.
    + exists out. split; [exact R|]. split; [exact S|]. rewrite C'. exact C.
Qed.
Lemma back_same : forall m px ip, ah px = ah (i_px m) -> aw px = aw (i_px m) ->
  back_to cv2_resize (mkImg (i_int32 m) (i_nc m) px) (i_shape3 m) ip = Ok (mkImg (i_int32 m) (i_nc m) px).
Proof.
  intros m px ip H W. unfold back_to, i_shape3, i_shape. cbn [fst snd i_nc i_px]. rewrite H, W.
  assert (shape2_eqb (ah (i_px m), aw (i_px m)) (ah (i_px m), aw (i_px m)) = true) as -> by (apply shape2_eqb_iff; reflexivity).
  rewrite Z.eqb_refl. reflexivity.
Qed.
Lemma back_fails : forall m m1 px ip, usable m -> (ah px = 0 \/ aw px = 0) -> i_nc m1 = i_nc m ->
  back_to cv2_resize (mkImg (i_int32 m1) (i_nc m1) px) (i_shape3 m) ip = Err AssertionError.
Proof.
  intros m m1 px ip [H [W [N I]]] Z C. unfold back_to, i_shape3. cbn [fst snd i_nc].
  assert (shape2_eqb (i_shape (mkImg (i_int32 m1) (i_nc m1) px)) (i_shape m) = false) as ->.
  { destruct (shape2_eqb _ _) eqn:E; [|reflexivity]. apply shape2_eqb_iff in E. unfold i_shape in E. cbn in E.
    injection E as E1 E2. lia. }
  cbn [andb]. apply imresize_from_zero; cbn; try assumption; lia.
Qed.

(* ------------------------------------------------------------------ *)
(** * Voronoi *)

Section V.
Variable points : shape2 -> res (list point).
Variable flags : nat -> list bool.

Lemma segment_voronoi_shape : forall nc im cells, kd_ok kd_query -> wf_arr im -> nc <> 0 ->
  (forall n, length (flags n) = n) ->
  exists px, segment_voronoi kd_query true D8 nc im cells (Some (flags (length cells))) = Ok px /\
    ah px = ah im /\ aw px = aw im.
Proof.
  intros nc im cells KD WF NC FL. destruct cells as [|c cells].
  - exists im. auto.
  - destruct (voronoi_ok kd_query nc im (c :: cells) (Some (flags (length (c :: cells)))) KD WF NC) as [out [cell [R [_ [A [B _]]]]]];
      [discriminate|intros f E; injection E as <-; apply FL|]. exists out. auto.
Qed.

Lemma voronoi_shape : forall ms ip m, usable m -> thick m ms -> ip_in ip valid_ips = true -> kd_ok kd_query ->
  (forall s, exists cells, points s = Ok cells) -> (forall n, length (flags n) = n) ->
  exists out, voronoi_image cv2_resize kd_query true ms ip points flags m = Ok out /\
    i_shape out = i_shape m /\ i_nc out = i_nc m.
Proof.
  intros ms ip m U T V KD P FL. destruct (ensure_thick m ms ip U T V) as [m1 [E [U1 C]]].
  unfold voronoi_image. rewrite E. cbn [bind]. destruct (P (i_shape m1)) as [cells PC]. rewrite PC. cbn [bind].
  pose proof U1 as [H [W [N I]]].
  destruct (segment_voronoi_shape (i_nc m1) (i_px m1) cells KD) as [px [S [S1 S2]]]; [split; lia|lia|exact FL|].
  rewrite S. cbn [bind]. apply (back_shape m m1); assumption.
Qed.
Lemma voronoi_thin : forall ms ip m, usable m -> 0 < ms -> ms < Z.max (ah (i_px m)) (aw (i_px m)) ->
  Z.min (ah (i_px m)) (aw (i_px m)) * ms < Z.max (ah (i_px m)) (aw (i_px m)) ->
  (forall s, exists cells, points s = Ok cells) ->
  voronoi_image cv2_resize kd_query true (Some ms) ip points flags m = Err AssertionError.
Proof.
  intros ms ip m U P0 L T P. destruct (ensure_thin m ms ip U P0 L T) as [m1 [E [Z [WF C]]]].
  unfold voronoi_image. rewrite E. cbn [bind]. destruct (P (i_shape m1)) as [cells PC]. rewrite PC. cbn [bind].
  assert (segment_voronoi kd_query true D8 (i_nc m1) (i_px m1) cells (Some (flags (length cells))) = Ok (i_px m1)) as ->.
  { unfold segment_voronoi. destruct cells; [reflexivity|]. unfold replace_segments.
    assert ((ah (i_px m1) =? 0) || (aw (i_px m1) =? 0) || (i_nc m1 =? 0) = true) as ->; [|reflexivity].
    destruct Z as [-> | ->]; [reflexivity|]. rewrite Z.eqb_refl, orb_true_r. reflexivity. }
  cbn [bind]. apply back_fails; assumption.
Qed.
Lemma voronoi_small : forall ms ip m cells, usable m -> fits m ms -> kd_ok kd_query ->
  points (i_shape m) = Ok cells -> cells <> [] -> length (flags (length cells)) = length cells ->
  exists px cell, voronoi_image cv2_resize kd_query true ms ip points flags m = Ok (mkImg (i_int32 m) (i_nc m) px) /\
    (forall y x, inside (i_px m) y x -> nearest cells (centre y x) (cell y x)) /\
    averaged (fun c => nth (Z.to_nat c) (flags (length cells)) false = true) (i_px m) (cell_map (i_px m) cell) px.
Proof.
  intros ms ip m cells U F KD P NE FL. unfold voronoi_image. rewrite ensure_fits by exact F. cbn [bind]. rewrite P. cbn [bind].
  pose proof U as [H [W [N I]]].
  destruct (voronoi_ok kd_query (i_nc m) (i_px m) cells (Some (flags (length cells))) KD) as [px [cell [R [NR A]]]];
    [split; lia|lia|exact NE|intros f E; injection E as <-; exact FL|].
  rewrite R. cbn [bind]. exists px, cell. split; [|split; [exact NR|exact A]].
  destruct A as [A1 [A2 _]]. apply back_same; assumption.
Qed.
Lemma voronoi_none : forall ms ip m cells, usable m -> fits m ms -> kd_ok kd_query ->
  points (i_shape m) = Ok cells -> length (flags (length cells)) = length cells -> ~ In true (flags (length cells)) ->
  exists out, voronoi_image cv2_resize kd_query true ms ip points flags m = Ok out /\
    arr_eq (i_px out) (i_px m) /\ i_nc out = i_nc m.
Proof.
  intros ms ip m cells U F KD P FL NT. destruct cells as [|c cells].
  - unfold voronoi_image. rewrite ensure_fits by exact F. cbn [bind]. rewrite P. cbn [bind segment_voronoi].
    exists (mkImg (i_int32 m) (i_nc m) (i_px m)). split; [apply back_same; reflexivity|]. cbn. repeat split.
  - destruct (voronoi_small ms ip m (c :: cells) U F KD P ltac:(discriminate) FL) as [px [cell [R [_ [A1 [A2 A3]]]]]].
    eexists. split; [exact R|]. cbn [i_px i_nc]. split; [|reflexivity]. split; [exact A1|]. split; [exact A2|].
    rewrite A1, A2. intros y x Y X. apply A3; [split; assumption|]. intro C. apply NT. rewrite <- C.
    destruct (nth_in_or_default (Z.to_nat (apx (cell_map (i_px m) cell) y x)) (flags (length (c :: cells))) false) as [i|D]; [exact i|].
    exfalso. congruence.
Qed.
End V.

(* ------------------------------------------------------------------ *)
(** * Superpixels *)

Section S.
Variable samples : nat -> list Q.

Lemma all_zero_iff : forall l, (forall q, In q l -> 0 <= q)%Q -> l <> [] ->
  forallb (fun q => qleb q 0) l && existsb (fun q => qeqb q 0) l = true <-> forall q, In q l -> (q == 0)%Q.
Proof.
  intros l P NE. rewrite andb_true_iff, forallb_forall, existsb_exists. split.
  - intros [A _] q I. specialize (A q I). apply qleb_iff in A. specialize (P q I). apply Qle_antisym; assumption.
  - intro A. split.
    + intros q I. apply qleb_iff. rewrite (A q I). apply Qle_refl.
    + destruct l as [|q l]; [congruence|]. exists q. split; [left; reflexivity|]. apply qeqb_iff. apply A. left. reflexivity.
Qed.

Definition sflags (n : Z) : list bool := map (fun q => qltb (1#2) q) (samples (Z.to_nat (Z.max n 1))).

Lemma super_shape : forall numba k ms ip n m, usable m -> thick m ms -> ip_in ip valid_ips = true ->
  (forall n, length (samples n) = n) -> (forall s n y x, 0 <= apx (slic s n) y x) ->
  exists out, superpixels_image cv2_resize slic numba k ms ip n samples m = Ok out /\
    i_shape out = i_shape m /\ i_nc out = i_nc m.
Proof.
  intros numba k ms ip n m U T V LS SL. pose proof U as [H [W [N I]]]. unfold superpixels_image.
  assert ((ah (i_px m) =? 0) || (aw (i_px m) =? 0) || (i_nc m =? 0) = false) as ->.
  { rewrite not_empty by assumption. apply Z.eqb_neq. lia. }
  destruct (forallb _ _ && existsb _ _); [exists m; auto|].
  destruct (ensure_thick m ms ip U T V) as [m1 [E [U1 C]]]. rewrite E. cbn [bind]. pose proof U1 as [H1 [W1 [N1 I1]]].
  destruct (replace_spec numba k (i_nc m1) (i_px m1) (slic (i_shape m1) (Z.max n 1)) (Some (sflags n))) as [px [R [R1 [R2 _]]]].
  - split; lia.
  - lia.
  - unfold sflags. intro X. injection X as X. apply map_eq_nil in X. specialize (LS (Z.to_nat (Z.max n 1))). rewrite X in LS. cbn in LS. lia.
  - intros y x _. apply SL.
  - unfold sflags in R. rewrite R. cbn [bind]. apply (back_shape m m1); assumption.
Qed.
Lemma super_thin : forall numba k ms ip n m, usable m -> 0 < ms -> ms < Z.max (ah (i_px m)) (aw (i_px m)) ->
  Z.min (ah (i_px m)) (aw (i_px m)) * ms < Z.max (ah (i_px m)) (aw (i_px m)) ->
  (exists q, In q (samples (Z.to_nat (Z.max n 1))) /\ (0 < q)%Q) ->
  superpixels_image cv2_resize slic numba k (Some ms) ip n samples m = Err AssertionError.
Proof.
  intros numba k ms ip n m U P0 L T [q [IQ PQ]]. pose proof U as [H [W [N I]]]. unfold superpixels_image.
  assert ((ah (i_px m) =? 0) || (aw (i_px m) =? 0) || (i_nc m =? 0) = false) as ->.
  { rewrite not_empty by assumption. apply Z.eqb_neq. lia. }
  assert (forallb (fun q => qleb q 0) (samples (Z.to_nat (Z.max n 1))) = false) as ->.
  { destruct (forallb _ _) eqn:F; [|reflexivity]. rewrite forallb_forall in F. apply F in IQ. apply qleb_iff in IQ. lra. }
  cbn [andb]. destruct (ensure_thin m ms ip U P0 L T) as [m1 [E [Z [WF C]]]]. rewrite E. cbn [bind].
  unfold replace_segments.
  assert ((ah (i_px m1) =? 0) || (aw (i_px m1) =? 0) || (i_nc m1 =? 0) = true) as ->.
  { destruct Z as [-> | ->]; [reflexivity|]. rewrite Z.eqb_refl, orb_true_r. reflexivity. }
  cbn [bind]. apply back_fails; assumption.
Qed.
Lemma super_small : forall numba k ms ip n m, usable m -> fits m ms -> k <> DBool ->
  (forall n, length (samples n) = n) -> (forall n q, In q (samples n) -> 0 <= q)%Q ->
  ids_ok (i_px m) (slic (i_shape m) (Z.max n 1)) -> no_gaps (i_px m) (slic (i_shape m) (Z.max n 1)) ->
  exists px, superpixels_image cv2_resize slic numba k ms ip n samples m = Ok (mkImg (i_int32 m) (i_nc m) px) /\
    averaged (fun id => exists q, nth_error (samples (Z.to_nat (Z.max n 1))) (Z.to_nat (id mod Z.max n 1)) = Some q /\ (1#2 < q)%Q)
      (i_px m) (slic (i_shape m) (Z.max n 1)) px.
Proof.
  intros numba k ms ip n m U F K LS PS IO NG. pose proof U as [H [W [N I]]]. unfold superpixels_image.
  assert ((ah (i_px m) =? 0) || (aw (i_px m) =? 0) || (i_nc m =? 0) = false) as ->.
  { rewrite not_empty by assumption. apply Z.eqb_neq. lia. }
  set (ss := samples (Z.to_nat (Z.max n 1))).
  assert (length ss = Z.to_nat (Z.max n 1)) as LL by apply LS.
  assert (ss <> []) as NE by (intro X; rewrite X in LL; cbn in LL; lia).
  destruct (forallb (fun q => qleb q 0) ss && existsb (fun q => qeqb q 0) ss) eqn:A.
  - pose proof (proj1 (all_zero_iff ss (fun q Q => PS _ q Q) NE) A) as A0. clear A.
    exists (i_px m). split; [destruct m; reflexivity|]. split; [reflexivity|]. split; [reflexivity|]. intros y x IN. split; [|reflexivity].
    intros [q [Q1 Q2]]. apply nth_error_In, A0 in Q1. rewrite Q1 in Q2. exfalso. lra.
  - rewrite ensure_fits by exact F. cbn [bind].
    destruct (replace_no_gaps numba k (i_nc m) (i_px m) (slic (i_shape m) (Z.max n 1)) (Some (map (fun q => qltb (1#2) q) ss))) as [px [R AV]];
      [split; lia|lia|intro X; injection X as X; apply map_eq_nil in X; contradiction|exact IO|exact NG|exact K|].
    rewrite R. cbn [bind]. exists px. destruct AV as [A1 [A2 A3]]. split; [apply back_same; assumption|].
    apply (averaged_ext (wanted (Some (map (fun q => qltb (1#2) q) ss)))); [|split; [exact A1|split; [exact A2|exact A3]]].
    intros id _. unfold wanted. rewrite map_length, LL, Z2Nat.id by lia.
    pose proof (Z.mod_pos_bound id (Z.max n 1) ltac:(lia)) as B.
    destruct (nth_error ss (Z.to_nat (id mod Z.max n 1))) as [q|] eqn:Q; [|apply nth_error_None in Q; lia].
    rewrite (nth_error_nth (map (fun q => qltb (1#2) q) ss) _ false (map_nth_error _ _ _ Q)). rewrite qltb_iff. split.
    + intro. exists q. auto.
    + intros [q' [E L]]. injection E as ->. exact L.
Qed.
End S.
End A.
