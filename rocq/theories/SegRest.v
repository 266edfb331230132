(** Consequences for replace_segments_ and segment_voronoi. *)
From Coq Require Import Lia Lqa Permutation Sorted.
From Verif Require Import Prelude PreludeFacts GeoModel UtilModel UtilProofs SegModel SegSpec SegProofs.

Definition by_rank (im seg : arr Z) (flags : option (list bool)) (id : Z) : Prop :=
  exists r, rank_of im seg id r /\ wanted flags r.

(** The ids that a call of replace_segments_ replaces. *)
Definition picked (numba : bool) (k : dkind) (im seg : arr Z) (flags : option (list bool)) (id : Z) : Prop :=
  match k, numba with
  | D8, true => wanted flags id
  | _, _ => by_rank im seg flags id
  end.

Lemma empty_or : forall a : arr Z, wf_arr a -> (0 < ah a /\ 0 < aw a) \/ ((ah a =? 0) || (aw a =? 0) = true).
Proof.
  intros a [H W]. destruct (Z.eqb_spec (ah a) 0); [right; reflexivity|].
  destruct (Z.eqb_spec (aw a) 0); [right; apply orb_true_r|]. left. lia.
Qed.
Lemma not_inside : forall a : arr Z, (ah a =? 0) || (aw a =? 0) = true -> forall y x, ~ inside a y x.
Proof.
  intros a E y x [Y X]. apply orb_true_iff in E as [E|E]; apply Z.eqb_eq in E; lia.
Qed.
Lemma not_empty : forall a : arr Z, 0 < ah a -> 0 < aw a -> (ah a =? 0) || (aw a =? 0) = false.
Proof. intros. apply orb_false_iff. split; apply Z.eqb_neq; lia. Qed.

(** One description of all routes. *)
Lemma replace_spec : forall numba k nc (im seg : arr Z) flags, wf_arr im -> nc <> 0 ->
  flags <> Some [] -> ids_ok im seg ->
  exists out, replace_segments numba k nc im seg flags = Ok out /\ ah out = ah im /\ aw out = aw im /\
  forall y x, inside im y x ->
    (picked numba k im seg flags (apx seg y x) -> apx out y x = color k im seg (apx seg y x)) /\
    (~ picked numba k im seg flags (apx seg y x) -> apx out y x = apx im y x).
Proof.
  intros numba k nc im seg flags WF NC NE K. unfold replace_segments.
  apply Z.eqb_neq in NC. rewrite NC, orb_false_r.
  destruct (empty_or im WF) as [[H W]|E].
  - rewrite not_empty by assumption.
    destruct (replace_np_spec k im seg flags H W NE) as [out [R [R1 [R2 R3]]]].
    assert (exists out, replace_np k im seg flags = Ok out /\ ah out = ah im /\ aw out = aw im /\
      forall y x, inside im y x ->
      (by_rank im seg flags (apx seg y x) -> apx out y x = color k im seg (apx seg y x)) /\
      (~ by_rank im seg flags (apx seg y x) -> apx out y x = apx im y x)) as NP.
    { exists out. split; [exact R|]. split; [exact R1|]. split; [exact R2|]. intros y x I.
      destruct (R3 y x I) as [P1 P2]. split.
      - intros [r [RR WR]]. apply (P1 r RR WR).
      - intro N.
        assert (exists i, nth_error (seg_ids (ah im) (aw im) seg) i = Some (apx seg y x)) as [i Ei].
        { apply In_nth_error, in_seg_ids. exists y, x. auto. }
        apply rank_index in Ei. apply (P2 _ Ei). intro WR. apply N. exists (Z.of_nat i). auto. }
    destruct k, numba; cbn [picked]; try exact NP.
    pose proof (replace_numba_spec im seg flags H W NE K) as [P1 [P2 P3]].
    eexists. split; [reflexivity|]. auto.
  - rewrite E. exists im. split; [reflexivity|]. split; [reflexivity|]. split; [reflexivity|].
    intros y x I. destruct (not_inside im E y x I).
Qed.

Lemma replace_averaged : forall numba k nc (im seg : arr Z) flags, wf_arr im -> nc <> 0 ->
  flags <> Some [] -> ids_ok im seg -> k <> DBool ->
  exists out, replace_segments numba k nc im seg flags = Ok out /\ averaged (picked numba k im seg flags) im seg out.
Proof.
  intros numba k nc im seg flags WF NC NE K B.
  destruct (replace_spec numba k nc im seg flags WF NC NE K) as [out [R [R1 [R2 R3]]]].
  exists out. split; [exact R|]. split; [exact R1|]. split; [exact R2|]. intros y x I.
  destruct (R3 y x I) as [P1 P2]. split; [|exact P2]. intro C. rewrite P1 by exact C. apply color_mean; assumption.
Qed.

Lemma picked_no_gaps : forall numba k (im seg : arr Z) flags id, ids_ok im seg -> no_gaps im seg -> occurs im seg id ->
  picked numba k im seg flags id <-> wanted flags id.
Proof.
  intros numba k im seg flags id K G O.
  assert (by_rank im seg flags id <-> wanted flags id) as E.
  { pose proof (rank_no_gaps im seg id K G O) as RK. split.
    - intros [r [RR WR]]. rewrite (rank_unique _ _ _ _ _ RK RR). exact WR.
    - intro WR. exists id. auto. }
  destruct k, numba; cbn [picked]; try exact E; tauto.
Qed.

Lemma averaged_ext : forall (P P' : Z -> Prop) im seg out,
  (forall id, occurs im seg id -> (P id <-> P' id)) -> averaged P im seg out -> averaged P' im seg out.
Proof.
  intros P P' im seg out E [A [B C]]. split; [exact A|]. split; [exact B|]. intros y x I.
  destruct (C y x I) as [C1 C2]. assert (P (apx seg y x) <-> P' (apx seg y x)) as X by (apply E; exists y, x; auto).
  tauto.
Qed.

Lemma replace_no_gaps : forall numba k nc (im seg : arr Z) flags, wf_arr im -> nc <> 0 ->
  flags <> Some [] -> ids_ok im seg -> no_gaps im seg -> k <> DBool ->
  exists out, replace_segments numba k nc im seg flags = Ok out /\ averaged (wanted flags) im seg out.
Proof.
  intros numba k nc im seg flags WF NC NE K G B.
  destruct (replace_averaged numba k nc im seg flags WF NC NE K B) as [out [R A]].
  exists out. split; [exact R|]. eapply averaged_ext; [|exact A]. intros. apply picked_no_gaps; assumption.
Qed.

(* ------------------------------------------------------------------ *)
(** * Range of the result *)

Lemma total_bounds : forall lo hi l, (forall v, In v l -> lo <= v <= hi) ->
  lo * Z.of_nat (length l) <= total l <= hi * Z.of_nat (length l).
Proof.
  induction l as [|a l IH]; intro H; [cbn; lia|].
  assert (lo * Z.of_nat (length l) <= total l <= hi * Z.of_nat (length l)) as I by (apply IH; intros; apply H; right; assumption).
  specialize (H a (or_introl eq_refl)). unfold total in *. cbn [fold_right length]. rewrite Nat2Z.inj_succ, !Z.mul_succ_r. lia.
Qed.
Lemma length_values : forall im ps, length (values im ps) = length ps.
Proof. intros. apply map_length. Qed.
Lemma mean_bounds : forall lo hi (im seg : arr Z) id v,
  (forall y x, inside im y x -> apx seg y x = id -> lo <= apx im y x <= hi) ->
  mean_of im seg id v -> lo <= v <= hi.
Proof.
  intros lo hi im seg id v H [ps [[N E] [NE ->]]].
  assert (forall u, In u (values im ps) -> lo <= u <= hi) as B.
  { intros u U. apply in_map_iff in U as [[y x] [<- P]]. apply E in P as [I J]. apply H; assumption. }
  apply total_bounds in B. rewrite length_values in B.
  set (n := Z.of_nat (length ps)) in *. assert (0 < n) as P by (subst n; destruct ps; [congruence|cbn; lia]).
  split.
  - rewrite <- (Z.quot_mul lo n) by lia. apply Z.quot_le_mono; lia.
  - rewrite <- (Z.quot_mul hi n) by lia. apply Z.quot_le_mono; lia.
Qed.
Lemma averaged_bounds : forall P lo hi (im seg out : arr Z), (forall id, P id \/ ~ P id) ->
  averaged P im seg out ->
  (forall y x, inside im y x -> lo <= apx im y x <= hi) -> forall y x, inside im y x -> lo <= apx out y x <= hi.
Proof.
  intros P lo hi im seg out D [_ [_ A]] B y x I. destruct (A y x I) as [A1 A2].
  destruct (D (apx seg y x)) as [C|C]; [|rewrite A2 by exact C; auto].
  eapply mean_bounds; [|exact (A1 C)]. intros; auto.
Qed.
Lemma wanted_dec : forall flags id, wanted flags id \/ ~ wanted flags id.
Proof. intros [f|] id; cbn; [|auto]. destruct (nth _ f false); auto. Qed.
Lemma seg_rank : forall (im seg : arr Z) y x, inside im y x -> exists r, rank_of im seg (apx seg y x) r.
Proof.
  intros im seg y x I.
  assert (exists i, nth_error (seg_ids (ah im) (aw im) seg) i = Some (apx seg y x)) as [i Ei].
  { apply In_nth_error, in_seg_ids. exists y, x. auto. }
  exists (Z.of_nat i). apply rank_index. exact Ei.
Qed.
Lemma picked_dec : forall numba k (im seg : arr Z) flags y x, inside im y x ->
  picked numba k im seg flags (apx seg y x) \/ ~ picked numba k im seg flags (apx seg y x).
Proof.
  intros numba k im seg flags y x I.
  assert (by_rank im seg flags (apx seg y x) \/ ~ by_rank im seg flags (apx seg y x)) as D.
  { destruct (seg_rank im seg y x I) as [r R]. destruct (wanted_dec flags r) as [W|W].
    - left. exists r. auto.
    - right. intros [r' [R' W']]. rewrite (rank_unique _ _ _ _ _ R R') in W. contradiction. }
  destruct k, numba; cbn [picked]; try exact D. apply wanted_dec.
Qed.

Lemma replace_range : forall numba k nc (im seg : arr Z) flags out lo hi, wf_arr im -> nc <> 0 ->
  flags <> Some [] -> ids_ok im seg -> k <> DBool ->
  replace_segments numba k nc im seg flags = Ok out ->
  forall y x, inside im y x ->
  (forall y' x', inside im y' x' -> apx seg y' x' = apx seg y x -> lo <= apx im y' x' <= hi) ->
  lo <= apx out y x <= hi.
Proof.
  intros numba k nc im seg flags out lo hi WF NC NE K B R y x I H.
  destruct (replace_averaged numba k nc im seg flags WF NC NE K B) as [out' [R' [_ [_ A]]]].
  rewrite R in R'. injection R' as <-. destruct (A y x I) as [A1 A2].
  destruct (picked_dec numba k im seg flags y x I) as [C|C].
  - eapply mean_bounds; [|exact (A1 C)]. exact H.
  - rewrite A2 by exact C. apply H; [exact I|reflexivity].
Qed.

(* ------------------------------------------------------------------ *)
(** * bool images *)

Lemma total_zero : forall l, (forall v, In v l -> v = 0 \/ v = 1) -> 0 <= total l /\ (total l = 0 <-> ~ In 1 l).
Proof.
  induction l as [|a l IH]; intro H; [cbn; split; [lia|tauto]|].
  destruct IH as [I1 I2]; [intros; apply H; right; assumption|].
  pose proof (H a (or_introl eq_refl)) as [->| ->]; unfold total in *; cbn [fold_right In].
  - split; [lia|]. rewrite Z.add_0_l, I2. split; [intros N [C|C]; [lia|contradiction]|tauto].
  - split; [lia|]. split; [lia|]. intro N. exfalso. apply N. auto.
Qed.
Lemma color_bool : forall (im seg : arr Z) id, (forall y x, inside im y x -> apx im y x = 0 \/ apx im y x = 1) ->
  (color DBool im seg id = 0 \/ color DBool im seg id = 1) /\
  (color DBool im seg id = 1 <-> exists y x, inside im y x /\ apx seg y x = id /\ apx im y x = 1).
Proof.
  intros im seg id H. unfold color, store_mean. set (ps := seg_ps (ah im) (aw im) seg id).
  destruct (seg_ps_enumerates im seg id) as [_ E].
  destruct (total_zero (values im ps)) as [_ T].
  { intros v V. apply in_map_iff in V as [[y x] [<- P]]. apply E in P as [I _]. apply H. exact I. }
  assert (In 1 (values im ps) <-> exists y x, inside im y x /\ apx seg y x = id /\ apx im y x = 1) as J.
  { unfold values. rewrite in_map_iff. split.
    - intros [[y x] [V P]]. apply E in P as [I S]. exists y, x. auto.
    - intros [y [x [I [S V]]]]. exists (y, x). split; [exact V|]. apply E. auto. }
  rewrite <- J. destruct (Z.eqb_spec (total (values im ps)) 0) as [Z|Z].
  - split; [auto|]. apply T in Z. split; [lia|tauto].
  - split; [auto|]. split; [|auto]. intros _. destruct (in_dec Z.eq_dec 1 (values im ps)) as [i|n]; [exact i|].
    apply T in n. contradiction.
Qed.
Lemma replace_bool : forall numba nc (im seg : arr Z) flags, wf_arr im -> nc <> 0 ->
  flags <> Some [] -> ids_ok im seg -> no_gaps im seg ->
  (forall y x, inside im y x -> apx im y x = 0 \/ apx im y x = 1) ->
  exists out, replace_segments numba DBool nc im seg flags = Ok out /\ ah out = ah im /\ aw out = aw im /\
  forall y x, inside im y x ->
    (wanted flags (apx seg y x) -> (apx out y x = 0 \/ apx out y x = 1) /\
       (apx out y x = 1 <-> exists y' x', inside im y' x' /\ apx seg y' x' = apx seg y x /\ apx im y' x' = 1)) /\
    (~ wanted flags (apx seg y x) -> apx out y x = apx im y x).
Proof.
  intros numba nc im seg flags WF NC NE K G H.
  destruct (replace_spec numba DBool nc im seg flags WF NC NE K) as [out [R [R1 [R2 R3]]]].
  exists out. split; [exact R|]. split; [exact R1|]. split; [exact R2|]. intros y x I.
  destruct (R3 y x I) as [P1 P2].
  pose proof (picked_no_gaps numba DBool im seg flags (apx seg y x) K G (ex_intro _ y (ex_intro _ x (conj I eq_refl)))) as E.
  split; intro W.
  - rewrite P1 by (apply E; exact W). apply color_bool. exact H.
  - apply P2. rewrite E. exact W.
Qed.

(* ------------------------------------------------------------------ *)
(** * Doing it twice *)

Lemma color_const : forall k (a seg : arr Z) id v, (exists y x, inside a y x /\ apx seg y x = id) ->
  (forall y x, inside a y x -> apx seg y x = id -> apx a y x = v) -> (k = DBool -> v = 0 \/ v = 1) ->
  color k a seg id = v.
Proof.
  intros k a seg id v [y0 [x0 [I0 S0]]] H B. unfold color. set (ps := seg_ps (ah a) (aw a) seg id).
  destruct (seg_ps_enumerates a seg id) as [_ E].
  assert (total (values a ps) = v * Z.of_nat (length ps)) as T.
  { assert (v * Z.of_nat (length (values a ps)) <= total (values a ps) <= v * Z.of_nat (length (values a ps))) as T.
    { apply total_bounds. intros u U. apply in_map_iff in U as [[y x] [<- P]]. apply E in P as [I S].
      cbn. rewrite H by assumption. lia. }
    rewrite length_values in T. lia. }
  assert (0 < Z.of_nat (length ps)) as P.
  { pose proof (seg_ps_nonempty a seg y0 x0 I0) as N. rewrite S0 in N. fold ps in N. destruct ps; [congruence|cbn; lia]. }
  rewrite T. unfold store_mean. destruct k.
  - apply Z.quot_mul. lia.
  - destruct (B eq_refl) as [->| ->]; [reflexivity|]. destruct (Z.eqb_spec (1 * Z.of_nat (length ps)) 0); [lia|reflexivity].
  - apply Z.quot_mul. lia.
Qed.
Lemma color_bool_01 : forall (im seg : arr Z) id, color DBool im seg id = 0 \/ color DBool im seg id = 1.
Proof. intros. unfold color, store_mean. destruct (_ =? 0); auto. Qed.

Lemma inside_same : forall (a b : arr Z) y x, ah a = ah b -> aw a = aw b -> inside a y x <-> inside b y x.
Proof. intros a b y x H W. unfold inside. rewrite H, W. tauto. Qed.
Lemma rank_same : forall (a b seg : arr Z) id r, ah a = ah b -> aw a = aw b -> rank_of a seg id r -> rank_of b seg id r.
Proof.
  intros a b seg id r H W [l [N [E ->]]]. exists l. split; [exact N|]. split; [|reflexivity].
  intro v. rewrite E. unfold occurs. split; intros [L [y [x [I S]]]]; (split; [exact L|]); exists y, x;
    (split; [|exact S]); apply (inside_same a b y x H W); exact I.
Qed.
Lemma picked_same : forall numba k (a b seg : arr Z) flags id, ah a = ah b -> aw a = aw b ->
  picked numba k a seg flags id -> picked numba k b seg flags id.
Proof.
  intros numba k a b seg flags id H W P.
  assert (by_rank a seg flags id -> by_rank b seg flags id) as R.
  { intros [r [R1 R2]]. exists r. split; [|exact R2]. apply (rank_same a b); assumption. }
  destruct k, numba; cbn [picked] in *; auto.
Qed.

Lemma replace_twice : forall numba k nc (im seg : arr Z) flags out, wf_arr im -> nc <> 0 ->
  flags <> Some [] -> ids_ok im seg ->
  replace_segments numba k nc im seg flags = Ok out ->
  exists out2, replace_segments numba k nc out seg flags = Ok out2 /\ arr_eq out2 out.
Proof.
  intros numba k nc im seg flags out WF NC NE K R.
  destruct (replace_spec numba k nc im seg flags WF NC NE K) as [out' [R' [R1 [R2 R3]]]].
  rewrite R in R'. injection R' as <-.
  assert (wf_arr out) as WO by (unfold wf_arr; rewrite R1, R2; exact WF).
  assert (ids_ok out seg) as KO by (intros y x I; apply K; apply (inside_same out im y x R1 R2); exact I).
  destruct (replace_spec numba k nc out seg flags WO NC NE KO) as [out2 [Q [Q1 [Q2 Q3]]]].
  exists out2. split; [exact Q|]. split; [exact Q1|]. split; [exact Q2|]. rewrite Q1, Q2. intros y x Y X.
  assert (inside out y x) as I by (split; assumption).
  assert (inside im y x) as J by (apply (inside_same out im y x R1 R2); exact I).
  destruct (Q3 y x I) as [P1 P2]. destruct (picked_dec numba k out seg flags y x I) as [C|C]; [|apply P2, C].
  rewrite P1 by exact C.
  assert (forall y' x', inside im y' x' -> apx seg y' x' = apx seg y x -> apx out y' x' = color k im seg (apx seg y x)) as CO.
  { intros y' x' I' S'. destruct (R3 y' x' I') as [T _]. rewrite T, S'; [reflexivity|]. rewrite S'.
    apply (picked_same numba k out im); assumption. }
  rewrite (CO y x J eq_refl). apply color_const.
  - exists y, x. auto.
  - intros y' x' I' S'. apply CO; [|exact S']. apply (inside_same out im y' x' R1 R2). exact I'.
  - intros ->. apply color_bool_01.
Qed.

(* ------------------------------------------------------------------ *)
(** * Voronoi cells *)

Lemma length_zrange : forall n, length (zrange n) = Z.to_nat n.
Proof. intro. unfold zrange. rewrite map_length, seq_length. reflexivity. Qed.
Lemma nth_error_zrange : forall n i, 0 <= i < n -> nth_error (zrange n) (Z.to_nat i) = Some i.
Proof.
  intros. unfold zrange. rewrite nth_error_map, (nth_error_nth' _ 0%nat) by (rewrite seq_length; lia).
  cbn. rewrite seq_nth by lia. f_equal. lia.
Qed.
Lemma nth_error_flat : forall {A B C} (f : A -> B -> C) (ys : list A) (xs : list B) j i a b,
  nth_error ys j = Some a -> nth_error xs i = Some b ->
  nth_error (flat_map (fun y => map (f y) xs) ys) (j * length xs + i) = Some (f a b).
Proof.
  intros A B C f ys xs j i a b. revert j. induction ys as [|y ys IH]; intros j J I; [destruct j; discriminate|].
  assert (i < length xs)%nat as LI by (apply nth_error_Some; congruence).
  destruct j; cbn [flat_map].
  - cbn in J. injection J as ->. cbn. rewrite nth_error_app1 by (rewrite map_length; exact LI).
    rewrite nth_error_map, I. reflexivity.
  - rewrite nth_error_app2 by (rewrite map_length; nia). rewrite map_length.
    replace (S j * length xs + i - length xs)%nat with (j * length xs + i)%nat by nia.
    apply IH; assumption.
Qed.
Lemma length_flat : forall {A B C} (f : A -> B -> C) (ys : list A) (xs : list B),
  length (flat_map (fun y => map (f y) xs) ys) = (length ys * length xs)%nat.
Proof. induction ys; cbn; intros; [reflexivity|]. rewrite app_length, map_length, IHys. reflexivity. Qed.

Lemma reshape_match : forall kd h w cells y x, 0 <= y < h -> 0 <= x < w ->
  apx (reshape2 h w (match_pixels kd h w cells)) y x = Z.of_nat (kd cells (centre y x)).
Proof.
  intros kd h w cells y x Y X. cbn [reshape2 apx]. apply nth_error_nth. unfold match_pixels.
  rewrite nth_error_map. unfold pixel_coords.
  replace (Z.to_nat (y * w + x)) with (Z.to_nat y * length (zrange w) + Z.to_nat x)%nat by (rewrite length_zrange; nia).
  rewrite (nth_error_flat (fun y x => (x, y)) (zrange h) (zrange w) _ _ y x) by (apply nth_error_zrange; lia).
  reflexivity.
Qed.

Lemma averaged_seg : forall P im seg seg' out,
  (forall y x, inside im y x -> apx seg y x = apx seg' y x) -> averaged P im seg out -> averaged P im seg' out.
Proof.
  intros P im seg seg' out E [A [B C]]. split; [exact A|]. split; [exact B|]. intros y x I. destruct (C y x I) as [C1 C2].
  rewrite <- (E y x I). split; [|exact C2]. intro PP. destruct (C1 PP) as [ps [[N F] [NE V]]].
  exists ps. split; [|auto]. split; [exact N|]. intros y' x'. rewrite F. split; intros [J S]; (split; [exact J|]).
  - rewrite <- E by exact J. exact S.
  - rewrite E by exact J. exact S.
Qed.

Lemma voronoi_ok : forall kd nc (im : arr Z) cells mask, kd_ok kd -> wf_arr im -> nc <> 0 -> cells <> [] ->
  (forall f, mask = Some f -> length f = length cells) ->
  exists out cell, segment_voronoi kd true D8 nc im cells mask = Ok out /\
    (forall y x, inside im y x -> nearest cells (centre y x) (cell y x)) /\
    averaged (fun c => match mask with None => True | Some f => nth (Z.to_nat c) f false = true end)
             im (cell_map im cell) out.
Proof.
  intros kd nc im cells mask KD WF NC NE LM.
  set (seg := reshape2 (ah im) (aw im) (match_pixels kd (ah im) (aw im) cells)).
  assert (forall y x, inside im y x -> apx seg y x = Z.of_nat (kd cells (centre y x))) as S
    by (intros y x [Y X]; apply reshape_match; assumption).
  destruct (replace_averaged true D8 nc im seg mask WF NC) as [out [R A]]; [|intros y x I; rewrite S by exact I; lia|discriminate|].
  { intros ->. specialize (LM [] eq_refl). destruct cells; [congruence|discriminate]. }
  exists out, (fun y x => kd cells (centre y x)). split; [|split].
  - unfold segment_voronoi. destruct cells; [congruence|exact R].
  - intros y x I. apply KD, NE.
  - cbn [picked] in A. apply (averaged_ext (wanted mask)).
    + intros id [y [x [I E]]]. cbn in E. destruct mask as [f|]; [|cbn; tauto]. cbn.
      rewrite Z.mod_small; [tauto|]. specialize (LM f eq_refl). destruct (KD cells (centre y x) NE) as [c [C _]].
      assert (kd cells (centre y x) < length cells)%nat as L by (apply nth_error_Some; congruence).
      rewrite LM. lia.
    + apply (averaged_seg _ im seg); [|exact A]. intros y x I. rewrite S by exact I. reflexivity.
Qed.

(** A KD tree exists. *)
Fixpoint argmin (cells : list point) (p : point) : nat :=
  match cells with
  | [] => 0%nat
  | c :: cells' =>
      match nth_error cells' (argmin cells' p) with
      | Some d => if qleb (dist2 c p) (dist2 d p) then 0%nat else S (argmin cells' p)
      | None => 0%nat
      end
  end.
Lemma argmin_ok : kd_ok argmin.
Proof.
  intros cells p. induction cells as [|c cells IH]; intro NE; [congruence|]. cbn [argmin].
  destruct cells as [|d cells].
  - cbn. exists c. split; [reflexivity|]. intros e [->|[]]. apply Qle_refl.
  - destruct (IH ltac:(discriminate)) as [m [M ML]]. rewrite M.
    destruct (qleb (dist2 c p) (dist2 m p)) eqn:E.
    + apply qleb_iff in E. exists c. split; [reflexivity|]. intros e [->|I]; [apply Qle_refl|].
      eapply Qle_trans; [exact E|]. apply ML, I.
    + exists m. split; [exact M|]. intros e [->|I]; [|apply ML, I].
      apply Qnot_lt_le. intro L. apply Qlt_le_weak in L. apply qleb_iff in L. congruence.
Qed.
