From Coq Require Import Lia Lqa ZifyBool.
From Verif Require Import Prelude PreludeFacts GeoModel GeoSpec GeoProofs SizeModel SizeSpec.

Ltac zdiv := Z.to_euclidean_division_equations; lia.

#[local] Arguments prevent_zero_size : simpl never.
#[local] Arguments border_index : simpl never.

(* ---------- crop amounts ---------- *)

Lemma halves_sum : forall r, (r + 1) / 2 + r / 2 = r.
Proof. intro r. zdiv. Qed.
Lemma halves_bounds : forall r, 0 <= r -> 0 <= r / 2 <= (r + 1) / 2.
Proof. intros r H. zdiv. Qed.

Lemma prevent_zero_size_spec : forall size s e s' e',
  1 <= size -> 0 <= s -> 0 <= e -> prevent_zero_size size s e = (s', e') ->
  0 <= s' <= s /\ 0 <= e' <= e /\ size - s' - e' = Z.max 1 (size - s - e).
Proof.
  intros size s e s' e' H1 H2 H3 H. unfold prevent_zero_size in H.
  remember (if size - (s + e) <? 1 then Z.abs (size - (s + e)) + 1 else 0) as r eqn:Er.
  assert (0 <= r) as R0 by (destruct (size - (s + e) <? 1) in Er; lia).
  pose proof (halves_sum r) as R1. pose proof (halves_bounds r R0) as R2.
  set (a := (r + 1) / 2) in *. set (b := r / 2) in *. clearbody a b.
  injection H as <- <-.
  destruct (size - (s + e) <? 1) eqn:E1; destruct (s - a <? 0) eqn:E2;
    match goal with |- context [if ?c then _ else _] => destruct c eqn:E3 end; lia.
Qed.

Lemma prevent_zero_size_empty : forall s e, 0 <= s -> 0 <= e -> prevent_zero_size 0 s e = (0, 0).
Proof.
  intros s e H1 H2. unfold prevent_zero_size.
  replace (0 - (s + e) <? 1) with true by lia.
  remember (Z.abs (0 - (s + e)) + 1) as r eqn:Er.
  assert (0 <= r) as R0 by lia.
  pose proof (halves_sum r) as R1. pose proof (halves_bounds r R0) as R2.
  set (a := (r + 1) / 2) in *. set (b := r / 2) in *. clearbody a b.
  destruct (s - a <? 0) eqn:E2;
    match goal with |- context [if ?c then _ else _] => destruct c eqn:E3 end; f_equal; lia.
Qed.

Lemma prevent_zero_size_id : forall size s e,
  0 <= s -> 0 <= e -> s + e < size -> prevent_zero_size size s e = (s, e).
Proof.
  intros size s e H1 H2 H3. unfold prevent_zero_size.
  replace (size - (s + e) <? 1) with false by lia. cbn.
  rewrite !Z.sub_0_r.
  replace (s <? 0) with false by lia. replace (e <? 0) with false by lia.
  apply f_equal2; lia.
Qed.

Lemma crop_trbl_to_xyxy_spec : forall h w c x1 y1 x2 y2,
  1 <= h -> 1 <= w -> nonneg c ->
  crop_trbl_to_xyxy h w c = ((x1, y1), (x2, y2)) ->
  exists c', nonneg c' /\ t_top c' <= t_top c /\ t_right c' <= t_right c /\
    t_bottom c' <= t_bottom c /\ t_left c' <= t_left c /\
    x1 = t_left c' /\ y1 = t_top c' /\ x2 = w - t_right c' /\ y2 = h - t_bottom c' /\
    h - t_top c' - t_bottom c' = Z.max 1 (h - t_top c - t_bottom c) /\
    w - t_left c' - t_right c' = Z.max 1 (w - t_left c - t_right c).
Proof.
  intros h w [t r b l] x1 y1 x2 y2 Hh Hw (H1 & H2 & H3 & H4) E. cbn in *.
  unfold crop_trbl_to_xyxy in E. cbn in E.
  destruct (prevent_zero_size h t b) as [t' b'] eqn:E1.
  destruct (prevent_zero_size w l r) as [l' r'] eqn:E2.
  apply prevent_zero_size_spec in E1; try lia. apply prevent_zero_size_spec in E2; try lia.
  injection E as <- <- <- <-. exists (mkTrbl t' r' b' l'). unfold nonneg. cbn.
  repeat split; lia.
Qed.

Lemma slice2_window : forall {A} (a : arr A) t r b l,
  0 <= t -> 0 <= r -> 0 <= b -> 0 <= l -> t + b <= ah a -> l + r <= aw a ->
  is_window a (slice2 a t (ah a - b) l (aw a - r)) (mkTrbl t r b l).
Proof.
  intros A a t r b l Ht Hr Hb Hl H1 H2. unfold is_window, slice2, py_slice_bound. cbn.
  replace (t <? 0) with false by lia. replace (l <? 0) with false by lia.
  replace (ah a - b <? 0) with false by lia. replace (aw a - r <? 0) with false by lia.
  split; [lia|]. split; [lia|].
  intros y x Hy Hx. f_equal; lia.
Qed.

Lemma crop_arr_spec : forall {A} (a : arr A) c,
  1 <= ah a -> 1 <= aw a -> nonneg c ->
  exists c', nonneg c' /\ t_top c' <= t_top c /\ t_right c' <= t_right c /\
    t_bottom c' <= t_bottom c /\ t_left c' <= t_left c /\
    is_window a (crop_arr a c) c' /\
    ah (crop_arr a c) = Z.max 1 (ah a - t_top c - t_bottom c) /\
    aw (crop_arr a c) = Z.max 1 (aw a - t_left c - t_right c).
Proof.
  intros A a c Hh Hw Hc. unfold crop_arr.
  destruct (crop_trbl_to_xyxy (ah a) (aw a) c) as [[x1 y1] [x2 y2]] eqn:E.
  apply crop_trbl_to_xyxy_spec in E; auto.
  destruct E as (c' & N & A1 & A2 & A3 & A4 & -> & -> & -> & -> & S1 & S2).
  exists c'. repeat (split; [assumption|]).
  destruct N as (N1 & N2 & N3 & N4). destruct c' as [t r b l]. cbn in *.
  assert (is_window a (slice2 a t (ah a - b) l (aw a - r)) (mkTrbl t r b l)) as W
    by (apply slice2_window; lia).
  split; [exact W|]. destruct W as (W1 & W2 & _). cbn in W1, W2. lia.
Qed.

Lemma crop_arr_exact : forall {A} (a : arr A) c,
  nonneg c -> t_top c + t_bottom c < ah a -> t_left c + t_right c < aw a ->
  is_window a (crop_arr a c) c.
Proof.
  intros A a [t r b l] (H1 & H2 & H3 & H4) A1 A2. cbn in *.
  unfold crop_arr, crop_trbl_to_xyxy. cbn.
  rewrite !prevent_zero_size_id by lia. cbn.
  rewrite !Z.max_l by lia. apply slice2_window; lia.
Qed.

(* ---------- padding ---------- *)

Lemma mod_between : forall a m, 0 < m -> 0 <= a mod m < m.
Proof. intros. apply Z.mod_pos_bound; lia. Qed.

Lemma border_index_inside : forall mode len p, 0 <= p < len -> border_index mode len p = Some p.
Proof.
  intros mode len p H. unfold border_index.
  replace ((0 <=? p) && (p <? len)) with true by lia. reflexivity.
Qed.

Lemma border_index_const : forall len p, ~ (0 <= p < len) -> border_index PMConstant len p = None.
Proof.
  intros len p H. unfold border_index.
  replace ((0 <=? p) && (p <? len)) with false by lia. reflexivity.
Qed.

Lemma border_index_mirror : forall mode len p, 0 < len -> mode <> PMConstant ->
  exists i, border_index mode len p = Some i /\ mirror_source mode len p i.
Proof.
  intros mode len p Hl Hm. unfold border_index.
  destruct ((0 <=? p) && (p <? len)) eqn:E.
  { exists p. split; [reflexivity|]. split; [lia|].
    destruct mode; [reflexivity|lia|right; exists 0; lia|exists 0; lia]. }
  destruct mode; [congruence| | |].
  - eexists. split; [reflexivity|]. destruct (p <? 0) eqn:E2; split; lia.
  - destruct (len =? 1) eqn:E1.
    + exists 0. split; [reflexivity|]. split; [lia|]. left; lia.
    + assert (0 < 2 * (len - 1)) as P by lia.
      pose proof (mod_between p _ P) as M.
      pose proof (Z.div_mod p (2 * (len - 1)) ltac:(lia)) as D.
      eexists. split; [reflexivity|].
      set (m := p mod (2 * (len - 1))) in *. set (q := p / (2 * (len - 1))) in *.
      destruct (m <? len) eqn:E2; (split; [lia|]); right.
      * exists q. left. lia.
      * exists (q + 1). right. lia.
  - assert (0 < 2 * len) as P by lia.
    pose proof (mod_between p _ P) as M.
    pose proof (Z.div_mod p (2 * len) ltac:(lia)) as D.
    eexists. split; [reflexivity|].
    set (m := p mod (2 * len)) in *. set (q := p / (2 * len)) in *.
    destruct (m <? len) eqn:E2; (split; [lia|]).
    * exists q. left. lia.
    * exists (q + 1). right. lia.
Qed.

Lemma skipn_skipn_plus : forall {A} n m (l : list A), skipn n (skipn m l) = skipn (n + m) l.
Proof.
  intros A n m. revert n. induction m as [|m IH]; intros n l; cbn.
  - rewrite Nat.add_0_r. reflexivity.
  - rewrite Nat.add_succ_r. destruct l as [|x l]; [rewrite !skipn_nil; reflexivity|]. apply IH.
Qed.

Lemma copy_make_border_slice : forall {V} st n (a : arr (list V)) p mode cv y x,
  apx (copy_make_border (chan_slice st n a) p mode (firstn n (skipn st cv))) y x
  = firstn n (skipn st (apx (copy_make_border a p mode cv) y x)).
Proof.
  intros. unfold copy_make_border, chan_slice. cbn.
  destruct (border_index mode (ah a) (y - t_top p)); [|reflexivity].
  destruct (border_index mode (aw a) (x - t_left p)); reflexivity.
Qed.

(** Padding block by block is the same as padding all channels at once. *)
Lemma pad_blocks_spec : forall {V} fuel start nc (a : arr (list V)) p mode cv,
  (nc <= start + 4 * fuel)%nat ->
  let r := pad_blocks fuel start nc a p mode cv in
  let q := copy_make_border a p mode cv in
  ah r = ah q /\ aw r = aw q /\
  forall y x, length (apx q y x) = nc -> apx r y x = skipn start (apx q y x).
Proof.
  intros V fuel. induction fuel as [|fuel IH]; intros start nc a p mode cv Hf.
  - cbn [pad_blocks]. cbv zeta. split; [reflexivity|]. split; [reflexivity|].
    intros y x L. change (@nil V) with (firstn 0 (skipn start cv)).
    rewrite copy_make_border_slice. cbn [firstn]. rewrite skipn_all2; [reflexivity|lia].
  - cbn [pad_blocks]. destruct (Nat.ltb start nc) eqn:E.
    + destruct (IH (start + 4)%nat nc a p mode cv) as (_ & _ & I); [lia|].
      cbv zeta. split; [reflexivity|]. split; [reflexivity|].
      intros y x L. unfold chan_concat. cbn [apx].
      rewrite copy_make_border_slice. rewrite I by exact L.
      replace (start + 4)%nat with (4 + start)%nat by lia. rewrite <- skipn_skipn_plus.
      apply firstn_skipn.
    + cbv zeta. split; [reflexivity|]. split; [reflexivity|].
      intros y x L. change (@nil V) with (firstn 0 (skipn start cv)).
      rewrite copy_make_border_slice. cbn [firstn]. rewrite skipn_all2; [reflexivity|lia].
Qed.

Lemma normalize_cval_length : forall lo hi nc c,
  match c with CvScalar _ => True | CvMulti vs => length vs = nc end ->
  length (normalize_cval lo hi nc c) = nc.
Proof.
  intros lo hi nc [v|vs] H; cbn; [apply repeat_length|]. rewrite map_length. exact H.
Qed.

Lemma copy_make_border_length : forall (a : arr (list Z)) p mode cv nc y x,
  has_channels nc a -> length cv = nc ->
  (mode <> PMConstant -> 0 < ah a /\ 0 < aw a) ->
  length (apx (copy_make_border a p mode cv) y x) = nc.
Proof.
  intros a p mode cv nc y x Hc Hl Hne. unfold copy_make_border. cbn [apx].
  destruct (border_index mode (ah a) (y - t_top p)) as [y'|] eqn:E1; [|exact Hl].
  destruct (border_index mode (aw a) (x - t_left p)) as [x'|] eqn:E2; [|exact Hl].
  assert (forall len q i, (mode <> PMConstant -> 0 < len) ->
            border_index mode len q = Some i -> 0 <= i < len) as K.
  { intros len q i Hp Hb. destruct mode.
    - unfold border_index in Hb. destruct ((0 <=? q) && (q <? len)) eqn:E; [|discriminate].
      injection Hb as <-. lia.
    - destruct (border_index_mirror PMEdge len q) as (j & Hj & Mj & _);
        [apply Hp; discriminate|discriminate|congruence].
    - destruct (border_index_mirror PMReflect len q) as (j & Hj & Mj & _);
        [apply Hp; discriminate|discriminate|congruence].
    - destruct (border_index_mirror PMSymmetric len q) as (j & Hj & Mj & _);
        [apply Hp; discriminate|discriminate|congruence]. }
  apply Hc; [eapply K; [|exact E1]|eapply K; [|exact E2]]; intro M; apply Hne in M; lia.
Qed.

(** [pad] as one operation on all channels. *)
Lemma pad_ok : forall lo hi nc a p mode c,
  nonneg p -> wf_arr a -> has_channels nc a ->
  match c with CvScalar _ => True | CvMulti vs => length vs = nc end ->
  let mode' := if (ah a =? 0) || (aw a =? 0) || Nat.eqb nc 0 then PMConstant else mode in
  exists r, pad lo hi nc a p mode c = Ok r /\
    arr_eq r (copy_make_border a p mode' (normalize_cval lo hi nc c)).
Proof.
  intros lo hi nc a p mode c Np [Wh Ww] Hch Hc mode'.
  pose proof Np as (P1 & P2 & P3 & P4). unfold pad.
  replace (_ && _) with true by lia. cbn [negb].
  assert (mode' <> PMConstant -> 0 < ah a /\ 0 < aw a) as Hne.
  { unfold mode'. destruct (ah a =? 0) eqn:?, (aw a =? 0) eqn:?; cbn; intro K;
      try congruence. lia. }
  pose proof (normalize_cval_length lo hi nc c Hc) as Hl.
  destruct ((0 <? t_top p) || (0 <? t_right p) || (0 <? t_bottom p) || (0 <? t_left p)) eqn:E.
  - fold mode'. destruct (Nat.leb nc 4) eqn:E4.
    + eexists. split; [reflexivity|]. rewrite firstn_all2 by lia. apply arr_eq_refl.
    + eexists. split; [reflexivity|].
      destruct (pad_blocks_spec nc 0 nc a p mode' (normalize_cval lo hi nc c)) as (B1 & B2 & B3); [lia|].
      split; [exact B1|]. split; [exact B2|]. intros y x _ _.
      rewrite B3; [reflexivity|]. apply copy_make_border_length; assumption.
  - exists a. split; [reflexivity|]. unfold arr_eq, copy_make_border. cbn.
    split; [lia|]. split; [lia|]. intros y x Hy Hx.
    rewrite !border_index_inside by lia. f_equal; lia.
Qed.

Lemma normalize_cval_nth : forall lo hi nc c ch v, lo <= hi -> cval_fits nc c -> (ch < nc)%nat ->
  requested_cval c ch = Some v ->
  nth_error (normalize_cval lo hi nc c) ch = Some (Z.max lo (Z.min hi v)).
Proof.
  intros lo hi nc [u|vs] ch v Hr Hf Hch Hv; cbn in *.
  - injection Hv as <-.
    transitivity (Some (Z.max (Z.min u hi) lo)); [|f_equal; lia].
    apply nth_error_repeat. exact Hch.
  - rewrite nth_error_map, Hv. cbn. unfold zclip. f_equal. lia.
Qed.

Lemma pad_spec : forall lo hi nc a p mode c,
  lo <= hi -> nonneg p -> wf_arr a -> has_channels nc a -> cval_fits nc c ->
  exists r, pad lo hi nc a p mode c = Ok r /\
    ah r = ah a + t_top p + t_bottom p /\ aw r = aw a + t_left p + t_right p /\
    (forall y x, 0 <= y < ah a -> 0 <= x < aw a ->
       apx r (y + t_top p) (x + t_left p) = apx a y x) /\
    (forall y x, 0 <= y < ah r -> 0 <= x < aw r ->
       ~ (0 <= y - t_top p < ah a /\ 0 <= x - t_left p < aw a) ->
       if match mode with PMConstant => true | _ => false end
          || (ah a =? 0) || (aw a =? 0) || Nat.eqb nc 0
       then length (apx r y x) = nc /\
            forall ch v, (ch < nc)%nat -> requested_cval c ch = Some v ->
              nth_error (apx r y x) ch = Some (Z.max lo (Z.min hi v))
       else exists y' x', mirror_source mode (ah a) (y - t_top p) y' /\
                          mirror_source mode (aw a) (x - t_left p) x' /\
                          apx r y x = apx a y' x').
Proof.
  intros lo hi nc a p mode c Hr Np Wa Hch Hc.
  destruct (pad_ok lo hi nc a p mode c Np Wa Hch Hc) as (r & E & R1 & R2 & R3).
  exists r. split; [exact E|]. destruct Np as (P1 & P2 & P3 & P4). destruct Wa as [Wh Ww].
  cbn in R1, R2. split; [lia|]. split; [lia|].
  split.
  - intros y x Hy Hx. rewrite R3 by lia. unfold copy_make_border. cbn [apx].
    rewrite !border_index_inside by lia. f_equal; lia.
  - intros y x Hy Hx Hout. rewrite R3 by lia.
    pose proof (normalize_cval_length lo hi nc c Hc) as HL.
    destruct (match mode with PMConstant => true | _ => false end
          || (ah a =? 0) || (aw a =? 0) || Nat.eqb nc 0) eqn:Em.
    + assert ((if (ah a =? 0) || (aw a =? 0) || Nat.eqb nc 0 then PMConstant else mode) = PMConstant) as ->.
      { destruct mode; destruct (ah a =? 0), (aw a =? 0), (Nat.eqb nc 0); cbn in *; congruence. }
      assert (apx (copy_make_border a p PMConstant (normalize_cval lo hi nc c)) y x
              = normalize_cval lo hi nc c) as ->.
      { unfold copy_make_border. cbn [apx].
        destruct (Z_le_dec 0 (y - t_top p)); [destruct (Z_lt_dec (y - t_top p) (ah a))|].
        - rewrite (border_index_inside _ (ah a)) by lia.
          rewrite border_index_const by lia. reflexivity.
        - rewrite (border_index_const (ah a)) by lia. reflexivity.
        - rewrite (border_index_const (ah a)) by lia. reflexivity. }
      split; [exact HL|]. intros. apply normalize_cval_nth; assumption.
    + assert (mode <> PMConstant) as Hm by (destruct mode; cbn in Em; congruence).
      assert ((ah a =? 0) = false /\ (aw a =? 0) = false /\ Nat.eqb nc 0 = false) as (Z1 & Z2 & Z3).
      { destruct mode, (ah a =? 0), (aw a =? 0), (Nat.eqb nc 0); cbn in *; auto; congruence. }
      rewrite Z1, Z2, Z3. cbn [orb].
      destruct (border_index_mirror mode (ah a) (y - t_top p)) as (y' & By & My); [lia|exact Hm|].
      destruct (border_index_mirror mode (aw a) (x - t_left p)) as (x' & Bx & Mx); [lia|exact Hm|].
      exists y', x'. split; [exact My|]. split; [exact Mx|].
      unfold copy_make_border. cbn [apx]. rewrite By, Bx. reflexivity.
Qed.

Lemma pad_rejects_negative : forall lo hi nc a p mode c, ~ nonneg p ->
  pad lo hi nc a p mode c = Err AssertionError.
Proof.
  intros lo hi nc a p mode c H. unfold pad.
  replace (_ && _) with false; [reflexivity|].
  symmetry. apply not_true_iff_false. intro K. apply H. unfold nonneg. lia.
Qed.

(* ---------- crop and pad together ---------- *)

Lemma crop_effective : forall h w c, 1 <= h -> 1 <= w -> nonneg c ->
  exists c', effective_crop (h, w) c c' /\
    crop_trbl_to_xyxy h w c =
      ((t_left c', t_top c'), (w - t_right c', h - t_bottom c')).
Proof.
  intros h w c Hh Hw Hc.
  destruct (crop_trbl_to_xyxy h w c) as [[x1 y1] [x2 y2]] eqn:E.
  apply crop_trbl_to_xyxy_spec in E; auto.
  destruct E as (c' & N & A1 & A2 & A3 & A4 & -> & -> & -> & -> & S1 & S2).
  exists c'. split; [|reflexivity]. unfold effective_crop. cbn [fst snd]. tauto.
Qed.

Lemma effective_crop_id : forall s c, nonneg c -> t_top c + t_bottom c < fst s ->
  t_left c + t_right c < snd s -> forall c', effective_crop s c c' -> c' = c.
Proof.
  intros [h w] [t r b l] (N1 & N2 & N3 & N4) H1 H2 [t' r' b' l']
    ((M1 & M2 & M3 & M4) & A1 & A2 & A3 & A4 & A5 & A6). cbn in *.
  f_equal; lia.
Qed.

Lemma crop_arr_window : forall {A} (a : arr A) c c',
  1 <= ah a -> 1 <= aw a ->
  crop_trbl_to_xyxy (ah a) (aw a) c =
    ((t_left c', t_top c'), (aw a - t_right c', ah a - t_bottom c')) ->
  effective_crop (ah a, aw a) c c' ->
  is_window a (crop_arr a c) c'.
Proof.
  intros A a c c' Hh Hw E ((N1 & N2 & N3 & N4) & _ & _ & _ & _ & S1 & S2).
  unfold crop_arr. rewrite E. destruct c' as [t r b l]. cbn in *.
  apply slice2_window; lia.
Qed.

Lemma crop_has_channels : forall {V} (a : arr (list V)) c c' nc,
  is_window a (crop_arr a c) c' -> nonneg c' -> has_channels nc a -> has_channels nc (crop_arr a c).
Proof.
  intros V a c c' nc (W1 & W2 & W3) (N1 & N2 & N3 & N4) H y x Hy Hx.
  rewrite W3 by assumption. apply H; lia.
Qed.

(** Where the pixels of [a] go: pixel (y, x) of the part that survives the
    crop [c'] is found at (y + dy, x + dx) of [r]. *)
Lemma crop_and_pad_pixels : forall lo hi nc a c c' p mode cv,
  lo <= hi -> 1 <= ah a -> 1 <= aw a -> has_channels nc a -> nonneg p -> cval_fits nc cv ->
  crop_trbl_to_xyxy (ah a) (aw a) c =
    ((t_left c', t_top c'), (aw a - t_right c', ah a - t_bottom c')) ->
  effective_crop (ah a, aw a) c c' ->
  exists r, pad lo hi nc (crop_arr a c) p mode cv = Ok r /\
    (ah r, aw r) = shape_after_crop_and_pad (ah a, aw a) c p /\
    1 <= ah r /\ 1 <= aw r /\
    forall y x, t_top c' <= y < ah a - t_bottom c' -> t_left c' <= x < aw a - t_right c' ->
      0 <= y + (t_top p - t_top c') < ah r /\ 0 <= x + (t_left p - t_left c') < aw r /\
      apx r (y + (t_top p - t_top c')) (x + (t_left p - t_left c')) = apx a y x.
Proof.
  intros lo hi nc a c c' p mode cv Hr Hh Hw Hch Hp Hcv EX EC.
  pose proof (crop_arr_window a c c' Hh Hw EX EC) as W.
  pose proof EC as ((N1 & N2 & N3 & N4) & _ & _ & _ & _ & S1 & S2). cbn in S1, S2.
  pose proof (crop_has_channels a c c' nc W (conj N1 (conj N2 (conj N3 N4))) Hch) as Hch'.
  destruct W as (W1 & W2 & W3). pose proof Hp as (P1 & P2 & P3 & P4).
  destruct (pad_spec lo hi nc (crop_arr a c) p mode cv Hr Hp) as (r & E & R1 & R2 & R3 & _); auto.
  { split; lia. }
  exists r. split; [exact E|]. split.
  - unfold shape_after_crop_and_pad. cbn [fst snd]. rewrite EX. rewrite R1, R2, W1, W2.
    apply f_equal2; lia.
  - split; [lia|]. split; [lia|]. intros y x Hy Hx. split; [lia|]. split; [lia|].
    replace (y + (t_top p - t_top c')) with ((y - t_top c') + t_top p) by lia.
    replace (x + (t_left p - t_left c')) with ((x - t_left c') + t_left p) by lia.
    rewrite R3 by lia. rewrite W3 by lia. f_equal; lia.
Qed.

Lemma kps_shift_F2 : forall ks (c' p : trbl),
  Forall2 (fun i o => kx o == kx i + inject_Z (t_left p - t_left c') /\
                      ky o == ky i + inject_Z (t_top p - t_top c'))%Q ks
    (map (fun i => kp_shift i (inject_Z (- t_left c' + t_left p)) (inject_Z (- t_top c' + t_top p))) ks).
Proof.
  intros ks c' p. 
  replace (t_left p - t_left c') with (- t_left c' + t_left p) by lia.
  replace (t_top p - t_top c') with (- t_top c' + t_top p) by lia.
  induction ks as [|k ks IH]; cbn; constructor; auto. split; reflexivity.
Qed.

(** Image, keypoints and equally sized maps move together (no keep_size). *)
Lemma crop_and_pad_together : forall rp lo hi nc a ks c p mode cv,
  lo <= hi -> 1 <= ah a -> 1 <= aw a -> has_channels nc a -> nonneg c -> nonneg p -> cval_fits nc cv ->
  exists r k' c' dx dy,
    crop_and_pad_arr rp lo hi nc a c p mode cv false = Ok r /\
    crop_and_pad_kpsoi (mkKpsoi ks (ah a, aw a)) c p false = Ok k' /\
    kps_shape k' = (ah r, aw r) /\ 1 <= ah r /\ 1 <= aw r /\
    effective_crop (ah a, aw a) c c' /\
    dy = t_top p - t_top c' /\ dx = t_left p - t_left c' /\
    (forall y x, t_top c' <= y < ah a - t_bottom c' -> t_left c' <= x < aw a - t_right c' ->
       0 <= y + dy < ah r /\ 0 <= x + dx < aw r /\ apx r (y + dy) (x + dx) = apx a y x) /\
    Forall2 (fun i o => kx o == kx i + inject_Z dx /\ ky o == ky i + inject_Z dy)%Q ks (kps k').
Proof.
  intros rp lo hi nc a ks c p mode cv Hr Hh Hw Hch Hc Hp Hcv.
  destruct (crop_effective (ah a) (aw a) c Hh Hw Hc) as (c' & EC & EX).
  destruct (crop_and_pad_pixels lo hi nc a c c' p mode cv) as (r & E & S & L1 & L2 & P); auto.
  exists r. eexists. exists c'. eexists. eexists.
  unfold crop_and_pad_arr. rewrite E. cbn [bind].
  split; [reflexivity|]. unfold crop_and_pad_kpsoi. cbn [kps_shape fst snd]. rewrite EX.
  split; [reflexivity|]. cbn [kps_shape kps kpsoi_shift]. split; [congruence|].
  split; [exact L1|]. split; [exact L2|]. split; [exact EC|].
  split; [reflexivity|]. split; [reflexivity|]. split; [exact P|]. apply kps_shift_F2.
Qed.

(** With keep_size the image has its old size and the keypoints are scaled by
    the same factor as the image. *)
Lemma crop_and_pad_keep_size : forall rp lo hi nc a ks c p mode cv,
  lo <= hi -> 1 <= ah a -> 1 <= aw a -> has_channels nc a -> nonneg c -> nonneg p -> cval_fits nc cv ->
  exists r0 r k0 k',
    crop_and_pad_arr rp lo hi nc a c p mode cv false = Ok r0 /\
    crop_and_pad_kpsoi (mkKpsoi ks (ah a, aw a)) c p false = Ok k0 /\
    crop_and_pad_arr rp lo hi nc a c p mode cv true = Ok r /\
    crop_and_pad_kpsoi (mkKpsoi ks (ah a, aw a)) c p true = Ok k' /\
    ah r = ah a /\ aw r = aw a /\ kps_shape k' = (ah a, aw a) /\
    r = imresize rp r0 (ah a) (aw a) /\
    Forall2 (fun i o => kx o == kx i * (inject_Z (aw a) / inject_Z (aw r0)) /\
                        ky o == ky i * (inject_Z (ah a) / inject_Z (ah r0)))%Q (kps k0) (kps k').
Proof.
  intros rp lo hi nc a ks c p mode cv Hr Hh Hw Hch Hc Hp Hcv.
  destruct (crop_and_pad_together rp lo hi nc a ks c p mode cv)
    as (r0 & k0 & c' & dx & dy & E1 & E2 & S & L1 & L2 & _); auto.
  assert (exists k', kpsoi_on k0 (ah a, aw a) = Ok k' /\ kps_shape k' = (ah a, aw a) /\
    Forall2 (fun i o => kx o == kx i * (inject_Z (aw a) / inject_Z (aw r0)) /\
                        ky o == ky i * (inject_Z (ah a) / inject_Z (ah r0)))%Q (kps k0) (kps k'))
    as (k' & Ek & Sk & Fk).
  { destruct (kpsoi_on_scale k0 (ah a) (aw a)) as (k' & Ek & Sk & Fk); rewrite ?S; cbn; try lia.
    exists k'. rewrite S in Fk. cbn in Fk. auto. }
  exists r0, (imresize rp r0 (ah a) (aw a)), k0, k'.
  split; [exact E1|]. split; [exact E2|].
  split. { unfold crop_and_pad_arr in *. destruct (pad lo hi nc (crop_arr a c) p mode cv);
           cbn in *; [|discriminate]. injection E1 as <-. reflexivity. }
  split.
  { unfold crop_and_pad_kpsoi in *. cbn [kps_shape] in *.
    destruct (crop_trbl_to_xyxy (fst (ah a, aw a)) (snd (ah a, aw a)) c) as [[x1 y1] q].
    injection E2 as <-. exact Ek. }
  repeat (split; [reflexivity|]). split; [exact Sk|]. split; [reflexivity|]. exact Fk.
Qed.

(* ---------- maps ---------- *)

Lemma project_size_changes_same : forall c s, project_size_changes c s s = c.
Proof.
  intros c s. unfold project_size_changes.
  replace (shape2_eqb s s) with true; [reflexivity|]. symmetry. apply shape2_eqb_iff. reflexivity.
Qed.

Lemma prevent_zero_size_trbl_spec : forall h w c, 1 <= h -> 1 <= w -> nonneg c ->
  effective_crop (h, w) c (prevent_zero_size_trbl h w c).
Proof.
  intros h w [t r b l] Hh Hw (N1 & N2 & N3 & N4). cbn in *. unfold prevent_zero_size_trbl. cbn.
  destruct (prevent_zero_size h t b) as [t' b'] eqn:E1.
  destruct (prevent_zero_size w l r) as [l' r'] eqn:E2.
  apply prevent_zero_size_spec in E1; try lia. apply prevent_zero_size_spec in E2; try lia.
  unfold effective_crop, nonneg. cbn. repeat split; lia.
Qed.

Lemma crop_trbl_xyxy_of_prevent : forall h w c, 1 <= h -> 1 <= w -> nonneg c ->
  crop_trbl_to_xyxy h w c =
    let c' := prevent_zero_size_trbl h w c in
    ((t_left c', t_top c'), (w - t_right c', h - t_bottom c')).
Proof.
  intros h w [t r b l] Hh Hw (N1 & N2 & N3 & N4). cbn in *.
  unfold crop_trbl_to_xyxy, prevent_zero_size_trbl. cbn.
  destruct (prevent_zero_size h t b) as [t' b'] eqn:E1.
  destruct (prevent_zero_size w l r) as [l' r'] eqn:E2.
  apply prevent_zero_size_spec in E1; try lia. apply prevent_zero_size_spec in E2; try lia.
  cbn. apply f_equal2; [reflexivity|]. apply f_equal2; lia.
Qed.

Lemma prevent_idem : forall h w c, 1 <= h -> 1 <= w -> nonneg c ->
  prevent_zero_size_trbl h w (prevent_zero_size_trbl h w c) = prevent_zero_size_trbl h w c.
Proof.
  intros h w c Hh Hw Hc.
  pose proof (prevent_zero_size_trbl_spec h w c Hh Hw Hc) as E.
  pose proof E as ((N1 & N2 & N3 & N4) & _ & _ & _ & _ & S1 & S2). cbn in S1, S2.
  eapply effective_crop_id; [| | |apply prevent_zero_size_trbl_spec; auto]; cbn;
    try lia; repeat split; lia.
Qed.

(** A map of the same size as the image is moved by the same offset. *)
Lemma crop_and_pad_map_same : forall rp lo hi nc m c p mode cv,
  lo <= hi -> 1 <= ah (m_arr m) -> 1 <= aw (m_arr m) -> has_channels nc (m_arr m) ->
  m_shape m = (ah (m_arr m), aw (m_arr m)) ->
  nonneg c -> nonneg p -> cval_fits nc cv ->
  exists m' r, crop_and_pad_map rp lo hi nc m c p mode cv false = Ok m' /\
    crop_and_pad_arr rp lo hi nc (m_arr m) c p mode cv false = Ok r /\
    arr_eq (m_arr m') r /\ m_shape m' = (ah r, aw r).
Proof.
  intros rp lo hi nc [a s] c p mode cv Hr Hh Hw Hch Hs Hc Hp Hcv. cbn [m_arr m_shape] in *. subst s.
  unfold crop_and_pad_map, crop_and_pad_arr. cbn [m_arr m_shape].
  rewrite !project_size_changes_same.
  set (c1 := prevent_zero_size_trbl (ah a) (aw a) c).
  pose proof (prevent_zero_size_trbl_spec (ah a) (aw a) c Hh Hw Hc) as EC. fold c1 in EC.
  pose proof EC as (N1 & _).
  assert (crop_arr a c1 = crop_arr a c) as ->.
  { unfold crop_arr. rewrite !crop_trbl_xyxy_of_prevent by auto. fold c1.
    replace (prevent_zero_size_trbl (ah a) (aw a) c1) with c1; [reflexivity|].
    symmetry. apply prevent_idem; auto. }
  destruct (crop_and_pad_pixels lo hi nc a c c1 p mode cv) as (r & E & S & _ & _ & P); auto.
  { apply crop_trbl_xyxy_of_prevent; auto. }
  rewrite E. cbn [bind]. eexists. eexists. split; [reflexivity|]. split; [reflexivity|].
  cbn. split; [apply arr_eq_refl|]. symmetry. exact S.
Qed.

Lemma np_round_nonneg_eps : forall q, (-(1#2) < q)%Q -> 0 <= np_round q.
Proof.
  intros q H. destruct (np_round_spec q) as (_ & H1 & _).
  destruct (Z.le_gt_cases 0 (np_round q)) as [L|G]; [exact L|exfalso].
  assert (np_round q <= -1) as G' by lia. apply inject_Z_le in G'.
  change (inject_Z (-1)) with (-(1))%Q in G'. Lqa.lra.
Qed.

Lemma project_size_changes_nonneg : forall c s s', 1 <= fst s -> 1 <= snd s ->
  0 <= fst s' -> 0 <= snd s' -> nonneg c -> nonneg (project_size_changes c s s').
Proof.
  intros c [hf wf] [ht wt] H1 H2 H3 H4 (N1 & N2 & N3 & N4). unfold project_size_changes. cbn in *.
  destruct (shape2_eqb (hf, wf) (ht, wt)); [repeat split; assumption|].
  assert (forall a b v e, 0 <= a -> 1 <= b -> 0 <= v -> (-(1#2) < e)%Q ->
    0 <= np_round (inject_Z a * (inject_Z v / inject_Z b) + e)%Q) as K.
  { intros a b v e Ha Hb Hv He. apply np_round_nonneg_eps.
    assert (0 <= inject_Z a)%Q by (change 0%Q with (inject_Z 0); apply inject_Z_le; lia).
    assert (0 <= inject_Z v)%Q by (change 0%Q with (inject_Z 0); apply inject_Z_le; lia).
    assert (0 < inject_Z b)%Q by (change 0%Q with (inject_Z 0); apply inject_Z_lt; lia).
    assert (0 <= inject_Z v / inject_Z b)%Q by (apply Qle_shift_div_l; lra).
    pose proof (Qmult_nonneg (inject_Z a) (inject_Z v / inject_Z b)). lra. }
  unfold nonneg. cbn. repeat split; apply K; auto; reflexivity.
Qed.

(** A map of any size: no error, never empty, and the recorded image shape is
    the shape of the augmented image. *)
Lemma crop_and_pad_map_any : forall rp lo hi nc m c p mode cv,
  lo <= hi -> 1 <= ah (m_arr m) -> 1 <= aw (m_arr m) -> has_channels nc (m_arr m) ->
  1 <= fst (m_shape m) -> 1 <= snd (m_shape m) ->
  nonneg c -> nonneg p -> cval_fits nc cv ->
  exists m', crop_and_pad_map rp lo hi nc m c p mode cv false = Ok m' /\
    1 <= ah (m_arr m') /\ 1 <= aw (m_arr m') /\
    m_shape m' = shape_after_crop_and_pad (m_shape m) c p.
Proof.
  intros rp lo hi nc [a s] c p mode cv Hr Hh Hw Hch Hs1 Hs2 Hc Hp Hcv. cbn [m_arr m_shape] in *.
  unfold crop_and_pad_map. cbn [m_arr m_shape].
  set (cp := project_size_changes c s (ah a, aw a)).
  set (pp := project_size_changes p s (ah a, aw a)).
  assert (nonneg cp) as Ncp by (apply project_size_changes_nonneg; cbn; auto; lia).
  assert (nonneg pp) as Npp by (apply project_size_changes_nonneg; cbn; auto; lia).
  set (c1 := prevent_zero_size_trbl (ah a) (aw a) cp).
  pose proof (prevent_zero_size_trbl_spec (ah a) (aw a) cp Hh Hw Ncp) as EC. fold c1 in EC.
  pose proof EC as (N1 & _).
  pose proof (prevent_zero_size_trbl_spec (ah a) (aw a) c1 Hh Hw N1) as EC1.
  destruct (crop_and_pad_pixels lo hi nc a c1 (prevent_zero_size_trbl (ah a) (aw a) c1) pp mode cv)
    as (r & E & S & L1 & L2 & P); auto.
  { apply crop_trbl_xyxy_of_prevent; auto. }
  rewrite E. cbn [bind]. eexists. split; [reflexivity|]. cbn. auto.
Qed.

(* ---------- CropAndPad sampling ---------- *)

Lemma cap_draw_samples_spec : forall mode h w t r b l c p,
  1 <= h -> 1 <= w ->
  cap_draw_samples mode h w t r b l = (c, p) ->
  let a := cap_amounts mode h w t r b l in
  nonneg c /\ nonneg p /\
  t_top c + t_bottom c < h /\ t_left c + t_right c < w /\
  p = mkTrbl (Z.max 0 (t_top a)) (Z.max 0 (t_right a)) (Z.max 0 (t_bottom a)) (Z.max 0 (t_left a)) /\
  effective_crop (h, w)
    (mkTrbl (Z.max 0 (- t_top a)) (Z.max 0 (- t_right a)) (Z.max 0 (- t_bottom a)) (Z.max 0 (- t_left a))) c.
Proof.
  intros mode h w t r b l c p Hh Hw H a. unfold cap_draw_samples in H. fold a in H.
  clearbody a. destruct a as [at_ ar ab al]. cbn [t_top t_right t_bottom t_left] in *.
  destruct (prevent_zero_size h (Z.max (-1 * at_) 0) (Z.max (-1 * ab) 0)) as [ct cb] eqn:E1.
  destruct (prevent_zero_size w (Z.max (-1 * al) 0) (Z.max (-1 * ar) 0)) as [cl cr] eqn:E2.
  apply prevent_zero_size_spec in E1; try lia. apply prevent_zero_size_spec in E2; try lia.
  injection H as <- <-. unfold nonneg, effective_crop. cbn.
  repeat (split; [lia|]). split; [f_equal; lia|]. repeat split; cbn; lia.
Qed.

(* ---------- multiples ---------- *)

Lemma compute_axes_ok : forall ok axis s fh fw c,
  compute_axes ok axis s fh fw = Ok c ->
  check_opt ok fh = true /\ check_opt ok fw = true /\
  t_top c = axis (fst s) fh / 2 /\ t_bottom c = (axis (fst s) fh + 1) / 2 /\
  t_left c = axis (snd s) fw / 2 /\ t_right c = (axis (snd s) fw + 1) / 2.
Proof.
  intros ok axis s fh fw c H. unfold compute_axes in H.
  destruct (check_opt ok fh); cbn in H; [|discriminate].
  destruct (check_opt ok fw); cbn in H; [|discriminate].
  injection H as <-. cbn. auto 10.
Qed.

Lemma compute_axes_rejects : forall ok axis s fh fw,
  check_opt ok fh = false \/ check_opt ok fw = false ->
  compute_axes ok axis s fh fw = Err AssertionError.
Proof.
  intros ok axis s fh fw [H|H]; unfold compute_axes; rewrite H; cbn; [reflexivity|].
  destruct (check_opt ok fh); reflexivity.
Qed.

Lemma compute_axes_total : forall ok axis s fh fw,
  check_opt ok fh = true -> check_opt ok fw = true ->
  exists c, compute_axes ok axis s fh fw = Ok c.
Proof. intros ok axis s fh fw H1 H2. unfold compute_axes. rewrite H1, H2. cbn. eauto. Qed.

Lemma halves_split : forall v, 0 <= v -> 0 <= v / 2 /\ 0 <= (v + 1) / 2 /\
  v / 2 + (v + 1) / 2 = v /\ v / 2 <= (v + 1) / 2 <= v / 2 + 1.
Proof. intros v H. zdiv. Qed.

Lemma pad_multiple_axis_spec : forall n m, 0 <= n -> 0 < m ->
  let d := pad_multiple_axis n (Some m) in
  0 <= d /\ multiple_of m (n + d) /\ 0 < n + d /\
  (forall v, multiple_of m v -> 0 < v -> n <= v -> n + d <= v).
Proof.
  intros n m Hn Hm. unfold pad_multiple_axis, multiple_of.
  destruct (n =? 0) eqn:E0.
  { apply Z.eqb_eq in E0. subst n. cbn zeta. split; [lia|]. split; [exists 1; lia|]. split; [lia|].
    intros v [k ->] Hv _. assert (1 <= k) by nia. nia. }
  apply Z.eqb_neq in E0. pose proof (Z.div_mod n m ltac:(lia)) as D.
  pose proof (Z.mod_pos_bound n m Hm) as B.
  destruct (n mod m =? 0) eqn:E1.
  - apply Z.eqb_eq in E1. cbn zeta. split; [lia|]. split; [exists (n / m); lia|]. split; [lia|].
    intros; lia.
  - apply Z.eqb_neq in E1. cbn zeta. split; [lia|]. split; [exists (n / m + 1); lia|]. split; [lia|].
    intros v [k ->] Hv Hle. assert (n / m < k) by nia. nia.
Qed.

Lemma crop_multiple_axis_spec : forall n m, 0 <= n -> 0 < m ->
  let d := crop_multiple_axis n (Some m) in
  0 <= d <= n /\ multiple_of m (n - d) /\
  (forall v, multiple_of m v -> v <= n -> v <= n - d).
Proof.
  intros n m Hn Hm. unfold crop_multiple_axis, multiple_of.
  destruct (n =? 0) eqn:E0.
  { apply Z.eqb_eq in E0. subst n. cbn zeta. split; [lia|]. split; [exists 0; lia|]. intros; lia. }
  apply Z.eqb_neq in E0. pose proof (Z.div_mod n m ltac:(lia)) as D.
  pose proof (Z.mod_pos_bound n m Hm) as B.
  assert (0 <= n / m) by (apply Z.div_pos; lia).
  destruct (n mod m =? 0) eqn:E1.
  - apply Z.eqb_eq in E1. cbn zeta. split; [lia|]. split; [exists (n / m); lia|]. intros; lia.
  - apply Z.eqb_neq in E1. cbn zeta. split; [nia|]. split; [exists (n / m); lia|].
    intros v [k ->] Hle. assert (k <= n / m) by nia. nia.
Qed.

Lemma paddings_multiples_spec : forall h w mh mw p,
  0 <= h -> 0 <= w -> paddings_multiples_of (h, w) mh mw = Ok p ->
  nonneg p /\
  t_top p <= t_bottom p <= t_top p + 1 /\ t_left p <= t_right p <= t_left p + 1 /\
  (match mh with
   | None => t_top p = 0 /\ t_bottom p = 0
   | Some m => 0 < m /\ multiple_of m (h + t_top p + t_bottom p) /\ 0 < h + t_top p + t_bottom p /\
       forall v, multiple_of m v -> 0 < v -> h <= v -> h + t_top p + t_bottom p <= v
   end) /\
  (match mw with
   | None => t_left p = 0 /\ t_right p = 0
   | Some m => 0 < m /\ multiple_of m (w + t_left p + t_right p) /\ 0 < w + t_left p + t_right p /\
       forall v, multiple_of m v -> 0 < v -> w <= v -> w + t_left p + t_right p <= v
   end).
Proof.
  intros h w mh mw p Hh Hw H. apply compute_axes_ok in H. cbn [fst snd] in H.
  unfold nonneg. destruct H as (K1 & K2 & -> & -> & -> & ->).
  assert (forall n m, 0 <= n -> check_opt (fun m => 0 <? m) m = true ->
    0 <= pad_multiple_axis n m) as N.
  { intros n [m|] Hn C; [|cbn; lia]. cbn in C. apply Z.ltb_lt in C.
    apply (pad_multiple_axis_spec n m Hn C). }
  destruct (halves_split _ (N h mh Hh K1)) as (A1 & A2 & A3 & A4).
  destruct (halves_split _ (N w mw Hw K2)) as (B1 & B2 & B3 & B4).
  split; [repeat split; assumption|]. split; [lia|]. split; [lia|]. split.
  - destruct mh as [m|]; [|cbn; lia]. cbn in K1. apply Z.ltb_lt in K1.
    destruct (pad_multiple_axis_spec h m Hh K1) as (P1 & P2 & P3 & P4).
    rewrite <- Z.add_assoc, A3. auto.
  - destruct mw as [m|]; [|cbn; lia]. cbn in K2. apply Z.ltb_lt in K2.
    destruct (pad_multiple_axis_spec w m Hw K2) as (P1 & P2 & P3 & P4).
    rewrite <- Z.add_assoc, B3. auto.
Qed.

Lemma croppings_multiples_spec : forall h w mh mw c,
  0 <= h -> 0 <= w -> croppings_multiples_of (h, w) mh mw = Ok c ->
  nonneg c /\
  t_top c <= t_bottom c <= t_top c + 1 /\ t_left c <= t_right c <= t_left c + 1 /\
  (match mh with
   | None => t_top c = 0 /\ t_bottom c = 0
   | Some m => 0 < m /\ multiple_of m (h - t_top c - t_bottom c) /\ 0 <= h - t_top c - t_bottom c /\
       forall v, multiple_of m v -> v <= h -> v <= h - t_top c - t_bottom c
   end) /\
  (match mw with
   | None => t_left c = 0 /\ t_right c = 0
   | Some m => 0 < m /\ multiple_of m (w - t_left c - t_right c) /\ 0 <= w - t_left c - t_right c /\
       forall v, multiple_of m v -> v <= w -> v <= w - t_left c - t_right c
   end).
Proof.
  intros h w mh mw p Hh Hw H. apply compute_axes_ok in H. cbn [fst snd] in H.
  unfold nonneg. destruct H as (K1 & K2 & -> & -> & -> & ->).
  assert (forall n m, 0 <= n -> check_opt (fun m => 0 <? m) m = true ->
    0 <= crop_multiple_axis n m) as N.
  { intros n [m|] Hn C; [|cbn; lia]. cbn in C. apply Z.ltb_lt in C.
    apply (crop_multiple_axis_spec n m Hn C). }
  destruct (halves_split _ (N h mh Hh K1)) as (A1 & A2 & A3 & A4).
  destruct (halves_split _ (N w mw Hw K2)) as (B1 & B2 & B3 & B4).
  split; [repeat split; assumption|]. split; [lia|]. split; [lia|]. split.
  - destruct mh as [m|]; [|cbn; lia]. cbn in K1. apply Z.ltb_lt in K1.
    destruct (crop_multiple_axis_spec h m Hh K1) as (P1 & P2 & P3).
    rewrite <- Z.sub_add_distr, A3. repeat split; auto. lia.
  - destruct mw as [m|]; [|cbn; lia]. cbn in K2. apply Z.ltb_lt in K2.
    destruct (crop_multiple_axis_spec w m Hw K2) as (P1 & P2 & P3).
    rewrite <- Z.sub_add_distr, B3. repeat split; auto. lia.
Qed.

(* ---------- fixed sizes ---------- *)

Lemma frac_bounds : forall pos total, (0 <= pos)%Q -> (pos <= 1)%Q -> 0 <= total ->
  0 <= py_int ((1 - pos) * inject_Z total)%Q <= total.
Proof.
  intros pos total H1 H2 Ht.
  assert (0 <= inject_Z total)%Q as Ti by (change 0%Q with (inject_Z 0); apply inject_Z_le; lia).
  assert (0 <= (1 - pos) * inject_Z total)%Q as P by (apply Qmult_nonneg; lra).
  assert ((1 - pos) * inject_Z total <= inject_Z total)%Q as P'.
  { pose proof (Qmult_nonneg pos (inject_Z total) H1 Ti). lra. }
  destruct (py_int_nonneg _ P) as (F0 & F1 & F2). split; [exact F0|]. apply inject_Z_le. lra.
Qed.

Lemma pad_fixed_axis_spec : forall size m pos a b, (0 <= pos)%Q -> (pos <= 1)%Q ->
  pad_fixed_axis size m pos = (a, b) ->
  0 <= a /\ 0 <= b /\ size + a + b = match m with None => size | Some v => Z.max size v end.
Proof.
  intros size m pos a b H1 H2 H. unfold pad_fixed_axis in H. destruct m as [v|].
  - destruct (size <? v) eqn:E; [apply Z.ltb_lt in E|apply Z.ltb_ge in E]; injection H as <- <-.
    + pose proof (frac_bounds pos (v - size) H1 H2 ltac:(lia)). lia.
    + lia.
  - injection H as <- <-. lia.
Qed.

Lemma crop_fixed_axis_spec : forall size m pos a b, (0 <= pos)%Q -> (pos <= 1)%Q ->
  crop_fixed_axis size m pos = (a, b) ->
  0 <= a /\ 0 <= b /\ size - a - b = match m with None => size | Some v => Z.min size v end.
Proof.
  intros size m pos a b H1 H2 H. unfold crop_fixed_axis in H. destruct m as [v|].
  - destruct (v <? size) eqn:E; [apply Z.ltb_lt in E|apply Z.ltb_ge in E]; injection H as <- <-.
    + pose proof (frac_bounds pos (size - v) H1 H2 ltac:(lia)). lia.
    + lia.
  - injection H as <- <-. lia.
Qed.

Lemma calculate_paddings_spec : forall h w hm wm px py p,
  (0 <= px)%Q -> (px <= 1)%Q -> (0 <= py)%Q -> (py <= 1)%Q ->
  calculate_paddings (h, w) hm wm px py = p ->
  nonneg p /\
  h + t_top p + t_bottom p = match hm with None => h | Some v => Z.max h v end /\
  w + t_left p + t_right p = match wm with None => w | Some v => Z.max w v end.
Proof.
  intros h w hm wm px py p X1 X2 Y1 Y2 <-. unfold calculate_paddings. cbn [fst snd].
  destruct (pad_fixed_axis w wm px) as [l r] eqn:E1. destruct (pad_fixed_axis h hm py) as [t b] eqn:E2.
  apply pad_fixed_axis_spec in E1; auto. apply pad_fixed_axis_spec in E2; auto.
  unfold nonneg. cbn [t_top t_right t_bottom t_left]. 
  destruct E1 as (E1a & E1b & E1c), E2 as (E2a & E2b & E2c). auto 10.
Qed.

Lemma calculate_crops_spec : forall h w hm wm px py c,
  (0 <= px)%Q -> (px <= 1)%Q -> (0 <= py)%Q -> (py <= 1)%Q ->
  calculate_crop_amounts (h, w) hm wm px py = c ->
  nonneg c /\
  h - t_top c - t_bottom c = match hm with None => h | Some v => Z.min h v end /\
  w - t_left c - t_right c = match wm with None => w | Some v => Z.min w v end.
Proof.
  intros h w hm wm px py p X1 X2 Y1 Y2 <-. unfold calculate_crop_amounts. cbn [fst snd].
  destruct (crop_fixed_axis h hm py) as [t b] eqn:E2. destruct (crop_fixed_axis w wm px) as [l r] eqn:E1.
  apply crop_fixed_axis_spec in E1; auto. apply crop_fixed_axis_spec in E2; auto.
  unfold nonneg. cbn [t_top t_right t_bottom t_left]. 
  destruct E1 as (E1a & E1b & E1c), E2 as (E2a & E2b & E2c). auto 10.
Qed.

Lemma py_int_compat : forall a b, (a == b)%Q -> py_int a = py_int b.
Proof.
  intros a b E. unfold py_int.
  assert (qleb 0 a = qleb 0 b) as ->.
  { destruct (qleb 0 a) eqn:A, (qleb 0 b) eqn:B; try reflexivity; qbool; lra. }
  destruct (qleb 0 b).
  - apply Qfloor_comp. exact E.
  - unfold Qceiling. f_equal. apply Qfloor_comp. rewrite E. reflexivity.
Qed.

Lemma pad_fixed_ends : forall size v, size <= v ->
  pad_fixed_axis size (Some v) 0 = (v - size, 0) /\ pad_fixed_axis size (Some v) 1 = (0, v - size).
Proof.
  intros size v H. unfold pad_fixed_axis. destruct (size <? v) eqn:E.
  - split.
    + rewrite (py_int_compat _ (inject_Z (v - size))) by ring. rewrite py_int_Z. f_equal; lia.
    + rewrite (py_int_compat _ (inject_Z 0)) by (change (inject_Z 0) with 0%Q; ring).
      rewrite py_int_Z. f_equal; lia.
  - apply Z.ltb_ge in E. replace (v - size) with 0 by lia. auto.
Qed.

Lemma crop_fixed_ends : forall size v, v <= size ->
  crop_fixed_axis size (Some v) 0 = (size - v, 0) /\ crop_fixed_axis size (Some v) 1 = (0, size - v).
Proof.
  intros size v H. unfold crop_fixed_axis. destruct (v <? size) eqn:E.
  - split.
    + rewrite (py_int_compat _ (inject_Z (size - v))) by ring. rewrite py_int_Z. f_equal; lia.
    + rewrite (py_int_compat _ (inject_Z 0)) by (change (inject_Z 0) with 0%Q; ring).
      rewrite py_int_Z. f_equal; lia.
  - apply Z.ltb_ge in E. replace (size - v) with 0 by lia. auto.
Qed.

Lemma positions_do_not_matter_multiples : forall h w hm wm px py c,
  0 <= h -> 0 <= w ->
  (0 <= px)%Q -> (px <= 1)%Q -> (0 <= py)%Q -> (py <= 1)%Q ->
  crop_to_multiples_amounts (h, w) hm wm px py = Ok c ->
  nonneg c /\
  (forall m, hm = Some m -> multiple_of m (h - t_top c - t_bottom c) /\
     forall v, multiple_of m v -> v <= h -> v <= h - t_top c - t_bottom c) /\
  (forall m, wm = Some m -> multiple_of m (w - t_left c - t_right c) /\
     forall v, multiple_of m v -> v <= w -> v <= w - t_left c - t_right c).
Proof.
  intros h w hm wm px py c Hh Hw X1 X2 Y1 Y2 H. unfold crop_to_multiples_amounts in H. cbn [fst snd] in H.
  destruct (croppings_multiples_of (h, w) hm wm) as [c0|e] eqn:E; [|discriminate].
  cbn in H. injection H as H. apply calculate_crops_spec in H; auto.
  apply croppings_multiples_spec in E; auto.
  destruct E as (N & _ & _ & E1 & E2), H as (N' & F1 & F2).
  destruct N as (N1 & N2 & N3 & N4).
  split; [exact N'|]. rewrite F1, F2. rewrite !Z.min_r by lia.
  split; intros m ->.
  - destruct E1 as (_ & E1 & _ & E1'). auto.
  - destruct E2 as (_ & E2 & _ & E2'). replace (w - t_right c0 - t_left c0) with (w - t_left c0 - t_right c0) by lia. auto.
Qed.

Lemma positions_do_not_matter_pad_multiples : forall h w hm wm px py c,
  0 <= h -> 0 <= w ->
  (0 <= px)%Q -> (px <= 1)%Q -> (0 <= py)%Q -> (py <= 1)%Q ->
  pad_to_multiples_amounts (h, w) hm wm px py = Ok c ->
  nonneg c /\
  (forall m, hm = Some m -> multiple_of m (h + t_top c + t_bottom c) /\ 0 < h + t_top c + t_bottom c /\
     forall v, multiple_of m v -> 0 < v -> h <= v -> h + t_top c + t_bottom c <= v) /\
  (forall m, wm = Some m -> multiple_of m (w + t_left c + t_right c) /\ 0 < w + t_left c + t_right c /\
     forall v, multiple_of m v -> 0 < v -> w <= v -> w + t_left c + t_right c <= v).
Proof.
  intros h w hm wm px py c Hh Hw X1 X2 Y1 Y2 H. unfold pad_to_multiples_amounts in H. cbn [fst snd] in H.
  destruct (paddings_multiples_of (h, w) hm wm) as [c0|e] eqn:E; [|discriminate].
  cbn in H. injection H as H. apply calculate_paddings_spec in H; auto.
  apply paddings_multiples_spec in E; auto.
  destruct E as (N & _ & _ & E1 & E2), H as (N' & F1 & F2).
  destruct N as (N1 & N2 & N3 & N4).
  split; [exact N'|]. rewrite F1, F2. rewrite !Z.max_r by lia.
  split; intros m ->.
  - destruct E1 as (_ & E1 & E1'). auto.
  - destruct E2 as (_ & E2 & E2'). auto.
Qed.

(* ---------- aspect ratios ---------- *)

Lemma Qhalves_near : forall d, (d - 1 < inject_Z (Qfloor (d / 2) + Qceiling (d / 2)))%Q /\
  (inject_Z (Qfloor (d / 2) + Qceiling (d / 2)) < d + 1)%Q.
Proof.
  intro d. destruct (Qfloor_spec (d / 2)) as [F1 F2]. destruct (Qceiling_spec (d / 2)) as [C1 C2].
  rewrite inject_Z_plus. assert (d == d / 2 + d / 2)%Q by field. lra.
Qed.

Lemma Qhalves_Z : forall d n, (d == inject_Z n)%Q -> Qfloor (d / 2) + Qceiling (d / 2) = n.
Proof.
  intros d n E. destruct (Qhalves_near d) as [A B].
  remember (Qfloor (d / 2) + Qceiling (d / 2)) as X eqn:EX. clear EX.
  assert (n < X + 1) by (apply inject_Z_lt; rewrite inject_Z_plus; change (inject_Z 1) with 1%Q; lra).
  assert (X < n + 1) by (apply inject_Z_lt; rewrite inject_Z_plus; change (inject_Z 1) with 1%Q; lra).
  lia.
Qed.

Lemma Qhalves_nonneg : forall d, (0 <= d)%Q -> 0 <= Qfloor (d / 2) /\ Qfloor (d / 2) <= Qceiling (d / 2).
Proof.
  intros d H. assert (0 <= d / 2)%Q by (assert (d == d / 2 + d / 2)%Q by field; lra).
  split.
  - change 0 with (Qfloor (inject_Z 0)). apply Qfloor_resp_le. change (inject_Z 0) with 0%Q. exact H0.
  - destruct (Qfloor_spec (d / 2)), (Qceiling_spec (d / 2)). apply inject_Z_le. lra.
Qed.

Lemma Qhalves_le : forall d n, (d <= inject_Z n)%Q -> Qfloor (d / 2) + Qceiling (d / 2) <= n.
Proof.
  intros d n H. rewrite <- (Qhalves_Z (inject_Z n) n) at 1 by reflexivity.
  assert (d / 2 <= inject_Z n / 2)%Q.
  { assert (d == d / 2 + d / 2)%Q by field.
    assert (inject_Z n == inject_Z n / 2 + inject_Z n / 2)%Q by field. lra. }
  apply Z.add_le_mono; [apply Qfloor_resp_le|apply Qceiling_resp_le]; assumption.
Qed.

Lemma ratio_cmp : forall a b r, (0 < b)%Q -> (a / b < r <-> a < r * b)%Q /\ (r < a / b <-> r * b < a)%Q.
Proof.
  intros a b r Hb. split; split; intro H.
  - assert (a == a / b * b)%Q as E by (field; lra). rewrite E. apply Qmult_lt_compat_r; assumption.
  - apply Qlt_shift_div_r; assumption.
  - assert (a == a / b * b)%Q as E by (field; lra). rewrite E. apply Qmult_lt_compat_r; assumption.
  - apply Qlt_shift_div_l; assumption.
Qed.

Lemma Ok_inj : forall {A} (x y : A), Ok x = Ok y -> x = y.
Proof. intros A x y H. injection H as H. exact H. Qed.

Lemma paddings_aspect_ratio_spec : forall h w r p, 0 <= h -> 0 <= w ->
  paddings_aspect_ratio (h, w) r = Ok p ->
  let H := h + t_top p + t_bottom p in
  let W := w + t_left p + t_right p in
  (0 < r)%Q /\ nonneg p /\
  ((H = Z.max h 1 /\ (r * inject_Z H - 1 < inject_Z W)%Q /\ (inject_Z W < r * inject_Z H + 1)%Q /\
    (forall n, (r * inject_Z H == inject_Z n)%Q -> W = n)) \/
   (W = Z.max w 1 /\ (inject_Z W / r - 1 < inject_Z H)%Q /\ (inject_Z H < inject_Z W / r + 1)%Q /\
    (forall n, (inject_Z W / r == inject_Z n)%Q -> H = n))).
Proof.
  intros h w r p Hh Hw E. unfold paddings_aspect_ratio in E.
  destruct (qltb 0 r) eqn:R; cbn [negb] in E; [|discriminate]. qbool.
  remember (if h =? 0 then (1, 1) else (h, 0)) as hp eqn:Ehp.
  remember (if w =? 0 then (1, 1) else (w, 0)) as wp eqn:Ewp.
  destruct hp as [h1 pb]. destruct wp as [w1 pr].
  assert (h1 = Z.max h 1 /\ h1 = h + pb /\ 0 <= pb) as (X1 & X2 & X3).
  { destruct (h =? 0) eqn:Z0; [apply Z.eqb_eq in Z0|apply Z.eqb_neq in Z0]; injection Ehp as -> ->; lia. }
  assert (w1 = Z.max w 1 /\ w1 = w + pr /\ 0 <= pr) as (Y1 & Y2 & Y3).
  { destruct (w =? 0) eqn:Z0; [apply Z.eqb_eq in Z0|apply Z.eqb_neq in Z0]; injection Ewp as -> ->; lia. }
  clear Ehp Ewp.
  assert (0 < inject_Z h1)%Q as Ph by (change 0%Q with (inject_Z 0); apply inject_Z_lt; lia).
  assert (0 < inject_Z w1)%Q as Pw by (change 0%Q with (inject_Z 0); apply inject_Z_lt; lia).
  destruct (ratio_cmp (inject_Z w1) (inject_Z h1) r Ph) as [C1 C2].
  destruct (qltb (inject_Z w1 / inject_Z h1) r) eqn:L.
  - qbool. apply C1 in L. intros H W. apply Ok_inj in E; subst p. cbn [t_top t_right t_bottom t_left] in H, W.
    split; [exact R|].
    set (d := (r * inject_Z h1 - inject_Z w1)%Q) in *.
    assert (0 <= d)%Q as D by (unfold d; lra).
    destruct (Qhalves_nonneg d D) as [N1 N2]. destruct (Qhalves_near d) as [A B].
    split; [repeat split; cbn [t_top t_right t_bottom t_left trbl0]; lia|]. left.
    assert (H = h1) as EH by (unfold H; lia).
    assert (W = w1 + (Qfloor (d / 2) + Qceiling (d / 2))) as EW by (unfold W; lia).
    rewrite EH, EW. split; [exact X1|]. rewrite inject_Z_plus.
    split; [unfold d in *; lra|]. split; [unfold d in *; lra|].
    intros n En. rewrite (Qhalves_Z d (n - w1)); [lia|].
    unfold Zminus. rewrite inject_Z_plus, inject_Z_opp. unfold d. lra.
  - qbool. assert (r * inject_Z h1 <= inject_Z w1)%Q as L' by (destruct (Qlt_le_dec (inject_Z w1) (r * inject_Z h1)) as [q|q]; [apply C1 in q; lra|exact q]).
    destruct (qltb r (inject_Z w1 / inject_Z h1)) eqn:G.
    + qbool. apply C2 in G. intros H W. apply Ok_inj in E; subst p. cbn [t_top t_right t_bottom t_left] in H, W.
      split; [exact R|].
      set (d := (1 / r * inject_Z w1 - inject_Z h1)%Q) in *.
      assert (d == inject_Z w1 / r - inject_Z h1)%Q as Ed by (unfold d; field; lra).
      assert (inject_Z h1 < inject_Z w1 / r)%Q by (apply Qlt_shift_div_l; [exact R|lra]).
      assert (0 <= d)%Q as D by (rewrite Ed; lra).
      destruct (Qhalves_nonneg d D) as [N1 N2]. destruct (Qhalves_near d) as [A B].
      split; [repeat split; cbn [t_top t_right t_bottom t_left trbl0]; lia|]. right.
      assert (W = w1) as EW by (unfold W; lia).
      assert (H = h1 + (Qfloor (d / 2) + Qceiling (d / 2))) as EH by (unfold H; lia).
      rewrite EH, EW. split; [exact Y1|]. rewrite inject_Z_plus.
      split; [lra|]. split; [lra|].
      intros n En. rewrite (Qhalves_Z d (n - h1)); [lia|].
      unfold Zminus. rewrite inject_Z_plus, inject_Z_opp. lra.
    + qbool. assert (inject_Z w1 <= r * inject_Z h1)%Q as G' by (destruct (Qlt_le_dec (r * inject_Z h1) (inject_Z w1)) as [q|q]; [apply C2 in q; lra|exact q]).
      intros H W. apply Ok_inj in E; subst p. cbn [t_top t_right t_bottom t_left] in H, W.
      split; [exact R|]. split; [repeat split; cbn [t_top t_right t_bottom t_left trbl0]; lia|]. left.
      assert (H = h1) as -> by (unfold H; lia). assert (W = w1) as -> by (unfold W; lia).
      split; [exact X1|]. split; [lra|]. split; [lra|].
      intros n En. apply inject_Z_injective. lra.
Qed.

Lemma pad_to_square : forall h w p, 0 <= h -> 0 <= w ->
  paddings_aspect_ratio (h, w) 1 = Ok p ->
  h + t_top p + t_bottom p = Z.max 1 (Z.max h w) /\ w + t_left p + t_right p = Z.max 1 (Z.max h w).
Proof.
  intros h w p Hh Hw E. pose proof E as E0. apply paddings_aspect_ratio_spec in E; auto.
  destruct E as (_ & (N1 & N2 & N3 & N4) & [(A & _ & _ & B) | (A & _ & _ & B)]).
  - assert (w + t_left p + t_right p = h + t_top p + t_bottom p) as K by (apply B; ring).
    enough (w + t_left p + t_right p >= Z.max w 1) by lia.
    unfold paddings_aspect_ratio in E0. cbn [qltb] in E0. clear B.
    destruct (Z.eq_dec w 0) as [->|NE]; lia.
  - assert (h + t_top p + t_bottom p = w + t_left p + t_right p) as K by (apply B; field).
    lia.
Qed.

Lemma croppings_aspect_ratio_spec : forall h w r c, 1 <= h -> 1 <= w ->
  croppings_aspect_ratio (h, w) r = Ok c ->
  let H := h - t_top c - t_bottom c in
  let W := w - t_left c - t_right c in
  (0 < r)%Q /\ nonneg c /\ 1 <= H /\ 1 <= W /\
  ((H = h /\ (qmax 1 (r * inject_Z H) - 1 < inject_Z W)%Q /\ (inject_Z W < qmax 1 (r * inject_Z H) + 1)%Q /\
    (forall n, 1 <= n -> (r * inject_Z H == inject_Z n)%Q -> W = n)) \/
   (W = w /\ (qmax 1 (inject_Z W / r) - 1 < inject_Z H)%Q /\ (inject_Z H < qmax 1 (inject_Z W / r) + 1)%Q /\
    (forall n, 1 <= n -> (inject_Z W / r == inject_Z n)%Q -> H = n))).
Proof.
  intros h w r c Hh Hw E. unfold croppings_aspect_ratio in E.
  destruct (qltb 0 r) eqn:R; cbn [negb] in E; [|discriminate]. qbool.
  destruct (0 <? h) eqn:Zh; cbn [negb] in E; [|discriminate]. clear Zh.
  assert (0 < inject_Z h)%Q as Ph by (change 0%Q with (inject_Z 0); apply inject_Z_lt; lia).
  assert (1 <= inject_Z h)%Q as Ph1 by (change 1%Q with (inject_Z 1); apply inject_Z_le; lia).
  assert (1 <= inject_Z w)%Q as Pw by (change 1%Q with (inject_Z 1); apply inject_Z_le; lia).
  destruct (ratio_cmp (inject_Z w) (inject_Z h) r Ph) as [C1 C2].
  destruct (qltb (inject_Z w / inject_Z h) r) eqn:L.
  - qbool. apply C1 in L. intros H W. apply Ok_inj in E; subst c. cbn [t_top t_right t_bottom t_left] in H, W.
    assert (inject_Z w / r < inject_Z h)%Q as L2 by (apply Qlt_shift_div_r; [exact R|lra]).
    set (d := qmin (inject_Z h - inject_Z w / r) (inject_Z (h - 1))) in *.
    assert (d == inject_Z h - qmax 1 (inject_Z w / r))%Q as Ed.
    { unfold d, Zminus. rewrite inject_Z_plus. change (inject_Z (-(1))) with (-(1))%Q. qminmax; lra. }
    assert (0 <= d)%Q as D by (rewrite Ed; qminmax; lra).
    destruct (Qhalves_nonneg d D) as [N1 N2]. destruct (Qhalves_near d) as [A B].
    assert (Qfloor (d / 2) + Qceiling (d / 2) <= h - 1) as LE.
    { apply Qhalves_le. unfold d. qminmax; lra. }
    assert (W = w) as EW by (unfold W; lia).
    assert (H = h - (Qfloor (d / 2) + Qceiling (d / 2))) as EH by (unfold H; lia).
    split; [exact R|]. split; [repeat split; cbn [t_top t_right t_bottom t_left trbl0]; lia|]. split; [lia|]. split; [lia|]. right.
    rewrite EW. rewrite EH. unfold Zminus. rewrite inject_Z_plus, inject_Z_opp.
    split; [reflexivity|]. split; [lra|]. split; [lra|].
    intros n Hn En. assert (1 <= inject_Z n)%Q as N' by (change 1%Q with (inject_Z 1); apply inject_Z_le; lia).
    rewrite (Qhalves_Z d (h - n)); [lia|]. rewrite Ed. unfold Zminus. rewrite inject_Z_plus, inject_Z_opp.
    rewrite En.
    assert (qmax 1 (inject_Z n) == inject_Z n)%Q as -> by (clear - N'; qminmax; lra). reflexivity.
  - qbool. destruct (qltb r (inject_Z w / inject_Z h)) eqn:G.
    + qbool. apply C2 in G. intros H W. apply Ok_inj in E; subst c. cbn [t_top t_right t_bottom t_left] in H, W.
      set (d := qmin (inject_Z w - inject_Z h * r) (inject_Z (w - 1))) in *.
      assert (d == inject_Z w - qmax 1 (r * inject_Z h))%Q as Ed.
      { unfold d, Zminus. rewrite inject_Z_plus. change (inject_Z (-(1))) with (-(1))%Q.
        rewrite (Qmult_comm (inject_Z h) r). qminmax; lra. }
      assert (0 <= d)%Q as D by (rewrite Ed; qminmax; lra).
      destruct (Qhalves_nonneg d D) as [N1 N2]. destruct (Qhalves_near d) as [A B].
      assert (Qfloor (d / 2) + Qceiling (d / 2) <= w - 1) as LE.
      { apply Qhalves_le. unfold d. qminmax; lra. }
      assert (H = h) as EH by (unfold H; lia).
      assert (W = w - (Qfloor (d / 2) + Qceiling (d / 2))) as EW by (unfold W; lia).
      split; [exact R|]. split; [repeat split; cbn [t_top t_right t_bottom t_left trbl0]; lia|]. split; [lia|]. split; [lia|]. left.
      rewrite EH. rewrite EW. unfold Zminus. rewrite inject_Z_plus, inject_Z_opp.
      split; [reflexivity|]. split; [lra|]. split; [lra|].
      intros n Hn En. assert (1 <= inject_Z n)%Q as N' by (change 1%Q with (inject_Z 1); apply inject_Z_le; lia).
      rewrite (Qhalves_Z d (w - n)); [lia|]. rewrite Ed. unfold Zminus. rewrite inject_Z_plus, inject_Z_opp.
      rewrite En.
    assert (qmax 1 (inject_Z n) == inject_Z n)%Q as -> by (clear - N'; qminmax; lra). reflexivity.
    + qbool. assert (inject_Z w == r * inject_Z h)%Q as EQ.
      { destruct (Qlt_le_dec (inject_Z w) (r * inject_Z h)) as [q|q]; [apply C1 in q; lra|].
        destruct (Qlt_le_dec (r * inject_Z h) (inject_Z w)) as [q'|q']; [apply C2 in q'; lra|lra]. }
      intros H W. apply Ok_inj in E; subst c. cbn [t_top t_right t_bottom t_left trbl0] in H, W.
      assert (H = h) as -> by (unfold H; cbn; lia). assert (W = w) as -> by (unfold W; cbn; lia).
      split; [exact R|]. split; [repeat split; cbn [t_top t_right t_bottom t_left trbl0]; lia|]. split; [lia|]. split; [lia|]. left.
      split; [reflexivity|]. split; [qminmax; lra|]. split; [qminmax; lra|].
      intros n _ En. apply inject_Z_injective. lra.
Qed.

(* ---------- powers ---------- *)

Lemma pow_mono : forall b j k, 1 < b -> 0 <= j -> b ^ j <= b ^ k <-> j <= k \/ (j = k).
Proof.
  intros b j k Hb Hj. split.
  - intro H. left. apply (Z.pow_le_mono_r_iff b); try lia.
    destruct (Z.le_gt_cases 0 k) as [G|G]; [exact G|]. rewrite (Z.pow_neg_r b k) in H by lia.
    pose proof (Z.pow_pos_nonneg b j). lia.
  - intros [H|H]; [apply Z.pow_le_mono_r; lia|subst; lia].
Qed.

Lemma pad_power_axis_spec : forall lq az n b,
  0 <= n -> 1 < b -> ~ (az = true /\ n = 1) ->
  (b < n -> log_up n b (Qceiling (lq n b))) ->
  let d := pad_power_axis lq az n (Some b) in
  let e0 := if az then 0 else 1 in
  0 <= d /\ power_of b e0 (n + d) /\ (forall v, power_of b e0 v -> n <= v -> n + d <= v).
Proof.
  intros lq az n b Hn Hb Hx HL. unfold pad_power_axis.
  assert (forall k, 0 <= k -> b ^ 0 <= b ^ k) as P0 by (intros; apply Z.pow_le_mono_r; lia).
  assert (forall k, 1 <= k -> b ^ 1 <= b ^ k) as P1 by (intros; apply Z.pow_le_mono_r; lia).
  rewrite Z.pow_0_r in P0. rewrite Z.pow_1_r in P1.
  destruct (n =? 0) eqn:E0.
  { apply Z.eqb_eq in E0. subst n. destruct az; cbn zeta.
    - split; [lia|]. split; [exists 0; cbn; lia|]. intros v [k [K ->]] _. specialize (P0 k K). lia.
    - split; [lia|]. split; [exists 1; rewrite Z.pow_1_r; lia|]. intros v [k [K ->]] _. specialize (P1 k K). lia. }
  apply Z.eqb_neq in E0. destruct (n <=? b) eqn:E1.
  { apply Z.leb_le in E1. cbn zeta. replace (n + (b - n)) with b by lia.
    split; [lia|]. split; [exists 1; rewrite Z.pow_1_r; destruct az; lia|].
    intros v [k [K ->]] Hv. destruct (Z.eq_dec k 0) as [->|NE].
    - rewrite Z.pow_0_r in Hv. destruct az; [exfalso; apply Hx; split; [reflexivity|lia]|lia].
    - apply P1. destruct az; lia. }
  apply Z.leb_gt in E1. destruct (HL E1) as (L0 & L1 & L2). cbn zeta.
  replace (n + (b ^ Qceiling (lq n b) - n)) with (b ^ Qceiling (lq n b)) by lia.
  split; [lia|]. split.
  - exists (Qceiling (lq n b)). split; [|reflexivity]. destruct az; [lia|].
    destruct (Z.eq_dec (Qceiling (lq n b)) 0) as [Z0|]; [|lia]. rewrite Z0 in L1. cbn in L1. lia.
  - intros v [k [K ->]] Hv. apply Z.pow_le_mono_r; [lia|]. apply L2; [destruct az; lia|exact Hv].
Qed.

Lemma crop_power_axis_spec : forall lq az n b,
  1 <= n -> 1 < b ->
  (b <= n -> log_down n b (py_int (lq n b))) ->
  let d := crop_power_axis lq az n (Some b) in
  let e0 := if az then 0 else 1 in
  0 <= d < n /\
  ((exists v, power_of b e0 v /\ v <= n) ->
     power_of b e0 (n - d) /\ (forall v, power_of b e0 v -> v <= n -> v <= n - d)) /\
  (~ (exists v, power_of b e0 v /\ v <= n) -> d = 0).
Proof.
  intros lq az n b Hn Hb HL. unfold crop_power_axis.
  assert (forall k, 1 <= k -> b ^ 1 <= b ^ k) as P1 by (intros; apply Z.pow_le_mono_r; lia).
  rewrite Z.pow_1_r in P1.
  destruct (n =? 0) eqn:E0; [apply Z.eqb_eq in E0; lia|]. clear E0.
  destruct (n <? b) eqn:E1.
  { apply Z.ltb_lt in E1. destruct az; cbn zeta.
    - split; [lia|]. split.
      + intros _. replace (n - (n - 1)) with 1 by lia. split; [exists 0; cbn; lia|].
        intros v [k [K ->]] Hv. destruct (Z.eq_dec k 0) as [->|NE]; [cbn; lia|].
        specialize (P1 k ltac:(lia)). lia.
      + intro N. exfalso. apply N. exists 1. split; [exists 0; cbn; lia|lia].
    - split; [lia|]. split; [|lia].
      intros (v & [k [K ->]] & Hv). specialize (P1 k K). lia. }
  apply Z.ltb_ge in E1. destruct (HL E1) as (L0 & L1 & L2). cbn zeta.
  replace (n - (n - b ^ py_int (lq n b))) with (b ^ py_int (lq n b)) by lia.
  assert (1 <= py_int (lq n b)) by (apply L2; [lia|rewrite Z.pow_1_r; lia]).
  pose proof (Z.pow_pos_nonneg b (py_int (lq n b)) ltac:(lia) ltac:(lia)).
  split; [lia|]. split.
  - intros _. split; [exists (py_int (lq n b)); split; [destruct az; lia|reflexivity]|].
    intros v [k [K ->]] Hv. apply Z.pow_le_mono_r; [lia|]. apply L2; [destruct az; lia|exact Hv].
  - intro N. exfalso. apply N. exists b. split; [exists 1; rewrite Z.pow_1_r; destruct az; lia|lia].
Qed.

(** Whatever the logarithm estimate, the result of padding is a power of the base. *)
Lemma pad_power_axis_power : forall lq az n b, 0 <= n -> 1 < b ->
  (b < n -> (0 <= lq n b)%Q) ->
  power_of b 0 (n + pad_power_axis lq az n (Some b)).
Proof.
  intros lq az n b Hn Hb HL. unfold pad_power_axis.
  destruct (n =? 0) eqn:E0.
  { apply Z.eqb_eq in E0. subst n. destruct az; [exists 0|exists 1]; rewrite ?Z.pow_1_r, ?Z.pow_0_r; lia. }
  destruct (n <=? b) eqn:E1.
  { exists 1. rewrite Z.pow_1_r. lia. }
  apply Z.leb_gt in E1. exists (Qceiling (lq n b)). split; [|lia].
  
  change 0 with (Qceiling (inject_Z 0)). apply Qceiling_resp_le. apply HL. exact E1.
Qed.

Lemma powers_rejects : forall lq az s bh bw,
  (exists b, (bh = Some b \/ bw = Some b) /\ b <= 1) ->
  paddings_powers_of lq az s bh bw = Err AssertionError /\
  croppings_powers_of lq az s bh bw = Err AssertionError.
Proof.
  intros lq az s bh bw (b & H & Hb).
  split; apply compute_axes_rejects; destruct H as [-> | ->]; cbn; [left|right|left|right];
    apply Z.ltb_ge; exact Hb.
Qed.

Lemma multiples_rejects : forall s mh mw,
  (exists m, (mh = Some m \/ mw = Some m) /\ m <= 0) ->
  paddings_multiples_of s mh mw = Err AssertionError /\
  croppings_multiples_of s mh mw = Err AssertionError.
Proof.
  intros s bh bw (b & H & Hb).
  split; apply compute_axes_rejects; destruct H as [-> | ->]; cbn; [left|right|left|right];
    apply Z.ltb_ge; exact Hb.
Qed.

Lemma multiples_accepts : forall s mh mw,
  (forall m, mh = Some m \/ mw = Some m -> 0 < m) ->
  (exists p, paddings_multiples_of s mh mw = Ok p) /\
  (exists c, croppings_multiples_of s mh mw = Ok c).
Proof.
  intros s mh mw H. 
  assert (check_opt (fun m => 0 <? m) mh = true) by (destruct mh; cbn; [apply Z.ltb_lt; auto|reflexivity]).
  assert (check_opt (fun m => 0 <? m) mw = true) by (destruct mw; cbn; [apply Z.ltb_lt; auto|reflexivity]).
  split; apply compute_axes_total; assumption.
Qed.

Lemma aspect_accepts : forall h w r, 1 <= h -> (0 < r)%Q ->
  (exists p, paddings_aspect_ratio (h, w) r = Ok p) /\
  (exists c, croppings_aspect_ratio (h, w) r = Ok c).
Proof.
  intros h w r Hh Hr. unfold paddings_aspect_ratio, croppings_aspect_ratio.
  assert (qltb 0 r = true) as -> by (destruct (qltb 0 r) eqn:E; qbool; [reflexivity|lra]).
  assert ((0 <? h) = true) as -> by (apply Z.ltb_lt; lia). cbn [negb].
  split.
  - destruct (if h =? 0 then (1, 1) else (h, 0)) as [h1 pb].
    destruct (if w =? 0 then (1, 1) else (w, 0)) as [w1 pr].
    destruct (qltb (inject_Z w1 / inject_Z h1) r); [eauto|].
    destruct (qltb r (inject_Z w1 / inject_Z h1)); eauto.
  - destruct (qltb (inject_Z w / inject_Z h) r); [eauto|].
    destruct (qltb r (inject_Z w / inject_Z h)); eauto.
Qed.

(* ---------- Resize ---------- *)

(** What one side becomes for a directly given size. *)
Lemma resolve_side_spec : forall im s v, 1 <= im -> resolve_side im s = Ok (Some v) ->
  match s with
  | SInt n => v = n
  | SFloat q => (0 < q)%Q /\ 1 <= v /\
      ((inject_Z v - (1#2) <= inject_Z im * q)%Q /\ (inject_Z im * q <= inject_Z v + (1#2))%Q \/
       (v = 1 /\ (inject_Z im * q <= 1#2)%Q))
  | SKeep => v = im
  | SKeepAspect => False
  end.
Proof.
  intros im s v Hi H. destruct s as [n|q| |]; cbn in H; try congruence; try discriminate.
  destruct (qltb 0 q) eqn:E; [|discriminate]. qbool. injection H as H.
  destruct (np_round_spec (inject_Z im * q)) as (R1 & R2 & _).
  destruct (0 <? np_round (inject_Z im * q)) eqn:Z0;
    [apply Z.ltb_lt in Z0|apply Z.ltb_ge in Z0]; subst v.
  - split; [exact E|]. split; [lia|]. left. auto.
  - split; [exact E|]. split; [lia|]. right. split; [reflexivity|].
    apply inject_Z_le in Z0. change (inject_Z 0) with 0%Q in Z0. lra.
Qed.

Lemma resolve_side_total : forall im s, (forall q, s = SFloat q -> (0 < q)%Q) -> s <> SKeepAspect ->
  exists v, resolve_side im s = Ok (Some v).
Proof.
  intros im s H1 H2. destruct s as [n|q| |]; cbn; eauto; [|congruence].
  specialize (H1 q eq_refl). destruct (qltb 0 q) eqn:E; qbool; [eauto|lra].
Qed.

Lemma compute_height_width_spec : forall imh imw a b sl h w hs ws,
  1 <= imh -> 1 <= imw -> side_specs imh imw a b sl = (hs, ws) ->
  compute_height_width imh imw a b sl = Ok (h, w) ->
  (hs <> SKeepAspect \/ ws <> SKeepAspect) /\
  (hs <> SKeepAspect -> resolve_side imh hs = Ok (Some h)) /\
  (ws <> SKeepAspect -> resolve_side imw ws = Ok (Some w)) /\
  (hs = SKeepAspect -> (inject_Z h - (1#2) <= inject_Z w * (inject_Z imh / inject_Z imw))%Q /\
                       (inject_Z w * (inject_Z imh / inject_Z imw) <= inject_Z h + (1#2))%Q) /\
  (ws = SKeepAspect -> (inject_Z w - (1#2) <= inject_Z h * (inject_Z imw / inject_Z imh))%Q /\
                       (inject_Z h * (inject_Z imw / inject_Z imh) <= inject_Z w + (1#2))%Q).
Proof.
  intros imh imw a b sl h w hs ws Hh Hw HS H. unfold compute_height_width in H.
  fold (side_specs imh imw a b sl) in H. rewrite HS in H.
  assert (forall im s, resolve_side im s = Ok None -> s = SKeepAspect) as RN.
  { intros im s E. destruct s as [n|q| |]; cbn in E; try discriminate; [|reflexivity].
    destruct (qltb 0 q); discriminate. }
  assert (forall im s v, resolve_side im s = Ok (Some v) -> s <> SKeepAspect) as RS.
  { intros im s v E. destruct s; cbn in E; try discriminate; congruence. }
  destruct (resolve_side imh hs) as [oh|] eqn:E1; [|discriminate].
  destruct (resolve_side imw ws) as [ow|] eqn:E2; [|discriminate]. cbn [bind] in H.
  destruct oh as [h1|], ow as [w1|].
  - injection H as -> ->. pose proof (RS _ _ _ E1) as S1. pose proof (RS _ _ _ E2) as S2. 
    split; [auto|]. split; [auto|]. split; [auto|]. split; intro; contradiction.
  - apply RN in E2 as S2. pose proof (RS _ _ _ E1) as S1.
    destruct (imh =? 0) eqn:Z0; [discriminate|]. apply Ok_inj in H.
    apply pair_equal_spec in H as [-> <-].
    split; [auto|]. split; [auto|]. split; [contradiction|]. split; [contradiction|]. intros _.
    match goal with |- context [np_round ?e] => destruct (np_round_spec e) as (R1 & R2 & _) end. auto.
  - apply RN in E1 as S1. pose proof (RS _ _ _ E2) as S2.
    destruct (imw =? 0) eqn:Z0; [discriminate|]. apply Ok_inj in H.
    apply pair_equal_spec in H as [<- ->].
    split; [auto|]. split; [contradiction|]. split; [auto|]. split; [|contradiction]. intros _.
    match goal with |- context [np_round ?e] => destruct (np_round_spec e) as (R1 & R2 & _) end. auto.
  - discriminate.
Qed.

Lemma compute_height_width_total : forall imh imw a b sl,
  1 <= imh -> 1 <= imw -> (forall q, a = SFloat q \/ b = SFloat q -> (0 < q)%Q) ->
  (a <> SKeepAspect \/ b <> SKeepAspect) ->
  exists h w, compute_height_width imh imw a b sl = Ok (h, w).
Proof.
  intros imh imw a b sl Hh Hw HF HA.
  enough (forall x y, (x = a /\ y = b \/ x = b /\ y = a) ->
    exists h w, (do h <- resolve_side imh x; do w <- resolve_side imw y;
      match h, w with
      | Some h, Some w => Ok (h, w)
      | None, Some w => if imw =? 0 then Err ValueError
          else Ok (np_round (inject_Z w * (inject_Z imh / inject_Z imw))%Q, w)
      | Some h, None => if imh =? 0 then Err ValueError
          else Ok (h, np_round (inject_Z h * (inject_Z imw / inject_Z imh))%Q)
      | None, None => Err TypeError_
      end) = Ok (h, w)) as K.
  { unfold compute_height_width. destruct sl; [destruct (imh <? imw)|]; apply K; auto. }
  intros x y Hxy.
  assert ((imw =? 0) = false) as -> by (apply Z.eqb_neq; lia).
  assert ((imh =? 0) = false) as -> by (apply Z.eqb_neq; lia).
  assert (forall im s, s = a \/ s = b -> s = SKeepAspect /\ resolve_side im s = Ok None \/
    exists v, resolve_side im s = Ok (Some v)) as T.
  { intros im s Hs. destruct s as [n|q| |]; [right|right|right|left]; try (eexists; reflexivity); auto.
    apply resolve_side_total; [|discriminate]. intros q' E. injection E as <-.
    apply HF. destruct Hs as [<-|<-]; auto. }
  destruct (T imh x) as [[X ->]|[vx ->]]; [destruct Hxy as [[-> _]|[-> _]]; auto| |];
  (destruct (T imw y) as [[Y ->]|[vy ->]]; [destruct Hxy as [[_ ->]|[_ ->]]; auto| |]); cbn; eauto.
  exfalso. destruct Hxy as [[-> ->]|[-> ->]]; subst; destruct HA; congruence.
Qed.

(** A map gets at least one row/column and is scaled like its image up to
    rounding. *)
Lemma resize_map_size_spec : forall ah_ aw_ ih iw h w,
  1 <= ah_ -> 1 <= aw_ -> 1 <= ih -> 1 <= iw ->
  let '(mh, mw) := resize_map_size (ah_, aw_) (ih, iw) h w in
  1 <= mh /\ 1 <= mw /\
  (inject_Z h * (inject_Z ah_ / inject_Z ih) <= inject_Z mh + (1#2))%Q /\
  (mh = 1 \/ (inject_Z mh - (1#2) <= inject_Z h * (inject_Z ah_ / inject_Z ih))%Q) /\
  (inject_Z w * (inject_Z aw_ / inject_Z iw) <= inject_Z mw + (1#2))%Q /\
  (mw = 1 \/ (inject_Z mw - (1#2) <= inject_Z w * (inject_Z aw_ / inject_Z iw))%Q) /\
  ((ah_, aw_) = (ih, iw) -> 1 <= h -> 1 <= w -> (mh, mw) = (h, w)).
Proof.
  intros ah_ aw_ ih iw h w H1 H2 H3 H4. unfold resize_map_size. cbn [fst snd].
  assert (forall v, let n := np_round v in (v <= inject_Z (Z.max n 1) + (1#2))%Q /\
    (Z.max n 1 = 1 \/ (inject_Z (Z.max n 1) - (1#2) <= v)%Q)) as K.
  { intros v n. destruct (np_round_spec v) as (R1 & R2 & _). fold n in R1, R2.
    destruct (Z.max_spec n 1) as [[L ->]|[L ->]].
    - assert (inject_Z n <= inject_Z 1)%Q by (apply inject_Z_le; lia). split; [lra|auto].
    - split; [lra|auto]. }
  destruct (K (inject_Z h * (inject_Z ah_ / inject_Z ih))%Q) as [A1 A2].
  destruct (K (inject_Z w * (inject_Z aw_ / inject_Z iw))%Q) as [B1 B2].
  split; [lia|]. split; [lia|]. split; [exact A1|]. split; [exact A2|].
  split; [exact B1|]. split; [exact B2|].
  intros E Hh Hw. injection E as -> ->.
  assert (0 < inject_Z ih)%Q by (change 0%Q with (inject_Z 0); apply inject_Z_lt; lia).
  assert (0 < inject_Z iw)%Q by (change 0%Q with (inject_Z 0); apply inject_Z_lt; lia).
  assert (forall q z, (q == inject_Z z)%Q -> np_round q = z) as RZ.
  { intros q z E. destruct (np_round_spec q) as (R1 & R2 & _).
    assert (np_round q < z + 1) by (apply inject_Z_lt; rewrite inject_Z_plus; change (inject_Z 1) with 1%Q; lra).
    assert (z < np_round q + 1) by (apply inject_Z_lt; rewrite inject_Z_plus; change (inject_Z 1) with 1%Q; lra).
    lia. }
  rewrite (RZ _ h) by (field; lra). rewrite (RZ _ w) by (field; lra). apply f_equal2; lia.
Qed.

Lemma crop_arr_effective : forall {A} (a : arr A) c,
  1 <= ah a -> 1 <= aw a -> nonneg c ->
  exists c', effective_crop (ah a, aw a) c c' /\ is_window a (crop_arr a c) c'.
Proof.
  intros A a c Hh Hw Hc.
  destruct (crop_arr_spec a c Hh Hw Hc) as (c' & N & T1 & T2 & T3 & T4 & W & S1 & S2).
  exists c'. split; [|exact W]. pose proof W as (W1 & W2 & _).
  unfold effective_crop. cbn [fst snd]. repeat (split; [assumption|]). split; lia.
Qed.

Lemma resize_keep_aspect_may_be_empty :
  compute_height_width 1 100 SKeepAspect (SInt 10) false = Ok (0, 10).
Proof. vm_compute. reflexivity. Qed.

Lemma pad_zero_exponent_ignored : forall lq,
  exists b, 1 < b /\ power_of b 0 1 /\ 1 + pad_power_axis lq true 1 (Some b) = b.
Proof.
  intro lq. exists 3. split; [lia|]. split; [exists 0; cbn; lia|reflexivity].
Qed.

Lemma project_size_changes_scaled : forall c s s', 1 <= fst s -> 1 <= snd s ->
  scaled_amounts s s' c (project_size_changes c s s').
Proof.
  intros c [hf wf] [ht wt] H1 H2. cbn [fst snd] in *. unfold project_size_changes, scaled_amounts, scaled_amount.
  cbn [fst snd].
  assert (0 < inject_Z hf)%Q by (change 0%Q with (inject_Z 0); apply inject_Z_lt; lia).
  assert (0 < inject_Z wf)%Q by (change 0%Q with (inject_Z 0); apply inject_Z_lt; lia).
  destruct (shape2_eqb (hf, wf) (ht, wt)) eqn:E.
  - apply shape2_eqb_iff in E. injection E as <- <-.
    assert (forall v a, (0 < a)%Q -> (v * (a / a) == v)%Q) as K by (intros; field; lra).
    rewrite !K by assumption. repeat split; lra.
  - assert (forall a b v e, (0 < b)%Q -> (-(1#10000) <= e)%Q -> (e <= 1#10000)%Q ->
      let n := np_round (a * (v / b) + e)%Q in
      (inject_Z n - ((1#2) + (1#10000)) <= v * (a / b))%Q /\
      (v * (a / b) <= inject_Z n + ((1#2) + (1#10000)))%Q) as K.
    { intros a b v e Hb He1 He2 n. destruct (np_round_spec (a * (v / b) + e)) as (R1 & R2 & _).
      fold n in R1, R2. assert (v * (a / b) == a * (v / b))%Q as -> by (field; lra). split; lra. }
    cbn [t_top t_right t_bottom t_left].
    split; [apply K; [assumption|lra|lra]|]. split; [apply K; [assumption|lra|lra]|].
    split; [apply K; [assumption|lra|lra]|]. apply K; [assumption|lra|lra].
Qed.

(** A map of any size: crop and pad amounts scaled to the map, pixels moved
    accordingly. *)
Lemma crop_and_pad_map_any_scaled : forall rp lo hi nc m c p mode cv,
  lo <= hi -> 1 <= ah (m_arr m) -> 1 <= aw (m_arr m) -> has_channels nc (m_arr m) ->
  1 <= fst (m_shape m) -> 1 <= snd (m_shape m) ->
  nonneg c -> nonneg p -> cval_fits nc cv ->
  exists m' c1 p1 c2, crop_and_pad_map rp lo hi nc m c p mode cv false = Ok m' /\
    scaled_amounts (m_shape m) (ah (m_arr m), aw (m_arr m)) c c1 /\
    scaled_amounts (m_shape m) (ah (m_arr m), aw (m_arr m)) p p1 /\
    effective_crop (ah (m_arr m), aw (m_arr m)) c1 c2 /\
    ah (m_arr m') = ah (m_arr m) - t_top c2 - t_bottom c2 + t_top p1 + t_bottom p1 /\
    aw (m_arr m') = aw (m_arr m) - t_left c2 - t_right c2 + t_left p1 + t_right p1 /\
    1 <= ah (m_arr m') /\ 1 <= aw (m_arr m') /\
    m_shape m' = shape_after_crop_and_pad (m_shape m) c p /\
    forall y x, t_top c2 <= y < ah (m_arr m) - t_bottom c2 -> t_left c2 <= x < aw (m_arr m) - t_right c2 ->
      apx (m_arr m') (y + (t_top p1 - t_top c2)) (x + (t_left p1 - t_left c2)) = apx (m_arr m) y x.
Proof.
  intros rp lo hi nc [a s] c p mode cv Hr Hh Hw Hch Hs1 Hs2 Hc Hp Hcv. cbn [m_arr m_shape] in *.
  unfold crop_and_pad_map. cbn [m_arr m_shape].
  pose proof (project_size_changes_scaled c s (ah a, aw a) Hs1 Hs2) as SC.
  pose proof (project_size_changes_scaled p s (ah a, aw a) Hs1 Hs2) as SP.
  set (cp := project_size_changes c s (ah a, aw a)) in *.
  set (pp := project_size_changes p s (ah a, aw a)) in *.
  assert (nonneg cp) as Ncp by (apply project_size_changes_nonneg; cbn; auto; lia).
  assert (nonneg pp) as Npp by (apply project_size_changes_nonneg; cbn; auto; lia).
  set (c1 := prevent_zero_size_trbl (ah a) (aw a) cp).
  pose proof (prevent_zero_size_trbl_spec (ah a) (aw a) cp Hh Hw Ncp) as EC. fold c1 in EC.
  pose proof EC as (N1 & _).
  assert (prevent_zero_size_trbl (ah a) (aw a) c1 = c1) as EI by (apply prevent_idem; assumption).
  pose proof (prevent_zero_size_trbl_spec (ah a) (aw a) c1 Hh Hw N1) as EC1.
  pose proof (crop_trbl_xyxy_of_prevent (ah a) (aw a) c1 Hh Hw N1) as EX. rewrite EI in EC1, EX. cbn zeta in EX.
  destruct (crop_and_pad_pixels lo hi nc a c1 c1 pp mode cv)
    as (r & E & S & L1 & L2 & P); auto.
  rewrite E. cbn [bind]. eexists. exists cp, pp, c1. split; [reflexivity|]. cbn [m_arr m_shape].
  split; [exact SC|]. split; [exact SP|]. split; [exact EC|].
  unfold shape_after_crop_and_pad in S. cbn [fst snd] in S. rewrite EX in S.
  apply pair_equal_spec in S as [S1 S2].
  split; [lia|]. split; [lia|]. split; [exact L1|]. split; [exact L2|]. split; [reflexivity|].
  intros y x Hy Hx. destruct (P y x Hy Hx) as (_ & _ & P'). exact P'.
Qed.
