(** Lemmas about UtilModel. *)
From Coq Require Import Lia Lqa.
From Verif Require Import Prelude PreludeFacts SizeModel SizeProofs UtilModel UtilSpec.
#[local] Arguments border_index : simpl never.

(* ------------------------------------------------------------------ *)
(** ** Pooling *)

Lemma in_zrange : forall n k, In k (zrange n) <-> 0 <= k < n.
Proof.
  intros n k. unfold zrange. rewrite in_map_iff. split.
  - intros (i & <- & Hi). apply in_seq in Hi. lia.
  - intros H. exists (Z.to_nat k). split; [lia|]. apply in_seq. lia.
Qed.

Definition pick (op : Z -> Z -> Z) (le : Z -> Z -> Prop) : Prop :=
  (op = Z.max /\ le = Z.le) \/ (op = Z.min /\ le = Z.ge).

Lemma reduce_spec : forall op le vs, pick op le -> vs <> [] ->
  In (reduce op vs) vs /\ forall v, In v vs -> le v (reduce op vs).
Proof.
  intros op le [|v vs] Hp Hne; [congruence|]. clear Hne. cbn [reduce].
  assert (Hop : forall a b, (op a b = a \/ op a b = b) /\ le a (op a b) /\ le b (op a b)).
  { intros a b. destruct Hp as [[-> ->]|[-> ->]]; lia. }
  assert (Htr : forall a b c, le a b -> le b c -> le a c).
  { intros a b c. destruct Hp as [[-> ->]|[-> ->]]; lia. }
  assert (Hrf : forall a, le a a).
  { intros a. destruct Hp as [[-> ->]|[-> ->]]; lia. }
  assert (H : forall vs v, (fold_left op vs v = v \/ In (fold_left op vs v) vs) /\ le v (fold_left op vs v) /\
            forall u, In u vs -> le u (fold_left op vs v)).
  { clear v vs. induction vs as [|u vs IH]; intros v; cbn.
    - split; [now left|]. split; [apply Hrf|tauto].
    - destruct (IH (op v u)) as (H1 & H2 & H3). destruct (Hop v u) as (O1 & O2 & O3). split; [|split].
      + destruct H1 as [H1|H1]; [|now right; right]. rewrite H1. destruct O1 as [-> | ->]; [now left|now right; left].
      + eauto.
      + intros w [<-|Hw]; eauto. }
  destruct (H vs v) as (H1 & H2 & H3). split.
  - destruct H1 as [->|H1]; [now left|now right].
  - intros u [<-|Hu]; auto.
Qed.

Lemma reduce_extremum : forall op le (vs : list Z) (P : Z -> Z -> Prop) px, pick op le ->
  (forall v, In v vs <-> exists y x, P y x /\ px y x = v) -> (exists y x, P y x) ->
  extremum le P px (reduce op vs).
Proof.
  intros op le vs P px Hp Hvs (y0 & x0 & H0).
  destruct (reduce_spec op le vs Hp) as [H1 H2].
  { intros ->. apply (Hvs (px y0 x0)). eauto. }
  split; [now apply Hvs|]. intros y x H. apply H2, Hvs. eauto.
Qed.

Lemma morph_values : forall kh kw (a : arr Z) y x v,
  In v (flat_map (fun j => flat_map (fun i =>
      let y' := y + j - kh / 2 in
      let x' := x + i - kw / 2 in
      if (0 <=? y') && (y' <? ah a) && (0 <=? x') && (x' <? aw a) then [apx a y' x'] else [])
      (zrange kw)) (zrange kh)) <->
  exists y' x', (0 <= y' < ah a /\ 0 <= x' < aw a /\ 0 <= y' - y + kh / 2 < kh /\ 0 <= x' - x + kw / 2 < kw) /\ apx a y' x' = v.
Proof.
  intros kh kw a y x v. rewrite in_flat_map. split.
  - intros (j & Hj & Hv). apply in_flat_map in Hv. destruct Hv as (i & Hi & Hv). rewrite in_zrange in Hi, Hj.
    cbn zeta in Hv. destruct ((0 <=? y + j - kh / 2) && (y + j - kh / 2 <? ah a) && (0 <=? x + i - kw / 2) && (x + i - kw / 2 <? aw a)) eqn:E; [|destruct Hv].
    destruct Hv as [<-|[]]. exists (y + j - kh / 2), (x + i - kw / 2). split; [|reflexivity]. lia.
  - intros (y' & x' & (H1 & H2 & H3 & H4) & <-). exists (y' - y + kh / 2). split; [now apply in_zrange|].
    apply in_flat_map. exists (x' - x + kw / 2). split; [now apply in_zrange|]. cbn zeta.
    replace (y + (y' - y + kh / 2) - kh / 2) with y' by lia. replace (x + (x' - x + kw / 2) - kw / 2) with x' by lia.
    replace ((0 <=? y') && (y' <? ah a) && (0 <=? x') && (x' <? aw a)) with true by lia. now left.
Qed.

Lemma half_sum : forall k, 0 < k -> (k - 1) / 2 + k / 2 = k - 1.
Proof. intros k Hk. pose proof (Z.div_mod (k - 1) 2). pose proof (Z.div_mod k 2).
  pose proof (Z.mod_pos_bound (k - 1) 2). pose proof (Z.mod_pos_bound k 2). lia. Qed.

(** Flip, dilate, flip and stride on an array whose size is a multiple of the
    block size. *)
Lemma flip_morph_stride : forall op le kh kw (p : arr Z) m n i j, pick op le ->
  0 < kh -> 0 < kw -> ah p = m * kh -> aw p = n * kw -> 0 <= i < m -> 0 <= j < n ->
  let r := stride ((kh - 1) / 2) kh ((kw - 1) / 2) kw (flip_both (morph op kh kw (flip_both p))) in
  ah r = m /\ aw r = n /\ extremum le (in_block kh kw i j) (apx p) (apx r i j).
Proof.
  intros op le kh kw p m n i j Hp Hkh Hkw Hh Hw Hi Hj.
  pose proof (half_sum kh Hkh) as Hsh. pose proof (half_sum kw Hkw) as Hsw.
  assert (Hd : forall k m, 0 < k -> (m * k - (k - 1) / 2 + k - 1) / k = m).
  { intros k q Hk. pose proof (half_sum k Hk). assert (0 <= (k-1)/2) by (apply Z.div_pos; lia). assert (0 <= k/2) by (apply Z.div_pos; lia).
    symmetry. apply (Z.div_unique _ _ _ (k - 1 - (k - 1) / 2)); lia. }
  cbn zeta. split; [cbn; rewrite Hh; auto|]. split; [cbn; rewrite Hw; auto|].
  cbn [apx stride flip_both morph].
  apply reduce_extremum; [exact Hp| |].
  - intros v. cbn [ah aw]. 
    rewrite (morph_values kh kw (flip_both p)). cbn [apx flip_both ah aw]. split.
    + intros (y' & x' & (H1 & H2 & H3 & H4) & <-). exists (ah p - 1 - y'), (aw p - 1 - x'). split; [|reflexivity].
      unfold in_block. cbn [ah aw morph flip_both] in *. rewrite Hh, Hw in *. lia.
    + intros (y & x & (H1 & H2) & <-). exists (ah p - 1 - y), (aw p - 1 - x).
      cbn [ah aw morph flip_both] in *. split; [rewrite Hh, Hw in *; nia|]. f_equal; lia.
  - exists (i * kh), (j * kw). unfold in_block. nia.
Qed.

Lemma block_values : forall kh kw (p : arr Z) i j v,
  In v (flat_map (fun j' => map (fun i' => apx p (i * kh + j') (j * kw + i')) (zrange kw)) (zrange kh)) <->
  exists y x, in_block kh kw i j y x /\ apx p y x = v.
Proof.
  intros kh kw p i j v. rewrite in_flat_map. split.
  - intros (a & Ha & Hv). apply in_map_iff in Hv. destruct Hv as (b & <- & Hb). rewrite in_zrange in Ha, Hb.
    exists (i * kh + a), (j * kw + b). split; [|reflexivity]. unfold in_block. lia.
  - intros (y & x & (H1 & H2) & <-). exists (y - i * kh). rewrite in_zrange. split; [lia|].
    apply in_map_iff. exists (x - j * kw). rewrite in_zrange. split; [f_equal; lia|lia].
Qed.

(** The padding amounts. *)
Definition total_pad (n k : Z) : Z := (- n) mod k.
Lemma pad_multiple_axis_mod : forall n k, 0 < n -> 0 < k -> pad_multiple_axis n (Some k) = (- n) mod k.
Proof.
  intros n k Hn Hk. unfold pad_multiple_axis. destruct (n =? 0) eqn:E; [lia|].
  pose proof (Z.mod_pos_bound n k Hk). destruct (n mod k =? 0) eqn:E2.
  - symmetry. apply Z.mod_opp_l_z; lia.
  - rewrite Z.mod_opp_l_nz; lia.
Qed.
Lemma neg_mod : forall n k, 0 < k -> exists m, n + (- n) mod k = m * k /\ rounded_up n k m.
Proof.
  intros n k Hk. exists (- ((- n) / k)). pose proof (Z.div_mod (- n) k). pose proof (Z.mod_pos_bound (- n) k Hk).
  unfold rounded_up. split; lia.
Qed.
Lemma halves_sum : forall v, fst (halves v) + snd (halves v) = v.
Proof. intros v. unfold halves. cbn. pose proof (Z.div_mod v 2). pose proof (Z.div_mod (v+1) 2).
  pose proof (Z.mod_pos_bound v 2). pose proof (Z.mod_pos_bound (v+1) 2). lia. Qed.

Definition margins (a : arr Z) (kh kw : Z) : trbl :=
  let ph := total_pad (ah a) kh in
  let pw := total_pad (aw a) kw in
  mkTrbl (ph / 2) (pw - pw / 2) (ph - ph / 2) (pw / 2).

Lemma pad_to_multiples_ok : forall lo hi kh kw mode cval (a : arr Z), 0 < kh -> 0 < kw -> 0 < ah a -> 0 < aw a ->
  pad_to_multiples lo hi kh kw mode cval a = Ok (copy_make_border a (margins a kh kw) mode (Z.max (Z.min cval hi) lo)).
Proof.
  intros lo hi kh kw mode cval a Hkh Hkw Hh Hw. unfold pad_to_multiples, paddings_multiples_of, compute_axes. cbn [fst snd check_opt].
  replace (0 <? kh) with true by lia. replace (0 <? kw) with true by lia. cbn [negb].
  rewrite !pad_multiple_axis_mod by assumption. unfold margins, total_pad.
  pose proof (halves_sum ((- ah a) mod kh)). pose proof (halves_sum ((- aw a) mod kw)). unfold halves in *. cbn [fst snd] in *. cbn [bind].
  do 3 f_equal; lia.
Qed.

Lemma margins_zero : forall (a : arr Z) kh kw, 0 < kh -> 0 < kw -> ah a mod kh = 0 -> aw a mod kw = 0 ->
  margins a kh kw = mkTrbl 0 0 0 0.
Proof.
  intros a kh kw Hkh Hkw H1 H2. unfold margins, total_pad. rewrite (Z.mod_opp_l_z (ah a)), (Z.mod_opp_l_z (aw a)) by lia. reflexivity.
Qed.

Lemma extremum_ext : forall le P P' px px' v, (forall y x, P y x <-> P' y x) -> (forall y x, P y x -> px y x = px' y x) ->
  extremum le P px v -> extremum le P' px' v.
Proof.
  intros le P P' px px' v HP Hpx [(y & x & H1 & H2) H3]. split.
  - exists y, x. split; [now apply HP|]. rewrite <- Hpx; auto.
  - intros y' x' H. apply HP in H. rewrite <- Hpx; auto.
Qed.

Definition clipped (uint8 : bool) (lo hi cval : Z) : Z :=
  if uint8 then Z.max (Z.min cval 255) 0 else Z.max (Z.min cval hi) lo.

Lemma dispatch_blocks : forall uint8 lo hi nc op le kh kw mode cval (a : arr Z), pick op le ->
  0 < kh -> 0 < kw -> 0 < ah a -> 0 < aw a ->
  exists r, pool_dispatch uint8 lo hi nc op kh kw mode cval a = Ok r /\
    rounded_up (ah a) kh (ah r) /\ rounded_up (aw a) kw (aw r) /\
    forall i j, 0 <= i < ah r -> 0 <= j < aw r ->
      extremum le (in_block kh kw i j)
        (apx (copy_make_border a (margins a kh kw) mode (clipped uint8 lo hi cval))) (apx r i j).
Proof.
  intros uint8 lo hi nc op le kh kw mode cval a Hp Hkh Hkw Hh Hw.
  destruct (neg_mod (ah a) kh Hkh) as (m & Em & Hm). destruct (neg_mod (aw a) kw Hkw) as (n & En & Hn).
  assert (Pm : 0 < m) by (unfold rounded_up in Hm; nia). assert (Pn : 0 < n) by (unfold rounded_up in Hn; nia).
  unfold pool_dispatch. replace ((kh =? 0) || (kw =? 0)) with false by lia.
  replace ((ah a =? 0) || (aw a =? 0)) with false by lia. cbn [negb]. rewrite andb_true_r.
  set (cv := clipped uint8 lo hi cval).
  assert (Hsize : forall cv, ah (copy_make_border a (margins a kh kw) mode cv) = m * kh /\ aw (copy_make_border a (margins a kh kw) mode cv) = n * kw).
  { intros c. cbn. unfold total_pad. lia. }
  destruct (uint8 && (nc <=? 512)) eqn:Eu.
  - apply andb_prop in Eu. destruct Eu as [-> _]. unfold minmax_pool_uint8.
    replace ((kh <? 0) || (kw <? 0)) with false by lia.
    destruct (negb (ah a mod kh =? 0) || negb (aw a mod kw =? 0)) eqn:Ediv.
    + rewrite pad_to_multiples_ok by assumption. cbn [bind]. eexists. split; [reflexivity|].
      destruct (Hsize (Z.max (Z.min cval 255) 0)) as [S1 S2].
      pose proof (fun i j Hi Hj => flip_morph_stride op le kh kw _ m n i j Hp Hkh Hkw S1 S2 Hi Hj) as H.
      destruct (H 0 0) as (R1 & R2 & _); [lia|lia|]. rewrite R1, R2. split; [exact Hm|]. split; [exact Hn|].
      intros i j Hi Hj. destruct (H i j Hi Hj) as (_ & _ & R3). exact R3.
    + assert (Hz : ah a mod kh = 0 /\ aw a mod kw = 0) by lia. destruct Hz as [Z1 Z2].
      cbn [bind]. eexists. split; [reflexivity|].
      rewrite (Z.mod_opp_l_z (ah a)) in Em by lia. rewrite (Z.mod_opp_l_z (aw a)) in En by lia. rewrite Z.add_0_r in Em, En.
      pose proof (fun i j Hi Hj => flip_morph_stride op le kh kw a m n i j Hp Hkh Hkw Em En Hi Hj) as H.
      destruct (H 0 0) as (R1 & R2 & _); [lia|lia|]. rewrite R1, R2. split; [exact Hm|]. split; [exact Hn|].
      intros i j Hi Hj. destruct (H i j Hi Hj) as (_ & _ & R3).
      eapply extremum_ext; [| |exact R3]; [reflexivity|]. intros y x [B1 B2].
      rewrite margins_zero by assumption. unfold copy_make_border. cbn [apx t_top t_left]. rewrite !Z.sub_0_r.
      rewrite !border_index_inside by nia. reflexivity.
  - unfold pool. rewrite pad_to_multiples_ok by assumption. cbn [bind]. eexists. split; [reflexivity|].
    destruct (Hsize (Z.max (Z.min cval (if uint8 then 255 else hi)) (if uint8 then 0 else lo))) as [S1 S2]. cbn [ah aw].
    cbn [ah aw] in S1, S2. rewrite S1, S2, !Z.div_mul by lia. split; [exact Hm|]. split; [exact Hn|].
    intros i j Hi Hj. cbn [apx].
    assert (Ecv : cv = Z.max (Z.min cval (if uint8 then 255 else hi)) (if uint8 then 0 else lo)) by (unfold cv, clipped; destruct uint8; reflexivity).
    rewrite Ecv. apply reduce_extremum; [exact Hp|intros v; apply block_values|].
    exists (i * kh), (j * kw). unfold in_block. nia.
Qed.

(** Edge padding does not change the maximum of a block. *)
Lemma border_index_edge : forall len p, 0 < len -> border_index PMEdge len p = Some (Z.max 0 (Z.min p (len - 1))).
Proof.
  intros len p Hl. unfold border_index. destruct ((0 <=? p) && (p <? len)) eqn:E; [f_equal; lia|].
  f_equal. destruct (p <? 0) eqn:E2; lia.
Qed.

Lemma clamp_in_block : forall n k i y t, 0 < k -> 0 < n -> t = ((- n) mod k) / 2 -> 0 <= i -> (i - 1 + 1) * k < n + (-n) mod k ->
  i * k <= y < (i + 1) * k -> i * k <= Z.max 0 (Z.min (y - t) (n - 1)) + t < (i + 1) * k.
Proof.
  intros n k i y t Hk Hn -> Hi Hr Hy.
  pose proof (Z.mod_pos_bound (- n) k Hk) as Hm.
  set (q := (- n) mod k) in *.
  assert (H0 : 0 <= q / 2 <= q) by (split; [apply Z.div_pos; lia|apply Z.div_le_upper_bound; lia]).
  assert (H1 : 2 * (q / 2) <= q) by (apply Z.mul_div_le; lia).
  destruct (neg_mod n k Hk) as (m & Em & _). fold q in Em.
  assert (i < m) by nia. assert (i = m - 1 \/ i < m - 1) by lia.
  destruct H2 as [-> |Hlt].
  - assert (m = 1 \/ 1 < m) by nia. destruct H2 as [-> |Hm1]; nia.
  - assert ((i + 1) * k <= (m - 1) * k) by nia. assert (i = 0 \/ 1 <= i) by lia. destruct H3; nia.
Qed.

Lemma edge_block : forall le kh kw (a : arr Z) cv i j v, 0 < kh -> 0 < kw -> 0 < ah a -> 0 < aw a ->
  0 <= i -> i * kh < ah a + (- ah a) mod kh -> 0 <= j -> j * kw < aw a + (- aw a) mod kw ->
  extremum le (in_block kh kw i j) (apx (copy_make_border a (margins a kh kw) PMEdge cv)) v ->
  extremum le (fun y x => 0 <= y < ah a /\ 0 <= x < aw a /\
     in_block kh kw i j (y + ((- ah a) mod kh) / 2) (x + ((- aw a) mod kw) / 2)) (apx a) v.
Proof.
  intros le kh kw a cv i j v Hkh Hkw Hh Hw Hi Hi' Hj Hj' [(y & x & [B1 B2] & Hv) Hall].
  split.
  - cbn [apx copy_make_border margins t_top t_left] in Hv. unfold total_pad in Hv. rewrite !border_index_edge in Hv by assumption.
    eexists. eexists. split; [|exact Hv]. split; [lia|]. split; [lia|]. split.
    + apply clamp_in_block; auto; lia.
    + apply clamp_in_block; auto; lia.
  - intros y' x' (H1 & H2 & H3).
    specialize (Hall _ _ H3). cbn [apx copy_make_border margins t_top t_left] in Hall. unfold total_pad in Hall.
    rewrite !border_index_inside in Hall by lia. rewrite !Z.add_simpl_r in Hall. exact Hall.
Qed.

Lemma dispatch_edge : forall uint8 lo hi nc op le kh kw cval (a : arr Z), pick op le ->
  0 < kh -> 0 < kw -> 0 < ah a -> 0 < aw a ->
  exists r top lft, pool_dispatch uint8 lo hi nc op kh kw PMEdge cval a = Ok r /\
    rounded_up (ah a) kh (ah r) /\ rounded_up (aw a) kw (aw r) /\
    top = (ah r * kh - ah a) / 2 /\ lft = (aw r * kw - aw a) / 2 /\
    forall i j, 0 <= i < ah r -> 0 <= j < aw r ->
      extremum le (fun y x => 0 <= y < ah a /\ 0 <= x < aw a /\ in_block kh kw i j (y + top) (x + lft)) (apx a) (apx r i j).
Proof.
  intros uint8 lo hi nc op le kh kw cval a Hp Hkh Hkw Hh Hw.
  destruct (dispatch_blocks uint8 lo hi nc op le kh kw PMEdge cval a Hp Hkh Hkw Hh Hw) as (r & E & Hm & Hn & HB).
  destruct (neg_mod (ah a) kh Hkh) as (m & Em & Hm'). destruct (neg_mod (aw a) kw Hkw) as (n & En & Hn').
  assert (m = ah r) by (unfold rounded_up in *; nia). assert (n = aw r) by (unfold rounded_up in *; nia). subst m n.
  exists r, (((- ah a) mod kh) / 2), (((- aw a) mod kw) / 2). split; [exact E|]. split; [exact Hm|]. split; [exact Hn|].
  split; [f_equal; lia|]. split; [f_equal; lia|].
  intros i j Hi Hj. eapply edge_block; try eassumption; try lia; try nia. apply HB; assumption.
Qed.

(** Both implementations compute the same image. *)
Lemma extremum_unique : forall le op P px v v', pick op le -> extremum le P px v -> extremum le P px v' -> v = v'.
Proof.
  intros le op P px v v' Hp [(y & x & H1 & H2) H3] [(y' & x' & H1' & H2') H3'].
  specialize (H3 _ _ H1'). specialize (H3' _ _ H1). subst v v'. destruct Hp as [[_ ->]|[_ ->]]; lia.
Qed.

Lemma dispatch_same : forall nc nc' op kh kw mode cval (a : arr Z), op = Z.max \/ op = Z.min ->
  0 < kh -> 0 < kw -> 0 < ah a -> 0 < aw a ->
  exists r r', pool_dispatch true 0 255 nc op kh kw mode cval a = Ok r /\
               pool_dispatch false 0 255 nc' op kh kw mode cval a = Ok r' /\ arr_eq r r'.
Proof.
  intros nc nc' op kh kw mode cval a Hop Hkh Hkw Hh Hw.
  assert (Hp : exists le, pick op le) by (destruct Hop as [-> | ->]; [exists Z.le; now left|exists Z.ge; now right]).
  destruct Hp as [le Hp].
  destruct (dispatch_blocks true 0 255 nc op le kh kw mode cval a Hp Hkh Hkw Hh Hw) as (r & E & Hm & Hn & HB).
  destruct (dispatch_blocks false 0 255 nc' op le kh kw mode cval a Hp Hkh Hkw Hh Hw) as (r' & E' & Hm' & Hn' & HB').
  exists r, r'. split; [exact E|]. split; [exact E'|].
  assert (ah r = ah r') by (unfold rounded_up in *; nia). assert (aw r = aw r') by (unfold rounded_up in *; nia).
  split; [assumption|]. split; [assumption|]. intros y x Hy Hx.
  eapply extremum_unique; [exact Hp|apply HB; assumption|]. unfold clipped in *. apply HB'; lia.
Qed.

(* ------------------------------------------------------------------ *)
(** ** Lookup tables *)

Lemma nth_combine_seq : forall {A} (l : list A) c d, (c < length l)%nat ->
  nth c (combine (seq 0 (length l)) l) (O, d) = (c, nth c l d).
Proof.
  intros A l c d Hc. rewrite combine_nth by (now rewrite seq_length). rewrite seq_nth by exact Hc. reflexivity.
Qed.

Lemma cv2_lut_px_length : forall rows px, length (cv2_lut_px rows px) = length px.
Proof. intros. unfold cv2_lut_px. rewrite map_length, combine_length, seq_length. lia. Qed.

Lemma cv2_lut_px_nth : forall rows px c, (c < length px)%nat ->
  nth c (cv2_lut_px rows px) 0 = match row_ rows (nth c px 0) with [t] => t | row => nth c row 0 end.
Proof.
  intros rows px c Hc. unfold cv2_lut_px.
  set (F := fun cv : nat * Z => match row_ rows (snd cv) with [t] => t | row => nth (fst cv) row 0 end).
  rewrite (nth_indep _ 0 (F (O, 0))) by (rewrite map_length, combine_length, seq_length; lia).
  rewrite map_nth, nth_combine_seq by exact Hc. reflexivity.
Qed.

Lemma skipn_skipn : forall {A} a b (l : list A), skipn a (skipn b l) = skipn (b + a) l.
Proof. intros A a b. induction b as [|b IH]; intros [|x l]; cbn; auto. apply skipn_nil. Qed.

(** Groups of 512 channels. *)
Lemma concat_groups : forall {A} k n (l : list A), (0 < k)%nat -> (length l <= n * k)%nat ->
  concat (map (fun g => firstn k (skipn (g * k) l)) (seq 0 n)) = l.
Proof.
  intros A k n. induction n as [|n IH]; intros l Hk Hl.
  - destruct l; [reflexivity|cbn in Hl; lia].
  - cbn [seq map concat]. rewrite <- seq_shift, map_map. cbn [Nat.mul skipn].
    transitivity (firstn k l ++ skipn k l); [|apply firstn_skipn]. f_equal.
    transitivity (concat (map (fun g => firstn k (skipn (g * k) (skipn k l))) (seq 0 n))).
    + f_equal. apply map_ext. intros g. f_equal. rewrite skipn_skipn. reflexivity.
    + apply IH; [exact Hk|]. rewrite skipn_length. lia.
Qed.

Lemma group_lut : forall rows px k g nc, length px = nc -> Forall (fun r => length r = nc) rows ->
  (forall v, In v px -> (0 <= v < Z.of_nat (length rows))) ->
  (2 <= nc)%nat ->
  cv2_lut_px (map (fun r => firstn k (skipn (g * k) r)) rows) (firstn k (skipn (g * k) px)) =
  firstn k (skipn (g * k) (cv2_lut_px rows px)).
Proof.
  intros rows px k g nc Hpx Hrows Hv Hnc.
  apply nth_ext with (d := 0) (d' := 0).
  - rewrite cv2_lut_px_length, !firstn_length, !skipn_length, cv2_lut_px_length. reflexivity.
  - intros c Hc. rewrite cv2_lut_px_length, firstn_length, skipn_length in Hc.
    rewrite cv2_lut_px_nth by (rewrite firstn_length, skipn_length; exact Hc).
    assert (Hsub : forall {A} (l : list A) d, (c < k)%nat -> nth c (firstn k (skipn (g * k) l)) d = nth (g * k + c) l d).
    { intros A l d Hck. rewrite <- (firstn_skipn (g * k) l) at 2.
      destruct (le_lt_dec (length l) (g * k)) as [Hle|Hgt].
      - rewrite skipn_all2 by exact Hle. rewrite app_nil_r, firstn_nil.
        rewrite (nth_overflow (firstn (g * k) l)) by (rewrite firstn_length; lia). destruct c; reflexivity.
      - rewrite app_nth2 by (rewrite firstn_length; lia). rewrite firstn_length, Nat.min_l by lia.
        replace (g * k + c - g * k)%nat with c by lia.
        transitivity (nth c (firstn k (skipn (g * k) l) ++ skipn k (skipn (g * k) l)) d); [|now rewrite firstn_skipn].
        destruct (le_lt_dec (length (skipn (g * k) l)) c) as [H1|H1].
        + rewrite !nth_overflow; [reflexivity| |]; rewrite ?app_length, ?firstn_length, ?skipn_length in *; lia.
        + rewrite app_nth1; [reflexivity|]. rewrite firstn_length. lia. }
    rewrite !Hsub by lia. rewrite cv2_lut_px_nth by lia.
    set (v := nth (g * k + c) px 0).
    assert (Hin : In v px) by (apply nth_In; lia). specialize (Hv v Hin).
    assert (Hrow : row_ (map (fun r => firstn k (skipn (g * k) r)) rows) v = firstn k (skipn (g * k) (row_ rows v))).
    { unfold row_. rewrite (nth_indep _ [] ((fun r => firstn k (skipn (g * k) r)) [])) by (rewrite map_length; lia).
      rewrite (map_nth (fun r => firstn k (skipn (g * k) r))). reflexivity. }
    rewrite Hrow.
    assert (Hlen : length (row_ rows v) = nc).
    { rewrite Forall_forall in Hrows. apply Hrows. unfold row_. apply nth_In. lia. }
    assert (E : match row_ rows v with [t] => t | row => nth (g * k + c) row 0 end = nth (g * k + c) (row_ rows v) 0).
    { destruct (row_ rows v) as [|t [|t' r]]; cbn in Hlen; try reflexivity. lia. }
    rewrite E, <- (Hsub Z (row_ rows v) 0) by lia.
    set (sub := firstn k (skipn (g * k) (row_ rows v))).
    assert (Hsl : length sub = Nat.min k (nc - g * k)) by (unfold sub; rewrite firstn_length, skipn_length, Hlen; reflexivity).
    destruct sub as [|t [|t' r]]; try reflexivity. cbn in Hsl. assert (c = 0%nat) by lia. subst c. reflexivity.
Qed.

Lemma firstn_short : forall {A} (l : list A) n, (length l <= n)%nat -> firstn n l = l.
Proof. intros. now apply firstn_all2. Qed.

(** One table row per value, one column per channel, or one column. *)
Lemma rows_apply : forall rows px c nc, length px = nc -> (c < nc)%nat ->
  Forall (fun r => length r = nc) rows -> (0 <= nth c px 0 < Z.of_nat (length rows)) ->
  nth c (cv2_lut_px rows px) 0 = nth c (row_ rows (nth c px 0)) 0.
Proof.
  intros rows px c nc Hpx Hc Hrows Hv. rewrite cv2_lut_px_nth by lia.
  assert (Hlen : length (row_ rows (nth c px 0)) = nc).
  { rewrite Forall_forall in Hrows. apply Hrows. unfold row_. apply nth_In. lia. }
  destruct (row_ rows (nth c px 0)) as [|t [|t' r]]; try reflexivity. cbn in Hlen. assert (c = 0%nat) by lia. subst c. reflexivity.
Qed.

Lemma groups_apply : forall rows px nc, length px = nc -> Forall (fun r => length r = nc) rows ->
  (forall v, In v px -> (0 <= v < Z.of_nat (length rows))) -> (512 < nc)%nat ->
  concat (map (fun g =>
     cv2_lut_px (map (fun r => firstn 512 (skipn (g * 512) r)) rows) (firstn 512 (skipn (g * 512) px)))
     (seq 0 ((nc + 511) / 512))) = cv2_lut_px rows px.
Proof.
  intros rows px nc Hpx Hrows Hv Hnc.
  rewrite (map_ext_in _ (fun g => firstn 512 (skipn (g * 512) (cv2_lut_px rows px)))).
  - apply concat_groups; [lia|]. rewrite cv2_lut_px_length, Hpx.
    pose proof (Nat.div_mod (nc + 511) 512). pose proof (Nat.mod_upper_bound (nc + 511) 512). lia.
  - intros g _. apply group_lut with (nc := nc); auto. lia.
Qed.

Lemma apply_lut_entry : forall nc (im : arr (list Z)) table, table_for nc table -> (0 < nc)%nat -> 0 < ah im -> 0 < aw im ->
  (forall y x, 0 <= y < ah im -> 0 <= x < aw im -> length (apx im y x) = nc /\ Forall (fun v => 0 <= v <= 255) (apx im y x)) ->
  exists r, apply_lut nc im table = Ok r /\ ah r = ah im /\ aw r = aw im /\
    forall y x, 0 <= y < ah im -> 0 <= x < aw im ->
      length (apx r y x) = nc /\
      forall c, (c < nc)%nat -> nth c (apx r y x) 0 = entry table c (nth c (apx im y x) 0).
Proof.
  intros nc im table Ht Hnc Hh Hw Him. unfold apply_lut.
  replace ((ah im =? 0) || (aw im =? 0) || Nat.eqb nc 0) with false.
  2:{ symmetry. rewrite !orb_false_iff. repeat split; [lia|lia|]. apply Nat.eqb_neq. lia. }
  assert (HR : forall rows, length rows = 256%nat -> Forall (fun r => length r = nc) rows ->
    exists r, (if Nat.ltb 512 nc
    then Ok (mkArr (ah im) (aw im) (fun y x =>
           concat (map (fun g =>
             cv2_lut_px (map (fun r => firstn 512 (skipn (g * 512) r)) rows) (firstn 512 (skipn (g * 512) (apx im y x))))
             (seq 0 ((nc + 511) / 512)))))
    else Ok (mkArr (ah im) (aw im) (fun y x => cv2_lut_px rows (apx im y x)))) = Ok r /\ ah r = ah im /\ aw r = aw im /\
    forall y x, 0 <= y < ah im -> 0 <= x < aw im ->
      length (apx r y x) = nc /\
      forall c, (c < nc)%nat -> nth c (apx r y x) 0 = nth c (nth (Z.to_nat (nth c (apx im y x) 0)) rows []) 0).
  { intros rows Hl Hrows.
    assert (Hpx : forall y x, 0 <= y < ah im -> 0 <= x < aw im ->
        length (cv2_lut_px rows (apx im y x)) = nc /\
        forall c, (c < nc)%nat -> nth c (cv2_lut_px rows (apx im y x)) 0 = nth c (nth (Z.to_nat (nth c (apx im y x) 0)) rows []) 0).
    { intros y x Hy Hx. destruct (Him y x Hy Hx) as [L F]. rewrite Forall_forall in F. split; [now rewrite cv2_lut_px_length|].
      intros c Hc. rewrite (rows_apply rows (apx im y x) c nc); auto.
      assert (HI : In (nth c (apx im y x) 0) (apx im y x)) by (apply nth_In; lia). specialize (F _ HI). lia. }
    destruct (Nat.ltb 512 nc) eqn:E; (eexists; split; [reflexivity|]); (split; [reflexivity|]); (split; [reflexivity|]); cbn [apx ah aw]; auto.
    apply Nat.ltb_lt in E. intros y x Hy Hx. destruct (Him y x Hy Hx) as [L F]. rewrite Forall_forall in F.
    rewrite (groups_apply rows (apx im y x) nc); auto. intros v Hv. specialize (F v Hv). lia. }
  destruct table as [t|rows|rows|ts]; cbn [table_for] in Ht.
  - rewrite Ht. change (Nat.eqb 256 256) with true. cbn [bind].
    destruct (Nat.ltb 512 nc) eqn:E.
    + destruct (HR (map (fun v => repeat v nc) t)) as (r & E1 & R1 & R2 & R3).
      { now rewrite map_length. }
      { apply Forall_forall. intros r Hr. apply in_map_iff in Hr. destruct Hr as (v & <- & _). apply repeat_length. }
      try rewrite E in E1. exists r. split; [exact E1|]. split; [exact R1|]. split; [exact R2|].
      intros y x Hy Hx. destruct (R3 y x Hy Hx) as [L N]. split; [exact L|]. intros c Hc. rewrite (N c Hc). cbn [entry].
      destruct (Him y x Hy Hx) as [L' F]. rewrite Forall_forall in F.
      assert (HI : In (nth c (apx im y x) 0) (apx im y x)) by (apply nth_In; lia). specialize (F _ HI).
      rewrite (nth_indep _ [] (repeat 0 nc)) by (rewrite map_length; lia).
      rewrite (map_nth (fun v => repeat v nc)). rewrite (nth_indep _ 0 (nth (Z.to_nat (nth c (apx im y x) 0)) t 0)) by (now rewrite repeat_length). apply nth_repeat.
    + eexists. split; [reflexivity|]. split; [reflexivity|]. split; [reflexivity|]. cbn [apx].
      intros y x Hy Hx. destruct (Him y x Hy Hx) as [L F]. rewrite Forall_forall in F. split; [now rewrite cv2_lut_px_length|].
      intros c Hc. rewrite cv2_lut_px_nth by lia. cbn [entry].
      assert (HI : In (nth c (apx im y x) 0) (apx im y x)) by (apply nth_In; lia). specialize (F _ HI).
      unfold row_. rewrite (nth_indep _ [] [0]) by (rewrite map_length; lia).
      rewrite (map_nth (fun v => [v])). reflexivity.
  - destruct Ht as [H1 H2]. assert (HS : rows_shape nc rows = true).
    { unfold rows_shape. rewrite H1, Nat.eqb_refl. apply forallb_forall. intros r Hr. rewrite Forall_forall in H2. apply Nat.eqb_eq. auto. }
    rewrite HS. cbn [bind]. exact (HR rows H1 H2).
  - destruct Ht as [H1 H2]. assert (HS : rows_shape nc rows = true).
    { unfold rows_shape. rewrite H1, Nat.eqb_refl. apply forallb_forall. intros r Hr. rewrite Forall_forall in H2. apply Nat.eqb_eq. auto. }
    rewrite HS. cbn [bind]. exact (HR rows H1 H2).
  - destruct Ht as [H1 H2]. rewrite H1, Nat.eqb_refl. cbn [negb].
    replace (forallb (fun t => Nat.eqb (length t) 256) ts) with true.
    2:{ symmetry. apply forallb_forall. intros r Hr. rewrite Forall_forall in H2. apply Nat.eqb_eq. auto. }
    cbn [bind].
    destruct (HR (stack_last 256 ts)) as (r & E1 & R1 & R2 & R3).
    { unfold stack_last. now rewrite map_length, seq_length. }
    { apply Forall_forall. intros r Hr. apply in_map_iff in Hr. destruct Hr as (v & <- & _). now rewrite map_length. }
    exists r. split; [exact E1|]. split; [exact R1|]. split; [exact R2|].
    intros y x Hy Hx. destruct (R3 y x Hy Hx) as [L N]. split; [exact L|]. intros c Hc. rewrite (N c Hc). cbn [entry].
    destruct (Him y x Hy Hx) as [L' F]. rewrite Forall_forall in F.
    assert (HI : In (nth c (apx im y x) 0) (apx im y x)) by (apply nth_In; lia). specialize (F _ HI).
    set (v := Z.to_nat (nth c (apx im y x) 0)) in *. assert (v < 256)%nat by lia.
    unfold stack_last.
    rewrite (nth_indep _ [] ((fun v => map (fun t => nth v t 0) ts) O)) by (rewrite map_length, seq_length; lia).
    rewrite (map_nth (fun v => map (fun t => nth v t 0) ts)), seq_nth by lia. cbn [Nat.add].
    rewrite (nth_indep _ 0 ((fun t => nth v t 0) [])) by (rewrite map_length; lia).
    now rewrite (map_nth (fun t => nth v t 0)).
Qed.

Lemma apply_lut_rejects : forall nc (im : arr (list Z)) table, ~ table_for nc table -> (0 < nc)%nat -> 0 < ah im -> 0 < aw im ->
  apply_lut nc im table = Err AssertionError.
Proof.
  intros nc im table Ht Hnc Hh Hw. unfold apply_lut.
  replace ((ah im =? 0) || (aw im =? 0) || Nat.eqb nc 0) with false.
  2:{ symmetry. rewrite !orb_false_iff. repeat split; [lia|lia|]. apply Nat.eqb_neq. lia. }
  assert (HS : forall rows, rows_shape nc rows = true -> length rows = 256%nat /\ Forall (fun r => length r = nc) rows).
  { intros rows H. apply andb_prop in H. destruct H as [H1 H2]. split; [now apply Nat.eqb_eq|].
    rewrite forallb_forall in H2. apply Forall_forall. intros r Hr. apply Nat.eqb_eq. auto. }
  destruct table as [t|rows|rows|ts]; cbn [table_for] in Ht.
  - destruct (Nat.eqb (length t) 256) eqn:E; [|reflexivity]. apply Nat.eqb_eq in E. contradiction.
  - destruct (rows_shape nc rows) eqn:E; [|reflexivity]. exfalso. auto.
  - destruct (rows_shape nc rows) eqn:E; [|reflexivity]. exfalso. auto.
  - destruct (Nat.eqb (length ts) nc) eqn:E; [|reflexivity]. cbn [negb].
    destruct (forallb (fun t => Nat.eqb (length t) 256) ts) eqn:E2; [|reflexivity]. exfalso. apply Ht.
    split; [now apply Nat.eqb_eq|]. rewrite forallb_forall in E2. apply Forall_forall. intros r Hr. apply Nat.eqb_eq. auto.
Qed.

(* ------------------------------------------------------------------ *)
(** ** draw_grid *)

Lemma zrange_add : forall m n, 0 <= m -> 0 <= n -> zrange (m + n) = zrange m ++ map (Z.add m) (zrange n).
Proof.
  intros m n Hm Hn. unfold zrange. rewrite Z2Nat.inj_add, seq_app, map_app by assumption. f_equal. cbn [Nat.add].
  rewrite map_map. rewrite <- (Nat.add_0_l (Z.to_nat m)) at 1. 
  assert (H : forall k a, map Z.of_nat (seq (a + k) (Z.to_nat n)) = map (fun x => Z.of_nat k + Z.of_nat x) (seq a (Z.to_nat n))).
  { intros k. generalize (Z.to_nat n). induction n0 as [|n0 IH]; intros a; [reflexivity|]. cbn. f_equal; [lia|]. apply (IH (S a)). }
  rewrite H. apply map_ext. intros x. lia.
Qed.

Lemma zrange_one : forall c, 0 <= c -> zrange (c + 1) = zrange c ++ [c].
Proof. intros c Hc. rewrite zrange_add by lia. f_equal. change (zrange 1) with [0]. cbn [map]. f_equal. lia. Qed.

Lemma cells_flat : forall c r, 0 < c -> 0 <= r ->
  flat_map (fun row_idx => map (fun col_idx => (row_idx, col_idx)) (zrange c)) (zrange r) =
  map (fun k => (k / c, k mod c)) (zrange (r * c)).
Proof.
  intros c r Hc Hr. pattern r. apply natlike_ind; [reflexivity| |exact Hr].
  intros q Hq IH. rewrite Z.mul_succ_l, zrange_add, map_app by nia. unfold Z.succ. rewrite zrange_one by exact Hq.
  rewrite flat_map_app, IH. f_equal. cbn [flat_map]. rewrite app_nil_r, map_map.
  apply map_ext_in. intros k Hk. apply in_zrange in Hk.
  rewrite Z.div_add_l, Z.div_small by lia. rewrite (Z.add_comm (q * c) k), Z.mod_add, Z.mod_small by lia. f_equal. lia.
Qed.

Lemma fold_max_bound : forall l x, In x l -> x <= fold_right Z.max 0 l.
Proof. induction l as [|y l IH]; intros x; cbn; [tauto|]. intros [<-|H]; [lia|]. specialize (IH x H). lia. Qed.
Lemma fold_max_in : forall l, l <> [] -> Forall (fun x => 0 <= x) l -> In (fold_right Z.max 0 l) l.
Proof.
  induction l as [|y l IH]; intros Hne HF; [congruence|]. cbn. inversion HF as [|? ? Hy HF']. subst.
  destruct l as [|z l]; [left; cbn; lia|]. assert (Hin : In (fold_right Z.max 0 (z :: l)) (z :: l)) by (apply IH; [congruence|exact HF']).
  destruct (Z.max_dec y (fold_right Z.max 0 (z :: l))) as [E|E]; rewrite E; [now left|now right].
Qed.

Section Grid.
Context {A : Type}.
Variables (zero : A) (images : list (arr A)) (ch cw c : Z).
Hypothesis Hc : 0 < c.
Hypothesis Hch : 0 < ch.
Hypothesis Hcw : 0 < cw.
Hypothesis Hsize : Forall (fun im => 0 <= ah im <= ch /\ 0 <= aw im <= cw) images.

Definition cell_value (Y X : Z) : A :=
  match nth_error images (Z.to_nat (Y / ch * c + X / cw)) with
  | Some im => if (Y mod ch <? ah im) && (X mod cw <? aw im) then apx im (Y mod ch) (X mod cw) else zero
  | None => zero
  end.

Definition grid_step (st : arr A * nat) (cell : Z * Z) : arr A * nat :=
  let '(grid, cell_idx) := st in
  (match nth_error images cell_idx with
   | Some im => paste grid (ch * fst cell) (cw * snd cell) im
   | None => grid
   end, S cell_idx).

Definition grid_inv (H W : Z) (k : nat) (g : arr A) : Prop :=
  ah g = H /\ aw g = W /\
  forall Y X, 0 <= Y -> 0 <= X < cw * c ->
    apx g Y X = if Y / ch * c + X / cw <? Z.of_nat k then cell_value Y X else zero.

Lemma grid_step_inv : forall H W k g, grid_inv H W k g ->
  grid_inv H W (S k) (fst (grid_step (g, k) (Z.of_nat k / c, Z.of_nat k mod c))) /\
  snd (grid_step (g, k) (Z.of_nat k / c, Z.of_nat k mod c)) = S k.
Proof.
  intros H W k g (Hh & Hw & Hpx). split; [|reflexivity]. cbn [grid_step fst snd].
  assert (HX : forall X, 0 <= X < cw * c -> 0 <= X / cw < c).
  { intros X HX. split; [apply Z.div_pos; lia|apply Z.div_lt_upper_bound; lia]. }
  assert (Hidx : forall Y X, 0 <= Y -> 0 <= X < cw * c -> 0 <= Y / ch * c + X / cw).
  { intros Y X HY HX'. specialize (HX X HX'). assert (0 <= Y / ch) by (apply Z.div_pos; lia). nia. }
  destruct (nth_error images k) as [im|] eqn:E.
  - split; [exact Hh|]. split; [exact Hw|]. intros Y X HY HX'. cbn [apx paste].
    rewrite Forall_forall in Hsize. pose proof (Hsize im (nth_error_In _ _ E)) as [[S1 S1'] [S2 S2']].
    pose proof (Z.div_mod Y ch) as DY. pose proof (Z.mod_pos_bound Y ch Hch) as MY.
    pose proof (Z.div_mod X cw) as DX. pose proof (Z.mod_pos_bound X cw Hcw) as MX.
    specialize (HX X HX'). specialize (Hidx Y X HY HX').
    destruct ((ch * (Z.of_nat k / c) <=? Y) && (Y <? ch * (Z.of_nat k / c) + ah im) &&
              (cw * (Z.of_nat k mod c) <=? X) && (X <? cw * (Z.of_nat k mod c) + aw im)) eqn:EB.
    + assert (EY : Y / ch = Z.of_nat k / c) by (symmetry; apply (Z.div_unique _ _ _ (Y - ch * (Z.of_nat k / c))); lia).
      assert (EX : X / cw = Z.of_nat k mod c) by (symmetry; apply (Z.div_unique _ _ _ (X - cw * (Z.of_nat k mod c))); lia).
      assert (EI : Y / ch * c + X / cw = Z.of_nat k).
      { rewrite EY, EX. pose proof (Z.div_mod (Z.of_nat k) c). lia. }
      unfold cell_value. rewrite EI, Nat2Z.id, E. replace (Z.of_nat k <? Z.of_nat (S k)) with true by lia.
      replace (Y - ch * (Z.of_nat k / c)) with (Y mod ch) by lia. replace (X - cw * (Z.of_nat k mod c)) with (X mod cw) by lia.
      replace ((Y mod ch <? ah im) && (X mod cw <? aw im)) with true by lia. reflexivity.
    + rewrite (Hpx Y X HY HX').
      destruct (Z.eq_dec (Y / ch * c + X / cw) (Z.of_nat k)) as [EI|NI].
      * replace (Y / ch * c + X / cw <? Z.of_nat k) with false by lia.
        replace (Y / ch * c + X / cw <? Z.of_nat (S k)) with true by lia.
        unfold cell_value. rewrite EI, Nat2Z.id, E.
        assert (EY : Y / ch = Z.of_nat k / c) by (apply (Z.div_unique _ _ _ (X / cw)); lia).
        assert (EX : X / cw = Z.of_nat k mod c) by (apply (Z.mod_unique _ _ (Y / ch)); lia).
        destruct ((Y mod ch <? ah im) && (X mod cw <? aw im)) eqn:EM; [|reflexivity].
        exfalso. rewrite <- EY, <- EX in EB. lia.
      * destruct (Y / ch * c + X / cw <? Z.of_nat k) eqn:E1; destruct (Y / ch * c + X / cw <? Z.of_nat (S k)) eqn:E2; try reflexivity; lia.
  - split; [exact Hh|]. split; [exact Hw|]. intros Y X HY HX'. rewrite (Hpx Y X HY HX').
    specialize (Hidx Y X HY HX').
    destruct (Z.eq_dec (Y / ch * c + X / cw) (Z.of_nat k)) as [EI|NI].
    + replace (Y / ch * c + X / cw <? Z.of_nat k) with false by lia.
      replace (Y / ch * c + X / cw <? Z.of_nat (S k)) with true by lia.
      unfold cell_value. now rewrite EI, Nat2Z.id, E.
    + destruct (Y / ch * c + X / cw <? Z.of_nat k) eqn:E1; destruct (Y / ch * c + X / cw <? Z.of_nat (S k)) eqn:E2; try reflexivity; lia.
Qed.

Lemma grid_fold_inv : forall H W n k g, grid_inv H W k g ->
  grid_inv H W (k + n) (fst (fold_left grid_step (map (fun q => (q / c, q mod c)) (map Z.of_nat (seq k n))) (g, k))).
Proof.
  intros H W n. induction n as [|n IH]; intros k g I; cbn [seq map fold_left].
  - rewrite Nat.add_0_r. exact I.
  - destruct (grid_step_inv H W k g I) as [I' E]. destruct (grid_step (g, k) (Z.of_nat k / c, Z.of_nat k mod c)) as [g' k'].
    cbn [fst snd] in I', E. subst k'. replace (k + S n)%nat with (S k + n)%nat by lia. apply IH. exact I'.
Qed.
End Grid.

Lemma ceil_div_spec : forall n r, 0 < r -> rounded_up n r (ceil_div n r).
Proof.
  intros n r Hr. unfold ceil_div, rounded_up. pose proof (Z.div_mod (- n) r). pose proof (Z.mod_pos_bound (- n) r Hr). lia.
Qed.

Definition given_positive (o : option Z) : Prop := match o with Some v => 0 < v | None => True end.

Lemma grid_size_ok : forall n rows cols, 0 < n -> given_positive rows -> given_positive cols ->
  exists r c, grid_size n rows cols = Ok (r, c) /\ 0 < r /\ 0 < c /\ n <= r * c /\
    (forall v, rows = Some v -> r = v /\ rounded_up n r c) /\
    (rows = None -> forall v, cols = Some v -> c = v /\ rounded_up n c r) /\
    (rows = None -> cols = None -> r = c /\ (r - 1) * (r - 1) < n).
Proof.
  intros n [r|] cols Hn Hr Hc; cbn [given_positive] in *.
  - pose proof (ceil_div_spec n r Hr) as HU. unfold rounded_up in HU. cbn [grid_size]. replace (r =? 0) with false by lia.
    exists r, (ceil_div n r). split; [reflexivity|]. split; [exact Hr|]. split; [nia|]. split; [lia|].
    split; [intros v [= <-]; split; [reflexivity|exact HU]|]. split; congruence.
  - destruct cols as [c|]; cbn [given_positive grid_size] in *.
    + pose proof (ceil_div_spec n c Hc) as HU. unfold rounded_up in HU. replace (c =? 0) with false by lia.
      exists (ceil_div n c), c. split; [reflexivity|]. split; [nia|]. split; [exact Hc|]. split; [lia|].
      split; [congruence|]. split; [|congruence]. intros _ v [= <-]. split; [reflexivity|exact HU].
    + unfold ceil_sqrt. exists (Z.sqrt_up n), (Z.sqrt_up n). split; [reflexivity|].
      pose proof (Z.sqrt_up_spec n) as HS. destruct (Z.eq_dec n 1) as [->|Hn1].
      * cbn. repeat split; try lia; congruence.
      * destruct (HS ltac:(lia)) as [H1 H2]. pose proof (Z.sqrt_up_pos n). 
        assert (0 < Z.sqrt_up n) by (apply Z.sqrt_up_pos; lia).
        repeat split; try lia; try congruence.
Qed.

Lemma draw_grid_ok : forall {A} (zero : A) images rows cols, images <> [] ->
  Forall (fun im => 0 < ah im /\ 0 < aw im) images -> given_positive rows -> given_positive cols ->
  exists g r c ch cw, draw_grid zero images rows cols = Ok g /\
    grid_size (Z.of_nat (length images)) rows cols = Ok (r, c) /\ Z.of_nat (length images) <= r * c /\ 0 < c /\ 0 < r /\
    Forall (fun im => ah im <= ch /\ aw im <= cw) images /\ In ch (map ah images) /\ In cw (map aw images) /\
    ah g = ch * r /\ aw g = cw * c /\
    forall Y X, 0 <= Y < ah g -> 0 <= X < aw g -> apx g Y X = cell_value zero images ch cw c Y X.
Proof.
  intros A zero images rows cols Hne Hpos Hr Hcl.
  assert (Hn : 0 < Z.of_nat (length images)) by (destruct images; [congruence|cbn; lia]).
  destruct (grid_size_ok _ rows cols Hn Hr Hcl) as (r & c & Eg & Pr & Pc & Hrc & _).
  set (ch := fold_right Z.max 0 (map ah images)). set (cw := fold_right Z.max 0 (map aw images)).
  assert (Hmax : Forall (fun im => ah im <= ch /\ aw im <= cw) images).
  { apply Forall_forall. intros im Him. split; apply fold_max_bound; now apply in_map. }
  assert (Ich : In ch (map ah images)).
  { apply fold_max_in; [destruct images; [congruence|discriminate]|]. rewrite Forall_forall in *. intros x Hx. apply in_map_iff in Hx.
    destruct Hx as (im & <- & Him). specialize (Hpos im Him). lia. }
  assert (Icw : In cw (map aw images)).
  { apply fold_max_in; [destruct images; [congruence|discriminate]|]. rewrite Forall_forall in *. intros x Hx. apply in_map_iff in Hx.
    destruct Hx as (im & <- & Him). specialize (Hpos im Him). lia. }
  assert (Pch : 0 < ch /\ 0 < cw).
  { destruct images as [|im ims]; [congruence|]. inversion Hpos as [|? ? H1 _]. inversion Hmax as [|? ? H2 _]. lia. }
  destruct Pch as [Pch Pcw].
  unfold draw_grid. replace (Z.of_nat (length images) =? 0) with false by lia. rewrite Eg. cbn [bind].
  fold ch cw. replace (negb (Z.of_nat (length images) <=? r * c)) with false by lia.
  replace ((ch * r <? 0) || (cw * c <? 0)) with false by nia.
  eexists. exists r, c, ch, cw. split; [reflexivity|]. split; [reflexivity|]. split; [exact Hrc|]. split; [exact Pc|]. split; [exact Pr|].
  split; [exact Hmax|]. split; [exact Ich|]. split; [exact Icw|].
  rewrite cells_flat by lia.
  set (g0 := mkArr (ch * r) (cw * c) (fun _ _ : Z => zero)).
  assert (I0 : grid_inv zero images ch cw c (ch * r) (cw * c) 0 g0).
  { split; [reflexivity|]. split; [reflexivity|]. intros Y X HY HX. cbn [apx g0].
    replace (Y / ch * c + X / cw <? Z.of_nat 0) with false; [reflexivity|]. symmetry. apply Z.ltb_ge.
    assert (0 <= Y / ch) by (apply Z.div_pos; lia). assert (0 <= X / cw) by (apply Z.div_pos; lia). nia. }
  assert (Hsize : Forall (fun im => 0 <= ah im <= ch /\ 0 <= aw im <= cw) images).
  { rewrite Forall_forall in *. intros im Him. specialize (Hpos im Him). specialize (Hmax im Him). lia. }
  pose proof (grid_fold_inv zero images ch cw c Pc Pch Pcw Hsize (ch * r) (cw * c) (Z.to_nat (r * c)) 0 g0 I0) as (G1 & G2 & G3).
  unfold zrange.
  match goal with |- ah ?g = _ /\ _ => change (ah g = ch * r) in G1; change (aw g = cw * c) in G2;
    assert (G4 : forall Y X, 0 <= Y -> 0 <= X < cw * c ->
      apx g Y X = if Y / ch * c + X / cw <? Z.of_nat (0 + Z.to_nat (r * c)) then cell_value zero images ch cw c Y X else zero) by exact G3;
    clear G3 end.
  split; [exact G1|]. split; [exact G2|].
  intros Y X HY HX. rewrite G1 in HY. rewrite G2 in HX. rewrite G4 by lia.
  replace (Y / ch * c + X / cw <? Z.of_nat (0 + Z.to_nat (r * c))) with true; [reflexivity|]. symmetry. apply Z.ltb_lt.
  assert (Y / ch < r) by (apply Z.div_lt_upper_bound; lia). assert (X / cw < c) by (apply Z.div_lt_upper_bound; lia). nia.
Qed.

Lemma cell_value_inside : forall {A} (zero : A) images ch cw c idx im y x, 0 < c ->
  nth_error images idx = Some im -> ah im <= ch -> aw im <= cw -> 0 <= y < ah im -> 0 <= x < aw im ->
  cell_value zero images ch cw c (ch * (Z.of_nat idx / c) + y) (cw * (Z.of_nat idx mod c) + x) = apx im y x.
Proof.
  intros A zero images ch cw c idx im y x Hc E H1 H2 Hy Hx. unfold cell_value.
  rewrite (Z.mul_comm ch), (Z.mul_comm cw). rewrite !Z.div_add_l, (Z.div_small y), (Z.div_small x) by lia. rewrite !Z.add_0_r.
  replace (Z.of_nat idx / c * c + Z.of_nat idx mod c) with (Z.of_nat idx) by (pose proof (Z.div_mod (Z.of_nat idx) c); lia).
  rewrite Nat2Z.id, E.
  rewrite (Z.add_comm _ y), (Z.add_comm _ x), !Z.mod_add, (Z.mod_small y), (Z.mod_small x) by lia.
  replace ((y <? ah im) && (x <? aw im)) with true by lia. reflexivity.
Qed.

Lemma cell_value_outside : forall {A} (zero : A) images ch cw c Y X, 0 < c -> 0 < ch -> 0 < cw -> 0 <= Y -> 0 <= X < cw * c ->
  (forall idx im y x, nth_error images idx = Some im -> 0 <= y < ah im -> 0 <= x < aw im ->
     ~ (Y = ch * (Z.of_nat idx / c) + y /\ X = cw * (Z.of_nat idx mod c) + x)) ->
  cell_value zero images ch cw c Y X = zero.
Proof.
  intros A zero images ch cw c Y X Hc Hch Hcw HY HX Hno. unfold cell_value.
  destruct (nth_error images (Z.to_nat (Y / ch * c + X / cw))) as [im|] eqn:E; [|reflexivity].
  destruct ((Y mod ch <? ah im) && (X mod cw <? aw im)) eqn:EM; [|reflexivity]. exfalso.
  assert (0 <= Y / ch) by (apply Z.div_pos; lia). assert (0 <= X / cw < c) by (split; [apply Z.div_pos; lia|apply Z.div_lt_upper_bound; lia]).
  pose proof (Z.mod_pos_bound Y ch Hch). pose proof (Z.mod_pos_bound X cw Hcw).
  apply (Hno _ _ (Y mod ch) (X mod cw) E); [lia|lia|].
  rewrite Z2Nat.id by nia. rewrite Z.div_add_l, (Z.div_small (X / cw)) by lia.
  rewrite (Z.add_comm (Y / ch * c)), Z.mod_add, (Z.mod_small (X / cw)) by lia. pose proof (Z.div_mod Y ch). pose proof (Z.div_mod X cw). lia.
Qed.

(* ------------------------------------------------------------------ *)
(** ** flatten and lines *)

Scheme yields_mut := Minimality for yields Sort Prop
with yields_all_mut := Minimality for yields_all Sort Prop.

Lemma flatten_node : forall {V} tup (ts : list (nested V)), flatten (Node tup ts) = flat_map flatten ts.
Proof. intros V tup ts. cbn. induction ts as [|[v|tp us] ts IH]; cbn; [reflexivity| |]; now rewrite <- IH. Qed.

Fixpoint flatten_yields {V} (t : nested V) : yields t (flatten t).
Proof.
  destruct t as [v|tup ts].
  - constructor.
  - rewrite flatten_node. constructor. induction ts as [|t ts IH]; cbn [flat_map]; constructor; [apply flatten_yields|exact IH].
Qed.

Lemma yields_flatten : forall {V} (t : nested V) l, yields t l <-> l = flatten t.
Proof.
  intros V t l. split; [|intros ->; apply flatten_yields].
  intros H. apply (yields_mut V (fun t l => l = flatten t) (fun ts l => l = flat_map flatten ts)) in H; auto.
  - intros tup ts ls _ ->. symmetry. apply flatten_node.
  - intros t0 ts l0 ls _ -> _ ->. reflexivity.
Qed.

Lemma line_intersection_spec : forall x1 y1 x2 y2 x3 y3 x4 y4,
  match line_intersection x1 y1 x2 y2 x3 y3 x4 y4 with
  | Some p => on_line p (x1, y1) (x2, y2) /\ on_line p (x3, y3) (x4, y4)
  | None => ((x2 - x1) * (y4 - y3) == (y2 - y1) * (x4 - x3))%Q
  end.
Proof.
  intros. unfold line_intersection, make_line. cbn [fst snd].
  set (D := ((y1 - y2) * (x4 - x3) - (x2 - x1) * (y3 - y4))%Q).
  destruct (qeqb D 0) eqn:E; cbn [negb].
  - apply qeqb_iff in E. unfold D in E. lra.
  - assert (HD : ~ (D == 0)%Q) by (intros H; apply qeqb_iff in H; congruence).
    unfold on_line. cbn [fst snd].
    split.
    + apply (Qmult_inj_l _ _ D HD).
      transitivity ((x2 - x1) * (D * (((y1 - y2) * - (x3 * y4 - x4 * y3) - - (x1 * y2 - x2 * y1) * (y3 - y4)) / D) - D * y1))%Q; [ring|].
      rewrite Qmult_div_r by exact HD.
      transitivity ((y2 - y1) * (D * ((- (x1 * y2 - x2 * y1) * (x4 - x3) - (x2 - x1) * - (x3 * y4 - x4 * y3)) / D) - D * x1))%Q; [|ring].
      rewrite Qmult_div_r by exact HD. unfold D. ring.
    + apply (Qmult_inj_l _ _ D HD).
      transitivity ((x4 - x3) * (D * (((y1 - y2) * - (x3 * y4 - x4 * y3) - - (x1 * y2 - x2 * y1) * (y3 - y4)) / D) - D * y3))%Q; [ring|].
      rewrite Qmult_div_r by exact HD.
      transitivity ((y4 - y3) * (D * ((- (x1 * y2 - x2 * y1) * (x4 - x3) - (x2 - x1) * - (x3 * y4 - x4 * y3)) / D) - D * x3))%Q; [|ring].
      rewrite Qmult_div_r by exact HD. unfold D. ring.
Qed.

Lemma line_intersection_none : forall x1 y1 x2 y2 x3 y3 x4 y4,
  line_intersection x1 y1 x2 y2 x3 y3 x4 y4 = None <-> ((x2 - x1) * (y4 - y3) == (y2 - y1) * (x4 - x3))%Q.
Proof.
  intros. split.
  - intros H. pose proof (line_intersection_spec x1 y1 x2 y2 x3 y3 x4 y4) as HS. now rewrite H in HS.
  - intros H. unfold line_intersection, make_line. cbn [fst snd].
    replace (qeqb ((y1 - y2) * (x4 - x3) - (x2 - x1) * (y3 - y4)) 0) with true; [reflexivity|].
    symmetry. apply qeqb_iff. lra.
Qed.

Lemma line_intersection_unique : forall x1 y1 x2 y2 x3 y3 x4 y4 p q,
  line_intersection x1 y1 x2 y2 x3 y3 x4 y4 = Some p ->
  on_line q (x1, y1) (x2, y2) -> on_line q (x3, y3) (x4, y4) -> (fst q == fst p /\ snd q == snd p)%Q.
Proof.
  intros x1 y1 x2 y2 x3 y3 x4 y4 p q E H1 H2.
  assert (HN : ~ ((x2 - x1) * (y4 - y3) == (y2 - y1) * (x4 - x3))%Q).
  { intros H. apply line_intersection_none in H. congruence. }
  pose proof (line_intersection_spec x1 y1 x2 y2 x3 y3 x4 y4) as HS. rewrite E in HS. destruct HS as [P1 P2].
  unfold on_line in *. cbn [fst snd] in *. destruct p as [px py], q as [qx qy]. cbn [fst snd] in *.
  set (dx := (qx - px)%Q). set (dy := (qy - py)%Q).
  assert (A1 : ((x2 - x1) * dy == (y2 - y1) * dx)%Q) by (unfold dx, dy; lra).
  assert (A2 : ((x4 - x3) * dy == (y4 - y3) * dx)%Q) by (unfold dx, dy; lra).
  set (D := ((x2 - x1) * (y4 - y3) - (y2 - y1) * (x4 - x3))%Q).
  assert (HD : ~ (D == 0)%Q) by (unfold D; intros H; apply HN; lra).
  assert (B1 : (D * dx == 0)%Q).
  { unfold D. transitivity ((x2 - x1) * ((y4 - y3) * dx) - (x4 - x3) * ((y2 - y1) * dx))%Q; [ring|]. rewrite <- A1, <- A2. ring. }
  assert (B2 : (D * dy == 0)%Q).
  { unfold D. transitivity ((y4 - y3) * ((x2 - x1) * dy) - (y2 - y1) * ((x4 - x3) * dy))%Q; [ring|]. rewrite A1, A2. ring. }
  apply Qmult_integral in B1. apply Qmult_integral in B2.
  destruct B1 as [B1|B1]; [contradiction|]. destruct B2 as [B2|B2]; [contradiction|].
  unfold dx in B1. unfold dy in B2. split; lra.
Qed.

(** Composed statements. *)
Lemma draw_grid_spec : forall {A} (zero : A) images rows cols, images <> [] ->
  Forall (fun im => 0 < ah im /\ 0 < aw im) images -> given_positive rows -> given_positive cols ->
  exists g r c ch cw, draw_grid zero images rows cols = Ok g /\
    Z.of_nat (length images) <= r * c /\
    Forall (fun im => ah im <= ch /\ aw im <= cw) images /\ In ch (map ah images) /\ In cw (map aw images) /\
    ah g = ch * r /\ aw g = cw * c /\
    (forall idx im y x, nth_error images idx = Some im -> 0 <= y < ah im -> 0 <= x < aw im ->
       let Y := ch * (Z.of_nat idx / c) + y in let X := cw * (Z.of_nat idx mod c) + x in
       0 <= Y < ah g /\ 0 <= X < aw g /\ apx g Y X = apx im y x) /\
    (forall Y X, 0 <= Y < ah g -> 0 <= X < aw g ->
       (forall idx im y x, nth_error images idx = Some im -> 0 <= y < ah im -> 0 <= x < aw im ->
          ~ (Y = ch * (Z.of_nat idx / c) + y /\ X = cw * (Z.of_nat idx mod c) + x)) ->
       apx g Y X = zero).
Proof.
  intros A zero images rows cols Hne Hpos Hr Hcl.
  destruct (draw_grid_ok zero images rows cols Hne Hpos Hr Hcl) as (g & r & c & ch & cw & E & _ & Hrc & Pc & Pr & Hmax & I1 & I2 & G1 & G2 & G3).
  exists g, r, c, ch, cw. split; [exact E|]. split; [exact Hrc|]. split; [exact Hmax|]. split; [exact I1|]. split; [exact I2|].
  split; [exact G1|]. split; [exact G2|]. split.
  - intros idx im y x Ei Hy Hx. cbn zeta. rewrite Forall_forall in Hmax. pose proof (Hmax im (nth_error_In _ _ Ei)) as [M1 M2].
    assert (Hidx : (idx < length images)%nat) by (apply nth_error_Some; congruence).
    assert (0 <= Z.of_nat idx / c < r) by (split; [apply Z.div_pos; lia|apply Z.div_lt_upper_bound; lia]).
    pose proof (Z.mod_pos_bound (Z.of_nat idx) c Pc).
    assert (B1 : 0 <= ch * (Z.of_nat idx / c) + y < ah g) by (rewrite G1; nia).
    assert (B2 : 0 <= cw * (Z.of_nat idx mod c) + x < aw g) by (rewrite G2; nia).
    split; [exact B1|]. split; [exact B2|]. rewrite G3 by assumption. apply cell_value_inside; auto.
  - intros Y X HY HX Hno. rewrite G3 by assumption.
    assert (0 < ch /\ 0 < cw).
    { destruct images as [|im ims]; [congruence|]. inversion Hpos as [|? ? H1 _]. inversion Hmax as [|? ? H2 _]. lia. }
    apply cell_value_outside; auto; try lia. 
Qed.

Lemma draw_grid_shape : forall {A} (zero : A) images rows cols g, images <> [] ->
  Forall (fun im => 0 < ah im /\ 0 < aw im) images -> given_positive rows -> given_positive cols ->
  draw_grid zero images rows cols = Ok g ->
  exists r c ch cw, ah g = ch * r /\ aw g = cw * c /\ In ch (map ah images) /\ In cw (map aw images) /\
    Forall (fun im => ah im <= ch /\ aw im <= cw) images /\
    (forall v, rows = Some v -> r = v /\ rounded_up (Z.of_nat (length images)) r c) /\
    (rows = None -> forall v, cols = Some v -> c = v /\ rounded_up (Z.of_nat (length images)) c r) /\
    (rows = None -> cols = None -> r = c /\ (r - 1) * (r - 1) < Z.of_nat (length images) <= r * r).
Proof.
  intros A zero images rows cols g Hne Hpos Hr Hcl E.
  destruct (draw_grid_ok zero images rows cols Hne Hpos Hr Hcl) as (g' & r & c & ch & cw & E' & Eg & Hrc & Pc & Pr & Hmax & I1 & I2 & G1 & G2 & _).
  assert (g' = g) by congruence. subst g'.
  assert (Hn : 0 < Z.of_nat (length images)) by (destruct images; [congruence|cbn; lia]).
  destruct (grid_size_ok _ rows cols Hn Hr Hcl) as (r' & c' & Eg' & _ & _ & _ & K1 & K2 & K3).
  rewrite Eg in Eg'. injection Eg' as <- <-.
  exists r, c, ch, cw. split; [exact G1|]. split; [exact G2|]. split; [exact I1|]. split; [exact I2|]. split; [exact Hmax|].
  split; [exact K1|]. split; [exact K2|]. intros Hr0 Hc0. destruct (K3 Hr0 Hc0) as [-> K]. split; [reflexivity|]. lia.
Qed.

Lemma max_pool_edge : forall uint8 lo hi nc kh kw cval (a : arr Z),
  0 < kh -> 0 < kw -> 0 < ah a -> 0 < aw a ->
  exists r top lft, max_pool uint8 lo hi nc kh kw PMEdge cval a = Ok r /\
    rounded_up (ah a) kh (ah r) /\ rounded_up (aw a) kw (aw r) /\
    top = (ah r * kh - ah a) / 2 /\ lft = (aw r * kw - aw a) / 2 /\
    forall i j, 0 <= i < ah r -> 0 <= j < aw r ->
      extremum Z.le (fun y x => 0 <= y < ah a /\ 0 <= x < aw a /\ in_block kh kw i j (y + top) (x + lft)) (apx a) (apx r i j).
Proof. intros. apply dispatch_edge; auto. left. auto. Qed.

Lemma min_pool_edge : forall uint8 lo hi nc kh kw cval (a : arr Z),
  0 < kh -> 0 < kw -> 0 < ah a -> 0 < aw a ->
  exists r top lft, min_pool uint8 lo hi nc kh kw PMEdge cval a = Ok r /\
    rounded_up (ah a) kh (ah r) /\ rounded_up (aw a) kw (aw r) /\
    top = (ah r * kh - ah a) / 2 /\ lft = (aw r * kw - aw a) / 2 /\
    forall i j, 0 <= i < ah r -> 0 <= j < aw r ->
      extremum Z.ge (fun y x => 0 <= y < ah a /\ 0 <= x < aw a /\ in_block kh kw i j (y + top) (x + lft)) (apx a) (apx r i j).
Proof. intros. apply dispatch_edge; auto. right. auto. Qed.

(** The padded image: the image in the middle (the larger half of the padding
    at the bottom and right), filled up according to the mode (C14). *)
Lemma any_mode : forall uint8 lo hi nc op le kh kw mode cval (a : arr Z),
  (op = Z.max /\ le = Z.le) \/ (op = Z.min /\ le = Z.ge) ->
  0 < kh -> 0 < kw -> 0 < ah a -> 0 < aw a ->
  exists r top rgt bottom lft, pool_dispatch uint8 lo hi nc op kh kw mode cval a = Ok r /\
    rounded_up (ah a) kh (ah r) /\ rounded_up (aw a) kw (aw r) /\
    0 <= top /\ top <= bottom <= top + 1 /\ 0 <= lft /\ lft <= rgt <= lft + 1 /\
    top + ah a + bottom = ah r * kh /\ lft + aw a + rgt = aw r * kw /\
    forall i j, 0 <= i < ah r -> 0 <= j < aw r ->
      extremum le (in_block kh kw i j)
        (apx (copy_make_border a (mkTrbl top rgt bottom lft) mode
                (if uint8 then Z.max (Z.min cval 255) 0 else Z.max (Z.min cval hi) lo))) (apx r i j).
Proof.
  intros uint8 lo hi nc op le kh kw mode cval a Hp Hkh Hkw Hh Hw.
  destruct (dispatch_blocks uint8 lo hi nc op le kh kw mode cval a Hp Hkh Hkw Hh Hw) as (r & E & Hm & Hn & HB).
  destruct (neg_mod (ah a) kh Hkh) as (m & Em & Hm'). destruct (neg_mod (aw a) kw Hkw) as (n & En & Hn').
  assert (m = ah r) by (unfold rounded_up in *; nia). assert (n = aw r) by (unfold rounded_up in *; nia). subst m n.
  pose proof (Z.mod_pos_bound (- ah a) kh Hkh). pose proof (Z.mod_pos_bound (- aw a) kw Hkw).
  set (ph := (- ah a) mod kh) in *. set (pw := (- aw a) mod kw) in *.
  exists r, (ph / 2), (pw - pw / 2), (ph - ph / 2), (pw / 2).
  pose proof (Z.div_mod ph 2). pose proof (Z.mod_pos_bound ph 2). pose proof (Z.div_mod pw 2). pose proof (Z.mod_pos_bound pw 2).
  do 3 (split; [assumption|]). do 6 (split; [lia|]). exact HB.
Qed.
