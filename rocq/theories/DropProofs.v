(** Proofs about dropping areas, components and channels. *)
From Coq Require Import Permutation Lia Lqa.
From Verif Require Import Prelude PreludeFacts InvProofs AriModel AriProofs DropModel DropSpec.

(** ** Cutout *)

Lemma py_int_bounds q :
  ((0 <= q)%Q -> (inject_Z (py_int q) <= q /\ q < inject_Z (py_int q + 1))%Q) /\
  ((q < 0)%Q -> (py_int q <= 0)).
Proof.
  unfold py_int. split; intros H.
  - destruct (qleb 0 q) eqn:E; [|exfalso; apply Bool.not_true_iff_false in E; apply E, qleb_iff; exact H].
    split; [apply Qfloor_le|apply Qlt_floor].
  - destruct (qleb 0 q) eqn:E; [apply qleb_iff in E; exfalso; lra|].
    assert (Qceiling q <= Qceiling 0)%Z as L by (apply Qceiling_resp_le; lra).
    replace (Qceiling 0) with 0%Z in L by reflexivity. exact L.
Qed.

(** The pixels at or after the truncated coordinate. *)
Lemma ge_trunc q x : 0 <= x -> (py_int q <= x <-> (q < inject_Z (x + 1))%Q).
Proof.
  intros X. destruct (py_int_bounds q) as [P N]. destruct (Qlt_le_dec q 0) as [L|L].
  - specialize (N L). assert (0 <= inject_Z (x + 1))%Q by (change 0%Q with (inject_Z 0); rewrite <- Zle_Qle; lia).
    split; intros; [lra|lia].
  - destruct (P L) as [A B]. split; intros H.
    + assert (inject_Z (py_int q + 1) <= inject_Z (x + 1))%Q by (rewrite <- Zle_Qle; lia). lra.
    + assert (inject_Z (py_int q) < inject_Z (x + 1))%Q as C by lra. rewrite <- Zlt_Qlt in C. lia.
Qed.
Lemma lt_trunc q x : 0 <= x -> (x < py_int q <-> (inject_Z (x + 1) <= q)%Q).
Proof. intros X. pose proof (ge_trunc q x X) as G. split; intros H.
  - apply Qnot_lt_le. intros L. apply G in L. lia.
  - destruct (Z_lt_le_dec x (py_int q)) as [A|A]; [exact A|]. apply G in A. lra.
Qed.

Section Cutout.
Variable cast : Q -> Z.

Definition boxed (im : arr pixel) (x1 y1 x2 y2 : Q) (y x : Z) : bool :=
  (Z.min (Z.max (py_int y1) 0) (ah im) <=? y) && (y <? Z.min (Z.max (py_int y2) 0) (ah im)) &&
  (Z.min (Z.max (py_int x1) 0) (aw im) <=? x) && (x <? Z.min (Z.max (py_int x2) 0) (aw im)).

Lemma boxed_iff (im : arr pixel) x1 y1 x2 y2 y x :
  in_image im y x -> (boxed im x1 y1 x2 y2 y x = true <-> inside x1 y1 x2 y2 y x).
Proof.
  intros [Y X]. unfold boxed, inside. rewrite !andb_true_iff, !Z.leb_le, !Z.ltb_lt.
  pose proof (ge_trunc x1 x ltac:(lia)). pose proof (lt_trunc x2 x ltac:(lia)).
  pose proof (ge_trunc y1 y ltac:(lia)). pose proof (lt_trunc y2 y ltac:(lia)).
  split.
  - intros [[[A B] C] D]. repeat split; [apply H|apply H0|apply H1|apply H2]; lia.
  - intros [A [B [C D]]]. apply H in A. apply H0 in B. apply H1 in C. apply H2 in D. lia.
Qed.

(** Everything about one call: either no pixel is inside, or the rectangle is. *)
Lemma no_rect (im : arr pixel) x1 y1 x2 y2 :
  (Z.min (Z.max (py_int x1) 0) (aw im) <? Z.min (Z.max (py_int x2) 0) (aw im)) &&
  (Z.min (Z.max (py_int y1) 0) (ah im) <? Z.min (Z.max (py_int y2) 0) (ah im)) = false ->
  forall y x, in_image im y x -> ~ inside x1 y1 x2 y2 y x.
Proof.
  intros E y x I H. apply (boxed_iff im) in H; [|exact I]. unfold boxed in H.
  rewrite !andb_true_iff, !Z.leb_le, !Z.ltb_lt in H. apply andb_false_iff in E. rewrite !Z.ltb_ge in E. lia.
Qed.
Lemma some_rect (im : arr pixel) x1 y1 x2 y2 :
  wf_arr im ->
  (Z.min (Z.max (py_int x1) 0) (aw im) <? Z.min (Z.max (py_int x2) 0) (aw im)) &&
  (Z.min (Z.max (py_int y1) 0) (ah im) <? Z.min (Z.max (py_int y2) 0) (ah im)) = true ->
  exists y x, in_image im y x /\ inside x1 y1 x2 y2 y x.
Proof.
  intros [W1 W2] E. rewrite andb_true_iff, !Z.ltb_lt in E.
  exists (Z.min (Z.max (py_int y1) 0) (ah im)), (Z.min (Z.max (py_int x1) 0) (aw im)).
  assert (in_image im (Z.min (Z.max (py_int y1) 0) (ah im)) (Z.min (Z.max (py_int x1) 0) (aw im))) as I.
  { unfold in_image. lia. }
  split; [exact I|]. apply (boxed_iff im _ _ _ _ _ _ I). unfold boxed.
  rewrite !andb_true_iff, !Z.leb_le, !Z.ltb_lt. lia.
Qed.

Lemma cutout_outside td nc lo hi im x1 y1 x2 y2 f out :
  cutout cast td nc lo hi im x1 y1 x2 y2 f = Ok out ->
  ah out = ah im /\ aw out = aw im /\
  forall y x, in_image im y x -> ~ inside x1 y1 x2 y2 y x -> apx out y x = apx im y x.
Proof.
  unfold cutout. cbv zeta. destruct ((_ <? _) && (_ <? _)) eqn:E.
  2: { injection 1 as <-. auto. }
  assert (forall g, out = set_rect im (Z.min (Z.max (py_int x1) 0) (aw im)) (Z.min (Z.max (py_int y1) 0) (ah im))
              (Z.min (Z.max (py_int x2) 0) (aw im)) (Z.min (Z.max (py_int y2) 0) (ah im)) g ->
            ah out = ah im /\ aw out = aw im /\
            forall y x, in_image im y x -> ~ inside x1 y1 x2 y2 y x -> apx out y x = apx im y x) as T.
  { intros g ->. split; [reflexivity|]. split; [reflexivity|]. intros y x I N. cbn.
    change (_ && _ && _ && _) with (boxed im x1 y1 x2 y2 y x).
    destruct (boxed im x1 y1 x2 y2 y x) eqn:B; [|reflexivity]. apply boxed_iff in B; [|exact I]. contradiction. }
  destruct (f_mode f).
  - unfold fill_constant. destruct (constant_value _ _ _ _); cbn; [|discriminate].
    destruct (assigned _ _ _); cbn; [|discriminate]. injection 1 as <-. eapply T. reflexivity.
  - injection 1 as <-. eapply T. reflexivity.
  - discriminate.
Qed.

Lemma nth_tile mul qs c : qs <> [] -> (c < mul * length qs)%nat -> nth c (tile mul qs) 0%Q = nth (c mod length qs)%nat qs 0%Q.
Proof.
  intros NE. assert (length qs <> 0%nat) as L by (destruct qs; [contradiction|discriminate]).
  unfold tile. revert c. induction mul; intros c H; [lia|]. cbn.
  destruct (Nat.lt_ge_cases c (length qs)) as [A|A].
  - rewrite app_nth1 by exact A. rewrite Nat.mod_small by exact A. reflexivity.
  - rewrite app_nth2 by exact A. rewrite IHmul by lia.
    replace c with ((c - length qs) + 1 * length qs)%nat at 2 by lia.
    rewrite Nat.mod_add by exact L. reflexivity.
Qed.
Lemma tile_length mul qs : length (tile mul qs) = (mul * length qs)%nat.
Proof. unfold tile. induction mul; cbn; [reflexivity|]. rewrite app_length, IHmul. reflexivity. Qed.
Lemma nth_firstn' {A} (l : list A) n i d : (i < n)%nat -> nth i (firstn n l) d = nth i l d.
Proof.
  revert n i. induction l; intros n i H; [rewrite firstn_nil; reflexivity|].
  destruct n; [lia|]. destruct i; cbn; [reflexivity|]. apply IHl. lia.
Qed.
Lemma nth_repeat' {A} (a d : A) n i : (i < n)%nat -> nth i (repeat a n) d = a.
Proof. revert i. induction n; intros i H; [lia|]. destruct i; cbn; [reflexivity|]. apply IHn. lia. Qed.

Lemma assigned_many nc qs : length qs = nc ->
  exists p, assigned cast nc (Many qs) = Ok p /\ length p = nc /\
    forall c, (c < nc)%nat -> nth c p 0 = cast (nth c qs 0%Q).
Proof.
  intros L. assert (forall c, (c < nc)%nat -> nth c (map cast qs) 0 = cast (nth c qs 0%Q)) as M.
  { intros c Hc. apply nth_map'. lia. }
  destruct qs as [|q [|q2 qs]].
  - cbn in L. subst nc. exists []. cbn. repeat split. intros; lia.
  - cbn in L. subst nc. exists [cast q]. cbn. repeat split. intros c Hc. destruct c; [reflexivity|lia].
  - exists (map cast (q :: q2 :: qs)). cbn [assigned]. rewrite L, Nat.eqb_refl.
    split; [reflexivity|]. split; [rewrite map_length; exact L|exact M].
Qed.
Lemma constant_ok td nc v pc : some_value v -> (td = true -> nc = 1%nat) ->
  exists p, bind (constant_value td nc v pc) (assigned cast nc) = Ok p /\ length p = nc /\
    forall c, (c < nc)%nat -> nth c p 0 = cast (meant_for v pc c).
Proof.
  intros S TD.
  assert (forall q, exists p, assigned cast nc (One q) = Ok p /\ length p = nc /\
            forall c, (c < nc)%nat -> nth c p 0 = cast q) as ONE.
  { intros q. exists (repeat (cast q) nc). split; [reflexivity|]. split; [apply repeat_length|].
    intros c Hc. apply nth_repeat'. exact Hc. }
  destruct v as [q|qs]; cbn [constant_value meant_for].
  - apply ONE.
  - assert (qs <> []) as NE by (intros ->; apply S; reflexivity).
    assert (length qs <> 0%nat) as LN by (destruct qs; [contradiction|discriminate]).
    destruct pc.
    + destruct td.
      * destruct qs as [|q qs]; [contradiction|]. cbn [first bind]. destruct (ONE q) as [p [P [L H]]].
        exists p. split; [exact P|]. split; [exact L|]. intros c Hc. rewrite (H c Hc).
        rewrite (TD eq_refl) in Hc. assert (c = 0%nat) as -> by lia. rewrite Nat.mod_0_l by exact LN. reflexivity.
      * destruct (Nat.ltb_spec (length qs) nc) as [A|A].
        -- set (mul := Nat.div (nc + length qs - 1) (length qs)).
           assert (nc <= mul * length qs)%nat as M.
           { unfold mul. pose proof (Nat.div_mod (nc + length qs - 1) (length qs) LN) as D.
             pose proof (Nat.mod_upper_bound (nc + length qs - 1) (length qs) LN). nia. }
           assert (length (firstn nc (tile mul qs)) = nc) as FL.
           { rewrite firstn_length, tile_length. lia. }
           destruct (assigned_many nc _ FL) as [p [P [L H]]].
           exists p. split; [|split; [exact L|]].
           ++ destruct qs; [contradiction|]. exact P.
           ++ intros c Hc. rewrite (H c Hc), nth_firstn' by exact Hc. rewrite nth_tile by (assumption || lia). reflexivity.
        -- assert (length (firstn nc qs) = nc) as FL by (rewrite firstn_length; lia).
           destruct (assigned_many nc _ FL) as [p [P [L H]]].
           exists p. split; [exact P|]. split; [exact L|]. intros c Hc.
           rewrite (H c Hc), nth_firstn' by exact Hc. rewrite Nat.mod_small by lia. reflexivity.
    + destruct qs as [|q qs]; [contradiction|]. apply ONE.
Qed.

Lemma cutout_constant td nc lo hi im x1 y1 x2 y2 f :
  f_mode f = Constant -> some_value (f_value f) -> (td = true -> nc = 1%nat) ->
  exists out, cutout cast td nc lo hi im x1 y1 x2 y2 f = Ok out /\
    forall y x, in_image im y x -> inside x1 y1 x2 y2 y x ->
      length (apx out y x) = nc /\
      forall c, (c < nc)%nat -> nth c (apx out y x) 0 = cast (meant_for (f_value f) (given_per_channel f) c).
Proof.
  intros M S TD. unfold cutout. cbv zeta. destruct ((_ <? _) && (_ <? _)) eqn:E.
  - rewrite M. destruct (constant_ok td nc (f_value f) (given_per_channel f) S TD) as [p [P [L H]]].
    unfold fill_constant. change (qleb (1 # 2) (f_per_channel f)) with (given_per_channel f).
    destruct (constant_value _ _ _ _) as [v'|]; [|discriminate P]. cbn [bind] in P |- *. rewrite P. cbn [bind].
    eexists. split; [reflexivity|]. intros y x I IN. cbn.
    change (_ && _ && _ && _) with (boxed im x1 y1 x2 y2 y x).
    apply (boxed_iff im) in IN; [|exact I]. rewrite IN. split; [exact L|exact H].
  - exists im. split; [reflexivity|]. intros y x I IN. exfalso. exact (no_rect im x1 y1 x2 y2 E y x I IN).
Qed.

Lemma cutout_gaussian td nc lo hi im x1 y1 x2 y2 f :
  f_mode f = Gaussian -> (lo <= hi)%Q ->
  exists out, cutout cast td nc lo hi im x1 y1 x2 y2 f = Ok out /\
    forall y x, in_image im y x -> inside x1 y1 x2 y2 y x ->
      length (apx out y x) = nc /\
      (forall c, (c < nc)%nat -> exists q, (lo <= q /\ q <= hi)%Q /\ nth c (apx out y x) 0 = cast q) /\
      (given_per_channel f = false -> forall c c', (c < nc)%nat -> (c' < nc)%nat ->
         nth c (apx out y x) 0 = nth c' (apx out y x) 0).
Proof.
  intros M LH. unfold cutout. cbv zeta. destruct ((_ <? _) && (_ <? _)) eqn:E.
  - rewrite M. eexists. split; [reflexivity|]. intros y x I IN. cbn.
    change (_ && _ && _ && _) with (boxed im x1 y1 x2 y2 y x).
    apply (boxed_iff im) in IN; [|exact I]. rewrite IN.
    change (qleb (1 # 2) (f_per_channel f)) with (given_per_channel f).
    set (g := fun c : nat => _).
    assert (forall c, (c < nc)%nat -> nth c (map g (seq 0 nc)) 0 = g c) as G.
    { intros c Hc. rewrite (nth_map' g _ c 0%nat) by (rewrite seq_length; exact Hc). rewrite seq_nth by exact Hc. reflexivity. }
    split; [rewrite map_length, seq_length; reflexivity|]. split.
    + intros c Hc. rewrite (G c Hc). unfold g. eexists. split; [|reflexivity].
      unfold qclip, qmin, qmax. set (n := f_noise f _ _ _). fold (qmax n lo). fold (qmin (qmax n lo) hi). qminmax; split; lra.
    + intros PC c c' Hc Hc'. rewrite (G c Hc), (G c' Hc'). unfold g. rewrite PC. reflexivity.
  - exists im. split; [reflexivity|]. intros y x I IN. exfalso. exact (no_rect im x1 y1 x2 y2 E y x I IN).
Qed.

Lemma cutout_unknown td nc lo hi im x1 y1 x2 y2 f :
  wf_arr im -> f_mode f = Unknown ->
  (cutout cast td nc lo hi im x1 y1 x2 y2 f = Err AssertionError <->
   exists y x, in_image im y x /\ inside x1 y1 x2 y2 y x).
Proof.
  intros W M. unfold cutout. cbv zeta. destruct ((_ <? _) && (_ <? _)) eqn:E.
  - rewrite M. split; [|reflexivity]. intros _. exact (some_rect im x1 y1 x2 y2 W E).
  - split; [discriminate|]. intros [y [x [I IN]]]. exfalso. exact (no_rect im x1 y1 x2 y2 E y x I IN).
Qed.

(** ** Several areas *)

Lemma corners_spec h w a :
  let '(x1, y1, x2, y2) := corners h w a in
  (y1 + y2 == 2 * (a_y a * inject_Z h))%Q /\ (y2 - y1 == a_h a * inject_Z h)%Q /\
  (x1 + x2 == 2 * (a_x a * inject_Z w))%Q /\
  (((1 # 2) <= a_squared a -> x2 - x1 == y2 - y1) /\
   (a_squared a < 1 # 2 -> x2 - x1 == a_w a * inject_Z w))%Q.
Proof.
  unfold corners. destruct (qleb (1 # 2) (a_squared a)) eqn:E.
  - apply qleb_iff in E. repeat split; intros; try (field; fail); lra.
  - assert (~ ((1 # 2) <= a_squared a))%Q as N by (intros H; apply qleb_iff in H; congruence).
    repeat split; intros; try (field; fail); contradiction.
Qed.

Lemma image_shape nc lo hi areas : forall im out,
  cutout_image cast nc lo hi im areas = Ok out -> ah out = ah im /\ aw out = aw im.
Proof.
  induction areas as [|a areas IH]; cbn; intros im out H.
  - injection H as <-. auto.
  - destruct (corners (ah im) (aw im) a) as [[[x1 y1] x2] y2].
    destruct (cutout _ _ _ _ _ _ _ _ _ _ _) as [im'|] eqn:E; [|discriminate]. cbn in H.
    apply cutout_outside in E. destruct E as [A [B _]]. apply IH in H. destruct H. split; congruence.
Qed.

Lemma image_outside nc lo hi areas : forall im out,
  cutout_image cast nc lo hi im areas = Ok out ->
  forall y x, in_image im y x -> (forall a, In a areas -> ~ in_area im a y x) -> apx out y x = apx im y x.
Proof.
  induction areas as [|a areas IH]; cbn; intros im out H y x I N.
  - injection H as <-. reflexivity.
  - destruct (corners (ah im) (aw im) a) as [[[x1 y1] x2] y2] eqn:C.
    destruct (cutout _ _ _ _ _ _ _ _ _ _ _) as [im'|] eqn:E; [|discriminate]. cbn in H.
    pose proof (cutout_outside _ _ _ _ _ _ _ _ _ _ _ E) as [A [B P]].
    rewrite (IH _ _ H y x).
    + apply P; [exact I|]. specialize (N a (or_introl eq_refl)). unfold in_area in N. rewrite C in N. exact N.
    + unfold in_image in *. rewrite A, B. exact I.
    + intros a' Ha'. specialize (N a' (or_intror Ha')). unfold in_area in *. rewrite A, B. exact N.
Qed.

Lemma image_app nc lo hi l1 : forall im l2,
  cutout_image cast nc lo hi im (l1 ++ l2)
  = bind (cutout_image cast nc lo hi im l1) (fun im' => cutout_image cast nc lo hi im' l2).
Proof.
  induction l1 as [|a l1 IH]; intros im l2; [reflexivity|]. cbn.
  destruct (corners (ah im) (aw im) a) as [[[x1 y1] x2] y2].
  destruct (cutout _ _ _ _ _ _ _ _ _ _ _) as [im'|]; cbn; [|reflexivity]. apply IH.
Qed.

(** The last area that contains a pixel decides. *)
Lemma image_last nc lo hi im l1 a l2 out y x :
  cutout_image cast nc lo hi im (l1 ++ a :: l2) = Ok out ->
  in_image im y x -> in_area im a y x -> (forall b, In b l2 -> ~ in_area im b y x) ->
  f_mode (a_fill a) = Constant -> some_value (f_value (a_fill a)) ->
  length (apx out y x) = nc /\
  forall c, (c < nc)%nat ->
    nth c (apx out y x) 0 = cast (meant_for (f_value (a_fill a)) (given_per_channel (a_fill a)) c).
Proof.
  intros H I IN N M S. rewrite image_app in H.
  destruct (cutout_image cast nc lo hi im l1) as [im1|] eqn:E1; [|discriminate]. cbn in H.
  destruct (image_shape _ _ _ _ _ _ E1) as [A B].
  destruct (corners (ah im1) (aw im1) a) as [[[x1 y1] x2] y2] eqn:C.
  destruct (cutout_constant false nc lo hi im1 x1 y1 x2 y2 (a_fill a) M S) as [im2 [E2 F]]; [discriminate|].
  rewrite E2 in H. cbn in H. pose proof (cutout_outside _ _ _ _ _ _ _ _ _ _ _ E2) as [A2 [B2 _]].
  assert (in_image im1 y x) as I1 by (unfold in_image in *; rewrite A, B; exact I).
  rewrite (image_outside _ _ _ _ _ _ H y x).
  - apply F; [exact I1|]. unfold in_area in IN. rewrite <- A, <- B, C in IN. exact IN.
  - unfold in_image in *. rewrite A2, B2. exact I1.
  - intros b Hb. specialize (N b Hb). unfold in_area in *. rewrite A2, B2, A, B. exact N.
Qed.

Lemma batch_cut lo hi images : forall ns samples pos out,
  length ns = length images ->
  cutout_batch cast lo hi images ns samples pos = Ok out ->
  exists parts,
    map (@length area) parts = map (fun p => Nat.min (fst p) (length samples - snd p))
      (combine ns (map (fun i => pos + fold_right Nat.add 0 (firstn i ns)) (seq 0 (length ns))))%nat /\
    Forall3 (fun im part r => cutout_image cast (fst im) lo hi (snd im) part = Ok r) images parts out /\
    concat parts = firstn (fold_right Nat.add 0%nat ns) (skipn pos samples).
Proof.
  induction images as [|[nc im] images IH]; intros ns samples pos out L H.
  - destruct ns; [|discriminate]. cbn in H. injection H as <-. exists []. split; [reflexivity|].
    split; [constructor|reflexivity].
  - destruct ns as [|n ns]; [discriminate|]. injection L as L. cbn in H.
    destruct (cutout_image _ _ _ _ _ _) as [r|] eqn:E; [|discriminate]. cbn in H.
    destruct (cutout_batch _ _ _ _ _ _ _) as [rs|] eqn:R; [|discriminate]. cbn in H. injection H as <-.
    destruct (IH _ _ _ _ L R) as [parts [PL [F C]]].
    exists (firstn n (skipn pos samples) :: parts). split; [|split].
    + cbn [map length seq combine]. rewrite firstn_length, skipn_length. cbn [firstn fold_right fst snd].
      rewrite Nat.add_0_r. f_equal. rewrite PL. f_equal. f_equal.
      rewrite <- seq_shift, map_map. apply map_ext. intros i. cbn [firstn fold_right]. lia.
    + constructor; [exact E|exact F].
    + cbn [concat fold_right]. rewrite C. clear. set (s := fold_right Nat.add 0%nat ns).
      revert samples. induction pos; intros samples.
      * cbn [skipn Nat.add]. revert n. induction samples; intros n.
        -- rewrite skipn_nil, !firstn_nil. reflexivity.
        -- destruct n; [reflexivity|]. cbn. f_equal. apply IHsamples.
      * destruct samples; [cbn; rewrite !firstn_nil; reflexivity|]. cbn [skipn Nat.add]. apply IHpos.
Qed.

Lemma batch_parts lo hi images ns samples out :
  length ns = length images -> length samples = fold_right Nat.add 0%nat ns ->
  cutout_batch cast lo hi images ns samples 0 = Ok out ->
  exists parts, cut samples ns parts /\
    Forall3 (fun im part r => cutout_image cast (fst im) lo hi (snd im) part = Ok r) images parts out.
Proof.
  intros L S H. destruct (batch_cut _ _ _ _ _ _ _ L H) as [parts [PL [F C]]].
  exists parts. split; [|exact F]. split.
  - rewrite C. cbn [skipn]. rewrite <- S. apply firstn_all.
  - rewrite PL. rewrite S. clear.
    assert (forall pos T, (T >= pos + fold_right Nat.add 0 ns)%nat ->
      map (fun p : nat * nat => Nat.min (fst p) (T - snd p))
       (combine ns (map (fun i => pos + fold_right Nat.add 0 (firstn i ns)) (seq 0 (length ns))))%nat = ns) as G.
    { induction ns as [|n ns IH]; intros pos T H; [reflexivity|].
      cbn [map length seq combine fst snd firstn fold_right] in *. f_equal; [lia|].
      rewrite <- seq_shift, map_map. rewrite <- (IH (pos + n)%nat T) at 3 by lia. f_equal. f_equal.
      apply map_ext. intros i. cbn [firstn fold_right]. lia. }
    apply (G 0%nat). lia.
Qed.

End Cutout.

(** ** Replacing components *)

Lemma put_length image : forall mask values, length (put image mask values) = length image.
Proof.
  induction image as [|v image IH]; intros mask values; [reflexivity|].
  destruct mask as [|[] mask]; cbn; [reflexivity| |rewrite IH; reflexivity].
  destruct values; cbn; rewrite IH; reflexivity.
Qed.

Lemma put_nth image : forall mask values i,
  length mask = length image -> length values = count_true mask -> (i < length image)%nat ->
  nth i (put image mask values) 0
  = if nth i mask false then nth (count_true (firstn i mask)) values 0 else nth i image 0.
Proof.
  unfold count_true.
  induction image as [|v image IH]; intros mask values i L C H; [cbn in H; lia|].
  destruct mask as [|[] mask]; [discriminate| |]; injection L as L; cbn in C.
  - destruct values as [|u values]; [discriminate|]. injection C as C.
    destruct i; [reflexivity|]. cbn. apply IH; [exact L|exact C|cbn in H; lia].
  - destruct i; [reflexivity|]. cbn. apply IH; [exact L|exact C|cbn in H; lia].
Qed.

Lemma filter_map_length {A B} (f : A -> B) (p : B -> bool) l :
  length (filter p (map f l)) = length (filter (fun a => p (f a)) l).
Proof. induction l as [|a l IH]; cbn; [reflexivity|]. destruct (p (f a)); cbn; rewrite IH; reflexivity. Qed.

Lemma thresh_count mask i :
  count_true (firstn i (map (fun m => qltb (1 # 2) m) mask)) = set_before mask i.
Proof. unfold count_true, set_before. rewrite firstn_map, filter_map_length. reflexivity. Qed.
Lemma thresh_count_all mask :
  count_true (map (fun m => qltb (1 # 2) m) mask) = set_before mask (length mask).
Proof. rewrite <- thresh_count, <- (map_length (fun m => qltb (1 # 2) m)), firstn_all. reflexivity. Qed.

Lemma set_before_lt mask : forall i, (i < length mask)%nat -> qltb (1 # 2) (nth i mask 0%Q) = true ->
  (set_before mask i < set_before mask (length mask))%nat.
Proof.
  unfold set_before. induction mask as [|m mask IH]; intros i H E; [cbn in H; lia|].
  destruct i; cbn in E |- *.
  - rewrite E. cbn. lia.
  - specialize (IH i ltac:(cbn in H; lia) E). destruct (qltb (1 # 2) m); cbn; lia.
Qed.

(** One mask entry per component. *)
Lemma replace_components lo hi nc image mask repl :
  length mask = length image -> length repl = set_before mask (length mask) ->
  exists out, replace_elementwise lo hi nc image false mask repl = Ok out /\
    length out = length image /\
    forall i, (i < length image)%nat ->
      nth i out 0 = if qltb (1 # 2) (nth i mask 0%Q)
                    then rounded lo hi (nth (set_before mask i) repl 0%Q) else nth i image 0.
Proof.
  intros L C. unfold replace_elementwise, assign_masked. rewrite map_length, thresh_count_all, C, Nat.eqb_refl.
  eexists. split; [reflexivity|]. split; [apply put_length|]. intros i H.
  rewrite put_nth; [|rewrite map_length; exact L|rewrite map_length, thresh_count_all; exact C|exact H].
  rewrite (nth_map' _ _ i 0%Q) by lia. destruct (qltb (1 # 2) (nth i mask 0%Q)) eqn:E; [|reflexivity].
  rewrite thresh_count. rewrite (nth_map' _ _ _ 0%Q); [reflexivity|].
  rewrite C. apply set_before_lt; [lia|exact E].
Qed.

Lemma repeat_count nc b : length (filter (fun b : bool => b) (repeat b nc)) = if b then nc else 0%nat.
Proof. induction nc; cbn; [destruct b; reflexivity|]. destruct b; cbn; [rewrite IHnc; reflexivity|exact IHnc]. Qed.
Lemma expand_count nc l : count_true (flat_map (fun b => repeat b nc) l) = (count_true l * nc)%nat.
Proof.
  unfold count_true. induction l as [|b l IH]; [reflexivity|]. cbn. rewrite filter_app, app_length, repeat_count, IH.
  destruct b; cbn; lia.
Qed.
Lemma expand_firstn nc l p c : (p < length l)%nat -> (c < nc)%nat -> nth p l false = true ->
  count_true (firstn (p * nc + c) (flat_map (fun b => repeat b nc) l)) = (count_true (firstn p l) * nc + c)%nat.
Proof.
  unfold count_true. revert p. induction l as [|b l IH]; intros p H C E; [cbn in H; lia|]. cbn [flat_map].
  destruct p.
  - cbn in E. subst b. cbn [Nat.mul Nat.add]. rewrite firstn_app, repeat_length.
    replace (c - nc)%nat with 0%nat by lia. cbn [firstn]. rewrite app_nil_r.
    replace (firstn c (repeat true nc)) with (repeat true c).
    + rewrite repeat_count. reflexivity.
    + clear - C. revert c C. induction nc; intros c C; [lia|]. destruct c; cbn; [reflexivity|]. f_equal. apply IHnc. lia.
  - cbn [firstn]. replace (S p * nc + c)%nat with (nc + (p * nc + c))%nat by lia.
    rewrite firstn_app, repeat_length. rewrite (firstn_all2 (repeat b nc)) by (rewrite repeat_length; lia).
    replace (nc + (p * nc + c) - nc)%nat with (p * nc + c)%nat by lia.
    rewrite filter_app, app_length, repeat_count. cbn in E. rewrite (IH p ltac:(cbn in H; lia) C E).
    destruct b; cbn; lia.
Qed.

Lemma expand_is_broadcast {A} nc (l : list A) : flat_map (fun b => repeat b nc) l = AriModel.broadcast nc l.
Proof. reflexivity. Qed.

Lemma div_pixel p c nc : (c < nc)%nat -> ((p * nc + c) / nc = p)%nat.
Proof. intros C. rewrite Nat.add_comm, Nat.div_add, Nat.div_small by lia. reflexivity. Qed.

(** One mask entry per pixel, samples repeated per channel. *)
Lemma replace_pixels lo hi nc image mask repl :
  nc <> 0%nat -> length image = (length mask * nc)%nat -> length repl = set_before mask (length mask) ->
  exists out, replace_elementwise lo hi nc image true mask (flat_map (fun r => repeat r nc) repl) = Ok out /\
    length out = length image /\
    forall p c, (p < length mask)%nat -> (c < nc)%nat ->
      nth (p * nc + c) out 0 = if qltb (1 # 2) (nth p mask 0%Q)
                    then rounded lo hi (nth (set_before mask p) repl 0%Q) else nth (p * nc + c) image 0.
Proof.
  intros NZ L C. unfold replace_elementwise, assign_masked.
  set (th := map (fun m => qltb (1 # 2) m) mask).
  assert (length th = length mask) as TL by apply map_length.
  rewrite map_length, expand_count. unfold th at 1. rewrite thresh_count_all.
  rewrite expand_is_broadcast, broadcast_length, C, Nat.eqb_refl.
  eexists. split; [reflexivity|]. split; [apply put_length|]. intros p c P Cc.
  assert (p * nc + c < length image)%nat as I by nia.
  rewrite put_nth.
  2: { rewrite expand_is_broadcast, broadcast_length, TL. symmetry. exact L. }
  2: { rewrite map_length, broadcast_length, expand_count, C. unfold th. rewrite thresh_count_all. reflexivity. }
  2: { exact I. }
  assert (nth (p * nc + c) (flat_map (fun b => repeat b nc) th) false = nth p th false) as NT.
  { rewrite expand_is_broadcast, broadcast_nth by (rewrite ?TL; nia). rewrite div_pixel by exact Cc. reflexivity. }
  rewrite NT. assert (nth p th false = qltb (1 # 2) (nth p mask 0%Q)) as NP by (apply nth_map'; exact P).
  rewrite NP. destruct (qltb (1 # 2) (nth p mask 0%Q)) eqn:E; [|reflexivity].
  rewrite expand_firstn by (try (rewrite TL); assumption). unfold th. rewrite thresh_count.
  pose proof (set_before_lt mask p P E) as LT. rewrite <- C in LT.
  rewrite (nth_map' _ _ _ 0%Q) by (rewrite broadcast_length; nia).
  rewrite broadcast_nth by nia. rewrite div_pixel by exact Cc. reflexivity.
Qed.

Lemma one_channel lo hi image mask repl :
  replace_elementwise lo hi 1 image true mask repl = replace_elementwise lo hi 1 image false mask repl.
Proof.
  unfold replace_elementwise. f_equal. cbn [repeat].
  set (l := map _ _). induction l as [|b l IH]; [reflexivity|]. cbn. f_equal. exact IH.
Qed.

Lemma binary_sum mask : Forall binary mask ->
  (qsum mask == inject_Z (Z.of_nat (set_before mask (length mask))))%Q.
Proof.
  unfold set_before. rewrite firstn_all. induction 1 as [|m mask B _ IH]; [reflexivity|]. cbn.
  destruct B as [B|B].
  - destruct (qltb (1 # 2) m) eqn:E; [apply qltb_iff in E; exfalso; lra|]. rewrite IH, B. ring.
  - destruct (qltb (1 # 2) m) eqn:E; [|apply qltb_false in E; exfalso; lra].
    cbn [length]. rewrite Nat2Z.inj_succ, <- Z.add_1_r, inject_Z_plus. rewrite IH, B. cbn. ring.
Qed.
Lemma binary_count mask : Forall binary mask ->
  Z.to_nat (py_int (qsum mask)) = set_before mask (length mask).
Proof.
  intros B. rewrite (InvProofs.py_int_compat _ _ (binary_sum mask B)).
  unfold py_int. destruct (qleb _ _); [rewrite Qfloor_Z|rewrite Qceiling_Z]; apply Nat2Z.id.
Qed.

Lemma image_replaced lo hi nc image pc draw_mask draw_repl :
  (forall n, length (draw_mask n) = n) -> (forall n, length (draw_repl n) = n) ->
  (forall n, Forall binary (draw_mask n)) ->
  (1 # 2 < pc)%Q ->
  let mask := draw_mask (length image) in
  exists out, replace_image lo hi nc image pc draw_mask draw_repl = Ok out /\
    length out = length image /\
    forall i, (i < length image)%nat ->
      ((nth i mask 0 == 0)%Q -> nth i out 0 = nth i image 0) /\
      ((nth i mask 0 == 1)%Q ->
        nth i out 0 = rounded lo hi (nth (set_before mask i) (draw_repl (set_before mask (length mask))) 0%Q)).
Proof.
  intros LM LR B PC mask. unfold replace_image. apply qltb_iff in PC. rewrite PC. fold mask.
  rewrite (binary_count mask (B _)).
  replace (replace_elementwise lo hi nc image (nc =? 1)%nat mask (draw_repl (set_before mask (length mask))))
    with (replace_elementwise lo hi nc image false mask (draw_repl (set_before mask (length mask)))).
  2: { destruct (Nat.eqb_spec nc 1) as [->|]; [symmetry; apply one_channel|reflexivity]. }
  destruct (replace_components lo hi nc image mask (draw_repl (set_before mask (length mask)))) as [out [E [LO H]]];
    [apply LM|apply LR|].
  exists out. split; [exact E|]. split; [exact LO|]. intros i Hi. specialize (H i Hi).
  split; intros M; destruct (qltb (1 # 2) (nth i mask 0%Q)) eqn:T; try exact H.
  - apply qltb_iff in T. exfalso. lra.
  - apply qltb_false in T. exfalso. lra.
Qed.

Lemma pixels_replaced lo hi nc np image pc draw_mask draw_repl :
  (forall n, length (draw_mask n) = n) -> (forall n, length (draw_repl n) = n) ->
  (forall n, Forall binary (draw_mask n)) ->
  nc <> 0%nat -> length image = (np * nc)%nat -> (pc <= 1 # 2)%Q ->
  let mask := draw_mask np in
  exists out, replace_image lo hi nc image pc draw_mask draw_repl = Ok out /\
    length out = length image /\
    forall p c, (p < np)%nat -> (c < nc)%nat ->
      ((nth p mask 0 == 0)%Q -> nth (p * nc + c) out 0 = nth (p * nc + c) image 0) /\
      ((nth p mask 0 == 1)%Q ->
        nth (p * nc + c) out 0
        = rounded lo hi (nth (set_before mask p) (draw_repl (set_before mask np)) 0%Q)).
Proof.
  intros LM LR B NZ L PC mask. unfold replace_image.
  destruct (qltb (1 # 2) pc) eqn:E; [apply qltb_iff in E; exfalso; lra|].
  rewrite L, Nat.div_mul by exact NZ. fold mask. rewrite (binary_count mask (B _)).
  assert (length mask = np) as ML by apply LM. rewrite ML.
  destruct (replace_pixels lo hi nc image mask (draw_repl (set_before mask np))) as [out [R [LO H]]];
    [exact NZ|rewrite ML; exact L|rewrite ML; apply LR|].
  exists out. split; [exact R|]. split; [rewrite <- L; exact LO|]. intros p c P Cc.
  rewrite ML in H. specialize (H p c P Cc).
  split; intros M; destruct (qltb (1 # 2) (nth p mask 0%Q)) eqn:T; try exact H.
  - apply qltb_iff in T. exfalso. lra.
  - apply qltb_false in T. exfalso. lra.
Qed.

(** Wrong numbers of samples. *)
Lemma wrong_number lo hi nc image mask repl :
  length repl <> set_before mask (length mask) -> length repl <> 1%nat ->
  replace_elementwise lo hi nc image false mask repl = Err ValueError.
Proof.
  intros N1 N2. unfold replace_elementwise, assign_masked. rewrite map_length, thresh_count_all.
  destruct (Nat.eqb_spec (length repl) (set_before mask (length mask))); [contradiction|].
  destruct repl as [|q [|q2 repl]]; cbn in *; [reflexivity|contradiction N2; reflexivity|reflexivity].
Qed.

(** ** Dropping channels *)

Lemma low_ids_eq nb ps : length ps = nb ->
  low_ids ps = filter (fun c => qltb (nth c ps 0%Q) (1 # 2)) (seq 0 nb).
Proof. intros <-. reflexivity. Qed.

Lemma NoDup_firstn {A} n (l : list A) : NoDup l -> NoDup (firstn n l).
Proof.
  revert n. induction l as [|a l IH]; intros n H; [rewrite firstn_nil; constructor|].
  destruct n; cbn; [constructor|]. inversion H; subst. constructor; [|apply IH; assumption].
  intros I. apply H2. rewrite <- (firstn_skipn n l). apply in_or_app. left. exact I.
Qed.
Lemma incl_firstn {A} n (l : list A) : incl (firstn n l) l.
Proof. intros a I. rewrite <- (firstn_skipn n l). apply in_or_app. left. exact I. Qed.

Lemma pick_chosen keep nb ps (shuffled : list nat -> list nat) :
  length ps = nb -> (forall l, Permutation l (shuffled l)) ->
  chosen keep nb ps (if Nat.ltb (nb - keep) (length (low_ids ps))
                     then firstn (nb - keep) (shuffled (low_ids ps)) else low_ids ps).
Proof.
  intros L SH. unfold chosen. rewrite <- (low_ids_eq nb ps L). cbv zeta.
  assert (NoDup (low_ids ps)) as ND by (apply NoDup_filter, seq_NoDup).
  pose proof (SH (low_ids ps)) as P.
  destruct (Nat.ltb_spec (nb - keep) (length (low_ids ps))) as [A|A].
  - split; [apply NoDup_firstn; exact (Permutation_NoDup P ND)|]. split.
    + intros c I. apply incl_firstn in I. exact (Permutation_in _ (Permutation_sym P) I).
    + rewrite firstn_length, <- (Permutation_length P). lia.
  - split; [exact ND|]. split; [intros c I; exact I|]. lia.
Qed.

(** Which of the images lose everything. *)
Fixpoint lost (i : nat) (nbs : list nat) (Ds : list (list nat)) : list nat :=
  match nbs, Ds with
  | nb :: nbs', D :: Ds' => if Nat.eqb (length D) nb then i :: lost (S i) nbs' Ds' else lost (S i) nbs' Ds'
  | _, _ => []
  end.

Lemma drops_chosen keep shuffle : (forall i l, Permutation l (shuffle i l)) ->
  forall nbs ps i, length ps = fold_right Nat.add 0%nat nbs ->
  exists parts Ds, cut ps nbs parts /\ Forall3 (chosen keep) nbs parts Ds /\
    draw_drops keep nbs ps shuffle i = (Ds, lost i nbs Ds).
Proof.
  intros SH. induction nbs as [|nb nbs IH]; intros ps i L.
  - destruct ps; [|discriminate]. exists [], []. split; [split; reflexivity|]. split; [constructor|reflexivity].
  - cbn in L. destruct (IH (skipn nb ps) (S i)) as [parts [Ds [[C1 C2] [F E]]]]; [rewrite skipn_length; lia|].
    assert (length (firstn nb ps) = nb) as FL by (rewrite firstn_length; lia).
    cbn [draw_drops]. rewrite E.
    set (D := if Nat.ltb _ _ then _ else _).
    exists (firstn nb ps :: parts), (D :: Ds). split; [|split].
    + split; cbn; [rewrite C1; apply firstn_skipn|rewrite C2, FL; reflexivity].
    + constructor; [|exact F]. unfold D. apply (pick_chosen keep nb (firstn nb ps) (shuffle i) FL (SH i)).
    + cbn [lost]. destruct (length D =? nb)%nat; reflexivity.
Qed.

Lemma lost_In nbs : forall Ds i j,
  length Ds = length nbs ->
  (In j (lost i nbs Ds) <-> (i <= j /\ j - i < length nbs /\ length (nth (j - i) Ds []) = nth (j - i) nbs 0)%nat).
Proof.
  induction nbs as [|nb nbs IH]; intros Ds i j L; destruct Ds as [|D Ds]; try discriminate.
  - cbn. split; [contradiction|lia].
  - injection L as L. cbn [lost]. assert (In j (lost (S i) nbs Ds) <->
      (S i <= j /\ j - S i < length nbs /\ length (nth (j - S i) Ds []) = nth (j - S i) nbs 0)%nat) as H by (apply IH; exact L).
    destruct (Nat.eq_dec j i) as [->|NE].
    + rewrite Nat.sub_diag. cbn [nth length].
      destruct (Nat.eqb_spec (length D) nb); cbn [In]; rewrite ?H; split; intros; repeat split; try lia.
    + assert (In j (if (length D =? nb)%nat then i :: lost (S i) nbs Ds else lost (S i) nbs Ds) <-> In j (lost (S i) nbs Ds)) as G.
      { destruct (length D =? nb)%nat; cbn [In]; [|reflexivity]. split; [intros [X|X]; [congruence|exact X]|auto]. }
      rewrite G, H. destruct (Nat.lt_ge_cases j i) as [A|A]; [split; lia|].
      replace (j - i)%nat with (S (j - S i))%nat by lia. cbn [nth length]. split; intros; repeat split; lia.
Qed.

Lemma existsb_eqb c l : existsb (Nat.eqb c) l = true <-> In c l.
Proof.
  rewrite existsb_exists. split.
  - intros [x [I E]]. apply Nat.eqb_eq in E. subst. exact I.
  - intros I. exists c. split; [exact I|apply Nat.eqb_refl].
Qed.

Lemma indexed_map_nth {A} (f : nat -> A -> A) (l : list A) i d : (i < length l)%nat ->
  nth i (map (fun p => f (fst p) (snd p)) (combine (seq 0 (length l)) l)) d = f i (nth i l d).
Proof.
  intros H. rewrite (nth_map' _ _ i (0%nat, d)) by (rewrite combine_length, seq_length; lia).
  rewrite combine_nth by (rewrite seq_length; reflexivity). cbn. rewrite seq_nth by exact H. reflexivity.
Qed.
Lemma clear_rows_nth {B} (clear : B -> B) rows ids i d : (i < length rows)%nat ->
  nth i (clear_rows clear rows ids) d = if existsb (Nat.eqb i) ids then clear (nth i rows d) else nth i rows d.
Proof. intros H. unfold clear_rows. exact (indexed_map_nth (fun j b => if existsb (Nat.eqb j) ids then clear b else b) rows i d H). Qed.
Lemma clear_rows_length {B} (clear : B -> B) rows ids : length (clear_rows clear rows ids) = length rows.
Proof. unfold clear_rows. rewrite map_length, combine_length, seq_length. lia. Qed.

Lemma drop_channels_zeroed {Ch} (zeroed : Ch -> Ch) image D : zeroed_at zeroed image D (drop_channels zeroed image D).
Proof.
  split; [apply (clear_rows_length zeroed)|]. intros c d H.
  change (drop_channels zeroed image D) with (clear_rows zeroed image D). rewrite clear_rows_nth by exact H.
  split; intros I.
  - apply existsb_eqb in I. rewrite I. reflexivity.
  - destruct (existsb (Nat.eqb c) D) eqn:E; [apply existsb_eqb in E; contradiction|reflexivity].
Qed.

Lemma F3_length {A B C} (P : A -> B -> C -> Prop) la lb lc : Forall3 P la lb lc -> length la = length lb /\ length la = length lc.
Proof. induction 1; cbn; lia. Qed.

Lemma F3_combine {A B C} (P : A -> B -> C -> Prop) (f : A -> B -> C) : (forall a b, P a b (f a b)) ->
  forall la lb, length la = length lb -> Forall3 P la lb (map (fun p => f (fst p) (snd p)) (combine la lb)).
Proof. intros H. induction la; intros [|b lb] L; try discriminate; cbn; constructor; auto. Qed.

Lemma shapes_of_images {Ch} (ims : list (list Ch)) :
  mapM channels_of (map (fun im => [length im]) ims) = Ok (map (@length Ch) ims).
Proof. unfold mapM. induction ims as [|im ims IH]; [reflexivity|]. cbn in *. rewrite IH. reflexivity. Qed.

Lemma dropout2d_images {Ch B} (zeroed : Ch -> Ch) (clear : B -> B) keep dropann draw shuffle ims ann :
  (forall n, length (draw n) = n) -> (forall i l, Permutation l (shuffle i l)) ->
  exists parts Ds ims',
    cut (draw (fold_right Nat.add 0%nat (map (@length Ch) ims))) (map (@length Ch) ims) parts /\
    Forall3 (chosen keep) (map (@length Ch) ims) parts Ds /\
    Forall3 (zeroed_at zeroed) ims Ds ims' /\
    dropout2d zeroed keep dropann clear draw shuffle (map (fun im => [length im]) ims) (Some ims) ann
    = Ok (Some ims',
          if dropann then option_map (fun rows => clear_rows clear rows (lost 0 (map (@length Ch) ims) Ds)) ann else ann).
Proof.
  intros DL SH. unfold dropout2d. rewrite shapes_of_images. cbn [bind].
  destruct (drops_chosen keep shuffle SH (map (@length Ch) ims) _ 0%nat (DL _)) as [parts [Ds [C [F E]]]].
  rewrite E. exists parts, Ds. eexists. split; [exact C|]. split; [exact F|]. split; [|reflexivity].
  apply F3_combine; [apply drop_channels_zeroed|]. apply F3_length in F. rewrite map_length in F. lia.
Qed.

Lemma cleared_rows {B} (clear : B -> B) rows nbs Ds i d :
  length nbs = length rows -> length Ds = length rows -> (i < length rows)%nat ->
  row_cleared clear (nth i rows d) (nth i (clear_rows clear rows (lost 0 nbs Ds)) d)
    (length (nth i Ds []) = nth i nbs 0%nat).
Proof.
  intros L1 L2 H. rewrite clear_rows_nth by exact H.
  pose proof (lost_In nbs Ds 0 i ltac:(congruence)) as LI. rewrite Nat.sub_0_r in LI.
  split; intros A.
  - assert (In i (lost 0 nbs Ds)) as I by (apply LI; repeat split; [lia|lia|exact A]).
    apply existsb_eqb in I. rewrite I. reflexivity.
  - destruct (existsb (Nat.eqb i) (lost 0 nbs Ds)) eqn:E; [|reflexivity].
    apply existsb_eqb, LI in E. destruct E as [_ [_ E]]. contradiction.
Qed.

Lemma low_ids_In ps i : In i (low_ids ps) <-> ((i < length ps)%nat /\ (nth i ps 0 < 1 # 2)%Q).
Proof. unfold low_ids. rewrite filter_In, in_seq, qltb_iff. split; intros [A B]; split; (lia || exact B). Qed.

Lemma total_rows {B} (clear : B -> B) rows ps i d : length ps = length rows -> (i < length rows)%nat ->
  row_cleared clear (nth i rows d) (nth i (clear_rows clear rows (low_ids ps)) d) (nth i ps 0 < 1 # 2)%Q.
Proof.
  intros L H. rewrite clear_rows_nth by exact H. pose proof (low_ids_In ps i) as LI. split; intros A.
  - assert (In i (low_ids ps)) as I by (apply LI; split; [lia|exact A]). apply existsb_eqb in I. rewrite I. reflexivity.
  - destruct (existsb (Nat.eqb i) (low_ids ps)) eqn:E; [|reflexivity].
    apply existsb_eqb, LI in E. destruct E as [_ E]. contradiction.
Qed.

(** With [keep] >= 1 no image that has channels loses all of them. *)
Lemma keeps keep nb ps D : chosen keep nb ps D -> (length D <= nb - keep)%nat.
Proof. unfold chosen. cbv zeta. intros [_ [_ L]]. lia. Qed.
