(** C115-C117: convolutions, sharpening and edges, blurs. *)
From Coq Require Import Reals Qreals Lia Lqa.
From Verif Require Import Prelude PreludeFacts UtilModel ConvModel ConvSpec ConvProofs.
Local Open Scope Z_scope.

(** A 2x2 image of one channel. *)
Definition ex_img (k : kind) : img := mkImg k 2 2 [fun y x => inject_Z (100 * y + 50 * x)].
Example ex_img_proper : proper_image (ex_img (KUint 8)) /\ supported (KUint 8) = true /\ no_pixels (ex_img (KUint 8)) = false.
Proof.
  split; [|split; reflexivity]. split; [discriminate|]. split; [discriminate|]. intros ch y x [<-|[]] Hy Hx. cbn in Hy, Hx.
  exists (100 * y + 50 * x). split; [reflexivity|]. change (2 ^ 8 - 1) with 255. lia.
Qed.

(** * C115: Convolve *)
(** Every pixel becomes the weighted sum of the pixels around it, stored in the dtype of the image,
    with the kernel of its channel; a channel whose kernel is None stays. *)
Theorem C115_pixels : forall im k, proper_image im -> supported (i_kind im) = true -> no_pixels im = false -> kernel_fits k (length (i_ch im)) ->
  exists im', convolve im k = Ok im' /\
    pixelwise (fun c ch y x v' => match kernel_for k c with
                                  | None => v' == ch y x
                                  | Some K => (exists q, weighted_sum K (i_h im) (i_w im) ch y x q) /\
                                              forall q, weighted_sum K (i_h im) (i_w im) ch y x q -> stored (i_kind im) q v'
                                  end)%Q im im'.
Proof.
  intros im k HP HS HN HK. destruct (convolve_pixels im k HP HS HN HK) as (im' & E & H). exists im'. split; [exact E|]. revert H. apply pixelwise_impl.
  intros c ch y x v Hc Hy Hx. destruct (kernel_for k c) as [K|]; [|tauto]. intros H. split; [|exact H]. eexists. apply raw_sum; lia.
Qed.
Print Assumptions C115_pixels.
Example C115_pixels_ex : match convolve (ex_img (KUint 8)) (KArr (arr33 0 0 0 0 1 0 0 1 0)) with
  | Ok im' => map (fun ch => (ch 0 0, ch 0 1, ch 1 0, ch 1 1))%Z (i_ch im')
  | Err _ => [] end = [(inject_Z 100, inject_Z 200, inject_Z 100, inject_Z 200)].
Proof. vm_compute. reflexivity. Qed.

(** Errors: dtypes without support, arrays that are not (H,W), lists of another length, other
    things. Images without pixels are returned. *)
Theorem C115_errors : forall im k,
  (supported (i_kind im) = false -> convolve im k = Err ValueError) /\
  (supported (i_kind im) = true -> no_pixels im = true -> convolve im k = Ok im) /\
  (supported (i_kind im) = true -> no_pixels im = false -> ~ kernel_fits k (length (i_ch im)) -> convolve im k = Err AssertionError) /\
  (forall im', convolve im k = Ok im' -> i_kind im' = i_kind im /\ i_h im' = i_h im /\ i_w im' = i_w im /\ length (i_ch im') = length (i_ch im)).
Proof.
  intros im k. split; [intros H; unfold convolve; rewrite H; reflexivity|].
  split; [intros H H'; unfold convolve; rewrite H, H'; reflexivity|].
  assert (B : supported (i_kind im) = true -> no_pixels im = false -> ~ kernel_fits k (length (i_ch im)) -> convolve im k = Err AssertionError).
  { intros H H' HK. unfold convolve. rewrite H, H'. cbn [negb]. cbn zeta. destruct k as [K| |l|]; cbn [kernel_fits matrices_of] in *; try tauto;
    try reflexivity. destruct (Nat.eqb_spec (length l) (length (i_ch im))) as [E|E]; [tauto|]. reflexivity. }
  split; [exact B|]. intros im' HE. destruct (supported (i_kind im)) eqn:HS; [|unfold convolve in HE; rewrite HS in HE; discriminate].
  destruct (no_pixels im) eqn:HN; [unfold convolve in HE; rewrite HS, HN in HE; injection HE as <-; auto|].
  assert (D : kernel_fits k (length (i_ch im)) \/ ~ kernel_fits k (length (i_ch im))). { destruct k as [K| |l|]; cbn; auto. destruct (Nat.eq_dec (length l) (length (i_ch im))); auto. }
  destruct D as [D|D]; [|rewrite (B eq_refl eq_refl D) in HE; discriminate].
  destruct (convolve_ok im k HS HN D) as (im2 & E & X1 & X2 & X3 & X4 & _). rewrite E in HE. injection HE as ->. auto.
Qed.
Print Assumptions C115_errors.
(** The supported dtypes. *)
Theorem C115_dtypes : forall k, supported k = true <-> In k [KBool; KUint 8; KUint 16; KInt 8; KInt 16; KFloat 16; KFloat 32; KFloat 64].
Proof.
  intros k. split.
  - destruct k as [|b|b|b]; cbn [supported]; intros H; [left; reflexivity| | |]; repeat (apply orb_prop in H; destruct H as [H|H]); apply Z.eqb_eq in H; subst b; cbn; tauto.
  - intros H. repeat (destruct H as [<-|H]; [reflexivity|]). destruct H.
Qed.
Print Assumptions C115_dtypes.
Example C115_errors_ex : convolve (ex_img (KUint 8)) (KList [None; None]) = Err AssertionError /\ convolve (ex_img (KUint 64)) (KArr matrix_nochange) = Err ValueError.
Proof. split; reflexivity. Qed.

(** Images of one colour get the weight of the kernel; kernels of weight one keep them. *)
Theorem C115_flat : forall im K v, proper_image im -> supported (i_kind im) = true -> flat v im ->
  exists im', convolve im (KArr K) = Ok im' /\ pixelwise (fun _ _ _ _ v' => stored (i_kind im) (weight K * v) v')%Q im im' /\
    ((weight K == 1)%Q -> same_image im im').
Proof.
  intros im K v HP HS HF. destruct (convolve_flat im K v HP HS HF) as (im' & E & H). exists im'. split; [exact E|]. split; [exact H|]. intros W. revert H. apply pixelwise_impl.
  intros c ch y x v' Hc Hy Hx H. destruct HP as (_ & _ & HV). pose proof (nth_error_In _ _ Hc) as I1. apply (stored_value (i_kind im)); [apply HV; auto|].
  eapply stored_compat; [|reflexivity|exact H]. rewrite W, (HF ch y x I1 Hy Hx). ring.
Qed.
Print Assumptions C115_flat.
(** Averaging kernels never leave the range of the channel. *)
Theorem C115_averaging : forall im k im' c K lo hi, proper_image im -> supported (i_kind im) = true -> convolve im k = Ok im' -> kernel_fits k (length (i_ch im)) ->
  kernel_for k c = Some K -> averaging K -> value_of (i_kind im) lo -> value_of (i_kind im) hi -> between im c lo hi -> between im' c lo hi.
Proof. exact convolve_between. Qed.
Print Assumptions C115_averaging.
Example C115_averaging_ex : averaging (arr33 0 (1#4) 0 (1#4) 0 (1#4) 0 (1#4) 0) /\ between (ex_img (KUint 8)) 0 0 150.
Proof.
  split.
  - split; [|reflexivity]. intros i j Hi Hj. cbn in Hi, Hj. assert (A : i = 0 \/ i = 1 \/ i = 2) by lia. assert (B : j = 0 \/ j = 1 \/ j = 2) by lia.
    destruct A as [->|[->| ->]], B as [->|[->| ->]]; cbn; discriminate.
  - intros ch y x H Hy Hx. cbn in H, Hy, Hx. injection H as <-. split; [apply (proj2 (inject_Z_le 0 (100 * y + 50 * x)))|apply (proj2 (inject_Z_le (100 * y + 50 * x) 150))]; lia.
Qed.
(** One array means the same as a list with the array for every channel, whatever the number of channels. *)
Theorem C115_one_kernel : forall im K, convolve im (KArr K) = convolve im (KList (repeat (Some K) (length (i_ch im)))).
Proof. exact convolve_array_as_list. Qed.
Print Assumptions C115_one_kernel.
(** The augmenter: without matrix images stay; a constant matrix is used for every image; a function
    is called once per image, in order, with the RNG as the previous call left it; None keeps that image. *)
Theorem C115_augmenter : forall S (images : list img) (s : S),
  convolve_images MNone images s = Ok images /\
  (forall k, convolve_images (MConst k) images s = mapM (fun im => convolve im k) images) /\
  (forall f out, convolve_images (MFun f) images s = Ok out -> length out = length images /\
    exists states : nat -> S, states 0%nat = s /\ forall i im im', nth_error images i = Some im -> nth_error out i = Some im' ->
      states (Datatypes.S i) = snd (f im (length (i_ch im)) (states i)) /\
      exists k, fst (f im (length (i_ch im)) (states i)) = Ok k /\ match k with None => im' = im | Some k => convolve im k = Ok im' end).
Proof.
  intros S images. split; [|split].
  - revert s. induction images as [|im r IH]; intros s; [reflexivity|]. cbn. rewrite IH. reflexivity.
  - intros k. revert s. induction images as [|im r IH]; intros s; [reflexivity|]. cbn. destruct (convolve im k); cbn; [|reflexivity]. rewrite IH. reflexivity.
  - intros f. revert s. induction images as [|im r IH]; intros s out H.
    + cbn in H. injection H as <-. split; [reflexivity|]. exists (fun _ => s). split; [reflexivity|]. intros i im im' Hi. destruct i; discriminate Hi.
    + cbn in H. destruct (f im (length (i_ch im)) s) as [k s'] eqn:Ef. destruct k as [k|]; cbn in H; [|discriminate].
      destruct (match k with None => Ok im | Some k0 => convolve im k0 end) as [im'|] eqn:E1; cbn in H; [|discriminate].
      destruct (convolve_images (MFun f) r s') as [out'|] eqn:E2; cbn in H; [|discriminate]. injection H as <-.
      destruct (IH s' out' E2) as (HL & st & Hs & Hst). split; [cbn; rewrite HL; reflexivity|].
      exists (fun i => match i with O => s | Datatypes.S j => st j end). split; [reflexivity|]. intros [|i] im0 im0' Hi Ho; cbn in Hi, Ho.
      * injection Hi as <-. injection Ho as <-. rewrite Ef. cbn. split; [exact Hs|]. exists k. split; [reflexivity|]. destruct k; [exact E1|]. injection E1 as <-. reflexivity.
      * exact (Hst i im0 im0' Hi Ho).
Qed.
Print Assumptions C115_augmenter.

(** * C116: Sharpen, Emboss, EdgeDetect, DirectedEdgeDetect *)
(** Every pixel is [1 - alpha] parts of the original and [alpha] parts of the effect. *)
Theorem C116_effects : forall im alpha, proper_image im -> supported (i_kind im) = true -> (0 <= alpha <= 1)%Q ->
  (forall lightness, exists K im', sharpen_matrix alpha lightness = Ok K /\ convolve im (KArr K) = Ok im' /\ blended alpha (sharpened lightness) im im') /\
  (forall strength, exists K im', emboss_matrix alpha strength = Ok K /\ convolve im (KArr K) = Ok im' /\ blended alpha (embossed strength) im im') /\
  (exists K im', edge_matrix alpha = Ok K /\ convolve im (KArr K) = Ok im' /\ blended alpha edges_of im im').
Proof.
  intros im alpha HP HS HA. split; [|split].
  - intros l. apply effect_ok; auto. apply sharpen_sum.
  - intros l. apply effect_ok; auto. apply emboss_sum.
  - apply effect_ok; auto. apply edge_sum.
Qed.
Print Assumptions C116_effects.
(** An alpha outside of [0, 1] is refused. *)
Theorem C116_alpha : forall alpha, ~ (0 <= alpha <= 1)%Q ->
  (forall l, sharpen_matrix alpha l = Err AssertionError) /\ (forall s, emboss_matrix alpha s = Err AssertionError) /\
  edge_matrix alpha = Err AssertionError /\ (forall d, directed_matrix alpha d = Err AssertionError).
Proof.
  intros alpha H. split; [intros l; apply with_alpha_bad; exact H|]. split; [intros l; apply with_alpha_bad; exact H|]. split; [apply with_alpha_bad; exact H|].
  intros d. unfold directed_matrix. destruct (qleb 0 alpha) eqn:E1; [|reflexivity]. destruct (qleb alpha 1) eqn:E2; [|reflexivity].
  apply qleb_iff in E1, E2. exfalso. apply H. split; assumption.
Qed.
Print Assumptions C116_alpha.
Example C116_alpha_ex : ~ (0 <= 3 # 2 <= 1)%Q. Proof. intros [_ H]. apply H. reflexivity. Qed.
(** Alpha zero keeps the image. Images of one colour: Sharpen multiplies by [(1 - alpha) + alpha * lightness],
    Emboss keeps them, EdgeDetect darkens them to [1 - alpha]. *)
Theorem C116_zero : forall im im' effect, proper_image im -> blended 0 effect im im' -> same_image im im'.
Proof. intros im im' effect HP. apply blended_zero; [exact HP|reflexivity]. Qed.
Print Assumptions C116_zero.
Theorem C116_flat : forall im im' alpha v, flat v im ->
  (forall l, blended alpha (sharpened l) im im' -> pixelwise (fun _ _ _ _ v' => stored (i_kind im) (((1 - alpha) + alpha * l) * v)%Q v') im im') /\
  (forall s, blended alpha (embossed s) im im' -> pixelwise (fun _ _ _ _ v' => stored (i_kind im) v v') im im') /\
  (blended alpha edges_of im im' -> pixelwise (fun _ _ _ _ v' => stored (i_kind im) ((1 - alpha) * v)%Q v') im im').
Proof.
  intros im im' alpha v HF. split; [|split].
  - intros l. apply blended_flat; [|exact HF]. intros p Hp. unfold sharpened. rewrite !Hp. ring.
  - intros s H. apply (blended_flat alpha (embossed s) 1 im im' v) in H; [|intros p Hp; unfold embossed; rewrite !Hp; ring|exact HF].
    revert H. apply pixelwise_impl. intros c ch y x v' _ _ _ H. eapply stored_compat; [|reflexivity|exact H]. ring.
  - intros H. apply (blended_flat alpha edges_of 0 im im' v) in H; [|intros p Hp; unfold edges_of; rewrite !Hp; ring|exact HF].
    revert H. apply pixelwise_impl. intros c ch y x v' _ _ _ H. eapply stored_compat; [|reflexivity|exact H]. ring.
Qed.
Print Assumptions C116_flat.
Example C116_flat_ex : flat 7 (mkImg (KUint 8) 4 5 [fun _ _ => 7%Q]).
Proof. intros ch y x [<-|[]] _ _. reflexivity. Qed.
(** For float32 and float64 the result is the blend of the image and of the full effect. For integers
    it is not always: the blend is clipped, not the effect. *)
Theorem C116_float_blend : forall im im1 ima alpha effect b, i_kind im = KFloat b -> b = 32 \/ b = 64 ->
  blended 1 effect im im1 -> blended alpha effect im ima ->
  pixelwise (fun c ch y x v' => forall ch1, nth_error (i_ch im1) c = Some ch1 -> (v' == (1 - alpha) * ch y x + alpha * ch1 y x)%Q) im ima.
Proof. intros im im1 ima alpha effect b E Hb. apply (blended_float alpha effect im im1 ima b E). destruct Hb; lia. Qed.
Print Assumptions C116_float_blend.
Theorem C116_integer_blend : exists im K1 im1 Ka ima, proper_image im /\ i_kind im = KUint 8 /\
  sharpen_matrix 1 2 = Ok K1 /\ convolve im (KArr K1) = Ok im1 /\ sharpen_matrix (1 # 2) 2 = Ok Ka /\ convolve im (KArr Ka) = Ok ima /\
  map (fun ch => ch 0 0)%Z (i_ch im) = [200%Q] /\ map (fun ch => ch 0 0)%Z (i_ch im1) = [255%Q] /\ map (fun ch => ch 0 0)%Z (i_ch ima) = [255%Q].
Proof.
  exists (mkImg (KUint 8) 1 1 [fun _ _ => 200%Q]). do 4 eexists. split.
  - split; [discriminate|]. split; [discriminate|]. intros ch y x [<-|[]] _ _. exists 200. split; [reflexivity|]. change (2 ^ 8 - 1) with 255. lia.
  - split; [reflexivity|]. split; [reflexivity|]. split; [reflexivity|]. split; [reflexivity|]. split; [reflexivity|]. split; [reflexivity|]. split; vm_compute; reflexivity.
Qed.
Print Assumptions C116_integer_blend.

(** DirectedEdgeDetect (exact arithmetic): the centre is one, the total is [1 - alpha], all other
    entries are in [-alpha, 0] and the more a cell faces the direction the lower is its entry. *)
Theorem C116_directed : forall alpha direction, (0 <= alpha <= 1)%Q ->
  exists K, directed_matrix alpha direction = Ok K /\ K 0 0 = 1%R /\
    (K 0%Z 0%Z + (K (-1)%Z (-1)%Z + K 0%Z (-1)%Z + K 1%Z (-1)%Z + K (-1)%Z 0%Z + K 1%Z 0%Z + K (-1)%Z 1%Z + K 0%Z 1%Z + K 1%Z 1%Z) = 1 - Q2R alpha)%R /\
    (forall x y, cell (x, y) -> (- Q2R alpha <= K x y <= 0)%R) /\
    (forall x y x' y', cell (x, y) -> cell (x', y') -> (facing (degrees direction) (x, y) <= facing (degrees direction) (x', y'))%R -> (K x' y' <= K x y)%R) /\
    (forall x y x' y', (0 < alpha)%Q -> cell (x, y) -> cell (x', y') -> (facing (degrees direction) (x, y) < facing (degrees direction) (x', y'))%R -> (K x' y' < K x y)%R).
Proof.
  intros alpha direction [H1 H2]. unfold directed_matrix. rewrite (proj2 (qleb_iff _ _) H1), (proj2 (qleb_iff _ _) H2). cbn [andb].
  assert (A0 : (0 <= Q2R alpha)%R). { replace 0%R with (Q2R 0) by (unfold Q2R; cbn; field). apply Qle_Rle. exact H1. }
  eexists. split; [reflexivity|]. split; [apply directed_centre|]. split; [|split; [|split]].
  - rewrite <- (directed_total (Q2R alpha) (degrees direction)). cbn [map cells fold_right fst snd]. ring.
  - intros x y HC. apply directed_range; assumption.
  - intros x y x' y' HC HC' L. apply directed_mono; assumption.
  - intros x y x' y' HA HC HC' L. apply directed_strict; auto. replace 0%R with (Q2R 0) by (unfold Q2R; cbn; field). apply Qlt_Rlt. exact HA.
Qed.
Print Assumptions C116_directed.
(** Direction 0 is the top and 0.25 the right: no cell faces it more. *)
Theorem C116_directions : (forall c, cell c -> facing (degrees 0%Q) c <= facing (degrees 0%Q) (0, -1)%Z)%R /\
  (forall c, cell c -> facing (degrees (1 # 4)%Q) c <= facing (degrees (1 # 4)%Q) (1, 0)%Z)%R.
Proof.
  split; intros [x y] HC; (apply Rle_trans with 1%R; [apply facing_bound; exact HC|]).
  - unfold facing. change (degrees 0) with 0. cbn [fst snd]. replace (0 * PI / 180)%R with 0%R by field. rewrite sin_0, cos_0.
    replace (0 * 0 + -1 * -1)%R with 1%R by ring. rewrite sqrt_1. right. field.
  - unfold facing. change (degrees (1 # 4)) with 90. cbn [fst snd]. replace (90 * PI / 180)%R with (PI / 2)%R by field. rewrite sin_PI2, cos_PI2.
    replace (1 * 1 + 0 * 0)%R with 1%R by ring. rewrite sqrt_1. right. field.
Qed.
Print Assumptions C116_directions.
(** A quarter more of direction turns the kernel clockwise by a quarter. *)
Theorem C116_turn : forall alpha direction K, (0 <= direction)%Q -> directed_matrix alpha direction = Ok K ->
  exists K', directed_matrix alpha (direction + (1 # 4)) = Ok K' /\ forall x y, -1 <= x <= 1 -> -1 <= y <= 1 -> K' (- y) x = K x y.
Proof.
  intros alpha direction K HD H. unfold directed_matrix in *. destruct (qleb 0 alpha && qleb alpha 1)%bool; [|discriminate]. injection H as <-. eexists. split; [reflexivity|].
  intros x y Hx Hy. rewrite degrees_quarter by exact HD. apply directed_turn; assumption.
Qed.
Print Assumptions C116_turn.
Example C116_turn_ex : degrees (1 # 3) = 120 /\ degrees ((1 # 3) + (1 # 4)) = 210. Proof. split; reflexivity. Qed.

(** * C117: blurs *)
(** blur_avg_: every pixel is the mean of the pixels around it, stored in the dtype. *)
Theorem C117_average : forall im kh kw, proper_image im -> supported (i_kind im) = true ->
  (0 < kh -> 0 < kw -> exists im', blur_avg im kh kw = Ok im' /\
     pixelwise (fun _ ch y x v' => (exists q, mean_around kh kw (i_h im) (i_w im) ch y x q) /\
       forall q, mean_around kh kw (i_h im) (i_w im) ch y x q -> stored (i_kind im) q v') im im') /\
  (kh <= 0 \/ kw <= 0 -> blur_avg im kh kw = Ok im).
Proof.
  intros im kh kw HP HS. split.
  - intros Hh Hw. destruct (blur_avg_pixels im kh kw HP HS Hh Hw) as (im' & E & H). exists im'. split; [exact E|]. revert H. apply pixelwise_impl.
    intros c ch y x v _ Hy Hx H. split; [|exact H]. exists (raw (i_h im) (i_w im) (box kh kw) ch y x). apply mean_weighted; auto. apply raw_sum; lia.
  - intros H. unfold blur_avg. destruct (no_pixels im); [reflexivity|]. destruct H as [H|H]; apply Z.leb_le in H; rewrite H; [reflexivity|]. rewrite orb_true_r. reflexivity.
Qed.
Print Assumptions C117_average.
Example C117_average_ex : match blur_avg (ex_img (KUint 8)) 2 2 with
  | Ok im' => map (fun ch => (ch 0 0, ch 1 1))%Z (i_ch im') | Err _ => [] end = [(inject_Z 75, inject_Z 75)].
Proof. vm_compute. reflexivity. Qed.
(** The result stays within the range of the channel. *)
Theorem C117_average_range : forall im kh kw im' c lo hi, proper_image im -> supported (i_kind im) = true -> blur_avg im kh kw = Ok im' ->
  value_of (i_kind im) lo -> value_of (i_kind im) hi -> between im c lo hi -> between im' c lo hi.
Proof. exact blur_avg_between. Qed.
Print Assumptions C117_average_range.
(** The forms of [k]: one size, a range, two ranges or sizes, one or two parameters. *)
Theorem C117_forms : forall (P : Type) (p q : P) (n m a b c d : Z),
  parse_k (ANum (inject_Z n) : karg P) = Ok (Single (KDet n)) /\
  parse_k (AIter [ANum (inject_Z a); ANum (inject_Z b)] : karg P) = Ok (Single (KUniform a b)) /\
  parse_k (AIter [AIter [ANum (inject_Z a); ANum (inject_Z b)]; AIter [ANum (inject_Z c); ANum (inject_Z d)]] : karg P) = Ok (Two (KUniform a b) (KUniform c d)) /\
  parse_k (AIter [AIter [ANum (inject_Z a); ANum (inject_Z b)]; ANum (inject_Z m)] : karg P) = Ok (Two (KUniform a b) (KDet m)) /\
  parse_k (AIter [ANum (inject_Z m); AIter [ANum (inject_Z a); ANum (inject_Z b)]] : karg P) = Ok (Two (KDet m) (KUniform a b)) /\
  parse_k (AParam p) = Ok (Single (KGiven p)) /\
  parse_k (AIter [AParam p; AParam q]) = Ok (Two (KGiven p) (KGiven q)).
Proof. intros P p q n m a b c d. cbn. rewrite !py_int_Z. repeat split; reflexivity. Qed.
Print Assumptions C117_forms.
(** Documented: in a tuple with a tuple the entries follow the same rules. A parameter beside a tuple
    raises an exception. *)
Theorem C117_mixed_refuted : forall (P : Type) (p : P) (l : list (karg P)),
  (exists e, parse_k (AIter [AParam p; AIter l]) = Err e) /\ (exists e, parse_k (AIter [AIter l; AParam p]) = Err e) /\
  (forall q, exists e, parse_k (AIter [AParam p; ANum q]) = Err e).
Proof.
  intros P p l. split; [eexists; reflexivity|]. split; [|intros q; eexists; reflexivity]. cbn [parse_k bind].
  destruct (parse_entry (AIter l)); cbn; eexists; reflexivity.
Qed.
Print Assumptions C117_mixed_refuted.
(** Entries of an inner tuple after the second one are ignored. *)
Theorem C117_extra_ignored : forall (P : Type) a b c d e (rest : list Q), parse_k (AIter [AIter (ANum a :: ANum b :: map ANum rest); AIter [ANum c; ANum d]] : karg P) =
  parse_k (AIter [AIter [ANum a; ANum b]; AIter (ANum c :: ANum d :: [ANum e])]).
Proof.
  intros P a b c d e rest. cbn. replace (forallb is_num (map ANum rest : list (karg P))) with true; [reflexivity|]. symmetry. apply forallb_forall. intros x I. apply in_map_iff in I. destruct I as (q & <- & _). reflexivity.
Qed.
Print Assumptions C117_extra_ignored.
(** Image [i] is blurred with the [i]-th sampled sizes: one sample for both sides or one for each. *)
Theorem C117_sizes : forall P (draw : kparam P -> nat -> list Z) k images out, (forall p n, length (draw p n) = n) -> average_blur draw k images = Ok out ->
  length out = length images /\
  forall i im im', nth_error images i = Some im -> nth_error out i = Some im' ->
    blur_avg im (nth i (match k with Single p => draw p (length images) | Two p _ => draw p (length images) end) 0)
                (nth i (match k with Single p => draw p (length images) | Two _ q => draw q (length images) end) 0) = Ok im'.
Proof.
  intros P draw k images out HL H.
  assert (G : forall hs ws, length hs = length images -> length ws = length images ->
    mapM (fun t => blur_avg (fst t) (fst (snd t)) (snd (snd t))) (combine images (combine hs ws)) = Ok out ->
    length out = length images /\ forall i im im', nth_error images i = Some im -> nth_error out i = Some im' -> blur_avg im (nth i hs 0) (nth i ws 0) = Ok im').
  { clear. revert out. induction images as [|im r IH]; intros out [|h hs] [|w ws] Hh Hw H; try discriminate.
    - cbn in H. injection H as <-. split; [reflexivity|]. intros [|i] ? ? H; discriminate H.
    - cbn in H. destruct (blur_avg im h w) as [im1|] eqn:E; cbn in H; [|discriminate].
      unfold mapM in IH. match type of H with context [sequence ?l] => destruct (sequence l) as [o|] eqn:E2 end; cbn in H; [|discriminate]. injection H as <-. injection Hh as Hh. injection Hw as Hw.
      destruct (IH o hs ws Hh Hw E2) as [L N]. split; [cbn; rewrite L; reflexivity|]. intros [|i] im0 im0' Hi Ho; cbn in *; [injection Hi as <-; injection Ho as <-; exact E|]. exact (N i im0 im0' Hi Ho). }
  unfold average_blur in H. destruct k as [p|p q]; apply G in H; auto.
Qed.
Print Assumptions C117_sizes.

(** MedianBlur: the size used is odd, at least 3 and at most one larger than the sampled one, and it
    stays in a range with odd bounds; sizes up to one and images without pixels mean no change. *)
Theorem C117_median : forall im k,
  (k <= 1 \/ no_pixels im = true <-> median_ksize im k = None) /\
  (forall k', median_ksize im k = Some k' -> Z.odd k' = true /\ 3 <= k' /\ k <= k' <= k + 1 /\
     forall a b, median_check [a; b] = true -> a <= k <= b -> a <= k' <= b).
Proof.
  intros im k. unfold median_ksize. split.
  - split.
    + intros [H|H]; [replace (1 <? k) with false by (symmetry; apply Z.ltb_ge; lia); reflexivity|]. rewrite H, andb_false_r. reflexivity.
    + destruct (Z.ltb_spec 1 k); [|left; lia]. destruct (no_pixels im); [right; reflexivity|discriminate].
  - intros k' H. destruct (Z.ltb_spec 1 k) as [L|L]; [|discriminate]. destruct (no_pixels im); [discriminate|]. cbn [andb negb] in H.
    assert (E : k' = (if k mod 2 =? 0 then k + 1 else k)) by congruence. clear H. pose proof (bump_odd k) as O. pose proof (bump_bounds k) as B. rewrite <- E in O, B.
    split; [exact O|]. assert (K3 : 3 <= k'). { apply Z.odd_spec in O. destruct O as (t & ->). lia. } split; [exact K3|]. split; [exact B|].
    intros a b HC Hk. cbn in HC. apply andb_prop in HC. destruct HC as [_ HC]. rewrite andb_true_r, <- odd_mod in HC.
    apply Z.odd_spec in HC, O. destruct HC as (t & ->), O as (u & ->). lia.
Qed.
Print Assumptions C117_median.
Example C117_median_ex : median_check [3; 7] = true /\ median_ksize (ex_img (KUint 8)) 6 = Some 7 /\ median_check [2; 7] = false.
Proof. split; [|split]; reflexivity. Qed.

(** Gaussian blur: the computed kernel size is odd, at least 5 and between 2.6 sigma - 1 and 3.3 sigma + 1. *)
Theorem C117_gauss_size : forall im sigma b eps k, blur_gaussian im sigma None b eps = Ok (Cv2 k) ->
  exists n, k = Some n /\ Z.odd n = true /\ 5 <= n /\ ((26 # 10) * sigma - 1 < inject_Z n)%Q /\ (inject_Z n <= qmax 5 ((33 # 10) * sigma) + 1)%Q.
Proof.
  intros im sigma b eps k H. assert (E : k = Some (gaussian_ksize sigma)).
  { unfold blur_gaussian in H. destruct (no_pixels im); [discriminate|]. destruct (qltb sigma eps); [discriminate|].
    destruct (match i_kind im with KFloat 128 => true | _ => false end); [discriminate|]. cbn zeta in H. cbn [ksize_used] in H.
    destruct (gaussian_ksize_bounds sigma) as (G & _). assert (G2 : (0 <? gaussian_ksize sigma) = true) by (apply Z.ltb_lt; lia). rewrite G2 in H.
    destruct b; [destruct (not_cv2 (i_kind im))|destruct (not_cv2 (i_kind im))|]; congruence. }
  exists (gaussian_ksize sigma). split; [exact E|]. split; [apply gaussian_ksize_odd|]. apply gaussian_ksize_bounds.
Qed.
Print Assumptions C117_gauss_size.
Example C117_gauss_size_ex : blur_gaussian (ex_img (KUint 8)) 2 None BAuto (1 # 1000) = Ok (Cv2 (Some 7)). Proof. reflexivity. Qed.
(** A larger sigma does not always get a kernel of at least the same size. *)
Theorem C117_gauss_monotone_refuted : ~ (forall s s', (s <= s')%Q -> gaussian_ksize s <= gaussian_ksize s').
Proof. intros H. specialize (H (499 # 100) 5%Q). assert (X : (499 # 100 <= 5)%Q) by discriminate. apply H in X. vm_compute in X. apply X. reflexivity. Qed.
Print Assumptions C117_gauss_monotone_refuted.
(** Backends: "auto" never fails for a supported dtype, "cv2" refuses uint32, uint64 and int64,
    float128 is refused; a small sigma or no pixels mean no change; a given even size is raised by one. *)
Theorem C117_gauss_backend : forall im sigma ksize b eps,
  ((sigma < eps)%Q -> blur_gaussian im sigma ksize b eps = Ok Unchanged) /\
  (no_pixels im = true -> blur_gaussian im sigma ksize b eps = Ok Unchanged) /\
  (i_kind im <> KFloat 128 -> exists r, blur_gaussian im sigma ksize BAuto eps = Ok r) /\
  (no_pixels im = false -> (eps <= sigma)%Q ->
     (i_kind im = KFloat 128 -> blur_gaussian im sigma ksize b eps = Err ValueError) /\
     (i_kind im = KUint 32 \/ i_kind im = KUint 64 \/ i_kind im = KInt 64 ->
        blur_gaussian im sigma ksize BCv2 eps = Err AssertionError /\ blur_gaussian im sigma ksize BAuto eps = Ok Scipy) /\
     (forall k r, ksize = Some k -> blur_gaussian im sigma ksize b eps = Ok r ->
        r = Scipy \/ exists n, Z.odd n = true /\ k <= n <= k + 1 /\ r = Cv2 (if 0 <? n then Some n else None))).
Proof.
  intros im sigma ksize b eps. split; [|split; [|split]].
  - intros H. unfold blur_gaussian. destruct (no_pixels im); [reflexivity|]. apply qltb_iff in H. rewrite H. reflexivity.
  - intros H. unfold blur_gaussian. rewrite H. reflexivity.
  - intros H. unfold blur_gaussian. destruct (no_pixels im); [eexists; reflexivity|]. destruct (qltb sigma eps); [eexists; reflexivity|].
    destruct (match i_kind im with KFloat 128 => true | _ => false end) eqn:E; [|eexists; reflexivity].
    exfalso. apply H. destruct (i_kind im) as [|n|n|n]; try discriminate E.
    destruct (Z.eq_dec n 128) as [->|N]; [reflexivity|]. exfalso. destruct n as [|[[[[[[[[]|[]|]|[]|]|[]|]|[]|]|[]|]|[]|]|[[[[[[[]|[]|]|[]|]|[]|]|[]|]|[]|]|[[[[[[]|[]|]|[]|]|[]|]|[]|]|[[[[[]|[]|]|[]|]|[]|]|[[[[]|[]|]|[]|]|[[[]|[]|]|[[]|[]|]|]|]|]|]|]|]|]; try discriminate E; congruence.
  - intros HN HS. assert (Q1 : qltb sigma eps = false) by (apply qltb_false; exact HS). unfold blur_gaussian. rewrite HN, Q1.
    split; [intros ->; reflexivity|]. split; [intros [->|[->| ->]]; split; reflexivity|]. intros k r -> H.
    destruct (match i_kind im with KFloat 128 => true | _ => false end); [discriminate|]. cbn zeta in H. cbn [ksize_used] in H.
    pose proof (bump_odd k) as O. pose proof (bump_bounds k) as B. set (n := if k mod 2 =? 0 then k + 1 else k) in *. clearbody n.
    destruct b; [destruct (not_cv2 (i_kind im))|destruct (not_cv2 (i_kind im))|]; try discriminate H; injection H as <-; auto; right; exists n; auto.
Qed.
Print Assumptions C117_gauss_backend.

(** MotionBlur: with a rotation that keeps sizes, signs and a positive centre, the kernel of every
    channel has the sampled size, or one more to be odd, and averages. *)
Theorem C117_motion : forall rotate k direction n, rotates rotate -> 2 <= k ->
  exists K, motion_matrix rotate k direction n = Ok (KList (repeat (Some K) n)) /\ ah K = aw K /\ Z.odd (ah K) = true /\ k <= ah K <= k + 1 /\ averaging K.
Proof. exact motion_ok. Qed.
Print Assumptions C117_motion.
Example C117_rotates_ex : rotates (fun m => m).
Proof. intros m. auto. Qed.
(** Hence blurred images stay within the range of each channel. *)
Theorem C117_motion_range : forall rotate k direction im c lo hi, rotates rotate -> 2 <= k -> proper_image im -> supported (i_kind im) = true ->
  (c < length (i_ch im))%nat -> value_of (i_kind im) lo -> value_of (i_kind im) hi -> between im c lo hi ->
  exists m im', motion_matrix rotate k direction (length (i_ch im)) = Ok m /\ convolve im m = Ok im' /\ between im' c lo hi.
Proof.
  intros rotate k direction im c lo hi HR Hk HP HS Hc VL VH HB. destruct (motion_ok rotate k direction (length (i_ch im)) HR Hk) as (K & E & _ & _ & _ & HA).
  exists (KList (repeat (Some K) (length (i_ch im)))). rewrite <- convolve_array_as_list.
  assert (X : exists im', convolve im (KArr K) = Ok im').
  { destruct (no_pixels im) eqn:HN; [exists im; unfold convolve; rewrite HS, HN; reflexivity|]. destruct (convolve_ok im (KArr K) HS HN Logic.I) as (im' & E2 & _). exists im'. exact E2. }
  destruct X as (im' & E2). exists im'. split; [exact E|]. split; [exact E2|].
  exact (convolve_between im (KArr K) im' c K lo hi HP HS E2 Logic.I eq_refl HA VL VH HB).
Qed.
Print Assumptions C117_motion_range.
