(** C147: Cartoon. *)
From Coq Require Import List ZArith QArith Qabs Bool Lia.
From Verif Require Import Prelude DtyModel CtrModel CorModel CorSpec CarModel CarSpec CarProofs.
From Verif Require CorProofs.
Import ListNotations.
Open Scope Z_scope.

(** C147: only uint8 images with three channels are accepted. *)
Theorem C147_refuses : forall median median_edges mean_shift gray canny laplacian percentile to_hsv from_hsv,
  forall k g s e suppress im,
  (p_dt im <> U8 -> cartoon median median_edges mean_shift gray canny laplacian percentile to_hsv from_hsv k g s e suppress im = Err ValueError) /\
  (p_dt im = U8 -> p_c im <> Some 3%nat -> cartoon median median_edges mean_shift gray canny laplacian percentile to_hsv from_hsv k g s e suppress im = Err AssertionError).
Proof.
  intros m me ms gr ca la pe th fh k g s e sup im. split.
  - intros D. rewrite refuses by tauto. destruct (dname_eqb (p_dt im) U8) eqn:E; [apply CorProofs.dname_eqb_u8 in E; congruence|reflexivity].
  - intros D C. rewrite refuses by tauto. rewrite D. reflexivity.
Qed.
Print Assumptions C147_refuses.

(** C147: the image is blurred with an odd kernel size next to the given one and segmented with radii proportional to the
    given size. Edges are found in the segmented image; if wanted, those with at least 8 edges in the 3x3 pixels around
    them and then those with less than 3 edges in the remaining 5x5 are dropped. The result, before the saturation is
    changed, is black at edges and the segmented image elsewhere. *)
Theorem C147_picture : forall median median_edges mean_shift gray canny laplacian percentile to_hsv from_hsv,
  (forall k im, same_shape (median k im) im) -> (forall k im, bytes im -> bytes (median k im)) ->
  (forall a b im, same_shape (mean_shift a b im) im) -> (forall a b im, bytes im -> bytes (mean_shift a b im)) ->
  forall blur_ksize segmentation_size saturation prevalence suppress im, p_dt im = U8 -> p_c im = Some 3%nat -> 1 <= p_h im -> 1 <= p_w im -> bytes im -> (0 < prevalence)%Q ->
  exists blurred seg raw edge drawn,
    ((blur_ksize < 3 # 2)%Q -> blurred = im) /\
    ((3 # 2 <= blur_ksize)%Q -> exists n, Z.odd n = true /\ 3 <= n /\ (Qabs (inject_Z n - blur_ksize) <= 3 # 2)%Q /\ blurred = median n im) /\
    ((segmentation_size <= 0)%Q -> seg = blurred) /\
    ((0 < segmentation_size)%Q -> exists a b, seg = mean_shift a b blurred /\
       let small := p_h im < 400 /\ p_w im < 400 in
       (small -> whole_part (10 * segmentation_size) (inject_Z a) /\ whole_part (20 * segmentation_size) (inject_Z b)) /\
       (~ small -> whole_part (15 * segmentation_size) (inject_Z a) /\ whole_part (40 * segmentation_size) (inject_Z b))) /\
    (p_h im < 400 /\ p_w im < 400 -> exists t, raw = canny t (gray seg) /\ 0 <= t <= 254 /\
       ((200 / prevalence < 255)%Q -> whole_part (200 / prevalence) (inject_Z t)) /\ ((254 <= 200 / prevalence)%Q -> t = 254)) /\
    (~ (p_h im < 400 /\ p_w im < 400) -> find_edges_laplacian median_edges gray laplacian percentile seg prevalence = Ok raw) /\
    (suppress = false -> forall y x, edge y x <-> 100 < raw y x) /\
    (suppress = true -> exists kept : Z -> Z -> Prop, forall y x,
       (exists n, edges_around (p_h im) (p_w im) 1 (fun y x => 100 < raw y x) y x n /\ (kept y x <-> 100 < raw y x /\ (n < 8)%nat)) /\
       (exists n, edges_around (p_h im) (p_w im) 2 kept y x n /\ (edge y x <-> kept y x /\ (3 <= n)%nat))) /\
    p_dt drawn = U8 /\ same_shape drawn im /\
    (forall y x c, position im y x c -> (edge y x -> p_px drawn y x c = 0%Q) /\ (~ edge y x -> p_px drawn y x c = p_px seg y x c)) /\
    cartoon median median_edges mean_shift gray canny laplacian percentile to_hsv from_hsv blur_ksize segmentation_size saturation prevalence suppress im = Ok (saturate to_hsv from_hsv drawn (qmax saturation 0)).
Proof. intros m me ms gr ca la pe th fh MS MB SS SB. exact (picture_ok m me ms gr ca la pe th fh MS MB SS SB). Qed.
Print Assumptions C147_picture.
(** C147: the numbers of edges above are determined by the edges; around positions inside of the image no reflection
    matters. *)
Theorem C147_counts : (forall h w r edge y x n n', edges_around h w r edge y x n -> edges_around h w r edge y x n' -> n = n') /\
  (forall n i j, reflected n i j -> 0 <= i < n -> j = i).
Proof.
  split; [exact around_unique|]. intros n i j R I. apply (reflected_unique n i j i R). split; [exact I|]. right. exists 0. left. lia.
Qed.
Print Assumptions C147_counts.

(** C147: edges of large images are the squared second derivatives, relative to a percentile of them which falls with the
    edge prevalence, smoothed, and without the weak ones. *)
Theorem C147_large_images : forall (median_edges : Z -> (Z -> Z -> Z) -> Z -> Z -> Z) gray laplacian percentile im e, (0 < e)%Q ->
  exists p strength scaled raw,
    0 <= p <= 99 /\ ((90 / e < 100)%Q -> whole_part (90 / e) (inject_Z p)) /\ ((99 <= 90 / e)%Q -> p = 99) /\
    (forall y x, let l := laplacian (fun y x => gray im y x / 255)%Q y x in (strength y x == l * l)%Q) /\
    (let top := percentile p strength in (0 < top)%Q -> forall y x, 0 <= scaled y x <= 255 /\
       ((top <= strength y x)%Q -> scaled y x = 255) /\
       ((strength y x <= top)%Q -> (Qabs (inject_Z (scaled y x) - 255 * (strength y x / top)) <= 1 # 2)%Q)) /\
    find_edges_laplacian median_edges gray laplacian percentile im e = Ok raw /\
    (forall y x, (median_edges 3 scaled y x < 50 -> raw y x = 0) /\ (50 <= median_edges 3 scaled y x -> raw y x = median_edges 3 scaled y x)).
Proof. exact large_ok. Qed.
Print Assumptions C147_large_images.

(** C147: a saturation within 0.01001 of 1 changes nothing; others multiply the saturation in HSV, up to 255, and leave hue
    and value alone. *)
Theorem C147_saturation : forall to_hsv from_hsv, forall im f, (0 <= f)%Q ->
  ((Qabs (f - 1) <= 1001 # 100000)%Q -> saturate to_hsv from_hsv im f = im) /\
  ((1001 # 100000 < Qabs (f - 1))%Q -> exists hsv, saturate to_hsv from_hsv im f = from_hsv hsv /\ same_shape hsv (to_hsv im) /\ p_dt hsv = p_dt (to_hsv im) /\
     forall y x, p_px hsv y x 0%nat = p_px (to_hsv im) y x 0%nat /\ p_px hsv y x 2%nat = p_px (to_hsv im) y x 2%nat /\
       ((0 <= p_px (to_hsv im) y x 1%nat)%Q -> 
         ((p_px (to_hsv im) y x 1%nat * f <= 255)%Q -> whole_part (p_px (to_hsv im) y x 1%nat * f) (p_px hsv y x 1%nat)) /\
         ((255 <= p_px (to_hsv im) y x 1%nat * f)%Q -> p_px hsv y x 1%nat = 255%Q))).
Proof. exact saturate_ok. Qed.
Print Assumptions C147_saturation.

(** C147: in a batch every image gets its own parameters. *)
Theorem C147_batch : forall median median_edges mean_shift gray canny laplacian percentile to_hsv from_hsv,
  forall imgs ks gs ss es outs, length ks = length imgs -> length gs = length imgs -> length ss = length imgs -> length es = length imgs ->
  cartoon_batch median median_edges mean_shift gray canny laplacian percentile to_hsv from_hsv imgs ks gs ss es = Ok outs ->
  length outs = length imgs /\ forall i im k g s e, nth_error imgs i = Some im -> nth_error ks i = Some k -> nth_error gs i = Some g -> nth_error ss i = Some s -> nth_error es i = Some e ->
    exists out alone, nth_error outs i = Some out /\ cartoon median median_edges mean_shift gray canny laplacian percentile to_hsv from_hsv k g s e true im = Ok alone /\ p_dt out = p_dt im /\ same_shape out im /\ p_px out = p_px alone.
Proof. exact batch_ok. Qed.
Print Assumptions C147_batch.

(** The augmenter accepts edge_prevalence 0, but all images fail with it. *)
Theorem C147_zero_prevalence_refuted : forall median median_edges mean_shift gray canny laplacian percentile to_hsv from_hsv,
  forall k g s sup im, p_dt im = U8 -> p_c im = Some 3%nat -> cartoon median median_edges mean_shift gray canny laplacian percentile to_hsv from_hsv k g s 0 sup im = Err GenericException.
Proof. exact zero_prevalence. Qed.
Print Assumptions C147_zero_prevalence_refuted.
(** In large images whose percentile of edge strengths is 0 (mostly flat images) no edges are drawn at all, however strong
    the strongest are. *)
Theorem C147_flat_images : forall median_edges gray laplacian percentile, forall im e raw, (forall m, (forall y x, m y x = 0) -> forall k y x, median_edges k m y x = 0) -> (forall p f, (percentile p f == 0)%Q) ->
  find_edges_laplacian median_edges gray laplacian percentile im e = Ok raw -> forall y x, raw y x = 0.
Proof. exact flat_no_edges. Qed.
Print Assumptions C147_flat_images.

(** A white image of 5x6 pixels with a line of edges in column 2, and a single edge in row 0 and column 5. *)
Definition ex_white : picture := mkP U8 5 6 (Some 3%nat) (fun _ _ _ => inject_Z 200).
Definition ex_edges (t : Z) (g : Z -> Z -> Q) (y x : Z) : Z := if (x =? 2) || ((y =? 0) && (x =? 5)) then t else 0.
Example C147_case : bytes ex_white /\ 1 <= p_h ex_white /\
  match cartoon (fun _ im => im) (fun _ e => e) (fun _ _ im => im) (fun im y x => p_px im y x 0%nat) ex_edges (fun g => g) (fun _ _ => 1%Q) (fun im => im) (fun im => im) 3 1 1 1 true ex_white with
  | Ok out => p_px out 2 2 1%nat = 0%Q /\ p_px out 0 5 1%nat = inject_Z 200 /\ p_px out 2 3 1%nat = inject_Z 200
  | Err _ => False
  end.
Proof.
  split; [intros y x c _; exists 200; split; [reflexivity|lia]|]. split; [cbn; lia|]. vm_compute. repeat split.
Qed.
