(** C133-C136: distance maps of keypoints, Canny edges, snowy landscapes and clouds, snowflakes and rain. *)
From Coq Require Import List ZArith QArith Reals Qreals Qabs Lia Lqa.
From Verif Require Import Prelude PreludeFacts PtsModel BlendSpec ConvModel RszModel ColModel ColSpec ColProofs ColProps FxModel FxSpec FxProofs.
Import ListNotations.
Open Scope Z_scope.

(** ** C133: distance maps *)
(** One map per keypoint, of the size of the image, holding distances [d] or the values 1/(d+1). *)
Theorem C133_maps : forall h w kps inverted, length (to_distance_maps h w kps inverted) = length kps /\
  forall i k y x, nth_error kps i = Some k -> exists a, nth_error (to_distance_maps h w kps inverted) i = Some a /\ ah a = h /\ aw a = w /\
    apx a y x = if inverted then (1 / (distance_to y x k + 1))%R else distance_to y x k.
Proof. intros h w kps inv. split; [unfold to_distance_maps; apply map_length|]. intros i k y x. apply maps_cells. Qed.
Print Assumptions C133_maps.
(** Every map gives the first position of its best value, or what was asked for if that value is not good enough. *)
Theorem C133_from_maps : forall maps inverted not_found threshold, Forall (fun a => 0 < ah a /\ 0 < aw a) maps ->
  exists pss, from_distance_maps maps inverted not_found threshold = Ok (concat pss) /\
    Forall2 (fun a ps => exists y x, best_position inverted a y x /\
      ((good inverted threshold (apx a y x) /\ ps = [(inject_Z x, inject_Z y)]) \/
       (~ good inverted threshold (apx a y x) /\ ps = match not_found with Some q => [q] | None => [] end))) maps pss.
Proof. exact from_maps. Qed.
Print Assumptions C133_from_maps.
(** There is one such position only. *)
Theorem C133_one_position : forall inverted a y x y' x', best_position inverted a y x -> best_position inverted a y' x' -> y = y' /\ x = x'.
Proof. intros inv a y x y' x' A B. pose proof (best_unique inv a y x y' x' A B) as E. exact E. Qed.
Print Assumptions C133_one_position.
(** Maps without pixels are refused. *)
Theorem C133_empty : forall maps inverted not_found threshold a, Forall (fun a => 0 <= ah a /\ 0 <= aw a) maps -> In a maps -> ah a = 0 \/ aw a = 0 ->
  from_distance_maps maps inverted not_found threshold = Err ValueError.
Proof. exact from_empty. Qed.
Print Assumptions C133_empty.
(** There and back: the pixel closest to the keypoint, and the keypoint itself if it lies on a pixel of the image. *)
Theorem C133_round_trip : forall h w kps inverted not_found, 0 < h -> 0 < w ->
  exists l, from_distance_maps (to_distance_maps h w kps inverted) inverted not_found None = Ok l /\
    Forall2 (fun k p => exists y x, p = (inject_Z x, inject_Z y) /\ 0 <= y < h /\ 0 <= x < w /\
      forall y' x', 0 <= y' < h -> 0 <= x' < w ->
        (distance_to y x k <= distance_to y' x' k)%R /\ (row_before y' x' y x -> distance_to y' x' k <> distance_to y x k)) kps l.
Proof. exact round_trip. Qed.
Print Assumptions C133_round_trip.
Theorem C133_round_trip_exact : forall h w kps inverted not_found,
  Forall (fun k => exists y x, (fst k == inject_Z x /\ snd k == inject_Z y)%Q /\ 0 <= y < h /\ 0 <= x < w) kps ->
  exists l, from_distance_maps (to_distance_maps h w kps inverted) inverted not_found None = Ok l /\ Forall2 (fun k p => (fst p == fst k /\ snd p == snd k)%Q) kps l.
Proof. exact round_trip_exact. Qed.
Print Assumptions C133_round_trip_exact.
Example C133_witness : exists l, from_distance_maps (to_distance_maps 4 5 [(4, 0)%Q; (2, 3)%Q] true) true None None = Ok l /\
  Forall2 (fun k p => (fst p == fst k /\ snd p == snd k)%Q) [(4, 0)%Q; (2, 3)%Q] l.
Proof. apply C133_round_trip_exact. constructor; [exists 0, 4|constructor; [exists 3, 2|constructor]]; repeat split; cbn; try reflexivity; lia. Qed.

(** ** C134: Canny *)
(** Every image: unchanged if alpha is 0 or the kernel size at most 2; otherwise mixed with the colours of edges and other
    pixels as OpenCV finds them with sorted thresholds and an odd kernel size. *)
Theorem C134_images : forall cv2 drawn imgs im0 d0, length drawn = length imgs ->
  Forall (fun im => im_u8 im = true /\ (im_c im = Some 1%nat \/ im_c im = Some 3%nat \/ im_c im = Some 4%nat) /\ bytes_in im /\ (has_pixels im \/ no_pixels im)) imgs ->
  Forall (fun d => 0 <= size_of d <= 7 /\ in_unit (alpha_of d) /\ bytes (edge_color d) /\ bytes (other_color d)) drawn ->
  exists outs, canny_batch cv2 drawn imgs = Ok outs /\ length outs = length imgs /\
    forall i, (i < length imgs)%nat -> canny_result cv2 (nth i drawn d0) (nth i imgs im0) (nth i outs im0).
Proof.
  intros cv2 drawn imgs im0 d0 L HI HD. apply canny_batch_ok; [exact L| |exact HD]. revert HI. apply Forall_impl. intros im (A & B & C). apply channels_bool in B. tauto.
Qed.
Print Assumptions C134_images.
(** OpenCV only ever sees non-empty uint8 images of one or three channels, sorted thresholds and the kernel sizes it knows. *)
Theorem C134_opencv : forall cv2 cv2' drawn imgs,
  (forall im a t1 t2 k, In im imgs -> opencv_input im a -> (t1 <= t2)%Q -> k = 3 \/ k = 5 \/ k = 7 -> cv2 a (t1, t2) k = cv2' a (t1, t2) k) ->
  canny_batch cv2 drawn imgs = canny_batch cv2' drawn imgs.
Proof. exact canny_batch_calls. Qed.
Print Assumptions C134_opencv.
(** What is refused: other dtypes, other channel numbers, other kernel sizes. *)
Theorem C134_errors : forall cv2 drawn imgs, length drawn = length imgs ->
  let channels im := im_c im = Some 1%nat \/ im_c im = Some 3%nat \/ im_c im = Some 4%nat in
  match canny_batch cv2 drawn imgs with
  | Ok _ => True
  | Err e => (e = ValueError /\ Exists (fun im => im_u8 im = false) imgs) \/
             (e = AssertionError /\ Forall (fun im => im_u8 im = true) imgs /\ (Exists (fun d => ~ 0 <= size_of d <= 7) drawn \/ Exists (fun im => ~ channels im) imgs))
  end /\
  (Exists (fun im => im_u8 im = false) imgs \/ Exists (fun d => ~ 0 <= size_of d <= 7) drawn \/ Exists (fun im => ~ channels im) imgs -> exists e, canny_batch cv2 drawn imgs = Err e).
Proof.
  intros cv2 drawn imgs L channels. assert (X : forall im, canny_channels im = false <-> ~ channels im).
  { intros im. unfold channels. rewrite <- channels_bool. destruct (canny_channels im); split; congruence. }
  assert (Y : Exists (fun im => canny_channels im = false) imgs <-> Exists (fun im => ~ channels im) imgs) by (split; apply Exists_impl; intros im; apply X).
  rewrite <- Y. destruct (canny_batch_errors cv2 drawn imgs L) as [A B]. split; [|exact B]. destruct (canny_batch cv2 drawn imgs); [exact Logic.I|]. rewrite <- Y. exact A.
Qed.
Print Assumptions C134_errors.
(** A row of two pixels with an alpha channel, an edge on the right: thresholds in the wrong order, an even kernel size. *)
Definition rgba_row : image := mkImage true 1 2 (Some 4%nat) (fun y x n => if Nat.eqb n 3 then 77 else 100) true true.
Definition right_edge (a : image) (t : Q * Q) (k y x : Z) : bool := qleb (fst t) (snd t) && (k =? 3) && (1 <=? x).
Definition row_drawing : drawing := ((1 # 2)%Q, (200%Q, 100%Q), 4, ((250, 0, 0), (0, 0, 0))).
Example C134_witness : match canny_batch right_edge [row_drawing] [rgba_row] with
  | Ok [out] => im_px out 0 0 0 = 50 /\ im_px out 0 1 0%nat = 175 /\ im_px out 0 1 1%nat = 50 /\ im_px out 0 1 3%nat = 77
  | _ => False end.
Proof. vm_compute. repeat split; reflexivity. Qed.
Example C134_hypotheses : in_unit (alpha_of row_drawing) /\ bytes (edge_color row_drawing) /\ bytes_in rgba_row /\ has_pixels rgba_row.
Proof.
  split; [split; cbn; Lqa.lra|]. split; [cbn; unfold byte; lia|]. split; [|split; cbn; lia]. intros y x n _ _. cbn. destruct (Nat.eqb n 3); split; lia.
Qed.

(** ** C135: snowy landscapes and clouds *)
(** The lightness of dark pixels is multiplied; hue, saturation and lighter pixels keep their values. *)
Theorem C135_landscape : forall cvt gray from drawn imgs im0 d0, byte_conversions cvt gray -> from <> GRAY -> length drawn = length imgs ->
  Forall (fun im => colored im /\ byte_image im) imgs -> Forall (fun d => (0 <= snd d)%Q) drawn ->
  exists outs, snowy_batch cvt gray (Some from) drawn imgs = Ok outs /\ length outs = length imgs /\
    forall i, (i < length imgs)%nat -> let '(im, out, (thresh, mul)) := (nth i imgs im0, nth i outs im0, nth i drawn d0) in
      colored out /\ same_size out im /\
      forall y x, inside im y x -> exists c c', converted cvt gray from HLS (pixel im y x) c /\ lightened_color thresh mul c c' /\ converted cvt gray HLS from c' (pixel out y x).
Proof. exact snowy_batch_ok. Qed.
Print Assumptions C135_landscape.
Theorem C135_lighter : forall thresh mul l l', (1 <= mul)%Q -> byte l -> lightened thresh mul l l' -> l <= l'.
Proof. exact lightened_brighter. Qed.
Print Assumptions C135_lighter.
Theorem C135_landscape_errors : forall cvt gray from thresh mul im,
  (no_pixels im -> snowy_image cvt gray from thresh mul im = Ok im) /\
  (has_pixels im -> im_u8 im = false \/ im_c im <> Some 3%nat \/ from = None \/ from = Some GRAY ->
     snowy_image cvt gray from thresh mul im = Err (if im_u8 im then AssertionError else ValueError)).
Proof. intros. split; [apply snowy_none|apply snowy_bad]. Qed.
Print Assumptions C135_landscape_errors.
Example C135_landscape_witness : match snowy_batch swap mean (Some RGB) [(100%Q, (5 # 2)%Q)] [two true (10, 60, 30) (4, 150, 9)] with
  | Ok [out] => pixel out 0 0 = (10, 150, 30) /\ pixel out 0 1 = (4, 150, 9) | _ => False end.
Proof. vm_compute. split; reflexivity. Qed.
(** Clouds on uint8 images: the mix of pixel and cloud, rounded down; no cloud where the opacity is 0; brighter than the
    pixel never darkens and darker never brightens. *)
Theorem C135_cloud : forall power amin amul sparsity density local intensity p, p_kind p = KUint 8 ->
  let opacity y x := cloud_alpha power amin amul sparsity density (local y x) in
  (forall y x, in_unit (opacity y x)) /\
  exists out, draw_cloud opacity intensity p = Ok out /\ (p_kind out, p_h out, p_w out, p_c out) = (p_kind p, p_h p, p_w p, p_c p) /\
    forall y x n v, byte v -> p_px p y x n = inject_Z v -> exists z, p_px out y x n = inject_Z z /\ cloudy (opacity y x) (intensity y x) v z.
Proof.
  intros power amin amul sp d local intensity p K opacity. assert (U : forall y x, in_unit (opacity y x)) by (intros; apply cloud_alpha_unit). split; [exact U|]. apply cloud_u8; assumption.
Qed.
Print Assumptions C135_cloud.
Theorem C135_cloud_dtypes : forall opacity intensity p,
  (forall b, p_kind p = KFloat b -> exists out, draw_cloud opacity intensity p = Ok out /\ (p_kind out, p_h out, p_w out, p_c out) = (p_kind p, p_h p, p_w p, p_c p) /\
     forall y x n, (p_px out y x n == (1 - opacity y x) * p_px p y x n + opacity y x * intensity y x)%Q) /\
  (p_kind p <> KUint 8 -> (forall b, p_kind p <> KFloat b) -> draw_cloud opacity intensity p = Err ValueError).
Proof. intros. split; [intros b; apply cloud_float|apply cloud_other]. Qed.
Print Assumptions C135_cloud_dtypes.
(** Denser clouds are more opaque, clouds of density 0 invisible; the fine noise moves the intensity by a fifth of the mean. *)
Theorem C135_density : forall power amin amul sparsity local, 
  (cloud_alpha power amin amul sparsity 0 local == 0)%Q /\
  ((0 <= power (amin + amul * local) sparsity)%Q -> forall d d', (d <= d')%Q -> (cloud_alpha power amin amul sparsity d local <= cloud_alpha power amin amul sparsity d' local)%Q).
Proof. intros. split; [apply cloud_alpha_none|]. intros P d d'. apply cloud_alpha_density. exact P. Qed.
Print Assumptions C135_density.
Theorem C135_intensity : forall mean coarse noise, (0 <= mean)%Q -> (0 <= noise <= 1)%Q -> (Qabs (cloud_intensity mean coarse noise - coarse) <= mean * (1 # 5))%Q.
Proof. exact cloud_intensity_near. Qed.
Print Assumptions C135_intensity.
Example C135_cloud_witness : match draw_cloud (fun y x => cloud_alpha (fun a _ => a) 0 1 1 (1 # 2) (if x =? 0 then 0 else 1)) (fun _ _ => 300%Q) (mkPic (KUint 8) 1 2 (Some 1%nat) (fun _ _ _ => 100%Q)) with
  | Ok out => p_px out 0 0 0%nat = 100%Q /\ p_px out 0 1 0%nat = 177%Q | _ => False end.
Proof. vm_compute. split; reflexivity. Qed.

(** ** C136: snowflakes and rain *)
(** Snow never darkens a pixel, keeps it where there is no flake and makes it white where the flake is white. Without salt there
    is no flake. *)
Theorem C136_snow : forall salt gate resize gaussian motion gamma fs u sp sf lo hi im, im_c im = Some 1%nat \/ im_c im = Some 3%nat -> bytes_in im -> (0 <= u <= 1)%Q -> (0 <= sp)%Q ->
  (forall a b, byte_noise (salt a b)) -> (forall a b n c d, byte_noise n -> byte_noise (resize a b n c d)) -> (forall s n, byte_noise n -> byte_noise (gaussian s n)) ->
  (forall k n, byte_noise n -> byte_noise (motion k n)) -> (forall g v, byte v -> byte (gamma g v)) -> (forall g, gamma g 0 = 0) -> (forall g, gamma g 255 = 255) ->
  0 <= im_h im -> 0 <= im_w im -> (lo <= hi)%Q ->
  exists out flake, draw_snow salt gate resize gaussian motion gamma fs u sp sf lo hi im = Ok out /\ same_form out im /\ bytes_in out /\ byte_noise flake /\
    (forall y x n, inside im y x -> (n < nb_channels im)%nat ->
       im_px im y x n <= im_px out y x n /\ (flake y x = 0 -> im_px out y x n = im_px im y x n) /\ (flake y x = 255 -> im_px out y x n = 255)) /\
    made_from salt gate resize motion gaussian (im_h im) (im_w im) fs sp lo hi flake /\
    ((forall a b, black (salt a b)) -> (forall a b n c d, black n -> black (resize a b n c d)) -> (forall s n, black n -> black (gaussian s n)) -> (forall k n, black n -> black (motion k n)) -> black flake).
Proof. exact snow_ok. Qed.
Print Assumptions C136_snow.
(** Brighter flakes and brighter pixels give brighter results. *)
Theorem C136_snow_monotone : forall speed f g v w, (0 <= speed)%Q -> (f <= g)%Q -> v <= w -> snow_value speed f v <= snow_value speed g w.
Proof. exact snow_value_mono. Qed.
Print Assumptions C136_snow_monotone.
(** Rain: every pixel between the image and one colour of the drops from 110 to 240, the colour itself in thick drops; the image
    where there is no drop. The colour is 240 as soon as one of the first components has a thick drop. *)
Theorem C136_rain : forall salt gate resize motion ds sp sf lo hi im, im_c im = Some 1%nat \/ im_c im = Some 3%nat -> bytes_in im ->
  (forall a b, byte_noise (salt a b)) -> (forall a b n c d, byte_noise n -> byte_noise (resize a b n c d)) -> (forall k n, byte_noise n -> byte_noise (motion k n)) ->
  0 <= im_h im -> 0 <= im_w im -> (0 <= sp)%Q -> (lo <= hi)%Q ->
  exists out drop color, draw_rain salt gate resize motion ds sp sf lo hi im = Ok out /\ same_form out im /\ bytes_in out /\ byte_noise drop /\ 110 <= color <= 240 /\
    (forall y x n, inside im y x -> (n < nb_channels im)%nat ->
       Z.min (im_px im y x n) color <= im_px out y x n <= Z.max (im_px im y x n) color /\
       (drop y x = 0 -> im_px out y x n = im_px im y x n) /\ (197 <= drop y x -> im_px out y x n = color)) /\
    made_from salt gate resize motion (fun _ n => n) (im_h im) (im_w im) ds sp lo hi drop /\
    ((forall a b, black (salt a b)) -> (forall a b n c d, black n -> black (resize a b n c d)) -> (forall k n, black n -> black (motion k n)) -> black drop) /\
    (forall y x, inside im y x -> (y * im_w im + x) * Z.of_nat (nb_channels im) < 1000 -> 130 < drop y x -> color = 240).
Proof. exact rain_ok. Qed.
Print Assumptions C136_rain.
Theorem C136_channels : forall salt gate resize gaussian motion gamma fs u sp sf lo hi im, im_c im <> Some 1%nat -> im_c im <> Some 3%nat ->
  draw_snow salt gate resize gaussian motion gamma fs u sp sf lo hi im = Err AssertionError /\ draw_rain salt gate resize motion fs sp sf lo hi im = Err AssertionError.
Proof. intros. split; [apply snow_bad|apply rain_bad]; assumption. Qed.
Print Assumptions C136_channels.
(** The noise image is never empty nor larger than the image; the motion blur never gets a kernel size below 3. *)
Theorem C136_sizes : forall salt salt' gate gate' resize resize' gaussian motion motion' gamma fs u sp sf lo hi im,
  (forall a b, 1 <= a <= Z.max 1 (im_h im) -> 1 <= b <= Z.max 1 (im_w im) -> salt a b = salt' a b /\ gate a b = gate' a b /\ forall n, resize a b n (im_h im) (im_w im) = resize' a b n (im_h im) (im_w im)) ->
  (forall k, 3 <= k -> motion k = motion' k) ->
  draw_snow salt gate resize gaussian motion gamma fs u sp sf lo hi im = draw_snow salt' gate' resize' gaussian motion' gamma fs u sp sf lo hi im /\
  draw_rain salt gate resize motion fs sp sf lo hi im = draw_rain salt' gate' resize' motion' fs sp sf lo hi im.
Proof.
  intros salt salt' gate gate' resize resize' gaussian motion motion' gamma fs u sp sf lo hi im H M. unfold draw_snow, draw_rain.
  rewrite (layer_calls salt salt' gate gate' resize resize' motion motion' gaussian (im_h im) (im_w im) fs sp sf lo hi H M).
  rewrite (layer_calls salt salt' gate gate' resize resize' motion motion' (fun _ n => n) (im_h im) (im_w im) fs sp sf lo hi H M). split; reflexivity.
Qed.
Print Assumptions C136_sizes.
(** A white flake on the left pixel of a row, no blur. *)
Definition left_salt (a b : Z) : noise := fun y x => if x =? 0 then 255 else 0.
Definition keep_noise (a b : Z) (n : noise) (h w : Z) : noise := n.
Example C136_witness : match draw_snow left_salt (fun _ _ _ _ => 1%Q) keep_noise (fun _ n => n) (fun _ n => n) (fun _ v => v) (1 # 2) (1 # 2) (1 # 100) (1 # 100) 0 1 (two true (10, 60, 30) (4, 150, 9)),
  draw_rain left_salt (fun _ _ _ _ => 1%Q) keep_noise (fun _ n => n) (1 # 2) (1 # 100) (1 # 100) 0 1 (two true (10, 60, 30) (4, 150, 9)) with
  | Ok a, Ok b => pixel a 0 0 = (255, 255, 255) /\ pixel a 0 1 = (4, 150, 9) /\ pixel b 0 0 = (240, 240, 240) /\ pixel b 0 1 = (4, 150, 9) | _, _ => False end.
Proof. vm_compute. repeat split; reflexivity. Qed.
Example C136_hypotheses : (forall a b, byte_noise (left_salt a b)) /\ (forall a b n c d, byte_noise n -> byte_noise (keep_noise a b n c d)) /\ bytes_in (two true (10, 60, 30) (4, 150, 9)).
Proof.
  split; [intros a b y x; unfold left_salt; destruct (x =? 0); split; lia|]. split; [intros a b n c d H; exact H|]. intros y x n I N. unfold two. cbn. destruct (x =? 0); destruct n as [|[|[|n]]]; split; cbn; lia.
Qed.
