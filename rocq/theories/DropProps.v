(** C58 (Cutout), C59 (ReplaceElementwise), C60 (Dropout2d, TotalDropout). *)
From Coq Require Import Permutation Lia Lqa.
From Verif Require Import Prelude PreludeFacts DropModel DropSpec DropProofs.

(** ** C58 *)

(** Nothing changes outside the rectangle, whatever is filled in. *)
Theorem C58_outside_stays :
  forall cast two_dims nc lo hi im x1 y1 x2 y2 f out,
    cutout cast two_dims nc lo hi im x1 y1 x2 y2 f = Ok out ->
    ah out = ah im /\ aw out = aw im /\
    forall y x, in_image im y x -> ~ inside x1 y1 x2 y2 y x -> apx out y x = apx im y x.
Proof. exact cutout_outside. Qed.
Print Assumptions C58_outside_stays.

(** Filling with constants replaces every pixel of the rectangle. *)
Theorem C58_constant_fill :
  forall cast two_dims nc lo hi im x1 y1 x2 y2 f,
    f_mode f = Constant -> some_value (f_value f) -> (two_dims = true -> nc = 1%nat) ->
    exists out, cutout cast two_dims nc lo hi im x1 y1 x2 y2 f = Ok out /\
      forall y x, in_image im y x -> inside x1 y1 x2 y2 y x ->
        length (apx out y x) = nc /\
        forall c, (c < nc)%nat ->
          nth c (apx out y x) 0 = cast (meant_for (f_value f) (given_per_channel f) c).
Proof. exact cutout_constant. Qed.
Print Assumptions C58_constant_fill.

(** Filling with noise: values within the range, equal in all channels if not
    asked for otherwise. *)
Theorem C58_gaussian_fill :
  forall cast two_dims nc lo hi im x1 y1 x2 y2 f,
    f_mode f = Gaussian -> (lo <= hi)%Q ->
    exists out, cutout cast two_dims nc lo hi im x1 y1 x2 y2 f = Ok out /\
      forall y x, in_image im y x -> inside x1 y1 x2 y2 y x ->
        length (apx out y x) = nc /\
        (forall c, (c < nc)%nat -> exists q, (lo <= q /\ q <= hi)%Q /\ nth c (apx out y x) 0 = cast q) /\
        (given_per_channel f = false -> forall c c', (c < nc)%nat -> (c' < nc)%nat ->
           nth c (apx out y x) 0 = nth c' (apx out y x) 0).
Proof. exact cutout_gaussian. Qed.
Print Assumptions C58_gaussian_fill.

(** Unknown fill modes raise exactly if there is something to fill. *)
Theorem C58_unknown_modes :
  forall cast two_dims nc lo hi im x1 y1 x2 y2 f,
    wf_arr im -> f_mode f = Unknown ->
    (cutout cast two_dims nc lo hi im x1 y1 x2 y2 f = Err AssertionError <->
     exists y x, in_image im y x /\ inside x1 y1 x2 y2 y x).
Proof. exact cutout_unknown. Qed.
Print Assumptions C58_unknown_modes.

(** Sampled areas have the sampled center and size; squared ones are as wide
    as they are high, in pixels. *)
Theorem C58_areas :
  forall h w a,
    let '(x1, y1, x2, y2) := corners h w a in
    (y1 + y2 == 2 * (a_y a * inject_Z h))%Q /\ (y2 - y1 == a_h a * inject_Z h)%Q /\
    (x1 + x2 == 2 * (a_x a * inject_Z w))%Q /\
    (((1 # 2) <= a_squared a -> x2 - x1 == y2 - y1) /\
     (a_squared a < 1 # 2 -> x2 - x1 == a_w a * inject_Z w))%Q.
Proof. exact corners_spec. Qed.
Print Assumptions C58_areas.

(** Several areas: pixels in none of them stay, the last one decides. *)
Theorem C58_outside_all_areas :
  forall cast nc lo hi areas im out,
    cutout_image cast nc lo hi im areas = Ok out ->
    forall y x, in_image im y x -> (forall a, In a areas -> ~ in_area im a y x) ->
      apx out y x = apx im y x.
Proof. intros cast nc lo hi areas im out. exact (image_outside cast nc lo hi areas im out). Qed.
Print Assumptions C58_outside_all_areas.
Theorem C58_last_area_decides :
  forall cast nc lo hi im l1 a l2 out y x,
    cutout_image cast nc lo hi im (l1 ++ a :: l2) = Ok out ->
    in_image im y x -> in_area im a y x -> (forall b, In b l2 -> ~ in_area im b y x) ->
    f_mode (a_fill a) = Constant -> some_value (f_value (a_fill a)) ->
    length (apx out y x) = nc /\
    forall c, (c < nc)%nat ->
      nth c (apx out y x) 0 = cast (meant_for (f_value (a_fill a)) (given_per_channel (a_fill a)) c).
Proof. exact image_last. Qed.
Print Assumptions C58_last_area_decides.

(** In a batch every image gets its own areas, each area is used once. *)
Theorem C58_batches :
  forall cast lo hi images ns samples out,
    length ns = length images -> length samples = fold_right Nat.add 0%nat ns ->
    cutout_batch cast lo hi images ns samples 0 = Ok out ->
    exists parts, cut samples ns parts /\
      Forall3 (fun im part r => cutout_image cast (fst im) lo hi (snd im) part = Ok r) images parts out.
Proof. exact batch_parts. Qed.
Print Assumptions C58_batches.

Definition gray : arr pixel := mkArr 4 4 (fun y x => [10 * y + x; 0; 7]).
Definition pattern := mkFill Constant (Many [1 # 1; 2 # 1]%Q) 1 (fun _ _ _ => 0%Q).
Example C58_rectangle :
  match cutout Qfloor false 3 0 255 gray (-(3 # 2)) (3 # 2) (5 # 2) 9 pattern with
  | Ok out => map (fun y => map (fun x => hd 0 (apx out y x)) [0; 1; 2; 3]) [0; 1; 2; 3]
              = [[0; 1; 2; 3]; [1; 1; 12; 13]; [1; 1; 22; 23]; [1; 1; 32; 33]]
              /\ apx out 2 1 = [1; 2; 1]
  | Err _ => False
  end.
Proof. vm_compute. split; reflexivity. Qed.
Example C58_two_images :
  let a := mkArea (1 # 2) (1 # 2) (1 # 2) (1 # 4) 1 pattern in
  match cutout_batch Qfloor 0 255 [(3%nat, gray); (3%nat, gray); (3%nat, gray)] [1; 0; 2]%nat [a; a; a] 0 with
  | Ok [o1; o2; o3] => apx o1 1 1 = [1; 2; 1] /\ apx o1 2 2 = [1; 2; 1] /\ apx o1 3 3 = [33; 0; 7] /\
      apx o2 1 1 = [11; 0; 7]
  | _ => False
  end.
Proof. vm_compute. repeat split. Qed.

(** ** C59 *)

(** With [per_channel], each component whose mask is 1 gets a sample of its own
    (in order), rounded and limited; the others stay. *)
Theorem C59_components :
  forall lo hi nc image per_channel draw_mask draw_replacement,
    (forall n, length (draw_mask n) = n) -> (forall n, length (draw_replacement n) = n) ->
    (forall n, Forall binary (draw_mask n)) ->
    (1 # 2 < per_channel)%Q ->
    let mask := draw_mask (length image) in
    exists out, replace_image lo hi nc image per_channel draw_mask draw_replacement = Ok out /\
      length out = length image /\
      forall i, (i < length image)%nat ->
        ((nth i mask 0 == 0)%Q -> nth i out 0 = nth i image 0) /\
        ((nth i mask 0 == 1)%Q ->
          nth i out 0 = rounded lo hi (nth (set_before mask i) (draw_replacement (set_before mask (length mask))) 0%Q)).
Proof. exact image_replaced. Qed.
Print Assumptions C59_components.

(** Without it, all channels of a pixel get the same sample or all stay. *)
Theorem C59_pixels :
  forall lo hi nc nb_pixels image per_channel draw_mask draw_replacement,
    (forall n, length (draw_mask n) = n) -> (forall n, length (draw_replacement n) = n) ->
    (forall n, Forall binary (draw_mask n)) ->
    nc <> 0%nat -> length image = (nb_pixels * nc)%nat -> (per_channel <= 1 # 2)%Q ->
    let mask := draw_mask nb_pixels in
    exists out, replace_image lo hi nc image per_channel draw_mask draw_replacement = Ok out /\
      length out = length image /\
      forall p c, (p < nb_pixels)%nat -> (c < nc)%nat ->
        ((nth p mask 0 == 0)%Q -> nth (p * nc + c) out 0 = nth (p * nc + c) image 0) /\
        ((nth p mask 0 == 1)%Q ->
          nth (p * nc + c) out 0
          = rounded lo hi (nth (set_before mask p) (draw_replacement (set_before mask nb_pixels)) 0%Q)).
Proof. exact pixels_replaced. Qed.
Print Assumptions C59_pixels.

(** The function behind it thresholds the mask at 1/2 and wants one sample per
    selected component (or a single one). *)
Theorem C59_function :
  forall lo hi nc image mask replacements,
    length mask = length image -> length replacements = set_before mask (length mask) ->
    exists out, replace_elementwise lo hi nc image false mask replacements = Ok out /\
      length out = length image /\
      forall i, (i < length image)%nat ->
        nth i out 0 = if qltb (1 # 2) (nth i mask 0%Q)
                      then rounded lo hi (nth (set_before mask i) replacements 0%Q) else nth i image 0.
Proof. exact replace_components. Qed.
Print Assumptions C59_function.
Theorem C59_wrong_numbers_raise :
  forall lo hi nc image mask replacements,
    length replacements <> set_before mask (length mask) -> length replacements <> 1%nat ->
    replace_elementwise lo hi nc image false mask replacements = Err ValueError.
Proof. exact wrong_number. Qed.
Print Assumptions C59_wrong_numbers_raise.

(** Masks that are not binary ("will be binarized using a threshold of 0.5"):
    the augmenter draws as many samples as the sum of the unbinarized mask. *)
Theorem C59_fractional_masks_refuted :
  exists draw_mask draw_replacement image,
    (forall n, length (draw_mask n) = n) /\ (forall n, length (draw_replacement n) = n) /\
    Forall (fun m => 1 # 2 < m /\ m <= 1)%Q (draw_mask (length image)) /\
    replace_image 0 255 1 image 1 draw_mask draw_replacement = Err ValueError.
Proof.
  exists (fun n => repeat (3 # 5)%Q n), (fun n => repeat 9%Q n), [1].
  split; [intros; apply repeat_length|]. split; [intros; apply repeat_length|].
  split; [|vm_compute; reflexivity]. constructor; [|constructor]. split; lra.
Qed.
Print Assumptions C59_fractional_masks_refuted.

Definition alternating (n : nat) : list Q := map (fun i => if Nat.even i then 1%Q else 0%Q) (seq 0 n).
Definition counting (n : nat) : list Q := map (fun i => (inject_Z (100 * Z.of_nat (S i)) + (1 # 3))%Q) (seq 0 n).
Example C59_samples :
  (forall n, length (alternating n) = n) /\ (forall n, Forall binary (alternating n)) /\
  replace_image 0 255 2 [1; 2; 3; 4; 5; 6] 1 alternating counting = Ok [100; 2; 200; 4; 255; 6] /\
  replace_image 0 255 2 [1; 2; 3; 4; 5; 6] 0 alternating counting = Ok [100; 100; 3; 4; 200; 200].
Proof.
  split; [intros; unfold alternating; rewrite map_length, seq_length; reflexivity|].
  split.
  - intros n. apply Forall_forall. intros q H. apply in_map_iff in H. destruct H as [i [<- _]].
    destruct (Nat.even i); [right|left]; reflexivity.
  - split; vm_compute; reflexivity.
Qed.

(** ** C60 *)

(** Dropout2d: channels are chosen by their samples, at least [keep] stay,
    the others of the image are untouched. *)
Theorem C60_channels :
  forall (Ch B : Type) (zeroed : Ch -> Ch) (clear : B -> B) keep drop_annotations draw shuffle images rows,
    (forall n, length (draw n) = n) -> (forall i l, Permutation l (shuffle i l)) ->
    length rows = length images ->
    let nbs := map (@length Ch) images in
    exists parts Ds images' rows',
      dropout2d zeroed keep drop_annotations clear draw shuffle (map (fun im => [length im]) images)
        (Some images) (Some rows) = Ok (Some images', Some rows') /\
      cut (draw (fold_right Nat.add 0%nat nbs)) nbs parts /\
      Forall3 (chosen keep) nbs parts Ds /\
      Forall3 (zeroed_at zeroed) images Ds images' /\
      length rows' = length rows /\
      forall i d, (i < length rows)%nat ->
        row_cleared clear (nth i rows d) (nth i rows' d)
          (drop_annotations = true /\ length (nth i Ds []) = nth i nbs 0%nat).
Proof.
  intros Ch B zeroed clear keep da draw shuffle images rows DL SH RL nbs.
  destruct (dropout2d_images zeroed clear keep da draw shuffle images (Some rows) DL SH)
    as [parts [Ds [ims' [C [F [Z E]]]]]].
  pose proof (F3_length _ _ _ _ F) as [_ L]. rewrite map_length in L.
  exists parts, Ds, ims'.
  exists (if da then clear_rows clear rows (lost 0 nbs Ds) else rows).
  split; [rewrite E; destruct da; reflexivity|]. split; [exact C|]. split; [exact F|]. split; [exact Z|].
  split; [destruct da; [apply clear_rows_length|reflexivity]|].
  intros i d H. destruct da.
  - pose proof (cleared_rows clear rows nbs Ds i d) as R. unfold nbs in R at 1. rewrite map_length in R.
    destruct (R ltac:(congruence) ltac:(congruence) H) as [R1 R2].
    split; [intros [_ A]; apply R1; exact A|intros N; apply R2; intros A; apply N; auto].
  - split; [intros [A _]; discriminate|reflexivity].
Qed.
Print Assumptions C60_channels.

(** Hence with [keep] >= 1 the annotations of an image with channels are never
    removed, as documented. *)
Theorem C60_kept_channels :
  forall keep nb ps D, chosen keep nb ps D -> (length D <= nb - keep)%nat.
Proof. exact keeps. Qed.
Print Assumptions C60_kept_channels.

(** Images without channels lose their annotations whatever [keep] is. *)
Theorem C60_no_channels_refuted :
  exists keep draw shuffle,
    (1 <= keep)%nat /\ (forall n, length (draw n) = n) /\ (forall i l, Permutation l (shuffle i l)) /\
    dropout2d (fun c : Z => 0) keep true (fun _ : list Z => []) draw shuffle [[0%nat]] (Some [[]]) (Some [[1; 2]])
    = Ok (Some [[]], Some [[]]).
Proof.
  exists 1%nat, (fun n => repeat 1%Q n), (fun _ l => l). split; [lia|]. split; [intros; apply repeat_length|].
  split; [reflexivity|vm_compute; reflexivity].
Qed.
Print Assumptions C60_no_channels_refuted.

(** Without images, shapes may be given as (H, W): this raises. *)
Theorem C60_shapes_without_channels_refuted :
  forall (B : Type) (clear : B -> B) keep da draw shuffle rows annotations,
    dropout2d (fun c : Z => c) keep da clear draw shuffle ([] :: rows) None annotations = Err IndexError.
Proof. reflexivity. Qed.
Print Assumptions C60_shapes_without_channels_refuted.

(** TotalDropout: image and annotations of a row are removed together, by the
    row's sample. *)
Theorem C60_total_dropout :
  forall (Ch B : Type) (zeroed : Ch -> Ch) (clear : B -> B) ps images rows,
    length ps = length rows -> length images = length rows ->
    exists images' rows',
      total_dropout zeroed true true clear ps (Some images) (Some rows) = (Some images', Some rows') /\
      length images' = length images /\ length rows' = length rows /\
      forall i d e, (i < length rows)%nat ->
        row_cleared clear (nth i rows d) (nth i rows' d) (nth i ps 0 < 1 # 2)%Q /\
        row_cleared (map zeroed) (nth i images e) (nth i images' e) (nth i ps 0 < 1 # 2)%Q.
Proof.
  intros Ch B zeroed clear ps images rows L1 L2. do 2 eexists. split; [reflexivity|].
  split; [apply clear_rows_length|]. split; [apply clear_rows_length|].
  intros i d e H. split; apply total_rows; congruence.
Qed.
Print Assumptions C60_total_dropout.

Example C60_drops :
  let draw := fun n => map (fun i => if Nat.eqb i 1 then 1%Q else 0%Q) (seq 0 n) in
  dropout2d (fun _ : Z => 0) 1 true (fun _ : list Z => []) draw (fun _ l => rev l) [[3%nat]; [2%nat]]
    (Some [[11; 12; 13]; [21; 22]]) (Some [[1]; [2]]) = Ok (Some [[0; 12; 0]; [21; 0]], Some [[1]; [2]]) /\
  dropout2d (fun _ : Z => 0) 0 true (fun _ : list Z => []) draw (fun _ l => rev l) [[3%nat]; [2%nat]]
    (Some [[11; 12; 13]; [21; 22]]) (Some [[1]; [2]]) = Ok (Some [[0; 12; 0]; [0; 0]], Some [[1]; []]) /\
  total_dropout (fun _ : Z => 0) true true (fun _ : list Z => []) [0; 1]%Q
    (Some [[11; 12; 13]; [21; 22]]) (Some [[1]; [2]]) = (Some [[0; 0; 0]; [21; 22]], Some [[]; [2]]).
Proof. repeat split; vm_compute; reflexivity. Qed.
