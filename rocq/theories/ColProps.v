(** C124-C129: colour spaces, blending with converted images, colour temperatures, children in other colour
    spaces, hue and saturation, colour quantization. *)
From Coq Require Import Qabs Lia Lqa.
From Verif Require Import Prelude PreludeFacts AriModel UtilModel BlendModel BlendSpec ConvModel RszModel RszSpec RszProps ColModel ColSpec ColProofs.
Open Scope Z_scope.

(** Conversions used in the examples: swapping two components, the rounded down mean as gray value. *)
Definition swap (from to : cspace) (c : color) : color := let '(a, b, d) := c in (d, b, a).
Definition mean (from : cspace) (c : color) : Z := let '(a, b, d) := c in (a + b + d) / 3.
Example swap_mean_bytes : byte_conversions swap mean.
Proof.
  split; [intros from to [[a b] d] (A & B & D); cbn; tauto|]. intros from [[a b] d] (A & B & D). unfold byte, mean in *.
  split; [apply Z.div_pos; lia|]. apply Z.div_le_upper_bound; lia.
Qed.
(** A list's image of 1 x 2 pixels and one of an array. *)
Definition two (own : bool) (a b : color) : image :=
  mkImage true 1 2 (Some 3%nat) (fun y x n => comp (if x =? 0 then a else b) n) own true.
Lemma two_colored : forall own a b, colored (two own a b).
Proof. intros. repeat split; cbn; lia. Qed.
Lemma two_bytes : forall own a b, bytes a -> bytes b -> byte_image (two own a b).
Proof. intros own [[a1 a2] a3] [[b1 b2] b3] A B y x I. unfold pixel, two. cbn [im_px comp]. destruct (x =? 0); assumption. Qed.

(** ** C124: change_colorspace_ *)
Theorem C124_pixels : forall cvt gray im to from, colored im -> from <> GRAY ->
  exists after out, change_colorspace cvt gray im (Some to) (Some from) = Ok (after, out) /\ converted_image cvt gray from to im out.
Proof. exact change_image. Qed.
Print Assumptions C124_pixels.
Example C124_pixels_witness : exists after out, change_colorspace swap mean (two true (1, 2, 3) (4, 5, 9)) (Some GRAY) (Some HSV) = Ok (after, out) /\
  pixel out 0 0 = (2, 2, 2) /\ pixel out 0 1 = (6, 6, 6) /\ ~ offered HSV GRAY.
Proof. eexists _, _. split; [reflexivity|]. split; [reflexivity|]. split; [reflexivity|]. intros [[H|H]|[H|H]]; discriminate. Qed.

(** What happens to the passed array: nothing if it is a view or not contiguous, or if the space stays the same; otherwise it
    holds the converted image, unless that is gray. *)
Theorem C124_input : forall cvt gray im to from after out, colored im -> change_colorspace cvt gray im (Some to) (Some from) = Ok (after, out) ->
  (from = to -> after = im /\ out = im) /\
  (~ writable im -> after = im) /\
  (writable im -> from <> to -> to <> GRAY -> same_pixels after out) /\
  (writable im -> from = RGB \/ from = BGR -> to = GRAY -> same_pixels after im).
Proof.
  intros cvt gray im to from after out C E. pose proof (change_errors cvt gray im (Some to) (Some from) (proj1 C)) as X. rewrite E in X. destruct X as (_ & _ & _ & _ & G).
  assert (G' : from <> GRAY) by congruence. destruct (cspace_eqb from to) eqn:N; [apply cspace_eqb_iff in N|apply cspace_eqb_false in N].
  - subst to. rewrite change_same in E by assumption. injection E as <- <-. split; [auto|]. split; [auto|]. split; [congruence|]. intros _ _ ->. congruence.
  - rewrite change_form in E by assumption. injection E as EA EO. split; [congruence|]. split; [|split].
    + intros W. destruct (in_place im) eqn:I; [apply in_place_iff in I; contradiction|congruence].
    + intros W _ G2. apply in_place_iff in W. rewrite W, conv2_after in EA by assumption. assert (X : after = out) by (rewrite <- EA, <- EO; destruct to; congruence). rewrite X. split; [split; reflexivity|reflexivity].
    + intros W F ->. apply in_place_iff in W. rewrite W, conv2_after in EA by assumption. assert (D : direct from GRAY = true) by (destruct F; subst; reflexivity). rewrite D in EA. rewrite <- EA. split; [split; reflexivity|reflexivity].
Qed.
Print Assumptions C124_input.
Example C124_input_witness : writable (two true (1, 2, 3) (4, 5, 9)) /\ ~ writable (two false (1, 2, 3) (4, 5, 9)).
Proof. split; [split; reflexivity|intros [H _]; discriminate]. Qed.

(** Values stay bytes. *)
Theorem C124_bytes : forall cvt gray im to from after out, byte_conversions cvt gray -> colored im -> byte_image im ->
  change_colorspace cvt gray im (Some to) (Some from) = Ok (after, out) -> byte_image out.
Proof.
  intros cvt gray im to from after out BC C B E. pose proof (change_errors cvt gray im (Some to) (Some from) (proj1 C)) as X. rewrite E in X. destruct X as (_ & _ & _ & _ & G).
  destruct (change_image cvt gray im to from C ltac:(congruence)) as (a & o & E2 & CI). rewrite E in E2. injection E2 as <- <-. exact (converted_image_bytes cvt gray from to im out BC B CI).
Qed.
Print Assumptions C124_bytes.

(** Which calls are refused, for images with pixels ... *)
Theorem C124_errors : forall cvt gray im to from, has_pixels im ->
  match change_colorspace cvt gray im to from with
  | Ok _ => im_u8 im = true /\ im_c im = Some 3%nat /\ to <> None /\ from <> None /\ from <> Some GRAY
  | Err e => (im_u8 im = false /\ e = ValueError) \/
             (im_u8 im = true /\ e = AssertionError /\ (im_c im <> Some 3%nat \/ to = None \/ from = None \/ from = Some GRAY))
  end.
Proof. exact change_errors. Qed.
Print Assumptions C124_errors.
Example C124_errors_witness : change_colorspace swap mean (two true (1, 2, 3) (4, 5, 9)) (Some RGB) (Some GRAY) = Err AssertionError.
Proof. reflexivity. Qed.
(** ... and those without, which are returned as they are, whatever the other arguments. *)
Theorem C124_no_pixels : forall cvt gray im to from, no_pixels im -> change_colorspace cvt gray im to from = Ok (im, im).
Proof. exact change_none. Qed.
Print Assumptions C124_no_pixels.
Example C124_no_pixels_witness : no_pixels (mkImage false 0 7 None (fun _ _ _ => 0) true true).
Proof. left. reflexivity. Qed.

(** Lists: every image is converted with its own spaces. *)
Theorem C124_list : forall cvt gray imgs to from ts fs outs, named (length imgs) to ts -> named (length imgs) from fs ->
  (change_colorspaces cvt gray imgs to from = Ok outs <->
   length outs = length imgs /\
   forall i d s, (i < length imgs)%nat -> exists after, change_colorspace cvt gray (nth i imgs d) (nth i ts s) (nth i fs s) = Ok (after, nth i outs d)).
Proof. exact images_form. Qed.
Print Assumptions C124_list.
Example C124_list_witness : named 2 (NList [Some BGR; Some GRAY]) [Some BGR; Some GRAY] /\ named 2 (NOne (Some RGB)) [Some RGB; Some RGB] /\
  exists outs, change_colorspaces swap mean [two true (1, 2, 3) (4, 5, 9); two true (1, 2, 3) (4, 5, 9)] (NList [Some BGR; Some GRAY]) (NOne (Some RGB)) = Ok outs /\
    map (fun o => pixel o 0 1) outs = [(9, 5, 4); (6, 6, 6)].
Proof.
  split; [split; [reflexivity|left; reflexivity]|]. split; [split; [reflexivity|right; exists (Some RGB); split; [reflexivity|]]; intros x [<-|[<-|[]]]; reflexivity|].
  eexists. split; reflexivity.
Qed.
Theorem C124_list_lengths : forall cvt gray imgs to from, (forall l, ~ named (length imgs) to l) \/ (forall l, ~ named (length imgs) from l) ->
  change_colorspaces cvt gray imgs to from = Err AssertionError.
Proof. exact images_wrong. Qed.
Print Assumptions C124_list_lengths.
Example C124_list_lengths_witness : forall l, ~ named 2 (NList [Some BGR]) l.
Proof. intros l [L [E|(s & E & _)]]; [injection E as <-; discriminate|discriminate]. Qed.

(** ** C125: ChangeColorspace and Grayscale *)
(** The converted image is blended with the image, if that is a view (as those of an array are) or the conversion is one to
    gray from RGB or BGR. *)
Theorem C125_blend_partial : forall cvt gray from to alpha im, byte_conversions cvt gray -> colored im -> byte_image im -> from <> GRAY -> in_unit alpha ->
  (~ writable im \/ (to = GRAY /\ (from = RGB \/ from = BGR))) ->
  exists r, change_blended cvt gray from (Some to) alpha im = Ok r /\ colored r /\ same_size r im /\
    forall y x, inside im y x -> exists c, converted cvt gray from to (pixel im y x) c /\ blend_of alpha c (pixel im y x) (pixel r y x).
Proof. exact blended_ok. Qed.
Print Assumptions C125_blend_partial.
Example C125_blend_witness : exists r, change_blended swap mean RGB (Some BGR) (1 # 4) (two false (100, 0, 20) (4, 5, 9)) = Ok r /\ pixel r 0 0 = (80, 0, 40).
Proof. eexists. split; reflexivity. Qed.

(** Missing: images of a list, which own their memory. The conversion overwrites them, so that the result is the converted
    image whatever the alpha ... *)
Theorem C125_alpha_ignored_refuted : forall cvt gray from to alpha im, byte_conversions cvt gray -> colored im -> byte_image im ->
  from <> GRAY -> to <> GRAY -> from <> to -> in_unit alpha -> (1 # 1000 < alpha)%Q -> writable im ->
  exists r, change_blended cvt gray from (Some to) alpha im = Ok r /\ converted_image cvt gray from to im r.
Proof. exact in_place_full. Qed.
Print Assumptions C125_alpha_ignored_refuted.
Example C125_alpha_ignored_witness : exists r, change_blended swap mean RGB (Some BGR) (1 # 4) (two true (100, 0, 20) (4, 5, 9)) = Ok r /\ pixel r 0 0 = (20, 0, 100) /\
  ~ blend_of (1 # 4) (20, 0, 100) (100, 0, 20) (pixel r 0 0).
Proof.
  eexists. split; [reflexivity|]. split; [reflexivity|]. intros H. destruct (H 0%nat ltac:(lia)) as (_ & [A|[[A _]|[A _]]] & _); [|revert A; apply Qlt_not_le; reflexivity..].
  revert A. apply Qlt_not_le. reflexivity.
Qed.
(** ... and gray images of other spaces than RGB and BGR are blended with the image in RGB. *)
Theorem C125_gray_of_other_spaces_refuted : forall cvt gray from alpha im, byte_conversions cvt gray -> colored im -> byte_image im ->
  from <> GRAY -> from <> RGB -> from <> BGR -> in_unit alpha -> (1 # 1000 < alpha)%Q -> writable im ->
  exists r, change_blended cvt gray from (Some GRAY) alpha im = Ok r /\ colored r /\ same_size r im /\
    forall y x, inside im y x -> exists c, converted cvt gray from GRAY (pixel im y x) c /\ blend_of alpha c (cvt from RGB (pixel im y x)) (pixel r y x).
Proof. exact gray_of_other. Qed.
Print Assumptions C125_gray_of_other_spaces_refuted.
Example C125_gray_of_other_spaces_witness : exists r, change_blended swap mean HSV (Some GRAY) (1 # 4) (two true (100, 0, 20) (4, 5, 9)) = Ok r /\ pixel r 0 0 = (25, 10, 85).
Proof. eexists. split; reflexivity. Qed.

(** Grayscale on RGB and BGR images: no restriction. *)
Theorem C125_grayscale : forall cvt gray from alphas imgs, byte_conversions cvt gray -> Forall colored imgs -> Forall byte_image imgs -> (from = RGB \/ from = BGR) ->
  length alphas = length imgs -> Forall in_unit alphas ->
  exists outs, grayscale_batch cvt gray from alphas imgs = Ok outs /\ length outs = length imgs /\
    forall i d, (i < length imgs)%nat -> colored (nth i outs d) /\ same_size (nth i outs d) (nth i imgs d) /\
      forall y x, inside (nth i imgs d) y x -> let g := gray from (pixel (nth i imgs d) y x) in
        blend_of (nth i alphas 0%Q) (g, g, g) (pixel (nth i imgs d) y x) (pixel (nth i outs d) y x).
Proof.
  intros cvt gray from alphas imgs BC C B F. unfold grayscale_batch, change_batch. revert alphas. induction imgs as [|im imgs IH]; intros alphas L U.
  - exists []. destruct alphas; [|discriminate]. split; [reflexivity|]. split; [reflexivity|]. intros i d Hi. cbn in Hi. lia.
  - destruct alphas as [|a alphas]; [discriminate|]. inversion C as [|? ? C1 C2]; inversion B as [|? ? B1 B2]; inversion U as [|? ? U1 U2]; subst.
    destruct (IH C2 B2 alphas) as (outs & E & LO & R); [cbn in L; lia|exact U2|].
    destruct (blended_ok cvt gray from GRAY a im BC C1 B1 ltac:(destruct F; congruence) U1 (or_intror (conj eq_refl F))) as (r & R1 & R2 & R3 & R4).
    exists (r :: outs). cbn [map combine]. rewrite RszProofs.mapM_cons. cbn [fst snd]. rewrite R1. cbn [bind]. rewrite E. cbn [bind]. split; [reflexivity|]. split; [cbn; lia|].
    intros [|i] d Hi; [|cbn; apply R; cbn in Hi; lia]. cbn. split; [exact R2|]. split; [exact R3|]. intros y x I. destruct (R4 y x I) as (c & [(X & _)|[(_ & _ & ->)|(_ & O & _)]] & Y).
    + destruct F; congruence.
    + exact Y.
    + exfalso. apply O. left. exact F.
Qed.
Print Assumptions C125_grayscale.
Example C125_grayscale_witness : exists outs, grayscale_batch swap mean RGB [1; 1 # 2]%Q [two true (1, 2, 3) (4, 5, 9); two true (100, 0, 20) (4, 5, 9)] = Ok outs /\
  map (fun o => pixel o 0 0) outs = [(2, 2, 2); (70, 20, 30)].
Proof. eexists. split; reflexivity. Qed.

(** Every image of a batch is handled on its own, with its own alpha and space. *)
Theorem C125_batch : forall cvt gray from drawn imgs outs, length drawn = length imgs ->
  (change_batch cvt gray from drawn imgs = Ok outs <->
   length outs = length imgs /\
   forall i d e, (i < length imgs)%nat -> change_blended cvt gray from (snd (nth i drawn e)) (fst (nth i drawn e)) (nth i imgs d) = Ok (nth i outs d)).
Proof.
  intros cvt gray from drawn imgs outs L. unfold change_batch. rewrite mapM_Ok_iff. revert drawn outs L.
  induction imgs as [|im imgs IH]; intros drawn outs L.
  - destruct drawn; [|discriminate]. cbn [combine]. split.
    + intros F. inversion F. split; [reflexivity|]. intros i d e Hi. cbn in Hi. lia.
    + intros [E _]. destruct outs; [constructor|discriminate].
  - destruct drawn as [|a drawn]; [discriminate|]. cbn [combine]. split.
    + intros F. inversion F as [|? o ? outs' F1 F2]; subst. cbn [fst snd] in F1. apply IH in F2; [|cbn in L; lia]. destruct F2 as [E R].
      split; [cbn; lia|]. intros [|i] d e Hi; [exact F1|]. cbn in Hi |- *. apply R. lia.
    + intros [E R]. destruct outs as [|o outs]; [discriminate|]. constructor; [exact (R 0%nat im a ltac:(cbn; lia))|]. apply IH; [cbn in L; lia|].
      split; [cbn in E; lia|]. intros i d e Hi. exact (R (S i) d e ltac:(cbn; lia)).
Qed.
Print Assumptions C125_batch.
Example C125_batch_witness : (do outs <- change_batch swap mean RGB [(1 # 4, Some BGR); (1, Some GRAY)]%Q [two false (100, 0, 20) (4, 5, 9); two true (1, 2, 3) (4, 5, 9)]; Ok (map (fun o => pixel o 0 0) outs)) = Ok [(80, 0, 40); (2, 2, 2)].
Proof. reflexivity. Qed.
(** The constructor. *)
Theorem C125_constructor : forall to from,
  match check_change to from with
  | Ok f => from = Some (Some f) /\ f <> GRAY /\
      match to with TName s => s <> None | TIter l => forall o, In o l -> exists s, o = Some (Some s) | TParam => True | TOther => False end
  | Err e => e = AssertionError \/ (to = TOther /\ e = GenericException)
  end.
Proof.
  intros to from. unfold check_change.
  assert (F : forall P : Prop, match (match from with Some (Some GRAY) => Err AssertionError | Some (Some f) => Ok f | _ => Err AssertionError end) with
    | Ok f => P -> from = Some (Some f) /\ f <> GRAY /\ P | Err e => e = AssertionError end).
  { intros P. destruct from as [[[]|]|]; try reflexivity; intros H; repeat split; try congruence; exact H. }
  destruct to as [[s|]|l| |]; cbn [bind].
  - specialize (F (Some s <> None)). destruct (match from with Some (Some GRAY) => _ | _ => _ end); [apply F; discriminate|left; exact F].
  - left. reflexivity.
  - destruct (forallb _ l) eqn:E; [|left; reflexivity]. cbn [bind]. specialize (F (forall o, In o l -> exists s, o = Some (Some s))). destruct (match from with Some (Some GRAY) => _ | _ => _ end); [apply F|left; exact F].
    intros o Ho. rewrite forallb_forall in E. specialize (E o Ho). destruct o as [[s|]|]; try discriminate. exists s. reflexivity.
  - specialize (F True). destruct (match from with Some (Some GRAY) => _ | _ => _ end); [apply F; exact Logic.I|left; exact F].
  - right. auto.
Qed.
Print Assumptions C125_constructor.
Example C125_constructor_witness : check_change (TIter [Some (Some HSV); Some (Some GRAY)]) (Some (Some BGR)) = Ok BGR.
Proof. reflexivity. Qed.
(** Images left alone. *)
Theorem C125_unchanged : forall cvt gray from to alpha im, (alpha <= 1 # 1000)%Q \/ to = from -> change_blended cvt gray from (Some to) alpha im = Ok im.
Proof.
  intros cvt gray from to alpha im [A| ->]; unfold change_blended.
  - assert (E : qleb alpha cs_eps = true) by (apply qleb_iff; exact A). rewrite E. reflexivity.
  - rewrite (proj2 (cspace_eqb_iff from from) eq_refl), Bool.orb_true_r. reflexivity.
Qed.
Print Assumptions C125_unchanged.

(** ** C126: colour temperatures *)
(** The factors of the channels are in the unit interval. With growing temperature red falls, blue grows, green grows up to 6600 K
    and falls from 6500 K. *)
Theorem C126_multipliers : forall k k' n, (k <= k')%Q ->
  (0 <= multiplier k n <= 1)%Q /\ (multiplier k' red <= multiplier k red)%Q /\ (multiplier k blue <= multiplier k' blue)%Q /\
  ((k' <= 6600)%Q -> (multiplier k green <= multiplier k' green)%Q) /\ ((6500 <= k)%Q -> (multiplier k' green <= multiplier k green)%Q).
Proof.
  intros k k' n H. split; [apply multiplier_unit|]. split; [apply multiplier_red; exact H|]. split; [apply multiplier_blue; exact H|].
  split; [intros X; apply multiplier_green_up; assumption|intros X; apply multiplier_green_down; assumption].
Qed.
Print Assumptions C126_multipliers.
(** Between multiples of 100 K they are interpolated linearly, outside of 1000..40000 K they are constant. *)
Theorem C126_interpolation : forall n,
  (forall j d, 10 <= j < 400 -> (0 <= d <= 1)%Q ->
     (multiplier (inject_Z (100 * j) + 100 * d) n == (1 - d) * multiplier (inject_Z (100 * j)) n + d * multiplier (inject_Z (100 * (j + 1))) n)%Q) /\
  (forall k, ((k <= 1000)%Q -> (multiplier k n == multiplier 1000 n)%Q) /\ ((40000 <= k)%Q -> (multiplier k n == multiplier 40000 n)%Q)).
Proof. intros n. split; [intros j d; apply multiplier_between|intros k; apply multiplier_clip]. Qed.
Print Assumptions C126_interpolation.
Example C126_multipliers_witness : (multiplier 1000 red == 1 /\ multiplier 1000 green == 56 # 255 /\ multiplier 1000 blue == 0 /\ multiplier 1050 green == 127 # 510 /\
  multiplier 6600 red == 254 # 255 /\ multiplier 6600 green == 249 # 255 /\ multiplier 6600 blue == 1 /\ multiplier 40000 red == 155 # 255)%Q.
Proof. vm_compute. repeat split. Qed.

(** Every image is converted to RGB, multiplied and converted back. *)
Theorem C126_images : forall cvt gray imgs k from ks fs, byte_conversions cvt gray -> imgs <> [] -> Forall colored imgs -> Forall byte_image imgs ->
  one_each (length imgs) k ks -> named (length imgs) from fs -> Forall (fun s => s <> None /\ s <> Some GRAY) fs -> (1000 <= nth 0 ks 0 <= 40000)%Q ->
  exists outs, change_color_temperatures cvt gray imgs k from = Ok outs /\ length outs = length imgs /\
    forall i d, (i < length imgs)%nat -> exists f, nth i fs None = Some f /\ recolored cvt gray (nth i ks 0%Q) f (nth i imgs d) (nth i outs d).
Proof.
  intros cvt gray imgs k from ks fs BC N C B K F V R. rewrite (temperatures_form cvt gray imgs k from ks fs N K F).
  assert (E : qleb 1000 (nth 0 ks 0%Q) && qleb (nth 0 ks 0%Q) 40000 = true) by (apply andb_true_intro; split; apply qleb_iff; apply R). rewrite E.
  destruct imgs as [|im0 imgs0] eqn:EI; [congruence|]. rewrite <- EI in *. clear N.
  destruct (mapM_combine3 (fun p => temper cvt gray (fst p) (fst (snd p)) (snd (snd p))) (fun im k s o => exists f, s = Some f /\ recolored cvt gray k f im o) imgs ks fs im0 0%Q None im0) as (outs & E1 & L & H).
  - apply K.
  - apply F.
  - intros i Hi. cbn [fst snd]. rewrite Forall_forall in C, B, V. destruct (V (nth i fs None)) as [V1 V2]; [apply nth_In; destruct F as [F _]; lia|].
    destruct (nth i fs None) as [f|]; [|congruence]. destruct (tempered cvt gray (nth i imgs im0) (nth i ks 0%Q) f BC) as (o & O1 & O2); [apply C, nth_In; exact Hi|apply B, nth_In; exact Hi|congruence|].
    exists o. split; [exact O1|]. exists f. split; [reflexivity|exact O2].
  - exists outs. split; [exact E1|]. split; [exact L|]. intros i d Hi. rewrite (nth_indep imgs d im0) by exact Hi. rewrite (nth_indep outs d im0) by lia. apply H. exact Hi.
Qed.
Print Assumptions C126_images.
(** ChangeColorTemperature does the same with the drawn temperatures. *)
Theorem C126_augmenter : forall cvt gray imgs drawn f, byte_conversions cvt gray -> imgs <> [] -> Forall colored imgs -> Forall byte_image imgs ->
  length drawn = length imgs -> f <> GRAY -> (1000 <= nth 0 drawn 0 <= 40000)%Q ->
  exists outs, temperature_batch cvt gray (Some f) drawn imgs = Ok outs /\ length outs = length imgs /\
    forall i d, (i < length imgs)%nat -> recolored cvt gray (nth i drawn 0%Q) f (nth i imgs d) (nth i outs d).
Proof.
  intros cvt gray imgs drawn f BC N C B L G R.
  destruct (C126_images cvt gray imgs (KList drawn) (NOne (Some f)) drawn (repeat (Some f) (length imgs)) BC N C B) as (outs & E & LO & H).
  - split; [exact L|left; reflexivity].
  - apply named_one.
  - apply Forall_forall. intros s Hs. apply repeat_spec in Hs. subst s. split; congruence.
  - exact R.
  - exists outs. split; [exact E|]. split; [exact LO|]. intros i d Hi. destruct (H i d Hi) as (f' & E' & RC). rewrite nth_repeat' in E' by exact Hi. injection E' as <-. exact RC.
Qed.
Print Assumptions C126_augmenter.
(** For RGB images that means that every component is multiplied, rounded, and never brighter. *)
Theorem C126_rgb : forall cvt gray k im out, recolored cvt gray k RGB im out -> forall y x, inside im y x -> darkened_color (multiplier k) (pixel im y x) (pixel out y x).
Proof. exact recolored_rgb. Qed.
Print Assumptions C126_rgb.
Example C126_images_witness : (do outs <- change_color_temperatures swap mean [two true (200, 100, 50) (0, 255, 1); two true (200, 100, 50) (0, 255, 1)] (KList [1000; 2000]%Q) (NList [Some RGB; Some BGR]);
    Ok (map (fun o => (pixel o 0 0, pixel o 0 1)) outs)) = Ok [((200, 22, 0), (0, 56, 0)); ((14, 54, 50), (0, 137, 1))].
Proof. vm_compute. reflexivity. Qed.

(** Refused calls. *)
Theorem C126_errors : forall cvt gray imgs k from, imgs <> [] ->
  ((forall l, ~ one_each (length imgs) k l) \/ (forall l, ~ named (length imgs) from l) \/
   (exists ks, one_each (length imgs) k ks /\ ((nth 0 ks 0 < 1000)%Q \/ (40000 < nth 0 ks 0)%Q))) ->
  change_color_temperatures cvt gray imgs k from = Err AssertionError.
Proof.
  intros cvt gray imgs k from N H.
  assert (KB : (forall l, ~ one_each (length imgs) k l) -> change_color_temperatures cvt gray imgs k from = Err AssertionError).
  { intros X. unfold change_color_temperatures. destruct imgs; [congruence|]. rewrite (kelvins_bad _ _ X). reflexivity. }
  destruct H as [H|[H|(ks & H & R)]]; [auto| |].
  - destruct (per_image_kelvins (length imgs) k) as [l|e] eqn:E.
    + unfold change_color_temperatures. destruct imgs; [congruence|]. rewrite E. cbn [bind]. rewrite (per_image_bad _ _ H). reflexivity.
    + apply KB. intros l X. apply kelvins_named in X. congruence.
  - destruct (per_image (length imgs) from) as [fs|e] eqn:E.
    + unfold change_color_temperatures. destruct imgs; [congruence|]. rewrite (kelvins_named _ _ _ H). cbn [bind]. rewrite E. cbn [bind]. destruct ks as [|k0 ks]; [destruct H; discriminate|]. cbn [nth] in R.
      assert (X : qleb 1000 k0 && qleb k0 40000 = false) by (apply Bool.andb_false_iff; destruct R as [R|R]; [left|right]; apply qleb_false; exact R). rewrite X. reflexivity.
    + unfold change_color_temperatures. destruct imgs; [congruence|]. rewrite (kelvins_named _ _ _ H). cbn [bind]. rewrite E. cbn [bind]. destruct from as [s|l|]; cbn [per_image] in E; [discriminate| |congruence]. destruct (Nat.eqb _ _); congruence.
Qed.
Print Assumptions C126_errors.
Example C126_errors_witness : one_each 1 (KNum 999) [999%Q].
Proof. split; [reflexivity|]. right. exists 999%Q. split; [reflexivity|]. intros x [<-|[]]. reflexivity. Qed.
(** Only the first temperature is checked: others are clipped silently. *)
Theorem C126_temperatures_checked_refuted : forall cvt gray im k, byte_conversions cvt gray -> colored im -> byte_image im -> (40000 < k)%Q ->
  change_color_temperatures cvt gray [im] (KList [k]) (NOne (Some RGB)) = Err AssertionError /\
  exists a b, change_color_temperatures cvt gray [im; im] (KList [40000%Q; k]) (NOne (Some RGB)) = Ok [a; b] /\
    forall y x, inside im y x -> darkened_color (multiplier 40000) (pixel im y x) (pixel b y x).
Proof.
  intros cvt gray im k BC C B K. split.
  - apply C126_errors; [discriminate|]. right; right. exists [k]. split; [split; [reflexivity|left; reflexivity]|]. right. exact K.
  - destruct (C126_images cvt gray [im; im] (KList [40000%Q; k]) (NOne (Some RGB)) [40000%Q; k] [Some RGB; Some RGB] BC) as (outs & E & L & R); try discriminate.
    + apply Forall_cons; [exact C|apply Forall_cons; [exact C|apply Forall_nil]].
    + apply Forall_cons; [exact B|apply Forall_cons; [exact B|apply Forall_nil]].
    + split; [reflexivity|left; reflexivity].
    + apply (named_one 2).
    + repeat constructor; discriminate.
    + cbn. lra.
    + destruct outs as [|a [|b [|]]]; try discriminate. exists a, b. split; [exact E|]. intros y x I. destruct (R 1%nat im) as (f & Ef & RC); [cbn; lia|]. cbn in Ef, RC. injection Ef as <-.
      pose proof (recolored_rgb cvt gray k im b RC y x I) as D. intros n Hn. destruct (D n Hn) as [D1 D2]. split; [exact D1|]. assert (M := proj2 (multiplier_clip k n) ltac:(lra)). rewrite <- M. exact D2.
Qed.
Print Assumptions C126_temperatures_checked_refuted.
(** change_color_temperature overwrites the passed image with the result. *)
Theorem C126_input_kept_refuted : forall cvt gray im k from after out, change_color_temperature cvt gray im k from = Ok (after, out) -> same_pixels after out.
Proof.
  intros cvt gray im k from after out. unfold change_color_temperature. destruct (change_color_temperatures _ _ _ _ _) as [[|o [|]]|e]; cbn [bind]; try discriminate.
  intros E. injection E as <- <-. split; [split; reflexivity|reflexivity].
Qed.
Print Assumptions C126_input_kept_refuted.
Example C126_input_kept_witness : (do r <- change_color_temperature swap mean (two true (200, 100, 50) (0, 255, 1)) 1000 (Some RGB); Ok (pixel (fst r) 0 0)) = Ok (200, 22, 0).
Proof. vm_compute. reflexivity. Qed.
(** Images without pixels. *)
Theorem C126_no_pixels : forall cvt gray im k from, no_pixels im -> im_c im = Some 3%nat ->
  exists out, temper cvt gray im k from = Ok out /\ same_size out im /\ im_c out = Some 3%nat.
Proof. exact temper_none. Qed.
Print Assumptions C126_no_pixels.

(** ** C127: children in another colour space *)
(** WithColorspace: the children get the converted images; what they return is converted back. *)
Theorem C127_with_colorspace : forall cvt gray children to from imgs, Forall colored imgs -> from <> GRAY -> to <> GRAY ->
  exists inner, Forall2 (converted_image cvt gray from to) imgs inner /\
    (forall e, children inner = Err e -> with_colorspace cvt gray children (Some to) (Some from) imgs = Err e) /\
    (forall inner', children inner = Ok inner' -> Forall colored inner' ->
       exists outs, with_colorspace cvt gray children (Some to) (Some from) imgs = Ok outs /\ Forall2 (converted_image cvt gray to from) inner' outs).
Proof. exact with_space. Qed.
Print Assumptions C127_with_colorspace.
Example C127_with_colorspace_witness : exists outs,
  with_colorspace swap mean (fun l => Ok (map (fun im => fresh im (fun y x n => match n with O => 7 | _ => im_px im y x n end)) l)) (Some BGR) (Some RGB) [two true (1, 2, 3) (4, 5, 9)] = Ok outs /\
  map (fun o => pixel o 0 0) outs = [(1, 2, 7)].
Proof. eexists. split; reflexivity. Qed.
(** Gray images cannot be converted back: the colour space GRAY is accepted and fails for every image. *)
Theorem C127_gray_refuted : forall cvt gray children from imgs, imgs <> [] -> Forall colored imgs -> from <> GRAY ->
  (forall l, exists l', children l = Ok l' /\ length l' = length l /\ Forall colored l') ->
  with_colorspace cvt gray children (Some GRAY) (Some from) imgs = Err AssertionError.
Proof.
  intros cvt gray children from imgs N C G H. destruct (images_one cvt gray imgs GRAY from C G) as (inner & E & F). unfold with_colorspace. rewrite E. cbn [bind].
  destruct (H inner) as (l' & E2 & L & C2). rewrite E2. cbn [bind]. destruct l' as [|i l']; [destruct inner; [|discriminate]; inversion F; subst; congruence|].
  unfold change_colorspaces. cbn [per_image length bind repeat combine]. unfold change_each. rewrite RszProofs.mapM_cons. cbn [fst snd].
  pose proof (change_errors cvt gray i (Some from) (Some GRAY)) as X. inversion C2 as [|? ? C3 C4]; subst. specialize (X (proj1 C3)).
  destruct (change_colorspace cvt gray i (Some from) (Some GRAY)) as [r|e]; [destruct X as (_ & _ & _ & _ & X); congruence|]. destruct X as [[X _]|(_ & -> & _)]; [destruct C3 as (_ & U & _); congruence|reflexivity].
Qed.
Print Assumptions C127_gray_refuted.
(** WithBrightnessChannels: the children get the brightness channel; the other two components are those of the converted image. *)
Theorem C127_with_brightness : forall cvt gray children from drawn imgs d, Forall colored imgs -> from <> GRAY -> length drawn = length imgs ->
  Forall (fun s => exists t id, s = Some t /\ brightness t id) drawn ->
  exists cvts chs, length cvts = length imgs /\ length chs = length imgs /\
    (forall i, (i < length imgs)%nat -> exists t id, nth i drawn None = Some t /\ brightness t id /\
        converted_image cvt gray from t (nth i imgs d) (nth i cvts d) /\ single_channel id (nth i cvts d) (nth i chs d)) /\
    (forall e, children chs = Err e -> with_brightness cvt gray children (Some from) drawn imgs = Err e) /\
    (forall chs', children chs = Ok chs' -> length chs' = length imgs ->
       (forall i, (i < length imgs)%nat -> same_size (nth i chs' d) (nth i imgs d) /\ im_c (nth i chs' d) = Some 1%nat /\
           forall y x, inside (nth i imgs d) y x -> byte (im_px (nth i chs' d) y x 0%nat)) ->
       exists outs, with_brightness cvt gray children (Some from) drawn imgs = Ok outs /\ length outs = length imgs /\
         forall i, (i < length imgs)%nat -> exists t id, nth i drawn None = Some t /\ brightness t id /\ colored (nth i outs d) /\ same_size (nth i outs d) (nth i imgs d) /\
           forall y x, inside (nth i imgs d) y x -> exists c,
             replaced id (im_px (nth i chs' d) y x 0%nat) (pixel (nth i cvts d) y x) c /\ converted cvt gray t from c (pixel (nth i outs d) y x)).
Proof. exact with_bright. Qed.
Print Assumptions C127_with_brightness.
Example C127_with_brightness_witness : exists outs,
  with_brightness swap mean (fun l => Ok (map (fun im => mkImage true (im_h im) (im_w im) (Some 1%nat) (fun y x n => 255 - im_px im y x 0%nat) true true) l)) (Some RGB) [Some HSV; Some HLS]
    [two true (1, 2, 3) (4, 5, 9); two true (1, 2, 3) (4, 5, 9)] = Ok outs /\
  map (fun o => pixel o 0 0) outs = [(254, 2, 3); (1, 253, 3)].
Proof. eexists. split; reflexivity. Qed.

(** ** C128: WithHueAndSaturation *)
(** The children get hue (0..254 around the circle) and saturation. Of what they return, the hue is taken as an angle, the saturation is clipped,
    the value of the image is kept. *)
Theorem C128_hue_and_saturation : forall cvt gray children from imgs, Forall colored imgs -> from <> GRAY ->
  exists hsv hs, Forall2 (converted_image cvt gray from HSV) imgs hsv /\ Forall2 hue_and_saturation hsv hs /\
    (forall e, children hs = Err e -> with_hue_and_saturation cvt gray children (Some from) imgs = Err e) /\
    (forall hs', children hs = Ok hs' -> Forall2 (fun a b => same_size a b /\ im_c a = Some 2%nat) hs' imgs ->
       exists outs, with_hue_and_saturation cvt gray children (Some from) imgs = Ok outs /\ length outs = length imgs /\
         forall i d, (i < length imgs)%nat -> colored (nth i outs d) /\ same_size (nth i outs d) (nth i imgs d) /\
           forall y x, inside (nth i imgs d) y x -> exists c,
             hs_merged (im_px (nth i hs' d) y x 0%nat) (im_px (nth i hs' d) y x 1%nat) (pixel (nth i hsv d) y x) c /\
             converted cvt gray HSV from c (pixel (nth i outs d) y x)).
Proof. exact with_hs. Qed.
Print Assumptions C128_hue_and_saturation.
Example C128_hue_and_saturation_witness : exists outs,
  with_hue_and_saturation swap mean (fun l => Ok (map (fun im => mkImage false (im_h im) (im_w im) (Some 2%nat) (fun y x n => im_px im y x n - 100) true true) l)) (Some HSV) [two true (12, 200, 3) (120, 50, 9)] = Ok outs /\
  map (fun o => (pixel o 0 0, pixel o 0 1)) outs = [((121, 100, 3), (49, 0, 9))].
Proof. eexists. split; reflexivity. Qed.
(** The angle is unique, and the same for hues that differ by full turns. *)
Theorem C128_angles : forall v v' h h' k, same_angle v h -> same_angle v' h' -> v' = v + 255 * k -> h = h'.
Proof. intros v v' h h' k (a & A & B) (b & C & D) ->. assert (b = a + k) by lia. subst b. lia. Qed.
Print Assumptions C128_angles.
(** Without children, the hue of most pixels decreases by 1. *)
Theorem C128_identity_refuted : forall cvt gray im, colored im -> (forall y x, inside im y x -> 0 <= im_px im y x 0%nat < 180 /\ 0 <= im_px im y x 1%nat <= 255) ->
  exists out, with_hue_and_saturation cvt gray (fun l => Ok l) (Some HSV) [im] = Ok [out] /\ same_size out im /\
    forall y x, inside im y x -> pixel out y x = (if im_px im y x 0%nat mod 12 =? 0 then im_px im y x 0%nat else im_px im y x 0%nat - 1, im_px im y x 1%nat, im_px im y x 2%nat).
Proof.
  intros cvt gray im C B. unfold with_hue_and_saturation. unfold change_colorspaces. cbn [length per_image repeat bind combine]. unfold change_each.
  rewrite RszProofs.mapM_cons. cbn [fst snd]. rewrite (change_same cvt gray im HSV C) by discriminate. cbn [bind mapM sequence map snd].
  destruct C as (P & U & C). unfold mapM. cbn [map sequence to_hs]. unfold to_hs. rewrite C. cbn [Nat.ltb Nat.leb bind from_hs_all].
  unfold from_hs. rewrite C. cbn [im_c Nat.ltb Nat.leb orb im_h im_w]. rewrite !Z.eqb_refl. cbn [andb negb bind length per_image repeat combine map sequence fst snd].
  match goal with |- context [change_colorspace cvt gray ?o _ _] => set (out := o) end.
  rewrite (change_same cvt gray out HSV) by first [discriminate|split; [exact P|split; reflexivity]]. cbn [bind map snd].
  exists out. split; [reflexivity|]. split; [split; reflexivity|]. intros y x I. destruct (B y x I) as [B1 B2]. unfold pixel, out. cbn [fresh im_px]. rewrite hue_roundtrip by exact B1.
  f_equal. f_equal. unfold zclip. lia.
Qed.
Print Assumptions C128_identity_refuted.
Example C128_identity_witness : exists out, with_hue_and_saturation swap mean (fun l => Ok l) (Some HSV) [two true (12, 200, 3) (121, 50, 9)] = Ok [out] /\ (pixel out 0 0, pixel out 0 1) = ((12, 200, 3), (120, 50, 9)).
Proof. eexists. split; reflexivity. Qed.

(** ** C129: colour quantization *)
(** k-means: the shape and dtype are kept, there are at most as many colours as clusters. *)
Theorem C129_kmeans : forall km rng generate_seed im n it eps cv (g : rng), im_u8 im = true -> 0 <= im_h im -> 0 <= im_w im -> 2 <= n <= 256 -> byte_channels im ->
  (forall seed pixels, clustering (channels im) pixels n (km seed pixels n it eps)) ->
  exists out cv' g', quantize_kmeans km rng generate_seed im n it eps cv g = Ok (out, cv', g') /\
    same_size out im /\ im_c out = im_c im /\ im_u8 out = true /\
    exists palette, Z.of_nat (length palette) <= n /\ Forall (fun c => length c = channels im /\ Forall byte c) palette /\
      forall y x, inside im y x -> In (map (im_px out y x) (seq 0 (channels im))) palette.
Proof. exact kmeans_ok. Qed.
Print Assumptions C129_kmeans.
(** Every pixel becomes the center of its own cluster, rounded down. *)
Theorem C129_kmeans_centers : forall km rng generate_seed im n it eps cv (g : rng) out cv' g' y x k, n < im_h im * im_w im ->
  quantize_kmeans km rng generate_seed im n it eps cv g = Ok (out, cv', g') ->
  (forall seed pixels, clustering (channels im) pixels n (km seed pixels n it eps)) -> inside im y x -> (k < channels im)%nat ->
  let r := km 1 (pixel_vectors (im_h im) (im_w im) (channels im) (im_px im)) n it eps in
  let q := nth k (nth (nth (Z.to_nat (y * im_w im + x)) (fst r) 0%nat) (snd r) []) 0%Q in
  (inject_Z (im_px out y x k) <= q)%Q /\ (q < inject_Z (im_px out y x k) + 1)%Q.
Proof. exact kmeans_center. Qed.
Print Assumptions C129_kmeans_centers.
(** The pixel at (y, x) is number y * w + x among those given to k-means. *)
Theorem C129_pixel_order : forall h w nc px y x, 0 <= y < h -> 0 <= x < w -> nth (Z.to_nat (y * w + x)) (pixel_vectors h w nc px) [] = map (px y x) (seq 0 nc).
Proof.
  intros h w nc px y x Y X. unfold pixel_vectors.
  assert (E : Z.to_nat (y * w + x) = (Z.to_nat y * Z.to_nat w + Z.to_nat x)%nat) by nia. rewrite E.
  rewrite (flat_nth _ (Z.to_nat w)); [|intros v; rewrite map_length; unfold zrange; rewrite map_length, seq_length; reflexivity|lia|unfold zrange; rewrite map_length, seq_length; lia].
  unfold zrange. rewrite !map_map, !nth_map_seq by lia. rewrite !Z2Nat.id by lia. reflexivity.
Qed.
Print Assumptions C129_pixel_order.
(** A clustering for the examples: the pixels alternate between two centers. *)
Definition alternating (seed : Z) (pixels : list (list Z)) (n it : Z) (eps : Q) : list nat * list (list Q) :=
  (map (fun i => (i mod 2)%nat) (seq 0 (length pixels)), [[10; 20; 30 + (1 # 2)]; [200; 100; 0]]%Q).
Example C129_kmeans_witness : (forall seed pixels, clustering 3 pixels 2 (alternating seed pixels 2 10 1)) /\
  exists out, quantize_kmeans alternating Z (fun g => (g, g + 1)) (mkImage true 1 3 (Some 3%nat) (fun y x n => 5 * x) true true) 2 10 1 77 42 = Ok (out, 42, 43) /\
    map (pixel out 0) [0; 1; 2] = [(10, 20, 30); (200, 100, 0); (10, 20, 30)].
Proof.
  split.
  - intros seed pixels. split; [cbn; rewrite map_length, seq_length; reflexivity|]. split; [reflexivity|]. split.
    + apply Forall_forall. intros l Hl. cbn [alternating fst] in Hl. apply in_map_iff in Hl. destruct Hl as (i & <- & _). cbn [alternating snd length]. apply Nat.mod_upper_bound. discriminate.
    + repeat constructor; cbn; lra.
  - eexists. split; reflexivity.
Qed.
(** Images with no more pixels than clusters are copied and no random number is drawn. *)
Theorem C129_few_pixels : forall km rng generate_seed im n it eps cv (g : rng), im_u8 im = true -> 2 <= n <= 256 -> im_h im * im_w im <= n ->
  quantize_kmeans km rng generate_seed im n it eps cv g = Ok (im, cv, g).
Proof. exact kmeans_small. Qed.
Print Assumptions C129_few_pixels.
(** The result does not depend on the states of the random number generators. *)
Theorem C129_deterministic : forall km rng generate_seed im n it eps cv (g : rng) cv' g',
  match quantize_kmeans km rng generate_seed im n it eps cv g, quantize_kmeans km rng generate_seed im n it eps cv' g' with
  | Ok (a, _, _), Ok (b, _, _) => a = b | Err e, Err e' => e = e' | _, _ => False end.
Proof. exact kmeans_same. Qed.
Print Assumptions C129_deterministic.
Theorem C129_kmeans_errors : forall km rng generate_seed im n it eps cv (g : rng) e, quantize_kmeans km rng generate_seed im n it eps cv g = Err e <->
  (im_u8 im = false /\ e = ValueError) \/ (im_u8 im = true /\ (n < 2 \/ 256 < n) /\ e = AssertionError).
Proof. exact kmeans_err. Qed.
Print Assumptions C129_kmeans_errors.

(** The quantization augmenters keep the shape, however the image was resized in between. *)
Theorem C129_shape : forall cv2 quantize to_cs from_cs, (forall p n q, quantize p n = Ok q -> same_shape_pic q p) ->
  (forall p q, to_cs p = Ok q -> same_shape_pic q p) -> (forall p q, from_cs p = Ok q -> same_shape_pic q p) ->
  forall ms ip n p o, quantize_image cv2 quantize to_cs from_cs ms ip n p = Ok o -> same_shape_pic o p.
Proof. exact shape_kept. Qed.
Print Assumptions C129_shape.
(** Images that are not larger than max_size: the colours are quantized in the other colour space, an alpha channel is kept. *)
Theorem C129_small_images : forall cv2 quantize to_cs from_cs, (forall p n q, quantize p n = Ok q -> same_shape_pic q p) ->
  (forall p q, to_cs p = Ok q -> same_shape_pic q p) -> (forall p q, from_cs p = Ok q -> same_shape_pic q p) ->
  forall ms ip n p o, (forall m, ms = Some m -> p_h p <= m /\ p_w p <= m) -> quantize_image cv2 quantize to_cs from_cs ms ip n p = Ok o ->
  (p_c p = Some 1%nat /\ quantize p n = Ok o) \/
  (exists t q b, to_cs (first_three p) = Ok t /\ quantize t n = Ok q /\ from_cs q = Ok b /\ (forall y x c, (c < 3)%nat -> p_px o y x c = p_px b y x c) /\
     (p_c p = Some 3%nat \/ p_c p = Some 4%nat /\ forall y x, p_px o y x 3%nat = p_px p y x 3%nat)).
Proof. exact small_kept. Qed.
Print Assumptions C129_small_images.
(** The quantization never sees a side longer than max_size: it gets the image scaled to that size (so that quantizations that agree on those
    images give the same result), and the given number of colours. *)
Theorem C129_max_size : forall cv2 q q' to_cs from_cs m ip n p, (forall p t, to_cs p = Ok t -> same_shape_pic t p) -> 0 <= m -> 0 <= p_h p -> 0 <= p_w p ->
  (forall s, shrunk m p s -> p_h s <= m -> p_w s <= m -> q s n = q' s n) ->
  quantize_image cv2 q to_cs from_cs (Some m) ip n p = quantize_image cv2 q' to_cs from_cs (Some m) ip n p.
Proof. exact bounded. Qed.
Print Assumptions C129_max_size.
Definition halve (p : pic) (n : Z) : res pic := Ok (mkPic (p_kind p) (p_h p) (p_w p) (p_c p) (fun y x c => p_px p y x c / 2)%Q).
Definition rgba (h w : Z) : pic := mkPic (KUint 8) h w (Some 4%nat) (fun y x c => inject_Z (100 * x + 10 * Z.of_nat c)).
Example C129_quantize_witness : (forall p n q, halve p n = Ok q -> same_shape_pic q p) /\
  exists o, quantize_image copying halve (fun p => Ok p) (fun p => Ok p) (Some 2) None 4 (rgba 1 2) = Ok o /\
    map (fun c => Qred (p_px o 0 1 c)) [0; 1; 2; 3]%nat = [50; 55; 60; 130]%Q.
Proof.
  split; [intros p n q E; injection E as <-; repeat split|]. eexists. split; [reflexivity|]. vm_compute. reflexivity.
Qed.
(** Larger images: the alpha channel is resized twice. *)
Theorem C129_alpha_refuted : exists o, quantize_image copying halve (fun p => Ok p) (fun p => Ok p) (Some 1) (Some (Some Nearest)) 4 (rgba 2 2) = Ok o /\
  ~ (p_px o 0 1 3%nat == p_px (rgba 2 2) 0 1 3%nat)%Q.
Proof.
  assert (H : match quantize_image copying halve (fun p => Ok p) (fun p => Ok p) (Some 1) (Some (Some Nearest)) 4 (rgba 2 2) with Ok o => Qeq_bool (p_px o 0 1 3%nat) (p_px (rgba 2 2) 0 1 3%nat) | Err _ => true end = false) by (vm_compute; reflexivity).
  destruct (quantize_image _ _ _ _ _ _ _ _) as [o|e]; [|discriminate]. exists o. split; [reflexivity|]. intros E. apply Qeq_bool_iff in E. congruence.
Qed.
Print Assumptions C129_alpha_refuted.
(** Images whose shorter side shrinks to nothing are refused. *)
Theorem C129_thin_images_refuted : forall cv2 quantize to_cs from_cs, (forall p n q, quantize p n = Ok q -> same_shape_pic q p) ->
  (forall p q, to_cs p = Ok q -> same_shape_pic q p) -> (forall p q, from_cs p = Ok q -> same_shape_pic q p) ->
  forall m ip n p, 0 <= m -> 0 < p_h p -> 0 < p_w p -> m < Z.max (p_h p) (p_w p) -> Z.min (p_h p) (p_w p) * m < Z.max (p_h p) (p_w p) ->
  exists e, quantize_image cv2 quantize to_cs from_cs (Some m) ip n p = Err e.
Proof. exact thin. Qed.
Print Assumptions C129_thin_images_refuted.
Example C129_thin_images_witness : quantize_image copying halve (fun p => Ok p) (fun p => Ok p) (Some 128) (Some (Some Linear)) 4 (rgba 3 500) = Err AssertionError.
Proof. reflexivity. Qed.
(** Other numbers of channels. *)
Theorem C129_channel_numbers : forall cv2 quantize to_cs from_cs ms ip n p, p_c p <> Some 1%nat -> p_c p <> Some 3%nat -> p_c p <> Some 4%nat ->
  quantize_image cv2 quantize to_cs from_cs ms ip n p = Err AssertionError.
Proof. intros cv2 quantize to_cs from_cs ms ip n p A B C. unfold quantize_image. destruct (p_c p) as [[|[|[|[|[|c]]]]]|]; congruence. Qed.
Print Assumptions C129_channel_numbers.
(** The drawn number of colours is the nearest integer, clipped to the allowed range. *)
Theorem C129_counts : forall lo hi q, match hi with Some h => lo <= h | None => True end ->
  let c := draw_count lo hi q in lo <= c /\ (match hi with Some h => c <= h | None => True end) /\
  ((inject_Z lo <= q)%Q -> match hi with Some h => (q <= inject_Z h)%Q | None => True end -> (Qabs (inject_Z c - q) <= 1 # 2)%Q).
Proof.
  intros lo hi q H. cbn zeta. unfold draw_count. split; [destruct hi; lia|]. split; [destruct hi; lia|]. intros A B.
  assert (E : (let c := Z.max (np_round q) lo in match hi with Some h => Z.min c h | None => c end) = np_round q).
  { apply np_round_mono in A. rewrite np_round_Z in A. cbn zeta. destruct hi as [h|]; [apply np_round_mono in B; rewrite np_round_Z in B|]; lia. }
  cbn zeta in E. rewrite E. apply AriProofs.np_round_near.
Qed.
Print Assumptions C129_counts.
Example C129_counts_witness : draw_count 2 (Some 16) 1 = 2 /\ draw_count 2 None (35 # 2) = 18 /\ draw_count 2 (Some 16) (35 # 2) = 16.
Proof. repeat split. Qed.
