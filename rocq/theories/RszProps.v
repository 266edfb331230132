(** * Resizing images, heatmaps and segmentation maps: theorems C118-C120. *)
From Coq Require Import Lia Lqa.
From Verif Require Import Prelude PreludeFacts ConvModel ConvSpec RszModel RszSpec RszProofs.
Local Open Scope Z_scope.

(** A resize function that meets the assumptions: it copies pixels. *)
Definition copying : resizer := fun i k h w h' w' n px => Ok (fun y x c => px (y * h / h') (x * w / w') c).
Lemma copying_in : forall y h h', 0 < h -> 0 <= y < h' -> 0 <= y * h / h' < h.
Proof.
  intros y h h' Hh Hy. split; [apply Z.div_pos; nia|]. apply Z.div_lt_upper_bound; nia.
Qed.
Example copying_resizes : resizes copying /\ picks copying /\ averages copying.
Proof.
  split; [|split].
  - intros i k h w h' w' n px Hh Hw Hh' Hw' Hn V. eexists. split; [reflexivity|]. intros y x c Hy Hx Hc. split; [apply V; auto using copying_in|]. eexists. split; [reflexivity|]. reflexivity.
  - intros k h w h' w' px out Hh Hw E y x Hy Hx. injection E as <-. exists (y * h / h'), (x * w / w'). split; [apply copying_in; assumption|]. split; [apply copying_in; assumption|]. reflexivity.
  - intros i k h w h' w' px out lo hi _ Hh Hw E _ _ B y x Hy Hx. injection E as <-. apply B; auto using copying_in.
Qed.
(** A 2x2 image and a 2x2x2 boolean image. *)
Definition ex_pic : pic := mkPic (KUint 8) 2 2 None (fun y x _ => inject_Z (10 * y + x)).
Definition ex_bool : pic := mkPic KBool 2 2 (Some 2%nat) (fun y x c => if (y =? 1) && Nat.eqb c 1 then 1%Q else 0%Q).
Example ex_proper : proper_pic ex_pic /\ proper_pic ex_bool.
Proof.
  split; (split; [cbn; lia|]; split; [cbn; lia|]); intros y x c (Hy & Hx & Hc); cbn in *.
  - exists (10 * y + x). split; [reflexivity|]. lia.
  - destruct ((y =? 1) && Nat.eqb c 1); [right|left]; reflexivity.
Qed.

(** ** C118: the form of the result *)
(** A resized image has the dtype of the image, the requested height and width (integers as given,
    fractions of the side rounded) and the same channel axis. *)
Theorem C118_single : forall cv2 p s ip p', imresize_single cv2 p s ip = Ok p' ->
  exists sz, request s sz /\ p_kind p' = p_kind p /\ requested (p_h p) (fst sz) (p_h p') /\ requested (p_w p) (snd sz) (p_w p') /\ p_c p' = p_c p.
Proof. exact single_form. Qed.
Print Assumptions C118_single.
(** A list gives a list with one image of the requested size per image. *)
Theorem C118_list : forall cv2 l s ip r, imresize_many cv2 (IList l) s ip = Ok r ->
  exists l', r = IList l' /\ (l = [] -> l' = []) /\
    (l <> [] -> exists sz, request s sz /\
       Forall2 (fun p p' => requested (p_h p) (fst sz) (p_h p') /\ requested (p_w p) (snd sz) (p_w p') /\ p_c p' = p_c p) l l').
Proof. exact list_form. Qed.
Print Assumptions C118_list.
(** An array gives an array of the same dtype with as many images. *)
Theorem C118_array : forall cv2 a s ip r, imresize_many cv2 (IArr a) s ip = Ok r ->
  exists a', r = IArr a' /\ (s_imgs a = [] -> a' = a) /\
    (s_imgs a <> [] -> exists sz, request s sz /\ s_kind a' = s_kind a /\ requested (s_h a) (fst sz) (s_h a') /\ requested (s_w a) (snd sz) (s_w a') /\ s_c a' = s_c a /\
       length (s_imgs a') = length (s_imgs a)).
Proof. exact array_form. Qed.
Print Assumptions C118_array.
(** The images of a list are resized one by one, whatever else the list contains, if they have one
    dtype or at least two different shapes. This includes the errors. *)
Theorem C118_one_by_one : forall cv2 l s ip,
  (exists k, forall p, In p l -> p_kind p = k) \/ (exists p q, In p l /\ In q l /\ (p_h p, p_w p, p_c p) <> (p_h q, p_w q, p_c q)) ->
  imresize_many cv2 (IList l) s ip = (do l' <- mapM (fun p => imresize_single cv2 p s ip) l; Ok (IList l')).
Proof.
  intros cv2 l s ip H. apply many_is_single. destruct H as [H|(p & q & Hp & Hq & N)]; [left; exact H|right].
  exists p, q. split; [exact Hp|]. split; [exact Hq|]. destruct (same_shape p q) eqn:E; [|reflexivity]. exfalso. apply N. destruct (same_shape_eq _ _ E) as (-> & -> & ->). reflexivity.
Qed.
Print Assumptions C118_one_by_one.
(** The images of an array too. *)
Theorem C118_array_one_by_one : forall cv2 a s ip a', imresize_many cv2 (IArr a) s ip = Ok (IArr a') ->
  mapM (fun p => imresize_single cv2 p s ip) (map (mkPic (s_kind a) (s_h a) (s_w a) (s_c a)) (s_imgs a)) =
  Ok (map (mkPic (s_kind a') (s_h a') (s_w a') (s_c a')) (s_imgs a')).
Proof. intros cv2 a s ip a' H. pose proof (array_is_single cv2 a s ip) as E. rewrite H in E. cbn [bind] in E. symmetry. exact E. Qed.
Print Assumptions C118_array_one_by_one.
(** Finding: images of one shape but of different dtypes come back with one dtype. *)
Theorem C118_mixed_dtypes_refuted : ~ (forall cv2 l s ip l', resizes cv2 -> imresize_many cv2 (IList l) s ip = Ok (IList l') -> map p_kind l' = map p_kind l).
Proof.
  intros H. specialize (H copying [ex_pic; mkPic (KFloat 32) 2 2 None (fun _ _ _ => 0%Q)] (SNum (Int 2)) None _ (proj1 copying_resizes) eq_refl). discriminate H.
Qed.
Print Assumptions C118_mixed_dtypes_refuted.
Example C118_example : exists p', imresize_single copying ex_bool (STup [Some (Flt (3 # 2)); Some (Int 5)]) None = Ok p' /\
  p_h p' = 3 /\ p_w p' = 5 /\ p_c p' = Some 2%nat /\ p_kind p' = KBool /\ (p_px p' 2 4 1%nat == 1)%Q /\ (p_px p' 1 4 1%nat == 0)%Q.
Proof. eexists. split; [reflexivity|]. vm_compute. repeat split; reflexivity. Qed.
Example C118_list_example : exists a b, imresize_many copying (IList [ex_pic; ex_bool]) (SNum (Flt 2)) None = Ok (IList [a; b]) /\
  p_h a = 4 /\ p_c a = None /\ p_kind a = KUint 8 /\ (p_px a 3 0 0%nat == 10)%Q /\ p_c b = Some 2%nat /\ p_kind b = KBool.
Proof. eexists _, _. split; [reflexivity|]. vm_compute. repeat split; reflexivity. Qed.

(** ** C119: the pixels *)
(** Resizing to the size the image has returns the same image, for every dtype and interpolation. *)
Theorem C119_same_size : forall cv2 p s sz ip, proper_pic p -> request s sz -> requested (p_h p) (fst sz) (p_h p) -> requested (p_w p) (snd sz) (p_w p) ->
  imresize_single cv2 p s ip = Ok p.
Proof. exact same_size. Qed.
Print Assumptions C119_same_size.
(** The result consists of values of the dtype. *)
Theorem C119_values : forall cv2 p s ip p', resizes cv2 -> proper_pic p -> imresize_single cv2 p s ip = Ok p' -> proper_pic p'.
Proof. intros cv2 p s ip p' HC P H. exact (proj1 (resized_pixels cv2 p s ip p' HC P H)). Qed.
Print Assumptions C119_values.
(** Nearest neighbour interpolation: every pixel is one of the image, in the same channel. *)
Theorem C119_nearest : forall cv2 p s p' y x c, resizes cv2 -> picks cv2 -> proper_pic p -> imresize_single cv2 p s (Some (Some Nearest)) = Ok p' -> pixel p' y x c ->
  exists y0 x0, pixel p y0 x0 c /\ (p_px p' y x c == p_px p y0 x0 c)%Q.
Proof. exact nearest. Qed.
Print Assumptions C119_nearest.
(** All interpolations but cubic stay in every range of values of the dtype that contains the
    channel. *)
Theorem C119_range : forall cv2 p s ip p' y x c lo hi, resizes cv2 -> averages cv2 -> proper_pic p -> ip <> Some (Some Cubic) -> imresize_single cv2 p s ip = Ok p' -> pixel p' y x c ->
  value_of (p_kind p) lo -> value_of (p_kind p) hi -> (forall y0 x0, pixel p y0 x0 c -> (lo <= p_px p y0 x0 c <= hi)%Q) -> (lo <= p_px p' y x c <= hi)%Q.
Proof. exact in_range. Qed.
Print Assumptions C119_range.
(** Every channel, of any number of channels, is resized as if it were a grayscale image. *)
Theorem C119_channels : forall cv2 p s ip p' c, resizes cv2 -> proper_pic p -> imresize_single cv2 p s ip = Ok p' -> (c < chans p)%nat ->
  exists p1, imresize_single cv2 (mkPic (p_kind p) (p_h p) (p_w p) None (fun y x _ => p_px p y x c)) s ip = Ok p1 /\ p_h p1 = p_h p' /\ p_w p1 = p_w p' /\
    forall y x, pixel p' y x c -> (p_px p' y x c == p_px p1 y x 0%nat)%Q.
Proof. exact channel. Qed.
Print Assumptions C119_channels.
(** Without an interpolation argument: area interpolation if the image grows in height or width,
    otherwise linear interpolation. *)
Theorem C119_automatic : forall cv2 p s sz h' w', request s sz -> requested (p_h p) (fst sz) h' -> requested (p_w p) (snd sz) w' ->
  (p_h p < h' \/ p_w p < w' -> imresize_single cv2 p s None = imresize_single cv2 p s (Some (Some Area))) /\
  (h' <= p_h p /\ w' <= p_w p -> imresize_single cv2 p s None = imresize_single cv2 p s (Some (Some Linear))).
Proof.
  intros cv2 p s sz h' w' R H1 H2. rewrite (auto_choice cv2 p s sz h' w' R H1 H2). destruct (Z.ltb_spec (p_h p) h'), (Z.ltb_spec (p_w p) w'); cbn [orb]; split; intros X; try reflexivity; lia.
Qed.
Print Assumptions C119_automatic.
(** Resized segmentation maps contain no new class ids. *)
Theorem C119_segmentation_map : forall cv2 p s p' y x c, resizes cv2 -> picks cv2 -> proper_pic p -> segmap_resize cv2 p s = Ok p' -> pixel p' y x c ->
  exists y0 x0, pixel p y0 x0 c /\ (p_px p' y x c == p_px p y0 x0 c)%Q.
Proof. exact nearest. Qed.
Print Assumptions C119_segmentation_map.
(** Resized heatmaps lie in [0,1], also with cubic interpolation; the final clipping changes nothing
    for the other interpolations. *)
Theorem C119_heatmap : forall cv2 p s ip p', resizes cv2 -> proper_pic p -> p_kind p = KFloat 32 ->
  (forall y x c, pixel p y x c -> (0 <= p_px p y x c <= 1)%Q) -> heatmap_resize cv2 p s ip = Ok p' ->
  (forall y x c, pixel p' y x c -> (0 <= p_px p' y x c <= 1)%Q) /\
  (averages cv2 -> ip <> Some (Some Cubic) -> exists r, imresize_single cv2 p s ip = Ok r /\ same_pic r p').
Proof.
  intros cv2 p s ip p' HC P K B H. destruct (heatmap_form _ _ _ _ _ H) as (r & E & A1 & A2 & A3 & A4 & A5). split.
  - intros y x c _. rewrite A5. apply qclip_in. lra.
  - intros HA NC. exists r. split; [exact E|]. split; [exact A1|]. split; [exact A2|]. split; [exact A3|]. split; [exact A4|]. intros y x c HX. rewrite A5.
    destruct (single_form _ _ _ _ _ E) as (_ & _ & _ & _ & _ & EC).
    assert (R : (0 <= p_px r y x c <= 1)%Q) by (apply (in_range cv2 p s ip r y x c 0 1 HC HA P NC E HX); [rewrite K; exact Logic.I|rewrite K; exact Logic.I|intros; apply B; assumption]).
    rewrite qclip_id; [reflexivity|apply R|apply R].
Qed.
Print Assumptions C119_heatmap.
Example C119_example : exists p', imresize_single copying ex_bool (SNum (Int 4)) (Some (Some Nearest)) = Ok p' /\ pixel p' 3 3 1 /\ (p_px p' 3 3 1%nat == 1)%Q /\ (p_px p' 1 3 1%nat == 0)%Q.
Proof. eexists. split; [reflexivity|]. split; [repeat split; cbn; lia|]. vm_compute. split; reflexivity. Qed.

(** ** C120: which calls are accepted *)
(** Given a valid request for a size, an image is resized if no pixel has to be computed (the size is
    the same, or the result is empty), and otherwise if the image is not empty, the interpolation is
    valid and the dtype is one of those that can be resized with it. *)
Theorem C120_accepted : forall cv2 p s sz ip h' w', resizes cv2 -> proper_pic p -> request s sz -> requested (p_h p) (fst sz) h' -> requested (p_w p) (snd sz) w' ->
  ((exists p', imresize_single cv2 p s ip = Ok p') <->
   (must_compute p h' w' -> p_h p <> 0 /\ p_w p <> 0 /\ exists i, interpolation_for p h' w' ip i /\ resizable i (p_kind p))).
Proof. exact accepted. Qed.
Print Assumptions C120_accepted.
(** The errors: a single number that is not positive and a dtype that cannot be resized give
    ValueError, all others AssertionError. *)
Theorem C120_errors : forall cv2 p s ip e, resizes cv2 -> proper_pic p -> imresize_single cv2 p s ip = Err e ->
  (exists n, s = SNum n /\ (val n <= 0)%Q /\ e = ValueError) \/
  (exists l, s = STup l /\ (forall sz, ~ request s sz) /\ e = AssertionError) \/
  (exists sz h' w', request s sz /\ requested (p_h p) (fst sz) h' /\ requested (p_w p) (snd sz) w' /\ must_compute p h' w' /\
     (((p_h p = 0 \/ p_w p = 0 \/ ip = Some None) /\ e = AssertionError) \/
      (exists i, p_h p <> 0 /\ p_w p <> 0 /\ interpolation_for p h' w' ip i /\ ~ resizable i (p_kind p) /\ e = ValueError))).
Proof. exact errors. Qed.
Print Assumptions C120_errors.
(** Invalid requests are errors, for lists too. *)
Theorem C120_invalid : forall cv2 p r s ip, (forall sz, ~ request s sz) ->
  exists e, imresize_single cv2 p s ip = Err e /\ imresize_many cv2 (IList (p :: r)) s ip = Err e.
Proof.
  intros cv2 p r s ip N. destruct (check_sizes s) as [sz|e] eqn:E; [apply check_request in E; destruct (N _ E)|].
  exists e. rewrite single_core, E. cbn [bind imresize_many]. rewrite E. split; reflexivity.
Qed.
Print Assumptions C120_invalid.
(** A valid request of zero rows or columns gives an empty image for every dtype, except for
    images that have that size already. *)
Theorem C120_empty : forall cv2 p s sz ip, proper_pic p -> request s sz -> requested (p_h p) (fst sz) 0 \/ requested (p_w p) (snd sz) 0 ->
  exists p', imresize_single cv2 p s ip = Ok p' /\ (p_h p' = 0 \/ p_w p' = 0).
Proof.
  intros cv2 p s sz ip P R H. rewrite !target_requested in H.
  destruct (core_cases cv2 p s sz ip P R) as [(A & B & C)|[(A & B & C)|[(A & B & C)|[(A & B & C & D & F)|[(i & A & B & C & D & F & G)|(i & A & B & C & D & F & G & K & L)]]]]].
  - eexists. split; [exact C|]. cbn. rewrite <- A, <- B. destruct H; auto.
  - eexists. split; [exact C|]. cbn. destruct H; auto.
  - destruct A as (_ & A1 & A2 & _). exfalso. destruct H; auto.
  - destruct A as (_ & A1 & A2 & _). exfalso. destruct H; auto.
  - destruct A as (_ & A1 & A2 & _). exfalso. destruct H; auto.
  - exfalso. destruct H; lia.
Qed.
Print Assumptions C120_empty.
(** No images: the argument is returned unchanged, even if the size is invalid. *)
Theorem C120_no_images : forall cv2 s ip k h w c,
  imresize_many cv2 (IList []) s ip = Ok (IList []) /\ imresize_many cv2 (IArr (mkStack k h w c [])) s ip = Ok (IArr (mkStack k h w c [])).
Proof. intros. split; reflexivity. Qed.
Print Assumptions C120_no_images.
Example C120_example :
  imresize_single copying ex_pic (SNum (Int 0)) None = Err ValueError /\
  imresize_single copying (mkPic (KUint 64) 2 2 None (fun _ _ _ => 0%Q)) (SNum (Int 3)) None = Err ValueError /\
  imresize_single copying (mkPic (KUint 8) 0 2 None (fun _ _ _ => 0%Q)) (SNum (Int 3)) None = Err AssertionError /\
  (exists p', imresize_single copying ex_pic (SNum (Flt (1 # 10))) None = Ok p' /\ p_h p' = 0).
Proof. repeat split; try reflexivity. eexists. split; [reflexivity|]. reflexivity. Qed.
