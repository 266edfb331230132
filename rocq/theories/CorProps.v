(** Theorems about corruptions (C141, C142) and debug images (C144). *)
From Coq Require Import List ZArith QArith Bool Lia.
From Verif Require Import Prelude DtyModel CtrModel CorModel CorSpec CorProofs CorProofs2 CorProofs3.
From Coq Require Lqa.
Import ListNotations.
Open Scope Z_scope.

(** ** C141: corruptions *)
(** The wrapped function sees the image with three channels. Its result, without fractions, comes back as a uint8 image
    of the shape of the input (for images with one channel: the first of the three); its errors are passed on. With a
    seed, the function starts from the state of the seed and numpy's global state is left as it was. *)
Theorem C141_result : forall S of_seed func v seed im s, corruptible im -> exists im3, color_version im im3 /\
  let r := func v im3 (match seed with Some e => of_seed e | None => s end) in
  fst (corrupt S of_seed func v seed im s) = match seed with Some _ => s | None => fst r end /\
  (forall e, snd r = Err e -> snd (corrupt S of_seed func v seed im s) = Err e) /\
  (forall out, snd r = Ok out -> same_shape out im3 ->
     exists im', snd (corrupt S of_seed func v seed im s) = Ok im' /\ p_dt im' = U8 /\ same_shape im' im /\
       forall y x c, position im y x c -> (0 <= p_px out y x c < 256)%Q -> whole_part (p_px out y x c) (p_px im' y x c)).
Proof. exact result. Qed.
Print Assumptions C141_result.
(** Other images are refused before anything is drawn. *)
Theorem C141_refuses : forall S of_seed func v seed im s, ~ corruptible im ->
  (p_dt im <> U8 -> corrupt S of_seed func v seed im s = (s, Err ValueError)) /\
  (p_dt im = U8 -> corrupt S of_seed func v seed im s = (s, Err AssertionError)).
Proof.
  intros S os f v seed im s N. rewrite (refuses S os f v seed im s N). split; intros D.
  - destruct (dname_eqb (p_dt im) U8) eqn:E; [apply dname_eqb_u8 in E; congruence|reflexivity].
  - rewrite D. reflexivity.
Qed.
Print Assumptions C141_refuses.
(** With a seed, a call neither depends on numpy's global state nor changes it, whatever the outcome. *)
Theorem C141_seeded : forall S of_seed func v e im s, fst (corrupt S of_seed func v (Some e) im s) = s /\
  forall s', snd (corrupt S of_seed func v (Some e) im s') = snd (corrupt S of_seed func v (Some e) im s).
Proof. exact state_kept. Qed.
Print Assumptions C141_seeded.
(** In a batch every image is corrupted with its own severity and seed, as if it were alone. *)
Theorem C141_batch : forall S of_seed (func : Z -> picture -> S -> S * res picture) imgs vs es s, well_behaved func -> Forall corruptible imgs -> length vs = length imgs -> length es = length imgs ->
  exists outs, snd (corrupt_batch S of_seed func imgs vs es s) = Ok outs /\ length outs = length imgs /\
  forall i im v e, nth_error imgs i = Some im -> nth_error vs i = Some v -> nth_error es i = Some e ->
    exists out alone, nth_error outs i = Some out /\ (forall s', snd (corrupt S of_seed func v (Some e) im s') = Ok alone) /\
      p_dt out = U8 /\ same_shape out im /\ p_px out = p_px alone.
Proof. exact batch_images. Qed.
Print Assumptions C141_batch.
Theorem C141_batch_state : forall S of_seed func imgs vs es s, fst (corrupt_batch S of_seed func imgs vs es s) = s.
Proof. exact batch_state. Qed.
Print Assumptions C141_batch_state.
Theorem C141_batch_error : forall S of_seed (func : Z -> picture -> S -> S * res picture) imgs vs es s x, snd (corrupt_batch S of_seed func imgs vs es s) = Err x ->
  exists i im v e, nth_error imgs i = Some im /\ nth_error vs i = Some v /\ nth_error es i = Some e /\
    (snd (corrupt S of_seed func v (Some e) im s) = Err x \/ exists out, snd (corrupt S of_seed func v (Some e) im s) = Ok out /\ x = ValueError /\ ~ same_shape out im).
Proof. exact batch_error. Qed.
Print Assumptions C141_batch_error.

Definition ex_grey : picture := mkP U8 32 40 None (fun y x _ => inject_Z (y + x)).
Definition ex_noise (v : Z) (im : picture) (s : Z) : Z * res picture :=
  (s + 1, Ok (mkP F64 (p_h im) (p_w im) (p_c im) (fun y x c => qclip (p_px im y x c + inject_Z (v + s) + (1 # 2)) 0 255))).
Example C141_case :
  corruptible ex_grey /\ ~ corruptible (mkP U8 31 40 None (p_px ex_grey)) /\ ~ corruptible (mkP U8 32 40 (Some 4%nat) (p_px ex_grey)) /\
  well_behaved ex_noise /\
  fst (corrupt Z id ex_noise 3 (Some 10) ex_grey 77) = 77 /\ fst (corrupt Z id ex_noise 3 None ex_grey 77) = 78 /\
  match corrupt Z id ex_noise 3 (Some 10) ex_grey 77 with (_, Ok o) => p_c o = None /\ p_px o 4 5 0%nat = 22%Q | _ => False end /\
  match corrupt_batch Z id ex_noise [ex_grey; ex_grey] [1; 2] [10; 20] 77 with (_, Ok [a; b]) => p_px a 0 0 0%nat = 11%Q /\ p_px b 0 0 0%nat = 22%Q | _ => False end.
Proof.
  split; [repeat split; cbn; auto; lia|]. split; [intros (_ & H & _); cbn in H; lia|]. split; [intros (_ & _ & _ & [H|[H|H]]); discriminate|].
  split; [|vm_compute; repeat split].
  intros v im s. eexists. split; [reflexivity|]. split; [repeat split|]. intros y x c _. cbn [p_px].
  pose proof (PreludeFacts.qclip_in (p_px im y x c + inject_Z (v + s) + (1 # 2)) 0 255 ltac:(Lqa.lra)) as [A B]. split; Lqa.lra.
Qed.

(** ** C142: glass blur *)
(** The loop over the pixels never leaves the image, whatever shifts were drawn; all its pixels come from the image, and
    those at most [m] from the upper and left side or less than [m] from the lower and right side stay the same. *)
Theorem C142_loop : forall P height width n m d (x : Z -> Z -> P), 1 <= m -> shifts_in m d ->
  exists y, glass_loop P height width n m d x = Ok y /\
    (forall a b, inside height width a b -> exists a' b', inside height width a' b' /\ y a b = x a' b') /\
    (forall a b, a <= m \/ height - m < a \/ b <= m \/ width - m < b -> y a b = x a b).
Proof. exact glass_invariant. Qed.
Print Assumptions C142_loop.
(** The exchange of two pixels copies the second to the first. *)
Theorem C142_turn : forall P height width m dx dy j k (x y : Z -> Z -> P), glass_turn P height width m (dx, dy) j k x = Ok y ->
  let h := height - m - j in let w := width - m - k in
  inside height width h w /\ inside height width (h + dy) (w + dx) /\
  y h w = x (h + dy) (w + dx) /\ forall a b, ~ (a = h /\ b = w) -> y a b = x a b.
Proof.
  intros P height width m dx dy j k x y H h w. unfold glass_turn in H. cbn [fst snd] in H. fold h w in H.
  destruct (_ && _) eqn:E in H; [|discriminate]. injection H as <-. rewrite !andb_true_iff, !Z.leb_le, !Z.ltb_lt in E.
  split; [unfold inside; lia|]. split; [unfold inside; lia|]. split; [rewrite step_at, !Z.eqb_refl; reflexivity|].
  intros a b N. rewrite step_at. destruct (Z.eqb_spec a h); [|reflexivity]. destruct (Z.eqb_spec b w); [tauto|reflexivity].
Qed.
Print Assumptions C142_turn.
(** So pixels are lost: the loop does not just rearrange them, as intended. *)
Definition ex_shifts (i j k : Z) : Z * Z := if (i =? 1) && (j =? 29) && (k =? 29) then (-1, 0) else (0, 0).
Definition ex_pixels (y x : Z) : Z := 32 * y + x.
Theorem C142_rearranges_refuted : exists d (x y : Z -> Z -> Z), shifts_in 1 d /\ glass_loop Z 32 32 2 1 d x = Ok y /\
  (forall a b a' b', inside 32 32 a b -> inside 32 32 a' b' -> x a b = x a' b' -> a = a' /\ b = b') /\
  exists a b, inside 32 32 a b /\ forall a' b', inside 32 32 a' b' -> y a' b' <> x a b.
Proof.
  exists ex_shifts, ex_pixels.
  assert (D : shifts_in 1 ex_shifts) by (intros i j k; unfold ex_shifts; destruct (_ && _); cbn [fst snd]; lia).
  destruct (C142_loop Z 32 32 2 1 ex_shifts ex_pixels ltac:(lia) D) as (y & E & _). exists y. split; [exact D|]. split; [exact E|].
  split; [intros a b a' b' [A B] [A' B']; unfold ex_pixels; lia|].
  exists 2, 2. split; [unfold inside; lia|].
  assert (C : match glass_loop Z 32 32 2 1 ex_shifts ex_pixels with
              | Ok y => forallb (fun a => forallb (fun b => negb (y a b =? 66)) (upto 32)) (upto 32)
              | Err _ => false end = true) by (vm_compute; reflexivity).
  rewrite E in C. intros a b [A B] H. rewrite forallb_forall in C.
  assert (U : forall z, 0 <= z < 32 -> In z (upto 32)).
  { intros z Hz. unfold upto. apply in_map_iff. exists (Z.to_nat z). split; [lia|]. apply in_seq. lia. }
  specialize (C a (U a A)). rewrite forallb_forall in C. specialize (C b (U b B)). rewrite H in C. discriminate.
Qed.
Print Assumptions C142_rearranges_refuted.
(** The strength of every severity; 0 and negative severities count from the end of the table. *)
Theorem C142_severity : forall v,
  (v = 1 \/ v = -4 -> glass_params v = Ok (7 # 10, 1, 2)) /\
  (v = 2 \/ v = -3 -> glass_params v = Ok (9 # 10, 2, 1)) /\
  (v = 3 \/ v = -2 -> glass_params v = Ok (1%Q, 2, 3)) /\
  (v = 4 \/ v = -1 -> glass_params v = Ok (11 # 10, 3, 2)) /\
  (v = 5 \/ v = 0 -> glass_params v = Ok (3 # 2, 4, 2)) /\
  (v < -4 \/ 5 < v -> glass_params v = Err IndexError).
Proof. exact params_table. Qed.
Print Assumptions C142_severity.
(** Whatever the Gaussian filter does, glass blur returns an image of the same shape with numbers that fit into uint8. *)
Theorem C142_result : forall S gaussian shifts v im (s : S), (forall n h w m s, shifts_in m (fst (shifts n h w m s))) -> -4 <= v <= 5 ->
  exists out, snd (glass_blur S gaussian shifts v im s) = Ok out /\ same_shape out im /\ forall y x c, (0 <= p_px out y x c < 256)%Q.
Proof. exact glass_result. Qed.
Print Assumptions C142_result.
(** The stages of glass blur: Gaussian filter, numbers without fractions, exchange of pixels, Gaussian filter of the same
    strength, limits. *)
Theorem C142_stages : forall S gaussian shifts v im (s : S) sigma m n, (forall n h w m s, shifts_in m (fst (shifts n h w m s))) ->
  (forall sigma f y x c, (0 <= gaussian sigma f y x c)%Q) -> glass_params v = Ok (sigma, m, n) ->
  exists d s' first z out, shifts n (p_h im - 2 * m) (p_w im - 2 * m) m s = (d, s') /\ glass_blur S gaussian shifts v im s = (s', Ok out) /\
    (forall y x c, whole_part (gaussian sigma (fun y x c => p_px im y x c / 255)%Q y x c * 255) (first y x c)) /\
    glass_loop (nat -> Q) (p_h im) (p_w im) n m d first = Ok z /\
    forall y x c, let q := gaussian sigma (fun y x c => z y x c / 255)%Q y x c in
      ((q <= 1)%Q -> (p_px out y x c == q * 255)%Q) /\ ((1 <= q)%Q -> (p_px out y x c == 255)%Q).
Proof. exact glass_stages. Qed.
Print Assumptions C142_stages.
(** Every iteration is one more pass with its own shifts, on the result of those before. *)
Theorem C142_passes : forall P height width n m d (x : Z -> Z -> P), 0 <= n ->
  glass_loop P height width 0 m d x = Ok x /\
  glass_loop P height width (n + 1) m d x =
    match glass_loop P height width n m d x with Ok y => glass_loop P height width 1 m (fun _ => d n) y | Err e => Err e end.
Proof. exact glass_passes. Qed.
Print Assumptions C142_passes.
(** Two passes over a small image: the pixel in row 2 and column 2 becomes that to its left. *)
Example C142_case : shifts_in 1 ex_shifts /\
  match glass_loop Z 32 32 2 1 ex_shifts ex_pixels with Ok y => y 2 2 = 65 /\ y 2 1 = 65 /\ y 3 3 = 99 | Err _ => False end.
Proof. split; [intros i j k; unfold ex_shifts; destruct (_ && _); cbn [fst snd]; lia|vm_compute; repeat split]. Qed.

(** ** C144: debug images *)
(** Whenever an image is fitted into a cell, image and padding fill the cell and the image is in its middle. *)
Theorem C144_fits : forall height width h w hr wr t r b l, resizepad (height, width) (h, w) = Ok ((hr, wr), (t, r, b, l)) ->
  1 <= hr /\ 1 <= wr /\ t + hr + b = height /\ l + wr + r = width /\ 0 <= t <= b /\ b <= t + 1 /\ 0 <= l <= r /\ r <= l + 1.
Proof. exact resizepad_fits. Qed.
Print Assumptions C144_fits.
(** In a debug image every image is shown completely and in its own size, once in each column, in its row of the grid and
    in the middle of its column; rows are separated by their borders, and the columns are next to each other. *)
Theorem C144_layout : forall sizes texts, Forall (fun s => 0 < fst s /\ 0 < snd s) sizes -> texts <> [] -> Forall (fun t => 0 <= snd (fst t) /\ 0 <= snd (snd t)) texts ->
  exists c (top col : nat -> Z), debug_image texts sizes = Ok c /\
    (forall i s, nth_error sizes i = Some s -> top (S i) = top i + fst s + 2) /\
    forall i j s, nth_error sizes i = Some s -> (j < length texts)%nat ->
      exists l r, 0 <= l <= r /\ r <= l + 1 /\ col (S j) = col j + l + snd s + r + 2 /\
        part_of (mkCanvas (fst s) (snd s) (fun y x => Some (i, y, x))) c (top i) (col j + 1 + l).
Proof. intros sizes texts P N T. exact (grid_ok sizes P texts N T). Qed.
Print Assumptions C144_layout.
(** Images cannot be fitted into all larger cells: the side that is enlarged less may grow beyond the cell. *)
Theorem C144_larger_cells_refuted : exists height width h w, 0 < h <= height /\ 0 < w <= width /\ resizepad (height, width) (h, w) = Err AssertionError.
Proof. exists 40, 61, 10, 30. split; [lia|]. split; [lia|]. vm_compute. reflexivity. Qed.
Print Assumptions C144_larger_cells_refuted.
(** Components are shown as bytes: those of uint8 unchanged, those of unsigned integers and floats in the same order. *)
Theorem C144_bytes : forall d v, (d = Bool -> value_in 0 1 v) -> value_in 0 255 (shown d v).
Proof. exact shown_byte. Qed.
Print Assumptions C144_bytes.
Theorem C144_uint8 : forall v, value_in 0 255 v -> (shown U8 v == v)%Q.
Proof. exact shown_uint8. Qed.
Print Assumptions C144_uint8.
Theorem C144_monotone : forall d b a v, kind_bits d = (KU, b) \/ kind_bits d = (KF, b) -> (a <= v)%Q -> (shown d a <= shown d v)%Q.
Proof. exact shown_mono. Qed.
Print Assumptions C144_monotone.
(** The ends of the value range are black and white. *)
Theorem C144_ends : forall d b, (kind_bits d = (KU, b) -> (shown d 0 == 0)%Q /\ (shown d (inject_Z (2 ^ b - 1)) == 255)%Q) /\
  (kind_bits d = (KF, b) -> (shown d 0 == 0)%Q /\ (shown d 1 == 255)%Q) /\ (d = Bool -> (shown d 0 == 0)%Q /\ (shown d 1 == 255)%Q).
Proof. intros d b. split; [|split]; intros K; destruct d; try discriminate K; try (injection K as <-); vm_compute; split; reflexivity. Qed.
Print Assumptions C144_ends.
(** All images with signed integers are shown black. *)
Theorem C144_signed_refuted : forall d b v, kind_bits d = (KI, b) -> value_in (- 2 ^ (b - 1)) (2 ^ (b - 1) - 1) v -> (shown d v == 0)%Q.
Proof. exact shown_signed. Qed.
Print Assumptions C144_signed_refuted.
Example C144_case :
  resizepad (30, 40) (20, 10) = Ok ((30, 15), (0, 13, 0, 12)) /\ (shown U16 (inject_Z 514) == 2)%Q /\ (shown F32 (1 # 2) == 127)%Q /\
  match debug_image [((20, 20), (20, 30)); ((20, 49), (34, 30))] [(3, 4); (5, 60)] with
  | Ok c => cv_h c = 20 + 2 + 34 + 2 + 3 + 2 + 5 + 2 + 2 /\ cv_w c = 60 + 2 + 60 + 2 + 2 /\
            cv_px c 60 30 = Some (0%nat, 0, 0) /\ cv_px c 62 95 = Some (0%nat, 2, 3) /\ cv_px c 62 96 = None /\ cv_px c 65 2 = Some (1%nat, 0, 0)
  | Err _ => False
  end.
Proof. vm_compute. repeat split. Qed.
