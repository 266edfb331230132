(** Properties of tables for uint8 images: C75-C79. *)
From Verif Require Import Prelude PreludeFacts DtyModel UtilModel LutModel LutSpec FltProofs LutProofs.
From Coq Require Import Qround Lia Lqa.
Local Open Scope Z_scope.

(** Functions that behave as expected. *)
Definition toy_math : fmath :=
  mkFmath (fun x g => if qeqb g 2 then x * x else x)%Q (fun x => if qleb x 0 then 1 / (1 - x) else 1 + x)%Q (fun x => x - 1)%Q.

(** An image: the upper half dark, the lower half bright. *)
Definition halves (h w : Z) (dark bright : list Z) : arr (list Z) := mkArr h w (fun y _ => if 2 * y <? h then dark else bright).
Lemma halves_u8 nc h w d b : (0 < nc)%nat -> 0 < h -> 0 < w -> length d = nc -> length b = nc ->
  forallb (fun v => (0 <=? v) && (v <=? 255)) (d ++ b) = true -> u8_image nc (halves h w d b).
Proof.
  intros N H W LD LB F. rewrite forallb_forall in F. split; [exact N|]. split; [exact H|]. split; [exact W|]. intros y x _. cbn [apx halves].
  assert (forall v, In v (d ++ b) -> 0 <= v <= 255) as G.
  { intros v V. specialize (F v V). apply andb_prop in F. destruct F as [F1 F2]. apply Z.leb_le in F1, F2. lia. }
  destruct (2 * y <? h); (split; [assumption|]); apply Forall_forall; intros v V; apply G; apply in_or_app; auto.
Qed.

(** ** C75: contrast *)

Theorem C75_gamma_order : forall nc im m gamma, u8_image nc im -> power_rises (fpow m) (f32 gamma) ->
  exists r, adjust_contrast nc (gamma_table m gamma) im = Ok r /\ u8_image nc r /\ ah r = ah im /\ aw r = aw im /\ order_kept nc im r.
Proof. exact gamma_order. Qed.
Print Assumptions C75_gamma_order.

Theorem C75_gamma_ends : forall nc im m gamma r, u8_image nc im -> adjust_contrast nc (gamma_table m gamma) im = Ok r ->
  (fpow m 0 (f32 gamma) == 0)%Q -> (fpow m 1 (f32 gamma) == 1)%Q ->
  forall c y x, (c < nc)%nat -> on im y x -> comp im c y x = 0 \/ comp im c y x = 255 -> comp r c y x = comp im c y x.
Proof.
  intros nc im m g r U E P0 P1 c y x C O [V|V]; rewrite V.
  - apply (gamma_fixed nc im m g r 0 U E ltac:(lia) P0); assumption.
  - apply (gamma_fixed nc im m g r 255 U E ltac:(lia) P1); assumption.
Qed.
Print Assumptions C75_gamma_ends.

Theorem C75_gamma_one : forall nc im m gamma r, u8_image nc im -> adjust_contrast nc (gamma_table m gamma) im = Ok r ->
  (gamma == 1)%Q -> (forall x g, g == 1 -> fpow m x g == x)%Q -> same_image nc im r.
Proof.
  intros nc im m g r U E G P. unfold gamma_table in E.
  destruct (adjust_ok nc im (fun i => to_u8 (f32 (0 + f32 (fpow m (linspace1 i) (f32 g) * 255)))%Q) U) as [r' [E' RC]]; [intros; apply to_u8_range|].
  pose proof E as E2. rewrite E in E'. injection E' as <-. destruct RC as [R1 [R2 [R3 _]]]. split; [exact R1|]. split; [exact R2|]. split; [exact R3|].
  intros c y x C O. apply (gamma_fixed nc im m g r (comp im c y x) U E2 (comp_range nc im c y x U C O)); try assumption; [|reflexivity].
  apply P. apply (f32_Z 1); [discriminate|exact G].
Qed.
Print Assumptions C75_gamma_one.

Theorem C75_sigmoid_order : forall nc im m gain cutoff, u8_image nc im -> exp_rises (fexp m) -> (0 <= gain)%Q ->
  exists r, adjust_contrast nc (sigmoid_table m gain cutoff) im = Ok r /\ u8_image nc r /\ ah r = ah im /\ aw r = aw im /\ order_kept nc im r.
Proof. exact sigmoid_order. Qed.
Print Assumptions C75_sigmoid_order.

Theorem C75_log_order : forall nc im m gain, u8_image nc im -> log_rises (flog2 m) -> (0 <= gain)%Q ->
  exists r, adjust_contrast nc (log_table m gain) im = Ok r /\ u8_image nc r /\ ah r = ah im /\ aw r = aw im /\ order_kept nc im r /\
    forall c y x, (c < nc)%nat -> on im y x -> comp im c y x = 0 -> comp r c y x = 0.
Proof.
  intros nc im m g U L G. destruct (log_order nc im m g U L G) as [r [E [A [B [C D]]]]]. exists r. repeat (split; [assumption|]).
  exact (log_black nc im m g r U L E).
Qed.
Print Assumptions C75_log_order.

Theorem C75_linear_order : forall nc im alpha, u8_image nc im ->
  exists r, adjust_contrast nc (linear_table alpha) im = Ok r /\ u8_image nc r /\ ah r = ah im /\ aw r = aw im /\
    ((0 <= alpha)%Q -> order_kept nc im r) /\ ((alpha <= 0)%Q -> order_reversed nc im r).
Proof.
  intros nc im a U. destruct (linear_order nc im a U) as [r [E [[A [B [C _]]] D]]]. exists r. repeat (split; [assumption|]). exact D.
Qed.
Print Assumptions C75_linear_order.

(** alpha is a float32: 127 + alpha * (v - 127), limited to [0, 255], cut down. *)
Theorem C75_linear_value : forall nc im alpha r, u8_image nc im -> adjust_contrast nc (linear_table alpha) im = Ok r -> (f32 alpha == alpha)%Q ->
  forall c y x, (c < nc)%nat -> on im y x -> let v := (127 + alpha * inject_Z (comp im c y x - 127))%Q in
  (limited v - (1 + (1 # 1000)) < inject_Z (comp r c y x) <= limited v + (1 # 1000))%Q.
Proof.
  intros nc im a r U E F c y x C O. destruct (linear_order nc im a U) as [r' [E' [[_ [_ [_ R]]] _]]]. rewrite E in E'. injection E' as <-.
  rewrite R by assumption. apply linear_near; [exact F|]. apply (comp_range nc im c y x U C O).
Qed.
Print Assumptions C75_linear_value.

Theorem C75_linear_one : forall nc im alpha r, u8_image nc im -> adjust_contrast nc (linear_table alpha) im = Ok r -> (alpha == 1)%Q -> same_image nc im r.
Proof.
  intros nc im a r U E F. destruct (linear_order nc im a U) as [r' [E' [R _]]]. rewrite E in E'. injection E' as <-.
  apply (recolored_ext _ _ _ _ _ U R). intros _ v _ V. apply linear_one; assumption.
Qed.
Print Assumptions C75_linear_one.

(** Images without components are returned as they are. *)
Theorem C75_empty : forall nc table im, ah im = 0 \/ aw im = 0 \/ nc = 0%nat -> adjust_contrast nc table im = Ok im.
Proof.
  intros nc t im H. unfold adjust_contrast. destruct H as [->|[->| ->]]; [reflexivity|rewrite Z.eqb_refl, orb_true_r; reflexivity|rewrite orb_true_r; reflexivity].
Qed.
Print Assumptions C75_empty.

Example C75_case_image : u8_image 3 (halves 4 5 [0; 100; 255] [10; 200; 127]).
Proof. apply halves_u8; try lia; reflexivity. Qed.
Example C75_case_power : power_rises (fpow toy_math) (f32 2) /\ power_rises (fpow toy_math) (f32 (1 # 2)) /\
  (fpow toy_math 0 (f32 2) == 0 /\ fpow toy_math 1 (f32 2) == 1)%Q /\ (forall x g, g == 1 -> fpow toy_math x g == x)%Q.
Proof.
  assert (forall g, power_rises (fpow toy_math) g) as P.
  { intros g a b A B D. cbn [fpow toy_math]. destruct (qeqb g 2%Q); [nra|exact B]. }
  split; [apply P|]. split; [apply P|]. split; [split; reflexivity|]. intros x g G. cbn [fpow toy_math]. destruct (qeqb g 2%Q) eqn:B; [apply qeqb_iff in B; lra|reflexivity].
Qed.
Example C75_case_exp_log : exp_rises (fexp toy_math) /\ log_rises (flog2 toy_math).
Proof.
  split; [split|split].
  - intros a b H. cbn [fexp toy_math]. destruct (qleb a 0) eqn:A, (qleb b 0) eqn:B; qbool.
    + apply Qle_shift_div_l; [lra|]. setoid_replace (1 / (1 - a) * (1 - b))%Q with ((1 - b) / (1 - a))%Q by (field; lra). apply Qle_shift_div_r; lra.
    + apply Qle_shift_div_r; [lra|]. nra.
    + lra.
    + lra.
  - intros a. cbn [fexp toy_math]. destruct (qleb a 0) eqn:A; qbool; [|lra]. apply Qlt_shift_div_l; lra.
  - intros a b _ H. cbn [flog2 toy_math]. lra.
  - reflexivity.
Qed.
Example C75_case_values :
  let im := halves 2 1 [100; 0; 30] [255; 200; 127] in
  match adjust_contrast 3 (gamma_table toy_math 2) im, adjust_contrast 3 (linear_table (3 # 2)) im with
  | Ok r, Ok s => (apx r 0 0, apx r 1 0, apx s 0 0, apx s 1 0) = ([39; 0; 3], [255; 156; 63], [86; 0; 0], [255; 236; 127])
  | _, _ => False
  end.
Proof. vm_compute. reflexivity. Qed.

(** ** C76: histogram equalization *)

Theorem C76_order : forall owned nc im mask, u8_image nc im ->
  exists after r, equalize owned nc im mask = Ok (after, r) /\ u8_image nc r /\ ah r = ah im /\ aw r = aw im /\ order_kept nc im r.
Proof.
  intros owned nc im mask U. destruct (equalize_ok owned nc im mask U) as [a [r [E [R _]]]]. exists a, r. split; [exact E|].
  pose proof R as [R1 [R2 [R3 _]]]. repeat (split; [assumption|]). exact (eq_entry_order _ _ _ _ _ U R).
Qed.
Print Assumptions C76_order.

(** The new value of a component is the number of pixels darker than it, in
    units of 1/255 of the number of pixels darker than a reference [b]. *)
Theorem C76_levels : forall owned nc im mask after r, u8_image nc im -> equalize owned nc im mask = Ok (after, r) ->
  let m := if Nat.eqb nc 1 || Nat.eqb nc 3 then mask else None in
  forall c b, (c < nc)%nat -> (small_rgb nc im -> brightest m im c b) -> (~ small_rgb nc im -> b = 255) ->
  let q := count m im c (fun u => u <? b) / 255 in
  (one_value m im c \/ q = 0 -> forall y x, on im y x -> comp r c y x = comp im c y x) /\
  (~ one_value m im c -> q <> 0 -> forall y x, on im y x -> levelled q (count m im c (fun u => u <? comp im c y x)) (comp r c y x)).
Proof. exact equalize_levels. Qed.
Print Assumptions C76_levels.

Theorem C76_ends : forall owned im mask after r c b, u8_image 3 im -> ah im * aw im * 3 < 4096 -> equalize owned 3 im mask = Ok (after, r) -> (c < 3)%nat ->
  brightest mask im c b -> 255 <= count mask im c (fun u => u <? b) ->
  forall y x, on im y x ->
    (comp im c y x = b -> comp r c y x = 255) /\
    ((forall y' x', on im y' x' -> in_mask mask y' x' = true -> comp im c y x <= comp im c y' x') -> comp r c y x = 0).
Proof. exact equalize_ends. Qed.
Print Assumptions C76_ends.

(** The input stays the same unless it is small, and has three channels or
    one (of an array that owns its data). *)
Theorem C76_input_partial : forall owned nc im mask after r, u8_image nc im -> equalize owned nc im mask = Ok (after, r) ->
  ~ (ah im * aw im * Z.of_nat nc < 4096 /\ (nc = 3%nat \/ nc = 1%nat /\ owned = true)) -> after = im.
Proof. exact equalize_input. Qed.
Print Assumptions C76_input_partial.

Definition dark_light : arr (list Z) := halves 32 32 [0; 10; 20] [100; 200; 255].
Lemma dark_light_u8 : u8_image 3 dark_light.
Proof. apply halves_u8; try lia; reflexivity. Qed.
Lemma dark_light_top : brightest None dark_light 0 100.
Proof.
  split.
  - exists 31, 0. split; [split; cbn; lia|]. split; reflexivity.
  - intros y x _ _. unfold comp, dark_light, halves. cbn [apx]. destruct (2 * y <? 32); cbn; lia.
Qed.
Example C76_case_ends : exists after r, equalize true 3 dark_light None = Ok (after, r) /\ comp r 0 0 0 = 0 /\ comp r 0 31 0 = 255 /\
  count None dark_light 0 (fun u => u <? 100) = 512.
Proof.
  destruct (C76_order true 3 dark_light None dark_light_u8) as [a [r [E _]]]. exists a, r. split; [exact E|].
  assert (count None dark_light 0 (fun u => u <? 100) = 512) as N by (vm_compute; reflexivity).
  pose proof (C76_ends true dark_light None a r 0%nat 100 dark_light_u8 eq_refl E ltac:(lia) dark_light_top ltac:(lia)) as K.
  split; [|split; [|exact N]].
  - apply (K 0 0); [split; cbn; lia|]. intros y x _ _. unfold comp, dark_light, halves. cbn [apx]. destruct (2 * y <? 32); cbn; lia.
  - apply (K 31 0); [split; cbn; lia|reflexivity].
Qed.

(** The function that is not in-place changes its input. *)
Theorem C76_input_refuted : exists im mask after r y x, u8_image 3 im /\ equalize false 3 im mask = Ok (after, r) /\ on im y x /\
  comp after 0 y x <> comp im 0 y x.
Proof.
  destruct (equalize_ok false 3 dark_light None dark_light_u8) as [a [r [E [_ A]]]]. exists dark_light, None, a, r, 31, 0.
  split; [exact dark_light_u8|]. split; [exact E|]. split; [split; cbn; lia|].
  assert (a = r) as -> by exact A. assert (count None dark_light 0 (fun u => u <? 100) = 512) as N by (vm_compute; reflexivity).
  pose proof (C76_ends false dark_light None r r 0%nat 100 dark_light_u8 eq_refl E ltac:(lia) dark_light_top ltac:(lia) 31 0 ltac:(split; cbn; lia)) as [K _].
  rewrite K by reflexivity. discriminate.
Qed.
Print Assumptions C76_input_refuted.

(** For other numbers of channels than 1 and 3 the mask is ignored. *)
Theorem C76_mask_refuted : (forall owned nc im mask, nc <> 1%nat -> nc <> 3%nat -> equalize owned nc im mask = equalize owned nc im None) /\
  exists im mask after r, u8_image 2 im /\ equalize false 2 im (Some mask) = Ok (after, r) /\ one_value (Some mask) im 0 /\ comp r 0 31 0 <> comp im 0 31 0.
Proof.
  split; [exact equalize_no_mask|]. set (im := halves 32 32 [0; 10] [100; 200]).
  assert (u8_image 2 im) as U by (apply halves_u8; try lia; reflexivity).
  exists im, (mkArr 32 32 (fun y _ => if 2 * y <? 32 then 0 else 1)).
  destruct (C76_order false 2 im (Some (mkArr 32 32 (fun y _ => if 2 * y <? 32 then 0 else 1))) U) as [a [r [E _]]]. exists a, r.
  split; [exact U|]. split; [exact E|]. split.
  - intros y x y' x' _ _. unfold in_mask, comp, im, halves. cbn [apx]. destruct (2 * y <? 32), (2 * y' <? 32); cbn; intros; congruence.
  - pose proof (C76_levels false 2 im _ a r U E) as L. cbn [Nat.eqb orb] in L. cbv zeta in L.
    destruct (L 0%nat 255 ltac:(lia)) as [_ L2]; [intros [K _]; discriminate|reflexivity|].
    assert (count None im 0 (fun u => u <? 255) / 255 = 4) as Q by (vm_compute; reflexivity). rewrite Q in L2.
    specialize (L2 ltac:(intros K; specialize (K 0 0 31 0 ltac:(split; cbn; lia) ltac:(split; cbn; lia) eq_refl eq_refl); discriminate) ltac:(lia) 31 0 ltac:(split; cbn; lia)).
    assert (count None im 0 (fun u => u <? comp im 0 31 0) = 512) as N by (vm_compute; reflexivity). rewrite N in L2.
    unfold levelled in L2. change (255 * 4 <=? 512 + 4 / 2) with false in L2. cbv iota in L2. change (512 + 4 / 2) with 514 in L2.
    change (comp im 0 31 0) with 100. lia.
Qed.
Print Assumptions C76_mask_refuted.

(** The brightest pixels of larger images, or of one channel, need not become white. *)
Theorem C76_white_refuted : exists im after r, u8_image 1 im /\ equalize false 1 im None = Ok (after, r) /\ brightest None im 0 100 /\
  255 <= count None im 0 (fun u => u <? 100) /\ comp im 0 31 0 = 100 /\ comp r 0 31 0 = 128.
Proof.
  set (im := halves 32 32 [0] [100]). assert (u8_image 1 im) as U by (apply halves_u8; try lia; reflexivity).
  destruct (C76_order false 1 im None U) as [a [r [E _]]]. exists im, a, r. split; [exact U|]. split; [exact E|].
  split; [|split; [vm_compute; discriminate|split; [reflexivity|]]].
  - split.
    + exists 31, 0. split; [split; cbn; lia|]. split; reflexivity.
    + intros y x _ _. unfold comp, im, halves. cbn [apx]. destruct (2 * y <? 32); cbn; lia.
  - pose proof (C76_levels false 1 im _ a r U E) as L. cbn [Nat.eqb orb] in L. cbv zeta in L.
    destruct (L 0%nat 255 ltac:(lia)) as [_ L2]; [intros [K _]; discriminate|reflexivity|].
    assert (count None im 0 (fun u => u <? 255) / 255 = 4) as Q by (vm_compute; reflexivity). rewrite Q in L2.
    specialize (L2 ltac:(intros K; specialize (K 0 0 31 0 ltac:(split; cbn; lia) ltac:(split; cbn; lia) eq_refl eq_refl); discriminate) ltac:(lia) 31 0 ltac:(split; cbn; lia)).
    assert (count None im 0 (fun u => u <? comp im 0 31 0) = 512) as N by (vm_compute; reflexivity). rewrite N in L2.
    unfold levelled in L2. change (255 * 4 <=? 512 + 4 / 2) with false in L2. cbv iota in L2. change (512 + 4 / 2) with 514 in L2. lia.
Qed.
Print Assumptions C76_white_refuted.

(** ** C77: autocontrast *)

Theorem C77_order : forall nc im cutoff ignore pil two_d, u8_image nc im -> (cutoff == 0)%Q \/ (two_d = false /\ nc <> 3%nat) ->
  exists r, autocontrast pil two_d nc im cutoff ignore = Ok r /\ u8_image nc r /\ ah r = ah im /\ aw r = aw im /\ order_kept nc im r.
Proof.
  intros nc im cutoff ignore pil two_d U H. rewrite autocontrast_route by assumption. destruct (autocontrast_ok nc im cutoff ignore U) as [r [E [O [R1 [R2 [R3 _]]]]]].
  exists r. repeat (split; [assumption|]). exact O.
Qed.
Print Assumptions C77_order.

(** [lo] and [hi] are the values of the darkest and the brightest pixel left
    when cutoff percent of the (not ignored) pixels are removed at both ends. *)
Theorem C77_stretch : forall nc im cutoff ignore pil two_d r, u8_image nc im -> (0 <= cutoff)%Q -> (cutoff == 0)%Q \/ (two_d = false /\ nc <> 3%nat) ->
  autocontrast pil two_d nc im cutoff ignore = Ok r ->
  forall c, (c < nc)%nat -> let k := Qfloor (inject_Z (count None im c (fun v => negb (existsb (Z.eqb v) ignore))) * cutoff / 100) in
  (forall lo hi, 0 <= lo -> lo < hi -> hi <= 255 -> dark_rank im c ignore k lo -> bright_rank im c ignore k hi ->
     forall y x, on im y x -> stretched lo hi (comp im c y x) (comp r c y x)) /\
  ((forall lo hi, 0 <= lo -> lo < hi -> hi <= 255 -> dark_rank im c ignore k lo -> bright_rank im c ignore k hi -> False) ->
     forall y x, on im y x -> comp r c y x = comp im c y x).
Proof. intros nc im cutoff ignore pil two_d r U CO H E. rewrite autocontrast_route in E by assumption. exact (autocontrast_spec nc im cutoff ignore r U CO E). Qed.
Print Assumptions C77_stretch.

Definition no_pil (im : arr (list Z)) (cutoff : Q) (ignore : list Z) : res (arr (list Z)) := Err GenericException.
(** Ranks without and with a cutoff, and with ignored values: 100 pixels of 20
    to 200. *)
Definition ramp : arr (list Z) := mkArr 10 10 (fun y x => [20 + 2 * (10 * y + x)]).
Example C77_case_ranks : dark_rank ramp 0 [] 0 20 /\ bright_rank ramp 0 [] 0 218 /\ dark_rank ramp 0 [] 10 40 /\ bright_rank ramp 0 [] 10 198 /\
  dark_rank ramp 0 [20; 22] 10 44 /\ Qfloor (inject_Z (count None ramp 0 (fun v => negb (existsb (Z.eqb v) []))) * 10 / 100) = 10.
Proof. repeat split; vm_compute; congruence. Qed.
Lemma ramp_u8 : u8_image 1 ramp.
Proof.
  split; [lia|]. split; [reflexivity|]. split; [reflexivity|]. intros y x [[Y1 Y2] [X1 X2]]. cbn [ah aw ramp] in *. split; [reflexivity|].
  constructor; [cbv beta; lia|constructor].
Qed.
Example C77_case_cutoff : exists r, autocontrast no_pil false 1 ramp 10 [] = Ok r /\ comp r 0 0 5 = 0 /\ 254 <= comp r 0 9 5 /\ comp r 0 5 0 = 129.
Proof.
  destruct (C77_order 1 ramp 10 [] no_pil false ramp_u8) as [r [E _]]; [right; split; [reflexivity|discriminate]|]. exists r. split; [exact E|].
  destruct (C77_stretch 1 ramp 10 [] no_pil false r ramp_u8 ltac:(discriminate) ltac:(right; split; [reflexivity|discriminate]) E 0%nat ltac:(lia)) as [K _]. cbv zeta in K.
  destruct C77_case_ranks as [_ [_ [D [B [_ Q]]]]]. rewrite Q in K. specialize (K 40 198 ltac:(lia) ltac:(lia) ltac:(lia) D B).
  split; [apply (K 0 5); [split; cbn; lia|cbn; lia]|]. split; [apply (K 9 5); [split; cbn; lia|cbn; lia]|].
  destruct (K 5 0 ltac:(split; cbn; lia)) as [_ [_ K3]]. specialize (K3 ltac:(cbn; lia)). change (comp ramp 0 5 0) with 120 in K3. destruct K3 as [K3 K4].
  assert (inject_Z 128 < inject_Z (comp r 0 5 0))%Q as L1. { eapply Qle_lt_trans; [|exact K3]. vm_compute. discriminate. }
  assert (inject_Z (comp r 0 5 0) < inject_Z 130)%Q as L2. { eapply Qle_lt_trans; [exact K4|]. vm_compute. reflexivity. }
  rewrite inject_lt in L1, L2. lia.
Qed.
(** One value only: nothing to stretch. *)
Example C77_case_flat : forall lo hi, 0 <= lo -> lo < hi -> hi <= 255 -> dark_rank (halves 2 3 [7] [7]) 0 [] 0 lo -> bright_rank (halves 2 3 [7] [7]) 0 [] 0 hi -> False.
Proof.
  intros lo hi L LH H [_ D2] [_ B2].
  assert (7 <= lo) as A.
  { destruct (Z.leb_spec 7 lo) as [K|K]; [exact K|]. exfalso. rewrite count_counting, counting_zero in D2; [lia|]. intros y x _ _. cbn [channel apx halves ah aw].
    assert (nth 0 (if 2 * y <? 2 then [7] else [7]) 0 = 7) as -> by (destruct (2 * y <? 2); reflexivity). cbn. apply Z.leb_gt. exact K. }
  rewrite count_counting, counting_zero in B2; [lia|]. intros y x _ _. cbn [channel apx halves ah aw].
  assert (nth 0 (if 2 * y <? 2 then [7] else [7]) 0 = 7) as -> by (destruct (2 * y <? 2); reflexivity). cbn. apply Z.leb_gt. lia.
Qed.

(** The brightest pixels need not become 255: 25 * (255.0 / 25) is less than 255. *)
Theorem C77_white_refuted : exists im r, u8_image 1 im /\ autocontrast no_pil false 1 im 0 [] = Ok r /\ dark_rank im 0 [] 0 0 /\ bright_rank im 0 [] 0 25 /\
  comp im 0 1 0 = 25 /\ comp r 0 1 0 = 254.
Proof.
  set (im := halves 2 1 [0] [25]). assert (u8_image 1 im) as U by (apply halves_u8; try lia; reflexivity).
  destruct (C77_order 1 im 0 [] no_pil false U) as [r [E _]]; [left; reflexivity|]. exists im, r. split; [exact U|]. split; [exact E|].
  split; [split; vm_compute; congruence|]. split; [split; vm_compute; congruence|]. split; [reflexivity|].
  vm_compute in E. injection E as <-. reflexivity.
Qed.
Print Assumptions C77_white_refuted.

(** ** C78: uniform quantization *)

Theorem C78_order : forall nc im n center, u8_image nc im -> 2 <= n <= 254 ->
  exists r, quantize_uniform nc im n center = Ok r /\ u8_image nc r /\ ah r = ah im /\ aw r = aw im /\ order_kept nc im r.
Proof.
  intros nc im n b U N. destruct (quantize_ok nc im n b U ltac:(lia)) as [r [E [[R1 [R2 [R3 _]]] O]]]. exists r. repeat (split; [assumption|]). exact O.
Qed.
Print Assumptions C78_order.

(** Every component becomes the lower end (or the center) of its bin; only a
    component that is the lower end itself may become that of the bin below. *)
Theorem C78_bins_partial : forall nc im n center r, u8_image nc im -> 2 <= n <= 254 -> quantize_uniform nc im n center = Ok r ->
  forall c y x, (c < nc)%nat -> on im y x -> let v := comp im c y x in
  exists j, (j = v * n / 256 \/ (v * n) mod 256 = 0 /\ j = v * n / 256 - 1) /\ 0 <= j < n /\ nearest_in_bin center n j (comp r c y x).
Proof. exact quantize_bins. Qed.
Print Assumptions C78_bins_partial.

(** At most [n] values are left. *)
Theorem C78_palette : forall nc im n center r, u8_image nc im -> 2 <= n <= 254 -> quantize_uniform nc im n center = Ok r ->
  exists palette, length palette = Z.to_nat n /\ forall c y x, (c < nc)%nat -> on im y x -> In (comp r c y x) palette.
Proof. exact quantize_palette. Qed.
Print Assumptions C78_palette.

(** Posterization clears the low bits. *)
Theorem C78_posterize : forall nc im bits, u8_image nc im -> 1 <= bits <= 8 ->
  exists r, quantize_uniform_to_n_bits nc im bits = Ok r /\ recolored nc im (fun _ v => Z.shiftl (Z.shiftr v (8 - bits)) (8 - bits)) r.
Proof.
  intros nc im bits U B. destruct (posterize_ok nc im bits U B) as [r [E R]]. exists r. split; [exact E|].
  apply (recolored_ext _ _ _ _ _ U R). intros _ v _ V. rewrite Z.shiftl_mul_pow2, Z.shiftr_div_pow2 by lia. reflexivity.
Qed.
Print Assumptions C78_posterize.

Theorem C78_all_values : forall nc im center, quantize_uniform nc im 256 center = Ok im.
Proof. reflexivity. Qed.
Print Assumptions C78_all_values.

Theorem C78_errors : forall nc im, u8_image nc im ->
  (forall n center, n < 2 \/ 256 < n -> quantize_uniform nc im n center = Err AssertionError) /\
  (forall bits, bits < 1 \/ 8 < bits -> quantize_uniform_to_n_bits nc im bits = Err AssertionError).
Proof.
  intros nc im U. split.
  - intros n b H. unfold quantize_uniform. pose proof (size_pos nc im U) as S. replace (n =? 256) with false by (symmetry; apply Z.eqb_neq; lia).
    replace (size_of nc im =? 0) with false by (symmetry; apply Z.eqb_neq; lia). cbn [orb].
    destruct (Z.leb_spec 2 n), (Z.leb_spec n 256); cbn [andb]; try reflexivity. lia.
  - intros bits H. unfold quantize_uniform_to_n_bits. destruct (Z.leb_spec 1 bits), (Z.leb_spec bits 8); cbn [andb]; try reflexivity. lia.
Qed.
Print Assumptions C78_errors.

Example C78_case : let im := halves 2 1 [0; 40; 85] [127; 200; 255] in
  match quantize_uniform 3 im 3 false, quantize_uniform 3 im 3 true, quantize_uniform_to_n_bits 3 im 3 with
  | Ok r, Ok s, Ok t => (apx r 0 0, apx r 1 0, apx s 0 0, apx s 1 0, apx t 0 0, apx t 1 0) =
                        ([0; 0; 0], [85; 171; 171], [43; 43; 43], [128; 213; 213], [0; 32; 64], [96; 192; 224])
  | _, _, _ => False
  end.
Proof. vm_compute. reflexivity. Qed.

(** 255 bins are allowed, but make every image black. *)
Theorem C78_black_refuted : forall nc im center, u8_image nc im -> exists r, quantize_uniform nc im 255 center = Ok r /\ recolored nc im (fun _ _ => 0) r.
Proof.
  intros nc im b U. destruct (quantize_ok nc im 255 b U ltac:(lia)) as [r [E [R _]]]. exists r. split; [exact E|]. apply (recolored_ext _ _ _ _ _ U R). intros. reflexivity.
Qed.
Print Assumptions C78_black_refuted.

(** With 14 bins, 128 = 7 * 256 / 14 is put into the bin below: it becomes 110
    and not 128. *)
Theorem C78_bins_refuted : exists im r, u8_image 1 im /\ quantize_uniform 1 im 14 false = Ok r /\ comp im 0 0 0 = 128 /\ (128 * 14) / 256 = 7 /\
  comp r 0 0 0 = 110 /\ ~ nearest_in_bin false 14 7 (comp r 0 0 0).
Proof.
  set (im := halves 1 1 [128] [128]). assert (u8_image 1 im) as U by (apply halves_u8; try lia; reflexivity).
  destruct (quantize_ok 1 im 14 false U ltac:(lia)) as [r [E [[_ [_ [_ R]]] _]]].
  exists im, r. split; [exact U|]. split; [exact E|]. split; [reflexivity|]. split; [reflexivity|].
  assert (comp r 0 0 0 = 110) as V by (rewrite R; [vm_compute; reflexivity|lia|split; cbn; lia]). split; [exact V|]. rewrite V. unfold nearest_in_bin. cbn. lia.
Qed.
Print Assumptions C78_bins_refuted.

(** ** C79: hue and saturation *)

(** Hue is added as an angle, saturation with limits; the third channel stays
    the same. Images are in HSV already. *)
Theorem C79_transform : forall im hue saturation, u8_image 3 im -> -255 <= hue <= 255 -> -255 <= saturation <= 255 ->
  exists r, transform_hs im hue saturation = Ok r /\
    recolored 3 im (fun c v => match c with
                               | O => (v + hue) mod 180
                               | S O => Z.max 0 (Z.min 255 (v + saturation))
                               | _ => v
                               end) r.
Proof.
  intros im h s U H S. destruct (transform_ok im h s U H S) as [r [E R]]. exists r. split; [exact E|]. apply (recolored_ext _ _ _ _ _ U R).
  intros [|[|c]] v _ V; try reflexivity. unfold zclip. lia.
Qed.
Print Assumptions C79_transform.

Theorem C79_restore : forall im value saturation saturation' r r', u8_image 3 im -> -255 <= value <= 255 -> -255 <= saturation <= 255 -> -255 <= saturation' <= 255 ->
  transform_hs im (project_hue value) saturation = Ok r -> transform_hs r (project_hue (- value)) saturation' = Ok r' ->
  forall y x, on im y x -> comp im 0 y x < 180 -> comp r' 0 y x = comp im 0 y x.
Proof.
  intros im v s s' r r' U V S S' E E' y x O L. destruct (project_near v V) as [_ P]. pose proof (project_opp v V) as PO.
  destruct (transform_ok im (project_hue v) s U ltac:(lia) S) as [q [Q R]]. rewrite E in Q. injection Q as <-. destruct R as [RU [R1 [R2 R]]].
  destruct (transform_ok r (project_hue (- v)) s' RU ltac:(lia) S') as [q [Q R']]. rewrite E' in Q. injection Q as <-. destruct R' as [_ [_ [_ R']]].
  rewrite R'; [|lia|unfold on; rewrite R1, R2; exact O]. rewrite R by (lia || exact O). cbv beta iota. rewrite PO, Zplus_mod_idemp_l.
  replace (comp im 0 y x + project_hue v + - project_hue v) with (comp im 0 y x) by lia. apply Z.mod_small.
  pose proof (comp_range 3 im 0 y x U ltac:(lia) O). lia.
Qed.
Print Assumptions C79_restore.

(** -255 to 255 is mapped to -180 to 180. *)
Theorem C79_projection : forall v, -255 <= v <= 255 ->
  (inject_Z (180 * v) / 255 - 1 < inject_Z (project_hue v) < inject_Z (180 * v) / 255 + 1)%Q /\ -180 <= project_hue v <= 180 /\
  project_hue (- v) = - project_hue v.
Proof. intros v V. destruct (project_near v V) as [A B]. split; [exact A|]. split; [exact B|]. exact (project_opp v V). Qed.
Print Assumptions C79_projection.

(** A full turn leaves the hue the same. *)
Theorem C79_full_turn : forall im v saturation r, u8_image 3 im -> v = 255 \/ v = -255 -> -255 <= saturation <= 255 ->
  transform_hs im (project_hue v) saturation = Ok r -> forall y x, on im y x -> comp im 0 y x < 180 -> comp r 0 y x = comp im 0 y x.
Proof.
  intros im v s r U V S E y x O L. assert (project_hue v = 180 \/ project_hue v = -180) as P by (destruct V as [-> | ->]; [left|right]; vm_compute; reflexivity).
  destruct (transform_ok im (project_hue v) s U ltac:(lia) S) as [q [Q R]]. rewrite E in Q. injection Q as <-. destruct R as [_ [_ [_ R]]].
  rewrite R by (lia || exact O). cbv beta iota. pose proof (comp_range 3 im 0 y x U ltac:(lia) O).
  destruct P as [-> | ->].
  - rewrite <- (Z_mod_plus_full (comp im 0 y x + 180) (-1) 180). replace (comp im 0 y x + 180 + -1 * 180) with (comp im 0 y x) by lia. apply Z.mod_small. lia.
  - rewrite <- (Z_mod_plus_full (comp im 0 y x + -180) 1 180). replace (comp im 0 y x + -180 + 1 * 180) with (comp im 0 y x) by lia. apply Z.mod_small. lia.
Qed.
Print Assumptions C79_full_turn.

Theorem C79_parameters : forall (P : Type) (default : P) value value_hue value_saturation,
  hs_new default value value_hue value_saturation =
  match value with
  | Some v => if match value_hue, value_saturation with None, None => true | _, _ => false end then Ok (Common v) else Err AssertionError
  | None => if match value_hue, value_saturation with None, None => true | _, _ => false end
            then Ok (Separate (Some default) (Some default)) else Ok (Separate value_hue value_saturation)
  end.
Proof. intros P d [v|] [h|] [s|]; reflexivity. Qed.
Print Assumptions C79_parameters.

(** Separate parameters: each image gets its own samples, and a parameter that
    is not given changes nothing. *)
Theorem C79_separate : forall (P : Type) (draw : nat -> P -> nat -> Z) per_channel hue saturation i,
  hs_samples draw per_channel (Separate hue saturation) i =
  Ok (match hue with Some p => project_hue (draw 0%nat p i) | None => 0 end, match saturation with Some p => draw 1%nat p i | None => 0 end).
Proof. intros P draw pc [h|] s i; reflexivity. Qed.
Print Assumptions C79_separate.

(** A common parameter: one sample is used for both, unless per_channel. *)
Theorem C79_common : forall (P : Type) (draw : nat -> P -> nat -> Z) per_channel p i h s,
  (forall k, -255 <= draw 1%nat p k <= 255) -> hs_samples draw per_channel (Common p) i = Ok (h, s) ->
  -180 <= h <= 180 /\ -255 <= s <= 255 /\ (per_channel i = false -> h = project_hue s) /\ (per_channel i = true -> h = project_hue (draw 1%nat p (2 * i)%nat) /\ s = draw 1%nat p (2 * i + 1)%nat).
Proof.
  intros P draw pc p i h s D E. unfold hs_samples in E. destruct ((-255 <=? draw 1%nat p 0%nat) && (draw 1%nat p 0%nat <=? 255)); [|discriminate]. injection E as <- <-.
  destruct (project_near (draw 1%nat p (2 * i)%nat) (D _)) as [_ B]. split; [exact B|]. split; [destruct (pc i); apply D|]. destruct (pc i); split; intros K; try discriminate; try reflexivity. split; reflexivity.
Qed.
Print Assumptions C79_common.

Theorem C79_first_sample : forall (P : Type) (draw : nat -> P -> nat -> Z) per_channel p i, draw 1%nat p 0%nat < -255 \/ 255 < draw 1%nat p 0%nat ->
  hs_samples draw per_channel (Common p) i = Err AssertionError.
Proof.
  intros P draw pc p i H. unfold hs_samples. destruct (Z.leb_spec (-255) (draw 1%nat p 0%nat)), (Z.leb_spec (draw 1%nat p 0%nat) 255); cbn [andb]; try reflexivity. lia.
Qed.
Print Assumptions C79_first_sample.

Example C79_case : let im := halves 2 1 [10; 20; 30] [170; 250; 255] in
  match transform_hs im (project_hue 100) (-50), transform_hs im (project_hue (-30)) 100 with
  | Ok r, Ok s => (apx r 0 0, apx r 1 0, apx s 0 0, apx s 1 0) = ([80; 0; 30], [60; 200; 255], [169; 120; 30], [149; 255; 255])
  | _, _ => False
  end.
Proof. vm_compute. reflexivity. Qed.

(** Saturation samples outside of [-255, 255] are not rejected: -300 adds 212,
    and 256 makes the saturation zero. *)
Theorem C79_range_refuted : exists im r r', u8_image 3 im /\ transform_hs im 0 (-300) = Ok r /\ transform_hs im 0 256 = Ok r' /\
  comp im 1 0 0 = 20 /\ comp r 1 0 0 = 232 /\ comp r' 1 0 0 = 0 /\
  (forall pc i, hs_samples (fun _ p _ => p) pc (Separate None (Some (-300))) i = Ok (0, -300)).
Proof.
  set (im := halves 1 1 [10; 20; 30] [10; 20; 30]). assert (u8_image 3 im) as U by (apply halves_u8; try lia; reflexivity).
  destruct (transform_hs im 0 (-300)) as [r|] eqn:E; [|vm_compute in E; discriminate]. destruct (transform_hs im 0 256) as [r'|] eqn:E'; [|vm_compute in E'; discriminate].
  exists im, r, r'. split; [exact U|]. split; [exact E|]. split; [exact E'|]. split; [reflexivity|].
  vm_compute in E, E'. injection E as <-. injection E' as <-. split; [reflexivity|]. split; [reflexivity|]. intros. reflexivity.
Qed.
Print Assumptions C79_range_refuted.
