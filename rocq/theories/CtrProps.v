(** Properties C137-C140: dtype gates, dtype promotion, linear contrast, histogram equalization. *)
From Coq Require Import String Ascii List ZArith QArith Qabs Bool Lia.
From Verif Require Import Prelude DtyModel DtySpec ColModel ColSpec CtrModel CtrSpec.
From Verif Require CtrProofs CtrProofs2 CtrProofs3.
Import ListNotations.
Open Scope Z_scope.

(** ** C137: gates *)
(** A disallowed dtype raises ValueError; otherwise the images are accepted, with a warning about exactly the dtypes that are neither allowed nor disallowed. *)
Theorem C137_gate_decides : forall ds sa sd allowed disallowed, lists sa allowed -> lists sd disallowed -> (forall x, In x allowed -> ~ In x disallowed) ->
  (Exists (fun x => In x disallowed) ds -> gate_strs ds sa sd = Err ValueError) /\
  (Forall (fun x => ~ In x disallowed) ds -> exists warned, gate_strs ds sa sd = Ok warned /\ forall x, In x warned <-> In x ds /\ ~ In x allowed).
Proof. exact CtrProofs.gate_listed. Qed.
Print Assumptions C137_gate_decides.
Theorem C137_overlap_raises : forall ds sa sd allowed disallowed x, lists sa allowed -> lists sd disallowed -> In x allowed -> In x disallowed ->
  gate_strs ds sa sd = Err AssertionError.
Proof. exact CtrProofs.gate_overlap. Qed.
Print Assumptions C137_overlap_raises.
Theorem C137_unknown_name_raises : forall ds sa sd ws w, has_words sa ws \/ has_words sd ws -> In w ws -> unknown w -> gate_strs ds sa sd = Err KeyError_.
Proof. exact CtrProofs.gate_unknown. Qed.
Print Assumptions C137_unknown_name_raises.
(** The theorems above cover all strings: each lists dtypes or has an unknown name, and it lists them in one way. *)
Theorem C137_all_strings : forall s, (exists l, lists s l) \/ (exists ws w, has_words s ws /\ In w ws /\ unknown w).
Proof. exact CtrProofs.lists_or_unknown. Qed.
Print Assumptions C137_all_strings.
Theorem C137_words_unique : forall s ws ws', has_words s ws -> has_words s ws' -> ws = ws'.
Proof. exact CtrProofs.words_unique. Qed.
Print Assumptions C137_words_unique.
(** Every gate of the library decides about every dtype: no batch is accepted with a mere warning. *)
Theorem C137_library_gates_decide : forall a d ds, In (a, d) library_gates ->
  (exists allowed, lists a allowed /\ Forall (fun x => In x allowed) ds /\ gate_strs ds a d = Ok []) \/
  (exists allowed, lists a allowed /\ Exists (fun x => ~ In x allowed) ds /\ gate_strs ds a d = Err ValueError).
Proof. exact CtrProofs.gate_in_library. Qed.
Print Assumptions C137_library_gates_decide.
(** Order and number of the images do not matter. *)
Theorem C137_order_irrelevant : forall ds ds' a d, (forall x, In x ds <-> In x ds') ->
  match gate_strs ds a d, gate_strs ds' a d with
  | Ok w, Ok w' => forall x, In x w <-> In x w'
  | Err e, Err e' => e = e'
  | _, _ => False
  end.
Proof. exact CtrProofs.gate_set. Qed.
Print Assumptions C137_order_irrelevant.
Theorem C137_only_uint8 : forall ds, (allow_only_uint8 ds = Ok [] <-> Forall (eq U8) ds) /\ (allow_only_uint8 ds = Err ValueError <-> Exists (fun d => d <> U8) ds).
Proof. exact CtrProofs.only_uint8_ok. Qed.
Print Assumptions C137_only_uint8.
Example C137_example : lists " uint8  int64" [U8; I64] /\ gate_strs [U8; F16; U8] "uint8 " "int64" = Ok [F16] /\
  gate_strs [U8; I64] "uint8" "int64" = Err ValueError /\ gate_strs [] "uint8" "int8 uint8" = Err AssertionError /\ gate_strs [] "uint9" "int8" = Err KeyError_.
Proof.
  split; [|vm_compute; auto]. apply words_space. apply (words_next "uint8" " int64" ["int64"%string]); [cbn; repeat split; discriminate|]. apply words_space. apply words_last. cbn. repeat split; discriminate.
Qed.

(** ** C138: promotion *)
(** The dtype found for several arrays holds all values of all their dtypes, except if it is float64 and one of them is a 64 bit integer. *)
Theorem C138_common_dtype : forall l f p a, get_minimal l f = Ok p -> In a l -> includes p a \/ (is_int64 a /\ p = F64).
Proof. exact CtrProofs.minimal_includes. Qed.
Print Assumptions C138_common_dtype.
(** Promoted arrays have this dtype and unchanged components. *)
Theorem C138_values_kept : forall arrs f d, get_minimal (map fst arrs) f = Ok d -> Forall array_ok arrs -> (d = F64 -> Forall (fun a => ~ is_int64 (fst a)) arrs) ->
  exists outs, promote_arrays arrs f = Ok outs /\ Forall2 (same_values d) arrs outs.
Proof. exact CtrProofs.promote_values. Qed.
Print Assumptions C138_values_kept.
(** There always is such a dtype, unless more resolution is demanded. *)
Theorem C138_always_found : forall l f, l <> [] -> f <= 1 -> exists p, get_minimal l f = Ok p.
Proof. exact CtrProofs.minimal_total. Qed.
Print Assumptions C138_always_found.
Theorem C138_empty_raises : forall f, get_minimal [] f = Err AssertionError /\ promote_arrays [] f = Err AssertionError.
Proof. split; reflexivity. Qed.
Print Assumptions C138_empty_raises.
(** For two dtypes no smaller dtype would do. *)
Theorem C138_minimal_for_two : forall a b p t, get_minimal [a; b] 1 = Ok p -> includes p a -> includes p b -> includes t a -> includes t b -> bits p <= bits t.
Proof. exact CtrProofs.minimal_pair. Qed.
Print Assumptions C138_minimal_for_two.
(** For three the result depends on their order and may be larger than necessary. *)
Theorem C138_order_matters : exists a b c p q, get_minimal [a; b; c] 1 = Ok p /\ get_minimal [b; c; a] 1 = Ok q /\ bits q < bits p /\
  forall d, In d [a; b; c] -> includes q d.
Proof.
  exists I8, U16, F16, F64, F32. split; [reflexivity|]. split; [reflexivity|]. split; [reflexivity|]. intros d D. apply CtrProofs.holds_includes. cbn in D. decompose [or] D; subst; try contradiction; reflexivity.
Qed.
Print Assumptions C138_order_matters.
(** More resolution: the same kind of dtype with as many times the bits, and unchanged components. *)
Theorem C138_increase : forall d f d', increase_itemsize d f = Ok d' <-> In f [1; 2; 4; 8] /\ d <> Bool /\ fst (kind_bits d') = fst (kind_bits d) /\ bits d' = bits d * f.
Proof. exact CtrProofs.increase_iff. Qed.
Print Assumptions C138_increase.
Theorem C138_increase_raises : forall d f, (~ In f [1; 2; 4; 8] \/ d = Bool -> increase_itemsize d f = Err AssertionError) /\
  (In f [1; 2; 4; 8] -> d <> Bool -> (forall d', fst (kind_bits d') = fst (kind_bits d) -> bits d' <> bits d * f) -> increase_itemsize d f = Err TypeError_).
Proof. exact CtrProofs.increase_errors. Qed.
Print Assumptions C138_increase_raises.
Theorem C138_increase_keeps_values : forall arrs f outs, Forall array_ok arrs -> increase_resolutions arrs f = Ok outs ->
  Forall2 (fun a b => exists d, increase_itemsize (fst a) f = Ok d /\ same_values d a b) arrs outs.
Proof. exact CtrProofs.increase_values. Qed.
Print Assumptions C138_increase_keeps_values.
Theorem C138_increase_total : forall arrs f, Forall (fun a => exists d, increase_itemsize (fst a) f = Ok d) arrs -> Forall array_ok arrs ->
  exists outs, increase_resolutions arrs f = Ok outs.
Proof. exact CtrProofs.increase_total. Qed.
Print Assumptions C138_increase_total.
Example C138_example : get_minimal [U8; I8] 1 = Ok I16 /\ get_minimal [U8; I8] 4 = Ok I64 /\ get_minimal [U64; I8] 1 = Ok F64 /\
  array_ok (U8, [255%Q; 0%Q]) /\ promote_arrays [(U8, [255%Q]); (I8, [(-5)%Q])] 1 = Ok [(I16, [255%Q]); (I16, [(-5)%Q])] /\
  get_minimal [Bool] 2 = Err AssertionError /\ get_minimal [I64] 2 = Err TypeError_.
Proof.
  split; [reflexivity|]. split; [reflexivity|]. split; [reflexivity|]. split; [|vm_compute; auto]. constructor; [exists 255; split; [reflexivity|cbn; lia]|]. constructor; [exists 0; split; [reflexivity|cbn; lia]|constructor].
Qed.
(** The exception of the first theorem is met: 64 bit integers do change. *)
Example C138_int64_changes : exists v, value_of U64 v /\ get_minimal [U64; I8] 1 = Ok F64 /\ ~ value_of F64 v.
Proof.
  exists (inject_Z (2 ^ 53 + 1)). split; [exists (2 ^ 53 + 1); split; [reflexivity|cbn; lia]|]. split; [reflexivity|]. intros [(m & k & E & M) _]. revert E. apply (CtrProofs.odd_float 53); [lia|lia|reflexivity|exact M].
Qed.

(** ** C139: contrast *)
(** Every component is changed with the parameters of its image or channel; dtype and shape are kept. *)
Theorem C139_batch : forall gate f drawn imgs, length drawn = length imgs ->
  (match gate with None => True | Some (a, d) => exists w, gate_strs (map ci_dt imgs) a d = Ok w end) ->
  (forall i im pc samples, nth_error imgs i = Some im -> nth_error drawn i = Some (pc, samples) -> enough_samples pc samples im /\ ((1 # 2 < pc)%Q -> (0 < ci_c im)%nat)) ->
  exists outs, contrast_batch gate f drawn imgs = Ok outs /\ length outs = length imgs /\
    forall i im out pc samples, nth_error imgs i = Some im -> nth_error drawn i = Some (pc, samples) -> nth_error outs i = Some out -> contrasted f pc samples im out.
Proof. exact CtrProofs2.batch_ok. Qed.
Print Assumptions C139_batch.
(** A refused dtype fails the whole batch. *)
Theorem C139_gate_first : forall a d f drawn imgs e, gate_strs (map ci_dt imgs) a d = Err e -> contrast_batch (Some (a, d)) f drawn imgs = Err e.
Proof. exact CtrProofs2.batch_gated. Qed.
Print Assumptions C139_gate_first.
(** An image without channels raises ValueError if parameters are drawn per channel. *)
Theorem C139_no_channels_raise : forall f pc samples im, ci_c im = 0%nat -> (1 # 2 < pc)%Q -> contrast_image f pc samples im = Err ValueError.
Proof. exact CtrProofs2.no_channels. Qed.
Print Assumptions C139_no_channels_raise.
(** Integers other than uint8: the nearest integer, limited to the dtype. *)
Theorem C139_integers : forall d lo hi alpha rest v, wide_int d lo hi -> in_float64 (stretched d alpha v) ->
  exists n z, nearest (stretched d alpha v) n /\ saturated lo hi n z /\ linear d (alpha :: rest) v = inject_Z z.
Proof. exact CtrProofs2.linear_wide. Qed.
Print Assumptions C139_integers.
(** uint8: rounded down, limited to 0..255. *)
Theorem C139_uint8 : forall alpha rest v, exists z, linear U8 (alpha :: rest) v = inject_Z z /\
  let s := stretched U8 alpha v in ((s < 0)%Q -> z = 0) /\ ((0 <= s <= 255)%Q -> floor_of s z) /\ ((255 < s)%Q -> z = 255).
Proof. exact CtrProofs2.linear_u8. Qed.
Print Assumptions C139_uint8.
Theorem C139_float64 : forall alpha rest v, linear F64 (alpha :: rest) v = stretched F64 alpha v.
Proof. exact CtrProofs2.linear_f64. Qed.
Print Assumptions C139_float64.
(** Smaller floats: limited to the dtype, with a relative error of at most 2^-p. *)
Theorem C139_small_floats : forall d p m alpha rest v, small_float d p m -> let s := stretched d alpha v in let r := linear d (alpha :: rest) v in
  ((s < - m)%Q -> (r == - m)%Q) /\ ((- m <= s <= m)%Q -> (Qabs (r - s) * inject_Z (2 ^ p) <= Qabs s)%Q) /\ ((m < s)%Q -> (r == m)%Q).
Proof. exact CtrProofs2.linear_small. Qed.
Print Assumptions C139_small_floats.
Theorem C139_in_range : forall d alpha rest v, contrast_dtype d -> d <> F64 -> in_float64 (stretched d alpha v) -> value_of d (linear d (alpha :: rest) v).
Proof. exact CtrProofs2.linear_range. Qed.
Print Assumptions C139_in_range.
Theorem C139_one_is_identity : forall d rest v, contrast_dtype d -> value_of d v -> (linear d (1%Q :: rest) v == v)%Q.
Proof. exact CtrProofs2.linear_one. Qed.
Print Assumptions C139_one_is_identity.
Theorem C139_zero_is_grey : forall d rest v, contrast_dtype d -> (linear d (0%Q :: rest) v == inject_Z (middle d))%Q.
Proof. exact CtrProofs2.linear_zero. Qed.
Print Assumptions C139_zero_is_grey.
(** Brighter components stay brighter. *)
Theorem C139_monotone : forall d alpha rest v w, contrast_dtype d -> (0 <= alpha)%Q -> (v <= w)%Q -> in_float64 (stretched d alpha v) -> in_float64 (stretched d alpha w) ->
  (linear d (alpha :: rest) v <= linear d (alpha :: rest) w)%Q.
Proof. exact CtrProofs2.linear_mono. Qed.
Print Assumptions C139_monotone.
(** LinearContrast accepts exactly the nine dtypes of the theorems above. *)
Theorem C139_dtypes : forall drawn imgs, length drawn = length imgs -> Forall (fun d => enough_samples (fst d) (snd d) (mkC U8 1 1 0 (fun _ _ _ => 0%Q)) /\ (fst d <= 1 # 2)%Q) drawn ->
  (Forall (fun im => contrast_dtype (ci_dt im)) imgs -> exists outs, linear_contrast drawn imgs = Ok outs) /\
  (Exists (fun im => ~ contrast_dtype (ci_dt im)) imgs -> linear_contrast drawn imgs = Err ValueError).
Proof.
  intros drawn imgs L D. set (ga := "uint8 uint16 uint32 int8 int16 int32 float16 float32 float64"%string). set (gd := "uint64 int64 float128 bool"%string).
  assert (P : parse_dtypes ga = Ok [U8; U16; U32; I8; I16; I32; F16; F32; F64]) by (vm_compute; reflexivity).
  assert (G : In (ga, gd) library_gates) by (unfold library_gates, ga, gd; cbn [In]; tauto).
  destruct (CtrProofs.gate_in_library ga gd (map ci_dt imgs) G) as [(la & A & F & E)|(la & A & F & E)]; apply CtrProofs.parse_lists in A; rewrite P in A; injection A as <-.
  - split.
    + intros _. destruct (C139_batch (Some (ga, gd)) linear drawn imgs L) as (outs & O & _); [exists []; exact E| |exists outs; exact O].
      intros i im pc ss _ N. rewrite Forall_forall in D. specialize (D (pc, ss) (nth_error_In _ _ N)). cbn [fst snd] in D. destruct D as [D1 D2]. split; [|intros H; exfalso; apply (Qlt_not_le _ _ H); exact D2].
      unfold enough_samples in *. eapply Forall_impl; [|exact D1]. cbn. intros s [S _]. split; [exact S|]. intros H. exfalso. apply (Qlt_not_le _ _ H). exact D2.
    + intros X. exfalso. apply Exists_exists in X. destruct X as (im & I & N). rewrite Forall_map, Forall_forall in F. exact (N (F im I)).
  - split.
    + intros X. exfalso. apply Exists_exists in F. destruct F as (d & I & N). apply in_map_iff in I. destruct I as (im & <- & I). rewrite Forall_forall in X. exact (N (X im I)).
    + intros _. apply C139_gate_first. exact E.
Qed.
Print Assumptions C139_dtypes.
Example C139_example :
  let im := mkC I8 1 1 2 (fun _ _ c => if Nat.eqb c 0 then 100%Q else (-3)%Q) in
  match linear_contrast [(1%Q, [[2%Q; 1 # 2]]); (0%Q, [[2%Q]])] [im; im] with
  | Ok [a; b] => ci_px a 0 0 0%nat = 127%Q /\ ci_px a 0 0 1%nat = (-2)%Q /\ ci_px b 0 0 1%nat = (-6)%Q /\ ci_dt a = I8
  | _ => False
  end /\ enough_samples 1 [[2%Q; 1 # 2]] im /\ wide_int I8 (-128) 127 /\ in_float64 (stretched I8 2 100).
Proof.
  cbv zeta. split; [vm_compute; auto|]. split; [constructor; [cbn; split; [lia|intros _; lia]|constructor]|]. split; [unfold wide_int; tauto|]. unfold in_float64, Qle. vm_compute. discriminate.
Qed.

(** ** C140: CLAHE and histogram equalization *)
(** Every channel of an image is equalized with the first drawn parameters, or with its own ones. *)
Theorem C140_clahe_channels : forall clahe tile_min limits hs ws pc im, 0 < ci_h im -> 0 < ci_w im -> (0 < ci_c im)%nat ->
  (forall l, In l [length limits; length hs; length ws] -> (1 <= l)%nat /\ ((1 # 2 < pc)%Q -> (ci_c im <= l)%nat)) ->
  exists out, clahe_image clahe tile_min limits hs ws pc im = Ok out /\ same_kind_c out im /\
    forall c, (c < ci_c im)%nat -> exists n, ((1 # 2 < pc)%Q -> n = c) /\ ((pc <= 1 # 2)%Q -> n = 0%nat) /\
      exists l h w, nth_error limits n = Some l /\ nth_error hs n = Some h /\ nth_error ws n = Some w /\
      clahe_channel clahe tile_min l h w (fun y x => ci_px im y x c) (fun y x => ci_px out y x c).
Proof. exact CtrProofs3.clahe_ok. Qed.
Print Assumptions C140_clahe_channels.
Theorem C140_clahe_empty : forall clahe tile_min limits hs ws pc im, ci_h im = 0 \/ ci_w im = 0 \/ ci_c im = 0%nat ->
  clahe_image clahe tile_min limits hs ws pc im = Ok im.
Proof. exact CtrProofs3.clahe_empty. Qed.
Print Assumptions C140_clahe_empty.
Theorem C140_clahe_batch : forall clahe tile_min drawn imgs outs, clahe_batch clahe tile_min drawn imgs = Ok outs <->
  Forall (fun im => ci_dt im = U8 \/ ci_dt im = U16) imgs /\
  Forall2 (fun p out => let '(im, (l, h, w, pc)) := p in clahe_image clahe tile_min l h w pc im = Ok out) (combine imgs drawn) outs.
Proof. exact CtrProofs3.clahe_batch_ok. Qed.
Print Assumptions C140_clahe_batch.
Theorem C140_clahe_refuses : forall clahe tile_min drawn imgs, Exists (fun im => ci_dt im <> U8 /\ ci_dt im <> U16) imgs ->
  clahe_batch clahe tile_min drawn imgs = Err ValueError.
Proof. exact CtrProofs3.clahe_refused. Qed.
Print Assumptions C140_clahe_refuses.
(** Any function applied to intensities: it sees the intensity of colour images and other images whole; colour images get the new intensity and keep
    the other components and the alpha channel. *)
Theorem C140_intensity_only : forall cvt gray func from to id imgs, intensity to id -> may_come_from from -> Forall uint8_image imgs ->
  exists norm, Forall2 (normalized cvt gray from to id) imgs norm /\
    (forall e, func norm = Err e -> apply_intensity cvt gray func from to imgs = Err e) /\
    (forall aug, func norm = Ok aug -> Forall2 same_shape_u8 norm aug ->
      exists outs, apply_intensity cvt gray func from to imgs = Ok outs /\ length outs = length imgs /\
        forall i d, (i < length imgs)%nat -> denormalized cvt gray from to id (nth i imgs d) (nth i aug d) (nth i outs d)).
Proof. intros cvt gray func from to id imgs I F. apply CtrProofs3.apply_ok; [exact I|]. unfold may_come_from in F. decompose [or] F; subst; discriminate. Qed.
Print Assumptions C140_intensity_only.
Theorem C140_histogram_equalization : forall cvt gray equalize from to id imgs, intensity to id -> may_come_from from -> Forall uint8_image imgs ->
  exists norm aug outs, Forall2 (normalized cvt gray from to id) imgs norm /\ Forall2 (equalized equalize) norm aug /\
    histogram_equalization equalize cvt gray from to imgs = Ok outs /\ length outs = length imgs /\
    forall i d, (i < length imgs)%nat -> denormalized cvt gray from to id (nth i imgs d) (nth i aug d) (nth i outs d).
Proof. intros cvt gray equalize from to id imgs I F. apply CtrProofs3.histogram_ok; [exact I|]. unfold may_come_from in F. decompose [or] F; subst; discriminate. Qed.
Print Assumptions C140_histogram_equalization.
Theorem C140_histogram_refuses : forall cvt gray equalize from to imgs, Exists (fun im => im_u8 im = false) imgs ->
  histogram_equalization equalize cvt gray from to imgs = Err ValueError.
Proof. intros cvt gray. exact (CtrProofs3.histogram_refused cvt gray). Qed.
Print Assumptions C140_histogram_refuses.
(** The constructor accepts exactly the colour spaces with a known intensity. *)
Theorem C140_constructor : forall from to,
  (forall f t, check_applier from to = Ok (f, t) <-> from = Some f /\ to = Some t /\ may_come_from f /\ exists id, intensity t id) /\
  match check_applier from to with Ok _ => True | Err e => e = AssertionError end.
Proof. intros from to. split; [intros f t; apply CtrProofs3.check_ok|]. pose proof (CtrProofs3.check_err from to) as H. destruct (check_applier from to) as [[f t]|]; [exact Logic.I|exact H]. Qed.
Print Assumptions C140_constructor.
Example C140_example :
  let cvt := fun f t c => let '(a, b, d) := c in match f, t with RGB, HSV => (a, b, d + 1) | _, _ => (a, b, d - 1) end in
  let im n := mkImage true 1 2 (Some n) (fun _ x c => 10 * x + Z.of_nat c) true true in
  match histogram_equalization (fun h w ch y x => 2 * ch y x) cvt (fun _ _ => 0) RGB HSV [im 4%nat; im 1%nat; im 3%nat] with
  | Ok [a; b; c] => map (fun n => im_px a 0 1 n) [0; 1; 2; 3]%nat = [10; 11; 25; 13] /\ im_px b 0 1 0%nat = 20 /\ map (fun n => im_px c 0 1 n) [0; 1; 2]%nat = [10; 11; 25]
  | _ => False
  end /\ uint8_image (im 4%nat) /\ intensity HSV 2 /\ may_come_from RGB.
Proof. cbv zeta. split; [vm_compute; auto|]. split; [repeat split; cbn; try lia; discriminate|]. unfold intensity, may_come_from. tauto. Qed.
