(** C55: inversion mirrors values inside the value range. *)
From Coq Require Import Qabs Lia.
From Verif Require Import Prelude InvModel InvSpec InvProofs.

(** Without a threshold every component [v] of an integer or boolean image
    becomes [min + max - v], for every image shape, every acceptable pair of
    bounds, and whatever was inverted before in the same process. *)
Theorem C55_every_value_is_mirrored :
  forall c t ndim vs omin omax above,
    reachable c -> numpy_dtype t -> acceptable t omin omax ->
    all_between (lower t omin) (upper t omax) vs ->
    fst (invert c t ndim vs omin omax None above)
    = Ok (map (mirror (lower t omin) (upper t omax)) vs).
Proof. exact inverts_all. Qed.
Print Assumptions C55_every_value_is_mirrored.

Theorem C55_twice_is_the_identity :
  forall c t ndim vs omin omax above,
    reachable c -> numpy_dtype t -> acceptable t omin omax ->
    all_between (lower t omin) (upper t omax) vs ->
    exists ws c', invert c t ndim vs omin omax None above = (Ok ws, c') /\
      fst (invert c' t ndim ws omin omax None above) = Ok vs.
Proof. exact invert_twice. Qed.
Print Assumptions C55_twice_is_the_identity.

(** With a threshold only the chosen components are mirrored. Missing:
    thresholds for uint8 images that are negative or not whole numbers, for
    which the claim is false (next theorems). *)
Theorem C55_threshold_selects_partial :
  forall c t ndim vs omin omax th above,
    reachable c -> numpy_dtype t -> acceptable t omin omax -> threshold_fits t th ->
    all_between (lower t omin) (upper t omax) vs ->
    exists rs, fst (invert c t ndim vs omin omax th above) = Ok rs /\
      inverted_where (chosen th above) (lower t omin) (upper t omax) vs rs.
Proof. exact inverts. Qed.
Print Assumptions C55_threshold_selects_partial.

(** uint8, threshold 127.5: the component 127 lies below the threshold and is
    inverted all the same. *)
Theorem C55_fractional_threshold_refuted :
  exists vs th rs,
    fst (invert [] (TU 8) 3 vs None None (Some th) true) = Ok rs /\
    ~ inverted_where (chosen (Some th) true) 0 255 vs rs.
Proof.
  exists [127], (255 # 2)%Q, [128]. split; [vm_compute; reflexivity|].
  intros H. inversion H as [|v r l m [_ H2] _]; subst.
  assert (128 = 127) as E; [|discriminate E].
  apply H2. unfold chosen. intros C. vm_compute in C. apply C. reflexivity.
Qed.
Print Assumptions C55_fractional_threshold_refuted.

(** uint8, threshold -5: every component lies above it, yet 100 stays. *)
Theorem C55_negative_threshold_refuted :
  exists vs th rs,
    fst (invert [] (TU 8) 3 vs None None (Some th) true) = Ok rs /\
    ~ inverted_where (chosen (Some th) true) 0 255 vs rs.
Proof.
  exists [100], (-5 # 1)%Q, [100]. split; [vm_compute; reflexivity|].
  intros H. inversion H as [|v r l m [H1 _] _]; subst.
  assert (100 = 155) as E; [|discriminate E].
  apply H1. unfold chosen. vm_compute. discriminate.
Qed.
Print Assumptions C55_negative_threshold_refuted.

(** Solarization is inversion of the components at or above the threshold in
    the dtype's range. *)
Theorem C55_solarize_partial :
  forall c t ndim vs th,
    reachable c -> numpy_dtype t -> threshold_fits t (Some th) ->
    all_between (fst (ity_range t)) (snd (ity_range t)) vs ->
    exists rs, fst (solarize c t ndim vs th) = Ok rs /\
      inverted_where (fun v => (th <= inject_Z v)%Q) (fst (ity_range t)) (snd (ity_range t)) vs rs.
Proof.
  intros c t ndim vs th R N T V.
  assert (acceptable t None None) as A.
  { unfold acceptable, lower, upper. split; [lia|]. split; [lia|]. split; [|left; split; reflexivity].
    destruct t as [|b|b]; cbn in *; [lia| |];
      destruct N as [-> | [-> | [-> | ->]]]; vm_compute; reflexivity. }
  exact (inverts c t ndim vs None None (Some th) true R N A T V).
Qed.
Print Assumptions C55_solarize_partial.

(** Results never leave the dtype, wherever the input values lie. *)
Theorem C55_results_fit_the_dtype :
  forall c t ndim vs omin omax th above rs,
    reachable c -> numpy_dtype t ->
    all_between (fst (ity_range t)) (snd (ity_range t)) vs ->
    fst (invert c t ndim vs omin omax th above) = Ok rs ->
    length rs = length vs /\ all_between (fst (ity_range t)) (snd (ity_range t)) rs.
Proof. exact invert_keeps_dtype. Qed.
Print Assumptions C55_results_fit_the_dtype.

(** The tables cached between calls never show: in any sequence of calls each
    call returns what it returns in a fresh process. *)
Theorem C55_history_does_not_matter :
  forall xs, fst (calls [] xs) = map (fun x => fst (do_call [] x)) xs.
Proof. exact history_independent. Qed.
Print Assumptions C55_history_does_not_matter.

(** Bounds outside of the dtype, in the wrong order, or custom bounds for a
    dtype without support raise. *)
Theorem C55_bad_bounds_raise :
  forall c t ndim vs omin omax th above,
    vs <> [] -> ~ acceptable t omin omax ->
    (omin = None -> omax = None -> False) ->
    (forall m, omin = Some m -> m <> fst (ity_range t)) ->
    (forall m, omax = Some m -> m <> snd (ity_range t)) ->
    exists e, fst (invert c t ndim vs omin omax th above) = Err e.
Proof. exact bad_bounds_raise. Qed.
Print Assumptions C55_bad_bounds_raise.

(** Float images, in exact arithmetic: mirrored up to the tolerance used to
    recognise symmetric bounds. *)
Theorem C55_floats_are_mirrored :
  forall fmax custom vs omin omax th above,
    float_acceptable fmax custom omin omax ->
    Forall (fun v => float_lower fmax omin <= v <= float_upper fmax omax)%Q vs ->
    exists rs, invert_float fmax custom vs omin omax th above = Ok rs /\
      Forall2 (fun v r =>
        (float_chosen th above v ->
         Qabs (r - (float_lower fmax omin + float_upper fmax omax - v)) <= 1 # 100000000)%Q /\
        (~ float_chosen th above v -> r = v)) vs rs.
Proof. exact float_inverts. Qed.
Print Assumptions C55_floats_are_mirrored.

Theorem C55_floats_twice_is_the_identity :
  forall fmax custom vs above,
    (0 < fmax)%Q ->
    exists ws, invert_float fmax custom vs None None None above = Ok ws /\
      Forall2 Qeq ws (map (fun v => - v)%Q vs) /\
      exists rs, invert_float fmax custom ws None None None above = Ok rs /\ Forall2 Qeq rs vs.
Proof. exact float_twice. Qed.
Print Assumptions C55_floats_twice_is_the_identity.

(** Non-trivial instances of the hypotheses. *)
Example C55_reachable_states :
  reachable (snd (calls [] [mkCall (TU 8) 3 [1;2;3] None None (Some (128 # 1)) true;
                            mkCall (TU 16) 2 [7;8] (Some 5) (Some 9) None true])).
Proof. eexists. reflexivity. Qed.
Example C55_state_is_not_empty :
  length (snd (calls [] [mkCall (TU 8) 3 [1;2;3] None None (Some (128 # 1)) true])) = 1%nat.
Proof. reflexivity. Qed.
Example C55_custom_bounds : acceptable (TI 16) (Some (-10)) (Some 20) /\ acceptable (TU 8) None (Some 100).
Proof. unfold acceptable; cbn. repeat split; try lia; right; lia. Qed.
Example C55_mirrors :
  fst (invert [] (TI 16) 2 [-10; 0; 20] (Some (-10)) (Some 20) None true) = Ok [20; 10; -10] /\
  fst (invert [] (TU 8) 3 [10; 128; 200] None None (Some 128%Q) true) = Ok [10; 127; 55] /\
  fst (invert [] (TI 8) 2 [-128; 0; 127] None None None true) = Ok [127; -1; -128].
Proof. repeat split; vm_compute; reflexivity. Qed.
Example C55_bad_bounds :
  ~ acceptable (TU 8) (Some 20) (Some 10) /\
  fst (invert [] (TU 8) 3 [1] (Some 20) (Some 10) None true) = Err AssertionError /\
  fst (invert [] (TU 64) 3 [1] (Some 1) (Some 10) None true) = Err TypeError_.
Proof.
  split; [|split; vm_compute; reflexivity].
  unfold acceptable; cbn. intros (_ & _ & H & _). lia.
Qed.
Example C55_float_bounds : float_acceptable (65504 # 1) true (Some 0%Q) (Some 1%Q).
Proof. unfold float_acceptable; cbn. repeat split; try discriminate. right. reflexivity. Qed.
