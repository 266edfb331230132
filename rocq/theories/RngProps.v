(** C47, C50-C53: random numbers. *)
From Coq Require Import Lia.
From Verif Require Import Prelude DtyModel RngModel RngSpec RngProofs.

(** * C47: bounded random integers hit exactly the requested interval *)
Theorem C47_exactly_the_requested_interval : forall legacy dmin dmax low high endpoint i,
  polyfill_integers legacy dmin dmax low high endpoint = Ok i ->
  forall z, possible i z <-> asked_for low high endpoint z.
Proof. exact integers_exact. Qed.
Print Assumptions C47_exactly_the_requested_interval.
Example die_on_both_versions :
  polyfill_integers true (-128) 127 1 (Some 6) true = Ok (1, 7) /\
  polyfill_integers false (-128) 127 1 (Some 6) true = Ok (1, 7) /\
  polyfill_integers true (-128) 127 6 None true = Ok (0, 7) /\
  polyfill_integers true (-128) 127 6 None false = Ok (0, 6).
Proof. repeat split. Qed.

(** The numbers may be the largest of the dtype. *)
Theorem C47_non_empty_intervals_of_the_dtype_succeed : forall legacy dmin dmax low high endpoint,
  (exists z, asked_for low high endpoint z) ->
  (forall z, asked_for low high endpoint z -> dmin <= z <= dmax) ->
  exists i, polyfill_integers legacy dmin dmax low high endpoint = Ok i.
Proof. exact integers_succeed. Qed.
Print Assumptions C47_non_empty_intervals_of_the_dtype_succeed.
Example full_int8 : polyfill_integers true (-128) 127 (-128) (Some 127) true = Ok (-128, 128).
Proof. reflexivity. Qed.

Theorem C47_empty_intervals_raise : forall legacy dmin dmax low high endpoint,
  (forall z, ~ asked_for low high endpoint z) ->
  polyfill_integers legacy dmin dmax low high endpoint = Err ValueError.
Proof. exact integers_empty_raises. Qed.
Print Assumptions C47_empty_intervals_raise.
Example empty_interval : (forall z, ~ asked_for 3 (Some 3) false z) /\ asked_for 3 (Some 3) true 3.
Proof. cbn. split; [intros z; lia|lia]. Qed.

Theorem C47_same_on_old_and_new_numpy : forall dmin dmax low high endpoint,
  polyfill_integers true dmin dmax low high endpoint = polyfill_integers false dmin dmax low high endpoint.
Proof. exact legacy_same_interval. Qed.
Print Assumptions C47_same_on_old_and_new_numpy.

Theorem C47_generated_seeds : forall legacy, generate_seeds legacy = Ok (0, 2147483647).
Proof. exact seeds_interval. Qed.
Print Assumptions C47_generated_seeds.

(** * C50: copied RNGs *)
(** Calls alternating in any way between an RNG and its copy: each side
    returns the numbers that the original would have returned had it been used
    alone. [side = true] is the original. Missing: RNGs that hold an unused
    half of a 64 bit number, see the refuted theorem. *)
Theorem C50_copy_draws_the_same_partial :
  forall (S : Type) (next : S -> Z * S) (of_seed : Z -> S) (no_gen : gen S) h l h' l' calls side,
  (l < length h)%nat -> g_cache S (get S no_gen h l) = None ->
  copy S of_seed no_gen h l = (h', l') ->
  calls_of side (interleave next no_gen h' l l' calls) =
  alone next (get S no_gen h l) (calls_of side calls).
Proof. intros S next of_seed no_gen. exact (copy_draws_same next of_seed no_gen). Qed.
Print Assumptions C50_copy_draws_the_same_partial.

(** A counter as bit generator. *)
Definition toy_next (s : Z) : Z * Z := (s * (2 ^ 32 + 3) + 5, s + 1).
Definition toy_none : gen Z := mkGen Z 0 None.
Definition int32 : prog Z := Draw32 (fun x => Ret x).
Definition two_int32 : prog Z := Draw32 (fun _ => Draw32 (fun x => Ret x)).
Example interleaved_copy :
  let h := [toy_none; mkGen Z 7 None] in
  let '(h', l') := copy Z id toy_none h 1%nat in
  let r := interleave toy_next toy_none h' 1%nat l' [(true, int32); (false, int32); (true, two_int32); (false, two_int32)] in
  calls_of true r = calls_of false r /\ length (calls_of true r) = 2%nat /\
  nth 0 (calls_of true r) 0 <> nth 1 (calls_of true r) 0.
Proof. vm_compute. split; [|split]; [reflexivity|reflexivity|discriminate]. Qed.

(** In general the copy behaves like the original without the unused half. *)
Theorem C50_copies_do_not_influence_each_other :
  forall (S : Type) (next : S -> Z * S) (of_seed : Z -> S) (no_gen : gen S) h l h' l' calls side,
  (l < length h)%nat -> copy S of_seed no_gen h l = (h', l') ->
  calls_of side (interleave next no_gen h' l l' calls) =
  alone next (if side then get S no_gen h l else mkGen S (g_state S (get S no_gen h l)) None)
    (calls_of side calls).
Proof. intros S next of_seed no_gen. exact (copy_independent next of_seed no_gen). Qed.
Print Assumptions C50_copies_do_not_influence_each_other.

(** An RNG of which one 32 bit number was drawn: its copy continues with
    another number. *)
Theorem C50_copy_after_one_draw_refuted : exists h l h' l' calls,
  (l < length h)%nat /\ h = snd (sample Z toy_next toy_none [toy_none; mkGen Z 7 None] 1%nat int32) /\ l = 1%nat /\
  copy Z id toy_none h l = (h', l') /\
  calls_of false (interleave toy_next toy_none h' l l' calls) <>
  alone toy_next (get Z toy_none h l) (calls_of false calls).
Proof.
  do 4 eexists. exists [(false, int32)].
  split; [|split; [reflexivity|split; [reflexivity|split; [vm_compute; reflexivity|]]]].
  - cbn. lia.
  - vm_compute. discriminate.
Qed.
Print Assumptions C50_copy_after_one_draw_refuted.

(** use_state_of_ takes over everything. *)
Theorem C50_use_state_of_draws_the_same :
  forall (S : Type) (next : S -> Z * S) (no_gen : gen S) h a b calls side,
  a <> b -> (a < length h)%nat -> (b < length h)%nat ->
  calls_of side (interleave next no_gen (use_state_of S no_gen h a b) a b calls) =
  alone next (get S no_gen h b) (calls_of side calls).
Proof. intros S next no_gen. exact (use_state_of_same next no_gen). Qed.
Print Assumptions C50_use_state_of_draws_the_same.
Example take_over_state :
  let h := [mkGen Z 3 None; mkGen Z 7 (Some 12)] in
  let r := interleave toy_next toy_none (use_state_of Z toy_none h 0%nat 1%nat) 0%nat 1%nat [(true, int32); (false, int32)] in
  r = [(true, 12); (false, 12)].
Proof. reflexivity. Qed.

(** RNGs that are equal return the same numbers. *)
Theorem C50_equal_rngs_draw_the_same :
  forall (S : Type) (next : S -> Z * S) (S_eqb : S -> S -> bool), (forall s s', S_eqb s s' = true <-> s = s') ->
  forall g g', equals S S_eqb g g' = true -> forall ps, alone next g ps = alone next g' ps.
Proof. intros S next. exact (equals_same_numbers next). Qed.
Print Assumptions C50_equal_rngs_draw_the_same.
Example equal_and_different_rngs :
  equals Z Z.eqb (mkGen Z 3 (Some 4)) (mkGen Z 3 (Some 4)) = true /\
  equals Z Z.eqb (mkGen Z 3 (Some 4)) (mkGen Z 3 (Some 5)) = false /\
  equals Z Z.eqb (mkGen Z 3 (Some 4)) (mkGen Z 3 None) = false.
Proof. repeat split. Qed.

(** copy_unless_global_rng: the global RNG stays shared (numbers drawn through
    the result come out of the global RNG), any other RNG is copied: the result
    is new and drawing from it never changes what the original returns. *)
Theorem C50_copy_unless_global :
  forall (S : Type) (next : S -> Z * S) (of_seed : Z -> S) (no_gen : gen S) h l h' l',
  (l < length h)%nat -> copy_unless_global_rng S of_seed no_gen h l = (h', l') ->
  (l = 0%nat -> l' = l /\ h' = h) /\
  (l <> 0%nat -> l' = length h /\ (forall k, (k < length h)%nat -> get S no_gen h' k = get S no_gen h k) /\
     forall calls, calls_of true (interleave next no_gen h' l l' calls) = alone next (get S no_gen h l) (calls_of true calls)).
Proof.
  intros S next of_seed no_gen h l h' l' L E. unfold copy_unless_global_rng in E. split.
  - intros ->. cbn in E. injection E as <- <-. split; reflexivity.
  - intros N. apply Nat.eqb_neq in N. rewrite N in E. split; [|split].
    + unfold copy, copy_generator, alloc, new_rng in E. injection E as _ <-. reflexivity.
    + intros k K. unfold copy, copy_generator, alloc, new_rng, reset_cache in E. injection E as <- _.
      rewrite (get_put_other no_gen) by lia. apply (get_alloc_old no_gen). exact K.
    + intros calls. rewrite (C50_copies_do_not_influence_each_other S next of_seed no_gen h l h' l' calls true L E). reflexivity.
Qed.
Print Assumptions C50_copy_unless_global.
Example global_and_local_rng :
  snd (copy_unless_global_rng Z id toy_none [mkGen Z 3 None; mkGen Z 7 None] 0%nat) = 0%nat /\
  copy_unless_global_rng Z id toy_none [mkGen Z 3 None; mkGen Z 7 (Some 1)] 1%nat = ([mkGen Z 3 None; mkGen Z 7 (Some 1); mkGen Z 7 None], 2%nat).
Proof. split; reflexivity. Qed.

(** * C51: temporary seeds *)
Theorem C51_temporary_seed_leaves_no_trace :
  forall (S : Type) (of_seed : Z -> S) A e (block : S -> S * res A) s,
  fst (temporary_numpy_seed S of_seed (Some e) block s) = s /\
  snd (temporary_numpy_seed S of_seed (Some e) block s) = snd (block (of_seed e)) /\
  temporary_numpy_seed S of_seed None block s = block s.
Proof. exact temporary_seed_restores. Qed.
Print Assumptions C51_temporary_seed_leaves_no_trace.
(** Two draws in the block, after which it raises. *)
Example raising_block :
  temporary_numpy_seed Z id (Some 7) (fun s => (s + 2, @Err Z ValueError)) 100 = (100, Err ValueError).
Proof. reflexivity. Qed.

(** * C52: derived RNGs *)
(** The derived RNGs are new, different objects with their own seeds; apart
    from them only the parent changes, and that in a way that does not depend
    on their number. *)
Theorem C52_derived_rngs_are_new_and_reproducible :
  forall (S : Type) (next : S -> Z * S) (spawned : Z -> nat -> S) (no_gen : gen S) (seeds : prog Z) h l n,
  (l < length h)%nat ->
  exists h' ls, derive_rngs S next spawned no_gen seeds h l n = (h', ls) /\
    length ls = n /\ NoDup ls /\
    (forall k, (k < length h)%nat -> ~ In k ls) /\
    (forall k, (k < length h)%nat -> k <> l -> get S no_gen h' k = get S no_gen h k) /\
    get S no_gen h' l = snd (run S next seeds (get S no_gen h l)) /\
    (forall i, (i < n)%nat ->
       get S no_gen h' (nth i ls 0%nat) = mkGen S (spawned (fst (run S next seeds (get S no_gen h l))) i) None).
Proof. intros S next spawned no_gen. exact (derive_spec next spawned no_gen). Qed.
Print Assumptions C52_derived_rngs_are_new_and_reproducible.
Example derive_two :
  derive_rngs Z toy_next (fun s i => s + Z.of_nat i) toy_none two_int32 [mkGen Z 0 None; mkGen Z 1 None] 1%nat 2%nat =
  ([mkGen Z 0 None; mkGen Z 2 None; mkGen Z 1 None; mkGen Z 2 None], [2; 3]%nat).
Proof. vm_compute. reflexivity. Qed.

(** advance_: the RNG moves on by exactly one 64 bit draw and forgets an unused
    half; all other RNGs stay as they are. *)
Theorem C52_advance :
  forall (S : Type) (next : S -> Z * S) (no_gen : gen S) h l, (l < length h)%nat ->
  length (advance S next no_gen h l) = length h /\
  get S no_gen (advance S next no_gen h l) l = mkGen S (snd (next (g_state S (get S no_gen h l)))) None /\
  (forall k, k <> l -> get S no_gen (advance S next no_gen h l) k = get S no_gen h k).
Proof.
  intros S next no_gen h l L. unfold advance, sample, reset_cache. rewrite (get_put_same no_gen) by exact L.
  cbn [run draw64 g_state g_cache]. unfold draw64. cbn [g_state g_cache]. destruct (next _) as [x s]. cbn [snd].
  split; [rewrite !put_length; reflexivity|]. split.
  - apply (get_put_same no_gen). rewrite put_length. exact L.
  - intros k K. rewrite !(get_put_other no_gen) by congruence. reflexivity.
Qed.
Print Assumptions C52_advance.
Example advance_once : advance Z toy_next toy_none [mkGen Z 3 None; mkGen Z 7 (Some 1)] 1%nat = [mkGen Z 3 None; mkGen Z 8 None].
Proof. reflexivity. Qed.

(** Old numpy: different valid seeds. *)
Theorem C52_seeds_on_old_numpy : forall seed n, 0 <= seed < 2 ^ 31 - 1 -> Z.of_nat n <= 2 ^ 31 ->
  Forall (fun s => 0 <= s < 2 ^ 32) (derive_seeds_legacy seed n) /\ NoDup (derive_seeds_legacy seed n) /\
  length (derive_seeds_legacy seed n) = n.
Proof. exact legacy_seeds_valid. Qed.
Print Assumptions C52_seeds_on_old_numpy.
Example three_seeds : derive_seeds_legacy 2147483646 3%nat = [2147483646; 2147483647; 2147483648].
Proof. reflexivity. Qed.

(** * C53: random floats *)
(** Missing: on old numpy the result can be 1, see the refuted theorem. *)
Theorem C53_random_floats_in_unit_interval_partial : forall legacy k, 0 <= k < 2 ^ 53 ->
  (0 <= polyfill_random legacy k <= 1)%Q /\ (legacy = false -> (polyfill_random legacy k < 1)%Q).
Proof. exact random_range. Qed.
Print Assumptions C53_random_floats_in_unit_interval_partial.
Example half : (polyfill_random true (2 ^ 52) == 1 # 2)%Q.
Proof. vm_compute. reflexivity. Qed.
Theorem C53_below_one_on_old_numpy_refuted : exists k, 0 <= k < 2 ^ 53 /\ (polyfill_random true k == 1)%Q.
Proof. exists (2 ^ 53 - 1). split; [lia|]. vm_compute. reflexivity. Qed.
Print Assumptions C53_below_one_on_old_numpy_refuted.
