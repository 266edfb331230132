(** C114: copy_random_state_. *)
From Coq Require Import Lia String.
From Verif Require Import Prelude PreludeFacts AugModel AugSpec AugProofs AugChildren AugRepro AugSeed AugToy CpyModel CpySpec CpyProofs.
From Coq Require Import List.
Import ListNotations.

(** The copying augmenter draws the same from then on as the one copied from, which is not changed. *)
Theorem C114_copies_sample_alike : forall {R : rngops} {V} name ren (src : aug R V) m tol cd (w : world R) bs,
  (forall i j, ren i = ren j -> i = j) ->
  (forall i j, In i (ids src) -> In j (ids src) -> ren i <> j) ->
  m = ByPosition \/
  m = ByName /\ (forall i, In i (visited src) -> name (ren i) = name i) /\
    (forall i j, In i (visited src) -> In j (visited src) -> name i = name j -> i = j) ->
  plain_branches src -> sane w ->
  (forall id, In id (ids src) -> n_act (w_node w (ren id)) = n_act (w_node w id) /\ n_det (w_node w (ren id)) = n_det (w_node w id)) ->
  (forall id, In id (visited src) -> nothing_prefetched w id /\ exists st, n_rng (w_node w id) = Own st) ->
  exists w', copy_random_state_ name (renamed ren src) src true m tol cd w = (w', None) /\
    outputs (renamed ren src) w' bs = outputs src w' bs /\ outputs src w' bs = outputs src w bs.
Proof. exact @copies_sample_alike. Qed.
Print Assumptions C114_copies_sample_alike.
Definition two_noises : aug toy Z := Seq 0 true [noise 1; col_noise true 2; Sometimes 3 coin 100 (Some (Seq 4 false [noise 5])) None].
Definition own_world : world toy := fold_right (fun id => with_own false id (Z.of_nat id * 3)) toy_world [0; 1; 2; 3; 5]%nat.
Example C114_ex1 : plain_branches two_noises /\ sane own_world /\
  (forall id, In id (visited two_noises) -> nothing_prefetched own_world id /\ exists st, n_rng (w_node own_world id) = Own st) /\
  let w' := fst (copy_random_state_ (fun i => if Nat.even i then "a" else "b")%string (renamed (Nat.add 10) two_noises) two_noises true ByPosition false false own_world) in
  outputs (renamed (Nat.add 10) two_noises) w' [[Some [1; 2]]; [Some [1]]] = [Ok [Some [25; 11]]; Ok [Some [29]]] /\
  outputs two_noises w' [[Some [1; 2]]; [Some [1]]] = [Ok [Some [25; 11]]; Ok [Some [29]]] /\
  outputs (renamed (Nat.add 10) two_noises) own_world [[Some [1; 2]]; [Some [1]]] <> [Ok [Some [25; 11]]; Ok [Some [29]]].
Proof.
  split; [cbn; tauto|]. split; [|split].
  - split; [|split].
    + intros id. do 6 (destruct id as [|id]; [cbn; lia|]). cbn. lia.
    + intros id i k. do 6 (destruct id as [|id]; [cbn; discriminate|]). cbn. discriminate.
    + intros id. do 6 (destruct id as [|id]; [cbn; discriminate|]). cbn. discriminate.
  - intros id I. cbn in I. repeat (destruct I as [<-|I]; [split; [right; intros i; cbn; discriminate|eexists; cbn; reflexivity]|]). destruct I.
  - cbn zeta. split; [vm_compute; reflexivity|]. split; [vm_compute; reflexivity|]. vm_compute. discriminate.
Qed.

(** By position: the k-th augmenter gets the state of the k-th, nothing else changes. *)
Theorem C114_by_position : forall {R : rngops} {V} name (target source : aug R V) rec tol cd (w : world R),
  let sources := augs_of rec source in let targets := augs_of rec target in
  List.length sources = List.length targets \/ tol = true ->
  (forall s, In s sources -> ~ In s targets) -> NoDup targets ->
  (forall s, In s sources -> exists st, n_rng (w_node w s) = Own st) ->
  exists w', copy_random_state_ name target source rec ByPosition tol cd w = (w', None) /\
    only_rngs_of (firstn (List.length sources) targets) w w' /\
    forall k s t, nth_error sources k = Some s -> nth_error targets k = Some t ->
      has_state_of w w' s t /\ n_det (w_node w' t) = (if cd then n_det (w_node w s) else n_det (w_node w t)) /\ fresh_key w w' t.
Proof. exact @by_position. Qed.
Print Assumptions C114_by_position.

(** By name: the last augmenter of every name gets the state of the last one of that name. *)
Theorem C114_by_name : forall {R : rngops} {V} name (target source : aug R V) rec tol cd (w : world R),
  let sources := augs_of rec source in let targets := augs_of rec target in
  (forall t, In t targets -> exists s, In s sources /\ name s = name t) \/ tol = true ->
  (forall s, In s sources -> ~ In s targets) ->
  (forall s, In s sources -> exists st, n_rng (w_node w s) = Own st) ->
  exists w', copy_random_state_ name target source rec ByName tol cd w = (w', None) /\
    only_rngs_of (filter (fun t => existsb (fun s => String.eqb (name s) (name t)) sources) targets) w w' /\
    (forall t, ~ is_last (fun y => name y = name t) targets t -> w_node w' t = w_node w t) /\
    forall s t, is_last (fun y => name y = name t) sources s -> is_last (fun y => name y = name t) targets t ->
      has_state_of w w' s t /\ n_det (w_node w' t) = (if cd then n_det (w_node w s) else n_det (w_node w t)) /\ fresh_key w w' t.
Proof. exact @by_name. Qed.
Print Assumptions C114_by_name.
(** Which augmenters are visited: the augmenter and, in order, those in its lists of children. *)
Theorem C114_augmenters_considered : forall {R : rngops} {V} rec (a : aug R V),
  augs_of rec a = if rec then visited a else [aug_id a].
Proof. exact @augs_of_eq. Qed.
Print Assumptions C114_augmenters_considered.
Example C114_ex2 :
  let names := fun i : nat => nth i ["seq"; "c"; "a"; "c"; "c"; "c"; ""; ""; ""; ""; "seq"; "a"; "b"; "c"; "c"; "c"]%string ""%string in
  let '(w', e) := copy_random_state_ names (renamed (Nat.add 10) two_noises) two_noises true ByName true true own_world in
  e = None /\ n_rng (w_node w' 11) = Own (R:=toy) 6 /\ n_rng (w_node w' 12) = Glob /\ n_rng (w_node w' 13) = Glob /\ n_rng (w_node w' 15) = Own (R:=toy) 15.
Proof. vm_compute. repeat split; reflexivity. Qed.

(** Errors. *)
Theorem C114_raises_only : forall {R : rngops} {V} name (target source : aug R V) rec m tol cd (w w' : world R) e,
  copy_random_state_ name target source rec m tol cd w = (w', Some e) -> e = GenericException.
Proof. exact @raises_only. Qed.
Print Assumptions C114_raises_only.
Theorem C114_different_lengths : forall {R : rngops} {V} name (target source : aug R V) rec cd (w : world R),
  List.length (augs_of rec source) <> List.length (augs_of rec target) ->
  copy_random_state_ name target source rec ByPosition false cd w = (w, Some GenericException).
Proof.
  intros R V name target source rec cd w H. unfold copy_random_state_. destruct (Nat.eqb_spec (List.length (augs_of rec source)) (List.length (augs_of rec target))); [contradiction|reflexivity].
Qed.
Print Assumptions C114_different_lengths.
Theorem C114_missing_name : forall {R : rngops} {V} name (target source : aug R V) rec cd (w : world R) t,
  In t (augs_of rec target) -> (forall s, In s (augs_of rec source) -> name s <> name t) ->
  exists w', copy_random_state_ name target source rec ByName false cd w = (w', Some GenericException).
Proof.
  intros R V name target source rec cd w t I N. unfold copy_random_state_. apply copy_names_missing.
  - exists (name t). split; [apply dict_keys_in; split; [intros []|exists t; auto]|]. apply dict_get_last. apply Forall_forall. exact N.
  - intros n J H. apply dict_keys_in in J. destruct J as (_ & a & J & E). apply (proj2 (dict_get_last _ _ _)) in H. rewrite Forall_forall in H. exact (H a J E).
Qed.
Print Assumptions C114_missing_name.
(** A pair whose source uses the global RNG raises. *)
Theorem C114_global_source : forall {R : rngops} {V} name (target source : aug R V) rec tol cd (w : world R) k s t,
  (forall s, In s (augs_of rec source) -> ~ In s (augs_of rec target)) ->
  n_rng (w_node w s) = Glob ->
  (nth_error (augs_of rec source) k = Some s -> nth_error (augs_of rec target) k = Some t ->
   exists w', copy_random_state_ name target source rec ByPosition tol cd w = (w', Some GenericException)) /\
  (is_last (fun y => name y = name t) (augs_of rec source) s -> is_last (fun y => name y = name t) (augs_of rec target) t ->
   exists w', copy_random_state_ name target source rec ByName tol cd w = (w', Some GenericException)).
Proof.
  intros R V name target source rec tol cd w k s t HD G. split; intros Hs Ht; unfold copy_random_state_.
  - destruct (_ && _); [eexists; reflexivity|]. apply copy_pairs_global. exists s, t. split; [exact (nth_in_combine _ _ _ _ _ Hs Ht)|]. split; [exact G|].
    intros s' t' I ->. apply (HD t'); [exact (nth_error_In _ _ Hs)|exact (in_combine_r _ _ _ _ I)].
  - assert (HT : forall n, In n (dict_keys name [] (augs_of rec target)) -> dict_get name n (augs_of rec target) <> None).
    { intros n J H. apply dict_keys_in in J. destruct J as (_ & a & J & E). apply (proj2 (dict_get_last _ _ _)) in H. rewrite Forall_forall in H. exact (H a J E). }
    assert (HC : tol = true \/ (forall n, In n (dict_keys name [] (augs_of rec target)) -> dict_get name n (augs_of rec source) <> None) \/
      exists n, In n (dict_keys name [] (augs_of rec target)) /\ dict_get name n (augs_of rec source) = None /\ tol = false).
    { destruct tol; [auto|right]. clear -HT. induction (dict_keys name [] (augs_of rec target)) as [|n l IH]; [left; intros n []|].
      destruct (dict_get name n (augs_of rec source)) as [x|] eqn:E; [|right; exists n; auto using in_eq].
      destruct IH as [H|(m & I & H)]; [intros m I; apply HT; right; exact I|left|right; exists m; split; [right; exact I|exact H]].
      intros m [<-|I]; [congruence|apply H; exact I]. }
    assert (CP : (tol = true \/ forall n, In n (dict_keys name [] (augs_of rec target)) -> dict_get name n (augs_of rec source) <> None) ->
      exists w', copy_names name tol cd (augs_of rec source) (augs_of rec target) (dict_keys name [] (augs_of rec target)) w = (w', Some GenericException)).
    { intros H. rewrite copy_names_pairs by assumption. apply copy_pairs_global. exists s, t. split; [apply name_pairs_in; auto|]. split; [exact G|].
      intros s' t' I ->. apply name_pairs_in in I. apply (HD t'); [exact (proj1 (is_last_in _ _ _ Hs))|exact (proj1 (is_last_in _ _ _ (proj2 I)))]. }
    destruct HC as [H|[H|(n & I & H & ->)]]; [apply CP; auto|apply CP; auto|]. apply copy_names_missing; [exists n; auto|exact HT].
Qed.
Print Assumptions C114_global_source.
Theorem C114_unknown_matching : forall {R : rngops} {V} name (target source : aug R V) rec tol cd (w : world R),
  copy_random_state_ name target source rec Unknown tol cd w = (w, Some GenericException).
Proof. reflexivity. Qed.
Print Assumptions C114_unknown_matching.
Example C114_ex3 : snd (copy_random_state_ (fun _ => ""%string) (renamed (Nat.add 10) two_noises) two_noises true ByPosition false false toy_world) = Some GenericException /\
  snd (copy_random_state_ (fun _ => ""%string) (noise 9) two_noises true ByPosition false false own_world) = Some GenericException /\
  snd (copy_random_state_ (fun _ => ""%string) (noise 9) two_noises true ByPosition true false own_world) = None.
Proof. vm_compute. repeat split; reflexivity. Qed.

(** When copying raises, earlier pairs have been copied already. *)
Theorem C114_all_or_nothing_refuted : exists name (target source : aug toy Z) (w : world toy),
  let '(w', e) := copy_random_state_ name target source true ByPosition false false w in
  e = Some GenericException /\ n_rng (w_node w' (aug_id target)) <> n_rng (w_node w (aug_id target)).
Proof.
  exists (fun _ => ""%string), (Seq 10 false [noise 11]), (Seq 0 false [noise 1]), (with_own false 0 4 toy_world).
  vm_compute. split; [reflexivity|discriminate].
Qed.
Print Assumptions C114_all_or_nothing_refuted.
(** If the source has been used before, its prefetched samples are not copied: the outputs differ. *)
Theorem C114_after_use_refuted : exists name ren (src : aug toy Z) (w : world toy) b,
  (forall i j, ren i = ren j -> i = j) /\ plain_branches src /\ sane w /\
  let '(w', e) := copy_random_state_ name (renamed ren src) src true ByPosition false false (do_ops w [Augment src b; Augment src b]) in
  e = None /\ outputs (renamed ren src) w' [b] <> outputs src w' [b].
Proof.
  exists (fun _ => ""%string), (Nat.add 10), (col_noise true 0), (with_own false 0 4 toy_world), [Some [1]].
  split; [intros i j; lia|]. split; [exact I|]. split.
  - split; [|split]; intros [|id]; cbn; intros; try discriminate; lia.
  - vm_compute. split; [reflexivity|discriminate].
Qed.
Print Assumptions C114_after_use_refuted.
(** Augmenters used as branches that draw themselves are not reached: the outputs differ. *)
Theorem C114_drawing_branch_refuted : exists name ren (src : aug toy Z) (w : world toy) b,
  (forall i j, ren i = ren j -> i = j) /\ list_branches src /\ sane w /\
  let '(w', e) := copy_random_state_ name (renamed ren src) src true ByPosition false false w in
  e = None /\ outputs (renamed ren src) w' [b] <> outputs src w' [b].
Proof.
  exists (fun _ => ""%string), (Nat.add 10), (Sometimes 0 coin 100 (Some (SomeOf 1 (NConst 1) false [plus 2 10; plus 3 20])) (Some (SomeOf 4 (NConst 1) false [plus 2 10; plus 3 20]))),
    (fold_right (fun id => with_own false id (Z.of_nat id * 2)) toy_world [0; 1; 2; 3; 4]%nat), [Some [1]].
  split; [intros i j; lia|]. split; [cbn; tauto|]. split.
  - split; [|split]; intros id.
    + do 15 (destruct id as [|id]; [cbn; lia|]). cbn. lia.
    + intros i k. do 15 (destruct id as [|id]; [cbn; discriminate|]). cbn. discriminate.
    + do 15 (destruct id as [|id]; [cbn; discriminate|]). cbn. discriminate.
  - vm_compute. split; [reflexivity|discriminate].
Qed.
Print Assumptions C114_drawing_branch_refuted.
