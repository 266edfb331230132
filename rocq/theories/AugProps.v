(** Property theorems C21, C27-C35, C48, C49 (augmenter trees). *)
From Coq Require Import Permutation Lia.
From Verif Require Import Prelude PreludeFacts AugModel AugSpec AugProofs AugChildren AugRepro AugSeed AugDet AugCols AugQuery AugToy.

(* ---- C21: results of a seeded pool do not depend on the schedule ---- *)

Theorem C21_pool_schedule_independent : forall {R : rngops} {V : Type} seed (a : aug R V) (w0 : world R),
  list_branches a -> sane w0 -> branches_use_global_rng a w0 ->
  forall jobs : list (nat * Z * batch V),
  pool_run seed a (fun _ => w0) jobs =
  until_error (map (fun '(_, i, b) => result (pool_worker seed a i b w0)) jobs).
Proof. exact (@pool_schedule_independent). Qed.
Print Assumptions C21_pool_schedule_independent.
Example C21_ex1 : let a := Seq 0 true [noise 1; Sometimes 2 coin 100 (Some (SomeOf 3 (NConst 1) false [noise 4; plus 5 10])) None] in
  list_branches a /\ branches_use_global_rng a toy_world /\
  pool_run 3 a (fun _ => toy_world) [(0%nat, 0, [Some [1; 2]]); (1%nat, 1, [Some [1; 2]]); (0%nat, 2, [Some [1; 2]])] =
  pool_run 3 a (fun _ => toy_world) [(2%nat, 0, [Some [1; 2]]); (2%nat, 1, [Some [1; 2]]); (2%nat, 2, [Some [1; 2]])] /\
  result (pool_worker 3 a 0 [Some [1; 2]] toy_world) <> result (pool_worker 3 a 1 [Some [1; 2]] toy_world).
Proof.
  cbn zeta. split; [cbn; tauto|]. split; [intros id [<-|[]]; reflexivity|]. split; [vm_compute; reflexivity|vm_compute; discriminate].
Qed.

(** A branch that is itself a random augmenter with its own RNG is not reseeded,
    then the result depends on what the worker did before. *)
Theorem C21_branch_with_own_rng_refuted : exists seed (a : aug toy Z) (w0 : world toy) (jobs jobs' : list (nat * Z * batch Z)),
  list_branches a /\ sane w0 /\ map (fun '(_, i, b) => (i, b)) jobs = map (fun '(_, i, b) => (i, b)) jobs' /\
  pool_run seed a (fun _ => w0) jobs <> pool_run seed a (fun _ => w0) jobs'.
Proof.
  exists 3, (Wrap 0 (fun b => Ok b) (fun _ b => Ok b) (SomeOf 1 (NConst 1) false [plus 2 10; plus 3 20])),
    (with_own false 1 0 toy_world), [(0%nat, 0, [Some [1]]); (0%nat, 1, [Some [1]])], [(0%nat, 0, [Some [1]]); (1%nat, 1, [Some [1]])].
  split; [cbn; tauto|]. split.
  - repeat split; cbn; intros id; try destruct (Nat.eqb id 1); cbn; intros; try discriminate; try lia; auto.
  - split; [reflexivity|]. vm_compute. discriminate.
Qed.
Print Assumptions C21_branch_with_own_rng_refuted.

(* ---- C27: row selection and its inversion ---- *)

Theorem C27_subselect_and_invert : forall {V : Type} (b : batch V) (indices : list nat),
  rect b -> NoDup indices -> (forall i, In i indices -> (i < nb_rows b)%nat) ->
  exists sub, subselect b indices = Ok sub /\ length sub = length b /\
  (forall c r, nth c b None = Some r -> indices <> [] ->
     exists s, nth c sub None = Some s /\ length s = length indices /\
       forall k i, nth_error indices k = Some i -> nth_error s k = nth_error r i) /\
  (forall c, nth c b None = None -> nth c sub None = None) /\
  (indices = [] -> forall c, nth c sub None = None) /\
  forall sub', same_shape sub sub' ->
  exists b', invert_subselect b indices sub' = Ok b' /\
    cells (fun c i x y =>
      (forall k s, nth_error indices k = Some i -> nth c sub' None = Some s -> nth_error s k = Some y)
      /\ (~ In i indices -> x = y)) b b' /\
    subselect b' indices = Ok sub'.
Proof. exact (@subselect_roundtrip). Qed.
Print Assumptions C27_subselect_and_invert.
Example C27_ex1 : let b := [Some [10; 11; 12; 13]; None; Some [20; 21; 22; 23]] in
  rect b /\ NoDup [3%nat; 1%nat] /\ (forall i, In i [3%nat; 1%nat] -> (i < nb_rows b)%nat) /\
  subselect b [3%nat; 1%nat] = Ok [Some [13; 11]; None; Some [23; 21]] /\
  invert_subselect b [3%nat; 1%nat] [Some [93; 91]; None; Some [73; 71]] =
    Ok [Some [10; 91; 12; 93]; None; Some [20; 71; 22; 73]].
Proof.
  cbn zeta. split; [repeat constructor|]. split.
  - repeat constructor; cbn; intuition discriminate.
  - split; [intros i [<-|[<-|[]]]; cbn; lia|]. split; reflexivity.
Qed.
(** Indices out of range are reported. *)
Theorem C27_out_of_range_raises : forall {V : Type} (b : batch V) (indices : list nat) c r i,
  rect b -> nth c b None = Some r -> In i indices -> (nb_rows b <= i)%nat ->
  subselect b indices = Err IndexError.
Proof. exact (@subselect_out_of_range). Qed.
Print Assumptions C27_out_of_range_raises.
Example C27_ex2 : subselect [None; Some [1; 2]] [0%nat; 2%nat] = Err IndexError.
Proof. reflexivity. Qed.

(* ---- C28: SomeOf, OneOf ---- *)

Theorem C28_some_of_applies_n_children : forall {R : rngops} {V : Type} id n random_order (children : list (aug R V)) Gs
    parents (w : world R) (b : batch V),
  @permutation_contract R -> @shuffle_contract R -> nspec_ok n (length children) ->
  Forall2 acts children Gs -> rect b -> all_active w (SomeOf id n random_order children) ->
  let nn := requested n (length children) (nb_rows b)
              (state_after_order random_order (length children) (get_st w id)) in
  length nn = nb_rows b /\
  exists b' w' order sels,
    run None parents (SomeOf id n random_order children) w b = Ok (b', w') /\
    Permutation order (seq 0 (length children)) /\
    (random_order = false -> order = seq 0 (length children)) /\
    length sels = nb_rows b /\
    (forall i sel, nth_error sels i = Some sel ->
       NoDup sel /\ (exists keep, sel = filter keep order) /\
       length sel = Z.to_nat (Z.min (nth i nn 0) (Z.of_nat (length children)))) /\
    cells (fun c i => via Gs (nth i sels []) c) b b'.
Proof. exact (@some_of_applies). Qed.
Print Assumptions C28_some_of_applies_n_children.
Example C28_ex1 : let cs := [plus 1 10; plus 2 100; plus 3 1000] in
  let a := SomeOf 0 (NConst 2) false cs in
  Forall2 acts cs [(fun _ x y => y = 10 + x); (fun _ x y => y = 100 + x); (fun _ x y => y = 1000 + x)] /\
  nspec_ok (R:=toy) (NConst 2) 3 /\ all_active toy_world a /\
  result (run None [] a toy_world [Some [1; 2]; Some [5; 6]]) = Ok [Some [1101; 112]; Some [1105; 116]].
Proof.
  cbn zeta. split; [repeat constructor; apply plus_acts|]. split; [exact I|]. split; [intros id _; reflexivity|].
  vm_compute. reflexivity.
Qed.

(** n given as a range (k, None): between k and all children. *)
Theorem C28_n_from_a_range : forall {R : rngops} k nb_children rows (st : St R),
  @discrete_uniform_contract R -> k <= Z.of_nat nb_children ->
  Forall (fun n => k <= n <= Z.of_nat nb_children) (requested (NFrom k) nb_children rows st).
Proof. exact (@requested_range). Qed.
Print Assumptions C28_n_from_a_range.
Example C28_ex2 : @discrete_uniform_contract toy /\ requested (R:=toy) (NFrom 1) 3 4 5 = [3; 1; 2; 3].
Proof. split; [exact toy_discrete_uniform|reflexivity]. Qed.

(** n=None: every child. *)
Theorem C28_n_none_means_all : forall {R : rngops} {V : Type} id random_order (children : list (aug R V)) Gs
    parents (w : world R) (b : batch V),
  @permutation_contract R -> @shuffle_contract R ->
  Forall2 acts children Gs -> rect b -> all_active w (SomeOf id NAll random_order children) ->
  exists b' w' order,
    run None parents (SomeOf id NAll random_order children) w b = Ok (b', w') /\
    Permutation order (seq 0 (length children)) /\
    (random_order = false -> order = seq 0 (length children)) /\
    cells (fun c i => via Gs order c) b b'.
Proof. exact (@some_of_all). Qed.
Print Assumptions C28_n_none_means_all.
Example C28_ex3 : result (run None [] (SomeOf 0 NAll true [plus 1 10; plus 2 100]) toy_world [Some [1; 2]]) = Ok [Some [111; 112]].
Proof. vm_compute. reflexivity. Qed.

Theorem C28_one_of_applies_one_child : forall {R : rngops} {V : Type} id (children : list (aug R V)) Gs parents (w : world R) (b : batch V),
  @permutation_contract R -> @shuffle_contract R -> children <> [] ->
  Forall2 acts children Gs -> rect b -> all_active w (OneOf id children) ->
  exists b' w' chosen,
    run None parents (OneOf id children) w b = Ok (b', w') /\
    length chosen = nb_rows b /\ Forall (fun j => j < length children)%nat chosen /\
    cells (fun c i => nth (nth i chosen 0%nat) Gs (fun _ _ _ => False) c) b b'.
Proof. exact (@one_of_applies_one). Qed.
Print Assumptions C28_one_of_applies_one_child.
Example C28_ex4 : result (run None [] (OneOf 0 [plus 1 10; plus 2 100]) toy_world [Some [1; 2]; None; Some [1; 2]]) =
  Ok [Some [101; 12]; None; Some [101; 12]].
Proof. vm_compute. reflexivity. Qed.

(* ---- C29: Sequential ---- *)

Theorem C29_sequential_applies_each_child_once : forall {R : rngops} {V : Type} id random_order (children : list (aug R V)) Gs
    parents (w : world R) (b : batch V),
  @permutation_contract R -> Forall2 acts children Gs -> rect b ->
  all_active w (Seq id random_order children) ->
  exists b' w' order,
    run None parents (Seq id random_order children) w b = Ok (b', w') /\
    Permutation order (seq 0 (length children)) /\
    (random_order = false -> order = seq 0 (length children)) /\
    cells (fun c _ => via Gs order c) b b'.
Proof. exact (@sequential_applies). Qed.
Print Assumptions C29_sequential_applies_each_child_once.
Example C29_ex1 : all_active toy_world (Seq 0 true [plus 1 10; noise 2; plus 3 100]) /\
  result (run None [] (Seq 0 true [plus 1 10; noise 2; plus 3 100]) toy_world [Some [1; 2]]) = Ok [Some [119; 120]].
Proof. split; [intros id _; reflexivity|]. vm_compute. reflexivity. Qed.

Theorem C29_nested_sequences_concatenate : forall {R : rngops} {V : Type} id1 id2 (xs ys zs : list (aug R V)) parents (w : world R) (b : batch V),
  n_act (w_node w id1) = true -> n_det (w_node w id1) = false ->
  n_act (w_node w id2) = true -> n_det (w_node w id2) = false ->
  (forall c, In c ys -> n_act (w_node w (aug_id c)) = true) ->
  run None parents (Seq id1 false (xs ++ Seq id2 false ys :: zs)) w b =
  run None parents (Seq id1 false (xs ++ ys ++ zs)) w b.
Proof. exact (@nested_sequential). Qed.
Print Assumptions C29_nested_sequences_concatenate.
Example C29_ex2 : n_act (w_node toy_world 0) = true /\ n_det (w_node toy_world 0) = false /\
  result (run None [] (Seq 0 false [plus 1 10; Seq 2 false [noise 3; noise 4]; noise 5]) toy_world [Some [1]]) = Ok [Some [35]].
Proof. vm_compute. auto. Qed.

(* ---- C30: Sometimes ---- *)

Theorem C30_sometimes_partitions_rows : forall {R : rngops} {V : Type} id (p : @sampler R) N (t e : option (aug R V)) Gt Ge
    parents (w : world R) (b : batch V),
  sampler_contract p -> branch_does t Gt -> branch_does e Ge -> rect b ->
  all_active w (Sometimes id p N t e) ->
  exists b' w' samples,
    run None parents (Sometimes id p N t e) w b = Ok (b', w') /\
    length samples = nb_rows b /\
    (nb_rows b <> 0%nat -> samples = fst (run_prog (negb (n_det (w_node w id))) id (Pre 0 p N (nb_rows b) (fun s => Ret s)) w)) /\
    cells (fun c i x y => ((nth i samples 0 == 1)%Q -> Gt c x y) /\ ((nth i samples 0 == 0)%Q -> Ge c x y) /\
             (~ (nth i samples 0 == 1)%Q -> ~ (nth i samples 0 == 0)%Q -> x = y)) b b'.
Proof. exact (@sometimes_partition). Qed.
Print Assumptions C30_sometimes_partitions_rows.
Example C30_ex1 : let a := Sometimes 0 coin 100 (Some (Seq 1 false [plus 2 10])) (Some (Seq 3 false [plus 4 100])) in
  sampler_contract coin /\ all_active toy_world a /\
  result (run None [] a toy_world [Some [1; 2; 3]; None; Some [4; 5; 6]]) = Ok [Some [11; 102; 13]; None; Some [14; 105; 16]] /\
  result (run None [] (Sometimes 0 coin 100 None (Some (Seq 3 false [plus 4 100]))) toy_world [Some [1; 2; 3]]) = Ok [Some [1; 102; 3]].
Proof.
  cbn zeta. split; [exact coin_contract|]. split; [intros id _; reflexivity|]. split; vm_compute; reflexivity.
Qed.

(** The samples of p are the 0/1 samples of the underlying Bernoulli variable,
    also when they come from the prefetch cache: each row belongs to exactly
    one branch. *)
Theorem C30_samples_are_zero_or_one : forall {R : rngops} (P : Q -> Prop) enabled key (smp : @sampler R) N n c st,
  (forall m s, Forall P (fst (smp m s))) -> Forall P (samples_of c) ->
  Forall P (fst (fst (pre_draw enabled key smp N n c st))) /\
  Forall P (samples_of (snd (fst (pre_draw enabled key smp N n c st)))).
Proof. exact (@pre_draw_Forall). Qed.
Print Assumptions C30_samples_are_zero_or_one.
Example C30_ex2 : forall m s, Forall (fun q => (q == 0)%Q \/ (q == 1)%Q) (fst (coin m s)).
Proof.
  intros m s. cbn. apply Forall_map, Forall_forall. intros k _.
  assert (H : (s + Z.of_nat k) mod 2 = 0 \/ (s + Z.of_nat k) mod 2 = 1).
  { pose proof (Z.mod_pos_bound (s + Z.of_nat k) 2). lia. }
  destruct H as [-> | ->]; [left|right]; reflexivity.
Qed.

(* ---- C31: find_augmenters, remove_augmenters ---- *)

Theorem C31_remove_exactly_matching : forall {R : rngops} {V : Type} (p : list nat -> nat -> bool) (a : aug R V),
  match remove_augmenters (by_id p) a with
  | None => p [] (aug_id a) = true
  | Some a' => p [] (aug_id a) = false /\
      entries [] a' = filter (fun e => path_survives p (fst e ++ [aug_id (snd e)])) (entries [] a)
  end.
Proof. exact (@remove_exact). Qed.
Print Assumptions C31_remove_exactly_matching.
Example C31_ex1 : let p := fun (_ : list nat) id => Nat.eqb id 2 || Nat.eqb id 5 in
  remove_augmenters (by_id p) (Seq 0 true [plus 1 1; Seq 2 false [plus 3 1]; Seq 4 false [plus 5 1; plus 6 1]]) =
  Some (Seq 0 true [plus 1 1; Seq 4 false [plus 6 1]]).
Proof. reflexivity. Qed.

Theorem C31_find_exactly_matching : forall {R : rngops} {V : Type} (p : list nat -> nat -> bool) (a : aug R V) above,
  map shell (find_augmenters (by_id p) above a) =
  map snd (filter (fun e => p (fst e) (aug_id (snd e))) (entries above a)).
Proof. exact (fun R V p a ps => @find_shells R V p a ps). Qed.
Print Assumptions C31_find_exactly_matching.
Example C31_ex2 :
  map aug_id (find_augmenters (by_id (fun above id => Nat.leb 2 (length above))) []
    (Seq 0 true [plus 1 1; Seq 2 false [plus 3 1]; Sometimes 4 coin 100 (Some (Seq 5 false [plus 6 1; Seq 7 false []])) None])) =
  [3%nat; 6%nat; 7%nat].
Proof. reflexivity. Qed.

(** An augmenter that is itself a branch of another one (here SomeOf as the
    then-branch of Sometimes) is neither found nor removed, although it matches. *)
Theorem C31_branch_itself_refuted : exists (p : list nat -> nat -> bool) (a a' : aug toy Z) id,
  In id (ids a) /\ (forall above, p above id = true) /\
  find_augmenters (by_id p) [] a = [] /\
  remove_augmenters (by_id p) a = Some a' /\ In id (ids a').
Proof.
  exists (fun _ id => Nat.eqb id 1), (Sometimes 0 coin 100 (Some (SomeOf 1 (NConst 1) false [plus 2 1])) None),
    (Sometimes 0 coin 100 (Some (SomeOf 1 (NConst 1) false [plus 2 1])) None), 1%nat.
  split; [right; now left|]. split; [reflexivity|]. split; [reflexivity|]. split; [reflexivity|right; now left].
Qed.
Print Assumptions C31_branch_itself_refuted.

(* ---- C32: all columns get the same transformation ---- *)

Theorem C32_columns_start_from_same_state : forall {R : rngops} {V : Type} id body parents (w : world R) (b : batch V),
  n_act (w_node w id) = true -> rect b ->
  n_det (w_node w id) = true \/ (forall c l, never_prefetches (body c l)) ->
  exists b' w', run None parents (ColLeaf id body) w b = Ok (b', w') /\ length b' = length b /\
    (forall c x l, nth c b None = Some (x :: l) ->
       nth c b' None = Some (fst (draw_from (body c (x :: l)) (get_st w id)))) /\
    (forall c, nth c b None = None \/ nth c b None = Some [] -> nth c b' None = nth c b None) /\
    (n_det (w_node w id) = true -> get_st w' id = get_st w id) /\
    (n_det (w_node w id) = false -> (1 < length (filter has_items b))%nat -> get_st w' id = adv R (get_st w id)).
Proof. exact (@columns_share_parameters). Qed.
Print Assumptions C32_columns_start_from_same_state.
Example C32_ex1 : (forall (c : nat) (l : list Z), never_prefetches
    (match col_noise false 0 with ColLeaf _ body => body c l | _ => Ret [] end)) /\
  match run None [] (col_noise false 0) toy_world [Some [1; 2]; None; Some [1; 2]] with
  | Ok (b', w') => b' = [Some [8; 9]; None; Some [8; 9]] /\ get_st w' 0 = 8 | Err _ => False end.
Proof. split; [cbn; auto|]. vm_compute. auto. Qed.

(** A tree of such augmenters in deterministic mode treats each column as it
    would if the column was augmented alone, also in a later call. *)
Theorem C32_columns_together_or_separately : forall {R : rngops} {V : Type} (a : aug R V) (w : world R) (h : list (@op R V)) (b : batch V) c r,
  sane w -> column_wise a -> all_deterministic a w -> rect b -> nth c b None = Some r ->
  result (run None [] a (do_ops w h) (only c b)) =
  match result (run None [] a w b) with Ok b' => Ok (only c b') | Err e => Err e end.
Proof. exact (@columns_separately_history). Qed.
Print Assumptions C32_columns_together_or_separately.
Example C32_ex2 : let a := Seq 0 true [col_noise true 1; SomeOf 2 (NConst 1) true [col_noise true 3; col_noise false 4]] in
  let w := fold_right (fun id => with_own true id (Z.of_nat id)) toy_world (seq 0 5) in
  column_wise a /\ all_deterministic a w /\
  result (run None [] a w [Some [1; 2]; None; Some [1; 2]]) = Ok [Some [6; 6]; None; Some [6; 6]] /\
  result (run None [] a w (only 2 [Some [1; 2]; None; Some [1; 2]])) = Ok [None; None; Some [6; 6]].
Proof.
  cbn zeta. split; [cbn; repeat split; intros; now rewrite map_length|]. split.
  - intros id [<-|[<-|[<-|[<-|[<-|[]]]]]]; cbn; eauto.
  - split; vm_compute; reflexivity.
Qed.

(** Without deterministic mode, prefetched parameters can give the columns of
    one batch different samples. *)
Theorem C32_prefetched_parameters_refuted : exists id body (w : world toy) (b : batch Z) b1 w1 b2 w2,
  sane w /\ n_act (w_node w id) = true /\ rect b /\ nth 0 b None = nth 1 b None /\
  (forall c c' l, body c l = body c' l) /\
  run None [] (ColLeaf id body) w b = Ok (b1, w1) /\
  run None [] (ColLeaf id body) w1 b = Ok (b2, w2) /\ nth 0 b2 None <> nth 1 b2 None.
Proof. exact prefetched_columns_differ. Qed.
Print Assumptions C32_prefetched_parameters_refuted.

(* ---- C33: deterministic augmenters ---- *)

Theorem C33_deterministic_repeats : forall {R : rngops} {V : Type} ren (a : aug R V) (w : world R) (h : list (@op R V)) (b : batch V), sane w ->
  let '(a', w') := to_deterministic ren a w in
  result (run None [] a' (do_ops w' h) b) = result (run None [] a' w' b).
Proof. exact (@to_deterministic_repeats). Qed.
Print Assumptions C33_deterministic_repeats.
Example C33_ex1 : let a := Seq 0 true [noise 1; col_noise true 2; Sometimes 3 coin 100 (Some (SomeOf 4 (NConst 1) true [noise 5; plus 6 100])) None] in
  let '(a', w') := to_deterministic (Nat.add 10) a toy_world in
  result (run None [] a' (do_ops w' [Augment a' [Some [4]]; Augment a [Some [4]]; SeedGlobal 9; Augment a' [Some [1; 2]]]) [Some [1; 2]]) =
  result (run None [] a' w' [Some [1; 2]]) /\
  result (run None [] a (do_ops toy_world [Augment a [Some [1; 2]]]) [Some [1; 2]]) <> result (run None [] a toy_world [Some [1; 2]]).
Proof. split; [vm_compute; reflexivity|vm_compute; discriminate]. Qed.

(** ... and leaves everything about other augmenters alone, except for the
    RNGs of the converted ones. *)
Theorem C33_original_only_advances : forall {R : rngops} {V : Type} ren (a : aug R V) (w : world R) id, ~ In id (map ren (ids a)) ->
  let w' := snd (to_deterministic ren a w) in
  n_act (w_node w' id) = n_act (w_node w id) /\ n_det (w_node w' id) = n_det (w_node w id) /\
  n_key (w_node w' id) = n_key (w_node w id) /\ (forall i, n_cache (w_node w' id) i = n_cache (w_node w id) i) /\
  (~ In id (ids a) -> n_rng (w_node w' id) = n_rng (w_node w id)).
Proof. exact (@to_deterministic_original). Qed.
Print Assumptions C33_original_only_advances.
Example C33_ex2 : ~ In 1%nat (map (Nat.add 10) (ids (Seq 0 true [noise 1]))).
Proof. cbn. intuition discriminate. Qed.

(** Converting an augmenter that is already deterministic advances it: its own
    outputs change. *)
Theorem C33_converting_deterministic_advances_refuted : exists (a : aug toy Z) (w : world toy) (b : batch Z),
  sane w /\ all_deterministic a w /\
  result (run None [] a (snd (to_deterministic (Nat.add 10) a w)) b) <> result (run None [] a w b).
Proof.
  exists (noise 0), (with_own true 0 5 toy_world), [Some [1]]. split.
  - repeat split; cbn; intros id; try destruct (Nat.eqb id 0); cbn; intros; try discriminate; try lia; eauto.
  - split; [intros id [<-|[]]; cbn; eauto|]. vm_compute. discriminate.
Qed.
Print Assumptions C33_converting_deterministic_advances_refuted.

(* ---- C34: seeding ---- *)

Theorem C34_seeding_forgets_history : forall {R : rngops} {V : Type} (a : aug R V) seed (bs : list (batch V)) (w : world R) (h1 h2 : list (@op R V)),
  plain_branches a -> sane w ->
  outputs a (seed_ a seed (do_ops w h1)) bs = outputs a (seed_ a seed (do_ops w h2)) bs.
Proof. exact (@seed_forgets_history). Qed.
Print Assumptions C34_seeding_forgets_history.
Example C34_ex1 : let a := Seq 0 true [col_noise true 1; Sometimes 2 coin 100 (Some (Seq 3 false [noise 4])) None] in
  plain_branches a /\ sane toy_world /\
  outputs a (seed_ a 5 (do_ops toy_world [Augment a [Some [1]]; Augment a [Some [2; 3]]; Localize a])) [[Some [1]]; [Some [1]]] =
  outputs a (seed_ a 5 toy_world) [[Some [1]]; [Some [1]]] /\
  outputs a (seed_ a 6 toy_world) [[Some [1]]; [Some [1]]] <> outputs a (seed_ a 5 toy_world) [[Some [1]]; [Some [1]]].
Proof.
  cbn zeta. split; [cbn; tauto|]. split; [exact toy_sane|]. split; [vm_compute; reflexivity|vm_compute; discriminate].
Qed.

Theorem C34_every_augmenter_its_own_stream : forall {V : Type} (a : aug symbolic V) seed (w : world symbolic),
  plain_branches a -> NoDup (ids a) -> (forall id, In id (ids a) -> n_det (w_node w id) = false) ->
  let w' := seed_ (R:=symbolic) a seed w in
  forall id id', In id (draws a) -> In id' (draws a) -> id <> id' ->
  exists s s', n_rng (w_node w' id) = Own s /\ n_rng (w_node w' id') = Own s' /\ s <> s'.
Proof. exact (@every_augmenter_its_own_stream). Qed.
Print Assumptions C34_every_augmenter_its_own_stream.
Example C34_ex2 : let a : aug symbolic Z := Seq 0 true [Leaf 1 (fun b => Ret b); Seq 2 false [Leaf 3 (fun b => Ret b)]; Leaf 4 (fun b => Ret b)] in
  plain_branches a /\ NoDup (ids a) /\ draws a = [0; 1; 3; 4]%nat.
Proof. cbn. split; [tauto|]. split; [|reflexivity]. repeat constructor; cbn; intuition discriminate. Qed.

(** A branch that draws random numbers itself is not reached by seed_. *)
Theorem C34_branch_itself_refuted : exists (a : aug toy Z) seed (bs : list (batch Z)) (w : world toy) (h1 h2 : list (@op toy Z)),
  list_branches a /\ sane w /\
  outputs a (seed_ a seed (do_ops w h1)) bs <> outputs a (seed_ a seed (do_ops w h2)) bs.
Proof.
  exists (Wrap 0 (fun b => Ok b) (fun _ b => Ok b) (SomeOf 1 (NConst 1) false [plus 2 10; plus 3 20])), 5, [[Some [1]]], toy_world,
    [], [SeedGlobal 2].
  split; [cbn; tauto|]. split; [exact toy_sane|]. vm_compute. discriminate.
Qed.
Print Assumptions C34_branch_itself_refuted.

(* ---- C35: deactivated, empty, hooks ---- *)

Theorem C35_deactivated_changes_nothing : forall {R : rngops} {V : Type} hk parents (a : aug R V) (w : world R) (b : batch V),
  plain_hooks hk (aug_id a) parents ->
  (forall c l, nth c b None = Some l -> l <> [] -> switched_off hk w (aug_id a) parents c l) ->
  run hk parents a w b = Ok (b, w).
Proof. exact (@run_switched_off). Qed.
Print Assumptions C35_deactivated_changes_nothing.
Example C35_ex1 : let h := toy_hooks (fun _ _ => false) (fun _ _ => true) in
  plain_hooks (Some h) 0 [] /\ switched_off (Some h) toy_world 0 [] 0 [1] /\
  run (Some h) [] (noise 0) toy_world [Some [1]] = Ok ([Some [1]], toy_world).
Proof. split; [split; reflexivity|]. split; [right; eexists; split; reflexivity|reflexivity]. Qed.

Theorem C35_empty_batch_changes_nothing : forall {R : rngops} {V : Type} hk parents (a : aug R V) (w : world R) (b : batch V),
  no_rows b -> run hk parents a w b = Ok (b, w).
Proof. exact (@run_no_rows). Qed.
Print Assumptions C35_empty_batch_changes_nothing.
Example C35_ex2 : no_rows [@None (list Z); Some []; None].
Proof. intros [|[|[|[|c]]]]; cbn; auto. Qed.

Theorem C35_no_propagation_no_children : forall {R : rngops} {V : Type} h parents (a : aug R V) (w : world R) (b : batch V),
  @permutation_contract R -> @shuffle_contract R -> parent_samplers_ok a -> plain_hooks (Some h) (aug_id a) parents ->
  (forall c l, nth c b None = Some l -> l <> [] -> hk_propagating h (aug_id a) parents c l = false) ->
  exists w', run (Some h) parents a w b = Ok (b, w') /\ only_node (aug_id a) w w'.
Proof. exact (@run_not_propagated). Qed.
Print Assumptions C35_no_propagation_no_children.
Example C35_ex3 : let h := toy_hooks (fun _ _ => true) (fun _ _ => false) in
  parent_samplers_ok (Seq 0 true [noise 1; noise 2]) /\ plain_hooks (Some h) 0 [] /\
  result (run (Some h) [] (Seq 0 true [noise 1; noise 2]) toy_world [Some [1]; None; Some [5]]) = Ok [Some [1]; None; Some [5]] /\
  result (run None [] (Seq 0 true [noise 1; noise 2]) toy_world [Some [1]; None; Some [5]]) = Ok [Some [18]; None; Some [22]].
Proof. cbn zeta. split; [exact I|]. split; [split; reflexivity|]. split; vm_compute; reflexivity. Qed.

Theorem C35_hidden_columns_reappear : forall {R : rngops} {V : Type} hk parents (a : aug R V) (w : world R) (b b' : batch V) w' c l,
  plain_hooks hk (aug_id a) parents ->
  run hk parents a w b = Ok (b', w') -> length b' = length b ->
  nth c b None = Some l -> l <> [] -> switched_off hk w (aug_id a) parents c l ->
  nth c b' None = Some l.
Proof. exact (@run_column_hidden). Qed.
Print Assumptions C35_hidden_columns_reappear.
Example C35_ex4 : let h := toy_hooks (fun id c => Nat.eqb c 0) (fun _ _ => true) in
  result (run (Some h) [] (Seq 0 true [noise 1]) toy_world [Some [1]; None; Some [5]]) = Ok [Some [9]; None; Some [5]].
Proof. vm_compute. reflexivity. Qed.

Theorem C35_columns_not_propagated_reappear : forall {R : rngops} {V : Type} h parents (a : aug R V) (w : world R) (b b' : batch V) w' c l,
  is_parent a -> plain_hooks (Some h) (aug_id a) parents ->
  run (Some h) parents a w b = Ok (b', w') -> length b' = length b ->
  nth c b None = Some l -> l <> [] -> hk_propagating h (aug_id a) parents c l = false ->
  nth c b' None = Some l.
Proof. exact (@run_column_not_propagated). Qed.
Print Assumptions C35_columns_not_propagated_reappear.
Example C35_ex5 : let h := toy_hooks (fun _ _ => true) (fun _ c => Nat.eqb c 2) in
  result (run (Some h) [] (Seq 0 true [noise 1]) toy_world [Some [1]; None; Some [5]]) = Ok [Some [1]; None; Some [13]].
Proof. vm_compute. reflexivity. Qed.

(* ---- C48: prefetching ---- *)

Theorem C48_prefetched_samples_are_an_unbroken_stream : forall {R : rngops} key (smp : @sampler R) N ns c st ss c' st',
  sampler_contract smp -> c_last c = Some key -> Forall (fun n => n < N)%nat ns ->
  pre_draws true key smp N ns c st = (ss, c', st') ->
  map (@length Q) ss = ns /\
  exists blocks, fresh_blocks smp N st blocks st' /\
    concat ss ++ (match c_samples c' with None => [] | Some _ => unread c' end) =
    (match c_samples c with None => [] | Some _ => unread c end) ++ concat blocks.
Proof. exact (@pre_draws_stream). Qed.
Print Assumptions C48_prefetched_samples_are_an_unbroken_stream.
Example C48_ex1 : sampler_contract count_sampler /\ Forall (fun n => n < 5)%nat [3; 3; 4]%nat /\
  fst (fst (pre_draws true 0 count_sampler 5 [3; 3; 4]%nat (mkCache None 0 (Some 0)) 10)) =
  map (map inject_Z) [[10; 11; 12]; [13; 14; 16]; [17; 18; 19; 20]].
Proof. split; [exact count_contract|]. split; [repeat constructor|vm_compute; reflexivity]. Qed.

Theorem C48_other_draws_come_directly_from_the_rng : forall {R : rngops} enabled key (smp : @sampler R) N n c st,
  enabled = false \/ c_last c <> Some key \/ (N <= n)%nat ->
  fst (fst (pre_draw enabled key smp N n c st)) = fst (smp n st) /\
  snd (pre_draw enabled key smp N n c st) = adv R (snd (smp n st)) /\
  (enabled = true -> c_last c <> Some key -> c_samples (snd (fst (pre_draw enabled key smp N n c st))) = None).
Proof. exact (@pre_draw_direct). Qed.
Print Assumptions C48_other_draws_come_directly_from_the_rng.
Example C48_ex2 : fst (fst (pre_draw true 1 count_sampler 5 2 (mkCache (Some [(1#2)%Q; (1#3)%Q]) 0 (Some 0)) 10)) = map inject_Z [10; 11].
Proof. vm_compute. reflexivity. Qed.

(* ---- C49: imgaug.seed ---- *)

Theorem C49_global_seed_forgets_other_augmenters : forall {R : rngops} {V : Type} (a : aug R V) (w : world R) (h : list (@op R V)) s (bs : list (batch V)),
  sane w -> (forall o id, In o h -> In id (op_ids o) -> ~ In id (ids a)) ->
  outputs a (seed_global s (do_ops w h)) bs = outputs a (seed_global s w) bs.
Proof. exact (@global_seed_forgets_others). Qed.
Print Assumptions C49_global_seed_forgets_other_augmenters.
Example C49_ex1 : let a := Seq 0 true [noise 1; col_noise true 2] in
  outputs a (seed_global 4 (do_ops toy_world [Augment (noise 5) [Some [1]]; Augment (col_noise true 6) [Some [1]]])) [[Some [1]]] =
  outputs a (seed_global 4 toy_world) [[Some [1]]].
Proof. vm_compute. reflexivity. Qed.

Theorem C49_fresh_pipelines_reproducible : forall {R : rngops} {V : Type} (a : aug R V) (w1 w2 : world R) s (bs : list (batch V)),
  (forall id, In id (ids a) -> n_rng (w_node w1 id) = Glob /\ n_rng (w_node w2 id) = Glob /\
     n_det (w_node w1 id) = false /\ n_det (w_node w2 id) = false /\
     n_act (w_node w1 id) = n_act (w_node w2 id) /\ unused w1 id /\ unused w2 id) ->
  outputs a (seed_global s w1) bs = outputs a (seed_global s w2) bs.
Proof. exact (@global_seed_fresh). Qed.
Print Assumptions C49_fresh_pipelines_reproducible.
Example C49_ex2 : unused toy_world 0 /\ n_rng (w_node toy_world 0) = Glob.
Proof. split; [intros i|]; reflexivity. Qed.

(** An augmenter that was used before still hands out samples prefetched before
    the call of imgaug.seed. *)
Theorem C49_used_augmenters_refuted : exists (a : aug toy Z) (w : world toy) (h1 h2 : list (@op toy Z)) s (bs : list (batch Z)),
  sane w /\ plain_branches a /\
  outputs a (seed_global s (do_ops w h1)) bs <> outputs a (seed_global s (do_ops w h2)) bs.
Proof.
  exists (col_noise true 0), toy_world, [Augment (col_noise true 0) [Some [1]]; Augment (col_noise true 0) [Some [1]]],
    [Augment (col_noise true 0) [Some [1]]], 30, [[Some [1]]].
  split; [exact toy_sane|]. split; [exact I|]. vm_compute. discriminate.
Qed.
Print Assumptions C49_used_augmenters_refuted.
