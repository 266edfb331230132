(** Concrete random number generators and augmenters for the examples in
    AugProps.v. *)
From Coq Require Import Permutation Lia.
From Verif Require Import Prelude PreludeFacts AugModel AugSpec AugProofs AugChildren.

(** Generator states are numbers; permuting and shuffling reverse the list in
    odd states. *)
Definition toy : rngops :=
  mkRngops Z (fun s => s + 1) (fun s => (2 * s + 1, 2 * s + 2)) (fun z => z)
    (fun n s => (if Z.even s then seq 0 n else rev (seq 0 n), s + 1))
    (fun l s => (if Z.even s then l else rev l, s + 1))
    (fun a b n s => (map (fun k => inject_Z (a + (s + Z.of_nat k) mod (b - a + 1))) (seq 0 n), s + 1)).

Lemma toy_permutation : @permutation_contract toy.
Proof.
  intros n st. cbn. destruct (Z.even st); [apply Permutation_refl|]. apply Permutation_sym, Permutation_rev.
Qed.
Lemma toy_shuffle : @shuffle_contract toy.
Proof.
  intros l st. cbn. destruct (Z.even st); [apply Permutation_refl|]. apply Permutation_sym, Permutation_rev.
Qed.
Lemma toy_discrete_uniform : @discrete_uniform_contract toy.
Proof.
  intros a b n st H. cbn. rewrite map_length, seq_length. split; [reflexivity|].
  apply Forall_map, Forall_forall. intros k _. eexists. split; [reflexivity|].
  assert (0 < b - a + 1)%Z by lia. pose proof (Z.mod_pos_bound (st + Z.of_nat k) (b - a + 1) H0). lia.
Qed.

(** An augmenter adding [k] to every cell. *)
Definition plus (id : nat) (k : Z) : aug toy Z :=
  Leaf id (fun b => Ret (map (option_map (map (Z.add k))) b)).
Lemma plus_acts : forall id k, acts (plus id k) (fun _ x y => y = k + x)%Z.
Proof.
  intros id k ps w b HR HA. cbn [run plus]. rewrite augment_batch_none by (apply HA; now left).
  destruct (Nat.eqb_spec (nb_rows b) 0) as [E|E].
  - exists b, w. split; [reflexivity|]. exact (rect_empty_cells b _ HR E).
  - cbn [run_prog bind fst snd]. eexists _, _. split; [reflexivity|]. split; [apply map_length|].
    intros c. pose proof (map_nth (option_map (map (Z.add k))) b None c) as Em. cbn [option_map] in Em. rewrite Em.
    destruct (nth c b None) as [r|]; cbn; [|exact I]. split; [apply map_length|].
    intros i x y Hx Hy. rewrite nth_error_map, Hx in Hy. cbn in Hy. congruence.
Qed.

(** An augmenter adding one value taken directly from its RNG. *)
Definition noise (id : nat) : aug toy Z :=
  Leaf id (fun b => Raw (R:=toy) (fun s => ([inject_Z s], s + 1))
    (fun l => Ret (map (option_map (map (Z.add (Qnum (hd 0%Q l))))) b))).
(** Consecutive numbers. *)
Definition count_sampler : @sampler toy :=
  fun n s => (map (fun k => inject_Z (s + Z.of_nat k)) (seq 0 n), s + Z.of_nat n).
(** Column by column, one value per call, from a prefetched parameter or directly. *)
Definition col_noise (prefetched : bool) (id : nat) : aug toy Z :=
  ColLeaf id (fun _ l =>
    if prefetched
    then Pre (R:=toy) 0%nat count_sampler 100%nat 1%nat (fun s => Ret (map (Z.add (Qnum (hd 0%Q s))) l))
    else Raw (R:=toy) (count_sampler 1%nat) (fun s => Ret (map (Z.add (Qnum (hd 0%Q s))) l))).
(** Alternating samples 1, 0, 1, ... *)
Definition coin : @sampler toy :=
  fun n s => (map (fun k => inject_Z ((s + Z.of_nat k) mod 2)) (seq 0 n), s + 1).
Lemma coin_contract : sampler_contract coin.
Proof. intros n st. cbn. now rewrite map_length, seq_length. Qed.
Lemma count_contract : sampler_contract count_sampler.
Proof. intros n st. cbn. now rewrite map_length, seq_length. Qed.

(** All augmenters new and using the global RNG. *)
Definition toy_world : world toy :=
  mkWorld (R:=toy) 7 (fun _ => mkNst (R:=toy) Glob 0 false true (fun _ => mkCache None 0%nat None)) 1.
Lemma toy_sane : sane toy_world.
Proof. repeat split; cbn; intros; try discriminate; lia. Qed.
(** Augmenter [id] with its own RNG in state [s], deterministic or not. *)
Definition with_own (det : bool) (id : nat) (s : Z) (w : world toy) : world toy :=
  set_node w id (mkNst (R:=toy) (Own (R:=toy) s) 0 det true (fun _ => mkCache None 0%nat None)).

(** Hooks with given answers. *)
Definition toy_hooks (activated propagating : nat -> nat -> bool) : hooks Z :=
  mkHooks (fun _ _ _ l => l) (fun id _ c _ => activated id c) (fun id _ c _ => propagating id c) (fun _ _ _ l => l).

(** Results of runs as terms. *)
Definition unok {A B} (d : A * B) (r : res (A * B)) : A * B := match r with Ok x => x | Err _ => d end.
Lemma unok_ok : forall {A B} (d : A * B) r, (match r with Ok _ => true | Err _ => false end) = true ->
  r = Ok (fst (unok d r), snd (unok d r)).
Proof. intros A B d [[a b]|e]; [reflexivity|discriminate]. Qed.

Lemma prefetched_columns_differ : exists id body (w : world toy) (b : batch Z) b1 w1 b2 w2,
  sane w /\ n_act (w_node w id) = true /\ rect b /\ nth 0 b None = nth 1 b None /\
  (forall c c' l, body c l = body c' l) /\
  run None [] (ColLeaf id body) w b = Ok (b1, w1) /\
  run None [] (ColLeaf id body) w1 b = Ok (b2, w2) /\ nth 0 b2 None <> nth 1 b2 None.
Proof.
  set (body := match col_noise true 0 with ColLeaf _ body => body | _ => fun _ _ => Ret [] end).
  set (b := [Some [1]; Some [1]]).
  set (r1 := run None [] (ColLeaf 0 body) toy_world b).
  set (r2 := run None [] (ColLeaf 0 body) (snd (unok (b, toy_world) r1)) b).
  exists 0%nat, body, toy_world, b, (fst (unok (b, toy_world) r1)), (snd (unok (b, toy_world) r1)),
    (fst (unok (b, toy_world) r2)), (snd (unok (b, toy_world) r2)).
  split; [exact toy_sane|]. split; [reflexivity|]. split; [repeat constructor|].
  split; [reflexivity|]. split; [reflexivity|].
  split; [apply unok_ok; vm_compute; reflexivity|]. split; [apply unok_ok; vm_compute; reflexivity|].
  vm_compute. discriminate.
Qed.
