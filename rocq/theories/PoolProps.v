(** Property theorems about imgaug/multicore.py. *)
From Coq Require Import Permutation.
From Verif Require Import Prelude PoolModel PoolSpec PoolProofs PoolBackground.

(* ---- C19: seeds ---- *)

Theorem C19_worker_seeds_are_valid : forall base,
  0 <= fst (worker_seeds base) <= 2147483647 /\ 0 <= snd (worker_seeds base) <= 2147483647.
Proof. exact (fun base => conj (derived_seed_valid base _) (derived_seed_valid base _)). Qed.
Print Assumptions C19_worker_seeds_are_valid.
Example C19_ex1 : worker_seeds (-5) = (1147483642, 2147483642).
Proof. reflexivity. Qed.

Theorem C19_close_batches_get_different_seeds : forall base i j, i <> j -> Z.abs (i - j) < 2147483647 ->
  fst (worker_seeds (base + i)) <> fst (worker_seeds (base + j)) /\
  snd (worker_seeds (base + i)) <> snd (worker_seeds (base + j)).
Proof. exact (fun base i j H H' => conj (derived_seed_distinct base i j _ H H') (derived_seed_distinct base i j _ H H')). Qed.
Print Assumptions C19_close_batches_get_different_seeds.
Example C19_ex2 : worker_seeds (2147483646 + 0) = (1147483646, 2147483646) /\ worker_seeds (2147483646 + 1) = (1147483647, 0).
Proof. split; reflexivity. Qed.

Theorem C19_global_and_augmenter_seeds_differ : forall base, fst (worker_seeds base) <> snd (worker_seeds base).
Proof. exact worker_seeds_differ. Qed.
Print Assumptions C19_global_and_augmenter_seeds_differ.

(* ---- C20: batch ids ---- *)

(** [cs]: completed calls; then [k] batches of an imap_batches still running. *)
Theorem C20_ids_are_consecutive : forall cs k,
  i_ids (id_run (flat_map events cs ++ repeat EvNext k)) = first_ids (list_sum (map nb_batches cs) + k).
Proof. exact ids_consecutive. Qed.
Print Assumptions C20_ids_are_consecutive.
Example C20_ex1 : i_ids (id_run (flat_map events [MapBatches 2; ImapBatches 3; MapBatches 1] ++ repeat EvNext 2)) = [0; 1; 2; 3; 4; 5; 6; 7].
Proof. reflexivity. Qed.

Theorem C20_ids_are_unique : forall cs k,
  NoDup (i_ids (id_run (flat_map events cs ++ repeat EvNext k))).
Proof. exact ids_unique. Qed.
Print Assumptions C20_ids_are_unique.

(** Two batches with the same id: a map_batches during a running imap_batches,
    or after an imap_batches that was abandoned. *)
Theorem C20_during_running_imap_refuted : exists es, es = [EvNext; EvMap 1] /\ ~ NoDup (i_ids (id_run es)).
Proof. exact ids_dup_during_imap. Qed.
Print Assumptions C20_during_running_imap_refuted.
Theorem C20_after_abandoned_imap_refuted : exists es,
  es = [EvNext; EvAbandon] ++ events (MapBatches 1) /\ ~ NoDup (i_ids (id_run es)).
Proof. exact ids_dup_abandoned. Qed.
Print Assumptions C20_after_abandoned_imap_refuted.

(* ---- C22: imap_batches ---- *)

(** [ls] is any schedule; [Some k], k > 0: output_buffer_size. *)
Theorem C22_buffer_bound : forall {B B'} (f : B -> B') ordered chunksize k processes batches ls s,
  k <> O -> exec_all f ordered chunksize processes (p_init (Some k) batches) ls = Some s ->
  in_flight batches s <= Z.of_nat k + 1 /\
  (p_held s = None -> in_flight batches s <= Z.of_nat k).
Proof. exact (@imap_bound). Qed.
Print Assumptions C22_buffer_bound.

(** The bound k itself is exceeded by one batch, which was loaded and waits for
    the buffer. *)
Theorem C22_buffer_bound_k_refuted : exists (ls : list label) s,
  exec_all (fun b : Z => b) true 1 1 (p_init (Some 2%nat) [10; 11; 12; 13]) ls = Some s /\ in_flight [10; 11; 12; 13] s = 3.
Proof. exact imap_bound_tight. Qed.
Print Assumptions C22_buffer_bound_k_refuted.

Theorem C22_results_in_order : forall {B B'} (f : B -> B') chunksize obs processes batches ls s,
  exec_all f true chunksize processes (p_init obs batches) ls = Some s ->
  exists rest, map f batches = p_out s ++ rest.
Proof. exact (fun B B' f cs obs pr batches ls s E => ordered_prefix f true cs obs pr batches ls s eq_refl E). Qed.
Print Assumptions C22_results_in_order.

Theorem C22_results_at_most_once : forall {B B'} (f : B -> B') ordered chunksize obs processes batches ls s,
  exec_all f ordered chunksize processes (p_init obs batches) ls = Some s ->
  exists rest, Permutation (map f batches) (p_out s ++ rest).
Proof. exact (@nothing_twice). Qed.
Print Assumptions C22_results_at_most_once.

Theorem C22_all_results_at_the_end : forall {B B'} (f : B -> B') ordered chunksize obs processes batches ls s,
  exec_all f ordered chunksize processes (p_init obs batches) ls = Some s -> p_done s = true ->
  Permutation (p_out s) (map f batches) /\ (ordered = true -> p_out s = map f batches).
Proof. exact (@done_complete). Qed.
Print Assumptions C22_all_results_at_the_end.

(** A schedule that cannot be continued has handed out everything, and every
    schedule is finite. *)
Theorem C22_runs_end_with_all_results : forall {B B'} (f : B -> B') ordered chunksize obs processes batches ls s,
  (1 <= chunksize)%nat -> (1 <= processes)%nat ->
  (match obs with Some (S k) => chunksize <= S k | _ => True end)%nat ->
  exec_all f ordered chunksize processes (p_init obs batches) ls = Some s ->
  (forall l, exec f ordered chunksize processes s l = None) ->
  p_done s = true.
Proof. exact (@maximal_run_complete). Qed.
Print Assumptions C22_runs_end_with_all_results.
Theorem C22_schedules_are_finite : forall {B B'} (f : B -> B') ordered chunksize obs processes batches ls s,
  exec_all f ordered chunksize processes (p_init obs batches) ls = Some s ->
  (length ls <= 9 * length batches + 3)%nat.
Proof. exact (@run_length). Qed.
Print Assumptions C22_schedules_are_finite.
(** Two workers, unordered: the second batch overtakes the first. *)
Example C22_ex1 :
  let ls := [LLoad; LAcquire; LSubmit; LTake; LLoad; LAcquire; LSubmit; LTake; LRequest; LFinish 1; LNextChunk 1; LDeliver;
             LLoad; LFinish 0; LRequest; LNextChunk 0; LDeliver; LAcquire; LSubmit; LTake; LRequest; LFinish 2; LNextChunk 2; LDeliver; LRequest; LStop] in
  option_map (fun s => (p_out s, p_done s)) (exec_all (fun b => b + 100) false 1 2 (p_init (Some 2%nat) [1; 2; 3]) ls) = Some ([102; 101; 103], true).
Proof. reflexivity. Qed.
Example C22_ex2 :
  let ls := [LLoad; LAcquire; LSubmit; LTake; LLoad; LAcquire; LSubmit; LTake; LRequest; LFinish 1; LNextChunk 1] in
  exec_all (fun b => b + 100) true 1 2 (p_init (Some 2%nat) [1; 2; 3]) ls = None.
Proof. reflexivity. Qed.

(** With a chunksize larger than output_buffer_size nothing is ever returned. *)
Theorem C22_chunks_larger_than_buffer_refuted : forall {B B'} (f : B -> B') ordered chunksize k processes batches ls s,
  (S k < chunksize)%nat -> (S k < length batches)%nat ->
  exec_all f ordered chunksize processes (p_init (Some (S k)) batches) ls = Some s ->
  p_out s = [] /\ p_done s = false.
Proof. exact (@imap_deadlock). Qed.
Print Assumptions C22_chunks_larger_than_buffer_refuted.

(* ---- C23: BatchLoader and BackgroundAugmenter ---- *)

(** [batches]: what each loading worker yields; [n]: number of augmentation
    workers; [ls]: any schedule. *)
Theorem C23_delivered_at_most_once : forall {B} (dec : forall x y : B, {x = y} + {x <> y}) threaded (batches : list (list B)) n ls s,
  (1 <= n)%nat -> bexec_all threaded (b_init batches n) ls = Some s ->
  exists rest, Permutation (concat batches) (batches_in (b_out s) ++ rest).
Proof. exact (@background_at_most_once). Qed.
Print Assumptions C23_delivered_at_most_once.

Theorem C23_complete_with_processes : forall {B} (dec : forall x y : B, {x = y} + {x <> y}) (batches : list (list B)) n ls s,
  (1 <= n)%nat -> bexec_all false (b_init batches n) ls = Some s -> In None (b_out s) ->
  Permutation (batches_in (b_out s)) (concat batches).
Proof. exact (fun B dec batches n ls s Hn E HN => background_complete dec false batches n ls s eq_refl Hn E HN). Qed.
Print Assumptions C23_complete_with_processes.
Definition C23_schedule : list blabel :=
  [BPut 0; BPut 1; BFlush 1; BFlush 0; BPutEnd 1; BMove; BFlushMain; BTake 1; BPutEnd 0; BFlush 0; BFlush 1; BDie 0; BDie 1; BAllDead; BMove; BMove; BMove;
   BDrained; BFlushMain; BFlushMain; BTake 0; BAugmented 0; BFlushResult 0; BTake 0; BFlushBack 0; BFlushResult 0; BGet; BGet;
   BAugmented 1; BTake 1; BFlushResult 1; BFlushBack 1; BFlushResult 1; BGet; BGet; BGet].
Example C23_ex1 : option_map b_out (bexec_all false (b_init [[1]; [2]] 2) C23_schedule) = Some [Some 1; Some 2; None; None].
Proof. reflexivity. Qed.

(** The default: loading threads. A thread counts as dead when its function
    returned, while its last batches can still be in the queue's buffer. *)
Theorem C23_complete_with_threads_refuted : exists ls s,
  bexec_all true (b_init [[1]] 1) ls = Some s /\ b_out s = [None].
Proof. exact threads_lose_batches. Qed.
Print Assumptions C23_complete_with_threads_refuted.

Theorem C23_none_is_final : forall {B} (dec : forall x y : B, {x = y} + {x <> y}) threaded (batches : list (list B)) n ls s,
  (1 <= n)%nat -> bexec_all threaded (b_init batches n) ls = Some s ->
  exists ds k, b_out s = map Some ds ++ repeat None k.
Proof. exact (@background_none_last). Qed.
Print Assumptions C23_none_is_final.

(** As long as no augmentation worker crashed some step is possible, and all
    steps but further calls of get_batch after the end are bounded in number:
    get_batch never blocks forever. *)
Theorem C23_progress : forall {B} (dec : forall x y : B, {x = y} + {x <> y}) threaded (batches : list (list B)) n ls s,
  (1 <= n)%nat -> bexec_all threaded (b_init batches n) ls = Some s ->
  (forall a, In a (b_augs s) -> a_crashed a = false) ->
  exists l s', bexec threaded s l = Some s'.
Proof. exact (@background_progress). Qed.
Print Assumptions C23_progress.
Theorem C23_finitely_many_steps : forall {B} threaded (batches : list (list B)) n ls s,
  bexec_all threaded (b_init batches n) ls = Some s ->
  (length ls <= 10 * length (concat batches) + 21 * length batches + 41 + 10 * n + length (filter isnone (b_out s)))%nat.
Proof. exact (@background_terminates). Qed.
Print Assumptions C23_finitely_many_steps.

(** A crash of a worker: the end is never reported, and get_batch can block with
    batches left. *)
Theorem C23_no_end_after_crash : forall {B} (dec : forall x y : B, {x = y} + {x <> y}) threaded (batches : list (list B)) n ls s,
  (1 <= n)%nat -> bexec_all threaded (b_init batches n) ls = Some s ->
  (exists a, In a (b_augs s) /\ a_crashed a = true) -> ~ In None (b_out s).
Proof. exact (@crashed_no_end). Qed.
Print Assumptions C23_no_end_after_crash.
Theorem C23_progress_after_crash_refuted : exists ls s,
  bexec_all false (b_init [[1; 2]] 1) ls = Some s /\ b_out s = [] /\ forall l, bexec false s l = None.
Proof. exact crash_blocks. Qed.
Print Assumptions C23_progress_after_crash_refuted.
