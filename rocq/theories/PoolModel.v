(** Model of imgaug/multicore.py: class Pool (batch ids, seeds, the pipeline of
    imap_batches) and the deprecated BatchLoader / BackgroundAugmenter.

    A concurrent program is modelled by its atomic steps: [exec s l] is the
    state after the step with label [l], or [None] if that step is not possible
    in [s]. A schedule is a list of labels. multiprocessing.Pool, Queue and
    Semaphore are modelled by their documented behaviour (FIFO tasks, any worker
    may finish first, results of [imap] handed out in task order). Batches are
    opaque. Exceptions in workers of a Pool and [terminate] are not modelled. *)
From Verif Require Import Prelude.

(* ------------------------------------------------------------------ *)
(** * Seeds and worker counts *)

(** random.py:62-63. *)
Definition seed_min : Z := 0.
Definition seed_max : Z := 2147483647.
(** multicore.py:553-558 [_derive_seed]. *)
Definition derived_seed (base_seed offset : Z) : Z :=
  seed_min + (base_seed + offset) mod (seed_max - seed_min).
(** multicore.py:546-550 [_reseed_global_local]: (global seed, augmenter seed). *)
Definition worker_seeds (base_seed : Z) : Z * Z :=
  (derived_seed base_seed (-1000000000), derived_seed base_seed 0).
(** multicore.py:147-175 [Pool.__init__]: check of processes and seed. *)
Definition pool_init (processes seed : option Z) : res unit :=
  if match processes with Some p => p =? 0 | None => false end then Err AssertionError
  else match seed with
       | Some s => if (seed_min <=? s) && (s <=? seed_max) then Ok tt else Err AssertionError
       | None => Ok tt
       end.
(** multicore.py:200-224 [Pool.pool]: number of processes handed to
    multiprocessing.Pool. [None]: all cores. *)
Definition pool_processes (cpu_count : Z) (processes : option Z) : option Z :=
  match processes with
  | Some p => if p <? 0 then Some (Z.max (cpu_count - Z.abs p) 1) else Some p
  | None => None
  end.

(* ------------------------------------------------------------------ *)
(** * Batch ids *)

(** [_batch_idx], whether a generator of [_handle_batch_ids_gen] is suspended at
    its [yield], and the ids handed out so far. The task thread of a
    multiprocessing.Pool consumes the generators of several [imap] calls one
    after the other. [multicore.py:449-459] *)
Record idst := mkIdst { i_next : Z; i_suspended : bool; i_ids : list Z }.
(** multicore.py:449-459: what can happen to the batch ids. *)
Inductive idev :=
| EvMap (n : nat)   (* map_batches, map_batches_async with n batches *)
| EvNext            (* the task thread asks the current generator for a batch and gets one *)
| EvEnd             (* the task thread asks the current generator, which is exhausted *)
| EvAbandon.        (* the current generator is dropped without being asked again *)

(** multicore.py:449-453 [_handle_batch_ids], 455-459 [_handle_batch_ids_gen]. *)
Definition id_step (s : idst) (e : idev) : idst :=
  let resumed := if i_suspended s then i_next s + 1 else i_next s in
  match e with
  | EvMap n => mkIdst (i_next s + Z.of_nat n) (i_suspended s)
                 (i_ids s ++ map (fun k => i_next s + Z.of_nat k) (seq 0 n))
  | EvNext => mkIdst resumed true (i_ids s ++ [resumed])
  | EvEnd => mkIdst resumed false (i_ids s)
  | EvAbandon => mkIdst (i_next s) false (i_ids s)
  end.
(** multicore.py:186 [_batch_idx = 0]. *)
Definition id_init : idst := mkIdst 0 false [].
(** multicore.py:449-459, a history of calls. *)
Definition id_run (es : list idev) : idst := fold_left id_step es id_init.

(* ------------------------------------------------------------------ *)
(** * The pipeline of imap_batches *)

(** multicore.py:298-350: state of a task in multiprocessing.Pool. *)
Inductive status := Queued | Running | Finished | Taken.

(** helper: list update (multicore.py). *)
Fixpoint upd {A} (i : nat) (x : A) (l : list A) : list A :=
  match l, i with
  | [], _ => []
  | _ :: l', O => x :: l'
  | y :: l', S i' => y :: upd i' x l'
  end.

(** helper for [status] (multicore.py). *)
Definition status_eqb (a b : status) : bool :=
  match a, b with
  | Queued, Queued | Running, Running | Finished, Finished | Taken, Taken => true
  | _, _ => false
  end.

Section Imap.
Context {B B' : Type}.
(** What a worker does to a batch; whether imap_batches (ordered) or
    imap_batches_unordered is used; chunksize; output_buffer_size; processes. *)
Variable f : B -> B'.
Variable ordered : bool.
Variable chunksize : nat.
Variable output_buffer_size : option nat.
Variable processes : nat.

(** multicore.py:298-350, 455-467: the state of one call of imap_batches. *)
Record pst := mkPst {
  p_todo : list B;            (* not yet loaded from the user's generator *)
  p_held : option B;          (* loaded, waiting in [output_buffer_left.acquire()] *)
  p_chunk : list B;           (* chunk being gathered by the task thread *)
  p_tasks : list (list B * status);  (* chunks submitted so far *)
  p_avail : list B';          (* rest of the chunk the consumer is iterating over *)
  p_out : list B';            (* handed to the user *)
  p_permits : option nat;     (* value of the semaphore, [None] without one *)
  p_owe : bool;               (* the last batch handed out was not yet released *)
  p_waiting : bool;           (* the user asked for a batch and waits *)
  p_done : bool               (* StopIteration was raised *)
}.

(** multicore.py:469-476 [_create_output_buffer_left]: 0 and None mean no limit. *)
Definition create_output_buffer_left (n : option nat) : option nat :=
  match n with Some (S k) => Some (S k) | _ => None end.

(** multicore.py:298-350. *)
Definition p_init (batches : list B) : pst :=
  mkPst batches None [] [] [] [] (create_output_buffer_left output_buffer_size) false false false.

(** multicore.py:298-350, 455-467: the atomic steps. *)
Inductive label := LLoad | LAcquire | LSubmit | LTake | LFinish (i : nat)
                 | LRequest | LNextChunk (i : nat) | LDeliver | LStop.

(** The first queued task. [external: multiprocessing.Pool takes tasks in order (multicore.py)] *)
Fixpoint first_queued (ts : list (list B * status)) : option nat :=
  match ts with
  | [] => None
  | (_, Queued) :: _ => Some O
  | _ :: ts' => option_map S (first_queued ts')
  end.
(** helper for the steps (multicore.py). *)
Definition set_status (i : nat) (st : status) (ts : list (list B * status)) :=
  match nth_error ts i with Some (c, _) => upd i (c, st) ts | None => ts end.
(** helper for the steps (multicore.py). *)
Definition count_status (st : status) (ts : list (list B * status)) : nat :=
  length (filter (fun t => status_eqb (snd t) st) ts).
(** helper for the steps (multicore.py). *)
Definition is_status (i : nat) (st : status) (ts : list (list B * status)) : bool :=
  match nth_error ts i with Some (_, st') => status_eqb st' st | None => false end.

(** helper for the steps (multicore.py). *)
Definition isnil {A} (l : list A) : bool := match l with [] => true | _ => false end.
(** helper for the steps (multicore.py). *)
Definition isnone {A} (o : option A) : bool := match o with None => true | _ => false end.

(** multicore.py:298-350, 455-467, 513-543. *)
Definition exec (s : pst) (l : label) : option pst :=
  let '(mkPst todo held chunk tasks avail out permits owe waiting done) := s in
  match l with
  | LLoad =>
      (* multicore.py:463 [for batch in batches]: the batch is loaded first;
         multiprocessing.Pool._get_tasks gathers [chunksize] items *)
      match todo, held with
      | b :: todo', None => if Nat.ltb (length chunk) chunksize
          then Some (mkPst todo' (Some b) chunk tasks avail out permits owe waiting done) else None
      | _, _ => None
      end
  | LAcquire =>
      (* multicore.py:464-466 [output_buffer_left.acquire(); yield batch] *)
      match held, permits with
      | Some b, None => Some (mkPst todo None (chunk ++ [b]) tasks avail out None owe waiting done)
      | Some b, Some (S k) => Some (mkPst todo None (chunk ++ [b]) tasks avail out (Some k) owe waiting done)
      | _, _ => None
      end
  | LSubmit =>
      if negb (isnil chunk) && ((Nat.eqb (length chunk) chunksize) || (isnil todo && isnone held))
      then Some (mkPst todo held [] (tasks ++ [(chunk, Queued)]) avail out permits owe waiting done)
      else None
  | LTake =>
      (* a free worker takes the oldest task *)
      match first_queued tasks with
      | Some i => if Nat.ltb (count_status Running tasks) processes
          then Some (mkPst todo held chunk (set_status i Running tasks) avail out permits owe waiting done)
          else None
      | None => None
      end
  | LFinish i =>
      if is_status i Running tasks
      then Some (mkPst todo held chunk (set_status i Finished tasks) avail out permits owe waiting done)
      else None
  | LRequest =>
      (* the user calls next(): multicore.py:347-350 release, then next task *)
      if waiting || done then None
      else Some (mkPst todo held chunk tasks avail out
                   (if owe then option_map S permits else permits) false true done)
  | LNextChunk i =>
      (* [for chunk in result] *)
      if waiting && isnil avail && is_status i Finished tasks
         && (negb ordered || forallb (fun t => status_eqb (snd t) Taken) (firstn i tasks))
      then Some (mkPst todo held chunk (set_status i Taken tasks)
                   (match nth_error tasks i with Some (c, _) => map f c | None => [] end)
                   out permits owe waiting done)
      else None
  | LDeliver =>
      (* multicore.py:348 [yield batch] *)
      match avail with
      | x :: avail' => if waiting
          then Some (mkPst todo held chunk tasks avail' (out ++ [x]) permits true false done) else None
      | [] => None
      end
  | LStop =>
      if waiting && negb done && isnil avail && isnil todo && isnone held && isnil chunk
         && forallb (fun t => status_eqb (snd t) Taken) tasks
      then Some (mkPst todo held chunk tasks avail out permits owe false true)
      else None
  end.

(** a schedule of the steps of 298-350 (multicore.py). *)
Fixpoint exec_all (s : pst) (ls : list label) : option pst :=
  match ls with
  | [] => Some s
  | l :: ls' => match exec s l with Some s' => exec_all s' ls' | None => None end
  end.
End Imap.
Arguments pst : clear implicits.

(* ------------------------------------------------------------------ *)
(** * BatchLoader and BackgroundAugmenter *)
Section Background.
Context {B : Type}.
(** Batches are only identified, not augmented: an element of the result queue
    stands for the augmented version of the batch. *)

(** A loading worker: batches its generator still yields, elements put into the
    internal queue but still in the worker's own buffer (the feeder thread of
    multiprocessing.Queue moves them into the pipe), whether the final [""] was
    put, whether [is_alive()] is false. [None] is the end marker. [multicore.py:677-709 [_load_batches]] *)
Record loader := mkLoader { l_todo : list B; l_buf : list (option B); l_ended : bool; l_dead : bool }.
(** The thread [_main_worker]. [multicore.py:643-675 [_main_worker]] *)
Inductive mphase := MLoop | MDrain | MEnded.
(** An augmentation worker: batch being augmented, elements of the result queue
    in its buffer, [None]s it puts back into the source queue (still in its
    buffer), finished, crashed (exception in augment_batch_). [multicore.py:872-909 [_augment_images_worker]] *)
Record augmenter := mkAugmenter { a_hold : option B; a_buf : list (option B); a_back : nat;
                                  a_finished : bool; a_crashed : bool }.
(** multicore.py:590-626, 800-835: the state of BatchLoader and BackgroundAugmenter. *)
Record bst := mkBst {
  b_loaders : list loader;
  b_internal : list (option B);     (* pipe of [_queue_internal] *)
  b_main : mphase;
  b_mbuf : list (option B);         (* elements put into [queue] by the main worker, in its buffer *)
  b_source : list (option B);       (* pipe of [queue] = [queue_source] *)
  b_augs : list augmenter;
  b_result : list (option B);       (* pipe of [queue_result] *)
  b_finished : nat;                 (* [nb_workers_finished] *)
  b_out : list (option B)           (* return values of get_batch *)
}.

(** multicore.py:643-709, 840-909: the atomic steps. *)
Inductive blabel :=
| BPut (i : nat) | BPutEnd (i : nat) | BFlush (i : nat) | BDie (i : nat)
| BMove | BAllDead | BDrained | BFlushMain
| BTake (i : nat) | BAugmented (i : nat) | BCrash (i : nat) | BFlushResult (i : nat) | BFlushBack (i : nat)
| BGet.

(** [threaded]: BatchLoader's default; the loading workers are threads of one
    process. A thread is dead when its function returned; a process only exits
    after its feeder threads are done. *)
Variable threaded : bool.

(** multicore.py:590-626, 800-835. *)
Definition b_init (batches : list (list B)) (nb_workers : nat) : bst :=
  mkBst (map (fun l => mkLoader l [] false false) batches) [] MLoop [] []
        (repeat (mkAugmenter None [] 0 false false) nb_workers) [] 0 [].

(** multicore.py:643-709, 840-909. *)
Definition bexec (s : bst) (l : blabel) : option bst :=
  let '(mkBst ls qi m mb qs az qr fin out) := s in
  match l with
  | BPut i =>
      (* multicore.py:698-712 *)
      match nth_error ls i with
      | Some (mkLoader (b :: t) buf false false) =>
          Some (mkBst (upd i (mkLoader t (buf ++ [Some b]) false false) ls) qi m mb qs az qr fin out)
      | _ => None
      end
  | BPutEnd i =>
      (* multicore.py:715-716 [finally: queue_internal.put("")] *)
      match nth_error ls i with
      | Some (mkLoader [] buf false false) =>
          Some (mkBst (upd i (mkLoader [] (buf ++ [None]) true false) ls) qi m mb qs az qr fin out)
      | _ => None
      end
  | BFlush i =>
      match nth_error ls i with
      | Some (mkLoader t (x :: buf) e d) =>
          Some (mkBst (upd i (mkLoader t buf e d) ls) (qi ++ [x]) m mb qs az qr fin out)
      | _ => None
      end
  | BDie i =>
      match nth_error ls i with
      | Some (mkLoader t buf true false) =>
          if threaded || isnil buf
          then Some (mkBst (upd i (mkLoader t buf true true) ls) qi m mb qs az qr fin out) else None
      | _ => None
      end
  | BMove =>
      (* multicore.py:644-648 and 660-663: get, put if not "" *)
      match m, qi with
      | (MLoop | MDrain), Some b :: qi' => Some (mkBst ls qi' m (mb ++ [Some b]) qs az qr fin out)
      | (MLoop | MDrain), None :: qi' => Some (mkBst ls qi' m mb qs az qr fin out)
      | _, _ => None
      end
  | BAllDead =>
      (* multicore.py:640, 654: [count_workers_alive() == 0] *)
      match m with
      | MLoop => if forallb l_dead ls then Some (mkBst ls qi MDrain mb qs az qr fin out) else None
      | _ => None
      end
  | BDrained =>
      (* multicore.py:664-669: QueueEmpty, put the final None *)
      match m, qi with
      | MDrain, [] => Some (mkBst ls qi MEnded (mb ++ [None]) qs az qr fin out)
      | _, _ => None
      end
  | BFlushMain =>
      match mb with
      | x :: mb' => Some (mkBst ls qi m mb' (qs ++ [x]) az qr fin out)
      | [] => None
      end
  | BTake i =>
      (* multicore.py:892-901 *)
      match nth_error az i, qs with
      | Some (mkAugmenter None buf back false false), Some b :: qs' =>
          Some (mkBst ls qi m mb qs' (upd i (mkAugmenter (Some b) buf back false false) az) qr fin out)
      | Some (mkAugmenter None buf back false false), None :: qs' =>
          Some (mkBst ls qi m mb qs' (upd i (mkAugmenter None (buf ++ [None]) (S back) true false) az) qr fin out)
      | _, _ => None
      end
  | BAugmented i =>
      (* multicore.py:903-907 *)
      match nth_error az i with
      | Some (mkAugmenter (Some b) buf back false false) =>
          Some (mkBst ls qi m mb qs (upd i (mkAugmenter None (buf ++ [Some b]) back false false) az) qr fin out)
      | _ => None
      end
  | BCrash i =>
      match nth_error az i with
      | Some (mkAugmenter (Some b) buf back false false) =>
          Some (mkBst ls qi m mb qs (upd i (mkAugmenter None buf back false true) az) qr fin out)
      | _ => None
      end
  | BFlushResult i =>
      match nth_error az i with
      | Some (mkAugmenter h (x :: buf) back e c) =>
          Some (mkBst ls qi m mb qs (upd i (mkAugmenter h buf back e c) az) (qr ++ [x]) fin out)
      | _ => None
      end
  | BFlushBack i =>
      match nth_error az i with
      | Some (mkAugmenter h buf (S back) e c) =>
          Some (mkBst ls qi m mb (qs ++ [None]) (upd i (mkAugmenter h buf back e c) az) qr fin out)
      | _ => None
      end
  | BGet =>
      (* multicore.py:849-876 [get_batch] *)
      if Nat.eqb fin (length az) then Some (mkBst ls qi m mb qs az qr fin (out ++ [None]))
      else match qr with
           | Some b :: qr' => Some (mkBst ls qi m mb qs az qr' fin (out ++ [Some b]))
           | None :: qr' =>
               if Nat.leb (length az) (S fin)
               then Some (mkBst ls qi m mb (match qs with [] => [] | _ :: qs' => qs' end) az qr' (S fin) (out ++ [None]))
               else Some (mkBst ls qi m mb qs az qr' (S fin) out)
           | [] => None
           end
  end.

(** a schedule of the steps of 643-909 (multicore.py). *)
Fixpoint bexec_all (s : bst) (ls : list blabel) : option bst :=
  match ls with
  | [] => Some s
  | l :: ls' => match bexec s l with Some s' => bexec_all s' ls' | None => None end
  end.
End Background.
Arguments loader : clear implicits.
Arguments augmenter : clear implicits.
Arguments bst : clear implicits.
