(** Vocabulary of the property theorems about multicore.py. *)
From Verif Require Import Prelude PoolModel.

(** A completed call on a pool, with its number of batches. *)
Inductive call := MapBatches (n : nat) | ImapBatches (n : nat).
(** What happens during such calls: [imap_batches] asks the generator once per
    batch and once more to find that it is exhausted. *)
Definition events (c : call) : list idev :=
  match c with
  | MapBatches n => [EvMap n]
  | ImapBatches n => repeat EvNext n ++ [EvEnd]
  end.
Definition nb_batches (c : call) : nat := match c with MapBatches n | ImapBatches n => n end.

(** 0, 1, ..., n-1 *)
Definition first_ids (n : nat) : list Z := map Z.of_nat (seq 0 n).

(** Batches of the generator that were loaded but not yet handed to the user. *)
Definition in_flight {B B'} (batches : list B) (s : pst B B') : Z :=
  (Z.of_nat (length batches) - Z.of_nat (length (p_todo s))) - Z.of_nat (length (p_out s)).

(** The batches among the return values of get_batch. *)
Fixpoint batches_in {B} (l : list (option B)) : list B :=
  match l with
  | [] => []
  | Some b :: l' => b :: batches_in l'
  | None :: l' => batches_in l'
  end.
