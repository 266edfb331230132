(** What the theorems about copy_random_state_ say, in plain terms. *)
From Coq Require Import String.
From Verif Require Import Prelude AugModel AugSpec CpyModel.

Section Spec.
Context {R : rngops} {V : Type}.
Notation aug := (aug R V).
Notation world := (world R).

(** The same augmenters in a second set of objects: the one with the number [id] has the number
    [ren id] there. *)
Fixpoint renamed (ren : nat -> nat) (a : aug) : aug :=
  match a with
  | Leaf id body => Leaf (ren id) body
  | ColLeaf id body => ColLeaf (ren id) body
  | Seq id o cs => Seq (ren id) o (map (renamed ren) cs)
  | SomeOf id n o cs => SomeOf (ren id) n o (map (renamed ren) cs)
  | Sometimes id p N t e => Sometimes (ren id) p N (option_map (renamed ren) t) (option_map (renamed ren) e)
  | Wrap id pre post c => Wrap (ren id) pre post (renamed ren c)
  end.

(** Nothing prefetched: augmenter [id] has not drawn from an AutoPrefetcher since it got its RNG, or
    it is deterministic and never uses prefetched samples. *)
Definition nothing_prefetched (w : world) (id : nat) : Prop :=
  n_det (w_node w id) = true \/ forall i, c_last (n_cache (w_node w id) i) <> Some (n_key (w_node w id)).

(** Only the RNGs of the augmenters [touched] (and which RNG object it is) may differ. *)
Definition only_rngs_of (touched : list nat) (w w' : world) : Prop :=
  w_glob w' = w_glob w /\
  forall id, (~ In id touched -> w_node w' id = w_node w id) /\
             n_act (w_node w' id) = n_act (w_node w id) /\ n_cache (w_node w' id) = n_cache (w_node w id).
(** Augmenter [t] has its own RNG in the state in which the one of [s] was. *)
Definition has_state_of (w w' : world) (s t : nat) : Prop :=
  exists st, n_rng (w_node w s) = Own st /\ n_rng (w_node w' t) = Own st.
(** The RNG of [id] is an object created in between, so no prefetched sample belongs to it. *)
Definition fresh_key (w w' : world) (id : nat) : Prop := (w_next w <= n_key (w_node w' id) < w_next w')%Z.
(** [x] is the last one in [l] with the property [P]. *)
Definition is_last {A} (P : A -> Prop) (l : list A) (x : A) : Prop :=
  exists u v, l = u ++ x :: v /\ P x /\ Forall (fun y => ~ P y) v.
End Spec.
