(** Vocabulary for the statements in AugProps.v: independent of how the model
    executes augmenters. *)
From Coq Require Import Permutation.
From Verif Require Import Prelude AugModel.

Section Spec.
Context {R : rngops} {V : Type}.
Notation batch := (batch V).
Notation aug := (aug R V).
Notation world := (world R).

(** All non-None columns have the same number of rows. *)
Definition rect (b : batch) : Prop :=
  Forall (fun c => match c with None => True | Some rows => length rows = nb_rows b end) b.

(** [b'] has the columns of [b] (None stays None), every column the same
    number of rows, and row [i] of column [c] is related by [P c i]. *)
Definition cells (P : nat -> nat -> V -> V -> Prop) (b b' : batch) : Prop :=
  length b' = length b /\
  forall c, match nth c b None, nth c b' None with
            | None, None => True
            | Some r, Some r' =>
                length r' = length r /\
                forall i x y, nth_error r i = Some x -> nth_error r' i = Some y -> P c i x y
            | _, _ => False
            end.

(** [b'] has the same columns as [b] with the same numbers of rows. *)
Definition same_shape (b b' : batch) : Prop := cells (fun _ _ _ _ => True) b b'.

(** Numbers of all augmenters in a tree, the augmenter itself first. *)
Fixpoint ids (a : aug) : list nat :=
  match a with
  | Leaf id _ | ColLeaf id _ => [id]
  | Seq id _ cs | SomeOf id _ _ cs => id :: flat_map ids cs
  | Sometimes id _ _ t e =>
      id :: (match t with Some a' => ids a' | None => [] end)
         ++ (match e with Some a' => ids a' | None => [] end)
  | Wrap id _ _ c => id :: ids c
  end.

(** No augmenter of the tree has [activated=False]. *)
Definition all_active (w : world) (a : aug) : Prop :=
  forall id, In id (ids a) -> n_act (w_node w id) = true.

(** Running [a] without hooks always succeeds and changes each cell [x] of
    column [c] to some [y] with [G c x y]. (For an augmenter applying a
    function [f] to each cell: [G c x y := y = f x].) *)
Definition acts (a : aug) (G : nat -> V -> V -> Prop) : Prop :=
  forall parents w b, rect b -> all_active w a ->
  exists b' w', run None parents a w b = Ok (b', w') /\ cells (fun c _ => G c) b b'.

(** What a branch of Sometimes does; absent and empty branches do nothing. *)
Definition does_nothing : nat -> V -> V -> Prop := fun _ x y => x = y.
Definition branch_does (o : option aug) (G : nat -> V -> V -> Prop) : Prop :=
  match o with
  | None => G = does_nothing
  | Some a => if Nat.eqb (aug_len a) 0 then G = does_nothing else acts a G
  end.

(** [y] results from [x] by applying the children with numbers [sel], in that
    order. *)
Fixpoint via (Gs : list (nat -> V -> V -> Prop)) (sel : list nat) (c : nat) (x y : V) : Prop :=
  match sel with
  | [] => x = y
  | j :: js => exists z, nth j Gs (fun _ _ _ => False) c x z /\ via Gs js c z y
  end.

(** Contracts of numpy's permutation, shuffle and of sampling. *)
Definition permutation_contract : Prop :=
  forall n st, Permutation (fst (permutation R n st)) (seq 0 n).
Definition shuffle_contract : Prop :=
  forall l st, Permutation (fst (shuffle R l st)) l.
Definition sampler_contract (smp : @sampler R) : Prop :=
  forall n st, length (fst (smp n st)) = n.
Definition discrete_uniform_contract : Prop :=
  forall a b n st, (a <= b)%Z ->
  length (fst (discrete_uniform R a b n st)) = n /\
  Forall (fun q => exists z, q = inject_Z z /\ a <= z <= b)%Z (fst (discrete_uniform R a b n st)).

(** RNG state of a SomeOf/Sequential after its order was determined. *)
Definition state_after_order (random_order : bool) (nb_children : nat) (st : St R) : St R :=
  if random_order then snd (permutation R nb_children st) else st.

(** What [n] of SomeOf asks for in each of [rows] rows, the RNG being in state [st]. *)
Definition requested (n : @nspec R) (nb_children rows : nat) (st : St R) : list Z :=
  match n with
  | NConst k => repeat k rows
  | NAll => repeat (Z.of_nat nb_children) rows
  | NFrom k => map py_int (fst (discrete_uniform R k (Z.of_nat nb_children) rows st))
  | NStoch smp => map py_int (fst (smp rows st))
  end.
(** [n] gives one value per row. *)
Definition nspec_ok (n : @nspec R) (nb_children : nat) : Prop :=
  match n with
  | NConst _ | NAll => True
  | NFrom k => (k <= Z.of_nat nb_children)%Z /\ discrete_uniform_contract
  | NStoch smp => sampler_contract smp
  end.

End Spec.

(* ------------------------------------------------------------------ *)
(** * Reproducibility *)
Section Repro.
Context {R : rngops} {V : Type}.
Notation batch := (batch V).
Notation aug := (aug R V).
Notation world := (world R).

(** Results of augmenting the batches [bs] one after the other; stops at an
    exception. *)
Fixpoint outputs (a : aug) (w : world) (bs : list batch) : list (res batch) :=
  match bs with
  | [] => []
  | b :: bs' => match run None [] a w b with
                | Ok (b', w') => Ok b' :: outputs a w' bs'
                | Err e => [Err e]
                end
  end.

(** Things a program can do with augmenters. *)
Inductive op :=
| Augment (a : aug) (b : batch)
| Seed (a : aug) (seed : Z)
| SeedGlobal (seed : Z)
| Localize (a : aug).
Definition do_op (w : world) (o : op) : world :=
  match o with
  | Augment a b => match run None [] a w b with Ok (_, w') => w' | Err _ => w end
  | Seed a s => seed_ a s w
  | SeedGlobal s => seed_global s w
  | Localize a => localize a w
  end.
Definition do_ops (w : world) (h : list op) : world := fold_left do_op h w.

(** A world as it is after constructing augmenters: RNG objects and what the
    caches remember have smaller numbers than the next RNG object to be
    created, deterministic augmenters have their own RNG (meta.py:300-318). *)
Definition sane (w : world) : Prop :=
  (forall id, n_key (w_node w id) < w_next w)%Z /\
  (forall id i k, c_last (n_cache (w_node w id) i) = Some k -> k < w_next w)%Z /\
  (forall id, n_det (w_node w id) = true -> exists s, n_rng (w_node w id) = Own s).

(** The branches of Sometimes and of wrapping augmenters are plain Sequentials
    (random_order=False), which is what a list of augmenters becomes. *)
Definition plain_list (a : aug) : Prop := match a with Seq _ false _ => True | _ => False end.
Fixpoint plain_branches (a : aug) : Prop :=
  match a with
  | Leaf _ _ | ColLeaf _ _ => True
  | Seq _ _ cs | SomeOf _ _ _ cs => fold_right and True (map plain_branches cs)
  | Sometimes _ _ _ t e =>
      (match t with Some a' => plain_list a' /\ plain_branches a' | None => True end) /\
      (match e with Some a' => plain_list a' /\ plain_branches a' | None => True end)
  | Wrap _ _ _ c => plain_list c /\ plain_branches c
  end.

(** Branches may also be list-like augmenters that draw random numbers. They
    are not reached by seed_(). *)
Definition list_like (a : aug) : Prop :=
  match a with Seq _ _ _ | SomeOf _ _ _ _ => True | _ => False end.
Definition own_id (a : aug) : list nat := match a with Seq _ false _ => [] | a => [aug_id a] end.
Fixpoint list_branches (a : aug) : Prop :=
  match a with
  | Leaf _ _ | ColLeaf _ _ => True
  | Seq _ _ cs | SomeOf _ _ _ cs => fold_right and True (map list_branches cs)
  | Sometimes _ _ _ t e =>
      (match t with Some a' => list_like a' /\ list_branches a' | None => True end) /\
      (match e with Some a' => list_like a' /\ list_branches a' | None => True end)
  | Wrap _ _ _ c => list_like c /\ list_branches c
  end.
(** Numbers of the branches that draw random numbers. *)
Fixpoint drawing_branches (a : aug) : list nat :=
  match a with
  | Leaf _ _ | ColLeaf _ _ => []
  | Seq _ _ cs | SomeOf _ _ _ cs => flat_map drawing_branches cs
  | Sometimes _ _ _ t e =>
      (match t with Some a' => own_id a' ++ drawing_branches a' | None => [] end) ++
      (match e with Some a' => own_id a' ++ drawing_branches a' | None => [] end)
  | Wrap _ _ _ c => own_id c ++ drawing_branches c
  end.

(** Augmenters of a tree that draw random numbers themselves. *)
Fixpoint draws (a : aug) : list nat :=
  match a with
  | Leaf id _ | ColLeaf id _ => [id]
  | Seq id o cs => (if o then [id] else []) ++ flat_map draws cs
  | SomeOf id _ _ cs => id :: flat_map draws cs
  | Sometimes id _ _ t e =>
      id :: (match t with Some a' => draws a' | None => [] end)
         ++ (match e with Some a' => draws a' | None => [] end)
  | Wrap id _ _ c => draws c
  end.

(** ** Pools: jobs (worker, batch index, batch) in the order in which they are
    executed. Every worker has its own copy of the world. An exception ends
    the execution. *)
Fixpoint pool_run (seed : Z) (a : aug) (ws : nat -> world) (jobs : list (nat * Z * batch))
  : list (res batch) :=
  match jobs with
  | [] => []
  | (k, i, b) :: jobs' =>
      match pool_worker seed a i b (ws k) with
      | Ok (b', w') => Ok b' :: pool_run seed a (fun j => if Nat.eqb j k then w' else ws j) jobs'
      | Err e => [Err e]
      end
  end.
(** Results up to and including the first exception. *)
Fixpoint until_error {A} (l : list (res A)) : list (res A) :=
  match l with
  | Ok x :: l' => Ok x :: until_error l'
  | Err e :: _ => [Err e]
  | [] => []
  end.
(** The result of a batch alone. *)
Definition result {A B} (r : res (A * B)) : res A :=
  match r with Ok (x, _) => Ok x | Err e => Err e end.

(** The list-like branches that draw random numbers use the global RNG (the
    default for augmenters created without a seed). *)
Definition branches_use_global_rng (a : aug) (w : world) : Prop :=
  forall id, In id (drawing_branches a) -> n_rng (w_node w id) = Glob.

(** Every augmenter of the tree is deterministic and has its own RNG. *)
Definition all_deterministic (a : aug) (w : world) : Prop :=
  forall id, In id (ids a) -> n_det (w_node w id) = true /\ exists s, n_rng (w_node w id) = Own s.

(** What a program computes from an RNG state if all parameters are sampled
    directly. *)
Fixpoint draw_from {A} (p : prog R A) (st : St R) : A * St R :=
  match p with
  | Ret x => (x, st)
  | Raw op k => let '(s, st1) := op st in draw_from (k s) st1
  | Pre _ smp _ n k => let '(s, st1) := smp n st in draw_from (k s) (adv R st1)
  end.
(** The program uses no prefetched parameters. *)
Fixpoint never_prefetches {A} (p : prog R A) : Prop :=
  match p with
  | Ret _ => True
  | Raw _ k => forall s, never_prefetches (k s)
  | Pre _ _ _ _ _ => False
  end.

(** The batch with all columns except for column [c] set to None. *)
Fixpoint only (c : nat) (b : batch) : batch :=
  match b, c with
  | [], _ => []
  | x :: b', O => x :: map (fun _ => None) b'
  | _ :: b', S c' => None :: only c' b'
  end.

(** Trees of augmenters that are defined column by column and keep the number
    of rows. *)
Fixpoint column_wise (a : aug) : Prop :=
  match a with
  | Leaf _ _ | Wrap _ _ _ _ => False
  | ColLeaf _ body => forall c l st, length (fst (draw_from (body c l) st)) = length l
  | Seq _ _ cs | SomeOf _ _ _ cs => fold_right and True (map column_wise cs)
  | Sometimes _ _ _ t e =>
      (match t with Some a' => column_wise a' | None => True end) /\
      (match e with Some a' => column_wise a' | None => True end)
  end.

(** No column has rows. *)
Definition no_rows (b : batch) : Prop := forall c, nth c b None = None \/ nth c b None = Some [].

(** Hooks that do not change data. *)
Definition plain_hooks (hk : option (hooks V)) (id : nat) (ps : list nat) : Prop :=
  match hk with
  | None => True
  | Some h => forall c l, hk_preprocess h id ps c l = l /\ hk_postprocess h id ps c l = l
  end.
(** Which columns an augmenter does not see. *)
Definition switched_off (hk : option (hooks V)) (w : world) (id : nat) (ps : list nat) (c : nat) (l : list V) : Prop :=
  n_act (w_node w id) = false \/ exists h, hk = Some h /\ hk_activated h id ps c l = false.

(** Augmenters with children. *)
Definition is_parent (a : aug) : Prop := match a with Leaf _ _ | ColLeaf _ _ => False | _ => True end.

(** Only augmenter [id] (and possibly the global RNG) changed. *)
Definition only_node (id : nat) (w w' : world) : Prop := forall j, j <> id -> w_node w' j = w_node w j.

(** The samplers of a parent give as many values as asked for. *)
Definition parent_samplers_ok (a : aug) : Prop :=
  match a with
  | Leaf _ _ | ColLeaf _ _ | Wrap _ _ _ _ => False
  | Seq _ _ _ => True
  | SomeOf _ n _ cs => nspec_ok n (length cs)
  | Sometimes _ p _ _ _ => sampler_contract p
  end.


(** The augmenter has never been used: its caches are as after construction. *)
Definition unused (w : world) (id : nat) : Prop :=
  forall i, n_cache (w_node w id) i = mkCache None 0 None.
(** The augmenters an operation works on. *)
Definition op_ids (o : op) : list nat :=
  match o with
  | Augment a _ | Seed a _ | Localize a => ids a
  | SeedGlobal _ => []
  end.
End Repro.

(* ------------------------------------------------------------------ *)
(** * Prefetching *)
Section Prefetch.
Context {R : rngops}.

(** The samples a prefetcher holds and has not handed out yet. *)
Definition unread (c : cache) : list Q := skipn (c_index c) (samples_of c).

(** Going from RNG state [st] to [st'], the blocks [l] of [N] samples each were
    drawn one after the other (with some [advance_] calls in between). *)
Inductive fresh_blocks (smp : @sampler R) (N : nat) : St R -> list (list Q) -> St R -> Prop :=
| fresh_nil : forall st, fresh_blocks smp N st [] st
| fresh_adv : forall st l st', fresh_blocks smp N (adv R st) l st' -> fresh_blocks smp N st l st'
| fresh_block : forall st s st1 l st', smp N st = (s, st1) -> fresh_blocks smp N st1 l st' ->
    fresh_blocks smp N st (s :: l) st'.

(** A sequence of calls [draw_samples((n,))] on one prefetcher. *)
Fixpoint pre_draws (enabled : bool) (key : Z) (smp : @sampler R) (N : nat) (ns : list nat) (c : cache) (st : St R)
  : list (list Q) * cache * St R :=
  match ns with
  | [] => ([], c, st)
  | n :: ns' => let '(s, c1, st1) := pre_draw enabled key smp N n c st in
                let '(ss, c2, st2) := pre_draws enabled key smp N ns' c1 st1 in
                (s :: ss, c2, st2)
  end.
End Prefetch.

(* ------------------------------------------------------------------ *)
(** * Trees *)
Section Trees.
Context {R : rngops} {V : Type}.
Notation aug := (aug R V).

(** An augmenter without its children. *)
Definition emptied (a : aug) : aug :=
  match a with Seq i o _ => Seq i o [] | SomeOf i n o _ => SomeOf i n o [] | _ => a end.
Definition shell (a : aug) : aug :=
  match a with
  | Leaf _ _ | ColLeaf _ _ => a
  | Seq i o _ => Seq i o []
  | SomeOf i n o _ => SomeOf i n o []
  | Sometimes i p N t e => Sometimes i p N (option_map emptied t) (option_map emptied e)
  | Wrap i pre post c => Wrap i pre post (emptied c)
  end.
(** All augmenters of a pipeline in traversal order, each with the numbers of
    the augmenters above it (topmost first) and without its children. The
    list-like branches of Sometimes and of wrapping augmenters count as lists
    of children. *)
Fixpoint entries (above : list nat) (a : aug) : list (list nat * aug) :=
  let items := fun l => match l with
               | Seq _ _ cs | SomeOf _ _ _ cs => flat_map (entries (above ++ [aug_id a])) cs
               | _ => [] end in
  (above, shell a) ::
  match a with
  | Leaf _ _ | ColLeaf _ _ => []
  | Seq _ _ _ | SomeOf _ _ _ _ => items a
  | Sometimes _ _ _ t e =>
      (match t with Some l => items l | None => [] end) ++ (match e with Some l => items l | None => [] end)
  | Wrap _ _ _ l => items l
  end.

(** A condition on augmenters: the numbers of the parents and the number of the
    augmenter, which identifies it. *)
Definition by_id (p : list nat -> nat -> bool) : aug -> list nat -> bool := fun a above => p above (aug_id a).
(** No augmenter on the path from the topmost augmenter (inclusive) to this one
    (inclusive) matches. *)
Definition path_survives (p : list nat -> nat -> bool) (path : list nat) : bool :=
  forallb (fun k => negb (p (firstn k path) (nth k path 0%nat))) (seq 0 (length path)).

End Trees.

(** ** RNG states as derivation histories: a seed and a list of steps, [true]
    for "derived from", [false] for "advanced by deriving". No two different
    derivations give the same state. *)

Definition symbolic : rngops :=
  mkRngops (Z * list bool) (fun s => s)
    (fun '(z, l) => ((z, true :: l), (z, false :: l))) (fun z => (z, []))
    (fun n s => (seq 0 n, s)) (fun l s => (l, s)) (fun _ _ n s => (repeat 0%Q n, s)).

