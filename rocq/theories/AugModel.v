(** Model of the augmenter tree and its execution:
    imgaug/augmenters/meta.py (Augmenter.augment_batch_, the default
    _augment_batch_, Sequential, SomeOf, OneOf, Sometimes, the wrapping
    augmenters, to_deterministic, seed_, localize_random_state_, tree queries),
    imgaug/augmentables/batches.py (_BatchInAugmentation),
    imgaug/parameters.py (AutoPrefetcher, draw_samples) and
    the parts of imgaug/random.py they need.

    Simplifications (see also DESIGN.md):
    - A batch in augmentation is the list of its seven columns
      (_AUGMENTABLE_NAMES order), each [None] or a list of cells (rows). What a
      cell is (image, heatmap, ...) is left open: type [V].
    - Numpy bit generators are abstract: a type of states and functions on it,
      bundled in [rngops]. Nothing is assumed about them in the model; theorems
      that need a fact about numpy state it as a hypothesis.
    - Every augmenter is identified by a number; its mutable attributes
      (random_state, deterministic, activated, caches of its AutoPrefetcher
      parameters) live in the world. Two augmenters share a generator only if
      both use the global one; sharing one local RNG object between several
      augmenters is not modelled.
    - A leaf augmenter is an arbitrary program that draws samples from its RNG,
      directly or via AutoPrefetcher parameters, and returns a batch. *)
From Verif Require Import Prelude.

(** numpy.random.Generator as used by imgaug.random.RNG. *)
Record rngops := mkRngops {
  St : Type;
  adv : St -> St;                                (* random.py:1486-1517 advance_ *)
  derive : St -> St * St;                        (* random.py:321-350, 1328-1364 derive_rng_: (new, old advanced) *)
  of_seed : Z -> St;                             (* RNG(seed), seed(entropy): random.py:902-934, 982-1060 *)
  permutation : nat -> St -> list nat * St;      (* random.py RNG.permutation *)
  shuffle : list bool -> St -> list bool * St;   (* random.py RNG.shuffle *)
  discrete_uniform : Z -> Z -> nat -> St -> list Q * St  (* parameters.py DiscreteUniform(a, b).draw_samples((n,)) *)
}.

Section Aug.
Context {R : rngops} {V : Type}.

(** parameters.py:590-622 [draw_samples((n,), rng)]: sampled values and new state. *)
Definition sampler := nat -> St R -> list Q * St R.

(** A program of a leaf augmenter. [Raw]: any operation on the RNG state;
    [Pre i smp N n]: draw [n] values from the [i]-th parameter of the augmenter,
    an AutoPrefetcher around [smp] with nb_prefetch [N]. [what subclasses implement in _augment_batch_ (715-741) (meta.py)] *)
Inductive prog (A : Type) : Type :=
| Ret (a : A)
| Raw (op : St R -> list Q * St R) (k : list Q -> prog A)
| Pre (i : nat) (smp : sampler) (N n : nat) (k : list Q -> prog A).
Arguments Ret {A} a.
Arguments Raw {A} op k.
Arguments Pre {A} i smp N n k.

(** parameters.py:870-878: fields of an AutoPrefetcher. *)
Record cache := mkCache { c_samples : option (list Q); c_index : nat; c_last : option Z }.

(** random.py:153-170: an RNG either wraps the global generator or its own. *)
Inductive rngref := Glob | Own (s : St R).

(** Mutable attributes of an augmenter; [n_key] is the [_idx] of its RNG object
    (random.py:164-170), [n_cache i] the state of its [i]-th prefetcher. *)
Record nst := mkNst { n_rng : rngref; n_key : Z; n_det : bool; n_act : bool; n_cache : nat -> cache }.

(** the objects that augmentation changes: the global RNG and the attributes of all augmenters (meta.py:410-470, random.py:153-170). *)
Record world := mkWorld { w_glob : St R; w_node : nat -> nst; w_next : Z }.

(** helper: assignment to the attributes of one augmenter (meta.py). *)
Definition set_node (w : world) (id : nat) (n : nst) : world :=
  mkWorld (w_glob w) (fun j => if Nat.eqb j id then n else w_node w j) (w_next w).
(** random.py:172-217 [RNG.state] getter and setter. *)
Definition get_st (w : world) (id : nat) : St R :=
  match n_rng (w_node w id) with Glob => w_glob w | Own s => s end.
(** random.py:197-217. *)
Definition set_st (w : world) (id : nat) (s : St R) : world :=
  let n := w_node w id in
  match n_rng n with
  | Glob => mkWorld s (w_node w) (w_next w)
  | Own _ => set_node w id (mkNst (Own s) (n_key n) (n_det n) (n_act n) (n_cache n))
  end.
(** parameters.py:870-878 assignment to the attributes. *)
Definition set_cache (w : world) (id i : nat) (c : cache) : world :=
  let n := w_node w id in
  set_node w id (mkNst (n_rng n) (n_key n) (n_det n) (n_act n)
                   (fun j => if Nat.eqb j i then c else n_cache n j)).

(** parameters.py:910-919 [AutoPrefetcher._prefetch]. *)
Definition prefetch (smp : sampler) (N : nat) (c : cache) (st : St R) : cache * St R :=
  let '(s, st1) := smp N st in
  (mkCache (Some (match c_samples c with None => s | Some old => skipn (c_index c) old ++ s end))
           0 (c_last c), st1).

(** parameters.py:870-878 the attribute [samples], empty if None. *)
Definition samples_of (c : cache) : list Q := match c_samples c with Some l => l | None => [] end.

(** parameters.py:880-890 comparison with [last_rng_idx]. *)
Definition key_eqb (o : option Z) (k : Z) : bool := match o with Some j => j =? k | None => false end.

(** parameters.py:880-908 [AutoPrefetcher._draw_samples] (size (n,)) followed by
    the [advance_] of parameters.py:621. *)
Definition pre_draw (enabled : bool) (key : Z) (smp : sampler) (N n : nat) (c : cache) (st : St R)
  : list Q * cache * St R :=
  if negb enabled then let '(s, st1) := smp n st in (s, c, adv R st1)
  else if negb (key_eqb (c_last c) key)
  then let '(s, st1) := smp n st in (s, mkCache None (c_index c) (Some key), adv R st1)
  else if Nat.leb N n then let '(s, st1) := smp n st in (s, c, adv R st1)
  else
    let '(c1, st1) := match c_samples c with None => prefetch smp N c st | Some _ => (c, st) end in
    let leftover := Z.of_nat (length (samples_of c1)) - Z.of_nat (c_index c1) - Z.of_nat n in
    let '(c2, st2) := if leftover <=? 0 then prefetch smp N c1 st1 else (c1, st1) in
    (firstn n (skipn (c_index c2) (samples_of c2)),
     mkCache (c_samples c2) (c_index c2 + n) (c_last c2), adv R st2).

(** Execution of a leaf's program with the RNG and parameters of node [id];
    [enabled] is parameters._PREFETCHING_ENABLED. [meta.py:715-741 with parameters.py:590-622] *)
Fixpoint run_prog {A} (enabled : bool) (id : nat) (p : prog A) (w : world) : A * world :=
  match p with
  | Ret a => (a, w)
  | Raw op k =>
      let '(s, st1) := op (get_st w id) in
      run_prog enabled id (k s) (set_st w id st1)
  | Pre i smp N n k =>
      let nd := w_node w id in
      let '(s, c1, st1) := pre_draw enabled (n_key nd) smp N n (n_cache nd i) (get_st w id) in
      run_prog enabled id (k s) (set_cache (set_st w id st1) id i c1)
  end.

(* ------------------------------------------------------------------ *)
(** * Batches *)

Notation column := (option (list V)).
(** batches.py:634-683 [_BatchInAugmentation]. *)
Definition batch := list (option (list V)).

(** batches.py:699-717 [nb_rows]. *)
Fixpoint nb_rows (b : batch) : nat :=
  match b with
  | [] => 0
  | Some rows :: _ => length rows
  | None :: b' => nb_rows b'
  end.

(** batches.py:787-816 [column[index] for index in indices]. *)
Fixpoint get_rows (rows : list V) (indices : list nat) : res (list V) :=
  match indices with
  | [] => Ok []
  | i :: is => match nth_error rows i with
               | None => Err IndexError
               | Some v => do vs <- get_rows rows is; Ok (v :: vs)
               end
  end.

(** batches.py:787-816 [subselect_rows_by_indices]. *)
Definition subselect_column (indices : list nat) (c : column) : res column :=
  match c with
  | None => Ok None
  | Some rows => do sub <- get_rows rows indices;
                 Ok (match sub with [] => None | _ => Some sub end)
  end.
(** batches.py:787-816 [subselect_rows_by_indices]. *)
Definition subselect (b : batch) (indices : list nat) : res batch :=
  mapM (subselect_column indices) b.

(** batches.py:885-886. *)
Fixpoint set_row (rows : list V) (i : nat) (v : V) : res (list V) :=
  match rows, i with
  | [], _ => Err IndexError
  | _ :: rows', O => Ok (v :: rows')
  | r :: rows', S i' => do rs <- set_row rows' i' v; Ok (r :: rs)
  end.

(** batches.py:885-886: [for k, index in enumerate(indices): column[index] = column_sub[k]]. *)
Fixpoint set_rows (rows : list V) (indices : list nat) (sub : list V) : res (list V) :=
  match indices with
  | [] => Ok rows
  | i :: is => match sub with
               | [] => Err IndexError
               | v :: sub' => do rows' <- set_row rows i v; set_rows rows' is sub'
               end
  end.

(** batches.py:818-888 [invert_subselect_rows_by_indices_]. The numpy array
    case ([column[indices] = column_sub]) has the same effect on rows. *)
Definition invert_column (indices : list nat) (c sub : column) : res column :=
  match c, sub with
  | Some rows, Some srows => do rows' <- set_rows rows indices srows; Ok (Some rows')
  | _, _ => Ok c
  end.
(** batches.py:818-888. *)
Fixpoint invert_subselect (b : batch) (indices : list nat) (sub : batch) : res batch :=
  match b, sub with
  | c :: b', s :: sub' => do c' <- invert_column indices c s;
                          do r <- invert_subselect b' indices sub';
                          Ok (c' :: r)
  | _, _ => Ok b
  end.

(* ------------------------------------------------------------------ *)
(** * Hooks *)

(** imgaug.py:2140-2281 [HooksImages]; arguments: augmenter, parents, column
    position, column value. *)
Record hooks := mkHooks {
  hk_preprocess : nat -> list nat -> nat -> list V -> list V;
  hk_activated : nat -> list nat -> nat -> list V -> bool;
  hk_propagating : nat -> list nat -> nat -> list V -> bool;
  hk_postprocess : nat -> list nat -> nat -> list V -> list V
}.

(** batches.py:29-40: only columns that are not None and not empty are looked at. *)
Fixpoint map_columns (f : nat -> list V -> column) (pos : nat) (b : batch) : batch :=
  match b with
  | [] => []
  | Some (x :: l) :: b' => f pos (x :: l) :: map_columns f (S pos) b'
  | c :: b' => c :: map_columns f (S pos) b'
  end.

(** [setattr(batch, column, None)] for the columns where [keep] fails. [meta.py:618-634] *)
Definition hide (keep : nat -> list V -> bool) (b : batch) : batch :=
  map_columns (fun i l => if keep i l then Some l else None) 0 b.
(** [setattr(batch, column, column.value)] for the columns hidden before. [meta.py:650-652] *)
Fixpoint unhide_from (keep : nat -> list V -> bool) (pos : nat) (before after : batch) : batch :=
  match before, after with
  | Some (x :: l) :: b', a :: a' =>
      (if keep pos (x :: l) then a else Some (x :: l)) :: unhide_from keep (S pos) b' a'
  | _ :: b', a :: a' => a :: unhide_from keep (S pos) b' a'
  | _, _ => after
  end.
(** meta.py:650-652. *)
Definition unhide keep before after := unhide_from keep 0 before after.

(** meta.py:608-616. *)
Definition hook_preprocess (hk : option hooks) (id : nat) (parents : list nat) (b : batch) : batch :=
  match hk with
  | None => b
  | Some h => map_columns (fun i l => Some (hk_preprocess h id parents i l)) 0 b
  end.
(** meta.py:654-662. *)
Definition hook_postprocess (hk : option hooks) (id : nat) (parents : list nat) (b : batch) : batch :=
  match hk with
  | None => b
  | Some h => map_columns (fun i l => Some (hk_postprocess h id parents i l)) 0 b
  end.
(** meta.py:618-634: which columns stay visible. *)
Definition hook_activated (hk : option hooks) (act : bool) (id : nat) (parents : list nat)
  : nat -> list V -> bool :=
  fun i l => if negb act then false
             else match hk with None => true | Some h => hk_activated h id parents i l end.
(** batches.py:915-954 [apply_propagation_hooks_]. *)
Definition hook_propagating (hk : option hooks) (id : nat) (parents : list nat)
  : nat -> list V -> bool :=
  fun i l => match hk with None => true | Some h => hk_propagating h id parents i l end.

(* ------------------------------------------------------------------ *)
(** * Augmenters *)

(** meta.py:3336-3362 [SomeOf._handle_arg_n]. *)
Inductive nspec := NConst (n : Z) | NAll | NFrom (n : Z) | NStoch (smp : sampler).

(** the classes Sequential (3006-3185), SomeOf (3188-3467), OneOf (3470-3536), Sometimes (3539-3694), wrapping augmenters (3697-3941) and leaves (meta.py). *)
Inductive aug : Type :=
| Leaf (id : nat) (body : batch -> prog batch)
    (* an augmenter overriding _augment_batch_ *)
| ColLeaf (id : nat) (body : nat -> list V -> prog (list V))
    (* an augmenter defining _augment_images, _augment_keypoints, ... (meta.py:675-741) *)
| Seq (id : nat) (random_order : bool) (children : list aug)
    (* meta.py:3006-3185 *)
| SomeOf (id : nat) (n : nspec) (random_order : bool) (children : list aug)
    (* meta.py:3188-3467; OneOf(c) = SomeOf 1 c, meta.py:3470-3536 *)
| Sometimes (id : nat) (p : sampler) (N : nat) (then_list else_list : option aug)
    (* meta.py:3539-3694; p is an AutoPrefetcher around a Binomial *)
| Wrap (id : nat) (pre : batch -> res batch) (post : batch -> batch -> res batch) (children : aug).
    (* WithChannels (meta.py:3697-3941), WithColorspace, KeepSizeByResize, ...:
       transform the batch, run the children, transform back *)

(** helper: identity of an augmenter object (meta.py). *)
Definition aug_id (a : aug) : nat :=
  match a with
  | Leaf id _ | ColLeaf id _ | Seq id _ _ | SomeOf id _ _ _ | Sometimes id _ _ _ _ | Wrap id _ _ _ => id
  end.

(** meta.py:3470-3536: SomeOf with n=1 and no random order. *)
Definition OneOf (id : nat) (children : list aug) : aug := SomeOf id (NConst 1) false children.

(** Number of children of a list-like augmenter ([len(augmenters)]). [len(self), list-like augmenters 3006-3467 (meta.py)] *)
Definition aug_len (a : aug) : nat :=
  match a with Seq _ _ cs | SomeOf _ _ _ cs => length cs | _ => 0 end.

Notation runner := (world -> batch -> res (batch * world)).

(** meta.py:715-741 default [_augment_batch_]. [det]: self.deterministic. *)
Definition has_items (c : column) : bool := match c with Some (_ :: _) => true | _ => false end.
(** meta.py:715-741, the loop over the columns. *)
Fixpoint col_loop (det restore : bool) (id : nat) (body : nat -> list V -> prog (list V))
  (pos : nat) (b : batch) (w : world) : batch * world :=
  match b with
  | [] => ([], w)
  | Some (x :: l) :: b' =>
      let st0 := get_st w id in
      let '(v, w1) := run_prog (negb det) id (body pos (x :: l)) w in
      let w2 := if restore then set_st w1 id st0 else w1 in
      let '(rest, w3) := col_loop det restore id body (S pos) b' w2 in
      (Some v :: rest, w3)
  | c :: b' =>
      let '(rest, w3) := col_loop det restore id body (S pos) b' w in (c :: rest, w3)
  end.
(** meta.py:715-741. *)
Definition run_columns (id : nat) (body : nat -> list V -> prog (list V)) : runner :=
  fun w b =>
  let det := n_det (w_node w id) in
  let multiple_columns := Nat.ltb 1 (length (filter has_items b)) in
  let '(b', w1) := col_loop det (det || multiple_columns) id body 0 b w in
  Ok (b', if multiple_columns && negb det then set_st w1 id (adv R (get_st w1 id)) else w1).

(** meta.py:3135-3148 [Sequential._augment_batch_]: loop over the order. *)
Fixpoint seq_loop (fs : list runner) (order : list nat) (w : world) (b : batch) : res (batch * world) :=
  match order with
  | [] => Ok (b, w)
  | i :: is => match nth_error fs i with
               | None => Err IndexError
               | Some f => do r <- f w b; seq_loop fs is (snd r) (fst r)
               end
  end.

(** random order or 0, 1, 2, ... (meta.py:3137-3140, 3376-3381). *)
Definition draw_order (id : nat) (random_order : bool) (n : nat) (w : world) : list nat * world :=
  if random_order
  then let '(o, st1) := permutation R n (get_st w id) in (o, set_st w id st1)
  else (seq 0 n, w).

(** meta.py:3364-3374 [SomeOf._get_n]. *)
Definition draw_n (id : nat) (n : nspec) (nb_children nb_images : nat) (w : world) : list Z * world :=
  match n with
  | NConst k => (repeat k nb_images, w)
  | NAll => (repeat (Z.of_nat nb_children) nb_images, w)
  | NFrom k => let '(s, st1) := discrete_uniform R k (Z.of_nat nb_children) nb_images (get_st w id) in
               (map py_int s, set_st w id st1)
  | NStoch smp => let '(s, st1) := smp nb_images (get_st w id) in (map py_int s, set_st w id st1)
  end.

(** meta.py:3386-3390: [n] active children first, then inactive ones. *)
Definition active_row (nb_children : nat) (n : Z) : list bool :=
  let k := Z.to_nat (Z.min n (Z.of_nat nb_children)) in
  repeat true k ++ repeat false (nb_children - k).
(** meta.py:3391-3392: shuffle every row. *)
Fixpoint shuffle_rows (id : nat) (rows : list (list bool)) (w : world) : list (list bool) * world :=
  match rows with
  | [] => ([], w)
  | r :: rs => let '(r', st1) := shuffle R r (get_st w id) in
               let '(rs', w') := shuffle_rows id rs (set_st w id st1) in
               (r' :: rs', w')
  end.
(** meta.py:3383-3393 [_get_augmenter_active]. *)
Definition draw_active (id : nat) (n : nspec) (nb_children nb_images : nat) (w : world)
  : list (list bool) * world :=
  let '(nn, w1) := draw_n id n nb_children nb_images w in
  shuffle_rows id (map (active_row nb_children) nn) w1.

(** [np.nonzero(v)[0]] *)
Fixpoint nonzero_from (i : nat) (v : list bool) : list nat :=
  match v with
  | [] => []
  | true :: v' => i :: nonzero_from (S i) v'
  | false :: v' => nonzero_from (S i) v'
  end.
(** meta.py:3417-3428, 3649-3658 [np.nonzero]. *)
Definition nonzero := nonzero_from 0.

(** meta.py:3417-3428 [SomeOf._augment_batch_]: loop over the children. *)
Fixpoint someof_loop (fs : list runner) (active : list (list bool)) (order : list nat)
  (w : world) (b : batch) : res (batch * world) :=
  match order with
  | [] => Ok (b, w)
  | j :: js =>
      let rows := nonzero (map (fun r => nth j r false) active) in
      match rows with
      | [] => someof_loop fs active js w b
      | _ =>
          match nth_error fs j with
          | None => Err IndexError
          | Some f =>
              do sub <- subselect b rows;
              do r <- f w sub;
              do b' <- invert_subselect b rows (fst r);
              someof_loop fs active js (snd r) b'
          end
      end
  end.

(** meta.py:3649-3658: one branch of [Sometimes]. *)
Definition sometimes_branch (f : option runner) (rows : list nat) (w : world) (b : batch)
  : res (batch * world) :=
  match f with
  | None => Ok (b, w)
  | Some f =>
      do sub <- subselect b rows;
      do r <- f w sub;
      do b' <- invert_subselect b rows (fst r);
      Ok (b', snd r)
  end.

(** batches.py:1094-1118 [with batch.propagation_hooks_ctx(...)]. *)
Definition propagating (hk : option hooks) (id : nat) (parents : list nat) (body : runner) : runner :=
  fun w b =>
  let keep := hook_propagating hk id parents in
  do r <- body w (hide keep b);
  Ok (unhide keep b (fst r), snd r).

(** meta.py:606-661 [augment_batch_] around a body [_augment_batch_]. *)
Definition augment_batch (hk : option hooks) (id : nat) (parents : list nat) (body : runner) : runner :=
  fun w b =>
  let b0 := hook_preprocess hk id parents b in
  let keep := hook_activated hk (n_act (w_node w id)) id parents in
  let b1 := hide keep b0 in
  do r <- (if Nat.eqb (nb_rows b1) 0 then Ok (b1, w)
           else
             let st0 := get_st w id in
             do r <- body w b1;
             Ok (fst r, if n_det (w_node w id) then set_st (snd r) id st0 else snd r));
  Ok (hook_postprocess hk id parents (unhide keep b0 (fst r)), snd r).

(** meta.py:606-661 with the methods [_augment_batch_] of the classes. *)
Fixpoint run (hk : option hooks) (parents : list nat) (a : aug) : runner :=
  match a with
  | Leaf id body =>
      augment_batch hk id parents (fun w b =>
        Ok (run_prog (negb (n_det (w_node w id))) id (body b) w))
  | ColLeaf id body => augment_batch hk id parents (run_columns id body)
  | Seq id random_order children =>
      augment_batch hk id parents (propagating hk id parents (fun w b =>
        let '(order, w1) := draw_order id random_order (length children) w in
        seq_loop (map (run hk (parents ++ [id])) children) order w1 b))
  | SomeOf id n random_order children =>
      augment_batch hk id parents (propagating hk id parents (fun w b =>
        let '(order, w1) := draw_order id random_order (length children) w in
        let '(active, w2) := draw_active id n (length children) (nb_rows b) w1 in
        someof_loop (map (run hk (parents ++ [id])) children) active order w2 b))
  | Sometimes id p N then_list else_list =>
      augment_batch hk id parents (propagating hk id parents (fun w b =>
        let '(samples, w1) := run_prog (negb (n_det (w_node w id))) id (Pre 0 p N (nb_rows b) (fun s => Ret s)) w in
        let then_rows := nonzero (map (fun s => qeqb s 1) samples) in
        let else_rows := nonzero (map (fun s => qeqb s 0) samples) in
        let runner_of := fun l => match l with
                         | Some a' => if Nat.eqb (aug_len a') 0 then None else Some (run hk (parents ++ [id]) a')
                         | None => None end in
        do r1 <- sometimes_branch (runner_of then_list) then_rows w1 b;
        sometimes_branch (runner_of else_list) else_rows (snd r1) (fst r1)))
  | Wrap id pre post children =>
      augment_batch hk id parents (propagating hk id parents (fun w b =>
        do b1 <- pre b;
        do r <- run hk (parents ++ [id]) children w b1;
        do b2 <- post b (fst r);
        Ok (b2, snd r)))
  end.

(* ------------------------------------------------------------------ *)
(** * Seeding, localising, determinism *)

(** meta.py:2387-2388 [self.random_state = random_state.copy()]: a new RNG
    object with a new [_idx]. (The real counter advances by more than one per
    call; only freshness matters.) *)
Definition assign_rng (w : world) (id : nat) (s : St R) : world :=
  let n := w_node w id in
  let w1 := set_node w id (mkNst (Own s) (w_next w) (n_det n) (n_act n) (n_cache n)) in
  mkWorld (w_glob w1) (w_node w1) (w_next w1 + 1).

(** meta.py:2648-2683 [get_children_lists] and its overrides (3173, 3455, 3678,
    3931): for Sequential/SomeOf the augmenter itself as a list, for the others
    their list-like branches. Iterating over a branch yields the branch's
    children; the branch itself is never visited. *)
Definition children_of (a : aug) : list aug :=
  match a with Seq _ _ cs | SomeOf _ _ _ cs => cs | _ => [] end.
(** meta.py:2648-2683, 3173, 3455, 3678, 3931. *)
Definition children_lists (a : aug) : list (list aug) :=
  match a with
  | Leaf _ _ | ColLeaf _ _ => []
  | Seq _ _ cs | SomeOf _ _ _ cs => [cs]
  | Sometimes _ _ _ t e =>
      (match t with Some t' => [children_of t'] | None => [] end)
      ++ (match e with Some e' => [children_of e'] | None => [] end)
  | Wrap _ _ _ c => [children_of c]
  end.

(** meta.py:2318-2393 [seed_(entropy=RNG in state s, deterministic_too)].
    The loop over children derives a new RNG from [s] for each of them. *)
Fixpoint seed_aug (too : bool) (a : aug) (s : St R) (w : world) : world :=
  let id := aug_id a in
  let w1 := if negb (n_det (w_node w id)) || too then assign_rng w id s else w in
  let go := (fix go (cs : list aug) (s : St R) (w : world) : St R * world :=
               match cs with
               | [] => (s, w)
               | c :: cs' => let '(d, s') := derive R s in go cs' s' (seed_aug too c d w)
               end) in
  match a with
  | Leaf _ _ | ColLeaf _ _ => w1
  | Seq _ _ cs | SomeOf _ _ _ cs => snd (go cs s w1)
  | Sometimes _ _ _ t e =>
      let '(s2, w2) := match t with
                       | Some (Seq _ _ cs) | Some (SomeOf _ _ _ cs) => go cs s w1
                       | _ => (s, w1) end in
      match e with
      | Some (Seq _ _ cs) | Some (SomeOf _ _ _ cs) => snd (go cs s2 w2)
      | _ => w2 end
  | Wrap _ _ _ c =>
      match c with
      | Seq _ _ cs | SomeOf _ _ _ cs => snd (go cs s w1)
      | _ => w1 end
  end.

(** [augseq.seed_(seed)]. [meta.py:2318-2393] *)
Definition seed_ (a : aug) (seed : Z) (w : world) : world := seed_aug false a (of_seed R seed) w.

(** random.py:902-934 [imgaug.seed(seed)]: the global generator's state is set
    in place. *)
Definition seed_global (seed : Z) (w : world) : world := mkWorld (of_seed R seed) (w_node w) (w_next w).

(** random.py:321-350 [self.random_state.derive_rng_()]: state of a new RNG;
    the old one advances. *)
Definition derive_from (id : nat) (w : world) : St R * world :=
  let '(d, s') := derive R (get_st w id) in (d, set_st w id s').

(** meta.py:2419-2468 [localize_random_state_]. *)
Fixpoint localize (a : aug) (w : world) : world :=
  let id := aug_id a in
  let w1 := match n_rng (w_node w id) with
            | Glob => let '(d, w') := derive_from id w in assign_rng w' id d
            | Own _ => w end in
  let go := (fix go (cs : list aug) (w : world) : world :=
               match cs with [] => w | c :: cs' => go cs' (localize c w) end) in
  match a with
  | Leaf _ _ | ColLeaf _ _ => w1
  | Seq _ _ cs | SomeOf _ _ _ cs => go cs w1
  | Sometimes _ _ _ t e =>
      let w2 := match t with
                | Some (Seq _ _ cs) | Some (SomeOf _ _ _ cs) => go cs w1
                | _ => w1 end in
      match e with
      | Some (Seq _ _ cs) | Some (SomeOf _ _ _ cs) => go cs w2
      | _ => w2 end
  | Wrap _ _ _ c =>
      match c with
      | Seq _ _ cs | SomeOf _ _ _ cs => go cs w1
      | _ => w1 end
  end.

(** meta.py:2277-2306, 3150-3156, 3432-3438, 3662-3672, 3920-3925
    [_to_deterministic]: copies the tree; every copy gets an RNG derived from
    the original's and deterministic=True. The copies get the augmenter numbers
    [ren id]; [ren] maps to numbers not in use. A shallow copy shares the
    parameters (prefetch caches) with the original, but a deterministic
    augmenter never uses them (meta.py:641-642); here the copy gets a copy. *)
Definition det_node (ren : nat -> nat) (id : nat) (w : world) : world :=
  let '(d, w1) := derive_from id w in
  let n := w_node w1 id in
  let w2 := set_node w1 (ren id) (mkNst (Own d) (w_next w1) true (n_act n) (n_cache n)) in
  mkWorld (w_glob w2) (w_node w2) (w_next w2 + 1).
(** meta.py:2277-2306, 3150-3156, 3432-3438, 3662-3672. *)
Fixpoint to_deterministic (ren : nat -> nat) (a : aug) (w : world) : aug * world :=
  let go := (fix go (cs : list aug) (w : world) : list aug * world :=
               match cs with
               | [] => ([], w)
               | c :: cs' => let '(c', w1) := to_deterministic ren c w in
                             let '(r, w2) := go cs' w1 in (c' :: r, w2)
               end) in
  match a with
  | Leaf id body => (Leaf (ren id) body, det_node ren id w)
  | ColLeaf id body => (ColLeaf (ren id) body, det_node ren id w)
  | Seq id o cs => let '(cs', w1) := go cs w in (Seq (ren id) o cs', det_node ren id w1)
  | SomeOf id n o cs => let '(cs', w1) := go cs w in (SomeOf (ren id) n o cs', det_node ren id w1)
  | Sometimes id p N t e =>
      let '(t', w1) := match t with Some a' => let '(x, w') := to_deterministic ren a' w in (Some x, w')
                               | None => (None, w) end in
      let '(e', w2) := match e with Some a' => let '(x, w') := to_deterministic ren a' w1 in (Some x, w')
                               | None => (None, w1) end in
      (Sometimes (ren id) p N t' e', det_node ren id w2)
  | Wrap id pre post c => let '(c', w1) := to_deterministic ren c w in (Wrap (ren id) pre post c', det_node ren id w1)
  end.

(** multicore.py:546-558 [_derive_seed], [_reseed_global_local]. *)
Definition SEED_MIN_VALUE : Z := 0.
Definition SEED_MAX_VALUE : Z := 2147483647.
(** multicore.py:553-558. *)
Definition derive_seed (base_seed offset : Z) : Z :=
  SEED_MIN_VALUE + (base_seed + offset) mod (SEED_MAX_VALUE - SEED_MIN_VALUE).
(** multicore.py:546-550. *)
Definition reseed_global_local (base_seed : Z) (a : aug) (w : world) : world :=
  seed_ a (derive_seed base_seed 0) (seed_global (derive_seed base_seed (-1000000000)) w).
(** multicore.py:513-535 [_Pool_worker] with a start seed. *)
Definition pool_worker (seed_start : Z) (a : aug) (batch_idx : Z) (b : batch) (w : world)
  : res (batch * world) :=
  run None [] a (reseed_global_local (seed_start + batch_idx) a w) b.

(* ------------------------------------------------------------------ *)
(** * Tree queries *)

(** meta.py:2717-2776 [find_augmenters(func, flat=True)]. *)
Fixpoint find_augmenters (func : aug -> list nat -> bool) (parents : list nat) (a : aug) : list aug :=
  let sub := parents ++ [aug_id a] in
  let go := (fix go (cs : list aug) : list aug :=
               match cs with [] => [] | c :: cs' => find_augmenters func sub c ++ go cs' end) in
  (if func a parents then [a] else []) ++
  match a with
  | Leaf _ _ | ColLeaf _ _ => []
  | Seq _ _ cs | SomeOf _ _ _ cs => go cs
  | Sometimes _ _ _ t e =>
      (match t with Some (Seq _ _ cs) | Some (SomeOf _ _ _ cs) => go cs | _ => [] end)
      ++ (match e with Some (Seq _ _ cs) | Some (SomeOf _ _ _ cs) => go cs | _ => [] end)
  | Wrap _ _ _ c => match c with Seq _ _ cs | SomeOf _ _ _ cs => go cs | _ => [] end
  end.

(** meta.py:2920-2966 [remove_augmenters_(func, parents)]: delete the matching
    entries of every children list, then recurse into the remaining ones. *)
Fixpoint remove_below (func : aug -> list nat -> bool) (parents : list nat) (a : aug) : aug :=
  let sub := parents ++ [aug_id a] in
  let go := (fix go (cs : list aug) : list aug :=
               match cs with
               | [] => []
               | c :: cs' => if func c sub then go cs' else remove_below func sub c :: go cs'
               end) in
  match a with
  | Leaf _ _ | ColLeaf _ _ => a
  | Seq i o cs => Seq i o (go cs)
  | SomeOf i n o cs => SomeOf i n o (go cs)
  | Sometimes i p N t e =>
      Sometimes i p N
        (match t with Some (Seq j o cs) => Some (Seq j o (go cs))
                    | Some (SomeOf j n o cs) => Some (SomeOf j n o (go cs)) | x => x end)
        (match e with Some (Seq j o cs) => Some (Seq j o (go cs))
                    | Some (SomeOf j n o cs) => Some (SomeOf j n o (go cs)) | x => x end)
  | Wrap i pre post c =>
      Wrap i pre post (match c with Seq j o cs => Seq j o (go cs)
                                  | SomeOf j n o cs => SomeOf j n o (go cs) | x => x end)
  end.
(** meta.py:2895-2907 [remove_augmenters(func, copy=True)]; [None] stands for
    the Identity/None returned if the topmost augmenter matches. *)
Definition remove_augmenters (func : aug -> list nat -> bool) (a : aug) : option aug :=
  if func a [] then None else Some (remove_below func [] a).

End Aug.
Arguments Ret {R A} a.
Arguments Raw {R A} op k.
Arguments Pre {R A} i smp N n k.
Arguments nst : clear implicits.
Arguments world : clear implicits.
Arguments rngref : clear implicits.
Arguments batch : clear implicits.
Arguments aug : clear implicits.
Arguments prog : clear implicits.
Arguments hooks : clear implicits.
