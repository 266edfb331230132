(** Model of Augmenter.copy_random_state_ (imgaug/augmenters/meta.py). No proofs here.
    Augmenters, their RNGs and their attributes as in AugModel. *)
From Coq Require Import String.
From Verif Require Import Prelude AugModel.

Section Cpy.
Context {R : rngops} {V : Type}.
Notation aug := (aug R V).
Notation world := (world R).

(** meta.py:2689-2715 get_all_children(flat=True), by their numbers. *)
Fixpoint get_all_children (a : aug) : list nat :=
  let go := (fix go (cs : list aug) : list nat :=
    match cs with [] => [] | c :: cs' => aug_id c :: get_all_children c ++ go cs' end) in
  match a with
  | Leaf _ _ | ColLeaf _ _ => []
  | Seq _ _ cs | SomeOf _ _ _ cs => go cs
  | Sometimes _ _ _ t e =>
      (match t with Some (Seq _ _ cs) | Some (SomeOf _ _ _ cs) => go cs | _ => [] end) ++
      (match e with Some (Seq _ _ cs) | Some (SomeOf _ _ _ cs) => go cs | _ => [] end)
  | Wrap _ _ _ c => match c with Seq _ _ cs | SomeOf _ _ _ cs => go cs | _ => [] end
  end.
(** meta.py:2571-2578. *)
Definition augs_of (recursive : bool) (a : aug) : list nat :=
  if recursive then aug_id a :: get_all_children a else [aug_id a].

(** The argument [matching]. [meta.py:2586, 2615, 2627] *)
Inductive matching := ByName | ByPosition | Unknown.

(** meta.py:2603-2610, 2621-2626: one pair. The world afterwards and the exception, if any. *)
Definition copy_one (copy_determinism : bool) (source target : nat) (w : world) : world * option exn :=
  match n_rng (w_node w source) with
  | Glob => (w, Some GenericException)
  | Own s =>
      let w1 := assign_rng w target s in
      let t := w_node w1 target in
      (if copy_determinism
       then set_node w1 target (mkNst (n_rng t) (n_key t) (n_det (w_node w1 source)) (n_act t) (n_cache t))
       else w1, None)
  end.
(** meta.py:2620-2626: the loop over pairs (source, target). *)
Fixpoint copy_pairs (copy_determinism : bool) (pairs : list (nat * nat)) (w : world) : world * option exn :=
  match pairs with
  | [] => (w, None)
  | (s, t) :: r => let '(w', e) := copy_one copy_determinism s t w in
                   match e with Some e => (w', Some e) | None => copy_pairs copy_determinism r w' end
  end.

(** [{aug.name: aug for aug in augs}] (meta.py:2587-2588): the keys in the order of their first
    occurrence; [dict_get]: the last augmenter with that name. *)
Fixpoint dict_keys (name : nat -> string) (seen : list string) (augs : list nat) : list string :=
  match augs with
  | [] => []
  | a :: r => if existsb (String.eqb (name a)) seen then dict_keys name seen r
              else name a :: dict_keys name (name a :: seen) r
  end.
(** See [dict_keys]. [meta.py:2587-2588] *)
Fixpoint dict_get (name : nat -> string) (n : string) (augs : list nat) : option nat :=
  match augs with
  | [] => None
  | a :: r => match dict_get name n r with
              | Some x => Some x
              | None => if String.eqb (name a) n then Some a else None
              end
  end.
(** meta.py:2601-2614: the loop over the names of the target. *)
Fixpoint copy_names (name : nat -> string) (tolerant copy_determinism : bool) (sources targets : list nat)
    (names : list string) (w : world) : world * option exn :=
  match names with
  | [] => (w, None)
  | n :: r =>
      match dict_get name n sources, dict_get name n targets with
      | Some s, Some t =>
          let '(w', e) := copy_one copy_determinism s t w in
          match e with Some e => (w', Some e) | None => copy_names name tolerant copy_determinism sources targets r w' end
      | None, _ => if tolerant then copy_names name tolerant copy_determinism sources targets r w else (w, Some GenericException)
      | Some _, None => (w, Some KeyError_)
      end
  end.

(** meta.py:2508-2632 copy_random_state_. [name]: the attribute [name] of the augmenters. *)
Definition copy_random_state_ (name : nat -> string) (target source : aug) (recursive : bool) (m : matching)
    (matching_tolerant copy_determinism : bool) (w : world) : world * option exn :=
  let sources := augs_of recursive source in
  let targets := augs_of recursive target in
  match m with
  | ByName => copy_names name matching_tolerant copy_determinism sources targets (dict_keys name [] targets) w
  | ByPosition =>
      if negb (Nat.eqb (List.length sources) (List.length targets)) && negb matching_tolerant
      then (w, Some GenericException)
      else copy_pairs copy_determinism (combine sources targets) w
  | Unknown => (w, Some GenericException)
  end.
End Cpy.
