(** Model of imgaug/random.py: the RNG wrapper, generators in a heap, and the
    polyfills for old numpy versions. No proofs here. *)
From Verif Require Import Prelude DtyModel.

(** * Sampling integers and floats *)

(** Interval of values sampled uniformly, lower end included, upper end not. [random.py:1520-1561] *)
Definition interval := (Z * Z)%type.

(** numpy's RandomState.randint(low, high, dtype): [0, low) if there is no
    [high]; ValueError for empty intervals and values outside of the dtype.
    [dmin] and [dmax] are the ends of the dtype. *)
Definition np_randint (dmin dmax low : Z) (high : option Z) : res interval :=
  let '(lo, hi) := match high with None => (0, low) | Some h => (low, h) end in
  if lo <? dmin then Err ValueError
  else if dmax + 1 <? hi then Err ValueError
  else if hi <=? lo then Err ValueError
  else Ok (lo, hi).

(** numpy's Generator.integers(low, high, dtype, endpoint). *)
Definition np_integers (dmin dmax low : Z) (high : option Z) (endpoint : bool) : res interval :=
  let '(lo, hi) := match high with None => (0, low) | Some h => (low, h) end in
  let last := if endpoint then hi else hi - 1 in
  if lo <? dmin then Err ValueError
  else if dmax <? last then Err ValueError
  else if last <? lo then Err ValueError
  else Ok (lo, last + 1).

(** polyfill_integers (random.py 1520-1561). [legacy]: the generator is a
    RandomState. *)
Definition polyfill_integers (legacy : bool) (dmin dmax low : Z) (high : option Z) (endpoint : bool)
  : res interval :=
  if legacy then
    let '(low', high') :=
      if endpoint then
        match high with
        | None => (0, Some (low + 1))
        | Some h => (low, Some (h + 1))
        end
      else (low, high) in
    np_randint dmin dmax low' high'
  else np_integers dmin dmax low high endpoint.

(** generate_seeds_ (random.py:1155-1175): int32. SEED_MIN_VALUE and SEED_MAX_VALUE are
    lines 78-79. *)
Definition seed_min : Z := 0.
Definition seed_max : Z := 2 ^ 31 - 1.
(** random.py:1155-1175. *)
Definition generate_seeds (legacy : bool) : res interval :=
  polyfill_integers legacy (- 2 ^ 31) (2 ^ 31 - 1) seed_min (Some seed_max) false.

(** polyfill_random (random.py:1564-1600) with dtype float32. RandomState.random_sample
    returns [k / 2^53] for some [k] from 0 to 2^53 - 1; Generator.random with
    dtype float32 returns [k / 2^24]. *)
Definition polyfill_random (legacy : bool) (k : Z) : Q :=
  if legacy then to_float 24 (k # (2 ^ 53))
  else ((k mod 2 ^ 24) # (2 ^ 24)).

(** * Generators *)
Section Generators.
  (** State of a bit generator (SFC64), its 64 bit output function, the state
      for a seed, and the states of the spawned seed sequences. *)
  Variable S : Type.
  Variable next : S -> Z * S.
  Variable of_seed : Z -> S.
  Variable spawned : Z -> nat -> S.

  (** numpy keeps the unused half of a 64 bit output for the next 32 bit draw
      ([has_uint32], [uinteger]). *)
  Record gen := mkGen { g_state : S; g_cache : option Z }.

  (** A sampling method of numpy: any number of 32 and 64 bit draws, each
      depending on the earlier ones. *)
  Inductive prog (A : Type) :=
  | Ret (a : A)
  | Draw32 (k : Z -> prog A)
  | Draw64 (k : Z -> prog A).
  Arguments Ret {A}. Arguments Draw32 {A}. Arguments Draw64 {A}.

  Definition draw64 (g : gen) : Z * gen :=
    let '(x, s) := next (g_state g) in (x, mkGen s (g_cache g)).
  Definition draw32 (g : gen) : Z * gen :=
    match g_cache g with
    | Some u => (u, mkGen (g_state g) None)
    | None => let '(x, s) := next (g_state g) in (x mod 2 ^ 32, mkGen s (Some (x / 2 ^ 32)))
    end.
  (** random.py:505-856, execution of a sampling method. *)
  Fixpoint run {A} (p : prog A) (g : gen) : A * gen :=
    match p with
    | Ret a => (a, g)
    | Draw32 k => let '(x, g') := draw32 g in run (k x) g'
    | Draw64 k => let '(x, g') := draw64 g in run (k x) g'
    end.

  (** Generators are shared by reference: a heap of generators, an RNG object
      is a location. Location 0 is the global RNG's generator. [generators shared by RNG objects, 153-170 (random.py)] *)
  Definition heap := list gen.
  (** random.py:153-170. *)
  Definition loc := nat.
  Variable no_gen : gen.
  (** random.py:153-170 [self.generator]. *)
  Definition get (h : heap) (l : loc) : gen := nth l h no_gen.
  (** helper: in-place change of a generator (random.py). *)
  Fixpoint put (h : heap) (l : loc) (g : gen) : heap :=
    match h, l with
    | [], _ => []
    | _ :: h', O => g :: h'
    | x :: h', Datatypes.S l' => x :: put h' l' g
    end.
  (** helper: creation of a generator (random.py). *)
  Definition alloc (h : heap) (g : gen) : heap * loc := (h ++ [g], length h).

  (** A sampling method called on an RNG (random.py:505-856). *)
  Definition sample {A} (h : heap) (l : loc) (p : prog A) : A * heap :=
    let '(a, g) := run p (get h l) in (a, put h l g).

  (** reset_generator_cache_ (random.py:1240-1269). *)
  Definition reset_cache (h : heap) (l : loc) : heap :=
    put h l (mkGen (g_state (get h l)) None).

  (** RNG.__init__ (random.py:153-170) with normalize_generator_ (982-1031). *)
  Inductive rng_arg := ARng (l : loc) | AGenerator (l : loc) | ASeed (z : Z) | ANone.
  (** random.py:153-170, 982-1031. *)
  Definition new_rng (h : heap) (a : rng_arg) : heap * loc :=
    match a with
    | ARng l => (h, l)
    | AGenerator l => (reset_cache h l, l)
    | ASeed z => alloc h (mkGen (of_seed z) None)
    | ANone => (h, 0%nat)
    end.

  (** copy_generator (random.py:1178-1205) and RNG.copy (389-398). *)
  Definition copy_generator (h : heap) (l : loc) : heap * loc := alloc h (get h l).
  (** random.py:389-398, 1178-1205. *)
  Definition copy (h : heap) (l : loc) : heap * loc :=
    let '(h', l') := copy_generator h l in new_rng h' (AGenerator l').
  (** RNG.copy_unless_global_rng (random.py:400-412). *)
  Definition copy_unless_global_rng (h : heap) (l : loc) : heap * loc :=
    if Nat.eqb l 0 then (h, l) else copy h l.

  (** RNG.use_state_of_ (random.py:219-238). *)
  Definition use_state_of (h : heap) (l other : loc) : heap := put h l (get h other).

  (** RNG.advance_ (random.py:368-387, 1510-1512). *)
  Definition advance (h : heap) (l : loc) : heap :=
    snd (sample (reset_cache h l) l (Draw64 (fun x => Ret x))).

  (** RNG.derive_rngs_ (random.py:334-350, 1328-1359): [seeds] is numpy's sampling of
      two int32 integers, of which the second is used. *)
  Variable seeds : prog Z.
  (** random.py:334-350, 1304-1364. *)
  Definition derive_rngs (h : heap) (l : loc) (n : nat) : heap * list loc :=
    let '(seed, h1) := sample h l seeds in
    (h1 ++ map (fun i => mkGen (spawned seed i) None) (seq 0 n), seq (length h1) n).
  (** _derive_generators_np116_ (random.py:1362-1364): the seeds of the RandomStates. *)
  Definition derive_seeds_legacy (seed : Z) (n : nat) : list Z :=
    map (fun i => seed + Z.of_nat i) (seq 0 n).

  (** is_generator_equal_to (random.py:1449-1470). [S_eqb] compares bit generator
      states. *)
  Variable S_eqb : S -> S -> bool.
  (** random.py:352-366, 1426-1470. *)
  Definition equals (g g' : gen) : bool :=
    match g_cache g, g_cache g' with
    | None, None => S_eqb (g_state g) (g_state g')
    | Some u, Some u' => if u =? u' then S_eqb (g_state g) (g_state g') else false
    | _, _ => false
    end.

  (** temporary_numpy_seed (random.py:1604-1635) around a block of code: [block] gets
      numpy's global state and returns the new one and its outcome, which may
      be an exception. *)
  Definition temporary_numpy_seed {A} (entropy : option Z) (block : S -> S * res A) (s : S) : S * res A :=
    match entropy with
    | None => block s
    | Some e => let '(_, r) := block (of_seed e) in (s, r)
    end.
End Generators.
Arguments Ret {A}. Arguments Draw32 {A}. Arguments Draw64 {A}.
