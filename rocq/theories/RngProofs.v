From Coq Require Import Lia Lqa FinFun.
From Verif Require Import Prelude PreludeFacts DtyModel DtyProofs RngModel RngSpec.

(** * Integers *)
Lemma legacy_same_interval : forall dmin dmax low high endpoint,
  polyfill_integers true dmin dmax low high endpoint = polyfill_integers false dmin dmax low high endpoint.
Proof.
  intros dmin dmax low high endpoint. unfold polyfill_integers, np_randint, np_integers.
  destruct high as [h|], endpoint.
  - replace (dmax + 1 <? h + 1) with (dmax <? h) by (destruct (Z.ltb_spec dmax h), (Z.ltb_spec (dmax + 1) (h + 1)); lia).
    replace (h + 1 <=? low) with (h <? low) by (destruct (Z.ltb_spec h low), (Z.leb_spec (h + 1) low); lia).
    reflexivity.
  - replace (dmax <? h - 1) with (dmax + 1 <? h) by (destruct (Z.ltb_spec dmax (h - 1)), (Z.ltb_spec (dmax + 1) h); lia).
    replace (h - 1 <? low) with (h <=? low) by (destruct (Z.ltb_spec (h - 1) low), (Z.leb_spec h low); lia).
    replace (h - 1 + 1) with h by lia. reflexivity.
  - replace (dmax + 1 <? low + 1) with (dmax <? low) by (destruct (Z.ltb_spec dmax low), (Z.ltb_spec (dmax + 1) (low + 1)); lia).
    replace (low + 1 <=? 0) with (low <? 0) by (destruct (Z.ltb_spec low 0), (Z.leb_spec (low + 1) 0); lia).
    reflexivity.
  - replace (dmax <? low - 1) with (dmax + 1 <? low) by (destruct (Z.ltb_spec dmax (low - 1)), (Z.ltb_spec (dmax + 1) low); lia).
    replace (low - 1 <? 0) with (low <=? 0) by (destruct (Z.ltb_spec (low - 1) 0), (Z.leb_spec low 0); lia).
    replace (low - 1 + 1) with low by lia. reflexivity.
Qed.

Lemma integers_exact : forall legacy dmin dmax low high endpoint i,
  polyfill_integers legacy dmin dmax low high endpoint = Ok i ->
  forall z, possible i z <-> asked_for low high endpoint z.
Proof.
  intros legacy dmin dmax low high endpoint i H.
  assert (H' : polyfill_integers false dmin dmax low high endpoint = Ok i)
    by (destruct legacy; [rewrite <- legacy_same_interval|]; exact H).
  clear H. unfold polyfill_integers, np_integers in H'.
  intro z. unfold possible, asked_for.
  destruct high as [h|]; destruct endpoint; revert H';
    repeat match goal with |- context [?a <? ?b] => destruct (Z.ltb_spec a b) end;
    intro H'; try discriminate H'; injection H' as <-; cbn [fst snd]; lia.
Qed.

Lemma integers_succeed : forall legacy dmin dmax low high endpoint,
  (exists z, asked_for low high endpoint z) ->
  (forall z, asked_for low high endpoint z -> dmin <= z <= dmax) ->
  exists i, polyfill_integers legacy dmin dmax low high endpoint = Ok i.
Proof.
  intros legacy dmin dmax low high endpoint [w W] D.
  assert (X : exists i, polyfill_integers false dmin dmax low high endpoint = Ok i).
  { unfold polyfill_integers, np_integers.
    assert (L : exists lo last, lo <= last /\ dmin <= lo /\ last <= dmax /\
      lo = (match high with None => 0 | Some _ => low end) /\
      last = (let hi := match high with None => low | Some h => h end in if endpoint then hi else hi - 1)).
    { unfold asked_for in W, D.
      exists (match high with None => 0 | Some _ => low end),
             (let hi := match high with None => low | Some h => h end in if endpoint then hi else hi - 1).
      destruct high as [h|], endpoint; cbn zeta.
      - pose proof (D low). pose proof (D h). split; [|split; [|split; [|split; reflexivity]]]; lia.
      - pose proof (D low). pose proof (D (h - 1)). split; [|split; [|split; [|split; reflexivity]]]; lia.
      - pose proof (D 0). pose proof (D low). split; [|split; [|split; [|split; reflexivity]]]; lia.
      - pose proof (D 0). pose proof (D (low - 1)). split; [|split; [|split; [|split; reflexivity]]]; lia. }
    destruct L as (lo & last & A & B & C & E1 & E2).
    destruct high as [h|]; subst lo; cbn zeta in E2; rewrite <- E2;
      repeat match goal with |- context [?a <? ?b] => destruct (Z.ltb_spec a b); try lia end;
      eexists; reflexivity. }
  destruct legacy; [rewrite legacy_same_interval|]; exact X.
Qed.

Lemma integers_empty_raises : forall legacy dmin dmax low high endpoint,
  (forall z, ~ asked_for low high endpoint z) ->
  polyfill_integers legacy dmin dmax low high endpoint = Err ValueError.
Proof.
  intros legacy dmin dmax low high endpoint D.
  assert (X : polyfill_integers false dmin dmax low high endpoint = Err ValueError).
  { unfold asked_for in D. unfold polyfill_integers, np_integers.
    destruct high as [h|]; destruct endpoint.
    - pose proof (D low). destruct (low <? dmin), (dmax <? h), (Z.ltb_spec h low); try reflexivity; lia.
    - pose proof (D low). destruct (low <? dmin), (dmax <? h - 1), (Z.ltb_spec (h - 1) low); try reflexivity; lia.
    - pose proof (D 0). destruct (0 <? dmin), (dmax <? low), (Z.ltb_spec low 0); try reflexivity; lia.
    - pose proof (D 0). destruct (0 <? dmin), (dmax <? low - 1), (Z.ltb_spec (low - 1) 0); try reflexivity; lia. }
  destruct legacy; [rewrite legacy_same_interval|]; exact X.
Qed.

Lemma seeds_interval : forall legacy, generate_seeds legacy = Ok (0, 2147483647).
Proof. intros []; reflexivity. Qed.

(** * Floats *)
Local Open Scope Q_scope.
Lemma exponent_of_fraction : forall q, 0 < q < 1 -> (exponent q <= -1)%Z.
Proof.
  intros q H. assert (N : ~ q == 0) by lra. destruct (exponent_spec q N) as [E _].
  assert (A : qabs q == q) by (unfold qabs; lcase 0 q; lra).
  rewrite A in E. assert (pow2 (exponent q) < pow2 0) as L by (rewrite pow2_0; lra).
  apply pow2_lt_inv in L. lia.
Qed.

Lemma to_float_unit : forall p q, (0 < p)%Z -> 0 <= q < 1 -> 0 <= to_float p q <= 1.
Proof.
  intros p q P H. unfold to_float. destruct (qeqb q 0) eqn:E; [lra|]. apply qeqb_false in E.
  destruct (exponent_spec q E) as [E1 E2]. assert (A : qabs q == q) by (unfold qabs; lcase 0 q; lra).
  rewrite A in E1, E2.
  assert (X : (exponent q <= -1)%Z) by (apply exponent_of_fraction; lra).
  set (e := exponent q) in *. clearbody e. set (s := (p - 1 - e)%Z).
  pose proof (pow2_pos s) as PS. pose proof (pow2_pos (- s)) as PS'. pose proof (pow2_opp s) as O.
  assert (PZ : pow2 s == inject_Z (2 ^ s)) by (apply pow2_Z; unfold s; lia).
  assert (R0 : (0 <= np_round (q * pow2 s))%Z).
  { rewrite <- (np_round_Z 0). apply np_round_mono. change (inject_Z 0) with 0. nra. }
  assert (R1 : (np_round (q * pow2 s) <= 2 ^ s)%Z).
  { rewrite <- (np_round_Z (2 ^ s)). apply np_round_mono.
    nra. }
  assert (Q0 : 0 <= inject_Z (np_round (q * pow2 s))) by (change 0 with (inject_Z 0); rewrite <- Zle_Qle; exact R0).
  assert (Q1 : inject_Z (np_round (q * pow2 s)) <= pow2 s)
    by (rewrite PZ at 2; rewrite <- Zle_Qle; exact R1).
  split; [nra|]. rewrite <- O. apply Qmult_le_compat_r; lra.
Qed.

Lemma random_range : forall legacy k, (0 <= k < 2 ^ 53)%Z ->
  0 <= polyfill_random legacy k <= 1 /\ (legacy = false -> polyfill_random legacy k < 1).
Proof.
  intros legacy k K. unfold polyfill_random. destruct legacy.
  - split; [|discriminate]. apply to_float_unit; [lia|].
    unfold Qle, Qlt. cbn. lia.
  - assert (0 <= k mod 2 ^ 24 < 2 ^ 24)%Z by (apply Z.mod_pos_bound; lia).
    assert (0 <= (k mod 2 ^ 24 # 2 ^ 24) < 1) as R.
    { unfold Qle, Qlt. cbn [Qnum Qden]. change (Z.pos (2 ^ 24)) with (2 ^ 24)%Z. lia. }
    split; [lra|]. intros _. lra.
Qed.

(** * Generators *)
Local Close Scope Q_scope.
Section GenProofs.
  Context {S : Type} (next : S -> Z * S) (of_seed : Z -> S) (spawned : Z -> nat -> S) (no_gen : gen S).
  Notation get := (get S no_gen). Notation put := (put S).
  Notation sample := (sample S next no_gen).

  Lemma put_length : forall h l g, length (put h l g) = length h.
  Proof. induction h as [|x h IH]; intros [|l] g; cbn; auto. Qed.
  Lemma get_put_same : forall h l g, (l < length h)%nat -> get (put h l g) l = g.
  Proof.
    induction h as [|x h IH]; intros [|l] g H; cbn in *; try lia; [reflexivity|].
    apply IH. lia.
  Qed.
  Lemma get_put_other : forall h l l' g, l <> l' -> get (put h l g) l' = get h l'.
  Proof.
    induction h as [|x h IH]; intros [|l] [|l'] g H; cbn; try reflexivity; try congruence.
    apply IH. congruence.
  Qed.
  Lemma get_alloc_old : forall h g l, (l < length h)%nat -> get (h ++ g) l = get h l.
  Proof. intros h g l H. unfold RngModel.get. apply app_nth1. exact H. Qed.
  Lemma get_alloc_new : forall h g, get (h ++ [g]) (length h) = g.
  Proof. intros h g. unfold RngModel.get. rewrite app_nth2, Nat.sub_diag by lia. reflexivity. Qed.

  Lemma interleave_independent : forall calls h a b side,
    a <> b -> (a < length h)%nat -> (b < length h)%nat ->
    calls_of side (interleave next no_gen h a b calls) =
    alone next (get h (if side then a else b)) (calls_of side calls).
  Proof.
    induction calls as [|[s p] calls IH]; intros h a b side N A B; [reflexivity|].
    cbn [interleave]. unfold RngModel.sample.
    destruct (run S next p (get h (if s then a else b))) as [x g] eqn:E.
    set (h' := put h (if s then a else b) g).
    assert (A' : (a < length h')%nat) by (unfold h'; rewrite put_length; exact A).
    assert (B' : (b < length h')%nat) by (unfold h'; rewrite put_length; exact B).
    specialize (IH h' a b side N A' B').
    unfold calls_of in *. cbn [filter fst].
    destruct (Bool.eqb s side) eqn:ES.
    - apply Bool.eqb_prop in ES. subst s. cbn [map snd alone]. rewrite E. f_equal.
      rewrite IH. f_equal. unfold h'. apply get_put_same. destruct side; assumption.
    - rewrite IH. f_equal. unfold h'. apply get_put_other.
      destruct s, side; try discriminate ES; congruence.
  Qed.

  Lemma copy_spec : forall h l, (l < length h)%nat ->
    exists h', copy S of_seed no_gen h l = (h', length h) /\ length h' = Datatypes.S (length h) /\
      (forall k, (k < length h)%nat -> get h' k = get h k) /\
      get h' (length h) = mkGen S (g_state S (get h l)) None.
  Proof.
    intros h l L. unfold copy, copy_generator, alloc, new_rng, reset_cache.
    eexists. split; [reflexivity|]. split; [rewrite put_length, app_length; cbn; lia|].
    split.
    - intros k K. rewrite get_put_other by lia. apply get_alloc_old. exact K.
    - rewrite get_put_same by (rewrite app_length; cbn; lia). rewrite get_alloc_new. reflexivity.
  Qed.

  Lemma no_cache_eta : forall g, g_cache S g = None -> mkGen S (g_state S g) None = g.
  Proof. intros [s c] H. cbn in *. now subst. Qed.

  Lemma copy_draws_same : forall h l h' l' calls side,
    (l < length h)%nat -> g_cache S (get h l) = None ->
    copy S of_seed no_gen h l = (h', l') ->
    calls_of side (interleave next no_gen h' l l' calls) = alone next (get h l) (calls_of side calls).
  Proof.
    intros h l h' l' calls side L C E.
    destruct (copy_spec h l L) as (h1 & E1 & L1 & O & N). rewrite E in E1. injection E1 as <- ->.
    rewrite interleave_independent by lia. f_equal. destruct side.
    - apply O. exact L.
    - rewrite N. apply no_cache_eta. exact C.
  Qed.

  Lemma copy_independent : forall h l h' l' calls side,
    (l < length h)%nat -> copy S of_seed no_gen h l = (h', l') ->
    calls_of side (interleave next no_gen h' l l' calls) =
    alone next (if side then get h l else mkGen S (g_state S (get h l)) None) (calls_of side calls).
  Proof.
    intros h l h' l' calls side L E.
    destruct (copy_spec h l L) as (h1 & E1 & L1 & O & N). rewrite E in E1. injection E1 as <- ->.
    rewrite interleave_independent by lia. f_equal. destruct side.
    - apply O. exact L.
    - exact N.
  Qed.

  Lemma use_state_of_same : forall h a b calls side,
    a <> b -> (a < length h)%nat -> (b < length h)%nat ->
    calls_of side (interleave next no_gen (use_state_of S no_gen h a b) a b calls) =
    alone next (get h b) (calls_of side calls).
  Proof.
    intros h a b calls side N A B. unfold use_state_of.
    rewrite interleave_independent by (rewrite ?put_length; assumption). f_equal.
    destruct side; [apply get_put_same; exact A|apply get_put_other; exact N].
  Qed.

  Lemma equals_same_numbers : forall S_eqb, (forall s s', S_eqb s s' = true <-> s = s') ->
    forall g g', equals S S_eqb g g' = true -> forall ps, alone next g ps = alone next g' ps.
  Proof.
    intros S_eqb SE [s c] [s' c'] H ps. unfold equals in H. cbn [g_cache g_state] in H.
    assert (s = s' /\ c = c') as [-> ->]; [|reflexivity].
    destruct c as [u|], c' as [u'|]; try discriminate H.
    - destruct (Z.eqb_spec u u'); [|discriminate H]. subst. split; [apply SE; exact H|reflexivity].
    - split; [apply SE; exact H|reflexivity].
  Qed.

  Lemma shared_rng : forall h l, new_rng S of_seed no_gen h (ARng l) = (h, l).
  Proof. reflexivity. Qed.

  (** ** Deriving *)
  Variable seeds : prog Z.
  Lemma derive_spec : forall h l n, (l < length h)%nat ->
    exists h' ls, derive_rngs S next spawned no_gen seeds h l n = (h', ls) /\
      length ls = n /\ NoDup ls /\
      (forall k, (k < length h)%nat -> ~ In k ls) /\
      (forall k, (k < length h)%nat -> k <> l -> get h' k = get h k) /\
      get h' l = snd (run S next seeds (get h l)) /\
      (forall i, (i < n)%nat ->
         get h' (nth i ls 0%nat) = mkGen S (spawned (fst (run S next seeds (get h l))) i) None).
  Proof.
    intros h l n L. unfold derive_rngs, RngModel.sample.
    destruct (run S next seeds (get h l)) as [seed g] eqn:E. cbn [fst snd].
    assert (L1 : length (put h l g) = length h) by apply put_length.
    do 2 eexists. split; [reflexivity|]. rewrite L1.
    split; [apply seq_length|]. split; [apply seq_NoDup|].
    split; [intros k K I; apply in_seq in I; lia|].
    split; [intros k K N; rewrite get_alloc_old by lia; apply get_put_other; congruence|].
    split; [rewrite get_alloc_old by lia; apply get_put_same; exact L|].
    intros i I. rewrite seq_nth by exact I. unfold RngModel.get.
    rewrite app_nth2 by lia. replace (length h + i - length (put h l g))%nat with i by lia.
    rewrite nth_indep with (d' := (fun i => mkGen S (spawned seed i) None) 0%nat) by (rewrite map_length, seq_length; exact I).
    rewrite (map_nth (fun i => mkGen S (spawned seed i) None)). rewrite seq_nth by exact I. reflexivity.
  Qed.
End GenProofs.

Lemma legacy_seeds_valid : forall seed n, 0 <= seed < 2 ^ 31 - 1 -> Z.of_nat n <= 2 ^ 31 ->
  Forall (fun s => 0 <= s < 2 ^ 32) (derive_seeds_legacy seed n) /\ NoDup (derive_seeds_legacy seed n) /\
  length (derive_seeds_legacy seed n) = n.
Proof.
  intros seed n H N. unfold derive_seeds_legacy. split; [|split].
  - apply Forall_forall. intros s I. apply in_map_iff in I as (i & <- & I). apply in_seq in I. lia.
  - apply FinFun.Injective_map_NoDup; [|apply seq_NoDup]. intros a b E. lia.
  - rewrite map_length. apply seq_length.
Qed.

Lemma temporary_seed_restores : forall (S : Type) (of_seed : Z -> S) A e (block : S -> S * res A) s,
  fst (temporary_numpy_seed S of_seed (Some e) block s) = s /\
  snd (temporary_numpy_seed S of_seed (Some e) block s) = snd (block (of_seed e)) /\
  temporary_numpy_seed S of_seed None block s = block s.
Proof.
  intros S of_seed A e block s. unfold temporary_numpy_seed. destruct (block (of_seed e)) as [s' r].
  split; [|split]; reflexivity.
Qed.
