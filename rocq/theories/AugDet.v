(** Pool workers (C21), determinism (C33), separate streams (C34). *)
From Coq Require Import Permutation Lia.
From Verif Require Import Prelude PreludeFacts AugModel AugSpec AugProofs AugChildren AugRepro AugSeed.

Section P.
Context {R : rngops} {V : Type}.
Notation batch := (batch V).
Notation aug := (aug R V).
Notation world := (world R).
Notation runner := (world -> batch -> res (batch * world)).

(** ** Pool *)
Definition glob_kept (w w' : world) : Prop :=
  forall id, n_rng (w_node w id) = Glob -> n_rng (w_node w' id) = Glob.

Lemma run_glob : forall hk (a : aug) ps, finv glob_kept (run hk ps a).
Proof.
  intros hk a ps. apply (run_inv glob_kept (fun _ => True)); auto.
  - intros w id H; exact H.
  - intros w1 w2 w3 H1 H2 id H; auto.
  - intros w id s _ j Hj. unfold set_st. destruct (n_rng (w_node w id)) eqn:E; cbn; [exact Hj|].
    destruct (Nat.eqb_spec j id) as [->|]; [congruence|exact Hj].
  - intros w id i c _ _ j Hj. cbn. destruct (Nat.eqb_spec j id) as [->|]; exact Hj.
Qed.

(** seed_ touches only the visited augmenters. *)
Lemma seed_aug_outside : forall (a : aug) too s w id, ~ In id (visited a) ->
  w_node (seed_aug too a s w) id = w_node w id.
Proof.
  intros a. induction a as [a IH] using visit_ind. intros too s w id Hid.
  rewrite seed_aug_eq. rewrite visited_eq in Hid.
  assert (HL : forall cs s w, (forall c, In c cs -> In c (visit_children a)) -> ~ In id (flat_map visited cs) ->
    w_node (snd (seed_list too cs s w)) id = w_node w id).
  { induction cs as [|c cs IHcs]; intros s0 w0 Hc Hn; cbn; [reflexivity|].
    destruct (derive R s0) as [d s'].
    assert (N1 : ~ In id (visited c)) by (intros X; apply Hn; cbn; apply in_or_app; now left).
    assert (N2 : ~ In id (flat_map visited cs)) by (intros X; apply Hn; cbn; apply in_or_app; now right).
    rewrite IHcs; [apply IH; [apply Hc; now left|exact N1]|intros x Hx; apply Hc; now right|exact N2]. }
  rewrite HL; [|auto|intros X; apply Hid; now right].
  destruct (_ || _); [|reflexivity]. unfold assign_rng. cbn.
  destruct (Nat.eqb_spec id (aug_id a)) as [->|]; [|reflexivity]. exfalso. apply Hid. now left.
Qed.
Lemma seed_aug_glob : forall (a : aug) too s w, w_glob (seed_aug too a s w) = w_glob w.
Proof.
  intros a. induction a as [a IH] using visit_ind. intros too s w. rewrite seed_aug_eq.
  assert (HL : forall cs s w, (forall c, In c cs -> In c (visit_children a)) ->
    w_glob (snd (seed_list too cs s w)) = w_glob w).
  { induction cs as [|c cs IHcs]; intros s0 w0 Hc; cbn; [reflexivity|].
    destruct (derive R s0) as [d s'].
    rewrite IHcs; [apply IH; apply Hc; now left|intros x Hx; apply Hc; now right]. }
  rewrite HL; [|auto]. destruct (_ || _); reflexivity.
Qed.

Section Pool.
Variables (seed : Z) (a : aug) (w0 : world).
Hypothesis LB : list_branches a.
Hypothesis S0 : sane w0.
Hypothesis GB : branches_use_global_rng a w0.

Definition worker_ok (w : world) : Prop :=
  sane w /\ kept w0 w /\
  (forall id, In id (drawing_branches a) -> ~ In id (visited a) -> n_rng (w_node w id) = Glob).

Lemma worker_ok_start : worker_ok w0.
Proof. split; [exact S0|split; [apply kept_refl|intros; now apply GB]]. Qed.

Lemma worker_ok_seed_global : forall s w, worker_ok w -> worker_ok (seed_global s w).
Proof. intros s w (A & B & C). split; [exact A|split; [exact B|exact C]]. Qed.

Lemma worker_ok_reseed : forall s w, worker_ok w -> worker_ok (reseed_global_local s a w).
Proof.
  intros s w H. unfold reseed_global_local, seed_.
  set (v := seed_global _ w). assert (Hv : worker_ok v) by now apply worker_ok_seed_global.
  destruct Hv as (A & B & C). destruct (seed_aug_kept a (of_seed R (derive_seed s 0)) v) as [K S].
  split; [now apply S|]. split; [eapply kept_trans; eauto|].
  intros id H1 H2. rewrite seed_aug_outside; auto.
Qed.

Lemma pool_worker_ok : forall i b w b' w', worker_ok w -> pool_worker seed a i b w = Ok (b', w') -> worker_ok w'.
Proof.
  intros i b w b' w' H E. unfold pool_worker in E. apply (worker_ok_reseed (seed + i)) in H.
  destruct H as (A & B & C).
  split; [eapply run_sane; eauto|]. split; [eapply kept_trans; [exact B|eapply run_kept; eauto]|].
  intros id H1 H2. eapply run_glob; eauto.
Qed.

Lemma reseed_related : forall s w, worker_ok w ->
  world_rel true (fun id => In id (draws a)) (fun id => In id (caching a)) (fun id => In id (quiets a))
    (reseed_global_local s a w) (reseed_global_local s a w0).
Proof.
  intros s w HW. pose proof (worker_ok_seed_global (derive_seed s (-1000000000)) w HW) as (A & B & C).
  pose proof (worker_ok_seed_global (derive_seed s (-1000000000)) w0 worker_ok_start) as (A' & B' & C').
  unfold reseed_global_local, seed_. apply seed_relates; auto.
  - now apply (kept_setup a w0).
  - intros id H1 _ H2. destruct (B id) as (E1 & E2 & _), (B' id) as (E1' & E2' & _).
    split; [congruence|]. split; [congruence|]. rewrite (C id H1 H2), (C' id H1 H2). reflexivity.
Qed.

Lemma pool_worker_same : forall i b w, worker_ok w ->
  result (pool_worker seed a i b w) = result (pool_worker seed a i b w0).
Proof.
  intros i b w HW. unfold pool_worker.
  pose proof (run_agree true None [] a _ _ b (reseed_related (seed + i) w HW)) as HR. unfold rrel in HR.
  destruct (run None [] a _ b) as [[b1 v1]|], (run None [] a (reseed_global_local (seed + i) a w0) b) as [[b2 v2]|];
    cbn; try tauto; destruct HR; congruence.
Qed.

Lemma pool_run_eq : forall jobs ws, (forall k, worker_ok (ws k)) ->
  pool_run seed a ws jobs =
  until_error (map (fun '(_, i, b) => result (pool_worker seed a i b w0)) jobs).
Proof.
  induction jobs as [|[[k i] b] jobs IH]; intros ws HW; [reflexivity|].
  cbn [pool_run map]. rewrite <- (pool_worker_same i b (ws k) (HW k)).
  pose proof (pool_worker_ok i b (ws k)) as HO.
  destruct (pool_worker seed a i b (ws k)) as [[b' w']|e]; cbn; [|reflexivity].
  f_equal. apply IH. intros j. destruct (Nat.eqb j k); [eapply HO; eauto|apply HW].
Qed.
Lemma pool_schedule_independent : forall jobs,
  pool_run seed a (fun _ => w0) jobs =
  until_error (map (fun '(_, i, b) => result (pool_worker seed a i b w0)) jobs).
Proof. intros. apply pool_run_eq. intros _. apply worker_ok_start. Qed.
End Pool.

(* ------------------------------------------------------------------ *)
(** ** Deterministic trees *)
Definition all_det (a : aug) (w : world) : Prop :=
  forall id, In id (ids a) -> n_det (w_node w id) = true /\ is_own (n_rng (w_node w id)).

Lemma det_related : forall (a : aug) w w', all_det a w -> kept w w' ->
  world_rel false (fun id => In id (draws a)) (fun id => In id (caching a)) (fun id => In id (quiets a)) w w'.
Proof.
  intros a w w' HD HK. split; [discriminate|]. split; [|split].
  - intros id Hid. apply draws_ids in Hid. destruct (HD id Hid) as [D O], (HK id) as (A & B & C).
    repeat split; auto. rewrite (C D O). destruct (n_rng (w_node w id)); cbn in *; tauto.
  - intros id Hid. apply caching_draws, draws_ids in Hid. destruct (HD id Hid) as [D O]. intros X. congruence.
  - intros id Hid. apply quiets_ids in Hid. destruct (HD id Hid) as [D O], (HK id) as (A & B & C).
    repeat split; auto. now rewrite (C D O).
Qed.

Lemma det_repeats : forall (a : aug) w w' b, all_det a w -> kept w w' ->
  result (run None [] a w' b) = result (run None [] a w b).
Proof.
  intros a w w' b HD HK. pose proof (run_agree false None [] a w w' b (det_related a w w' HD HK)) as HR.
  unfold rrel in HR.
  destruct (run None [] a w b) as [[b1 v1]|], (run None [] a w' b) as [[b2 v2]|]; cbn; try tauto; destruct HR; congruence.
Qed.

(** to_deterministic *)
Definition to_det_list (ren : nat -> nat) : list aug -> world -> list aug * world :=
  fix go (cs : list aug) (w : world) :=
    match cs with
    | [] => ([], w)
    | c :: cs' => let '(c', w1) := to_deterministic ren c w in
                  let '(r, w2) := go cs' w1 in (c' :: r, w2)
    end.

(** What making augmenters deterministic does to the world. *)
Definition det_step (ren : nat -> nat) (l : list nat) (w w' : world) : Prop :=
  (sane w -> sane w') /\
  (forall id, n_det (w_node w id) = true -> is_own (n_rng (w_node w id)) ->
     n_det (w_node w' id) = true /\ is_own (n_rng (w_node w' id))) /\
  (forall id, In id (map ren l) -> n_det (w_node w' id) = true /\ is_own (n_rng (w_node w' id))) /\
  (forall id, ~ In id (map ren l) ->
     n_act (w_node w' id) = n_act (w_node w id) /\ n_det (w_node w' id) = n_det (w_node w id) /\
     n_key (w_node w' id) = n_key (w_node w id) /\ (forall i, n_cache (w_node w' id) i = n_cache (w_node w id) i) /\
     (~ In id l -> n_rng (w_node w' id) = n_rng (w_node w id))) /\
  (forall id, n_rng (w_node w id) = Glob -> ~ In id (map ren l) -> n_rng (w_node w' id) = Glob).

Lemma det_step_refl : forall ren w, det_step ren [] w w.
Proof.
  intros ren w. split; [auto|]. split; [auto|]. split; [intros id []|]. split; [|auto].
  intros id _. repeat split; auto.
Qed.
Lemma det_step_trans : forall ren l1 l2 w1 w2 w3, det_step ren l1 w1 w2 -> det_step ren l2 w2 w3 ->
  det_step ren (l1 ++ l2) w1 w3.
Proof.
  intros ren l1 l2 w1 w2 w3 (A & B & C & D & E) (A' & B' & C' & D' & E').
  split; [auto|]. split; [|split; [|split]].
  - intros id H1 H2. destruct (B id H1 H2). now apply B'.
  - intros id H. rewrite map_app in H. apply in_app_or in H. destruct H as [H|H].
    + destruct (C id H). now apply B'.
    + now apply C'.
  - intros id H. rewrite map_app, in_app_iff in H.
    destruct (D id) as (F1 & F2 & F3 & F4 & F5); [tauto|]. destruct (D' id) as (G1 & G2 & G3 & G4 & G5); [tauto|].
    split; [congruence|]. split; [congruence|]. split; [congruence|]. split; [intros i; now rewrite G4|].
    intros Hn. rewrite in_app_iff in Hn. rewrite G5, F5; tauto.
  - intros id H Hn. rewrite map_app, in_app_iff in Hn. apply E'; [apply E|]; tauto.
Qed.
Lemma det_step_perm : forall ren l l' w w', (forall x, In x l <-> In x l') -> det_step ren l w w' -> det_step ren l' w w'.
Proof.
  intros ren l l' w w' H (A & B & C & D & E).
  assert (HM : forall x, In x (map ren l) <-> In x (map ren l')).
  { intros x. rewrite !in_map_iff. split; intros (y & Y1 & Y2); exists y; split; auto; now apply H. }
  split; [exact A|]. split; [exact B|]. split; [|split].
  - intros id Hid. apply C. now apply HM.
  - intros id Hid. destruct (D id) as (F1 & F2 & F3 & F4 & F5); [now rewrite HM|].
    repeat split; auto. intros Hn. apply F5. now rewrite H.
  - intros id Hg Hid. apply E; auto. now rewrite HM.
Qed.

Lemma det_node_step : forall ren id w, det_step ren [id] w (det_node ren id w).
Proof.
  intros ren id w. unfold det_node, derive_from. destruct (derive R (get_st w id)) as [d s'].
  set (w1 := set_st w id s').
  assert (H1 : sane w -> sane w1) by apply set_st_sane.
  assert (HF : forall j, n_act (w_node w1 j) = n_act (w_node w j) /\ n_det (w_node w1 j) = n_det (w_node w j) /\
    n_key (w_node w1 j) = n_key (w_node w j) /\ n_cache (w_node w1 j) = n_cache (w_node w j) /\
    (j <> id -> n_rng (w_node w1 j) = n_rng (w_node w j)) /\
    (is_own (n_rng (w_node w j)) -> is_own (n_rng (w_node w1 j))) /\
    (n_rng (w_node w j) = Glob -> n_rng (w_node w1 j) = Glob)).
  { intros j. unfold w1, set_st. destruct (n_rng (w_node w id)) eqn:E; cbn; [tauto|].
    destruct (Nat.eqb_spec j id) as [->|]; cbn; [|tauto]. repeat split; auto; try tauto; congruence. }
  clearbody w1. split; [|split; [|split; [|split]]]; cbn.
  - intros HS. apply H1 in HS. destruct HS as (A & B & C). split; [|split]; cbn.
    + intros j. destruct (Nat.eqb_spec j (ren id)); cbn; [lia|]. specialize (A j). lia.
    + intros j i k. destruct (Nat.eqb_spec j (ren id)); cbn; intros X; apply B in X; lia.
    + intros j. destruct (Nat.eqb_spec j (ren id)); cbn; eauto.
  - intros j D O. destruct (Nat.eqb_spec j (ren id)); cbn; [auto|].
    destruct (HF j) as (_ & X & _ & _ & _ & Y & _). rewrite X. auto.
  - intros j [<-|[]]. rewrite Nat.eqb_refl. cbn. auto.
  - intros j Hn. destruct (Nat.eqb_spec j (ren id)) as [->|]; [tauto|].
    destruct (HF j) as (X1 & X2 & X3 & X4 & X5 & _). split; [exact X1|]. split; [exact X2|]. split; [exact X3|]. split; [now rewrite X4|].
    intros Hj. apply X5. intros ->. apply Hj. now left.
  - intros j Hg Hn. destruct (Nat.eqb_spec j (ren id)) as [->|]; [tauto|]. now apply HF.
Qed.

Lemma to_det_list_step : forall ren (cs : list aug),
  Forall (fun a => forall w, ids (fst (to_deterministic ren a w)) = map ren (ids a) /\
                  det_step ren (ids a) w (snd (to_deterministic ren a w))) cs ->
  forall w, flat_map ids (fst (to_det_list ren cs w)) = map ren (flat_map ids cs) /\
            det_step ren (flat_map ids cs) w (snd (to_det_list ren cs w)).
Proof.
  intros ren cs H; induction H as [|c cs Hc _ IH]; intros w; [split; [reflexivity|apply det_step_refl]|].
  cbn. destruct (Hc w) as [E1 D1]. destruct (to_deterministic ren c w) as [c' w1]. cbn in E1, D1.
  destruct (IH w1) as [E2 D2]. fold (to_det_list ren). destruct (to_det_list ren cs w1) as [cs' w2]. cbn in *.
  rewrite E1, E2, map_app. split; [reflexivity|]. eapply det_step_trans; eauto.
Qed.

Lemma to_det_spec : forall ren (a : aug) w,
  ids (fst (to_deterministic ren a w)) = map ren (ids a) /\
  det_step ren (ids a) w (snd (to_deterministic ren a w)).
Proof.
  intros ren a. induction a using aug_ind2; intros w.
  - cbn. split; [reflexivity|apply det_node_step].
  - cbn. split; [reflexivity|apply det_node_step].
  - destruct (to_det_list_step ren cs H w) as [E D]. cbn. fold (to_det_list ren).
    destruct (to_det_list ren cs w) as [cs' w1]. cbn in *. rewrite E. split; [reflexivity|].
    eapply det_step_perm; [|eapply det_step_trans; [exact D|apply det_node_step]].
    intros x. rewrite in_app_iff. cbn. tauto.
  - destruct (to_det_list_step ren cs H w) as [E D]. cbn. fold (to_det_list ren).
    destruct (to_det_list ren cs w) as [cs' w1]. cbn in *. rewrite E. split; [reflexivity|].
    eapply det_step_perm; [|eapply det_step_trans; [exact D|apply det_node_step]].
    intros x. rewrite in_app_iff. cbn. tauto.
  - cbn.
    assert (HX : forall (o : option aug) w, (forall a, o = Some a -> forall w,
        ids (fst (to_deterministic ren a w)) = map ren (ids a) /\
        det_step ren (ids a) w (snd (to_deterministic ren a w))) ->
      let r := match o with Some a' => let '(x, w') := to_deterministic ren a' w in (Some x, w') | None => (None, w) end in
      match fst r with Some a' => ids a' | None => [] end =
        map ren (match o with Some a' => ids a' | None => [] end) /\
      det_step ren (match o with Some a' => ids a' | None => [] end) w (snd r)).
    { intros [a|] v Ha; cbn; [|split; [reflexivity|apply det_step_refl]].
      destruct (Ha a eq_refl v) as [E D]. destruct (to_deterministic ren a v). cbn in *. auto. }
    destruct (HX t w H) as [E1 D1].
    destruct (match t with Some a' => let '(x, w') := to_deterministic ren a' w in (Some x, w') | None => (None, w) end)
      as [t' w1]. cbn in E1, D1.
    destruct (HX e w1 H0) as [E2 D2].
    destruct (match e with Some a' => let '(x, w') := to_deterministic ren a' w1 in (Some x, w') | None => (None, w1) end)
      as [e' w2]. cbn in E2, D2. cbn. rewrite E1, E2, map_app. split; [reflexivity|].
    eapply det_step_perm; [|eapply det_step_trans; [eapply det_step_trans; [exact D1|exact D2]|apply det_node_step]].
    intros x. rewrite !in_app_iff. cbn. rewrite in_app_iff. tauto.
  - cbn. destruct (IHa w) as [E D]. destruct (to_deterministic ren a w) as [c' w1]. cbn in *. rewrite E.
    split; [reflexivity|].
    eapply det_step_perm; [|eapply det_step_trans; [exact D|apply det_node_step]].
    intros x. rewrite in_app_iff. cbn. tauto.
Qed.

Lemma to_deterministic_repeats : forall ren (a : aug) w (h : list (@op R V)) b, sane w ->
  let '(a', w') := to_deterministic ren a w in
  result (run None [] a' (do_ops w' h) b) = result (run None [] a' w' b).
Proof.
  intros ren a w h b HS. destruct (to_det_spec ren a w) as [E (A & B & C & _)].
  destruct (to_deterministic ren a w) as [a' w']. cbn in *.
  apply det_repeats.
  - intros id Hid. rewrite E in Hid. now apply C.
  - apply do_ops_kept. auto.
Qed.

Lemma to_deterministic_original : forall ren (a : aug) w id, ~ In id (map ren (ids a)) ->
  let w' := snd (to_deterministic ren a w) in
  n_act (w_node w' id) = n_act (w_node w id) /\ n_det (w_node w' id) = n_det (w_node w id) /\
  n_key (w_node w' id) = n_key (w_node w id) /\ (forall i, n_cache (w_node w' id) i = n_cache (w_node w id) i) /\
  (~ In id (ids a) -> n_rng (w_node w' id) = n_rng (w_node w id)).
Proof.
  intros ren a w id Hid. destruct (to_det_spec ren a w) as [E (A & B & C & D & _)].
  cbn. destruct (D id Hid) as (F1 & F2 & F3 & F4 & F5). auto.
Qed.

(** The visited augmenters are part of the tree, each once. *)
Lemma perm_flat : forall (f g : aug -> list nat) cs,
  (forall c, In c cs -> exists r, Permutation (f c) (g c ++ r)) ->
  exists r, Permutation (flat_map f cs) (flat_map g cs ++ r).
Proof.
  intros f g cs; induction cs as [|c cs IH]; intros H; [exists []; reflexivity|].
  destruct (H c (or_introl eq_refl)) as [r1 P1]. destruct IH as [r2 P2]; [intros; apply H; now right|].
  exists (r1 ++ r2). cbn. rewrite P1, P2. rewrite !app_assoc. apply Permutation_app_tail.
  rewrite <- !app_assoc. apply Permutation_app_head. apply Permutation_app_comm.
Qed.
Lemma perm_children_of : forall a : aug, exists r, Permutation (ids a) (flat_map ids (children_of a) ++ r).
Proof.
  intros a. destruct a; cbn.
  - exists [id]. reflexivity.
  - exists [id]. reflexivity.
  - exists [id]. apply Permutation_cons_append.
  - exists [id]. apply Permutation_cons_append.
  - eexists. reflexivity.
  - eexists. reflexivity.
Qed.
Lemma perm_visit_children : forall a : aug, exists r, Permutation (ids a) (aug_id a :: flat_map ids (visit_children a) ++ r).
Proof.
  intros a. destruct a as [id body|id body|id o cs|id n o cs|id p N t e|id pre post c]; unfold visit_children; cbn.
  - exists []. reflexivity.
  - exists []. reflexivity.
  - exists []. rewrite !app_nil_r. reflexivity.
  - exists []. rewrite !app_nil_r. reflexivity.
  - rewrite concat_app, flat_map_app.
    assert (HX : forall o : option aug, exists r, Permutation (match o with Some a' => ids a' | None => [] end)
      (flat_map ids (concat (match o with Some t' => [children_of t'] | None => [] end)) ++ r)).
    { intros [x|]; cbn; [rewrite app_nil_r; apply perm_children_of|exists []; reflexivity]. }
    destruct (HX t) as [r1 P1], (HX e) as [r2 P2]. exists (r1 ++ r2). constructor. rewrite P1, P2.
    rewrite !app_assoc. apply Permutation_app_tail. rewrite <- !app_assoc. apply Permutation_app_head.
    apply Permutation_app_comm.
  - rewrite app_nil_r. destruct (perm_children_of c) as [r P]. exists r. now constructor.
Qed.
Lemma perm_visited : forall a : aug, exists r, Permutation (ids a) (visited a ++ r).
Proof.
  intros a. induction a as [a IH] using visit_ind.
  destruct (perm_visit_children a) as [r1 P1]. destruct (perm_flat ids visited (visit_children a) IH) as [r2 P2].
  rewrite visited_eq. exists (r2 ++ r1). rewrite P1, P2. cbn. rewrite <- app_assoc. reflexivity.
Qed.
Lemma visited_nodup : forall a : aug, NoDup (ids a) -> NoDup (visited a).
Proof.
  intros a H. destruct (perm_visited a) as [r P]. rewrite P in H.
  clear P. induction (visited a) as [|x l IH]; [constructor|].
  inversion H; subst. constructor; [|auto]. intros X. apply H2. apply in_or_app. now left.
Qed.

(* ------------------------------------------------------------------ *)
End P.

(** ** Separate streams *)
Section Streams.
Context {V : Type}.
Notation aug := (aug symbolic V).
Notation world := (world symbolic).

Definition ext (l l' : list bool) : Prop := exists m, l' = m ++ l.
Lemma ext_refl : forall l, ext l l.
Proof. intros l. now exists []. Qed.
Lemma ext_trans : forall l1 l2 l3, ext l1 l2 -> ext l2 l3 -> ext l1 l3.
Proof. intros l1 l2 l3 (m & ->) (m' & ->). exists (m' ++ m). now rewrite app_assoc. Qed.
Lemma ext_cons : forall x l, ext l (x :: l).
Proof. intros x l. now exists [x]. Qed.
Lemma ext_diff : forall l k, ext (true :: l) k -> ext (false :: l) k -> False.
Proof.
  intros l k (m & ->) (m' & E).
  assert (L : length m = length m').
  { apply (f_equal (@length bool)) in E. rewrite !app_length in E. cbn in E. lia. }
  revert m' E L; induction m as [|x m IH]; intros [|y m'] E L; cbn in *; try discriminate.
  injection E as _ E. injection L as L. eauto.
Qed.

Definition stream (w : world) (id : nat) : option (Z * list bool) :=
  match n_rng (w_node w id) with Own s => Some s | Glob => None end.

(** In the subtree seeded with (z, l) all states extend l; states are
    pairwise different. *)
Lemma seed_streams : forall (a : aug) z l (w : world),
  (forall id, In id (visited a) -> n_det (w_node w id) = false) -> NoDup (visited a) ->
  let w' := seed_aug (R:=symbolic) false a (z, l) w in
  (forall id, In id (visited a) -> exists m, stream w' id = Some (z, m) /\ ext l m) /\
  (forall id id', In id (visited a) -> In id' (visited a) -> stream w' id = stream w' id' -> id = id').
Proof.
  intros a. induction a as [a IH] using visit_ind. intros z l w Hdet Hnd w'.
  unfold w'. clear w'. rewrite seed_aug_eq, orb_false_r. rewrite visited_eq in *.
  rewrite (Hdet (aug_id a)) by now left. cbn [negb].
  set (w1 := assign_rng w (aug_id a) (z, l)).
  assert (HL : forall cs l0 (w0 : world), (forall c, In c cs -> In c (visit_children a)) ->
    (forall id, In id (flat_map visited cs) -> n_det (w_node w0 id) = false) ->
    NoDup (flat_map visited cs) ->
    let w' := snd (seed_list (R:=symbolic) false cs (z, l0) w0) in
    (forall id, ~ In id (flat_map visited cs) -> w_node w' id = w_node w0 id) /\
    (forall id, In id (flat_map visited cs) -> exists m, stream w' id = Some (z, m) /\ ext l0 m /\ m <> l0) /\
    (forall id id', In id (flat_map visited cs) -> In id' (flat_map visited cs) ->
       stream w' id = stream w' id' -> id = id')).
  { induction cs as [|c cs IHcs]; intros l0 w0 Hc Hd Hn; cbn.
    - split; [auto|]. split; [intros id []|intros id id' []].
    - cbn in Hn. assert (Hn2 : NoDup (flat_map visited cs)) by (clear - Hn; induction (visited c); cbn in *; [exact Hn|];
        inversion Hn; subst; auto).
      assert (Hn1 : NoDup (visited c)) by (clear - Hn; induction (visited c); cbn in *; [constructor|];
        inversion Hn; subst; constructor; [intros X; apply H1; apply in_or_app; now left|auto]).
      assert (Hdis : forall id, In id (visited c) -> ~ In id (flat_map visited cs)).
      { intros id X Y. clear - Hn X Y. induction (visited c) as [|q qs IHq]; cbn in *; [tauto|].
        inversion Hn; subst. destruct X as [->|X]; [apply H1; apply in_or_app; now right|auto]. }
      set (w2 := seed_aug (R:=symbolic) false c (z, true :: l0) w0).
      destruct (IH c (Hc c (or_introl eq_refl)) z (true :: l0) w0) as [P1 P2]; auto.
      { intros id Hid. apply Hd. cbn. apply in_or_app. now left. }
      fold w2 in P1, P2.
      assert (O2 : forall id, ~ In id (visited c) -> w_node w2 id = w_node w0 id).
      { intros id Hid. unfold w2. now apply seed_aug_outside. }
      destruct (IHcs (false :: l0) w2) as (Q0 & Q1 & Q2); auto.
      { intros; apply Hc; now right. }
      { intros id Hid. rewrite O2 by (intros X; now apply (Hdis id X)). apply Hd. cbn. apply in_or_app. now right. }
      cbn in Q0, Q1, Q2. set (w3 := snd (seed_list (R:=symbolic) false cs (z, false :: l0) w2)).
      change (forall id, ~ In id (flat_map visited cs) -> w_node w3 id = w_node w2 id) in Q0.
      change (forall id, In id (flat_map visited cs) ->
        exists m, stream w3 id = Some (z, m) /\ ext (false :: l0) m /\ m <> false :: l0) in Q1.
      change (forall id id', In id (flat_map visited cs) -> In id' (flat_map visited cs) ->
        stream w3 id = stream w3 id' -> id = id') in Q2.
      assert (S1 : forall id, In id (visited c) -> stream w3 id = stream w2 id).
      { intros id Hid. unfold stream. now rewrite Q0 by now apply Hdis. }
      split; [|split].
      + intros id Hid. change (w_node w3 id = w_node w0 id). rewrite in_app_iff in Hid. rewrite Q0, O2; tauto.
      + intros id Hid. change (exists m, stream w3 id = Some (z, m) /\ ext l0 m /\ m <> l0). apply in_app_or in Hid. destruct Hid as [Hid|Hid].
        * rewrite S1 by exact Hid. destruct (P1 id Hid) as (m & E & X). exists m. split; [exact E|].
          split; [eapply ext_trans; [apply ext_cons|exact X]|]. destruct X as (m' & ->). intros X.
          apply (f_equal (@length bool)) in X. rewrite app_length in X. cbn in X. lia.
        * destruct (Q1 id Hid) as (m & E & X & N). exists m. split; [exact E|].
          split; [eapply ext_trans; [apply ext_cons|exact X]|]. destruct X as (m' & ->). intros X.
          apply (f_equal (@length bool)) in X. rewrite app_length in X. cbn in X. lia.
      + intros id id' Hid Hid' E. change (stream w3 id = stream w3 id') in E. apply in_app_or in Hid. apply in_app_or in Hid'.
        destruct Hid as [Hid|Hid], Hid' as [Hid'|Hid'].
        * rewrite !S1 in E by assumption. auto.
        * exfalso. rewrite S1 in E by assumption. destruct (P1 id Hid) as (m & E1 & X1), (Q1 id' Hid') as (m' & E2 & X2 & _).
          rewrite E1, E2 in E. injection E as <-. eapply ext_diff; eauto.
        * exfalso. rewrite (S1 id') in E by assumption. destruct (P1 id' Hid') as (m & E1 & X1), (Q1 id Hid) as (m' & E2 & X2 & _).
          rewrite E1, E2 in E. injection E as <-. eapply ext_diff; eauto.
        * auto. }
  inversion Hnd as [|? ? Hx Hn]; subst.
  destruct (HL (visit_children a) l w1 (fun _ H => H)) as (Q0 & Q1 & Q2); auto.
  { intros id Hid. unfold w1, assign_rng. cbn. destruct (Nat.eqb_spec id (aug_id a)) as [->|]; [tauto|].
    apply Hdet. now right. }
  cbn in Q0, Q1, Q2. set (w3 := snd (seed_list (R:=symbolic) false (visit_children a) (z, l) w1)).
  set (vs := flat_map visited (visit_children a)) in *.
  change (forall id, ~ In id vs -> w_node w3 id = w_node w1 id) in Q0.
  change (forall id, In id vs -> exists m, stream w3 id = Some (z, m) /\ ext l m /\ m <> l) in Q1.
  change (forall id id', In id vs -> In id' vs -> stream w3 id = stream w3 id' -> id = id') in Q2.
  change ((forall id, In id (aug_id a :: vs) -> exists m, stream w3 id = Some (z, m) /\ ext l m) /\
    (forall id id', In id (aug_id a :: vs) -> In id' (aug_id a :: vs) -> stream w3 id = stream w3 id' -> id = id')).
  assert (S0 : stream w3 (aug_id a) = Some (z, l)).
  { unfold stream. rewrite Q0 by exact Hx. unfold w1, assign_rng. cbn. now rewrite Nat.eqb_refl. }
  split.
  - intros id [<-|Hid]; [exists l; split; [exact S0|apply ext_refl]|].
    destruct (Q1 id Hid) as (m & E & X & _). eauto.
  - intros id id' [<-|Hid] [<-|Hid'] E; auto.
    + exfalso. rewrite S0 in E. destruct (Q1 id' Hid') as (m & E1 & X & N). rewrite E1 in E. congruence.
    + exfalso. rewrite S0 in E. destruct (Q1 id Hid) as (m & E1 & X & N). rewrite E1 in E. congruence.
Qed.

Lemma every_augmenter_its_own_stream : forall (a : aug) seed (w : world),
  plain_branches a -> NoDup (ids a) -> (forall id, In id (ids a) -> n_det (w_node w id) = false) ->
  let w' := seed_ (R:=symbolic) a seed w in
  forall id id', In id (draws a) -> In id' (draws a) -> id <> id' ->
  exists s s', n_rng (w_node w' id) = Own s /\ n_rng (w_node w' id') = Own s' /\ s <> s'.
Proof.
  intros a seed w HP Hn Hd w' id id' Hid Hid' Hne.
  destruct (plain_list_branches a HP) as [HB HD].
  assert (HV : forall j, In j (draws a) -> In j (visited a)).
  { intros j Hj. destruct (draws_visited a HB j Hj) as [H|H]; [exact H|]. rewrite HD in H. destruct H. }
  destruct (seed_streams a seed [] w) as [P1 P2].
  - intros j Hj. apply Hd. now apply visited_ids.
  - now apply visited_nodup.
  - destruct (P1 id (HV id Hid)) as (m & E & _), (P1 id' (HV id' Hid')) as (m' & E' & _).
    specialize (P2 id id' (HV id Hid) (HV id' Hid')).
    change (of_seed symbolic seed) with (seed, @nil bool) in *.
    unfold seed_ in w'. change (of_seed symbolic seed) with (seed, @nil bool) in w'. fold w' in E, E', P2.
    rewrite E, E' in P2. unfold stream in E, E'.
    destruct (n_rng (w_node w' id)) as [|s] eqn:F; [discriminate|].
    destruct (n_rng (w_node w' id')) as [|s'] eqn:F'; [discriminate|].
    exists s, s'. repeat split; auto. intros ->. apply Hne, P2. congruence.
Qed.
End Streams.
