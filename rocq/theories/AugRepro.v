(** Two executions from related worlds agree: lemmas for C21, C33, C34. *)
From Coq Require Import Permutation Lia.
From Verif Require Import Prelude PreludeFacts AugModel AugSpec AugProofs AugChildren.

Section P.
Context {R : rngops} {V : Type}.
Notation batch := (batch V).
Notation aug := (aug R V).
Notation world := (world R).
Notation runner := (world -> batch -> res (batch * world)).

(** Augmenters that draw no random numbers themselves. *)
Fixpoint quiets (a : aug) : list nat :=
  match a with
  | Leaf id _ | ColLeaf id _ => []
  | Seq id o cs => (if o then [] else [id]) ++ flat_map quiets cs
  | SomeOf id _ _ cs => flat_map quiets cs
  | Sometimes id _ _ t e =>
      (match t with Some a' => quiets a' | None => [] end)
         ++ (match e with Some a' => quiets a' | None => [] end)
  | Wrap id _ _ c => id :: quiets c
  end.

(** ... and those that use prefetch caches. *)
Fixpoint caching (a : aug) : list nat :=
  match a with
  | Leaf id _ | ColLeaf id _ => [id]
  | Seq _ _ cs | SomeOf _ _ _ cs => flat_map caching cs
  | Sometimes id _ _ t e =>
      id :: (match t with Some a' => caching a' | None => [] end)
         ++ (match e with Some a' => caching a' | None => [] end)
  | Wrap _ _ _ c => caching c
  end.

Definition cache_rel (k1 : Z) (c1 : cache) (k2 : Z) (c2 : cache) : Prop :=
  (c_last c1 <> Some k1 /\ c_last c2 <> Some k2) \/
  (c_last c1 = Some k1 /\ c_last c2 = Some k2 /\ c_samples c1 = c_samples c2 /\
   (c_samples c1 <> None -> c_index c1 = c_index c2)).

Definition rng_rel (gl : bool) (r1 r2 : rngref R) : Prop :=
  match r1, r2 with
  | Own s1, Own s2 => s1 = s2
  | Glob, Glob => gl = true
  | _, _ => False
  end.

Definition node_rel (gl : bool) (n1 n2 : nst R) : Prop :=
  n_act n1 = n_act n2 /\ n_det n1 = n_det n2 /\ rng_rel gl (n_rng n1) (n_rng n2).
Definition caches_rel (n1 n2 : nst R) : Prop :=
  n_det n1 = false -> forall i, cache_rel (n_key n1) (n_cache n1 i) (n_key n2) (n_cache n2 i).

Definition is_own (r : rngref R) : Prop := match r with Own _ => True | Glob => False end.

Definition quiet_rel (n1 n2 : nst R) : Prop :=
  n_act n1 = n_act n2 /\ n_det n1 = n_det n2 /\
  (n_det n1 = true -> is_own (n_rng n1) /\ is_own (n_rng n2)).

Section Rel.
Variable gl : bool.
Variables D Ca Q : nat -> Prop.
Hypothesis CD : forall id, Ca id -> D id.

Definition world_rel (w1 w2 : world) : Prop :=
  (gl = true -> w_glob w1 = w_glob w2) /\
  (forall id, D id -> node_rel gl (w_node w1 id) (w_node w2 id)) /\
  (forall id, Ca id -> caches_rel (w_node w1 id) (w_node w2 id)) /\
  (forall id, Q id -> quiet_rel (w_node w1 id) (w_node w2 id)).

Lemma rel_get : forall w1 w2 id, world_rel w1 w2 -> D id -> get_st w1 id = get_st w2 id.
Proof.
  intros w1 w2 id (HG & HD & _) Hid. destruct (HD id Hid) as (_ & _ & HR).
  unfold get_st. destruct (n_rng (w_node w1 id)), (n_rng (w_node w2 id)); cbn in HR; auto; tauto.
Qed.

Lemma rel_set : forall w1 w2 id s, world_rel w1 w2 -> D id ->
  world_rel (set_st w1 id s) (set_st w2 id s).
Proof.
  intros w1 w2 id s (HG & HD & HC & HQ) Hid. destruct (HD id Hid) as (H1 & H2 & H3).
  unfold set_st.
  destruct (n_rng (w_node w1 id)) eqn:E1, (n_rng (w_node w2 id)) eqn:E2; cbn in H3; try tauto.
  - split; [reflexivity|split; cbn; auto].
  - split; [exact HG|]. cbn. split; [|split]; intros j Hj; destruct (Nat.eqb_spec j id) as [->|]; auto.
    + repeat split; auto.
    + apply (HC id Hj).
    + repeat split; auto.
Qed.

Lemma rel_restore : forall w1 w2 id s1 s2, world_rel w1 w2 -> Q id -> (D id -> s1 = s2) ->
  n_det (w_node w1 id) = true ->
  world_rel (set_st w1 id s1) (set_st w2 id s2).
Proof.
  intros w1 w2 id s1 s2 (HG & HD & HC & HQ) Hid Hs Hdet. destruct (HQ id Hid) as (H1 & H2 & H3).
  destruct (H3 Hdet) as [H4 H5]. unfold set_st.
  destruct (n_rng (w_node w1 id)) eqn:E1, (n_rng (w_node w2 id)) eqn:E2; cbn in H4, H5; try tauto.
  split; [exact HG|]. cbn. split; [|split]; intros j Hj; destruct (Nat.eqb_spec j id) as [->|]; auto.
  - destruct (HD id Hj) as (A & B & E). repeat split; cbn; auto.
  - apply (HC id Hj).
  - repeat split; auto.
Qed.

Lemma rel_set_cache : forall w1 w2 id i c1 c2, world_rel w1 w2 -> Ca id ->
  (n_det (w_node w1 id) = false -> cache_rel (n_key (w_node w1 id)) c1 (n_key (w_node w2 id)) c2) ->
  world_rel (set_cache w1 id i c1) (set_cache w2 id i c2).
Proof.
  intros w1 w2 id i c1 c2 (HG & HD & HC & HQ) Hid Hc. destruct (HD id (CD id Hid)) as (H1 & H2 & H3).
  split; [exact HG|]. cbn. split; [|split]; intros j Hj; destruct (Nat.eqb_spec j id) as [->|]; auto.
  - repeat split; cbn; auto.
  - intros Hd k. cbn. destruct (Nat.eqb k i); [auto|]. apply (HC id Hj Hd).
  - destruct (HQ id Hj) as (A & B & E). repeat split; auto; apply E; auto.
Qed.

Lemma key_eqb_iff : forall o k, key_eqb o k = true <-> o = Some k.
Proof.
  intros [j|] k; cbn; [|split; discriminate]. rewrite Z.eqb_eq. split; congruence.
Qed.

(** Prefetchers in related states deliver the same samples. *)
Lemma pre_draw_rel : forall k1 c1 k2 c2 (smp : @sampler R) N n st, cache_rel k1 c1 k2 c2 ->
  exists s c1' c2' st', pre_draw true k1 smp N n c1 st = (s, c1', st') /\
    pre_draw true k2 smp N n c2 st = (s, c2', st') /\ cache_rel k1 c1' k2 c2'.
Proof.
  intros k1 c1 k2 c2 smp N n st [(L1 & L2)|(L1 & L2 & ES & EI)]; unfold pre_draw; cbn [negb].
  - destruct (key_eqb (c_last c1) k1) eqn:K1; [apply key_eqb_iff in K1; congruence|].
    destruct (key_eqb (c_last c2) k2) eqn:K2; [apply key_eqb_iff in K2; congruence|].
    cbn [negb]. destruct (smp n st) as [s st1]. do 4 eexists. split; [reflexivity|]. split; [reflexivity|].
    right. cbn. repeat split; auto. congruence.
  - rewrite (proj2 (key_eqb_iff _ _) L1), (proj2 (key_eqb_iff _ _) L2). cbn [negb].
    destruct (Nat.leb N n).
    + destruct (smp n st) as [s st1]. do 4 eexists. split; [reflexivity|]. split; [reflexivity|]. now right.
    + assert (HP : forall d1 d2 st0, c_last d1 = Some k1 -> c_last d2 = Some k2 ->
        c_samples d1 = c_samples d2 -> (c_samples d1 <> None -> c_index d1 = c_index d2) ->
        exists d1' d2' st1, prefetch smp N d1 st0 = (d1', st1) /\ prefetch smp N d2 st0 = (d2', st1) /\
          c_last d1' = Some k1 /\ c_last d2' = Some k2 /\ c_samples d1' = c_samples d2' /\
          c_samples d1' <> None /\ c_index d1' = c_index d2').
      { intros d1 d2 st0 A B C E. unfold prefetch. destruct (smp N st0) as [s st1].
        do 3 eexists. split; [reflexivity|]. split; [reflexivity|]. cbn. repeat split; auto; try discriminate.
        rewrite <- C. destruct (c_samples d1); [|reflexivity]. now rewrite E by discriminate. }
      destruct (c_samples c1) as [l|] eqn:EC.
      * rewrite <- ES. assert (EI' : c_index c1 = c_index c2) by (apply EI; discriminate).
        unfold samples_of. rewrite <- ES, EC, <- EI'.
        destruct (_ <=? 0)%Z.
        -- destruct (HP c1 c2 st L1 L2) as (d1 & d2 & st1 & P1 & P2 & A & B & C & E & F); auto; [congruence|].
           rewrite P1, P2, <- C, <- F. do 4 eexists. split; [reflexivity|]. split; [reflexivity|].
           right. cbn. repeat split; auto.
        -- do 4 eexists. split; [reflexivity|]. rewrite <- ES, EC, EI'. split; [reflexivity|].
           right. cbn. repeat split; auto; congruence.
      * rewrite <- ES.
        destruct (HP c1 c2 st L1 L2) as (d1 & d2 & st1 & P1 & P2 & A & B & C & E & F); auto; try (intros; congruence).
        rewrite P1, P2. unfold samples_of. rewrite <- C, <- F.
        destruct (_ <=? 0)%Z.
        -- destruct (HP d1 d2 st1 A B C (fun _ => F)) as (e1 & e2 & st2 & P3 & P4 & A' & B' & C' & E' & F').
           rewrite P3, P4, <- C', <- F'. do 4 eexists. split; [reflexivity|]. split; [reflexivity|].
           right. cbn. repeat split; auto.
        -- do 4 eexists. split; [reflexivity|]. rewrite <- C, <- F. split; [reflexivity|].
           right. cbn. repeat split; auto.
Qed.

Lemma run_prog_rel : forall {A} id (p : prog R A) en w1 w2, world_rel w1 w2 -> Ca id ->
  en = negb (n_det (w_node w1 id)) ->
  fst (run_prog en id p w1) = fst (run_prog en id p w2) /\
  world_rel (snd (run_prog en id p w1)) (snd (run_prog en id p w2)).
Proof.
  intros A id p en; induction p as [a|op k IH|i smp N n k IH]; intros w1 w2 HW Hc He; cbn; pose proof (CD id Hc) as Hid.
  - auto.
  - rewrite <- (rel_get w1 w2 id HW Hid). destruct (op (get_st w1 id)) as [s st1].
    apply IH; auto; [now apply rel_set|].
    destruct (set_st_flags w1 id st1 id) as [_ ->]. exact He.
  - rewrite <- (rel_get w1 w2 id HW Hid).
    pose proof HW as (HG & HD & HC' & HQ). destruct (HD id Hid) as (H1 & H2 & H3). pose proof (HC' id Hc) as H4.
    destruct en.
    + assert (Hd : n_det (w_node w1 id) = false) by (destruct (n_det (w_node w1 id)); [discriminate|reflexivity]).
      destruct (pre_draw_rel _ _ _ _ smp N n (get_st w1 id) (H4 Hd i)) as (s & c1 & c2 & st1 & P1 & P2 & HC).
      rewrite P1, P2. apply IH; auto.
      * apply rel_set_cache; [now apply rel_set|exact Hc|].
        intros _. destruct (set_st_cache w1 id st1) as [_ ->]. destruct (set_st_cache w2 id st1) as [_ ->]. exact HC.
      * destruct (set_cache_flags (set_st w1 id st1) id i c1 id) as [_ ->].
        destruct (set_st_flags w1 id st1 id) as [_ ->]. exact He.
    + assert (Hd : n_det (w_node w1 id) = true) by (destruct (n_det (w_node w1 id)); [reflexivity|discriminate]).
      unfold pre_draw. cbn [negb]. destruct (smp n (get_st w1 id)) as [s st1].
      apply IH; auto.
      * apply rel_set_cache; [now apply rel_set|exact Hc|].
        destruct (set_st_flags w1 id (adv R st1) id) as [_ ->]. congruence.
      * match goal with |- _ = negb (n_det (w_node (set_cache ?w id i ?c) id)) =>
          destruct (set_cache_flags w id i c id) as [_ ->] end.
        match goal with |- _ = negb (n_det (w_node (set_st ?w id ?c) id)) =>
          destruct (set_st_flags w id c id) as [_ ->] end. exact He.
Qed.

Definition rrel (r1 r2 : res (batch * world)) : Prop :=
  match r1, r2 with
  | Ok (b1, w1), Ok (b2, w2) => b1 = b2 /\ world_rel w1 w2
  | Err e1, Err e2 => e1 = e2
  | _, _ => False
  end.
Definition frel (f : runner) : Prop := forall w1 w2 b, world_rel w1 w2 -> rrel (f w1 b) (f w2 b).

Lemma rrel_bind : forall r1 r2 k1 k2, rrel r1 r2 ->
  (forall b w1 w2, world_rel w1 w2 -> rrel (k1 (b, w1)) (k2 (b, w2))) -> rrel (bind r1 k1) (bind r2 k2).
Proof.
  intros r1 r2 k1 k2 H HK. destruct r1 as [[b1 w1]|e1], r2 as [[b2 w2]|e2]; cbn in *; try tauto.
  destruct H as [<- H]. now apply HK.
Qed.

Lemma rel_flags : forall w1 w2 id, world_rel w1 w2 -> D id \/ Q id ->
  n_act (w_node w1 id) = n_act (w_node w2 id) /\ n_det (w_node w1 id) = n_det (w_node w2 id).
Proof.
  intros w1 w2 id (_ & HD & _ & HQ) [H|H].
  - destruct (HD id H) as (A & B & _). auto.
  - destruct (HQ id H) as (A & B & _). auto.
Qed.

Lemma augment_batch_rel : forall hk id parents f, D id \/ Q id -> frel f ->
  (forall w b b' w', f w b = Ok (b', w') -> same_flags w w') ->
  frel (augment_batch hk id parents f).
Proof.
  intros hk id parents f Hid Hf HFl w1 w2 b HW. unfold augment_batch.
  destruct (rel_flags w1 w2 id HW Hid) as [Ea Ed]. rewrite <- Ea, <- Ed.
  set (b1 := hide _ _). apply rrel_bind; [|intros b0 v1 v2 HV; cbn; auto].
  destruct (Nat.eqb (nb_rows b1) 0); [cbn; auto|].
  specialize (Hf w1 w2 b1 HW).
  pose proof (HFl w1 b1) as HF1.
  destruct (f w1 b1) as [[b2 v1]|], (f w2 b1) as [[b2' v2]|]; cbn in *; try tauto.
  destruct Hf as [<- HV]. split; [reflexivity|].
  destruct (n_det (w_node w1 id)) eqn:Hd; [|exact HV].
  destruct Hid as [Hid|Hid].
  - rewrite (rel_get w1 w2 id HW Hid). now apply rel_set.
  - apply rel_restore; auto; [apply rel_get; auto|].
    destruct (HF1 _ _ eq_refl id) as [_ ->]. exact Hd.
Qed.

Lemma propagating_rel : forall hk id parents f, frel f -> frel (propagating hk id parents f).
Proof.
  intros hk id parents f Hf w1 w2 b HW. unfold propagating. apply rrel_bind; [now apply Hf|].
  intros b0 v1 v2 HV. cbn. auto.
Qed.

Lemma seq_loop_rel : forall fs order, Forall frel fs -> frel (seq_loop fs order).
Proof.
  intros fs order HF; induction order as [|i is IH]; intros w1 w2 b HW; [cbn; auto|]. cbn.
  destruct (nth_error fs i) as [f|] eqn:Ef; [|reflexivity].
  apply nth_error_In in Ef. rewrite Forall_forall in HF.
  apply rrel_bind; [now apply HF|]. intros; cbn. now apply IH.
Qed.

Lemma someof_loop_rel : forall fs active order, Forall frel fs -> frel (someof_loop fs active order).
Proof.
  intros fs active order HF; induction order as [|i is IH]; intros w1 w2 b HW; [cbn; auto|]. cbn.
  destruct (nonzero _) as [|k ks]; [now apply IH|].
  destruct (nth_error fs i) as [f|] eqn:Ef; [|reflexivity].
  apply nth_error_In in Ef. rewrite Forall_forall in HF.
  destruct (subselect b (k :: ks)) as [sub|]; cbn; [|reflexivity].
  apply rrel_bind; [now apply HF|]. intros b0 v1 v2 HV. cbn.
  destruct (invert_subselect b (k :: ks) b0); cbn; [|reflexivity]. now apply IH.
Qed.

Lemma sometimes_branch_rel : forall f rows, (forall g, f = Some g -> frel g) -> frel (sometimes_branch f rows).
Proof.
  intros [f|] rows HF w1 w2 b HW; cbn; [|auto].
  destruct (subselect b rows) as [sub|]; cbn; [|reflexivity].
  apply rrel_bind; [now apply HF|]. intros b0 v1 v2 HV. cbn.
  destruct (invert_subselect b rows b0); cbn; auto.
Qed.

Lemma draw_order_rel : forall id o n w1 w2, world_rel w1 w2 -> (o = true -> D id) ->
  fst (draw_order id o n w1) = fst (draw_order id o n w2) /\
  world_rel (snd (draw_order id o n w1)) (snd (draw_order id o n w2)).
Proof.
  intros id o n w1 w2 HW Hid. unfold draw_order. destruct o; [|cbn; auto].
  rewrite (rel_get w1 w2 id HW (Hid eq_refl)). destruct (permutation R n (get_st w2 id)). cbn.
  split; [reflexivity|]. apply rel_set; auto.
Qed.

Lemma shuffle_rows_rel : forall id rows w1 w2, world_rel w1 w2 -> D id ->
  fst (shuffle_rows id rows w1) = fst (shuffle_rows id rows w2) /\
  world_rel (snd (shuffle_rows id rows w1)) (snd (shuffle_rows id rows w2)).
Proof.
  intros id rows; induction rows as [|r rows IH]; intros w1 w2 HW Hid; cbn; [auto|].
  rewrite (rel_get w1 w2 id HW Hid). destruct (shuffle R r (get_st w2 id)) as [r' st1].
  destruct (IH (set_st w1 id st1) (set_st w2 id st1)) as [E W]; [now apply rel_set|exact Hid|].
  destruct (shuffle_rows id rows (set_st w1 id st1)), (shuffle_rows id rows (set_st w2 id st1)). cbn in *.
  split; [congruence|exact W].
Qed.

Lemma draw_active_rel : forall id n nc ni w1 w2, world_rel w1 w2 -> D id ->
  fst (draw_active id n nc ni w1) = fst (draw_active id n nc ni w2) /\
  world_rel (snd (draw_active id n nc ni w1)) (snd (draw_active id n nc ni w2)).
Proof.
  intros id n nc ni w1 w2 HW Hid. unfold draw_active.
  assert (H : fst (draw_n id n nc ni w1) = fst (draw_n id n nc ni w2) /\
              world_rel (snd (draw_n id n nc ni w1)) (snd (draw_n id n nc ni w2))).
  { unfold draw_n. destruct n; cbn; auto; rewrite (rel_get w1 w2 id HW Hid).
    - destruct (discrete_uniform _ _ _ _); cbn; split; [reflexivity|now apply rel_set].
    - destruct (smp _ _); cbn; split; [reflexivity|now apply rel_set]. }
  destruct (draw_n id n nc ni w1), (draw_n id n nc ni w2). cbn in H. destruct H as [<- H].
  now apply shuffle_rows_rel.
Qed.

Lemma col_loop_rel : forall restore id body det (b : batch) pos w1 w2, world_rel w1 w2 -> Ca id ->
  det = n_det (w_node w1 id) ->
  fst (col_loop det restore id body pos b w1) = fst (col_loop det restore id body pos b w2) /\
  world_rel (snd (col_loop det restore id body pos b w1)) (snd (col_loop det restore id body pos b w2)).
Proof.
  intros restore id body det b; induction b as [|c b IH]; intros pos w1 w2 HW Hc Hd; cbn; [auto|]; pose proof (CD id Hc) as Hid.
  destruct c as [[|x l]|].
  - destruct (IH (S pos) w1 w2 HW Hc Hd) as [E W].
    destruct (col_loop _ _ _ _ _ b w1), (col_loop _ _ _ _ _ b w2). cbn in *. split; [congruence|exact W].
  - destruct (run_prog_rel id (body pos (x :: l)) (negb det) w1 w2 HW Hc) as [E W]; [now rewrite Hd|].
    pose proof (run_prog_flags (negb det) id (body pos (x :: l)) w1) as HF.
    rewrite (rel_get w1 w2 id HW Hid).
    destruct (run_prog (negb det) id (body pos (x :: l)) w1) as [v1 u1],
             (run_prog (negb det) id (body pos (x :: l)) w2) as [v2 u2]. cbn in *. subst v2.
    specialize (HF _ _ eq_refl id).
    assert (HW2 : world_rel (if restore then set_st u1 id (get_st w2 id) else u1)
                            (if restore then set_st u2 id (get_st w2 id) else u2)).
    { destruct restore; [now apply rel_set|exact W]. }
    destruct (IH (S pos) _ _ HW2 Hc) as [E2 W2].
    { destruct restore; [destruct (set_st_flags u1 id (get_st w2 id) id) as [_ ->]|]; destruct HF; congruence. }
    destruct (col_loop _ _ _ _ _ b (if restore then set_st u1 _ _ else u1)),
             (col_loop _ _ _ _ _ b (if restore then set_st u2 _ _ else u2)). cbn in *. split; [congruence|exact W2].
  - destruct (IH (S pos) w1 w2 HW Hc Hd) as [E W].
    destruct (col_loop _ _ _ _ _ b w1), (col_loop _ _ _ _ _ b w2). cbn in *. split; [congruence|exact W].
Qed.

Lemma flags_finv : forall f : runner, finv same_flags f -> forall w (b b' : batch) w', f w b = Ok (b', w') -> same_flags w w'.
Proof. intros f H w b b' w'. apply H. Qed.

(** Bodies preserve flags (needed to see that the restore step is the same). *)
Lemma run_body_flags : forall hk id parents (f : runner), finv same_flags f ->
  finv same_flags (propagating (V:=V) hk id parents f).
Proof. intros. now apply propagating_inv. Qed.

Lemma children_flags : forall hk parents (cs : list aug), Forall (finv same_flags) (map (run hk parents) cs).
Proof. intros. apply Forall_map. apply Forall_forall. intros c _ w b b' w'. apply run_flags. Qed.

Lemma run_rel : forall hk (a : aug) parents,
  (forall id, In id (draws a) -> D id) -> (forall id, In id (caching a) -> Ca id) -> (forall id, In id (quiets a) -> Q id) ->
  frel (run hk parents a).
Proof.
  intros hk a. induction a using aug_ind2; intros parents HD HC HQ; cbn [run].
  - apply augment_batch_rel; [left; apply HD; now left| |].
    + intros w1 w2 b HW. assert (Hid : D id) by (apply HD; now left). assert (Hc : Ca id) by (apply HC; now left).
      destruct (rel_flags w1 w2 id HW (or_introl Hid)) as [_ Ed]. rewrite <- Ed.
      destruct (run_prog_rel id (body b) _ w1 w2 HW Hc eq_refl) as [E W].
      cbn. destruct (run_prog _ id (body b) w1), (run_prog _ id (body b) w2). auto.
    + intros w b b' w' E. apply Ok_inj in E. eapply run_prog_flags; eauto.
  - apply augment_batch_rel; [left; apply HD; now left| |].
    + intros w1 w2 b HW. assert (Hid : D id) by (apply HD; now left). assert (Hc : Ca id) by (apply HC; now left).
      destruct (rel_flags w1 w2 id HW (or_introl Hid)) as [_ Ed]. unfold run_columns. rewrite <- Ed.
      set (m := Nat.ltb _ _).
      destruct (col_loop_rel (n_det (w_node w1 id) || m) id body _ b 0 w1 w2 HW Hc eq_refl) as [E W].
      destruct (col_loop _ _ _ _ _ b w1) as [b1 v1], (col_loop _ _ _ _ _ b w2) as [b2 v2]. cbn [fst snd] in E, W. cbn [rrel].
      split; [exact E|]. destruct (m && _); [|exact W].
      rewrite (rel_get v1 v2 id W Hid). now apply rel_set.
    + intros w b b' w' E. unfold run_columns in E.
      destruct (col_loop _ _ _ _ _ _ _) as [b1 w1] eqn:E1. apply Ok_inj in E. injection E as <- <-.
      assert (F : same_flags w w1).
      { eapply (col_loop_inv same_flags (fun _ => True)); eauto using same_flags_refl, same_flags_trans.
        - intros; apply set_st_flags.
        - intros; apply set_cache_flags. }
      destruct (_ && _); [|exact F]. eapply same_flags_trans; [exact F|apply set_st_flags].
  - apply augment_batch_rel.
    + destruct o; [left; apply HD|right; apply HQ]; now left.
    + apply propagating_rel. intros w1 w2 b HW.
      destruct (draw_order_rel id o (length cs) w1 w2 HW) as [E W].
      { intros ->. apply HD. now left. }
      destruct (draw_order id o (length cs) w1) as [o1 v1], (draw_order id o (length cs) w2) as [o2 v2].
      cbn in E, W. subst o2. apply seq_loop_rel; [|exact W].
      apply Forall_map. rewrite Forall_forall in *. intros c Hc. apply H; auto.
      * intros j Hj. apply HD. cbn. apply in_or_app. right. apply in_flat_map. eauto.
      * intros j Hj. apply HC. cbn. apply in_flat_map. eauto.
      * intros j Hj. apply HQ. cbn. apply in_or_app. right. apply in_flat_map. eauto.
    + apply flags_finv, propagating_inv. intros w b b' w' E.
      destruct (draw_order _ _ _ _) as [order w1] eqn:E1.
      eapply same_flags_trans; [eapply draw_order_flags; eauto|].
      eapply (seq_loop_inv same_flags); [apply same_flags_refl|apply same_flags_trans| |exact E].
      apply children_flags.
  - apply augment_batch_rel.
    + left. apply HD. now left.
    + apply propagating_rel. intros w1 w2 b HW. assert (Hid : D id) by (apply HD; now left).
      destruct (draw_order_rel id o (length cs) w1 w2 HW (fun _ => Hid)) as [E W].
      destruct (draw_order id o (length cs) w1) as [o1 v1], (draw_order id o (length cs) w2) as [o2 v2].
      cbn in E, W. subst o2.
      destruct (draw_active_rel id n (length cs) (nb_rows b) v1 v2 W Hid) as [E2 W2].
      destruct (draw_active id n (length cs) (nb_rows b) v1) as [a1 u1],
               (draw_active id n (length cs) (nb_rows b) v2) as [a2 u2]. cbn in E2, W2. subst a2.
      apply someof_loop_rel; [|exact W2].
      apply Forall_map. rewrite Forall_forall in *. intros c Hc. apply H; auto.
      * intros j Hj. apply HD. cbn. right. apply in_flat_map. eauto.
      * intros j Hj. apply HC. cbn. apply in_flat_map. eauto.
      * intros j Hj. apply HQ. cbn. apply in_flat_map. eauto.
    + apply flags_finv, propagating_inv. intros w b b' w' E.
      destruct (draw_order _ _ _ _) as [order w1] eqn:E1.
      destruct (draw_active _ _ _ _ _) as [active w2] eqn:E2.
      eapply same_flags_trans; [eapply draw_order_flags; eauto|].
      eapply same_flags_trans; [eapply draw_active_flags; eauto|].
      eapply (someof_loop_inv same_flags); [apply same_flags_refl|apply same_flags_trans| |exact E].
      apply children_flags.
  - assert (Hid : D id) by (apply HD; now left). assert (Hc : Ca id) by (apply HC; now left). apply augment_batch_rel; [now left| |].
    + apply propagating_rel. intros w1 w2 b HW.
      destruct (rel_flags w1 w2 id HW (or_introl Hid)) as [_ Ed]. rewrite <- Ed.
      destruct (run_prog_rel id (Pre 0 p N (nb_rows b) (fun s => Ret s)) _ w1 w2 HW Hc eq_refl) as [E W].
      destruct (run_prog _ id _ w1) as [s1 v1], (run_prog _ id _ w2) as [s2 v2]. cbn in E, W. subst s2.
      apply rrel_bind.
      * apply sometimes_branch_rel; [|exact W]. intros g.
        destruct t as [a|]; [|discriminate]. destruct (Nat.eqb _ _); [discriminate|].
        intros Eg; injection Eg as <-. apply H; [reflexivity| | |].
        -- intros j Hj. apply HD. cbn. right. apply in_or_app. now left.
        -- intros j Hj. apply HC. cbn. right. apply in_or_app. now left.
        -- intros j Hj. apply HQ. cbn. apply in_or_app. now left.
      * intros b0 u1 u2 HU. cbn. apply sometimes_branch_rel; [|exact HU]. intros g.
        destruct e as [a|]; [|discriminate]. destruct (Nat.eqb _ _); [discriminate|].
        intros Eg; injection Eg as <-. apply H0; [reflexivity| | |].
        -- intros j Hj. apply HD. cbn. right. apply in_or_app. now right.
        -- intros j Hj. apply HC. cbn. right. apply in_or_app. now right.
        -- intros j Hj. apply HQ. cbn. apply in_or_app. now right.
    + apply flags_finv, propagating_inv. intros w b b' w' E.
      destruct (run_prog _ _ _ _) as [s1 w1] eqn:E1. apply run_prog_flags in E1.
      apply bind_ok in E. destruct E as ([b1 v1] & E2 & E). cbn in E.
      eapply same_flags_trans; [exact E1|].
      eapply same_flags_trans.
      * eapply (sometimes_branch_inv same_flags); [apply same_flags_refl| |exact E2]. intros g.
        destruct t as [a|]; [|discriminate]. destruct (Nat.eqb _ _); [discriminate|].
        intros Eg; injection Eg as <-. intros ? ? ? ?. apply run_flags.
      * eapply (sometimes_branch_inv same_flags); [apply same_flags_refl| |exact E]. intros g.
        destruct e as [a|]; [|discriminate]. destruct (Nat.eqb _ _); [discriminate|].
        intros Eg; injection Eg as <-. intros ? ? ? ?. apply run_flags.
  - apply augment_batch_rel.
    + right. apply HQ. now left.
    + apply propagating_rel. intros w1 w2 b HW. destruct (pre b) as [b1|]; cbn; [|reflexivity].
      apply rrel_bind.
      * apply IHa; auto. intros j Hj. apply HQ. now right.
      * intros b0 u1 u2 HU. cbn. destruct (post b b0); cbn; auto.
    + apply flags_finv, propagating_inv. intros w b b' w' E.
      apply bind_ok in E. destruct E as (b1 & E1 & E).
      apply bind_ok in E. destruct E as ([b2 w2] & E2 & E).
      apply bind_ok in E. destruct E as (b3 & E3 & E). injection E as <- <-. cbn.
      eapply run_flags; eauto.
Qed.
End Rel.

End P.
