(** Proofs about copy_random_state_. *)
From Coq Require Import Lia String.
From Verif Require Import Prelude PreludeFacts AugModel AugSpec AugProofs AugChildren AugRepro AugSeed CpyModel CpySpec.
From Coq Require Import List.
Import ListNotations.

Section P.
Context {R : rngops} {V : Type}.
Notation batch := (batch V).
Notation aug := (aug R V).
Notation world := (world R).
Notation runner := (world -> batch -> res (batch * world)).

(** * Visited augmenters *)
Lemma children_visited : forall a : aug, aug_id a :: get_all_children a = visited a.
Proof.
  assert (G : forall cs : list aug, Forall (fun c => aug_id c :: get_all_children c = visited c) cs ->
    (fix go (cs : list aug) : list nat := match cs with [] => [] | c :: cs' => aug_id c :: get_all_children c ++ go cs' end) cs =
    (fix go (cs : list aug) : list nat := match cs with [] => [] | c :: cs' => visited c ++ go cs' end) cs).
  { induction 1 as [|c cs H HF IH]; [reflexivity|]. rewrite <- H, IH. reflexivity. }
  intros a. remember (asize a) as n eqn:En. revert a En. induction n as [n IH] using lt_wf_ind. intros a ->.
  assert (GC : forall d : aug, (forall c, In c (children_of d) -> (asize c < asize a)%nat) ->
    Forall (fun c => aug_id c :: get_all_children c = visited c) (children_of d)).
  { intros d H. apply Forall_forall. intros c Hc. apply (IH (asize c)); auto. }
  destruct a as [id body|id body|id o cs|id n o cs|id p N t e|id pre post c]; cbn [get_all_children visited aug_id]; f_equal.
  - apply G. apply (GC (Seq id o cs)). intros c Hc. cbn [children_of] in Hc. apply (list_sum_in asize) in Hc. cbn [asize]. lia.
  - apply G. apply (GC (Seq id o cs)). intros c Hc. cbn [children_of] in Hc. apply (list_sum_in asize) in Hc. cbn [asize]. lia.
  - f_equal.
    + destruct t as [[| |? ? l|? ? ? l| |]|]; try reflexivity; apply G; apply (GC (Seq id false l)); intros c Hc; cbn [children_of] in Hc; apply (list_sum_in asize) in Hc; cbn [asize]; lia.
    + destruct e as [[| |? ? l|? ? ? l| |]|]; try reflexivity; apply G; apply (GC (Seq id false l)); intros c Hc; cbn [children_of] in Hc; apply (list_sum_in asize) in Hc; cbn [asize]; lia.
  - destruct c as [| |? ? l|? ? ? l| |]; try reflexivity; apply G; apply (GC (Seq id false l)); intros c Hc; cbn [children_of] in Hc; apply (list_sum_in asize) in Hc; cbn [asize]; lia.
Qed.
Lemma augs_of_eq : forall rec (a : aug), augs_of rec a = if rec then visited a else [aug_id a].
Proof. intros [|] a; [apply children_visited|reflexivity]. Qed.

Section Ren.
Variable ren : nat -> nat.

Lemma aug_id_renamed : forall a : aug, aug_id (renamed ren a) = ren (aug_id a).
Proof. intros []; reflexivity. Qed.
Lemma children_of_renamed : forall a : aug, children_of (renamed ren a) = map (renamed ren) (children_of a).
Proof. intros []; reflexivity. Qed.
Lemma visit_children_renamed : forall a : aug, visit_children (renamed ren a) = map (renamed ren) (visit_children a).
Proof.
  intros a. unfold visit_children. rewrite concat_map. f_equal. destruct a as [| | | |id p N t e|id pre post c]; cbn [renamed children_lists map]; try reflexivity.
  - rewrite map_app. destruct t as [t|], e as [e|]; cbn [option_map map app]; rewrite ?children_of_renamed; reflexivity.
  - rewrite children_of_renamed. reflexivity.
Qed.
Lemma visited_renamed : forall a : aug, visited (renamed ren a) = map ren (visited a).
Proof.
  intros a. induction a as [a IH] using visit_ind. rewrite !visited_eq, aug_id_renamed, visit_children_renamed. cbn [map]. f_equal.
  induction (visit_children a) as [|c cs IHc]; [reflexivity|]. cbn [map flat_map]. rewrite map_app, IH by (left; reflexivity). f_equal.
  apply IHc. intros d Hd. apply IH. right. exact Hd.
Qed.
Lemma augs_of_renamed : forall rec (a : aug), augs_of rec (renamed ren a) = map ren (augs_of rec a).
Proof. intros rec a. rewrite !augs_of_eq. destruct rec; [apply visited_renamed|cbn; rewrite aug_id_renamed; reflexivity]. Qed.

(** * The same tree in other objects *)
Hypothesis inj : forall i j, ren i = ren j -> i = j.
Definition sim (w1 w2 : world) : Prop := w_glob w1 = w_glob w2 /\ forall id, w_node w1 (ren id) = w_node w2 id.

Lemma sim_get : forall w1 w2 id, sim w1 w2 -> get_st w1 (ren id) = get_st w2 id.
Proof. intros w1 w2 id [G N]. unfold get_st. rewrite N, G. reflexivity. Qed.
Lemma sim_node : forall w1 w2 id n, sim w1 w2 -> sim (set_node w1 (ren id) n) (set_node w2 id n).
Proof.
  intros w1 w2 id n [G N]. split; [exact G|]. intros j. cbn.
  destruct (Nat.eqb_spec j id) as [->|H]; [rewrite Nat.eqb_refl; reflexivity|].
  destruct (Nat.eqb_spec (ren j) (ren id)) as [E|_]; [apply inj in E; contradiction|apply N].
Qed.
Lemma sim_set : forall w1 w2 id s, sim w1 w2 -> sim (set_st w1 (ren id) s) (set_st w2 id s).
Proof.
  intros w1 w2 id s HS. pose proof HS as [G N]. unfold set_st. rewrite N. destruct (n_rng (w_node w2 id)); [split; [reflexivity|exact N]|apply sim_node; exact HS].
Qed.
Lemma sim_cache : forall w1 w2 id i c, sim w1 w2 -> sim (set_cache w1 (ren id) i c) (set_cache w2 id i c).
Proof. intros w1 w2 id i c HS. pose proof HS as [G N]. unfold set_cache. rewrite N. apply sim_node. exact HS. Qed.
Lemma sim_prog : forall {A} en id (p : prog R A) w1 w2, sim w1 w2 ->
  fst (run_prog en (ren id) p w1) = fst (run_prog en id p w2) /\ sim (snd (run_prog en (ren id) p w1)) (snd (run_prog en id p w2)).
Proof.
  intros A en id p. induction p as [a|op k IH|i smp N n k IH]; intros w1 w2 HS; cbn [run_prog].
  - auto.
  - rewrite (sim_get _ _ _ HS). destruct (op (get_st w2 id)) as [s st1]. apply IH. apply sim_set. exact HS.
  - rewrite (sim_get _ _ _ HS). rewrite (proj2 HS id). destruct (pre_draw _ _ _ _ _ _ _) as [[s c1] st1]. apply IH. apply sim_cache, sim_set, HS.
Qed.
Definition srel (r1 r2 : res (batch * world)) : Prop :=
  match r1, r2 with
  | Ok (b1, w1), Ok (b2, w2) => b1 = b2 /\ sim w1 w2
  | Err e1, Err e2 => e1 = e2
  | _, _ => False
  end.
Definition fsim (f g : runner) : Prop := forall w1 w2 b, sim w1 w2 -> srel (f w1 b) (g w2 b).
Lemma srel_bind : forall r1 r2 k1 k2, srel r1 r2 -> (forall b w1 w2, sim w1 w2 -> srel (k1 (b, w1)) (k2 (b, w2))) -> srel (bind r1 k1) (bind r2 k2).
Proof.
  intros r1 r2 k1 k2 H HK. destruct r1 as [[b1 w1]|e1], r2 as [[b2 w2]|e2]; cbn in *; try tauto. destruct H as [<- H]. apply HK. exact H.
Qed.
Lemma sim_augment : forall id ps ps' f g, fsim f g -> fsim (augment_batch None (ren id) ps f) (augment_batch None id ps' g).
Proof.
  intros id ps ps' f g HF w1 w2 b HS. unfold augment_batch. cbn [hook_preprocess hook_postprocess]. rewrite (proj2 HS id).
  assert (E : hook_activated (V:=V) None (n_act (w_node w2 id)) (ren id) ps = hook_activated None (n_act (w_node w2 id)) id ps').
  { reflexivity. }
  rewrite E. set (keep := hook_activated None _ id ps'). apply srel_bind; [|intros b0 v1 v2 HV; cbn; auto].
  destruct (Nat.eqb (nb_rows (hide keep b)) 0); [cbn; auto|]. apply srel_bind; [apply HF; exact HS|].
  intros b0 v1 v2 HV. cbn. split; [reflexivity|]. destruct (n_det (w_node w2 id)); [|exact HV]. rewrite (sim_get _ _ _ HS). apply sim_set. exact HV.
Qed.
Lemma sim_propagating : forall id ps ps' f g, fsim f g -> fsim (propagating None (ren id) ps f) (propagating None id ps' g).
Proof. intros id ps ps' f g HF w1 w2 b HS. unfold propagating. apply srel_bind; [apply HF; exact HS|]. intros b0 v1 v2 HV. cbn. auto. Qed.
Lemma sim_seq_loop : forall fs gs order, Forall2 fsim fs gs -> fsim (seq_loop fs order) (seq_loop gs order).
Proof.
  intros fs gs order HF; induction order as [|i is IH]; intros w1 w2 b HS; [cbn; auto|]. cbn [seq_loop].
  assert (X : match nth_error fs i, nth_error gs i with Some f, Some g => fsim f g | None, None => True | _, _ => False end).
  { clear -HF. revert i. induction HF as [|f g fs gs H HF IH]; intros [|i]; cbn; auto. apply IH. }
  destruct (nth_error fs i) as [f|], (nth_error gs i) as [g|]; try tauto; [|reflexivity].
  apply srel_bind; [apply X; exact HS|]. intros b0 v1 v2 HV. cbn. apply IH. exact HV.
Qed.
Lemma sim_someof_loop : forall fs gs active order, Forall2 fsim fs gs -> fsim (someof_loop fs active order) (someof_loop gs active order).
Proof.
  intros fs gs active order HF; induction order as [|i is IH]; intros w1 w2 b HS; [cbn; auto|]. cbn [someof_loop].
  destruct (nonzero _) as [|k ks]; [apply IH; exact HS|].
  assert (X : match nth_error fs i, nth_error gs i with Some f, Some g => fsim f g | None, None => True | _, _ => False end).
  { clear -HF. revert i. induction HF as [|f g fs gs H HF IH]; intros [|i]; cbn; auto. apply IH. }
  destruct (nth_error fs i) as [f|], (nth_error gs i) as [g|]; try tauto; [|reflexivity].
  destruct (subselect b (k :: ks)) as [sub|]; cbn [bind]; [|reflexivity].
  apply srel_bind; [apply X; exact HS|]. intros b0 v1 v2 HV. cbn [fst snd].
  destruct (invert_subselect b (k :: ks) b0); cbn [bind]; [|reflexivity]. apply IH. exact HV.
Qed.
Lemma sim_branch : forall f g rows, match f, g with Some f, Some g => fsim f g | None, None => True | _, _ => False end ->
  fsim (sometimes_branch f rows) (sometimes_branch g rows).
Proof.
  intros [f|] [g|] rows HF w1 w2 b HS; cbn; try tauto. destruct (subselect b rows) as [sub|]; cbn [bind]; [|reflexivity].
  apply srel_bind; [apply HF; exact HS|]. intros b0 v1 v2 HV. cbn. destruct (invert_subselect b rows b0); cbn; auto.
Qed.
Lemma sim_order : forall id o n w1 w2, sim w1 w2 ->
  fst (draw_order (ren id) o n w1) = fst (draw_order id o n w2) /\ sim (snd (draw_order (ren id) o n w1)) (snd (draw_order id o n w2)).
Proof.
  intros id o n w1 w2 HS. unfold draw_order. destruct o; [|auto]. rewrite (sim_get _ _ _ HS). destruct (permutation R n (get_st w2 id)). cbn.
  split; [reflexivity|apply sim_set; exact HS].
Qed.
Lemma sim_rows : forall id rows w1 w2, sim w1 w2 ->
  fst (shuffle_rows (ren id) rows w1) = fst (shuffle_rows id rows w2) /\ sim (snd (shuffle_rows (ren id) rows w1)) (snd (shuffle_rows id rows w2)).
Proof.
  intros id rows; induction rows as [|r rows IH]; intros w1 w2 HS; cbn [shuffle_rows]; [auto|].
  rewrite (sim_get _ _ _ HS). destruct (shuffle R r (get_st w2 id)) as [r' st1].
  destruct (IH (set_st w1 (ren id) st1) (set_st w2 id st1)) as [E W]; [apply sim_set; exact HS|].
  destruct (shuffle_rows (ren id) rows _), (shuffle_rows id rows _). cbn in *. split; [congruence|exact W].
Qed.
Lemma sim_active : forall id n nc ni w1 w2, sim w1 w2 ->
  fst (draw_active (ren id) n nc ni w1) = fst (draw_active id n nc ni w2) /\ sim (snd (draw_active (ren id) n nc ni w1)) (snd (draw_active id n nc ni w2)).
Proof.
  intros id n nc ni w1 w2 HS. unfold draw_active.
  assert (H : fst (draw_n (ren id) n nc ni w1) = fst (draw_n id n nc ni w2) /\ sim (snd (draw_n (ren id) n nc ni w1)) (snd (draw_n id n nc ni w2))).
  { unfold draw_n. destruct n; cbn [fst snd]; auto; rewrite (sim_get _ _ _ HS).
    - destruct (discrete_uniform _ _ _ _); cbn; split; [reflexivity|apply sim_set; exact HS].
    - destruct (smp _ _); cbn; split; [reflexivity|apply sim_set; exact HS]. }
  destruct (draw_n (ren id) n nc ni w1), (draw_n id n nc ni w2). cbn in H. destruct H as [<- H]. apply sim_rows. exact H.
Qed.
Lemma sim_cols : forall restore id body det (b : batch) pos w1 w2, sim w1 w2 ->
  fst (col_loop det restore (ren id) body pos b w1) = fst (col_loop det restore id body pos b w2) /\
  sim (snd (col_loop det restore (ren id) body pos b w1)) (snd (col_loop det restore id body pos b w2)).
Proof.
  intros restore id body det b; induction b as [|c b IH]; intros pos w1 w2 HS; cbn [col_loop]; [auto|].
  destruct c as [[|x l]|].
  - destruct (IH (S pos) w1 w2 HS) as [E W]. destruct (col_loop _ _ _ _ _ b w1), (col_loop _ _ _ _ _ b w2). cbn in *. split; [congruence|exact W].
  - destruct (sim_prog (negb det) id (body pos (x :: l)) w1 w2 HS) as [E W]. rewrite (sim_get _ _ _ HS).
    destruct (run_prog (negb det) (ren id) (body pos (x :: l)) w1) as [v1 u1], (run_prog (negb det) id (body pos (x :: l)) w2) as [v2 u2]. cbn in E, W. subst v2.
    assert (HW2 : sim (if restore then set_st u1 (ren id) (get_st w2 id) else u1) (if restore then set_st u2 id (get_st w2 id) else u2)).
    { destruct restore; [apply sim_set; exact W|exact W]. }
    destruct (IH (S pos) _ _ HW2) as [E2 W2].
    destruct (col_loop _ _ _ _ _ b (if restore then set_st u1 _ _ else u1)), (col_loop _ _ _ _ _ b (if restore then set_st u2 _ _ else u2)). cbn in *. split; [congruence|exact W2].
  - destruct (IH (S pos) w1 w2 HS) as [E W]. destruct (col_loop _ _ _ _ _ b w1), (col_loop _ _ _ _ _ b w2). cbn in *. split; [congruence|exact W].
Qed.
Lemma aug_len_renamed : forall a : aug, aug_len (renamed ren a) = aug_len a.
Proof. intros []; cbn; try reflexivity; apply map_length. Qed.
Lemma sim_children : forall ps ps' cs, Forall (fun c => forall ps ps', fsim (run None ps (renamed ren c)) (run None ps' c)) cs ->
  Forall2 fsim (map (run None ps) (map (renamed ren) cs)) (map (run None ps') cs).
Proof. intros ps ps' cs H. induction H; cbn; constructor; auto. Qed.

Lemma sim_run : forall (a : aug) ps ps', fsim (run None ps (renamed ren a)) (run None ps' a).
Proof.
  intros a. induction a using aug_ind2; intros ps ps'; cbn [run renamed].
  - apply sim_augment. intros w1 w2 b HS. rewrite (proj2 HS id). destruct (sim_prog (negb (n_det (w_node w2 id))) id (body b) w1 w2 HS) as [E W].
    cbn. destruct (run_prog _ (ren id) (body b) w1), (run_prog _ id (body b) w2). auto.
  - apply sim_augment. intros w1 w2 b HS. unfold run_columns. rewrite (proj2 HS id). set (m := Nat.ltb _ _).
    destruct (sim_cols (n_det (w_node w2 id) || m) id body (n_det (w_node w2 id)) b 0 w1 w2 HS) as [E W].
    destruct (col_loop _ _ _ _ _ b w1) as [b1 v1], (col_loop _ _ _ _ _ b w2) as [b2 v2]. cbn [fst snd] in E, W. cbn [srel].
    split; [exact E|]. destruct (m && _); [|exact W]. rewrite (sim_get _ _ _ W). apply sim_set. exact W.
  - apply sim_augment, sim_propagating. intros w1 w2 b HS. rewrite map_length.
    destruct (sim_order id o (Datatypes.length cs) w1 w2 HS) as [E W].
    destruct (draw_order (ren id) o _ w1) as [o1 v1], (draw_order id o _ w2) as [o2 v2]. cbn in E, W. subst o2.
    apply sim_seq_loop; [|exact W]. apply sim_children. exact H.
  - apply sim_augment, sim_propagating. intros w1 w2 b HS. rewrite map_length.
    destruct (sim_order id o (Datatypes.length cs) w1 w2 HS) as [E W].
    destruct (draw_order (ren id) o _ w1) as [o1 v1], (draw_order id o _ w2) as [o2 v2]. cbn in E, W. subst o2.
    destruct (sim_active id n (Datatypes.length cs) (nb_rows b) v1 v2 W) as [E2 W2].
    destruct (draw_active (ren id) n _ _ v1) as [a1 u1], (draw_active id n _ _ v2) as [a2 u2]. cbn in E2, W2. subst a2.
    apply sim_someof_loop; [|exact W2]. apply sim_children. exact H.
  - apply sim_augment, sim_propagating. intros w1 w2 b HS. rewrite (proj2 HS id).
    destruct (sim_prog (negb (n_det (w_node w2 id))) id (Pre 0 p N (nb_rows b) (fun s => Ret s)) w1 w2 HS) as [E W].
    destruct (run_prog _ (ren id) _ w1) as [s1 v1], (run_prog _ id _ w2) as [s2 v2]. cbn [fst snd] in E, W. subst s2.
    assert (HB : forall (x : option aug), (forall a, x = Some a -> forall ps ps', fsim (run None ps (renamed ren a)) (run None ps' a)) ->
      match match option_map (renamed ren) x with
            | Some a' => if Nat.eqb (aug_len a') 0 then None else Some (run None (ps ++ [ren id]) a')
            | None => None end,
            match x with
            | Some a' => if Nat.eqb (aug_len a') 0 then None else Some (run None (ps' ++ [id]) a')
            | None => None end with Some f, Some g => fsim f g | None, None => True | _, _ => False end).
    { intros [x|] Hx; cbn; [|exact I]. rewrite aug_len_renamed. destruct (Nat.eqb (aug_len x) 0); [exact I|]. apply Hx. reflexivity. }
    apply srel_bind.
    + apply sim_branch; [apply HB; exact H|exact W].
    + intros b0 u1 u2 HU. cbn [fst snd]. apply sim_branch; [apply HB; exact H0|exact HU].
  - apply sim_augment, sim_propagating. intros w1 w2 b HS. destruct (pre b) as [b1|]; cbn [bind]; [|reflexivity].
    apply srel_bind; [apply IHa; exact HS|]. intros b0 v1 v2 HV. cbn [fst snd]. destruct (post b b0); cbn; auto.
Qed.
Lemma sim_outputs : forall (a : aug) bs w1 w2, sim w1 w2 -> outputs (renamed ren a) w1 bs = outputs a w2 bs.
Proof.
  intros a bs; induction bs as [|b bs IH]; intros w1 w2 HS; [reflexivity|]. cbn [outputs].
  pose proof (sim_run a [] [] w1 w2 b HS) as X. unfold srel in X.
  destruct (run None [] (renamed ren a) w1 b) as [[b1 v1]|], (run None [] a w2 b) as [[b2 v2]|]; try tauto; [|congruence].
  destruct X as [<- HV]. f_equal. apply IH. exact HV.
Qed.
End Ren.

(** * Copying *)
Lemma copy_one_ok : forall cd s t (w : world) st, n_rng (w_node w s) = Own st -> s <> t ->
  exists w', copy_one cd s t w = (w', None) /\ only_rngs_of [t] w w' /\ n_rng (w_node w' t) = Own st /\
    n_det (w_node w' t) = (if cd then n_det (w_node w s) else n_det (w_node w t)) /\ n_key (w_node w' t) = w_next w /\ w_next w' = (w_next w + 1)%Z.
Proof.
  intros cd s t w st E N. unfold copy_one. rewrite E. eexists. split; [reflexivity|].
  assert (Es : w_node (assign_rng w t st) s = w_node w s).
  { cbn. destruct (Nat.eqb_spec s t); [contradiction|reflexivity]. }
  rewrite Es. destruct cd; (split; [|cbn; rewrite ?Nat.eqb_refl; cbn; auto]); (split; [reflexivity|]); intros id; cbn;
    destruct (Nat.eqb_spec id t) as [->|H]; cbn; rewrite ?Nat.eqb_refl; cbn; split; auto; tauto.
Qed.
Lemma only_rngs_trans : forall a b (w1 w2 w3 : world), only_rngs_of a w1 w2 -> only_rngs_of b w2 w3 -> only_rngs_of (R:=R) (a ++ b) w1 w3.
Proof.
  intros a b w1 w2 w3 [G1 H1] [G2 H2]. split; [congruence|]. intros id. destruct (H1 id) as (A1 & B1 & C1), (H2 id) as (A2 & B2 & C2).
  split; [|split; congruence]. intros N. rewrite in_app_iff in N. rewrite A2, A1; tauto.
Qed.
Lemma copy_pairs_ok : forall cd pairs (w : world),
  (forall s t, In (s, t) pairs -> exists st, n_rng (w_node w s) = Own st) ->
  (forall s t s' t', In (s, t) pairs -> In (s', t') pairs -> s <> t' /\ (t = t' -> s = s')) ->
  exists w', copy_pairs cd pairs w = (w', None) /\ only_rngs_of (map snd pairs) w w' /\
    (forall s t, In (s, t) pairs -> has_state_of w w' s t /\
       n_det (w_node w' t) = (if cd then n_det (w_node w s) else n_det (w_node w t)) /\ fresh_key w w' t) /\
    w_next w' = (w_next w + Z.of_nat (List.length pairs))%Z.
Proof.
  intros cd pairs. induction pairs as [|[s t] pairs IH]; intros w HO HF.
  - exists w. split; [reflexivity|]. split; [split; [reflexivity|auto]|]. split; [intros s t []|cbn; lia].
  - destruct (HO s t (or_introl eq_refl)) as (st & E). destruct (HF s t s t) as [N _]; [left; reflexivity|left; reflexivity|].
    destruct (copy_one_ok cd s t w st E N) as (w1 & E1 & O1 & R1 & D1 & K1 & X1).
    assert (Src : forall s' t', In (s', t') ((s, t) :: pairs) -> w_node w1 s' = w_node w s').
    { intros s' t' I. apply (proj2 O1 s'). intros [->|[]]. destruct (HF s' t' s s') as [N' _]; [exact I|left; reflexivity|]. congruence. }
    destruct (IH w1) as (w' & E2 & O2 & H2 & X2).
    { intros s' t' I. rewrite (Src s' t') by (right; exact I). apply (HO s' t'). right. exact I. }
    { intros s1 t1 s2 t2 I1 I2. apply HF; right; assumption. }
    exists w'. cbn [copy_pairs]. rewrite E1. split; [exact E2|]. split; [exact (only_rngs_trans [t] _ _ _ _ O1 O2)|]. split; [|cbn [List.length]; lia].
    assert (Rest : forall s' t', In (s', t') pairs -> has_state_of w w' s' t' /\
       n_det (w_node w' t') = (if cd then n_det (w_node w s') else n_det (w_node w1 t')) /\ fresh_key w w' t').
    { intros s' t' I. destruct (H2 s' t' I) as ((st' & A & B) & C & D). rewrite (Src s' t') in A, C by (right; exact I).
      split; [exists st'; auto|]. split; [exact C|]. unfold fresh_key in *. lia. }
    intros s' t' [I|I].
    + injection I as <- <-. destruct (in_dec Nat.eq_dec t (map snd pairs)) as [J|J].
      * apply in_map_iff in J. destruct J as ([s2 t2] & Et & J). cbn in Et. subst t2.
        assert (s2 = s) by (apply (HF s2 t s t); [right; exact J|left; reflexivity|reflexivity]). subst s2.
        destruct (Rest s t J) as (A & B & C). split; [exact A|]. split; [|exact C]. rewrite B, D1. destruct cd; reflexivity.
      * destruct O2 as [_ O2]. destruct (O2 t) as (Q & _). unfold has_state_of, fresh_key. rewrite (Q J). split; [exists st; auto|]. split; [exact D1|]. lia.
    + destruct (Rest s' t' I) as (A & B & C). split; [exact A|]. split; [|exact C]. rewrite B. destruct cd; [reflexivity|].
      destruct (Nat.eq_dec t' t) as [->|Nt]; [exact D1|]. destruct O1 as [_ O1]. destruct (O1 t') as (Q & _). rewrite Q; [reflexivity|]. intros [H|[]]. congruence.
Qed.

(** ** By name *)
Lemma dict_get_last : forall name n augs, (forall a, dict_get name n augs = Some a <-> is_last (fun y => name y = n) augs a) /\
  (dict_get name n augs = None <-> Forall (fun y => name y <> n) augs).
Proof.
  intros name n. induction augs as [|x augs [IH1 IH2]]; cbn [dict_get].
  - split; [|split; auto]. intros a. split; [discriminate|]. intros (u & v & E & _). destruct u; discriminate E.
  - destruct (dict_get name n augs) as [y|] eqn:E.
    + split.
      * intros a. rewrite IH1. split.
        -- intros (u & v & -> & P). exists (x :: u), v. auto.
        -- intros (u & v & Ea & P & F). destruct u as [|u0 u]; cbn in Ea; injection Ea as -> ->; [|exists u, v; auto].
           exfalso. destruct (proj1 (IH1 y) eq_refl) as (u & v' & -> & P' & _). rewrite Forall_forall in F. apply (F y); [apply in_or_app; right; left; reflexivity|exact P'].
      * split; [discriminate|]. intros F. inversion F; subst. apply IH2 in H2. discriminate H2.
    + pose proof (proj1 IH2 eq_refl) as F. destruct (String.eqb_spec (name x) n) as [Ex|Ex].
      * split.
        -- intros a. split.
           ++ intros H. injection H as <-. exists [], augs. auto.
           ++ intros (u & v & Ea & P & F'). destruct u as [|u0 u]; cbn in Ea; injection Ea as -> ->; [reflexivity|].
              exfalso. rewrite Forall_forall in F. apply (F a); [apply in_or_app; right; left; reflexivity|exact P].
        -- split; [discriminate|]. intros F'. inversion F'; congruence.
      * split.
        -- intros a. split; [discriminate|]. intros (u & v & Ea & P & F'). destruct u as [|u0 u]; cbn in Ea; injection Ea as -> ->; [contradiction|].
           exfalso. rewrite Forall_forall in F. apply (F a); [apply in_or_app; right; left; reflexivity|exact P].
        -- split; [|reflexivity]. intros _. constructor; assumption.
Qed.
Lemma is_last_in : forall {A} (P : A -> Prop) l x, is_last P l x -> In x l /\ P x.
Proof. intros A P l x (u & v & -> & H & _). split; [apply in_or_app; right; left; reflexivity|exact H]. Qed.
Lemma dict_keys_in : forall name augs seen n, In n (dict_keys name seen augs) <-> ~ In n seen /\ exists a, In a augs /\ name a = n.
Proof.
  intros name. induction augs as [|x augs IH]; intros seen n; cbn [dict_keys].
  - split; [intros []|intros (_ & a & [] & _)].
  - destruct (existsb (String.eqb (name x)) seen) eqn:E.
    + apply existsb_exists in E. destruct E as (y & Hy & E). apply String.eqb_eq in E. subst y. rewrite IH. split.
      * intros (N & a & I & Ea). split; [exact N|]. exists a. split; [right; exact I|exact Ea].
      * intros (N & a & [->|I] & Ea); [subst; contradiction|]. split; [exact N|]. exists a. auto.
    + assert (N : ~ In (name x) seen).
      { intros I. rewrite <- Bool.not_true_iff_false in E. apply E. apply existsb_exists. exists (name x). split; [exact I|apply String.eqb_refl]. }
      cbn [In]. rewrite IH. cbn [In]. split.
      * intros [<-|(M & a & I & Ea)]; [split; [exact N|exists x; auto]|]. split; [tauto|]. exists a. auto.
      * intros (M & a & [->|I] & Ea); [left; exact Ea|]. destruct (String.eqb_spec (name x) n) as [Ex|Ex]; [left; exact Ex|].
        right. split; [tauto|]. exists a. auto.
Qed.
Definition name_pairs name (sources targets : list nat) (names : list string) : list (nat * nat) :=
  flat_map (fun n => match dict_get name n sources, dict_get name n targets with Some s, Some t => [(s, t)] | _, _ => [] end) names.
Lemma copy_names_pairs : forall name tol cd sources targets names (w : world),
  (forall n, In n names -> dict_get name n targets <> None) ->
  (tol = true \/ forall n, In n names -> dict_get name n sources <> None) ->
  copy_names name tol cd sources targets names w = copy_pairs (R:=R) cd (name_pairs name sources targets names) w.
Proof.
  intros name tol cd sources targets. induction names as [|n names IH]; intros w HT HS; [reflexivity|].
  cbn [copy_names]. unfold name_pairs. cbn [flat_map]. fold (name_pairs name sources targets names).
  assert (IH' : forall w, copy_names name tol cd sources targets names w = copy_pairs (R:=R) cd (name_pairs name sources targets names) w).
  { intros w'. apply IH; [intros m I; apply HT; right; exact I|]. destruct HS as [HS|HS]; [left; exact HS|right]. intros m I. apply HS. right. exact I. }
  specialize (HT n (or_introl eq_refl)).
  destruct (dict_get name n sources) as [s|] eqn:E.
  - destruct (dict_get name n targets) as [t|]; [|congruence]. cbn [app copy_pairs]. destruct (copy_one cd s t w) as [w' [e|]]; [reflexivity|apply IH'].
  - destruct HS as [->|HS]; [apply IH'|]. exfalso. apply (HS n (or_introl eq_refl)). exact E.
Qed.
Lemma name_pairs_in : forall name sources targets s t,
  In (s, t) (name_pairs name sources targets (dict_keys name [] targets)) <->
  is_last (fun y => name y = name t) sources s /\ is_last (fun y => name y = name t) targets t.
Proof.
  intros name sources targets s t. unfold name_pairs. rewrite in_flat_map. split.
  - intros (n & _ & H). destruct (dict_get name n sources) as [s'|] eqn:Es; [|destruct H]. destruct (dict_get name n targets) as [t'|] eqn:Et; [|destruct H].
    destruct H as [H|[]]. injection H as -> ->. apply dict_get_last in Es. apply dict_get_last in Et. destruct (is_last_in _ _ _ Et) as [_ E]. cbn in E.
    rewrite E. auto.
  - intros [Hs Ht]. exists (name t). split.
    + apply dict_keys_in. split; [intros []|]. exists t. split; [exact (proj1 (is_last_in _ _ _ Ht))|reflexivity].
    + apply dict_get_last in Hs. apply dict_get_last in Ht. rewrite Hs, Ht. left. reflexivity.
Qed.

(** * Equal outputs *)
Lemma outputs_after : forall ren (src : aug) (w w' : world) bs, (forall i j, ren i = ren j -> i = j) ->
  plain_branches src -> sane w ->
  (forall i j, In i (visited src) -> In j (ids src) -> ren i <> j) ->
  (forall id, In id (ids src) -> n_act (w_node w (ren id)) = n_act (w_node w id) /\ n_det (w_node w (ren id)) = n_det (w_node w id)) ->
  (forall id, In id (visited src) -> nothing_prefetched w id) ->
  only_rngs_of (map ren (visited src)) w w' ->
  (forall id, In id (visited src) -> has_state_of w w' id (ren id) /\ n_det (w_node w' (ren id)) = n_det (w_node w (ren id)) /\ fresh_key w w' (ren id)) ->
  outputs (renamed ren src) w' bs = outputs src w' bs.
Proof.
  intros ren src w w' bs inj HP (_ & SC & SD) HDis HFl HPre [HG HO] HSt.
  destruct (plain_list_branches src HP) as [HB HDr].
  rewrite (sim_outputs ren inj src bs w' (mkWorld (w_glob w') (fun id => w_node w' (ren id)) (w_next w'))) by (split; reflexivity).
  assert (Src : forall id, In id (ids src) -> w_node w' id = w_node w id).
  { intros id I. apply (HO id). intros J. apply in_map_iff in J. destruct J as (i & E & J). exact (HDis i id J I E). }
  assert (Fl : forall id, In id (ids src) -> n_act (w_node w' (ren id)) = n_act (w_node w id) /\ n_det (w_node w' (ren id)) = n_det (w_node w id)).
  { intros id I. destruct (HFl id I) as [F1 F2]. destruct (HO (ren id)) as (O1 & O2 & _). rewrite O2, F1. split; [reflexivity|].
    destruct (in_dec Nat.eq_dec (ren id) (map ren (visited src))) as [J|J].
    - apply in_map_iff in J. destruct J as (i & E & J). destruct (HSt i J) as (_ & D & _). rewrite E in D. congruence.
    - rewrite (O1 J). exact F2. }
  apply (outputs_rel false). split; [discriminate|]. cbn [w_node]. split; [|split].
  - intros id I. pose proof (draws_ids src id I) as J. destruct (Fl id J) as [F1 F2]. rewrite (Src id J). split; [exact F1|]. split; [exact F2|].
    destruct (draws_visited src HB id I) as [K|K]; [|rewrite HDr in K; destruct K].
    destruct (HSt id K) as ((st & A & B) & _). rewrite A, B. reflexivity.
  - intros id I. pose proof (caching_visited src HB id I) as K. pose proof (visited_ids src id K) as J. destruct (Fl id J) as [F1 F2]. rewrite (Src id J).
    intros Hd i. left. destruct (HSt id K) as (_ & _ & FK). destruct (HO (ren id)) as (_ & _ & OC). split.
    + rewrite OC. intros E. apply SC in E. unfold fresh_key in FK. lia.
    + destruct (HPre id K) as [D|P]; [congruence|]. apply P.
  - intros id I. pose proof (quiets_ids src id I) as J. destruct (Fl id J) as [F1 F2]. rewrite (Src id J). split; [exact F1|]. split; [exact F2|].
    intros Hd. split.
    + destruct (in_dec Nat.eq_dec (ren id) (map ren (visited src))) as [K|K].
      * apply in_map_iff in K. destruct K as (i & E & K). destruct (HSt i K) as ((st & _ & B) & _). rewrite E in B. rewrite B. exact Logic.I.
      * destruct (HO (ren id)) as (O1 & _). rewrite (O1 K). destruct (SD (ren id)) as (st & E); [rewrite <- (O1 K); exact Hd|]. rewrite E. exact Logic.I.
    + destruct (SD id) as (st & E); [congruence|]. rewrite E. exact Logic.I.
Qed.
Lemma outputs_source : forall (src : aug) (w w' : world) bs touched, sane w -> only_rngs_of touched w w' ->
  (forall id, In id (ids src) -> ~ In id touched) -> outputs src w' bs = outputs src w bs.
Proof.
  intros src w w' bs touched (_ & _ & SD) [HG HO] HN.
  assert (Src : forall id, In id (ids src) -> w_node w' id = w_node w id) by (intros id I; apply (HO id), HN, I).
  apply (outputs_rel true). split; [intros _; exact HG|]. split; [|split].
  - intros id I. rewrite (Src id (draws_ids src id I)). split; [reflexivity|]. split; [reflexivity|]. destruct (n_rng (w_node w id)); reflexivity.
  - intros id I. rewrite (Src id (draws_ids src id (caching_draws src id I))). intros _ i. unfold cache_rel.
    destruct (c_last (n_cache (w_node w id) i)) as [k|]; [|left; split; discriminate].
    destruct (Z.eq_dec k (n_key (w_node w id))) as [->|N]; [right; auto|left; split; congruence].
  - intros id I. rewrite (Src id (quiets_ids src id I)). split; [reflexivity|]. split; [reflexivity|]. intros D. destruct (SD id D) as (st & ->). split; exact Logic.I.
Qed.

(** * The results of copy_random_state_ *)
Lemma nth_in_combine : forall (l1 l2 : list nat) k s t, nth_error l1 k = Some s -> nth_error l2 k = Some t -> In (s, t) (combine l1 l2).
Proof.
  induction l1 as [|x l1 IH]; intros [|y l2] [|k] s t H1 H2; cbn in *; try discriminate.
  - injection H1 as ->. injection H2 as ->. left. reflexivity.
  - right. apply (IH l2 k); assumption.
Qed.
Lemma combine_nodup : forall (l1 l2 : list nat) s s' t, NoDup l2 -> In (s, t) (combine l1 l2) -> In (s', t) (combine l1 l2) -> s = s'.
Proof.
  induction l1 as [|x l1 IH]; intros [|y l2] s s' t ND H1 H2; cbn in *; try tauto. inversion ND; subst.
  destruct H1 as [H1|H1], H2 as [H2|H2].
  - congruence.
  - injection H1 as -> ->. apply in_combine_r in H2. contradiction.
  - injection H2 as -> ->. apply in_combine_r in H1. contradiction.
  - apply (IH l2 s s' t); assumption.
Qed.
Lemma only_rngs_incl : forall a b (w w' : world), only_rngs_of a w w' -> (forall x, In x a -> In x b) -> only_rngs_of b w w'.
Proof. intros a b w w' [G H] I. split; [exact G|]. intros id. destruct (H id) as (A & B). split; [intros N; apply A; intros J; apply N, I, J|exact B]. Qed.
Lemma map_snd_combine : forall (l1 l2 : list nat) x, In x (map snd (combine l1 l2)) -> In x l2.
Proof. intros l1 l2 x I. apply in_map_iff in I. destruct I as ([s t] & <- & I). apply in_combine_r in I. exact I. Qed.

Lemma by_position : forall name (target source : aug) rec tol cd (w : world),
  let sources := augs_of rec source in let targets := augs_of rec target in
  List.length sources = List.length targets \/ tol = true ->
  (forall s, In s sources -> ~ In s targets) -> NoDup targets ->
  (forall s, In s sources -> exists st, n_rng (w_node w s) = Own st) ->
  exists w', copy_random_state_ name target source rec ByPosition tol cd w = (w', None) /\
    only_rngs_of (firstn (List.length sources) targets) w w' /\
    forall k s t, nth_error sources k = Some s -> nth_error targets k = Some t ->
      has_state_of w w' s t /\ n_det (w_node w' t) = (if cd then n_det (w_node w s) else n_det (w_node w t)) /\ fresh_key w w' t.
Proof.
  intros name target source rec tol cd w sources targets HL HD ND HO. unfold copy_random_state_. fold sources. fold targets.
  assert (E : negb (Nat.eqb (List.length sources) (List.length targets)) && negb tol = false).
  { destruct HL as [->| ->]; [rewrite Nat.eqb_refl; reflexivity|rewrite andb_comm; reflexivity]. }
  rewrite E. destruct (copy_pairs_ok cd (combine sources targets) w) as (w' & E1 & O1 & H1 & _).
  - intros s t I. apply HO. exact (in_combine_l _ _ _ _ I).
  - intros s t s' t' I I'. split.
    + intros ->. exact (HD t' (in_combine_l _ _ _ _ I) (in_combine_r _ _ _ _ I')).
    + intros ->. exact (combine_nodup _ _ _ _ _ ND I I').
  - exists w'. split; [exact E1|]. split.
    + apply (only_rngs_incl _ _ _ _ O1). clear. generalize sources targets. induction sources0 as [|x l IH]; intros [|y l2] z I; cbn in *; try tauto.
      destruct I as [I|I]; [left; exact I|right; apply IH; exact I].
    + intros k s t Hs Ht. apply H1. exact (nth_in_combine _ _ _ _ _ Hs Ht).
Qed.

Lemma by_name : forall name (target source : aug) rec tol cd (w : world),
  let sources := augs_of rec source in let targets := augs_of rec target in
  (forall t, In t targets -> exists s, In s sources /\ name s = name t) \/ tol = true ->
  (forall s, In s sources -> ~ In s targets) ->
  (forall s, In s sources -> exists st, n_rng (w_node w s) = Own st) ->
  exists w', copy_random_state_ name target source rec ByName tol cd w = (w', None) /\
    only_rngs_of (filter (fun t => existsb (fun s => String.eqb (name s) (name t)) sources) targets) w w' /\
    (forall t, ~ is_last (fun y => name y = name t) targets t -> w_node w' t = w_node w t) /\
    forall s t, is_last (fun y => name y = name t) sources s -> is_last (fun y => name y = name t) targets t ->
      has_state_of w w' s t /\ n_det (w_node w' t) = (if cd then n_det (w_node w s) else n_det (w_node w t)) /\ fresh_key w w' t.
Proof.
  intros name target source rec tol cd w sources targets HL HD HO. unfold copy_random_state_. fold sources. fold targets.
  rewrite copy_names_pairs.
  2:{ intros n I. apply dict_keys_in in I. destruct I as (_ & a & I & E). intros N. apply (proj2 (dict_get_last name n targets)) in N.
      rewrite Forall_forall in N. exact (N a I E). }
  2:{ destruct HL as [HL| ->]; [right|left; reflexivity]. intros n I. apply dict_keys_in in I. destruct I as (_ & a & I & E). intros N.
      apply (proj2 (dict_get_last name n sources)) in N. rewrite Forall_forall in N. destruct (HL a I) as (s & Is & Es). apply (N s Is). congruence. }
  destruct (copy_pairs_ok cd (name_pairs name sources targets (dict_keys name [] targets)) w) as (w' & E1 & O1 & H1 & _).
  - intros s t I. apply name_pairs_in in I. apply HO. exact (proj1 (is_last_in _ _ _ (proj1 I))).
  - intros s t s' t' I I'. apply name_pairs_in in I, I'. split.
    + intros ->. apply (HD t'); [exact (proj1 (is_last_in _ _ _ (proj1 I)))|exact (proj1 (is_last_in _ _ _ (proj2 I')))].
    + intros ->. destruct I as [I _], I' as [I' _]. apply dict_get_last in I, I'. congruence.
  - exists w'. split; [exact E1|]. split; [|split].
    + apply (only_rngs_incl _ _ _ _ O1). intros t I. apply in_map_iff in I. destruct I as ([s t'] & <- & I). apply name_pairs_in in I. destruct I as [I1 I2].
      destruct (is_last_in _ _ _ I1) as [J1 J2], (is_last_in _ _ _ I2) as [J3 _]. cbn. apply filter_In. split; [exact J3|]. apply existsb_exists. exists s.
      split; [exact J1|]. apply String.eqb_eq. exact J2.
    + intros t N. apply (proj2 O1 t). intros I. apply in_map_iff in I. destruct I as ([s t'] & <- & I). apply name_pairs_in in I. apply N. exact (proj2 I).
    + intros s t Hs Ht. apply H1. apply name_pairs_in. auto.
Qed.

Lemma copies_sample_alike : forall name ren (src : aug) m tol cd (w : world) bs,
  (forall i j, ren i = ren j -> i = j) ->
  (forall i j, In i (ids src) -> In j (ids src) -> ren i <> j) ->
  m = ByPosition \/ m = ByName /\ (forall i, In i (visited src) -> name (ren i) = name i) /\
                    (forall i j, In i (visited src) -> In j (visited src) -> name i = name j -> i = j) ->
  plain_branches src -> sane w ->
  (forall id, In id (ids src) -> n_act (w_node w (ren id)) = n_act (w_node w id) /\ n_det (w_node w (ren id)) = n_det (w_node w id)) ->
  (forall id, In id (visited src) -> nothing_prefetched w id /\ exists st, n_rng (w_node w id) = Own st) ->
  exists w', copy_random_state_ name (renamed ren src) src true m tol cd w = (w', None) /\
    outputs (renamed ren src) w' bs = outputs src w' bs /\ outputs src w' bs = outputs src w bs.
Proof.
  intros name ren src m tol cd w bs inj HD HM HP HS HF HV.
  set (pairs := match m with ByPosition => combine (visited src) (map ren (visited src))
                | _ => name_pairs name (visited src) (map ren (visited src)) (dict_keys name [] (map ren (visited src))) end).
  assert (EP : copy_random_state_ name (renamed ren src) src true m tol cd w = copy_pairs cd pairs w).
  { unfold copy_random_state_. rewrite augs_of_renamed, !augs_of_eq. destruct HM as [->|(-> & HN & _)].
    - rewrite map_length, Nat.eqb_refl. reflexivity.
    - apply copy_names_pairs; [|right]; intros n I N; apply dict_keys_in in I; destruct I as (_ & a & I & E).
      + apply (proj2 (dict_get_last _ _ _)) in N. rewrite Forall_forall in N. exact (N a I E).
      + apply (proj2 (dict_get_last _ _ _)) in N. rewrite Forall_forall in N. apply in_map_iff in I. destruct I as (i & <- & I).
        apply (N i I). rewrite <- E. symmetry. apply HN, I. }
  assert (IP : forall s t, In (s, t) pairs <-> In s (visited src) /\ t = ren s).
  { intros s t. unfold pairs. destruct HM as [->|(-> & HN & HU)].
    - generalize (visited src). induction l as [|x l IH]; cbn; [tauto|]. rewrite IH. split.
      + intros [E|E]; [injection E as -> ->; auto|tauto].
      + intros [[->|I] ->]; auto.
    - rewrite name_pairs_in. split.
      + intros [Hs Ht]. destruct (is_last_in _ _ _ Hs) as [I1 E1], (is_last_in _ _ _ Ht) as [I2 _]. apply in_map_iff in I2. destruct I2 as (i & <- & I2).
        split; [exact I1|]. f_equal. apply HU; [exact I2|exact I1|]. rewrite E1. symmetry. apply HN, I2.
      + intros [I ->]. rewrite (HN s I). split.
        * apply dict_get_last. destruct (dict_get name (name s) (visited src)) as [x|] eqn:E.
          -- apply dict_get_last in E. destruct (is_last_in _ _ _ E) as [J1 J2]. f_equal. apply HU; assumption.
          -- apply (proj2 (dict_get_last _ _ _)) in E. rewrite Forall_forall in E. exfalso. exact (E s I eq_refl).
        * apply dict_get_last. destruct (dict_get name (name s) (map ren (visited src))) as [x|] eqn:E.
          -- apply dict_get_last in E. destruct (is_last_in _ _ _ E) as [J1 J2]. apply in_map_iff in J1. destruct J1 as (i & <- & J1). do 2 f_equal.
             apply HU; [exact J1|exact I|]. rewrite <- (HN i J1). exact J2.
          -- apply (proj2 (dict_get_last _ _ _)) in E. rewrite Forall_forall in E. exfalso. apply (E (ren s)); [apply in_map; exact I|apply HN; exact I]. }
  destruct (copy_pairs_ok cd pairs w) as (w' & E1 & O1 & H1 & _).
  { intros s t I. apply IP in I. apply HV, I. }
  { intros s t s' t' I I'. apply IP in I, I'. destruct I as [I ->], I' as [I' ->]. split; [|apply inj].
    intros E. symmetry in E. exact (HD s' s (visited_ids src s' I') (visited_ids src s I) E). }
  assert (OO : only_rngs_of (map ren (visited src)) w w').
  { apply (only_rngs_incl _ _ _ _ O1). intros x I. apply in_map_iff in I. destruct I as ([s t] & <- & I). apply IP in I. destruct I as [I ->]. cbn [snd]. apply (in_map ren). exact I. }
  exists w'. split; [congruence|]. split.
  - apply (outputs_after ren src w w'); auto.
    + intros i j I J. apply HD; [apply visited_ids; exact I|exact J].
    + intros id I. apply HV. exact I.
    + intros id I. destruct (H1 id (ren id)) as (A & B & C); [apply IP; auto|]. split; [exact A|]. split; [|exact C].
      destruct cd; [|exact B]. rewrite B. symmetry. apply HF. apply visited_ids. exact I.
  - apply (outputs_source src w w' bs (map ren (visited src))); auto.
    intros id I J. apply in_map_iff in J. destruct J as (i & E & J). exact (HD i id (visited_ids src i J) I E).
Qed.

(** ** Errors *)
Lemma copy_one_error : forall cd s t (w w' : world) e, copy_one cd s t w = (w', Some e) -> e = GenericException.
Proof. intros cd s t w w' e. unfold copy_one. destruct (n_rng (w_node w s)); congruence. Qed.
Lemma copy_pairs_error : forall cd pairs (w w' : world) e, copy_pairs cd pairs w = (w', Some e) -> e = GenericException.
Proof.
  intros cd pairs. induction pairs as [|[s t] pairs IH]; intros w w' e H; [discriminate|]. cbn [copy_pairs] in H.
  destruct (copy_one cd s t w) as [w1 [e1|]] eqn:E; [|exact (IH _ _ _ H)]. injection H as -> ->. exact (copy_one_error _ _ _ _ _ _ E).
Qed.
Lemma copy_names_error : forall name tol cd sources targets names (w w' : world) e,
  (forall n, In n names -> dict_get name n targets <> None) ->
  copy_names name tol cd sources targets names w = (w', Some e) -> e = GenericException.
Proof.
  intros name tol cd sources targets names. induction names as [|n names IH]; intros w w' e HT H; [discriminate|]. cbn [copy_names] in H.
  assert (HT' : forall n, In n names -> dict_get name n targets <> None) by (intros m I; apply HT; right; exact I).
  specialize (HT n (or_introl eq_refl)). destruct (dict_get name n sources) as [s|].
  - destruct (dict_get name n targets) as [t|]; [|congruence]. destruct (copy_one cd s t w) as [w1 [e1|]] eqn:E; [|exact (IH _ _ _ HT' H)].
    injection H as -> ->. exact (copy_one_error _ _ _ _ _ _ E).
  - destruct tol; [exact (IH _ _ _ HT' H)|congruence].
Qed.
Lemma raises_only : forall name (target source : aug) rec m tol cd (w w' : world) e,
  copy_random_state_ name target source rec m tol cd w = (w', Some e) -> e = GenericException.
Proof.
  intros name target source rec m tol cd w w' e. unfold copy_random_state_. destruct m.
  - apply copy_names_error. intros n I N. apply dict_keys_in in I. destruct I as (_ & a & I & E). apply (proj2 (dict_get_last _ _ _)) in N.
    rewrite Forall_forall in N. exact (N a I E).
  - destruct (_ && _); [congruence|]. apply copy_pairs_error.
  - congruence.
Qed.
(** An augmenter with the global RNG keeps it unless it is a target. *)
Lemma copy_one_other : forall cd s t (w : world) id, id <> t -> w_node (fst (copy_one cd s t w)) id = w_node w id.
Proof.
  intros cd s t w id N. unfold copy_one. destruct (n_rng (w_node w s)); [reflexivity|]. destruct cd; cbn; destruct (Nat.eqb_spec id t); try contradiction; try reflexivity.
Qed.
Lemma copy_pairs_global : forall cd pairs (w : world), (exists s t, In (s, t) pairs /\ n_rng (w_node w s) = Glob /\ forall s' t', In (s', t') pairs -> s <> t') ->
  exists w', copy_pairs cd pairs w = (w', Some GenericException).
Proof.
  intros cd pairs. induction pairs as [|[s0 t0] pairs IH]; intros w (s & t & I & G & N); [destruct I|]. cbn [copy_pairs].
  destruct (copy_one cd s0 t0 w) as [w1 [e|]] eqn:E.
  - exists w1. rewrite (copy_one_error _ _ _ _ _ _ E). reflexivity.
  - destruct I as [I|I]; [injection I as -> ->; unfold copy_one in E; rewrite G in E; discriminate E|].
    apply IH. exists s, t. split; [exact I|]. split; [|intros s' t' J; apply (N s' t'); right; exact J].
    pose proof (copy_one_other cd s0 t0 w s (N s0 t0 (or_introl eq_refl))) as X. rewrite E in X. cbn [fst] in X. rewrite X. exact G.
Qed.
Lemma copy_names_missing : forall name cd sources targets names (w : world), (exists n, In n names /\ dict_get name n sources = None) ->
  (forall n, In n names -> dict_get name n targets <> None) ->
  exists w', copy_names name false cd sources targets names w = (w', Some GenericException).
Proof.
  intros name cd sources targets names. induction names as [|n names IH]; intros w (m & I & N) HT; [destruct I|]. cbn [copy_names].
  pose proof (HT n (or_introl eq_refl)) as Hn.
  destruct (dict_get name n sources) as [s|] eqn:Es; [|eexists; reflexivity].
  destruct (dict_get name n targets) as [t|]; [|congruence]. destruct (copy_one cd s t w) as [w1 [e|]] eqn:E.
  - exists w1. rewrite (copy_one_error _ _ _ _ _ _ E). reflexivity.
  - apply IH; [|intros n' I'; apply HT; right; exact I']. destruct I as [->|I]; [congruence|]. exists m. auto.
Qed.
End P.
