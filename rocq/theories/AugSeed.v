(** seed_, histories, pool workers, determinism: lemmas for C21, C33, C34. *)
From Coq Require Import Permutation Lia.
From Verif Require Import Prelude PreludeFacts AugModel AugSpec AugProofs AugChildren AugRepro.

Section P.
Context {R : rngops} {V : Type}.
Notation batch := (batch V).
Notation aug := (aug R V).
Notation world := (world R).
Notation runner := (world -> batch -> res (batch * world)).

(** ** Visited nodes *)
Fixpoint visited (a : aug) : list nat :=
  let go := (fix go (cs : list aug) : list nat :=
    match cs with [] => [] | c :: cs' => visited c ++ go cs' end) in
  aug_id a ::
  match a with
  | Leaf _ _ | ColLeaf _ _ => []
  | Seq _ _ cs | SomeOf _ _ _ cs => go cs
  | Sometimes _ _ _ t e =>
      (match t with Some (Seq _ _ cs) | Some (SomeOf _ _ _ cs) => go cs | _ => [] end) ++
      (match e with Some (Seq _ _ cs) | Some (SomeOf _ _ _ cs) => go cs | _ => [] end)
  | Wrap _ _ _ c => match c with Seq _ _ cs | SomeOf _ _ _ cs => go cs | _ => [] end
  end.

(** Generic shape of the traversals of seed_ and localize: visit the node, then
    the children of its children lists. *)
Definition visit_children (a : aug) : list aug := concat (children_lists a).

Lemma visited_eq : forall a : aug, visited a = aug_id a :: flat_map visited (visit_children a).
Proof.
  assert (G : forall cs : list aug, (fix go (cs : list aug) : list nat :=
    match cs with [] => [] | c :: cs' => visited c ++ go cs' end) cs = flat_map visited cs).
  { induction cs as [|c cs IH]; cbn; [reflexivity|now rewrite IH]. }
  intros a. destruct a as [id body|id body|id o cs|id n o cs|id p N t e|id pre post c]; cbn [visited aug_id].
  - reflexivity.
  - reflexivity.
  - rewrite G. cbn. now rewrite app_nil_r.
  - rewrite G. cbn. now rewrite app_nil_r.
  - f_equal. unfold visit_children. cbn [children_lists]. rewrite concat_app, flat_map_app. f_equal.
    + destruct t as [[| | ? ? l| ? ? ? l| |]|]; try reflexivity; cbn [children_of concat]; now rewrite app_nil_r, ?G.
    + destruct e as [[| | ? ? l| ? ? ? l| |]|]; try reflexivity; cbn [children_of concat]; now rewrite app_nil_r, ?G.
  - f_equal. unfold visit_children. cbn [children_lists].
    destruct c as [| | ? ? l| ? ? ? l| |]; try reflexivity; cbn [children_of concat]; now rewrite app_nil_r, ?G.
Qed.

(** seed_ written with one loop over all visited children. *)
Fixpoint seed_list (too : bool) (cs : list aug) (s : St R) (w : world) : St R * world :=
  match cs with
  | [] => (s, w)
  | c :: cs' => let '(d, s') := derive R s in seed_list too cs' s' (seed_aug too c d w)
  end.
Lemma seed_list_app : forall too cs cs' s (w : world),
  seed_list too (cs ++ cs') s w = let '(s', w') := seed_list too cs s w in seed_list too cs' s' w'.
Proof.
  induction cs as [|c cs IH]; intros cs' s w; cbn; [reflexivity|]. destruct (derive R s). apply IH.
Qed.
Lemma seed_aug_eq : forall too (a : aug) s (w : world),
  seed_aug too a s w =
  snd (seed_list too (visit_children a) s
         (if negb (n_det (w_node w (aug_id a))) || too then assign_rng w (aug_id a) s else w)).
Proof.
  intros too a.
  assert (G : forall cs s w, (fix go (cs : list aug) (s : St R) (w : world) : St R * world :=
               match cs with
               | [] => (s, w)
               | c :: cs' => let '(d, s') := derive R s in go cs' s' (seed_aug too c d w)
               end) cs s w = seed_list too cs s w).
  { induction cs as [|c cs IH]; intros s w; cbn; [reflexivity|]. destruct (derive R s). apply IH. }
  intros s w. destruct a as [id body|id body|id o cs|id n o cs|id p N t e|id pre post c]; cbn [seed_aug aug_id].
  - reflexivity.
  - reflexivity.
  - rewrite G. unfold visit_children. cbn. now rewrite app_nil_r.
  - rewrite G. unfold visit_children. cbn. now rewrite app_nil_r.
  - set (w1 := if negb _ || too then assign_rng w id s else w). unfold visit_children. cbn [children_lists].
    rewrite concat_app, seed_list_app.
    destruct t as [[| | ? ? l| ? ? ? l| |]|]; cbn [children_of concat app seed_list];
      rewrite ?app_nil_r, ?G;
      try (destruct (seed_list too l s w1) as [s2 w2]);
      destruct e as [[| | ? ? l'| ? ? ? l'| |]|]; cbn [children_of concat app seed_list];
      rewrite ?app_nil_r, ?G; reflexivity.
  - set (w1 := if negb _ || too then assign_rng w id s else w). unfold visit_children. cbn [children_lists].
    destruct c as [| | ? ? l| ? ? ? l| |]; cbn [children_of concat app seed_list];
      rewrite ?app_nil_r, ?G; reflexivity.
Qed.

(** Size of a tree, for recursion along the visited children. *)
#[local] Arguments list_sum : simpl never.
Fixpoint asize (a : aug) : nat :=
  match a with
  | Leaf _ _ | ColLeaf _ _ => 1
  | Seq _ _ cs | SomeOf _ _ _ cs => S (list_sum (map asize cs))
  | Sometimes _ _ _ t e => S (match t with Some a' => asize a' | None => 0 end +
                              match e with Some a' => asize a' | None => 0 end)
  | Wrap _ _ _ c => S (asize c)
  end.
Lemma list_sum_in : forall (f : aug -> nat) cs c, In c cs -> (f c <= list_sum (map f cs))%nat.
Proof. intros f cs; induction cs as [|x cs IH]; intros c H; [destruct H|].
  change (f c <= f x + list_sum (map f cs))%nat. destruct H as [->|H]; [lia|]. specialize (IH c H). lia. Qed.
Lemma children_of_size : forall (a c : aug), In c (children_of a) -> (asize c < asize a)%nat.
Proof.
  intros a c H. destruct a; cbn in H; try tauto; apply (list_sum_in asize) in H; cbn; lia.
Qed.
Lemma visit_children_size : forall (a c : aug), In c (visit_children a) -> (asize c < asize a)%nat.
Proof.
  intros a c H. unfold visit_children in H. apply in_concat in H. destruct H as (l & Hl & Hc).
  destruct a as [id body|id body|id o cs|id n o cs|id p N t e|id pre post d]; cbn in Hl; try tauto.
  - destruct Hl as [<-|[]]. apply (list_sum_in asize) in Hc. cbn. lia.
  - destruct Hl as [<-|[]]. apply (list_sum_in asize) in Hc. cbn. lia.
  - apply in_app_or in Hl. cbn. destruct Hl as [Hl|Hl].
    + destruct t as [t|]; [|destruct Hl]. destruct Hl as [<-|[]]. apply children_of_size in Hc. lia.
    + destruct e as [e|]; [|destruct Hl]. destruct Hl as [<-|[]]. apply children_of_size in Hc. lia.
  - destruct Hl as [<-|[]]. apply children_of_size in Hc. cbn. lia.
Qed.
(** Induction along visited children. *)
Lemma visit_ind : forall P : aug -> Prop,
  (forall a, (forall c, In c (visit_children a) -> P c) -> P a) -> forall a, P a.
Proof.
  intros P H a. remember (asize a) as n eqn:En. revert a En.
  induction n as [n IH] using lt_wf_ind. intros a ->. apply H. intros c Hc.
  eapply IH; [|reflexivity]. now apply visit_children_size.
Qed.

(** Seeding brings two worlds into relation on the visited augmenters. *)
Section SeedRel.
Variable gl : bool.
Variable S : nat -> Prop.

Definition seed_inv (K Kc : nat -> Prop) (w1 w2 : world) : Prop :=
  (gl = true -> w_glob w1 = w_glob w2) /\
  (forall id, S id -> n_act (w_node w1 id) = n_act (w_node w2 id) /\
                      n_det (w_node w1 id) = n_det (w_node w2 id)) /\
  (forall id, S id -> n_det (w_node w1 id) = true ->
     exists s, n_rng (w_node w1 id) = Own s /\ n_rng (w_node w2 id) = Own s) /\
  (forall id i k, c_last (n_cache (w_node w1 id) i) = Some k -> k < w_next w1)%Z /\
  (forall id i k, c_last (n_cache (w_node w2 id) i) = Some k -> k < w_next w2)%Z /\
  (forall id, K id -> node_rel gl (w_node w1 id) (w_node w2 id)) /\
  (forall id, Kc id -> caches_rel (w_node w1 id) (w_node w2 id)).

Lemma seed_inv_mono : forall (K K' Kc Kc' : nat -> Prop) w1 w2,
  (forall id, K' id -> K id) -> (forall id, Kc' id -> Kc id) ->
  seed_inv K Kc w1 w2 -> seed_inv K' Kc' w1 w2.
Proof.
  intros K K' Kc Kc' w1 w2 H H' (A & B & C & E & F & G & G').
  refine (conj A (conj B (conj C (conj E (conj F (conj _ _)))))); auto.
Qed.

Lemma assign_inv : forall K Kc w1 w2 id s, S id -> seed_inv K Kc w1 w2 ->
  n_det (w_node w1 id) = false ->
  seed_inv (fun j => K j \/ j = id) (fun j => Kc j \/ j = id) (assign_rng w1 id s) (assign_rng w2 id s).
Proof.
  intros K Kc w1 w2 id s Hid (A & B & C & E & F & G & G') Hd. destruct (B id Hid) as [B1 B2].
  unfold assign_rng, seed_inv. cbn.
  split; [exact A|]. split; [|split; [|split; [|split; [|split]]]].
  - intros j Hj. destruct (Nat.eqb_spec j id) as [->|]; cbn; auto.
  - intros j Hj. destruct (Nat.eqb_spec j id) as [->|]; cbn; [congruence|auto].
  - intros j i k. destruct (Nat.eqb_spec j id) as [->|]; cbn; intros Hk; apply E in Hk; lia.
  - intros j i k. destruct (Nat.eqb_spec j id) as [->|]; cbn; intros Hk; apply F in Hk; lia.
  - intros j Hj. destruct (Nat.eqb_spec j id) as [->|N]; [|destruct Hj as [Hj|Hj]; [auto|tauto]].
    unfold node_rel. cbn. repeat split; auto.
  - intros j Hj. destruct (Nat.eqb_spec j id) as [->|N]; [|destruct Hj as [Hj|Hj]; [auto|tauto]].
    unfold caches_rel. cbn. intros _ i. left. split; intros Q.
    + apply E in Q. lia.
    + apply F in Q. lia.
Qed.

Lemma det_inv : forall K Kc w1 w2 id, S id -> seed_inv K Kc w1 w2 -> n_det (w_node w1 id) = true ->
  seed_inv (fun j => K j \/ j = id) (fun j => Kc j \/ j = id) w1 w2.
Proof.
  intros K Kc w1 w2 id Hid (A & B & C & E & F & G & G') Hd.
  refine (conj A (conj B (conj C (conj E (conj F (conj _ _)))))).
  - intros j [H| ->]; [apply G; exact H|]. destruct (B id Hid) as [B1 B2].
    repeat split; auto. destruct (C id Hid Hd) as (s & -> & ->). reflexivity.
  - intros j [H| ->]; [apply G'; exact H|]. unfold caches_rel. congruence.
Qed.

Lemma seed_aug_inv : forall (a : aug) K Kc s w1 w2, (forall id, In id (visited a) -> S id) ->
  seed_inv K Kc w1 w2 ->
  seed_inv (fun j => K j \/ In j (visited a)) (fun j => Kc j \/ In j (visited a))
    (seed_aug false a s w1) (seed_aug false a s w2).
Proof.
  intros a. induction a as [a IH] using visit_ind. intros K Kc s w1 w2 HS HI.
  rewrite !seed_aug_eq, visited_eq, !orb_false_r. rewrite visited_eq in HS.
  assert (Hid : S (aug_id a)) by (apply HS; now left).
  pose proof HI as (_ & B & _). destruct (B _ Hid) as [_ Bd]. rewrite <- Bd.
  assert (HI' : seed_inv (fun j => K j \/ j = aug_id a) (fun j => Kc j \/ j = aug_id a)
     (if negb (n_det (w_node w1 (aug_id a))) then assign_rng w1 (aug_id a) s else w1)
     (if negb (n_det (w_node w1 (aug_id a))) then assign_rng w2 (aug_id a) s else w2)).
  { destruct (n_det (w_node w1 (aug_id a))) eqn:Hd; cbn [negb]; [now apply det_inv|now apply assign_inv]. }
  set (v1 := if negb _ then assign_rng w1 _ _ else _) in *. set (v2 := if negb _ then assign_rng w2 _ _ else _) in *.
  assert (HL : forall cs K Kc s v1 v2, (forall c, In c cs -> In c (visit_children a)) ->
    (forall id, In id (flat_map visited cs) -> S id) -> seed_inv K Kc v1 v2 ->
    seed_inv (fun j => K j \/ In j (flat_map visited cs)) (fun j => Kc j \/ In j (flat_map visited cs))
      (snd (seed_list false cs s v1)) (snd (seed_list false cs s v2))).
  { clear - IH. induction cs as [|c cs IHcs]; intros K Kc s v1 v2 Hc HSc HI.
    - cbn. eapply seed_inv_mono; [| |exact HI]; cbn; tauto.
    - cbn [seed_list flat_map]. destruct (derive R s) as [d s'].
      eapply seed_inv_mono; [| |apply IHcs].
      3: intros; apply Hc; now right.
      3: intros; apply HSc; cbn; apply in_or_app; now right.
      3: apply IH; [apply Hc; now left|intros; apply HSc; cbn; apply in_or_app; now left|exact HI].
      all: cbn; intros id H; rewrite in_app_iff in H; tauto. }
  eapply seed_inv_mono; [| |apply HL; [auto|intros; apply HS; now right|exact HI']].
  all: cbn; intros id H; destruct H as [H|[H|H]]; auto.
Qed.
End SeedRel.

Lemma in_visit_children_draws : forall (a c : aug), In c (visit_children a) -> incl (draws c) (draws a).
Proof.
  intros a c H j Hj. unfold visit_children in H. apply in_concat in H. destruct H as (l & Hl & Hc).
  assert (HC : forall d : aug, In c (children_of d) -> In j (draws d)).
  { intros d Hd. destruct d; cbn in Hd; try tauto; cbn.
    - apply in_or_app. right. apply in_flat_map. eauto.
    - right. apply in_flat_map. eauto. }
  destruct a as [id body|id body|id o cs|id n o cs|id p N t e|id pre post d]; cbn in Hl; try tauto.
  - destruct Hl as [<-|[]]. apply (HC (Seq id o cs)). exact Hc.
  - destruct Hl as [<-|[]]. apply (HC (SomeOf id n o cs)). exact Hc.
  - apply in_app_or in Hl. cbn. right. apply in_or_app. destruct Hl as [Hl|Hl].
    + destruct t as [t|]; [|destruct Hl]. destruct Hl as [<-|[]]. left. now apply HC.
    + destruct e as [e|]; [|destruct Hl]. destruct Hl as [<-|[]]. right. now apply HC.
  - destruct Hl as [<-|[]]. cbn. now apply HC.
Qed.

Lemma fold_and : forall (P : aug -> Prop) cs, fold_right and True (map P cs) <-> Forall P cs.
Proof.
  intros P cs; induction cs as [|c cs IH]; cbn; [split; [constructor|auto]|].
  rewrite IH. split; [intros [A B]; now constructor|intros H; inversion H; auto].
Qed.

(** All drawing augmenters are visited, except for list-like branches. *)
Lemma draws_visited : forall (a : aug), list_branches a -> forall id, In id (draws a) ->
  In id (visited a) \/ In id (drawing_branches a).
Proof.
  intros a. remember (asize a) as n eqn:En. revert a En.
  induction n as [n IH] using lt_wf_ind. intros a -> HB j Hj.
  assert (HCs : forall cs, (forall c, In c cs -> (asize c < asize a)%nat) -> Forall list_branches cs ->
    In j (flat_map draws cs) -> In j (flat_map visited cs) \/ In j (flat_map drawing_branches cs)).
  { intros cs Hs HF Hin. apply in_flat_map in Hin. destruct Hin as (c & Hc & Hjc).
    rewrite Forall_forall in HF.
    destruct (IH (asize c) (Hs c Hc) c eq_refl (HF c Hc) j Hjc) as [H|H]; [left|right];
      apply in_flat_map; eauto. }
  assert (HBr : forall d : aug, (asize d < asize a)%nat -> list_like d -> list_branches d -> In j (draws d) ->
    In j (flat_map visited (children_of d)) \/ In j (own_id d ++ drawing_branches d)).
  { intros d Hs HL HBd Hin. destruct d as [| |id' o cs|id' n o cs| |]; cbn in HL; try tauto; cbn in HBd, Hin |- *.
    - rewrite fold_and in HBd. apply in_app_or in Hin. destruct Hin as [Hin|Hin].
      + right. destruct o; [|destruct Hin]. apply in_or_app. now left.
      + destruct (HCs cs) as [H|H]; auto.
        * intros c Hc. pose proof (list_sum_in asize cs c Hc). cbn in Hs. lia.
        * right. apply in_or_app. now right.
    - rewrite fold_and in HBd. destruct Hin as [Hin|Hin]; [right; now left|].
      destruct (HCs cs) as [H|H]; auto.
      intros c Hc. pose proof (list_sum_in asize cs c Hc). cbn in Hs. lia. }
  rewrite visited_eq. unfold visit_children.
  destruct a as [id body|id body|id o cs|id n o cs|id p N t e|id pre post d]; cbn [children_lists aug_id].
  - left. exact Hj.
  - left. exact Hj.
  - cbn in HB. rewrite fold_and in HB. cbn [concat]. rewrite app_nil_r. cbn in Hj |- *.
    apply in_app_or in Hj. destruct Hj as [Hj|Hj].
    + left. left. destruct o; [|destruct Hj]. destruct Hj as [Hj|[]]. exact Hj.
    + destruct (HCs cs) as [H|H]; auto. intros c Hc. pose proof (list_sum_in asize cs c Hc). cbn. lia.
  - cbn in HB. rewrite fold_and in HB. cbn [concat]. rewrite app_nil_r. cbn in Hj |- *.
    destruct Hj as [Hj|Hj]; [auto|].
    destruct (HCs cs) as [H|H]; auto. intros c Hc. pose proof (list_sum_in asize cs c Hc). cbn. lia.
  - destruct HB as [HB1 HB2]. cbn in Hj. destruct Hj as [Hj|Hj]; [left; now left|].
    cbn [drawing_branches]. rewrite concat_app, flat_map_app.
    apply in_app_or in Hj. destruct Hj as [Hj|Hj].
    + destruct t as [t|]; [|destruct Hj]. destruct HB1 as [HL HB1].
      destruct (HBr t) as [H|H]; auto; [cbn; lia| |].
      * left. right. apply in_or_app. left. cbn [concat]. now rewrite app_nil_r.
      * right. apply in_or_app. now left.
    + destruct e as [e|]; [|destruct Hj]. destruct HB2 as [HL HB2].
      destruct (HBr e) as [H|H]; auto; [cbn; lia| |].
      * left. right. apply in_or_app. right. cbn [concat]. now rewrite app_nil_r.
      * right. apply in_or_app. now right.
  - destruct HB as [HL HB]. cbn in Hj. destruct (HBr d) as [H|H]; auto.
    left. right. cbn [concat]. now rewrite app_nil_r.
Qed.

Lemma plain_list_branches : forall a : aug, plain_branches a -> list_branches a /\ drawing_branches a = [].
Proof.
  intros a. induction a using aug_ind2; cbn; intros HP; auto.
  - rewrite fold_and in *. induction cs as [|c cs IHc]; cbn; auto.
    inversion H; subst. inversion HP; subst. destruct (H2 H4) as [A ->].
    destruct (IHc H3 H5) as [B C]. split; [now constructor|exact C].
  - rewrite fold_and in *. induction cs as [|c cs IHc]; cbn; auto.
    inversion H; subst. inversion HP; subst. destruct (H2 H4) as [A ->].
    destruct (IHc H3 H5) as [B C]. split; [now constructor|exact C].
  - assert (HX : forall o : option aug, (forall a, o = Some a -> plain_branches a -> list_branches a /\ drawing_branches a = []) ->
      match o with Some a' => plain_list a' /\ plain_branches a' | None => True end ->
      match o with Some a' => list_like a' /\ list_branches a' | None => True end /\
      match o with Some a' => own_id a' ++ drawing_branches a' | None => [] end = []).
    { intros [a|] Ha Hp; auto. destruct Hp as [P1 P2]. destruct (Ha a eq_refl P2) as [A ->].
      destruct a as [| | ? [] ?| | |]; cbn in *; tauto. }
    destruct HP as [P1 P2]. destruct (HX t H P1) as [A ->]. destruct (HX e H0 P2) as [B ->]. auto.
  - destruct HP as [P1 P2]. destruct (IHa P2) as [A ->].
    destruct a as [| | ? [] ?| | |]; cbn in *; tauto.
Qed.

Lemma draws_ids : forall a : aug, incl (draws a) (ids a).
Proof.
  intros a. induction a using aug_ind2; cbn; intros j Hj; auto.
  - apply in_app_or in Hj. destruct Hj as [Hj|Hj].
    + destruct o; [|destruct Hj]. destruct Hj as [Hj|[]]. now left.
    + right. apply in_flat_map in Hj. destruct Hj as (c & Hc & Hj). apply in_flat_map. exists c.
      split; auto. rewrite Forall_forall in H. now apply H.
  - destruct Hj as [Hj|Hj]; [now left|right].
    apply in_flat_map in Hj. destruct Hj as (c & Hc & Hj). apply in_flat_map. exists c.
      split; auto. rewrite Forall_forall in H. now apply H.
  - destruct Hj as [Hj|Hj]; [now left|right]. apply in_app_or in Hj. apply in_or_app. destruct Hj as [Hj|Hj].
    + left. destruct t as [t|]; [|destruct Hj]. now apply (H t eq_refl).
    + right. destruct e as [e|]; [|destruct Hj]. now apply (H0 e eq_refl).
  - right. now apply IHa.
Qed.
Lemma quiets_ids : forall a : aug, incl (quiets a) (ids a).
Proof.
  intros a. induction a using aug_ind2; cbn; intros j Hj; auto; try (now destruct Hj).
  - apply in_app_or in Hj. destruct Hj as [Hj|Hj].
    + destruct o; [destruct Hj|]. destruct Hj as [Hj|[]]. now left.
    + right. apply in_flat_map in Hj. destruct Hj as (c & Hc & Hj). apply in_flat_map. exists c.
      split; auto. rewrite Forall_forall in H. now apply H.
  - right. apply in_flat_map in Hj. destruct Hj as (c & Hc & Hj). apply in_flat_map. exists c.
      split; auto. rewrite Forall_forall in H. now apply H.
  - right. apply in_app_or in Hj. apply in_or_app. destruct Hj as [Hj|Hj].
    + left. destruct t as [t|]; [|destruct Hj]. now apply (H t eq_refl).
    + right. destruct e as [e|]; [|destruct Hj]. now apply (H0 e eq_refl).
  - destruct Hj as [Hj|Hj]; [now left|right]. now apply IHa.
Qed.
Lemma visited_ids : forall a : aug, incl (visited a) (ids a).
Proof.
  intros a. induction a as [a IH] using visit_ind. rewrite visited_eq. intros j [<-|Hj].
  - destruct a; now left.
  - apply in_flat_map in Hj. destruct Hj as (c & Hc & Hj). apply (IH c Hc) in Hj.
    unfold visit_children in Hc. apply in_concat in Hc. destruct Hc as (l & Hl & Hc).
    assert (HC : forall d : aug, In c (children_of d) -> In j (ids d)).
    { intros d Hd. destruct d; cbn in Hd; try tauto; cbn; right; apply in_flat_map; eauto. }
    destruct a as [id body|id body|id o cs|id n o cs|id p N t e|id pre post d]; cbn in Hl; try tauto.
    + destruct Hl as [<-|[]]. apply (HC (Seq id o cs)). exact Hc.
    + destruct Hl as [<-|[]]. apply (HC (SomeOf id n o cs)). exact Hc.
    + apply in_app_or in Hl. cbn. right. apply in_or_app. destruct Hl as [Hl|Hl].
      * destruct t as [t|]; [|destruct Hl]. destruct Hl as [<-|[]]. left. now apply HC.
      * destruct e as [e|]; [|destruct Hl]. destruct Hl as [<-|[]]. right. now apply HC.
    + destruct Hl as [<-|[]]. cbn. right. now apply HC.
Qed.

(** Two worlds in which the tree [a] has the same flags, and its deterministic
    augmenters the same RNG states. *)
Definition same_setup (a : aug) (w1 w2 : world) : Prop :=
  forall id, In id (ids a) ->
    n_act (w_node w1 id) = n_act (w_node w2 id) /\ n_det (w_node w1 id) = n_det (w_node w2 id) /\
    (n_det (w_node w1 id) = true -> exists s, n_rng (w_node w1 id) = Own s /\ n_rng (w_node w2 id) = Own s).

Lemma caching_visited : forall (a : aug), list_branches a -> forall id, In id (caching a) -> In id (visited a).
Proof.
  intros a. remember (asize a) as n eqn:En. revert a En.
  induction n as [n IH] using lt_wf_ind. intros a -> HB j Hj.
  assert (HCs : forall cs, (forall c, In c cs -> (asize c < asize a)%nat) -> Forall list_branches cs ->
    In j (flat_map caching cs) -> In j (flat_map visited cs)).
  { intros cs Hs HF Hin. apply in_flat_map in Hin. destruct Hin as (c & Hc & Hjc).
    rewrite Forall_forall in HF. apply in_flat_map. exists c. split; [exact Hc|].
    apply (IH (asize c) (Hs c Hc) c eq_refl (HF c Hc) j Hjc). }
  assert (HBr : forall d : aug, (asize d < asize a)%nat -> list_like d -> list_branches d -> In j (caching d) ->
    In j (flat_map visited (children_of d))).
  { intros d Hs HL HBd Hin. destruct d as [| |id' o cs|id' n o cs| |]; cbn in HL; try tauto; cbn in HBd, Hin |- *;
      rewrite fold_and in HBd; apply HCs; auto; intros c Hc; pose proof (list_sum_in asize cs c Hc); cbn in Hs; lia. }
  rewrite visited_eq. unfold visit_children.
  destruct a as [id body|id body|id o cs|id n o cs|id p N t e|id pre post d]; cbn [children_lists aug_id].
  - exact Hj.
  - exact Hj.
  - cbn in HB. rewrite fold_and in HB. cbn [concat]. rewrite app_nil_r. right. apply HCs; auto.
    intros c Hc. pose proof (list_sum_in asize cs c Hc). cbn. lia.
  - cbn in HB. rewrite fold_and in HB. cbn [concat]. rewrite app_nil_r. right. apply HCs; auto.
    intros c Hc. pose proof (list_sum_in asize cs c Hc). cbn. lia.
  - destruct HB as [HB1 HB2]. cbn in Hj. destruct Hj as [Hj|Hj]; [now left|].
    rewrite concat_app, flat_map_app. right. apply in_or_app. apply in_app_or in Hj. destruct Hj as [Hj|Hj].
    + destruct t as [t|]; [|destruct Hj]. destruct HB1 as [HL HB1]. left. cbn [concat]. rewrite app_nil_r.
      apply HBr; auto. cbn. lia.
    + destruct e as [e|]; [|destruct Hj]. destruct HB2 as [HL HB2]. right. cbn [concat]. rewrite app_nil_r.
      apply HBr; auto. cbn. lia.
  - destruct HB as [HL HB]. cbn in Hj. right. cbn [concat]. rewrite app_nil_r. apply HBr; auto.
Qed.
Lemma caching_draws : forall a : aug, incl (caching a) (draws a).
Proof.
  intros a. induction a using aug_ind2; cbn; intros j Hj; auto.
  - apply in_or_app. right. apply in_flat_map in Hj. destruct Hj as (c & Hc & Hj). apply in_flat_map. exists c.
    split; auto. rewrite Forall_forall in H. now apply H.
  - right. apply in_flat_map in Hj. destruct Hj as (c & Hc & Hj). apply in_flat_map. exists c.
    split; auto. rewrite Forall_forall in H. now apply H.
  - destruct Hj as [Hj|Hj]; [now left|right]. apply in_app_or in Hj. apply in_or_app. destruct Hj as [Hj|Hj].
    + left. destruct t as [t|]; [|destruct Hj]. now apply (H t eq_refl).
    + right. destruct e as [e|]; [|destruct Hj]. now apply (H0 e eq_refl).
Qed.

Lemma seed_relates : forall gl (a : aug) s w1 w2,
  list_branches a -> sane w1 -> sane w2 -> same_setup a w1 w2 ->
  (gl = true -> w_glob w1 = w_glob w2) ->
  (forall id, In id (drawing_branches a) -> In id (draws a) -> ~ In id (visited a) ->
     node_rel gl (w_node w1 id) (w_node w2 id)) ->
  world_rel gl (fun id => In id (draws a)) (fun id => In id (caching a)) (fun id => In id (quiets a))
    (seed_aug false a s w1) (seed_aug false a s w2).
Proof.
  intros gl a s w1 w2 HB (A1 & A2 & A3) (B1 & B2 & B3) HSet HG HD.
  assert (HI : seed_inv gl (fun id => In id (ids a))
            (fun id => In id (drawing_branches a) /\ In id (draws a) /\ ~ In id (visited a))
            (fun _ => False) w1 w2).
  { refine (conj HG (conj _ (conj _ (conj A2 (conj B2 (conj _ _)))))).
    - intros id Hid. destruct (HSet id Hid) as (X & Y & _). auto.
    - intros id Hid Hd. now apply HSet.
    - intros id (P & Q & T). apply (HD _ P Q T).
    - intros id []. }
  pose proof (seed_aug_inv gl _ a _ _ s w1 w2 (visited_ids a) HI) as (C1 & C2 & C3 & C4 & C5 & C6 & C7).
  split; [exact C1|]. split; [|split].
  - intros id Hid. apply C6.
    destruct (in_dec Nat.eq_dec id (visited a)) as [Hv|Hv]; [now right|left].
    destruct (draws_visited a HB id Hid) as [H|H]; [tauto|auto].
  - intros id Hid. apply C7. right. now apply caching_visited.
  - intros id Hid. apply quiets_ids in Hid. destruct (C2 id Hid) as [E1 E2].
    split; [exact E1|]. split; [exact E2|]. intros Hd. destruct (C3 id Hid Hd) as (x & -> & ->). cbn; auto.
Qed.

Lemma run_agree : forall gl hk ps (a : aug) w1 w2 b,
  world_rel gl (fun id => In id (draws a)) (fun id => In id (caching a)) (fun id => In id (quiets a)) w1 w2 ->
  rrel gl (fun id => In id (draws a)) (fun id => In id (caching a)) (fun id => In id (quiets a))
    (run hk ps a w1 b) (run hk ps a w2 b).
Proof. intros. now apply (run_rel gl _ _ _ (caching_draws a)). Qed.

Lemma outputs_rel : forall gl (a : aug) bs w1 w2,
  world_rel gl (fun id => In id (draws a)) (fun id => In id (caching a)) (fun id => In id (quiets a)) w1 w2 ->
  outputs a w1 bs = outputs a w2 bs.
Proof.
  intros gl a bs; induction bs as [|b bs IH]; intros w1 w2 HW; [reflexivity|]. cbn.
  pose proof (run_agree gl None [] a w1 w2 b HW) as HR. unfold rrel in HR.
  destruct (run None [] a w1 b) as [[b1 v1]|], (run None [] a w2 b) as [[b2 v2]|]; try tauto; [|congruence].
  destruct HR as [<- HV]. f_equal. now apply IH.
Qed.

Lemma seed_reproducible : forall (a : aug) seed bs w1 w2,
  plain_branches a -> sane w1 -> sane w2 -> same_setup a w1 w2 ->
  outputs a (seed_ a seed w1) bs = outputs a (seed_ a seed w2) bs.
Proof.
  intros a seed bs w1 w2 HP S1 S2 HS. destruct (plain_list_branches a HP) as [HB HD].
  apply (outputs_rel false). apply seed_relates; auto; [discriminate|].
  intros id Hid. rewrite HD in Hid. destruct Hid.
Qed.

(* ------------------------------------------------------------------ *)
(** ** Histories *)

(** What no operation of a program changes. *)
Definition kept (w w' : world) : Prop :=
  forall id, n_act (w_node w' id) = n_act (w_node w id) /\ n_det (w_node w' id) = n_det (w_node w id) /\
    (n_det (w_node w id) = true -> is_own (n_rng (w_node w id)) -> n_rng (w_node w' id) = n_rng (w_node w id)).

Lemma kept_refl : forall w, kept w w.
Proof. intros w id. auto. Qed.
Lemma kept_trans : forall w1 w2 w3, kept w1 w2 -> kept w2 w3 -> kept w1 w3.
Proof.
  intros w1 w2 w3 H1 H2 id. destruct (H1 id) as (A & B & C), (H2 id) as (A' & B' & C').
  repeat split; try congruence. intros Hd Ho. rewrite C'; [now apply C|congruence|]. now rewrite C.
Qed.

(** [kept], except for the RNG of [x]. *)
Definition kept_but (x : nat) (w w' : world) : Prop :=
  forall id, n_act (w_node w' id) = n_act (w_node w id) /\ n_det (w_node w' id) = n_det (w_node w id) /\
    (is_own (n_rng (w_node w id)) -> is_own (n_rng (w_node w' id))) /\
    (id <> x -> n_det (w_node w id) = true -> is_own (n_rng (w_node w id)) ->
       n_rng (w_node w' id) = n_rng (w_node w id)).
Definition kept_own (w w' : world) : Prop :=
  kept w w' /\ forall id, is_own (n_rng (w_node w id)) -> is_own (n_rng (w_node w' id)).
Lemma kept_but_refl : forall x w, kept_but x w w.
Proof. intros x w id. auto. Qed.
Lemma kept_but_trans : forall x w1 w2 w3, kept_but x w1 w2 -> kept_but x w2 w3 -> kept_but x w1 w3.
Proof.
  intros x w1 w2 w3 H1 H2 id. destruct (H1 id) as (A & B & C & D), (H2 id) as (A' & B' & C' & D').
  repeat split; try congruence; auto. intros Hx Hd Ho. rewrite D'; [now apply D|exact Hx|congruence|]. now rewrite D.
Qed.
Lemma kept_kept_but : forall x w w', kept_own w w' -> kept_but x w w'.
Proof.
  intros x w w' [H HO] id. destruct (H id) as (A & B & C). repeat split; auto.
Qed.
Lemma set_st_kept_but : forall w id s, kept_but id w (set_st w id s).
Proof.
  intros w id s j. unfold set_st. destruct (n_rng (w_node w id)) eqn:E; cbn; [auto|].
  destruct (Nat.eqb_spec j id) as [->|]; cbn; [|auto]. repeat split; auto; try tauto.
Qed.
Lemma set_cache_kept_but : forall w id i c, kept_but id w (set_cache w id i c).
Proof.
  intros w id i c j. cbn. destruct (Nat.eqb_spec j id) as [->|]; cbn; auto.
Qed.

Lemma augment_kept : forall hk id parents (f : runner), finv (kept_but id) f ->
  finv kept_own (augment_batch hk id parents f).
Proof.
  intros hk id parents f HF w b b' w' E. unfold augment_batch in E.
  apply bind_ok in E. destruct E as ([b1 w1] & E1 & E). cbn in E. injection E as <- <-.
  destruct (Nat.eqb _ 0).
  - injection E1 as <- <-. split; [apply kept_refl|auto].
  - apply bind_ok in E1. destruct E1 as ([b2 w2] & E2 & E1). cbn in E1. injection E1 as <- <-.
    apply HF in E2.
    assert (HK : kept_but id w (if n_det (w_node w id) then set_st w2 id (get_st w id) else w2)).
    { destruct (n_det (w_node w id)); [|exact E2]. eapply kept_but_trans; [exact E2|apply set_st_kept_but]. }
    split; [|intros j; apply HK].
    intros j. destruct (HK j) as (A & B & C & D). repeat split; auto. intros Hd Ho.
    destruct (Nat.eq_dec j id) as [->|Hj]; [|auto]. rewrite Hd.
    destruct (E2 id) as (_ & _ & C2 & _). specialize (C2 Ho).
    unfold set_st. destruct (n_rng (w_node w2 id)) eqn:E3; cbn in C2; [tauto|].
    cbn. rewrite Nat.eqb_refl. cbn. unfold get_st.
    destruct (n_rng (w_node w id)); cbn in Ho; [tauto|reflexivity].
Qed.

Lemma run_kept : forall hk (a : aug) parents, finv kept_own (run hk parents a).
Proof.
  intros hk a.
  assert (ST : forall id (w : world) j s, j = id -> kept_but id w (set_st w j s)).
  { intros id w j s ->. apply set_st_kept_but. }
  assert (SC : forall id (w : world) j i c, j = id ->
    (c_last c = c_last (n_cache (w_node w j) i) \/ c_last c = Some (n_key (w_node w j))) ->
    kept_but id w (set_cache w j i c)).
  { intros id w j i c -> _. apply set_cache_kept_but. }
  assert (HC : forall id ps (cs : list aug), Forall (fun a => forall parents, finv kept_own (run hk parents a)) cs ->
     Forall (finv (kept_but id)) (map (run hk ps) cs)).
  { intros id ps cs H. apply Forall_map. eapply Forall_impl; [|exact H]. cbn. intros c Hc w b b' w' E.
    apply kept_kept_but. eapply Hc; eauto. }
  induction a using aug_ind2; intros ps; cbn [run]; apply augment_kept.
  - intros w b b' w' E. apply Ok_inj in E.
    eapply (run_prog_inv (kept_but id) (fun j => j = id)); eauto using kept_but_refl, kept_but_trans.
  - intros w b b' w' E. unfold run_columns in E.
    destruct (col_loop _ _ _ _ _ _ _) as [b1 w1] eqn:E1. apply Ok_inj in E. injection E as <- <-.
    eapply kept_but_trans.
    + eapply (col_loop_inv (kept_but id) (fun j => j = id)); eauto using kept_but_refl, kept_but_trans.
    + destruct (_ && _); [apply set_st_kept_but|apply kept_but_refl].
  - apply propagating_inv. intros w b b' w' E. destruct (draw_order _ _ _ _) as [order w1] eqn:E1.
    eapply kept_but_trans.
    + eapply (draw_order_inv (kept_but id) (fun j => j = id)); eauto using kept_but_refl, kept_but_trans.
    + eapply (seq_loop_inv (kept_but id)); [apply kept_but_refl|apply kept_but_trans| |exact E]. now apply HC.
  - apply propagating_inv. intros w b b' w' E. destruct (draw_order _ _ _ _) as [order w1] eqn:E1.
    destruct (draw_active _ _ _ _ _) as [active w2] eqn:E2.
    eapply kept_but_trans.
    + eapply (draw_order_inv (kept_but id) (fun j => j = id)); eauto using kept_but_refl, kept_but_trans.
    + eapply kept_but_trans.
      * eapply (draw_active_inv (kept_but id) (fun j => j = id)); eauto using kept_but_refl, kept_but_trans.
      * eapply (someof_loop_inv (kept_but id)); [apply kept_but_refl|apply kept_but_trans| |exact E]. now apply HC.
  - apply propagating_inv. intros w b b' w' E. destruct (run_prog _ _ _ _) as [s1 w1] eqn:E1.
    apply bind_ok in E. destruct E as ([b1 v1] & E2 & E). cbn in E.
    eapply kept_but_trans.
    + eapply (run_prog_inv (kept_but id) (fun j => j = id)); eauto using kept_but_refl, kept_but_trans.
    + eapply kept_but_trans.
      * eapply (sometimes_branch_inv (kept_but id)); [apply kept_but_refl| |exact E2]. intros g.
        destruct t as [a|]; [|discriminate]. destruct (Nat.eqb _ _); [discriminate|].
        intros Eg; injection Eg as <-. intros x y x' y' Er. apply kept_kept_but. eapply (H a eq_refl); eauto.
      * eapply (sometimes_branch_inv (kept_but id)); [apply kept_but_refl| |exact E]. intros g.
        destruct e as [a|]; [|discriminate]. destruct (Nat.eqb _ _); [discriminate|].
        intros Eg; injection Eg as <-. intros x y x' y' Er. apply kept_kept_but. eapply (H0 a eq_refl); eauto.
  - apply propagating_inv. intros w b b' w' E.
    apply bind_ok in E. destruct E as (b1 & E1 & E).
    apply bind_ok in E. destruct E as ([b2 w2] & E2 & E).
    apply bind_ok in E. destruct E as (b3 & E3 & E). injection E as <- <-. cbn.
    apply kept_kept_but. eapply IHa; eauto.
Qed.

(** Sanity of worlds is preserved by everything. *)
Definition sane_step (w w' : world) : Prop := sane w -> sane w'.

Lemma set_st_sane : forall w id s, sane_step w (set_st w id s).
Proof.
  intros w id s (A & B & C). unfold set_st. destruct (n_rng (w_node w id)) eqn:E.
  - split; [exact A|split; [exact B|exact C]].
  - split; [|split]; cbn.
    + intros j. destruct (Nat.eqb_spec j id) as [->|]; cbn; auto.
    + intros j i k. destruct (Nat.eqb_spec j id) as [->|]; cbn; intros; eapply B; eauto.
    + intros j. destruct (Nat.eqb_spec j id) as [->|]; cbn; eauto.
Qed.
Lemma set_cache_sane : forall w id i c,
  (c_last c = c_last (n_cache (w_node w id) i) \/ c_last c = Some (n_key (w_node w id))) ->
  sane_step w (set_cache w id i c).
Proof.
  intros w id i c Hc (A & B & C). split; [|split]; cbn.
  - intros j. destruct (Nat.eqb_spec j id) as [->|]; cbn; auto.
  - intros j m k. destruct (Nat.eqb_spec j id) as [->|]; cbn; [|intros; eapply B; eauto].
    destruct (Nat.eqb m i); [|intros; eapply B; eauto]. destruct Hc as [-> | ->].
    + intros; eapply B; eauto.
    + intros [= <-]. apply A.
  - intros j. destruct (Nat.eqb_spec j id) as [->|]; cbn; auto.
Qed.
Lemma run_sane : forall hk (a : aug) parents, finv sane_step (run hk parents a).
Proof.
  intros hk a parents. apply (run_inv sane_step (fun _ => True)); auto.
  - intros w H; exact H.
  - intros w1 w2 w3 H1 H2 H; auto.
  - intros; apply set_st_sane.
  - intros; now apply set_cache_sane.
Qed.

Lemma assign_sane : forall w id s, sane_step w (assign_rng w id s).
Proof.
  intros w id s (A & B & C). unfold assign_rng. split; [|split]; cbn.
  - intros j. destruct (Nat.eqb_spec j id) as [->|]; cbn; [lia|]. specialize (A j). lia.
  - intros j m k. destruct (Nat.eqb_spec j id) as [->|]; cbn; intros H; apply B in H; lia.
  - intros j. destruct (Nat.eqb_spec j id) as [->|]; cbn; eauto.
Qed.
Lemma assign_kept : forall w id s, n_det (w_node w id) = false -> kept w (assign_rng w id s).
Proof.
  intros w id s Hd j. unfold assign_rng. cbn. destruct (Nat.eqb_spec j id) as [->|]; cbn; auto.
  repeat split; auto. congruence.
Qed.

Lemma seed_aug_kept : forall (a : aug) s w, kept w (seed_aug false a s w) /\ sane_step w (seed_aug false a s w).
Proof.
  intros a. induction a as [a IH] using visit_ind. intros s w.
  rewrite seed_aug_eq, orb_false_r.
  assert (HL : forall cs s w, (forall c, In c cs -> In c (visit_children a)) ->
    kept w (snd (seed_list false cs s w)) /\ sane_step w (snd (seed_list false cs s w))).
  { induction cs as [|c cs IHcs]; intros s0 w0 Hc; cbn; [split; [apply kept_refl|intros H; exact H]|].
    destruct (derive R s0) as [d s']. destruct (IHcs s' (seed_aug false c d w0)) as [K1 S1]; [intros; apply Hc; now right|].
    destruct (IH c (Hc c (or_introl eq_refl)) d w0) as [K0 S0].
    split; [eapply kept_trans; eauto|intros H; auto]. }
  destruct (HL (visit_children a) s (if negb (n_det (w_node w (aug_id a))) then assign_rng w (aug_id a) s else w) (fun _ H => H)) as [K1 S1].
  assert (K0 : kept w (if negb (n_det (w_node w (aug_id a))) then assign_rng w (aug_id a) s else w) /\
               sane_step w (if negb (n_det (w_node w (aug_id a))) then assign_rng w (aug_id a) s else w)).
  { destruct (n_det (w_node w (aug_id a))) eqn:Hd; cbn [negb].
    - split; [apply kept_refl|intros H; exact H].
    - split; [now apply assign_kept|apply assign_sane]. }
  destruct K0 as [K0 S0]. split; [eapply kept_trans; eauto|intros H; auto].
Qed.

(** localize as a loop. *)
Fixpoint localize_list (cs : list aug) (w : world) : world :=
  match cs with [] => w | c :: cs' => localize_list cs' (localize c w) end.
Lemma localize_list_app : forall cs cs' w, localize_list (cs ++ cs') w = localize_list cs' (localize_list cs w).
Proof. induction cs as [|c cs IH]; intros cs' w; cbn; auto. Qed.
Definition localize_node (id : nat) (w : world) : world :=
  match n_rng (w_node w id) with
  | Glob => let '(d, w') := derive_from id w in assign_rng w' id d
  | Own _ => w end.
Lemma localize_eq : forall (a : aug) w, localize a w = localize_list (visit_children a) (localize_node (aug_id a) w).
Proof.
  intros a w.
  assert (G : forall cs w, (fix go (cs : list aug) (w : world) : world :=
               match cs with [] => w | c :: cs' => go cs' (localize c w) end) cs w = localize_list cs w).
  { induction cs as [|c cs IH]; intros w0; cbn; auto. }
  destruct a as [id body|id body|id o cs|id n o cs|id p N t e|id pre post c]; cbn [localize aug_id];
    change (match n_rng (w_node w id) with Glob => let '(d, w') := derive_from id w in assign_rng w' id d | Own _ => w end)
      with (localize_node id w); set (w1 := localize_node id w); unfold visit_children.
  - reflexivity.
  - reflexivity.
  - cbn [children_lists concat]. rewrite app_nil_r. apply G.
  - cbn [children_lists concat]. rewrite app_nil_r. apply G.
  - cbn [children_lists]. rewrite concat_app, localize_list_app.
    destruct t as [[| | ? ? l| ? ? ? l| |]|]; cbn [children_of concat app localize_list];
      rewrite ?app_nil_r, ?G;
      destruct e as [[| | ? ? l'| ? ? ? l'| |]|]; cbn [children_of concat app localize_list];
      rewrite ?app_nil_r, ?G; reflexivity.
  - cbn [children_lists].
    destruct c as [| | ? ? l| ? ? ? l| |]; cbn [children_of concat app localize_list];
      rewrite ?app_nil_r, ?G; reflexivity.
Qed.
Lemma localize_node_kept : forall id w, sane w -> kept w (localize_node id w) /\ sane (localize_node id w).
Proof.
  intros id w HS. unfold localize_node. destruct (n_rng (w_node w id)) eqn:E.
  - unfold derive_from. destruct (derive R (get_st w id)) as [d s'].
    assert (Hd : n_det (w_node w id) = false).
    { destruct (n_det (w_node w id)) eqn:Hd; [|reflexivity]. destruct HS as (_ & _ & C).
      destruct (C id Hd) as [x Hx]. congruence. }
    assert (E2 : set_st w id s' = mkWorld s' (w_node w) (w_next w)) by (unfold set_st; now rewrite E).
    rewrite E2. split.
    + apply (assign_kept (mkWorld s' (w_node w) (w_next w)) id d Hd).
    + apply assign_sane. destruct HS as (A & B & C). split; [exact A|split; [exact B|exact C]].
  - split; [apply kept_refl|exact HS].
Qed.
Lemma localize_kept : forall (a : aug) w, sane w -> kept w (localize a w) /\ sane (localize a w).
Proof.
  intros a. induction a as [a IH] using visit_ind. intros w HS. rewrite localize_eq.
  assert (HL : forall cs w, (forall c, In c cs -> In c (visit_children a)) -> sane w ->
    kept w (localize_list cs w) /\ sane (localize_list cs w)).
  { induction cs as [|c cs IHcs]; intros w0 Hc H0; cbn; [split; [apply kept_refl|exact H0]|].
    destruct (IH c (Hc c (or_introl eq_refl)) w0 H0) as [K0 S0].
    destruct (IHcs (localize c w0)) as [K1 S1]; [intros; apply Hc; now right|exact S0|].
    split; [eapply kept_trans; eauto|exact S1]. }
  destruct (localize_node_kept (aug_id a) w HS) as [K0 S0].
  destruct (HL (visit_children a) _ (fun _ H => H) S0) as [K1 S1].
  split; [eapply kept_trans; eauto|exact S1].
Qed.

Lemma do_op_kept : forall w (o : @op R V), sane w -> kept w (do_op w o) /\ sane (do_op w o).
Proof.
  intros w [a b|a s|s|a] HS; cbn.
  - destruct (run None [] a w b) as [[b' w']|] eqn:E; [|split; [apply kept_refl|exact HS]].
    split; [eapply run_kept; eauto|eapply run_sane; eauto].
  - destruct (seed_aug_kept a (of_seed R s) w) as [K S]. split; [exact K|auto].
  - split; [intros j; cbn; auto|]. destruct HS as (A & B & C). split; [exact A|split; [exact B|exact C]].
  - now apply localize_kept.
Qed.
Lemma do_ops_kept : forall (h : list (@op R V)) w, sane w -> kept w (do_ops w h) /\ sane (do_ops w h).
Proof.
  induction h as [|o h IH]; intros w HS; cbn; [split; [apply kept_refl|exact HS]|].
  destruct (do_op_kept w o HS) as [K0 S0]. destruct (IH _ S0) as [K1 S1].
  split; [eapply kept_trans; eauto|exact S1].
Qed.

Lemma kept_setup : forall (a : aug) w w1 w2, sane w -> kept w w1 -> kept w w2 -> same_setup a w1 w2.
Proof.
  intros a w w1 w2 (_ & _ & HS) K1 K2 id Hid.
  destruct (K1 id) as (A1 & B1 & C1), (K2 id) as (A2 & B2 & C2).
  repeat split; try congruence. intros Hd. rewrite B1 in Hd. destruct (HS id Hd) as [s Hs].
  assert (is_own (n_rng (w_node w id))) by (now rewrite Hs).
  exists s. rewrite C1, C2; auto.
Qed.

(** C34, over histories. *)
Lemma seed_forgets_history : forall (a : aug) seed bs w (h1 h2 : list (@op R V)),
  plain_branches a -> sane w ->
  outputs a (seed_ a seed (do_ops w h1)) bs = outputs a (seed_ a seed (do_ops w h2)) bs.
Proof.
  intros a seed bs w h1 h2 HP HS.
  destruct (do_ops_kept h1 w HS) as [K1 S1]. destruct (do_ops_kept h2 w HS) as [K2 S2].
  apply seed_reproducible; auto. now apply (kept_setup a w).
Qed.

End P.
