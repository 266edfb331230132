(** Lemmas for C31 (tree queries), C35 (hooks), C48 (prefetching) and C49
    (global seeding). *)
From Coq Require Import Permutation Lia.
From Verif Require Import Prelude PreludeFacts AugModel AugSpec AugProofs AugChildren AugRepro AugSeed AugDet AugCols.

Section P.
Context {R : rngops} {V : Type}.
Notation batch := (batch V).
Notation aug := (aug R V).
Notation world := (world R).
Notation runner := (world -> batch -> res (batch * world)).

(* ------------------------------------------------------------------ *)
(** ** C31 *)

Lemma flat_map_go : forall {B} (f : aug -> list B) (cs : list aug),
  (fix go (cs : list aug) : list B := match cs with [] => [] | c :: cs' => f c ++ go cs' end) cs = flat_map f cs.
Proof. intros B f cs; induction cs as [|c cs IH]; cbn; [reflexivity|now rewrite IH]. Qed.

Lemma entries_eq : forall (a : aug) ps,
  entries ps a = (ps, shell a) :: flat_map (entries (ps ++ [aug_id a])) (visit_children a).
Proof.
  intros a ps. destruct a as [id body|id body|id o cs|id n o cs|id p N t e|id pre post c]; cbn [entries aug_id];
    f_equal; unfold visit_children; cbn [children_lists].
  - cbn. now rewrite app_nil_r.
  - cbn. now rewrite app_nil_r.
  - rewrite concat_app, flat_map_app. f_equal.
    + destruct t as [[| | ? ? l| ? ? ? l| |]|]; try reflexivity; cbn [children_of concat]; now rewrite app_nil_r.
    + destruct e as [[| | ? ? l| ? ? ? l| |]|]; try reflexivity; cbn [children_of concat]; now rewrite app_nil_r.
  - destruct c as [| | ? ? l| ? ? ? l| |]; try reflexivity; cbn [children_of concat]; now rewrite app_nil_r.
Qed.

Lemma find_eq : forall (func : aug -> list nat -> bool) (ps : list nat) (a : aug),
  find_augmenters func ps a =
  (if func a ps then [a] else []) ++ flat_map (find_augmenters func (ps ++ [aug_id a])) (visit_children a).
Proof.
  intros func ps a. destruct a as [id body|id body|id o cs|id n o cs|id p N t e|id pre post c];
    cbn [find_augmenters aug_id]; f_equal; unfold visit_children; cbn [children_lists].
  - rewrite flat_map_go. cbn. now rewrite app_nil_r.
  - rewrite flat_map_go. cbn. now rewrite app_nil_r.
  - rewrite concat_app, flat_map_app. f_equal.
    + destruct t as [[| | ? ? l| ? ? ? l| |]|]; try reflexivity; cbn [children_of concat];
        now rewrite app_nil_r, flat_map_go.
    + destruct e as [[| | ? ? l| ? ? ? l| |]|]; try reflexivity; cbn [children_of concat];
        now rewrite app_nil_r, flat_map_go.
  - destruct c as [| | ? ? l| ? ? ? l| |]; try reflexivity; cbn [children_of concat];
      now rewrite app_nil_r, flat_map_go.
Qed.

Definition kept_children (func : aug -> list nat -> bool) (ps : list nat) (cs : list aug) : list aug :=
  map (remove_below func ps) (filter (fun c => negb (func c ps)) cs).

Lemma remove_go : forall (func : aug -> list nat -> bool) (ps : list nat) (cs : list aug),
  (fix go (cs : list aug) : list aug :=
     match cs with
     | [] => []
     | c :: cs' => if func c ps then go cs' else remove_below func ps c :: go cs'
     end) cs = kept_children func ps cs.
Proof.
  intros func ps cs; induction cs as [|c cs IH]; [reflexivity|]. unfold kept_children in *. cbn.
  destruct (func c ps); cbn; now rewrite IH.
Qed.

Lemma remove_shell : forall (func : aug -> list nat -> bool) (ps : list nat) (a : aug), shell (remove_below func ps a) = shell a /\
  aug_id (remove_below func ps a) = aug_id a.
Proof.
  intros func ps a. destruct a as [id body|id body|id o cs|id n o cs|id p N t e|id pre post c]; cbn; auto.
  - split; [|reflexivity]. f_equal.
    + destruct t as [[| | ? ? l| ? ? ? l| |]|]; reflexivity.
    + destruct e as [[| | ? ? l| ? ? ? l| |]|]; reflexivity.
  - split; [|reflexivity]. f_equal. destruct c; reflexivity.
Qed.

Lemma remove_children : forall (func : aug -> list nat -> bool) (ps : list nat) (a : aug),
  visit_children (remove_below func ps a) = kept_children func (ps ++ [aug_id a]) (visit_children a).
Proof.
  assert (KA : forall (func : aug -> list nat -> bool) (ps : list nat) (l l' : list aug), kept_children func ps (l ++ l') =
     kept_children func ps l ++ kept_children func ps l').
  { intros. unfold kept_children. now rewrite filter_app, map_app. }
  intros func ps a. destruct a as [id body|id body|id o cs|id n o cs|id p N t e|id pre post c];
    cbn [remove_below aug_id]; unfold visit_children; cbn [children_lists]; try reflexivity.
  - rewrite remove_go. cbn. now rewrite !app_nil_r.
  - rewrite remove_go. cbn. now rewrite !app_nil_r.
  - rewrite !concat_app, KA. f_equal.
    + destruct t as [[| | ? ? l| ? ? ? l| |]|]; try reflexivity; cbn [children_of concat];
        now rewrite !app_nil_r, remove_go.
    + destruct e as [[| | ? ? l| ? ? ? l| |]|]; try reflexivity; cbn [children_of concat];
        now rewrite !app_nil_r, remove_go.
  - destruct c as [| | ? ? l| ? ? ? l| |]; try reflexivity; cbn [children_of concat];
      now rewrite !app_nil_r, remove_go.
Qed.

Lemma shell_id : forall a : aug, aug_id (shell a) = aug_id a.
Proof. destruct a; reflexivity. Qed.

Lemma find_entries : forall p (a : aug) ps,
  map aug_id (find_augmenters (by_id p) ps a) =
  map (fun e => aug_id (snd e)) (filter (fun e => p (fst e) (aug_id (snd e))) (entries ps a)).
Proof.
  intros p a. induction a as [a IH] using visit_ind. intros ps. rewrite find_eq, entries_eq. cbn [filter fst snd].
  rewrite shell_id. rewrite map_app.
  assert (H : map aug_id (flat_map (find_augmenters (by_id p) (ps ++ [aug_id a])) (visit_children a)) =
    map (fun e => aug_id (snd e)) (filter (fun e => p (fst e) (aug_id (snd e)))
      (flat_map (entries (ps ++ [aug_id a])) (visit_children a)))).
  { induction (visit_children a) as [|c cs IHc]; [reflexivity|]. cbn [flat_map].
    rewrite map_app, filter_app, map_app, IH by (now left). f_equal. apply IHc. intros; apply IH; now right. }
  rewrite H. unfold by_id. destruct (p ps (aug_id a)); cbn; [rewrite shell_id|]; reflexivity.
Qed.

(** The augmenters found are the ones in the tree. *)
Lemma find_shells : forall p (a : aug) ps,
  map shell (find_augmenters (by_id p) ps a) =
  map snd (filter (fun e => p (fst e) (aug_id (snd e))) (entries ps a)).
Proof.
  intros p a. induction a as [a IH] using visit_ind. intros ps. rewrite find_eq, entries_eq. cbn [filter fst snd].
  rewrite shell_id. rewrite map_app.
  assert (H : map shell (flat_map (find_augmenters (by_id p) (ps ++ [aug_id a])) (visit_children a)) =
    map snd (filter (fun e => p (fst e) (aug_id (snd e)))
      (flat_map (entries (ps ++ [aug_id a])) (visit_children a)))).
  { induction (visit_children a) as [|c cs IHc]; [reflexivity|]. cbn [flat_map].
    rewrite map_app, filter_app, map_app, IH by (now left). f_equal. apply IHc. intros; apply IH; now right. }
  rewrite H. unfold by_id. destruct (p ps (aug_id a)); reflexivity.
Qed.

(** Positions [k] and later of a path match nowhere. *)
Definition survives_from (p : list nat -> nat -> bool) (k : nat) (path : list nat) : bool :=
  forallb (fun k => negb (p (firstn k path) (nth k path 0%nat))) (seq k (length path - k)).
Definition surv p k (e : list nat * aug) : bool := survives_from p k (fst e ++ [aug_id (snd e)]).

Lemma entries_prefix : forall (a : aug) ps e, In e (entries ps a) ->
  exists rest, fst e ++ [aug_id (snd e)] = ps ++ aug_id a :: rest.
Proof.
  intros a. induction a as [a IH] using visit_ind. intros ps e. rewrite entries_eq. intros [<-|H].
  - exists []. cbn. now rewrite shell_id.
  - apply in_flat_map in H. destruct H as (c & Hc & He). destruct (IH c Hc _ _ He) as [rest ->].
    exists (aug_id c :: rest). now rewrite <- app_assoc.
Qed.

Lemma surv_step : forall p (a : aug) ps e, In e (entries ps a) ->
  surv p (length ps) e = negb (p ps (aug_id a)) && surv p (S (length ps)) e.
Proof.
  intros p a ps e He. destruct (entries_prefix a ps e He) as [rest E]. unfold surv, survives_from. rewrite E.
  rewrite app_length. cbn [length].
  replace (length ps + S (length rest) - length ps)%nat with (S (length rest)) by lia.
  replace (length ps + S (length rest) - S (length ps))%nat with (length rest) by lia.
  cbn [seq forallb]. f_equal. rewrite firstn_app, Nat.sub_diag, firstn_all. cbn [firstn]. rewrite app_nil_r.
  rewrite app_nth2 by lia. now rewrite Nat.sub_diag.
Qed.

Lemma filter_ext_in' : forall {A} (f g : A -> bool) l, (forall x, In x l -> f x = g x) -> filter f l = filter g l.
Proof. intros A f g l; induction l as [|x l IH]; intros H; [reflexivity|]. cbn. rewrite (H x) by (now left).
  rewrite IH by (intros; apply H; now right). reflexivity. Qed.

Lemma remove_entries : forall p (a : aug) ps,
  entries ps (remove_below (by_id p) ps a) = filter (surv p (S (length ps))) (entries ps a).
Proof.
  intros p a. induction a as [a IH] using visit_ind. intros ps. rewrite !entries_eq.
  destruct (remove_shell (by_id p) ps a) as [-> ->]. rewrite remove_children. cbn [filter].
  assert (E : surv p (S (length ps)) (ps, shell a) = true).
  { unfold surv, survives_from. cbn [fst snd]. rewrite app_length. cbn [length].
    replace (length ps + 1 - S (length ps))%nat with 0%nat by lia. reflexivity. }
  rewrite E. f_equal.
  assert (L : length (ps ++ [aug_id a]) = S (length ps)) by (rewrite app_length; cbn; lia).
  unfold kept_children. induction (visit_children a) as [|c cs IHc]; [reflexivity|]. cbn [filter flat_map].
  rewrite filter_app, <- IHc by (intros; apply IH; now right). clear IHc.
  assert (HC : filter (surv p (S (length ps))) (entries (ps ++ [aug_id a]) c) =
    if p (ps ++ [aug_id a]) (aug_id c) then [] else entries (ps ++ [aug_id a]) (remove_below (by_id p) (ps ++ [aug_id a]) c)).
  { rewrite <- L. rewrite (filter_ext_in' _ (fun e => negb (p (ps ++ [aug_id a]) (aug_id c)) && surv p (S (length (ps ++ [aug_id a]))) e)).
    - rewrite IH by (now left). destruct (p (ps ++ [aug_id a]) (aug_id c)); cbn [negb andb]; [|reflexivity].
      induction (entries (ps ++ [aug_id a]) c); cbn; auto.
    - intros e He. now apply surv_step. }
  unfold by_id in *. rewrite HC. destruct (p (ps ++ [aug_id a]) (aug_id c)); cbn [negb map flat_map app]; reflexivity.
Qed.

Lemma remove_exact : forall p (a : aug),
  match remove_augmenters (by_id p) a with
  | None => p [] (aug_id a) = true
  | Some a' => p [] (aug_id a) = false /\
      entries [] a' = filter (fun e => path_survives p (fst e ++ [aug_id (snd e)])) (entries [] a)
  end.
Proof.
  intros p a. unfold remove_augmenters. unfold by_id at 1. destruct (p [] (aug_id a)) eqn:E; [reflexivity|].
  split; [reflexivity|]. rewrite remove_entries. cbn [length]. apply filter_ext_in'. intros e He.
  transitivity (surv p 0 e).
  - pose proof (surv_step p a [] e He) as X. cbn [length] in X. rewrite X, E. reflexivity.
  - unfold surv, survives_from, path_survives. now rewrite Nat.sub_0_r.
Qed.

(** If nothing matches below the topmost augmenter, nothing changes. *)

(* ------------------------------------------------------------------ *)
(** ** C35 *)

Lemma map_columns_nth : forall f (b : batch) pos c,
  nth c (map_columns f pos b) None =
  match nth c b None with Some (x :: l) => f (pos + c)%nat (x :: l) | o => o end.
Proof.
  intros f b; induction b as [|x b IH]; intros pos c; [now destruct c|].
  destruct c as [|c].
  - destruct x as [[|y l]|]; cbn; rewrite ?Nat.add_0_r; reflexivity.
  - destruct x as [[|y l]|]; cbn [map_columns nth]; rewrite IH; replace (S pos + c)%nat with (pos + S c)%nat by lia; reflexivity.
Qed.
Lemma map_columns_len : forall f (b : batch) pos, length (map_columns f pos b) = length b.
Proof. intros f b; induction b as [|[[|y l]|] b IH]; intros pos; cbn; auto. Qed.
Lemma map_columns_quiet : forall f (b : batch) pos, no_rows b -> map_columns f pos b = b.
Proof.
  intros f b; induction b as [|x b IH]; intros pos H; [reflexivity|].
  assert (H' : no_rows b) by (intros c; apply (H (S c))).
  destruct (H 0%nat) as [E|E]; cbn in E; subst x; cbn; now rewrite IH.
Qed.
Lemma unhide_quiet : forall keep (b : batch) pos, no_rows b -> unhide_from keep pos b b = b.
Proof.
  intros keep b; induction b as [|x b IH]; intros pos H; [reflexivity|].
  assert (H' : no_rows b) by (intros c; apply (H (S c))).
  destruct (H 0%nat) as [E|E]; cbn in E; subst x; cbn; now rewrite IH.
Qed.
Lemma no_rows_nb : forall b : batch, no_rows b -> nb_rows b = 0%nat.
Proof.
  induction b as [|x b IH]; intros H; [reflexivity|].
  assert (H' : no_rows b) by (intros c; apply (H (S c))).
  destruct (H 0%nat) as [E|E]; cbn in E; subst x; cbn; auto.
Qed.
Lemma unhide_len : forall keep (before after : batch) pos, length (unhide_from keep pos before after) = length after.
Proof.
  intros keep before; induction before as [|x b IH]; intros [|y after] pos; cbn; auto;
    destruct x as [[|z l]|]; cbn; auto.
Qed.
Lemma unhide_nth : forall keep (before after : batch) pos c x l, nth c before None = Some (x :: l) ->
  keep (pos + c)%nat (x :: l) = false -> (c < length after)%nat ->
  nth c (unhide_from keep pos before after) None = Some (x :: l).
Proof.
  intros keep before; induction before as [|y b IH]; intros [|z after] pos c x l E K L; cbn in L; try lia; [now destruct c|].
  destruct c as [|c]; cbn in E.
  - subst y. cbn. rewrite Nat.add_0_r in K. now rewrite K.
  - rewrite <- Nat.add_succ_comm in K. destruct y as [[|y m]|]; cbn [unhide_from nth]; apply IH; auto; lia.
Qed.

Lemma plain_pre : forall hk id ps (b : batch), plain_hooks hk id ps -> hook_preprocess hk id ps b = b.
Proof.
  intros [h|] id ps b H; [|reflexivity]. cbn in *. apply map_columns_some. intros. f_equal. apply H.
Qed.
Lemma plain_post : forall hk id ps (b : batch), plain_hooks hk id ps -> hook_postprocess hk id ps b = b.
Proof.
  intros [h|] id ps b H; [|reflexivity]. cbn in *. apply map_columns_some. intros. f_equal. apply H.
Qed.

Lemma run_is_augment : forall hk ps (a : aug), exists body, run hk ps a = augment_batch hk (aug_id a) ps body.
Proof. intros hk ps a. destruct a; cbn [run aug_id]; eauto. Qed.

Lemma run_no_rows : forall hk ps (a : aug) w (b : batch), no_rows b -> run hk ps a w b = Ok (b, w).
Proof.
  intros hk ps a w b H. destruct (run_is_augment hk ps a) as [body ->]. unfold augment_batch.
  assert (E1 : hook_preprocess hk (aug_id a) ps b = b) by (destruct hk; cbn; [now apply map_columns_quiet|reflexivity]).
  rewrite E1. unfold hide. rewrite map_columns_quiet by exact H. rewrite no_rows_nb by exact H. cbn.
  unfold unhide. rewrite unhide_quiet by exact H. do 2 f_equal.
  destruct hk; cbn; [now rewrite map_columns_quiet|reflexivity].
Qed.

(** Hiding every column with rows. *)
Lemma hide_all_quiet : forall keep (b : batch), (forall c l, nth c b None = Some l -> l <> [] -> keep c l = false) ->
  no_rows (hide keep b).
Proof.
  intros keep b H c. unfold hide. rewrite map_columns_nth. cbn.
  destruct (nth c b None) as [[|x l]|] eqn:E; auto. rewrite (H c (x :: l) E) by discriminate. auto.
Qed.

Lemma switched_off_hidden : forall (hk : option (hooks V)) (w : world) id ps c l, switched_off hk w id ps c l ->
  hook_activated hk (n_act (w_node w id)) id ps c l = false.
Proof.
  intros hk w id ps c l [->|(h & -> & H)]; unfold hook_activated; [reflexivity|].
  destruct (negb _); auto.
Qed.

Lemma run_switched_off : forall hk ps (a : aug) w (b : batch), plain_hooks hk (aug_id a) ps ->
  (forall c l, nth c b None = Some l -> l <> [] -> switched_off hk w (aug_id a) ps c l) ->
  run hk ps a w b = Ok (b, w).
Proof.
  intros hk ps a w b HP H. destruct (run_is_augment hk ps a) as [body ->]. unfold augment_batch.
  rewrite plain_pre by exact HP.
  rewrite no_rows_nb.
  2:{ apply hide_all_quiet. intros c l E N. apply switched_off_hidden. auto. }
  cbn. rewrite plain_post by exact HP. unfold unhide, hide. now rewrite unhide_hide.
Qed.

Lemma run_column_hidden : forall hk ps (a : aug) w (b b' : batch) w' c l, plain_hooks hk (aug_id a) ps ->
  run hk ps a w b = Ok (b', w') -> length b' = length b ->
  nth c b None = Some l -> l <> [] -> switched_off hk w (aug_id a) ps c l ->
  nth c b' None = Some l.
Proof.
  intros hk ps a w b b' w' c l HP E HL Hc Hl HO. destruct (run_is_augment hk ps a) as [body Er]. rewrite Er in E.
  unfold augment_batch in E. rewrite plain_pre in E by exact HP.
  apply bind_ok in E. destruct E as ([b1 w1] & _ & E). injection E as <- <-. cbn [fst snd] in *.
  rewrite plain_post in * by exact HP. destruct l as [|x l]; [congruence|].
  unfold unhide in *. rewrite unhide_len in HL. apply unhide_nth; auto.
  - cbn. now apply switched_off_hidden.
  - rewrite HL. destruct (Nat.lt_ge_cases c (length b)) as [?|Q]; [assumption|].
    rewrite nth_overflow in Hc by exact Q. discriminate.
Qed.

Lemma run_is_propagating : forall hk ps (a : aug), is_parent a ->
  exists body, run hk ps a = augment_batch hk (aug_id a) ps (propagating hk (aug_id a) ps body).
Proof. intros hk ps a H. destruct a; cbn [run aug_id]; try destruct H; eauto. Qed.

Lemma run_column_not_propagated : forall h ps (a : aug) w (b b' : batch) w' c l, is_parent a ->
  plain_hooks (Some h) (aug_id a) ps ->
  run (Some h) ps a w b = Ok (b', w') -> length b' = length b ->
  nth c b None = Some l -> l <> [] -> hk_propagating h (aug_id a) ps c l = false ->
  nth c b' None = Some l.
Proof.
  intros h ps a w b b' w' c l HPar HP E HL Hc Hl HO.
  destruct (hook_activated (Some h) (n_act (w_node w (aug_id a))) (aug_id a) ps c l) eqn:EA.
  2:{ apply (run_column_hidden (Some h) ps a w b b' w' c l); auto. unfold hook_activated in EA.
      destruct (n_act (w_node w (aug_id a))) eqn:En; cbn in EA; [right; eauto|now left]. }
  destruct (run_is_propagating (Some h) ps a HPar) as [body Er]. rewrite Er in E.
  unfold augment_batch in E. rewrite plain_pre in E by exact HP.
  apply bind_ok in E. destruct E as ([b1 w1] & E1 & E).
  apply Ok_inj, pair_equal_spec in E. destruct E as [<- <-]. cbn [fst snd] in *.
  rewrite plain_post in * by exact HP. destruct l as [|x l]; [congruence|].
  set (keep := hook_activated (Some h) (n_act (w_node w (aug_id a))) (aug_id a) ps) in *.
  assert (Hlt : (c < length b)%nat).
  { destruct (Nat.lt_ge_cases c (length b)) as [?|Q]; [assumption|]. rewrite nth_overflow in Hc by exact Q. discriminate. }
  assert (Hh : nth c (hide keep b) None = Some (x :: l)).
  { unfold hide. rewrite map_columns_nth, Hc. cbn. now rewrite EA. }
  assert (HU : forall before after pos d y m, nth d before None = Some (y :: m) -> keep (pos + d)%nat (y :: m) = true ->
     nth d (unhide_from keep pos before after) None = nth d (after : batch) None).
  { intros before; induction before as [|y0 be IH]; intros after pos d y m Hd Hk; [now destruct d|].
    destruct after as [|z after]; [destruct y0 as [[|? ?]|]; reflexivity|]. destruct d as [|d]; cbn in Hd.
    - subst y0. cbn. rewrite Nat.add_0_r in Hk. now rewrite Hk.
    - rewrite <- Nat.add_succ_comm in Hk. destruct y0 as [[|y0 n]|]; cbn [unhide_from nth]; eapply IH; eauto. }
  unfold unhide in HL |- *. rewrite unhide_len in HL. rewrite (HU b b1 0%nat c x l Hc EA).
  destruct (Nat.eqb (nb_rows (hide keep b)) 0).
  - injection E1 as <- <-. exact Hh.
  - apply bind_ok in E1. destruct E1 as ([b2 w2] & E2 & E1). injection E1 as <- <-. cbn [fst snd] in *.
    unfold propagating in E2. apply bind_ok in E2. destruct E2 as ([b3 w3] & E3 & E2). injection E2 as <- <-.
    cbn [fst snd] in *. unfold unhide in *. rewrite unhide_len in HL. apply unhide_nth; auto. lia.
Qed.

Lemma set_st_only : forall (w : world) id s, only_node id w (set_st w id s).
Proof.
  intros w id s j Hj. unfold set_st. destruct (n_rng (w_node w id)); cbn; [reflexivity|].
  destruct (Nat.eqb_spec j id); [congruence|reflexivity].
Qed.
Lemma set_cache_only : forall (w : world) id i c, only_node id w (set_cache w id i c).
Proof. intros w id i c j Hj. cbn. destruct (Nat.eqb_spec j id); [congruence|reflexivity]. Qed.
Lemma only_refl : forall id (w : world), only_node id w w.
Proof. intros id w j _. reflexivity. Qed.
Lemma only_trans : forall id (w1 w2 w3 : world), only_node id w1 w2 -> only_node id w2 w3 -> only_node id w1 w3.
Proof. intros id w1 w2 w3 H1 H2 j Hj. now rewrite H2, H1. Qed.

Lemma seq_loop_quiet : forall hk ps (cs : list aug) order w (b : batch), no_rows b ->
  (forall i, In i order -> (i < length cs)%nat) -> seq_loop (map (run hk ps) cs) order w b = Ok (b, w).
Proof.
  intros hk ps cs order; induction order as [|i is IH]; intros w b Hb Hi; [reflexivity|]. cbn.
  destruct (nth_error (map (run hk ps) cs) i) as [f|] eqn:E.
  - rewrite nth_error_map in E.
    destruct (nth_error cs i) as [c|]; [|discriminate]. injection E as <-.
    rewrite run_no_rows by exact Hb. cbn. apply IH; auto. intros; apply Hi; now right.
  - apply nth_error_None in E. rewrite map_length in E. specialize (Hi i (or_introl eq_refl)). lia.
Qed.
Lemma someof_loop_quiet : forall (fs : list runner) (order : list nat) (w : world) (b : batch),
  someof_loop fs [] order w b = Ok (b, w).
Proof. intros fs order; induction order as [|i is IH]; intros w b; [reflexivity|]. cbn. apply IH. Qed.

Lemma sub_quiet : forall (b : batch), no_rows b ->
  exists sub, subselect b [] = Ok sub /\ no_rows sub /\ invert_subselect b [] sub = Ok b.
Proof.
  intros b; induction b as [|x b IH]; intros H; [exists []; repeat split; auto; intros [|c]; auto|].
  assert (H' : no_rows b) by (intros c; apply (H (S c))). destruct (IH H') as (sub & E1 & E2 & E3).
  exists (None :: sub). unfold subselect in *. rewrite mapM_cons.
  destruct (H 0%nat) as [E|E]; cbn in E; subst x; cbn; rewrite E1; cbn; rewrite E3; cbn; repeat split; auto;
    intros [|c]; cbn; auto.
Qed.
Lemma branch_quiet : forall hk ps (o : option aug) w (b : batch), no_rows b ->
  sometimes_branch (match o with
    | Some a' => if Nat.eqb (aug_len a') 0 then None else Some (run hk ps a') | None => None end) [] w b = Ok (b, w).
Proof.
  intros hk ps o w b H. destruct o as [a|]; [|reflexivity]. destruct (Nat.eqb (aug_len a) 0); [reflexivity|].
  cbn. destruct (sub_quiet b H) as (sub & E1 & E2 & E3). rewrite E1. cbn. rewrite run_no_rows by exact E2. cbn.
  now rewrite E3.
Qed.

Lemma shuffle_rows_only : forall id rows (w : world) l w', shuffle_rows id rows w = (l, w') -> only_node id w w'.
Proof.
  intros id rows; induction rows as [|r rows IH]; intros w l w' E; cbn in E.
  - injection E as <- <-. apply only_refl.
  - destruct (shuffle R r (get_st w id)) as [r' st1]. destruct (shuffle_rows id rows (set_st w id st1)) as [rs w1] eqn:E1.
    injection E as <- <-. eapply only_trans; [apply set_st_only|eauto].
Qed.

Lemma run_not_propagated : forall h ps (a : aug) w (b : batch),
  @permutation_contract R -> @shuffle_contract R -> parent_samplers_ok a -> plain_hooks (Some h) (aug_id a) ps ->
  (forall c l, nth c b None = Some l -> l <> [] -> hk_propagating h (aug_id a) ps c l = false) ->
  exists w', run (Some h) ps a w b = Ok (b, w') /\ only_node (aug_id a) w w'.
Proof.
  intros h ps a w b HPC HSC HS HP HO.
  assert (HB : forall body, (forall w (b : batch), no_rows b -> exists w', body w b = Ok (b, w') /\ only_node (aug_id a) w w') ->
    exists w', augment_batch (Some h) (aug_id a) ps (propagating (Some h) (aug_id a) ps body) w b = Ok (b, w') /\
      only_node (aug_id a) w w').
  { intros body Hbody. unfold augment_batch. rewrite plain_pre by exact HP.
    set (keep := hook_activated (Some h) (n_act (w_node w (aug_id a))) (aug_id a) ps).
    destruct (Nat.eqb (nb_rows (hide keep b)) 0).
    - cbn [bind fst snd]. rewrite plain_post by exact HP. unfold unhide, hide. rewrite unhide_hide.
      eexists. split; [reflexivity|apply only_refl].
    - unfold propagating. set (kp := hook_propagating (Some h) (aug_id a) ps).
      destruct (Hbody w (hide kp (hide keep b))) as (w' & E & O).
      { apply hide_all_quiet. intros c l Hc Hl. unfold kp, hook_propagating.
        unfold hide in Hc. rewrite map_columns_nth in Hc. cbn in Hc.
        destruct (nth c b None) as [[|x m]|] eqn:En; try congruence.
        destruct (keep c (x :: m)); [|discriminate]. injection Hc as <-. eauto. }
      rewrite E. cbn [bind fst snd]. unfold unhide, hide. rewrite !unhide_hide.
      cbn [bind fst snd]. rewrite plain_post by exact HP. eexists. split; [reflexivity|].
      destruct (n_det (w_node w (aug_id a))); [|exact O]. eapply only_trans; [exact O|apply set_st_only]. }
  destruct a as [id body|id body|id o cs|id n o cs|id p N t e|id pre post c]; cbn [run aug_id parent_samplers_ok] in *; try tauto.
  - apply HB. intros w0 b0 H0. destruct (draw_order id o (length cs) w0) as [order w1] eqn:E1.
    destruct (draw_order_spec HPC _ _ _ _ _ _ E1) as (P1 & _ & _).
    exists w1. split.
    + apply seq_loop_quiet; auto. intros i Hi. eapply Permutation_in in Hi; [|exact P1]. apply in_seq in Hi. lia.
    + unfold draw_order in E1. destruct o.
      * destruct (permutation R (length cs) (get_st w0 id)) as [o1 st1]. injection E1 as <- <-. apply set_st_only.
      * injection E1 as <- <-. apply only_refl.
  - apply HB. intros w0 b0 H0. destruct (draw_order id o (length cs) w0) as [order w1] eqn:E1.
    rewrite no_rows_nb by exact H0. unfold draw_active. destruct (draw_n id n (length cs) 0 w1) as [nn w2] eqn:E2.
    assert (nn = []).
    { pose proof (requested_length n (length cs) 0 (get_st w1 id) HS) as HL.
      rewrite (draw_n_requested id n (length cs) 0 w1 nn w2 E2).
      now apply length_zero_iff_nil. }
    subst nn. cbn [map shuffle_rows]. rewrite someof_loop_quiet. eexists. split; [reflexivity|].
    apply (only_trans id w0 w1).
    + unfold draw_order in E1. destruct o.
      * destruct (permutation R (length cs) (get_st w0 id)) as [o1 st1]. injection E1 as <- <-. apply set_st_only.
      * injection E1 as <- <-. apply only_refl.
    + unfold draw_n in E2. destruct n as [k| |k|smp]; try (injection E2 as <- <-; apply only_refl);
        try (injection E2 as <-; apply only_refl).
      * destruct (discrete_uniform R k (Z.of_nat (length cs)) 0 (get_st w1 id)) as [s st1]. injection E2 as _ <-. apply set_st_only.
      * destruct (smp 0%nat (get_st w1 id)) as [s st1]. injection E2 as _ <-. apply set_st_only.
  - apply HB. intros w0 b0 H0. rewrite no_rows_nb by exact H0. cbn [run_prog].
    pose proof (pre_draw_length (negb (n_det (w_node w0 id))) (n_key (w_node w0 id)) p N 0 (n_cache (w_node w0 id) 0) (get_st w0 id) HS) as HL.
    destruct (pre_draw _ _ _ _ _ _ _) as [[s c1] st1]. cbn [fst snd] in HL. apply length_zero_iff_nil in HL. subst s.
    cbn [map nonzero nonzero_from]. unfold nonzero. cbn [nonzero_from].
    rewrite branch_quiet by exact H0. cbn [bind fst snd]. rewrite branch_quiet by exact H0.
    eexists. split; [reflexivity|]. eapply only_trans; [apply set_st_only|apply set_cache_only].
Qed.

(* ------------------------------------------------------------------ *)
(** ** C48 *)
Lemma skipn_skipn' : forall {A} n m (l : list A), skipn n (skipn m l) = skipn (m + n) l.
Proof. intros A n m; induction m as [|m IH]; intros l; [reflexivity|]. destruct l; cbn; [now rewrite skipn_nil|apply IH]. Qed.

Lemma prefetch_unread : forall (smp : @sampler R) N c st,
  let '(c', st') := prefetch smp N c st in
  unread c' = (match c_samples c with None => [] | Some _ => unread c end) ++ fst (smp N st) /\
  c_last c' = c_last c /\ c_index c' = 0%nat /\ c_samples c' <> None /\ st' = snd (smp N st).
Proof.
  intros smp N c st. unfold prefetch. destruct (smp N st) as [s st1]. cbn. unfold unread, samples_of. cbn.
  destruct (c_samples c); repeat split; auto; discriminate.
Qed.

Lemma fresh_trans : forall (smp : @sampler R) N st1 l1 st2 l2 st3,
  fresh_blocks smp N st1 l1 st2 -> fresh_blocks smp N st2 l2 st3 -> fresh_blocks smp N st1 (l1 ++ l2) st3.
Proof. intros smp N st1 l1 st2 l2 st3 H; induction H as [|? ? ? _ IH|? ? ? ? ? E _ IH]; intros H2; cbn; [exact H2|apply fresh_adv; auto|].
  apply (fresh_block smp N st s st1); auto. Qed.

(** One call in prefetching mode. *)
Lemma pre_draw_stream : forall key (smp : @sampler R) N n c st s c' st',
  sampler_contract smp -> c_last c = Some key -> (n < N)%nat ->
  pre_draw true key smp N n c st = (s, c', st') ->
  length s = n /\ c_last c' = Some key /\
  exists blocks, fresh_blocks smp N st blocks st' /\
    s ++ unread c' = (match c_samples c with None => [] | Some _ => unread c end) ++ concat blocks /\
    c_samples c' <> None.
Proof.
  intros key smp N n c st s c' st' HS HK HN E.
  assert (HL : length s = n).
  { pose proof (pre_draw_length true key smp N n c st HS) as X. now rewrite E in X. }
  split; [exact HL|]. unfold pre_draw in E. cbn [negb] in E.
  rewrite (proj2 (key_eqb_iff _ _) HK) in E. cbn [negb] in E.
  destruct (Nat.leb_spec N n) as [?|_]; [lia|].
  assert (H1 : exists c1 st1 bl1, (match c_samples c with None => prefetch smp N c st | Some _ => (c, st) end) = (c1, st1) /\
     fresh_blocks smp N st bl1 st1 /\ c_samples c1 <> None /\ c_last c1 = Some key /\
     unread c1 = (match c_samples c with None => [] | Some _ => unread c end) ++ concat bl1).
  { destruct (c_samples c) eqn:Ec.
    - exists c, st, []. repeat split; auto; [constructor|congruence|now rewrite app_nil_r].
    - pose proof (prefetch_unread smp N c st) as X. destruct (prefetch smp N c st) as [c1 st1].
      destruct X as (X1 & X2 & X3 & X4 & X5). rewrite Ec in X1. exists c1, st1, [fst (smp N st)].
      repeat split; auto; [|congruence|cbn; rewrite app_nil_r; exact X1].
      econstructor; [|subst st1; constructor]. now destruct (smp N st). }
  destruct H1 as (c1 & st1 & bl1 & E1 & F1 & N1 & K1 & U1). rewrite E1 in E.
  cbv zeta in E.
  assert (H2 : forall c2 st2 bl2, fresh_blocks smp N st1 bl2 st2 -> c_samples c2 <> None -> c_last c2 = Some key ->
     unread c2 = unread c1 ++ concat bl2 ->
     (firstn n (skipn (c_index c2) (samples_of c2)), mkCache (c_samples c2) (c_index c2 + n) (c_last c2), adv R st2) = (s, c', st') ->
     c_last c' = Some key /\ exists blocks, fresh_blocks smp N st blocks st' /\
      s ++ unread c' = (match c_samples c with None => [] | Some _ => unread c end) ++ concat blocks /\ c_samples c' <> None).
  { intros c2 st2 bl2 F2 N2 K2 U2 E2. injection E2 as <- <- <-. split; [exact K2|].
    exists (bl1 ++ bl2). split.
    - apply (fresh_trans smp N st bl1 st1); [exact F1|]. rewrite <- (app_nil_r bl2).
      apply (fresh_trans smp N st1 bl2 st2); [exact F2|]. apply fresh_adv. constructor.
    - split; [|exact N2]. rewrite concat_app, app_assoc, <- U1, <- U2. unfold unread at 1. cbn [c_index samples_of c_samples].
      change (samples_of (mkCache (c_samples c2) (c_index c2 + n) (c_last c2))) with (samples_of c2).
      rewrite <- skipn_skipn'. apply firstn_skipn. }
  destruct (_ <=? 0).
  - pose proof (prefetch_unread smp N c1 st1) as X. destruct (prefetch smp N c1 st1) as [c2 st2].
    destruct X as (X1 & X2 & X3 & X4 & X5). destruct (c_samples c1) eqn:Ec1; [|congruence].
    apply (H2 c2 st2 [fst (smp N st1)]); auto; [|congruence|cbn; rewrite app_nil_r; exact X1].
    econstructor; [|subst st2; constructor]. now destruct (smp N st1).
  - apply (H2 c1 st1 []); auto; [constructor|now rewrite app_nil_r].
Qed.

Lemma pre_draws_stream : forall key (smp : @sampler R) N ns c st ss c' st',
  sampler_contract smp -> c_last c = Some key -> Forall (fun n => n < N)%nat ns ->
  pre_draws true key smp N ns c st = (ss, c', st') ->
  map (@length Q) ss = ns /\
  exists blocks, fresh_blocks smp N st blocks st' /\
    concat ss ++ (match c_samples c' with None => [] | Some _ => unread c' end) =
    (match c_samples c with None => [] | Some _ => unread c end) ++ concat blocks.
Proof.
  intros key smp N ns; induction ns as [|n ns IH]; intros c st ss c' st' HS HK HN E; cbn [pre_draws] in E.
  - injection E as <- <- <-. split; [reflexivity|]. exists []. split; [constructor|]. cbn. now rewrite app_nil_r.
  - destruct (pre_draw true key smp N n c st) as [[s c1] st1] eqn:E1.
    destruct (pre_draws true key smp N ns c1 st1) as [[ss' c2] st2] eqn:E2.
    assert (EQ : ss = s :: ss' /\ c' = c2 /\ st' = st2) by (split; [congruence|]; split; congruence).
    destruct EQ as (-> & -> & ->). clear E.
    inversion HN as [|? ? Hn HN']; subst.
    destruct (pre_draw_stream key smp N n c st s c1 st1 HS HK Hn E1) as (L1 & K1 & bl1 & F1 & U1 & N1).
    destruct (IH c1 st1 ss' c2 st2 HS K1 HN' E2) as (L2 & bl2 & F2 & U2).
    split; [cbn; congruence|]. exists (bl1 ++ bl2). split; [eapply fresh_trans; eauto|].
    cbn [concat]. rewrite <- app_assoc, U2. destruct (c_samples c1) eqn:Ec; [|congruence].
    rewrite app_assoc, U1, concat_app. now rewrite app_assoc.
Qed.

(** A sampler wrapped for another RNG object never hands out samples left over
    from before; large requests and disabled prefetching bypass the cache. *)
Lemma pre_draw_direct : forall en key (smp : @sampler R) N n c st,
  en = false \/ c_last c <> Some key \/ (N <= n)%nat ->
  fst (fst (pre_draw en key smp N n c st)) = fst (smp n st) /\
  snd (pre_draw en key smp N n c st) = adv R (snd (smp n st)) /\
  (en = true -> c_last c <> Some key -> c_samples (snd (fst (pre_draw en key smp N n c st))) = None).
Proof.
  intros en key smp N n c st H. unfold pre_draw. destruct en; cbn [negb].
  - destruct (key_eqb (c_last c) key) eqn:K; cbn [negb].
    + apply key_eqb_iff in K. destruct H as [H|[H|H]]; [discriminate|congruence|].
      destruct (Nat.leb_spec N n); [|lia]. destruct (smp n st). cbn. repeat split; auto. congruence.
    + destruct (smp n st). cbn. auto.
  - destruct (smp n st). cbn. repeat split; auto. discriminate.
Qed.

(* ------------------------------------------------------------------ *)
(** ** C49 *)
Definition outside (S : nat -> Prop) (w w' : world) : Prop := forall id, ~ S id -> w_node w' id = w_node w id.

Lemma run_outside : forall hk (a : aug) ps (S : nat -> Prop), (forall id, In id (ids a) -> S id) ->
  finv (outside S) (run hk ps a).
Proof.
  intros hk a ps S HS. apply (run_inv (outside S) S); auto.
  - intros w id _. reflexivity.
  - intros w1 w2 w3 H1 H2 id Hid. now rewrite H2, H1.
  - intros w id s Hid j Hj. apply set_st_only. congruence.
  - intros w id i c Hid _ j Hj. apply set_cache_only. congruence.
Qed.

Lemma localize_eq : forall (a : aug) (w : world), localize a w =
  fold_left (fun w c => localize c w) (visit_children a)
    (match n_rng (w_node w (aug_id a)) with
     | Glob => let '(d, w') := derive_from (aug_id a) w in assign_rng w' (aug_id a) d
     | Own _ => w end).
Proof.
  assert (G : forall (cs : list aug) w, (fix go (cs : list aug) (w : world) : world :=
               match cs with [] => w | c :: cs' => go cs' (localize c w) end) cs w =
     fold_left (fun w c => localize c w) cs w).
  { induction cs as [|c cs IH]; intros w; cbn; auto. }
  intros a w. destruct a as [id body|id body|id o cs|id n o cs|id p N t e|id pre post c]; cbn [localize aug_id];
    unfold visit_children; cbn [children_lists]; try reflexivity.
  - rewrite G. cbn. now rewrite app_nil_r.
  - rewrite G. cbn. now rewrite app_nil_r.
  - rewrite concat_app, fold_left_app.
    destruct t as [[| | ? ? l| ? ? ? l| |]|]; cbn [children_of concat app fold_left]; rewrite ?app_nil_r, ?G;
    destruct e as [[| | ? ? l'| ? ? ? l'| |]|]; cbn [children_of concat app fold_left]; rewrite ?app_nil_r, ?G; reflexivity.
  - destruct c as [| | ? ? l| ? ? ? l| |]; cbn [children_of concat app fold_left]; rewrite ?app_nil_r, ?G; reflexivity.
Qed.

Lemma localize_outside : forall (a : aug) (w : world) id, ~ In id (visited a) -> w_node (localize a w) id = w_node w id.
Proof.
  intros a. induction a as [a IH] using visit_ind. intros w id Hid. rewrite localize_eq.
  rewrite visited_eq in Hid.
  assert (H : forall cs w, (forall c, In c cs -> In c (visit_children a)) -> ~ In id (flat_map visited cs) ->
     w_node (fold_left (fun w c => localize c w) cs w) id = w_node w id).
  { induction cs as [|c cs IHc]; intros w0 Hc Hn; [reflexivity|]. cbn.
    rewrite IHc; [|intros; apply Hc; now right|intros X; apply Hn; cbn; apply in_or_app; now right].
    apply IH; [apply Hc; now left|]. intros X; apply Hn; cbn; apply in_or_app; now left. }
  rewrite H; [|auto|intros X; apply Hid; now right].
  assert (Hne : id <> aug_id a) by (intros ->; apply Hid; now left).
  destruct (n_rng (w_node w (aug_id a))); [|reflexivity].
  unfold derive_from. destruct (derive R (get_st w (aug_id a))) as [d s']. cbn.
  destruct (Nat.eqb_spec id (aug_id a)); [congruence|]. now apply set_st_only.
Qed.

Lemma do_op_outside : forall (w : world) (o : @op R V) id, ~ In id (op_ids o) -> w_node (do_op w o) id = w_node w id.
Proof.
  intros w o id H. destruct o as [a b|a s|s|a]; cbn in *.
  - destruct (run None [] a w b) as [[b' w']|] eqn:E; [|reflexivity].
    apply (run_outside None a [] (fun id => In id (ids a)) (fun _ X => X) w b b' w' E id H).
  - unfold seed_. apply seed_aug_outside. intros X. apply H. now apply visited_ids.
  - reflexivity.
  - apply localize_outside. intros X. apply H. now apply visited_ids.
Qed.
Lemma do_ops_outside : forall (h : list (@op R V)) (w : world) id, (forall o, In o h -> ~ In id (op_ids o)) ->
  w_node (do_ops w h) id = w_node w id.
Proof.
  unfold do_ops. induction h as [|o h IH]; intros w id H; [reflexivity|]. cbn.
  rewrite IH by (intros; apply H; now right). apply do_op_outside. apply H. now left.
Qed.

Lemma global_seed_forgets_others : forall (a : aug) (w : world) (h : list (@op R V)) s bs,
  sane w -> (forall o id, In o h -> In id (op_ids o) -> ~ In id (ids a)) ->
  outputs a (seed_global s (do_ops w h)) bs = outputs a (seed_global s w) bs.
Proof.
  intros a w h s bs (_ & _ & HO) HD. apply (outputs_rel true).
  assert (E : forall id, In id (ids a) -> w_node (do_ops w h) id = w_node w id).
  { intros id Hid. apply do_ops_outside. intros o Ho X. exact (HD o id Ho X Hid). }
  split; [reflexivity|]. cbn. split; [|split]; intros id Hid.
  - rewrite E by now apply draws_ids. repeat split. destruct (n_rng (w_node w id)); reflexivity.
  - rewrite E by (apply draws_ids; now apply caching_draws). intros _ i.
    destruct (key_eqb (c_last (n_cache (w_node w id) i)) (n_key (w_node w id))) eqn:K.
    + apply key_eqb_iff in K. right. auto.
    + left. assert (c_last (n_cache (w_node w id) i) <> Some (n_key (w_node w id))).
      { intros X. apply key_eqb_iff in X. congruence. }
      auto.
  - rewrite E by now apply quiets_ids. refine (conj eq_refl (conj eq_refl _)). intros D.
    destruct (HO id D) as [st ->]. now split.
Qed.

Lemma global_seed_fresh : forall (a : aug) (w1 w2 : world) s bs,
  (forall id, In id (ids a) -> n_rng (w_node w1 id) = Glob /\ n_rng (w_node w2 id) = Glob /\
     n_det (w_node w1 id) = false /\ n_det (w_node w2 id) = false /\
     n_act (w_node w1 id) = n_act (w_node w2 id) /\ unused w1 id /\ unused w2 id) ->
  outputs a (seed_global s w1) bs = outputs a (seed_global s w2) bs.
Proof.
  intros a w1 w2 s bs H. apply (outputs_rel true). split; [reflexivity|]. cbn. split; [|split]; intros id Hid.
  - destruct (H id (draws_ids a id Hid)) as (A1 & A2 & B1 & B2 & C & D1 & D2).
    refine (conj C (conj _ _)); [congruence|]. rewrite A1, A2. reflexivity.
  - destruct (H id (draws_ids a id (caching_draws a id Hid))) as (A1 & A2 & B1 & B2 & C & D1 & D2).
    intros _ i. left. rewrite D1, D2. split; discriminate.
  - destruct (H id (quiets_ids a id Hid)) as (A1 & A2 & B1 & B2 & C & D1 & D2).
    refine (conj C (conj _ _)); congruence.
Qed.
End P.

(* ------------------------------------------------------------------ *)
(** ** C27, C28: out of range, ranges and None *)
Lemma filter_length_le' : forall {A} (f : A -> bool) l, (length (filter f l) <= length l)%nat.
Proof. intros A f l; induction l as [|x l IH]; cbn; [lia|]. destruct (f x); cbn; lia. Qed.

Section Q.
Context {R : rngops} {V : Type}.

Lemma subselect_out_of_range : forall (b : batch V) (indices : list nat) c r i,
  rect b -> nth c b None = Some r -> In i indices -> (nb_rows b <= i)%nat ->
  subselect b indices = Err IndexError.
Proof.
  intros b is c r i HR Hc Hi Hb.
  destruct (subselect_only b (nb_rows b) is c r (rect_lens b HR) Hc) as [[E _]|(sub & E & _ & _)]; [exact E|].
  exfalso. destruct (lens_nb_rows (nb_rows b) b c r (rect_lens b HR) Hc) as [_ Hr].
  assert (HG : exists s, get_rows r is = Ok s).
  { clear - E Hc. unfold subselect in E. revert sub c E Hc. induction b as [|x b IH]; intros sub c E Hc; [now destruct c|].
    rewrite mapM_cons in E. apply bind_ok in E. destruct E as (y & E1 & E). apply bind_ok in E.
    destruct E as (ys & E2 & _). destruct c as [|c]; cbn in Hc; [|eauto]. subst x. cbn in E1.
    apply bind_ok in E1. destruct E1 as (s & E1 & _). eauto. }
  destruct HG as [s HG]. clear - HG Hi Hb Hr. revert s HG. induction is as [|j is IH]; intros s HG; [destruct Hi|].
  cbn in HG. destruct (nth_error r j) as [v|] eqn:Ej; [|discriminate]. destruct Hi as [->|Hi].
  - assert (nth_error r i <> None) by congruence. apply nth_error_Some in H. lia.
  - apply bind_ok in HG. destruct HG as (vs & HG & _). eauto.
Qed.

Lemma requested_range : forall k nb_children rows (st : St R),
  @discrete_uniform_contract R -> k <= Z.of_nat nb_children ->
  Forall (fun n => k <= n <= Z.of_nat nb_children) (requested (NFrom k) nb_children rows st).
Proof.
  intros k nc rows st HC Hk. cbn. destruct (HC k (Z.of_nat nc) rows st Hk) as [_ HF].
  apply Forall_map. eapply Forall_impl; [|exact HF]. intros q (z & -> & Hz). now rewrite py_int_Z.
Qed.

Lemma some_of_all : forall id random_order (children : list (aug R V)) Gs
    parents (w : world R) (b : batch V),
  @permutation_contract R -> @shuffle_contract R ->
  Forall2 acts children Gs -> rect b -> all_active w (SomeOf id NAll random_order children) ->
  exists b' w' order,
    run None parents (SomeOf id NAll random_order children) w b = Ok (b', w') /\
    Permutation order (seq 0 (length children)) /\
    (random_order = false -> order = seq 0 (length children)) /\
    cells (fun c i => via Gs order c) b b'.
Proof.
  intros id ro cs Gs ps w b HP HS HA HR HW.
  destruct (some_of_applies id NAll ro cs Gs ps w b HP HS I HA HR HW)
    as (_ & b' & w' & order & sels & E & P1 & P2 & L & HSel & [CL C]).
  exists b', w', order. split; [exact E|]. split; [exact P1|]. split; [exact P2|].
  split; [exact CL|]. intros c. specialize (C c).
  destruct (nth c b None) as [r|] eqn:Er, (nth c b' None) as [r'|]; auto.
  destruct C as [C1 C2]. split; [exact C1|]. intros i x y Hx Hy. specialize (C2 i x y Hx Hy).
  destruct (lens_nb_rows (nb_rows b) b c r (rect_lens b HR) Er) as [_ Lr].
  assert (Hi : (i < nb_rows b)%nat) by (rewrite <- Lr; apply nth_error_Some; congruence).
  destruct (nth_error sels i) as [sel|] eqn:Es; [|apply nth_error_None in Es; lia].
  rewrite (nth_error_nth sels i [] Es) in C2. destruct (HSel i sel Es) as (_ & [keep K] & Ls).
  cbn [requested] in Ls.
  assert (Er' : nth i (repeat (Z.of_nat (length cs)) (nb_rows b)) 0 = Z.of_nat (length cs)).
  { apply (repeat_spec (nb_rows b)). apply nth_In. now rewrite repeat_length. }
  rewrite Er', Z.min_id, Nat2Z.id in Ls.
  assert (Lo : length order = length cs) by (rewrite (Permutation_length P1); apply seq_length).
  assert (sel = order); [|congruence].
  rewrite K in Ls |- *. clear - Ls Lo. rewrite <- Lo in Ls. clear Lo.
  induction order as [|j js IH]; [reflexivity|]. cbn in Ls |- *. destruct (keep j).
  - cbn in Ls. f_equal. apply IH. congruence.
  - exfalso. pose proof (filter_length_le' keep js). lia.
Qed.
End Q.
