(** Proofs about the replacement of segments and Voronoi cells. *)
From Coq Require Import Lia Lqa Permutation Sorted FinFun.
From Verif Require Import Prelude PreludeFacts GeoModel UtilModel UtilProofs SegModel SegSpec.

(* ------------------------------------------------------------------ *)
(** * Positions *)

Lemma in_positions : forall h w y x, In (y, x) (positions h w) <-> 0 <= y < h /\ 0 <= x < w.
Proof.
  intros. unfold positions. rewrite in_flat_map. split.
  - intros [r [R C]]. apply in_map_iff in C as [c [E C]]. injection E as -> ->.
    apply in_zrange in R, C. lia.
  - intros [R C]. exists y. split; [apply in_zrange; lia|]. apply in_map_iff. exists x.
    split; [reflexivity|]. apply in_zrange. lia.
Qed.
Lemma nodup_zrange : forall n, NoDup (zrange n).
Proof. intro. unfold zrange. apply Injective_map_NoDup; [intros a b; lia|apply seq_NoDup]. Qed.
Lemma nodup_app : forall {X} (l1 l2 : list X),
  NoDup l1 -> NoDup l2 -> (forall x, In x l1 -> ~ In x l2) -> NoDup (l1 ++ l2).
Proof.
  induction l1; cbn; intros l2 N1 N2 D; [exact N2|]. inversion N1; subst. constructor.
  - rewrite in_app_iff. intros [C|C]; [contradiction|]. apply (D a); auto.
  - apply IHl1; auto.
Qed.
Lemma nodup_flat : forall {A B C} (f : A -> B -> C) (l : list A) (m : list B),
  (forall a b a' b', f a b = f a' b' -> a = a' /\ b = b') -> NoDup l -> NoDup m ->
  NoDup (flat_map (fun a => map (f a) m) l).
Proof.
  intros A B C f l m I NL NM. induction NL as [|a l NI NL IH]; cbn; [constructor|].
  apply nodup_app.
  - apply Injective_map_NoDup; [intros b b' E; apply I in E; tauto|exact NM].
  - exact IH.
  - intros c C1 C2. apply in_map_iff in C1 as [b [<- _]]. apply in_flat_map in C2 as [a' [A' C2]].
    apply in_map_iff in C2 as [b' [E _]]. apply I in E as [-> _]. contradiction.
Qed.
Lemma nodup_positions : forall h w, NoDup (positions h w).
Proof.
  intros. apply nodup_flat; try apply nodup_zrange. intros a b a' b' E. injection E. auto.
Qed.

(** The pixels of a segment as the model lists them. *)
Definition seg_ps (h w : Z) (seg : arr Z) (id : Z) : list (Z * Z) :=
  filter (fun p => apx seg (fst p) (snd p) =? id) (positions h w).

Lemma seg_ps_enumerates : forall (im seg : arr Z) id, enumerates im seg id (seg_ps (ah im) (aw im) seg id).
Proof.
  intros. split.
  - apply NoDup_filter, nodup_positions.
  - intros. unfold seg_ps, inside. rewrite filter_In, in_positions. cbn. rewrite Z.eqb_eq. tauto.
Qed.
Lemma seg_ps_nonempty : forall (im seg : arr Z) y x, inside im y x -> seg_ps (ah im) (aw im) seg (apx seg y x) <> [].
Proof.
  intros im seg y x H C. destruct (seg_ps_enumerates im seg (apx seg y x)) as [_ E].
  specialize (E y x). rewrite C in E. cbn in E. tauto.
Qed.
Lemma total_fold : forall l a, fold_left Z.add l a = a + total l.
Proof.
  induction l; cbn; intros; [lia|]. rewrite IHl. unfold total. cbn. lia.
Qed.
Lemma total_perm : forall l l', Permutation l l' -> total l = total l'.
Proof. induction 1; unfold total in *; cbn; lia. Qed.
Lemma enumerates_perm : forall im seg id ps qs, enumerates im seg id ps -> enumerates im seg id qs ->
  Permutation ps qs.
Proof.
  intros im seg id ps qs [N E] [N' E']. apply NoDup_Permutation; [exact N|exact N'|].
  intros [y x]. rewrite E, E'. tauto.
Qed.
Lemma mean_of_unique : forall im seg id u v, mean_of im seg id u -> mean_of im seg id v -> u = v.
Proof.
  intros im seg id u v [ps [E [_ ->]]] [qs [F [_ ->]]].
  pose proof (enumerates_perm _ _ _ _ _ E F) as P.
  rewrite (Permutation_length P). f_equal. apply total_perm. unfold values. apply Permutation_map. exact P.
Qed.
Lemma values_ext : forall a im ps, (forall y x, In (y, x) ps -> apx a y x = apx im y x) -> values a ps = values im ps.
Proof. intros. unfold values. apply map_ext_in. intros [y x] I. apply H. exact I. Qed.

(* ------------------------------------------------------------------ *)
(** * np.unique *)

Lemma in_insert : forall v l u, In u (insert_unique v l) <-> u = v \/ In u l.
Proof.
  induction l as [|a l IH]; cbn; intro u; [intuition|].
  destruct (Z.ltb_spec v a); [cbn; intuition|]. destruct (Z.eqb_spec v a); cbn; [subst; intuition|].
  rewrite IH. intuition.
Qed.
Lemma sorted_insert : forall v l, StronglySorted Z.lt l -> StronglySorted Z.lt (insert_unique v l).
Proof.
  induction l as [|a l IH]; cbn; intro S; [repeat constructor|].
  inversion S as [|? ? S' F]; subst. destruct (Z.ltb_spec v a).
  - constructor; [exact S|]. constructor; [exact H|]. eapply Forall_impl; [|exact F]. cbn; intros; lia.
  - destruct (Z.eqb_spec v a); [exact S|]. constructor; [apply IH, S'|].
    apply Forall_forall. intros u U. apply in_insert in U as [->|U]; [lia|].
    rewrite Forall_forall in F. auto.
Qed.
Lemma in_unique : forall l u, In u (np_unique l) <-> In u l.
Proof. induction l; cbn; intro u; [tauto|]. rewrite in_insert, IHl. intuition. Qed.
Lemma sorted_unique : forall l, StronglySorted Z.lt (np_unique l).
Proof. induction l; cbn; [constructor|]. apply sorted_insert, IHl. Qed.
Lemma sorted_nodup : forall l, StronglySorted Z.lt l -> NoDup l.
Proof.
  induction 1; constructor; [|assumption]. intro C. rewrite Forall_forall in H0. apply H0 in C. lia.
Qed.

(** The ids of the map. *)
Definition seg_ids (h w : Z) (seg : arr Z) : list Z :=
  np_unique (map (fun p => apx seg (fst p) (snd p)) (positions h w)).
Lemma in_seg_ids : forall (im seg : arr Z) id, In id (seg_ids (ah im) (aw im) seg) <-> occurs im seg id.
Proof.
  intros. unfold seg_ids. rewrite in_unique, in_map_iff. split.
  - intros [[y x] [E I]]. apply in_positions in I. exists y, x. cbn in E. split; [exact I|exact E].
  - intros [y [x [I E]]]. exists (y, x). split; [exact E|]. apply in_positions. exact I.
Qed.

Lemma sorted_firstn : forall l i v, StronglySorted Z.lt l -> nth_error l i = Some v ->
  forall u, In u (firstn i l) <-> u < v /\ In u l.
Proof.
  induction l as [|a l IH]; intros i v S E u; [destruct i; discriminate|].
  inversion S as [|? ? S' F]; subst. rewrite Forall_forall in F. destruct i; cbn in *.
  - injection E as ->. split; [tauto|]. intros [L [->|I]]; [lia|]. apply F in I. lia.
  - pose proof (nth_error_In _ _ E) as I. apply F in I. rewrite (IH i v S' E u). split.
    + intros [->|[L J]]; [tauto|tauto].
    + intros [L [->|J]]; tauto.
Qed.
Lemma rank_index : forall (im seg : arr Z) i id, nth_error (seg_ids (ah im) (aw im) seg) i = Some id ->
  rank_of im seg id (Z.of_nat i).
Proof.
  intros im seg i id E. exists (firstn i (seg_ids (ah im) (aw im) seg)).
  assert (StronglySorted Z.lt (seg_ids (ah im) (aw im) seg)) as S by apply sorted_unique.
  split; [|split].
  - apply sorted_nodup in S. rewrite <- (firstn_skipn i) in S.
    clear E. revert S. generalize (firstn i (seg_ids (ah im) (aw im) seg)) (skipn i (seg_ids (ah im) (aw im) seg)).
    induction l as [|a l IH]; cbn; intros l0 N; [constructor|]. inversion N; subst. constructor; [|eapply IH; eauto].
    intro C. apply H1. apply in_or_app. auto.
  - intro v. rewrite <- in_seg_ids. apply sorted_firstn; assumption.
  - rewrite firstn_length_le; [reflexivity|]. apply Nat.lt_le_incl, nth_error_Some. congruence.
Qed.
Lemma rank_unique : forall im seg id r r', rank_of im seg id r -> rank_of im seg id r' -> r = r'.
Proof.
  intros im seg id r r' [l [N [E ->]]] [l' [N' [E' ->]]]. f_equal. apply Permutation_length.
  apply NoDup_Permutation; [exact N|exact N'|]. intro v. rewrite E, E'. tauto.
Qed.
Lemma rank_no_gaps : forall (im seg : arr Z) id, ids_ok im seg -> no_gaps im seg -> occurs im seg id ->
  rank_of im seg id id.
Proof.
  intros im seg id K G O. exists (zrange id). split; [apply nodup_zrange|].
  assert (0 <= id) as P by (destruct O as [y [x [I <-]]]; apply K, I).
  split.
  - intro v. rewrite in_zrange. split.
    + intros. split; [lia|]. apply (G id); [exact O|lia].
    + intros [L [y [x [I <-]]]]. specialize (K y x I). lia.
  - unfold zrange. rewrite map_length, seq_length. lia.
Qed.

(* ------------------------------------------------------------------ *)
(** * The numpy version *)

Section NP.
Variable k : dkind.
Variables im seg : arr Z.
Variable fl : list bool.

(** The color stored for a segment. *)
Definition color (id : Z) : Z :=
  store_mean k (total (values im (seg_ps (ah im) (aw im) seg id)))
    (Z.of_nat (length (seg_ps (ah im) (aw im) seg id))).

Definition np_step (a : arr Z) (ii : nat * Z) : arr Z :=
  if flag_at fl (Z.of_nat (fst ii)) then replace_one k seg a (snd ii) else a.

Lemma np_fold : forall L a, NoDup (map snd L) -> ah a = ah im -> aw a = aw im ->
  (forall y x, inside im y x -> In (apx seg y x) (map snd L) -> apx a y x = apx im y x) ->
  let r := fold_left np_step L a in
  ah r = ah im /\ aw r = aw im /\
  forall y x, inside im y x ->
    (forall i, In (i, apx seg y x) L -> flag_at fl (Z.of_nat i) = true -> apx r y x = color (apx seg y x)) /\
    ((forall i, In (i, apx seg y x) L -> flag_at fl (Z.of_nat i) = false) -> apx r y x = apx a y x).
Proof.
  induction L as [|[i id] L IH]; intros a N Ha Wa U; cbn [fold_left].
  - repeat split; try assumption. intros ? []. 
  - cbn in N. inversion N as [|? ? NI N']; subst.
    assert (ah (np_step a (i, id)) = ah im /\ aw (np_step a (i, id)) = aw im) as [Hs Ws].
    { unfold np_step. destruct (flag_at _ _); cbn; split; assumption. }
    assert (forall y x, inside im y x -> apx seg y x <> id -> apx (np_step a (i, id)) y x = apx a y x) as OT.
    { intros y x I D. unfold np_step. destruct (flag_at _ _); [|reflexivity]. cbn.
      destruct (Z.eqb_spec (apx seg y x) id); [contradiction|reflexivity]. }
    destruct (IH (np_step a (i, id)) N' Hs Ws) as [R1 [R2 R3]].
    { intros y x I J. rewrite OT; [apply U; [exact I|right; exact J]|exact I|]. intro E. rewrite E in J. contradiction. }
    split; [exact R1|]. split; [exact R2|]. intros y x I. destruct (R3 y x I) as [P1 P2]. split.
    + intros j [E|J] F.
      * injection E as E1 E2. subst i id. rewrite P2.
        -- unfold np_step. cbn [fst snd]. rewrite F. unfold replace_one. cbn. rewrite Z.eqb_refl. unfold color.
           rewrite Ha, Wa. fold (seg_ps (ah im) (aw im) seg (apx seg y x)).
           fold (values a (seg_ps (ah im) (aw im) seg (apx seg y x))). rewrite total_fold. cbn. f_equal. f_equal. apply values_ext. intros y' x' J.
           apply seg_ps_enumerates in J as [J1 J2]. apply U; [exact J1|]. left. symmetry. exact J2.
        -- intros j2 J. exfalso. apply NI. apply (in_map snd) in J. exact J.
      * apply (P1 j J F).
    + intros F. destruct (Z.eq_dec (apx seg y x) id) as [E|D].
      * rewrite P2.
        -- unfold np_step. cbn [fst snd]. rewrite (F i); [reflexivity|left; congruence].
        -- intros j J. apply F. right. exact J.
      * rewrite P2; [apply OT; assumption|]. intros j J. apply F. right. exact J.
Qed.
End NP.

Lemma map_snd_combine_seq : forall {A} (l : list A), map snd (combine (seq 0 (length l)) l) = l.
Proof.
  intros. generalize 0%nat. induction l; cbn; intro; [reflexivity|]. f_equal. apply IHl.
Qed.
Lemma in_combine_seq : forall {A} (l : list A) s i a, In (i, a) (combine (seq s (length l)) l) <->
  exists j, i = (s + j)%nat /\ nth_error l j = Some a.
Proof.
  induction l as [|b l IH]; cbn; intros s i a.
  - split; [tauto|]. intros [[|j] [_ E]]; discriminate.
  - rewrite IH. split.
    + intros [E|[j [-> E]]].
      * injection E as -> ->. exists 0%nat. split; [lia|reflexivity].
      * exists (S j). split; [lia|exact E].
    + intros [[|j] [-> E]].
      * left. cbn in E. injection E as ->. f_equal. lia.
      * right. exists j. split; [lia|exact E].
Qed.

(** The flags after replacing [None]. *)
Definition np_flags (flags : option (list bool)) (n : nat) : list bool :=
  match flags with None => repeat true n | Some f => f end.
Lemma flag_at_repeat : forall n i, 0 < Z.of_nat n -> flag_at (repeat true n) i = true.
Proof.
  intros n i P. unfold flag_at. rewrite repeat_length.
  assert (forall m j, (j < m)%nat -> nth j (repeat true m) false = true) as H.
  { induction m; intros j L; [lia|]. destruct j; cbn; [reflexivity|]. apply IHm. lia. }
  apply H. pose proof (Z.mod_pos_bound i (Z.of_nat n) P). lia.
Qed.
Lemma flag_wanted : forall flags n i, 0 < Z.of_nat n ->
  flag_at (np_flags flags n) i = true <-> wanted flags i.
Proof.
  intros [f|] n i P; cbn [np_flags wanted]; [unfold flag_at; tauto|]. rewrite flag_at_repeat by exact P. tauto.
Qed.

Lemma replace_np_spec : forall k (im seg : arr Z) flags, 0 < ah im -> 0 < aw im -> flags <> Some [] ->
  exists out, replace_np k im seg flags = Ok out /\ ah out = ah im /\ aw out = aw im /\
  forall y x, inside im y x ->
    (forall r, rank_of im seg (apx seg y x) r -> wanted flags r -> apx out y x = color k im seg (apx seg y x)) /\
    (forall r, rank_of im seg (apx seg y x) r -> ~ wanted flags r -> apx out y x = apx im y x).
Proof.
  intros k im seg flags H W NE. unfold replace_np.
  fold (seg_ids (ah im) (aw im) seg). set (ids := seg_ids (ah im) (aw im) seg).
  change (match flags with Some f => f | None => repeat true (length ids) end) with (np_flags flags (length ids)).
  assert (0 < Z.of_nat (length ids)) as PL.
  { assert (In (apx seg 0 0) ids) as I by (apply in_seg_ids; exists 0, 0; split; [unfold inside; lia|reflexivity]).
    destruct ids; [destruct I|cbn; lia]. }
  assert (np_flags flags (length ids) <> []) as NF.
  { destruct flags as [[|]|]; cbn; [congruence|discriminate|]. destruct (length ids); [lia|discriminate]. }
  destruct (np_flags flags (length ids)) as [|b f] eqn:EF; [congruence|]. rewrite <- EF in *. clear b f EF.
  set (fl := np_flags flags (length ids)) in *.
  change (fun (a : arr Z) (ii : nat * Z) => if flag_at fl (Z.of_nat (fst ii)) then replace_one k seg a (snd ii) else a)
    with (np_step k seg fl).
  destruct (np_fold k im seg fl (combine (seq 0 (length ids)) ids) im) as [R1 [R2 R3]];
    [rewrite map_snd_combine_seq; apply sorted_nodup, sorted_unique|reflexivity|reflexivity|auto|].
  eexists. split; [reflexivity|]. split; [exact R1|]. split; [exact R2|].
  intros y x I. destruct (R3 y x I) as [P1 P2].
  assert (exists i, nth_error ids i = Some (apx seg y x)) as [i Ei].
  { apply In_nth_error, in_seg_ids. exists y, x. auto. }
  assert (forall j, In (j, apx seg y x) (combine (seq 0 (length ids)) ids) -> rank_of im seg (apx seg y x) (Z.of_nat j)) as RK.
  { intros j J. apply in_combine_seq in J as [j' [-> E]]. apply rank_index. exact E. }
  split; intros r RR WR.
  - apply (P1 i); [apply in_combine_seq; exists i; auto|]. apply flag_wanted; [exact PL|].
    rewrite (rank_unique _ _ _ _ r (rank_index _ _ _ _ Ei) RR). exact WR.
  - rewrite P2; [reflexivity|]. intros j J. apply RK in J. rewrite (rank_unique _ _ _ _ r J RR).
    destruct (flag_at fl r) eqn:F; [|reflexivity]. exfalso. apply WR. apply flag_wanted in F; assumption.
Qed.

Lemma color_mean : forall k (im seg : arr Z) y x, k <> DBool -> inside im y x ->
  mean_of im seg (apx seg y x) (color k im seg (apx seg y x)).
Proof.
  intros k im seg y x K I. exists (seg_ps (ah im) (aw im) seg (apx seg y x)).
  split; [apply seg_ps_enumerates|]. split; [apply seg_ps_nonempty, I|].
  unfold color, store_mean. destruct k; [reflexivity|congruence|reflexivity].
Qed.

(* ------------------------------------------------------------------ *)
(** * The numba version *)

Definition acc_step (im seg : arr Z) (st : acc) (p : Z * Z) : acc :=
  let id := apx seg (fst p) (snd p) in
  if a_cnt st id =? -1 then st
  else mkAcc (bump (a_sum st) id (apx im (fst p) (snd p))) (bump (a_cnt st) id 1).

Lemma acc_fold : forall im seg id ps st, 0 <= a_cnt st id ->
  let st' := fold_left (acc_step im seg) ps st in
  let qs := filter (fun p => apx seg (fst p) (snd p) =? id) ps in
  a_sum st' id = a_sum st id + total (values im qs) /\ a_cnt st' id = a_cnt st id + Z.of_nat (length qs).
Proof.
  induction ps as [|p ps IH]; intros st P; cbn [fold_left filter].
  - cbn. lia.
  - assert (a_sum (acc_step im seg st p) id = a_sum st id + (if apx seg (fst p) (snd p) =? id then apx im (fst p) (snd p) else 0)
        /\ a_cnt (acc_step im seg st p) id = a_cnt st id + (if apx seg (fst p) (snd p) =? id then 1 else 0)) as [S C].
    { unfold acc_step. destruct (Z.eqb_spec (a_cnt st (apx seg (fst p) (snd p))) (-1)) as [E|E].
      - destruct (Z.eqb_spec (apx seg (fst p) (snd p)) id) as [D|D]; [rewrite D in E; lia|lia].
      - cbn. unfold bump. rewrite (Z.eqb_sym id). destruct (Z.eqb_spec (apx seg (fst p) (snd p)) id); lia. }
    destruct (IH (acc_step im seg st p)) as [I1 I2]; [destruct (_ =? id) in C; lia|].
    cbn zeta in I1, I2. rewrite I1, I2, S, C. destruct (_ =? id); cbn [values map total fold_right length].
    + unfold total, values. cbn. lia.
    + lia.
Qed.

Lemma collect_color : forall (im seg : arr Z) fl nb id, flag_at fl id = true ->
  seg_ps (ah im) (aw im) seg id <> [] ->
  collect_avg im seg fl nb id = color D8 im seg id.
Proof.
  intros im seg fl nb id F NE. unfold collect_avg.
  change (fun (st : acc) (p : Z * Z) => let id := apx seg (fst p) (snd p) in
      if a_cnt st id =? -1 then st
      else mkAcc (bump (a_sum st) id (apx im (fst p) (snd p))) (bump (a_cnt st) id 1)) with (acc_step im seg).
  destruct (acc_fold im seg id (positions (ah im) (aw im))
     (mkAcc (fun _ => 0) (fun id => if (0 <=? id) && (id <? nb) && negb (flag_at fl id) then -1 else 0))) as [S C].
  { cbn. rewrite F. cbn. rewrite andb_false_r. lia. }
  unfold acc_step in S, C. cbn beta zeta in S, C |- *. rewrite S, C. cbn [a_sum a_cnt]. rewrite F. cbn [negb]. rewrite andb_false_r.
  fold (seg_ps (ah im) (aw im) seg id). unfold color, store_mean. f_equal.
  destruct (seg_ps (ah im) (aw im) seg id); [congruence|cbn [length]; lia].
Qed.

Lemma seg_max_ge : forall (im seg : arr Z) y x, inside im y x -> apx seg y x <= seg_max (ah im) (aw im) seg.
Proof.
  intros im seg y x I. unfold seg_max.
  assert (forall l a, a <= fold_left Z.max l a /\ forall v, In v l -> v <= fold_left Z.max l a) as H.
  { induction l as [|b l IH]; cbn; intro a; [split; [lia|tauto]|].
    destruct (IH (Z.max a b)) as [I1 I2]. split; [lia|]. intros v [<-|V]; [lia|auto]. }
  apply H. apply in_map_iff. exists (y, x). split; [reflexivity|]. apply in_positions. exact I.
Qed.

Lemma replace_numba_spec : forall (im seg : arr Z) flags, 0 < ah im -> 0 < aw im -> flags <> Some [] -> ids_ok im seg ->
  let out := replace_numba im seg flags (1 + seg_max (ah im) (aw im) seg) in
  ah out = ah im /\ aw out = aw im /\
  forall y x, inside im y x ->
    (wanted flags (apx seg y x) -> apx out y x = color D8 im seg (apx seg y x)) /\
    (~ wanted flags (apx seg y x) -> apx out y x = apx im y x).
Proof.
  intros im seg flags H W NE K. set (nb := 1 + seg_max (ah im) (aw im) seg).
  assert (0 < Z.of_nat (Z.to_nat nb)) as PN.
  { assert (inside im 0 0) as I by (unfold inside; lia).
    pose proof (seg_max_ge im seg 0 0 I). specialize (K 0 0 I). lia. }
  assert (forall fl, fl = np_flags flags (Z.to_nat nb) ->
    let out := apply_avg im seg fl (collect_avg im seg fl nb) in
    ah out = ah im /\ aw out = aw im /\
    forall y x, inside im y x ->
    (wanted flags (apx seg y x) -> apx out y x = color D8 im seg (apx seg y x)) /\
    (~ wanted flags (apx seg y x) -> apx out y x = apx im y x)) as GEN.
  { intros fl ->. unfold apply_avg. cbn [ah aw apx]. cbv zeta. split; [reflexivity|]. split; [reflexivity|]. intros y x I. split; intro C.
    - pose proof (proj2 (flag_wanted flags (Z.to_nat nb) (apx seg y x) PN) C) as F. rewrite F.
      apply collect_color; [exact F|]. apply seg_ps_nonempty, I.
    - destruct (flag_at _ _) eqn:F; [|reflexivity]. apply flag_wanted in F; [contradiction|exact PN]. }
  unfold replace_numba. destruct flags as [f|]; [|apply (GEN _ eq_refl)].
  destruct (existsb (fun b => b) (firstn (Z.to_nat nb) f)) eqn:EX; [apply (GEN _ eq_refl)|].
  cbn. split; [reflexivity|]. split; [reflexivity|]. intros y x I. split; [|auto]. intro C. exfalso.
  assert (0 < Z.of_nat (length f)) as PF by (destruct f; [congruence|cbn; lia]).
  pose proof (Z.mod_pos_bound (apx seg y x) _ PF) as B.
  assert (existsb (fun b => b) (firstn (Z.to_nat nb) f) = true) as T; [|congruence].
  apply existsb_exists. exists true. split; [|reflexivity]. rewrite <- C.
  set (j := Z.to_nat (apx seg y x mod Z.of_nat (length f))) in *.
  assert (j < Z.to_nat nb)%nat as LJ.
  { pose proof (seg_max_ge im seg y x I). specialize (K y x I).
    pose proof (Z.mod_le (apx seg y x) _ K PF). lia. }
  rewrite <- (firstn_skipn (Z.to_nat nb) f) at 1. rewrite app_nth1 by (rewrite firstn_length; lia).
  apply nth_In. rewrite firstn_length. lia.
Qed.
