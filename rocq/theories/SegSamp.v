(** Proofs about the samplers as a whole: dropout, uniform points, subsampling,
    nesting. *)
From Coq Require Import Lia Lqa Permutation FinFun.
From Verif Require Import Prelude PreludeFacts GeoModel UtilModel UtilProofs SegModel SegSpec SegProofs SegRest SegPts KeepProofs.

Lemma pairs_length : forall n l, length l = (2 * n)%nat -> length (pairs l) = n /\
  forall j, (j < n)%nat -> exists u v, nth_error l (2 * j) = Some u /\ nth_error l (2 * j + 1) = Some v /\
    nth_error (pairs l) j = Some (u, v).
Proof.
  induction n; intros l L.
  - destruct l; [|discriminate]. split; [reflexivity|]. lia.
  - destruct l as [|u [|v l]]; try (cbn in L; lia). destruct (IHn l) as [I1 I2]; [cbn in L; lia|].
    split; [cbn; lia|]. intros [|j] J; [exists u, v; auto|]. destruct (I2 j) as [u' [v' [A [B C]]]]; [lia|].
    exists u', v'. replace (2 * S j)%nat with (S (S (2 * j))) by lia. cbn [Nat.add nth_error pairs]. auto.
Qed.

(** One entry of [rel_to_abs]. *)
Definition abs_point (s : shape2) (c : Q * Q) : point :=
  (inject_Z (zclip (np_round (fst c * inject_Z (snd s))) 0 (snd s)),
   inject_Z (zclip (np_round (snd c * inject_Z (fst s))) 0 (fst s))).
Definition zsum (l : list Z) : Z := fold_right Z.add 0 l.
Lemma rel_to_abs_nth : forall rel todo i k s n, 0 <= i -> (forall t, In t todo -> 0 <= snd t) ->
  nth_error todo k = Some (s, n) ->
  nth_error (rel_to_abs rel todo i) k =
  Some (map (abs_point s) (firstn (Z.to_nat n) (skipn (Z.to_nat (i + zsum (map snd (firstn k todo)))) rel))).
Proof.
  intros rel todo. induction todo as [|[s0 n0] todo IH]; intros i k s n I P K; [destruct k; discriminate|].
  destruct k; cbn [nth_error rel_to_abs firstn map zsum fold_right] in *.
  - injection K as -> ->. rewrite Z.add_0_r. reflexivity.
  - pose proof (P _ (or_introl eq_refl)) as P0. cbn in P0. rewrite (IH (i + n0) k s n); [|lia|intros; apply P; right; assumption|exact K].
    cbn [snd]. unfold zsum. rewrite Z.add_assoc. reflexivity.
Qed.
Lemma rel_to_abs_length : forall rel todo i, length (rel_to_abs rel todo i) = length todo.
Proof. intros rel todo. induction todo as [|[s n] todo IH]; intro i; cbn; [reflexivity|]. f_equal. apply IH. Qed.

Lemma nth_error_firstn_lt : forall {A} (l : list A) n j, (j < n)%nat -> nth_error (firstn n l) j = nth_error l j.
Proof.
  induction l; intros n j L; destruct n; try lia; [destruct j; reflexivity|].
  destruct j; cbn; [reflexivity|]. apply IHl. lia.
Qed.
Lemma nth_error_skipn_add : forall {A} (l : list A) n j, nth_error (skipn n l) j = nth_error l (n + j).
Proof. induction l; intros n j; destruct n; cbn; try reflexivity; [destruct j; reflexivity|apply IHl]. Qed.

Lemma abs_point_ok : forall s u v, 0 <= fst s -> 0 <= snd s -> (0 <= u <= 1)%Q -> (0 <= v <= 1)%Q ->
  exists X Y, abs_point s (u, v) = (inject_Z X, inject_Z Y) /\
    rounded (u * inject_Z (snd s)) X /\ rounded (v * inject_Z (fst s)) Y /\ 0 <= X <= snd s /\ 0 <= Y <= fst s.
Proof.
  intros s u v H W U V.
  assert (forall t n, 0 <= n -> (0 <= t <= 1)%Q -> 0 <= np_round (t * inject_Z n) <= n) as B.
  { intros t n N T. assert (0 <= inject_Z n)%Q as PN by (apply inject_nonneg; exact N). split.
    - rewrite <- (np_round_Z 0). apply np_round_mono. change (inject_Z 0) with 0%Q. nra.
    - rewrite <- (np_round_Z n) at 2. apply np_round_mono. nra. }
  pose proof (B u _ W U) as BU. pose proof (B v _ H V) as BV.
  exists (np_round (u * inject_Z (snd s))), (np_round (v * inject_Z (fst s))).
  split; [unfold abs_point, zclip; cbn [fst snd]; f_equal; f_equal; lia|].
  destruct (np_round_spec (u * inject_Z (snd s))) as [A1 [A2 _]].
  destruct (np_round_spec (v * inject_Z (fst s))) as [A3 [A4 _]].
  unfold rounded. auto.
Qed.
Lemma abs_point_plane : forall s c, 0 <= fst s -> 0 <= snd s -> on_plane s (abs_point s c).
Proof.
  intros s c H W. unfold on_plane, abs_point, zclip. cbn [fst snd].
  change 0%Q with (inject_Z 0). rewrite <- !Zle_Qle. lia.
Qed.

(* ------------------------------------------------------------------ *)
(** * Dropout *)

Lemma select_kept : forall {A} (l : list A) m s, length m = length l ->
  select l m = map snd (filter (fun im => nth (fst im - s) m false) (combine (seq s (length l)) l)).
Proof.
  induction l as [|a l IH]; intros m s L; destruct m as [|b m]; try discriminate; [reflexivity|].
  cbn [length seq combine filter fst]. rewrite Nat.sub_diag. change (nth 0 (b :: m) false) with b.
  assert (filter (fun im : nat * A => nth (fst im - s) (b :: m) false) (combine (seq (S s) (length l)) l)
    = filter (fun im : nat * A => nth (fst im - S s) m false) (combine (seq (S s) (length l)) l)) as E.
  { apply filter_ext_in. intros [i x] I. apply in_combine_seq in I as [j [-> _]]. cbn [fst].
    replace (S s + j - s)%nat with (S j) by lia. replace (S s + j - S s)%nat with j by lia. reflexivity. }
  rewrite E. clear E. destruct b; cbn [select map snd]; rewrite (IH m (S s)) by (cbn in L; lia); reflexivity.
Qed.
Lemma select_exact : forall {A} (l : list A) m, length m = length l -> kept_exactly l m (select l m).
Proof.
  intros A l m L. eexists. split; [|reflexivity]. rewrite (select_kept l m 0 L). f_equal. apply filter_ext.
  intro. rewrite Nat.sub_0_r. reflexivity.
Qed.
Lemma select_sub : forall {A} (l : list A) m, length m = length l -> subsequence (select l m) l.
Proof.
  induction l; intros [|b m] L; try discriminate; [constructor|]. cbn in L. cbn.
  destruct b; constructor; apply IHl; lia.
Qed.
Lemma select_one : forall {A} (l : list A) m i, length m = length l -> existsb (fun b => b) m = false ->
  select l (set_true i m) = match nth_error l i with Some a => [a] | None => [] end.
Proof.
  assert (forall {A} (l : list A) m, existsb (fun b => b) m = false -> select l m = []) as N.
  { induction l; intros [|b m] E; try reflexivity. cbn in E. destruct b; [discriminate|]. cbn. apply IHl. exact E. }
  induction l; intros [|b m] i L E; try discriminate; [destruct i; reflexivity|].
  cbn in E. destruct b; [discriminate|]. destruct i; cbn.
  - rewrite N by exact E. reflexivity.
  - apply IHl; [cbn in L; lia|exact E].
Qed.
Lemma set_true_length : forall i m, length (set_true i m) = length m.
Proof. induction i; intros [|b m]; cbn; auto. Qed.
Lemma select_nonempty : forall {A} (l : list A) m, length m = length l -> existsb (fun b => b) m = true -> select l m <> [].
Proof.
  induction l; intros [|b m] L E; try discriminate. cbn in E. destruct b; cbn; [discriminate|]. apply IHl; [cbn in L; lia|exact E].
Qed.
Lemma kept_all : forall {A} (l : list A) n, select l (repeat true n) = firstn n l.
Proof. induction l; destruct n; cbn; try reflexivity. f_equal. apply IHl. Qed.
Lemma existsb_repeat_false : forall n, existsb (fun b => b) (repeat false n) = false.
Proof. induction n; cbn; auto. Qed.

Lemma middle_range : forall {A} (l : list A), l <> [] -> (Z.to_nat (middle l) < length l)%nat.
Proof.
  intros A l N. unfold middle. assert (0 < Z.of_nat (length l)) by (destruct l; [congruence|cbn; lia]).
  pose proof (Z.div_le_upper_bound (Z.of_nat (length l) - 1) 2 (Z.of_nat (length l) - 1) ltac:(lia) ltac:(lia)).
  pose proof (Z.div_pos (Z.of_nat (length l) - 1) 2 ltac:(lia) ltac:(lia)). lia.
Qed.
Lemma dropout_spec : forall pts keep, length keep = length pts ->
  (In true keep -> kept_exactly pts keep (apply_dropout pts keep)) /\
  (~ In true keep -> pts <> [] -> exists p, nth_error pts (Z.to_nat ((Z.of_nat (length pts) - 1) / 2)) = Some p /\
     apply_dropout pts keep = [p]) /\
  (pts = [] -> apply_dropout pts keep = []) /\
  subsequence (apply_dropout pts keep) pts /\ (pts <> [] -> apply_dropout pts keep <> []).
Proof.
  intros pts keep L.
  assert (existsb (fun b => b) keep = true <-> In true keep) as EX.
  { rewrite existsb_exists. split; [intros [b [I ->]]; exact I|intro I; exists true; auto]. }
  destruct pts as [|p pts].
  - destruct keep; [|discriminate]. cbn. repeat split; try tauto; try congruence. constructor.
  - unfold apply_dropout. set (l := p :: pts) in *.
    assert (l <> []) as NE by discriminate.
    pose proof (middle_range l NE) as MR.
    destruct (existsb (fun b => b) keep) eqn:E.
    + split; [intros _; apply select_exact, L|]. split; [intro N; exfalso; apply N; apply EX; reflexivity|].
      split; [congruence|]. split; [apply select_sub, L|]. intros _. apply select_nonempty; assumption.
    + assert (exists q, nth_error l (Z.to_nat (middle l)) = Some q) as [q Q].
      { destruct (nth_error l (Z.to_nat (middle l))) eqn:F; [eauto|]. apply nth_error_None in F. lia. }
      rewrite select_one by assumption. rewrite Q.
      split; [intro I; apply EX in I; discriminate|]. split; [intros _ _; exists q; split; [exact Q|reflexivity]|].
      split; [congruence|]. split; [|discriminate].
      replace [q] with (select l (set_true (Z.to_nat (middle l)) keep)) by (rewrite select_one, Q by assumption; reflexivity).
      apply select_sub. rewrite set_true_length. exact L.
Qed.

(* ------------------------------------------------------------------ *)
(** * Subsampling *)

Lemma firstn_nodup : forall {A} n (l : list A), NoDup l -> NoDup (firstn n l).
Proof.
  induction n; intros l N; [constructor|]. destruct l; [constructor|]. inversion N; subst. cbn. constructor; [|auto].
  intro C. apply H1. rewrite <- (firstn_skipn n l). apply in_or_app. auto.
Qed.
Lemma identity_chosen : forall {A} (l : list A), chosen_from l l.
Proof.
  intros A l. exists (seq 0 (length l)). split; [apply seq_NoDup|].
  assert (forall (l0 : list A) s, (forall j, nth_error l (s + j) = nth_error l0 j) ->
    Forall2 (fun i a => nth_error l i = Some a) (seq s (length l0)) l0) as H.
  { induction l0; intros s E; cbn; constructor.
    - specialize (E 0%nat). rewrite Nat.add_0_r in E. exact E.
    - apply IHl0. intro j. specialize (E (S j)). cbn in E. rewrite <- E. f_equal. lia. }
  apply H. reflexivity.
Qed.
Lemma subsample_spec : forall pts m perm, Permutation perm (seq 0 (length pts)) -> -1 <= m ->
  chosen_from pts (subsample pts m perm) /\
  (0 <= m -> Z.of_nat (length (subsample pts m perm)) = Z.min m (Z.of_nat (length pts))) /\
  (m = -1 -> Z.of_nat (length (subsample pts m perm)) = Z.max 0 (Z.of_nat (length pts) - 1)) /\
  (0 <= m -> Z.of_nat (length pts) <= m -> subsample pts m perm = pts).
Proof.
  intros pts m perm P M. pose proof (Permutation_length P) as LP. rewrite seq_length in LP. unfold subsample.
  destruct (Z.leb_spec (Z.of_nat (length pts)) m) as [L|L].
  - split; [apply identity_chosen|]. split; [lia|]. split; [lia|auto].
  - set (k := Z.to_nat (py_slice_bound (Z.of_nat (length perm)) m)).
    split; [|split; [|split; [|lia]]].
    + exists (firstn k perm). split.
      * apply firstn_nodup. eapply Permutation_NoDup; [apply Permutation_sym, P|apply seq_NoDup].
      * assert (forall is, (forall i, In i is -> (i < length pts)%nat) ->
          Forall2 (fun i a => nth_error pts i = Some a) is (map (fun i => nth i pts (0, 0)%Q) is)) as F.
        { induction is as [|i is IH]; intro B; cbn; constructor.
          - apply nth_error_nth'. apply B. left. reflexivity.
          - apply IH. intros. apply B. right. assumption. }
        apply F. intros i I. assert (In i perm) as IP by (rewrite <- (firstn_skipn k perm); apply in_or_app; auto).
        apply (Permutation_in _ P) in IP. apply in_seq in IP. lia.
    + intro M0. rewrite map_length, firstn_length. subst k. unfold py_slice_bound. destruct (Z.ltb_spec m 0); lia.
    + intros ->. rewrite map_length, firstn_length. subst k. unfold py_slice_bound. destruct (Z.ltb_spec (-1) 0); lia.
Qed.

(* ------------------------------------------------------------------ *)
(** * All samplers *)

Section All.
Variable rng : Type.
Variable child : rng -> Z -> rng.
Variable uniforms : rng -> nat -> list Q.
Variable permutation : rng -> nat -> list nat.
Variable keep_draw : pkeep -> rng -> nat -> list bool.

Notation run := (sample_points rng child uniforms permutation keep_draw).

Notation draws_ok := (draws_ok uniforms permutation keep_draw).

Lemma verify_ok : forall p, images_ok p -> verify_images p = Ok tt.
Proof.
  intros p [NE [_ D]]. unfold verify_images. destruct (pshapes p); [congruence|]. destruct p.
  - assert (forallb (fun i => fst i =? 3) l0 = true) as ->; [|reflexivity].
    apply forallb_forall. intros i I. apply Z.eqb_eq. auto.
  - subst. reflexivity.
Qed.
Lemma verify_bad : forall p, (pshapes p = [] \/
    match p with PList l => exists i, In i l /\ fst i <> 3 | PArray nd _ _ => nd <> 4 end) ->
  verify_images p = Err AssertionError.
Proof.
  intros p B. unfold verify_images. destruct (pshapes p) as [|s l] eqn:E; [reflexivity|].
  destruct B as [B|B]; [discriminate|]. destruct p.
  - destruct (forallb (fun i => fst i =? 3) l0) eqn:F; [|reflexivity]. destruct B as [i [I N]].
    rewrite forallb_forall in F. apply F, Z.eqb_eq in I. contradiction.
  - apply Z.eqb_neq in B. rewrite B. reflexivity.
Qed.
Lemma run_bad : forall s p r, verify_images p = Err AssertionError -> run s p r = Err AssertionError.
Proof. intros s p r E. destruct s; cbn [sample_points]; rewrite E; reflexivity. Qed.

Lemma F2_nth : forall {A B} (R : A -> B -> Prop) l l', length l = length l' ->
  (forall k a b, nth_error l k = Some a -> nth_error l' k = Some b -> R a b) -> Forall2 R l l'.
Proof.
  induction l as [|a l IH]; intros [|b l'] L H; try discriminate; constructor.
  - apply (H 0%nat); reflexivity.
  - apply IH; [cbn in L; lia|]. intros k x y X Y. apply (H (S k)); assumption.
Qed.
Lemma nth_F2 : forall {A B} (R : A -> B -> Prop) l l', Forall2 R l l' -> length l = length l' /\
  forall k a b, nth_error l k = Some a -> nth_error l' k = Some b -> R a b.
Proof.
  induction 1 as [|a b l l' RA F [L H]]; [split; [reflexivity|intros [|k] ? ? X; discriminate]|].
  split; [cbn; congruence|]. intros [|k] x y X Y; cbn in *; [congruence|eauto].
Qed.
Lemma nth_in_range : forall {A} (l : list A) k, (k < length l)%nat -> exists a, nth_error l k = Some a.
Proof. intros A l k L. destruct (nth_error l k) eqn:E; [eauto|]. apply nth_error_None in E. lia. Qed.
Lemma nth_lt : forall {A} (l : list A) k a, nth_error l k = Some a -> (k < length l)%nat.
Proof. intros A l k a E. apply nth_error_Some. congruence. Qed.

Lemma grids_nth : forall shapes rows cols k s r c, nth_error shapes k = Some s -> nth_error rows k = Some r ->
  nth_error cols k = Some c ->
  nth_error (grids shapes rows cols) k = Some (point_grid s (clip_count r (fst s)) (clip_count c (snd s))).
Proof.
  intros. unfold grids. rewrite nth_error_map, (combine_nth_error _ _ k s (r, c)); [reflexivity|assumption|].
  apply combine_nth_error; assumption.
Qed.
Lemma grids_length : forall shapes rows cols, length rows = length shapes -> length cols = length shapes ->
  length (grids shapes rows cols) = length shapes.
Proof. intros. unfold grids. rewrite map_length, !combine_length. lia. Qed.
Lemma rel_counts_length : forall f z, length f = length z -> length (rel_counts f z) = length z.
Proof. intros. unfold rel_counts. rewrite map_length, combine_length. lia. Qed.
Lemma rel_counts_nth : forall f z k q n, nth_error f k = Some q -> nth_error z k = Some n ->
  nth_error (rel_counts f z) k = Some (np_round (q * inject_Z n)).
Proof. intros. unfold rel_counts. rewrite nth_error_map, (combine_nth_error _ _ k q n) by assumption. reflexivity. Qed.

Lemma grids_ok : forall (ne : Prop) shapes rows cols, (forall s, In s shapes -> 0 <= fst s /\ 0 <= snd s) ->
  length rows = length shapes -> length cols = length shapes ->
  Forall2 (row_ok ne) shapes (grids shapes rows cols).
Proof.
  intros ne shapes rows cols P LR LC. apply F2_nth; [symmetry; apply grids_length; assumption|].
  intros k s ps S G. pose proof (nth_lt _ _ _ S) as LK.
  destruct (nth_in_range rows k ltac:(rewrite LR; exact LK)) as [r R]. destruct (nth_in_range cols k ltac:(rewrite LC; exact LK)) as [c C].
  rewrite (grids_nth _ _ _ k s r c S R C) in G. injection G as <-.
  destruct (P s (nth_error_In _ _ S)) as [H W].
  assert (is_grid s (clip_count r (fst s)) (clip_count c (snd s)) (point_grid s (clip_count r (fst s)) (clip_count c (snd s)))) as IG
    by (apply point_grid_ok; try assumption; apply clip_count_range).
  pose proof (clip_count_range r (fst s)). pose proof (clip_count_range c (snd s)).
  split; [eapply grid_all_on_plane; try eassumption; lia|].
  intros _ E. rewrite E in IG. destruct IG as [L _]. cbn in L. nia.
Qed.

Lemma subsequence_forall : forall {A} (P : A -> Prop) s l, subsequence s l -> Forall P l -> Forall P s.
Proof. induction 1; intro F; [constructor|inversion F; subst; constructor; auto|inversion F; subst; auto]. Qed.
Lemma chosen_forall : forall {A} (P : A -> Prop) l out, chosen_from l out -> Forall P l -> Forall P out.
Proof.
  intros A P l out [is [_ F]] FP. rewrite Forall_forall in FP. induction F; constructor; auto.
  apply FP. eapply nth_error_In; eauto.
Qed.

Lemma enum_nth : forall {A} (l : list A) k, nth_error (combine (zrange (Z.of_nat (length l))) l) k =
  match nth_error l k with Some a => Some (Z.of_nat k, a) | None => None end.
Proof.
  intros A l k. destruct (nth_error l k) eqn:E.
  - apply combine_nth_error; [|exact E]. pose proof (nth_lt _ _ _ E).
    replace k with (Z.to_nat (Z.of_nat k)) at 1 by lia. apply nth_error_zrange. lia.
  - apply nth_error_None. apply nth_error_None in E. rewrite combine_length. lia.
Qed.
Lemma enum_length : forall {A} (l : list A), length (combine (zrange (Z.of_nat (length l))) l) = length l.
Proof. intros. rewrite combine_length, length_zrange. lia. Qed.

Lemma zsum_firstn : forall l k n, (forall v, In v l -> 1 <= v) -> nth_error l k = Some n ->
  zsum (firstn k l) + n <= zsum l /\ 0 <= zsum (firstn k l).
Proof.
  induction l as [|a l IH]; intros k n P K; [destruct k; discriminate|].
  assert (forall l', (forall v, In v l' -> 1 <= v) -> 0 <= zsum l') as NN.
  { induction l'; intro Q; [cbn; lia|]. assert (1 <= a0) by (apply Q; left; reflexivity).
    assert (0 <= zsum l') by (apply IHl'; intros; apply Q; right; assumption). unfold zsum in *. cbn. lia. }
  destruct k; cbn [firstn] in *.
  - cbn in K. injection K as ->. specialize (NN l ltac:(intros; apply P; right; assumption)). unfold zsum in *. cbn. lia.
  - destruct (IH k n) as [I1 I2]; [intros; apply P; right; assumption|exact K|].
    assert (1 <= a) by (apply P; left; reflexivity). unfold zsum in *. cbn [fold_right]. lia.
Qed.
Lemma map_snd_firstn_combine : forall {A B} k (l : list A) (l' : list B), length l = length l' ->
  map snd (firstn k (combine l l')) = firstn k l'.
Proof. induction k; intros [|a l] [|b l'] L; try discriminate; cbn; try reflexivity. f_equal. apply IHk. cbn in L. lia. Qed.

(** The uniform sampler. *)
Lemma uniform_rows : forall images n_points r, draws_ok -> images_ok images ->
  (forall r n, length (n_points r n) = n) ->
  exists pts us, run (SUniform rng n_points) images r = Ok pts /\ length pts = length (pshapes images) /\
  (forall u, In u us -> (0 <= u <= 1)%Q) /\
  forall k s d, nth_error (pshapes images) k = Some s ->
    nth_error (n_points (child r 0) (length (pshapes images))) k = Some d ->
    let before := zsum (firstn k (map (fun v => Z.max v 1) (n_points (child r 0) (length (pshapes images))))) in
    exists ps, nth_error pts k = Some ps /\ Z.of_nat (length ps) = Z.max d 1 /\
      forall j, 0 <= j < Z.max d 1 -> exists u v,
        nth_error us (Z.to_nat (2 * (before + j))) = Some u /\
        nth_error us (Z.to_nat (2 * (before + j) + 1)) = Some v /\
        nth_error ps (Z.to_nat j) = Some (abs_point s (u, v)).
Proof.
  intros images n_points r [DU [DP DK]] IO NP. cbn [sample_points]. rewrite (verify_ok images IO). cbn [bind].
  set (shapes := pshapes images). set (n := length shapes). set (cs := n_points (child r 0) n).
  set (counts := map (fun k => Z.max k 1) cs).
  assert (length counts = n) as LC by (unfold counts; rewrite map_length; apply NP).
  assert (forall v, In v counts -> 1 <= v) as C1 by (intros v V; apply in_map_iff in V as [x [<- _]]; lia).
  change (fold_right Z.add 0 counts) with (zsum counts).
  set (us := uniforms (child r 1) (Z.to_nat (2 * zsum counts))).
  eexists. exists us. split; [reflexivity|].
  split; [rewrite rel_to_abs_length, combine_length; lia|].
  split; [intros u U; exact (proj2 (DU (child r 1) (Z.to_nat (2 * zsum counts))) u U)|].
  intros k s d S D. cbv zeta.
  assert (nth_error counts k = Some (Z.max d 1)) as CK.
  { unfold counts. rewrite nth_error_map. rewrite D. reflexivity. }
  rewrite (rel_to_abs_nth _ _ 0 k s (Z.max d 1)); [|lia| |apply combine_nth_error; assumption].
  2:{ intros [s' c] T. apply in_combine_r in T. apply C1 in T. cbn. lia. }
  eexists. split; [reflexivity|].
  rewrite map_snd_firstn_combine by (subst n; congruence).
  destruct (zsum_firstn counts k _ C1 CK) as [B1 B2].
  rewrite Z.add_0_l.
  destruct (pairs_length (Z.to_nat (zsum counts)) us) as [LP PP].
  { unfold us. rewrite (proj1 (DU _ _)). lia. }
  split.
  - rewrite map_length, firstn_length, skipn_length, LP. lia.
  - intros j J. destruct (PP (Z.to_nat (zsum (firstn k counts) + j))) as [u [v [U [V E]]]]; [lia|].
    exists u, v. split; [rewrite <- U; f_equal; lia|]. split; [rewrite <- V; f_equal; lia|].
    rewrite nth_error_map, nth_error_firstn_lt, nth_error_skipn_add by lia.
    replace (Z.to_nat (zsum (firstn k counts)) + Z.to_nat j)%nat with (Z.to_nat (zsum (firstn k counts) + j)) by lia.
    rewrite E. reflexivity.
Qed.

Lemma run_ok : forall m s images r, draws_ok -> sampler_ok m s -> images_ok images ->
  exists pts, run s images r = Ok pts /\ Forall2 (row_ok (1 <= m)) (pshapes images) pts.
Proof.
  intros m s. induction s as [a b|a b|o IH p|a|o IH k]; intros images r D S IO; pose proof D as [DU [DP DK]]; pose proof IO as [NE [POS _]].
  - cbn [sample_points]. rewrite (verify_ok images IO). cbn [bind]. eexists. split; [reflexivity|].
    destruct S as [S1 S2]. apply grids_ok; auto.
  - cbn [sample_points]. rewrite (verify_ok images IO). cbn [bind]. eexists. split; [reflexivity|].
    destruct S as [S1 S2]. apply grids_ok; [exact POS| |]; rewrite rel_counts_length; rewrite ?map_length; auto.
  - destruct (IH images (child r 0) D S IO) as [pts [R F]].
    cbn [sample_points]. rewrite (verify_ok images IO). cbn [bind]. rewrite R. cbn [bind]. eexists. split; [reflexivity|].
    apply nth_F2 in F as [L F]. apply F2_nth; [rewrite map_length, enum_length; exact L|].
    intros i sh ps SH PS. rewrite nth_error_map, enum_nth in PS.
    destruct (nth_error pts i) as [qs|] eqn:Q; [|discriminate]. cbn in PS. injection PS as <-.
    destruct (F i sh qs SH Q) as [F1 F2].
    destruct (dropout_spec qs (keep_draw p (child (child r 1) (Z.of_nat i)) (length qs)) (DK _ _ _)) as [_ [_ [_ [SUB N]]]].
    split; [eapply subsequence_forall; eassumption|auto].
  - destruct (uniform_rows images a r D IO S) as [pts [us [R [L [UB P]]]]].
    exists pts. split; [exact R|]. apply F2_nth; [congruence|]. intros k s ps SK PK.
    pose proof (nth_lt _ _ _ SK) as LK.
    destruct (nth_in_range (a (child r 0) (length (pshapes images))) k ltac:(rewrite S; exact LK)) as [d Dk].
    destruct (P k s d SK Dk) as [ps' [E [LE J]]]. rewrite PK in E. injection E as <-.
    destruct (POS s (nth_error_In _ _ SK)) as [H W]. split.
    + apply Forall_forall. intros q I. apply In_nth_error in I as [j I]. pose proof (nth_lt _ _ _ I).
      destruct (J (Z.of_nat j) ltac:(lia)) as [u [v [_ [_ E]]]]. rewrite Nat2Z.id, I in E. injection E as ->.
      apply abs_point_plane; assumption.
    + intros _ ->. cbn in LE. lia.
  - destruct S as [S K]. destruct (IH images (child r (Z.of_nat (length (pshapes images)))) D S IO) as [pts [R F]].
    cbn [sample_points]. rewrite (verify_ok images IO). cbn [bind]. rewrite R. cbn [bind]. eexists. split; [reflexivity|].
    apply nth_F2 in F as [L F]. apply F2_nth; [rewrite map_length, enum_length; exact L|].
    intros i sh ps SH PS. rewrite nth_error_map, enum_nth in PS.
    destruct (nth_error pts i) as [qs|] eqn:Q; [|discriminate]. cbn in PS. injection PS as <-.
    destruct (F i sh qs SH Q) as [F1 F2].
    destruct (subsample_spec qs (clip_max k) (permutation (child r (Z.of_nat i)) (length qs)) (DP _ _) ltac:(unfold clip_max; lia)) as [C [M [_ _]]].
    split; [eapply chosen_forall; eassumption|]. intros LM E. specialize (M ltac:(unfold clip_max; lia)).
    rewrite E in M. cbn [length] in M. specialize (F2 LM). destruct qs; [congruence|]. unfold clip_max in M. cbn [length] in M. lia.
Qed.

Lemma dropout_rows : forall o p images r out, draws_ok -> run (SDropout rng o p) images r = Ok out ->
  exists pts, run o images (child r 0) = Ok pts /\ length out = length pts /\
  forall k ps, nth_error pts k = Some ps ->
    nth_error out k = Some (apply_dropout ps (keep_draw p (child (child r 1) (Z.of_nat k)) (length ps))).
Proof.
  intros o p images r out D R. cbn [sample_points] in R. destruct (verify_images images); [|discriminate]. cbn [bind] in R.
  destruct (run o images (child r 0)) as [pts|]; [|discriminate]. cbn [bind] in R. injection R as <-.
  exists pts. split; [reflexivity|]. split; [rewrite map_length; apply enum_length|].
  intros k ps K. rewrite nth_error_map, enum_nth, K. reflexivity.
Qed.
Lemma sub_rows : forall o m images r out, run (SSub rng o m) images r = Ok out ->
  exists pts, run o images (child r (Z.of_nat (length (pshapes images)))) = Ok pts /\ length out = length pts /\
  forall k ps, nth_error pts k = Some ps ->
    nth_error out k = Some (subsample ps (clip_max m) (permutation (child r (Z.of_nat k)) (length ps))).
Proof.
  intros o p images r out R. cbn [sample_points] in R. destruct (verify_images images); [|discriminate]. cbn [bind] in R.
  destruct (run o images (child r (Z.of_nat (length (pshapes images))))) as [pts|] eqn:RO; [|discriminate]. cbn [bind] in R. injection R as <-.
  exists pts. split; [reflexivity|]. split; [rewrite map_length; apply enum_length|].
  intros k ps K. rewrite nth_error_map, enum_nth, K. reflexivity.
Qed.

(** Grids of the two grid samplers. *)
Lemma grid_rows : forall a b images r, images_ok images ->
  (forall r n, length (a r n) = n) -> (forall r n, length (b r n) = n) ->
  exists pts, run (SGrid rng a b) images r = Ok pts /\ length pts = length (pshapes images) /\
  forall k s, nth_error (pshapes images) k = Some s ->
  exists nr nc dr dc ps, nth_error (a (child r 0) (length (pshapes images))) k = Some dr /\
    nth_error (b (child r 1) (length (pshapes images))) k = Some dc /\
    limited dr (fst s) nr /\ limited dc (snd s) nc /\ nth_error pts k = Some ps /\ is_grid s nr nc ps.
Proof.
  intros a b images r IO A B. pose proof IO as [NE [POS _]]. cbn [sample_points]. rewrite (verify_ok images IO). cbn [bind].
  eexists. split; [reflexivity|]. split; [apply grids_length; auto|]. intros k s S. pose proof (nth_lt _ _ _ S) as LK.
  destruct (nth_in_range (a (child r 0) (length (pshapes images))) k ltac:(rewrite A; exact LK)) as [dr R].
  destruct (nth_in_range (b (child r 1) (length (pshapes images))) k ltac:(rewrite B; exact LK)) as [dc C].
  destruct (POS s (nth_error_In _ _ S)) as [PH PW].
  exists (clip_count dr (fst s)), (clip_count dc (snd s)), dr, dc. eexists.
  split; [exact R|]. split; [exact C|]. split; [apply clip_count_limited|]. split; [apply clip_count_limited|].
  split; [apply (grids_nth _ _ _ k s dr dc); assumption|]. apply point_grid_ok; try assumption; apply clip_count_range.
Qed.
Lemma rel_rows : forall a b images r, images_ok images ->
  (forall r n, length (a r n) = n) -> (forall r n, length (b r n) = n) ->
  exists pts, run (SRel rng a b) images r = Ok pts /\ length pts = length (pshapes images) /\
  forall k s, nth_error (pshapes images) k = Some s ->
  exists nr nc fr fc zr zc ps, nth_error (a (child r 0) (length (pshapes images))) k = Some fr /\
    nth_error (b (child r 1) (length (pshapes images))) k = Some fc /\
    rounded (fr * inject_Z (fst s)) zr /\ rounded (fc * inject_Z (snd s)) zc /\
    limited zr (fst s) nr /\ limited zc (snd s) nc /\ nth_error pts k = Some ps /\ is_grid s nr nc ps.
Proof.
  intros a b images r IO A B. pose proof IO as [NE [POS _]]. cbn [sample_points]. rewrite (verify_ok images IO). cbn [bind].
  eexists. split; [reflexivity|]. split; [apply grids_length; rewrite rel_counts_length; rewrite ?map_length; auto|].
  intros k s S. pose proof (nth_lt _ _ _ S) as LK.
  destruct (nth_in_range (a (child r 0) (length (pshapes images))) k ltac:(rewrite A; exact LK)) as [fr R].
  destruct (nth_in_range (b (child r 1) (length (pshapes images))) k ltac:(rewrite B; exact LK)) as [fc C].
  destruct (POS s (nth_error_In _ _ S)) as [PH PW].
  set (zr := np_round (fr * inject_Z (fst s))). set (zc := np_round (fc * inject_Z (snd s))).
  exists (clip_count zr (fst s)), (clip_count zc (snd s)), fr, fc, zr, zc. eexists.
  split; [exact R|]. split; [exact C|].
  split; [destruct (np_round_spec (fr * inject_Z (fst s))) as [X1 [X2 _]]; split; assumption|].
  split; [destruct (np_round_spec (fc * inject_Z (snd s))) as [X1 [X2 _]]; split; assumption|].
  split; [apply clip_count_limited|]. split; [apply clip_count_limited|].
  split; [apply (grids_nth _ _ _ k s zr zc); [exact S| |]; apply rel_counts_nth; try assumption; first [exact (map_nth_error fst k (pshapes images) S)|exact (map_nth_error snd k (pshapes images) S)]|].
  apply point_grid_ok; try assumption; apply clip_count_range.
Qed.
End All.
