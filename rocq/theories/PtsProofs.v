(** Proofs about point generation, interpolation and keypoint images. *)
From Verif Require Import Prelude PreludeFacts PtsModel PtsSpec.
From Coq Require Import Lia Lqa Permutation.
Local Open Scope Q_scope.

(** ** linspace and the Manhattan ball *)
Lemma inject_Z_pos z : (0 < z)%Z -> 0 < inject_Z z.
Proof. intros H. unfold Qlt; cbn. lia. Qed.

Lemma Forall2_map_seq {X Y} (R : X -> Y -> Prop) f g a n :
  (forall i, (a <= i < a + n)%nat -> R (f i) (g i)) -> Forall2 R (map f (seq a n)) (map g (seq a n)).
Proof.
  revert a. induction n as [|n IH]; intros a H; [constructor|]. cbn. constructor; [apply H; lia|].
  apply IH. intros i Hi. apply H. lia.
Qed.

Lemma linspace_sym x s m : (0 <= m)%Z -> exists l,
  linspace (x - inject_Z m * s) (x + inject_Z m * s) (2 * m + 1) = Ok l /\
  Forall2 Qeq l (map (fun i => x + inject_Z (Z.of_nat i - m) * s) (seq 0 (Z.to_nat (2 * m + 1)))).
Proof.
  intros Hm. unfold linspace. destruct (Z.ltb_spec (2 * m + 1) 0); [lia|].
  eexists. split; [reflexivity|]. apply Forall2_map_seq. intros i Hi.
  destruct (Z.ltb_spec 1 (2 * m + 1)) as [H1|H1].
  - rewrite andb_true_r. destruct (Nat.eqb_spec (S i) (Z.to_nat (2 * m + 1))) as [E|E].
    + replace (Z.of_nat i - m)%Z with m by lia. reflexivity.
    + rewrite Z.max_r by lia. replace (2 * m + 1 - 1)%Z with (2 * m)%Z by lia.
      assert (Hp : 0 < inject_Z m) by (apply inject_Z_pos; lia).
      unfold Zminus. rewrite inject_Z_plus, inject_Z_opp, inject_Z_mult.
      change (inject_Z 2) with 2. field. intros E0. rewrite E0 in Hp. apply (Qlt_irrefl _ Hp).
  - rewrite andb_false_r. assert (m = 0%Z) as -> by lia. assert (i = 0%nat) as -> by lia.
    cbn. ring.
Qed.

(** Half width of line [i]. *)
Definition half (n i : Z) : Z := (n - Z.abs (i - n))%Z.
Definition line_cells (n i : Z) : list (Z * Z) :=
  map (fun k => (Z.of_nat k - half n i, i - n)%Z) (seq 0 (Z.to_nat (2 * half n i + 1))).
Definition ball_cells (n : Z) (a m : nat) : list (Z * Z) :=
  flat_map (fun i => line_cells n (Z.of_nat i)) (seq a m).

Lemma in_line_cells n i a b : (0 <= i <= 2 * n)%Z ->
  In (a, b) (line_cells n i) <-> (b = i - n /\ Z.abs a + Z.abs b <= n)%Z.
Proof.
  intros Hi. unfold line_cells, half. rewrite in_map_iff. split.
  - intros (k & E & H). apply in_seq in H. injection E as <- <-. lia.
  - intros [-> H]. exists (Z.to_nat (a + (n - Z.abs (i - n)))). split; [f_equal; lia|]. apply in_seq. lia.
Qed.
Lemma in_ball_cells n a b : (0 <= n)%Z ->
  In (a, b) (ball_cells n 0 (Z.to_nat (2 * n + 1))) <-> (Z.abs a + Z.abs b <= n)%Z.
Proof.
  intros Hn. unfold ball_cells. rewrite in_flat_map. split.
  - intros (i & Hi & H). apply in_seq in Hi. apply in_line_cells in H; lia.
  - intros H. exists (Z.to_nat (b + n)). split; [apply in_seq; lia|]. apply in_line_cells; lia.
Qed.
Lemma NoDup_line n i : NoDup (line_cells n i).
Proof.
  unfold line_cells. apply FinFun.Injective_map_NoDup; [|apply seq_NoDup].
  intros a b E. injection E. lia.
Qed.
Lemma NoDup_app {X} (l1 l2 : list X) : NoDup l1 -> NoDup l2 -> (forall x, In x l1 -> ~ In x l2) -> NoDup (l1 ++ l2).
Proof.
  induction l1 as [|x l1 IH]; cbn; intros H1 H2 H; [exact H2|]. inversion H1; subst. constructor.
  - rewrite in_app_iff. intros [Hx|Hx]; [contradiction|]. apply (H x); auto.
  - apply IH; auto.
Qed.
Lemma NoDup_ball n m : forall a, (Z.of_nat (a + m) <= 2 * n + 1)%Z -> NoDup (ball_cells n a m).
Proof.
  induction m as [|m IH]; intros a H; [constructor|]. unfold ball_cells. cbn [seq flat_map].
  apply NoDup_app; [apply NoDup_line | apply IH; lia|].
  intros [p q] H1 H2. apply in_line_cells in H1; [|lia].
  apply in_flat_map in H2 as (i & Hi & H2). apply in_seq in Hi. apply in_line_cells in H2; lia.
Qed.
Lemma ball_length n m : (0 <= n)%Z -> (Z.of_nat m <= 2 * n + 1)%Z ->
  Z.of_nat (length (ball_cells n 0 m)) =
  (if (Z.of_nat m <=? n) then Z.of_nat m * Z.of_nat m
   else 2 * (n * n) + 2 * n + 1 - (2 * n + 1 - Z.of_nat m) * (2 * n + 1 - Z.of_nat m))%Z.
Proof.
  intros Hn. induction m as [|m IH]; intros Hm.
  - cbn. destruct (Z.leb_spec 0 n); lia.
  - unfold ball_cells in *. rewrite seq_S, flat_map_app, app_length, Nat2Z.inj_add, IH by lia.
    cbn [flat_map Nat.add]. rewrite app_nil_r. unfold line_cells. rewrite map_length, seq_length.
    unfold half. rewrite Z2Nat.id by lia.
    destruct (Z.leb_spec (Z.of_nat m) n), (Z.leb_spec (Z.of_nat (S m)) n); rewrite ?Nat2Z.inj_succ in *; try nia.
Qed.

Definition at_cell (x y s : Q) (c : Z * Z) (p : point) : Prop :=
  peq p (x + inject_Z (fst c) * s, y + inject_Z (snd c) * s).

Lemma lines_spec x y s n yy : forall i, (0 <= i)%Z -> (i + Z.of_nat (length yy) = 2 * n + 1)%Z ->
  Forall2 Qeq yy (map (fun k => y + inject_Z (Z.of_nat k - n) * s) (seq (Z.to_nat i) (length yy))) ->
  exists pts, manhattan_lines x s n (2 * half n i + 1) i yy = Ok pts /\
    Forall2 (at_cell x y s) (ball_cells n (Z.to_nat i) (length yy)) pts.
Proof.
  induction yy as [|v yy IH]; intros i Hi Hlen HF; [exists []; split; [reflexivity | constructor]|].
  cbn [length seq map] in HF. inversion HF as [|? ? ? ? Hv HF']; subst.
  assert (Hh : (0 <= half n i)%Z) by (unfold half; cbn [length] in Hlen; lia).
  assert (Hxx : exists xx, (if (2 * half n i + 1 =? 1)%Z then Ok [x]
                else linspace (x - inject_Z ((2 * half n i + 1 - 1) / 2) * s)
                              (x + inject_Z ((2 * half n i + 1 - 1) / 2) * s) (2 * half n i + 1)) = Ok xx /\
            Forall2 Qeq xx (map (fun k => x + inject_Z (Z.of_nat k - half n i) * s) (seq 0 (Z.to_nat (2 * half n i + 1))))).
  { destruct (Z.eqb_spec (2 * half n i + 1) 1) as [E|E].
    - exists [x]. split; [reflexivity|]. assert (half n i = 0)%Z as -> by lia. change (Z.to_nat (2 * 0 + 1)) with 1%nat. cbn [seq map].
      change (inject_Z (Z.of_nat 0 - 0)) with 0. constructor; [ring | constructor].
    - replace ((2 * half n i + 1 - 1) / 2)%Z with (half n i)
        by (replace (2 * half n i + 1 - 1)%Z with (half n i * 2)%Z by lia; rewrite Z.div_mul; lia).
      apply linspace_sym, Hh. }
  destruct Hxx as (xx & Exx & Hxx). cbn [manhattan_lines]. rewrite Exx. cbn [bind].
  assert (Hw : (if (i <? n)%Z then 2 * half n i + 1 + 2 else 2 * half n i + 1 - 2)%Z = (2 * half n (i + 1) + 1)%Z).
  { unfold half. destruct (Z.ltb_spec i n); lia. }
  rewrite Hw. cbn [length] in Hlen.
  destruct (IH (i + 1)%Z ltac:(lia) ltac:(lia)) as (pts & E & HP).
  { replace (Z.to_nat (i + 1)) with (S (Z.to_nat i)) by lia. exact HF'. }
  rewrite E. cbn [bind]. eexists. split; [reflexivity|].
  replace (Z.to_nat (i + 1)) with (S (Z.to_nat i)) in HP by lia.
  cbn [length]. unfold ball_cells. cbn [seq flat_map]. apply Forall2_app; [|exact HP].
  rewrite Z2Nat.id by exact Hi. unfold line_cells.
  clear - Hxx Hv Hi. rewrite Z2Nat.id in Hv by exact Hi.
  remember (seq 0 (Z.to_nat (2 * half n i + 1))) as ks. clear Heqks. revert xx Hxx.
  induction ks as [|k ks IH]; intros xx Hxx; inversion Hxx as [|v' ? xx' ? Hq Hr]; subst; cbn; constructor.
  - split; cbn; assumption.
  - apply IH, Hr.
Qed.

Lemma similar_points_spec x y n s : (0 <= n)%Z -> exists pts cells,
  similar_points (x, y) n s = Ok pts /\ NoDup cells /\
  (forall a b, In (a, b) cells <-> (Z.abs a + Z.abs b <= n)%Z) /\
  Forall2 (at_cell x y s) cells pts /\
  Z.of_nat (length pts) = (2 * (n * n) + 2 * n + 1)%Z.
Proof.
  intros Hn. unfold similar_points. destruct (linspace_sym y s n Hn) as (yy & Ey & HF).
  replace (n + 1 + n)%Z with (2 * n + 1)%Z by lia. rewrite Ey. cbn [bind].
  assert (Hly : length yy = Z.to_nat (2 * n + 1)).
  { assert (forall A B (R : A -> B -> Prop) l r, Forall2 R l r -> length l = length r) as H by (induction 1; cbn; congruence).
    rewrite (H _ _ _ _ _ HF), map_length, seq_length. reflexivity. }
  destruct (lines_spec x y s n yy 0 ltac:(lia) ltac:(lia)) as (pts & E & HP).
  { rewrite Hly. exact HF. }
  replace (2 * half n 0 + 1)%Z with 1%Z in E by (unfold half; lia). rewrite E. cbn [bind].
  rewrite Hly in HP. change (Z.to_nat 0) with 0%nat in HP.
  assert (Hlen : Z.of_nat (length pts) = (2 * (n * n) + 2 * n + 1)%Z).
  { assert (forall A B (R : A -> B -> Prop) l r, Forall2 R l r -> length l = length r) as H by (induction 1; cbn; congruence).
    rewrite <- (H _ _ _ _ _ HP), ball_length by lia. rewrite Z2Nat.id by lia.
    destruct (Z.leb_spec (2 * n + 1) n); nia. }
  exists pts, (ball_cells n 0 (Z.to_nat (2 * n + 1))). unfold fill_rows.
  destruct (Z.ltb_spec (2 * n + 1 + 2 * (n * n)) (Z.of_nat (length pts))); [lia|].
  replace (Z.to_nat (2 * n + 1 + 2 * (n * n)) - length pts)%nat with 0%nat by lia. cbn [repeat]. rewrite app_nil_r.
  refine (conj eq_refl (conj _ (conj _ (conj HP Hlen)))).
  - apply NoDup_ball. lia.
  - intros a b. apply in_ball_cells, Hn.
Qed.
Lemma similar_points_negative x y n s : (n < 0)%Z -> similar_points (x, y) n s = Err ValueError.
Proof.
  intros Hn. unfold similar_points, linspace. destruct (Z.ltb_spec (n + 1 + n) 0); [reflexivity | lia].
Qed.

(** Different cells are different points unless the step is zero. *)
Lemma at_cell_inj x y s c c' p p' : ~ s == 0 -> at_cell x y s c p -> at_cell x y s c' p' -> peq p p' -> c = c'.
Proof.
  destruct c as [a b], c' as [a' b']. unfold at_cell, peq. cbn. intros Hs [H1 H2] [H3 H4] [H5 H6].
  assert (inject_Z a * s == inject_Z a' * s) as E1 by lra.
  assert (inject_Z b * s == inject_Z b' * s) as E2 by lra.
  apply Qmult_inj_r in E1; [|exact Hs]. apply Qmult_inj_r in E2; [|exact Hs].
  unfold Qeq in E1, E2. cbn in E1, E2. f_equal; lia.
Qed.

(** ** Interpolation *)
Lemma interpolate_pair_length a b nb : length (interpolate_pair a b nb) = Z.to_nat nb.
Proof.
  unfold interpolate_pair. destruct (Z.ltb_spec nb 1); cbn; [lia|]. rewrite map_length, seq_length. reflexivity.
Qed.
Lemma interpolate_pair_nth a b nb j d : (j < Z.to_nat nb)%nat ->
  between a b (inject_Z (Z.of_nat (S j)) / inject_Z (nb + 1)) (nth j (interpolate_pair a b nb) d).
Proof.
  intros Hj. unfold interpolate_pair. destruct (Z.ltb_spec nb 1); [lia|].
  set (F := fun i : nat => _). rewrite (nth_indep _ d (F 0%nat)) by (rewrite map_length, seq_length; exact Hj).
  rewrite map_nth, seq_nth by exact Hj. unfold F, between. cbn [fst snd Nat.add].
  assert (Hp : 0 < inject_Z (nb + 1)) by (apply inject_Z_pos; lia).
  destruct a as [a1 a2], b as [b1 b2]. cbn [fst snd].
  replace (1 + nb)%Z with (nb + 1)%Z by lia. replace (Z.of_nat j + 1)%Z with (Z.of_nat (S j)) by lia.
  split; field; intros E0; rewrite E0 in Hp; apply (Qlt_irrefl _ Hp).
Qed.

(** The segment from [a] up to before [b]. *)
Definition segment (nb : Z) (ab : point * point) : list point :=
  fst ab :: interpolate_pair (fst ab) (snd ab) nb.
Lemma segment_length nb ab : length (segment nb ab) = (Z.to_nat nb + 1)%nat.
Proof. unfold segment. cbn. rewrite interpolate_pair_length. lia. Qed.
Lemma segment_nth nb ab j d : (j <= Z.to_nat nb)%nat ->
  between (fst ab) (snd ab) (inject_Z (Z.of_nat j) / inject_Z (Z.max 0 nb + 1)) (nth j (segment nb ab) d).
Proof.
  intros Hj. unfold segment. destruct j as [|j]; cbn [nth].
  - change (inject_Z (Z.of_nat 0)) with 0. unfold between, Qdiv.
    destruct ab as [[a1 a2] [b1 b2]]. cbn [fst snd]. split; ring.
  - rewrite Z.max_r by lia. apply interpolate_pair_nth. lia.
Qed.

Lemma nth_flat_map_const {X Y} (f : X -> list Y) m l : (forall x, length (f x) = m) ->
  forall k j dx dy, (k < length l)%nat -> (j < m)%nat ->
  nth (k * m + j) (flat_map f l) dy = nth j (f (nth k l dx)) dy.
Proof.
  intros Hf. induction l as [|x l IH]; cbn [length flat_map]; intros k j dx dy Hk Hj; [lia|].
  destruct k as [|k].
  - cbn [Nat.mul Nat.add nth]. apply app_nth1. rewrite Hf. exact Hj.
  - rewrite app_nth2 by (rewrite Hf; cbn; lia). rewrite Hf.
    replace (S k * m + j - m)%nat with (k * m + j)%nat by (cbn; lia). cbn [nth]. apply IH; lia.
Qed.
Lemma flat_map_const_length {X Y} (f : X -> list Y) m l : (forall x, length (f x) = m) ->
  length (flat_map f l) = (length l * m)%nat.
Proof.
  intros Hf. induction l as [|x l IH]; [reflexivity|]. cbn [flat_map length]. rewrite app_length, IH, Hf. lia.
Qed.

Lemma removelast_length {X} (l : list X) : length (removelast l) = (length l - 1)%nat.
Proof.
  induction l as [|x l IH]; [reflexivity|]. destruct l as [|y l]; [reflexivity|].
  change (removelast (x :: y :: l)) with (x :: removelast (y :: l)). cbn [length] in *. rewrite IH. lia.
Qed.
Lemma removelast_nth {X} (l : list X) k d : (k < length l - 1)%nat -> nth k (removelast l) d = nth k l d.
Proof.
  revert k. induction l as [|x l IH]; cbn [length]; intros k Hk; [lia|]. destruct l as [|y l]; [cbn in Hk; lia|].
  change (removelast (x :: y :: l)) with (x :: removelast (y :: l)). destruct k; [reflexivity|].
  cbn [nth]. apply IH. cbn [length] in *. lia.
Qed.
Lemma tl_nth {X} (l : list X) k d : nth k (tl l) d = nth (S k) l d.
Proof. destruct l; [destruct k; reflexivity | reflexivity]. Qed.
Lemma neighbours_length l : length (neighbours l) = (length l - 1)%nat.
Proof.
  unfold neighbours. rewrite combine_length, removelast_length. destruct l; cbn; lia.
Qed.
Lemma neighbours_nth l k d : (k < length l - 1)%nat -> nth k (neighbours l) (d, d) = (nth k l d, nth (S k) l d).
Proof.
  intros Hk. unfold neighbours. rewrite combine_nth by (rewrite removelast_length; destruct l; cbn; lia).
  rewrite removelast_nth by exact Hk. rewrite tl_nth. reflexivity.
Qed.

Lemma interpolate_points_open pts nb d : (2 <= length pts)%nat ->
  let n := Z.to_nat nb in
  let r := interpolate_points pts nb false in
  length r = ((length pts - 1) * (n + 1) + 1)%nat /\
  (forall k j, (k < length pts - 1)%nat -> (j <= n)%nat ->
     between (nth k pts d) (nth (S k) pts d) (inject_Z (Z.of_nat j) / inject_Z (Z.max 0 nb + 1))
             (nth (k * (n + 1) + j) r d)) /\
  (forall k, (k < length pts)%nat -> nth (k * (n + 1)) r d = nth k pts d).
Proof.
  intros Hl n r. unfold r, interpolate_points.
  destruct (Nat.leb_spec (length pts) 1); [lia|]. cbn [close last_if_open].
  change (flat_map _ (neighbours pts)) with (flat_map (segment nb) (neighbours pts)).
  pose proof (flat_map_const_length (segment nb) _ (neighbours pts) (segment_length nb)) as Hfl.
  rewrite neighbours_length in Hfl. fold n in Hfl.
  assert (Hlast : match rev pts with [] => [] | p :: _ => [p] end = [nth (length pts - 1) pts d]).
  { destruct pts as [|p0 pts0] using rev_ind; [cbn in Hl; lia|]. rewrite rev_unit, app_length. cbn [length].
    replace (length pts0 + 1 - 1)%nat with (length pts0) by lia. rewrite app_nth2, Nat.sub_diag by lia. reflexivity. }
  assert (Hseg : forall k j, (k < length pts - 1)%nat -> (j <= n)%nat ->
     nth (k * (n + 1) + j) (flat_map (segment nb) (neighbours pts) ++ [nth (length pts - 1) pts d]) d
     = nth j (segment nb (nth k pts d, nth (S k) pts d)) d).
  { intros k j Hk Hj.
    assert (k * (n + 1) + j < (length pts - 1) * (n + 1))%nat by nia.
    rewrite app_nth1 by (rewrite Hfl; assumption).
    rewrite (nth_flat_map_const (segment nb) (n + 1) _ (segment_length nb) k j (d, d));
      [|rewrite neighbours_length; exact Hk | lia].
    rewrite neighbours_nth by exact Hk. reflexivity. }
  rewrite Hlast. refine (conj _ (conj _ _)).
  - rewrite app_length, Hfl. cbn. lia.
  - intros k j Hk Hj. rewrite (Hseg k j Hk Hj).
    apply (segment_nth nb (nth k pts d, nth (S k) pts d) j d Hj).
  - intros k Hk. destruct (Nat.eq_dec k (length pts - 1)) as [->|Hne].
    + rewrite app_nth2 by (rewrite Hfl; lia). rewrite Hfl, Nat.sub_diag. reflexivity.
    + rewrite <- (Nat.add_0_r (k * (n + 1))), (Hseg k 0%nat) by lia. reflexivity.
Qed.

Lemma interpolate_points_closed pts nb d : (2 <= length pts)%nat ->
  let n := Z.to_nat nb in
  let r := interpolate_points pts nb true in
  length r = (length pts * (n + 1))%nat /\
  (forall k j, (k < length pts)%nat -> (j <= n)%nat ->
     between (nth k pts d) (nth (S k mod length pts) pts d) (inject_Z (Z.of_nat j) / inject_Z (Z.max 0 nb + 1))
             (nth (k * (n + 1) + j) r d)) /\
  (forall k, (k < length pts)%nat -> nth (k * (n + 1)) r d = nth k pts d).
Proof.
  intros Hl n r. unfold r, interpolate_points.
  destruct (Nat.leb_spec (length pts) 1); [lia|]. cbn [last_if_open]. rewrite app_nil_r.
  set (cl := close true pts).
  change (flat_map _ (neighbours cl)) with (flat_map (segment nb) (neighbours cl)).
  assert (Hcl : length cl = S (length pts)).
  { unfold cl, close. destruct pts as [|p pts']; [cbn in Hl; lia|]. rewrite app_length. cbn [length]. lia. }
  assert (Hclk : forall k, (k <= length pts)%nat -> nth k cl d = nth (k mod length pts) pts d).
  { intros k Hk. unfold cl, close. destruct pts as [|p pts'] eqn:Ep; [cbn in Hl; lia|]. rewrite <- Ep in *.
    destruct (Nat.eq_dec k (length pts)) as [->|Hne].
    - rewrite app_nth2, Nat.sub_diag by lia. rewrite Nat.mod_same by lia. rewrite Ep. reflexivity.
    - rewrite app_nth1 by lia. rewrite Nat.mod_small by lia. reflexivity. }
  pose proof (flat_map_const_length (segment nb) _ (neighbours cl) (segment_length nb)) as Hfl.
  rewrite neighbours_length, Hcl in Hfl. fold n in Hfl.
  assert (Hseg : forall k j, (k < length pts)%nat -> (j <= n)%nat ->
     nth (k * (n + 1) + j) (flat_map (segment nb) (neighbours cl)) d
     = nth j (segment nb (nth k pts d, nth (S k mod length pts) pts d)) d).
  { intros k j Hk Hj.
    rewrite (nth_flat_map_const (segment nb) (n + 1) _ (segment_length nb) k j (d, d));
      [|rewrite neighbours_length, Hcl; lia | lia].
    rewrite neighbours_nth by (rewrite Hcl; lia). rewrite !Hclk by lia.
    rewrite (Nat.mod_small k) by lia. reflexivity. }
  refine (conj _ (conj _ _)).
  - rewrite Hfl. f_equal. lia.
  - intros k j Hk Hj. rewrite (Hseg k j Hk Hj).
    apply (segment_nth nb (nth k pts d, nth (S k mod length pts) pts d) j d Hj).
  - intros k Hk. rewrite <- (Nat.add_0_r (k * (n + 1))), (Hseg k 0%nat) by lia. reflexivity.
Qed.

Lemma interpolate_points_short pts nb closed : (length pts <= 1)%nat -> interpolate_points pts nb closed = pts.
Proof. intros H. unfold interpolate_points. destruct (Nat.leb_spec (length pts) 1); [reflexivity | lia]. Qed.

(** ** Interpolation by distance *)
Lemma consecutive_nth {X} (P : X * X -> Prop) (l : list X) d :
  (forall k, (S k < length l)%nat -> P (nth k l d, nth (S k) l d)) -> Forall P (consecutive l).
Proof.
  unfold consecutive. induction l as [|x l IH]; intros H; [constructor|]. cbn [tl].
  destruct l as [|y l]; [constructor|]. cbn [combine]. constructor.
  - apply (H 0%nat). cbn; lia.
  - apply IH. intros k Hk. apply (H (S k)). cbn in *; lia.
Qed.
Lemma consecutive_join {X} (P : X * X -> Prop) (l1 : list X) x l2 :
  Forall P (consecutive (l1 ++ [x])) -> Forall P (consecutive (x :: l2)) -> Forall P (consecutive (l1 ++ x :: l2)).
Proof.
  unfold consecutive. induction l1 as [|y l1 IH]; cbn [app tl]; intros H1 H2; [exact H2|].
  destruct l1 as [|z l1].
  - cbn in *. inversion H1; subst. constructor; assumption.
  - cbn in *. inversion H1; subst. constructor; [assumption|]. apply IH; assumption.
Qed.

Lemma between_dist a b t u p q : between a b t p -> between a b u q ->
  distance2 p q == (u - t) * (u - t) * distance2 a b.
Proof.
  destruct a as [a1 a2], b as [b1 b2], p as [p1 p2], q as [q1 q2]. unfold between, distance2. cbn [fst snd].
  intros [H1 H2] [H3 H4]. rewrite H1, H2, H3, H4. ring.
Qed.

Lemma sqrt_floor (q : Q) : 0 <= q -> let k := Z.sqrt (Qfloor q) in
  (0 <= k)%Z /\ q < inject_Z ((k + 1) * (k + 1)).
Proof.
  intros Hq k. assert (Hf : (0 <= Qfloor q)%Z).
  { change 0%Z with (Qfloor 0). apply Qfloor_resp_le, Hq. }
  split; [apply Z.sqrt_nonneg|]. destruct (Z.sqrt_spec (Qfloor q) Hf) as [_ H]. fold k in H.
  apply (Qlt_le_trans _ (inject_Z (Qfloor q + 1))); [apply Qlt_floor|].
  rewrite <- Zle_Qle. lia.
Qed.

Lemma dist2_nonneg a b : 0 <= dist2 a b.
Proof.
  assert (H : forall q, 0 <= q * q) by (intros q; destruct (Qlt_le_dec q 0); nra).
  unfold dist2. pose proof (H (fst a - fst b)). pose proof (H (snd a - snd b)).
  apply (Qle_trans _ (0 + 0)); [apply Qle_refl | apply Qplus_le_compat; assumption].
Qed.

(** All gaps of one interpolated segment. *)
Lemma segment_gaps m a b : 0 < m ->
  Forall (fun pq => distance2 (fst pq) (snd pq) < 4 * (m * m))
    (consecutive (segment (steps_for_distance (dist2 a b) m) (a, b) ++ [b])).
Proof.
  intros Hm. set (nb := steps_for_distance (dist2 a b) m).
  set (N := Z.to_nat nb). apply (consecutive_nth _ _ b). intros k Hk.
  rewrite app_length, segment_length in Hk. cbn [length] in Hk. fold N in Hk.
  assert (HN : inject_Z (Z.max 0 nb + 1) == inject_Z (Z.of_nat N + 1)).
  { unfold N. rewrite inject_Z_injective. lia. }
  assert (HNp : 0 < inject_Z (Z.of_nat N + 1)) by (apply inject_Z_pos; lia).
  assert (Hnz : ~ inject_Z (Z.of_nat N + 1) == 0).
  { intros E0. rewrite E0 in HNp. apply (Qlt_irrefl _ HNp). }
  assert (Hb : forall j, (j <= N + 1)%nat ->
            between a b (inject_Z (Z.of_nat j) / inject_Z (Z.of_nat N + 1)) (nth j (segment nb (a, b) ++ [b]) b)).
  { intros j Hj. destruct (Nat.eq_dec j (N + 1)) as [->|Hne].
    - rewrite app_nth2 by (rewrite segment_length; fold N; lia). rewrite segment_length. fold N.
      rewrite Nat.sub_diag. cbn [nth]. replace (Z.of_nat (N + 1)) with (Z.of_nat N + 1)%Z by lia.
      destruct a as [a1 a2], b as [b1 b2]. unfold between. cbn [fst snd]. split; field; exact Hnz.
    - rewrite app_nth1 by (rewrite segment_length; fold N; lia).
      pose proof (segment_nth nb (a, b) j b ltac:(fold N; lia)) as [H1 H2]. cbn [fst snd] in H1, H2.
      split; [rewrite H1 | rewrite H2]; rewrite HN; reflexivity. }
  cbn [fst snd]. rewrite (between_dist a b _ _ _ _ (Hb k ltac:(lia)) (Hb (S k) ltac:(lia))).
  set (D := distance2 a b). assert (HD : D == dist2 a b) by reflexivity. 
  assert (HD0 : 0 <= D) by (rewrite HD; apply dist2_nonneg).
  assert (Hmm : 0 < m * m) by nra.
  assert (Hq0 : 0 <= dist2 a b / (m * m)).
  { apply Qle_shift_div_l; [exact Hmm|]. rewrite Qmult_0_l. apply dist2_nonneg. }
  destruct (sqrt_floor _ Hq0) as [Hk0 Hlt]. set (s := Z.sqrt (Qfloor (dist2 a b / (m * m)))) in *.
  assert (HD1 : D < inject_Z ((s + 1) * (s + 1)) * (m * m)).
  { rewrite HD. apply (Qmult_lt_r _ _ (m * m)) in Hlt; [|exact Hmm].
    setoid_replace (dist2 a b / (m * m) * (m * m)) with (dist2 a b) in Hlt; [exact Hlt|].
    field. intros E0. rewrite E0 in Hm. apply (Qlt_irrefl _ Hm). }
  assert (Hs : (s + 1 <= 2 * (Z.of_nat N + 1))%Z).
  { unfold N, nb, steps_for_distance. fold s. lia. }
  set (M := inject_Z (Z.of_nat N + 1)) in *.
  assert (HsM : inject_Z ((s + 1) * (s + 1)) <= 4 * (M * M)).
  { unfold M. change 4 with (inject_Z 4). rewrite <- !inject_Z_mult, <- Zle_Qle. nia. }
  assert (Hgap : (inject_Z (Z.of_nat (S k)) / M - inject_Z (Z.of_nat k) / M) == 1 / M).
  { replace (Z.of_nat (S k)) with (Z.of_nat k + 1)%Z by lia. rewrite inject_Z_plus. change (inject_Z 1) with 1.
    field. exact Hnz. }
  rewrite Hgap. setoid_replace (1 / M * (1 / M) * D) with (D / (M * M)) by (field; exact Hnz).
  apply Qlt_shift_div_r; [nra|].
  apply (Qlt_le_trans _ _ _ HD1).
  setoid_replace (4 * (m * m) * (M * M)) with (4 * (M * M) * (m * m)) by ring.
  apply Qmult_le_compat_r; [exact HsM | apply Qlt_le_weak, Hmm].
Qed.

Definition dsegment (m : Q) (ab : point * point) : list point :=
  segment (steps_for_distance (dist2 (fst ab) (snd ab)) m) ab.

Lemma neighbours_cons a b l : neighbours (a :: b :: l) = (a, b) :: neighbours (b :: l).
Proof. reflexivity. Qed.

(** The whole line with its last point. *)
Definition full_line (m : Q) (l : list point) (d : point) : list point :=
  flat_map (dsegment m) (neighbours l) ++ [last l d].
Lemma full_line_cons m a b l d : full_line m (a :: b :: l) d = dsegment m (a, b) ++ full_line m (b :: l) d.
Proof. unfold full_line. rewrite neighbours_cons. cbn [flat_map]. rewrite <- app_assoc. reflexivity. Qed.
Lemma full_line_head m a l d : exists r, full_line m (a :: l) d = a :: r.
Proof. destruct l as [|b l]; [eexists; reflexivity|]. rewrite full_line_cons. eexists. reflexivity. Qed.

Lemma full_line_gaps m l d : 0 < m -> l <> [] ->
  Forall (fun pq => distance2 (fst pq) (snd pq) < 4 * (m * m)) (consecutive (full_line m l d)).
Proof.
  intros Hm Hl. induction l as [|a l IH]; [contradiction|]. destruct l as [|b l].
  - constructor.
  - rewrite full_line_cons. destruct (full_line_head m b l d) as [r Er]. rewrite Er.
    apply (consecutive_join _ (dsegment m (a, b)) b r); [apply (segment_gaps m a b Hm)|]. rewrite <- Er. apply IH. discriminate.
Qed.

Lemma subsequence_refl {X} (l : list X) : subsequence l l.
Proof. induction l; constructor; assumption. Qed.
Lemma subsequence_app_skip {X} (l l' r : list X) : subsequence l r -> subsequence l (l' ++ r).
Proof. intros H. induction l'; [exact H | constructor; assumption]. Qed.
Lemma full_line_subsequence m l d : l <> [] -> subsequence l (full_line m l d).
Proof.
  induction l as [|a l IH]; [contradiction|]. intros _. destruct l as [|b l].
  - apply subsequence_refl.
  - rewrite full_line_cons. unfold dsegment, segment. cbn [fst snd app]. constructor.
    apply subsequence_app_skip, IH. discriminate.
Qed.
Lemma flat_map_subsequence m l : subsequence (removelast l) (flat_map (dsegment m) (neighbours l)).
Proof.
  induction l as [|a l IH]; [constructor|]. destruct l as [|b l]; [constructor|].
  rewrite neighbours_cons. change (removelast (a :: b :: l)) with (a :: removelast (b :: l)).
  cbn [flat_map]. unfold dsegment at 1, segment. cbn [fst snd app]. constructor.
  apply subsequence_app_skip, IH.
Qed.

Lemma flat_map_on_segment m l : Forall (fun p => exists ab, In ab (consecutive l) /\ on_segment p (fst ab) (snd ab))
  (flat_map (dsegment m) (neighbours l)).
Proof.
  induction l as [|a l IH]; [constructor|]. destruct l as [|b l]; [constructor|].
  rewrite neighbours_cons. cbn [flat_map]. apply Forall_app. split.
  - apply Forall_forall. intros p Hp. exists (a, b). split; [left; reflexivity|]. cbn [fst snd].
    unfold dsegment in Hp. cbn [fst snd] in Hp. set (nb := steps_for_distance _ m) in Hp.
    destruct (In_nth _ _ a Hp) as (j & Hj & <-). rewrite segment_length in Hj.
    exists (inject_Z (Z.of_nat j) / inject_Z (Z.max 0 nb + 1)).
    assert (Hpos : 0 < inject_Z (Z.max 0 nb + 1)) by (apply inject_Z_pos; lia).
    split; [split|apply (segment_nth nb (a, b) j a); lia].
    + apply Qle_shift_div_l; [exact Hpos|]. rewrite Qmult_0_l. change 0 with (inject_Z 0). rewrite <- Zle_Qle. lia.
    + apply Qle_shift_div_r; [exact Hpos|]. rewrite Qmult_1_l. rewrite <- Zle_Qle. lia.
  - eapply Forall_impl; [|exact IH]. cbn beta. intros p (ab & Hin & Hs). exists ab. split; [right; exact Hin | exact Hs].
Qed.

Lemma last_close pts d : pts <> [] -> last (close true pts) d = hd d pts /\ removelast (close true pts) = pts.
Proof.
  intros H. destruct pts as [|p pts]; [contradiction|]. unfold close.
  split; [apply last_last | apply removelast_last].
Qed.

Lemma by_distance_spec pts m closed r : (2 <= length pts)%nat ->
  interpolate_points_by_max_distance pts m closed = Ok r ->
  0 < m /\
  Forall (fun pq => distance2 (fst pq) (snd pq) < 4 * (m * m))
         (consecutive (if closed then r ++ firstn 1 pts else r)) /\
  subsequence pts r /\
  Forall (fun p => exists ab, In ab (consecutive (if closed then pts ++ firstn 1 pts else pts)) /\
                              on_segment p (fst ab) (snd ab)) r.
Proof.
  intros Hl E. unfold interpolate_points_by_max_distance in E.
  destruct (qltb 0 m) eqn:Em; [|discriminate]. cbn [negb] in E. apply qltb_iff in Em.
  destruct (Nat.leb_spec (length pts) 1); [lia|].
  assert (E' : flat_map (dsegment m) (neighbours (close closed pts)) ++ last_if_open closed pts = r) by (injection E as E; exact E).
  clear E. split; [exact Em|]. destruct pts as [|p0 pts0]; [cbn in Hl; lia|]. set (pts := p0 :: pts0) in *.
  destruct closed; cbn [last_if_open] in E'.
  - rewrite app_nil_r in E'. subst r. assert (Hne : pts <> []) by discriminate.
    destruct (last_close pts p0 Hne) as [Hla Hre].
    refine (conj _ (conj _ _)).
    + replace (firstn 1 pts) with [last (close true pts) p0] by (rewrite Hla; reflexivity).
      apply (full_line_gaps m (close true pts) p0 Em). discriminate.
    + rewrite <- Hre at 1. apply flat_map_subsequence.
    + change (pts ++ firstn 1 pts) with (close true pts). apply flat_map_on_segment.
  - assert (Hlast : match rev pts with [] => [] | p :: _ => [p] end = [last pts p0]).
    { destruct pts as [|q qs] eqn:Ep using rev_ind; [discriminate|]. rewrite rev_unit, last_last. reflexivity. }
    rewrite Hlast in E'. cbn [close] in E'. subst r. refine (conj _ (conj _ _)).
    + apply (full_line_gaps m pts p0 Em). discriminate.
    + apply (full_line_subsequence m pts p0). discriminate.
    + apply Forall_app. split; [apply flat_map_on_segment|]. constructor; [|constructor].
      assert (Hc : exists q, In (q, last pts p0) (consecutive pts)).
      { clear - Hl. assert (forall (l : list point) a, l <> [] -> exists q, In (q, last (a :: l) p0) (consecutive (a :: l))) as HH.
        { induction l as [|b l IH]; intros a Hn; [contradiction|]. destruct l as [|c l].
          - exists a. left. reflexivity.
          - destruct (IH b ltac:(discriminate)) as [q Hq]. exists q. right. exact Hq. }
        apply HH. destruct pts0; [cbn in Hl; lia | discriminate]. }
      destruct Hc as [q Hq]. exists (q, last pts p0). split; [exact Hq|]. cbn [fst snd].
      exists 1. split; [split; lra|]. split; ring.
Qed.
Lemma by_distance_total pts m closed : 0 < m -> exists r, interpolate_points_by_max_distance pts m closed = Ok r.
Proof.
  intros H. unfold interpolate_points_by_max_distance. rewrite (proj2 (qltb_iff 0 m) H). cbn [negb].
  destruct (_ <=? _)%nat; eauto.
Qed.

(** ** Keypoint images *)
Lemma in_positions h w y x : (0 <= h)%Z -> (0 < w)%Z ->
  In (y, x) (positions h w) <-> ((0 <= y < h)%Z /\ (0 <= x < w)%Z).
Proof.
  intros Hh Hw. unfold positions. rewrite in_map_iff. split.
  - intros (i & E & Hi). apply in_seq in Hi. injection E as <- <-.
    pose proof (Z.mod_pos_bound (Z.of_nat i) w Hw). split; [|assumption].
    split; [apply Z.div_pos; lia|]. apply Z.div_lt_upper_bound; lia.
  - intros [Hy Hx]. exists (Z.to_nat (y * w + x)). assert (0 <= y * w + x < h * w)%Z by nia. split.
    + rewrite Z2Nat.id by lia. f_equal.
      * rewrite Z.div_add_l by lia. rewrite Z.div_small by lia. lia.
      * rewrite Z.add_comm, Z.mod_add by lia. apply Z.mod_small. lia.
    + apply in_seq. lia.
Qed.

Lemma argmax_fold (a : arr Z) ps : forall p,
  let b := fold_left (fun best q => if (apx a (fst best) (snd best) <? apx a (fst q) (snd q))%Z then q else best) ps p in
  (b = p \/ In b ps) /\ (apx a (fst p) (snd p) <= apx a (fst b) (snd b))%Z /\
  forall q, In q ps -> (apx a (fst q) (snd q) <= apx a (fst b) (snd b))%Z.
Proof.
  induction ps as [|q ps IH]; cbn [fold_left]; intros p.
  - split; [left; reflexivity|]. split; [lia | intros q []].
  - destruct (Z.ltb_spec (apx a (fst p) (snd p)) (apx a (fst q) (snd q))) as [H|H].
    + destruct (IH q) as (H1 & H2 & H3). split; [destruct H1 as [->|H1]; right; [left; reflexivity | right; exact H1]|].
      split; [lia|]. intros q' [<-|Hq]; [lia | apply H3, Hq].
    + destruct (IH p) as (H1 & H2 & H3). split; [destruct H1 as [->|H1]; [left; reflexivity | right; right; exact H1]|].
      split; [lia|]. intros q' [<-|Hq]; [lia | apply H3, Hq].
Qed.
Lemma argmax_spec (a : arr Z) : (0 < ah a)%Z -> (0 < aw a)%Z -> exists y x, argmax a = Ok (y, x) /\
  (0 <= y < ah a)%Z /\ (0 <= x < aw a)%Z /\
  forall y' x', (0 <= y' < ah a)%Z -> (0 <= x' < aw a)%Z -> (apx a y' x' <= apx a y x)%Z.
Proof.
  intros Hh Hw. unfold argmax. pose proof (in_positions (ah a) (aw a)) as Hin.
  destruct (positions (ah a) (aw a)) as [|p ps].
  - exfalso. apply (proj2 (Hin 0%Z 0%Z ltac:(lia) Hw)). lia.
  - destruct (argmax_fold a ps p) as (H1 & H2 & H3).
    set (b := fold_left _ ps p) in *. exists (fst b), (snd b). rewrite <- surjective_pairing. split; [reflexivity|].
    assert (Hb : In (fst b, snd b) (p :: ps)) by (rewrite <- surjective_pairing; destruct H1 as [->|H1]; [left; reflexivity | right; exact H1]).
    apply Hin in Hb; [|lia|exact Hw]. refine (conj (proj1 Hb) (conj (proj2 Hb) _)).
    intros y' x' Hy Hx. assert (Hq : In (y', x') (p :: ps)) by (apply Hin; [lia|exact Hw|auto]).
    destruct Hq as [E|Hq]; [subst p; exact H2 | apply (H3 _ Hq)].
Qed.

Lemma slice_bound_id n i : (0 <= i <= n)%Z -> py_slice_bound n i = i.
Proof. intros H. unfold py_slice_bound. destruct (Z.ltb_spec i 0); lia. Qed.

Lemma channel_values h w sizeh kp : (0 < h)%Z -> (0 < w)%Z ->
  let a := keypoint_channel h w sizeh kp in
  let y := np_round (snd kp) in let x := np_round (fst kp) in
  ah a = h /\ aw a = w /\
  (inside h y /\ inside w x -> apx a y x = 255%Z) /\
  (forall y' x', (0 <= y' < h)%Z -> (0 <= x' < w)%Z -> ~ (inside h y /\ inside w x /\ y' = y /\ x' = x) -> (apx a y' x' <= 128)%Z).
Proof.
  intros Hh Hw a y x. unfold a, keypoint_channel. fold y x.
  set (x1 := zclip (x - sizeh) 0 (w - 1)). set (x2 := zclip (x + sizeh + 1) 0 w).
  set (y1 := zclip (y - sizeh) 0 (h - 1)). set (y2 := zclip (y + sizeh + 1) 0 h).
  set (im := if ((x1 <? x2) && (y1 <? y2))%Z%bool then _ else _).
  assert (Him : ah im = h /\ aw im = w /\ forall y' x', (apx im y' x' <= 128)%Z).
  { unfold im. destruct (_ && _)%bool; cbn [ah aw apx paint].
    - refine (conj eq_refl (conj eq_refl _)). intros y' x'. destruct (_ && _)%bool; lia.
    - refine (conj eq_refl (conj eq_refl _)). intros; lia. }
  destruct Him as (Hah & Haw & Hpx). clearbody im. clear a.
  destruct ((0 <=? y) && (y <? h) && (0 <=? x) && (x <? w))%Z%bool eqn:E.
  - rewrite !andb_true_iff, !Z.leb_le, !Z.ltb_lt in E.
    cbn [ah aw apx paint]. rewrite Hah, Haw. rewrite !slice_bound_id by lia.
    refine (conj eq_refl (conj eq_refl (conj _ _))).
    + intros _. replace ((y <=? y) && (y <? y + 1) && (x <=? x) && (x <? x + 1))%Z%bool with true; [reflexivity|].
      symmetry. rewrite !andb_true_iff, !Z.leb_le, !Z.ltb_lt. lia.
    + intros y' x' Hy Hx Hn. destruct ((y <=? y') && (y' <? y + 1) && (x <=? x') && (x' <? x + 1))%Z%bool eqn:E2; [|apply Hpx].
      rewrite !andb_true_iff, !Z.leb_le, !Z.ltb_lt in E2. exfalso. apply Hn. unfold inside. lia.
  - refine (conj Hah (conj Haw (conj _ (fun y' x' _ _ _ => Hpx y' x')))).
    intros [H1 H2]. unfold inside in *. exfalso. revert E. apply eq_true_false_abs. 
    rewrite !andb_true_iff, !Z.leb_le, !Z.ltb_lt. lia.
Qed.

Lemma nearest_np_round q : nearest q (np_round q).
Proof.
  destruct (np_round_spec q) as (H1 & H2 & H3). unfold nearest. split; [split; assumption|].
  intros [H|H]; apply H3; [left; symmetry; exact H | right; exact H].
Qed.

Lemma one_keypoint h w sizeh kp (nf : option point) thr : (0 < h)%Z -> (0 < w)%Z -> (thr <= 255)%Z ->
  (128 < thr)%Z \/ (inside h (np_round (snd kp)) /\ inside w (np_round (fst kp))) ->
  exists r : list point, (do p <- argmax (keypoint_channel h w sizeh kp);
     Ok (if (thr <=? apx (keypoint_channel h w sizeh kp) (fst p) (snd p))%Z
         then [(inject_Z (snd p) + (1 # 2), inject_Z (fst p) + (1 # 2))]
         else match nf with Some q => [q] | None => [] end)) = Ok r /\ read_back h w nf kp r.
Proof.
  intros Hh Hw Ht Hc. destruct (channel_values h w sizeh kp Hh Hw) as (Hah & Haw & H255 & H128).
  set (a := keypoint_channel h w sizeh kp) in *.
  set (py := np_round (snd kp)) in *. set (px := np_round (fst kp)) in *.
  destruct (argmax_spec a) as (y & x & E & Hy & Hx & Hmax); [rewrite Hah; exact Hh | rewrite Haw; exact Hw|].
  rewrite E. cbn [bind fst snd]. eexists. split; [reflexivity|]. rewrite Hah in *. rewrite Haw in *.
  exists px, py. refine (conj (nearest_np_round _) (conj (nearest_np_round _) _)).
  destruct (Z_le_gt_dec 0 py), (Z_lt_ge_dec py h), (Z_le_gt_dec 0 px), (Z_lt_ge_dec px w);
    try (right; assert (Hn : ~ (inside h py /\ inside w px)) by (unfold inside; lia); split; [exact Hn|];
         destruct Hc as [Hc|Hc]; [|contradiction];
         destruct (Z.leb_spec thr (apx a y x)); [|reflexivity];
         exfalso; assert (apx a y x <= 128)%Z by (apply H128; [exact Hy | exact Hx | unfold inside; lia]); lia).
  left. assert (Hi : inside h py /\ inside w px) by (unfold inside; lia).
  refine (conj (proj1 Hi) (conj (proj2 Hi) _)).
  assert (Ev : apx a py px = 255%Z) by (apply H255, Hi).
  assert (Hge : (255 <= apx a y x)%Z) by (rewrite <- Ev; apply Hmax; unfold inside in Hi; lia).
  assert (Eyx : y = py /\ x = px).
  { destruct (Z.eq_dec y py), (Z.eq_dec x px); auto; exfalso;
      assert (apx a y x <= 128)%Z by (apply H128; [exact Hy | exact Hx | tauto]); lia. }
  destruct Eyx as [-> ->]. destruct (Z.leb_spec thr (apx a py px)); [|lia].
  eexists. split; [reflexivity|]. split; reflexivity.
Qed.

Lemma keypoint_image_roundtrip h w kps size (nf : option point) thr : (0 < h)%Z -> (0 < w)%Z -> (size mod 2 = 1)%Z -> (thr <= 255)%Z ->
  (128 < thr)%Z \/ Forall (fun kp => inside h (np_round (snd kp)) /\ inside w (np_round (fst kp))) kps ->
  exists image rs, to_keypoint_image h w kps size = Ok image /\ length image = length kps /\
    from_keypoint_image image nf thr = Ok (concat rs) /\ Forall2 (read_back h w nf) kps rs.
Proof.
  intros Hh Hw Hs Ht Hc. unfold to_keypoint_image. rewrite Hs. cbn [Z.eqb].
  set (sh := Z.max 0 ((size - 1) / 2)). exists (map (keypoint_channel h w sh) kps).
  assert (H : exists rs, mapM (fun a : arr Z =>
              do p <- argmax a;
              Ok (if (thr <=? apx a (fst p) (snd p))%Z
                  then [(inject_Z (snd p) + (1 # 2), inject_Z (fst p) + (1 # 2))]
                  else match nf with Some q => [q] | None => [] end)) (map (keypoint_channel h w sh) kps) = Ok rs /\
            Forall2 (read_back h w nf) kps rs).
  { unfold mapM. induction kps as [|kp kps IH]; [exists []; split; [reflexivity | constructor]|].
    destruct (one_keypoint h w sh kp nf thr Hh Hw Ht) as (r & Er & Hr).
    { destruct Hc as [Hc|Hc]; [left; exact Hc | right; inversion Hc; assumption]. }
    destruct IH as (rs & Ers & Hrs).
    { destruct Hc as [Hc|Hc]; [left; exact Hc | right; inversion Hc; assumption]. }
    exists (r :: rs). cbn [map sequence].
    match goal with |- bind ?m ?k = _ /\ _ => assert (Em : m = Ok r) by exact Er; rewrite Em end.
    rewrite Ers. split; [reflexivity | constructor; assumption]. }
  destruct H as (rs & E & HF). exists rs. rewrite map_length.
  refine (conj eq_refl (conj eq_refl (conj _ HF))). unfold from_keypoint_image. rewrite E. reflexivity.
Qed.

Lemma nearest_unique q z z' : nearest q z -> nearest q z' -> z = z'.
Proof.
  intros [[H1 H2] He] [[H3 H4] He'].
  assert (A : inject_Z z - inject_Z z' <= 1) by lra. assert (B : inject_Z z' - inject_Z z <= 1) by lra.
  assert (z - z' <= 1)%Z by (rewrite Zle_Qle; unfold Zminus; rewrite inject_Z_plus, inject_Z_opp; exact A).
  assert (z' - z <= 1)%Z by (rewrite Zle_Qle; unfold Zminus; rewrite inject_Z_plus, inject_Z_opp; exact B).
  assert (C : (z = z' \/ z = z' + 1 \/ z' = z + 1)%Z) by lia. destruct C as [C | [C | C]]; [exact C| |]; exfalso.
  - subst z. rewrite inject_Z_plus in *. change (inject_Z 1) with 1 in *.
    assert (E1 : Z.even (z' + 1) = true) by (apply He; left; lra).
    assert (E2 : Z.even z' = true) by (apply He'; right; lra).
    rewrite Z.even_add, E2 in E1. discriminate.
  - subst z'. rewrite inject_Z_plus in *. change (inject_Z 1) with 1 in *.
    assert (E1 : Z.even (z + 1) = true) by (apply He'; left; lra).
    assert (E2 : Z.even z = true) by (apply He; right; lra).
    rewrite Z.even_add, E2 in E1. discriminate.
Qed.
Lemma keypoint_image_even h w kps size : (size mod 2 = 0)%Z -> to_keypoint_image h w kps size = Err AssertionError.
Proof. intros H. unfold to_keypoint_image. rewrite H. reflexivity. Qed.
Lemma keypoint_image_roundtrip' h w kps size (nf : option point) thr : (0 < h)%Z -> (0 < w)%Z -> (size mod 2 = 1)%Z -> (thr <= 255)%Z ->
  (128 < thr)%Z \/ (forall kp px py, In kp kps -> nearest (fst kp) px -> nearest (snd kp) py -> inside h py /\ inside w px) ->
  exists image rs, to_keypoint_image h w kps size = Ok image /\ length image = length kps /\
    from_keypoint_image image nf thr = Ok (concat rs) /\ Forall2 (read_back h w nf) kps rs.
Proof.
  intros Hh Hw Hs Ht Hc. apply keypoint_image_roundtrip; [assumption..|].
  destruct Hc as [Hc|Hc]; [left; exact Hc|]. right. apply Forall_forall. intros kp Hin.
  apply (Hc kp _ _ Hin); apply nearest_np_round.
Qed.
Lemma keypoint_image_empty h w kps size nf thr image : (0 <= h)%Z -> (0 <= w)%Z -> (h = 0 \/ w = 0)%Z -> kps <> [] ->
  to_keypoint_image h w kps size = Ok image -> from_keypoint_image image nf thr = Err ValueError.
Proof.
  intros Hh Hw Hz Hk E. unfold to_keypoint_image in E. destruct (_ =? _)%Z; [discriminate|].
  injection E as <-. destruct kps as [|kp kps]; [contradiction|].
  unfold from_keypoint_image, mapM. cbn [map sequence].
  assert (Ea : argmax (keypoint_channel h w (Z.max 0 ((size - 1) / 2)) kp) = Err ValueError).
  { unfold argmax. replace (positions _ _) with (@nil (Z * Z)); [reflexivity|].
    assert (Hd : ah (keypoint_channel h w (Z.max 0 ((size - 1) / 2)) kp) = h /\
                 aw (keypoint_channel h w (Z.max 0 ((size - 1) / 2)) kp) = w).
    { unfold keypoint_channel. repeat (destruct (_ && _)%bool; cbn [paint ah aw]); auto. }
    destruct Hd as [-> ->]. unfold positions. replace (h * w)%Z with 0%Z by (destruct Hz; subst; lia). reflexivity. }
  rewrite Ea. reflexivity.
Qed.
