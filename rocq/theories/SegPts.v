(** Proofs about the point samplers. *)
From Coq Require Import Lia Lqa Permutation.
From Verif Require Import Prelude PreludeFacts GeoModel UtilModel UtilProofs SegModel SegSpec SegRest KeepProofs.

(* ------------------------------------------------------------------ *)
(** * Grids *)

Lemma inject_pos : forall n, 0 < n -> (0 < inject_Z n)%Q.
Proof. intros n H. change 0%Q with (inject_Z 0). rewrite <- Zlt_Qlt. exact H. Qed.
Lemma inject_nonneg : forall n, 0 <= n -> (0 <= inject_Z n)%Q.
Proof. intros n H. change 0%Q with (inject_Z 0). rewrite <- Zle_Qle. exact H. Qed.
Lemma inject_nz : forall n, n <> 0 -> ~ (inject_Z n == 0)%Q.
Proof. intros n H C. change 0%Q with (inject_Z 0) in C. rewrite inject_Z_injective in C. contradiction. Qed.

Definition axis_ok (size n : Z) (l : list Q) : Prop :=
  length l = Z.to_nat n /\
  forall i, 0 <= i < n -> exists q, nth_error l (Z.to_nat i) = Some q /\
    (q == (inject_Z i + (1#2)) * inject_Z size / inject_Z n)%Q.

Lemma grid_axis_ok : forall size n, 0 <= size -> 1 <= n -> n <= Z.max size 1 -> axis_ok size n (grid_axis size n).
Proof.
  intros size n S N L. unfold grid_axis.
  set (sp := (inject_Z size / inject_Z n)%Q). set (st := (0 + sp / 2)%Q). set (en := (inject_Z size - sp / 2)%Q).
  destruct (Z.eq_dec n 1) as [->|N2].
  - assert (st == en)%Q as E by (unfold st, en, sp; field).
    assert (qleb (st - (1 # 10000)) en && qleb en (st + (1 # 10000)) = true) as ->.
    { apply andb_true_iff. split; apply qleb_iff; rewrite E; lra. }
    split; [reflexivity|]. intros i I. replace i with 0 by lia. cbn. exists st. split; [reflexivity|].
    unfold st, sp. change (inject_Z 1) with 1%Q. change (inject_Z 0) with 0%Q. field.
  - assert (2 <= n /\ n <= size) as [N3 L2] by lia.
    assert (0 < inject_Z n)%Q as PN by (apply inject_pos; lia).
    assert (0 < inject_Z size)%Q as PS by (apply inject_pos; lia).
    assert (2 <= inject_Z n)%Q as N4 by (change 2%Q with (inject_Z 2); rewrite <- Zle_Qle; lia).
    assert (2 <= inject_Z size)%Q as S4 by (change 2%Q with (inject_Z 2); rewrite <- Zle_Qle; lia).
    assert (sp <= inject_Z size / 2)%Q as HS.
    { unfold sp. apply Qle_shift_div_r; [exact PN|]. setoid_replace (inject_Z size / 2 * inject_Z n)%Q with (inject_Z size * inject_Z n * (1#2))%Q by field. nra. }
    assert (qleb en (st + (1 # 10000)) = false) as ->.
    { destruct (qleb en _) eqn:E; [|reflexivity]. apply qleb_iff in E. exfalso. unfold en, st in E.
      setoid_replace (sp / 2)%Q with (sp * (1#2))%Q in E by field.
      setoid_replace (inject_Z size / 2)%Q with (inject_Z size * (1#2))%Q in HS by field. lra. }
    rewrite andb_false_r. unfold linspace. split; [rewrite map_length; apply length_zrange|].
    intros i I. rewrite nth_error_map, nth_error_zrange by exact I. cbn. eexists. split; [reflexivity|].
    assert (~ inject_Z (n - 1) == 0)%Q as NZ by (apply inject_nz; lia).
    assert (inject_Z (n - 1) == inject_Z n - 1)%Q as EN by (unfold Z.sub; rewrite inject_Z_plus; reflexivity).
    rewrite EN in NZ |- *. unfold en, st, sp. field.
    split; [apply inject_nz; lia|exact NZ].
Qed.

Lemma point_grid_ok : forall s nr nc, 0 <= fst s -> 0 <= snd s ->
  1 <= nr <= Z.max (fst s) 1 -> 1 <= nc <= Z.max (snd s) 1 -> is_grid s nr nc (point_grid s nr nc).
Proof.
  intros s nr nc H W R C.
  destruct (grid_axis_ok (fst s) nr) as [LY Y]; try lia. destruct (grid_axis_ok (snd s) nc) as [LX X]; try lia.
  unfold point_grid. split.
  - rewrite (length_flat (fun (y x : Q) => ((x, y) : point))), LY, LX. lia.
  - intros j i J I. destruct (Y j J) as [y [Ey Qy]]. destruct (X i I) as [x [Ex Qx]]. exists (x, y).
    split; [|split; cbn; assumption].
    replace (Z.to_nat (j * nc + i)) with (Z.to_nat j * length (grid_axis (snd s) nc) + Z.to_nat i)%nat by (rewrite LX; nia).
    apply (nth_error_flat (fun (y x : Q) => ((x, y) : point))); assumption.
Qed.

Lemma clip_count_range : forall n size, 1 <= clip_count n size <= Z.max size 1.
Proof. intros. unfold clip_count. lia. Qed.
Lemma clip_count_limited : forall n size, limited n size (clip_count n size).
Proof. intros. unfold limited, clip_count. lia. Qed.

(** Every element of a grid is one of its points. *)
Lemma grid_elements : forall s nr nc pts p, 1 <= nc -> is_grid s nr nc pts -> In p pts ->
  exists j i, 0 <= j < nr /\ 0 <= i < nc /\ point_eq p (grid_point s nr nc j i).
Proof.
  intros s nr nc pts p N [L G] I. apply In_nth_error in I as [k K].
  assert (k < length pts)%nat as LK by (apply nth_error_Some; congruence).
  set (j := Z.of_nat k / nc). set (i := Z.of_nat k mod nc).
  pose proof (Z.mod_pos_bound (Z.of_nat k) nc ltac:(lia)) as B. fold i in B.
  pose proof (Z.div_mod (Z.of_nat k) nc ltac:(lia)) as D. fold i j in D.
  assert (0 <= j < nr) as J.
  { split; [apply Z.div_pos; lia|]. apply Z.div_lt_upper_bound; [lia|]. nia. }
  destruct (G j i J B) as [q [E Q]]. exists j, i. split; [exact J|]. split; [exact B|].
  replace (Z.to_nat (j * nc + i)) with k in E by lia. rewrite K in E. injection E as ->. exact Q.
Qed.

Lemma frac_range : forall i n size, 0 <= size -> 0 <= i < n ->
  (0 <= (inject_Z i + (1#2)) * inject_Z size / inject_Z n <= inject_Z size)%Q.
Proof.
  intros i n size S I. assert (0 < inject_Z n)%Q as P by (apply inject_pos; lia).
  assert (0 <= inject_Z size)%Q as PS by (apply inject_nonneg; lia).
  assert (0 <= inject_Z i)%Q as PI by (apply inject_nonneg; lia).
  assert (inject_Z i + 1 <= inject_Z n)%Q as IL.
  { change 1%Q with (inject_Z 1). rewrite <- inject_Z_plus, <- Zle_Qle. lia. }
  split.
  - apply Qle_shift_div_l; [exact P|]. nra.
  - apply Qle_shift_div_r; [exact P|]. nra.
Qed.
Lemma grid_on_plane : forall s nr nc j i, 0 <= fst s -> 0 <= snd s -> 0 <= j < nr -> 0 <= i < nc ->
  on_plane s (grid_point s nr nc j i).
Proof. intros. split; cbn; apply frac_range; assumption. Qed.
Lemma on_plane_eq : forall s p q, point_eq p q -> on_plane s q -> on_plane s p.
Proof. intros s p q [X Y] [A B]. unfold on_plane. rewrite X, Y. auto. Qed.

Lemma grid_all_on_plane : forall s nr nc pts, 0 <= fst s -> 0 <= snd s -> 1 <= nc -> is_grid s nr nc pts ->
  Forall (on_plane s) pts.
Proof.
  intros s nr nc pts H W N G. apply Forall_forall. intros p I.
  destruct (grid_elements s nr nc pts p N G I) as [j [i [J [K E]]]].
  eapply on_plane_eq; [exact E|]. apply grid_on_plane; assumption.
Qed.

(** Along one axis the own interval is the nearest. *)
Lemma axis_nearest : forall n size i i' v, 0 < size -> 0 < n ->
  (inject_Z i * inject_Z size / inject_Z n < v < (inject_Z i + 1) * inject_Z size / inject_Z n)%Q ->
  let a k := ((inject_Z k + (1#2)) * inject_Z size / inject_Z n)%Q in
  ((a i - v) * (a i - v) <= (a i' - v) * (a i' - v))%Q /\
  (i <> i' -> (a i - v) * (a i - v) < (a i' - v) * (a i' - v))%Q.
Proof.
  intros n size i i' v S N [L U]. cbn zeta.
  assert (0 < inject_Z n)%Q as P by (apply inject_pos; lia).
  assert (0 < inject_Z size)%Q as PS by (apply inject_pos; lia).
  set (d := (inject_Z size / inject_Z n)%Q).
  assert (0 < d)%Q as D by (unfold d; apply Qlt_shift_div_l; [exact P|lra]).
  assert (forall q, q * inject_Z size / inject_Z n == q * d)%Q as F.
  { intro q. unfold d. field. apply inject_nz. lia. }
  rewrite F in L, U.
  assert (forall k, ((inject_Z k + (1#2)) * inject_Z size / inject_Z n - v == (inject_Z k + (1#2)) * d - v)%Q) as G by (intro; rewrite F; reflexivity).
  rewrite (G i), (G i').
  destruct (Z.eq_dec i i') as [->|NE]; [split; [apply Qle_refl|congruence]|].
  assert (((inject_Z i + (1#2)) * d - v) * ((inject_Z i + (1#2)) * d - v)
     < ((inject_Z i' + (1#2)) * d - v) * ((inject_Z i' + (1#2)) * d - v))%Q as X.
  { set (e := ((inject_Z i + (1#2)) * d - v)%Q).
    assert (- d * (1#2) < e < d * (1#2))%Q as E by (unfold e; split; nra).
    destruct (Z_lt_le_dec i i') as [C|C].
    - assert (inject_Z i + 1 <= inject_Z i')%Q as C' by (change 1%Q with (inject_Z 1); rewrite <- inject_Z_plus, <- Zle_Qle; lia).
      assert (e + d <= (inject_Z i' + (1#2)) * d - v)%Q as M by (unfold e; nra). nra.
    - assert (inject_Z i' + 1 <= inject_Z i)%Q as C' by (change 1%Q with (inject_Z 1); rewrite <- inject_Z_plus, <- Zle_Qle; lia).
      assert ((inject_Z i' + (1#2)) * d - v <= e - d)%Q as M by (unfold e; nra). nra. }
  split; [apply Qlt_le_weak, X|intros _; exact X].
Qed.
Lemma dist2_eq : forall p q r, point_eq p q -> (dist2 p r == dist2 q r)%Q.
Proof. intros p q r [X Y]. unfold dist2. rewrite X, Y. reflexivity. Qed.

Lemma grid_cells : forall s nr nc pts j i p, 0 < fst s -> 0 < snd s -> is_grid s nr nc pts ->
  0 <= j < nr -> 0 <= i < nc -> in_rectangle s nr nc j i p ->
  forall k, nearest pts p k <-> k = Z.to_nat (j * nc + i).
Proof.
  intros s nr nc pts j i p H W G J I [RX RY] k.
  assert (forall j' i', (dist2 (grid_point s nr nc j i) p <= dist2 (grid_point s nr nc j' i') p)%Q /\
     ((j, i) <> (j', i') -> (dist2 (grid_point s nr nc j i) p < dist2 (grid_point s nr nc j' i') p)%Q)) as ND.
  { intros j' i'. destruct (axis_nearest nc (snd s) i i' (fst p) W ltac:(lia) RX) as [X1 X2].
    destruct (axis_nearest nr (fst s) j j' (snd p) H ltac:(lia) RY) as [Y1 Y2].
    unfold dist2, grid_point. cbn [fst snd]. split; [apply Qplus_le_compat; assumption|].
    intro N. destruct (Z.eq_dec i i') as [EI|NI].
    - assert (j <> j') as NJ by congruence. specialize (Y2 NJ). lra.
    - specialize (X2 NI). lra. }
  destruct (proj2 G j i J I) as [q [Q1 Q2]]. split.
  - intros [c [C1 C2]]. assert (k < length pts)%nat as LK by (apply nth_error_Some; congruence).
    set (j' := Z.of_nat k / nc). set (i' := Z.of_nat k mod nc).
    pose proof (Z.mod_pos_bound (Z.of_nat k) nc ltac:(lia)) as B. fold i' in B.
    pose proof (Z.div_mod (Z.of_nat k) nc ltac:(lia)) as D. fold i' j' in D.
    assert (0 <= j' < nr) as J'.
    { split; [apply Z.div_pos; lia|]. apply Z.div_lt_upper_bound; [lia|]. destruct G as [G _]. nia. }
    destruct (proj2 G j' i' J' B) as [q' [E' Q']]. replace (Z.to_nat (j' * nc + i')) with k in E' by lia.
    rewrite C1 in E'. injection E' as <-.
    destruct (Z.eq_dec j j') as [EJ|NJ]; [destruct (Z.eq_dec i i') as [EI|NI]|].
    + rewrite EJ, EI. lia.
    + exfalso. destruct (ND j' i') as [_ N]. specialize (N ltac:(congruence)).
      specialize (C2 q (nth_error_In _ _ Q1)). rewrite (dist2_eq _ _ _ Q2), (dist2_eq _ _ _ Q') in C2. lra.
    + exfalso. destruct (ND j' i') as [_ N]. specialize (N ltac:(congruence)).
      specialize (C2 q (nth_error_In _ _ Q1)). rewrite (dist2_eq _ _ _ Q2), (dist2_eq _ _ _ Q') in C2. lra.
  - intros ->. exists q. split; [exact Q1|]. intros d D.
    destruct (grid_elements s nr nc pts d ltac:(lia) G D) as [j' [i' [_ [_ E]]]].
    rewrite (dist2_eq _ _ _ Q2), (dist2_eq _ _ _ E). apply ND.
Qed.
