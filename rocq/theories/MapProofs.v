From Coq Require Import Lia Lqa.
From Verif Require Import Prelude PreludeFacts DtyModel DtyProofs MapModel MapSpec.
Local Open Scope Q_scope.

(** * Lists *)
Lemma fold_qmin_spec : forall l x, fold_left qmin l x <= x /\ Forall (fun y => fold_left qmin l x <= y) l /\
  In (fold_left qmin l x) (x :: l).
Proof.
  induction l as [|y l IH]; intro x; cbn [fold_left].
  - split; [lra|split; [constructor|left; reflexivity]].
  - destruct (IH (qmin x y)) as (A & B & C). destruct (qmin_spec x y) as (M1 & M2 & M3).
    split; [lra|]. split; [constructor; [lra|exact B]|].
    destruct C as [C|C]; [|right; right; exact C]. rewrite <- C.
    destruct M3 as [-> | ->]; [left|right; left]; reflexivity.
Qed.
Lemma fold_qmax_spec : forall l x, x <= fold_left qmax l x /\ Forall (fun y => y <= fold_left qmax l x) l /\
  In (fold_left qmax l x) (x :: l).
Proof.
  induction l as [|y l IH]; intro x; cbn [fold_left].
  - split; [lra|split; [constructor|left; reflexivity]].
  - destruct (IH (qmax x y)) as (A & B & C). destruct (qmax_spec x y) as (M1 & M2 & M3).
    split; [lra|]. split; [constructor; [lra|exact B]|].
    destruct C as [C|C]; [|right; right; exact C]. rewrite <- C.
    destruct M3 as [-> | ->]; [left|right; left]; reflexivity.
Qed.
Lemma np_min_spec : forall l, l <> [] -> exists m, np_min l = Ok m /\ Forall (fun y => m <= y) l /\ In m l.
Proof.
  intros [|x l] H; [congruence|]. eexists. split; [reflexivity|].
  destruct (fold_qmin_spec l x) as (A & B & C). split; [constructor; assumption|exact C].
Qed.
Lemma np_max_spec : forall l, l <> [] -> exists m, np_max l = Ok m /\ Forall (fun y => y <= m) l /\ In m l.
Proof.
  intros [|x l] H; [congruence|]. eexists. split; [reflexivity|].
  destruct (fold_qmax_spec l x) as (A & B & C). split; [constructor; assumption|exact C].
Qed.
Lemma firstn_nonempty : forall {A} n (l : list A), (0 < n)%nat -> l <> [] -> firstn n l <> [].
Proof. intros A [|n] [|x l] N L; cbn; congruence || lia. Qed.
Lemma In_firstn : forall {A} n (l : list A) x, In x (firstn n l) -> In x l.
Proof.
  intros A n l x H. rewrite <- (firstn_skipn n l). apply in_or_app. left. exact H.
Qed.
Lemma Forall_firstn' : forall {A} (P : A -> Prop) n l, Forall P l -> Forall P (firstn n l).
Proof.
  intros A P n l H. apply Forall_forall. intros x I. apply In_firstn in I.
  rewrite Forall_forall in H. auto.
Qed.
Lemma Forall2_map_l : forall {A B} (R : B -> A -> Prop) (f : A -> B) l,
  (forall x, In x l -> R (f x) x) -> Forall2 R (map f l) l.
Proof.
  intros A B R f l H. induction l as [|x l IH]; cbn; constructor.
  - apply H. left. reflexivity.
  - apply IH. intros y Y. apply H. right. exact Y.
Qed.
Lemma Forall2_map_r : forall {A B} (R : A -> B -> Prop) (f : A -> B) l,
  (forall x, In x l -> R x (f x)) -> Forall2 R l (map f l).
Proof.
  intros A B R f l H. induction l as [|x l IH]; cbn; constructor.
  - apply H. left. reflexivity.
  - apply IH. intros y Y. apply H. right. exact Y.
Qed.
Lemma Forall2_Qeq_refl : forall l, Forall2 Qeq l l.
Proof. induction l; constructor; [reflexivity|assumption]. Qed.

Lemma map_shape_nonempty : forall a, map_shape a -> n_flat a <> [].
Proof.
  intros a [(h & w & _ & H & W & L)|(h & w & c & _ & H & W & C & L)] E; rewrite E in L; cbn in L.
  - assert (0 < h * w)%Z by (apply Z.mul_pos_pos; assumption). lia.
  - assert (0 < h * w * c)%Z by (repeat apply Z.mul_pos_pos; assumption). lia.
Qed.

(** * Heatmaps *)
Definition clipped (arr : nd) (mn mx : Q) : bool :=
  let comp := firstn 50 (n_flat arr) in
  match np_min comp, np_max comp with
  | Ok lo, Ok hi => qltb lo (mn - f32_eps) || qltb (mx + f32_eps) hi
  | _, _ => false
  end.
Definition stored (arr : nd) (mn mx : Q) : list Q :=
  let vals := if clipped arr mn mx then map (fun v => qmin (qmax v mn) mx) (n_flat arr) else n_flat arr in
  if unit_range mn mx then vals else map (fun v => (v - mn) / (mx - mn)) vals.
Definition is_2d (arr : nd) : bool := Nat.eqb (length (n_shape arr)) 2.
Definition shape3 (arr : nd) : list Z := if is_2d arr then n_shape arr ++ [1%Z] else n_shape arr.

Lemma mk_heatmap_ok : forall arr shape mn mx,
  map_shape arr -> n_dt arr = ANum float32 -> (length shape = 2 \/ length shape = 3)%nat -> mn < mx ->
  mk_heatmap arr shape mn mx =
  Ok (mkHm (mkNd (n_dt arr) (shape3 arr) (stored arr mn mx)) shape mn mx (is_2d arr)).
Proof.
  intros arr shape mn mx S D L M. unfold mk_heatmap.
  pose proof (map_shape_nonempty arr S) as NE.
  assert (Hs : exists h w rest, n_shape arr = h :: w :: rest /\ (0 < h)%Z /\ (0 < w)%Z /\ (length rest <= 1)%nat).
  { destruct S as [(h & w & E & H & W & _)|(h & w & c & E & H & W & C & _)]; rewrite E;
      do 3 eexists; (split; [reflexivity|split; [exact H|split; [exact W|cbn; lia]]]). }
  destruct Hs as (h & w & rest & E & H & W & R).
  assert (X1 : existsb (Nat.eqb (length (n_shape arr))) [2; 3]%nat = true).
  { rewrite E. cbn [length]. destruct rest as [|c [|]]; cbn in R; try lia; reflexivity. }
  assert (X2 : existsb (Nat.eqb (length shape)) [2; 3]%nat = true) by (destruct L as [-> | ->]; reflexivity).
  rewrite X1, X2, D. rewrite E at 1. cbn [bind fst snd].
  apply Z.ltb_lt in H, W. rewrite H, W. cbn [andb negb].
  apply qltb_iff in M. rewrite M. cbn [negb is_float32]. change (dtype_eqb float32 float32) with true. cbn [negb].
  unfold stored, clipped, shape3, is_2d.
  destruct (np_min_spec (firstn 50 (n_flat arr))) as (lo & -> & _); [apply firstn_nonempty; [lia|exact NE]|].
  destruct (np_max_spec (firstn 50 (n_flat arr))) as (hi & -> & _); [apply firstn_nonempty; [lia|exact NE]|].
  cbn [bind]. reflexivity.
Qed.

Lemma not_clipped : forall arr mn mx, map_shape arr ->
  Forall (fun v => mn - f32_eps <= v <= mx + f32_eps) (firstn 50 (n_flat arr)) -> clipped arr mn mx = false.
Proof.
  intros arr mn mx S F. unfold clipped. pose proof (map_shape_nonempty arr S) as NE.
  destruct (np_min_spec (firstn 50 (n_flat arr))) as (lo & -> & _ & I1); [apply firstn_nonempty; [lia|exact NE]|].
  destruct (np_max_spec (firstn 50 (n_flat arr))) as (hi & -> & _ & I2); [apply firstn_nonempty; [lia|exact NE]|].
  rewrite Forall_forall in F. apply F in I1, I2. apply orb_false_iff. split; apply qltb_false; lra.
Qed.
Lemma is_clipped : forall arr mn mx v,
  In v (firstn 50 (n_flat arr)) -> v < mn - f32_eps \/ mx + f32_eps < v -> clipped arr mn mx = true.
Proof.
  intros arr mn mx v I B. unfold clipped.
  assert (NE : firstn 50 (n_flat arr) <> []) by (intro E; rewrite E in I; exact I).
  destruct (np_min_spec _ NE) as (lo & -> & F1 & _). destruct (np_max_spec _ NE) as (hi & -> & F2 & _).
  rewrite Forall_forall in F1, F2. specialize (F1 v I). specialize (F2 v I). cbn beta in F1, F2.
  apply orb_true_iff. destruct B; [left|right]; apply qltb_iff; lra.
Qed.

Lemma eps_pos : 0 < f32_eps.
Proof. reflexivity. Qed.

Lemma get_arr_shape : forall arr mn mx shape, map_shape arr ->
  let hm := mkHm (mkNd (n_dt arr) (shape3 arr) (stored arr mn mx)) shape mn mx (is_2d arr) in
  n_shape (get_arr hm) = n_shape arr /\ n_dt (get_arr hm) = n_dt arr.
Proof.
  intros arr mn mx shape S. cbn zeta. split; [|reflexivity].
  unfold get_arr, shape3, is_2d. cbn [n_shape hm_arr hm_2d].
  destruct S as [(h & w & -> & _)|(h & w & c & -> & _)]; reflexivity.
Qed.

(** The values read back are those stored, scaled back. *)
Lemma stored_back : forall arr mn mx shape, mn < mx ->
  let hm := mkHm (mkNd (n_dt arr) (shape3 arr) (stored arr mn mx)) shape mn mx (is_2d arr) in
  Forall2 Qeq (n_flat (get_arr hm))
    (if clipped arr mn mx then map (fun v => qmin (qmax v mn) mx) (n_flat arr) else n_flat arr).
Proof.
  intros arr mn mx shape M. cbn zeta. unfold get_arr, stored. cbn [n_flat hm_arr hm_min hm_max].
  set (vals := if clipped arr mn mx then _ else _).
  destruct (unit_range mn mx); [apply Forall2_Qeq_refl|].
  rewrite map_map. apply Forall2_map_l. intros x _. field. lra.
Qed.

Lemma heatmap_keeps_values : forall arr shape mn mx,
  map_shape arr -> n_dt arr = ANum float32 -> (length shape = 2 \/ length shape = 3)%nat -> mn < mx ->
  all_values (fun v => mn <= v <= mx) arr ->
  exists hm, mk_heatmap arr shape mn mx = Ok hm /\ nd_eq (get_arr hm) arr.
Proof.
  intros arr shape mn mx S D L M V. eexists. split; [apply mk_heatmap_ok; assumption|].
  destruct (get_arr_shape arr mn mx shape S) as [A B]. split; [exact B|split; [exact A|]].
  pose proof (stored_back arr mn mx shape M) as F. cbn zeta in F.
  rewrite not_clipped in F; [exact F|exact S|].
  apply Forall_firstn'. apply Forall_impl with (2 := V). intros v Hv. pose proof eps_pos. lra.
Qed.

Lemma heatmap_clips : forall arr shape mn mx v,
  map_shape arr -> n_dt arr = ANum float32 -> (length shape = 2 \/ length shape = 3)%nat -> mn < mx ->
  In v (firstn 50 (n_flat arr)) -> v < mn - f32_eps \/ mx + f32_eps < v ->
  exists hm, mk_heatmap arr shape mn mx = Ok hm /\
    n_shape (get_arr hm) = n_shape arr /\ n_dt (get_arr hm) = n_dt arr /\
    Forall2 (moved_into mn mx) (n_flat arr) (n_flat (get_arr hm)).
Proof.
  intros arr shape mn mx v S D L M I B. eexists. split; [apply mk_heatmap_ok; assumption|].
  destruct (get_arr_shape arr mn mx shape S) as [A1 A2]. split; [exact A1|split; [exact A2|]].
  pose proof (stored_back arr mn mx shape M) as F. cbn zeta in F.
  rewrite (is_clipped _ _ _ _ I B) in F.
  clear A1 A2 I B. revert F. match goal with |- Forall2 Qeq ?o _ -> _ => generalize o end. intros out F.
  revert out F. generalize (n_flat arr) as l.
  induction l as [|x l IH]; intros out F; inversion F; subst; constructor; [|apply IH; assumption].
  unfold moved_into. qminmax; lra.
Qed.

(** ** Inverting *)
Lemma stored_unit : forall arr mn mx, map_shape arr -> mn < mx ->
  all_values (fun v => mn <= v <= mx) arr ->
  Forall (fun v => - f32_eps <= v <= 1 + f32_eps) (stored arr mn mx).
Proof.
  intros arr mn mx S M V. unfold stored. rewrite not_clipped; [|exact S|].
  - destruct (unit_range mn mx) eqn:U.
    + unfold unit_range, min_is_zero, max_is_one in U.
      apply andb_prop in U as [U1 U2]. apply andb_prop in U1 as [U1 _]. apply andb_prop in U2 as [_ U2].
      apply qltb_iff in U1, U2. apply Forall_impl with (2 := V). intros v Hv. lra.
    + apply Forall_forall. intros x I. apply in_map_iff in I as (v & <- & I).
      unfold all_values in V. rewrite Forall_forall in V. specialize (V v I).
      assert (0 < mx - mn) by lra. pose proof eps_pos.
      assert (0 <= (v - mn) / (mx - mn)) by (apply Qle_shift_div_l; lra).
      assert ((v - mn) / (mx - mn) <= 1) by (apply Qle_shift_div_r; lra). lra.
  - apply Forall_firstn'. apply Forall_impl with (2 := V). intros v Hv. pose proof eps_pos. lra.
Qed.

(** A heatmap as built by the constructor: 3d with the right number of
    components, values in the unit interval. *)
Definition good (hm : heatmap) : Prop :=
  n_dt (hm_arr hm) = ANum float32 /\ map_shape (hm_arr hm) /\ length (n_shape (hm_arr hm)) = 3%nat /\
  Forall (fun v => - f32_eps <= v <= 1 + f32_eps) (n_flat (hm_arr hm)) /\
  (length (hm_shape hm) = 2 \/ length (hm_shape hm) = 3)%nat /\ hm_min hm < hm_max hm /\
  (hm_2d hm = true -> nth 2 (n_shape (hm_arr hm)) 0%Z = 1%Z).

Lemma mk_good : forall arr shape mn mx,
  map_shape arr -> n_dt arr = ANum float32 -> (length shape = 2 \/ length shape = 3)%nat -> mn < mx ->
  all_values (fun v => mn <= v <= mx) arr ->
  exists hm, mk_heatmap arr shape mn mx = Ok hm /\ nd_eq (get_arr hm) arr /\ good hm.
Proof.
  intros arr shape mn mx S D L M V.
  destruct (heatmap_keeps_values arr shape mn mx S D L M V) as (hm & E & G).
  exists hm. split; [exact E|split; [exact G|]].
  rewrite mk_heatmap_ok in E by assumption. injection E as <-. unfold good. cbn [hm_arr n_dt n_shape n_flat hm_shape hm_min hm_max hm_2d].
  assert (LS : length (stored arr mn mx) = length (n_flat arr)).
  { unfold stored. destruct (unit_range mn mx), (clipped arr mn mx); rewrite ?map_length; reflexivity. }
  split; [exact D|]. split.
  - unfold map_shape, shape3, is_2d. cbn [n_shape n_flat]. rewrite LS. right.
    destruct S as [(h & w & -> & H & W & N)|(h & w & c & -> & H & W & C & N)]; cbn.
    + exists h, w, 1%Z. split; [reflexivity|]. lia.
    + exists h, w, c. split; [reflexivity|]. lia.
  - split; [unfold shape3, is_2d; destruct S as [(h & w & -> & _)|(h & w & c & -> & _)]; reflexivity|].
    split; [apply stored_unit; assumption|]. split; [exact L|split; [exact M|]].
    unfold shape3, is_2d. destruct S as [(h & w & -> & _)|(h & w & c & -> & _)]; [reflexivity|discriminate].
Qed.

Lemma unit_range_01 : unit_range 0 1 = true.
Proof. reflexivity. Qed.

Lemma from_0to1_id : forall a shape mn mx,
  map_shape a -> n_dt a = ANum float32 -> length (n_shape a) = 3%nat ->
  (length shape = 2 \/ length shape = 3)%nat -> Forall (fun v => - f32_eps <= v <= 1 + f32_eps) (n_flat a) ->
  from_0to1 a shape mn mx = Ok (mkHm (mkNd (n_dt a) (n_shape a) (n_flat a)) shape mn mx false).
Proof.
  intros a shape mn mx S D L3 L F. unfold from_0to1.
  rewrite mk_heatmap_ok by (assumption || reflexivity). cbn [bind hm_arr hm_shape hm_2d].
  unfold stored. rewrite not_clipped; [|exact S|].
  - rewrite unit_range_01. unfold shape3, is_2d. rewrite L3. reflexivity.
  - apply Forall_firstn'. apply Forall_impl with (2 := F). intros v Hv. pose proof eps_pos. lra.
Qed.

Lemma invert_good : forall hm, good hm ->
  exists hm', invert hm = Ok hm' /\ good hm' /\
    hm_arr hm' = mkNd (n_dt (hm_arr hm)) (n_shape (hm_arr hm)) (map (fun v => 1 - v) (n_flat (hm_arr hm))) /\
    hm_min hm' = hm_min hm /\ hm_max hm' = hm_max hm /\ hm_2d hm' = hm_2d hm /\ hm_shape hm' = hm_shape hm.
Proof.
  intros hm (D & S & L3 & F & L & M & W). unfold invert.
  assert (F' : Forall (fun v => - f32_eps <= v <= 1 + f32_eps) (map (fun v => 1 - v) (n_flat (hm_arr hm)))).
  { apply Forall_forall. intros x I. apply in_map_iff in I as (v & <- & I).
    rewrite Forall_forall in F. specialize (F v I). cbn beta in F. lra. }
  assert (S' : map_shape (mkNd (n_dt (hm_arr hm)) (n_shape (hm_arr hm)) (map (fun v => 1 - v) (n_flat (hm_arr hm))))).
  { unfold map_shape in *. cbn [n_shape n_flat]. rewrite map_length. exact S. }
  rewrite from_0to1_id by assumption. cbn [bind n_dt n_shape n_flat hm_arr hm_shape hm_min hm_max].
  eexists. split; [reflexivity|]. cbn [n_dt n_shape n_flat hm_arr hm_shape hm_min hm_max hm_2d].
  split; [|split; [reflexivity|repeat split]].
  unfold good. cbn [n_dt n_shape n_flat hm_arr hm_shape hm_min hm_max hm_2d].
  exact (conj D (conj S' (conj L3 (conj F' (conj L (conj M W)))))).
Qed.

Lemma invert_twice : forall arr shape mn mx,
  map_shape arr -> n_dt arr = ANum float32 -> (length shape = 2 \/ length shape = 3)%nat -> mn < mx ->
  all_values (fun v => mn <= v <= mx) arr ->
  exists hm h1 h2, mk_heatmap arr shape mn mx = Ok hm /\ invert hm = Ok h1 /\ invert h1 = Ok h2 /\
    nd_eq (get_arr h2) arr /\
    n_shape (get_arr h1) = n_shape arr /\
    (f32_eps <= mn \/ mn <= - f32_eps \/ 1 + f32_eps <= mx \/ mx <= 1 - f32_eps \/ mn == 0 /\ mx == 1 ->
     Forall2 (fun v r => r == mn + mx - v) (n_flat arr) (n_flat (get_arr h1))).
Proof.
  intros arr shape mn mx S D L M V.
  destruct (mk_good arr shape mn mx S D L M V) as (hm & E & G & Gd).
  destruct (invert_good hm Gd) as (h1 & E1 & G1 & A1 & MN1 & MX1 & W1 & SH1).
  destruct (invert_good h1 G1) as (h2 & E2 & G2 & A2 & MN2 & MX2 & W2 & SH2).
  exists hm, h1, h2. split; [exact E|split; [exact E1|split; [exact E2|]]].
  destruct G as (Gd1 & Gs & Gv).
  assert (Em : hm_min hm = mn /\ hm_max hm = mx).
  { rewrite mk_heatmap_ok in E by assumption. injection E as <-. split; reflexivity. }
  destruct Em as [Em Ex].
  split; [|split].
  - unfold nd_eq. unfold get_arr in *. cbn [n_dt n_shape n_flat] in *.
    rewrite A2, A1. cbn [n_dt n_shape n_flat]. rewrite MN2, MN1, MX2, MX1, W2, W1, map_map.
    split; [exact Gd1|split; [exact Gs|]].
    set (l := n_flat (hm_arr hm)) in *. clearbody l.
    destruct (unit_range (hm_min hm) (hm_max hm)); cbn beta iota in *.
    + clear - Gv. induction Gv; cbn [map]; constructor; [lra|assumption].
    + rewrite map_map. clear - Gv. revert Gv. generalize (n_flat arr) as r. induction l as [|x l IH]; intros r G; inversion G; subst; cbn [map]; constructor.
      * rewrite <- H1. ring.
      * apply IH. assumption.
  - rewrite <- Gs. unfold get_arr. cbn [n_shape]. rewrite A1, W1. reflexivity.
  - intro U0.
    assert (U : unit_range mn mx = false \/ (mn == 0 /\ mx == 1)).
    { destruct (unit_range mn mx) eqn:UR; [|left; reflexivity].
      unfold unit_range, min_is_zero, max_is_one in UR. apply andb_prop in UR as [R1 R2].
      apply andb_prop in R1 as [R1 R1']. apply andb_prop in R2 as [R2 R2'].
      apply qltb_iff in R1, R1', R2, R2'. destruct U0 as [U0|[U0|[U0|[U0|U0]]]]; try (exfalso; lra). right. exact U0. }
    unfold get_arr in *. cbn [n_flat n_dt n_shape] in *. rewrite A1, MN1, MX1. cbn [n_flat].
    rewrite Em, Ex in *. set (l := n_flat (hm_arr hm)) in *. clearbody l.
    destruct (unit_range mn mx) eqn:UR; cbn beta iota in *.
    + destruct U as [U|[U1 U2]]; [discriminate U|]. clear - Gv U1 U2. induction Gv; cbn [map]; constructor; [lra|assumption].
    + rewrite map_map. clear - Gv. revert Gv. generalize (n_flat arr) as r.
      induction l as [|x l IH]; intros r G; inversion G; subst; cbn [map]; constructor.
      * rewrite <- H1. ring.
      * apply IH. assumption.
Qed.

Lemma deepcopy_same : forall arr shape mn mx,
  map_shape arr -> n_dt arr = ANum float32 -> (length shape = 2 \/ length shape = 3)%nat -> mn < mx ->
  all_values (fun v => mn <= v <= mx) arr ->
  exists hm h', mk_heatmap arr shape mn mx = Ok hm /\ hm_deepcopy hm = Ok h' /\ nd_eq (get_arr h') arr /\
    hm_shape h' = shape /\ hm_min h' = mn /\ hm_max h' = mx.
Proof.
  intros arr shape mn mx S D L M V.
  destruct (heatmap_keeps_values arr shape mn mx S D L M V) as (hm & E & (G1 & G2 & G3)).
  exists hm.
  assert (Em : hm_min hm = mn /\ hm_max hm = mx /\ hm_shape hm = shape).
  { rewrite mk_heatmap_ok in E by assumption. injection E as <-. repeat split. }
  destruct Em as (Em & Ex & Es).
  assert (Len : length (n_flat (get_arr hm)) = length (n_flat arr)).
  { clear - G3. induction G3; cbn; congruence. }
  assert (S' : map_shape (get_arr hm)) by (unfold map_shape in *; rewrite G2, Len; exact S).
  assert (V' : all_values (fun v => mn <= v <= mx) (get_arr hm)).
  { unfold all_values in *. clear - V G3. revert V. induction G3; intro V; inversion V; subst; constructor; [lra|auto]. }
  destruct (heatmap_keeps_values (get_arr hm) shape mn mx S' (eq_trans G1 D) L M V') as (h' & E' & (K1 & K2 & K3)).
  exists h'. split; [exact E|]. split; [unfold hm_deepcopy; rewrite Em, Ex, Es; exact E'|].
  split; [|rewrite mk_heatmap_ok in E' by (assumption || (rewrite G1; exact D)); injection E' as <-; repeat split].
  split; [congruence|split; [congruence|]].
  clear - K3 G3. revert K3. generalize (n_flat (get_arr h')) as l. revert G3.
  generalize (n_flat (get_arr hm)) as m. intros m G l K. revert G. generalize (n_flat arr) as r.
  induction K; intros r G; inversion G; subst; constructor; [etransitivity; eassumption|auto].
Qed.

(** ** uint8 *)
Definition byte_back (z : Z) : bool :=
  (zclip (np_round (f32 (f32 (inject_Z z / 255) * 255))) 0 255 =? z)%Z && qleb 0 (f32 (inject_Z z / 255)) && qleb (f32 (inject_Z z / 255)) 1.
Lemma byte_back_all : forall z, (0 <= z <= 255)%Z -> byte_back z = true.
Proof.
  assert (H : forallb byte_back (map Z.of_nat (seq 0 256)) = true) by (vm_compute; reflexivity).
  intros z Hz. rewrite forallb_forall in H. apply H. apply in_map_iff. exists (Z.to_nat z).
  split; [lia|]. apply in_seq. lia.
Qed.

Lemma uint8_round_trip : forall arr shape mn mx,
  map_shape arr -> (length shape = 2 \/ length shape = 3)%nat -> mn < mx ->
  Forall (fun v => exists z, v = inject_Z z /\ (0 <= z <= 255)%Z) (n_flat arr) ->
  exists hm, from_uint8 arr shape mn mx = Ok hm /\ n_flat (to_uint8 hm) = n_flat arr /\
    n_shape (to_uint8 hm) = (if Nat.eqb (length (n_shape arr)) 2 then n_shape arr ++ [1%Z] else n_shape arr) /\
    n_dt (to_uint8 hm) = ANum (DU 8).
Proof.
  intros arr shape mn mx S L M F. unfold from_uint8, from_0to1.
  set (a := mkNd (ANum float32) (n_shape arr) (map (fun v => f32 (v / 255)) (n_flat arr))).
  assert (S' : map_shape a) by (unfold map_shape, a in *; cbn [n_shape n_flat]; rewrite map_length; exact S).
  rewrite mk_heatmap_ok by (assumption || reflexivity). cbn [bind].
  eexists. split; [reflexivity|]. cbn [to_uint8 n_flat n_shape n_dt hm_arr].
  split; [|split; [reflexivity|reflexivity]].
  unfold stored. rewrite not_clipped; [|exact S'|].
  - rewrite unit_range_01. unfold a. cbn [n_flat]. rewrite map_map.
    clear - F. induction F as [|v l (z & -> & Z1) F IH]; cbn [map]; [reflexivity|]. f_equal; [|exact IH].
    pose proof (byte_back_all z Z1) as B. unfold byte_back in B. apply andb_prop in B as [B _]. apply andb_prop in B as [B _].
    apply Z.eqb_eq in B. rewrite B. reflexivity.
  - apply Forall_firstn'. unfold a. cbn [n_flat]. apply Forall_forall. intros x I.
    apply in_map_iff in I as (v & <- & I). rewrite Forall_forall in F. destruct (F v I) as (z & -> & Z1).
    pose proof (byte_back_all z Z1) as B. unfold byte_back in B. apply andb_prop in B as [B B2]. apply andb_prop in B as [_ B1].
    apply qleb_iff in B1, B2. pose proof eps_pos. lra.
Qed.

(** ** change_normalization *)
Lemma normalization_there_and_back : forall vals s t,
  fst s < snd s -> fst t < snd t ->
  exists there back, change_normalization vals s t = Ok there /\ change_normalization there t s = Ok back /\
    Forall2 Qeq back vals.
Proof.
  intros vals s t S T. unfold change_normalization.
  assert (S' := S). assert (T' := T). apply qltb_iff in S', T'. rewrite S', T'. cbn [negb].
  set (near := fun a b => qltb (a - 10 * f32_eps) b && qltb b (a + 10 * f32_eps)).
  change (qltb (fst s - 10 * f32_eps) (fst t) && qltb (fst t) (fst s + 10 * f32_eps)) with (near (fst s) (fst t)).
  change (qltb (snd s - 10 * f32_eps) (snd t) && qltb (snd t) (snd s + 10 * f32_eps)) with (near (snd s) (snd t)).
  change (qltb (fst t - 10 * f32_eps) (fst s) && qltb (fst s) (fst t + 10 * f32_eps)) with (near (fst t) (fst s)).
  change (qltb (snd t - 10 * f32_eps) (snd s) && qltb (snd s) (snd t + 10 * f32_eps)) with (near (snd t) (snd s)).
  assert (Sym : forall a b, near a b = near b a).
  { intros a b. unfold near.
    destruct (qltb (a - 10 * f32_eps) b) eqn:A, (qltb b (a + 10 * f32_eps)) eqn:B,
             (qltb (b - 10 * f32_eps) a) eqn:C, (qltb a (b + 10 * f32_eps)) eqn:D;
      repeat match goal with H : qltb _ _ = true |- _ => apply qltb_iff in H
                           | H : qltb _ _ = false |- _ => apply qltb_false in H end;
      cbn [andb]; try reflexivity; exfalso; lra. }
  rewrite (Sym (fst t)), (Sym (snd t)).
  destruct (near (fst s) (fst t) && near (snd s) (snd t)).
  - exists vals, vals. split; [reflexivity|split; [reflexivity|apply Forall2_Qeq_refl]].
  - do 2 eexists. split; [reflexivity|split; [reflexivity|]].
    rewrite map_map. apply Forall2_map_l. intros x _. field. split; lra.
Qed.

Lemma normalization_linear : forall vals s t r,
  change_normalization vals s t = Ok r -> fst s < snd s -> fst t < snd t ->
  ~ (-10 * f32_eps < fst t - fst s < 10 * f32_eps /\ -10 * f32_eps < snd t - snd s < 10 * f32_eps) ->
  Forall2 (fun v w => (w - fst t) * (snd s - fst s) == (v - fst s) * (snd t - fst t)) vals r.
Proof.
  intros vals s t r E S T N. unfold change_normalization in E.
  assert (S' := S). assert (T' := T). apply qltb_iff in S', T'. rewrite S', T' in E. cbn [negb] in E.
  destruct (_ && _ && _) eqn:B in E.
  - exfalso. apply N. apply andb_prop in B as [B1 B2]. apply andb_prop in B1 as [B1 B1']. apply andb_prop in B2 as [B2 B2'].
    apply qltb_iff in B1, B1', B2, B2'. lra.
  - injection E as <-. apply Forall2_map_r. intros x _. field. lra.
Qed.

(** * Segmentation maps *)
Lemma astype_back : forall d v, segmap_dtype d -> value_of d v -> astype_from_int32 d v = v.
Proof.
  intros d v D V. destruct D as [-> | [-> | [-> | [-> | [-> | ->]]]]]; cbn [value_of astype_from_int32] in *.
  - destruct V as [-> | ->]; reflexivity.
  - destruct V as (z & -> & Z1). rewrite py_int_Z. rewrite Z.mod_small by exact Z1. reflexivity.
  - destruct V as (z & -> & Z1). rewrite py_int_Z. rewrite Z.mod_small by exact Z1. reflexivity.
  - destruct V as (z & -> & Z1). rewrite py_int_Z, Z.mod_small by (cbn in *; lia). f_equal. lia.
  - destruct V as (z & -> & Z1). rewrite py_int_Z, Z.mod_small by (cbn in *; lia). f_equal. lia.
  - destruct V as (z & -> & Z1). rewrite py_int_Z, Z.mod_small by (cbn in *; lia). f_equal. lia.
Qed.
Lemma map_astype_back : forall d l, segmap_dtype d -> Forall (value_of d) l -> map (astype_from_int32 d) l = l.
Proof.
  intros d l D F. induction F as [|v l V F IH]; cbn [map]; [reflexivity|].
  rewrite astype_back by assumption. now rewrite IH.
Qed.

(** Acceptance of non-float arrays. *)
Lemma mk_segmap_int : forall arr shape, segmap_dtype (n_dt arr) -> map_shape arr ->
  (n_dt arr <> ABool -> Forall (fun v => 0 <= v) (firstn 100 (n_flat arr))) ->
  mk_segmap arr shape =
  Ok (mkSeg (mkNd (ANum (DI 32)) (shape3 arr) (n_flat arr)) shape (n_dt arr) (length (n_shape arr))).
Proof.
  intros arr shape D S N. unfold mk_segmap.
  assert (X : existsb (Nat.eqb (length (n_shape arr))) [2; 3]%nat = true).
  { destruct S as [(h & w & -> & _)|(h & w & c & -> & _)]; reflexivity. }
  rewrite X. cbn [negb].
  assert (E : match n_dt arr with ANum (DF _ _) => from_float arr | _ => Ok arr end = Ok arr).
  { destruct D as [-> | [-> | [-> | [-> | [-> | ->]]]]]; reflexivity. }
  rewrite E. cbn [bind].
  assert (C : match n_dt arr with
            | ABool => Ok tt
            | ANum d =>
                do m <- np_min (firstn 100 (n_flat arr));
                if negb (qleb 0 m) then Err AssertionError
                else match d with
                     | DU b => if (b <=? 16)%Z then Ok tt else Err AssertionError
                     | DI b => if (b <=? 32)%Z then Ok tt else Err AssertionError
                     | DF _ _ => Err GenericException
                     end
            | AObj => Err GenericException
            end = Ok tt).
  { destruct (n_dt arr) as [|d|] eqn:ED; [reflexivity| |destruct D as [D|[D|[D|[D|[D|D]]]]]; discriminate D].
    specialize (N ltac:(discriminate)).
    destruct (np_min_spec (firstn 100 (n_flat arr))) as (m & -> & _ & I).
    { apply firstn_nonempty; [lia|apply map_shape_nonempty; exact S]. }
    rewrite Forall_forall in N. apply N in I. apply qleb_iff in I. cbn [bind]. rewrite I. cbn [negb].
    destruct D as [D|[D|[D|[D|[D|D]]]]]; try discriminate D; injection D as ->; reflexivity. }
  rewrite C. reflexivity.
Qed.

Lemma seg_get_back : forall arr shape, segmap_dtype (n_dt arr) -> map_shape arr ->
  Forall (value_of (n_dt arr)) (n_flat arr) ->
  seg_get_arr (mkSeg (mkNd (ANum (DI 32)) (shape3 arr) (n_flat arr)) shape (n_dt arr) (length (n_shape arr))) = Ok arr.
Proof.
  intros [dt sh fl] shape D S V. cbn [n_dt n_shape n_flat] in *. unfold seg_get_arr.
  cbn [sg_arr sg_dt sg_ndim n_shape n_flat]. rewrite map_astype_back by assumption.
  unfold shape3, is_2d. cbn [n_shape].
  destruct S as [(h & w & E & _)|(h & w & c & E & _)]; cbn [n_shape] in E; subst sh; reflexivity.
Qed.

Lemma segmap_keeps_ids : forall arr shape, segmap_dtype (n_dt arr) -> map_shape arr ->
  Forall (value_of (n_dt arr)) (n_flat arr) -> all_values (fun v => 0 <= v) arr ->
  exists s, mk_segmap arr shape = Ok s /\ seg_get_arr s = Ok arr.
Proof.
  intros arr shape D S V P. eexists. split.
  - apply mk_segmap_int; [exact D|exact S|]. intros _. apply Forall_firstn'. exact P.
  - apply seg_get_back; assumption.
Qed.

Lemma value_of_nonneg_bool : forall v, value_of ABool v -> 0 <= v.
Proof. intros v [-> | ->]; lra. Qed.

(** Whatever is accepted comes back unchanged, also when values after the
    first hundred are negative. *)
Lemma segmap_accepted_comes_back : forall arr shape s, segmap_dtype (n_dt arr) -> map_shape arr ->
  Forall (value_of (n_dt arr)) (n_flat arr) -> mk_segmap arr shape = Ok s -> seg_get_arr s = Ok arr.
Proof.
  intros arr shape s D S V E.
  assert (N : n_dt arr <> ABool -> Forall (fun v => 0 <= v) (firstn 100 (n_flat arr))).
  { intro NB. unfold mk_segmap in E.
    destruct (negb _); [discriminate E|].
    assert (E' : match n_dt arr with ANum (DF _ _) => from_float arr | _ => Ok arr end = Ok arr).
    { destruct D as [-> | [-> | [-> | [-> | [-> | ->]]]]]; reflexivity. }
    rewrite E' in E. cbn [bind] in E.
    destruct (n_dt arr) as [|d|] eqn:ED; [congruence| |destruct D as [D|[D|[D|[D|[D|D]]]]]; discriminate D].
    destruct (np_min_spec (firstn 100 (n_flat arr))) as (m & Em & F & _).
    { apply firstn_nonempty; [lia|apply map_shape_nonempty; exact S]. }
    rewrite Em in E. cbn [bind] in E. destruct (qleb 0 m) eqn:Q0; cbn [negb] in E; [|discriminate E].
    apply qleb_iff in Q0. apply Forall_impl with (2 := F). intros v Hv. lra. }
  rewrite mk_segmap_int in E by assumption. injection E as <-. apply seg_get_back; assumption.
Qed.

Lemma segmap_negative_raises : forall arr shape d v, n_dt arr = ANum d ->
  (match d with DF _ _ => False | _ => True end) -> map_shape arr ->
  In v (firstn 100 (n_flat arr)) -> v < 0 -> mk_segmap arr shape = Err AssertionError.
Proof.
  intros arr shape d v D ND S I V. unfold mk_segmap.
  assert (X : existsb (Nat.eqb (length (n_shape arr))) [2; 3]%nat = true).
  { destruct S as [(h & w & -> & _)|(h & w & c & -> & _)]; reflexivity. }
  rewrite X. cbn [negb]. rewrite D.
  assert (E : match d with DF _ _ => from_float arr | _ => Ok arr end = Ok arr) by (destruct d; [reflexivity|reflexivity|contradiction]).
  rewrite E. cbn [bind]. rewrite D.
  destruct (np_min_spec (firstn 100 (n_flat arr))) as (m & -> & F & _).
  { apply firstn_nonempty; [lia|apply map_shape_nonempty; exact S]. }
  rewrite Forall_forall in F. specialize (F v I). cbn beta in F. cbn [bind].
  destruct (qleb 0 m) eqn:Q; [apply qleb_iff in Q; lra|reflexivity].
Qed.

Lemma segmap_wide_raises : forall arr shape d, n_dt arr = ANum d -> map_shape arr ->
  (exists b, (d = DU b /\ (16 < b)%Z) \/ (d = DI b /\ (32 < b)%Z)) -> mk_segmap arr shape = Err AssertionError.
Proof.
  intros arr shape d D S B. unfold mk_segmap.
  assert (X : existsb (Nat.eqb (length (n_shape arr))) [2; 3]%nat = true).
  { destruct S as [(h & w & -> & _)|(h & w & c & -> & _)]; reflexivity. }
  rewrite X. cbn [negb]. rewrite D.
  assert (E : match d with DF _ _ => from_float arr | _ => Ok arr end = Ok arr).
  { destruct B as (b & [[-> _]|[-> _]]); reflexivity. }
  rewrite E. cbn [bind]. rewrite D.
  destruct (np_min_spec (firstn 100 (n_flat arr))) as (m & -> & F & _).
  { apply firstn_nonempty; [lia|apply map_shape_nonempty; exact S]. }
  cbn [bind]. destruct (negb (qleb 0 m)); [reflexivity|].
  destruct B as (b & [[-> B]|[-> B]]); apply Z.leb_gt in B; rewrite B; reflexivity.
Qed.

(** ** Copies *)
Lemma shape3_map_shape : forall arr, map_shape arr ->
  map_shape (mkNd (ANum (DI 32)) (shape3 arr) (n_flat arr)) /\ length (shape3 arr) = 3%nat.
Proof.
  intros arr S. unfold map_shape, shape3, is_2d. cbn [n_shape n_flat].
  destruct S as [(h & w & E & H & W & L)|(h & w & c & E & H & W & C & L)]; rewrite E; cbn [length Nat.eqb app].
  - split; [|reflexivity]. right. exists h, w, 1%Z. split; [reflexivity|]. lia.
  - split; [|reflexivity]. right. exists h, w, c. split; [reflexivity|]. lia.
Qed.

Lemma seg_copy_same : forall arr shape, segmap_dtype (n_dt arr) -> map_shape arr ->
  Forall (value_of (n_dt arr)) (n_flat arr) -> all_values (fun v => 0 <= v) arr ->
  exists s c, mk_segmap arr shape = Ok s /\ seg_copy s None = Ok c /\ seg_get_arr c = Ok arr /\ c = s.
Proof.
  intros arr shape D S V P.
  assert (E : mk_segmap arr shape =
    Ok (mkSeg (mkNd (ANum (DI 32)) (shape3 arr) (n_flat arr)) shape (n_dt arr) (length (n_shape arr)))).
  { apply mk_segmap_int; [exact D|exact S|]. intros _. apply Forall_firstn'. exact P. }
  eexists. exists (mkSeg (mkNd (ANum (DI 32)) (shape3 arr) (n_flat arr)) shape (n_dt arr) (length (n_shape arr))).
  split; [exact E|]. destruct (shape3_map_shape arr S) as [S3 L3].
  split; [|split; [apply seg_get_back; assumption|reflexivity]].
  unfold seg_copy. cbn [sg_arr sg_shape sg_dt sg_ndim].
  rewrite mk_segmap_int; [|right; right; right; right; right; reflexivity|exact S3|intros _; apply Forall_firstn'; exact P].
  cbn [bind sg_arr sg_shape]. unfold shape3 at 1, is_2d. cbn [n_shape n_flat]. rewrite L3. reflexivity.
Qed.

(** Another internal array: the dtype and number of dimensions stay. *)
Lemma seg_copy_other : forall s a c, map_shape a -> n_dt a = ANum (DI 32) -> length (n_shape a) = 3%nat ->
  Forall (value_of (sg_dt s)) (n_flat a) -> segmap_dtype (sg_dt s) ->
  sg_ndim s = 2%nat \/ sg_ndim s = 3%nat ->
  (sg_ndim s = 2%nat -> nth 2 (n_shape a) 0%Z = 1%Z) ->
  seg_copy s (Some a) = Ok c ->
  exists r, seg_get_arr c = Ok r /\ n_dt r = sg_dt s /\ length (n_shape r) = sg_ndim s /\ n_flat r = n_flat a /\
            firstn 2 (n_shape r) = firstn 2 (n_shape a).
Proof.
  intros s a c S D L V SD ND C1 E. unfold seg_copy in E.
  destruct (mk_segmap a (sg_shape s)) as [c'|e] eqn:M; [|discriminate E]. cbn [bind] in E. injection E as <-.
  assert (A : sg_arr c' = mkNd (ANum (DI 32)) (n_shape a) (n_flat a)).
  { unfold mk_segmap in M. rewrite L, D in M. cbn [existsb Nat.eqb negb orb bind] in M. rewrite D in M.
    destruct (np_min (firstn 100 (n_flat a))) as [m|]; [|discriminate M]. cbn [bind] in M.
    destruct (negb (qleb 0 m)); [discriminate M|]. cbn in M. rewrite L in M. injection M as <-. reflexivity. }
  unfold seg_get_arr. cbn [sg_arr sg_dt sg_ndim]. rewrite A. cbn [n_flat n_shape].
  rewrite map_astype_back by assumption.
  destruct (n_shape a) as [|h [|w [|ch [|]]]] eqn:NS; try discriminate L.
  destruct ND as [N2|N3].
  - specialize (C1 N2). cbn in C1. subst ch. rewrite N2. cbn. eexists. split; [reflexivity|]. cbn. repeat split.
  - rewrite N3. cbn. eexists. split; [reflexivity|]. cbn. repeat split.
Qed.

(** ** Floats *)
Lemma argmax_from_spec : forall l pre best bi i,
  Z.of_nat (length pre) = i -> (0 <= bi < i)%Z -> nth (Z.to_nat bi) pre 0 = best ->
  (forall k, (k < length pre)%nat -> nth k pre 0 <= best) ->
  (forall k, (k < Z.to_nat bi)%nat -> nth k pre 0 < best) ->
  first_largest (pre ++ l) (argmax_from best bi i l).
Proof.
  induction l as [|x l IH]; intros pre best bi i L B N M F; cbn [argmax_from].
  - rewrite app_nil_r. split; [lia|]. rewrite N. split; assumption.
  - replace (pre ++ x :: l) with ((pre ++ [x]) ++ l) by (rewrite <- app_assoc; reflexivity).
    assert (LX : Z.of_nat (length (pre ++ [x])) = (i + 1)%Z) by (rewrite app_length; cbn; lia).
    assert (NX : nth (Z.to_nat i) (pre ++ [x]) 0 = x).
    { rewrite app_nth2 by lia. replace (Z.to_nat i - length pre)%nat with 0%nat by lia. reflexivity. }
    assert (NP : forall k, (k < length pre)%nat -> nth k (pre ++ [x]) 0 = nth k pre 0) by (intros k K; apply app_nth1; exact K).
    assert (CASE : forall k, (k < length (pre ++ [x]))%nat -> (k < length pre)%nat \/ k = Z.to_nat i) by (rewrite app_length; cbn; lia).
    destruct (qltb best x) eqn:Q; [apply qltb_iff in Q|apply qltb_false in Q].
    + apply IH; [exact LX|lia|exact NX| |].
      * intros k K. destruct (CASE k K) as [K'| ->]; [rewrite NP by exact K'; specialize (M k K'); lra|rewrite NX; lra].
      * intros k K. assert (K' : (k < length pre)%nat) by lia. rewrite NP by exact K'. specialize (M k K'). lra.
    + apply IH; [exact LX|lia|rewrite NP by lia; exact N| |].
      * intros k K. destruct (CASE k K) as [K'| ->]; [rewrite NP by exact K'; exact (M k K')|rewrite NX; exact Q].
      * intros k K. rewrite NP by lia. apply F. exact K.
Qed.
Lemma np_argmax_spec : forall p, p <> [] -> first_largest p (np_argmax p).
Proof.
  intros [|x l] H; [congruence|]. cbn [np_argmax].
  apply (argmax_from_spec l [x] x 0%Z 1%Z); [reflexivity|lia|reflexivity| |].
  - intros [|k] K; cbn in *; [lra|lia].
  - intros k K. cbn in K. lia.
Qed.

Lemma pixels_spec : forall c n fuel l, (0 < c)%nat -> length l = (n * c)%nat -> (n <= fuel)%nat ->
  length (pixels fuel c l) = n /\ concat (pixels fuel c l) = l /\ Forall (fun p => length p = c) (pixels fuel c l).
Proof.
  intros c n. induction n as [|n IH]; intros fuel l C L F.
  - destruct l; [|discriminate L]. destruct fuel; cbn; repeat split; constructor.
  - destruct fuel as [|f]; [lia|]. destruct l as [|x l]; [cbn in L; lia|].
    cbn [pixels]. set (l0 := x :: l) in *.
    destruct (IH f (skipn c l0) C) as (A & B & D); [rewrite skipn_length, L; cbn; lia|lia|].
    split; [cbn; lia|]. split; [cbn [concat]; rewrite B; apply firstn_skipn|].
    constructor; [rewrite firstn_length, L; cbn; lia|exact D].
Qed.

Lemma np_min_nonneg : forall l, l <> [] -> Forall (fun v => 0 <= v) l ->
  exists m, np_min l = Ok m /\ qleb 0 m = true.
Proof.
  intros l N F. destruct (np_min_spec l N) as (m & E & _ & I). exists m. split; [exact E|].
  rewrite Forall_forall in F. apply qleb_iff. apply F. exact I.
Qed.

Lemma segmap_float_2d : forall arr shape p e h w, n_dt arr = ANum (DF p e) ->
  n_shape arr = [h; w] ->
  exists s r, mk_segmap arr shape = Ok s /\ seg_get_arr s = Ok r /\ n_dt r = ABool /\ n_shape r = [h; w] /\
    Forall2 (fun v b => (v <= 1 # 2 -> b = 0) /\ (1 # 2 < v -> b = 1)) (n_flat arr) (n_flat r).
Proof.
  intros arr shape p e h w D S. unfold mk_segmap, from_float. rewrite D, S. cbn.
  do 2 eexists. split; [reflexivity|]. cbn. split; [reflexivity|]. cbn. split; [reflexivity|split; [reflexivity|]].
  rewrite map_map. apply Forall2_map_r. intros x _. lcase x (1 # 2).
  - destruct (qltb (1 # 2) x) eqn:Q; [apply qltb_iff in Q; lra|]. split; [reflexivity|lra].
  - destruct (qltb (1 # 2) x) eqn:Q; [|apply qltb_false in Q; lra]. split; [lra|reflexivity].
Qed.

Lemma segmap_float_3d : forall arr shape p e h w c, n_dt arr = ANum (DF p e) ->
  n_shape arr = [h; w; c] -> (0 < h -> 0 < w -> 0 < c < 2 ^ 31 ->
  Z.of_nat (length (n_flat arr)) = h * w * c ->
  exists s r ps, mk_segmap arr shape = Ok s /\ seg_get_arr s = Ok r /\ n_dt r = ANum (DI 32) /\ n_shape r = [h; w] /\
    concat ps = n_flat arr /\ Z.of_nat (length ps) = h * w /\ Forall (fun p => Z.of_nat (length p) = c) ps /\
    Forall2 (fun p v => exists i, v = inject_Z i /\ first_largest p i) ps (n_flat r))%Z.
Proof.
  intros arr shape p e h w c D S H W C L.
  set (ps := pixels (length (n_flat arr)) (Z.to_nat c) (n_flat arr)).
  destruct (pixels_spec (Z.to_nat c) (Z.to_nat (h * w)) (length (n_flat arr)) (n_flat arr)) as (P1 & P2 & P3).
  { lia. } { apply Nat2Z.inj. rewrite L, Nat2Z.inj_mul, !Z2Nat.id by nia. reflexivity. }
  { apply Nat2Z.inj_le. rewrite L, Z2Nat.id by nia. nia. }
  fold ps in P1, P2, P3.
  assert (HW : (0 < h * w)%Z) by nia.
  assert (P3' : Forall (fun p => p <> [] /\ Z.of_nat (length p) = c) ps).
  { apply Forall_impl with (2 := P3). intros q Q. split; [intros ->; cbn in Q; lia|lia]. }
  set (ids := map (fun q => inject_Z (np_argmax q)) ps).
  assert (IDS : Forall (fun v => exists z, v = inject_Z z /\ (0 <= z < c)%Z) ids).
  { unfold ids. apply Forall_forall. intros v I. apply in_map_iff in I as (q & <- & I).
    rewrite Forall_forall in P3'. destruct (P3' q I) as [Q1 Q2].
    exists (np_argmax q). split; [reflexivity|]. destruct (np_argmax_spec q Q1) as [R _]. lia. }
  assert (FF : from_float arr = Ok (mkNd (ANum (DI 32)) [h; w] ids)).
  { unfold from_float. rewrite S. destruct (Z.leb_spec c 0); [lia|]. reflexivity. }
  assert (NE : ids <> []).
  { intro E. assert (length ids = 0%nat) by (rewrite E; reflexivity). unfold ids in H0. rewrite map_length in H0. lia. }
  destruct (np_min_nonneg (firstn 100 ids)) as (m & Em & Qm).
  { apply firstn_nonempty; [lia|exact NE]. }
  { apply Forall_firstn'. apply Forall_impl with (2 := IDS). intros v (z & -> & Z1).
    change 0 with (inject_Z 0). rewrite <- Zle_Qle. lia. }
  exists (mkSeg (mkNd (ANum (DI 32)) [h; w; 1%Z] ids) shape (ANum (DI 32)) 2), (mkNd (ANum (DI 32)) [h; w] ids), ps.
  split; [|split; [|split; [reflexivity|split; [reflexivity|split; [exact P2|split; [lia|split]]]]]].
  - unfold mk_segmap. rewrite D, S, FF. cbn [length existsb Nat.eqb negb orb bind n_dt n_shape n_flat].
    rewrite Em. cbn [bind]. rewrite Qm. reflexivity.
  - unfold seg_get_arr. cbn [sg_arr sg_dt sg_ndim n_shape n_flat Nat.eqb nth firstn].
    rewrite map_astype_back; [reflexivity|right; right; right; right; right; reflexivity|].
    apply Forall_impl with (2 := IDS). intros v (z & -> & Z1). cbn [value_of]. exists z. split; [reflexivity|].
    change (32 - 1)%Z with 31%Z. lia.
  - apply Forall_impl with (2 := P3'). tauto.
  - cbn [n_flat]. unfold ids. apply Forall2_map_r. intros q I. rewrite Forall_forall in P3'.
    exists (np_argmax q). split; [reflexivity|]. apply np_argmax_spec. apply P3'. exact I.
Qed.
