(** Proofs about drawing. *)
From Coq Require Import FinFun.
From Coq Require Import Lia Lqa Qround.
From Verif Require Import Prelude PreludeFacts UtilModel UtilProofs DtyModel DtyProofs GeoModel ConvModel ConvSpec ConvProofs RszModel RszSpec RszProofs DrawModel DrawSpec.
Local Open Scope Z_scope.

(** ** Storing numbers *)
Lemma py_int_spec : forall q, ((0 <= q /\ inject_Z (py_int q) <= q < inject_Z (py_int q) + 1) \/ (q < 0 /\ q <= inject_Z (py_int q) < q + 1))%Q.
Proof.
  intros q. unfold py_int. destruct (qleb 0 q) eqn:E; [apply qleb_iff in E|apply qleb_false in E].
  - left. split; [exact E|]. destruct (Qfloor_spec q). lra.
  - right. split; [exact E|]. split; [apply Qle_ceiling|]. pose proof (Qceiling_lt q) as H. assert (X : (inject_Z (Qceiling q - 1) == inject_Z (Qceiling q) - 1)%Q) by (unfold Z.sub; rewrite inject_Z_plus; reflexivity). rewrite X in H. lra.
Qed.
Lemma py_int_mono : forall a b, (a <= b)%Q -> py_int a <= py_int b.
Proof.
  intros a b H. destruct (py_int_spec a) as [[A1 A2]|[A1 A2]], (py_int_spec b) as [[B1 B2]|[B1 B2]]; try lra.
  - apply Z.lt_succ_r. apply inject_Z_lt. unfold Z.succ. rewrite inject_Z_plus. change (inject_Z 1) with 1%Q. lra.
  - apply Z.le_trans with 0; apply Z.lt_succ_r; apply inject_Z_lt; unfold Z.succ; rewrite inject_Z_plus; change (inject_Z 1) with 1%Q; change (inject_Z 0) with 0%Q; lra.
  - apply Z.lt_succ_r. apply inject_Z_lt. unfold Z.succ. rewrite inject_Z_plus. change (inject_Z 1) with 1%Q. lra.
Qed.
Lemma py_int_compat : forall a b, (a == b)%Q -> py_int a = py_int b.
Proof. intros a b H. apply Z.le_antisymm; apply py_int_mono; rewrite H; apply Qle_refl. Qed.
Lemma store_value : forall k q, value_of k q -> (store k q == q)%Q.
Proof.
  intros [|b|b|b] q H; cbn [store].
  - destruct (qeqb q 0) eqn:E; [apply qeqb_iff in E; symmetry; exact E|apply qeqb_false in E]. destruct H as [H|H]; [contradiction|symmetry; exact H].
  - destruct H as (z & E & _). rewrite (py_int_compat q (inject_Z z) E), py_int_Z. symmetry. exact E.
  - destruct H as (z & E & _). rewrite (py_int_compat q (inject_Z z) E), py_int_Z. symmetry. exact E.
  - reflexivity.
Qed.
Lemma store_compat : forall k a b, (a == b)%Q -> (store k a == store k b)%Q.
Proof.
  intros [|n|n|n] a b H; cbn [store]; try (rewrite (py_int_compat a b H); reflexivity); [|exact H].
  destruct (qeqb a 0) eqn:E1, (qeqb b 0) eqn:E2; try reflexivity; [apply qeqb_iff in E1; apply qeqb_false in E2|apply qeqb_false in E1; apply qeqb_iff in E2]; rewrite H in E1; contradiction.
Qed.
Lemma store_mono_int : forall k a b, match k with KUint _ | KInt _ => True | _ => False end -> (a <= b)%Q -> (store k a <= store k b)%Q.
Proof. intros [|n|n|n] a b K H; try contradiction; cbn [store]; apply inject_Z_le; apply py_int_mono; exact H. Qed.
Lemma convex : forall a v c, (0 <= a <= 1)%Q -> (v <= c)%Q -> (v <= (1 - a) * v + a * c <= c)%Q.
Proof.
  intros a v c A H. assert (X : (0 <= a * (c - v))%Q) by (apply Qmult_le_0_compat; lra). assert (Y : (0 <= (1 - a) * (c - v))%Q) by (apply Qmult_le_0_compat; lra).
  assert (E1 : ((1 - a) * v + a * c == v + a * (c - v))%Q) by ring. assert (E2 : ((1 - a) * v + a * c == c - (1 - a) * (c - v))%Q) by ring. split; [rewrite E1|rewrite E2]; lra.
Qed.
Lemma convex' : forall a v c, (0 <= a <= 1)%Q -> (c <= v)%Q -> (c <= (1 - a) * v + a * c <= v)%Q.
Proof.
  intros a v c A H. assert (E : ((1 - a) * v + a * c == (1 - (1 - a)) * c + (1 - a) * v)%Q) by ring. rewrite E. apply convex; lra.
Qed.
(** Storing a weighted mean of two values of a dtype. *)
Lemma value_between_int : forall k v c r, match k with KUint _ | KInt _ => True | _ => False end -> value_of k v -> value_of k c -> (exists z, r == inject_Z z)%Q ->
  ((v <= r <= c \/ c <= r <= v))%Q -> value_of k r.
Proof.
  intros k v c r K V C (z & E) B. destruct k as [|b|b|b]; try contradiction; destruct V as (v0 & Ev & Bv), C as (c0 & Ec & Bc); exists z; (split; [exact E|]);
  rewrite E, Ev, Ec in B; destruct B as [[B1 B2]|[B1 B2]]; apply (proj1 (inject_Z_le _ _)) in B1; apply (proj1 (inject_Z_le _ _)) in B2; lia.
Qed.
Lemma store_mean_int : forall k m v c, match k with KUint _ | KInt _ => True | _ => False end -> value_of k v -> value_of k c -> ((v <= m <= c) \/ (c <= m <= v))%Q ->
  value_of k (store k m) /\ ((v <= store k m <= c \/ c <= store k m <= v)%Q) /\ (store k m - 1 < m < store k m + 1)%Q /\ (is_floating k -> store k m == m)%Q.
Proof.
  intros k m v c K V C B. pose proof (store_value k v V) as SV. pose proof (store_value k c C) as SC.
  assert (VB : ((v <= store k m <= c) \/ (c <= store k m <= v))%Q).
  { destruct B as [[B1 B2]|[B1 B2]]; [left|right]; pose proof (store_mono_int k _ _ K B1) as M1; pose proof (store_mono_int k _ _ K B2) as M2; lra. }
  assert (SI : store k m = inject_Z (py_int m)) by (destruct k; try contradiction; reflexivity).
  split; [apply (value_between_int k v c); auto; exists (py_int m); rewrite SI; reflexivity|]. split; [exact VB|]. split; [|destruct k; try contradiction; intros []]. rewrite SI. destruct (py_int_spec m); lra.
Qed.
Lemma store_mean : forall k alpha v c, (0 <= alpha <= 1)%Q -> (k = KBool -> 0 < alpha < 1)%Q -> value_of k v -> value_of k c ->
  let r := store k ((1 - alpha) * v + alpha * c)%Q in
  value_of k r /\ ((v <= r <= c \/ c <= r <= v)%Q) /\ (r - 1 < (1 - alpha) * v + alpha * c < r + 1)%Q /\ (is_floating k -> r == (1 - alpha) * v + alpha * c)%Q.
Proof.
  intros k alpha v c A AB V C. cbn zeta. set (m := ((1 - alpha) * v + alpha * c)%Q).
  assert (B : ((v <= m <= c) \/ (c <= m <= v))%Q).
  { destruct (Qlt_le_dec v c) as [L|L]; [left; apply convex; [exact A|lra]|right; apply convex'; assumption]. }
  destruct k as [|b|b|b].
  - specialize (AB eq_refl). cbn [store].
    assert (X : (m == 0)%Q /\ (v == 0)%Q /\ (c == 0)%Q \/ (0 < m <= 1 /\ (v == 1 \/ c == 1)%Q)%Q).
    { destruct V as [V|V], C as [C|C].
      - left. repeat split; try assumption. unfold m. rewrite V, C. ring.
      - right. assert (E : (m == alpha)%Q) by (unfold m; rewrite V, C; ring). rewrite E. split; [lra|tauto].
      - right. assert (E : (m == 1 - alpha)%Q) by (unfold m; rewrite V, C; ring). rewrite E. split; [lra|tauto].
      - right. assert (E : (m == 1)%Q) by (unfold m; rewrite V, C; ring). rewrite E. split; [lra|tauto]. }
    destruct X as [(E & V0 & C0)|(M & O)].
    + assert (Q1 : qeqb m 0 = true) by (apply qeqb_iff; exact E). rewrite Q1. split; [left; reflexivity|]. split; [left; lra|]. split; [rewrite E; lra|]. intros [].
    + assert (Q1 : qeqb m 0 = false) by (apply qeqb_false; lra). rewrite Q1. split; [right; reflexivity|].
      split; [destruct V as [V|V], C as [C|C]; [exfalso; destruct O; lra|left; lra|right; lra|left; lra]|]. split; [lra|]. intros [].
  - apply (store_mean_int (KUint b)); [exact Logic.I|exact V|exact C|exact B].
  - apply (store_mean_int (KInt b)); [exact Logic.I|exact V|exact C|exact B].
  - cbn [store]. split; [|split; [exact B|split; [lra|intros _; reflexivity]]].
    apply value_float. apply value_float in V. apply value_float in C. destruct (b =? 16); [destruct B; lra|exact Logic.I].
Qed.

Lemma value_compat' : forall k a b, (a == b)%Q -> value_of k a -> value_of k b.
Proof.
  intros [|n|n|n] a b E H.
  - destruct H as [H|H]; [left|right]; rewrite <- E; exact H.
  - destruct H as (z & H & B). exists z. split; [rewrite <- E; exact H|exact B].
  - destruct H as (z & H & B). exists z. split; [rewrite <- E; exact H|exact B].
  - apply value_float. apply value_float in H. destruct (n =? 16); [rewrite <- E; exact H|exact Logic.I].
Qed.
(** ** Keypoints *)
Lemma strip_in : forall i size side y, 0 <= y < side -> (fst (strip i size side) <= y < snd (strip i size side) <-> Z.abs (y - i) <= size / 2).
Proof. intros i size side y H. unfold strip. cbn [fst snd]. set (h := size / 2). clearbody h. unfold zclip. lia. Qed.
Lemma no_strip_iff : forall i size side, 0 <= side -> (no_strip (strip i size side) side = false <-> exists y, 0 <= y < side /\ Z.abs (y - i) <= size / 2).
Proof.
  intros i size side H. split.
  - intros E. unfold no_strip in E. apply Bool.orb_false_iff in E. destruct E as [_ E]. apply Z.ltb_ge in E. exists (fst (strip i size side)).
    assert (B : 0 <= fst (strip i size side) < side) by (revert E; unfold strip; cbn [fst snd]; set (h := size / 2); clearbody h; unfold zclip; lia). split; [exact B|]. apply (strip_in i size side _ B). lia.
  - intros (y & B & E). apply (strip_in i size side y B) in E. unfold no_strip. apply Bool.orb_false_iff. split; [|apply Z.ltb_ge; lia].
    apply Bool.andb_false_iff. right. apply Bool.orb_false_iff. unfold strip in *. cbn [fst snd] in *. set (h := size / 2) in *. clearbody h. unfold zclip in *. split; [apply Z.ltb_ge|apply Z.leb_gt]; lia.
Qed.
Lemma fin_px : forall k px y x c, fin k px y x c = match k with KUint b => if b =? 8 then store k (qclip (px y x c) 0 255) else store k (px y x c) | _ => store k (px y x c) end.
Proof.
  intros [|b|b|b] px y x c; try reflexivity.
  - destruct (Z.eqb_spec b 8) as [->|N]; [reflexivity|]. unfold fin.
    destruct b as [|[[[[]|[]|]|[[]|[]|]|]|[[[]|[]|]|[[]|[]|]|]|]|[[[[]|[]|]|[[]|[]|]|]|[[[]|[]|]|[[]|[]|]|]|]]; try reflexivity. congruence.
  - unfold fin. cbn [store]. destruct b as [|[[[[[[]|[]|]|[[]|[]|]|]|[[[]|[]|]|[[]|[]|]|]|]|[[[[]|[]|]|[[]|[]|]|]|[[[]|[]|]|[[]|[]|]|]|]|]|[[[[[]|[]|]|[[]|[]|]|]|[[[]|[]|]|[[]|[]|]|]|]|[[[[]|[]|]|[[]|[]|]|]|[[[]|[]|]|[[]|[]|]|]|]|]|]|[[[[[[]|[]|]|[[]|[]|]|]|[[[]|[]|]|[[]|[]|]|]|]|[[[[]|[]|]|[[]|[]|]|]|[[[]|[]|]|[[]|[]|]|]|]|]|[[[[[]|[]|]|[[]|[]|]|]|[[[]|[]|]|[[]|[]|]|]|]|[[[[]|[]|]|[[]|[]|]|]|[[[]|[]|]|[[]|[]|]|]|]|]|]]; reflexivity.
Qed.
Lemma value8 : forall v, value_of (KUint 8) v -> (0 <= v <= 255)%Q.
Proof. intros v (z & E & B). change (2 ^ 8 - 1) with 255 in B. rewrite E. split; [apply (proj2 (inject_Z_le 0 z))|apply (proj2 (inject_Z_le z 255))]; lia. Qed.
(** The final conversion of a value and of a mean. *)
Lemma fin_value : forall k px y x c v, value_of k v -> (px y x c == v)%Q -> (fin k px y x c == v)%Q.
Proof.
  intros k px y x c v V E. rewrite fin_px. assert (S1 : (store k (px y x c) == v)%Q) by (rewrite (store_compat k _ _ E); apply store_value; exact V).
  destruct k as [|b|b|b]; try exact S1. destruct (Z.eqb_spec b 8) as [->|N]; [|exact S1]. apply value8 in V.
  rewrite (store_compat (KUint 8) _ (px y x c)); [exact S1|]. apply qclip_id; rewrite E; apply V.
Qed.
Lemma fin_mean : forall k px y x c m a v, value_of k a -> value_of k v -> ((a <= m <= v) \/ (v <= m <= a))%Q -> (px y x c == m)%Q -> (fin k px y x c == store k m)%Q.
Proof.
  intros k px y x c m a v A V B E. rewrite fin_px. pose proof (store_compat k _ _ E) as S1. destruct k as [|b|b|b]; try exact S1. destruct (Z.eqb_spec b 8) as [->|N]; [|exact S1]. apply value8 in A. apply value8 in V.
  rewrite (store_compat (KUint 8) _ (px y x c)); [exact S1|]. apply qclip_id; rewrite E; lra.
Qed.
Lemma visible_iff : forall k size p, 0 <= p_h p -> 0 <= p_w p ->
  (negb (no_strip (strip (np_round (kx k)) size (p_w p)) (p_w p)) && negb (no_strip (strip (np_round (ky k)) size (p_h p)) (p_h p)) = true <-> square_visible k size p).
Proof.
  intros k size p H W. rewrite Bool.andb_true_iff, !Bool.negb_true_iff, !no_strip_iff by assumption. unfold square_visible, square. split.
  - intros [(x & X1 & X2) (y & Y1 & Y2)]. exists y, x. auto.
  - intros (y & x & Y1 & X1 & Y2 & X2). split; [exists x|exists y]; auto.
Qed.
Lemma square_test : forall k size p y x, 0 <= y < p_h p -> 0 <= x < p_w p ->
  ((fst (strip (np_round (ky k)) size (p_h p)) <=? y) && (y <? snd (strip (np_round (ky k)) size (p_h p))) &&
   (fst (strip (np_round (kx k)) size (p_w p)) <=? x) && (x <? snd (strip (np_round (kx k)) size (p_w p))) = true <-> square k size y x).
Proof.
  intros k size p y x Y X. rewrite !Bool.andb_true_iff, !Z.leb_le, !Z.ltb_lt. unfold square. rewrite <- (strip_in (np_round (ky k)) size (p_h p) y Y), <- (strip_in (np_round (kx k)) size (p_w p) x X). tauto.
Qed.
Lemma fits_iff : forall p col, fits col (depth p) = true <-> colour_fits p col.
Proof.
  intros p [q|l]; cbn [fits colour_fits]; [tauto|]. rewrite Bool.orb_true_iff, !Nat.eqb_eq. unfold depth, chans. tauto.
Qed.
Lemma kp_draw_cases : forall col alpha size raise p k, 0 <= p_h p -> 0 <= p_w p ->
  (p_c p = None /\ (exists l, col = CList l) /\ kp_draw col alpha size raise p k = Err AssertionError) \/
  ((p_c p = None -> exists q, col = CNum q) /\
   (((alpha < 1 # 100)%Q /\ kp_draw col alpha size raise p k = Ok p) \/
    ((1 # 100 <= alpha)%Q /\
     ((square_visible k size p /\ ~ colour_fits p col /\ kp_draw col alpha size raise p k = Err ValueError) \/
      (~ square_visible k size p /\ raise = true /\ kp_draw col alpha size raise p k = Err GenericException) \/
      ((square_visible k size p /\ colour_fits p col \/ ~ square_visible k size p /\ raise = false) /\ exists px',
        kp_draw col alpha size raise p k = Ok (mkPic (p_kind p) (p_h p) (p_w p) (p_c p) (if qltb (99 # 100) alpha then px' else fin (p_kind p) px')) /\
        forall y x c, 0 <= y < p_h p -> 0 <= x < p_w p ->
          let v := if qltb (99 # 100) alpha then p_px p y x c else to_float 24 (p_px p y x c) in
          (~ square k size y x /\ px' y x c = v) \/
          (square k size y x /\ px' y x c = if qltb (99 # 100) alpha then store (p_kind p) (shade col c) else ((1 - alpha) * v + alpha * shade col c)%Q)))))).
Proof.
  intros col alpha size raise p k H W.
  assert (A : (p_c p = None /\ exists l, col = CList l) \/ ((match p_c p, col with None, CList _ => true | _, _ => false end) = false /\ (p_c p = None -> exists q, col = CNum q))).
  { destruct (p_c p), col; try (right; split; [reflexivity|]; intros; congruence || eauto); [left; split; [reflexivity|]; eauto]. }
  destruct A as [(E & l & ->)|(E & Ec)].
  { left. split; [exact E|]. split; [eauto|]. unfold kp_draw. rewrite E. reflexivity. }
  right. split; [exact Ec|]. unfold kp_draw. rewrite E. destruct (qltb alpha (1 # 100)) eqn:L; [apply qltb_iff in L; left; auto|apply qltb_false in L; right; split; [exact L|]].
  cbv zeta. pose proof (visible_iff k size p H W) as VI. destruct (negb _ && negb _) eqn:D.
  - assert (V : square_visible k size p) by (apply VI; reflexivity). destruct (fits col (depth p)) eqn:F.
    + match goal with |- context [bind (Ok ?f) _] => set (px' := f) end. cbn [bind]. apply fits_iff in F. right. right. split; [left; auto|]. exists px'. split; [reflexivity|]. intros y x c Y X. unfold px'. cbv beta. pose proof (square_test k size p y x Y X) as ST. clear px' D VI. destruct (_ && _) eqn:T.
      * right. split; [apply ST; reflexivity|]. destruct (qltb (99 # 100) alpha); reflexivity.
      * left. split; [intros Q; apply ST in Q; congruence|]. destruct (qltb (99 # 100) alpha); reflexivity.
    + cbn [bind]. left. split; [exact V|]. split; [|reflexivity]. intros Q. apply fits_iff in Q. congruence.
  - assert (V : ~ square_visible k size p) by (intros Q; apply VI in Q; congruence). destruct raise.
    + right. left. auto.
    + match goal with |- context [bind (Ok ?f) _] => set (px' := f) end. cbn [bind]. right. right. split; [right; auto|]. exists px'. split; [reflexivity|]. intros y x c Y X. unfold px'. left. split; [|destruct (qltb (99 # 100) alpha); reflexivity]. intros Q. apply V. exists y, x. auto.
Qed.
Definition shade_of (p : pic) (col : color) : Prop := forall c, (c < chans p)%nat -> value_of (p_kind p) (shade col c).
Lemma shade_component : forall col c, shade col c = component col c.
Proof. intros [q|[|q [|r l]]] c; reflexivity. Qed.
Lemma colour_shade : forall p col, colour_of p col -> shade_of p col.
Proof. intros p col H c L. rewrite shade_component. apply H; exact L. Qed.

Lemma kp_pixels : forall col alpha size raise p k p', proper_pic p -> shade_of p col -> ((alpha <= 99 # 100)%Q -> exact_float32 p) -> kp_draw col alpha size raise p k = Ok p' ->
  proper_pic p' /\
  redrawn p p' (fun y x c v' =>
    ((~ square k size y x \/ alpha < 1 # 100)%Q -> (v' == p_px p y x c)%Q) /\
    ((square k size y x /\ 1 # 100 <= alpha)%Q -> painted (99 # 100 < alpha)%Q (p_kind p) alpha (p_px p y x c) (shade col c) v')).
Proof.
  intros col alpha size raise p k p' P C EX D. pose proof P as (P1 & P2 & P3).
  destruct (kp_draw_cases col alpha size raise p k P1 P2) as [(_ & _ & E)|(_ & [(A & E)|(A & [(_ & _ & E)|[(_ & _ & E)|(_ & px' & E & V)]])])]; rewrite D in E; try discriminate.
  - injection E as ->. split; [exact P|]. do 4 (split; [reflexivity|]). intros y x c HX. split; [reflexivity|]. intros [_ B]. lra.
  - injection E as ->.
    assert (G : forall y x c, pixel p y x c -> value_of (p_kind p) ((if qltb (99 # 100) alpha then px' else fin (p_kind p) px') y x c) /\
      ((~ square k size y x \/ alpha < 1 # 100)%Q -> ((if qltb (99 # 100) alpha then px' else fin (p_kind p) px') y x c == p_px p y x c)%Q) /\
      ((square k size y x /\ 1 # 100 <= alpha)%Q -> painted (99 # 100 < alpha)%Q (p_kind p) alpha (p_px p y x c) (shade col c) ((if qltb (99 # 100) alpha then px' else fin (p_kind p) px') y x c))).
    { intros y x c HX. pose proof HX as (Y & X & Hc). specialize (P3 y x c HX). specialize (C c Hc). specialize (V y x c Y X). cbv zeta in V.
      destruct (qltb (99 # 100) alpha) eqn:O; [apply qltb_iff in O|apply qltb_false in O].
      - destruct V as [[S1 ->]|[S1 ->]].
        + split; [exact P3|]. split; [reflexivity|]. intros [Q _]. contradiction.
        + pose proof (store_value _ _ C) as SV. split; [eapply value_compat'; [symmetry; exact SV|exact C]|]. split; [intros [Q|Q]; [contradiction|lra]|]. intros _. split; [intros _; exact SV|intros N; contradiction].
      - pose proof (EX O y x c HX) as E32. destruct V as [[S1 E]|[S1 E]].
        + assert (F : (fin (p_kind p) px' y x c == p_px p y x c)%Q) by (apply fin_value; [exact P3|rewrite E; exact E32]).
          split; [eapply value_compat'; [symmetry; exact F|exact P3]|]. split; [intros _; exact F|]. intros [Q _]. contradiction.
        + set (v := p_px p y x c) in *. set (s := shade col c) in *.
          assert (M : (px' y x c == (1 - alpha) * v + alpha * s)%Q) by (rewrite E, E32; reflexivity).
          assert (B : ((v <= (1 - alpha) * v + alpha * s <= s) \/ (s <= (1 - alpha) * v + alpha * s <= v))%Q).
          { destruct (Qlt_le_dec v s); [left; apply convex; lra|right; apply convex'; lra]. }
          pose proof (fin_mean (p_kind p) px' y x c _ v s P3 C B M) as F.
          destruct (store_mean (p_kind p) alpha v s) as (R1 & R2 & R3 & R4); [lra|intros _; lra|exact P3|exact C|].
          split; [eapply value_compat'; [symmetry; exact F|exact R1]|]. split; [intros [Q|Q]; [contradiction|lra]|]. intros _. split; [intros; lra|]. intros _.
          split; [lra|]. split; [lra|]. intros K. rewrite F. apply R4. exact K. }
    split.
    + split; [exact P1|]. split; [exact P2|]. intros y x c HX. cbn [p_kind p_px]. apply G. exact HX.
    + unfold redrawn. repeat (split; [reflexivity|]). intros y x c HX. apply G. exact HX.
Qed.
Lemma small_exact : forall p, proper_pic p -> small_dtype (p_kind p) -> exact_float32 p.
Proof.
  intros p (_ & _ & P) S y x c HX. specialize (P y x c HX). destruct (p_kind p) as [|b|b|b]; cbn [small_dtype value_of] in *; [| | |contradiction].
  - destruct P as [E|E]; [apply (to_float_exact 24 24 _ 0 0)|apply (to_float_exact 24 24 _ 1 0)]; try lia; rewrite E; reflexivity.
  - destruct P as (z & E & B). apply (to_float_exact 24 24 _ z 0); [lia|rewrite E, pow2_0; ring|]. assert (2 ^ b <= 2 ^ 24) by (apply Z.pow_le_mono_r; lia). lia.
  - destruct P as (z & E & B). apply (to_float_exact 24 24 _ z 0); [lia|rewrite E, pow2_0; ring|]. assert (2 ^ (b - 1) <= 2 ^ 24) by (apply Z.pow_le_mono_r; lia). lia.
Qed.
Lemma kp_accepts : forall col alpha size raise p k, 0 <= p_h p -> 0 <= p_w p -> ((exists p', kp_draw col alpha size raise p k = Ok p') <-> kp_accepted col alpha size raise p k).
Proof.
  intros col alpha size raise p k H W. unfold kp_accepted.
  destruct (kp_draw_cases col alpha size raise p k H W) as [(N & (l & ->) & E)|(N & [(A & E)|(A & [(V & F & E)|[(V & R & E)|(C & px' & E & _)]])])]; rewrite E.
  - split; [intros (p' & Q); discriminate|intros (Q & _); destruct (Q N) as (q & Q'); discriminate].
  - split; [intros _; auto|intros _; eauto].
  - split; [intros (p' & Q); discriminate|intros (_ & [Q|[(_ & Q)|(Q & _)]]); [lra|contradiction|contradiction]].
  - split; [intros (p' & Q); discriminate|intros (_ & [Q|[(Q & _)|(_ & Q)]]); [lra|contradiction|congruence]].
  - split; [intros _; split; [exact N|tauto]|eauto].
Qed.
Lemma kp_errors : forall col alpha size raise p k, 0 <= p_h p -> 0 <= p_w p ->
  (kp_draw col alpha size raise p k = Err AssertionError <-> p_c p = None /\ exists l, col = CList l) /\
  (kp_draw col alpha size raise p k = Err ValueError <-> (p_c p = None -> exists q, col = CNum q) /\ (1 # 100 <= alpha)%Q /\ square_visible k size p /\ ~ colour_fits p col) /\
  (kp_draw col alpha size raise p k = Err GenericException <-> (p_c p = None -> exists q, col = CNum q) /\ (1 # 100 <= alpha)%Q /\ ~ square_visible k size p /\ raise = true) /\
  (forall e, kp_draw col alpha size raise p k = Err e -> e = AssertionError \/ e = ValueError \/ e = GenericException).
Proof.
  intros col alpha size raise p k H W.
  assert (X : ~ (p_c p = None /\ (p_c p = None -> exists q, col = CNum q) /\ exists l, col = CList l)) by (intros (N & Q & (l & ->)); destruct (Q N); discriminate).
  destruct (kp_draw_cases col alpha size raise p k H W) as [(N & (l & L) & E)|(N & [(A & E)|(A & [(V & F & E)|[(V & R & E)|(C & px' & E & _)]])])]; rewrite E;
    (split; [|split; [|split]]); try (intros e Q; injection Q as <-; tauto); try (intros e Q; discriminate);
    (split; [intros Q; try discriminate; eauto|intros Q; try reflexivity; exfalso]).
  - destruct Q as (Q & _). apply X. eauto.
  - destruct Q as (Q & _). apply X. eauto.
  - tauto.
  - destruct Q as (_ & Q & _). lra.
  - destruct Q as (_ & Q & _). lra.
  - tauto.
  - tauto.
  - tauto.
  - tauto.
  - tauto.
  - destruct C as [[C D]|[C D]]; tauto.
  - destruct C as [[C D]|[C D]]; [tauto|]. destruct Q as (_ & _ & _ & Q). congruence.
Qed.
(** The outcome depends on the shape only. *)
Lemma kp_err_shape : forall col alpha size raise p q k e, p_h q = p_h p -> p_w q = p_w p -> p_c q = p_c p -> kp_draw col alpha size raise q k = Err e -> kp_draw col alpha size raise p k = Err e.
Proof.
  intros col alpha size raise p q k e H W C. unfold kp_draw, depth. rewrite H, W, C. destruct (match p_c p with Some _ => false | None => _ end); [auto|].
  destruct (qltb alpha (1 # 100)); [discriminate|]. cbv zeta. destruct (negb _ && negb _); [destruct (fits _ _)|destruct raise]; cbn [bind]; auto; discriminate.
Qed.
Lemma kps_first_error : forall col alpha size raise l p e, kps_draw col alpha size raise p l = Err e -> exists k, In k l /\ kp_draw col alpha size raise p k = Err e.
Proof.
  intros col alpha size raise l. induction l as [|k l IH]; intros p e D; [discriminate|]. cbn [kps_draw] in D. destruct (kp_draw col alpha size raise p k) as [p1|e1] eqn:E; cbn [bind] in D.
  - destruct (IH p1 e D) as (k' & I1 & E1). exists k'. split; [right; exact I1|].
    assert (S : p_h p1 = p_h p /\ p_w p1 = p_w p /\ p_c p1 = p_c p).
    { revert E. unfold kp_draw. destruct (match p_c p with Some _ => false | None => _ end); [discriminate|]. destruct (qltb alpha (1 # 100)); [intros Q; injection Q as <-; auto|].
      cbv zeta. destruct (negb _ && negb _); [destruct (fits _ _)|destruct raise]; cbn [bind]; try discriminate; intros Q; injection Q as <-; auto. }
    destruct S as (S1 & S2 & S3). exact (kp_err_shape col alpha size raise p p1 k' e S1 S2 S3 E1).
  - injection D as <-. exists k. split; [left; reflexivity|exact E].
Qed.
Lemma between_trans : forall v c r r', between v c r -> between r c r' -> between v c r'.
Proof. unfold between. intros v c r r' [[A B]|[A B]] [[C D]|[C D]]; solve [left; lra|right; lra]. Qed.
Lemma painted_between : forall O k alpha v c r, (O \/ ~ O) -> painted O k alpha v c r -> between v c r.
Proof. intros O k alpha v c r [D|D] [A B]; [specialize (A D); unfold between; destruct (Qlt_le_dec v c); [left|right]; lra|destruct (B D) as (Q & _); exact Q]. Qed.
Lemma between_refl : forall v c r, (r == v)%Q -> between v c r.
Proof. intros v c r E. unfold between. destruct (Qlt_le_dec v c); [left|right]; lra. Qed.
Lemma square_dec : forall k size y x, square k size y x \/ ~ square k size y x.
Proof. intros. unfold square. destruct (Z_le_dec (Z.abs (y - np_round (ky k))) (size / 2)), (Z_le_dec (Z.abs (x - np_round (kx k))) (size / 2)); tauto. Qed.
Lemma kps_pixels : forall col alpha size raise l p p', proper_pic p -> shade_of p col -> ((alpha <= 99 # 100)%Q -> small_dtype (p_kind p)) -> kps_draw col alpha size raise p l = Ok p' ->
  proper_pic p' /\
  redrawn p p' (fun y x c v' =>
    ((forall k, In k l -> ~ square k size y x) -> (v' == p_px p y x c)%Q) /\
    ((99 # 100 < alpha)%Q -> (exists k, In k l /\ square k size y x) -> (v' == shade col c)%Q) /\
    between (p_px p y x c) (shade col c) v').
Proof.
  intros col alpha size raise l. induction l as [|k l IH]; intros p p' P C S D; cbn [kps_draw] in D.
  - injection D as <-. split; [exact P|]. do 4 (split; [reflexivity|]). intros y x c HX. split; [reflexivity|]. split; [intros _ (k & [] & _)|]. apply between_refl. reflexivity.
  - destruct (kp_draw col alpha size raise p k) as [p1|e1] eqn:E; cbn [bind] in D; [|discriminate].
    destruct (kp_pixels col alpha size raise p k p1 P C (fun A => small_exact p P (S A)) E) as (P1 & K1 & H1 & W1 & C1 & V1).
    assert (CO : forall c : nat, chans p1 = chans p) by (intros; unfold chans; rewrite C1; reflexivity).
    destruct (IH p1 p' P1) as (P' & K2 & H2 & W2 & C2 & V2); [intros c Hc; rewrite K1; apply C; rewrite <- (CO c); exact Hc|intros A; rewrite K1; exact (S A)|exact D|].
    split; [exact P'|]. split; [congruence|]. split; [congruence|]. split; [congruence|]. split; [congruence|]. intros y x c HX.
    assert (HX1 : pixel p1 y x c) by (unfold pixel in *; rewrite H1, W1, (CO c); exact HX). destruct (V1 y x c HX) as (N1 & I1). destruct (V2 y x c HX1) as (N2 & I2 & B2).
    assert (Dm : (alpha < 1 # 100 \/ 1 # 100 <= alpha)%Q) by (destruct (Qlt_le_dec alpha (1 # 100)); auto).
    assert (OD : (99 # 100 < alpha \/ ~ 99 # 100 < alpha)%Q) by (destruct (Qlt_le_dec (99 # 100) alpha); [left; assumption|right; lra]).
    assert (B1 : between (p_px p y x c) (shade col c) (p_px p1 y x c)).
    { destruct (square_dec k size y x) as [Q|Q]; [|apply between_refl; apply N1; auto]. destruct Dm as [Dm|Dm]; [apply between_refl; apply N1; auto|]. exact (painted_between _ _ _ _ _ _ OD (I1 (conj Q Dm))). }
    split; [|split; [|exact (between_trans _ _ _ _ B1 B2)]].
    + intros N. rewrite N2; [apply N1; left; apply N; left; reflexivity|]. intros k' I'. apply N. right. exact I'.
    + intros O (k' & I' & Q). assert (A1 : (1 # 100 <= alpha)%Q) by lra. destruct I' as [<-|I'].
      * assert (F : (p_px p1 y x c == shade col c)%Q) by (apply (I1 (conj Q A1)); exact O). unfold between in B2. destruct B2; lra.
      * apply I2; [exact O|]. eauto.
Qed.
Lemma kps_accepts : forall col alpha size raise l p, proper_pic p -> ((exists p', kps_draw col alpha size raise p l = Ok p') <-> (forall k, In k l -> kp_accepted col alpha size raise p k)).
Proof.
  intros col alpha size raise l p P. pose proof P as (H & W & _). split.
  - intros (p' & D) k I. apply kp_accepts; [exact H|exact W|]. revert p p' P H W D I. induction l as [|k0 l IH]; intros p p' P H W D I; [destruct I|]. cbn [kps_draw] in D.
    destruct (kp_draw col alpha size raise p k0) as [p1|e1] eqn:E; cbn [bind] in D; [|discriminate]. destruct I as [<-|I]; [eauto|].
    destruct (kp_draw col alpha size raise p k) as [p2|e2] eqn:E2; [eauto|]. exfalso.
    assert (S : p_h p1 = p_h p /\ p_w p1 = p_w p /\ p_c p1 = p_c p).
    { revert E. unfold kp_draw. destruct (match p_c p with Some _ => false | None => _ end); [discriminate|]. destruct (qltb alpha (1 # 100)); [intros Q; injection Q as <-; auto|].
      cbv zeta. destruct (negb _ && negb _); [destruct (fits _ _)|destruct raise]; cbn [bind]; try discriminate; intros Q; injection Q as <-; auto. }
    destruct S as (S1 & S2 & S3).
    assert (X : exists q, kps_draw col alpha size raise p1 l = Ok q) by eauto.
    clear IH D E. revert p1 S1 S2 S3 X. induction l as [|k1 l IH]; intros p1 S1 S2 S3 (q & D); [destruct I|]. cbn [kps_draw] in D. destruct (kp_draw col alpha size raise p1 k1) as [p3|e3] eqn:E3; cbn [bind] in D; [|discriminate].
    destruct I as [<-|I]; [apply (kp_err_shape col alpha size raise p1 p k1 e2) in E2; [congruence|congruence|congruence|congruence]|].
    assert (S' : p_h p3 = p_h p1 /\ p_w p3 = p_w p1 /\ p_c p3 = p_c p1).
    { revert E3. unfold kp_draw. destruct (match p_c p1 with Some _ => false | None => _ end); [discriminate|]. destruct (qltb alpha (1 # 100)); [intros Q; injection Q as <-; auto|].
      cbv zeta. destruct (negb _ && negb _); [destruct (fits _ _)|destruct raise]; cbn [bind]; try discriminate; intros Q; injection Q as <-; auto. }
    destruct S' as (T1 & T2 & T3). apply (IH I p3); [congruence|congruence|congruence|eauto].
  - intros A. destruct (kps_draw col alpha size raise p l) as [p'|e] eqn:D; [eauto|]. destruct (kps_first_error _ _ _ _ _ _ _ D) as (k & I & E). destruct (proj2 (kp_accepts col alpha size raise p k H W) (A k I)) as (q & Q). congruence.
Qed.

(** ** Bounding boxes *)
Lemma perimeter_iff : forall t d l r i y x, perimeter (t - i) (d + i) (l - i) (r + i) y x = true <-> Z.max (Z.max (t - y) (y - d)) (Z.max (l - x) (x - r)) = i.
Proof.
  intros. unfold perimeter. rewrite !Bool.andb_true_iff, !Bool.orb_true_iff, !Z.leb_le, !Z.eqb_eq. lia.
Qed.
Lemma np_round_nonneg : forall q, (0 <= q)%Q -> 0 <= np_round q.
Proof. intros q H. pose proof (np_round_mono 0 q H) as M. change (np_round 0) with 0 in M. exact M. Qed.
Lemma sides_spec : forall b p, proper_box b -> let '((t, d), (l, r)) := sides b (p_h p) (p_w p) in box_sides b p t d l r.
Proof.
  intros b p (X & Y). unfold sides, box_sides. destruct (bb_is_fully_within_image b (p_h p, p_w p)) eqn:F; [|auto].
  unfold bb_is_fully_within_image in F. rewrite !Bool.andb_true_iff, !qleb_iff, !qltb_iff in F. destruct F as (((A & B) & C) & D).
  pose proof (np_round_nonneg _ A). pose proof (np_round_nonneg _ C).
  assert (0 <= np_round (x2 b)) by (apply np_round_nonneg; lra). assert (0 <= np_round (y2 b)) by (apply np_round_nonneg; lra).
  unfold zclip. lia.
Qed.
Lemma box_sides_det : forall b p t d l r t' d' l' r', box_sides b p t d l r -> box_sides b p t' d' l' r' -> t = t' /\ d = d' /\ l = l' /\ r = r'.
Proof. unfold box_sides. intros b p t d l r t' d' l' r'. destruct (bb_is_fully_within_image b (p_h p, p_w p)); intros (-> & -> & -> & ->) (-> & -> & -> & ->); auto. Qed.
(** The distance of a pixel from the sides, outwards. *)
Definition ring_of (b : bbox) (p : pic) (y x : Z) : Z :=
  let '((t, d), (l, r)) := sides b (p_h p) (p_w p) in Z.max (Z.max (t - y) (y - d)) (Z.max (l - x) (x - r)).
Lemma frame_ring : forall b p size y x, proper_box b -> (frame b p size y x <-> 0 <= ring_of b p y x < size).
Proof.
  intros b p size y x PB. pose proof (sides_spec b p PB) as S. unfold ring_of. destruct (sides b (p_h p) (p_w p)) as [[t d] [l r]]. split.
  - intros (t' & d' & l' & r' & B & Y & X & P & N). destruct (box_sides_det _ _ _ _ _ _ _ _ _ _ S B) as (<- & <- & <- & <-). lia.
  - intros H. exists t, d, l, r. split; [exact S|]. lia.
Qed.
Lemma ring_of_shape : forall b p q y x, p_h q = p_h p -> p_w q = p_w p -> ring_of b q y x = ring_of b p y x.
Proof. intros b p q y x H W. unfold ring_of. rewrite H, W. reflexivity. Qed.
Lemma store_mean' : forall k alpha v c, (0 <= alpha < 1)%Q -> value_of k v -> value_of k c ->
  let r := store k ((1 - alpha) * v + alpha * c)%Q in
  value_of k r /\ (between v c r) /\ (r - 1 < (1 - alpha) * v + alpha * c < r + 1)%Q /\ (is_floating k -> r == (1 - alpha) * v + alpha * c)%Q.
Proof.
  intros k alpha v c A V C r. destruct (Qlt_le_dec 0 alpha) as [L|L].
  - apply store_mean; [lra|intros _; lra|exact V|exact C].
  - assert (Z0 : (alpha == 0)%Q) by lra. assert (M : ((1 - alpha) * v + alpha * c == v)%Q) by (rewrite Z0; ring).
    assert (R : (r == v)%Q) by (unfold r; rewrite (store_compat k _ _ M); apply store_value; exact V).
    split; [eapply value_compat'; [symmetry; exact R|exact V]|]. split; [apply between_refl; exact R|]. rewrite M. split; [lra|]. intros _. exact R.
Qed.
Lemma bytes_exact : forall k v, value_of k v -> (0 <= v <= 255)%Q -> ~ is_floating k -> (to_float 24 v == v)%Q.
Proof.
  intros k v V B F. assert (Z0 : exists z, (v == inject_Z z)%Q).
  { destruct k as [|b|b|b]; [destruct V as [E|E]; [exists 0|exists 1]; exact E|destruct V as (z & E & _); eauto|destruct V as (z & E & _); eauto|exfalso; apply F; exact Logic.I]. }
  destruct Z0 as (z & E). rewrite E in B. destruct B as (B1 & B2). change 0%Q with (inject_Z 0) in B1. change 255%Q with (inject_Z 255) in B2. apply (proj1 (inject_Z_le 0 z)) in B1. apply (proj1 (inject_Z_le z 255)) in B2.
  apply (to_float_exact 24 24 _ z 0); [lia|rewrite E, pow2_0; ring|]. change (2 ^ 24) with 16777216. lia.
Qed.
Lemma is_floating_dec : forall k, is_floating k \/ ~ is_floating k.
Proof. intros [| | |]; cbn; tauto. Qed.
Lemma ring_cases : forall b col alpha p i,
  (p_c p = None /\ ring b col alpha p i = Err IndexError) \/
  (p_c p <> None /\ ~ colour_fits p col /\ ring b col alpha p i = Err ValueError) \/
  (p_c p <> None /\ colour_fits p col /\ exists p', ring b col alpha p i = Ok p' /\ p_h p' = p_h p /\ p_w p' = p_w p /\ p_c p' = p_c p /\ p_kind p' = p_kind p).
Proof.
  intros b col alpha p i. unfold ring. pose proof (fits_iff p col) as FI. unfold depth in FI. destruct (p_c p) as [n|]; [|auto]. right. destruct (fits col n); cbn [negb].
  - right. split; [discriminate|]. split; [apply FI; reflexivity|]. destruct (sides b (p_h p) (p_w p)) as [[t d] [l r]]. eexists. split; [reflexivity|]. auto.
  - left. split; [discriminate|]. split; [|reflexivity]. intros Q. apply FI in Q. discriminate.
Qed.
Lemma ring_pixels : forall b col alpha p i p', proper_pic p -> shade_of p col -> ((99 # 100 <= alpha)%Q \/ (0 <= alpha)%Q /\ bytes p /\ forall c, (c < chans p)%nat -> (0 <= shade col c <= 255)%Q) ->
  ring b col alpha p i = Ok p' ->
  proper_pic p' /\ ((alpha < 99 # 100)%Q -> bytes p') /\
  redrawn p p' (fun y x c v' =>
    (ring_of b p y x <> i -> (v' == p_px p y x c)%Q) /\
    (ring_of b p y x = i -> painted (99 # 100 <= alpha)%Q (p_kind p) alpha (p_px p y x c) (shade col c) v')).
Proof.
  intros b col alpha p i p' P C A D. pose proof P as (P1 & P2 & P3). unfold ring in D. destruct (p_c p) as [n|] eqn:EC; [|discriminate]. destruct (fits col n); cbn [negb] in D; [|discriminate].
  assert (RO : forall y x, let '((t, d), (l, r)) := sides b (p_h p) (p_w p) in perimeter (t - i) (d + i) (l - i) (r + i) y x = true <-> ring_of b p y x = i).
  { intros y x. unfold ring_of. destruct (sides b (p_h p) (p_w p)) as [[t d] [l r]]. apply perimeter_iff. }
  destruct (sides b (p_h p) (p_w p)) as [[t d] [l r]]. injection D as <-. cbn [p_px].
  set (on := perimeter (t - i) (d + i) (l - i) (r + i)) in *.
  match goal with |- context [mkPic _ _ _ _ ?f] => set (px' := f) end.
  assert (G : forall y x c, pixel p y x c -> value_of (p_kind p) (px' y x c) /\ ((alpha < 99 # 100)%Q -> (0 <= px' y x c <= 255)%Q) /\
    (ring_of b p y x <> i -> (px' y x c == p_px p y x c)%Q) /\
    (ring_of b p y x = i -> painted (99 # 100 <= alpha)%Q (p_kind p) alpha (p_px p y x c) (shade col c) (px' y x c))).
  { intros y x c HX. pose proof HX as (Y & X & Hc). specialize (P3 y x c HX). specialize (C c Hc). specialize (RO y x). set (v := p_px p y x c) in *. set (s := shade col c) in *.
    unfold px'. destruct (qleb (99 # 100) alpha) eqn:O; [apply qleb_iff in O|apply qleb_false in O].
    - fold v s. destruct (on y x) eqn:ON.
      + assert (R : ring_of b p y x = i) by (apply RO; reflexivity). pose proof (store_value _ _ C) as SV. split; [eapply value_compat'; [symmetry; exact SV|exact C]|]. split; [intros; lra|]. split; [intros; contradiction|].
        intros _. split; [intros _; exact SV|intros N; contradiction].
      + assert (R : ring_of b p y x <> i) by (intros Q; apply RO in Q; congruence). split; [exact P3|]. split; [intros; lra|]. split; [reflexivity|intros; contradiction].
    - destruct A as [A|(A & BP & BC)]; [lra|]. specialize (BP y x c HX). specialize (BC c Hc). fold v in BP. fold s in BC.
      assert (A' : (0 <= alpha < 1)%Q) by lra. destruct (store_mean' (p_kind p) alpha v s A' P3 C) as (M1 & M2 & M3 & M4). set (m := ((1 - alpha) * v + alpha * s)%Q) in *.
      assert (MB : (0 <= m <= 255)%Q) by (assert (Q1 : between v s m) by (unfold between; destruct (Qlt_le_dec v s); [left; apply convex; lra|right; apply convex'; lra]); destruct Q1; lra).
      assert (U : forall w, (w == v)%Q -> ((if on y x then (1 - alpha) * w + alpha * s else w) == if on y x then m else v)%Q) by (intros w W; destruct (on y x); [unfold m; rewrite W; reflexivity|exact W]).
      assert (CL : forall w, (w == v)%Q -> (qclip (if on y x then (1 - alpha) * w + alpha * s else w) 0 255 == if on y x then m else v)%Q).
      { intros w W. specialize (U w W). rewrite qclip_id; [exact U| |]; rewrite U; destruct (on y x); lra. }
      assert (FV : ((match p_kind p with KFloat _ => fun y x c => qclip (if on y x then (1 - alpha) * p_px p y x c + alpha * shade col c else p_px p y x c) 0 255
                    | k => fun y x c => store k (qclip (if on y x then (1 - alpha) * to_float 24 (p_px p y x c) + alpha * shade col c else to_float 24 (p_px p y x c)) 0 255) end) y x c
                    == store (p_kind p) (if on y x then m else v))%Q).
      { pose proof (bytes_exact (p_kind p) v P3 BP) as BE. destruct (p_kind p) as [|bb|bb|bb]; [| | |apply CL; reflexivity]; fold v s; apply store_compat; apply CL; apply BE; intros []. }
      assert (FE : (px' y x c == store (p_kind p) (if on y x then m else v))%Q).
      { rewrite <- FV. unfold px'. destruct (qleb (99 # 100) alpha) eqn:O'; [apply qleb_iff in O'; lra|]. destruct (p_kind p); reflexivity. }
      match goal with |- value_of _ ?t /\ _ => assert (FE' : (t == store (p_kind p) (if on y x then m else v))%Q) by (rewrite <- FV; destruct (p_kind p); reflexivity); set (w := t) in *; clearbody w end.
      clear FV FE U CL px'. destruct (on y x) eqn:ON.
      + assert (R : ring_of b p y x = i) by (apply RO; reflexivity). split; [eapply value_compat'; [symmetry; exact FE'|exact M1]|]. split; [intros _; rewrite FE'; destruct M2; lra|]. split; [intros; contradiction|].
        intros _. split; [intros; lra|]. intros _. split; [unfold between in M2; destruct M2; [left|right]; lra|]. split; [rewrite FE'; exact M3|]. intros F. rewrite FE'. apply M4. exact F.
      + assert (R : ring_of b p y x <> i) by (intros Q; apply RO in Q; congruence). pose proof (store_value _ _ P3) as SV. rewrite SV in FE'. split; [eapply value_compat'; [symmetry; exact FE'|exact P3]|]. split; [intros _; lra|]. split; [intros _; exact FE'|intros; contradiction]. }
  split; [split; [exact P1|split; [exact P2|]]|split].
  - intros y x c HX. apply G. unfold pixel, chans in *. cbn [p_h p_w p_c] in HX. rewrite EC. exact HX.
  - intros L y x c HX. apply G; [|exact L]. unfold pixel, chans in *. cbn [p_h p_w p_c] in HX. rewrite EC. exact HX.
  - split; [reflexivity|]. split; [reflexivity|]. split; [reflexivity|]. split; [symmetry; exact EC|]. intros y x c HX. apply G. exact HX.
Qed.
Lemma rings_pixels : forall b col alpha l p p', NoDup l -> proper_pic p -> shade_of p col -> ((99 # 100 <= alpha)%Q \/ (0 <= alpha)%Q /\ bytes p /\ forall c, (c < chans p)%nat -> (0 <= shade col c <= 255)%Q) ->
  rings b col alpha p l = Ok p' ->
  proper_pic p' /\ ((alpha < 99 # 100)%Q -> bytes p') /\
  redrawn p p' (fun y x c v' =>
    (~ In (ring_of b p y x) l -> (v' == p_px p y x c)%Q) /\
    (In (ring_of b p y x) l -> painted (99 # 100 <= alpha)%Q (p_kind p) alpha (p_px p y x c) (shade col c) v')).
Proof.
  intros b col alpha l. induction l as [|i l IH]; intros p p' ND P C A D; cbn [rings] in D.
  - injection D as <-. split; [exact P|]. split; [intros L; destruct A as [A|(_ & A & _)]; [lra|exact A]|]. do 4 (split; [reflexivity|]). intros y x c HX. split; [reflexivity|intros []].
  - destruct (ring b col alpha p i) as [p1|e1] eqn:E; cbn [bind] in D; [|discriminate].
    destruct (ring_pixels b col alpha p i p1 P C A E) as (P1 & B1 & K1 & H1 & W1 & C1 & V1).
    assert (CH : chans p1 = chans p) by (unfold chans; rewrite C1; reflexivity). inversion ND as [|? ? NI ND' EQ]; subst.
    destruct (IH p1 p' ND' P1) as (P' & B' & K2 & H2 & W2 & C2 & V2); [intros c Hc; rewrite K1; apply C; rewrite <- CH; exact Hc| |exact D|].
    { destruct (Qlt_le_dec alpha (99 # 100)) as [L|L]; [right|left; exact L]. destruct A as [A|(A1 & _ & A2)]; [lra|]. split; [exact A1|]. split; [exact (B1 L)|rewrite CH; exact A2]. }
    split; [exact P'|]. split; [exact B'|]. split; [congruence|]. split; [congruence|]. split; [congruence|]. split; [congruence|]. intros y x c HX.
    assert (HX1 : pixel p1 y x c) by (unfold pixel in *; rewrite H1, W1, CH; exact HX). destruct (V1 y x c HX) as (N1 & I1). destruct (V2 y x c HX1) as (N2 & I2).
    rewrite (ring_of_shape b p p1 y x H1 W1) in N2, I2. rewrite K1 in I2. split.
    + intros N. rewrite N2; [apply N1; intros Q; apply N; left; auto|intros Q; apply N; right; exact Q].
    + intros [Q|Q].
      * assert (NQ : ~ In (ring_of b p y x) l) by (rewrite <- Q; exact NI). specialize (I1 (eq_sym Q)). specialize (N2 NQ). destruct I1 as (X1 & X2). split.
        -- intros O. rewrite N2. exact (X1 O).
        -- intros O. destruct (X2 O) as (Z1 & Z2 & Z3). split; [destruct Z1; [left|right]; lra|]. split; [rewrite N2; exact Z2|]. intros F. rewrite N2. exact (Z3 F).
      * assert (NQ : ring_of b p y x <> i) by (intros R; rewrite R in Q; contradiction). specialize (N1 NQ). specialize (I2 Q). destruct I2 as (X1 & X2). split; [exact X1|].
        intros O. destruct (X2 O) as (Z1 & Z2 & Z3).
        assert (MM : ((1 - alpha) * p_px p1 y x c + alpha * shade col c == (1 - alpha) * p_px p y x c + alpha * shade col c)%Q) by (rewrite N1; reflexivity).
        split; [destruct Z1; [left|right]; lra|]. split; [rewrite <- MM; exact Z2|]. intros F. rewrite <- MM. exact (Z3 F).
Qed.
Lemma zrange_NoDup : forall n, NoDup (zrange n).
Proof. intros n. unfold zrange. apply FinFun.Injective_map_NoDup; [intros a c E; lia|apply seq_NoDup]. Qed.
Lemma byte_list : forall l, (forall q, In q l -> exists z, q = inject_Z z /\ 0 <= z <= 255) -> map (fun q => inject_Z (py_int q mod 256)) l = l.
Proof.
  intros l H. induction l as [|q l IH]; [reflexivity|]. cbn [map]. rewrite IH; [|intros a I; apply H; right; exact I]. f_equal. destruct (H q (or_introl eq_refl)) as (z & -> & B). rewrite py_int_Z, Z.mod_small by lia. reflexivity.
Qed.
Lemma byte_colour_shade : forall p col, byte_colour p col -> colour_fits p col -> forall c, (c < chans p)%nat -> (0 <= shade col c <= 255)%Q.
Proof.
  intros p [q|l] B F c H; cbn [byte_colour shade colour_fits] in *; [exact B|].
  assert (G : forall n, (n < length l)%nat -> (0 <= nth n l 0 <= 255)%Q).
  { intros n L. destruct (B (nth n l 0%Q) (nth_In l 0%Q L)) as (z & -> & Z1). split; [apply (proj2 (inject_Z_le 0 z))|apply (proj2 (inject_Z_le z 255))]; lia. }
  destruct (Nat.eqb_spec (length l) 1) as [E|E]; apply G; lia.
Qed.
Lemma same_colour : forall p col, byte_colour p col -> match col with CNum q => CNum q | CList l => CList (map (fun q => inject_Z (py_int q mod 256)) l) end = col.
Proof. intros p [q|l] B; [reflexivity|]. rewrite byte_list by exact B. reflexivity. Qed.
Lemma zrange_nil : forall n, n <= 0 -> zrange n = [].
Proof. intros n H. destruct (zrange n) as [|a l] eqn:E; [reflexivity|]. assert (I1 : In a (zrange n)) by (rewrite E; left; reflexivity). apply in_zrange in I1. lia. Qed.
Lemma rings_fits : forall b col alpha p n l q, rings b col alpha p (n :: l) = Ok q -> p_c p <> None /\ colour_fits p col.
Proof.
  intros b col alpha p n l q D. cbn [rings] in D. destruct (ring_cases b col alpha p n) as [(_ & E)|[(_ & _ & E)|(N & F & p1 & E & _)]]; rewrite E in D; cbn [bind] in D; try discriminate. auto.
Qed.
Lemma box_pixels : forall col alpha size raise p b p', proper_box b -> proper_pic p -> shade_of p col -> byte_colour p col -> ((99 # 100 <= alpha)%Q \/ (0 <= alpha)%Q /\ bytes p) ->
  box_draw col alpha size raise p b = Ok p' ->
  proper_pic p' /\ ((alpha < 99 # 100)%Q -> bytes p') /\
  redrawn p p' (fun y x c v' =>
    (~ frame b p size y x -> (v' == p_px p y x c)%Q) /\
    (frame b p size y x -> painted (99 # 100 <= alpha)%Q (p_kind p) alpha (p_px p y x c) (shade col c) v')).
Proof.
  intros col alpha size raise p b p' PB P C BC A D. unfold box_draw in D. destruct (raise && _); [discriminate|]. cbv zeta in D. rewrite (same_colour p col BC) in D.
  assert (A' : (zrange size = [] /\ p' = p) \/ colour_fits p col).
  { destruct (zrange size) as [|n l] eqn:Z0; [left; cbn [rings] in D; injection D as <-; auto|right; exact (proj2 (rings_fits _ _ _ _ _ _ _ D))]. }
  destruct A' as [(Z0 & ->)|F].
  - split; [exact P|]. split; [intros L; destruct A as [A|(_ & A)]; [lra|exact A]|]. do 4 (split; [reflexivity|]). intros y x c HX. split; [reflexivity|]. intros Q. apply frame_ring in Q; [|exact PB]. apply in_zrange in Q. rewrite Z0 in Q. destruct Q.
  - destruct (rings_pixels b col alpha (zrange size) p p' (zrange_NoDup size) P C) as (P' & B' & K & H & W & CC & V); [destruct A as [A|(A1 & A2)]; [left; exact A|right; split; [exact A1|split; [exact A2|apply byte_colour_shade; assumption]]]|exact D|].
    split; [exact P'|]. split; [exact B'|]. do 4 (split; [assumption|]). intros y x c HX. destruct (V y x c HX) as (V1 & V2). rewrite in_zrange in V1, V2. rewrite <- frame_ring in V1, V2 by exact PB. auto.
Qed.
Lemma fits_bytes : forall p col, colour_fits p (match col with CNum q => CNum q | CList l => CList (map (fun q => inject_Z (py_int q mod 256)) l) end) <-> colour_fits p col.
Proof. intros p [q|l]; cbn [colour_fits]; [tauto|]. rewrite map_length. tauto. Qed.
Lemma rings_accepts : forall b col alpha l p, p_c p <> None -> colour_fits p col -> exists p', rings b col alpha p l = Ok p' /\ p_h p' = p_h p /\ p_w p' = p_w p /\ p_c p' = p_c p.
Proof.
  intros b col alpha l. induction l as [|i l IH]; intros p N F; cbn [rings]; [eauto|].
  destruct (ring_cases b col alpha p i) as [(N' & _)|[(_ & F' & _)|(_ & _ & p1 & E & H & W & C & _)]]; [contradiction|contradiction|]. rewrite E. cbn [bind].
  destruct (IH p1) as (p' & E' & H' & W' & C'); [congruence|destruct col; [exact Logic.I|]; cbn [colour_fits] in *; unfold chans in *; rewrite C; exact F|]. exists p'. split; [exact E'|]. repeat split; congruence.
Qed.
Lemma box_cases : forall col alpha size raise p b,
  (raise = true /\ bb_is_out_of_image b (p_h p, p_w p) true false = true /\ box_draw col alpha size raise p b = Err GenericException) \/
  (~ (raise = true /\ bb_is_out_of_image b (p_h p, p_w p) true false = true) /\
   ((size <= 0 /\ box_draw col alpha size raise p b = Ok p) \/
    (0 < size /\ p_c p = None /\ box_draw col alpha size raise p b = Err IndexError) \/
    (0 < size /\ p_c p <> None /\ ~ colour_fits p col /\ box_draw col alpha size raise p b = Err ValueError) \/
    (0 < size /\ p_c p <> None /\ colour_fits p col /\ exists p', box_draw col alpha size raise p b = Ok p' /\ p_h p' = p_h p /\ p_w p' = p_w p /\ p_c p' = p_c p))).
Proof.
  intros col alpha size raise p b. unfold box_draw. destruct (raise && bb_is_out_of_image b (p_h p, p_w p) true false) eqn:R.
  - apply Bool.andb_true_iff in R. left. tauto.
  - right. split; [intros Q; apply Bool.andb_true_iff in Q; congruence|]. cbv zeta. set (col' := match col with CNum q => CNum q | CList l => _ end).
    assert (FB : colour_fits p col' <-> colour_fits p col) by apply fits_bytes. clearbody col'.
    destruct (Z_le_gt_dec size 0) as [S|S]; [left; rewrite zrange_nil by exact S; auto|right].
    assert (Z1 : exists n l, zrange size = n :: l).
    { destruct (zrange size) as [|n l] eqn:E; [|eauto]. assert (I1 : In 0 (zrange size)) by (apply in_zrange; lia). rewrite E in I1. destruct I1. }
    destruct (ring_cases b col' alpha p (nth 0 (zrange size) 0)) as [(N & E)|[(N & F & E)|(N & F & p1 & E & _)]].
    + left. split; [lia|]. split; [exact N|]. destruct Z1 as (n & l & Z1). rewrite Z1 in *. cbn [nth] in E. cbn [rings]. rewrite E. reflexivity.
    + right. left. split; [lia|]. split; [exact N|]. split; [tauto|]. destruct Z1 as (n & l & Z1). rewrite Z1 in *. cbn [nth] in E. cbn [rings]. rewrite E. reflexivity.
    + right. right. split; [lia|]. split; [exact N|]. split; [tauto|]. apply rings_accepts; assumption.
Qed.
Lemma box_accepts : forall col alpha size raise p b, (exists p', box_draw col alpha size raise p b = Ok p') <-> box_accepted col size raise p b.
Proof.
  intros col alpha size raise p b. unfold box_accepted.
  destruct (box_cases col alpha size raise p b) as [(R & O & E)|(R & [(S & E)|[(S & N & E)|[(S & N & F & E)|(S & N & F & p' & E & _)]]])]; rewrite E.
  - split; [intros (q & Q); discriminate|intros (Q & _); tauto].
  - split; [intros _; split; [exact R|intros; lia]|eauto].
  - split; [intros (q & Q); discriminate|intros (_ & Q); destruct (Q S); contradiction].
  - split; [intros (q & Q); discriminate|intros (_ & Q); destruct (Q S); contradiction].
  - split; [intros _; auto|eauto].
Qed.
Lemma box_errors : forall col alpha size raise p b,
  let unseen := raise = true /\ bb_is_out_of_image b (p_h p, p_w p) true false = true in
  (box_draw col alpha size raise p b = Err GenericException <-> unseen) /\
  (box_draw col alpha size raise p b = Err IndexError <-> ~ unseen /\ 0 < size /\ p_c p = None) /\
  (box_draw col alpha size raise p b = Err ValueError <-> ~ unseen /\ 0 < size /\ p_c p <> None /\ ~ colour_fits p col).
Proof.
  intros col alpha size raise p b unseen. unfold unseen.
  destruct (box_cases col alpha size raise p b) as [(R & O & E)|(R & [(S & E)|[(S & N & E)|[(S & N & F & E)|(S & N & F & p' & E & _)]]])]; rewrite E;
    (split; [|split]); (split; [intros Q; try discriminate; auto|intros Q; try reflexivity; exfalso; try tauto; try lia]).
Qed.
Lemma frame_inside : forall b p y x, proper_box b -> proper_pic p -> bb_is_fully_within_image b (p_h p, p_w p) = true -> frame b p 1 y x -> 0 <= y < p_h p /\ 0 <= x < p_w p.
Proof.
  intros b p y x (X & Y) P F (t & d & l & r & B & Q1 & Q2 & _ & _). unfold box_sides in B. rewrite F in B. destruct B as (-> & -> & -> & ->).
  unfold bb_is_fully_within_image in F. rewrite !Bool.andb_true_iff, !qleb_iff, !qltb_iff in F. destruct F as (((A & B) & C) & D).
  pose proof (np_round_nonneg _ A). pose proof (np_round_nonneg _ C).
  assert (0 < p_h p) by (apply (proj1 (inject_Z_lt 0 (p_h p))); change (inject_Z 0) with 0%Q; lra).
  assert (0 < p_w p) by (apply (proj1 (inject_Z_lt 0 (p_w p))); change (inject_Z 0) with 0%Q; lra). lia.
Qed.
Lemma frame_shape : forall b p q size y x, p_h q = p_h p -> p_w q = p_w p -> (frame b q size y x <-> frame b p size y x).
Proof. intros b p q size y x H W. unfold frame, box_sides. rewrite H, W. tauto. Qed.
Lemma frame_dec : forall b p size y x, proper_box b -> frame b p size y x \/ ~ frame b p size y x.
Proof. intros b p size y x PB. rewrite frame_ring by exact PB. lia. Qed.
Lemma boxes_pixels : forall col alpha size raise l p p', (forall b, In b l -> proper_box b) -> proper_pic p -> shade_of p col -> byte_colour p col -> ((99 # 100 <= alpha)%Q \/ (0 <= alpha)%Q /\ bytes p) ->
  boxes_draw col alpha size raise p l = Ok p' ->
  proper_pic p' /\
  redrawn p p' (fun y x c v' =>
    ((forall b, In b l -> ~ frame b p size y x) -> (v' == p_px p y x c)%Q) /\
    ((99 # 100 <= alpha)%Q -> (exists b, In b l /\ frame b p size y x) -> (v' == shade col c)%Q) /\
    between (p_px p y x c) (shade col c) v').
Proof.
  intros col alpha size raise l. induction l as [|b l IH]; intros p p' PB P C BC A D; cbn [boxes_draw] in D.
  - injection D as <-. split; [exact P|]. do 4 (split; [reflexivity|]). intros y x c HX. split; [reflexivity|]. split; [intros _ (b & [] & _)|]. apply between_refl. reflexivity.
  - destruct (box_draw col alpha size raise p b) as [p1|e1] eqn:E; cbn [bind] in D; [|discriminate]. pose proof (PB b (or_introl eq_refl)) as PB1.
    destruct (box_pixels col alpha size raise p b p1 PB1 P C BC A E) as (P1 & B1 & K1 & H1 & W1 & C1 & V1).
    assert (CH : chans p1 = chans p) by (unfold chans; rewrite C1; reflexivity).
    destruct (IH p1 p') as (P' & K2 & H2 & W2 & C2 & V2); [intros b' I'; apply PB; right; exact I'|exact P1|intros c Hc; rewrite K1; apply C; rewrite <- CH; exact Hc|exact BC| |exact D|].
    { destruct (Qlt_le_dec alpha (99 # 100)) as [L|L]; [right|left; exact L]. destruct A as [A|(A1 & _)]; [lra|]. split; [exact A1|exact (B1 L)]. }
    split; [exact P'|]. split; [congruence|]. split; [congruence|]. split; [congruence|]. split; [congruence|]. intros y x c HX.
    assert (HX1 : pixel p1 y x c) by (unfold pixel in *; rewrite H1, W1, CH; exact HX). destruct (V1 y x c HX) as (N1 & I1). destruct (V2 y x c HX1) as (N2 & I2 & B2).
    assert (OD : (99 # 100 <= alpha \/ ~ 99 # 100 <= alpha)%Q) by (destruct (Qlt_le_dec alpha (99 # 100)); [right; lra|left; assumption]).
    assert (BB : between (p_px p y x c) (shade col c) (p_px p1 y x c)).
    { destruct (frame_dec b p size y x PB1) as [Q|Q]; [|apply between_refl; apply N1; exact Q]. exact (painted_between _ _ _ _ _ _ OD (I1 Q)). }
    split; [|split; [|exact (between_trans _ _ _ _ BB B2)]].
    + intros N. rewrite N2; [apply N1; apply N; left; reflexivity|]. intros b' I' Q. apply (frame_shape b' p p1 size y x H1 W1) in Q. exact (N b' (or_intror I') Q).
    + intros O (b' & [<-|I'] & Q).
      * assert (F : (p_px p1 y x c == shade col c)%Q) by (apply (I1 Q); exact O). unfold between in B2. destruct B2; lra.
      * apply I2; [exact O|]. exists b'. split; [exact I'|]. apply (frame_shape b' p p1 size y x H1 W1). exact Q.
Qed.
Lemma boxes_accepts : forall col alpha size raise l p, (exists p', boxes_draw col alpha size raise p l = Ok p') <-> (forall b, In b l -> box_accepted col size raise p b).
Proof.
  intros col alpha size raise l. induction l as [|b l IH]; intros p; cbn [boxes_draw]; [split; [intros _ b []|eauto]|].
  assert (SH : forall p1, box_draw col alpha size raise p b = Ok p1 -> forall b', box_accepted col size raise p1 b' <-> box_accepted col size raise p b').
  { intros p1 E b'. assert (S : p_h p1 = p_h p /\ p_w p1 = p_w p /\ p_c p1 = p_c p).
    { destruct (box_cases col alpha size raise p b) as [(R & O & E')|(R & [(S & E')|[(S & N & E')|[(S & N & F & E')|(S & N & F & p' & E' & H & W & C)]]])]; rewrite E in E'; try discriminate; injection E' as ->; auto. }
    destruct S as (H & W & C). unfold box_accepted, colour_fits, chans. rewrite H, W, C. tauto. }
  split.
  - intros (p' & D) b' I'. destruct (box_draw col alpha size raise p b) as [p1|e1] eqn:E; cbn [bind] in D; [|discriminate]. destruct I' as [<-|I']; [apply (box_accepts col alpha); eauto|].
    apply (SH p1 eq_refl). apply (proj1 (IH p1) (ex_intro _ p' D)). exact I'.
  - intros A. destruct (proj2 (box_accepts col alpha size raise p b) (A b (or_introl eq_refl))) as (p1 & E). rewrite E in *. cbn [bind]. apply IH. intros b' I'. apply (SH p1 eq_refl). apply A. right. exact I'.
Qed.

(** ** Overlays *)
Lemma near : forall cv2 fy fx p h' w', resizes cv2 -> picks_by_position cv2 fy fx -> proper_pic p -> 0 < p_h p -> 0 < p_w p -> 0 <= h' -> 0 <= w' -> In (p_kind p) [KBool; KUint 8] ->
  exists p', imresize_single cv2 p (STup [Some (Int h'); Some (Int w')]) (Some (Some Nearest)) = Ok p' /\ proper_pic p' /\
    p_kind p' = p_kind p /\ p_h p' = h' /\ p_w p' = w' /\ p_c p' = p_c p /\
    forall y x c, pixel p' y x c -> 0 <= fy (p_h p) h' y < p_h p /\ 0 <= fx (p_w p) w' x < p_w p /\ (p_px p' y x c == p_px p (fy (p_h p) h' y) (fx (p_w p) w' x) c)%Q.
Proof.
  intros cv2 fy fx p h' w' HC (F1 & F2 & F3 & F4) P Hh Hw Hh' Hw' K.
  set (s := STup [Some (Int h'); Some (Int w')]).
  assert (R : request s (Int h', Int w')).
  { unfold s. cbn. split; [reflexivity|]. change 0%Q with (inject_Z 0). split; apply (proj2 (inject_Z_le 0 _)); assumption. }
  destruct (proj2 (accepted cv2 p s (Int h', Int w') (Some (Some Nearest)) h' w' HC P R eq_refl eq_refl)) as (p' & E).
  { intros _. split; [lia|]. split; [lia|]. exists Nearest. split; [reflexivity|]. left. destruct K as [<-|[<-|[]]]; cbn; tauto. }
  exists p'. split; [exact E|]. destruct (resized_pixels cv2 p s _ p' HC P E) as (P' & X). split; [exact P'|].
  destruct (single_form cv2 _ _ _ _ E) as (sz & R' & K' & S1 & S2 & C'). assert (sz = (Int h', Int w')) as ->.
  { unfold s in R'. destruct sz as [a b]. cbn in R'. destruct R' as (R' & _). congruence. }
  cbn in S1, S2. split; [exact K'|]. split; [exact S1|]. split; [exact S2|]. split; [exact C'|]. intros y x c HX. pose proof HX as (Hy & Hx & Hc). rewrite S1 in Hy. rewrite S2 in Hx.
  split; [apply F1; assumption|]. split; [apply F2; assumption|].
  destruct (X y x c HX) as [(A & B & C)|(i & o & A & B & C & D & F & G & KK & L & M)].
  - rewrite C, <- A, <- B, S1, S2. destruct (F3 h' y Hy) as (-> & _). destruct (F3 w' x Hx) as (_ & ->). reflexivity.
  - cbn in G. subst i. rewrite S1, S2 in L. pose proof (F4 _ _ _ _ _ _ _ L y x Hy Hx) as E2. cbn beta in E2. rewrite M.
    apply (post_pre Nearest); [|exact E2]. apply P. split; [apply F1; assumption|]. split; [apply F2; assumption|]. unfold chans in *. rewrite <- C'. exact Hc.
Qed.
Lemma mix8_blended : forall alpha fg bg, (exists z, (fg == inject_Z z)%Q /\ 0 <= z <= 255) -> (exists z, (bg == inject_Z z)%Q /\ 0 <= z <= 255) -> blended8 alpha fg bg (mix8 alpha fg bg).
Proof.
  intros alpha fg bg (f & F & Fb) (g & G & Gb). unfold blended8, mix8. destruct (qleb (99 # 100) alpha) eqn:A; [apply qleb_iff in A|apply qleb_false in A].
  - split; [reflexivity|]. split; intros; lra.
  - destruct (qleb alpha (1 # 100)) eqn:B; [apply qleb_iff in B|apply qleb_false in B].
    + split; [intros; lra|]. split; [reflexivity|]. intros; lra.
    + split; [intros; lra|]. split; [intros; lra|]. intros _. split; [eexists; reflexivity|].
      set (m := (fg * alpha + bg * (1 - alpha))%Q). assert (E : (alpha * fg + (1 - alpha) * bg == m)%Q) by (unfold m; ring).
      assert (FQ : (0 <= fg <= 255)%Q) by (rewrite F; split; [apply (proj2 (inject_Z_le 0 f))|apply (proj2 (inject_Z_le f 255))]; lia).
      assert (GQ : (0 <= bg <= 255)%Q) by (rewrite G; split; [apply (proj2 (inject_Z_le 0 g))|apply (proj2 (inject_Z_le g 255))]; lia).
      assert (MB : (0 <= m <= 255)%Q).
      { assert (E2 : (m == (1 - alpha) * bg + alpha * fg)%Q) by (unfold m; ring). rewrite E2. destruct (Qlt_le_dec bg fg) as [Q|Q]; [assert (X := convex alpha bg fg)|assert (X := convex' alpha bg fg)]; lra. }
      assert (RB : 0 <= np_round m <= 255).
      { pose proof (np_round_mono 0 m (proj1 MB)) as R1. pose proof (np_round_mono m 255 (proj2 MB)) as R2. change (np_round 0) with 0 in R1. change (np_round 255) with 255 in R2. lia. }
      assert (Z1 : zclip (np_round m) 0 255 = np_round m) by (unfold zclip; lia). rewrite Z1. destruct (np_round_spec m). lra.
Qed.
Lemma in_classes : forall arr c z, In z (classes arr c) <-> exists y x, 0 <= y < p_h arr /\ 0 <= x < p_w arr /\ py_int (p_px arr y x c) = z.
Proof.
  intros arr c z. unfold classes. rewrite in_flat_map. split.
  - intros (y & Hy & H). apply in_map_iff in H. destruct H as (x & E & Hx). apply in_zrange in Hy, Hx. exists y, x. auto.
  - intros (y & x & Hy & Hx & E). exists y. split; [apply in_zrange; exact Hy|]. apply in_map_iff. exists x. split; [exact E|apply in_zrange; exact Hx].
Qed.
Lemma fold_max : forall l z m, fold_left Z.max l z < m <-> forall a, In a (z :: l) -> a < m.
Proof.
  induction l as [|b l IH]; intros z m; cbn [fold_left].
  - split; [intros H a [<-|[]]; exact H|intros H; apply H; left; reflexivity].
  - rewrite IH. split.
    + intros H a [<-|[<-|I]]; [| |apply H; right; exact I]; pose proof (H _ (or_introl eq_refl)); lia.
    + intros H a [<-|I]; [pose proof (H z (or_introl eq_refl)); pose proof (H b (or_intror (or_introl eq_refl))); lia|apply H; right; right; exact I].
Qed.
Lemma class_py : forall arr c y x, class_map arr -> pixel arr y x c -> exists z, p_px arr y x c = inject_Z z /\ py_int (p_px arr y x c) = z /\ 0 <= z.
Proof. intros arr c y x (_ & _ & _ & H) HX. destruct (H y x c HX) as (z & E & B). exists z. split; [exact E|]. split; [rewrite E; apply py_int_Z|lia]. Qed.
Lemma palette_byte : forall colors z ch, palette colors -> 0 <= z < Z.of_nat (length colors) -> (ch < 3)%nat -> exists n, nth ch (nth (Z.to_nat z) colors []) 0%Q = inject_Z n /\ 0 <= n <= 255.
Proof.
  intros colors z ch P Z1 C. unfold palette in P. rewrite Forall_forall in P. destruct (P (nth (Z.to_nat z) colors [])) as (L & F); [apply nth_In; lia|]. rewrite Forall_forall in F. apply F. apply nth_In. lia.
Qed.
Lemma rgb8_byte : forall p y x c, rgb8 p -> 0 <= y < p_h p -> 0 <= x < p_w p -> (c < 3)%nat -> (exists z, (p_px p y x c == inject_Z z)%Q /\ 0 <= z <= 255).
Proof. intros p y x c ((_ & _ & P) & K & C) Y X H. assert (V : value_of (p_kind p) (p_px p y x c)) by (apply P; split; [exact Y|]; split; [exact X|]; unfold chans; rewrite C; exact H). rewrite K in V. exact V. Qed.
Lemma blended8_compat : forall alpha fg fg' bg r r', (fg == fg')%Q -> (r == r')%Q -> blended8 alpha fg bg r -> blended8 alpha fg' bg r'.
Proof.
  intros alpha fg fg' bg r r' E E' (A & B & C). split; [intros Q; rewrite <- E, <- E'; auto|]. split; [intros Q; rewrite <- E'; auto|]. intros Q. destruct (C Q) as ((z & Z1) & D). split; [exists z; rewrite <- E'; exact Z1|]. rewrite <- E, <- E'. exact D.
Qed.
Lemma mix8_compat : forall alpha fg fg' bg, (fg == fg')%Q -> (mix8 alpha fg bg == mix8 alpha fg' bg)%Q.
Proof.
  intros alpha fg fg' bg E. unfold mix8. destruct (qleb (99 # 100) alpha); [exact E|]. destruct (qleb alpha (1 # 100)); [reflexivity|].
  assert (N : np_round (fg * alpha + bg * (1 - alpha)) = np_round (fg' * alpha + bg * (1 - alpha))).
  { apply Z.le_antisymm; apply np_round_mono; rewrite E; apply Qle_refl. }
  rewrite N. reflexivity.
Qed.
Lemma channel_overlay : forall cv2 fy fx arr image alpha colors bgflag background c, resizes cv2 -> picks_by_position cv2 fy fx -> class_map arr -> rgb8 image -> palette colors -> (c < chans arr)%nat ->
  (coloured arr colors c -> exists r, overlay_channel cv2 arr image alpha colors bgflag background c = Ok r /\ class_pixels fy fx arr image alpha colors bgflag background c r) /\
  (~ coloured arr colors c -> overlay_channel cv2 arr image alpha colors bgflag background c = Err AssertionError) /\ (coloured arr colors c \/ ~ coloured arr colors c).
Proof.
  intros cv2 fy fx arr image alpha colors bgflag background c HC HP CM RG PA Hc. pose proof CM as (KA & HA & WA & VA). pose proof RG as ((H0 & W0 & PI) & KI & CI).
  assert (PX : forall y x, 0 <= y < p_h arr -> 0 <= x < p_w arr -> pixel arr y x c) by (intros; split; auto).
  assert (NE : exists z l, classes arr c = z :: l).
  { destruct (classes arr c) as [|z l] eqn:E; [|eauto]. assert (I1 : In (py_int (p_px arr 0 0 c)) (classes arr c)) by (apply in_classes; exists 0, 0; split; [lia|]; split; [lia|reflexivity]). rewrite E in I1. destruct I1. }
  destruct NE as (z0 & l0 & NE).
  assert (CO : coloured arr colors c <-> fold_left Z.max l0 z0 < Z.of_nat (length colors)).
  { rewrite fold_max, <- NE. split.
    - intros H a I. apply in_classes in I. destruct I as (y & x & Y & X & <-). destruct (class_py arr c y x CM (PX y x Y X)) as (z & E & E2 & _). rewrite E2. exact (H y x z Y X E).
    - intros H y x z Y X E. apply H. apply in_classes. exists y, x. split; [exact Y|]. split; [exact X|]. rewrite E. apply py_int_Z. }
  unfold overlay_channel. rewrite NE. destruct (Z.ltb_spec (Z.of_nat (length colors)) (1 + fold_left Z.max l0 z0)) as [L|L].
  { split; [intros Q; apply CO in Q; lia|]. split; [intros _; reflexivity|]. right. intros Q. apply CO in Q. lia. }
  split; [intros Q|split; [intros Q; exfalso; apply Q; apply CO; lia|left; apply CO; lia]]. cbv zeta.
  set (d0 := mkPic (KUint 8) (p_h arr) (p_w arr) (Some 3%nat) _).
  assert (PD : proper_pic d0).
  { split; [cbn; lia|]. split; [cbn; lia|]. intros y x ch (Y & X & C'). cbn in Y, X. unfold chans in C'. cbn in C'. cbn [d0 p_kind p_px]. destruct (class_py arr c y x CM (PX y x Y X)) as (z & E & E2 & Z1). rewrite E2. destruct (Z.ltb_spec z 0); [lia|].
    destruct (palette_byte colors z ch PA) as (n & En & Bn); [split; [lia|exact (Q y x z Y X E)]|exact C'|]. exists n. rewrite En. split; [reflexivity|]. change (2 ^ 8 - 1) with 255. exact Bn. }
  destruct (near cv2 fy fx d0 (p_h image) (p_w image) HC HP PD HA WA H0 W0) as (d & ED & PD' & KD & HD & WD & CD & VD); [cbn; tauto|]. rewrite ED. cbn [bind].
  assert (CP : forall y x ch, 0 <= y < p_h image -> 0 <= x < p_w image -> (ch < 3)%nat -> exists z, 0 <= z < Z.of_nat (length colors) /\
     0 <= fy (p_h arr) (p_h image) y < p_h arr /\ 0 <= fx (p_w arr) (p_w image) x < p_w arr /\
     p_px arr (fy (p_h arr) (p_h image) y) (fx (p_w arr) (p_w image) x) c = inject_Z z /\
     blended8 alpha (nth ch (nth (Z.to_nat z) colors []) 0%Q) (p_px image y x ch) (mix8 alpha (p_px d y x ch) (p_px image y x ch))).
  { intros y x ch Y X C'. destruct (VD y x ch) as (V1 & V2 & V3); [split; [rewrite HD; exact Y|split; [rewrite WD; exact X|unfold chans; rewrite CD; exact C']]|]. cbn [d0 p_h p_w p_px] in V1, V2, V3.
    destruct (class_py arr c _ _ CM (PX _ _ V1 V2)) as (z & E & E2 & Z1). assert (ZB : 0 <= z < Z.of_nat (length colors)) by (split; [exact Z1|exact (Q _ _ z V1 V2 E)]). exists z. split; [exact ZB|]. split; [exact V1|]. split; [exact V2|]. split; [exact E|]. rewrite E2 in V3. destruct (Z.ltb_spec z 0); [lia|].
    eapply blended8_compat; [reflexivity|symmetry; apply mix8_compat; exact V3|]. apply mix8_blended; [|apply rgb8_byte; assumption]. destruct (palette_byte colors z ch PA ZB C') as (n & En & Bn). exists n. rewrite En. split; [reflexivity|exact Bn]. }
  destruct bgflag.
  - eexists. split; [reflexivity|]. split; [reflexivity|]. split; [reflexivity|]. split; [reflexivity|]. split; [reflexivity|]. intros y x ch (Y & X & C'). destruct (CP y x ch Y X C') as (z & ZB & _ & _ & E & B). exists z. split; [exact ZB|]. split; [exact E|]. split; [discriminate|intros _; exact B].
  - set (m0 := mkPic KBool (p_h arr) (p_w arr) None _).
    assert (PM : proper_pic m0).
    { split; [cbn; lia|]. split; [cbn; lia|]. intros y x ch _. cbn [m0 p_kind p_px]. destruct (_ =? _); [left|right]; reflexivity. }
    destruct (near cv2 fy fx m0 (p_h image) (p_w image) HC HP PM HA WA H0 W0) as (m & EM & PM' & KM & HM & WM & CM' & VM); [cbn; tauto|]. rewrite EM. cbn [bind].
    eexists. split; [reflexivity|]. split; [reflexivity|]. split; [reflexivity|]. split; [reflexivity|]. split; [reflexivity|]. intros y x ch (Y & X & C'). cbn [p_h p_w] in Y, X. unfold chans in C'. cbn [p_c] in C'. cbn [p_px].
    destruct (CP y x ch Y X C') as (z & ZB & V1 & V2 & E & B). exists z. split; [exact ZB|]. split; [exact E|].
    destruct (VM y x 0%nat) as (_ & _ & VM'); [split; [rewrite HM; exact Y|split; [rewrite WM; exact X|unfold chans; rewrite CM'; cbn; lia]]|]. cbn [m0 p_h p_w p_px] in VM'. rewrite E, py_int_Z in VM'.
    destruct (Z.eqb_spec z background) as [Eb|Nb].
    + assert (Q1 : qeqb (p_px m y x 0%nat) 0 = true) by (apply qeqb_iff; exact VM'). rewrite Q1. split; [reflexivity|]. intros [A|A]; [discriminate|contradiction].
    + assert (Q1 : qeqb (p_px m y x 0%nat) 0 = false) by (apply qeqb_false; rewrite VM'; discriminate). rewrite Q1. split; [intros; contradiction|intros _; exact B].
Qed.
Lemma mapM_err_in : forall {A B} (f : A -> res B) l e, mapM f l = Err e -> exists x, In x l /\ f x = Err e.
Proof.
  intros A B f l. induction l as [|x l IH]; intros e H; [discriminate|]. rewrite mapM_cons in H. destruct (f x) as [y|e1] eqn:E; cbn [bind] in H.
  - destruct (mapM f l) as [r|e2] eqn:E2; cbn [bind] in H; [discriminate|]. injection H as <-. destruct (IH e2 eq_refl) as (z & I1 & E3). exists z. split; [right; exact I1|exact E3].
  - injection H as <-. exists x. split; [left; reflexivity|exact E].
Qed.
Lemma drawable_iff : forall image alpha resize, rgb8 image -> (drawable image alpha resize = true <-> overlay_ok alpha resize).
Proof.
  intros image alpha resize (_ & K & C). unfold drawable, overlay_ok. rewrite K, C. rewrite !Bool.andb_true_iff, !qleb_iff. destruct resize as [b|]; [split; [intros ((A & B) & _); split; [auto|discriminate]|intros ((A & B) & _); auto]|split; [intros (_ & Q); discriminate|intros (_ & Q); congruence]].
Qed.
Lemma canvas_ok : forall cv2 map image resize, resizes cv2 -> rgb8 image -> 0 < p_h image -> 0 < p_w image -> 0 < p_h map -> 0 < p_w map ->
  exists image', (if resize : bool then imresize_single cv2 image (STup [Some (Int (p_h map)); Some (Int (p_w map))]) (Some (Some Cubic)) else Ok image) = Ok image' /\ canvas cv2 map image resize image' /\ rgb8 image' /\ 0 < p_h image' /\ 0 < p_w image'.
Proof.
  intros cv2 map image resize HC RG H W HM WM. destruct resize; [|exists image; split; [reflexivity|]; split; [reflexivity|]; auto].
  set (s := STup [Some (Int (p_h map)); Some (Int (p_w map))]). pose proof RG as (P & K & C).
  assert (R : request s (Int (p_h map), Int (p_w map))).
  { unfold s. cbn. split; [reflexivity|]. change 0%Q with (inject_Z 0). split; apply (proj2 (inject_Z_le 0 _)); lia. }
  destruct (proj2 (accepted cv2 image s (Int (p_h map), Int (p_w map)) (Some (Some Cubic)) _ _ HC P R eq_refl eq_refl)) as (p' & E).
  { intros _. split; [lia|]. split; [lia|]. exists Cubic. split; [reflexivity|]. left. rewrite K. cbn. tauto. }
  destruct (resized_pixels cv2 image s _ p' HC P E) as (P' & _). destruct (single_form cv2 _ _ _ _ E) as (sz & R' & K' & S1 & S2 & C'). assert (sz = (Int (p_h map), Int (p_w map))) as ->.
  { unfold s in R'. destruct sz as [a b]. cbn in R'. destruct R' as (R' & _). congruence. }
  cbn in S1, S2. exists p'. split; [exact E|]. assert (RG' : rgb8 p') by (split; [exact P'|]; split; congruence). split; [split; [exact E|]; auto|]. split; [exact RG'|]. lia.
Qed.
Lemma segmap_outcome : forall cv2 fy fx arr image alpha resize colors bgflag background, resizes cv2 -> picks_by_position cv2 fy fx -> class_map arr -> rgb8 image -> 0 < p_h image -> 0 < p_w image -> palette colors ->
  (overlay_ok alpha resize -> (forall c, (c < chans arr)%nat -> coloured arr colors c) -> exists b image' l, resize = Some b /\ canvas cv2 arr image b image' /\ overlay_segmap cv2 arr image alpha resize colors bgflag background = Ok l /\
     length l = chans arr /\ forall c r, nth_error l c = Some r -> class_pixels fy fx arr image' alpha colors bgflag background c r) /\
  (~ (overlay_ok alpha resize /\ (forall c, (c < chans arr)%nat -> coloured arr colors c)) -> overlay_segmap cv2 arr image alpha resize colors bgflag background = Err AssertionError).
Proof.
  intros cv2 fy fx arr image alpha resize colors bgflag background HC HP CM RG H W PA. pose proof (drawable_iff image alpha resize RG) as DI. unfold overlay_segmap. destruct (drawable image alpha resize) eqn:D; cbn [negb].
  2:{ split; [intros Q; apply DI in Q; discriminate|reflexivity]. }
  assert (OK : overlay_ok alpha resize) by (apply DI; reflexivity). destruct resize as [b|]; [|destruct OK as (_ & Q); congruence].
  pose proof CM as (KA & HA & WA & VA). destruct (canvas_ok cv2 arr image b HC RG H W HA WA) as (image' & E & CV & RG' & H' & W'). rewrite E. cbn [bind].
  assert (CH : forall c, In c (seq 0 (depth arr)) -> (c < chans arr)%nat) by (intros c I; apply in_seq in I; unfold depth, chans in *; lia).
  split.
  - intros _ CO. destruct (mapM_nth (overlay_channel cv2 arr image' alpha colors bgflag background) (seq 0 (depth arr))) as (l & E2 & L & N).
    { intros c I. destruct (channel_overlay cv2 fy fx arr image' alpha colors bgflag background c HC HP CM RG' PA (CH c I)) as (X & _). destruct (X (CO c (CH c I))) as (r & Er & _). eauto. }
    exists b, image', l. split; [reflexivity|]. split; [exact CV|]. split; [exact E2|]. rewrite seq_length in L. split; [exact L|]. intros c r Nr.
    assert (Hc : (c < length l)%nat) by (apply nth_error_Some; congruence). assert (Hc' : (c < chans arr)%nat) by (unfold depth, chans in *; lia).
    destruct (channel_overlay cv2 fy fx arr image' alpha colors bgflag background c HC HP CM RG' PA Hc') as (X & _). destruct (X (CO c Hc')) as (r' & Er & Pr).
    assert (Ns : nth_error (seq 0 (depth arr)) c = Some c).
    { rewrite (nth_error_nth' _ 0%nat) by (rewrite seq_length; lia). rewrite seq_nth by lia. reflexivity. }
    specialize (N c c r Ns). rewrite Er in N. injection N as N. rewrite (nth_error_nth l c r Nr) in N. subst r'. exact Pr.
  - intros NC. destruct (mapM _ _) as [l|e] eqn:E2.
    + exfalso. apply NC. split; [exact OK|]. intros c Hc. destruct (channel_overlay cv2 fy fx arr image' alpha colors bgflag background c HC HP CM RG' PA Hc) as (_ & X & [Y|Y]); [exact Y|]. specialize (X Y).
      pose proof (mapM_rel _ (fun c r => overlay_channel cv2 arr image' alpha colors bgflag background c = Ok r) _ _ E2 (fun _ _ _ q => q)) as F2.
      assert (I : In c (seq 0 (depth arr))) by (apply in_seq; unfold depth, chans in *; lia). clear - F2 I X. induction F2 as [|a r l l' R F2 IH]; [destruct I|]. destruct I as [->|I]; [congruence|auto].
    + destruct (mapM_err_in _ _ _ E2) as (c & I & Er). destruct (channel_overlay cv2 fy fx arr image' alpha colors bgflag background c HC HP CM RG' PA (CH c I)) as (X1 & X & [Y|Y]); [destruct (X1 Y) as (r & Q & _); congruence|]. rewrite (X Y) in Er. congruence.
Qed.

Lemma heat_byte : forall q, (0 <= q <= 1)%Q -> let u := zclip (np_round (q * 255)) 0 255 in 0 <= u <= 255 /\ (255 * q - (1 # 2) <= inject_Z u <= 255 * q + (1 # 2))%Q.
Proof.
  intros q Q u. assert (B : (0 <= q * 255 <= 255)%Q) by lra. pose proof (np_round_mono 0 (q * 255) (proj1 B)) as R1. pose proof (np_round_mono (q * 255) 255 (proj2 B)) as R2. change (np_round 0) with 0 in R1. change (np_round 255) with 255 in R2.
  assert (E : u = np_round (q * 255)) by (unfold u, zclip; lia). rewrite E. destruct (np_round_spec (q * 255)). split; [lia|]. lra.
Qed.
Lemma trunc_clip : forall q, 0 <= py_int (qclip q 0 255) <= 255 /\ ((0 <= q <= 255)%Q -> (inject_Z (py_int (qclip q 0 255)) <= q < inject_Z (py_int (qclip q 0 255)) + 1)%Q).
Proof.
  intros q. assert (B : (0 <= qclip q 0 255 <= 255)%Q) by (apply qclip_in; lra). split.
  - pose proof (py_int_mono 0 _ (proj1 B)) as R1. pose proof (py_int_mono _ 255 (proj2 B)) as R2. change (py_int 0) with 0 in R1. change (py_int 255) with 255 in R2. lia.
  - intros Q. rewrite (py_int_compat (qclip q 0 255) q) by (apply qclip_id; lra). destruct (py_int_spec q) as [(A & C)|(A & C)]; lra.
Qed.
Lemma heat_final : forall cmap v u ch, (0 <= v <= 1)%Q -> 0 <= u <= 255 -> (255 * v - (1 # 2) <= inject_Z u <= 255 * v + (1 # 2))%Q ->
  forall w, (w == inject_Z u)%Q -> (forall f, cmap = Some f -> (f (w / 255)%Q ch == f (inject_Z u / 255)%Q ch)%Q) ->
  byte_of cmap v ch (inject_Z (py_int (qclip ((match cmap with Some f => f (w / 255)%Q ch | None => (w / 255)%Q end) * 255) 0 255))).
Proof.
  intros cmap v u ch V U UV w W FC. destruct cmap as [f|].
  - specialize (FC f eq_refl). set (q := (f (w / 255)%Q ch * 255)%Q). destruct (trunc_clip q) as (T1 & T2). split; [exists (py_int (qclip q 0 255)); split; [reflexivity|exact T1]|]. exists u. split; [exact U|]. split; [exact UV|].
    intros F. assert (Q1 : (q == 255 * f (inject_Z u / 255) ch)%Q) by (unfold q; rewrite FC; ring). assert (Q2 : (0 <= q <= 255)%Q) by (rewrite Q1; lra). specialize (T2 Q2). lra.
  - assert (E : ((w / 255) * 255 == inject_Z u)%Q) by (rewrite W; field). 
    assert (E2 : (inject_Z (py_int (qclip (w / 255 * 255) 0 255)) == inject_Z u)%Q).
    { rewrite (py_int_compat _ (inject_Z u)); [rewrite py_int_Z; reflexivity|]. rewrite qclip_id; [exact E| |]; rewrite E; [apply (proj2 (inject_Z_le 0 u))|apply (proj2 (inject_Z_le u 255))]; lia. }
    split; [exists u; split; [exact E2|exact U]|]. rewrite E2. lra.
Qed.
Lemma heat_channel_ok : forall cv2 fy fx hm size h' w' cmap c, resizes cv2 -> picks_by_position cv2 fy fx -> heat_map hm -> (c < chans hm)%nat ->
  (forall f, cmap = Some f -> forall q q' ch, (q == q')%Q -> (f q ch == f q' ch)%Q) ->
  (size = None /\ h' = p_h hm /\ w' = p_w hm \/ size = Some (STup [Some (Int h'); Some (Int w')])) -> 1 < h' -> 1 < w' ->
  exists d, heat_channel cv2 hm size cmap c = Ok d /\ p_kind d = KUint 8 /\ p_h d = h' /\ p_w d = w' /\ p_c d = Some 3%nat /\
    forall y x ch, 0 <= y < h' -> 0 <= x < w' ->
      0 <= fy (p_h hm) h' y < p_h hm /\ 0 <= fx (p_w hm) w' x < p_w hm /\ byte_of cmap (p_px hm (fy (p_h hm) h' y) (fx (p_w hm) w' x) c) ch (p_px d y x ch).
Proof.
  intros cv2 fy fx hm size h' w' cmap c HC HP (K & H & W & CN & V) Hc FC SZ H' W'. unfold heat_channel. cbv zeta.
  set (u := mkPic (KUint 8) (p_h hm) (p_w hm) (Some 1%nat) _).
  assert (UV : forall y x, 0 <= y < p_h hm -> 0 <= x < p_w hm -> exists z, p_px u y x 0%nat = inject_Z z /\ 0 <= z <= 255 /\ (0 <= p_px hm y x c <= 1)%Q /\ (255 * p_px hm y x c - (1 # 2) <= inject_Z z <= 255 * p_px hm y x c + (1 # 2))%Q).
  { intros y x Y X. assert (HX : pixel hm y x c) by (split; auto). specialize (V y x c HX). destruct (heat_byte _ V) as (A & B). eexists. split; [reflexivity|]. split; [exact A|]. split; [exact V|exact B]. }
  assert (PU : proper_pic u).
  { split; [cbn; lia|]. split; [cbn; lia|]. intros y x j (Y & X & J). cbn in Y, X, J. assert (j = 0%nat) as -> by (unfold chans in J; cbn in J; lia). destruct (UV y x Y X) as (z & E & B & _). exists z. rewrite E. split; [reflexivity|]. change (2 ^ 8 - 1) with 255. exact B. }
  assert (RS : exists rs, (match size with Some s => imresize_single cv2 u s (Some (Some Nearest)) | None => Ok u end) = Ok rs /\ p_h rs = h' /\ p_w rs = w' /\
    forall y x, 0 <= y < h' -> 0 <= x < w' -> 0 <= fy (p_h hm) h' y < p_h hm /\ 0 <= fx (p_w hm) w' x < p_w hm /\ (p_px rs y x 0%nat == p_px u (fy (p_h hm) h' y) (fx (p_w hm) w' x) 0%nat)%Q).
  { destruct SZ as [(-> & -> & ->)| ->].
    - exists u. split; [reflexivity|]. split; [reflexivity|]. split; [reflexivity|]. intros y x Y X. destruct HP as (_ & _ & F3 & _). destruct (F3 (p_h hm) y Y) as (-> & _). destruct (F3 (p_w hm) x X) as (_ & ->). split; [exact Y|]. split; [exact X|reflexivity].
    - destruct (near cv2 fy fx u h' w' HC HP PU) as (rs & E & P' & K' & S1 & S2 & C' & N); [exact H|exact W|lia|lia|cbn; tauto|]. exists rs. split; [exact E|]. split; [exact S1|]. split; [exact S2|]. intros y x Y X. apply N. split; [lia|]. split; [lia|]. unfold chans. rewrite C'. cbn. lia. }
  destruct RS as (rs & E & S1 & S2 & N). rewrite E. cbn [bind].
  assert (G : forall y x ch, 0 <= y < h' -> 0 <= x < w' -> 0 <= fy (p_h hm) h' y < p_h hm /\ 0 <= fx (p_w hm) w' x < p_w hm /\
    byte_of cmap (p_px hm (fy (p_h hm) h' y) (fx (p_w hm) w' x) c) ch (inject_Z (py_int (qclip ((match cmap with Some f => f (p_px rs y x 0%nat / 255)%Q ch | None => (p_px rs y x 0%nat / 255)%Q end) * 255) 0 255)))).
  { intros y x ch Y X. destruct (N y x Y X) as (N1 & N2 & N3). split; [exact N1|]. split; [exact N2|]. destruct (UV _ _ N1 N2) as (z & Ez & B & VV & ZV). rewrite Ez in N3.
    apply (heat_final cmap _ z ch VV B ZV _ N3). intros f Ef. apply (FC f Ef). rewrite N3. reflexivity. }
  rewrite S1, S2. destruct (Z.eqb_spec h' 1); [lia|]. destruct (Z.eqb_spec w' 1); [lia|]. cbn [orb andb].
  destruct cmap as [f|]; (eexists; split; [reflexivity|]; split; [reflexivity|]; split; [reflexivity|]; split; [reflexivity|]; split; [reflexivity|]; exact G).
Qed.
Lemma heat_mix_ok : forall image alpha d, rgb8 image -> (0 <= alpha <= 1)%Q -> p_h d = p_h image -> p_w d = p_w image -> 1 < p_h image -> 1 < p_w image ->
  exists r, heat_mix image alpha d = Ok r /\ p_kind r = KUint 8 /\ p_h r = p_h image /\ p_w r = p_w image /\ p_c r = Some 3%nat /\
    forall y x ch, pixel r y x ch -> (exists z, (p_px d y x ch == inject_Z z)%Q /\ 0 <= z <= 255) -> truncated_mix alpha (p_px d y x ch) (p_px image y x ch) (p_px r y x ch).
Proof.
  intros image alpha d RG A H W H' W'. unfold heat_mix, broadcast. rewrite H, W, !Z.eqb_refl. cbn [bind]. destruct (Z.eqb_spec (p_h image) 1); [lia|]. destruct (Z.eqb_spec (p_w image) 1); [lia|].
  eexists. split; [reflexivity|]. do 4 (split; [reflexivity|]). intros y x ch (Y & X & C) (z & Ez & Bz). cbn [p_h p_w] in Y, X. unfold chans in C. cbn [p_c] in C. cbn [p_px].
  destruct (rgb8_byte image y x ch RG Y X C) as (b & Eb & Bb). set (m := ((1 - alpha) * p_px image y x ch + alpha * p_px d y x ch)%Q).
  assert (B1 : (0 <= p_px d y x ch <= 255)%Q) by (rewrite Ez; split; [apply (proj2 (inject_Z_le 0 z))|apply (proj2 (inject_Z_le z 255))]; lia).
  assert (B2 : (0 <= p_px image y x ch <= 255)%Q) by (rewrite Eb; split; [apply (proj2 (inject_Z_le 0 b))|apply (proj2 (inject_Z_le b 255))]; lia).
  assert (MB : (0 <= m <= 255)%Q) by (unfold m; destruct (Qlt_le_dec (p_px image y x ch) (p_px d y x ch)) as [Q|Q]; [assert (XX := convex alpha _ _ A (Qlt_le_weak _ _ Q))|assert (XX := convex' alpha _ _ A Q)]; lra).
  destruct (trunc_clip m) as (T1 & T2). split; [eexists; reflexivity|]. exact (T2 MB).
Qed.
Lemma heatmap_outcome : forall cv2 fy fx hm image alpha resize cmap, resizes cv2 -> picks_by_position cv2 fy fx -> heat_map hm -> rgb8 image -> (0 <= alpha <= 1)%Q ->
  (forall f, cmap = Some f -> forall q q' ch, (q == q')%Q -> (f q ch == f q' ch)%Q) ->
  1 < p_h image -> 1 < p_w image -> (resize = true -> 1 < p_h hm /\ 1 < p_w hm) ->
  exists image' l, canvas cv2 hm image resize image' /\ overlay_heatmap cv2 hm image alpha (Some resize) cmap = Ok l /\ length l = chans hm /\
    forall c r, nth_error l c = Some r -> p_kind r = KUint 8 /\ p_h r = p_h image' /\ p_w r = p_w image' /\ p_c r = Some 3%nat /\
      forall y x ch, pixel r y x ch -> exists d, byte_of cmap (p_px hm (fy (p_h hm) (p_h image') y) (fx (p_w hm) (p_w image') x) c) ch d /\ truncated_mix alpha d (p_px image' y x ch) (p_px r y x ch).
Proof.
  intros cv2 fy fx hm image alpha resize cmap HC HP HM RG A FC H W RW. pose proof HM as (K & HH & HW & CN & V). unfold overlay_heatmap.
  assert (D : drawable image alpha (Some resize) = true) by (apply drawable_iff; [exact RG|]; split; [lra|discriminate]). rewrite D. cbn [negb].
  destruct (canvas_ok cv2 hm image resize HC RG) as (image' & E & CV & RG' & H' & W'); [lia|lia|exact HH|exact HW|]. rewrite E. cbn [bind].
  assert (BIG : 1 < p_h image' /\ 1 < p_w image').
  { unfold canvas in CV. destruct resize; [destruct CV as (_ & _ & -> & ->); auto|subst image'; auto]. }
  set (size := if resize then None else Some (STup [Some (Int (p_h image')); Some (Int (p_w image'))])).
  assert (SZ : size = None /\ p_h image' = p_h hm /\ p_w image' = p_w hm \/ size = Some (STup [Some (Int (p_h image')); Some (Int (p_w image'))])).
  { unfold size. unfold canvas in CV. destruct resize; [left; tauto|right; reflexivity]. }
  assert (CH : forall c, In c (seq 0 (depth hm)) -> (c < chans hm)%nat) by (intros c I; apply in_seq in I; unfold depth, chans in *; lia).
  assert (HCO := fun c Hc => heat_channel_ok cv2 fy fx hm size (p_h image') (p_w image') cmap c HC HP HM Hc FC SZ (proj1 BIG) (proj2 BIG)).
  destruct (mapM_nth (heat_channel cv2 hm size cmap) (seq 0 (depth hm))) as (ds & E2 & L & N); [intros c I; destruct (HCO c (CH c I)) as (d & Ed & _); eauto|]. rewrite E2. cbn [bind].
  assert (DS : forall n d, nth_error ds n = Some d -> (n < chans hm)%nat /\ heat_channel cv2 hm size cmap n = Ok d).
  { intros n d Nd. assert (Hn : (n < length ds)%nat) by (apply nth_error_Some; congruence). rewrite L, seq_length in Hn. split; [unfold depth, chans in *; exact Hn|].
    assert (Ns : nth_error (seq 0 (depth hm)) n = Some n).
    { rewrite (nth_error_nth' _ 0%nat) by (rewrite seq_length; lia). rewrite seq_nth by lia. reflexivity. }
    rewrite (N n n d Ns). rewrite (nth_error_nth ds n d Nd). reflexivity. }
  destruct (mapM_nth (heat_mix image' alpha) ds) as (l & E3 & L3 & N3).
  { intros d I. apply In_nth_error in I. destruct I as (n & Nd). destruct (DS n d Nd) as (Hn & Ed). destruct (HCO n Hn) as (d' & Ed' & _ & S1 & S2 & _). rewrite Ed in Ed'. injection Ed' as <-.
    destruct (heat_mix_ok image' alpha d RG' A S1 S2 (proj1 BIG) (proj2 BIG)) as (r & Er & _). eauto. }
  exists image', l. split; [exact CV|]. split; [exact E3|]. split; [rewrite L3, L, seq_length; reflexivity|]. intros c r Nr.
  assert (Hc : (c < length ds)%nat) by (rewrite <- L3; apply nth_error_Some; congruence). destruct (nth_error ds c) as [d|] eqn:Nd; [|apply nth_error_None in Nd; lia].
  destruct (DS c d Nd) as (Hn & Ed). destruct (HCO c Hn) as (d' & Ed' & KD & S1 & S2 & CD & VD). rewrite Ed in Ed'. injection Ed' as <-.
  destruct (heat_mix_ok image' alpha d RG' A S1 S2 (proj1 BIG) (proj2 BIG)) as (r' & Er & KR & SR1 & SR2 & CR & VR). rewrite (N3 c d r Nd) in Er. rewrite (nth_error_nth l c r Nr) in Er. injection Er as <-.
  split; [exact KR|]. split; [exact SR1|]. split; [exact SR2|]. split; [exact CR|]. intros y x ch HX. pose proof HX as (Y & X & C). rewrite SR1 in Y. rewrite SR2 in X. destruct (VD y x ch Y X) as (_ & _ & B). exists (p_px d y x ch). split; [exact B|]. apply VR; [exact HX|]. destruct B as (B & _). exact B.
Qed.
Lemma thin_images : forall cv2 fy fx hm image alpha f, resizes cv2 -> picks_by_position cv2 fy fx -> heat_map hm -> rgb8 image -> 0 < p_h image -> 0 < p_w image -> (0 <= alpha <= 1)%Q -> (0 < chans hm)%nat ->
  p_h image = 1 \/ p_w image = 1 -> overlay_heatmap cv2 hm image alpha (Some false) (Some f) = Err IndexError.
Proof.
  intros cv2 fy fx hm image alpha f HC HP (K & H & W & CN & V) RG HI WI A CH T. unfold overlay_heatmap.
  assert (D : drawable image alpha (Some false) = true) by (apply drawable_iff; [exact RG|]; split; [lra|discriminate]). rewrite D. cbn [negb bind].
  assert (E0 : heat_channel cv2 hm (Some (STup [Some (Int (p_h image)); Some (Int (p_w image))])) (Some f) 0 = Err IndexError).
  { unfold heat_channel. cbv zeta. set (u := mkPic (KUint 8) (p_h hm) (p_w hm) (Some 1%nat) _).
    assert (PU : proper_pic u).
    { split; [cbn; lia|]. split; [cbn; lia|]. intros y x j (Y & X & J). cbn in Y, X. assert (HX : pixel hm y x 0) by (split; auto). destruct (heat_byte _ (V y x 0%nat HX)) as (B & _). cbn [u p_kind p_px]. eexists. split; [reflexivity|]. change (2 ^ 8 - 1) with 255. exact B. }
    destruct (near cv2 fy fx u (p_h image) (p_w image) HC HP PU) as (rs & E & P' & K' & S1 & S2 & C' & N); [exact H|exact W|lia|lia|cbn; tauto|]. rewrite E. cbn [bind]. rewrite S1, S2.
    assert (TT : ((p_h image =? 1) || (p_w image =? 1))%bool = true) by (rewrite Bool.orb_true_iff, !Z.eqb_eq; exact T). rewrite TT. reflexivity. }
  assert (DE : exists n, depth hm = S n) by (unfold depth, chans in *; destruct (p_c hm) as [[|n]|]; [lia|eauto|eauto]). destruct DE as (n & ->). cbn [seq]. rewrite mapM_cons, E0. reflexivity.
Qed.

Lemma kp_pixels_c : forall col alpha size raise p k p', proper_pic p -> colour_of p col -> ((alpha <= 99 # 100)%Q -> exact_float32 p) -> kp_draw col alpha size raise p k = Ok p' ->
  proper_pic p' /\
  redrawn p p' (fun y x c v' =>
    ((~ square k size y x \/ alpha < 1 # 100)%Q -> (v' == p_px p y x c)%Q) /\
    ((square k size y x /\ 1 # 100 <= alpha)%Q -> painted (99 # 100 < alpha)%Q (p_kind p) alpha (p_px p y x c) (component col c) v')).
Proof.
  intros col alpha size raise p k p' P C E D. apply colour_shade in C. destruct (kp_pixels col alpha size raise p k p' P C E D) as (P1 & K1 & K2 & K3 & K4 & V).
  repeat (split; [assumption|]). intros y x c HX. rewrite <- shade_component. exact (V y x c HX).
Qed.

Lemma kps_pixels_c : forall col alpha size raise l p p', proper_pic p -> colour_of p col -> ((alpha <= 99 # 100)%Q -> small_dtype (p_kind p)) -> kps_draw col alpha size raise p l = Ok p' ->
  proper_pic p' /\
  redrawn p p' (fun y x c v' =>
    ((forall k, In k l -> ~ square k size y x) -> (v' == p_px p y x c)%Q) /\
    ((99 # 100 < alpha)%Q -> (exists k, In k l /\ square k size y x) -> (v' == component col c)%Q) /\
    between (p_px p y x c) (component col c) v').
Proof.
  intros col alpha size raise l p p' P C E D. apply colour_shade in C. destruct (kps_pixels col alpha size raise l p p' P C E D) as (P1 & K1 & K2 & K3 & K4 & V).
  repeat (split; [assumption|]). intros y x c HX. rewrite <- shade_component. exact (V y x c HX).
Qed.

Lemma box_pixels_c : forall col alpha size raise p b p', proper_box b -> proper_pic p -> colour_of p col -> byte_colour p col -> ((99 # 100 <= alpha)%Q \/ (0 <= alpha)%Q /\ bytes p) ->
  box_draw col alpha size raise p b = Ok p' ->
  proper_pic p' /\ ((alpha < 99 # 100)%Q -> bytes p') /\
  redrawn p p' (fun y x c v' =>
    (~ frame b p size y x -> (v' == p_px p y x c)%Q) /\
    (frame b p size y x -> painted (99 # 100 <= alpha)%Q (p_kind p) alpha (p_px p y x c) (component col c) v')).
Proof.
  intros col alpha size raise p b p' B P C Y A D. apply colour_shade in C. destruct (box_pixels col alpha size raise p b p' B P C Y A D) as (P1 & P2 & K1 & K2 & K3 & K4 & V).
  repeat (split; [assumption|]). intros y x c HX. rewrite <- shade_component. exact (V y x c HX).
Qed.

Lemma boxes_pixels_c : forall col alpha size raise l p p', (forall b, In b l -> proper_box b) -> proper_pic p -> colour_of p col -> byte_colour p col -> ((99 # 100 <= alpha)%Q \/ (0 <= alpha)%Q /\ bytes p) ->
  boxes_draw col alpha size raise p l = Ok p' ->
  proper_pic p' /\
  redrawn p p' (fun y x c v' =>
    ((forall b, In b l -> ~ frame b p size y x) -> (v' == p_px p y x c)%Q) /\
    ((99 # 100 <= alpha)%Q -> (exists b, In b l /\ frame b p size y x) -> (v' == component col c)%Q) /\
    between (p_px p y x c) (component col c) v').
Proof.
  intros col alpha size raise l p p' B P C Y A D. apply colour_shade in C. destruct (boxes_pixels col alpha size raise l p p' B P C Y A D) as (P1 & K1 & K2 & K3 & K4 & V).
  repeat (split; [assumption|]). intros y x c HX. rewrite <- shade_component. exact (V y x c HX).
Qed.
