(** Facts about the shared vocabulary. *)
From Coq Require Import Lia Lqa ZifyBool.
From Verif Require Import Prelude.

Lemma qleb_iff : forall a b, qleb a b = true <-> (a <= b)%Q.
Proof. intros a b. unfold qleb. apply Qle_bool_iff. Qed.

Lemma qleb_false : forall a b, qleb a b = false <-> (b < a)%Q.
Proof.
  intros a b. split; intro H.
  - apply Qnot_le_lt. intro C. apply qleb_iff in C. congruence.
  - destruct (qleb a b) eqn:E; [|reflexivity].
    apply qleb_iff in E. exfalso. apply (Qlt_not_le _ _ H E).
Qed.

Lemma qltb_iff : forall a b, qltb a b = true <-> (a < b)%Q.
Proof.
  intros a b. unfold qltb. rewrite negb_true_iff.
  change (Qle_bool b a) with (qleb b a). apply qleb_false.
Qed.

Lemma qltb_false : forall a b, qltb a b = false <-> (b <= a)%Q.
Proof.
  intros a b. unfold qltb. rewrite negb_false_iff.
  change (Qle_bool b a) with (qleb b a). apply qleb_iff.
Qed.

Lemma qeqb_iff : forall a b, qeqb a b = true <-> (a == b)%Q.
Proof. intros a b. unfold qeqb. apply Qeq_bool_iff. Qed.

Lemma qeqb_false : forall a b, qeqb a b = false <-> ~ (a == b)%Q.
Proof.
  intros a b. split; intro H.
  - intro C. apply qeqb_iff in C. congruence.
  - destruct (qeqb a b) eqn:E; [|reflexivity]. apply qeqb_iff in E. contradiction.
Qed.

(** Turn one boolean comparison on rationals into a proposition. *)
Ltac qcase a b :=
  let E := fresh "Hq" in
  destruct (qltb a b) eqn:E;
  [ apply qltb_iff in E | apply qltb_false in E ].

Ltac qbool :=
  repeat match goal with
  | H : qltb _ _ = true |- _ => apply qltb_iff in H
  | H : qltb _ _ = false |- _ => apply qltb_false in H
  | H : qleb _ _ = true |- _ => apply qleb_iff in H
  | H : qleb _ _ = false |- _ => apply qleb_false in H
  | H : qeqb _ _ = true |- _ => apply qeqb_iff in H
  | H : qeqb _ _ = false |- _ => apply qeqb_false in H
  | H : _ && _ = true |- _ => apply andb_true_iff in H; destruct H
  | H : _ || _ = false |- _ => apply orb_false_iff in H; destruct H
  | H : negb _ = true |- _ => apply negb_true_iff in H
  | H : negb _ = false |- _ => apply negb_false_iff in H
  end.

Lemma qmax_spec : forall a b,
  (a <= qmax a b)%Q /\ (b <= qmax a b)%Q /\ (qmax a b = a \/ qmax a b = b).
Proof.
  intros a b. unfold qmax. qcase a b; repeat split; auto; lra.
Qed.

Lemma qmin_spec : forall a b,
  (qmin a b <= a)%Q /\ (qmin a b <= b)%Q /\ (qmin a b = a \/ qmin a b = b).
Proof.
  intros a b. unfold qmin. qcase b a; repeat split; auto; lra.
Qed.

(** Replace every [qmax]/[qmin] in the context by a fresh variable with its
    characterisation. *)
Ltac qminmax :=
  repeat match goal with
  | |- context [qmax ?a ?b] =>
      let H := fresh "Hmx" in let m := fresh "mx" in
      pose proof (qmax_spec a b) as H; set (m := qmax a b) in *;
      clearbody m; destruct H as (?&?&[?|?]); subst
  | |- context [qmin ?a ?b] =>
      let H := fresh "Hmn" in let m := fresh "mn" in
      pose proof (qmin_spec a b) as H; set (m := qmin a b) in *;
      clearbody m; destruct H as (?&?&[?|?]); subst
  | H0 : context [qmax ?a ?b] |- _ =>
      let H := fresh "Hmx" in let m := fresh "mx" in
      pose proof (qmax_spec a b) as H; set (m := qmax a b) in *;
      clearbody m; destruct H as (?&?&[?|?]); subst
  | H0 : context [qmin ?a ?b] |- _ =>
      let H := fresh "Hmn" in let m := fresh "mn" in
      pose proof (qmin_spec a b) as H; set (m := qmin a b) in *;
      clearbody m; destruct H as (?&?&[?|?]); subst
  end.

Lemma qclip_in : forall v lo hi, (lo <= hi)%Q ->
  (lo <= qclip v lo hi /\ qclip v lo hi <= hi)%Q.
Proof. intros v lo hi H. unfold qclip. qminmax; split; lra. Qed.

Lemma qclip_id : forall v lo hi, (lo <= v)%Q -> (v <= hi)%Q ->
  (qclip v lo hi == v)%Q.
Proof. intros v lo hi H1 H2. unfold qclip. qminmax; lra. Qed.

Lemma Qfloor_spec : forall q, (inject_Z (Qfloor q) <= q)%Q /\ (q < inject_Z (Qfloor q) + 1)%Q.
Proof.
  intro q. split.
  - apply Qfloor_le.
  - pose proof (Qlt_floor q) as H. rewrite inject_Z_plus in H. exact H.
Qed.

Lemma Qceiling_spec : forall q,
  (q <= inject_Z (Qceiling q))%Q /\ (inject_Z (Qceiling q) - 1 < q)%Q.
Proof.
  intro q. split.
  - apply Qle_ceiling.
  - pose proof (Qceiling_lt q) as H. unfold Z.sub in H.
    rewrite inject_Z_plus in H. exact H.
Qed.

Lemma inject_Z_lt : forall a b : Z, (inject_Z a < inject_Z b)%Q <-> a < b.
Proof. intros a b. rewrite <- Zlt_Qlt. tauto. Qed.

Lemma inject_Z_le : forall a b : Z, (inject_Z a <= inject_Z b)%Q <-> a <= b.
Proof. intros a b. rewrite <- Zle_Qle. tauto. Qed.

Lemma Qfloor_unique : forall (q : Q) (z : Z),
  (inject_Z z <= q)%Q -> (q < inject_Z z + 1)%Q -> Qfloor q = z.
Proof.
  intros q z H1 H2. destruct (Qfloor_spec q) as [H3 H4].
  assert (Qfloor q < z + 1).
  { apply inject_Z_lt. rewrite inject_Z_plus. change (inject_Z 1) with 1%Q. lra. }
  assert (z < Qfloor q + 1).
  { apply inject_Z_lt. rewrite inject_Z_plus. change (inject_Z 1) with 1%Q. lra. }
  lia.
Qed.

Lemma Qceiling_unique : forall (q : Q) (z : Z),
  (q <= inject_Z z)%Q -> (inject_Z z - 1 < q)%Q -> Qceiling q = z.
Proof.
  intros q z H1 H2. destruct (Qceiling_spec q) as [H3 H4].
  assert (Qceiling q < z + 1).
  { apply inject_Z_lt. rewrite inject_Z_plus. change (inject_Z 1) with 1%Q. lra. }
  assert (z < Qceiling q + 1).
  { apply inject_Z_lt. rewrite inject_Z_plus. change (inject_Z 1) with 1%Q. lra. }
  lia.
Qed.

(** [np_round] returns an integer within 1/2 of its argument, even on ties. *)
Lemma np_round_spec : forall q,
  (inject_Z (np_round q) - (1#2) <= q)%Q /\ (q <= inject_Z (np_round q) + (1#2))%Q /\
  ((inject_Z (np_round q) - (1#2) == q)%Q \/ (q == inject_Z (np_round q) + (1#2))%Q
   -> Z.even (np_round q) = true).
Proof.
  intro q. unfold np_round. destruct (Qfloor_spec q) as [H1 H2].
  set (f := Qfloor q) in *. clearbody f.
  destruct (qltb (q - inject_Z f) (1#2)) eqn:E1; qbool.
  { split; [lra|]; split; [lra|]. intros [C|C]; exfalso; lra. }
  destruct (qltb (1#2) (q - inject_Z f)) eqn:E2; qbool.
  { rewrite inject_Z_plus. change (inject_Z 1) with 1%Q.
    split; [lra|]; split; [lra|]. intros [C|C]; exfalso; lra. }
  destruct (Z.even f) eqn:E3.
  { split; [lra|]; split; [lra|]. auto. }
  rewrite inject_Z_plus. change (inject_Z 1) with 1%Q.
  split; [lra|]; split; [lra|]. intros _.
  rewrite Z.even_add. rewrite E3. reflexivity.
Qed.

Lemma np_round_unique : forall q z,
  (inject_Z z - (1#2) < q)%Q -> (q < inject_Z z + (1#2))%Q -> np_round q = z.
Proof.
  intros q z H1 H2. destruct (np_round_spec q) as (H3 & H4 & _).
  set (n := np_round q) in *. clearbody n.
  assert (n < z + 1).
  { apply inject_Z_lt. rewrite inject_Z_plus. change (inject_Z 1) with 1%Q. lra. }
  assert (z < n + 1).
  { apply inject_Z_lt. rewrite inject_Z_plus. change (inject_Z 1) with 1%Q. lra. }
  lia.
Qed.

Lemma np_round_Z : forall z, np_round (inject_Z z) = z.
Proof. intro z. apply np_round_unique; lra. Qed.

Lemma np_round_mono : forall a b, (a <= b)%Q -> np_round a <= np_round b.
Proof.
  intros a b H.
  destruct (np_round_spec a) as (A1 & A2 & A3).
  destruct (np_round_spec b) as (B1 & B2 & B3).
  destruct (Z.le_gt_cases (np_round a) (np_round b)) as [L|G]; [exact L|].
  exfalso.
  assert (np_round b + 1 <= np_round a) as G' by lia.
  apply inject_Z_le in G'. rewrite inject_Z_plus in G'.
  change (inject_Z 1) with 1%Q in G'.
  assert (Z.even (np_round a) = true) by (apply A3; left; lra).
  assert (Z.even (np_round b) = true) by (apply B3; right; lra).
  assert (np_round a < np_round b + 2).
  { apply inject_Z_lt. rewrite inject_Z_plus. change (inject_Z 2) with 2%Q. lra. }
  assert (np_round a = np_round b + 1) as E by lia.
  rewrite E, Z.even_add in H0. rewrite H1 in H0. discriminate.
Qed.

Lemma py_int_nonneg : forall q, (0 <= q)%Q ->
  0 <= py_int q /\ (inject_Z (py_int q) <= q)%Q /\ (q < inject_Z (py_int q) + 1)%Q.
Proof.
  intros q H. unfold py_int. destruct (qleb 0 q) eqn:E; qbool; [|lra].
  destruct (Qfloor_spec q) as [H1 H2]. repeat split; auto.
  assert (0 < Qfloor q + 1); [|lia].
  apply inject_Z_lt. rewrite inject_Z_plus. change (inject_Z 1) with 1%Q.
  change (inject_Z 0) with 0%Q. lra.
Qed.

Lemma py_int_Z : forall z, py_int (inject_Z z) = z.
Proof.
  intro z. unfold py_int. destruct (qleb 0 (inject_Z z)).
  - apply Qfloor_unique; lra.
  - apply Qceiling_unique; lra.
Qed.

Lemma py_slice_bound_in : forall n i, 0 <= i <= n -> py_slice_bound n i = i.
Proof. intros n i H. unfold py_slice_bound. destruct (i <? 0) eqn:E; lia. Qed.

Lemma arr_eq_refl : forall {A} (a : arr A), arr_eq a a.
Proof. intros A a. repeat split; auto. Qed.

Lemma arr_eq_sym : forall {A} (a b : arr A), arr_eq a b -> arr_eq b a.
Proof.
  intros A a b (H1 & H2 & H3). repeat split; auto.
  intros y x Hy Hx. symmetry. apply H3; congruence.
Qed.

Lemma arr_eq_trans : forall {A} (a b c : arr A), arr_eq a b -> arr_eq b c -> arr_eq a c.
Proof.
  intros A a b c (H1 & H2 & H3) (K1 & K2 & K3).
  repeat split; try congruence.
  intros y x Hy Hx. rewrite H3 by assumption. apply K3; congruence.
Qed.

Lemma sequence_ok_length : forall {A} (l : list (res A)) r,
  sequence l = Ok r -> length r = length l.
Proof.
  intros A l. induction l as [|m ms IH]; intros r H; cbn in H.
  - injection H as <-. reflexivity.
  - destruct m as [x|e]; cbn in H; [|discriminate].
    destruct (sequence ms) as [xs|e] eqn:E; cbn in H; [|discriminate].
    injection H as <-. cbn. f_equal. auto.
Qed.

Lemma mapM_ok : forall {A B} (f : A -> res B) (g : A -> B) l,
  (forall x, In x l -> f x = Ok (g x)) -> mapM f l = Ok (map g l).
Proof.
  intros A B f g l. unfold mapM. induction l as [|x xs IH]; intro H; cbn.
  - reflexivity.
  - rewrite (H x) by (left; reflexivity). cbn.
    rewrite IH by (intros; apply H; right; assumption). reflexivity.
Qed.

Lemma qmin_comm : forall u v, (qmin u v == qmin v u)%Q.
Proof. intros. qminmax; lra. Qed.
Lemma qmax_comm : forall u v, (qmax u v == qmax v u)%Q.
Proof. intros. qminmax; lra. Qed.
Lemma qmin_compat : forall u v u' v', (u == u' -> v == v' -> qmin u v == qmin u' v')%Q.
Proof. intros. qminmax; lra. Qed.
Lemma qmax_compat : forall u v u' v', (u == u' -> v == v' -> qmax u v == qmax u' v')%Q.
Proof. intros. qminmax; lra. Qed.

From Coq Require Import Setoid Morphisms.
Global Instance qmin_proper : Proper (Qeq ==> Qeq ==> Qeq) qmin.
Proof. intros a b H c d H'. apply qmin_compat; assumption. Qed.
Global Instance qmax_proper : Proper (Qeq ==> Qeq ==> Qeq) qmax.
Proof. intros a b H c d H'. apply qmax_compat; assumption. Qed.
