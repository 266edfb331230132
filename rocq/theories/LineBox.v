(** Proofs about line strings, third part: an intersection function that meets
    the assumption about shapely (LineModel, LineSpec). *)
From Coq Require Import List ZArith QArith Bool Lia Lqa Sorting.Sorted Setoid.
From Verif Require Import Prelude PreludeFacts LineModel LineSpec LineProofs LineClip.
Import ListNotations.
Open Scope Q_scope.

(** ** [box_isect] *)

Lemma clip1_spec r a d x1 x2 : x1 <= x2 ->
  forall t, (exists lo hi, clip1 r a d x1 x2 = Some (lo, hi) /\ lo <= t <= hi) <->
            ((exists lo hi, r = Some (lo, hi) /\ lo <= t <= hi) /\ x1 <= a + t * d <= x2).
Proof.
  intros H12 t. destruct r as [[lo hi]|]; cbn [clip1].
  2:{ split; [intros (? & ? & E & _); discriminate E|intros [(? & ? & E & _) _]; discriminate E]. }
  destruct (Qeq_bool d 0) eqn:ED.
  - apply Qeq_bool_iff in ED.
    destruct (Qle_bool x1 a && Qle_bool a x2) eqn:EA.
    + apply andb_true_iff in EA. rewrite !Qle_bool_iff in EA. split.
      * intros (lo' & hi' & E & T). injection E as -> ->. split; [eauto|]. rewrite ED. lra.
      * intros [(lo' & hi' & E & T) _]. injection E as -> ->. eauto.
    + split; [intros (? & ? & E & _); discriminate E|]. intros [_ B]. exfalso.
      rewrite ED in B. assert (EA' : Qle_bool x1 a && Qle_bool a x2 = true) by (apply andb_true_iff; rewrite !Qle_bool_iff; lra). congruence.
  - apply Qeq_bool_neq in ED.
    assert (E1 : (x1 - a) / d * d == x1 - a) by (field; exact ED).
    assert (E2 : (x2 - a) / d * d == x2 - a) by (field; exact ED).
    set (t1 := (x1 - a) / d) in *. set (t2 := (x2 - a) / d) in *. clearbody t1 t2.
    assert (K : qmin t1 t2 <= t <= qmax t1 t2 <-> x1 <= a + t * d <= x2).
    { destruct (Qlt_le_dec d 0) as [L|L].
      - assert (t2 <= t1) by nra.
        assert (qmin t1 t2 == t2) by (unfold qmin; destruct (qltb t2 t1) eqn:X; [reflexivity|apply qltb_false in X; lra]).
        assert (qmax t1 t2 == t1) by (unfold qmax; destruct (qltb t1 t2) eqn:X; [apply qltb_iff in X; lra|reflexivity]).
        rewrite H0, H1. split; intros; nra.
      - assert (0 < d) by (destruct (Qle_lt_or_eq _ _ L); [assumption|exfalso; apply ED; symmetry; assumption]).
        assert (t1 <= t2) by nra.
        assert (qmin t1 t2 == t1) by (unfold qmin; destruct (qltb t2 t1) eqn:X; [apply qltb_iff in X; lra|reflexivity]).
        assert (qmax t1 t2 == t2) by (unfold qmax; destruct (qltb t1 t2) eqn:X; [reflexivity|apply qltb_false in X; lra]).
        rewrite H1, H2. split; intros; nra. }
    rewrite <- K. set (m1 := qmin t1 t2). set (m2 := qmax t1 t2).
    assert (A1 : qmax lo m1 <= t <-> lo <= t /\ m1 <= t).
    { unfold qmax. destruct (qltb lo m1) eqn:X; [apply qltb_iff in X|apply qltb_false in X]; split; intros; lra. }
    assert (A2 : t <= qmin hi m2 <-> t <= hi /\ t <= m2).
    { unfold qmin. destruct (qltb m2 hi) eqn:X; [apply qltb_iff in X|apply qltb_false in X]; split; intros; lra. }
    split.
    + intros (lo' & hi' & E & T). injection E as <- <-. destruct T as [T1 T2]. apply A1 in T1. apply A2 in T2. split; [exists lo, hi; split; [reflexivity|lra]|lra].
    + intros [(lo' & hi' & E & T) B]. injection E as <- <-. eexists; eexists; split; [reflexivity|]. split; [apply A1|apply A2]; lra.
Qed.

Lemma along_at a b t : at_fraction a b t (along a b t).
Proof. split; unfold along; cbn [fst snd]; apply Qred_correct. Qed.

Definition in_box (c d p : point) : Prop :=
  qmin (fst c) (fst d) <= fst p <= qmax (fst c) (fst d) /\ qmin (snd c) (snd d) <= snd p <= qmax (snd c) (snd d).

Lemma qmin_le_qmax x y : qmin x y <= qmax x y.
Proof. unfold qmin, qmax. destruct (qltb y x) eqn:A, (qltb x y) eqn:B; rewrite ?qltb_iff in *; try apply qltb_false in A; try apply qltb_false in B; lra. Qed.

Lemma box_part_spec a b c d p :
  (exists g, In g (box_part a b c d) /\ denotes g p) <-> on_seg a b p /\ in_box c d p.
Proof.
  unfold box_part.
  set (r1 := clip1 (Some (0, 1)) (fst a) (fst b - fst a) (qmin (fst c) (fst d)) (qmax (fst c) (fst d))).
  assert (S1 := clip1_spec (Some (0, 1)) (fst a) (fst b - fst a) _ _ (qmin_le_qmax (fst c) (fst d))). fold r1 in S1.
  set (r2 := clip1 r1 (snd a) (snd b - snd a) (qmin (snd c) (snd d)) (qmax (snd c) (snd d))).
  assert (S2 := clip1_spec r1 (snd a) (snd b - snd a) _ _ (qmin_le_qmax (snd c) (snd d))). fold r2 in S2.
  clearbody r2. clear -S1 S2.
  assert (K : forall t q, at_fraction a b t q -> ((exists lo hi, r2 = Some (lo, hi) /\ lo <= t <= hi) <-> 0 <= t <= 1 /\ in_box c d q)).
  { intros t q [E1 E2]. rewrite S2, S1. unfold in_box. rewrite E1, E2. split.
    - intros [[(lo & hi & E & T) A] B]. injection E as <- <-. auto.
    - intros [T [A B]]. split; [split; [exists 0, 1; auto|exact A]|exact B]. }
  destruct r2 as [[lo hi]|].
  2:{ split; [intros (g & [] & _)|]. intros [(t & T & P) B]. destruct (K t p P) as [_ K2].
      destruct K2 as (? & ? & E & _); [auto|discriminate E]. }
  destruct (Qle_bool lo hi) eqn:EL.
  2:{ split; [intros (g & [] & _)|]. intros [(t & T & P) B]. destruct (K t p P) as [_ K2].
      destruct K2 as (lo' & hi' & E & T'); [auto|]. injection E as <- <-.
      assert (Qle_bool lo hi = true) by (apply Qle_bool_iff; lra). congruence. }
  apply Qle_bool_iff in EL.
  assert (KL := proj1 (K lo _ (along_at a b lo)) ltac:(exists lo, hi; split; [reflexivity|lra])).
  assert (KH := proj1 (K hi _ (along_at a b hi)) ltac:(exists lo, hi; split; [reflexivity|lra])).
  assert (BX : forall t q, at_fraction a b t q -> lo <= t <= hi -> on_seg a b q /\ in_box c d q).
  { intros t q P T. destruct (proj1 (K t q P)) as [T' B]; [eauto|]. split; [exists t; auto|exact B]. }
  destruct (Qeq_bool lo hi) eqn:EE.
  - apply Qeq_bool_iff in EE. split.
    + intros (g & [<-|[]] & D). inversion D as [? ? E| |]; subst. apply (BX lo); [|lra].
      eapply at_fraction_peq; [apply peq_sym; exact E|apply along_at].
    + intros [(t & T & P) B]. eexists; split; [left; reflexivity|]. constructor.
      destruct (proj2 (K t p P)) as (lo' & hi' & E & T'); [auto|]. injection E as <- <-.
      eapply at_fraction_det; [exact P|]. eapply at_fraction_eq; [|apply along_at]. lra.
  - split.
    + intros (g & [<-|[]] & D). inversion D as [|? ? ? (v & V & P)|]; subst. cbn [last] in P.
      apply (BX (lo + v * (hi - lo))); [|nra].
      eapply fraction_compose; [apply along_at|apply along_at|exact P].
    + intros [(t & T & P) B]. eexists; split; [left; reflexivity|]. constructor. cbn [last].
      destruct (proj2 (K t p P)) as (lo' & hi' & E & T'); [auto|]. injection E as <- <-.
      exact (on_seg_between a b lo t hi _ p _ (proj1 T') (proj2 T') (along_at a b lo) P (along_at a b hi)).
Qed.

(** A segment parallel to an axis is the box of its end points. *)
Lemma between_values a b x : qmin a b <= x <= qmax a b -> exists t, 0 <= t <= 1 /\ x == a + t * (b - a).
Proof.
  intro H. destruct (Qeq_dec a b) as [E|N].
  - exists 0. split; [lra|]. unfold qmin, qmax in H. destruct (qltb b a), (qltb a b); lra.
  - exists ((x - a) / (b - a)). destruct (Qlt_le_dec a b) as [L|L].
    + assert (qmin a b == a) by (unfold qmin; destruct (qltb b a) eqn:X; [apply qltb_iff in X; lra|reflexivity]).
      assert (qmax a b == b) by (unfold qmax; destruct (qltb a b) eqn:X; [reflexivity|apply qltb_false in X; lra]).
      rewrite H0, H1 in H. split; [|field; lra]. split; [apply Qle_shift_div_l|apply Qle_shift_div_r]; lra.
    + assert (L' : b < a) by (destruct (Qle_lt_or_eq _ _ L); [assumption|exfalso; apply N; symmetry; assumption]).
      assert (qmin a b == b) by (unfold qmin; destruct (qltb b a) eqn:X; [reflexivity|apply qltb_false in X; lra]).
      assert (qmax a b == a) by (unfold qmax; destruct (qltb a b) eqn:X; [apply qltb_iff in X; lra|reflexivity]).
      rewrite H0, H1 in H. assert (E : (x - a) / (b - a) == (a - x) / (a - b)) by (field; lra). rewrite E.
      split; [|field; lra]. split; [apply Qle_shift_div_l|apply Qle_shift_div_r]; lra.
Qed.

Lemma values_between a b t : 0 <= t <= 1 -> qmin a b <= a + t * (b - a) <= qmax a b.
Proof.
  intro T. unfold qmin, qmax. destruct (qltb b a) eqn:A, (qltb a b) eqn:B; rewrite ?qltb_iff in *;
    try apply qltb_false in A; try apply qltb_false in B; nra.
Qed.

Lemma qmin_same x : qmin x x = x. Proof. unfold qmin. destruct (qltb x x); reflexivity. Qed.
Lemma qmax_same x : qmax x x = x. Proof. unfold qmax. destruct (qltb x x); reflexivity. Qed.

Lemma box_segment_y x y1 y2 p : on_path [(x, y1); (x, y2)] p <-> in_box (x, y1) (x, y2) p.
Proof.
  unfold in_box. cbn [fst snd]. rewrite qmin_same, qmax_same. split.
  - intro H. apply on_two_points in H. destruct H as (t & T & E1 & E2). cbn [fst snd] in *. rewrite E2.
    split; [|apply values_between; exact T]. assert (t * (x - x) == 0) by ring. lra.
  - intros [H1 H2]. apply seg_two_points. destruct (between_values _ _ _ H2) as (t & T & E). exists t. split; [exact T|].
    split; cbn [fst snd]; [|exact E]. assert (t * (x - x) == 0) by ring. lra.
Qed.

Lemma box_segment_x x1 x2 y p : on_path [(x1, y); (x2, y)] p <-> in_box (x1, y) (x2, y) p.
Proof.
  unfold in_box. cbn [fst snd]. rewrite qmin_same, qmax_same. split.
  - intro H. apply on_two_points in H. destruct H as (t & T & E1 & E2). cbn [fst snd] in *. rewrite E1.
    split; [apply values_between; exact T|]. assert (t * (y - y) == 0) by ring. lra.
  - intros [H1 H2]. apply seg_two_points. destruct (between_values _ _ _ H1) as (t & T & E). exists t. split; [exact T|].
    split; cbn [fst snd]; [exact E|]. assert (t * (y - y) == 0) by ring. lra.
Qed.

(** The assumption about shapely can be met. *)
Lemma box_isect_ok cs s : shapely_ok box_isect cs s.
Proof.
  intros i a b _ _. unfold correct_intersection, box_isect. split.
  - cbn [flat]. apply Forall_forall. intros g I. apply in_flat_map in I. destruct I as (l & _ & I).
    destruct (coords l) as [|c [|d [|? ?]]]; try contradiction. unfold box_part in I.
    destruct (clip1 _ _ _ _ _) as [[lo hi]|]; [|contradiction]. destruct (Qle_bool lo hi); [|contradiction].
    destruct (Qeq_bool lo hi); destruct I as [<-|[]]; exact I.
  - intro p.
    assert (EB : forall l, In l (image_edges s) -> exists c d, coords l = [c; d] /\ (on_path [c; d] p <-> in_box c d p)).
    { intros l I. destruct s as [h w]. unfold image_edges in I.
      destruct I as [<-|[<-|[<-|[<-|[]]]]]; cbn [coords]; eexists; eexists; (split; [reflexivity|]);
        first [apply box_segment_x | apply box_segment_y]. }
    split.
    + intro D. inversion D as [| |gs g ? I D']; subst. apply in_flat_map in I. destruct I as (l & Il & I).
      destruct (EB l Il) as (c & d & E & K). rewrite E in I.
      destruct (proj1 (box_part_spec a b c d p)) as [H1 H2]; [eauto|]. split; [exact H1|]. exists l. split; [exact Il|]. rewrite E. apply K. exact H2.
    + intros [H1 (l & Il & H2)]. destruct (EB l Il) as (c & d & E & K). rewrite E in H2. apply K in H2.
      destruct (proj2 (box_part_spec a b c d p) (conj H1 H2)) as (g & Ig & D). apply den_coll with (g := g); [|exact D].
      apply in_flat_map. exists l. split; [exact Il|]. rewrite E. exact Ig.
Qed.
