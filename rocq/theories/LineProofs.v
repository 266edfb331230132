(** Proofs about clipping of line strings (LineModel, LineSpec). *)
From Coq Require Import List ZArith QArith Bool Lia Lqa Sorting.Sorted Setoid.
From Verif Require Import Prelude PreludeFacts LineModel LineSpec.
Import ListNotations.
Open Scope Q_scope.

(** ** Points *)

Lemma peq_refl p : peq p p. Proof. split; reflexivity. Qed.
Lemma peq_sym p q : peq p q -> peq q p. Proof. intros [A B]; split; symmetry; assumption. Qed.
Lemma peq_trans p q r : peq p q -> peq q r -> peq p r.
Proof. intros [A B] [C D]; split; etransitivity; eassumption. Qed.

Lemma at_fraction_peq a b t p q : peq p q -> at_fraction a b t p -> at_fraction a b t q.
Proof. intros [A B] [C D]; split; [rewrite <- A | rewrite <- B]; assumption. Qed.

Lemma at_fraction_det a b t p q : at_fraction a b t p -> at_fraction a b t q -> peq p q.
Proof. intros [A B] [C D]; split; [rewrite A, C | rewrite B, D]; reflexivity. Qed.

Lemma at_fraction_eq a b t t' p : t == t' -> at_fraction a b t p -> at_fraction a b t' p.
Proof. intros E [A B]; split; [rewrite A | rewrite B]; rewrite E; reflexivity. Qed.

Lemma at_fraction_0 a b : at_fraction a b 0 a. Proof. split; ring. Qed.
Lemma at_fraction_1 a b : at_fraction a b 1 b. Proof. split; ring. Qed.

Definition point_at (a b : point) (t : Q) : point :=
  (fst a + t * (fst b - fst a), snd a + t * (snd b - snd a)).
Lemma at_point_at a b t : at_fraction a b t (point_at a b t).
Proof. split; reflexivity. Qed.

Lemma within_mono d e p q : 0 <= d -> d <= e -> within d p q -> within e p q.
Proof. unfold within; intros; assert (d * d <= e * e) by nra; lra. Qed.

Lemma within_peq d p p' q : peq p p' -> within d p q -> within d p' q.
Proof. unfold within; intros [A B] H; rewrite <- A, <- B; exact H. Qed.

Lemma within_self d p q : peq p q -> within d p q.
Proof.
  unfold within; intros [A B]; rewrite A, B.
  setoid_replace ((fst q - fst q) * (fst q - fst q) + (snd q - snd q) * (snd q - snd q)) with 0 by ring. nra.
Qed.

Lemma sq_le_abs x y : 0 <= y -> x * x <= y * y -> x <= y.
Proof. intros H H0. destruct (Qlt_le_dec y x); [nra | assumption]. Qed.

Lemma sqr_nonneg (x : Q) : 0 <= x * x.
Proof. nra. Qed.

(** The triangle inequality. *)
Lemma within_trans d e p q r : 0 <= d -> 0 <= e -> within d p q -> within e q r -> within (d + e) p r.
Proof.
  unfold within. intros Hd He.
  set (ux := fst p - fst q). set (uy := snd p - snd q). set (vx := fst q - fst r). set (vy := snd q - snd r).
  intros H1 H2.
  setoid_replace (fst p - fst r) with (ux + vx) by (unfold ux, vx; ring).
  setoid_replace (snd p - snd r) with (uy + vy) by (unfold uy, vy; ring).
  assert (C : ux * vx + uy * vy <= d * e).
  { apply sq_le_abs; [nra|].
    assert (CS : (ux * vx + uy * vy) * (ux * vx + uy * vy) <= (ux * ux + uy * uy) * (vx * vx + vy * vy)).
    { assert (S := sqr_nonneg (ux * vy - uy * vx)).
      assert (E : (ux * ux + uy * uy) * (vx * vx + vy * vy) - (ux * vx + uy * vy) * (ux * vx + uy * vy)
                  == (ux * vy - uy * vx) * (ux * vy - uy * vx)) by ring. lra. }
    assert (0 <= ux * ux + uy * uy) by nra. assert (0 <= vx * vx + vy * vy) by nra.
    apply Qle_trans with (1 := CS).
    setoid_replace (d * e * (d * e)) with ((d * d) * (e * e)) by ring.
    apply Qle_trans with ((d * d) * (vx * vx + vy * vy)).
    - apply Qmult_le_compat_r; assumption.
    - rewrite (Qmult_comm (d * d)), (Qmult_comm (d * d)). apply Qmult_le_compat_r; nra. }
  nra.
Qed.

Lemma dist_ok_false p q : dist_ok p (Some q) = false -> within (1 # 100) p q.
Proof.
  unfold dist_ok, within, dist2; intro H.
  apply qltb_false in H. setoid_replace ((1 # 100) * (1 # 100)) with (1 # 10000) by reflexivity. exact H.
Qed.

Lemma within_sym d p q : within d p q -> within d q p.
Proof. unfold within; intro H; setoid_replace ((fst q - fst p) * (fst q - fst p) + (snd q - snd p) * (snd q - snd p)) with ((fst p - fst q) * (fst p - fst q) + (snd p - snd q) * (snd p - snd q)) by ring; exact H. Qed.

(** Points between two points of a segment are no further away than these. *)
Lemma within_between a b t1 t t2 d p1 p p2 :
  t1 <= t -> t <= t2 -> at_fraction a b t1 p1 -> at_fraction a b t p -> at_fraction a b t2 p2 ->
  within d p1 p2 -> within d p p2 /\ within d p p1.
Proof.
  unfold within. intros L1 L2 [A1 B1] [A B] [A2 B2] H.
  set (dx := fst b - fst a) in *. set (dy := snd b - snd a) in *.
  assert (E : (fst p1 - fst p2) * (fst p1 - fst p2) + (snd p1 - snd p2) * (snd p1 - snd p2)
              == (t2 - t1) * (t2 - t1) * (dx * dx + dy * dy)) by (rewrite A1, B1, A2, B2; ring).
  assert (0 <= dx * dx + dy * dy) by nra.
  rewrite E in H. split.
  - assert (E2 : (fst p - fst p2) * (fst p - fst p2) + (snd p - snd p2) * (snd p - snd p2)
              == (t2 - t) * (t2 - t) * (dx * dx + dy * dy)) by (rewrite A, B, A2, B2; ring).
    rewrite E2. assert ((t2 - t) * (t2 - t) <= (t2 - t1) * (t2 - t1)) by nra. nra.
  - assert (E2 : (fst p - fst p1) * (fst p - fst p1) + (snd p - snd p1) * (snd p - snd p1)
              == (t - t1) * (t - t1) * (dx * dx + dy * dy)) by (rewrite A, B, A1, B1; ring).
    rewrite E2. assert ((t - t1) * (t - t1) <= (t2 - t1) * (t2 - t1)) by nra. nra.
Qed.

(** A sub-segment. *)
Lemma on_seg_between a b t1 t t2 p1 p p2 :
  t1 <= t -> t <= t2 -> at_fraction a b t1 p1 -> at_fraction a b t p -> at_fraction a b t2 p2 -> on_seg p1 p2 p.
Proof.
  intros L1 L2 [A1 B1] [A B] [A2 B2].
  destruct (Qlt_le_dec t1 t2) as [L|L].
  - exists ((t - t1) / (t2 - t1)). split; [split|].
    + apply Qle_shift_div_l; lra.
    + apply Qle_shift_div_r; lra.
    + split; [rewrite A, A1, A2 | rewrite B, B1, B2]; field; lra.
  - assert (t1 == t2) by lra. assert (t == t1) by lra. exists 0. split; [lra|].
    split; [rewrite A, A1 | rewrite B, B1]; rewrite H0; ring.
Qed.

(** ** Lists *)

Lemma chained_nil {A} (R : A -> A -> Prop) : chained R [].
Proof. intros [|i] a b H; discriminate H. Qed.

Lemma chained_app_one {A} (R : A -> A -> Prop) l x :
  chained R l -> (forall a, l <> [] -> a = last l a -> R a x) -> chained R (l ++ [x]).
Proof.
  intros H HL i a b Ha Hb.
  destruct (Nat.lt_trichotomy (S i) (length l)) as [L|[L|L]].
  - rewrite nth_error_app1 in Ha, Hb by lia. eapply H; eassumption.
  - rewrite nth_error_app1 in Ha by lia. rewrite nth_error_app2 in Hb by lia.
    rewrite L, Nat.sub_diag in Hb. injection Hb as <-. apply HL.
    + intros ->. discriminate L.
    + assert (LN : l <> []) by (intros ->; discriminate L).
      destruct (exists_last LN) as (l' & z & ->). rewrite last_last.
      rewrite app_length in L. cbn in L. rewrite nth_error_app2 in Ha by lia.
      replace (i - length l')%nat with 0%nat in Ha by lia. injection Ha as <-. reflexivity.
  - assert (nth_error (l ++ [x]) (S i) = None) by (apply nth_error_None; rewrite app_length; cbn; lia). congruence.
Qed.

Lemma subsequence_refl {A} (l : list A) : subsequence l l.
Proof. induction l; constructor; assumption. Qed.
Lemma subsequence_nil {A} (l : list A) : subsequence [] l.
Proof. induction l; constructor; assumption. Qed.
Lemma subsequence_trans {A} (a b c : list A) : subsequence a b -> subsequence b c -> subsequence a c.
Proof.
  intros H1 H2; revert a H1; induction H2; intros a1 H1; [assumption| |].
  - constructor; apply IHsubsequence; assumption.
  - inversion H1; subst; constructor; apply IHsubsequence; assumption.
Qed.
Lemma subsequence_app {A} (a b c d : list A) : subsequence a b -> subsequence c d -> subsequence (a ++ c) (b ++ d).
Proof. intros H1 H2; induction H1; cbn; [assumption| |]; constructor; assumption. Qed.
Lemma subsequence_in {A} (a b : list A) x : subsequence a b -> In x a -> In x b.
Proof. induction 1; cbn; intuition. Qed.
Lemma subsequence_map {A B} (f : A -> B) a b : subsequence a b -> subsequence (map f a) (map f b).
Proof. induction 1; constructor; assumption. Qed.
Lemma subsequence_forall {A} (P : A -> Prop) a b : subsequence a b -> Forall P b -> Forall P a.
Proof. intros H HF; rewrite Forall_forall in *; intros x I; apply HF; eapply subsequence_in; eassumption. Qed.
Lemma subsequence_sorted {A} (R : A -> A -> Prop) a b : subsequence a b -> StronglySorted R b -> StronglySorted R a.
Proof.
  induction 1; intro HS; [constructor| |]; inversion HS; subst.
  - auto.
  - constructor; [auto|]. eapply subsequence_forall; eassumption.
Qed.

(** ** The loops with positions *)

Definition apt := (position * point)%type.
Definition atag := (position * tagged)%type.

Definition alast (line : list apt) : option apt :=
  match line with [] => None | a :: r => Some (last r a) end.
Definition anext (rest : list atag) : option point :=
  match rest with (_, (n, _, false)) :: _ => Some n | _ => None end.

Fixpoint asplit (points : list atag) (line : list apt) : list (list apt) :=
  match points with
  | [] => match line with [] => [] | _ => [line] end
  | (q, (coord, was_added, ooi)) :: rest =>
      if (ooi : bool)
      then match line with [] => asplit rest [] | _ => line :: asplit rest [] end
      else if negb was_added then asplit rest (line ++ [(q, coord)])
      else if dist_ok coord (option_map snd (alast line)) && dist_ok coord (anext rest)
           then asplit rest (line ++ [(q, coord)])
           else asplit rest line
  end.

Lemma asplit_in q c (w : bool) rest line :
  asplit ((q, (c, w, false)) :: rest) line
  = if negb w then asplit rest (line ++ [(q, c)])
    else if dist_ok c (option_map snd (alast line)) && dist_ok c (anext rest)
         then asplit rest (line ++ [(q, c)]) else asplit rest line.
Proof. reflexivity. Qed.

Lemma last_map {A B} (f : A -> B) l a : last (map f l) (f a) = f (last l a).
Proof. revert a; induction l as [|x l IH]; intro a; [reflexivity|]. destruct l; [reflexivity|]. cbn [map]. cbn [map] in IH. change (last (f a0 :: map f l) (f a) = f (last (a0 :: l) a)). apply IH. Qed.

Lemma alast_opt line : option_map snd (alast line) = last_opt (map snd line).
Proof. destruct line as [|a r]; [reflexivity|]. cbn. rewrite last_map. reflexivity. Qed.

Lemma anext_next rest : anext rest = match map snd rest with (n, _, false) :: _ => Some n | _ => None end.
Proof. destruct rest as [|[q [[n w] o]] r]; [reflexivity|]. cbn. destruct o; reflexivity. Qed.

Lemma asplit_erase : forall points line,
  map (map snd) (asplit points line) = split_parts (map snd points) (map snd line).
Proof.
  induction points as [|[q [[c w] o]] rest IH]; intro line.
  - destruct line; reflexivity.
  - cbn [asplit map snd split_parts]. destruct o.
    + destruct line; cbn [map]; rewrite IH; reflexivity.
    + rewrite alast_opt, anext_next.
      destruct w; cbn [negb].
      * destruct (_ && _); rewrite IH; [rewrite map_app|]; reflexivity.
      * rewrite IH, map_app; reflexivity.
Qed.

Fixpoint wf (prev : position) (pts : list atag) : Prop :=
  match pts with
  | [] => True
  | (q, (c, w, o)) :: r =>
      along_edge prev q /\ (w = true -> fst q = fst prev /\ o = false) /\ wf q r
  end.

Definition line_at (prev : position) (line : list apt) : Prop :=
  match alast line with None => True | Some (q, _) => fst q = fst prev /\ snd q <= snd prev end.

Lemma alast_app line x : alast (line ++ [x]) = Some x.
Proof. destruct line as [|a r]; cbn; [reflexivity|]. rewrite last_last. reflexivity. Qed.

Lemma alast_last line a : line <> [] -> a = last line a -> alast line = Some a.
Proof.
  intros H E. destruct (exists_last H) as (l & z & ->). rewrite last_last in E. subst. apply alast_app.
Qed.

Lemma along_via p q r : fst p = fst q -> snd p <= snd q -> along_edge q r -> along_edge p r.
Proof. unfold along_edge; intros A B [[C D]|[C D]]; [left; split; [congruence|lra]|right; split; [congruence|assumption]]. Qed.

Lemma chained_snoc line prev q c :
  chained along_edge (map fst line) -> line_at prev line -> along_edge prev q ->
  chained along_edge (map fst (line ++ [(q, c)])).
Proof.
  intros HC HL HS. rewrite map_app. apply chained_app_one; [assumption|].
  intros a HN HE. unfold line_at in HL.
  assert (LN : line <> []) by (intros ->; apply HN; reflexivity).
  destruct (exists_last LN) as (l & [lq lp] & ->). rewrite alast_app in HL.
  rewrite map_app in HE. cbn in HE. rewrite last_last in HE. subst a. destruct HL. eapply along_via; eassumption.
Qed.

Lemma asplit_chained : forall pts prev line,
  wf prev pts -> chained along_edge (map fst line) -> line_at prev line ->
  Forall (fun part => part <> [] /\ chained along_edge (map fst part)) (asplit pts line).
Proof.
  induction pts as [|[q [[c w] o]] rest IH]; intros prev line W C L.
  - destruct line; constructor; [|constructor]. split; [discriminate|assumption].
  - cbn [asplit]. destruct W as (S1 & S2 & W).
    destruct o.
    + assert (R : Forall (fun part => part <> [] /\ chained along_edge (map fst part)) (asplit rest [])).
      { apply (IH q); [assumption|apply chained_nil|exact I]. }
      destruct line; [assumption|]. constructor; [split; [discriminate|assumption]|assumption].
    + assert (R : Forall (fun part => part <> [] /\ chained along_edge (map fst part)) (asplit rest (line ++ [(q, c)]))).
      { apply (IH q); [assumption|eapply chained_snoc; eassumption|]. unfold line_at. rewrite alast_app. split; [reflexivity|lra]. }
      destruct w; cbn [negb]; [|assumption].
      destruct (_ && _); [assumption|]. apply (IH q); [assumption|assumption|].
      destruct (S2 eq_refl) as [E _]. unfold line_at in *. destruct (alast line) as [[lq lp]|]; [|exact I].
      destruct L as [L1 L2]. split; [congruence|].
      destruct S1 as [[_ L3]|[L3 _]]; [lra|]. rewrite E in L3. lia.
Qed.

Definition kept (e : atag) : apt := (fst e, fst (fst (snd e))).
Definition is_ooi (e : atag) : bool := snd (snd e).
Definition is_added (e : atag) : bool := snd (fst (snd e)).

Lemma asplit_subsequence : forall pts line,
  subsequence (concat (asplit pts line)) (line ++ map kept (filter (fun e => negb (is_ooi e)) pts)).
Proof.
  induction pts as [|[q [[c w] o]] rest IH]; intro line.
  - destruct line; cbn; [constructor|]. rewrite !app_nil_r. apply subsequence_refl.
  - cbn [asplit]. destruct o.
    + cbn [filter is_ooi snd negb].
      assert (R := IH []). cbn [app] in R.
      destruct line as [|a l]; [exact R|]. cbn [concat]. apply subsequence_app; [apply subsequence_refl|exact R].
    + cbn [filter is_ooi snd negb map kept fst].
      assert (R := IH (line ++ [(q, c)])). rewrite <- app_assoc in R. cbn [app] in R.
      destruct w; cbn [negb]; [|exact R].
      destruct (_ && _); [exact R|]. eapply subsequence_trans; [apply IH|].
      apply subsequence_app; [apply subsequence_refl|]. constructor. apply subsequence_refl.
Qed.

(** The points of the line string itself are never left out. *)
Lemma asplit_keeps : forall pts line,
  subsequence (line ++ map kept (filter (fun e => negb (is_added e) && negb (is_ooi e)) pts)) (concat (asplit pts line)).
Proof.
  induction pts as [|[q [[c w] o]] rest IH]; intro line.
  - destruct line; cbn; [constructor|]. rewrite !app_nil_r. apply subsequence_refl.
  - cbn [asplit]. destruct o.
    + cbn [filter is_ooi is_added snd fst negb]. rewrite andb_false_r.
      assert (R := IH []). cbn [app] in R.
      destruct line as [|a l]; [exact R|]. cbn [concat]. apply subsequence_app; [apply subsequence_refl|exact R].
    + cbn [filter is_ooi is_added snd fst negb]. destruct w; cbn [negb andb].
      * destruct (_ && _); [|apply IH]. eapply subsequence_trans; [|apply IH].
        rewrite <- app_assoc. apply subsequence_app; [apply subsequence_refl|]. constructor. apply subsequence_refl.
      * assert (R := IH (line ++ [(q, c)])). rewrite <- app_assoc in R. exact R.
Qed.

Lemma not_after_trans : forall p q r, not_after p q -> not_after q r -> not_after p r.
Proof. unfold not_after; intros p q r [A|[A B]] [C|[C D]]; [left; lia|left; lia|left; lia|right; split; [congruence|lra]]. Qed.

Lemma along_not_after p q : along_edge p q -> not_after p q.
Proof. intros [[A B]|[A B]]; [right; auto|left; lia]. Qed.

Lemma wf_sorted : forall pts prev, wf prev pts ->
  StronglySorted not_after (map fst pts) /\ Forall (not_after prev) (map fst pts).
Proof.
  induction pts as [|[q [[c w] o]] rest IH]; intros prev W; [split; constructor|].
  destruct W as (S1 & _ & W). destruct (IH _ W) as [A B]. apply along_not_after in S1. cbn [map fst].
  split; constructor; try assumption.
  eapply Forall_impl; [|exact B]. intros r H. eapply not_after_trans; eassumption.
Qed.

(** ** What is left out is near to what is kept *)

Definition near (d : Q) (parts : list (list apt)) (p : point) : Prop :=
  exists part p', In part parts /\ on_path (map snd part) p' /\ within d p p'.

Lemma near_app_r d x y p : near d y p -> near d (x ++ y) p.
Proof. intros (part & p' & I & O & W). exists part, p'. split; [apply in_or_app; right; assumption|auto]. Qed.

Lemma asplit_head : forall pts line, line <> [] ->
  exists ext rest, asplit pts line = (line ++ ext) :: rest.
Proof.
  induction pts as [|[q [[c w] o]] rest IH]; intros line N.
  - exists [], []. rewrite app_nil_r. destruct line; [contradiction|reflexivity].
  - cbn [asplit]. destruct o.
    + exists [], (asplit rest []). rewrite app_nil_r. destruct line; [contradiction|reflexivity].
    + assert (R : exists ext r, asplit rest (line ++ [(q, c)]) = (line ++ ext) :: r).
      { destruct (IH (line ++ [(q, c)])) as (ext & r & E); [destruct line; discriminate|].
        exists ((q, c) :: ext), r. rewrite E, <- app_assoc. reflexivity. }
      destruct w; cbn [negb]; [|exact R]. destruct (_ && _); [exact R|apply IH; exact N].
Qed.

Lemma on_path_app l1 a b l2 p : on_seg a b p -> on_path (l1 ++ a :: b :: l2) p.
Proof.
  intro H. left. exists (length l1), a, b. split; [|split; [|exact H]].
  - rewrite nth_error_app2, Nat.sub_diag by lia. reflexivity.
  - rewrite nth_error_app2 by lia. replace (S (length l1) - length l1)%nat with 1%nat by lia. reflexivity.
Qed.

Lemma on_path_in l p q : In q l -> peq p q -> on_path l p.
Proof. intros; right; eauto. Qed.

(** The last point of the current part and the next point are neighbours. *)
Lemma head_edge pts line r x p :
  alast line = Some r -> on_seg (snd r) (snd x) p ->
  exists part, In part (asplit pts (line ++ [x])) /\ on_path (map snd part) p.
Proof.
  intros AL HS. destruct (asplit_head pts (line ++ [x])) as (ext & rest & E); [destruct line; discriminate|].
  rewrite E. eexists; split; [left; reflexivity|].
  assert (LN : line <> []) by (intros ->; discriminate AL).
  destruct (exists_last LN) as (l & z & ->). rewrite alast_app in AL. injection AL as ->.
  rewrite <- !app_assoc, map_app. cbn [app map]. apply on_path_app. exact HS.
Qed.

Lemma head_point pts line r p :
  alast line = Some r -> peq p (snd r) -> exists part, In part (asplit pts line) /\ on_path (map snd part) p.
Proof.
  intros AL HE. assert (LN : line <> []) by (intros ->; discriminate AL).
  destruct (asplit_head pts line LN) as (ext & rest & E). rewrite E. eexists; split; [left; reflexivity|].
  destruct (exists_last LN) as (l & z & ->). rewrite alast_app in AL. injection AL as ->.
  apply on_path_in with (q := snd r); [|exact HE]. apply in_map. apply in_or_app; left. apply in_or_app; right. left; reflexivity.
Qed.

(** The fraction of edge [i] for a position on it or at the start of the next. *)
Definition frac (i : nat) (q : position) : Q := if Nat.eqb (fst q) i then snd q else 1.

Section Along.
Variable cs : list point.
Definition placed (e : atag) : Prop := at_position cs (fst e) (fst (fst (snd e))).
Definition aplaced (x : apt) : Prop := at_position cs (fst x) (snd x).

Lemma placed_frac i a b prev q p :
  nth_error cs i = Some a -> nth_error cs (S i) = Some b ->
  fst prev = i -> along_edge prev q -> at_position cs q p -> at_fraction a b (frac i q) p.
Proof.
  intros Ha Hb E S (L & a' & b' & Ha' & Hb' & F). unfold frac.
  destruct (Nat.eqb_spec (fst q) i) as [E1|E1].
  - rewrite E1 in Ha', Hb'. rewrite Ha in Ha'. rewrite Hb in Hb'. injection Ha' as <-. injection Hb' as <-. exact F.
  - destruct S as [[C D]|[C D]]; [congruence|]. rewrite E in C. rewrite C in Ha'. rewrite Hb in Ha'. injection Ha' as <-.
    apply at_fraction_peq with (p := b); [|apply at_fraction_1].
    destruct F as [F1 F2]. split; [rewrite F1 | rewrite F2]; rewrite D; ring.
Qed.

Lemma frac_same i q : fst q = i -> frac i q = snd q.
Proof. intros <-. unfold frac. rewrite Nat.eqb_refl. reflexivity. Qed.

Lemma frac_mono i q r : fst q = i -> along_edge q r -> snd q <= 1 -> snd q <= frac i r.
Proof.
  intros E [[C D]|[C D]] L; unfold frac.
  - rewrite <- C, E, Nat.eqb_refl. exact D.
  - destruct (Nat.eqb_spec (fst r) i); [lia|exact L].
Qed.

Lemma cover_after : forall post e line prev r i a b t p,
  wf prev (e :: post) -> fst prev = i -> line_at prev line -> alast line = Some r ->
  nth_error cs i = Some a -> nth_error cs (S i) = Some b ->
  aplaced r -> Forall placed (e :: post) -> is_ooi e = false ->
  at_fraction a b t p -> snd (fst r) <= t -> t <= frac i (fst e) ->
  near (1 # 100) (asplit (e :: post) line) p.
Proof.
  induction post as [|e2 post IH]; intros [q [[c w] o]] line prev r i a b t p W EP HL AL Ha Hb PR PE NO PT L1 L2;
    unfold is_ooi in NO; cbn [snd] in NO; subst o; destruct W as (S1 & S2 & W); cbn [fst] in L2;
    inversion PE as [|? ? PE1 PE2]; subst.
  all: assert (HL' := HL); unfold line_at in HL'; rewrite AL in HL'; destruct r as [rq rp]; destruct HL' as [HL1 HL2];
       cbn [fst snd] in *.
  all: assert (PR' : at_fraction a b (snd rq) rp) by
         (destruct PR as (_ & a' & b' & A' & B' & F); cbn [fst snd] in *; rewrite HL1 in A', B';
          rewrite Ha in A'; rewrite Hb in B'; injection A' as <-; injection B' as <-; exact F).
  all: assert (PC : at_fraction a b (frac (fst prev) q) c) by
         (eapply placed_frac; [exact Ha|exact Hb|reflexivity|exact S1|exact PE1]).
  all: assert (SEG : on_seg rp c p) by (eapply on_seg_between; [exact L1|exact L2|eassumption..]).
  all: assert (KEEP : forall pts, near (1 # 100) (asplit pts (line ++ [(q, c)])) p) by
         (intro pts; destruct (head_edge pts line (rq, rp) (q, c) p AL SEG) as (part & I1 & I2);
          exists part, p; split; [exact I1|split; [exact I2|apply within_self; apply peq_refl]]).
  all: rewrite asplit_in; destruct w; cbn [negb]; [|apply KEEP].
  all: rewrite AL; cbn [option_map snd].
  all: destruct (dist_ok c (Some rp)) eqn:D1; cbn [andb].
  2: destruct (head_point [] line (rq, rp) rp AL (peq_refl _)) as (part & I1 & I2).
  4: destruct (head_point (e2 :: post) line (rq, rp) rp AL (peq_refl _)) as (part & I1 & I2).
  2,4: exists part, rp; split; [exact I1|split; [exact I2|]];
       apply dist_ok_false in D1; apply within_sym in D1;
       exact (proj2 (within_between _ _ _ _ _ _ _ _ _ L1 L2 PR' PT PC D1)).
  - cbn [anext dist_ok]; apply KEEP.
  - destruct (dist_ok c (anext (e2 :: post))) eqn:D2; [apply KEEP|].
    destruct (S2 eq_refl) as [E1 _].
    destruct e2 as [q2 [[c2 w2] o2]]. cbn [anext] in D2. destruct o2; [discriminate D2|].
    eapply IH with (prev := q) (i := fst prev) (r := (rq, rp)).
    + exact W.
    + exact E1.
    + unfold line_at. rewrite AL. split; [congruence|].
      destruct S1 as [[_ S1]|[S1 _]]; [lra|]. rewrite E1 in S1. lia.
    + exact AL.
    + exact Ha.
    + exact Hb.
    + exact PR.
    + exact PE2.
    + reflexivity.
    + exact PT.
    + exact L1.
    + cbn [fst]. eapply Qle_trans; [exact L2|]. rewrite (frac_same _ _ E1).
      apply frac_mono; [exact E1|destruct W as (W1 & _); exact W1|]. destruct PE1 as ([_ PU] & _). exact PU.
Qed.

Fixpoint lead (pts : list atag) : nat :=
  match pts with (_, (_, true, _)) :: r => S (lead r) | _ => 0%nat end.

Definition hundredths (m : nat) : Q := inject_Z (Z.of_nat m) * (1 # 100).
Lemma hundredths_S m : hundredths (S m) == hundredths m + (1 # 100).
Proof. unfold hundredths. rewrite Nat2Z.inj_succ. unfold Z.succ. rewrite inject_Z_plus. ring. Qed.
Lemma hundredths_mono m n : (m <= n)%nat -> hundredths m <= hundredths n.
Proof. intro H. unfold hundredths. assert (inject_Z (Z.of_nat m) <= inject_Z (Z.of_nat n)) by (rewrite <- Zle_Qle; lia). nra. Qed.
Lemma hundredths_pos m : 0 <= hundredths m.
Proof. assert (H := hundredths_mono 0 m (Nat.le_0_l m)). assert (hundredths 0 == 0) by reflexivity. lra. Qed.
Lemma hundredths_1 n : (1 <= n)%nat -> 1 # 100 <= hundredths n.
Proof. intro H. apply hundredths_mono in H. assert (hundredths 1 == 1 # 100) by reflexivity. lra. Qed.

Lemma within_eq d e p q : d == e -> within d p q -> within e p q.
Proof. unfold within; intros E H; rewrite <- E; exact H. Qed.

Lemma near_mono d e parts p : 0 <= d -> d <= e -> near d parts p -> near e parts p.
Proof. intros H1 H2 (part & p' & A & B & C). exists part, p'. split; [exact A|split; [exact B|]]. eapply within_mono; eassumption. Qed.

Lemma cover_before : forall post e p m n,
  is_ooi e = false -> within (hundredths m) p (fst (fst (snd e))) -> (m + lead (e :: post) <= n)%nat ->
  near (hundredths n) (asplit (e :: post) []) p.
Proof.
  induction post as [|e2 post IH]; intros [q [[c w] o]] p m n NO HW HM;
    unfold is_ooi in NO; cbn [snd fst] in *; subst o.
  all: assert (KEEP : forall pts, near (hundredths n) (asplit pts [(q, c)]) p) by
    (intro pts; destruct (head_point pts [(q, c)] (q, c) c eq_refl (peq_refl _)) as (part & I1 & I2);
     exists part, c; split; [exact I1|split; [exact I2|]];
     eapply within_mono; [apply (hundredths_pos m)|apply hundredths_mono|exact HW]; lia).
  all: rewrite asplit_in; cbn [app]; destruct w; cbn [negb]; [|apply KEEP].
  all: cbn [alast option_map dist_ok andb].
  - cbn [anext dist_ok]; apply KEEP.
  - destruct (dist_ok c (anext (e2 :: post))) eqn:D2; [apply KEEP|].
    destruct e2 as [q2 [[c2 w2] o2]]. cbn [anext] in D2. destruct o2; [discriminate D2|].
    apply IH with (m := S m).
    + reflexivity.
    + cbn [fst snd]. apply dist_ok_false in D2. eapply within_eq; [symmetry; apply hundredths_S|].
      eapply within_trans; [apply hundredths_pos| |exact HW|exact D2]. lra.
    + cbn [lead] in HM |- *. lia.
Qed.

(** Both together, for a point of the list ... *)
Lemma cover_at : forall post e line prev p n,
  wf prev (e :: post) -> line_at prev line -> Forall aplaced line -> Forall placed (e :: post) ->
  is_ooi e = false -> peq p (fst (fst (snd e))) -> (lead (e :: post) <= n)%nat -> (1 <= n)%nat ->
  near (hundredths n) (asplit (e :: post) line) p.
Proof.
  intros post e line prev p n W HL PL PE NO EQ HM HN.
  destruct (alast line) as [r|] eqn:AL.
  - apply near_mono with (d := 1 # 100); [lra|apply (hundredths_1 n HN)|].
    destruct e as [q [[c w] o]]. cbn [fst snd] in EQ.
    assert (PR : aplaced r).
    { assert (LN : line <> []) by (intros ->; discriminate AL). destruct (exists_last LN) as (l & z & ->).
      rewrite alast_app in AL. injection AL as ->. apply Forall_app in PL. destruct PL as [_ PL]. inversion PL; assumption. }
    assert (HL' := HL). unfold line_at in HL'. rewrite AL in HL'. destruct r as [rq rp]. destruct HL' as [L1 L2].
    destruct W as (S1 & W). assert (PR' := PR). destruct PR' as ((_ & PU) & a & b & Ha & Hb & _). cbn [fst snd] in *.
    rewrite L1 in Ha, Hb.
    assert (PC : at_fraction a b (frac (fst prev) q) c).
    { eapply placed_frac; [exact Ha|exact Hb|reflexivity|exact S1|]. exact (Forall_inv PE). }
    apply cover_after with (t := frac (fst prev) q) (r := (rq, rp)) (prev := prev) (i := fst prev) (a := a) (b := b); try assumption; try reflexivity.
    + split; assumption.
    + eapply at_fraction_peq; [apply peq_sym; exact EQ|exact PC].
    + cbn [fst]. apply frac_mono; [congruence| |exact PU]. eapply along_via; eassumption.
    + cbn [fst]. lra.
  - assert (line = []) by (destruct line; [reflexivity|discriminate AL]). subst line.
    apply cover_before with (m := 0%nat); [exact NO| |lia]. apply within_self. exact EQ.
Qed.

(** ... and for a point between two neighbours of the list. *)
Lemma cover_two : forall post e1 e2 line prev i a b t p n,
  wf prev (e1 :: e2 :: post) -> line_at prev line -> Forall aplaced line -> Forall placed (e1 :: e2 :: post) ->
  fst (fst e1) = i -> nth_error cs i = Some a -> nth_error cs (S i) = Some b ->
  is_ooi e1 = false -> is_ooi e2 = false -> at_fraction a b t p ->
  snd (fst e1) <= t -> t <= frac i (fst e2) ->
  (lead (e1 :: e2 :: post) <= n)%nat -> (1 <= n)%nat ->
  near (hundredths n) (asplit (e1 :: e2 :: post) line) p.
Proof.
  intros post [q1 [[c1 w1] o1]] e2 line prev i a b t p n W HL PL PE EP Ha Hb NO1 NO2 PT L1 L2 HM HN.
  unfold is_ooi in NO1; cbn [snd fst] in *; subst o1.
  assert (W0 := W). destruct W as (S1 & S2 & W). inversion PE as [|? ? PE1 PE2]; subst.
  assert (PC1 : at_fraction a b (snd q1) c1).
  { destruct PE1 as (_ & a' & b' & A' & B' & F). cbn [fst snd] in *. rewrite Ha in A'; rewrite Hb in B'; injection A' as <-; injection B' as <-; exact F. }
  assert (KEEP : near (hundredths n) (asplit (e2 :: post) (line ++ [(q1, c1)])) p).
  { apply near_mono with (d := 1 # 100); [lra|apply (hundredths_1 n HN)|].
    eapply cover_after with (r := (q1, c1)) (prev := q1) (t := t); try eassumption; try reflexivity.
    - unfold line_at. rewrite alast_app. split; [reflexivity|lra].
    - apply alast_app. }
  rewrite asplit_in. destruct w1; cbn [negb]; [|exact KEEP].
  destruct (S2 eq_refl) as [E1 _].
  destruct (alast line) as [r|] eqn:AL; cbn [option_map].
  - destruct (_ && _); [exact KEEP|].
    apply near_mono with (d := 1 # 100); [lra|apply (hundredths_1 n HN)|].
    assert (PR : aplaced r).
    { assert (LN : line <> []) by (intros ->; discriminate AL). destruct (exists_last LN) as (l & z & ->).
      rewrite alast_app in AL. injection AL as ->. apply Forall_app in PL. destruct PL as [_ PL]. inversion PL; assumption. }
    assert (L3 : fst (fst r) = fst q1 /\ snd (fst r) <= snd q1).
    { unfold line_at in HL. rewrite AL in HL. destruct r as [rq rp]. destruct HL as [H1 H2]. cbn [fst].
      split; [congruence|]. destruct S1 as [[_ S1]|[S1 _]]; [lra|]. rewrite E1 in S1. lia. }
    apply cover_after with (r := r) (prev := q1) (i := fst q1) (a := a) (b := b) (t := t); try assumption; try reflexivity.
    + unfold line_at. rewrite AL. destruct r. exact L3.
    + destruct L3 as [_ L3]. eapply Qle_trans; [exact L3|exact L1].
  - assert (line = []) by (destruct line; [reflexivity|discriminate AL]). subst line.
    cbn [dist_ok andb]. destruct (dist_ok c1 (anext (e2 :: post))) eqn:D2; [exact KEEP|].
    apply cover_before with (m := 1%nat); [exact NO2| |cbn [lead] in HM |- *; lia].
    destruct e2 as [q2 [[c2 w2] o2]]. unfold is_ooi in NO2. cbn [snd] in NO2. subst o2. cbn [anext] in D2. cbn [fst snd].
    apply dist_ok_false in D2. inversion PE2 as [|? ? PE3 PE4]; subst. destruct W as (S3 & _).
    assert (PC2 : at_fraction a b (frac (fst q1) q2) c2) by (eapply placed_frac; [exact Ha|exact Hb|reflexivity|exact S3|exact PE3]).
    exact (proj1 (within_between _ _ _ _ _ _ _ _ _ L1 L2 PC1 PT PC2 D2)).
Qed.

(** The state of the loop before an element. *)
Lemma asplit_prefix : forall pre line prev rest,
  wf prev (pre ++ rest) -> line_at prev line -> Forall aplaced line -> Forall placed pre ->
  exists done line' prev',
    asplit (pre ++ rest) line = done ++ asplit rest line' /\ wf prev' rest /\ line_at prev' line' /\ Forall aplaced line'.
Proof.
  induction pre as [|[q [[c w] o]] pre IH]; intros line prev rest W HL PL PP.
  - exists [], line, prev. auto.
  - cbn [app] in *. destruct W as (S1 & S2 & W). inversion PP as [|? ? PP1 PP2]; subst. cbn [asplit]. destruct o.
    + destruct (IH [] q rest W I (Forall_nil _) PP2) as (done & line' & prev' & E & R).
      destruct line as [|x l].
      * exists done, line', prev'. split; [exact E|exact R].
      * exists ((x :: l) :: done), line', prev'. split; [rewrite E; reflexivity|exact R].
    + assert (K : exists done line' prev',
        asplit (pre ++ rest) (line ++ [(q, c)]) = done ++ asplit rest line' /\ wf prev' rest /\ line_at prev' line' /\ Forall aplaced line').
      { apply (IH (line ++ [(q, c)]) q rest); [exact W| | |exact PP2].
        - unfold line_at. rewrite alast_app. split; [reflexivity|lra].
        - apply Forall_app. split; [exact PL|]. constructor; [exact PP1|constructor]. }
      destruct w; cbn [negb]; [|exact K]. destruct (_ && _); [exact K|].
      destruct (S2 eq_refl) as [E1 _].
      apply (IH line q rest); [exact W| |exact PL|exact PP2].
      unfold line_at in *. destruct (alast line) as [[lq lp]|]; [|exact I]. destruct HL as [L1 L2]. split; [congruence|].
      destruct S1 as [[_ L3]|[L3 _]]; [lra|]. rewrite E1 in L3. lia.
Qed.

(** An edge with both ends inside is kept exactly. *)
Lemma cover_exact : forall mids line r f post i a b t p,
  wf (fst r) (mids ++ f :: post) -> alast line = Some r -> aplaced r -> fst (fst r) = i ->
  Forall placed (mids ++ f :: post) -> Forall (fun e => is_added e = true /\ is_ooi e = false) mids ->
  is_added f = false -> is_ooi f = false ->
  nth_error cs i = Some a -> nth_error cs (S i) = Some b -> at_fraction a b t p ->
  snd (fst r) <= t -> t <= frac i (fst f) ->
  exists part, In part (asplit (mids ++ f :: post) line) /\ on_path (map snd part) p.
Proof.
  intros mids line r f post i a b t p W AL PR EI PM FM F1 F2 Ha Hb PT L1 L2.
  assert (G : exists prev, wf prev (mids ++ f :: post) /\ fst prev = i /\ snd (fst r) <= snd prev) by (exists (fst r); repeat split; [exact W|exact EI|lra]).
  clear W. destruct G as (prev & W & E1 & E2). revert line r prev AL PR EI W E1 E2 L1.
  induction mids as [|[q [[c w] o]] mids IH]; intros line r prev AL PR EI W E1 E2 L1; cbn [app] in *.
  - destruct f as [q [[c w] o]]. unfold is_added, is_ooi in F1, F2. cbn [fst snd] in *. subst w o. rewrite asplit_in. cbn [negb].
    destruct W as (S1 & _). assert (PM1 := Forall_inv PM). assert (PM2 := Forall_inv_tail PM). clear PM.
    apply head_edge with (r := r); [exact AL|]. cbn [snd].
    destruct PR as (_ & a' & b' & A' & B' & F). cbn [fst snd] in *. rewrite EI in A', B'. rewrite Ha in A'; rewrite Hb in B'; injection A' as <-; injection B' as <-.
    eapply on_seg_between; [exact L1|exact L2|exact F|exact PT|].
    eapply placed_frac; [exact Ha|exact Hb|exact E1|exact S1|exact PM1].
  - destruct (Forall_inv FM) as [M1 M2]. assert (FM' := Forall_inv_tail FM). clear FM. unfold is_added, is_ooi in M1, M2. cbn [fst snd] in *. subst w o.
    destruct W as (S1 & S2 & W). destruct (S2 eq_refl) as [E3' _]. assert (E3 : fst q = i) by congruence. assert (PM1 := Forall_inv PM). assert (PM2 := Forall_inv_tail PM). clear PM.
    assert (L4 : snd (fst r) <= snd q) by (destruct S1 as [[_ S1]|[S1 _]]; [lra|rewrite E3' in S1; lia]).
    specialize (IH PM2 FM').
    assert (PR' := PR). destruct PR' as (_ & a' & b' & A' & B' & F). cbn [fst snd] in *. rewrite EI in A', B'. rewrite Ha in A'; rewrite Hb in B'; injection A' as <-; injection B' as <-.
    assert (PC : at_fraction a b (snd q) c).
    { rewrite <- (frac_same i q E3). eapply placed_frac; [exact Ha|exact Hb|exact E1|exact S1|exact PM1]. }
    rewrite asplit_in. cbn [negb]. destruct (_ && _).
    + destruct (Qlt_le_dec (snd q) t) as [L|L].
      * apply IH with (r := (q, c)) (prev := q); cbn [fst snd]; [apply alast_app|exact PM1|exact E3|exact W|exact E3|lra|lra].
      * apply head_edge with (r := r); [exact AL|]. cbn [snd]. eapply on_seg_between; [exact L1|exact L|exact F|exact PT|exact PC].
    + apply IH with (r := r) (prev := q); [exact AL|exact PR|exact EI|exact W|exact E3|exact L4|exact L1].
Qed.
End Along.
