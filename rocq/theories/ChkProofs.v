(** Proofs about Lambda, AssertLambda, AssertShape, RemoveCBAsByOutOfImageFraction and
    ClipCBAsToImagePlanes. *)
From Coq Require Import Qreals Reals.
From Verif Require Import Prelude PreludeFacts GeoModel GeoSpec GeoProofs LineModel LineSpec LineClip LineBox LineRest LineLen
  ChkModel ChkSpec.
From Coq Require Import Lia Lqa.

Lemma bind_ok {A B} : forall (r : res A) (f : A -> res B) v, bind r f = Ok v <-> exists a, r = Ok a /\ f a = Ok v.
Proof.
  intros [a|e] f v; cbn; split.
  - intros H. exists a. split; [reflexivity|exact H].
  - intros (a' & E & H). injection E as <-. exact H.
  - discriminate.
  - intros (a & E & _). discriminate E.
Qed.

(** * Columns *)
Section Cols.
Context {V : Type}.
Implicit Types (b : list (option (list V))) (f : nat -> list V -> res (list V)).

Lemma each_column_ok : forall f b i b', each_column f i b = Ok b' <->
  length b' = length b /\
  forall k, (forall x l, nth_error b k = Some (Some (x :: l)) -> exists v, f (i + k)%nat (x :: l) = Ok v /\ nth_error b' k = Some (Some v)) /\
            (nth_error b k = Some None -> nth_error b' k = Some None) /\
            (nth_error b k = Some (Some []) -> nth_error b' k = Some (Some [])).
Proof.
  intros f. induction b as [|c b IH]; intros i b'.
  - cbn. split.
    + intros H. injection H as <-. split; [reflexivity|]. intros [|k]; cbn; repeat split; intros; discriminate.
    + intros [L _]. destruct b'; [reflexivity|discriminate L].
  - assert (E : each_column f i (c :: b) =
        do v <- match c with Some (x :: l) => do v <- f i (x :: l); Ok (Some v) | _ => Ok c end;
        do r <- each_column f (S i) b; Ok (v :: r)).
    { cbn [each_column]. destruct c as [[|x l]|]; try reflexivity. destruct (f i (x :: l)); reflexivity. }
    rewrite E, bind_ok. clear E. split.
    + intros (v & E1 & E2). apply bind_ok in E2. destruct E2 as (r & E2 & E3). injection E3 as <-.
      apply IH in E2. destruct E2 as [L H]. split; [cbn; rewrite L; reflexivity|].
      intros [|k]; cbn [nth_error].
      * rewrite Nat.add_0_r. split; [|split].
        -- intros x l K. injection K as ->. apply bind_ok in E1. destruct E1 as (w & E1 & K). injection K as <-. exists w. auto.
        -- intros K. injection K as ->. congruence.
        -- intros K. injection K as ->. congruence.
      * replace (i + S k)%nat with (S i + k)%nat by lia. apply H.
    + intros [L H]. destruct b' as [|v r]; [discriminate L|]. exists v. split.
      * specialize (H 0%nat). cbn [nth_error] in H. rewrite Nat.add_0_r in H. destruct H as (H1 & H2 & H3).
        destruct c as [[|x l]|].
        -- specialize (H3 eq_refl). congruence.
        -- destruct (H1 x l eq_refl) as (w & E & K). injection K as ->. rewrite E. reflexivity.
        -- specialize (H2 eq_refl). congruence.
      * apply bind_ok. exists r. split; [|reflexivity]. apply IH. split; [cbn in L; lia|].
        intros k. specialize (H (S k)). cbn [nth_error] in H. replace (i + S k)%nat with (S i + k)%nat in H by lia. exact H.
Qed.
(** Errors come from a column. *)
Lemma each_column_err : forall f b i e, each_column f i b = Err e ->
  exists k x l, nth_error b k = Some (Some (x :: l)) /\ f (i + k)%nat (x :: l) = Err e.
Proof.
  intros f. induction b as [|c b IH]; intros i e; [discriminate|].
  assert (X : each_column f (S i) b = Err e ->
    exists k x l, nth_error (c :: b) k = Some (Some (x :: l)) /\ f (i + k)%nat (x :: l) = Err e).
  { intros H. destruct (IH _ _ H) as (k & x & l & A & B). exists (S k), x, l. split; [exact A|].
    replace (i + S k)%nat with (S i + k)%nat by lia. exact B. }
  cbn [each_column]. destruct c as [[|x l]|].
  - destruct (each_column f (S i) b); [discriminate|exact X].
  - destruct (f i (x :: l)) as [v|e'] eqn:E; cbn [bind].
    + destruct (each_column f (S i) b); [discriminate|exact X].
    + intros H. injection H as <-. exists 0%nat, x, l. rewrite Nat.add_0_r. split; [reflexivity|exact E].
  - destruct (each_column f (S i) b); [discriminate|exact X].
Qed.
Lemma each_column_same : forall f b, (forall i x l, holds b i (x :: l) -> f i (x :: l) = Ok (x :: l)) -> each_column f 0 b = Ok b.
Proof.
  intros f b H. apply each_column_ok. split; [reflexivity|]. intros k. cbn [Nat.add]. split; [|split; auto].
  intros x l E. exists (x :: l). split; [apply H; exact E|exact E].
Qed.
Lemma list_ext : forall {A} (a b : list A), (forall k, nth_error a k = nth_error b k) -> a = b.
Proof.
  intros A. induction a as [|x a IH]; intros [|y b] H.
  - reflexivity.
  - specialize (H 0%nat). discriminate H.
  - specialize (H 0%nat). discriminate H.
  - f_equal; [specialize (H 0%nat); cbn in H; congruence|]. apply IH. intros k. exact (H (S k)).
Qed.
(** If no column is changed where [f] succeeds, the batch is not changed. *)
Lemma each_column_id : forall f b b', (forall i l v, f i l = Ok v -> v = l) -> each_column f 0 b = Ok b' ->
  b' = b /\ forall i x l, holds b i (x :: l) -> f i (x :: l) = Ok (x :: l).
Proof.
  intros f b b' I E. apply each_column_ok in E. destruct E as [L H]. split.
  - apply list_ext. intros k. destruct (H k) as (H1 & H2 & H3). destruct (nth_error b k) as [[[|x l]|]|] eqn:E.
    + auto.
    + destruct (H1 x l eq_refl) as (v & A & B). apply I in A. subst v. exact B.
    + auto.
    + apply nth_error_None. rewrite L. apply nth_error_None. exact E.
  - intros i x l E. destruct (H i) as (H1 & _). destruct (H1 x l E) as (v & A & _). cbn [Nat.add] in A. rewrite A, (I _ _ _ A). reflexivity.
Qed.

(** * Lambda *)
Variable inst : nat -> V -> bool.

Lemma assert_column : forall (p : nat -> option (list V -> res bool)) i l v,
  lambda_column inst (fun i => match p i with Some q => Some (assert_callback q) | None => None end) i l = Ok v -> v = l.
Proof.
  intros p i l v. unfold lambda_column, assert_callback. destruct (p i) as [q|]; [|congruence].
  destruct (q l) as [[|]|]; cbn [bind]; try discriminate.
  destruct (Nat.eqb i 0); [congruence|]. destruct (forallb _ _); congruence.
Qed.

(** * AssertShape *)
Lemma compare_ok : forall n e, compare n e = Ok tt <-> allows e n.
Proof.
  intros n [|m|[|a [|c [|d l]]]|l|]; cbn; try (split; [discriminate|tauto]).
  - tauto.
  - destruct (Z.eqb_spec n m); split; auto; try discriminate; congruence.
  - destruct (Z.leb_spec a n); destruct (Z.ltb_spec n c); cbn; split; auto; try discriminate; lia.
  - destruct (existsb (fun val => (n =? val)%Z) l) eqn:E; split; auto.
    + intros _. apply existsb_exists in E. destruct E as (v & I & H). apply Z.eqb_eq in H. subst. exact I.
    + discriminate.
    + intros I. exfalso. rewrite <- Bool.not_true_iff_false in E. apply E. apply existsb_exists. exists n. split; [exact I|apply Z.eqb_refl].
Qed.
Lemma compare_err : forall n e, documented e -> compare n e = Ok tt \/ compare n e = Err AssertionError.
Proof.
  intros n [|m|[|a [|c [|d l]]]|l|]; cbn; try tauto; try discriminate; intros _.
  - destruct (n =? m)%Z; auto.
  - destruct (_ && _); auto.
  - destruct (existsb _ _); auto.
Qed.
Lemma check_dims_ok : forall es s, check_dims s es = Ok tt <-> forall k e, nth_error es k = Some e -> exists n, nth_error s k = Some n /\ allows e n.
Proof.
  induction es as [|e es IH]; intros s.
  - split; [|intros _; destruct s; reflexivity]. intros _ [|k] e H; discriminate H.
  - destruct s as [|n s]; cbn [check_dims].
    + split; [discriminate|]. intros H. destruct (H 0%nat e eq_refl) as (n & E & _). discriminate E.
    + rewrite bind_ok. split.
      * intros ([] & E1 & E2). intros [|k] e' H; cbn in H |- *.
        -- injection H as <-. exists n. split; [reflexivity|apply compare_ok; exact E1].
        -- rewrite IH in E2. apply E2. exact H.
      * intros H. exists tt. split.
        -- apply compare_ok. destruct (H 0%nat e eq_refl) as (m & E & A). injection E as <-. exact A.
        -- apply IH. intros k e' E. exact (H (S k) e' E).
Qed.
Lemma check_dims_err : forall es s, Forall documented es -> (length es <= length s)%nat ->
  check_dims s es = Ok tt \/ check_dims s es = Err AssertionError.
Proof.
  induction es as [|e es IH]; intros s D L; [left; destruct s; reflexivity|]. destruct s as [|n s]; [cbn in L; lia|].
  inversion D; subst. cbn [check_dims]. destruct (compare_err n e H1) as [->| ->]; cbn [bind]; [|right; reflexivity].
  apply IH; [assumption|cbn in L; lia].
Qed.
Lemma mapM_units : forall {A} (g : A -> res unit) l, (exists r, mapM g l = Ok r) <-> forall a, In a l -> g a = Ok tt.
Proof.
  intros A g. unfold mapM. induction l as [|a l IH]; cbn; [split; [intros _ a []|intros _; eauto]|]. split.
  - intros (r & H). apply bind_ok in H. destruct H as ([] & E & H). apply bind_ok in H. destruct H as (r' & E' & H).
    intros x [<-|I]; [exact E|]. apply IH; [eauto|exact I].
  - intros H. rewrite (H a (or_introl eq_refl)). cbn. destruct (proj2 IH) as (r & E); [intros x I; apply H; right; exact I|].
    rewrite E. cbn. eauto.
Qed.
Lemma mapM_units_err : forall {A} (g : A -> res unit) l e, mapM g l = Err e -> exists a, In a l /\ g a = Err e.
Proof.
  intros A g. unfold mapM. induction l as [|a l IH]; cbn; [discriminate|]. intros e.
  destruct (g a) as [[]|e'] eqn:E; cbn.
  - destruct (sequence _) eqn:E'; cbn; [discriminate|]. intros H. injection H as ->. destruct (IH e eq_refl) as (x & I & X). eauto.
  - intros H. injection H as <-. eauto.
Qed.
Lemma check_shapes_ok : forall shapes target, check_shapes shapes target = Ok tt <-> fits target shapes.
Proof.
  intros shapes [|t ts]; cbn [check_shapes].
  - split; [discriminate|]. intros [(e & E & _) _]. discriminate E.
  - unfold fits. cbn [nth_error]. rewrite bind_ok. split.
    + intros ([] & E1 & E2). apply bind_ok in E2. destruct E2 as (r & E2 & _). split.
      * exists t. split; [reflexivity|apply compare_ok; exact E1].
      * intros s k e I. cbn. assert (X : forall s, In s shapes -> check_dims s ts = Ok tt).
        { apply (proj1 (mapM_units (fun s => check_dims s ts) shapes)). eauto. }
        apply check_dims_ok. apply X. exact I.
    + intros [(e & E & A) H]. injection E as <-. exists tt. split; [apply compare_ok; exact A|].
      apply bind_ok. destruct (proj2 (mapM_units (fun s => check_dims s ts) shapes)) as (r & E).
      { intros s I. apply check_dims_ok. intros k e. apply (H s k e I). }
      exists r. split; [exact E|reflexivity].
Qed.
Lemma check_shapes_err : forall shapes target, target <> [] -> Forall documented target ->
  Forall (fun s => (length target <= S (length s))%nat) shapes ->
  check_shapes shapes target = Ok tt \/ check_shapes shapes target = Err AssertionError.
Proof.
  intros shapes [|t ts] N D L; [congruence|]. inversion D; subst. cbn [check_shapes].
  destruct (compare_err (Z.of_nat (length shapes)) t H1) as [->| ->]; cbn [bind]; [|right; reflexivity].
  destruct (mapM (fun s => check_dims s ts) shapes) eqn:E; [left; reflexivity|].
  apply mapM_units_err in E. destruct E as (s & I & E). rewrite Forall_forall in L. specialize (L s I). cbn in L.
  destruct (check_dims_err ts s H2) as [X|X]; [lia| |].
  - congruence.
  - right. cbn [bind]. congruence.
Qed.

Lemma shape_column : forall (shape_of : nat -> V -> list Z) target (checked : nat -> bool) i l,
  (i <> 0%nat -> forallb (inst i) l = true) ->
  lambda_column inst (fun i => if checked i then Some (shape_check shape_of target i) else None) i l =
  if checked i then do _ <- check_shapes (map (shape_of i) l) (if Nat.eqb i 0 then target else firstn 3 target); Ok l else Ok l.
Proof.
  intros shape_of target checked i l H. unfold lambda_column, shape_check. destruct (checked i : bool); [|reflexivity].
  destruct (check_shapes _ _) as [[]|]; cbn [bind]; [|reflexivity].
  destruct i; cbn; [reflexivity|]. rewrite H by congruence. reflexivity.
Qed.
Lemma shape_column_id : forall (shape_of : nat -> V -> list Z) target (checked : nat -> bool) i l v,
  lambda_column inst (fun i => if checked i then Some (shape_check shape_of target i) else None) i l = Ok v -> v = l.
Proof.
  intros shape_of target checked i l v. unfold lambda_column, shape_check. destruct (checked i : bool); [|congruence].
  destruct (check_shapes _ _) as [[]|]; cbn [bind]; [|discriminate].
  destruct (Nat.eqb i 0); [congruence|]. destruct (forallb _ _); congruence.
Qed.
End Cols.

(** * Bounding boxes and line strings as keypoints *)
Lemma mapM_Forall2 : forall {A B} (f : A -> res B) (R : A -> B -> Prop) l,
  (forall a, In a l -> exists b, f a = Ok b /\ R a b) -> exists l', mapM f l = Ok l' /\ Forall2 R l l'.
Proof.
  intros A B f R. unfold mapM. induction l as [|a l IH]; intros H; cbn; [exists []; split; [reflexivity|constructor]|].
  destruct (H a (or_introl eq_refl)) as (b & E & X). destruct IH as (l' & E' & F); [intros x I; apply H; right; exact I|].
  exists (b :: l'). rewrite E. cbn. rewrite E'. cbn. split; [reflexivity|constructor; assumption].
Qed.
Lemma combine_map_r : forall {A B} (f : A -> B) l, combine l (map f l) = map (fun a => (a, f a)) l.
Proof. intros A B f. induction l; cbn; congruence. Qed.
Lemma mapM_map : forall {A B C} (f : A -> B) (g : B -> res C) l, mapM g (map f l) = mapM (fun a => g (f a)) l.
Proof. intros. unfold mapM. rewrite map_map. reflexivity. Qed.

Lemma boxes_pointwise : forall (h : kpsoi -> keypoint -> keypoint) l,
  exists l', boxes_as_keypoints (Some (fun ks => Ok (map (fun k => mkKpsoi (map (h k) (kps k)) (kps_shape k)) ks))) l = Ok l' /\
    Forall2 (fun o o' => bbs_shape o' = bbs_shape o /\
      Forall2 (fun i i' => label i' = label i /\ let g := h (bbsoi_to_keypoints o) in
        smallest_box_around i' [g (mkKp (x1 i) (y1 i)); g (mkKp (x2 i) (y1 i)); g (mkKp (x2 i) (y2 i)); g (mkKp (x1 i) (y2 i))])
        (bbs o) (bbs o')) l l'.
Proof.
  intros h l. unfold boxes_as_keypoints, lambda_keypoints. cbn [bind]. rewrite map_map, combine_map_r, mapM_map. cbn [fst snd].
  apply mapM_Forall2. intros o _. destruct (bbsoi_map_keypoints o (h (bbsoi_to_keypoints o))) as (b' & E & F).
  exists b'. split; [exact E|]. split; [|exact F].
  unfold bbsoi_invert_to_keypoints in E. destruct (Nat.eqb _ _); [|discriminate E]. injection E as <-. reflexivity.
Qed.

Lemma assign_map : forall (g : LineModel.point -> LineModel.point) ls,
  assign_loop ls (map g (concat (map coords ls))) = map (fun l => mkLine (map g (coords l)) (ls_label l)) ls.
Proof.
  intros g. induction ls as [|l ls IH]; [reflexivity|]. cbn [map concat assign_loop]. rewrite map_app.
  assert (L : length (map g (coords l)) = length (coords l)) by apply map_length.
  rewrite <- L. rewrite firstn_app, Nat.sub_diag, firstn_O, app_nil_r, firstn_all.
  rewrite skipn_app, Nat.sub_diag, skipn_all. cbn [app skipn]. rewrite IH. reflexivity.
Qed.
Lemma lines_pointwise : forall (h : kpsoi -> keypoint -> keypoint) l,
  lines_as_keypoints (Some (fun ks => Ok (map (fun k => mkKpsoi (map (h k) (kps k)) (kps_shape k)) ks))) l =
  Ok (map (fun o => mkLsoi (map (fun ls => mkLine (map (fun p => let k := h (lines_to_keypoints o) (mkKp (fst p) (snd p)) in (kx k, ky k)) (coords ls)) (ls_label ls))
                                (line_strings o)) (lsoi_shape o)) l).
Proof.
  intros h l. unfold lines_as_keypoints, lambda_keypoints. cbn [bind]. rewrite map_map, combine_map_r, mapM_map. cbn [fst snd].
  unfold mapM. induction l as [|o l IH]; [reflexivity|]. cbn [map sequence].
  assert (E : lsoi_invert_to_keypoints o
      (map (fun k => (kx k, ky k)) (kps (mkKpsoi (map (h (lines_to_keypoints o)) (kps (lines_to_keypoints o))) (kps_shape (lines_to_keypoints o)))))
      (kps_shape (mkKpsoi (map (h (lines_to_keypoints o)) (kps (lines_to_keypoints o))) (kps_shape (lines_to_keypoints o)))) =
      Ok (mkLsoi (map (fun ls => mkLine (map (fun p => let k := h (lines_to_keypoints o) (mkKp (fst p) (snd p)) in (kx k, ky k)) (coords ls)) (ls_label ls))
                                (line_strings o)) (lsoi_shape o))).
  { generalize (h (lines_to_keypoints o)). intros g. unfold lsoi_invert_to_keypoints, lines_to_keypoints, lsoi_to_xy_array.
    cbn [kps kps_shape]. rewrite !map_map, map_length. assert (T := total_sum (line_strings o)). unfold total in T. rewrite <- T, Nat.eqb_refl.
    do 2 f_equal. rewrite <- (assign_map (fun p => let k := g (mkKp (fst p) (snd p)) in (kx k, ky k))). reflexivity. }
  rewrite E. cbn [bind]. rewrite IH. reflexivity.
Qed.

Lemma order_box_ok : forall b, proper (order_box b) /\ label (order_box b) = label b /\
  forall x y, GeoSpec.in_box (order_box b) x y <->
    (qmin (x1 b) (x2 b) <= x /\ x <= qmax (x1 b) (x2 b) /\ qmin (y1 b) (y2 b) <= y /\ y <= qmax (y1 b) (y2 b))%Q.
Proof.
  intros [a c d e l]. unfold order_box, proper, GeoSpec.in_box. cbn [x1 x2 y1 y2 label].
  destruct (qltb d a) eqn:E1; cbn [x1 x2 y1 y2 label]; destruct (qltb e c) eqn:E2; cbn [x1 x2 y1 y2 label];
    rewrite ?qltb_iff, ?qltb_false in *; unfold qmin, qmax;
    (split; [split; lra|]); (split; [reflexivity|]); intros x y;
    repeat match goal with |- context [qltb ?u ?v] => let H := fresh in destruct (qltb u v) eqn:H;
       [rewrite qltb_iff in H|rewrite qltb_false in H] end;
    split; intros (A1 & A2 & A3 & A4); repeat split; lra.
Qed.

(** * Removing *)
Lemma on_column_rel : forall {A} (f : A -> res A) (R : A -> A -> Prop) c,
  column_all (fun o => exists o', f o = Ok o' /\ R o o') c -> exists c', on_column f c = Ok c' /\ column_rel R c c'.
Proof.
  intros A f R [l|] H; cbn in *; [|exists None; split; [reflexivity|exact I]].
  rewrite Forall_forall in H. destruct (mapM_Forall2 f R l H) as (l' & E & F). rewrite E. cbn. exists (Some l'). auto.
Qed.
Lemma column_rel_all : forall {A} (R : A -> A -> Prop) (P : A -> Prop) c c', (forall o o', R o o' -> P o') -> column_rel R c c' -> column_all P c'.
Proof.
  intros A R P [l|] [l'|] I; cbn; try tauto. induction 1; constructor; eauto.
Qed.
Lemma column_rel_impl : forall {A} (R S : A -> A -> Prop) c c', (forall o o', R o o' -> S o o') -> column_rel R c c' -> column_rel S c c'.
Proof.
  intros A R S [l|] [l'|] I; cbn; try tauto. induction 1; constructor; auto.
Qed.
Lemma column_rel_eq : forall {A} c c', column_rel (@eq A) c c' -> c = c'.
Proof.
  intros A [l|] [l'|]; cbn; try tauto. induction 1; [reflexivity|]. congruence.
Qed.
Lemma column_all_impl : forall {A} (P P' : A -> Prop) c, (forall o, P o -> P' o) -> column_all P c -> column_all P' c.
Proof. intros A P P' [l|] I; cbn; [apply Forall_impl; exact I|tauto]. Qed.
Lemma column_fix : forall {A} (f : A -> res A) c, column_all (fun o => f o = Ok o) c -> on_column f c = Ok c.
Proof.
  intros A f c H. destruct (on_column_rel f eq c) as (c' & E & R).
  { revert H. apply column_all_impl. eauto. }
  apply column_rel_eq in R. congruence.
Qed.

(** ** Keeping *)
Lemma kept_those : forall {A} (frac : A -> res Q) fr l out, kept_below frac fr l out ->
  those (fun i => exists v, frac i = Ok v /\ (v < fr)%Q) l out.
Proof.
  induction 1; constructor; eauto. intros (w & E & L). rewrite E in H. injection H as ->. apply (Qlt_irrefl fr). apply Qle_lt_trans with v; assumption.
Qed.
Lemma those_ext : forall {A} (P P' : A -> Prop) l out, (forall i, P i <-> P' i) -> those P l out -> those P' l out.
Proof. intros A P P' l out I. induction 1; constructor; auto; rewrite <- I; assumption. Qed.
Lemma those_sat : forall {A} (P : A -> Prop) l out, those P l out -> Forall P out.
Proof. induction 1; auto. Qed.
Lemma those_in : forall {A} (P : A -> Prop) l out, those P l out -> forall i, In i out -> In i l.
Proof. induction 1; cbn; intros x I; [exact I|destruct I as [<-|I]; auto|auto]. Qed.
Lemma keep_unless_those : forall {A} (f : A -> res bool) (P : A -> Prop) l,
  (forall i, In i l -> exists k, f i = Ok k /\ (k = false <-> P i)) ->
  exists out, keep_unless f l = Ok out /\ those P l out.
Proof.
  intros A f P. induction l as [|a l IH]; intros H; [exists []; split; [reflexivity|constructor]|].
  destruct (H a (or_introl eq_refl)) as (k & E & K). destruct IH as (out & E' & T); [intros i I; apply H; right; exact I|].
  cbn [keep_unless]. rewrite E. cbn [bind]. rewrite E'. cbn [bind]. destruct k; eexists; (split; [reflexivity|]).
  - apply th_drop; [|exact T]. intros X. apply K in X. discriminate X.
  - apply th_keep; [|exact T]. apply K. reflexivity.
Qed.
Lemma keep_unless_all : forall {A} (f : A -> res bool) l, Forall (fun i => f i = Ok false) l -> keep_unless f l = Ok l.
Proof. induction 1; [reflexivity|]. cbn [keep_unless]. rewrite H, IHForall. reflexivity. Qed.

Definition below (f : res R) (fr : Q) : Prop := exists v, f = Ok v /\ (v < Q2R fr)%R.
Lemma keep_real : forall {A} (frac : A -> res R) fr l, (forall i, In i l -> exists v, frac i = Ok v) ->
  exists out, keep_unless (fun i => do f <- frac i; Ok (if Rlt_dec f (Q2R fr) then false else true)) l = Ok out /\
    those (fun i => below (frac i) fr) l out /\
    keep_unless (fun i => do f <- frac i; Ok (if Rlt_dec f (Q2R fr) then false else true)) out = Ok out.
Proof.
  intros A frac fr l H.
  destruct (keep_unless_those (fun i => do f <- frac i; Ok (if Rlt_dec f (Q2R fr) then false else true)) (fun i => below (frac i) fr) l) as (out & E & T).
  - intros i I. destruct (H i I) as (v & E). rewrite E. cbn [bind]. eexists. split; [reflexivity|]. unfold below.
    destruct (Rlt_dec v (Q2R fr)) as [L|L]; split; intros X; try discriminate X; auto.
    + exists v. auto.
    + destruct X as (w & X & L'). injection X as <-. contradiction.
  - exists out. split; [exact E|]. split; [exact T|]. apply keep_unless_all. apply those_sat in T.
    revert T. apply Forall_impl. intros i (v & X & L). rewrite X. cbn [bind]. destruct (Rlt_dec v (Q2R fr)); [reflexivity|contradiction].
Qed.

Lemma kps_remove : forall k fr, exists k', kpsoi_remove_out_of_image_fraction k fr = Ok k' /\ kps_shape k' = kps_shape k /\
  those (fun i => (kp_out_of_image_fraction i (kps_shape k) < fr)%Q) (kps k) (kps k') /\ kpsoi_remove_out_of_image_fraction k' fr = Ok k'.
Proof.
  intros [l s] fr. unfold kpsoi_remove_out_of_image_fraction. cbn [kps kps_shape].
  destruct (remove_fraction_Ok (fun i => Ok (kp_out_of_image_fraction i s)) fr l) as (o & E).
  { intros i _. eauto. }
  rewrite E. cbn [bind]. eexists. split; [reflexivity|]. cbn [kps kps_shape]. split; [reflexivity|]. split.
  - apply remove_fraction_kept in E. apply kept_those in E. revert E. apply those_ext. intros i. split.
    + intros (v & X & L). injection X as <-. exact L.
    + intros L. eauto.
  - rewrite (remove_fraction_idem _ _ _ _ E). reflexivity.
Qed.

(** ** Polygons *)
Lemma isclose_in : forall e q, In q (polygon_new e) -> In q e.
Proof.
  intros e q. unfold polygon_new. destruct e as [|a [|c e]]; try tauto. destruct (_ && _); [|tauto].
  assert (X : forall (l : list LineModel.point), In q (removelast l) -> In q l).
  { induction l as [|x l IH]; [tauto|]. destruct l as [|y l]; [cbn; tauto|]. cbn [removelast]. intros [->|I]; [left; reflexivity|right; apply IH; exact I]. }
  apply X.
Qed.
Lemma in_image_rect : forall s p, in_image s p -> in_rectangle s p.
Proof. intros s p [[A B] [C D]]. unfold in_rectangle. repeat split; try assumption; apply Qlt_le_weak; assumption. Qed.

Section Real.
Variable isect : LineModel.point -> LineModel.point -> list linestring -> geom.
Variable isect3 : list LineModel.point -> Z * Z -> pgeom.
Variable area : list LineModel.point -> R.

Lemma lines_remove : forall o fr, has_pixels (lsoi_shape o) ->
  Forall (fun l => shapely_ok isect (coords l) (lsoi_shape o)) (line_strings o) ->
  exists o', lsoi_remove_out_of_image_fraction isect o fr = Ok o' /\ lsoi_shape o' = lsoi_shape o /\
    those (fun l => below (out_of_image_fraction isect l (lsoi_shape o)) fr) (line_strings o) (line_strings o') /\
    lsoi_remove_out_of_image_fraction isect o' fr = Ok o'.
Proof.
  intros o fr HP HS. rewrite Forall_forall in HS. unfold lsoi_remove_out_of_image_fraction.
  destruct (keep_real (fun l => out_of_image_fraction isect l (lsoi_shape o)) fr (line_strings o)) as (out & E & T & E').
  - intros i I. destruct (fraction_ok isect i _ HP (HS i I)) as (f & X & _). eauto.
  - rewrite E. cbn [bind]. eexists. split; [reflexivity|]. cbn [line_strings lsoi_shape]. split; [reflexivity|]. split; [exact T|].
    rewrite E'. reflexivity.
Qed.
Lemma polys_remove : forall o fr, Forall (fun p => exists v, poly_fraction isect isect3 area p (ps_shape o) = Ok v) (ps_polys o) ->
  exists o', psoi_remove_out_of_image_fraction isect isect3 area o fr = Ok o' /\ ps_shape o' = ps_shape o /\
    those (fun p => below (poly_fraction isect isect3 area p (ps_shape o)) fr) (ps_polys o) (ps_polys o') /\
    psoi_remove_out_of_image_fraction isect isect3 area o' fr = Ok o'.
Proof.
  intros o fr HS. rewrite Forall_forall in HS. unfold psoi_remove_out_of_image_fraction.
  destruct (keep_real (fun p => poly_fraction isect isect3 area p (ps_shape o)) fr (ps_polys o) HS) as (out & E & T & E').
  rewrite E. cbn [bind]. eexists. split; [reflexivity|]. cbn [ps_polys ps_shape]. split; [reflexivity|]. split; [exact T|].
  rewrite E'. reflexivity.
Qed.

End Real.
Section Clip.
Variable isect : LineModel.point -> LineModel.point -> list linestring -> geom.
Variable isect3 : list LineModel.point -> Z * Z -> pgeom.
Lemma poly_clip_rect : forall ext lab s, has_pixels s -> shapely_ok isect ext s -> ((3 <= length ext)%nat -> rect_ok isect3 ext s) ->
  exists r, poly_clip_out_of_image isect isect3 ext lab s = Ok r /\ Forall (Forall (in_rectangle s)) r.
Proof.
  intros ext lab s HP HS HR. destruct (le_lt_dec 3 (length ext)) as [L|L].
  - specialize (HR L). unfold rect_ok in HR.
    assert (X : forall exts, (isect3 ext s = PMultiPolygon exts \/ exists e, isect3 ext s = PPolygon e /\ exts = [e]) ->
      Forall (fun e => polygon_new e <> [] /\ all_apart (polygon_new e) /\ Forall (in_rectangle s) e) exts ->
      exists r, poly_clip_out_of_image isect isect3 ext lab s = Ok r /\ Forall (Forall (in_rectangle s)) r).
    { intros exts I F. assert (N : ext <> []) by (destruct ext; [cbn in L; lia|discriminate]).
      assert (U : poly_clip_out_of_image isect isect3 ext lab s = reorder ext (map polygon_new exts)).
      { unfold poly_clip_out_of_image. destruct ext as [|a [|b [|c ext]]]; cbn in L; try lia. destruct I as [->|(e & -> & ->)]; reflexivity. }
      destruct (reorder_ok ext N (map polygon_new exts)) as (r & E & G).
      { rewrite Forall_map. revert F. apply Forall_impl. tauto. }
      exists r. rewrite U. split; [exact E|]. clear -F G. revert r G. induction exts as [|e exts IH]; intros r G; inversion G as [|? q ? r' G1 G2]; subst; constructor.
      - inversion F as [|? ? (_ & _ & F1) F2]; subst. destruct G1 as ((u & v & P1 & P2) & _). rewrite Forall_forall in *. intros p I. apply F1. apply isclose_in.
        rewrite P1. subst q. apply in_app_iff. apply in_app_iff in I. tauto.
      - apply IH; [inversion F; assumption|exact G2]. }
    destruct (isect3 ext s) as [e|es| |[|]|] eqn:E; try contradiction.
    + apply (X [e]); [right; eauto|]. constructor; [exact HR|constructor].
    + apply (X es); [left; reflexivity|exact HR].
    + exists []. split; [|constructor]. unfold poly_clip_out_of_image. destruct ext as [|a [|b [|c ext]]]; cbn in L; try lia. rewrite E. reflexivity.
    + exists []. split; [|constructor]. unfold poly_clip_out_of_image. destruct ext as [|a [|b [|c ext]]]; cbn in L; try lia. rewrite E. reflexivity.
  - destruct (Nat.eq_dec (length ext) 0) as [Z|Z].
    + destruct ext; [|discriminate Z]. exists []. split; [reflexivity|constructor].
    + destruct (poly_clip_small isect isect3 ext lab s HP HS) as (r & E & _ & I); [lia|]. exists r. split; [exact E|].
      apply Forall_forall. intros e J. destruct (I e J) as (part & Ec & -> & _).
      destruct (clip_some isect (mkLine ext lab) s HP HS) as (n & parts & E' & Rr). rewrite Ec in E'. cbn [ls_label] in E'.
      destruct Rr as (_ & B & _). destruct parts as [|c [|d parts]]; try discriminate E'. injection E' as ->.
      inversion B as [|? ? B1 _]; subst. rewrite Forall_forall in *. intros p K. apply in_image_rect, B1, isclose_in, K.
Qed.
End Clip.
