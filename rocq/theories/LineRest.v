(** Proofs about line strings, fifth part: the clipped line string, tests,
    arrays, polygons (LineModel, LineSpec). *)
From Coq Require Import List ZArith QArith Qabs Bool Lia Lqa Sorting.Sorted Setoid.
From Verif Require Import Prelude PreludeFacts LineModel LineSpec LineProofs LineClip.
Import ListNotations.
Open Scope Q_scope.

(** ** Convexity *)

Lemma conv_le lo t a b : 0 <= t <= 1 -> lo <= a -> lo <= b -> lo <= a + t * (b - a).
Proof.
  intros T A B. assert (0 <= (1 - t) * (a - lo)) by (apply Qmult_le_0_compat; lra).
  assert (0 <= t * (b - lo)) by (apply Qmult_le_0_compat; lra). lra.
Qed.
Lemma conv_lt hi t a b : 0 <= t <= 1 -> a < hi -> b < hi -> a + t * (b - a) < hi.
Proof.
  intros T A B. destruct (Qlt_le_dec t 1).
  - assert (0 < (1 - t) * (hi - a)) by (apply Qmult_lt_0_compat; lra).
    assert (0 <= t * (hi - b)) by (apply Qmult_le_0_compat; lra). lra.
  - assert (E : t == 1) by lra. rewrite E. lra.
Qed.

Lemma in_image_seg s a b p : in_image s a -> in_image s b -> on_seg a b p -> in_image s p.
Proof.
  unfold in_image. intros [A1 A2] [B1 B2] (t & T & X & Y). rewrite X, Y.
  split; split; try (apply conv_le; tauto); apply conv_lt; tauto.
Qed.

Lemma in_image_peq s p q : peq p q -> in_image s q -> in_image s p.
Proof. unfold in_image; intros [A B]; rewrite A, B; auto. Qed.

Lemma in_image_path s cs p : Forall (in_image s) cs -> on_path cs p -> in_image s p.
Proof.
  intros F [(i & a & b & Ha & Hb & O)|(q & I & E)]; rewrite Forall_forall in F.
  - apply (in_image_seg s a b); [apply F; eapply nth_error_In; exact Ha|apply F; eapply nth_error_In; exact Hb|exact O].
  - eapply in_image_peq; [exact E|]. auto.
Qed.

Lemma on_path_peq cs p q : peq p q -> on_path cs p -> on_path cs q.
Proof.
  intros E [(i & a & b & Ha & Hb & t & T & P)|(r & I & E')].
  - left. exists i, a, b. split; [exact Ha|split; [exact Hb|]]. exists t. split; [exact T|]. eapply at_fraction_peq; eassumption.
  - right. exists r. split; [exact I|]. eapply peq_trans; [apply peq_sym; exact E|exact E'].
Qed.

(** Between two positions on an edge. *)
Lemma between_on cs q r a b p : at_position cs q a -> at_position cs r b -> along_edge q r -> on_seg a b p -> on_path cs p.
Proof.
  intros (T1 & x & y & Hx & Hy & P1) (T2 & x' & y' & Hx' & Hy' & P2) S (t & T & P). left. exists (fst q), x, y.
  split; [exact Hx|split; [exact Hy|]].
  assert (Z : exists u, snd q <= u <= 1 /\ at_fraction x y u b).
  { destruct S as [[E L]|[E Z]].
    - rewrite <- E in *. rewrite Hx in Hx'. rewrite Hy in Hy'. injection Hx' as <-. injection Hy' as <-. exists (snd r). split; [lra|exact P2].
    - rewrite E in *. rewrite Hy in Hx'. injection Hx' as <-. exists 1. split; [lra|].
      destruct P2 as [A B]. split; [rewrite A|rewrite B]; rewrite Z; ring. }
  destruct Z as (u & U & PU). exists (snd q + t * (u - snd q)). split; [nra|].
  destruct P1 as [A1 B1]. destruct PU as [A2 B2]. destruct P as [A3 B3].
  split; [rewrite A3, A1, A2|rewrite B3, B1, B2]; ring.
Qed.

Lemma F2_nth {A B} (R : A -> B -> Prop) la lb : Forall2 R la lb -> forall i b, nth_error lb i = Some b -> exists a, nth_error la i = Some a /\ R a b.
Proof. induction 1; intros [|i] z E; try discriminate; cbn in *; [injection E as <-; eauto|eauto]. Qed.

Lemma at_position_on cs q p : at_position cs q p -> on_path cs p.
Proof. intros (T & a & b & Ha & Hb & P). left. exists (fst q), a, b. split; [exact Ha|split; [exact Hb|]]. exists (snd q). auto. Qed.

Lemma pieces_on cs parts part p : pieces_of cs parts -> In part parts -> on_path part p -> on_path cs p.
Proof.
  intros (qss & F & C & _) I O. apply In_nth_error in I. destruct I as [k Hk].
  destruct (F2_nth _ _ _ F k part Hk) as (qs & Hq & FQ). rewrite Forall_forall in C. specialize (C qs (nth_error_In _ _ Hq)).
  destruct O as [(i & a & b & Ha & Hb & O)|(r & I & E)].
  - destruct (F2_nth _ _ _ FQ i a Ha) as (qa & Hqa & PA). destruct (F2_nth _ _ _ FQ (S i) b Hb) as (qb & Hqb & PB).
    exact (between_on cs qa qb a b p PA PB (C i qa qb Hqa Hqb) O).
  - apply In_nth_error in I. destruct I as [i Hi]. destruct (F2_nth _ _ _ FQ i r Hi) as (q & _ & PQ).
    eapply on_path_peq; [apply peq_sym; exact E|]. eapply at_position_on; exact PQ.
Qed.

(** The whole line string is a piece of itself. *)
Fixpoint vertex_positions (i : nat) (cs : list point) : list position :=
  match cs with
  | [] | [_] => []
  | [_; _] => [(i, 0); (i, 1)]
  | _ :: r => (i, 0) :: vertex_positions (S i) r
  end.

Lemma vertex_positions_ok cs0 : forall cs i, (2 <= length cs)%nat -> (forall k, nth_error cs k = nth_error cs0 (i + k)) ->
  Forall2 (at_position cs0) (vertex_positions i cs) cs /\
  (forall prev, along_edge prev (i, 0) -> chained along_edge (prev :: vertex_positions i cs)) /\
  Forall (fun q => not_after (i, 0) q) (vertex_positions i cs) /\
  StronglySorted not_after (vertex_positions i cs).
Proof.
  induction cs as [|a cs IH]; intros i L HN; [cbn in L; lia|]. destruct cs as [|b cs]; [cbn in L; lia|].
  assert (Ha : nth_error cs0 i = Some a) by (rewrite <- (Nat.add_0_r i), <- HN; reflexivity).
  assert (Hb : nth_error cs0 (S i) = Some b) by (rewrite <- Nat.add_1_r, <- HN; reflexivity).
  assert (PA : at_position cs0 (i, 0) a).
  { split; [cbn; lra|]. exists a, b. split; [exact Ha|split; [exact Hb|apply at_fraction_0]]. }
  assert (N0 : not_after (i, 0) (i, 0)) by (right; split; [reflexivity|cbn; lra]).
  destruct cs as [|c cs].
  - cbn [vertex_positions].
    assert (N1 : not_after (i, 0) (i, 1)) by (right; split; [reflexivity|cbn; lra]).
    split; [|split; [|split]].
    + constructor; [exact PA|]. constructor; [|constructor]. split; [cbn; lra|]. exists a, b. split; [exact Ha|split; [exact Hb|apply at_fraction_1]].
    + intros prev HP k x y Hx Hy. destruct k as [|[|k]]; cbn in Hx, Hy.
      * injection Hx as <-. injection Hy as <-. exact HP.
      * injection Hx as <-. injection Hy as <-. left. split; [reflexivity|cbn; lra].
      * destruct k; discriminate Hy.
    + constructor; [exact N0|]. constructor; [exact N1|constructor].
    + constructor; [|constructor; [exact N1|constructor]]. constructor; constructor.
  - destruct (IH (S i)) as (F & C & NA & SS); [cbn; lia|intro k; rewrite Nat.add_succ_comm, <- HN; reflexivity|].
    change (vertex_positions i (a :: b :: c :: cs)) with ((i, 0) :: vertex_positions (S i) (b :: c :: cs)).
    assert (NA' : Forall (not_after (i, 0)) (vertex_positions (S i) (b :: c :: cs))).
    { eapply Forall_impl; [|exact NA]. intros q H. eapply not_after_trans; [|exact H]. left. cbn. lia. }
    split; [|split; [|split]].
    + constructor; [exact PA|exact F].
    + intros prev HP. assert (CC := C (i, 0) (or_intror (conj eq_refl (Qeq_refl 0)))).
      intros k x y Hx Hy. destruct k as [|k]; [|exact (CC k x y Hx Hy)]. cbn in Hx, Hy. injection Hx as <-. injection Hy as <-. exact HP.
    + constructor; [exact N0|exact NA'].
    + constructor; assumption.
Qed.

Lemma whole_piece cs : (2 <= length cs)%nat -> pieces_of cs [cs].
Proof.
  intro L. destruct (vertex_positions_ok cs cs 0 L (fun k => eq_refl)) as (F & C & _ & S).
  exists [vertex_positions 0 cs]. split; [constructor; [exact F|constructor]|]. split.
  - constructor; [|constructor]. intros k x y Hx Hy. exact (C (0%nat, 0) (or_introl (conj eq_refl (Qle_refl 0))) (Datatypes.S k) x y Hx Hy).
  - cbn [concat]. rewrite app_nil_r. exact S.
Qed.

(** ** How many points are reported *)

Lemma insert_length key p l : length (insert_by key p l) = S (length l).
Proof. induction l as [|q l IH]; [reflexivity|]. cbn. destruct (qleb _ _); cbn; [reflexivity|]. rewrite IH. reflexivity. Qed.
Lemma sorted_length key l : length (sorted_by key l) = length l.
Proof. induction l as [|q l IH]; [reflexivity|]. cbn [sorted_by]. rewrite insert_length, IH. reflexivity. Qed.

Lemma inter_points_length g ps : inter_points g = Ok ps -> length ps = simple_points g.
Proof. destruct g as [p|[|a r]|gs]; cbn; intro E; try discriminate; injection E as <-; reflexivity. Qed.

Lemma edge_inters_length isect other a b it : edge_inters isect other (a, b) = Ok it -> length it = reported_points (isect a b other).
Proof.
  unfold edge_inters. generalize (isect a b other). intros g.
  destruct (mapM inter_points (flatten_collection g)) as [pss|] eqn:M; [|discriminate]. cbn [bind]. intro E. injection E as <-.
  rewrite sorted_length.
  assert (X : forall gs pss, mapM inter_points gs = Ok pss -> length (concat pss) = list_sum (map simple_points gs)).
  { clear. unfold mapM. induction gs as [|g gs IH]; intros pss E; cbn [map sequence] in E; [injection E as <-; reflexivity|].
    destruct (inter_points g) as [ps|] eqn:G; [|discriminate]. cbn [bind] in E. destruct (sequence (map inter_points gs)) as [r|] eqn:S; [|discriminate].
    injection E as <-. cbn [concat]. rewrite app_length, (inter_points_length _ _ G), (IH _ eq_refl). reflexivity. }
  apply X in M. rewrite M. destruct g as [p|[|a0 r]|gs]; reflexivity.
Qed.

Lemma find_length isect s cs lab inters n : reports_at_most n isect cs s ->
  find_intersections_with isect (mkLine cs lab) (image_edges s) = Ok (map (map snd) inters) ->
  Forall (fun it : list (Q * point) => (length it <= n)%nat) inters.
Proof.
  rewrite find_unfold. cbn [coords]. clear lab. revert inters. induction cs as [|a cs IH]; intros inters HR E.
  - cbn in E. destruct inters; [constructor|discriminate].
  - destruct cs as [|b r]; [cbn in E; destruct inters; [constructor|discriminate]|].
    change (segments (a :: b :: r)) with ((a, b) :: segments (b :: r)) in E. unfold mapM in *. cbn [map sequence] in E.
    destruct (edge_inters isect (image_edges s) (a, b)) as [it|] eqn:EI; [|discriminate]. cbn [bind] in E.
    destruct (sequence _) as [r'|] eqn:S in E; [|discriminate]. injection E as E.
    destruct inters as [|it' inters]; [discriminate|]. cbn [map] in E. injection E as E1 E2. constructor.
    + rewrite <- (map_length snd), <- E1, (edge_inters_length _ _ _ _ _ EI). apply (HR 0%nat); reflexivity.
    + apply IH; [intros i x y Hx Hy; exact (HR (Datatypes.S i) x y Hx Hy)|]. rewrite <- E2. exact S.
Qed.

(** ** Visible or not *)

Lemma acollect_seen s cs0 : forall cs' i inters', incl cs' cs0 -> all_good s cs' inters' ->
  Forall (fun e => is_ooi e = false -> in_core s (fst (fst (snd e))) \/ (In (fst (fst (snd e))) cs0 /\ in_image s (fst (fst (snd e)))))
    (acollect i cs' (map (fun p => negb (inside_point s p)) cs') inters').
Proof.
  induction cs' as [|a cs' IH]; intros i inters' HI G'; [constructor|]. destruct cs' as [|b r]; [constructor|].
  destruct inters' as [|it inters']; [contradiction|]. destruct G' as [(_ & GB & _) G'].
  cbn [map]. rewrite acollect_eq. constructor; [|apply Forall_app; split; [|apply Forall_app; split]].
  - cbn. intro H. apply negb_false_iff in H. right. split; [apply HI; left; reflexivity|]. apply inside_iff. exact H.
  - rewrite Forall_map. eapply Forall_impl; [|exact GB]. cbn. intros tp [H _] _. left. exact H.
  - destruct (_ && negb (negb (inside_point s b))) eqn:E; constructor; [|constructor]. cbn. intros _.
    apply andb_true_iff in E. destruct E as [_ E]. rewrite negb_involutive in E. right. split; [apply HI; right; left; reflexivity|]. apply inside_iff. exact E.
  - apply IH; [|exact G']. intros x I. apply HI. right. exact I.
Qed.

Lemma list_max_le (l : list (list (Q * point))) : exists n, (1 <= n)%nat /\ Forall (fun it => (length it <= n)%nat) l.
Proof.
  induction l as [|a l (n & H & F)]; [exists 1%nat; split; [lia|constructor]|].
  exists (Nat.max n (length a)). split; [lia|]. constructor; [lia|]. eapply Forall_impl; [|exact F]. cbn. intros; lia.
Qed.

Lemma clip_visible s cs inters : has_pixels s -> all_good s cs inters -> (2 <= length cs)%nat ->
  map (map snd) (aclip s cs inters) <> [] <-> visible s cs.
Proof.
  intros HP G L. split.
  - intro N. destruct (aclip s cs inters) as [|part parts] eqn:E; [contradiction N; reflexivity|].
    assert (NE := clip_nonempty s cs inters G). rewrite E in NE. apply Forall_inv in NE.
    destruct part as [|x part]; [contradiction NE; reflexivity|].
    assert (SUB := clip_subsequence s cs inters). rewrite E in SUB.
    assert (I : In x (concat ((x :: part) :: parts))) by (left; reflexivity).
    assert (I' := subsequence_in _ _ _ SUB I). apply in_map_iff in I'. destruct I' as (e & EX & I').
    apply filter_In in I'. destruct I' as [I1 I2]. apply negb_true_iff in I2.
    assert (A := acollect_seen s cs cs 0 inters (incl_refl _) G). rewrite Forall_forall in A. destruct (A e I1 I2) as [C|[C D]].
    + right. exists (fst (fst (snd e))). split; [|exact C].
      assert (P := clip_placed s cs inters G). rewrite Forall_forall in P. eapply at_position_on. exact (P e I1).
    + left. eauto.
  - intros V N. destruct V as [(p & I & P)|(p & O & C)].
    + assert (K := clip_keeps s cs inters G L). rewrite N in K.
      assert (X : In p (filter (inside_point s) cs)) by (apply filter_In; split; [exact I|apply inside_iff; exact P]).
      apply (subsequence_in _ _ _ K) in X. exact X.
    + destruct (list_max_le inters) as (n & Hn & F).
      assert (E0 : aclip s cs inters = []) by (destruct (aclip s cs inters); [reflexivity|discriminate]).
      destruct O as [(k & a & b & Ha & Hb & t & T & PT)|(q & I & E)].
      * destruct (clip_covers s cs inters G n Hn F k a b t p Ha Hb T PT C) as (part & p' & I & _). rewrite E0 in I. exact I.
      * assert (K := clip_keeps s cs inters G L). rewrite N in K.
        assert (X : In q (filter (inside_point s) cs)).
        { apply filter_In; split; [exact I|apply inside_iff]. apply core_in_image. eapply in_core_peq; eassumption. }
        apply (subsequence_in _ _ _ K) in X. exact X.
Qed.

(** ** The clipped line string *)

Definition clip_result (n : nat) (s : Z * Z) (cs : list point) (parts : list (list point)) : Prop :=
  Forall (fun part => part <> []) parts /\
  Forall (Forall (in_image s)) parts /\
  ((2 <= length cs)%nat -> pieces_of cs parts) /\
  (forall part p, In part parts -> on_path part p -> on_path cs p /\ in_image s p) /\
  subsequence (filter (inside_point s) cs) (concat parts) /\
  (forall k a b p, nth_error cs k = Some a -> nth_error cs (S k) = Some b ->
     in_image s a -> in_image s b -> on_seg a b p -> exists part, In part parts /\ on_path part p) /\
  (forall p, on_path cs p -> in_core s p ->
     exists part p', In part parts /\ on_path part p' /\ within (inject_Z (Z.of_nat n) * (1 # 100)) p p') /\
  (parts <> [] <-> visible s cs) /\
  (cs <> [] -> Forall (in_image s) cs -> parts = [cs]).

Lemma forallb_mask s l : forallb (fun b => b) (inside_image_mask s l) = forallb (inside_point s) (coords l).
Proof. unfold inside_image_mask. induction (coords l); cbn; [reflexivity|]. rewrite IHl0. reflexivity. Qed.
Lemma existsb_mask s l : existsb (fun b => b) (inside_image_mask s l) = existsb (inside_point s) (coords l).
Proof. unfold inside_image_mask. induction (coords l); cbn; [reflexivity|]. rewrite IHl0. reflexivity. Qed.

Lemma forallb_inside s cs : forallb (inside_point s) cs = true <-> Forall (in_image s) cs.
Proof. rewrite forallb_forall, Forall_forall. split; intros H x I; apply inside_iff; auto. Qed.

Lemma filter_all {A} (f : A -> bool) l : forallb f l = true -> filter f l = l.
Proof. induction l as [|a l IH]; [reflexivity|]. cbn. intro H. apply andb_true_iff in H. destruct H as [H1 H2]. rewrite H1, (IH H2). reflexivity. Qed.

Lemma whole_result n s cs : cs <> [] -> Forall (in_image s) cs -> clip_result n s cs [cs].
Proof.
  intros NE F. split; [constructor; [exact NE|constructor]|]. split; [constructor; [exact F|constructor]|].
  split; [apply whole_piece|]. split.
  { intros part p [<-|[]] O. split; [exact O|]. eapply in_image_path; eassumption. }
  split. { cbn [concat]. rewrite app_nil_r, filter_all by (apply forallb_inside; exact F). apply subsequence_refl. }
  split. { intros k a b p Ha Hb _ _ O. exists cs. split; [left; reflexivity|]. left. eauto 6. }
  split. { intros p O _. exists cs, p. split; [left; reflexivity|]. split; [exact O|]. apply within_self. apply peq_refl. }
  split; [|intros; reflexivity]. split; [intros _|discriminate]. left. destruct cs as [|p cs]; [contradiction NE; reflexivity|].
  exists p. split; [left; reflexivity|]. apply Forall_inv in F. exact F.
Qed.

Lemma none_result n s cs : (length cs <= 1)%nat -> Forall (fun p => ~ in_image s p) cs -> clip_result n s cs [].
Proof.
  intros L F.
  assert (NO : forall p, on_path cs p -> ~ in_image s p).
  { intros p [(i & a & b & Ha & Hb & _)|(q & I & E)] IP.
    - assert ((S i < length cs)%nat) by (apply nth_error_Some; congruence). lia.
    - rewrite Forall_forall in F. apply (F q I). eapply in_image_peq; [apply peq_sym; exact E|exact IP]. }
  split; [constructor|]. split; [constructor|]. split; [lia|]. split; [intros ? ? []|].
  split. { replace (filter (inside_point s) cs) with (@nil point); [constructor|]. symmetry. clear -F. induction F as [|p l H F IH]; [reflexivity|].
    cbn. destruct (inside_point s p) eqn:E; [|exact IH]. exfalso. apply H. apply inside_iff. exact E. }
  split. { intros k a b p Ha Hb. assert ((S k < length cs)%nat) by (apply nth_error_Some; congruence). lia. }
  split. { intros p O C. exfalso. apply (NO p O). apply core_in_image. exact C. }
  split. { split; [intro H; contradiction H; reflexivity|]. intros [(p & I & P)|(p & O & C)] _.
    - rewrite Forall_forall in F. exact (F p I P).
    - apply (NO p O). apply core_in_image. exact C. }
  intros NE F'. destruct cs as [|p cs]; [contradiction NE; reflexivity|]. exfalso. apply Forall_inv in F. apply Forall_inv in F'. auto.
Qed.

Lemma clip_main n isect l s : (1 <= n)%nat -> has_pixels s -> shapely_ok isect (coords l) s -> reports_at_most n isect (coords l) s ->
  exists parts, clip_out_of_image isect l s = Ok (map (fun c => mkLine c (ls_label l)) parts) /\ clip_result n s (coords l) parts.
Proof.
  intros Hn HP HS HR. destruct l as [cs lab]. cbn [coords ls_label] in *.
  destruct (forallb (inside_point s) cs) eqn:FI.
  - destruct cs as [|a cs]; [exists []; split; [reflexivity|apply none_result; [cbn; lia|constructor]]|].
    exists [a :: cs]. split; [|apply whole_result; [discriminate|apply forallb_inside; exact FI]].
    unfold clip_out_of_image. rewrite forallb_mask, existsb_mask. cbn [coords]. rewrite FI. destruct cs; [|reflexivity].
    cbn [forallb] in FI. apply andb_true_iff in FI. destruct FI as [FI _]. cbn [existsb]. rewrite FI. reflexivity.
  - destruct cs as [|a [|b r]]; [discriminate FI| |].
    + exists []. unfold clip_out_of_image. cbn [coords]. rewrite existsb_mask. cbn [coords existsb forallb] in *. rewrite andb_true_r in FI. rewrite FI.
      split; [reflexivity|]. apply none_result; [cbn; lia|]. constructor; [|constructor]. rewrite <- inside_iff. congruence.
    + set (cs := a :: b :: r) in *. assert (L : (2 <= length cs)%nat) by (cbn; lia).
      destruct (find_ok isect s cs lab HP HS) as (inters & E & G).
      assert (HL := find_length isect s cs lab inters n HR E).
      exists (map (map snd) (aclip s cs inters)). split; [exact (clip_unfold isect s cs lab inters L FI E G)|].
      assert (PI := clip_inside s cs inters G). assert (PP := clip_pieces s cs inters G).
      split; [exact (clip_nonempty s cs inters G)|]. split; [exact PI|]. split; [intros _; exact PP|]. split.
      { intros part p I O. split; [eapply pieces_on; eassumption|]. rewrite Forall_forall in PI. eapply in_image_path; [apply PI; exact I|exact O]. }
      split; [exact (clip_keeps s cs inters G L)|]. split.
      { intros k x y p Hx Hy IX IY (t & T & PT). exact (clip_exact s cs inters G k x y t p Hx Hy IX IY T PT). }
      split.
      { intros p O C.
        assert (EDGE : exists k x y t, nth_error cs k = Some x /\ nth_error cs (S k) = Some y /\ 0 <= t <= 1 /\ at_fraction x y t p).
        { destruct O as [(k & x & y & Hx & Hy & t & T & PT)|(q & I & EQ)]; [eauto 10|].
          apply In_nth_error in I. destruct I as [k Hk]. destruct (nth_error cs (S k)) as [y|] eqn:Hy.
          - exists k, q, y, 0. split; [exact Hk|split; [exact Hy|split; [lra|]]]. eapply at_fraction_peq; [apply peq_sym; exact EQ|apply at_fraction_0].
          - apply nth_error_None in Hy. assert (k < length cs)%nat by (apply nth_error_Some; congruence).
            destruct k as [|k]; [lia|]. destruct (nth_error cs k) as [x|] eqn:Hx; [|apply nth_error_None in Hx; lia].
            exists k, x, q, 1. split; [exact Hx|split; [exact Hk|split; [lra|]]]. eapply at_fraction_peq; [apply peq_sym; exact EQ|apply at_fraction_1]. }
        destruct EDGE as (k & x & y & t & Hx & Hy & T & PT).
        destruct (clip_covers s cs inters G n Hn HL k x y t p Hx Hy T PT C) as (part & p' & I & O' & W).
        exists (map snd part), p'. split; [apply in_map; exact I|]. split; [exact O'|exact W]. }
      split; [apply clip_visible; assumption|].
      intros _ F. apply forallb_inside in F. congruence.
Qed.

Lemma some_bound isect s : forall cs, exists n, (1 <= n)%nat /\ reports_at_most n isect cs s.
Proof.
  induction cs as [|a cs (n & Hn & HR)]; [exists 1%nat; split; [lia|intros i a b Ha; destruct i; discriminate]|].
  destruct cs as [|b r]; [exists 1%nat; split; [lia|intros [|[|i]] x y Hx Hy; discriminate]|].
  exists (Nat.max n (reported_points (isect a b (image_edges s)))). split; [lia|].
  intros [|i] x y Hx Hy; [cbn in Hx, Hy; injection Hx as <-; injection Hy as <-; lia|].
  specialize (HR i x y Hx Hy). lia.
Qed.

Lemma clip_some isect l s : has_pixels s -> shapely_ok isect (coords l) s ->
  exists n parts, clip_out_of_image isect l s = Ok (map (fun c => mkLine c (ls_label l)) parts) /\ clip_result n s (coords l) parts.
Proof.
  intros HP HS. destruct (some_bound isect s (coords l)) as (n & Hn & HR). destruct (clip_main n isect l s Hn HP HS HR) as (parts & H). eauto.
Qed.

(** ** Tests *)

Lemma fully_iff l s d : coords l <> [] -> is_fully_within_image l s d = true <-> Forall (in_image s) (coords l).
Proof.
  intro N. unfold is_fully_within_image. destruct (coords l) eqn:E; [contradiction N; reflexivity|].
  rewrite forallb_mask, E. apply forallb_inside.
Qed.

Lemma existsb_inside s cs : existsb (inside_point s) cs = true <-> exists p, In p cs /\ in_image s p.
Proof. rewrite existsb_exists. split; intros (p & I & H); exists p; (split; [exact I|apply inside_iff; exact H]). Qed.

Lemma partly_iff isect l s d : has_pixels s -> shapely_ok isect (coords l) s -> coords l <> [] ->
  exists b, is_partly_within_image isect l s d = Ok b /\ (b = true <-> visible s (coords l)).
Proof.
  intros HP HS N. unfold is_partly_within_image. destruct (coords l) eqn:E; [contradiction N; reflexivity|]. rewrite <- E in *. clear E.
  rewrite existsb_mask. destruct (existsb (inside_point s) (coords l)) eqn:EX.
  - exists true. split; [reflexivity|]. split; [intros _|reflexivity]. left. apply existsb_inside. exact EX.
  - destruct (clip_some isect l s HP HS) as (n & parts & E & R). rewrite E. cbn [bind].
    eexists. split; [reflexivity|]. destruct R as (_ & _ & _ & _ & _ & _ & _ & V & _). rewrite <- V.
    rewrite map_length. destruct parts; cbn; split; intro H; try discriminate; try reflexivity. contradiction H; reflexivity.
Qed.

Lemma visible_dec isect l s : has_pixels s -> shapely_ok isect (coords l) s -> coords l <> [] -> {visible s (coords l)} + {~ visible s (coords l)}.
Proof.
  intros HP HS N. destruct (is_partly_within_image isect l s false) as [b|] eqn:E.
  - destruct b; [left|right]; destruct (partly_iff isect l s false HP HS N) as (b & E' & V); rewrite E in E'; injection E' as <-; [apply V; reflexivity|].
    intro H. apply V in H. discriminate H.
  - exfalso. destruct (partly_iff isect l s false HP HS N) as (b & E' & V). congruence.
Qed.

Lemma all_visible s cs : cs <> [] -> Forall (in_image s) cs -> visible s cs.
Proof. intros N F. destruct cs as [|p cs]; [contradiction N; reflexivity|]. left. exists p. split; [left; reflexivity|]. apply Forall_inv in F. exact F. Qed.

Lemma out_cases isect l s fully partly d : has_pixels s -> shapely_ok isect (coords l) s -> coords l <> [] ->
  (Forall (in_image s) (coords l) -> is_out_of_image isect l s fully partly d = Ok false) /\
  (~ Forall (in_image s) (coords l) -> visible s (coords l) -> is_out_of_image isect l s fully partly d = Ok partly) /\
  (~ visible s (coords l) -> is_out_of_image isect l s fully partly d = Ok fully).
Proof.
  intros HP HS N. unfold is_out_of_image. assert (X := fully_iff l s false N).
  destruct (partly_iff isect l s false HP HS N) as (b & E & V). rewrite E. cbn [bind].
  assert (Y : forall (T : Type) (x y : T), match coords l with [] => x | _ :: _ => y end = y) by (intros; destruct (coords l); [contradiction N; reflexivity|reflexivity]).
  rewrite Y. split; [|split].
  - intro F. apply X in F. rewrite F. reflexivity.
  - intros F H. destruct (is_fully_within_image l s false); [exfalso; apply F; apply X; reflexivity|]. apply V in H. rewrite H. reflexivity.
  - intro H. destruct (is_fully_within_image l s false) eqn:EF; [exfalso; apply H; apply all_visible; [exact N|apply X; reflexivity]|].
    destruct b; [exfalso; apply H; apply V; reflexivity|]. reflexivity.
Qed.

Lemma keep_unless_filter {A} (f : A -> res bool) (keep : A -> bool) l :
  (forall a, In a l -> f a = Ok (negb (keep a))) -> keep_unless f l = Ok (filter keep l).
Proof.
  induction l as [|a l IH]; intro H; [reflexivity|]. cbn [keep_unless filter]. rewrite (H a (or_introl eq_refl)). cbn [bind].
  rewrite IH by (intros b I; apply H; right; exact I). cbn [bind]. destruct (keep a); reflexivity.
Qed.

Lemma remains_dec isect l s fully partly : has_pixels s -> shapely_ok isect (coords l) s ->
  exists k : bool, is_out_of_image isect l s fully partly true = Ok (negb k) /\ (k = true <-> remains s fully partly (coords l)).
Proof.
  intros HP HS. destruct (coords l) as [|c cs] eqn:E.
  { exists false. split; [unfold is_out_of_image; rewrite E; reflexivity|]. split; [discriminate|]. intros [H _]. contradiction H; reflexivity. }
  assert (N : coords l <> []) by (rewrite E; discriminate). rewrite <- E in *. clear E.
  destruct (out_cases isect l s fully partly true HP HS N) as (A & B & C).
  destruct (forallb (inside_point s) (coords l)) eqn:F.
  - apply forallb_inside in F. exists true. split; [exact (A F)|]. split; [intros _; split; [exact N|left; exact F]|reflexivity].
  - assert (F' : ~ Forall (in_image s) (coords l)) by (rewrite <- forallb_inside; congruence).
    destruct (visible_dec isect l s HP HS N) as [V|V].
    + exists (negb partly). rewrite negb_involutive. split; [exact (B F' V)|]. unfold remains. destruct partly; cbn; split; intro H; try discriminate; try reflexivity.
      * destruct H as [_ [H|[[_ H]|[H _]]]]; [contradiction|discriminate|contradiction].
      * split; [exact N|]. right; left. split; [exact V|reflexivity].
    + exists (negb fully). rewrite negb_involutive. split; [exact (C V)|]. unfold remains. destruct fully; cbn; split; intro H; try discriminate; try reflexivity.
      * destruct H as [_ [H|[[H _]|[_ H]]]]; [contradiction|contradiction|discriminate].
      * split; [exact N|]. right; right. split; [exact V|reflexivity].
Qed.

Lemma choose_bools {A} (P : A -> bool -> Prop) l : (forall a, In a l -> exists b, P a b) -> exists bs, Forall2 P l bs.
Proof.
  induction l as [|a l IH]; intro H; [exists []; constructor|]. destruct (H a (or_introl eq_refl)) as (b & Hb).
  destruct IH as (bs & F); [intros x I; apply H; right; exact I|]. exists (b :: bs). constructor; assumption.
Qed.

Lemma keep_unless_spec {A} (f : A -> res bool) (P : A -> Prop) l :
  (forall a, In a l -> exists k : bool, f a = Ok (negb k) /\ (k = true <-> P a)) ->
  exists l', keep_unless f l = Ok l' /\ subsequence l' l /\ (forall a, In a l' <-> In a l /\ P a) /\
             (forall g, (forall a, In a l -> g a = true <-> P a) -> l' = filter g l).
Proof.
  induction l as [|a l IH]; intro H.
  - exists []. split; [reflexivity|]. split; [constructor|]. split; [intro a; cbn; tauto|reflexivity].
  - destruct (H a (or_introl eq_refl)) as (k & E & K). destruct IH as (l' & E' & S & I & U); [intros x J; apply H; right; exact J|].
    exists (if k then a :: l' else l'). cbn [keep_unless]. rewrite E. cbn [bind]. rewrite E'. cbn [bind]. split; [destruct k; reflexivity|].
    split; [destruct k; constructor; exact S|]. split.
    + intro x. destruct k; cbn [In]; rewrite I; split.
      * intros [<-|[J1 J2]]; [split; [left; reflexivity|apply K; reflexivity]|split; [right; exact J1|exact J2]].
      * intros [[<-|J1] J2]; [left; reflexivity|right; split; assumption].
      * intros [J1 J2]. split; [right; exact J1|exact J2].
      * intros [[<-|J1] J2]; [apply K in J2; discriminate J2|split; assumption].
    + intros g Hg. cbn [filter]. rewrite <- (U g) by (intros x J; apply Hg; right; exact J).
      assert (G := Hg a (or_introl eq_refl)). destruct k, (g a); try reflexivity; exfalso.
      * assert (false = true) by (apply G; apply K; reflexivity). discriminate.
      * assert (false = true) by (apply K; apply G; reflexivity). discriminate.
Qed.

Lemma lsoi_clip_ok isect o : has_pixels (lsoi_shape o) -> (forall l, In l (line_strings o) -> shapely_ok isect (coords l) (lsoi_shape o)) ->
  exists partss, lsoi_clip_out_of_image isect o = Ok (mkLsoi (concat partss) (lsoi_shape o)) /\
    Forall2 (fun l parts => clip_out_of_image isect l (lsoi_shape o) = Ok parts) (line_strings o) partss.
Proof.
  intros HP HS. unfold lsoi_clip_out_of_image. destruct o as [ls s]. cbn [line_strings lsoi_shape] in *.
  assert (X : exists partss, mapM (fun l => clip_out_of_image isect l s) ls = Ok partss /\ Forall2 (fun l parts => clip_out_of_image isect l s = Ok parts) ls partss).
  { induction ls as [|l ls IH]; [exists []; split; [reflexivity|constructor]|].
    destruct IH as (ps & E & F); [intros x I; apply HS; right; exact I|].
    destruct (clip_some isect l s HP (HS l (or_introl eq_refl))) as (n & parts & E1 & _).
    eexists (_ :: ps). unfold mapM in *. cbn [map sequence]. rewrite E1. cbn [bind]. rewrite E. split; [reflexivity|]. constructor; [exact E1|exact F]. }
  destruct X as (ps & E & F). exists ps. rewrite E. split; [reflexivity|exact F].
Qed.

(** ** Arrays *)

Definition total (ls : list linestring) : nat := length (concat (map coords ls)).

Lemma fill_ok : forall ls xy, length xy = total ls ->
  snd (fill_loop ls xy) = None /\ fst (fill_loop ls xy) = assign_loop ls xy /\
  concat (map coords (assign_loop ls xy)) = xy /\ map ls_label (assign_loop ls xy) = map ls_label ls /\
  map (fun l => length (coords l)) (assign_loop ls xy) = map (fun l => length (coords l)) ls.
Proof.
  unfold total. induction ls as [|l ls IH]; intros xy H.
  - cbn in H. destruct xy; [|discriminate]. cbn. auto.
  - cbn [map concat] in H. rewrite app_length in H. cbn [fill_loop assign_loop].
    assert (L : Nat.leb (length (coords l)) (length xy) = true) by (apply Nat.leb_le; lia). rewrite L.
    destruct (IH (skipn (length (coords l)) xy)) as (A & B & C & D & E); [rewrite skipn_length; lia|].
    destruct (fill_loop ls (skipn (length (coords l)) xy)) as [r e]. cbn [fst snd] in *. subst e r.
    split; [reflexivity|]. split; [reflexivity|]. cbn [map concat coords ls_label]. rewrite C, D, E, firstn_skipn.
    rewrite firstn_length, Nat.min_l by lia. auto.
Qed.

Lemma fill_bad : forall ls xy, length xy <> total ls -> snd (fill_loop ls xy) = Some AssertionError.
Proof.
  unfold total. induction ls as [|l ls IH]; intros xy H.
  - destruct xy; [contradiction H; reflexivity|reflexivity].
  - cbn [map concat] in H. rewrite app_length in H. cbn [fill_loop].
    destruct (Nat.leb _ _) eqn:L; [|reflexivity]. apply Nat.leb_le in L.
    assert (R := IH (skipn (length (coords l)) xy)). destruct (fill_loop ls _) as [r e]. cbn [snd] in *. apply R. rewrite skipn_length. lia.
Qed.

Lemma assign_same : forall ls, assign_loop ls (concat (map coords ls)) = ls.
Proof.
  induction ls as [|[cs lab] ls IH]; [reflexivity|]. cbn [map concat assign_loop coords ls_label].
  rewrite firstn_app, skipn_app, Nat.sub_diag, firstn_all, skipn_all. cbn [firstn skipn app]. rewrite app_nil_r, IH. reflexivity.
Qed.

Lemma total_sum ls : total ls = fold_right Nat.add 0%nat (map (fun l => length (coords l)) ls).
Proof. unfold total. induction ls as [|l ls IH]; [reflexivity|]. cbn [map concat fold_right]. rewrite app_length, IH. reflexivity. Qed.

(** ** Polygons *)

Lemma argmin_spec : forall l, l <> [] -> (argmin l < length l)%nat /\
  (forall i, (i < length l)%nat -> nth (argmin l) l 0 <= nth i l 0) /\
  (forall i, (i < argmin l)%nat -> nth (argmin l) l 0 < nth i l 0).
Proof.
  induction l as [|a l IH]; intro N; [contradiction N; reflexivity|]. destruct l as [|b l].
  - cbn. split; [lia|]. split; [intros i Hi; assert (i = 0%nat) by lia; subst; apply Qle_refl|lia].
  - destruct IH as (A & B & C); [discriminate|]. cbn [argmin]. change (argmin (b :: l)) with (argmin (b :: l)) in *.
    set (r := b :: l) in *. change (match l with [] => 0%nat | _ :: _ => if qltb (nth (argmin l) l 0) b then S (argmin l) else 0%nat end) with (argmin r).
    destruct (qltb (nth (argmin r) r 0) a) eqn:E.
    + apply qltb_iff in E. split; [cbn [length]; lia|]. split.
      * intros [|i] Hi; cbn [nth]; [lra|apply B; cbn [length] in Hi; lia].
      * intros [|i] Hi; cbn [nth]; [exact E|apply C; lia].
    + apply qltb_false in E. split; [cbn [length]; lia|]. split; [|lia].
      intros [|i] Hi; cbn [nth]; [apply Qle_refl|]. cbn [length] in Hi. assert (X := B i ltac:(lia)). lra.
Qed.

Lemma find_closest_ok ext p : ext <> [] ->
  exists j q, find_closest_point_index ext p = Ok (j, dist2 q p) /\ nth_error ext j = Some q /\ closest ext p q /\
    (forall i q', (i < j)%nat -> nth_error ext i = Some q' -> dist2 q p < dist2 q' p).
Proof.
  intro N. unfold find_closest_point_index. set (f := fun q => dist2 q p).
  assert (ND : map f ext <> []) by (destruct ext; [contradiction N; reflexivity|discriminate]).
  destruct (argmin_spec (map f ext) ND) as (A & B & C). rewrite map_length in A, B. set (j := argmin (map f ext)) in *.
  assert (NT : forall i q, nth_error ext i = Some q -> nth i (map f ext) 0 = f q).
  { intros i q H. assert (H' := map_nth_error f i ext H). exact (nth_error_nth _ _ 0 H'). }
  destruct (nth_error ext j) as [q|] eqn:Hq; [|apply nth_error_None in Hq; lia].
  exists j, q. split; [destruct ext; [contradiction N; reflexivity|]; fold f; fold j; rewrite (NT j q Hq); reflexivity|].
  split; [exact Hq|]. split.
  - split; [eapply nth_error_In; exact Hq|]. intros q' I. apply In_nth_error in I. destruct I as [i Hi].
    assert (Li : (i < length ext)%nat) by (apply nth_error_Some; congruence). specialize (B i Li). rewrite (NT _ _ Hq), (NT _ _ Hi) in B. exact B.
  - intros i q' Hi Hq'. specialize (C i Hi). rewrite (NT _ _ Hq), (NT _ _ Hq') in C. exact C.
Qed.

Lemma last_app_one {A} (l : list A) a d : last (l ++ [a]) d = a.
Proof. induction l as [|b l IH]; [reflexivity|]. cbn [app]. destruct (l ++ [a]) eqn:E; [destruct l; discriminate|]. exact IH. Qed.

Lemma isclose_abs a b : isclose a b = true <-> Qabs (a - b) <= (1 # 100000000) + (1 # 100000) * Qabs b.
Proof.
  unfold isclose. rewrite qleb_iff.
  assert (X : forall x, qmax x (- x) == Qabs x).
  { intro x. unfold qmax. destruct (qltb x (- x)) eqn:E.
    - apply qltb_iff in E. symmetry. apply Qabs_neg. lra.
    - apply qltb_false in E. symmetry. apply Qabs_pos. lra. }
  rewrite X. assert (Y : qmax (a - b) (b - a) == Qabs (a - b)).
  { rewrite <- X. unfold qmax. assert (E : b - a == - (a - b)) by ring.
    destruct (qltb (a - b) (b - a)) eqn:E1, (qltb (a - b) (- (a - b))) eqn:E2; try reflexivity; try exact E.
    - apply qltb_iff in E1. apply qltb_false in E2. lra.
    - apply qltb_iff in E2. apply qltb_false in E1. lra. }
  rewrite Y. reflexivity.
Qed.

Lemma isclose_same p q : isclose (fst p) (fst q) && isclose (snd p) (snd q) = true <-> nearly_same p q.
Proof. rewrite andb_true_iff, !isclose_abs. reflexivity. Qed.

Lemma change_first_ok ext i : (Z.to_nat i < length ext)%nat -> (0 <= i)%Z -> all_apart ext ->
  exists u p v, ext = u ++ p :: v /\ length u = Z.to_nat i /\ change_first_point_by_index ext i = Ok (p :: v ++ u).
Proof.
  intros H H0 AP. unfold change_first_point_by_index.
  assert (E : ((0 <=? i) && (i <? Z.of_nat (length ext)))%Z = true) by (apply andb_true_iff; rewrite Z.leb_le, Z.ltb_lt; lia).
  rewrite E. destruct (nth_error ext (Z.to_nat i)) as [p|] eqn:N; [|apply nth_error_None in N; lia].
  apply nth_error_split in N. destruct N as (u & v & EX & L). exists u, p, v. split; [exact EX|]. split; [exact L|].
  destruct (i =? 0)%Z eqn:EZ.
  - apply Z.eqb_eq in EZ. subst i. destruct u; [|discriminate]. rewrite EX, app_nil_r. reflexivity.
  - apply Z.eqb_neq in EZ. rewrite <- L, EX, firstn_app, skipn_app, Nat.sub_diag, firstn_all, skipn_all. cbn [firstn skipn app]. rewrite app_nil_r.
    destruct u as [|a u] using rev_ind; [cbn in L; lia|]. clear IHu.
    rewrite app_assoc. f_equal. unfold polygon_new.
    assert (NE : exists c w, v ++ u ++ [a] = c :: w) by (destruct (v ++ u ++ [a]) eqn:EE; [destruct v; [destruct u|]; discriminate|eauto]).
    cbn [app]. rewrite <- app_assoc. destruct NE as (c & w & NE). rewrite NE. rewrite <- NE.
    replace (last (p :: v ++ u ++ [a]) p) with a; [|symmetry; rewrite app_assoc; exact (last_app_one (p :: v ++ u) a p)].
    destruct (isclose (fst p) (fst a) && isclose (snd p) (snd a)) eqn:EC; [exfalso|reflexivity].
    apply isclose_same in EC. apply (AP u a p v); [|exact EC]. rewrite EX, <- app_assoc. reflexivity.
Qed.

(** The pair that is kept, in the order of the search. *)
Lemma best_index_ok polygon : polygon <> [] -> forall ext done best,
  match best with
  | None => done = []
  | Some (i, d) => exists q p u v, nth_error polygon i = Some q /\ done = u ++ p :: v /\ d = dist2 q p /\
      (forall q' p', In q' polygon -> In p' done -> dist2 q p <= dist2 q' p') /\
      (forall q' p', In q' polygon -> In p' u -> dist2 q p < dist2 q' p')
  end ->
  exists r, best_index polygon ext best = Ok r /\
  match r with
  | None => done ++ ext = []
  | Some (i, d) => exists q p u v, nth_error polygon i = Some q /\ done ++ ext = u ++ p :: v /\ d = dist2 q p /\
      (forall q' p', In q' polygon -> In p' (done ++ ext) -> dist2 q p <= dist2 q' p') /\
      (forall q' p', In q' polygon -> In p' u -> dist2 q p < dist2 q' p')
  end.
Proof.
  intro N. induction ext as [|e ext IH]; intros done best HB.
  - exists best. split; [reflexivity|]. destruct best as [[i d]|]; rewrite app_nil_r; exact HB.
  - cbn [best_index]. destruct (find_closest_ok polygon e N) as (j & qj & E & Hj & [_ CJ] & _). rewrite E. cbn [bind].
    replace (done ++ e :: ext) with ((done ++ [e]) ++ ext) by (rewrite <- app_assoc; reflexivity). apply IH.
    destruct best as [[i d]|].
    + destruct HB as (q & p & u & v & Hq & Hd & -> & M1 & M2). cbn [snd]. destruct (qltb (dist2 qj e) (dist2 q p)) eqn:EL.
      * apply qltb_iff in EL. exists qj, e, done, []. split; [exact Hj|]. split; [reflexivity|]. split; [reflexivity|]. split.
        -- intros q' p' I J. apply in_app_or in J. destruct J as [J|[<-|[]]]; [|exact (CJ q' I)]. assert (X := M1 q' p' I J). lra.
        -- intros q' p' I J. assert (X := M1 q' p' I J). lra.
      * apply qltb_false in EL. exists q, p, u, (v ++ [e]). split; [exact Hq|]. split; [rewrite Hd, <- app_assoc; reflexivity|]. split; [reflexivity|]. split; [|exact M2].
        intros q' p' I J. apply in_app_or in J. destruct J as [J|[<-|[]]]; [exact (M1 q' p' I J)|]. assert (X := CJ q' I). lra.
    + subst done. exists qj, e, [], []. split; [exact Hj|]. split; [reflexivity|]. split; [reflexivity|]. split; [|intros ? ? _ []].
      intros q' p' I [<-|[]]. exact (CJ q' I).
Qed.

(** What [reorder] does to one polygon. *)
Definition reordered (ext polygon result : list point) : Prop :=
  rotation polygon result /\
  (exists q p u v, hd_error result = Some q /\ ext = u ++ p :: v /\ closest_pair polygon ext q p /\
     (forall q' p', In q' polygon -> In p' u -> dist2 q p < dist2 q' p')).

Lemma reorder_ok ext : ext <> [] -> forall polygons, Forall (fun e => e <> [] /\ all_apart e) polygons ->
  exists r, reorder ext polygons = Ok r /\ Forall2 (reordered ext) polygons r.
Proof.
  intro NX.
  assert (X : forall polygons, Forall (fun e => e <> [] /\ all_apart e) polygons ->
    exists l r, mapM (fun polygon =>
                  do b <- best_index polygon ext None;
                  match b with
                  | None => Ok []
                  | Some (i, _) => do q <- change_first_point_by_index polygon (Z.of_nat i); Ok [q]
                  end) polygons = Ok l /\ concat l = r /\ Forall2 (reordered ext) polygons r).
  { induction polygons as [|poly polys IH]; intro F; [exists [], []; split; [reflexivity|split; [reflexivity|constructor]]|].
    destruct (Forall_inv F) as [N A]. destruct (IH (Forall_inv_tail F)) as (l & r & E & C & G).
    destruct (best_index_ok poly N ext [] None eq_refl) as (b & EB & HB). cbn [app] in HB. destruct b as [[i d]|]; [|contradiction NX].
    destruct HB as (q & p & u & v & Hq & Hx & _ & M1 & M2).
    assert (Li : (i < length poly)%nat) by (apply nth_error_Some; congruence).
    destruct (change_first_ok poly (Z.of_nat i)) as (u' & p' & v' & EP & LU & EC); [rewrite Nat2Z.id; exact Li|lia|exact A|].
    exists ([p' :: v' ++ u'] :: l), ((p' :: v' ++ u') :: r). unfold mapM in *. cbn [map sequence]. rewrite EB. cbn [bind]. rewrite EC. cbn [bind]. rewrite E.
    split; [reflexivity|]. split; [cbn [concat app]; rewrite C; reflexivity|]. constructor; [|exact G].
    assert (p' = q).
    { rewrite Nat2Z.id in LU. rewrite EP, nth_error_app2, LU, Nat.sub_diag in Hq by lia. cbn in Hq. congruence. }
    subst p'. split; [exists u', (q :: v'); split; [exact EP|reflexivity]|]. exists q, p, u, v. split; [reflexivity|]. split; [exact Hx|].
    split; [|exact M2]. split; [eapply nth_error_In; exact Hq|]. split; [rewrite Hx; apply in_elt|exact M1]. }
  intros polygons F. destruct (X polygons F) as (l & r & E & C & G). exists r. unfold reorder. rewrite E. cbn [bind]. rewrite C. auto.
Qed.

Lemma dist2_nonneg p q : 0 <= dist2 p q.
Proof. unfold dist2. assert (H := sqr_nonneg (fst p - fst q)). assert (H' := sqr_nonneg (snd p - snd q)). lra. Qed.

Lemma sq_zero x : x * x == 0 -> x == 0.
Proof. intro H. destruct (Qeq_dec x 0); [assumption|]. exfalso. assert (P := sqr_pos x n). lra. Qed.

Lemma dist2_zero p q : dist2 p q == 0 -> peq p q.
Proof.
  unfold dist2. intro H. assert (A := sqr_nonneg (fst p - fst q)). assert (B := sqr_nonneg (snd p - snd q)).
  assert (X : fst p - fst q == 0) by (apply sq_zero; lra). assert (Y : snd p - snd q == 0) by (apply sq_zero; lra). split; lra.
Qed.

(** The first point of the polygon is first again, if it is still there. *)
Lemma reordered_first a ext polygon result : reordered (a :: ext) polygon result -> (exists a', In a' polygon /\ peq a' a) ->
  exists q, hd_error result = Some q /\ peq q a.
Proof.
  intros [_ (q & p & u & v & H & E & (I1 & I2 & M) & S)] (a' & IA & PA). exists q. split; [exact H|].
  assert (Z0 : dist2 a' a == 0) by (unfold dist2; destruct PA as [P1 P2]; rewrite P1, P2; ring).
  assert (Z1 := M a' a IA (or_introl eq_refl)). assert (Z2 := dist2_nonneg q p).
  destruct u as [|b u].
  - cbn in E. injection E as <- _. apply dist2_zero. lra.
  - cbn in E. injection E as <- _. assert (Z3 := S a' a IA (or_introl eq_refl)). lra.
Qed.

(** ** Polygons of one or two points *)

Lemma clip_two isect a b lab s parts : clip_out_of_image isect (mkLine [a; b] lab) s = Ok parts -> (length parts <= 1)%nat.
Proof.
  unfold clip_out_of_image. cbn [coords]. destruct (forallb _ _); [intro E; injection E as <-; cbn; lia|].
  destruct (find_intersections_with _ _ _) as [inters|]; [|discriminate]. cbn [bind ls_label]. intro E. injection E as <-. rewrite map_length.
  assert (X : forall pts line, Forall (fun e : tagged => snd e = false) pts -> (length (split_parts pts line) <= 1)%nat).
  { clear. induction pts as [|[[c w] o] pts IH]; intros line F; [destruct line; cbn; lia|].
    assert (O := Forall_inv F). cbn in O. subst o. apply Forall_inv_tail in F. cbn [split_parts]. destruct w; cbn [negb]; [|apply IH; exact F].
    destruct (_ && _); apply IH; exact F. }
  assert (Y : forall pts, Forall (fun e : tagged => snd e = false) (tl pts) -> (length (split_parts pts []) <= 1)%nat).
  { intros [|[[c w] o] pts] F; [cbn; lia|]. cbn [tl] in F. destruct o; [cbn [split_parts]; apply X; exact F|]. apply X. constructor; [reflexivity|exact F]. }
  set (pts := collect [a; b] (map negb (inside_image_mask s (mkLine [a; b] lab))) inters).
  assert (Z : (length (split_parts pts []) <= 1)%nat).
  { apply Y. unfold pts, inside_image_mask. cbn [map coords collect]. destruct inters as [|it inters]; [constructor|].
    cbn [tl]. apply Forall_app. split; [rewrite Forall_map; apply Forall_forall; intros; reflexivity|]. rewrite app_nil_r.
    destruct (inside_point s b); cbn; repeat constructor. }
  assert (W : forall l : list (list point), (length (filter (fun line => negb (Nat.eqb (length line) 0)) l) <= length l)%nat).
  { clear. induction l as [|x l IH]; [cbn; lia|]. cbn [filter]. destruct (negb _); cbn [length]; lia. }
  eapply Nat.le_trans; [apply W|exact Z].
Qed.

Lemma poly_clip_small isect isect3 ext lab s : has_pixels s -> shapely_ok isect ext s -> (1 <= length ext <= 2)%nat ->
  exists r, poly_clip_out_of_image isect isect3 ext lab s = Ok r /\ (r <> [] <-> visible s ext) /\
    (forall e, In e r -> exists part, clip_out_of_image isect (mkLine ext lab) s = Ok [mkLine part lab] /\ e = polygon_new part /\ r = [e]).
Proof.
  intros HP HS L.
  destruct (clip_some isect (mkLine ext lab) s HP HS) as (n & parts & E & R). cbn [coords ls_label] in *.
  destruct R as (_ & _ & _ & _ & _ & _ & _ & V & _).
  assert (LP : (length parts <= 1)%nat).
  { destruct ext as [|a [|b [|c ext]]]; cbn in L; try lia.
    - unfold clip_out_of_image in E. cbn [coords] in E. destruct (existsb _ _); injection E as E; destruct parts as [|x [|y parts]]; cbn in *; try lia; discriminate.
    - apply clip_two in E. rewrite map_length in E. exact E. }
  assert (Y : poly_clip_out_of_image isect isect3 ext lab s = match parts with [] => Ok [] | part :: _ => Ok [polygon_new part] end).
  { assert (T : to_line_string ext lab false = mkLine ext lab) by (destruct ext as [|a [|b ext]]; reflexivity).
    unfold poly_clip_out_of_image. destruct ext as [|a [|b [|c ext]]]; cbn in L; try lia; rewrite T, E; cbn [bind];
      destruct parts as [|x [|y parts]]; cbn in *; try lia; reflexivity. }
  rewrite Y. destruct parts as [|x parts].
  - exists []. split; [reflexivity|]. split; [exact V|]. intros e [].
  - destruct parts; [|cbn in LP; lia]. exists [polygon_new x]. split; [reflexivity|]. split; [split; [intros _; apply V; discriminate|discriminate]|].
    intros e [<-|[]]. exists x. split; [exact E|split; reflexivity].
Qed.

Lemma outline_line ext lab : coords (to_line_string ext lab true) = outline ext.
Proof. destruct ext as [|a [|b ext]]; reflexivity. Qed.

Lemma outline_all s ext : Forall (in_image s) (outline ext) <-> Forall (in_image s) ext.
Proof.
  destruct ext as [|a [|b ext]]; try reflexivity. cbn [outline]. rewrite Forall_app. split; [tauto|]. intro F. split; [exact F|].
  constructor; [apply Forall_inv in F; exact F|constructor].
Qed.

Lemma outline_nonempty ext : ext <> [] -> outline ext <> [].
Proof. destruct ext as [|a [|b ext]]; intro H; [contradiction H; reflexivity|discriminate..]. Qed.

Lemma poly_out isect isect3 ext lab s fully partly : has_pixels s -> shapely_ok isect (outline ext) s -> ext <> [] ->
  (Forall (in_image s) ext -> poly_is_out_of_image isect isect3 ext lab s fully partly = Ok false) /\
  (~ Forall (in_image s) ext -> visible s (outline ext) -> poly_is_out_of_image isect isect3 ext lab s fully partly = Ok partly) /\
  (~ visible s (outline ext) -> forall r, poly_clip_out_of_image isect isect3 ext lab s = Ok r ->
     poly_is_out_of_image isect isect3 ext lab s fully partly = Ok (match r with [] => fully | _ => partly end)).
Proof.
  intros HP HS N. set (l := to_line_string ext lab true). assert (EL : coords l = outline ext) by apply outline_line.
  assert (NL : coords l <> []) by (rewrite EL; apply outline_nonempty; exact N). rewrite <- EL in HS.
  assert (X := fully_iff l s false NL). destruct (out_cases isect l s false true true HP HS NL) as (A & B & C). rewrite EL in X, A, B, C.
  assert (U : poly_is_out_of_image isect isect3 ext lab s fully partly =
     if is_fully_within_image l s false then Ok false
      else
        do b <- is_out_of_image isect l s false true true;
        if (b : bool) then Ok partly
        else
          do polys <- poly_clip_out_of_image isect isect3 ext lab s;
          Ok (if negb (Nat.eqb (length polys) 0) then partly else fully)) by (destruct ext; [contradiction N; reflexivity|reflexivity]).
  rewrite U. split; [|split].
  - intro F. apply outline_all in F. apply X in F. rewrite F. reflexivity.
  - intros F V. rewrite <- outline_all in F. destruct (is_fully_within_image l s false); [exfalso; apply F; apply X; reflexivity|].
    rewrite (B F V). reflexivity.
  - intros V r E. destruct (is_fully_within_image l s false); [exfalso; apply V; apply all_visible; [apply outline_nonempty; exact N|apply X; reflexivity]|].
    rewrite (C V). cbn [bind]. rewrite E. cbn [bind]. destruct r; reflexivity.
Qed.

Lemma in_imageb_inside s p : in_imageb s p = inside_point s p.
Proof. destruct s, p. reflexivity. Qed.
Lemma filter_inside s cs : filter (in_imageb s) cs = filter (inside_point s) cs.
Proof. induction cs as [|p cs IH]; [reflexivity|]. cbn [filter]. rewrite in_imageb_inside, IH. reflexivity. Qed.
