(** Sequential, SomeOf/OneOf and Sometimes: lemmas for C27-C30. *)
From Coq Require Import Permutation Lia.
From Verif Require Import Prelude PreludeFacts AugModel AugSpec AugProofs.

Section P.
Context {R : rngops} {V : Type}.
Notation batch := (batch V).
Notation aug := (aug R V).
Notation world := (world R).

Lemma get_set_st : forall (w : world) id s, get_st (set_st w id s) id = s.
Proof.
  intros w id s. unfold get_st, set_st. destruct (n_rng (w_node w id)) eqn:E; cbn.
  - now rewrite E.
  - now rewrite Nat.eqb_refl.
Qed.

Lemma Forall2_length : forall {A B} (P : A -> B -> Prop) l l', Forall2 P l l' -> length l = length l'.
Proof. intros A B P l l' H. induction H; cbn; congruence. Qed.

Lemma nth_error_ext : forall {A} (l l' : list A), (forall k, nth_error l k = nth_error l' k) -> l = l'.
Proof.
  intros A l; induction l as [|x l IH]; intros [|y l'] H; auto.
  - specialize (H 0%nat). discriminate.
  - specialize (H 0%nat). discriminate.
  - assert (H0 : Some x = Some y) by exact (H 0%nat). injection H0 as <-. f_equal.
    apply IH. intros k. apply (H (S k)).
Qed.

(** ** C27 *)
Lemma subselect_roundtrip : forall (b : batch) is,
  rect b -> NoDup is -> (forall i, In i is -> (i < nb_rows b)%nat) ->
  exists sub, subselect b is = Ok sub /\ length sub = length b /\
  (forall c r, nth c b None = Some r -> is <> [] ->
     exists s, nth c sub None = Some s /\ length s = length is /\
       forall k i, nth_error is k = Some i -> nth_error s k = nth_error r i) /\
  (forall c, nth c b None = None -> nth c sub None = None) /\
  (is = [] -> forall c, nth c sub None = None) /\
  forall sub', same_shape sub sub' ->
  exists b', invert_subselect b is sub' = Ok b' /\
    cells (fun c i x y =>
      (forall k s, nth_error is k = Some i -> nth c sub' None = Some s -> nth_error s k = Some y)
      /\ (~ In i is -> x = y)) b b' /\
    subselect b' is = Ok sub'.
Proof.
  intros b is HR ND HL.
  destruct (subselect_ok b is (nb_rows b) HR HL) as (sub & E & [SL SC]).
  exists sub. split; [exact E|]. split; [exact SL|]. split; [|split; [|split]].
  - intros c r Ec NE. specialize (SC c). rewrite Ec in SC. destruct (nth c sub None) as [s|]; [|tauto].
    exists s. tauto.
  - intros c Ec. specialize (SC c). rewrite Ec in SC. destruct (nth c sub None); tauto.
  - intros -> c. specialize (SC c).
    destruct (nth c b None), (nth c sub None); auto; tauto.
  - intros sub' SS.
    destruct (invert_ok b sub sub' is (nb_rows b) HR ND HL (conj SL SC) SS) as (b' & E' & SH & C).
    exists b'. split; [exact E'|].
    assert (HR' : rect b') by (eapply cells_rect; eauto).
    split.
    + destruct SH as [L SH]. split; [exact L|]. intros c. specialize (SH c). specialize (C c).
      destruct (nth c b None) as [r|], (nth c b' None) as [r'|]; auto.
      destruct SH as [SH _]. split; [exact SH|]. intros i x y Hx Hy.
      destruct (C r r' eq_refl eq_refl) as (C1 & C2 & C3). split.
      * intros k s Hk Hs. rewrite <- (C2 s Hs k i Hk). exact Hy.
      * intros Hn. rewrite (C1 i Hn) in Hy. congruence.
    + destruct (subselect_ok b' is (nb_rows b) ) as (sub2 & E2 & [SL2 SC2]).
      { unfold rect in HR'. now rewrite (same_shape_nb_rows _ _ _ SH) in HR'. }
      { exact HL. }
      rewrite E2. f_equal.
      apply (nth_ext _ _ None None).
      { destruct SH as [SH _], SS as [SS _]. unfold AugModel.batch in *; congruence. }
      intros c _. specialize (SC2 c). specialize (SC c). specialize (C c).
      destruct SH as [_ SH], SS as [_ SS]. specialize (SH c). specialize (SS c).
      destruct (nth c b None) as [r|] eqn:Eb, (nth c b' None) as [r'|] eqn:Eb'; try tauto.
      * destruct (C r r' eq_refl eq_refl) as (C1 & C2 & C3).
        destruct (nth c sub2 None) as [s2|], (nth c sub' None) as [s'|]; auto.
        -- f_equal. destruct SC2 as (_ & L2 & N2).
           destruct (nth c sub None) as [s|]; [|tauto]. destruct SC as (_ & L1 & _). destruct SS as [SS _].
           assert (LL : length s2 = length s') by congruence.
           clear - LL L2 N2 C2. specialize (C2 s' eq_refl).
           assert (forall k, nth_error s2 k = nth_error s' k).
           { intros k. destruct (nth_error is k) as [i|] eqn:Ek.
             - rewrite (N2 k i Ek). now apply C2.
             - apply nth_error_None in Ek. rewrite !(proj2 (nth_error_None _ _)) by lia. reflexivity. }
           now apply nth_error_ext.
        -- destruct SC2 as (NE & _). now specialize (C3 eq_refl).
        -- subst is. destruct (nth c sub None); tauto.
      * destruct (nth c sub2 None); [tauto|]. destruct (nth c sub None); [tauto|].
        destruct (nth c sub' None); tauto.
Qed.

(** ** C28 *)
Lemma shuffle_rows_perm : @shuffle_contract R -> forall id rows (w : world) l w',
  shuffle_rows id rows w = (l, w') -> Forall2 (@Permutation bool) l rows.
Proof.
  intros HS id rows; induction rows as [|r rows IH]; intros w l w' E; cbn in E.
  - injection E as <- <-. constructor.
  - destruct (shuffle R r (get_st w id)) as [r' st1] eqn:E1.
    destruct (shuffle_rows id rows _) as [rs' w1] eqn:E2. injection E as <- <-.
    constructor; [|eapply IH; eauto]. specialize (HS r (get_st w id)). now rewrite E1 in HS.
Qed.

Lemma draw_n_requested : forall id n nc ni w nn w',
  draw_n (R:=R) id n nc ni w = (nn, w') -> nn = requested n nc ni (get_st w id).
Proof.
  intros id n nc ni w nn w'. unfold draw_n, requested. destruct n.
  - now intros [= <- <-].
  - now intros [= <- <-].
  - destruct (discrete_uniform _ _ _ _); now intros [= <- <-].
  - destruct (smp _ _); now intros [= <- <-].
Qed.

Lemma requested_length : forall n nc ni (st : St R), nspec_ok n nc -> length (requested n nc ni st) = ni.
Proof.
  intros n nc ni st H. destruct n; cbn in *; rewrite ?repeat_length, ?map_length; auto.
  now apply H.
Qed.

Definition trues (l : list bool) : nat := length (filter (fun x => x) l).

Lemma trues_perm : forall l l', Permutation l l' -> trues l = trues l'.
Proof.
  unfold trues. intros l l' H. induction H; cbn; auto; try congruence.
  - destruct x; cbn; congruence.
  - destruct x, y; cbn; congruence.
Qed.

Lemma filter_len_perm : forall {A} (f : A -> bool) l l', Permutation l l' -> length (filter f l) = length (filter f l').
Proof.
  intros A f l l' H. induction H; cbn; auto; try congruence.
  - destruct (f x); cbn; congruence.
  - destruct (f x), (f y); cbn; congruence.
Qed.

Lemma filter_seq_trues : forall r k,
  length (filter (fun j => nth (j - k) r false) (seq k (length r))) = trues r.
Proof.
  induction r as [|x r IH]; intros k; [reflexivity|].
  cbn [length seq filter]. rewrite Nat.sub_diag. change (nth 0 (x :: r) false) with x.
  assert (E : filter (fun j => nth (j - k) (x :: r) false) (seq (S k) (length r))
            = filter (fun j => nth (j - S k) r false) (seq (S k) (length r))).
  { apply filter_ext_in. intros j Hj. apply in_seq in Hj.
    replace (j - k)%nat with (S (j - S k)) by lia. reflexivity. }
  unfold trues in *. cbn [filter]. destruct x; cbn [length]; now rewrite E, IH.
Qed.

Lemma active_row_trues : forall nc n, trues (active_row nc n) = Z.to_nat (Z.min n (Z.of_nat nc)).
Proof.
  intros nc n. unfold active_row, trues. set (k := Z.to_nat _).
  rewrite filter_app, app_length.
  assert (forall m, length (filter (fun x : bool => x) (repeat true m)) = m) as ->
    by (induction m; cbn; congruence).
  assert (forall m, length (filter (fun x : bool => x) (repeat false m)) = 0%nat) as ->
    by (induction m; cbn; congruence). lia.
Qed.
Lemma active_row_length : forall nc n, length (active_row nc n) = nc.
Proof. intros. unfold active_row. rewrite app_length, !repeat_length. lia. Qed.

Lemma selection_length : forall order nc n row,
  Permutation order (seq 0 nc) -> Permutation row (active_row nc n) ->
  length (filter (fun j => nth j row false) order) = Z.to_nat (Z.min n (Z.of_nat nc)).
Proof.
  intros order nc n row H1 H2. rewrite (filter_len_perm _ _ _ H1).
  assert (L : length row = nc) by (rewrite (Permutation_length H2); apply active_row_length).
  rewrite <- active_row_trues, <- (trues_perm _ _ H2), <- (filter_seq_trues row 0), L.
  f_equal. apply filter_ext. intros j. now rewrite Nat.sub_0_r.
Qed.

Lemma draw_order_spec : @permutation_contract R -> forall id o n (w : world) order w',
  draw_order id o n w = (order, w') ->
  Permutation order (seq 0 n) /\ (o = false -> order = seq 0 n) /\
  get_st w' id = state_after_order o n (get_st w id).
Proof.
  intros HP id o n w order w'. unfold draw_order, state_after_order. destruct o.
  - specialize (HP n (get_st w id)). destruct (permutation R n (get_st w id)) as [o st1] eqn:E.
    intros [= <- <-]. cbn in *. repeat split; [exact HP|discriminate|]. apply get_set_st.
  - intros [= <- <-]. auto.
Qed.

Lemma all_active_child : forall w id o (cs : list aug) c,
  all_active w (Seq id o cs) -> In c cs -> all_active w c.
Proof. intros w id o cs c H Hc j Hj. apply H. right. apply in_flat_map. eauto. Qed.

Lemma some_of_applies : forall id n ro (children : list aug) Gs parents w b,
  @permutation_contract R -> @shuffle_contract R -> nspec_ok n (length children) ->
  Forall2 acts children Gs -> rect b -> all_active w (SomeOf id n ro children) ->
  let nn := requested n (length children) (nb_rows b)
              (state_after_order ro (length children) (get_st w id)) in
  length nn = nb_rows b /\
  exists b' w' order sels,
    run None parents (SomeOf id n ro children) w b = Ok (b', w') /\
    Permutation order (seq 0 (length children)) /\
    (ro = false -> order = seq 0 (length children)) /\
    length sels = nb_rows b /\
    (forall i sel, nth_error sels i = Some sel ->
       NoDup sel /\ (exists keep, sel = filter keep order) /\
       length sel = Z.to_nat (Z.min (nth i nn 0) (Z.of_nat (length children)))) /\
    cells (fun c i => via Gs (nth i sels []) c) b b'.
Proof.
  intros id n ro children Gs parents w b HP HS HN HA HR HW nn.
  assert (Lnn : length nn = nb_rows b) by now apply requested_length.
  split; [exact Lnn|]. cbn [run]. rewrite augment_batch_none by (apply HW; now left).
  destruct (Nat.eqb_spec (nb_rows b) 0) as [E0|E0].
  - exists b, w, (seq 0 (length children)), []. rewrite E0. repeat split; auto.
    + destruct i; discriminate.
    + destruct i; discriminate.
    + destruct i; discriminate.
    + intros c. pose proof (rect_empty_cells b (fun c i => via Gs (nth i [] []) c) HR E0) as [_ H]. apply H.
  - rewrite propagating_none. unfold bind at 2.
    destruct (draw_order id ro (length children) w) as [order w1] eqn:E1.
    destruct (draw_active id n (length children) (nb_rows b) w1) as [active w2] eqn:E2.
    destruct (draw_order_spec HP _ _ _ _ _ _ E1) as (P1 & P2 & P3).
    assert (HO : forall j, In j order -> (j < length children)%nat).
    { intros j Hj. eapply Permutation_in in Hj; [|exact P1]. apply in_seq in Hj. lia. }
    assert (HAc : Forall2 (@Permutation bool) active (map (active_row (length children)) nn)).
    { unfold draw_active in E2. destruct (draw_n _ _ _ _ _) as [nn' w1'] eqn:E3.
      apply draw_n_requested in E3. rewrite P3 in E3. fold nn in E3. subst nn'.
      eapply shuffle_rows_perm; eauto. }
    assert (LA : length active = nb_rows b).
    { rewrite (Forall2_length _ _ _ HAc), map_length. exact Lnn. }
    assert (HFl : same_flags w w2).
    { eapply same_flags_trans; [eapply draw_order_flags; eauto|eapply draw_active_flags; eauto]. }
    destruct (someof_loop_cells children Gs (parents ++ [id]) active order w2 b HA HR LA) as (b' & w' & E & C); auto.
    { intros c Hc. eapply all_active_flags; [exact HFl|].
      eapply (all_active_child w id ro children); eauto. }
    rewrite E. cbn [bind fst snd].
    eexists b', _, order, (map (fun row => filter (fun j => nth j row false) order) active).
    split; [reflexivity|]. split; [exact P1|]. split; [exact P2|]. split; [now rewrite map_length|]. split.
    + intros i sel Hi. rewrite nth_error_map in Hi.
      destruct (nth_error active i) as [row|] eqn:Er; [|discriminate]. injection Hi as <-.
      split; [|split; [eauto|]].
      * apply NoDup_filter. eapply Permutation_NoDup; [symmetry; exact P1|apply seq_NoDup].
      * apply selection_length; [exact P1|].
        pose proof (nth_F2 _ _ _ _ _ (active_row (length children) 0) HAc Er) as H.
        now rewrite map_nth in H.
    + eapply cells_mono; [|exact C]. intros c i x y H.
      destruct (Nat.lt_ge_cases i (length active)) as [Li|Li].
      * rewrite (nth_indep _ [] ((fun row => filter (fun j => nth j row false) order) []))
          by now rewrite map_length.
        rewrite (map_nth (fun row => filter (fun j => nth j row false) order)). exact H.
      * rewrite nth_overflow by now rewrite map_length.
cbv beta in H.        rewrite (nth_overflow active [] Li) in H.
        assert (F : filter (fun j => nth j [] false) order = []).
        { clear. induction order as [|j js IH]; cbn; auto. now destruct j. }
        now rewrite F in H.
Qed.

Lemma one_of_applies_one : forall id (children : list aug) Gs parents w b,
  @permutation_contract R -> @shuffle_contract R -> children <> [] ->
  Forall2 acts children Gs -> rect b -> all_active w (OneOf id children) ->
  exists b' w' chosen,
    run None parents (OneOf id children) w b = Ok (b', w') /\
    length chosen = nb_rows b /\ Forall (fun j => j < length children)%nat chosen /\
    cells (fun c i => nth (nth i chosen 0%nat) Gs (fun _ _ _ => False) c) b b'.
Proof.
  intros id children Gs parents w b HP HS NE HA HR HW.
  destruct (some_of_applies id (NConst 1) false children Gs parents w b HP HS I HA HR HW)
    as (_ & b' & w' & order & sels & E & P1 & P2 & L & HSel & C).
  cbn [requested] in HSel.
  exists b', w', (map (fun sel => hd 0%nat sel) sels). split; [exact E|]. rewrite map_length.
  split; [exact L|].
  assert (H1 : forall i sel, nth_error sels i = Some sel -> exists j, sel = [j] /\ (j < length children)%nat).
  { intros i sel Hi. destruct (HSel i sel Hi) as (_ & [keep K] & Ls).
    assert (Hlt : (i < nb_rows b)%nat) by (rewrite <- L; apply nth_error_Some; congruence).
    assert (nth i (repeat 1 (nb_rows b)) 0 = 1) as Er.
    { apply (repeat_spec (nb_rows b) 1). apply nth_In. now rewrite repeat_length. }
    rewrite Er in Ls. destruct children as [|c0 cs]; [congruence|].
    replace (Z.to_nat (Z.min 1 (Z.of_nat (length (c0 :: cs))))) with 1%nat in Ls by (cbn [length]; lia).
    destruct sel as [|j [|? ?]]; try discriminate. exists j. split; [reflexivity|].
    assert (In j order) by (assert (In j (filter keep order)) by (rewrite <- K; now left);
      now apply filter_In in H).
    eapply Permutation_in in H; [|exact P1]. apply in_seq in H. lia. }
  split.
  - apply Forall_map. rewrite Forall_forall. intros sel Hin. apply In_nth_error in Hin.
    destruct Hin as [i Hi]. destruct (H1 i sel Hi) as (j & -> & Hj). exact Hj.
  - destruct C as [CL C]. split; [exact CL|]. intros c. specialize (C c).
    destruct (nth c b None) as [r|] eqn:Er, (nth c b' None) as [r'|]; auto.
    destruct C as [C1 C2]. split; [exact C1|]. intros i x y Hx Hy. specialize (C2 i x y Hx Hy).
    assert (Hlt : (i < length sels)%nat).
    { rewrite L. assert (length r = nb_rows b).
      { unfold rect in HR. rewrite Forall_forall in HR. apply (HR (Some r)). rewrite <- Er. apply nth_In.
        destruct (Nat.lt_ge_cases c (length b)) as [?|Q]; [assumption|].
        rewrite (nth_overflow b) in Er by exact Q. discriminate. }
      rewrite <- H. apply nth_error_Some. congruence. }
    destruct (nth_error sels i) as [sel|] eqn:Es; [|apply nth_error_None in Es; lia].
    destruct (H1 i sel Es) as (j & -> & Hj).
    rewrite (nth_error_nth sels i [] Es) in C2. cbn in C2. destruct C2 as (z & Hz & <-).
    rewrite (nth_error_nth (map (fun sel => hd 0%nat sel) sels) i 0%nat (x:=j)); [exact Hz|].
    now rewrite nth_error_map, Es.
Qed.

(** ** C29 *)
Lemma sequential_applies : forall id ro (children : list aug) Gs parents w b,
  @permutation_contract R -> Forall2 acts children Gs -> rect b ->
  all_active w (Seq id ro children) ->
  exists b' w' order,
    run None parents (Seq id ro children) w b = Ok (b', w') /\
    Permutation order (seq 0 (length children)) /\
    (ro = false -> order = seq 0 (length children)) /\
    cells (fun c _ => via Gs order c) b b'.
Proof.
  intros id ro children Gs parents w b HP HA HR HW. cbn [run].
  rewrite augment_batch_none by (apply HW; now left).
  destruct (Nat.eqb_spec (nb_rows b) 0) as [E0|E0].
  - exists b, w, (seq 0 (length children)). repeat split; auto.
    intros c. pose proof (rect_empty_cells b (fun c _ => via Gs (seq 0 (length children)) c) HR E0) as [_ H]. apply H.
  - rewrite propagating_none. unfold bind at 2.
    destruct (draw_order id ro (length children) w) as [order w1] eqn:E1.
    destruct (draw_order_spec HP _ _ _ _ _ _ E1) as (P1 & P2 & P3).
    destruct (seq_loop_cells children Gs (parents ++ [id]) order w1 b HA HR) as (b' & w' & E & C).
    { intros c Hc. eapply all_active_flags; [eapply draw_order_flags; eauto|].
      eapply all_active_child; eauto. }
    { intros j Hj. eapply Permutation_in in Hj; [|exact P1]. apply in_seq in Hj. lia. }
    rewrite E. cbn [bind fst snd]. eexists b', _, order. eauto.
Qed.

Notation runner := (world -> batch -> res (batch * world)).

Fixpoint run_all (fs : list runner) (w : world) (b : batch) : res (batch * world) :=
  match fs with [] => Ok (b, w) | f :: fs' => do r <- f w b; run_all fs' (snd r) (fst r) end.

Lemma run_all_app : forall fs gs w b,
  run_all (fs ++ gs) w b = bind (run_all fs w b) (fun r => run_all gs (snd r) (fst r)).
Proof.
  induction fs as [|f fs IH]; intros gs w b; cbn; [reflexivity|].
  destruct (f w b) as [[b1 w1]|]; cbn; [apply IH|reflexivity].
Qed.

Lemma seq_loop_all : forall fs pre w b,
  seq_loop (pre ++ fs) (seq (length pre) (length fs)) w b = run_all fs w b.
Proof.
  induction fs as [|f fs IH]; intros pre w b; [reflexivity|].
  cbn [length seq seq_loop run_all].
  rewrite nth_error_app2, Nat.sub_diag by lia. cbn [nth_error].
  destruct (f w b) as [[b1 w1]|]; [|reflexivity]. cbn [bind fst snd].
  specialize (IH (pre ++ [f]) w1 b1). rewrite app_length in IH. cbn [length] in IH.
  rewrite <- app_assoc in IH. rewrite Nat.add_comm in IH. exact IH.
Qed.

Definition feq (f g : runner) : Prop := forall w b, f w b = g w b.

Lemma augment_batch_feq : forall id p p' f g, feq f g ->
  feq (augment_batch None id p f) (augment_batch None id p' g).
Proof. intros id p p' f g H w b. unfold augment_batch. cbn. now rewrite H. Qed.
Lemma propagating_feq : forall id p p' f g, feq f g ->
  feq (propagating None id p f) (propagating None id p' g).
Proof. intros id p p' f g H w b. unfold propagating. cbn. now rewrite H. Qed.
Lemma nth_error_F2 : forall {A B} (P : A -> B -> Prop) l l' i, Forall2 P l l' ->
  match nth_error l i, nth_error l' i with Some x, Some y => P x y | None, None => True | _, _ => False end.
Proof. intros A B P l l' i H; revert i; induction H; intros [|i]; cbn; auto; apply IHForall2. Qed.
Lemma seq_loop_feq : forall fs gs order, Forall2 feq fs gs -> feq (seq_loop fs order) (seq_loop gs order).
Proof.
  intros fs gs order H; induction order as [|i is IH]; intros w b; [reflexivity|]. cbn.
  pose proof (nth_error_F2 _ _ _ i H) as Hi. destruct (nth_error fs i), (nth_error gs i); try tauto.
  rewrite Hi. destruct (r0 w b); cbn; auto.
Qed.
Lemma someof_loop_feq : forall fs gs active order, Forall2 feq fs gs ->
  feq (someof_loop fs active order) (someof_loop gs active order).
Proof.
  intros fs gs active order H; induction order as [|i is IH]; intros w b; [reflexivity|]. cbn.
  destruct (nonzero _) as [|k ks]; [apply IH|].
  pose proof (nth_error_F2 _ _ _ i H) as Hi. destruct (nth_error fs i), (nth_error gs i); try tauto.
  destruct (subselect b (k :: ks)) as [sub|]; cbn; [|reflexivity].
  rewrite Hi. destruct (r0 w sub) as [[sub' w']|]; cbn; [|reflexivity].
  destruct (invert_subselect b (k :: ks) sub'); cbn; auto.
Qed.
Lemma F2_map : forall {A B} (P : B -> B -> Prop) (f g : A -> B) l, Forall (fun x => P (f x) (g x)) l ->
  Forall2 P (map f l) (map g l).
Proof. intros A B P f g l H; induction H; cbn; constructor; auto. Qed.

(** Without hooks the list of parents does not matter. *)
Lemma run_none_parents : forall (a : aug) p p', feq (run None p a) (run None p' a).
Proof.
  intros a. induction a using aug_ind2; intros pp pp'; cbn [run].
  - apply augment_batch_feq. intros w b. reflexivity.
  - apply augment_batch_feq. intros w b. reflexivity.
  - apply augment_batch_feq, propagating_feq. intros w b. destruct (draw_order _ _ _ _).
    apply seq_loop_feq, F2_map. eapply Forall_impl; [|exact H]. cbn. intros c Hc. apply Hc.
  - apply augment_batch_feq, propagating_feq. intros w b. destruct (draw_order _ _ _ _).
    destruct (draw_active _ _ _ _ _).
    apply someof_loop_feq, F2_map. eapply Forall_impl; [|exact H]. cbn. intros c Hc. apply Hc.
  - apply augment_batch_feq, propagating_feq. intros w b. destruct (run_prog _ _ _ _) as [s w1].
    unfold sometimes_branch.
    match goal with |- bind ?x _ = bind ?y _ => assert (E : x = y) end.
    { destruct t as [a|]; [|reflexivity]. destruct (Nat.eqb _ _); [reflexivity|].
      destruct (subselect b _) as [sub|]; cbn; [|reflexivity]. now rewrite (H a eq_refl (pp ++ [id]) (pp' ++ [id])). }
    rewrite E. clear E. match goal with |- bind ?x _ = _ => destruct x as [[b1 w2]|] end;
      cbn [bind fst snd]; [|reflexivity].
    destruct e as [a|]; [|reflexivity]. destruct (Nat.eqb _ _); [reflexivity|].
    destruct (subselect b1 _) as [sub|]; cbn [bind]; [|reflexivity].
    now rewrite (H0 a eq_refl (pp ++ [id]) (pp' ++ [id])).
  - apply augment_batch_feq, propagating_feq. intros w b. destruct (pre b); cbn; [|reflexivity].
    now rewrite (IHa (pp ++ [id]) (pp' ++ [id])).
Qed.

Lemma run_empty : forall (a : aug) parents w b, nb_rows b = 0%nat -> n_act (w_node w (aug_id a)) = true ->
  run None parents a w b = Ok (b, w).
Proof.
  intros a parents w b E Ha.
  destruct a; cbn [run]; cbn in Ha; rewrite augment_batch_none by exact Ha; now rewrite E.
Qed.

Lemma sequential_run : forall id (cs : list aug) parents w b, n_act (w_node w id) = true ->
  n_det (w_node w id) = false -> nb_rows b <> 0%nat ->
  run None parents (Seq id false cs) w b = run_all (map (run None parents) cs) w b.
Proof.
  intros id cs parents w b Ha Hd Hb. cbn [run]. rewrite augment_batch_none by exact Ha.
  apply Nat.eqb_neq in Hb. rewrite Hb, propagating_none. cbn [draw_order].
  rewrite <- (map_length (run None (parents ++ [id])) cs).
  pose proof (seq_loop_all (map (run None (parents ++ [id])) cs) [] w b) as HL. cbn [app length] in HL.
  rewrite HL, Hd. clear HL.
  assert (E : run_all (map (run None (parents ++ [id])) cs) w b = run_all (map (run None parents) cs) w b).
  { clear. revert w b. induction cs as [|c cs IH]; intros w b; [reflexivity|]. cbn.
    rewrite (run_none_parents c (parents ++ [id]) parents w b).
    destruct (run None parents c w b) as [[b1 w1]|]; cbn; auto. }
  rewrite E. clear E. destruct (run_all _ w b) as [[b1 w1]|]; reflexivity.
Qed.

Lemma run_all_empty : forall (cs : list aug) parents w b, nb_rows b = 0%nat ->
  (forall c, In c cs -> n_act (w_node w (aug_id c)) = true) ->
  run_all (map (run None parents) cs) w b = Ok (b, w).
Proof.
  induction cs as [|c cs IH]; intros parents w b E H; [reflexivity|]. cbn.
  rewrite run_empty by (auto; apply H; now left). cbn. apply IH; auto. intros; apply H; now right.
Qed.

(** A nested Sequential does what its children would do in its place. *)
Lemma nested_sequential : forall id1 id2 (xs ys zs : list aug) parents w b,
  n_act (w_node w id1) = true -> n_det (w_node w id1) = false ->
  n_act (w_node w id2) = true -> n_det (w_node w id2) = false ->
  (forall c, In c ys -> n_act (w_node w (aug_id c)) = true) ->
  run None parents (Seq id1 false (xs ++ Seq id2 false ys :: zs)) w b =
  run None parents (Seq id1 false (xs ++ ys ++ zs)) w b.
Proof.
  intros id1 id2 xs ys zs parents w b A1 D1 A2 D2 AY.
  destruct (Nat.eq_dec (nb_rows b) 0) as [E0|E0].
  { rewrite !run_empty; auto. }
  rewrite !sequential_run by auto. rewrite !map_app. cbn [map]. rewrite !run_all_app.
  destruct (run_all (map (run None parents) xs) w b) as [[b1 w1]|] eqn:E1; cbn [bind fst snd]; [|reflexivity].
  assert (HF : same_flags w w1).
  { clear - E1. revert w b E1. induction xs as [|x xs IH]; intros w b E; cbn in E.
    - injection E as <- <-. apply same_flags_refl.
    - destruct (run None parents x w b) as [[b2 w2]|] eqn:E2; [|discriminate]. cbn in E.
      eapply same_flags_trans; [eapply run_flags; eauto|eapply IH; eauto]. }
  rewrite run_all_app. cbn [run_all].
  destruct (Nat.eq_dec (nb_rows b1) 0) as [E3|E3].
  - rewrite run_empty by (auto; cbn; destruct (HF id2) as [-> _]; exact A2).
    rewrite run_all_empty; auto.
    intros c Hc. destruct (HF (aug_id c)) as [-> _]. auto.
  - rewrite sequential_run; auto; destruct (HF id2); congruence.
Qed.

(** ** C30 *)
Lemma pre_draw_length : forall en key (smp : @sampler R) N n c st, sampler_contract smp ->
  length (fst (fst (pre_draw en key smp N n c st))) = n.
Proof.
  intros en key smp N n c st HS. unfold pre_draw.
  pose proof (HS n st) as Hn.
  destruct (negb en); [destruct (smp n st); exact Hn|].
  destruct (negb (key_eqb (c_last c) key)); [destruct (smp n st); exact Hn|].
  destruct (Nat.leb_spec N n); [destruct (smp n st); exact Hn|].
  assert (Hp : forall c0 st0, c_index (fst (prefetch smp N c0 st0)) = 0%nat /\
                (N <= length (samples_of (fst (prefetch smp N c0 st0))))%nat).
  { intros c0 st0. unfold prefetch. pose proof (HS N st0) as HN. destruct (smp N st0) as [s st1]. cbn in *.
    split; [reflexivity|]. unfold samples_of. cbn. destruct (c_samples c0); [rewrite app_length|]; lia. }
  destruct (match c_samples c with None => prefetch smp N c st | Some _ => (c, st) end) as [c1 st1] eqn:E1.
  cbv zeta. destruct (Z.leb_spec (Z.of_nat (length (samples_of c1)) - Z.of_nat (c_index c1) - Z.of_nat n) 0).
  - destruct (prefetch smp N c1 st1) as [c2 st2] eqn:E2. specialize (Hp c1 st1). rewrite E2 in Hp. cbn in *.
    destruct Hp as [-> Hp]. cbn. rewrite firstn_length. lia.
  - cbn. rewrite firstn_length, skipn_length. lia.
Qed.

Lemma qeqb_spec' : forall a b, qeqb a b = true <-> (a == b)%Q.
Proof. apply qeqb_iff. Qed.

Lemma sometimes_partition : forall id (p : @sampler R) N (t e : option aug) Gt Ge parents (w : world) (b : batch),
  sampler_contract p -> branch_does t Gt -> branch_does e Ge -> rect b ->
  all_active w (Sometimes id p N t e) ->
  exists b' w' samples,
    run None parents (Sometimes id p N t e) w b = Ok (b', w') /\
    length samples = nb_rows b /\
    (nb_rows b <> 0%nat -> samples = fst (run_prog (negb (n_det (w_node w id))) id (Pre 0 p N (nb_rows b) (fun s => Ret s)) w)) /\
    cells (fun c i x y => ((nth i samples 0 == 1)%Q -> Gt c x y) /\ ((nth i samples 0 == 0)%Q -> Ge c x y) /\
             (~ (nth i samples 0 == 1)%Q -> ~ (nth i samples 0 == 0)%Q -> x = y)) b b'.
Proof.
  intros id p N t e Gt Ge parents w b HS HT HE HR HW. cbn [run].
  rewrite augment_batch_none by (apply HW; now left).
  destruct (Nat.eqb_spec (nb_rows b) 0) as [E0|E0].
  - exists b, w, []. repeat split; auto; [congruence|].
    intros c. pose proof (rect_empty_cells b (fun c i x y => ((nth i [] 0 == 1)%Q -> Gt c x y) /\ ((nth i [] 0 == 0)%Q -> Ge c x y) /\
             (~ (nth i [] 0 == 1)%Q -> ~ (nth i [] 0 == 0)%Q -> x = y)) HR E0) as [_ H]. apply H.
  - rewrite propagating_none. unfold bind at 2.
    destruct (run_prog _ id (Pre 0 p N (nb_rows b) (fun s => Ret s)) w) as [samples w1] eqn:E1.
    assert (L : length samples = nb_rows b).
    { cbn in E1. pose proof (pre_draw_length (negb (n_det (w_node w id))) (n_key (w_node w id)) p N (nb_rows b)
        (n_cache (w_node w id) 0%nat) (get_st w id) HS) as HL.
      destruct (pre_draw _ _ _ _ _ _ _) as [[s c1] st1]. injection E1 as <- _. exact HL. }
    pose proof (run_prog_flags _ _ _ _ _ _ E1) as F1.
    set (tr := nonzero (map (fun s => qeqb s 1) samples)).
    set (er := nonzero (map (fun s => qeqb s 0) samples)).
    assert (Hin : forall v i, In i (nonzero (map (fun s => qeqb s v) samples)) <->
              (i < length samples)%nat /\ (nth i samples 0 == v)%Q).
    { intros v i. rewrite nonzero_spec. destruct (Nat.lt_ge_cases i (length samples)) as [Li|Li].
      - rewrite (nth_indep _ false (qeqb 0 v)) by now rewrite map_length.
        rewrite (map_nth (fun s => qeqb s v)), qeqb_iff. tauto.
      - rewrite nth_overflow by now rewrite map_length. split; [discriminate|lia]. }
    assert (HB : forall (o : option aug) (G : nat -> V -> V -> Prop) (w0 : world) (b0 : batch) rows, branch_does o G -> rect b0 -> nb_rows b0 = nb_rows b ->
      NoDup rows -> (forall i, In i rows -> (i < nb_rows b)%nat) ->
      (forall a, o = Some a -> all_active w0 a) ->
      exists b1 w1', sometimes_branch
        (match o with Some a' => if Nat.eqb (aug_len a') 0 then None else Some (run None (parents ++ [id]) a') | None => None end)
        rows w0 b0 = Ok (b1, w1') /\ same_flags w0 w1' /\
        cells (fun c i x y => (In i rows -> G c x y) /\ (~ In i rows -> x = y)) b0 b1).
    { intros o G w0 b0 rows HG HR0 Hn ND HL HA.
      assert (Hnop : G = does_nothing -> cells (fun c i x y => (In i rows -> G c x y) /\ (~ In i rows -> x = y)) b0 b0).
      { intros ->. apply cells_refl. unfold does_nothing. auto. }
      destruct o as [a'|]; cbn in HG |- *; [|exists b0, w0; auto using same_flags_refl].
      destruct (Nat.eqb (aug_len a') 0); [exists b0, w0; cbn; auto using same_flags_refl|].
      destruct (child_on_rows a' G (parents ++ [id]) w0 b0 rows HG HR0 (HA a' eq_refl) ND)
        as (sub & sub' & w' & b' & S1 & S2 & S3 & S4 & S5).
      { intros i Hi. rewrite Hn. auto. }
      unfold sometimes_branch. rewrite S1. cbn [bind]. rewrite S2. cbn [bind fst snd]. rewrite S3. cbn [bind].
      exists b', w'. auto. }
    destruct (HB t Gt w1 b tr HT HR eq_refl (nonzero_nodup _)) as (b2 & w2 & E2 & F2 & C2).
    { intros i Hi. apply Hin in Hi. lia. }
    { intros a ->. eapply all_active_flags; [exact F1|]. intros j Hj. apply HW. right. apply in_or_app. now left. }
    destruct (HB e Ge w2 b2 er HE (cells_rect _ _ _ C2 HR) (same_shape_nb_rows _ _ _ C2) (nonzero_nodup _)) as (b3 & w3 & E3 & F3 & C3).
    { intros i Hi. apply Hin in Hi. lia. }
    { intros a ->. eapply all_active_flags; [exact (same_flags_trans _ _ _ F1 F2)|]. intros j Hj. apply HW. right. apply in_or_app. now right. }
    rewrite E2. cbn [bind fst snd]. rewrite E3. cbn [bind fst snd].
    eexists b3, _, samples. split; [reflexivity|]. split; [exact L|]. split; [reflexivity|].
    assert (CC : cells (fun c i x z => exists y, ((In i tr -> Gt c x y) /\ (~ In i tr -> x = y)) /\
                         ((In i er -> Ge c y z) /\ (~ In i er -> y = z))) b b3).
    { eapply cells_comp; [|exact C2|exact C3]. cbn. eauto. }
    destruct CC as [CL CC]. split; [exact CL|]. intros c. specialize (CC c).
    destruct (nth c b None) as [r|] eqn:Er, (nth c b3 None) as [r'|]; auto.
    destruct CC as [CC1 CC2]. split; [exact CC1|]. intros i x z Hx Hz.
    destruct (CC2 i x z Hx Hz) as (y & [H1 H2] & [H3 H4]).
    assert (Hlt : (i < length samples)%nat).
    { rewrite L. assert (length r = nb_rows b) as <-; [|apply nth_error_Some; congruence].
      unfold rect in HR. rewrite Forall_forall in HR. apply (HR (Some r)). rewrite <- Er. apply nth_In.
      destruct (Nat.lt_ge_cases c (length b)) as [?|Q]; [assumption|].
      rewrite (nth_overflow b) in Er by exact Q. discriminate. }
    fold tr er in H1, H2, H3, H4. unfold tr in H1, H2. unfold er in H3, H4. rewrite Hin in H1, H2, H3, H4.
    repeat split.
    + intros Q. rewrite <- H4; [auto|]. intros [_ Q']. rewrite Q in Q'. discriminate.
    + intros Q. rewrite H2; [auto|]. intros [_ Q']. rewrite Q in Q'. discriminate.
    + intros Q1 Q2. rewrite H2, H4; tauto.
Qed.

(** The samples of an AutoPrefetcher satisfy whatever all samples of the
    underlying parameter and the already cached ones satisfy. *)
Lemma pre_draw_Forall : forall (P : Q -> Prop) en key (smp : @sampler R) N n c st,
  (forall m s, Forall P (fst (smp m s))) -> Forall P (samples_of c) ->
  Forall P (fst (fst (pre_draw en key smp N n c st))) /\
  Forall P (samples_of (snd (fst (pre_draw en key smp N n c st)))).
Proof.
  intros P en key smp N n c st HS HC. unfold pre_draw. pose proof (HS n st) as Hn.
  destruct (negb en); [destruct (smp n st); cbn; auto|].
  destruct (negb (key_eqb (c_last c) key)); [destruct (smp n st); cbn; split; [exact Hn|constructor]|].
  destruct (Nat.leb N n); [destruct (smp n st); cbn; auto|].
  assert (HF : forall k l, Forall P l -> Forall P (skipn k l)).
  { intros k; induction k as [|k IH]; intros l Hl; [exact Hl|]. destruct l; cbn; [constructor|]. inversion Hl; auto. }
  assert (HT : forall k l, Forall P l -> Forall P (firstn k l)).
  { intros k; induction k as [|k IH]; intros l Hl; [constructor|]. destruct l; cbn; [constructor|]. inversion Hl; constructor; auto. }
  assert (Hp : forall c0 st0, Forall P (samples_of c0) -> Forall P (samples_of (fst (prefetch smp N c0 st0)))).
  { intros c0 st0 H0. unfold prefetch. pose proof (HS N st0) as HN. destruct (smp N st0) as [s st1]. cbn in *.
    unfold samples_of in *. cbn. destruct (c_samples c0); [|exact HN]. apply Forall_app. auto. }
  destruct (match c_samples c with None => prefetch smp N c st | Some _ => (c, st) end) as [c1 st1] eqn:E1.
  assert (H1 : Forall P (samples_of c1)).
  { destruct (c_samples c) eqn:Ec; [injection E1 as <- <-; exact HC|]. specialize (Hp c st HC). now rewrite E1 in Hp. }
  cbv zeta. match goal with |- context[if ?x then _ else _] => destruct x end.
  - specialize (Hp c1 st1 H1). destruct (prefetch smp N c1 st1) as [c2 st2]. cbn in *. split; [auto|exact Hp].
  - cbn. split; [auto|exact H1].
Qed.

End P.
