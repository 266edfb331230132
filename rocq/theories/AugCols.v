(** Columns of a batch receive the same random numbers: lemmas for C32. *)
From Coq Require Import Permutation Lia.
From Verif Require Import Prelude PreludeFacts AugModel AugSpec AugProofs AugChildren AugRepro AugSeed AugDet.

Section P.
Context {R : rngops} {V : Type}.
Notation batch := (batch V).
Notation aug := (aug R V).
Notation world := (world R).
Notation runner := (world -> batch -> res (batch * world)).

Lemma get_set_cache : forall (w : world) id i c, get_st (set_cache w id i c) id = get_st w id.
Proof. intros. unfold get_st. cbn. rewrite Nat.eqb_refl. reflexivity. Qed.

Lemma run_prog_draw : forall {A} (p : prog R A) en id w, en = false \/ never_prefetches p ->
  fst (run_prog en id p w) = fst (draw_from p (get_st w id)) /\
  get_st (snd (run_prog en id p w)) id = snd (draw_from p (get_st w id)).
Proof.
  intros A p en id; induction p as [x|op k IH|i smp N n k IH]; intros w H; cbn.
  - auto.
  - destruct (op (get_st w id)) as [s st1]. destruct (IH s (set_st w id st1)) as [E1 E2].
    { destruct H as [H|H]; [now left|right; apply H]. }
    rewrite get_set_st in E1, E2. auto.
  - destruct H as [->|[]]. unfold pre_draw. cbn [negb]. destruct (smp n (get_st w id)) as [s st1].
    destruct (IH s (set_cache (set_st w id (adv R st1)) id i (n_cache (w_node w id) i)) (or_introl eq_refl)) as [E1 E2].
    rewrite get_set_cache, get_set_st in E1, E2. auto.
Qed.

(** Result of a column. *)
Definition col_result (body : nat -> list V -> prog R (list V)) (st : St R) (c : nat) (col : option (list V))
  : option (list V) :=
  match col with
  | Some (x :: l) => Some (fst (draw_from (body c (x :: l)) st))
  | o => o
  end.

Lemma col_loop_restore : forall det id body, (det = true \/ forall c l, never_prefetches (body c l)) ->
  forall (b : batch) pos w,
  fst (col_loop det true id body pos b w) =
    map (fun '(i, c) => col_result body (get_st w id) (pos + i) c) (combine (seq 0 (length b)) b) /\
  get_st (snd (col_loop det true id body pos b w)) id = get_st w id.
Proof.
  intros det id body HB b; induction b as [|c b IH]; intros pos w; [cbn; auto|].
  assert (HM : forall st, map (fun '(i, c) => col_result body st (pos + i) c) (combine (seq 1 (length b)) b) =
     map (fun '(i, c) => col_result body st (S pos + i) c) (combine (seq 0 (length b)) b)).
  { intros st. rewrite <- seq_shift. generalize (seq 0 (length b)). clear. intros l; revert b; induction l as [|x l IH]; intros [|c b]; cbn; auto.
    rewrite IH. do 2 f_equal. lia. }
  cbn [length seq combine map col_loop]. rewrite Nat.add_0_r, HM.
  destruct c as [[|x l]|]; cbn [col_result].
  - destruct (IH (S pos) w) as [E1 E2]. destruct (col_loop _ _ _ _ _ b w). cbn in *. rewrite E1. auto.
  - destruct (run_prog_draw (body pos (x :: l)) (negb det) id w) as [F1 F2].
    { destruct HB as [->|HB]; [now left|right; apply HB]. }
    destruct (run_prog (negb det) id (body pos (x :: l)) w) as [v w1]. cbn [fst snd] in F1, F2.
    destruct (IH (S pos) (set_st w1 id (get_st w id))) as [E1 E2].
    destruct (col_loop _ _ _ _ _ b (set_st w1 id (get_st w id))). cbn [fst snd] in *.
    rewrite get_set_st in E1, E2. rewrite E1, F1. auto.
  - destruct (IH (S pos) w) as [E1 E2]. destruct (col_loop _ _ _ _ _ b w). cbn in *. rewrite E1. auto.
Qed.

Lemma col_loop_single : forall det id body, (det = true \/ forall c l, never_prefetches (body c l)) ->
  forall (b : batch) pos w, (length (filter has_items b) <= 1)%nat ->
  fst (col_loop det false id body pos b w) =
    map (fun '(i, c) => col_result body (get_st w id) (pos + i) c) (combine (seq 0 (length b)) b).
Proof.
  intros det id body HB b; induction b as [|c b IH]; intros pos w Hl; [cbn; auto|].
  assert (HM : forall st, map (fun '(i, c) => col_result body st (pos + i) c) (combine (seq 1 (length b)) b) =
     map (fun '(i, c) => col_result body st (S pos + i) c) (combine (seq 0 (length b)) b)).
  { intros st. rewrite <- seq_shift. generalize (seq 0 (length b)). clear. intros l; revert b; induction l as [|x l IH]; intros [|c b]; cbn; auto.
    rewrite IH. do 2 f_equal. lia. }
  cbn [length seq combine map col_loop]. rewrite Nat.add_0_r, HM.
  destruct c as [[|x l]|]; cbn [col_result].
  - specialize (IH (S pos) w Hl). destruct (col_loop _ _ _ _ _ b w). cbn in *. now rewrite IH.
  - destruct (run_prog_draw (body pos (x :: l)) (negb det) id w) as [F1 F2].
    { destruct HB as [->|HB]; [now left|right; apply HB]. }
    destruct (run_prog (negb det) id (body pos (x :: l)) w) as [v w1]. cbn [fst snd] in F1, F2.
    cbn in Hl. assert (HN : filter has_items b = []) by (destruct (filter has_items b); [reflexivity|cbn in Hl; lia]).
    assert (HI : forall (b : batch) pos w st, filter has_items b = [] -> fst (col_loop det false id body pos b w) =
       map (fun '(i, c) => col_result body st (pos + i) c) (combine (seq 0 (length b)) b)).
    { clear. intros b; induction b as [|c b IH]; intros pos w st H; [reflexivity|].
      assert (HM : map (fun '(i, c) => col_result body st (pos + i) c) (combine (seq 1 (length b)) b) =
         map (fun '(i, c) => col_result body st (S pos + i) c) (combine (seq 0 (length b)) b)).
      { rewrite <- seq_shift. generalize (seq 0 (length b)). clear. intros l; revert b; induction l as [|x l IH]; intros [|c b]; cbn; auto.
        rewrite IH. do 2 f_equal. lia. }
      cbn [length seq combine map col_loop]. rewrite Nat.add_0_r, HM.
      destruct c as [[|x l]|]; cbn [col_result]; [| discriminate|].
      - specialize (IH (S pos) w st H). destruct (col_loop _ _ _ _ _ b w). cbn in *. now rewrite IH.
      - specialize (IH (S pos) w st H). destruct (col_loop _ _ _ _ _ b w). cbn in *. now rewrite IH. }
    rewrite <- (HI b (S pos) w1 (get_st w id) HN), F1.
    destruct (col_loop det false id body (S pos) b w1). reflexivity.
  - specialize (IH (S pos) w Hl). destruct (col_loop _ _ _ _ _ b w). cbn in *. now rewrite IH.
Qed.

Lemma nth_col_results : forall body st (b : batch) c,
  nth c (map (fun '(i, c) => col_result body st (0 + i) c) (combine (seq 0 (length b)) b)) None =
  col_result body st c (nth c b None).
Proof.
  intros body st b c. cbn [Nat.add].
  assert (H : forall (b : batch) k c, nth c (map (fun '(i, c) => col_result body st i c) (combine (seq k (length b)) b)) None
     = col_result body st (k + c) (nth c b None)).
  { clear. intros b; induction b as [|x b IH]; intros k [|c]; cbn [length seq combine map nth]; try reflexivity.
    - now rewrite Nat.add_0_r.
    - rewrite IH. f_equal. lia. }
  apply H.
Qed.

Lemma run_columns_results : forall id body (w : world) (b : batch),
  n_det (w_node w id) = true \/ (forall c l, never_prefetches (body c l)) ->
  exists b' w', run_columns id body w b = Ok (b', w') /\
    b' = map (fun '(i, c) => col_result body (get_st w id) (0 + i) c) (combine (seq 0 (length b)) b) /\
    (n_det (w_node w id) = false -> (1 < length (filter has_items b))%nat -> get_st w' id = adv R (get_st w id)).
Proof.
  intros id body w b HB. unfold run_columns. set (det := n_det (w_node w id)) in *.
  destruct (Nat.ltb_spec 1 (length (filter has_items b))) as [HM|HM].
  - rewrite orb_true_r. destruct (col_loop_restore det id body HB b 0 w) as [E1 E2].
    destruct (col_loop _ _ _ _ _ _ _) as [b' w1]. cbn [fst snd] in E1, E2.
    do 2 eexists. split; [reflexivity|]. split; [exact E1|]. intros Hd _. rewrite Hd. cbn. now rewrite get_set_st, E2.
  - cbn [andb]. rewrite orb_false_r.
    assert (E : fst (col_loop det det id body 0 b w) =
      map (fun '(i, c) => col_result body (get_st w id) (0 + i) c) (combine (seq 0 (length b)) b)).
    { destruct det eqn:Ed.
      - apply col_loop_restore. now left.
      - apply col_loop_single; auto. }
    destruct (col_loop det det id body 0 b w) as [b' w1]. cbn [fst] in E.
    do 2 eexists. split; [reflexivity|]. split; [exact E|]. intros; lia.
Qed.

Lemma set_get_restore : forall (w w' : world) id, get_st (set_st w' id (get_st w id)) id = get_st w id.
Proof. intros. apply get_set_st. Qed.

(** C32: one augmenter. *)
Lemma columns_share_parameters : forall id body ps (w : world) (b : batch),
  n_act (w_node w id) = true -> rect b ->
  n_det (w_node w id) = true \/ (forall c l, never_prefetches (body c l)) ->
  exists b' w', run None ps (ColLeaf id body) w b = Ok (b', w') /\ length b' = length b /\
    (forall c x l, nth c b None = Some (x :: l) ->
       nth c b' None = Some (fst (draw_from (body c (x :: l)) (get_st w id)))) /\
    (forall c, nth c b None = None \/ nth c b None = Some [] -> nth c b' None = nth c b None) /\
    (n_det (w_node w id) = true -> get_st w' id = get_st w id) /\
    (n_det (w_node w id) = false -> (1 < length (filter has_items b))%nat -> get_st w' id = adv R (get_st w id)).
Proof.
  intros id body ps w b Ha HR HB. cbn [run]. rewrite augment_batch_none by exact Ha.
  destruct (Nat.eqb_spec (nb_rows b) 0) as [E0|N0].
  - exists b, w. split; [reflexivity|]. split; [reflexivity|].
    assert (HE : forall c x l, nth c b None <> Some (x :: l)).
    { intros c x l Hc. unfold rect in HR. rewrite Forall_forall in HR.
      assert (In (Some (x :: l)) b).
      { rewrite <- Hc. apply nth_In. destruct (Nat.lt_ge_cases c (length b)) as [L|L]; [exact L|].
        rewrite nth_overflow in Hc by exact L. discriminate. }
      specialize (HR _ H). cbn in HR. lia. }
    split; [intros c x l Hc; now destruct (HE c x l)|]. split; [auto|]. split; [auto|].
    intros _ HM. exfalso. destruct (filter has_items b) as [|q qs] eqn:EF; [cbn in HM; lia|].
    assert (Hq : In q (filter has_items b)) by (rewrite EF; now left).
    apply filter_In in Hq. destruct Hq as [Hq Hh]. destruct q as [[|x l]|]; try discriminate.
    destruct (In_nth b (Some (x :: l)) None Hq) as (c & _ & Hc). now apply (HE c x l).
  - destruct (run_columns_results id body w b HB) as (b' & w1 & E & Eb & Ew). rewrite E. cbn [bind fst snd].
    do 2 eexists. split; [reflexivity|].
    split; [rewrite Eb, map_length, combine_length, seq_length; lia|].
    split; [intros c x l Hc; rewrite Eb, nth_col_results, Hc; reflexivity|].
    split; [intros c Hc; rewrite Eb, nth_col_results; destruct Hc as [-> | ->]; reflexivity|].
    split.
    + intros Hd. rewrite Hd. apply get_set_st.
    + intros Hd HM. rewrite Hd. auto.
Qed.

(* ------------------------------------------------------------------ *)
(** ** Whole trees *)
Definition shp (b b' : batch) : Prop :=
  Forall2 (fun c c' => match c, c' with
                       | None, None => True
                       | Some r, Some r' => length r' = length r
                       | _, _ => False end) b b'.
Definition lens (n : nat) (b : batch) : Prop :=
  Forall (fun c => match c with None => True | Some rows => length rows = n end) b.

Lemma shp_refl : forall b, shp b b.
Proof. induction b as [|[r|] b IH]; constructor; auto. Qed.
Lemma shp_trans : forall b1 b2 b3, shp b1 b2 -> shp b2 b3 -> shp b1 b3.
Proof.
  intros b1 b2 b3 H; revert b3; induction H as [|x y b1 b2 Hx _ IH]; intros b3 H3; inversion H3; subst; constructor.
  - destruct x, y, y0; try tauto. congruence.
  - now apply IH.
Qed.
Lemma shp_lens : forall n b b', shp b b' -> lens n b -> lens n b'.
Proof.
  intros n b b' H; induction H as [|x y b b' Hx _ IH]; intros HL; inversion HL; subst; constructor.
  - destruct x, y; try tauto; congruence.
  - now apply IH.
Qed.
Lemma shp_nb_rows : forall b b', shp b b' -> nb_rows b' = nb_rows b.
Proof. intros b b' H; induction H as [|x y b b' Hx _ IH]; [reflexivity|]. destruct x, y; cbn; tauto. Qed.
Lemma shp_nth : forall b b', shp b b' -> forall c, nth c b None = None <-> nth c b' None = None.
Proof.
  intros b b' H; induction H as [|x y b b' Hx _ IH]; intros [|c]; cbn; try tauto; [|apply IH].
  destruct x, y; try tauto; split; discriminate.
Qed.
Lemma nb_rows_none : forall {A} (b : list A), nb_rows (map (fun _ => @None (list V)) b) = 0%nat.
Proof. induction b; cbn; auto. Qed.
Lemma shp_only : forall c b b', shp b b' -> shp (only c b) (only c b').
Proof.
  intros c b b' H; revert c; induction H as [|x y b b' Hx HF IH]; intros [|c]; cbn; constructor; auto.
  - clear - HF. induction HF; cbn; constructor; auto.
  - apply IH.
Qed.

(** nb_rows of a single column. *)
Lemma nb_rows_only : forall c b, nb_rows (only c b) = match nth c b None with Some r => @length V r | None => 0%nat end.
Proof.
  intros c b; revert c; induction b as [|x b IH]; intros [|c]; cbn; auto.
  destruct x; auto. apply nb_rows_none.
Qed.
Lemma lens_nb_rows : forall n b c r, lens n b -> nth c b None = Some r -> nb_rows b = n /\ length r = n.
Proof.
  intros n b c r HL Hc. split.
  - destruct (nb_rows_cases b n HL) as [E|[_ E2]]; [exact E|]. exfalso. rewrite Forall_forall in E2.
    assert (In (Some r) b).
    { rewrite <- Hc. apply nth_In. destruct (Nat.lt_ge_cases c (length b)) as [L|L]; [exact L|].
      rewrite nth_overflow in Hc by exact L. discriminate. }
    specialize (E2 _ H). discriminate.
  - unfold lens in HL. rewrite Forall_forall in HL.
    assert (In (Some r) b).
    { rewrite <- Hc. apply nth_In. destruct (Nat.lt_ge_cases c (length b)) as [L|L]; [exact L|].
      rewrite nth_overflow in Hc by exact L. discriminate. }
    apply (HL _ H).
Qed.
Lemma rect_lens : forall b, rect b -> lens (nb_rows b) b.
Proof. intros b H. exact H. Qed.

(** Whether row selections fail depends on lengths only. *)
Lemma get_rows_len : forall is (r r' : list V), length r = length r' ->
  (get_rows r is = Err IndexError /\ get_rows r' is = Err IndexError) \/
  (exists s s', get_rows r is = Ok s /\ get_rows r' is = Ok s' /\ length s = length is /\ length s' = length is).
Proof.
  induction is as [|i is IH]; intros r r' HL; [right; exists [], []; cbn; auto|]. cbn.
  destruct (nth_error r i) as [v|] eqn:E, (nth_error r' i) as [v'|] eqn:E'.
  - destruct (IH r r' HL) as [[-> ->]|(s & s' & -> & -> & L1 & L2)]; [now left|right].
    exists (v :: s), (v' :: s'). cbn. auto.
  - exfalso. apply nth_error_None in E'. assert (nth_error r i <> None) by congruence. apply nth_error_Some in H. lia.
  - exfalso. apply nth_error_None in E. assert (nth_error r' i <> None) by congruence. apply nth_error_Some in H. lia.
  - now left.
Qed.
Lemma set_row_len : forall (r r' : list V) i v v', length r = length r' ->
  (set_row r i v = Err IndexError /\ set_row r' i v' = Err IndexError) \/
  (exists s s', set_row r i v = Ok s /\ set_row r' i v' = Ok s' /\ length s = length r /\ length s' = length r).
Proof.
  induction r as [|x r IH]; intros [|x' r'] i v v' HL; try discriminate; cbn; [now left|].
  destruct i as [|i]; [right; do 2 eexists; split; [reflexivity|]; split; [reflexivity|]; cbn in *; lia|].
  injection HL as HL. destruct (IH r' i v v' HL) as [[-> ->]|(s & s' & -> & -> & L1 & L2)]; [now left|right].
  do 2 eexists. split; [reflexivity|]. split; [reflexivity|]. cbn. lia.
Qed.
Lemma set_rows_len : forall is (r r' s s' : list V), length r = length r' -> length s = length s' ->
  (set_rows r is s = Err IndexError /\ set_rows r' is s' = Err IndexError) \/
  (exists t t', set_rows r is s = Ok t /\ set_rows r' is s' = Ok t' /\ length t = length r /\ length t' = length r).
Proof.
  induction is as [|i is IH]; intros r r' s s' HL HS; cbn.
  - right. exists r, r'. auto.
  - destruct s as [|v s], s' as [|v' s']; try discriminate; [now left|]. injection HS as HS.
    destruct (set_row_len r r' i v v' HL) as [[-> ->]|(t & t' & -> & -> & L1 & L2)]; [now left|]. cbn.
    destruct (IH t t' s s') as [[-> ->]|(u & u' & -> & -> & M1 & M2)]; [congruence|exact HS|now left|right].
    do 2 eexists. split; [reflexivity|]. split; [reflexivity|]. split; congruence.
Qed.

(** The selection succeeds on all columns or fails on all. *)
Definition sub_shape (is : list nat) (b sub : batch) : Prop :=
  Forall2 (fun c s => match c, s with
                      | None, None => True
                      | Some r, Some l => is <> [] /\ length l = length is
                      | Some r, None => is = []
                      | None, Some _ => False end) b sub.

Lemma mapM_cons : forall {A B} (f : A -> res B) x l, mapM f (x :: l) = (do y <- f x; do ys <- mapM f l; Ok (y :: ys)).
Proof. reflexivity. Qed.

Lemma subselect_nones : forall {A} (b : list A) is,
  subselect (V:=V) (map (fun _ => None) b) is = Ok (map (fun _ => None) b).
Proof.
  intros A b is. unfold subselect. induction b as [|x b IH]; [reflexivity|]. cbn [map]. rewrite mapM_cons. cbn.
  now rewrite IH.
Qed.
Lemma subselect_length : forall (b sub : batch) is, subselect b is = Ok sub -> length sub = length b.
Proof.
  unfold subselect. intros b; induction b as [|x b IH]; intros sub is E; [cbn in E; now injection E as <-|].
  rewrite mapM_cons in E. apply bind_ok in E. destruct E as (y & E1 & E). apply bind_ok in E.
  destruct E as (ys & E2 & E). injection E as <-. cbn. f_equal. eauto.
Qed.
Lemma subselect_only_ok : forall (b sub : batch) is c, subselect b is = Ok sub ->
  subselect (only c b) is = Ok (only c sub).
Proof.
  unfold subselect. intros b; induction b as [|x b IH]; intros sub is c E.
  - cbn in E. injection E as <-. destruct c; reflexivity.
  - rewrite mapM_cons in E. apply bind_ok in E. destruct E as (y & E1 & E). apply bind_ok in E.
    destruct E as (ys & E2 & E). injection E as <-. destruct c as [|c]; cbn [only]; rewrite mapM_cons.
    + rewrite E1. cbn [bind]. pose proof (subselect_nones b is) as HN. unfold subselect in HN. rewrite HN. cbn.
      pose proof (subselect_length b ys is E2) as HL. do 2 f_equal.
      clear - HL. revert ys HL; induction b; intros [|y ys] HL; try discriminate; cbn; f_equal; auto.
    + cbn [subselect_column bind]. rewrite (IH ys is c E2). reflexivity.
Qed.

Lemma subselect_only : forall (b : batch) n is c r, lens n b -> nth c b None = Some r ->
  (subselect b is = Err IndexError /\ subselect (only c b) is = Err IndexError) \/
  (exists sub, subselect b is = Ok sub /\ subselect (only c b) is = Ok (only c sub) /\ sub_shape is b sub).
Proof.
  intros b n is c r HL Hc. destruct (lens_nb_rows n b c r HL Hc) as [_ Hr].
  destruct (get_rows_len is r r eq_refl) as [[E _]|(s & _ & E & _ & Ls & _)].
  - left. split.
    + unfold subselect. clear Hr. revert c Hc HL E. induction b as [|x b IH]; intros c Hc HL E; [now destruct c|].
      inversion HL as [|? ? Hx HL']; subst. rewrite mapM_cons. destruct x as [rx|].
      * cbn. assert (Hr : length r = length rx).
        { destruct (lens_nb_rows n (Some rx :: b) c r HL Hc). congruence. }
        destruct (get_rows_len is r rx Hr) as [[_ ->]|(? & ? & E' & _)]; [reflexivity|congruence].
      * cbn. destruct c as [|c]; [discriminate|]. now rewrite (IH c Hc HL' E).
    + clear HL Hr. unfold subselect. revert c Hc; induction b as [|x b IH]; intros [|c] Hc; try discriminate; cbn [only];
        rewrite mapM_cons; cbn in Hc.
      * subst x. cbn. now rewrite E.
      * cbn. now rewrite (IH c Hc).
  - right.
    assert (H : exists sub, subselect b is = Ok sub /\ sub_shape is b sub).
    { clear Hc. unfold subselect. induction b as [|x b IH]; [exists []; split; [reflexivity|constructor]|].
      inversion HL as [|? ? Hx HL']; subst. destruct (IH HL') as (sub & E2 & S2). rewrite mapM_cons.
      destruct x as [rx|].
      - cbn. assert (Hrx : length r = length rx) by congruence.
        destruct (get_rows_len is r rx Hrx) as [[E' _]|(? & s' & _ & E' & _ & L')]; [congruence|].
        rewrite E'. cbn. rewrite E2. cbn. eexists. split; [reflexivity|]. constructor; [|exact S2].
        destruct s'; [now destruct is|]. split; [intros ->; discriminate|exact L'].
      - cbn. rewrite E2. cbn. eexists. split; [reflexivity|]. constructor; [exact I|exact S2]. }
    destruct H as (sub & E1 & S1). exists sub. split; [exact E1|]. split; [now apply subselect_only_ok|exact S1].
Qed.

Lemma sub_shape_lens : forall is b sub, sub_shape is b sub -> lens (length is) sub.
Proof.
  intros is b sub H; induction H as [|x y b sub Hx _ IH]; constructor; auto; destruct x, y; tauto.
Qed.
Lemma sub_shape_nth : forall is b sub c r, sub_shape is b sub -> nth c b None = Some r ->
  match nth c sub None with Some l => is <> [] /\ length l = length is | None => is = [] end.
Proof.
  intros is b sub c r H; revert c; induction H as [|x y b sub Hx _ IH]; intros [|c] Hc; try discriminate; cbn in *.
  - subst x. destruct y; tauto.
  - now apply IH.
Qed.
Lemma sub_shape_shp : forall is b sub sub', sub_shape is b sub -> shp sub sub' -> sub_shape is b sub'.
Proof.
  intros is b sub sub' H; revert sub'; induction H as [|x y b sub Hx _ IH]; intros sub' H'; inversion H'; subst; constructor.
  - destruct x, y, y0; try tauto. destruct Hx. split; congruence.
  - now apply IH.
Qed.

Lemma invert_nones : forall {A B} (b : list A) (s : list B) is, length s = length b ->
  invert_subselect (V:=V) (map (fun _ => None) b) is (map (fun _ => None) s) = Ok (map (fun _ => None) b).
Proof.
  intros A B b; induction b as [|x b IH]; intros [|y s] is HL; try discriminate; [reflexivity|]. cbn in *.
  rewrite IH by congruence. reflexivity.
Qed.
Lemma invert_length : forall (b sub b' : batch) is, invert_subselect b is sub = Ok b' -> length b' = length b.
Proof.
  intros b; induction b as [|x b IH]; intros [|s sub] b' is E; cbn in E; try (injection E as <-; reflexivity).
  apply bind_ok in E. destruct E as (y & E1 & E). apply bind_ok in E. destruct E as (ys & E2 & E). injection E as <-.
  cbn. f_equal. eauto.
Qed.
Lemma invert_only_ok : forall (b sub b' : batch) is c, length sub = length b -> invert_subselect b is sub = Ok b' ->
  invert_subselect (only c b) is (only c sub) = Ok (only c b').
Proof.
  intros b; induction b as [|x b IH]; intros [|s sub] b' is c HL E; try discriminate; cbn in E.
  - injection E as <-. destruct c; reflexivity.
  - apply bind_ok in E. destruct E as (y & E1 & E). apply bind_ok in E. destruct E as (ys & E2 & E). injection E as <-.
    cbn in HL. injection HL as HL. destruct c as [|c]; cbn [only invert_subselect].
    + rewrite E1. cbn [bind]. rewrite invert_nones by exact HL. cbn.
      pose proof (invert_length b sub ys is E2) as HL2. do 2 f_equal.
      clear - HL2. revert ys HL2; induction b; intros [|y ys] HL; try discriminate; cbn; f_equal; auto.
    + cbn [invert_column bind]. rewrite (IH sub ys is c HL E2). reflexivity.
Qed.
Lemma F2_len : forall {A B} (P : A -> B -> Prop) l l', Forall2 P l l' -> length l' = length l.
Proof. intros A B P l l' H; induction H; cbn; congruence. Qed.

Lemma invert_only : forall (b sub : batch) n is c r, lens n b -> nth c b None = Some r -> sub_shape is b sub ->
  (invert_subselect b is sub = Err IndexError /\ invert_subselect (only c b) is (only c sub) = Err IndexError) \/
  (exists b', invert_subselect b is sub = Ok b' /\ invert_subselect (only c b) is (only c sub) = Ok (only c b') /\ shp b b').
Proof.
  intros b sub n is c r HL Hc HS. destruct (lens_nb_rows n b c r HL Hc) as [_ Hr].
  assert (HG : (is <> [] /\ exists l, length l = length is /\ set_rows r is l = Err IndexError) \/
               (exists b', invert_subselect b is sub = Ok b' /\ shp b b')).
  { destruct is as [|i is'].
    - right. exists b. split; [|apply shp_refl]. clear - HS. remember (@nil nat) as is eqn:Ei.
      induction HS as [|x y b sub Hx _ IH]; [reflexivity|]. cbn.
      destruct x, y; cbn; try tauto; try (rewrite IH; reflexivity).
    - assert (Hne : i :: is' <> []) by discriminate. remember (i :: is') as is eqn:Eis. clear i is' Eis. pose proof (sub_shape_nth is b sub c r HS Hc) as HN.
      destruct (nth c sub None) as [l|]; [|congruence]. destruct HN as [_ Ll].
      destruct (set_rows_len is r r l l eq_refl eq_refl) as [[E _]|(t & _ & E & _ & Lt & _)].
      + left. split; [congruence|eauto].
      + right. clear Hc. induction HS as [|x y b sub Hx _ IH]; [exists []; split; [reflexivity|constructor]|].
        inversion HL as [|? ? Hx' HL']; subst. destruct (IH HL') as (b' & E' & S'). cbn.
        destruct x as [rx|], y as [ry|]; cbn; try tauto.
        * assert (Hrx : length r = length rx) by congruence.
          assert (Hry : length l = length ry) by (destruct Hx; congruence).
          destruct (set_rows_len is r rx l ry Hrx Hry) as [[E1 _]|(? & t' & _ & E1 & _ & L1)]; [congruence|].
          rewrite E1. cbn. rewrite E'. cbn. eexists. split; [reflexivity|]. constructor; [congruence|exact S'].
        * rewrite E'. cbn. eexists. split; [reflexivity|]. constructor; [exact I|exact S']. }
  destruct HG as [(Hne & l & Ll & E)|(b' & E & S)].
  - left. split.
    + clear Hr. revert c Hc. induction HS as [|x y b sub Hx HS' IH]; intros c Hc; [now destruct c|].
      inversion HL as [|? ? Hx' HL']; subst. cbn. destruct x as [rx|], y as [ry|]; cbn; try tauto.
      * assert (Hr : length r = length rx).
        { destruct (lens_nb_rows n (Some rx :: b) c r HL Hc). congruence. }
        assert (Hry : length l = length ry) by (destruct Hx; congruence).
        destruct (set_rows_len is r rx l ry Hr Hry) as [[_ ->]|(? & ? & E' & _)]; [reflexivity|congruence].
      * destruct c as [|c]; [discriminate|]. now rewrite (IH HL' c Hc).
    + clear HL Hr. revert c Hc; induction HS as [|x y b sub Hx HS' IH]; intros [|c] Hc; try discriminate;
        cbn [only invert_subselect]; cbn in Hc.
      * subst x. destruct y as [ry|]; [|tauto]. cbn.
        assert (Hry : length l = length ry) by (destruct Hx; congruence).
        destruct (set_rows_len is r r l ry eq_refl Hry) as [[_ ->]|(? & ? & E' & _)]; [reflexivity|congruence].
      * cbn. now rewrite (IH c Hc).
  - right. exists b'. split; [exact E|]. split; [|exact S]. apply invert_only_ok; [|exact E].
    now apply F2_len in HS.
Qed.

(** Inactive augmenters. *)
Lemma unhide_hide : forall keep (b : batch) pos,
  unhide_from keep pos b (map_columns (fun i l => if keep i l then Some l else None) pos b) = b.
Proof.
  intros keep b; induction b as [|c b IH]; intros pos; [reflexivity|].
  destruct c as [[|x l]|]; cbn; rewrite IH; try reflexivity. now destruct (keep pos (x :: l)).
Qed.
Lemma hide_false_rows : forall keep (b : batch) pos, (forall i l, keep i l = false) ->
  nb_rows (map_columns (fun i l => if keep i l then Some l else None) pos b) = 0%nat.
Proof.
  intros keep b; induction b as [|c b IH]; intros pos H; [reflexivity|].
  destruct c as [[|x l]|]; cbn; try rewrite H; auto.
Qed.
Lemma augment_inactive : forall id ps f (w : world) (b : batch), n_act (w_node w id) = false ->
  augment_batch None id ps f w b = Ok (b, w).
Proof.
  intros id ps f w b Ha. unfold augment_batch. cbn [hook_preprocess hook_postprocess].
  unfold hide. rewrite hide_false_rows by (intros; unfold hook_activated; now rewrite Ha).
  cbn. unfold unhide. now rewrite unhide_hide.
Qed.

Section Det.
Variable S : nat -> Prop.
Variable c : nat.

Definition drel (w1 w2 : world) : Prop :=
  world_rel false S S S w1 w2 /\ forall id, S id -> n_det (w_node w1 id) = true.

Lemma drel_flags : forall w1 w2 v1 v2, drel w1 w2 -> world_rel false S S S v1 v2 -> same_flags w1 v1 -> drel v1 v2.
Proof.
  intros w1 w2 v1 v2 [_ HD] HW HF. split; [exact HW|]. intros id Hid. destruct (HF id) as [_ ->]. auto.
Qed.
Lemma drel_own : forall w1 w2 id, drel w1 w2 -> S id -> exists s, n_rng (w_node w1 id) = Own s /\ n_rng (w_node w2 id) = Own s.
Proof.
  intros w1 w2 id [(_ & HW & _) _] Hid. destruct (HW id Hid) as (_ & _ & HR).
  destruct (n_rng (w_node w1 id)), (n_rng (w_node w2 id)); cbn in HR; try tauto; [discriminate|].
  subst. eauto.
Qed.
Lemma drel_kept : forall w1 w2 v1 v2, drel w1 w2 -> kept w1 v1 -> kept w2 v2 -> drel v1 v2.
Proof.
  intros w1 w2 v1 v2 HD K1 K2. pose proof HD as [(_ & HN & HC & HQ) HDet].
  assert (HX : forall id, S id -> n_det (w_node v1 id) = true /\ n_det (w_node v2 id) = true /\
    n_act (w_node v1 id) = n_act (w_node v2 id) /\ exists s, n_rng (w_node v1 id) = Own s /\ n_rng (w_node v2 id) = Own s).
  { intros id Hid. destruct (K1 id) as (A1 & B1 & C1), (K2 id) as (A2 & B2 & C2).
    destruct (HN id Hid) as (F1 & F2 & _). specialize (HDet id Hid).
    destruct (drel_own w1 w2 id HD Hid) as (s & O1 & O2).
    split; [congruence|]. split; [congruence|]. split; [congruence|]. exists s.
    rewrite C1, C2; auto; [congruence|now rewrite O2|now rewrite O1]. }
  split; [|intros id Hid; now apply HX].
  split; [discriminate|]. split; [|split]; intros id Hid; destruct (HX id Hid) as (D1 & D2 & A & s & O1 & O2).
  - repeat split; try congruence. rewrite O1, O2. reflexivity.
  - intros X. congruence.
  - repeat split; try congruence; rewrite ?O1, ?O2; exact I.
Qed.

Definition outc (r1 r2 : res (batch * world)) (b : batch) : Prop :=
  match r1, r2 with
  | Ok (b1, v1), Ok (b2, v2) => b1 = only c b2 /\ drel v1 v2 /\ shp b b2
  | Err e1, Err e2 => e1 = e2
  | _, _ => False
  end.
Definition child_ok (f : runner) : Prop :=
  forall w1 w2 (b : batch), drel w1 w2 -> rect b -> nb_rows (only c b) = nb_rows b -> outc (f w1 (only c b)) (f w2 b) b.
Definition body_ok (f : runner) : Prop :=
  forall w1 w2 (b : batch) r, drel w1 w2 -> rect b -> nth c b None = Some r -> outc (f w1 (only c b)) (f w2 b) b.

Lemma augment_child_ok : forall id ps f, S id -> body_ok f ->
  (forall w b b' w', f w b = Ok (b', w') -> same_flags w w') -> child_ok (augment_batch None id ps f).
Proof.
  intros id ps f Hid HB HF w1 w2 b HD HR HN. pose proof HD as [HW HDet].
  destruct (rel_flags false S S S w1 w2 id HW (or_introl Hid)) as [Ea Ed].
  destruct (n_act (w_node w1 id)) eqn:A1.
  - rewrite !augment_batch_none by congruence. rewrite HN.
    destruct (Nat.eqb_spec (nb_rows b) 0) as [E0|N0]; [cbn; exact (conj eq_refl (conj HD (shp_refl b)))|].
    assert (Hc : exists r, nth c b None = Some r).
    { rewrite nb_rows_only in HN. destruct (nth c b None); [eauto|]. congruence. }
    destruct Hc as [r Hc]. specialize (HB w1 w2 b r HD HR Hc).
    pose proof (HF w1 (only c b)) as HF1.
    destruct (f w1 (only c b)) as [[b1 v1]|], (f w2 b) as [[b2 v2]|]; cbn in *; try tauto.
    destruct HB as (-> & HV & HS). split; [reflexivity|]. split; [|exact HS].
    rewrite <- Ed, (HDet id Hid). rewrite <- (rel_get false S S S w1 w2 id HW Hid).
    destruct HV as [HV HVD]. split; [now apply rel_set|].
    intros j Hj. destruct (set_st_flags v1 id (get_st w1 id) j) as [_ ->]. auto.
  - rewrite !augment_inactive by congruence. cbn. exact (conj eq_refl (conj HD (shp_refl b))).
Qed.

Lemma propagating_body_ok : forall id ps f, body_ok f -> body_ok (propagating None id ps f).
Proof.
  intros id ps f HB w1 w2 b r HD HR Hc. rewrite !propagating_none. specialize (HB w1 w2 b r HD HR Hc).
  destruct (f w1 (only c b)) as [[b1 v1]|], (f w2 b) as [[b2 v2]|]; cbn in *; auto.
Qed.

(** Children keep what is deterministic. *)
Definition keeps (f : runner) : Prop := finv kept f.

Lemma col_ok : forall (b : batch) r, rect b -> nth c b None = Some r -> nb_rows (only c b) = nb_rows b.
Proof.
  intros b r HR Hc. rewrite nb_rows_only, Hc. destruct (lens_nb_rows _ b c r (rect_lens b HR) Hc). congruence.
Qed.
Lemma shp_rect : forall (b b' : batch), shp b b' -> rect b -> rect b'.
Proof. intros b b' HS HR. unfold rect. rewrite (shp_nb_rows b b' HS). now apply (shp_lens _ b). Qed.
Lemma shp_some : forall (b b' : batch) r, shp b b' -> nth c b None = Some r -> exists r', nth c b' None = Some r'.
Proof.
  intros b b' r HS Hc. destruct (nth c b' None) eqn:E; [eauto|].
  apply (shp_nth b b' HS c) in E. congruence.
Qed.

Lemma seq_loop_ok : forall fs order, Forall child_ok fs -> body_ok (seq_loop fs order).
Proof.
  intros fs order HF; induction order as [|i is IH]; intros w1 w2 b r HD HR Hc; cbn.
  - exact (conj eq_refl (conj HD (shp_refl b))).
  - destruct (nth_error fs i) as [f|] eqn:Ef; [|reflexivity].
    apply nth_error_In in Ef. rewrite Forall_forall in HF.
    pose proof (HF f Ef w1 w2 b HD HR (col_ok b r HR Hc)) as HO.
    destruct (f w1 (only c b)) as [[b1 v1]|], (f w2 b) as [[b2 v2]|]; cbn in HO |- *; try tauto.
    destruct HO as (-> & HV & HS). destruct (shp_some b b2 r HS Hc) as [r' Hc'].
    pose proof (IH v1 v2 b2 r' HV (shp_rect b b2 HS HR) Hc') as HO.
    destruct (seq_loop fs is v1 (only c b2)) as [[b3 u1]|], (seq_loop fs is v2 b2) as [[b4 u2]|]; cbn in HO |- *; try tauto.
    destruct HO as (-> & HU & HS'). split; [reflexivity|]. split; [exact HU|]. now apply (shp_trans b b2).
Qed.

Lemma on_rows_ok : forall (f : runner) rows w1 w2 b r, child_ok f -> drel w1 w2 -> rect b -> nth c b None = Some r ->
  outc (do sub <- subselect (only c b) rows; do r <- f w1 sub; do b' <- invert_subselect (only c b) rows (fst r); Ok (b', snd r))
       (do sub <- subselect b rows; do r <- f w2 sub; do b' <- invert_subselect b rows (fst r); Ok (b', snd r)) b.
Proof.
  intros f rows w1 w2 b r HF HD HR Hc.
  destruct (subselect_only b (nb_rows b) rows c r (rect_lens b HR) Hc) as [[-> ->]|(sub & -> & -> & HS)]; [reflexivity|].
  cbn.
  assert (HRs : rect sub) by (apply (lengths_rect sub (length rows)); now apply (sub_shape_lens rows b)).
  assert (HNs : nb_rows (only c sub) = nb_rows sub).
  { rewrite nb_rows_only. pose proof (sub_shape_nth rows b sub c r HS Hc) as X.
    destruct (nth c sub None) as [l|] eqn:El.
    - destruct (lens_nb_rows _ sub c l (sub_shape_lens rows b sub HS) El). congruence.
    - subst rows. destruct (nb_rows_cases sub 0 (sub_shape_lens [] b sub HS)) as [E|[E _]]; congruence. }
  pose proof (HF w1 w2 sub HD HRs HNs) as HO.
  destruct (f w1 (only c sub)) as [[b1 v1]|], (f w2 sub) as [[b2 v2]|]; cbn in HO |- *; try tauto.
  destruct HO as (-> & HV & HS2).
  destruct (invert_only b b2 (nb_rows b) rows c r (rect_lens b HR) Hc (sub_shape_shp rows b sub b2 HS HS2))
    as [[-> ->]|(b' & -> & -> & HS3)]; [reflexivity|]. cbn. auto.
Qed.

Lemma someof_loop_ok : forall fs active order, Forall child_ok fs -> body_ok (someof_loop fs active order).
Proof.
  intros fs active order HF; induction order as [|i is IH]; intros w1 w2 b r HD HR Hc; cbn [someof_loop].
  - cbn. exact (conj eq_refl (conj HD (shp_refl b))).
  - destruct (nonzero _) as [|k ks] eqn:En; [now apply (IH w1 w2 b r)|]. clear En.
    destruct (nth_error fs i) as [f|] eqn:Ef; [|reflexivity].
    apply nth_error_In in Ef. rewrite Forall_forall in HF.
    pose proof (on_rows_ok f (k :: ks) w1 w2 b r (HF f Ef) HD HR Hc) as HO.
    destruct (subselect (only c b) (k :: ks)) as [s1|], (subselect b (k :: ks)) as [s2|]; cbn [bind] in HO |- *; try tauto.
    all: try (destruct (f w1 s1) as [[t1 v1]|]); try (destruct (f w2 s2) as [[t2 v2]|]); cbn [bind fst snd] in HO |- *; try tauto.
    all: try (destruct (invert_subselect (only c b) (k :: ks) t1) as [u1|]);
         try (destruct (invert_subselect b (k :: ks) t2) as [u2|]); cbn [bind outc] in HO |- *; try tauto.
    destruct HO as (-> & HV & HS). destruct (shp_some b u2 r HS Hc) as [r' Hc'].
    pose proof (IH v1 v2 u2 r' HV (shp_rect b u2 HS HR) Hc') as HO.
    destruct (someof_loop fs active is v1 (only c u2)) as [[b3 x1]|], (someof_loop fs active is v2 u2) as [[b4 x2]|];
      cbn in HO |- *; try tauto.
    destruct HO as (-> & HU & HS'). split; [reflexivity|]. split; [exact HU|]. now apply (shp_trans b u2).
Qed.

Lemma sometimes_branch_ok : forall f rows, (forall g, f = Some g -> child_ok g) -> body_ok (sometimes_branch f rows).
Proof.
  intros [f|] rows HF w1 w2 b r HD HR Hc; cbn [sometimes_branch].
  - apply (on_rows_ok f rows w1 w2 b r); auto.
  - cbn. exact (conj eq_refl (conj HD (shp_refl b))).
Qed.

Lemma col_results_only : forall body st k (b : batch),
  map (fun '(i, x) => col_result body st (k + i) x) (combine (seq 0 (length (only c b))) (only c b)) =
  only c (map (fun '(i, x) => col_result body st (k + i) x) (combine (seq 0 (length b)) b)).
Proof.
  intros body st.
  assert (HN : forall (b : batch) k m, map (fun '(i, x) => col_result body st (k + i) x)
       (combine (seq m (length (map (fun _ : option (list V) => @None (list V)) b))) (map (fun _ => None) b)) =
     map (fun _ => None) (map (fun '(i, x) => col_result body st (k + i) x) (combine (seq m (length b)) b))).
  { intros b; induction b as [|x b IH]; intros k m; [reflexivity|]. cbn. f_equal. apply IH. }
  assert (H : forall (b : batch) c k m,
    map (fun '(i, x) => col_result body st (k + i) x) (combine (seq m (length (only c b))) (only c b)) =
    only c (map (fun '(i, x) => col_result body st (k + i) x) (combine (seq m (length b)) b))).
  { intros b; induction b as [|x b IH]; intros [|c'] k m; try reflexivity.
    - cbn [only length seq combine map]. f_equal. apply HN.
    - cbn [only length seq combine map]. f_equal. apply IH. }
  intros k b. apply H.
Qed.

Lemma run_only : forall (a : aug) ps, column_wise a -> (forall id, In id (ids a) -> S id) ->
  child_ok (run None ps a).
Proof.
  assert (SC : forall id, S id -> S id) by auto.
  intros a. induction a using aug_ind2; intros ps HCW HS; cbn in HCW; try tauto; cbn [run].
  - (* ColLeaf *)
    assert (Hid : S id) by (apply HS; now left).
    (* proved directly: the state of the node is restored *)
    intros w1 w2 b HD HR HN. pose proof HD as [HW HDet].
    pose proof (run_kept None (ColLeaf id body) ps) as HK. cbn [run] in HK.
    destruct (rel_flags false S S S w1 w2 id HW (or_introl Hid)) as [Ea Ed].
    destruct (n_act (w_node w1 id)) eqn:A1.
    2:{ rewrite !augment_inactive by congruence. cbn. exact (conj eq_refl (conj HD (shp_refl b))). }
    pose proof (HK w1 (only c b)) as HK1. pose proof (HK w2 b) as HK2.
    rewrite !augment_batch_none in * by congruence. rewrite HN in *.
    destruct (Nat.eqb_spec (nb_rows b) 0) as [E0|N0]; [cbn; exact (conj eq_refl (conj HD (shp_refl b)))|].
    destruct (run_columns_results id body w1 (only c b)) as (b1 & v1 & E1 & Eb1 & _); [left; auto|].
    destruct (run_columns_results id body w2 b) as (b2 & v2 & E2 & Eb2 & _); [left; rewrite <- Ed; auto|].
    rewrite E1, E2 in *. cbn [bind fst snd] in *. cbn [outc].
    rewrite (rel_get false S S S w1 w2 id HW Hid) in Eb1.
    split; [rewrite Eb1, Eb2; apply col_results_only|]. split.
    + eapply drel_kept; [exact HD|eapply HK1; reflexivity|eapply HK2; reflexivity].
    + rewrite Eb2. clear - HCW. generalize (get_st w2 id). intros st. cbn [Nat.add].
      generalize 0%nat as k. induction b as [|x b IH]; intros k; cbn; constructor; [|apply IH].
      destruct x as [[|x l]|]; cbn; auto. apply HCW.
  - (* Seq *)
    apply augment_child_ok; [apply HS; now left| |].
    + apply propagating_body_ok. intros w1 w2 b r HD HR Hc.
      assert (Hid : S id) by (apply HS; now left). pose proof HD as [HW _].
      destruct (draw_order_rel false S S S id o (length cs) w1 w2 HW (fun _ => Hid)) as [E W].
      pose proof (draw_order_flags id o (length cs) w1) as HF.
      destruct (draw_order id o (length cs) w1) as [o1 v1], (draw_order id o (length cs) w2) as [o2 v2].
      cbn in E, W. subst o2. apply (seq_loop_ok _ _) with (r := r); auto.
      * rewrite fold_and in HCW. apply Forall_map. rewrite Forall_forall in *. intros x Hx. apply H; auto.
        intros j Hj. apply HS. cbn. right. apply in_flat_map. eauto.
      * eapply drel_flags; eauto.
    + apply flags_finv, propagating_inv. intros w b b' w' E.
      destruct (draw_order _ _ _ _) as [order w1] eqn:E1.
      eapply same_flags_trans; [eapply draw_order_flags; eauto|].
      eapply (seq_loop_inv same_flags); [apply same_flags_refl|apply same_flags_trans| |exact E].
      apply children_flags.
  - (* SomeOf *)
    apply augment_child_ok; [apply HS; now left| |].
    + apply propagating_body_ok. intros w1 w2 b r HD HR Hc.
      assert (Hid : S id) by (apply HS; now left). pose proof HD as [HW _].
      destruct (draw_order_rel false S S S id o (length cs) w1 w2 HW (fun _ => Hid)) as [E W].
      pose proof (draw_order_flags id o (length cs) w1) as HF.
      destruct (draw_order id o (length cs) w1) as [o1 v1], (draw_order id o (length cs) w2) as [o2 v2].
      cbn in E, W. subst o2. rewrite (col_ok b r HR Hc).
      destruct (draw_active_rel false S S S id n (length cs) (nb_rows b) v1 v2 W Hid) as [E2 W2].
      pose proof (draw_active_flags id n (length cs) (nb_rows b) v1) as HF2.
      destruct (draw_active id n (length cs) (nb_rows b) v1) as [a1 u1],
               (draw_active id n (length cs) (nb_rows b) v2) as [a2 u2]. cbn in E2, W2. subst a2.
      apply (someof_loop_ok _ _ _) with (r := r); auto.
      * rewrite fold_and in HCW. apply Forall_map. rewrite Forall_forall in *. intros x Hx. apply H; auto.
        intros j Hj. apply HS. cbn. right. apply in_flat_map. eauto.
      * apply (drel_flags v1 v2); [|exact W2|eapply HF2; reflexivity].
        apply (drel_flags w1 w2); [exact HD|exact W|eapply HF; reflexivity].
    + apply flags_finv, propagating_inv. intros w b b' w' E.
      destruct (draw_order _ _ _ _) as [order w1] eqn:E1.
      destruct (draw_active _ _ _ _ _) as [active w2] eqn:E2.
      eapply same_flags_trans; [eapply draw_order_flags; eauto|].
      eapply same_flags_trans; [eapply draw_active_flags; eauto|].
      eapply (someof_loop_inv same_flags); [apply same_flags_refl|apply same_flags_trans| |exact E].
      apply children_flags.
  - (* Sometimes *)
    apply augment_child_ok; [apply HS; now left| |].
    + apply propagating_body_ok. intros w1 w2 b r HD HR Hc.
      assert (Hid : S id) by (apply HS; now left). pose proof HD as [HW HDet].
      destruct (rel_flags false S S S w1 w2 id HW (or_introl Hid)) as [_ Ed]. rewrite <- Ed.
      rewrite (col_ok b r HR Hc).
      destruct (run_prog_rel false S S S SC id (Pre 0 p N (nb_rows b) (fun s => Ret s)) _ w1 w2 HW Hid eq_refl) as [E W].
      pose proof (run_prog_flags (negb (n_det (w_node w1 id))) id (Pre 0 p N (nb_rows b) (fun s => Ret s)) w1) as HF.
      destruct (run_prog _ id _ w1) as [s1 v1], (run_prog _ id _ w2) as [s2 v2]. cbn [fst snd] in E, W. subst s2.
      assert (HV : drel v1 v2) by (eapply drel_flags; eauto).
      set (ro := fun l : option aug => match l with
                         | Some a' => if Nat.eqb (aug_len a') 0 then None else Some (run None (ps ++ [id]) a')
                         | None => None end).
      destruct HCW as [HCt HCe].
      assert (Hro1 : forall g, ro t = Some g -> child_ok g).
      { intros g. unfold ro. destruct t as [a|]; [|discriminate]. destruct (Nat.eqb _ _); [discriminate|].
        intros Eg; injection Eg as <-. apply H; auto. intros j Hj. apply HS. cbn. right. apply in_or_app. now left. }
      assert (Hro2 : forall g, ro e = Some g -> child_ok g).
      { intros g. unfold ro. destruct e as [a|]; [|discriminate]. destruct (Nat.eqb _ _); [discriminate|].
        intros Eg; injection Eg as <-. apply H0; auto. intros j Hj. apply HS. cbn. right. apply in_or_app. now right. }
      fold (ro t). fold (ro e).
      set (R1 := nonzero _). set (R2 := nonzero _).
      pose proof (sometimes_branch_ok (ro t) R1 Hro1 v1 v2 b r HV HR Hc) as HO.
      destruct (sometimes_branch (ro t) R1 v1 (only c b)) as [[b1 u1]|], (sometimes_branch (ro t) R1 v2 b) as [[b2 u2]|];
        cbn [outc bind fst snd] in HO |- *; try tauto.
      destruct HO as (-> & HU & HSh). destruct (shp_some b b2 r HSh Hc) as [r' Hc'].
      pose proof (sometimes_branch_ok (ro e) R2 Hro2 u1 u2 b2 r' HU (shp_rect b b2 HSh HR) Hc') as HO.
      destruct (sometimes_branch (ro e) R2 u1 (only c b2)) as [[b3 x1]|], (sometimes_branch (ro e) R2 u2 b2) as [[b4 x2]|];
        cbn [outc] in HO |- *; try tauto.
      destruct HO as (-> & HX & HSh'). split; [reflexivity|]. split; [exact HX|]. now apply (shp_trans b b2).
    + apply flags_finv, propagating_inv. intros w b b' w' E.
      destruct (run_prog _ _ _ _) as [s1 w1] eqn:E1. apply run_prog_flags in E1.
      apply bind_ok in E. destruct E as ([b1 v1] & E2 & E). cbn in E.
      eapply same_flags_trans; [exact E1|].
      eapply same_flags_trans.
      * eapply (sometimes_branch_inv same_flags); [apply same_flags_refl| |exact E2]. intros g.
        destruct t as [a|]; [|discriminate]. destruct (Nat.eqb _ _); [discriminate|].
        intros Eg; injection Eg as <-. intros ? ? ? ?. apply run_flags.
      * eapply (sometimes_branch_inv same_flags); [apply same_flags_refl| |exact E]. intros g.
        destruct e as [a|]; [|discriminate]. destruct (Nat.eqb _ _); [discriminate|].
        intros Eg; injection Eg as <-. intros ? ? ? ?. apply run_flags.
Qed.
End Det.

Lemma all_det_own : forall (a : aug) w, all_deterministic a w <-> all_det a w.
Proof.
  intros a w. split; intros H id Hid; destruct (H id Hid) as [D O]; split; auto.
  - destruct O as [s ->]. exact I.
  - destruct (n_rng (w_node w id)) as [|s]; [destruct O|eauto].
Qed.

(** A deterministic pipeline treats a column the same, alone or together with
    others, now or later. *)
Lemma columns_separately : forall (a : aug) (w w' : world) (b : batch) c r,
  column_wise a -> all_deterministic a w -> kept w w' -> rect b -> nth c b None = Some r ->
  result (run None [] a w' (only c b)) =
  match result (run None [] a w b) with Ok b' => Ok (only c b') | Err e => Err e end.
Proof.
  intros a w w' b c r HCW HD HK HR Hc. apply all_det_own in HD.
  rewrite (det_repeats a w w' (only c b) HD HK).
  pose proof (run_only (fun id => In id (ids a)) c a [] HCW (fun _ H => H) w w b) as HO.
  assert (HDR : drel (fun id => In id (ids a)) w w).
  { split; [|intros id Hid; now apply HD].
    split; [reflexivity|]. split; [|split]; intros id Hid; destruct (HD id Hid) as [D O].
    - repeat split; auto. destruct (n_rng (w_node w id)); [destruct O|reflexivity].
    - intros X. congruence.
    - repeat split; auto. }
  specialize (HO HDR HR (col_ok c b r HR Hc)).
  destruct (run None [] a w (only c b)) as [[b1 v1]|], (run None [] a w b) as [[b2 v2]|]; cbn in HO |- *; try tauto.
  - destruct HO as (-> & _). reflexivity.
  - now subst.
Qed.

Lemma columns_separately_history : forall (a : aug) (w : world) (h : list (@op R V)) (b : batch) c r,
  sane w -> column_wise a -> all_deterministic a w -> rect b -> nth c b None = Some r ->
  result (run None [] a (do_ops w h) (only c b)) =
  match result (run None [] a w b) with Ok b' => Ok (only c b') | Err e => Err e end.
Proof.
  intros a w h b c r HS HCW HD HR Hc. apply (columns_separately a w _ b c r); auto.
  now apply do_ops_kept.
Qed.
End P.
