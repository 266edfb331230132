(** Lemmas about BatchLoader and BackgroundAugmenter (PoolModel). *)
From Coq Require Import Lia Permutation.
From Verif Require Import Prelude PreludeFacts PoolModel PoolSpec PoolProofs.
#[local] Arguments list_sum : simpl never.

Section Background.
Context {B : Type}.
Variable dec : forall x y : B, {x = y} + {x <> y}.
Variable threaded : bool.
Notation bexec := (bexec threaded).
Notation bexec_all := (bexec_all threaded).
Notation bst := (bst B).

Lemma batches_in_app : forall l1 l2 : list (option B), batches_in (l1 ++ l2) = batches_in l1 ++ batches_in l2.
Proof. induction l1 as [|[b|] l1 IH]; intros; cbn; rewrite ?IH; auto. Qed.

Definition cnt (x : B) (l : list (option B)) : nat := count_occ dec (batches_in l) x.
Definition one (x b : B) : nat := if dec b x then 1 else 0.
Lemma cnt_app : forall x l1 l2, cnt x (l1 ++ l2) = (cnt x l1 + cnt x l2)%nat.
Proof. intros. unfold cnt. now rewrite batches_in_app, count_occ_app. Qed.
Lemma cnt_some : forall x b l, cnt x (Some b :: l) = (one x b + cnt x l)%nat.
Proof. intros. unfold cnt, one. cbn. destruct (dec b x); lia. Qed.
Lemma cnt_none : forall x l, cnt x (None :: l) = cnt x l.
Proof. reflexivity. Qed.
Lemma cnt_nil : forall x, cnt x [] = 0%nat.
Proof. reflexivity. Qed.
Lemma count_cons_one : forall x b l, count_occ dec (b :: l) x = (one x b + count_occ dec l x)%nat.
Proof. intros. cbn. unfold one. destruct (dec b x); lia. Qed.

Definition nones (l : list (option B)) : nat := length (filter isnone l).
Lemma nones_app : forall l1 l2, nones (l1 ++ l2) = (nones l1 + nones l2)%nat.
Proof. intros. unfold nones. now rewrite filter_app, app_length. Qed.
Lemma nones_some : forall b l, nones (Some b :: l) = nones l.
Proof. reflexivity. Qed.
Lemma nones_none : forall l, nones (None :: l) = S (nones l).
Proof. reflexivity. Qed.
Lemma nones_nil : nones [] = 0%nat.
Proof. reflexivity. Qed.
#[local] Arguments cnt : simpl never.
#[local] Arguments nones : simpl never.
#[local] Arguments one : simpl never.

Definition cl (x : B) (l : loader B) : nat := (count_occ dec (l_todo l) x + cnt x (l_buf l))%nat.
Definition ca (x : B) (a : augmenter B) : nat :=
  ((match a_hold a with Some b => one x b | None => 0 end) + cnt x (a_buf a))%nat.
Definition sum {A} (g : A -> nat) (l : list A) : nat := list_sum (map g l).
Lemma sum_mid : forall {A} (g : A -> nat) l1 x l2, sum g (l1 ++ x :: l2) = (sum g l1 + g x + sum g l2)%nat.
Proof. intros. apply list_sum_mid. Qed.

Definition total (x : B) (s : bst) : nat :=
  (sum (cl x) (b_loaders s) + cnt x (b_internal s) + cnt x (b_mbuf s) + cnt x (b_source s)
   + sum (ca x) (b_augs s) + cnt x (b_result s) + cnt x (b_out s))%nat.
Definition fin1 (a : augmenter B) : nat := if a_finished a then 1 else 0.
Definition unfin1 (a : augmenter B) : nat := if a_finished a then 0 else 1.
Definition bufn (a : augmenter B) : nat := nones (a_buf a).

(** A list in which nothing follows an end marker. *)
Definition none_last (l : list (option B)) : Prop := forall l1 l2, l = l1 ++ None :: l2 -> l2 = [].

Lemma none_last_nil : none_last [].
Proof. intros [|x l1] l2 H; discriminate. Qed.
Lemma none_last_some : forall l b, nones l = 0%nat -> none_last (l ++ [Some b]).
Proof.
  intros l b Hn l1 l2 E. exfalso.
  assert (nones (l ++ [Some b]) = 0%nat) by (rewrite nones_app, Hn; reflexivity).
  rewrite E, nones_app, nones_none in H. lia.
Qed.
Lemma none_last_none : forall l, nones l = 0%nat -> none_last (l ++ [None]).
Proof.
  induction l as [|[b|] l IH]; intros Hn l1 l2 E.
  - destruct l1 as [|y l1]; cbn in E; [congruence|]. destruct l1; discriminate.
  - destruct l1 as [|y l1]; cbn in E; [discriminate|]. injection E as <- E. rewrite nones_some in Hn. now apply (IH Hn l1).
  - rewrite nones_none in Hn. lia.
Qed.
Lemma none_last_tail : forall x l, none_last (x :: l) -> none_last l.
Proof. intros x l H l1 l2 ->. now apply (H (x :: l1) l2). Qed.
Lemma none_last_head : forall l, none_last (None :: l) -> l = [].
Proof. intros l H. now apply (H [] l). Qed.
Lemma nones0_batches : forall l, nones l = 0%nat -> l = map Some (batches_in l).
Proof. induction l as [|[b|] l IH]; intros H; cbn; [auto| |rewrite nones_none in H; lia]. rewrite nones_some in H. f_equal; auto. Qed.
Lemma no_batches_cnt : forall l, (forall x, cnt x l = 0%nat) <-> batches_in l = [].
Proof.
  intros l. split.
  - intros H. destruct (batches_in l) as [|b r] eqn:E; [reflexivity|]. specialize (H b). unfold cnt in H. rewrite E in H.
    rewrite count_cons_one in H. unfold one in H. destruct (dec b b); [lia|congruence].
  - intros E x. unfold cnt. now rewrite E.
Qed.

Definition loader_ok (l : loader B) : Prop :=
  (l_ended l = true -> l_todo l = []) /\ (l_dead l = true -> l_ended l = true) /\
  (threaded = false -> l_dead l = true -> l_buf l = []).
Definition aug_ok (a : augmenter B) : Prop :=
  (a_finished a = true -> a_hold a = None /\ a_crashed a = false) /\
  (a_crashed a = true -> a_hold a = None) /\
  (a_finished a = false -> nones (a_buf a) = 0%nat) /\
  (a_finished a = true -> nones (a_buf a) = 0%nat -> a_buf a = []) /\
  none_last (a_buf a).

Record binv (n : nat) (init : B -> nat) (s : bst) : Prop := mkBinv {
  j_len : length (b_augs s) = n;
  j_cnt : forall x, (total x s <= init x)%nat;
  j_cnt' : (forall a, In a (b_augs s) -> a_crashed a = false) -> forall x, total x s = init x;
  j_loaders : Forall loader_ok (b_loaders s);
  j_augs : Forall aug_ok (b_augs s);
  j_dead : b_main s <> MLoop -> forallb l_dead (b_loaders s) = true;
  j_internal : threaded = false -> b_main s = MEnded -> b_internal s = [];
  j_src : let src := b_source s ++ b_mbuf s in
          let nn := (nones src + sum a_back (b_augs s))%nat in
          (b_main s <> MEnded -> nn = 0%nat /\ sum fin1 (b_augs s) = 0%nat) /\
          (nn <= 1)%nat /\ (b_main s = MEnded -> (b_finished s < n)%nat -> nn = 1%nat) /\ none_last src /\
          ((0 < sum a_back (b_augs s) + sum fin1 (b_augs s))%nat -> batches_in src = []);
  j_fin : (nones (b_result s) + sum bufn (b_augs s) + b_finished s = sum fin1 (b_augs s))%nat;
  j_res : forall l1 b l2, b_result s = l1 ++ Some b :: l2 ->
          (1 <= nones l2 + sum bufn (b_augs s) + sum unfin1 (b_augs s))%nat;
  j_out : exists ds k, b_out s = map Some ds ++ repeat None k /\ (k <> O -> b_finished s = n)
}.

Lemma fin_unfin : forall az, (sum fin1 az + sum unfin1 az = length az)%nat.
Proof.
  unfold sum. induction az as [|a az IH]; [reflexivity|]. cbn.
  change (list_sum (?x :: ?l)) with (x + list_sum l)%nat. unfold fin1 at 1, unfin1 at 1. destruct (a_finished a); lia.
Qed.

Lemma Forall_mid : forall {A} (P : A -> Prop) l1 x y l2, Forall P (l1 ++ x :: l2) -> P y -> Forall P (l1 ++ y :: l2).
Proof.
  intros A P l1 x y l2 H Hy. apply Forall_app in H. destruct H as [H1 H2]. apply Forall_app. split; [exact H1|].
  constructor; [exact Hy|]. now inversion H2.
Qed.
Lemma Forall_at : forall {A} (P : A -> Prop) l1 x l2, Forall P (l1 ++ x :: l2) -> P x.
Proof. intros A P l1 x l2 H. apply Forall_app in H. destruct H as [_ H]. now inversion H. Qed.

Definition initial (batches : list (list B)) (x : B) : nat := count_occ dec (concat batches) x.

Lemma init_binv : forall batches n, binv n (initial batches) (b_init batches n).
Proof.
  intros batches n.
  assert (HZ : forall (g : augmenter B -> nat) k, g (mkAugmenter None [] 0 false false) = 0%nat ->
             sum g (repeat (mkAugmenter None [] 0 false false) k) = 0%nat).
  { intros g k Hg. unfold sum. induction k as [|k IH]; [reflexivity|]. cbn [repeat map].
    change (list_sum (?x :: ?l)) with (x + list_sum l)%nat. lia. }
  assert (HT : forall x, total x (b_init batches n) = initial batches x).
  { intros x. unfold total, b_init, initial. cbn. rewrite !cnt_nil, HZ by reflexivity.
    assert (sum (cl x) (map (fun l => mkLoader l [] false false) batches) = count_occ dec (concat batches) x); [|lia].
    unfold sum. induction batches as [|b bs IH]; [reflexivity|]. cbn [map concat].
    change (list_sum (?x :: ?l)) with (x + list_sum l)%nat. rewrite count_occ_app, IH. unfold cl. cbn. rewrite cnt_nil. lia. }
  constructor.
  - apply repeat_length.
  - intros x. now rewrite HT.
  - intros _. exact HT.
  - cbn. apply Forall_forall. intros l Hl. apply in_map_iff in Hl. destruct Hl as (t & <- & _).
    repeat split; cbn; discriminate.
  - cbn. apply Forall_forall. intros a Ha. apply repeat_spec in Ha. subst a.
    repeat split; cbn; try discriminate. apply none_last_nil.
  - cbn. congruence.
  - cbn. discriminate.
  - cbn. rewrite !HZ by reflexivity. rewrite nones_nil. repeat split; try lia; try discriminate. apply none_last_nil.
  - cbn. rewrite !HZ by reflexivity. reflexivity.
  - cbn. intros [|y l1] b l2 H; discriminate.
  - cbn. exists [], 0%nat. split; [reflexivity|congruence].
Qed.

(** Steps of a loader. *)
Lemma loaders_step : forall n init ls qi m mb qs az qr fin out l1 l l2 l' qi',
  binv n init (mkBst ls qi m mb qs az qr fin out) ->
  ls = l1 ++ l :: l2 -> loader_ok l' ->
  (forall x, cl x l' + cnt x qi' = cl x l + cnt x qi)%nat ->
  (l_dead l = true -> l_dead l' = true) ->
  (threaded = false -> m = MEnded -> qi' = qi) ->
  binv n init (mkBst (l1 ++ l' :: l2) qi' m mb qs az qr fin out).
Proof.
  intros n init ls qi m mb qs az qr fin out l1 l l2 l' qi' J -> Hok Hc Hd Hq.
  assert (HT : forall x, total x (mkBst (l1 ++ l' :: l2) qi' m mb qs az qr fin out) =
                         total x (mkBst (l1 ++ l :: l2) qi m mb qs az qr fin out)).
  { intros x. unfold total. cbn. rewrite !sum_mid. specialize (Hc x). lia. }
  destruct J as [J1 J2 J3 J4 J5 J6 J7 J8 J9 J10 J11]. cbn in *.
  constructor; cbn; auto.
  - intros x. now rewrite HT.
  - intros Hcr x. rewrite HT. auto.
  - eapply Forall_mid; eauto.
  - intros Hm. specialize (J6 Hm). rewrite forallb_app in *. cbn in *. apply andb_prop in J6. destruct J6 as [A1 A2].
    apply andb_prop in A2. destruct A2 as [A2 A3]. rewrite A1, A3, (Hd A2). reflexivity.
  - intros Ht Hm. rewrite (Hq Ht Hm). auto.
Qed.

Lemma bstep_inv : forall n init s l s', (1 <= n)%nat -> binv n init s -> bexec s l = Some s' -> binv n init s'.
Proof.
  intros n init [ls qi m mb qs az qr fin out] l s' Hn J E.
  destruct l as [i|i|i|i| | | | |i|i|i|i|i|]; cbv beta iota delta [PoolModel.bexec] in E.
  - (* put *)
    destruct (nth_error ls i) as [[[|b t] buf [|] [|]]|] eqn:Ei; try discriminate. injection E as <-.
    destruct (upd_split i (mkLoader t (buf ++ [Some b]) false false) ls _ Ei) as (l1 & l2 & El & -> & _).
    eapply loaders_step; eauto; try (cbn; congruence).
    + repeat split; cbn; discriminate.
    + intros x. unfold cl. cbn [l_todo l_buf]. rewrite count_cons_one, cnt_app, cnt_some, cnt_nil. lia.
  - (* put end *)
    destruct (nth_error ls i) as [[[|b t] buf [|] [|]]|] eqn:Ei; try discriminate. injection E as <-.
    destruct (upd_split i (mkLoader [] (buf ++ [None]) true false) ls _ Ei) as (l1 & l2 & El & -> & _).
    eapply loaders_step; eauto; try (cbn; congruence).
    + repeat split; cbn; auto; discriminate.
    + intros x. unfold cl. cbn [l_todo l_buf]. rewrite cnt_app, cnt_none, cnt_nil. lia.
  - (* flush *)
    destruct (nth_error ls i) as [[t [|y buf] e d]|] eqn:Ei; try discriminate. injection E as <-.
    destruct (upd_split i (mkLoader t buf e d) ls _ Ei) as (l1 & l2 & El & -> & _).
    assert (Hl : loader_ok (mkLoader t (y :: buf) e d)).
    { apply (Forall_at _ l1 _ l2). rewrite <- El. exact (j_loaders _ _ _ J). }
    destruct Hl as (H1 & H2 & H3). cbn in H1, H2, H3.
    eapply loaders_step; eauto; try (cbn; congruence).
    + repeat split; cbn; auto. intros Ht Hd. specialize (H3 Ht Hd). discriminate.
    + intros x. unfold cl. cbn [l_todo l_buf]. rewrite cnt_app. destruct y; rewrite ?cnt_some, ?cnt_none, ?cnt_nil; lia.
    + intros Ht Hm. exfalso. pose proof (j_dead _ _ _ J) as HD. cbn in HD. rewrite Hm in HD.
      assert (Hd : forallb l_dead ls = true) by (apply HD; congruence). rewrite El, forallb_app in Hd.
      apply andb_prop in Hd. destruct Hd as [_ Hd]. cbn in Hd. apply andb_prop in Hd. destruct Hd as [Hd _]. specialize (H3 Ht Hd). discriminate.
  - (* die *)
    destruct (nth_error ls i) as [[t buf [|] [|]]|] eqn:Ei; try discriminate.
    destruct (threaded || isnil buf) eqn:Hc; [|discriminate]. injection E as <-.
    destruct (upd_split i (mkLoader t buf true true) ls _ Ei) as (l1 & l2 & El & -> & _).
    assert (Hl : loader_ok (mkLoader t buf true false)).
    { apply (Forall_at _ l1 _ l2). rewrite <- El. exact (j_loaders _ _ _ J). }
    destruct Hl as (H1 & H2 & H3). cbn in H1, H2, H3.
    eapply loaders_step; eauto; try (cbn; congruence).
    repeat split; cbn; auto. intros Ht _. rewrite Ht in Hc. destruct buf; [reflexivity|discriminate].
  - (* move *)
    assert (Hm : m <> MEnded) by (intros ->; discriminate).
    destruct qi as [|[b|] qi]; [destruct m; discriminate| |].
    + assert (s' = mkBst ls qi m (mb ++ [Some b]) qs az qr fin out) as -> by (destruct m; congruence). clear E.
      destruct J as [J1 J2 J3 J4 J5 J6 J7 J8 J9 J10 J11]. cbn in *.
      assert (HT : forall x, total x (mkBst ls qi m (mb ++ [Some b]) qs az qr fin out) = total x (mkBst ls (Some b :: qi) m mb qs az qr fin out)).
      { intros x. unfold total. cbn. rewrite cnt_app, !cnt_some, cnt_nil. lia. }
      destruct J8 as (S1 & S2 & S3 & S4 & S5). destruct (S1 Hm) as [N0 F0].
      constructor; cbn; auto; try (intros; rewrite HT; auto); try congruence.
      rewrite app_assoc, nones_app, nones_some, nones_nil, batches_in_app.
      split; [intros _; split; lia|]. split; [lia|]. split; [congruence|].
      split; [apply none_last_some; lia|]. intros Hlt. lia.
    + assert (s' = mkBst ls qi m mb qs az qr fin out) as -> by (destruct m; congruence). clear E.
      destruct J as [J1 J2 J3 J4 J5 J6 J7 J8 J9 J10 J11]. cbn in *.
      constructor; cbn; auto; congruence.
  - (* all dead *)
    destruct m; try discriminate. destruct (forallb l_dead ls) eqn:Hd; [|discriminate]. injection E as <-.
    destruct J as [J1 J2 J3 J4 J5 J6 J7 J8 J9 J10 J11]. cbn in *.
    destruct J8 as (S1 & S2 & S3 & S4 & S5). destruct S1 as [N0 F0]; [congruence|].
    constructor; cbn; auto; try congruence. repeat split; auto; congruence.
  - (* drained *)
    destruct m; try discriminate. destruct qi as [|y qi]; [|discriminate]. injection E as <-.
    destruct J as [J1 J2 J3 J4 J5 J6 J7 J8 J9 J10 J11]. cbn in *.
    destruct J8 as (S1 & S2 & S3 & S4 & S5). destruct S1 as [N0 F0]; [congruence|].
    assert (HT : forall x, total x (mkBst ls [] MEnded (mb ++ [None]) qs az qr fin out) = total x (mkBst ls [] MDrain mb qs az qr fin out)).
    { intros x. unfold total. cbn. rewrite cnt_app, cnt_none, cnt_nil. lia. }
    constructor; cbn; auto; try (intros; rewrite HT; auto); try (intros; apply J6; congruence).
    rewrite app_assoc, nones_app, nones_none, nones_nil, batches_in_app.
    split; [congruence|]. split; [lia|]. split; [lia|].
    split; [apply none_last_none; lia|]. lia.
  - (* flush main *)
    destruct mb as [|y mb]; [discriminate|]. injection E as <-.
    destruct J as [J1 J2 J3 J4 J5 J6 J7 J8 J9 J10 J11]. cbn in *.
    assert (HT : forall x, total x (mkBst ls qi m mb (qs ++ [y]) az qr fin out) = total x (mkBst ls qi m (y :: mb) qs az qr fin out)).
    { intros x. unfold total. cbn. rewrite cnt_app. destruct y; rewrite ?cnt_some, ?cnt_none, ?cnt_nil; lia. }
    constructor; cbn; auto; try (intros; rewrite HT; auto). rewrite <- app_assoc. exact J8.
  - (* take *)
    destruct (nth_error az i) as [[[h|] buf back [|] [|]]|] eqn:Ei; try discriminate; try (destruct qs as [|[b|] qs]; discriminate).
    destruct qs as [|[b|] qs]; try discriminate; injection E as <-.
    + destruct (upd_split i (mkAugmenter (Some b) buf back false false) az _ Ei) as (l1 & l2 & -> & -> & _).
      destruct J as [J1 J2 J3 J4 J5 J6 J7 J8 J9 J10 J11]. cbn in *.
      pose proof (Forall_at _ _ _ _ J5) as (H1 & H2 & H3 & H4 & H5). cbn in H1, H2, H3, H4, H5.
      assert (HT : forall x, total x (mkBst ls qi m mb qs (l1 ++ mkAugmenter (Some b) buf back false false :: l2) qr fin out) =
                             total x (mkBst ls qi m mb (Some b :: qs) (l1 ++ mkAugmenter None buf back false false :: l2) qr fin out)).
      { intros x. unfold total. cbn. rewrite !sum_mid. unfold ca at 2 5. cbn. rewrite !cnt_some. lia. }
      rewrite !sum_mid in *. unfold fin1 at 2 in J9. unfold bufn at 2 in J9. cbn in J9.
      destruct J8 as (S1 & S2 & S3 & S4 & S5). unfold fin1 at 2 in S1. unfold fin1 at 2 in S5. cbn in S1, S2, S3, S5.
      rewrite nones_some in S1, S2, S3.
      constructor; cbn; auto.
      * rewrite app_length in *. exact J1.
      * intros x. rewrite HT. auto.
      * intros Hcr x. rewrite HT. apply J3. intros a Ha. apply in_app_or in Ha. destruct Ha as [Ha|[<-|Ha]]; auto; apply Hcr, in_or_app; auto. right. now right.
      * eapply Forall_mid; [exact J5|]. repeat split; cbn; auto; discriminate.
      * rewrite !sum_mid. unfold fin1 at 2 5. cbn. split; [exact S1|]. split; [exact S2|]. split; [exact S3|].
        split; [exact (none_last_tail _ _ S4)|]. intros Hlt. specialize (S5 Hlt). discriminate.
      * rewrite !sum_mid. exact J9.
      * intros q1 y q2 Hq. specialize (J10 q1 y q2 Hq). rewrite !sum_mid in *. exact J10.
    + destruct (upd_split i (mkAugmenter None (buf ++ [None]) (S back) true false) az _ Ei) as (l1 & l2 & -> & -> & _).
      destruct J as [J1 J2 J3 J4 J5 J6 J7 J8 J9 J10 J11]. cbn in *.
      pose proof (Forall_at _ _ _ _ J5) as (H1 & H2 & H3 & H4 & H5). cbn in H1, H2, H3, H4, H5.
      assert (HT : forall x, total x (mkBst ls qi m mb qs (l1 ++ mkAugmenter None (buf ++ [None]) (S back) true false :: l2) qr fin out) =
                             total x (mkBst ls qi m mb (None :: qs) (l1 ++ mkAugmenter None buf back false false :: l2) qr fin out)).
      { intros x. unfold total. cbn. rewrite !sum_mid. unfold ca at 2 5. cbn. rewrite !cnt_app, !cnt_none, cnt_nil. lia. }
      pose proof (H3 eq_refl) as Hb0.
      destruct J8 as (S1 & S2 & S3 & S4 & S5).
      pose proof (none_last_head _ S4) as Enil. rewrite Enil in *.
      apply app_eq_nil in Enil. destruct Enil as [-> ->].
      rewrite !sum_mid in *. cbn [a_back] in *.
      unfold fin1 at 2 in J9. unfold fin1 at 2 in S1. unfold fin1 at 2 in S5. unfold bufn at 2 in J9. cbn [a_finished a_buf] in *.
      rewrite nones_none, nones_nil in *.
      assert (Hm : m = MEnded) by (destruct m; auto; destruct S1; [congruence|lia|congruence|lia]). subst m.
      constructor; cbn [b_augs b_loaders b_main b_mbuf b_source b_finished b_internal b_out b_result]; auto.
      * rewrite app_length in *. exact J1.
      * intros x. rewrite HT. auto.
      * intros Hcr x. rewrite HT. apply J3. intros a Ha. apply in_app_or in Ha. destruct Ha as [Ha|[<-|Ha]]; auto; apply Hcr, in_or_app; auto. right. now right.
      * eapply Forall_mid; [exact J5|]. repeat split; cbn; auto; try discriminate.
        -- rewrite nones_app, nones_none. lia.
        -- apply none_last_none. exact Hb0.
      * cbn zeta. rewrite !sum_mid. cbn [a_back]. change ([] ++ []) with (@nil (option B)). rewrite nones_nil.
        split; [congruence|]. split; [lia|]. split; [lia|]. split; [apply none_last_nil|reflexivity].
      * rewrite !sum_mid. unfold bufn at 2. unfold fin1 at 2. cbn [a_finished a_buf].
        rewrite nones_app, nones_none, nones_nil. lia.
      * intros q1 y q2 Hq. specialize (J10 q1 y q2 Hq). rewrite !sum_mid in *.
        unfold bufn at 2 in J10. unfold unfin1 at 2 in J10. unfold bufn at 2. unfold unfin1 at 2. cbn [a_finished a_buf] in *.
        rewrite nones_app, nones_none, nones_nil. lia.
  - (* augmented *)
    destruct (nth_error az i) as [[[b|] buf back [|] [|]]|] eqn:Ei; try discriminate. injection E as <-.
    destruct (upd_split i (mkAugmenter None (buf ++ [Some b]) back false false) az _ Ei) as (l1 & l2 & -> & -> & _).
    destruct J as [J1 J2 J3 J4 J5 J6 J7 J8 J9 J10 J11]. cbn in *.
    pose proof (Forall_at _ _ _ _ J5) as (H1 & H2 & H3 & H4 & H5). cbn in H1, H2, H3, H4, H5.
    assert (HT : forall x, total x (mkBst ls qi m mb qs (l1 ++ mkAugmenter None (buf ++ [Some b]) back false false :: l2) qr fin out) =
                           total x (mkBst ls qi m mb qs (l1 ++ mkAugmenter (Some b) buf back false false :: l2) qr fin out)).
    { intros x. unfold total. cbn. rewrite !sum_mid. unfold ca at 2 5. cbn. rewrite !cnt_app, !cnt_some, cnt_nil. lia. }
    assert (Hb : nones (buf ++ [Some b]) = nones buf) by (rewrite nones_app, nones_some, nones_nil; lia).
    rewrite !sum_mid in J8, J9. 
    constructor; cbn; auto.
    + rewrite app_length in *. exact J1.
    + intros x. rewrite HT. auto.
    + intros Hcr x. rewrite HT. apply J3. intros a Ha. apply in_app_or in Ha. destruct Ha as [Ha|[<-|Ha]]; auto; apply Hcr, in_or_app; auto. right. now right.
    + eapply Forall_mid; [exact J5|]. repeat split; cbn; auto; try discriminate.
      * intros _. rewrite Hb. auto.
      * apply none_last_some. auto.
    + rewrite !sum_mid. exact J8.
    + rewrite !sum_mid. unfold bufn at 2. cbn [a_buf]. rewrite Hb. exact J9.
    + intros q1 y q2 Hq. specialize (J10 q1 y q2 Hq). rewrite !sum_mid in *. unfold bufn at 2. cbn [a_buf]. rewrite Hb. exact J10.
  - (* crash *)
    destruct (nth_error az i) as [[[b|] buf back [|] [|]]|] eqn:Ei; try discriminate. injection E as <-.
    destruct (upd_split i (mkAugmenter None buf back false true) az _ Ei) as (l1 & l2 & -> & -> & _).
    destruct J as [J1 J2 J3 J4 J5 J6 J7 J8 J9 J10 J11]. cbn in *.
    pose proof (Forall_at _ _ _ _ J5) as (H1 & H2 & H3 & H4 & H5). cbn in H1, H2, H3, H4, H5.
    assert (HT : forall x, (total x (mkBst ls qi m mb qs (l1 ++ mkAugmenter None buf back false true :: l2) qr fin out) <=
                           total x (mkBst ls qi m mb qs (l1 ++ mkAugmenter (Some b) buf back false false :: l2) qr fin out))%nat).
    { intros x. unfold total. cbn. rewrite !sum_mid. unfold ca at 2 5. cbn. lia. }
    rewrite !sum_mid in J8, J9. 
    constructor; cbn; auto.
    + rewrite app_length in *. exact J1.
    + intros x. specialize (HT x). specialize (J2 x). lia.
    + intros Hcr x. exfalso. specialize (Hcr (mkAugmenter None buf back false true)). cbn in Hcr.
      discriminate Hcr. apply in_elt.
    + eapply Forall_mid; [exact J5|]. repeat split; cbn; auto; try discriminate.
    + rewrite !sum_mid. exact J8.
    + rewrite !sum_mid. exact J9.
    + intros q1 y q2 Hq. specialize (J10 q1 y q2 Hq). rewrite !sum_mid in *. exact J10.
  - (* flush result *)
    destruct (nth_error az i) as [[h [|y buf] back e c]|] eqn:Ei; try discriminate. injection E as <-.
    destruct (upd_split i (mkAugmenter h buf back e c) az _ Ei) as (l1 & l2 & -> & -> & _).
    destruct J as [J1 J2 J3 J4 J5 J6 J7 J8 J9 J10 J11]. cbn in *.
    pose proof (Forall_at _ _ _ _ J5) as (H1 & H2 & H3 & H4 & H5). cbn in H1, H2, H3, H4, H5.
    assert (HT : forall x, total x (mkBst ls qi m mb qs (l1 ++ mkAugmenter h buf back e c :: l2) (qr ++ [y]) fin out) =
                           total x (mkBst ls qi m mb qs (l1 ++ mkAugmenter h (y :: buf) back e c :: l2) qr fin out)).
    { intros x. unfold total. cbn. rewrite !sum_mid. unfold ca at 2 5. cbn. rewrite !cnt_app.
      destruct y; rewrite ?cnt_some, ?cnt_none, ?cnt_nil; lia. }
    rewrite !sum_mid in J8, J9. 
    assert (Hq : nones (y :: buf) = (nones [y] + nones buf)%nat) by (change (y :: buf) with ([y] ++ buf); apply nones_app).
    constructor; cbn; auto.
    + rewrite app_length in *. exact J1.
    + intros x. rewrite HT. auto.
    + intros Hcr x. rewrite HT. apply J3. intros a Ha. apply in_app_or in Ha. destruct Ha as [Ha|[<-|Ha]]; try (apply Hcr, in_or_app; auto; right; now right).
      exact (Hcr _ (in_elt _ _ _)).
    + eapply Forall_mid; [exact J5|]. split; [exact H1|]. split; [exact H2|]. cbn.
      split; [intros He; specialize (H3 He); lia|]. split; [|exact (none_last_tail _ _ H5)].
      intros He Hb. destruct y as [b|]; [|exact (none_last_head _ H5)].
      exfalso. rewrite nones_some in H4. specialize (H4 He Hb). discriminate.
    + rewrite !sum_mid. exact J8.
    + rewrite !sum_mid. unfold bufn at 2 in J9. unfold bufn at 2. cbn [a_buf] in *. rewrite nones_app. unfold fin1 at 2 in J9. unfold fin1 at 2.
      cbn [a_finished] in *. lia.
    + intros q1 z q2 Hz. rewrite !sum_mid in *. unfold bufn at 2 in J10. unfold bufn at 2. unfold unfin1 at 2 in J10. unfold unfin1 at 2. cbn [a_buf a_finished] in *.
      destruct q2 as [|v q2] using rev_ind.
      * assert (y = Some z) as -> by (change (q1 ++ [Some z]) with (q1 ++ [Some z]) in Hz; apply app_inj_tail in Hz; tauto).
        destruct e; [|lia]. destruct (nones buf) eqn:Hb; [|lia]. exfalso. rewrite nones_some in H4. specialize (H4 eq_refl Hb). discriminate.
      * assert (qr = q1 ++ Some z :: q2 /\ y = v) as [-> ->].
        { change (q1 ++ Some z :: q2 ++ [v]) with (q1 ++ (Some z :: q2) ++ [v]) in Hz. rewrite app_assoc in Hz. apply app_inj_tail in Hz. tauto. }
        specialize (J10 q1 z q2 eq_refl). rewrite nones_app. lia.
  - (* flush back *)
    destruct (nth_error az i) as [[h buf [|back] e c]|] eqn:Ei; try discriminate. injection E as <-.
    destruct (upd_split i (mkAugmenter h buf back e c) az _ Ei) as (l1 & l2 & -> & -> & _).
    destruct J as [J1 J2 J3 J4 J5 J6 J7 J8 J9 J10 J11]. cbn in *.
    pose proof (Forall_at _ _ _ _ J5) as (H1 & H2 & H3 & H4 & H5). cbn in H1, H2, H3, H4, H5.
    assert (HT : forall x, total x (mkBst ls qi m mb (qs ++ [None]) (l1 ++ mkAugmenter h buf back e c :: l2) qr fin out) =
                           total x (mkBst ls qi m mb qs (l1 ++ mkAugmenter h buf (S back) e c :: l2) qr fin out)).
    { intros x. unfold total. cbn. rewrite !sum_mid. unfold ca at 2 5. cbn. rewrite !cnt_app, cnt_none, cnt_nil. lia. }
    rewrite !sum_mid in J8, J9. cbn [a_back] in J8.
    destruct J8 as (S1 & S2 & S3 & S4 & S5).
    assert (Hsrc : batches_in (qs ++ mb) = []) by (apply S5; lia).
    assert (Hnn : nones (qs ++ mb) = 0%nat) by lia.
    apply nones0_batches in Hnn. rewrite Hsrc in Hnn. cbn in Hnn. apply app_eq_nil in Hnn. destruct Hnn as [-> ->].
    constructor; cbn; auto.
    + rewrite app_length in *. exact J1.
    + intros x. rewrite HT. auto.
    + intros Hcr x. rewrite HT. apply J3. intros a Ha. apply in_app_or in Ha. destruct Ha as [Ha|[<-|Ha]]; try (apply Hcr, in_or_app; auto; right; now right).
      exact (Hcr _ (in_elt _ _ _)).
    + eapply Forall_mid; [exact J5|]. repeat split; cbn; auto; apply H1; auto.
    + rewrite !sum_mid. cbn [a_back]. rewrite nones_none, nones_nil in *. cbn in S1, S2, S3. rewrite nones_nil in *.
      split; [intros Hm; destruct (S1 Hm); lia|]. split; [lia|]. split; [intros Hm Hf; specialize (S3 Hm Hf); lia|].
      split; [apply (none_last_none [] eq_refl)|reflexivity].
    + rewrite !sum_mid. exact J9.
    + intros q1 y q2 Hq. specialize (J10 q1 y q2 Hq). rewrite !sum_mid in *. exact J10.
  - (* get_batch *)
    destruct (Nat.eqb fin (length az)) eqn:Ef.
    { apply Nat.eqb_eq in Ef. injection E as <-.
      assert (HT : forall x, total x (mkBst ls qi m mb qs az qr fin (out ++ [None])) = total x (mkBst ls qi m mb qs az qr fin out)).
      { intros x. unfold total. cbn. rewrite cnt_app, cnt_none, cnt_nil. lia. }
      destruct J as [J1 J2 J3 J4 J5 J6 J7 J8 J9 J10 J11]. cbn in *.
      constructor; cbn; auto; try (intros; rewrite HT; auto).
      destruct J11 as (ds & k & -> & Hk). exists ds, (S k). split; [|congruence].
      rewrite <- app_assoc. f_equal. change [@None B] with (repeat (@None B) 1). rewrite <- repeat_app. f_equal. lia. }
    apply Nat.eqb_neq in Ef.
    destruct qr as [|[b|] qr]; [discriminate| |].
    + injection E as <-.
      assert (HT : forall x, total x (mkBst ls qi m mb qs az qr fin (out ++ [Some b])) = total x (mkBst ls qi m mb qs az (Some b :: qr) fin out)).
      { intros x. unfold total. cbn. rewrite cnt_app, !cnt_some, cnt_nil. lia. }
      destruct J as [J1 J2 J3 J4 J5 J6 J7 J8 J9 J10 J11]. cbn in *.
      constructor; cbn; auto; try (intros; rewrite HT; auto).
      * intros q1 y q2 ->. exact (J10 (Some b :: q1) y q2 eq_refl).
      * destruct J11 as (ds & k & -> & Hk). destruct k as [|k]; [|exfalso; apply Ef; rewrite Hk by congruence; auto].
        exists (ds ++ [b]), 0%nat. split; [|congruence]. cbn. rewrite !app_nil_r, map_app. reflexivity.
    + destruct J as [J1 J2 J3 J4 J5 J6 J7 J8 J9 J10 J11]. cbn in *. rewrite nones_none in J9.
      destruct J8 as (S1 & S2 & S3 & S4 & S5).
      assert (Hk0 : exists ds, out = map Some ds).
      { destruct J11 as (ds & k & -> & Hk). destruct k as [|k]; [|exfalso; apply Ef; rewrite Hk by congruence; auto].
        exists ds. cbn. now rewrite app_nil_r. }
      destruct Hk0 as [ds ->].
      assert (Hsrc : batches_in (qs ++ mb) = []) by (apply S5; lia).
      assert (Hm : m = MEnded) by (destruct m; auto; destruct S1; congruence || lia). subst m.
      destruct (Nat.leb (length az) (S fin)) eqn:Hl.
      * injection E as <-. apply Nat.leb_le in Hl.
        set (qs' := match qs with [] => [] | _ :: qs' => qs' end).
        assert (Hcq : forall x, cnt x qs' = cnt x qs).
        { intros x. assert (Eb : batches_in qs = []) by (rewrite batches_in_app in Hsrc; now apply app_eq_nil in Hsrc).
          subst qs'. destruct qs as [|[q|] qs]; auto. discriminate. }
        assert (Hnq : (nones (qs' ++ mb) <= nones (qs ++ mb))%nat).
        { subst qs'. destruct qs as [|[q|] qs]; cbn; auto. rewrite nones_none. lia. }
        assert (HT : forall x, total x (mkBst ls qi MEnded mb qs' az qr (S fin) (map Some ds ++ [None])) = total x (mkBst ls qi MEnded mb qs az (None :: qr) fin (map Some ds))).
        { intros x. unfold total. cbn. rewrite cnt_app, !cnt_none, cnt_nil, Hcq. lia. }
        assert (Hfa : (fin < length az)%nat).
        { pose proof (fin_unfin az). lia. }
        constructor; cbn; auto; try (intros; rewrite HT; auto).
        -- split; [congruence|]. split; [lia|]. split; [lia|]. split.
           ++ subst qs'. destruct qs as [|q qs]; [exact S4|]. exact (none_last_tail _ _ S4).
           ++ intros _. rewrite batches_in_app in *. apply app_eq_nil in Hsrc. destruct Hsrc as [Hs1 ->].
              rewrite app_nil_r. apply no_batches_cnt. intros x. rewrite Hcq. now apply no_batches_cnt.
        -- lia.
        -- intros q1 y q2 ->. exact (J10 (None :: q1) y q2 eq_refl).
        -- exists ds, 1%nat. split; [reflexivity|]. intros _. lia.
      * injection E as <-. apply Nat.leb_gt in Hl.
        assert (HT : forall x, total x (mkBst ls qi MEnded mb qs az qr (S fin) (map Some ds)) = total x (mkBst ls qi MEnded mb qs az (None :: qr) fin (map Some ds))).
        { intros x. unfold total. cbn. rewrite !cnt_none. lia. }
        constructor; cbn; auto; try (intros; rewrite HT; auto).
        -- repeat split; auto; try congruence. intros _ Hlt. apply S3; [reflexivity|lia].
        -- lia.
        -- intros q1 y q2 ->. exact (J10 (None :: q1) y q2 eq_refl).
        -- exists ds, 0%nat. split; [cbn; now rewrite app_nil_r|congruence].
Qed.

Lemma brun_inv : forall n init ls s s', (1 <= n)%nat -> binv n init s -> bexec_all s ls = Some s' -> binv n init s'.
Proof.
  intros n init ls. induction ls as [|l ls IH]; intros s s' Hn I E; cbn [PoolModel.bexec_all] in E; [congruence|].
  destruct (bexec s l) as [s1|] eqn:E1; [|discriminate]. eauto using bstep_inv.
Qed.

Lemma submultiset : forall l1 l2 : list B, (forall x, (count_occ dec l1 x <= count_occ dec l2 x)%nat) ->
  exists rest, Permutation l2 (l1 ++ rest).
Proof.
  induction l1 as [|a l1 IH]; intros l2 H; [exists l2; reflexivity|].
  assert (Ha : In a l2). { apply (count_occ_In dec). specialize (H a). rewrite count_occ_cons_eq in H by reflexivity. lia. }
  apply in_split in Ha. destruct Ha as (p & q & ->).
  destruct (IH (p ++ q)) as [rest HR].
  - intros x. specialize (H x). rewrite count_occ_app, !count_cons_one in H. rewrite count_occ_app. lia.
  - exists rest. rewrite <- Permutation_middle, HR. reflexivity.
Qed.

Lemma background_at_most_once : forall (batches : list (list B)) n ls s, (1 <= n)%nat ->
  bexec_all (b_init batches n) ls = Some s ->
  exists rest, Permutation (concat batches) (batches_in (b_out s) ++ rest).
Proof.
  intros batches n ls s Hn E. apply (brun_inv n (initial batches) ls _ _ Hn (init_binv batches n)) in E.
  apply submultiset. intros x. pose proof (j_cnt _ _ _ E x) as H. unfold total, initial in H. unfold cnt in H. lia.
Qed.

Lemma sum_zero : forall {A} (g : A -> nat) l, sum g l = 0%nat -> forall x, In x l -> g x = 0%nat.
Proof.
  intros A g l H x Hx. apply in_split in Hx. destruct Hx as (l1 & l2 & ->). rewrite sum_mid in H. lia.
Qed.
Lemma sum_zero_all : forall {A} (g : A -> nat) l, (forall x, In x l -> g x = 0%nat) -> sum g l = 0%nat.
Proof.
  intros A g l. induction l as [|y l IH]; intros H; [reflexivity|]. unfold sum in *. cbn [map].
  change (list_sum (?x :: ?l)) with (x + list_sum l)%nat. rewrite (H y) by now left. rewrite IH; auto.
  intros x Hx. apply H. now right.
Qed.

Lemma background_complete : forall (batches : list (list B)) n ls s, threaded = false -> (1 <= n)%nat ->
  bexec_all (b_init batches n) ls = Some s -> In None (b_out s) ->
  Permutation (batches_in (b_out s)) (concat batches).
Proof.
  intros batches n ls s Ht Hn E HN. apply (brun_inv n (initial batches) ls _ _ Hn (init_binv batches n)) in E.
  destruct s as [ls' qi m mb qs az qr fin out].
  destruct E as [J1 J2 J3 J4 J5 J6 J7 J8 J9 J10 J11]. cbn in *.
  assert (Hfin : fin = n).
  { destruct J11 as (ds & k & -> & Hk). destruct k; [|apply Hk; congruence]. cbn in HN. rewrite app_nil_r in HN.
    apply in_map_iff in HN. destruct HN as (d & Hd & _). discriminate. }
  pose proof (fin_unfin az) as HF.
  assert (Hun : sum unfin1 az = 0%nat) by lia. assert (Hbn : sum bufn az = 0%nat) by lia. assert (Hqn : nones qr = 0%nat) by lia.
  assert (Hall : forall a, In a az -> a_finished a = true).
  { intros a Ha. pose proof (sum_zero _ _ Hun a Ha). unfold unfin1 in H. destruct (a_finished a); [reflexivity|lia]. }
  rewrite Forall_forall in J5.
  assert (Hcr : forall a, In a az -> a_crashed a = false) by (intros a Ha; destruct (J5 a Ha) as (H1 & _); apply H1, Hall, Ha).
  specialize (J3 Hcr).
  destruct J8 as (S1 & S2 & S3 & S4 & S5).
  assert (Hm : m = MEnded) by (destruct m; auto; destruct S1; congruence || lia). subst m.
  rewrite (J7 Ht eq_refl) in *.
  assert (Hsrc : batches_in (qs ++ mb) = []) by (apply S5; lia).
  rewrite Forall_forall in J4. assert (HD : forallb l_dead ls' = true) by (apply J6; congruence).
  rewrite forallb_forall in HD.
  assert (Hqr : qr = []).
  { destruct qr as [|[b|] qr]; [reflexivity| |rewrite nones_none in Hqn; lia].
    specialize (J10 [] b qr eq_refl). rewrite nones_some in Hqn. lia. }
  subst qr. apply (Permutation_count_occ dec). intros x. specialize (J3 x). unfold total, initial in J3. cbn in J3.
  rewrite !cnt_nil in J3.
  assert (sum (cl x) ls' = 0%nat).
  { apply sum_zero_all. intros l Hl. destruct (J4 l Hl) as (H1 & H2 & H3). unfold cl.
    rewrite (H1 (H2 (HD l Hl))), (H3 Ht (HD l Hl)). reflexivity. }
  assert (sum (ca x) az = 0%nat).
  { apply sum_zero_all. intros a Ha. destruct (J5 a Ha) as (H1 & H2 & H3 & H4 & H5). unfold ca.
    destruct (H1 (Hall a Ha)) as [-> _]. rewrite H4; auto. exact (sum_zero _ _ Hbn a Ha). }
  assert (cnt x qs = 0%nat /\ cnt x mb = 0%nat) as [Hq1 Hq2].
  { rewrite batches_in_app in Hsrc. apply app_eq_nil in Hsrc. destruct Hsrc as [Ha Hb]. unfold cnt. now rewrite Ha, Hb. }
  unfold cnt in *. lia.
Qed.

Lemma background_none_last : forall (batches : list (list B)) n ls s, (1 <= n)%nat ->
  bexec_all (b_init batches n) ls = Some s ->
  exists ds k, b_out s = map Some ds ++ repeat None k.
Proof.
  intros batches n ls s Hn E. apply (brun_inv n (initial batches) ls _ _ Hn (init_binv batches n)) in E.
  destruct (j_out _ _ _ E) as (ds & k & H & _). eauto.
Qed.

Lemma crashed_no_end : forall (batches : list (list B)) n ls s, (1 <= n)%nat ->
  bexec_all (b_init batches n) ls = Some s ->
  (exists a, In a (b_augs s) /\ a_crashed a = true) -> ~ In None (b_out s).
Proof.
  intros batches n ls s Hn E (a & Ha & Hca) HN. apply (brun_inv n (initial batches) ls _ _ Hn (init_binv batches n)) in E.
  destruct s as [ls' qi m mb qs az qr fin out].
  destruct E as [J1 J2 J3 J4 J5 J6 J7 J8 J9 J10 J11]. cbn in *.
  assert (Hfin : fin = n).
  { destruct J11 as (ds & k & -> & Hk). destruct k; [|apply Hk; congruence]. cbn in HN. rewrite app_nil_r in HN.
    apply in_map_iff in HN. destruct HN as (d & Hd & _). discriminate. }
  pose proof (fin_unfin az) as HF.
  assert (Hun : sum unfin1 az = 0%nat) by lia.
  pose proof (sum_zero _ _ Hun a Ha) as H. unfold unfin1 in H. destruct (a_finished a) eqn:Hf; [|lia].
  rewrite Forall_forall in J5. destruct (J5 a Ha) as (H1 & _). destruct (H1 Hf). congruence.
Qed.

(** Progress. *)
Lemma nth_error_mid : forall {A} l1 (x : A) l2, nth_error (l1 ++ x :: l2) (length l1) = Some x.
Proof. intros. rewrite nth_error_app2, Nat.sub_diag by lia. reflexivity. Qed.

Lemma all_or_one : forall {A} (p : A -> bool) l, forallb p l = true \/ exists l1 x l2, l = l1 ++ x :: l2 /\ p x = false.
Proof.
  intros A p l. induction l as [|x l IH]; [now left|]. cbn. destruct (p x) eqn:E.
  - destruct IH as [H|(l1 & y & l2 & -> & H)]; [now left|]. right. exists (x :: l1), y, l2. auto.
  - right. exists [], x, l. auto.
Qed.

Lemma background_progress : forall (batches : list (list B)) n ls s, (1 <= n)%nat ->
  bexec_all (b_init batches n) ls = Some s ->
  (forall a, In a (b_augs s) -> a_crashed a = false) ->
  exists l s', bexec s l = Some s'.
Proof.
  intros batches n ls s Hn E Hcr. apply (brun_inv n (initial batches) ls _ _ Hn (init_binv batches n)) in E.
  destruct s as [ls' qi m mb qs az qr fin out].
  destruct E as [J1 J2 J3 J4 J5 J6 J7 J8 J9 J10 J11]. cbn in Hcr, J1, J2, J3, J4, J5, J6, J7, J8, J9, J10, J11.
  rewrite Forall_forall in J4, J5.
  destruct (all_or_one l_dead ls') as [HD|(l1 & [t buf e d] & l2 & -> & Hd)].
  2:{ cbn in Hd. subst d. destruct (J4 _ (in_elt _ _ _)) as (K1 & K2 & K3). cbn in K1, K2, K3. destruct e.
      - rewrite (K1 eq_refl) in *. destruct buf as [|y buf].
        + exists (BDie (length l1)). unfold PoolModel.bexec. rewrite nth_error_mid. cbn [isnil]. rewrite orb_true_r. eauto.
        + exists (BFlush (length l1)). unfold PoolModel.bexec. rewrite nth_error_mid. eauto.
      - destruct t as [|b t].
        + exists (BPutEnd (length l1)). unfold PoolModel.bexec. rewrite nth_error_mid. eauto.
        + exists (BPut (length l1)). unfold PoolModel.bexec. rewrite nth_error_mid. eauto. }
  destruct m.
  { exists BAllDead. unfold PoolModel.bexec. rewrite HD. eauto. }
  { destruct qi as [|[b|] qi]; [exists BDrained|exists BMove|exists BMove]; unfold PoolModel.bexec; eauto. }
  destruct mb as [|y mb]; [|exists BFlushMain; unfold PoolModel.bexec; eauto].
  destruct (all_or_one (fun a => isnil (a_buf a)) az) as [HB|(l1 & [h [|y buf] back e c] & l2 & -> & Hb)]; [|discriminate|].
  2:{ exists (BFlushResult (length l1)). unfold PoolModel.bexec. rewrite nth_error_mid. eauto. }
  destruct (all_or_one (fun a => Nat.eqb (a_back a) 0) az) as [HK|(l1 & [h buf [|back] e c] & l2 & -> & Hb)]; [|discriminate|].
  2:{ exists (BFlushBack (length l1)). unfold PoolModel.bexec. rewrite nth_error_mid. eauto. }
  rewrite forallb_forall in HB, HK.
  assert (Hback : sum a_back az = 0%nat) by (apply sum_zero_all; intros a Ha; apply Nat.eqb_eq; auto).
  assert (Hbuf : sum bufn az = 0%nat).
  { apply sum_zero_all. intros a Ha. specialize (HB a Ha). unfold bufn. destruct (a_buf a); [reflexivity|discriminate]. }
  destruct (Nat.eqb fin (length az)) eqn:Ef.
  { exists BGet. unfold PoolModel.bexec. rewrite Ef. eauto. }
  destruct qr as [|[b|] qr].
  2:{ exists BGet. unfold PoolModel.bexec. rewrite Ef. eauto. }
  2:{ exists BGet. unfold PoolModel.bexec. rewrite Ef. destruct (Nat.leb _ _); eauto. }
  apply Nat.eqb_neq in Ef.
  destruct (all_or_one a_finished az) as [HF|(l1 & [h buf back e c] & l2 & -> & Hb)].
  - exfalso. rewrite forallb_forall in HF. pose proof (fin_unfin az) as HFU.
    assert (sum unfin1 az = 0%nat) by (apply sum_zero_all; intros a Ha; unfold unfin1; now rewrite (HF a Ha)).
    rewrite nones_nil in J9. lia.
  - cbn in Hb. subst e. pose proof (Hcr _ (in_elt _ _ _)) as Hc. cbn in Hc. subst c.
    destruct h as [b|].
    { exists (BAugmented (length l1)). unfold PoolModel.bexec. rewrite nth_error_mid. eauto. }
    destruct qs as [|[b|] qs].
    2:{ exists (BTake (length l1)). unfold PoolModel.bexec. rewrite nth_error_mid. eauto. }
    2:{ exists (BTake (length l1)). unfold PoolModel.bexec. rewrite nth_error_mid. eauto. }
    exfalso. destruct J8 as (S1 & S2 & S3 & S4 & S5). cbn in S3. rewrite nones_nil in S3.
    cut (fin < n)%nat; [intros Hlt; specialize (S3 eq_refl Hlt); lia|].
    rewrite <- J1. pose proof (fin_unfin (l1 ++ mkAugmenter None buf back false false :: l2)).
    rewrite !sum_mid in H. unfold unfin1 at 2 in H. cbn [a_finished] in H. rewrite !sum_mid in J9. lia.
Qed.

(** Termination. *)
Definition lw (l : loader B) : nat :=
  (10 * length (l_todo l) + 9 * length (l_buf l) + (if l_ended l then 0 else 20) + (if l_dead l then 0 else 1))%nat.
Definition aw' (a : augmenter B) : nat :=
  ((match a_hold a with Some _ => 5 | None => 0 end) + 4 * length (a_buf a) + 7 * a_back a + (if a_finished a then 0 else 10))%nat.
Definition bmeasure (s : bst) : nat :=
  (sum lw (b_loaders s) + 8 * length (b_internal s) + (match b_main s with MLoop => 41 | MDrain => 40 | MEnded => 0 end)
   + 7 * length (b_mbuf s) + 6 * length (b_source s) + sum aw' (b_augs s) + 3 * length (b_result s))%nat.

Lemma bstep_measure : forall s l s', bexec s l = Some s' ->
  (bmeasure s' < bmeasure s \/ bmeasure s' = bmeasure s /\ b_out s' = b_out s ++ [None])%nat.
Proof.
  intros [ls qi m mb qs az qr fin out] l s' E. unfold bmeasure.
  destruct l as [i|i|i|i| | | | |i|i|i|i|i|]; cbv beta iota delta [PoolModel.bexec] in E.
  - destruct (nth_error ls i) as [[[|b t] buf [|] [|]]|] eqn:Ei; try discriminate. injection E as <-.
    destruct (upd_split i (mkLoader t (buf ++ [Some b]) false false) ls _ Ei) as (l1 & l2 & -> & -> & _). left.
    cbn [b_loaders b_internal b_main b_mbuf b_source b_augs b_result]. rewrite !sum_mid. unfold lw at 2 5. cbn [l_todo l_buf l_ended l_dead length].
    rewrite app_length. cbn [length]. lia.
  - destruct (nth_error ls i) as [[[|b t] buf [|] [|]]|] eqn:Ei; try discriminate. injection E as <-.
    destruct (upd_split i (mkLoader [] (buf ++ [None]) true false) ls _ Ei) as (l1 & l2 & -> & -> & _). left.
    cbn [b_loaders b_internal b_main b_mbuf b_source b_augs b_result]. rewrite !sum_mid. unfold lw at 2 5. cbn [l_todo l_buf l_ended l_dead length].
    rewrite app_length. cbn [length]. lia.
  - destruct (nth_error ls i) as [[t [|y buf] e d]|] eqn:Ei; try discriminate. injection E as <-.
    destruct (upd_split i (mkLoader t buf e d) ls _ Ei) as (l1 & l2 & -> & -> & _). left.
    cbn [b_loaders b_internal b_main b_mbuf b_source b_augs b_result]. rewrite !sum_mid. unfold lw at 2 5. cbn [l_todo l_buf l_ended l_dead length].
    rewrite app_length. cbn [length]. lia.
  - destruct (nth_error ls i) as [[t buf [|] [|]]|] eqn:Ei; try discriminate.
    destruct (threaded || isnil buf) eqn:Hc; [|discriminate]. injection E as <-.
    destruct (upd_split i (mkLoader t buf true true) ls _ Ei) as (l1 & l2 & -> & -> & _). left.
    cbn [b_loaders b_internal b_main b_mbuf b_source b_augs b_result]. rewrite !sum_mid. unfold lw at 2 5. cbn [l_todo l_buf l_ended l_dead length]. lia.
  - left. destruct m; try discriminate; destruct qi as [|[b|] qi]; try discriminate; injection E as <-;
    cbn [b_loaders b_internal b_main b_mbuf b_source b_augs b_result]; rewrite ?app_length; cbn [length]; lia.
  - left. destruct m; try discriminate. destruct (forallb l_dead ls); [|discriminate]. injection E as <-.
    cbn [b_loaders b_internal b_main b_mbuf b_source b_augs b_result]. lia.
  - left. destruct m; try discriminate. destruct qi; [|discriminate]. injection E as <-.
    cbn [b_loaders b_internal b_main b_mbuf b_source b_augs b_result]. rewrite app_length. cbn [length]. lia.
  - left. destruct mb as [|y mb]; [discriminate|]. injection E as <-.
    cbn [b_loaders b_internal b_main b_mbuf b_source b_augs b_result]. rewrite app_length. cbn [length]. lia.
  - left. destruct (nth_error az i) as [[[h|] buf back [|] [|]]|] eqn:Ei; try discriminate; try (destruct qs as [|[b|] qs]; discriminate).
    destruct qs as [|[b|] qs]; try discriminate; injection E as <-.
    + destruct (upd_split i (mkAugmenter (Some b) buf back false false) az _ Ei) as (l1 & l2 & -> & -> & _).
      cbn [b_loaders b_internal b_main b_mbuf b_source b_augs b_result]. rewrite !sum_mid. unfold aw' at 2 5.
      cbn [a_hold a_buf a_back a_finished length]. lia.
    + destruct (upd_split i (mkAugmenter None (buf ++ [None]) (S back) true false) az _ Ei) as (l1 & l2 & -> & -> & _).
      cbn [b_loaders b_internal b_main b_mbuf b_source b_augs b_result]. rewrite !sum_mid. unfold aw' at 2 5.
      cbn [a_hold a_buf a_back a_finished length]. rewrite app_length. cbn [length]. lia.
  - left. destruct (nth_error az i) as [[[b|] buf back [|] [|]]|] eqn:Ei; try discriminate. injection E as <-.
    destruct (upd_split i (mkAugmenter None (buf ++ [Some b]) back false false) az _ Ei) as (l1 & l2 & -> & -> & _).
    cbn [b_loaders b_internal b_main b_mbuf b_source b_augs b_result]. rewrite !sum_mid. unfold aw' at 2 5.
    cbn [a_hold a_buf a_back a_finished length]. rewrite app_length. cbn [length]. lia.
  - left. destruct (nth_error az i) as [[[b|] buf back [|] [|]]|] eqn:Ei; try discriminate. injection E as <-.
    destruct (upd_split i (mkAugmenter None buf back false true) az _ Ei) as (l1 & l2 & -> & -> & _).
    cbn [b_loaders b_internal b_main b_mbuf b_source b_augs b_result]. rewrite !sum_mid. unfold aw' at 2 5.
    cbn [a_hold a_buf a_back a_finished length]. lia.
  - left. destruct (nth_error az i) as [[h [|y buf] back e c]|] eqn:Ei; try discriminate. injection E as <-.
    destruct (upd_split i (mkAugmenter h buf back e c) az _ Ei) as (l1 & l2 & -> & -> & _).
    cbn [b_loaders b_internal b_main b_mbuf b_source b_augs b_result]. rewrite !sum_mid. unfold aw' at 2 5.
    cbn [a_hold a_buf a_back a_finished length]. rewrite app_length. cbn [length]. lia.
  - left. destruct (nth_error az i) as [[h buf [|back] e c]|] eqn:Ei; try discriminate. injection E as <-.
    destruct (upd_split i (mkAugmenter h buf back e c) az _ Ei) as (l1 & l2 & -> & -> & _).
    cbn [b_loaders b_internal b_main b_mbuf b_source b_augs b_result]. rewrite !sum_mid. unfold aw' at 2 5.
    cbn [a_hold a_buf a_back a_finished length]. rewrite app_length. cbn [length]. lia.
  - destruct (Nat.eqb fin (length az)) eqn:Ef.
    { injection E as <-. right. cbn. auto. }
    left. destruct qr as [|[b|] qr]; [discriminate| |].
    + injection E as <-. cbn [b_loaders b_internal b_main b_mbuf b_source b_augs b_result length]. lia.
    + destruct (Nat.leb (length az) (S fin)); injection E as <-;
      cbn [b_loaders b_internal b_main b_mbuf b_source b_augs b_result length]; destruct qs; cbn [length]; lia.
Qed.

Lemma bstep_out : forall (s : bst) l s', bexec s l = Some s' -> exists o, b_out s' = b_out s ++ o.
Proof.
  intros [ls qi m mb qs az qr fin out] l s' E.
  destruct l as [i|i|i|i| | | | |i|i|i|i|i|]; cbv beta iota delta [PoolModel.bexec] in E;
  repeat (match type of E with context [match ?x with _ => _ end] => destruct x end; try discriminate);
  injection E as <-; cbn; eauto; exists []; now rewrite app_nil_r.
Qed.

Lemma brun_measure : forall ls (s : bst) s', bexec_all s ls = Some s' ->
  (length ls + bmeasure s' + nones (b_out s) <= bmeasure s + nones (b_out s'))%nat.
Proof.
  induction ls as [|l ls IH]; intros s s' E; cbn [PoolModel.bexec_all] in E; [injection E as ->; cbn [length]; lia|].
  destruct (bexec s l) as [s1|] eqn:E1; [|discriminate]. destruct (bstep_out _ _ _ E1) as [o Ho].
  destruct (bstep_measure _ _ _ E1) as [H|[H Hn]]; apply IH in E; cbn [length].
  - rewrite Ho, nones_app in E. lia.
  - rewrite Hn, nones_app, nones_none, nones_nil in E. lia.
Qed.

Lemma background_terminates : forall (batches : list (list B)) n ls s,
  bexec_all (b_init batches n) ls = Some s ->
  (length ls <= 10 * length (concat batches) + 21 * length batches + 41 + 10 * n + length (filter isnone (b_out s)))%nat.
Proof.
  intros batches n ls s E. apply brun_measure in E.
  assert (H : bmeasure (b_init batches n) = (10 * length (concat batches) + 21 * length batches + 41 + 10 * n)%nat).
  { unfold bmeasure, b_init. cbn [b_loaders b_internal b_main b_mbuf b_source b_augs b_result length].
    assert (HL : sum lw (map (fun l => mkLoader l [] false false) batches) = (10 * length (concat batches) + 21 * length batches)%nat).
    { clear. unfold sum. induction batches as [|b bs IH]; [reflexivity|]. cbn [map concat].
      change (list_sum (?x :: ?l)) with (x + list_sum l)%nat. rewrite IH, app_length. unfold lw. cbn [l_todo l_buf l_ended l_dead length]. lia. }
    assert (HA : sum aw' (repeat (@mkAugmenter B None [] 0 false false) n) = (10 * n)%nat).
    { clear. unfold sum. induction n as [|n IH]; [reflexivity|]. cbn [repeat map].
      change (list_sum (?x :: ?l)) with (x + list_sum l)%nat. rewrite IH. unfold aw'. cbn [a_hold a_buf a_back a_finished length]. lia. }
    rewrite HL, HA. lia. }
  change (b_out (b_init batches n)) with (@nil (option B)) in E. rewrite nones_nil in E. unfold nones in E. lia.
Qed.

End Background.

(** Schedules with a surprising outcome. *)
Lemma threads_lose_batches : exists ls s,
  bexec_all true (b_init [[1]] 1) ls = Some s /\ b_out s = [None].
Proof.
  exists [BPut 0; BPutEnd 0; BDie 0; BAllDead; BDrained; BFlushMain; BTake 0; BFlushResult 0; BFlushBack 0; BGet].
  eexists. split; reflexivity.
Qed.

Lemma crash_blocks : exists ls s,
  bexec_all false (b_init [[1; 2]] 1) ls = Some s /\ b_out s = [] /\ forall l, bexec false s l = None.
Proof.
  exists [BPut 0; BPut 0; BPutEnd 0; BFlush 0; BFlush 0; BFlush 0; BDie 0; BAllDead; BMove; BMove; BMove; BDrained;
          BFlushMain; BFlushMain; BFlushMain; BTake 0; BCrash 0].
  eexists. split; [reflexivity|]. split; [reflexivity|].
  intros [i|i|i|i| | | | |i|i|i|i|i|]; try reflexivity; destruct i as [|[|i]]; reflexivity.
Qed.
