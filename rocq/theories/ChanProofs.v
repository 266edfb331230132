(** Proofs about WithChannels and channel shuffling. *)
From Verif Require Import Prelude PreludeFacts ChanModel ChanSpec.
From Coq Require Import Lia Permutation.

Lemma norm_index_iff n v c : norm_index n v = Ok c <-> denotes n v c.
Proof.
  unfold norm_index, denotes.
  destruct ((0 <=? v) && (v <? n)) eqn:E1.
  - apply andb_true_iff in E1 as [a b]. apply Z.leb_le in a. apply Z.ltb_lt in b.
    split; intros H; [injection H as <-; lia | f_equal; lia].
  - apply andb_false_iff in E1.
    assert (~ (0 <= v < n)) by (destruct E1 as [E|E]; [apply Z.leb_gt in E | apply Z.ltb_ge in E]; lia).
    destruct ((- n <=? v) && (v <? 0)) eqn:E2.
    + apply andb_true_iff in E2 as [a b]. apply Z.leb_le in a. apply Z.ltb_lt in b.
      split; intros H'; [injection H' as <-; lia | f_equal; lia].
    + apply andb_false_iff in E2.
      assert (~ (- n <= v < 0)) by (destruct E2 as [E|E]; [apply Z.leb_gt in E | apply Z.ltb_ge in E]; lia).
      split; [discriminate | lia].
Qed.
Lemma denotes_fun n v c c' : denotes n v c -> denotes n v c' -> c = c'.
Proof. unfold denotes. lia. Qed.
Lemma norm_index_err n v e : norm_index n v = Err e -> e = IndexError.
Proof. unfold norm_index. destruct (_ && _); [discriminate|]. destruct (_ && _); [discriminate|]. congruence. Qed.

Lemma norm_indices_spec n cs : forall is, norm_indices n cs = Ok is <-> Forall2 (denotes n) cs is.
Proof.
  unfold norm_indices, mapM. induction cs as [|v cs IH]; cbn; intros is.
  - split; [intros H; injection H as <-; constructor | intros H; inversion H; reflexivity].
  - split.
    + destruct (norm_index n v) as [c|] eqn:E; [|discriminate]. cbn.
      destruct (sequence _) as [l|] eqn:E2; [|discriminate]. cbn. intros H. injection H as <-.
      constructor; [apply norm_index_iff, E | apply IH; reflexivity].
    + intros H. inversion H as [|? c ? l Hd Hr]; subst. apply norm_index_iff in Hd. rewrite Hd.
      apply IH in Hr. rewrite Hr. reflexivity.
Qed.
Lemma exist_in_norm n cs : exist_in n cs -> exists is, norm_indices n cs = Ok is.
Proof.
  intros H. assert (exists is, Forall2 (denotes n) cs is) as (is & His).
  { induction H as [|v cs (c & Hc) _ (is & IH)]; [exists []; constructor|].
    exists (c :: is). constructor; assumption. }
  exists is. apply norm_indices_spec, His.
Qed.
Lemma norm_indices_err n cs e : norm_indices n cs = Err e -> e = IndexError /\ ~ exist_in n cs.
Proof.
  intros H. split.
  - revert H. unfold norm_indices, mapM. induction cs as [|v cs IH]; cbn; [discriminate|].
    destruct (norm_index n v) as [c|e'] eqn:E; cbn.
    + destruct (sequence _) as [l|e'']; cbn; [discriminate|]. intros H. injection H as ->. apply IH. reflexivity.
    + intros H. injection H as ->. apply (norm_index_err _ _ _ E).
  - intros Hex. destruct (exist_in_norm _ _ Hex) as [is E]. congruence.
Qed.
Lemma norm_exist_in n cs is : Forall2 (denotes n) cs is -> exist_in n cs.
Proof. induction 1 as [|v c cs is Hd _ IH]; constructor; [exists c; exact Hd | exact IH]. Qed.

Lemma Forall2_nth {X Y} (R : X -> Y -> Prop) l1 l2 : Forall2 R l1 l2 ->
  forall k d1 d2, (k < length l1)%nat -> R (nth k l1 d1) (nth k l2 d2).
Proof.
  induction 1 as [|a b l1 l2 Hab _ IH]; cbn; intros k d1 d2 Hk; [lia|].
  destruct k; [exact Hab | apply IH; lia].
Qed.

Lemma Forall2_length {X Y} {R : X -> Y -> Prop} {l1 l2} : Forall2 R l1 l2 -> length l1 = length l2.
Proof. induction 1; cbn; congruence. Qed.

Section Px.
Context {A : Type}.
Implicit Types im : cimg A.

Lemma take_channels_spec cs im sel : take_channels cs im = Ok sel ->
  exist_in (cc im) cs /\ is_selection cs im sel.
Proof.
  unfold take_channels. destruct (norm_indices (cc im) cs) as [is|] eqn:E; [|discriminate].
  cbn. intros H. injection H as <-. apply norm_indices_spec in E.
  split; [apply (norm_exist_in _ _ _ E)|].
  unfold is_selection; cbn [ch cw cc cdt cpx].
  refine (conj eq_refl (conj eq_refl (conj eq_refl (conj _ _)))).
  - rewrite (Forall2_length E). reflexivity.
  - intros k c Hk Hc y x. rewrite Nat2Z.id. f_equal.
    pose proof (Forall2_nth _ _ _ E k 0 0 Hk) as Hd. apply (denotes_fun _ _ _ _ Hd Hc).
Qed.
Lemma take_channels_total cs im : exist_in (cc im) cs -> exists sel : cimg A, take_channels cs im = Ok sel.
Proof. intros H. unfold take_channels. destruct (exist_in_norm _ _ H) as [is ->]. cbn. eauto. Qed.
Lemma take_channels_err cs im e : take_channels cs im = Err e -> e = IndexError /\ ~ exist_in (cc im) cs.
Proof.
  unfold take_channels. destruct (norm_indices (cc im) cs) as [is|e'] eqn:E; cbn; [discriminate|].
  intros H. injection H as ->. apply (norm_indices_err _ _ _ E).
Qed.

Lemma put_channels_other (aug : cimg A) is : forall k px c y x, ~ In c is -> put_channels aug k is px y x c = px y x c.
Proof.
  induction is as [|i is IH]; cbn; intros k px c y x Hn; [reflexivity|].
  rewrite IH by tauto. unfold put_channel. destruct (Z.eqb_spec c i); [subst; tauto | reflexivity].
Qed.
Lemma put_channels_last (aug : cimg A) is : forall k px c y x j, (j < length is)%nat -> nth j is 0 = c ->
  (forall j', (j < j' < length is)%nat -> nth j' is 0 <> c) ->
  put_channels aug k is px y x c = cpx aug y x (if cc aug =? 1 then 0 else k + Z.of_nat j).
Proof.
  induction is as [|i is IH]; cbn; intros k px c y x j Hj Hn Hl; [lia|].
  destruct j as [|j].
  - rewrite put_channels_other.
    + subst i. unfold put_channel. rewrite Z.eqb_refl. destruct (cc aug =? 1); [reflexivity|].
      f_equal. lia.
    + intros Hin. destruct (In_nth _ _ 0 Hin) as (m & Hm & E). apply (Hl (S m)); [lia | exact E].
  - rewrite (IH _ _ _ _ _ j); [|lia|exact Hn|intros j' Hj'; apply (Hl (S j')); lia].
    destruct (cc aug =? 1); [reflexivity|]. f_equal. lia.
Qed.

Lemma assign_channels_spec cs im aug out : assign_channels cs im aug = Ok out -> is_merge cs im aug out.
Proof.
  unfold assign_channels. destruct (norm_indices (cc im) cs) as [is|] eqn:E; [|discriminate]. cbn.
  destruct (_ || _); [|discriminate]. intros H. injection H as <-. apply norm_indices_spec in E.
  unfold is_merge; cbn [ch cw cc cdt cpx].
  refine (conj eq_refl (conj eq_refl (conj eq_refl (conj eq_refl (conj _ _))))).
  - intros c y x Hc Hn. apply put_channels_other. intros Hin. apply Hn.
    destruct (In_nth _ _ 0 Hin) as (m & Hm & Em).
    assert (Hm' : (m < length cs)%nat) by (rewrite (Forall2_length E); exact Hm).
    exists (nth m cs 0). split; [apply nth_In, Hm'|]. rewrite <- Em. apply (Forall2_nth _ _ _ E), Hm'.
  - intros k c y x (Hk & Hd & Hl).
    assert (Hk' : (k < length is)%nat) by (rewrite <- (Forall2_length E); exact Hk).
    rewrite (put_channels_last aug is 0 (cpx im) c y x k Hk').
    + destruct (cc aug =? 1); reflexivity.
    + apply (denotes_fun (cc im) (nth k cs 0)); [apply (Forall2_nth _ _ _ E), Hk | exact Hd].
    + intros j' Hj' Ej. apply (Hl j'); [rewrite (Forall2_length E); lia|]. rewrite <- Ej.
      apply (Forall2_nth _ _ _ E). rewrite (Forall2_length E). lia.
Qed.
Lemma assign_channels_total cs im (aug : cimg A) : exist_in (cc im) cs ->
  cc aug = Z.of_nat (length cs) \/ cc aug = 1 -> exists out, assign_channels cs im aug = Ok out.
Proof.
  intros Hex Hn. unfold assign_channels. destruct (exist_in_norm _ _ Hex) as [is E]. rewrite E. cbn.
  apply norm_indices_spec in E. rewrite <- (Forall2_length E).
  replace ((cc aug =? Z.of_nat (length cs)) || (cc aug =? 1)) with true; [eauto|].
  symmetry. apply orb_true_iff. destruct Hn as [-> | ->]; [left | right]; apply Z.eqb_refl.
Qed.

(** ** mapM *)
Lemma mapM_F2 {X Y} (f : X -> res Y) (R : X -> Y -> Prop) : (forall x y, f x = Ok y -> R x y) ->
  forall l r, mapM f l = Ok r -> Forall2 R l r.
Proof.
  intros H l. unfold mapM. induction l as [|x l IH]; cbn; intros r Hr; [injection Hr as <-; constructor|].
  destruct (f x) as [y|] eqn:E; [|discriminate]. cbn in Hr. destruct (sequence _) as [r'|]; [|discriminate].
  cbn in Hr. injection Hr as <-. constructor; [apply H, E | apply IH; reflexivity].
Qed.
Lemma mapM_all {X Y} (f : X -> res Y) l : Forall (fun x => exists y, f x = Ok y) l -> exists r, mapM f l = Ok r.
Proof.
  unfold mapM. induction 1 as [|x l (y & E) _ (r & IH)]; cbn; [eauto|]. rewrite E, IH. cbn. eauto.
Qed.
Lemma mapM_err {X Y} (f : X -> res Y) l e : mapM f l = Err e -> exists x, In x l /\ f x = Err e.
Proof.
  unfold mapM. induction l as [|x l IH]; cbn; [discriminate|].
  destruct (f x) as [y|e'] eqn:E; cbn.
  - destruct (sequence _) as [r|e''] eqn:E2; cbn; [discriminate|]. intros H. injection H as ->.
    destruct (IH eq_refl) as (x' & Hin & Hx'). exists x'. tauto.
  - intros H. injection H as ->. exists x. tauto.
Qed.

(** ** WithChannels *)
Section V.
Context {V : Type}.
Implicit Types b : cbatch (A:=A) V.

Lemma checks_spec (augs ims : list (cimg A)) : assert_lengths augs ims = Ok tt ->
  assert_shapes augs ims = Ok tt -> assert_dtypes augs ims = Ok tt ->
  Forall2 (fun im aug : cimg A => ch aug = ch im /\ cw aug = cw im /\ cdt aug = cdt im) ims augs.
Proof.
  intros El Es Ed.
  unfold assert_lengths in El. destruct (Nat.eqb_spec (length augs) (length ims)) as [Hl|]; [|discriminate].
  unfold assert_shapes in Es. destruct (forallb _ _) eqn:Fs in Es; [|discriminate].
  unfold assert_dtypes in Ed. destruct (forallb _ _) eqn:Fd in Ed; [|discriminate].
  clear - Hl Fs Fd. revert augs Hl Fs Fd.
  induction ims as [|im ims IH]; intros [|aug augs] Hl Fs Fd; try discriminate; constructor; cbn in *.
  - apply andb_true_iff in Fs as [Fs _]. apply andb_true_iff in Fs as [F1 F2].
    apply andb_true_iff in Fd as [F3 _]. apply Z.eqb_eq in F1, F2, F3. auto.
  - apply andb_true_iff in Fs as [_ Fs]. apply andb_true_iff in Fd as [_ Fd]. apply IH; auto.
Qed.

(** What the images of the result are, given those of the children. *)
Lemma with_channels_images cs (child : cbatch V -> res (cbatch V)) b ims b' :
  cs <> [] -> b_images b = Some ims -> with_channels (Some cs) child b = Ok b' ->
  exists sels b1, Forall2 (is_selection cs) ims sels /\
    child (mkB (Some sels) (b_columns b)) = Ok b1 /\
    match b_images b1 with
    | Some augs => exists outs, b_images b' = Some outs /\
        Forall2 (fun im aug : cimg A => ch aug = ch im /\ cw aug = cw im /\ cdt aug = cdt im) ims augs /\
        Forall2 (fun p out => is_merge cs (fst p) (snd p) out) (combine ims augs) outs
    | None => b_images b' = None
    end.
Proof.
  intros Hne Eb E. unfold with_channels in E. destruct cs as [|v cs]; [contradiction|].
  rewrite Eb in E. cbn [reduce_images] in E.
  destruct (mapM (take_channels (v :: cs)) ims) as [sels|] eqn:E1; [|discriminate]. cbn [bind] in E.
  exists sels. destruct (child _) as [b1|] eqn:Ec; [|discriminate]. cbn [bind] in E. exists b1.
  refine (conj _ (conj eq_refl _)).
  { apply (mapM_F2 _ _ (fun x y H => proj2 (take_channels_spec _ _ _ H)) _ _ E1). }
  destruct (b_images b1) as [augs|] eqn:E2.
  - destruct (assert_lengths augs ims) as [[]|] eqn:El; [|discriminate]. cbn [bind] in E.
    destruct (assert_shapes augs ims) as [[]|] eqn:Es; [|discriminate]. cbn [bind] in E.
    destruct (assert_dtypes augs ims) as [[]|] eqn:Ed; [|discriminate]. cbn [bind] in E.
    destruct (mapM _ (b_columns b1)) as [cols|]; [|discriminate]. cbn [bind invert_reduce] in E.
    destruct (mapM _ (combine ims augs)) as [outs|] eqn:Ei; [|discriminate]. cbn [bind] in E.
    injection E as <-. exists outs. cbn [b_images]. refine (conj eq_refl (conj _ _)).
    + apply (checks_spec _ _ El Es Ed).
    + apply (mapM_F2 _ _ (fun p out H => assign_channels_spec _ _ _ _ H) _ _ Ei).
  - cbn [bind] in E. destruct (mapM _ (b_columns b1)) as [cols|]; [|discriminate]. cbn [bind] in E.
    injection E as <-. reflexivity.
Qed.

Lemma replace_cells_spec cs aug old r : replace_cells (V:=V) (Some cs) aug old = Ok r ->
  length aug = length old ->
  length r = length old /\
  forall i d, (i < length old)%nat ->
    nth i r d = if match cell_channels (nth i old d) with Some n => n | None => 1 end <=? 2 * Z.of_nat (length cs)
                then nth i aug d else nth i old d.
Proof.
  unfold replace_cells. destruct (mapM _ old) as [ns|] eqn:E; [|discriminate]. cbn [bind].
  intros H. injection H as <-. revert aug ns E. induction old as [|o old IH]; intros aug ns E Hl.
  - destruct aug; [|discriminate]. cbn. split; [reflexivity | intros; lia].
  - destruct aug as [|a aug]; [discriminate|]. cbn in Hl.
    unfold mapM in E. cbn [map sequence] in E.
    set (n := match cell_channels o with Some n => n | None => 1 end) in *.
    destruct (n =? 0); [discriminate|]. cbn [bind] in E.
    destruct (sequence _) as [ns'|] eqn:E2; [|discriminate]. cbn [bind] in E. injection E as <-.
    destruct (IH aug ns' E2 ltac:(congruence)) as [Hlen Hnth].
    cbn [combine map length]. split; [f_equal; exact Hlen|].
    intros i d Hi. destruct i; [reflexivity|]. apply Hnth. lia.
Qed.
Lemma replace_cells_total cs aug old : Forall (fun c : cell V => cell_channels c <> Some 0) old ->
  exists r, replace_cells (Some cs) aug old = Ok r.
Proof.
  intros H. unfold replace_cells.
  match goal with |- context [mapM ?f old] => destruct (mapM_all f old) as [ns E] end.
  - eapply Forall_impl; [|exact H]. cbn. intros c Hc. destruct (cell_channels c) as [n|]; [|eexists; reflexivity].
    destruct (Z.eqb_spec n 0); [congruence | eexists; reflexivity].
  - rewrite E. cbn. eauto.
Qed.

(** The other columns. *)
Lemma with_channels_columns cs (child : cbatch V -> res (cbatch V)) b b' :
  cs <> [] -> with_channels (Some cs) child b = Ok b' ->
  exists inner b1, child inner = Ok b1 /\ b_columns inner = b_columns b /\
    map fst (b_columns b') = map fst (b_columns b1) /\
    forall j name aug, nth_error (b_columns b1) j = Some (name, aug) ->
      exists old, lookup_column name (b_columns b) = Some old /\
      exists r, nth_error (b_columns b') j = Some (name, r) /\ replace_cells (Some cs) aug old = Ok r.
Proof.
  intros Hne E. unfold with_channels in E. destruct cs as [|v cs]; [contradiction|].
  match goal with E : bind ?m _ = Ok _ |- _ => destruct m as [ims|] eqn:E0; [|discriminate] end. cbn [bind] in E.
  destruct (child _) as [b1|] eqn:Ec; [|discriminate]. cbn [bind] in E.
  match goal with E : bind ?m _ = Ok _ |- _ => destruct m as [u|] eqn:E1; [|discriminate] end. cbn [bind] in E.
  match goal with E : bind ?m _ = Ok _ |- _ => destruct m as [cols|] eqn:E2; [|discriminate] end. cbn [bind] in E.
  match goal with E : bind ?m _ = Ok _ |- _ => destruct m as [ims2|] eqn:E3; [|discriminate] end. cbn [bind] in E.
  injection E as <-. exists (mkB ims (b_columns b)), b1. cbn [b_columns].
  assert (HF : Forall2 (fun p q : Z * list (cell V) => fst p = fst q /\
            exists old, lookup_column (fst p) (b_columns b) = Some old /\
              replace_cells (Some (v :: cs)) (snd p) old = Ok (snd q)) (b_columns b1) cols).
  { refine (mapM_F2 _ _ _ _ _ E2). intros p q Hq.
    destruct (lookup_column (fst p) (b_columns b)) as [old|] eqn:El; [|discriminate].
    destruct (replace_cells _ _ _) as [r|] eqn:Er; [|discriminate]. cbn in Hq. injection Hq as <-.
    cbn. split; [reflexivity|]. exists old. split; [reflexivity | exact Er]. }
  refine (conj Ec (conj eq_refl (conj _ _))).
  - clear - HF. induction HF as [|p q l r [H _] _ IH]; cbn; [reflexivity|]. rewrite H, IH. reflexivity.
  - clear - HF. intros j name aug. revert j. induction HF as [|p q l r [H (old & Ho & Hr)] _ IH]; intros j Hj.
    + destruct j; discriminate.
    + destruct j as [|j]; [|exact (IH j Hj)]. cbn in Hj. injection Hj as ->. cbn in *.
      exists old. split; [exact Ho|]. exists (snd q). split; [|exact Hr].
      rewrite H. destruct q; reflexivity.
Qed.

Lemma with_channels_none (child : cbatch (A:=A) V -> res (cbatch V)) b b' :
  with_channels None child b = Ok b' ->
  exists b1, child b = Ok b1 /\ b_columns b' = b_columns b1 /\
    (b_images b <> None -> b_images b' = b_images b1).
Proof.
  intros E. unfold with_channels in E. cbn [reduce_images] in E.
  assert (E0 : (match b_images b with
              | None => Ok None
              | Some l => do r <- Ok l; Ok (Some r)
              end) = Ok (b_images b)) by (destruct (b_images b); reflexivity).
  rewrite E0 in E. cbn [bind] in E. replace (mkB (b_images b) (b_columns b)) with b in E by (destruct b; reflexivity).
  destruct (child b) as [b1|] eqn:Ec; [|discriminate]. cbn [bind] in E. exists b1. split; [reflexivity|].
  match goal with E : bind ?m _ = Ok _ |- _ => destruct m as [u|]; [|discriminate] end. cbn [bind replace_cells] in E.
  match goal with E : bind ?m _ = Ok _ |- _ => destruct m as [cols|] eqn:E2; [|discriminate] end. cbn [bind] in E.
  assert (cols = b_columns b1) as ->.
  { assert (HF : Forall2 (fun p q => q = p) (b_columns b1) cols).
    { refine (mapM_F2 _ _ _ _ _ E2). intros p q. destruct (lookup_column _ _); [|discriminate].
      cbn. intros H. injection H as <-. destruct p; reflexivity. }
    clear - HF. induction HF; congruence. }
  destruct (b_images b1) as [augs|]; destruct (b_images b) as [old|]; cbn in E; injection E as <-; cbn;
    (split; [reflexivity|]); intros H; try reflexivity; congruence.
Qed.

Lemma with_channels_cells cs (child : cbatch V -> res (cbatch V)) b b' :
  cs <> [] -> with_channels (Some cs) child b = Ok b' ->
  exists inner b1, child inner = Ok b1 /\ b_columns inner = b_columns b /\
    map fst (b_columns b') = map fst (b_columns b1) /\
    forall j name aug, nth_error (b_columns b1) j = Some (name, aug) ->
      exists old, lookup_column name (b_columns b) = Some old /\
      exists r, nth_error (b_columns b') j = Some (name, r) /\
        (length aug = length old ->
         length r = length old /\
         forall i d, (i < length old)%nat ->
           let n := match cell_channels (nth i old d) with Some n => n | None => 1 end in
           (n <= 2 * Z.of_nat (length cs) -> nth i r d = nth i aug d) /\
           (2 * Z.of_nat (length cs) < n -> nth i r d = nth i old d)).
Proof.
  intros Hne E. destruct (with_channels_columns cs child b b' Hne E) as (inner & b1 & H1 & H2 & H3 & H4).
  exists inner, b1. refine (conj H1 (conj H2 (conj H3 _))). intros j name aug Hj.
  destruct (H4 j name aug Hj) as (old & Ho & r & Hr & Hc). exists old. split; [exact Ho|].
  exists r. split; [exact Hr|]. intros Hl. destruct (replace_cells_spec _ _ _ _ Hc Hl) as [Hlen Hi].
  split; [exact Hlen|]. intros i d Hlt n. rewrite (Hi i d Hlt). fold n.
  destruct (Z.leb_spec n (2 * Z.of_nat (length cs))); split; intros; try reflexivity; lia.
Qed.

Lemma with_channels_missing cs (child : cbatch V -> res (cbatch V)) b ims :
  cs <> [] -> b_images b = Some ims -> Exists (fun im => ~ exist_in (cc im) cs) ims ->
  with_channels (Some cs) child b = Err IndexError.
Proof.
  intros Hne Eb Hex. unfold with_channels. destruct cs as [|v cs]; [contradiction|].
  rewrite Eb. cbn [reduce_images].
  destruct (mapM (take_channels (v :: cs)) ims) as [sels|e] eqn:E1; cbn [bind].
  - exfalso. apply Exists_exists in Hex as (im & Hin & Hn).
    pose proof (mapM_F2 _ (fun im _ => exist_in (cc im) (v :: cs))
      (fun x y H => proj1 (take_channels_spec _ _ _ H)) _ _ E1) as HF.
    apply Hn. clear - HF Hin. induction HF; [destruct Hin|]. destruct Hin as [<-|Hin]; auto.
  - destruct (mapM_err _ _ _ E1) as (im & _ & Hx). destruct (take_channels_err _ _ _ Hx) as [-> _]. reflexivity.
Qed.

Lemma lookup_total name (cols : list (Z * list (cell V))) : In name (map fst cols) ->
  exists c, lookup_column name cols = Some c /\ In (name, c) cols.
Proof.
  unfold lookup_column. induction cols as [|[n c] cols IH]; cbn; [contradiction|]. intros H.
  destruct (Z.eqb_spec n name) as [->|Hn]; cbn; [eauto|].
  destruct H as [H|H]; [congruence|]. destruct (IH H) as (c' & E & Hin). exists c'. tauto.
Qed.

Lemma with_channels_total cs (child : cbatch V -> res (cbatch V)) b :
  match b_images b with Some ims => Forall (fun im => exist_in (cc im) cs) ims | None => True end ->
  Forall (fun p => Forall (fun c => cell_channels c <> Some 0) (snd p)) (b_columns b) ->
  (forall inner, wc_keeps inner (child inner)) ->
  exists b', with_channels (Some cs) child b = Ok b'.
Proof.
  intros Him Hcols Hkeep. unfold with_channels. destruct cs as [|v cs]; [eauto|].
  set (cs' := v :: cs) in *.
  assert (Hims : exists ims, (match b_images b with
                              | None => Ok None
                              | Some l => do r <- reduce_images (Some cs') l; Ok (Some r)
                              end) = Ok ims /\
            match b_images b, ims with
            | Some old, Some sels => Forall2 (is_selection cs') old sels
            | None, None => True | _, _ => False end).
  { destruct (b_images b) as [old|]; [|exists None; auto]. cbn [reduce_images].
    destruct (mapM_all (take_channels cs') old) as [sels E].
    - eapply Forall_impl; [|exact Him]. intros im H. apply take_channels_total, H.
    - rewrite E. cbn. exists (Some sels). split; [reflexivity|].
      apply (mapM_F2 _ _ (fun x y H => proj2 (take_channels_spec _ _ _ H)) _ _ E). }
  destruct Hims as (ims & -> & Hsel). cbn [bind].
  destruct (Hkeep (mkB ims (b_columns b))) as (b1 & -> & Hn & Hi). cbn [bind b_images b_columns] in *.
  assert (Hm : exists cols, mapM (fun p : Z * list (cell V) =>
                 match lookup_column (fst p) (b_columns b) with
                 | Some old => do v <- replace_cells (Some cs') (snd p) old; Ok (fst p, v)
                 | None => Err TypeError_
                 end) (b_columns b1) = Ok cols).
  { apply mapM_all, Forall_forall. intros [name aug] Hin. cbn [fst snd].
    destruct (lookup_total name (b_columns b)) as (old & -> & Hold).
    - rewrite <- Hn. apply (in_map fst _ _ Hin).
    - rewrite Forall_forall in Hcols. specialize (Hcols _ Hold). cbn in Hcols.
      destruct (replace_cells_total cs' aug old Hcols) as [r ->]. cbn. eauto. }
  destruct Hm as [cols ->].
  destruct (b_images b) as [old|], ims as [sels|]; try contradiction;
    destruct (b_images b1) as [augs|]; try contradiction.
  - assert (HF : Forall2 (fun o a : cimg A => ch a = ch o /\ cw a = cw o /\ cdt a = cdt o /\
                 (cc a = Z.of_nat (length cs') \/ cc a = 1)) old augs).
    { clear - Hsel Hi. revert augs Hi. induction Hsel as [|o s old sels (h1 & h2 & h3 & h4 & _) _ IH];
        intros augs Hi; inversion Hi as [|? a ? augs' (g1 & g2 & g3 & g4)]; subst; constructor; [|apply IH; assumption].
      rewrite g1, g2, g3, <- h4. auto. }
    assert (Hl : assert_lengths augs old = Ok tt).
    { unfold assert_lengths. rewrite (Forall2_length HF), Nat.eqb_refl. reflexivity. }
    assert (Hs : assert_shapes augs old = Ok tt).
    { unfold assert_shapes. replace (forallb _ _) with true; [reflexivity|]. symmetry.
      clear - HF. induction HF as [|o a old augs (h1 & h2 & _) _ IH]; [reflexivity|]. cbn.
      rewrite h1, h2, !Z.eqb_refl. exact IH. }
    assert (Hd : assert_dtypes augs old = Ok tt).
    { unfold assert_dtypes. replace (forallb _ _) with true; [reflexivity|]. symmetry.
      clear - HF. induction HF as [|o a old augs (h1 & h2 & h3 & _) _ IH]; [reflexivity|]. cbn.
      rewrite h3, !Z.eqb_refl. exact IH. }
    rewrite Hl, Hs, Hd. cbn [bind invert_reduce].
    match goal with |- context [mapM ?f (combine old augs)] => destruct (mapM_all f (combine old augs)) as [outs E] end.
    + apply Forall_forall. intros [o a] Hin. cbn [fst snd]. apply assign_channels_total.
      * rewrite Forall_forall in Him. apply Him. apply (in_combine_l _ _ _ _ Hin).
      * clear - HF Hin. induction HF as [|o' a' old augs (_ & _ & _ & h) _ IH]; [destruct Hin|].
        destruct Hin as [E|Hin]; [injection E as -> ->; exact h | apply IH, Hin].
    + rewrite E. cbn. eauto.
  - cbn. eauto.
Qed.

End V.
End Px.

(** ** Shuffling channels *)
Section Shuffle.
Context {A : Type}.

Lemma in_all_channels n c : In c (all_channels n) <-> 0 <= c < n.
Proof.
  unfold all_channels. rewrite in_map_iff. split.
  - intros (k & <- & H). apply in_seq in H. lia.
  - intros H. exists (Z.to_nat c). split; [lia|]. apply in_seq. lia.
Qed.
Lemma NoDup_all_channels n : NoDup (all_channels n).
Proof. unfold all_channels. apply FinFun.Injective_map_NoDup; [intros a b; lia | apply seq_NoDup]. Qed.
Lemma all_channels_length n : length (all_channels n) = Z.to_nat n.
Proof. unfold all_channels. rewrite map_length, seq_length. reflexivity. Qed.
Lemma all_channels_nth n k d : (k < Z.to_nat n)%nat -> nth k (all_channels n) d = Z.of_nat k.
Proof.
  intros H. unfold all_channels. rewrite (nth_indep _ d (Z.of_nat 0)) by (rewrite map_length, seq_length; exact H).
  rewrite map_nth, seq_nth by exact H. reflexivity.
Qed.

(** [take_channels] of a list of as many entries as channels, all denoting
    different channels, is a reordering. *)
Lemma take_reorders (im : cimg A) l s : Forall2 (denotes (cc im)) l (map s (all_channels (cc im))) ->
  0 <= cc im -> NoDup (map s (all_channels (cc im))) ->
  exists out, take_channels l im = Ok out /\ reordered s im out.
Proof.
  intros HF Hn Hnd. destruct (take_channels_total l im (norm_exist_in _ _ _ HF)) as [out E].
  exists out. split; [exact E|]. destruct (take_channels_spec _ _ _ E) as [_ (h1 & h2 & h3 & h4 & h5)].
  assert (Hlen : length l = Z.to_nat (cc im)).
  { rewrite (Forall2_length HF), map_length, all_channels_length. reflexivity. }
  unfold reordered. refine (conj h1 (conj h2 (conj _ (conj h3 (conj _ _))))).
  - rewrite h4, Hlen. lia.
  - fold (all_channels (cc im)). apply NoDup_Permutation_bis; [exact Hnd| |].
    + rewrite map_length. reflexivity.
    + intros c Hc. apply in_all_channels. clear - HF Hc.
      revert Hc. induction HF as [|v c' l r Hd _ IH]; [contradiction|].
      intros [<-|Hc]; [exact (proj1 Hd) | exact (IH Hc)].
  - intros c y x Hc.
    assert (Hk : (Z.to_nat c < length l)%nat) by (rewrite Hlen; lia).
    rewrite <- (h5 (Z.to_nat c) (s c) Hk).
    + rewrite Z2Nat.id by lia. reflexivity.
    + pose proof (Forall2_nth _ _ _ HF (Z.to_nat c) 0 (s 0) Hk) as Hd.
      rewrite map_nth in Hd. rewrite all_channels_nth in Hd by (rewrite <- Hlen; exact Hk).
      rewrite Z2Nat.id in Hd by lia. exact Hd.
Qed.

Lemma assign_all_spec n src : forall tgt full is, Forall2 (denotes n) src is -> NoDup is ->
  length tgt = length src ->
  exists full', assign_all n src tgt full = Ok full' /\
    (forall c, ~ In c is -> full' c = full c) /\
    (forall k, (k < length src)%nat -> full' (nth k is 0) = nth k tgt 0).
Proof.
  induction src as [|v src IH]; intros tgt full is HF Hnd Hl.
  - cbn. exists full. split; [reflexivity|]. split; [reflexivity | cbn; intros; lia].
  - inversion HF as [|? i ? is' Hd HF']; subst. destruct tgt as [|t tgt]; [discriminate|]. cbn in Hl.
    cbn [assign_all]. rewrite (proj2 (norm_index_iff n v i) Hd). cbn [bind].
    inversion Hnd as [|? ? Hni Hnd']; subst.
    destruct (IH tgt (upd i t full) is' HF' Hnd' ltac:(congruence)) as (full' & E & H1 & H2).
    exists full'. split; [exact E|]. split.
    + intros c Hc. rewrite H1 by (intros H; apply Hc; right; exact H). unfold upd.
      destruct (Z.eqb_spec c i) as [->|]; [|reflexivity]. exfalso. apply Hc. left. reflexivity.
    + intros [|k] Hk; cbn.
      * rewrite H1 by exact Hni. unfold upd. rewrite Z.eqb_refl. reflexivity.
      * apply H2. cbn in Hk. lia.
Qed.

Lemma Forall2_perm n cs cs' is : Permutation cs cs' -> Forall2 (denotes n) cs is ->
  exists is', Forall2 (denotes n) cs' is' /\ Permutation is is'.
Proof.
  intros HP. revert is. induction HP as [|v l l' HP IH|v w l|l l' l'' HP1 IH1 HP2 IH2]; intros is HF.
  - inversion HF. exists []. split; constructor.
  - inversion HF as [|? c ? is0 Hd HF0]; subst. destruct (IH _ HF0) as (is' & H1 & H2).
    exists (c :: is'). split; constructor; assumption.
  - inversion HF as [|? c ? is0 Hd HF0]; subst. inversion HF0 as [|? c' ? is1 Hd1 HF1]; subst.
    exists (c' :: c :: is1). split; [constructor; [|constructor]; assumption | apply perm_swap].
  - destruct (IH1 _ HF) as (is' & H1 & H2). destruct (IH2 _ H1) as (is'' & H3 & H4).
    exists is''. split; [exact H3 | transitivity is'; assumption].
Qed.

Lemma no_twice_NoDup n cs is : Forall2 (denotes n) cs is -> no_channel_twice n cs -> NoDup is.
Proof.
  intros HF H. apply (NoDup_nth is 0). intros i j Hi Hj E.
  rewrite <- (Forall2_length HF) in Hi, Hj.
  apply (H i j (nth i is 0) Hi Hj); [|rewrite E]; apply (Forall2_nth _ _ _ HF); assumption.
Qed.

Lemma shuffle_listed (permute : list Z -> list Z) cs (im : cimg A) :
  (forall l, Permutation l (permute l)) -> 2 <= cc im ->
  exist_in (cc im) cs -> no_channel_twice (cc im) cs -> covers_all (cc im) (Some cs) = false ->
  exists out s, shuffle_channels false permute (Some cs) im = Ok out /\ reordered s im out /\
    (forall c, 0 <= c < cc im -> ~ selected (cc im) cs c -> s c = c) /\
    (forall k c c', (k < length cs)%nat -> denotes (cc im) (nth k cs 0) c ->
       denotes (cc im) (nth k (permute cs) 0) c' -> s c = c').
Proof.
  intros Hp Hn Hex Htw Hcov. set (n := cc im) in *.
  destruct (exist_in_norm _ _ Hex) as [is Eis]. apply norm_indices_spec in Eis.
  pose proof (no_twice_NoDup _ _ _ Eis Htw) as Hnd.
  destruct (Forall2_perm n cs (permute cs) is (Hp cs) Eis) as (js & Hjs & HPij).
  assert (Hndj : NoDup js) by (apply (Permutation_NoDup HPij Hnd)).
  assert (Hlp : length (permute cs) = length cs) by (symmetry; apply Permutation_length, Hp).
  destruct (assign_all_spec n cs (permute cs) (fun c => c) is Eis Hnd Hlp) as (full & Ef & Hf1 & Hf2).
  set (s := fun c => match norm_index n (full c) with Ok i => i | Err _ => c end).
  assert (Hlen : length is = length cs) by (symmetry; apply (Forall2_length Eis)).
  assert (Hlenj : length js = length cs) by (rewrite <- Hlp; symmetry; apply (Forall2_length Hjs)).
  assert (Hden : forall k, (k < length cs)%nat -> denotes n (full (nth k is 0)) (nth k js 0)).
  { intros k Hk. rewrite (Hf2 k Hk). apply (Forall2_nth _ _ _ Hjs). lia. }
  assert (Hs1 : forall k, (k < length cs)%nat -> s (nth k is 0) = nth k js 0).
  { intros k Hk. unfold s. rewrite (proj2 (norm_index_iff _ _ _) (Hden k Hk)). reflexivity. }
  assert (Hs2 : forall c, 0 <= c < n -> ~ In c is -> s c = c /\ full c = c).
  { intros c Hc Hni. unfold s. rewrite (Hf1 c Hni).
    rewrite (proj2 (norm_index_iff n c c)); [auto|]. unfold denotes; lia. }
  assert (Hsel : forall c, In c is -> exists k, (k < length cs)%nat /\ nth k is 0 = c).
  { intros c Hc. destruct (In_nth _ _ 0 Hc) as (k & Hk & E). exists k. split; [lia | exact E]. }
  assert (Hall : forall c, 0 <= c < n -> denotes n (full c) (s c)).
  { intros c Hc. destruct (in_dec Z.eq_dec c is) as [Hi|Hi].
    - destruct (Hsel c Hi) as (k & Hk & <-). rewrite Hs1 by exact Hk. apply Hden, Hk.
    - destruct (Hs2 c Hc Hi) as [-> ->]. unfold denotes; lia. }
  destruct (take_reorders im (map full (all_channels n)) s) as (out & Eo & Hr).
  - fold n. assert (Hin : forall c, In c (all_channels n) -> 0 <= c < n) by (intros c; apply in_all_channels).
    revert Hin. generalize (all_channels n) as l. induction l as [|c l IH]; cbn; intros Hin; constructor.
    + apply Hall, Hin. left; reflexivity.
    + apply IH. intros c' Hc'. apply Hin. right; exact Hc'.
  - lia.
  - fold n. assert (Hinj : forall c d, In c (all_channels n) -> In d (all_channels n) -> s c = s d -> c = d).
    { intros c d Hc Hd E. apply in_all_channels in Hc, Hd.
      destruct (in_dec Z.eq_dec c is) as [Hi|Hi], (in_dec Z.eq_dec d is) as [Hi'|Hi'].
      - destruct (Hsel c Hi) as (k & Hk & <-), (Hsel d Hi') as (k' & Hk' & <-).
        rewrite !Hs1 in E by assumption. f_equal. apply (proj1 (NoDup_nth js 0) Hndj); [lia..|exact E].
      - destruct (Hsel c Hi) as (k & Hk & <-). rewrite Hs1 in E by assumption.
        rewrite (proj1 (Hs2 d Hd Hi')) in E. exfalso. apply Hi'. rewrite <- E.
        apply (Permutation_in _ (Permutation_sym HPij)). apply nth_In. lia.
      - destruct (Hsel d Hi') as (k & Hk & <-). rewrite (Hs1 k) in E by assumption.
        rewrite (proj1 (Hs2 c Hc Hi)) in E. exfalso. apply Hi. rewrite E.
        apply (Permutation_in _ (Permutation_sym HPij)). apply nth_In. lia.
      - rewrite (proj1 (Hs2 c Hc Hi)), (proj1 (Hs2 d Hd Hi')) in E. exact E. }
    pose proof (NoDup_all_channels n) as Hnda. revert Hinj Hnda. generalize (all_channels n) as l.
    induction l as [|c l IH]; cbn; intros Hinj Hnda; [constructor|]. inversion Hnda; subst. constructor.
    + intros Hin. apply in_map_iff in Hin as (d & E & Hd). assert (d = c) by (apply Hinj; auto). subst. contradiction.
    + apply IH; [|assumption]. intros; apply Hinj; auto.
  - exists out, s. refine (conj _ (conj Hr (conj _ _))).
    + unfold shuffle_channels. cbn [orb]. fold n.
      destruct (Z.eqb_spec n 1); [lia|]. rewrite Hcov. rewrite Ef. cbn [bind]. exact Eo.
    + intros c Hc Hns. apply Hs2; [exact Hc|]. intros Hi. apply Hns.
      destruct (Hsel c Hi) as (k & Hk & <-). exists (nth k cs 0). split; [apply nth_In, Hk|].
      apply (Forall2_nth _ _ _ Eis), Hk.
    + intros k c c' Hk Hd Hd'.
      rewrite <- (denotes_fun n (nth k cs 0) (nth k is 0) c); [|apply (Forall2_nth _ _ _ Eis), Hk|exact Hd].
      rewrite Hs1 by exact Hk. apply (denotes_fun n (nth k (permute cs) 0)); [|exact Hd'].
      apply (Forall2_nth _ _ _ Hjs). lia.
Qed.

Lemma shuffle_all (permute : list Z -> list Z) channels (im : cimg A) :
  (forall l, Permutation l (permute l)) -> 2 <= cc im ->
  covers_all (cc im) channels = true ->
  exists out s, shuffle_channels false permute channels im = Ok out /\ reordered s im out /\
    forall k, (k < Z.to_nat (cc im))%nat -> s (Z.of_nat k) = nth k (permute (all_channels (cc im))) 0.
Proof.
  intros Hp Hn Hcov. set (n := cc im) in *. set (l := permute (all_channels n)).
  assert (HP : Permutation (all_channels n) l) by apply Hp.
  assert (Hlen : length l = Z.to_nat n) by (rewrite <- (Permutation_length HP); apply all_channels_length).
  set (s := fun c => nth (Z.to_nat c) l 0).
  assert (Hmap : map s (all_channels n) = l).
  { apply (nth_ext _ _ (s 0) 0); [rewrite map_length, all_channels_length; symmetry; exact Hlen|].
    intros k Hk. rewrite map_length, all_channels_length in Hk. rewrite map_nth.
    rewrite all_channels_nth by exact Hk. unfold s. rewrite Nat2Z.id. reflexivity. }
  destruct (take_reorders im l s) as (out & E & Hr).
  - fold n. rewrite Hmap.
    assert (Hin : forall c, In c l -> 0 <= c < n).
    { intros c Hc. apply in_all_channels, (Permutation_in _ (Permutation_sym HP)), Hc. }
    clear - Hin. induction l as [|c l IH]; constructor.
    + split; [apply Hin; left; reflexivity | left; reflexivity].
    + apply IH. intros; apply Hin; right; assumption.
  - lia.
  - fold n. rewrite Hmap. apply (Permutation_NoDup HP), NoDup_all_channels.
  - exists out, s. refine (conj _ (conj Hr _)).
    + unfold shuffle_channels. cbn [orb]. fold n. destruct (Z.eqb_spec n 1); [lia|].
      destruct channels as [cs|]; [rewrite Hcov|]; exact E.
    + intros k Hk. unfold s. rewrite Nat2Z.id. reflexivity.
Qed.

Lemma shuffle_trivial permute channels (im : cimg A) : forall nd2, nd2 = true \/ cc im = 1 ->
  shuffle_channels nd2 permute channels im = Ok im.
Proof.
  intros nd2 H. unfold shuffle_channels. destruct H as [-> | ->]; [reflexivity|].
  rewrite orb_true_r. reflexivity.
Qed.

Lemma covers_all_iff n cs : covers_all n (Some cs) = true <-> forall c, 0 <= c < n -> In c cs.
Proof.
  cbn. rewrite forallb_forall. split; intros H c Hc.
  - apply in_all_channels in Hc. specialize (H c Hc). apply existsb_exists in H as (d & Hd & E).
    apply Z.eqb_eq in E. subst. exact Hd.
  - apply in_all_channels in Hc. apply existsb_exists. exists c. split; [apply H, Hc | apply Z.eqb_refl].
Qed.

Lemma shuffle_missing permute cs (im : cimg A) : (forall l, Permutation l (permute l)) ->
  2 <= cc im -> ~ (forall c, 0 <= c < cc im -> In c cs) -> ~ exist_in (cc im) cs ->
  shuffle_channels false permute (Some cs) im = Err IndexError.
Proof.
  intros Hp Hn Hcov Hex. unfold shuffle_channels. cbn [orb].
  destruct (Z.eqb_spec (cc im) 1); [lia|].
  destruct (covers_all (cc im) (Some cs)) eqn:E; [exfalso; apply Hcov, covers_all_iff, E|].
  assert (Hl : length (permute cs) = length cs) by (symmetry; apply Permutation_length, Hp).
  assert (Ha : assign_all (cc im) cs (permute cs) (fun c => c) = Err IndexError).
  { revert Hex Hl. generalize (fun c : Z => c) as full, (permute cs) as tgt. clear.
    induction cs as [|v cs IH]; intros full tgt Hex Hl.
    - exfalso. apply Hex. constructor.
    - destruct tgt as [|t tgt]; [discriminate|]. cbn [assign_all].
      destruct (norm_index (cc im) v) as [c|e] eqn:E; cbn [bind].
      + apply IH; [|cbn in Hl; congruence]. intros H. apply Hex. constructor; [|exact H].
        exists c. apply norm_index_iff, E.
      + rewrite (norm_index_err _ _ _ E). reflexivity. }
  rewrite Ha. reflexivity.
Qed.

Lemma channel_shuffle_spec permute channels ps : forall (ims : list (cimg A)) i outs, length ps = length ims ->
  channel_shuffle permute channels i ps ims = Ok outs ->
  length outs = length ims /\
  forall k d, (k < length ims)%nat ->
    ((9999 # 10000 <= nth k ps 0)%Q -> shuffle_channels false (permute (i + k)%nat) channels (nth k ims d) = Ok (nth k outs d)) /\
    ((nth k ps 0 < 9999 # 10000)%Q -> nth k outs d = nth k ims d).
Proof.
  induction ps as [|p ps IH]; intros ims i outs Hl E; destruct ims as [|im ims]; try discriminate.
  - cbn in E. injection E as <-. split; [reflexivity | cbn; intros; lia].
  - cbn [channel_shuffle] in E. match goal with E : bind ?m _ = _ |- _ => destruct m as [im'|] eqn:E1; [|discriminate] end.
    cbn [bind] in E. destruct (channel_shuffle permute channels (S i) ps ims) as [r|] eqn:E2; [|discriminate].
    cbn [bind] in E. injection E as <-. cbn in Hl.
    destruct (IH ims (S i) r ltac:(congruence) E2) as [Hlen Hk]. cbn [length]. split; [f_equal; exact Hlen|].
    intros [|k] d Hlt; cbn [nth].
    + rewrite Nat.add_0_r. destruct (qleb (9999 # 10000) p) eqn:Eq.
      * split; [intros _; exact E1|]. intros H. apply qleb_iff in Eq. exfalso. apply (Qlt_not_le _ _ H Eq).
      * injection E1 as <-. split; [|reflexivity]. intros H. apply qleb_iff in H. congruence.
    + replace (i + S k)%nat with (S i + k)%nat by lia. apply Hk. cbn in Hlt. lia.
Qed.
End Shuffle.
