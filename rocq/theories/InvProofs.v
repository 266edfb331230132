(** Proofs about inversion. *)
From Coq Require Import Qabs Lia Lqa.
From Verif Require Import Prelude PreludeFacts InvModel InvSpec.

(** ** Tables *)
Lemma identity_length : length identity_table = 256%nat.
Proof. reflexivity. Qed.
Lemma identity_nth v : 0 <= v < 256 -> nth (Z.to_nat v) identity_table 0 = v.
Proof.
  intros H. unfold identity_table.
  change 0 with (Z.of_nat 0%nat) at 1. rewrite map_nth.
  rewrite seq_nth by lia. lia.
Qed.

Definition raw_entry (mn mx v : Z) : Z := zclip (mx - Z.abs (v - mn)) mn mx.

Lemma table_none mn mx above v :
  0 <= mn -> mx <= 255 -> mn < mx -> 0 <= v < 256 ->
  nth (Z.to_nat v) (invert_table mn mx None above) 0 = raw_entry mn mx v.
Proof.
  intros Hmn Hmx Hlt Hv. unfold invert_table.
  destruct ((mn =? 0) && (mx =? 255)) eqn:E.
  - apply andb_true_iff in E. destruct E as [E1 E2].
    apply Z.eqb_eq in E1, E2. subst.
    rewrite (nth_indep _ 0 (zclip 0 0 255)).
    2:{ rewrite map_length, rev_length, identity_length. lia. }
    rewrite (map_nth (fun v => zclip v 0 255)).
    rewrite rev_nth by (rewrite identity_length; lia).
    rewrite identity_length.
    replace (256 - S (Z.to_nat v))%nat with (Z.to_nat (255 - v)) by lia.
    rewrite identity_nth by lia. unfold raw_entry. f_equal. lia.
  - rewrite map_map.
    set (F := fun x => zclip (mx - Z.abs (x - mn)) mn mx).
    rewrite (nth_indep _ 0 (F 0)).
    2:{ rewrite map_length, identity_length. lia. }
    rewrite (map_nth F). rewrite identity_nth by lia. reflexivity.
Qed.

Lemma table_none_length mn mx above : length (invert_table mn mx None above) = 256%nat.
Proof.
  unfold invert_table. rewrite map_length.
  destruct ((mn =? 0) && (mx =? 255)).
  - rewrite rev_length. reflexivity.
  - rewrite map_length. reflexivity.
Qed.

Lemma nth_split {A} k (l1 l2 : list A) i d :
  length l1 = length l2 -> (k <= length l1)%nat ->
  nth i (firstn k l1 ++ skipn k l2) d = if (i <? k)%nat then nth i l1 d else nth i l2 d.
Proof.
  intros E K. destruct (Nat.ltb_spec i k) as [H|H].
  - rewrite app_nth1 by (rewrite firstn_length_le; lia).
    revert i l1 l2 E K H. induction k; intros i l1 l2 E K H; [lia|].
    destruct l1 as [|a l1]; cbn in K; [lia|].
    destruct l2 as [|b l2]; cbn in E; [lia|].
    destruct i; cbn; [reflexivity|]. apply IHk with (l2 := l2); lia.
  - rewrite app_nth2 by (rewrite firstn_length_le; lia).
    rewrite firstn_length_le by lia.
    clear E K. revert k i H. induction l2 as [|b l2 IH]; intros k i H.
    + rewrite skipn_nil. destruct (i - k)%nat; destruct i; reflexivity.
    + destruct k; cbn.
      * rewrite Nat.sub_0_r. destruct i; reflexivity.
      * destruct i; [lia|]. cbn. apply IH. lia.
Qed.

Definition cut (t : Q) : Z := py_slice_bound 256 (py_int t).
Lemma cut_bounds t : 0 <= cut t <= 256.
Proof. unfold cut, py_slice_bound. destruct (py_int t <? 0) eqn:E; lia. Qed.

Lemma table_entry mn mx th above v :
  0 <= mn -> mx <= 255 -> mn < mx -> 0 <= v < 256 ->
  nth (Z.to_nat v) (invert_table mn mx th above) 0 =
  match th with
  | None => raw_entry mn mx v
  | Some t => if eqb above (cut t <=? v) then raw_entry mn mx v else v
  end.
Proof.
  intros Hmn Hmx Hlt Hv. destruct th as [t|]; [|apply table_none; assumption].
  pose proof (cut_bounds t) as C.
  pose proof (table_none mn mx above v Hmn Hmx Hlt Hv) as T.
  pose proof (table_none_length mn mx above) as L.
  unfold invert_table in *. cbv zeta in *.
  set (inv := map (fun v0 => zclip v0 mn mx) _) in *.
  fold (cut t).
  pose proof identity_length as LI.
  destruct above.
  - rewrite nth_split by (try rewrite L; lia).
    destruct (Nat.ltb_spec (Z.to_nat v) (Z.to_nat (cut t))); destruct (Z.leb_spec (cut t) v); cbn [eqb];
      first [exact T | apply identity_nth; lia | lia].
  - rewrite nth_split by (try rewrite L; lia).
    destruct (Nat.ltb_spec (Z.to_nat v) (Z.to_nat (cut t))); destruct (Z.leb_spec (cut t) v); cbn [eqb];
      first [exact T | apply identity_nth; lia | lia].
Qed.

(** ** The cache never changes a result *)
Lemma py_int_compat x y : x == y -> py_int x = py_int y.
Proof.
  intros E. unfold py_int.
  assert (qleb 0 x = qleb 0 y) as ->.
  { unfold qleb. rewrite E. reflexivity. }
  destruct (qleb 0 y); [apply Qfloor_comp|apply Qceiling_comp]; exact E.
Qed.

Lemma table_key k k' :
  key_eqb k k' = true -> invert_table 0 255 (fst k) (snd k) = invert_table 0 255 (fst k') (snd k').
Proof.
  destruct k as [[x|] a], k' as [[y|] b]; cbn [key_eqb fst snd]; intros H; try discriminate.
  - apply andb_true_iff in H. destruct H as [H1 H2].
    apply eqb_prop in H2. subst. apply qeqb_iff in H1.
    unfold invert_table. rewrite (py_int_compat _ _ H1). reflexivity.
  - apply eqb_prop in H. subst. reflexivity.
Qed.

Definition cache_ok (c : cache) : Prop :=
  Forall (fun e => snd e = invert_table 0 255 (fst (fst e)) (snd (fst e))) c.

Lemma lookup_ok c k t :
  cache_ok c -> lookup c k = Some t -> t = invert_table 0 255 (fst k) (snd k).
Proof.
  unfold lookup. intros C H.
  destruct (find (fun e => key_eqb (fst e) k) c) as [e|] eqn:F; cbn in H; [|discriminate].
  injection H as <-. apply find_some in F. destruct F as [I K].
  unfold cache_ok in C. rewrite Forall_forall in C.
  rewrite (C e I). apply table_key. exact K.
Qed.

Lemma get_table_ok c mn mx th above :
  cache_ok c ->
  fst (get_table c mn mx th above) = invert_table mn mx th above /\
  cache_ok (snd (get_table c mn mx th above)).
Proof.
  intros C. unfold get_table.
  destruct ((mn =? 0) && (mx =? 255)) eqn:E; [|split; [reflexivity|exact C]].
  apply andb_true_iff in E. destruct E as [E1 E2]. apply Z.eqb_eq in E1, E2. subst.
  destruct (lookup c (th, above)) as [t|] eqn:L; cbn [fst snd].
  - split; [|exact C]. exact (lookup_ok _ _ _ C L).
  - split; [reflexivity|]. constructor; [reflexivity|exact C].
Qed.

Lemma invert_uint8_ok c ndim size vs mn mx th above :
  cache_ok c ->
  fst (invert_uint8 c ndim size vs mn mx th above) =
  fst (invert_uint8 [] ndim size vs mn mx th above) /\
  cache_ok (snd (invert_uint8 c ndim size vs mn mx th above)).
Proof.
  intros C. unfold invert_uint8.
  destruct (match th with None => _ | Some _ => false end).
  - split; [reflexivity|exact C].
  - destruct (get_table c mn mx th above) as [t c1] eqn:G.
    destruct (get_table [] mn mx th above) as [t0 c0] eqn:G0.
    pose proof (get_table_ok c mn mx th above C) as [A B].
    assert (cache_ok []) as C0 by constructor.
    pose proof (get_table_ok [] mn mx th above C0) as [A0 B0].
    rewrite G in A, B. rewrite G0 in A0. cbn [fst snd] in *. subst.
    split; [reflexivity|exact B].
Qed.

Lemma invert_cache c t ndim vs omin omax th above :
  cache_ok c ->
  fst (invert c t ndim vs omin omax th above) = fst (invert [] t ndim vs omin omax th above) /\
  cache_ok (snd (invert c t ndim vs omin omax th above)).
Proof.
  intros C. unfold invert.
  destruct (Z.of_nat (length vs) =? 0); [split; [reflexivity|exact C]|].
  destruct (ity_range t) as [dmin dmax].
  set (mn := match omin with Some m => m | None => dmin end).
  set (mx := match omax with Some m => m | None => dmax end).
  destruct (negb (dmin <=? mn)); [split; [reflexivity|exact C]|].
  destruct (negb (mx <=? dmax)); [split; [reflexivity|exact C]|].
  destruct (negb (mn <? mx)); [split; [reflexivity|exact C]|].
  destruct ((negb (mn =? dmin) || negb (mx =? dmax)) && negb (custom_ok t)); [split; [reflexivity|exact C]|].
  destruct (match t with TU 8 => true | _ => false end).
  - pose proof (invert_uint8_ok c ndim (Z.of_nat (length vs)) vs mn mx th above C) as [A B].
    destruct (invert_uint8 c ndim (Z.of_nat (length vs)) vs mn mx th above) as [r c1].
    destruct (invert_uint8 [] ndim (Z.of_nat (length vs)) vs mn mx th above) as [r0 c0].
    cbn [fst snd] in *. subst. split; [reflexivity|exact B].
  - split; [reflexivity|exact C].
Qed.

Lemma calls_ok xs c :
  cache_ok c ->
  fst (calls c xs) = map (fun x => fst (do_call [] x)) xs /\ cache_ok (snd (calls c xs)).
Proof.
  revert c. induction xs as [|x xs IH]; intros c C; [split; [reflexivity|exact C]|].
  cbn [calls map].
  pose proof (invert_cache c (k_t x) (k_ndim x) (k_vs x) (k_min x) (k_max x) (k_threshold x) (k_above x) C) as [A B].
  unfold do_call in *.
  destruct (invert c (k_t x) (k_ndim x) (k_vs x) (k_min x) (k_max x) (k_threshold x) (k_above x)) as [r c1].
  cbn [fst snd] in A, B.
  destruct (IH c1 B) as [A1 B1].
  destruct (calls c1 xs) as [rs c2]. cbn [fst snd] in *.
  split; [|exact B1]. rewrite A, A1. reflexivity.
Qed.

Lemma reachable_ok c : reachable c -> cache_ok c.
Proof. intros [xs ->]. apply calls_ok. constructor. Qed.

Lemma history_independent xs :
  fst (calls [] xs) = map (fun x => fst (do_call [] x)) xs.
Proof. apply calls_ok. constructor. Qed.

(** ** Values *)
Lemma pow_pos b : 0 <= b -> 0 < 2 ^ b.
Proof. intros. apply Z.pow_pos_nonneg; lia. Qed.

Lemma by_distance_in v mn mx : mn <= v <= mx -> invert_by_distance v mn mx = mn + mx - v.
Proof. intros H. unfold invert_by_distance, zclip. lia. Qed.
Lemma by_distance_range v mn mx : mn < mx -> mn <= invert_by_distance v mn mx <= mx.
Proof. intros H. unfold invert_by_distance, zclip. lia. Qed.

Lemma raw_entry_in v mn mx : mn <= v <= mx -> raw_entry mn mx v = mn + mx - v.
Proof. intros H. unfold raw_entry, zclip. lia. Qed.

Lemma component_in t v mn mx :
  (t = TBool -> mn = 0 /\ mx = 1) -> mn <= v <= mx ->
  invert_component t v mn mx = mn + mx - v.
Proof.
  intros B H. destruct t as [|b|b]; cbn [invert_component].
  - destruct (B eq_refl) as [-> ->]. lia.
  - destruct ((mn =? 0) && (mx =? 2 ^ b - 1)) eqn:E.
    + apply andb_true_iff in E. destruct E as [E1 E2]. apply Z.eqb_eq in E1. lia.
    + apply by_distance_in. exact H.
  - destruct (Z.eqb_spec mn ((-1) * mx - 1)).
    + destruct (Z.eqb_spec v mn); lia.
    + apply by_distance_in. exact H.
Qed.

Lemma component_dtype t v mn mx :
  numpy_dtype t -> fst (ity_range t) <= mn -> mx <= snd (ity_range t) -> mn < mx ->
  fst (ity_range t) <= v <= snd (ity_range t) ->
  fst (ity_range t) <= invert_component t v mn mx <= snd (ity_range t).
Proof.
  intros N L U H V. destruct t as [|b|b]; cbn [invert_component ity_range fst snd] in *.
  - lia.
  - destruct ((mn =? 0) && (mx =? 2 ^ b - 1)) eqn:E.
    + apply andb_true_iff in E. destruct E as [E1 E2]. apply Z.eqb_eq in E1, E2. lia.
    + pose proof (by_distance_range v mn mx H). lia.
  - destruct (Z.eqb_spec mn ((-1) * mx - 1)).
    + destruct (Z.eqb_spec v mn); lia.
    + pose proof (by_distance_range v mn mx H). lia.
Qed.

(** The entry of a table agrees with the threshold. *)
Lemma cut_spec k v : 0 <= k -> 0 <= v < 256 -> (cut (inject_Z k) <=? v) = (k <=? v).
Proof.
  intros K V. unfold cut. rewrite py_int_Z. unfold py_slice_bound.
  destruct (Z.ltb_spec k 0); [lia|].
  destruct (Z.leb_spec (Z.min k 256) v); destruct (Z.leb_spec k v); lia.
Qed.

Lemma chosen_uint8 th above v k :
  0 <= k -> (th == inject_Z k)%Q -> 0 <= v < 256 ->
  (chosen (Some th) above v <-> eqb above (cut th <=? v) = true).
Proof.
  intros K E V. unfold chosen.
  assert (cut th = cut (inject_Z k)) as ->.
  { unfold cut. rewrite (py_int_compat _ _ E). reflexivity. }
  rewrite cut_spec by assumption.
  destruct above.
  - rewrite E. rewrite <- Zle_Qle. destruct (Z.leb_spec k v); cbn; split; intros; try lia; try discriminate; reflexivity.
  - rewrite E. rewrite <- Zlt_Qlt. destruct (Z.leb_spec k v); cbn; split; intros; try lia; try discriminate; reflexivity.
Qed.

Lemma Forall_Forall2_map {A B} (P : A -> Prop) (R : A -> B -> Prop) f l :
  Forall P l -> (forall x, P x -> R x (f x)) -> Forall2 R l (map f l).
Proof. intros H F. induction H; constructor; auto. Qed.

Lemma invert_reduces t omin omax :
  acceptable t omin omax ->
  let mn := lower t omin in let mx := upper t omax in
  forall c ndim vs th above, vs <> [] ->
  invert c t ndim vs omin omax th above =
  (let is_uint8 := match t with TU 8 => true | _ => false end in
      if is_uint8 then
        let '(r, c') := invert_uint8 c ndim (Z.of_nat (length vs)) vs mn mx th above in (Ok r, c')
      else
        let inv v := invert_component t v mn mx in
        (Ok (match th with
             | None => map inv vs
             | Some th =>
                 map (fun v => if (if above then qleb th (inject_Z v) else qltb (inject_Z v) th)
                               then inv v else v) vs
             end), c)).
Proof.
  intros (L & U & H & K) mn mx c ndim vs th above NE. unfold invert.
  destruct (Z.eqb_spec (Z.of_nat (length vs)) 0) as [Z|Z].
  { destruct vs; [congruence|cbn in Z; lia]. }
  unfold lower, upper in mn, mx, L, U, H.
  destruct (ity_range t) as [dmin dmax] eqn:R. cbn [fst snd] in L, U, H, mn, mx.
  fold mn in L, H. fold mx in U, H.
  change (match omin with Some m => m | None => dmin end) with mn.
  change (match omax with Some m => m | None => dmax end) with mx.
  destruct (Z.leb_spec dmin mn); [|lia]. cbn [negb].
  destruct (Z.leb_spec mx dmax); [|lia]. cbn [negb].
  destruct (Z.ltb_spec mn mx); [|lia]. cbn [negb].
  assert ((negb (mn =? dmin) || negb (mx =? dmax)) && negb (custom_ok t) = false) as ->.
  { destruct K as [[-> ->]|K].
    - unfold mn, mx. rewrite !Z.eqb_refl. reflexivity.
    - apply andb_false_iff. right. destruct t; cbn [custom_ok] in *; try contradiction;
      destruct (Z.leb_spec b 32); try reflexivity; lia. }
  reflexivity.
Qed.

Lemma bool_bounds t omin omax :
  acceptable t omin omax -> t = TBool -> lower t omin = 0 /\ upper t omax = 1.
Proof.
  intros (L & U & H & K) ->. destruct K as [[-> ->]|[]]. split; reflexivity.
Qed.

Lemma uint8_values c ndim vs mn mx th above :
  cache_ok c -> 0 <= mn -> mx <= 255 -> mn < mx -> all_between 0 255 vs ->
  threshold_fits (TU 8) th ->
  Forall2 (fun v r => (chosen th above v -> mn <= v <= mx -> r = mirror mn mx v)
                      /\ (~ chosen th above v -> r = v) /\ 0 <= r <= 255)
          vs (fst (invert_uint8 c ndim (Z.of_nat (length vs)) vs mn mx th above)).
Proof.
  intros C L U H V T. unfold invert_uint8.
  destruct (match th with None => (mn =? 0) && (2 <=? ndim) && negb (Z.of_nat (length vs) =? 4) | Some _ => false end) eqn:E.
  - destruct th; [discriminate|].
    apply andb_true_iff in E. destruct E as [E _]. apply andb_true_iff in E. destruct E as [E _].
    apply Z.eqb_eq in E. cbn [fst].
    apply (Forall_Forall2_map _ _ _ _ V). intros v Hv. cbv beta in Hv.
    split; [|split].
    + intros _ Hm. unfold mirror, zclip. lia.
    + intros N. destruct N. exact I.
    + unfold zclip. lia.
  - destruct (get_table c mn mx th above) as [table c'] eqn:G.
    pose proof (get_table_ok c mn mx th above C) as [A _].
    rewrite G in A. cbn [fst] in *. subst table.
    apply (Forall_Forall2_map _ _ _ _ V). intros v Hv. cbv beta in Hv.
    rewrite table_entry by lia. unfold mirror.
    assert (0 <= raw_entry mn mx v <= 255) as RR by (unfold raw_entry, zclip; lia).
    destruct th as [t|].
    + destruct T as (k & K & TE).
      pose proof (chosen_uint8 t above v k K TE ltac:(lia)) as CH.
      destruct (eqb above (cut t <=? v)) eqn:EB.
      * split; [|split; [|exact RR]].
        -- intros _ Hm. apply raw_entry_in. exact Hm.
        -- intros N. destruct N. apply CH. reflexivity.
      * split; [|split; [|lia]].
        -- intros HC. apply CH in HC. discriminate.
        -- reflexivity.
    + split; [|split; [|exact RR]].
      * intros _ Hm. apply raw_entry_in. exact Hm.
      * intros N. destruct N. exact I.
Qed.

Lemma all_between_weaken a b a' b' vs :
  a' <= a -> b <= b' -> all_between a b vs -> all_between a' b' vs.
Proof. intros. eapply Forall_impl; [|eassumption]. cbv beta. intros; lia. Qed.

Lemma is8 t : (match t with TU 8 => true | _ => false end) = true -> t = TU 8.
Proof.
  destruct t as [|b|b]; try discriminate.
  destruct b as [|p|p]; try discriminate.
  do 4 (destruct p as [p|p|]; try discriminate). reflexivity.
Qed.

Lemma Forall2_weaken {A B} (R R' : A -> B -> Prop) l m :
  Forall2 R l m -> (forall a b, R a b -> R' a b) -> Forall2 R' l m.
Proof. intros H F. induction H; constructor; auto. Qed.

(** All that is known about a successful call. *)
Lemma invert_values c t ndim vs omin omax th above :
  cache_ok c -> numpy_dtype t -> acceptable t omin omax -> threshold_fits t th ->
  all_between (fst (ity_range t)) (snd (ity_range t)) vs ->
  exists rs, fst (invert c t ndim vs omin omax th above) = Ok rs /\
    Forall2 (fun v r => (chosen th above v -> lower t omin <= v <= upper t omax ->
                         r = mirror (lower t omin) (upper t omax) v)
                        /\ (~ chosen th above v -> r = v)
                        /\ fst (ity_range t) <= r <= snd (ity_range t)) vs rs.
Proof.
  intros C N A T V.
  destruct vs as [|v0 vs0].
  { exists []. split; [reflexivity|constructor]. }
  set (vs := v0 :: vs0) in *.
  rewrite (invert_reduces t omin omax A) by discriminate.
  set (mn := lower t omin) in *. set (mx := upper t omax) in *.
  pose proof (bool_bounds t omin omax A) as BB.
  destruct A as (L & U & H & K). fold mn in L, H, BB. fold mx in U, H, BB.
  cbv zeta.
  destruct (match t with TU 8 => true | _ => false end) eqn:E8.
  - apply is8 in E8. subst t. cbn [ity_range fst snd] in *. change (2 ^ 8 - 1) with 255 in *.
    pose proof (uint8_values c ndim vs mn mx th above C L U H V T) as W.
    destruct (invert_uint8 c ndim (Z.of_nat (length vs)) vs mn mx th above) as [r c'].
    cbn [fst] in *. exists r. split; [reflexivity|exact W].
  - cbn [fst]. destruct th as [th|].
    + eexists. split; [reflexivity|].
      apply (Forall_Forall2_map _ _ _ _ V). intros v Hv. cbv beta in Hv.
      assert ((if above then qleb th (inject_Z v) else qltb (inject_Z v) th) = true
              <-> chosen (Some th) above v) as CH.
      { unfold chosen. destruct above; [apply qleb_iff|apply qltb_iff]. }
      destruct (if above then qleb th (inject_Z v) else qltb (inject_Z v) th).
      * split; [|split].
        -- intros _ Hm. apply component_in; assumption.
        -- intros NC. destruct NC. apply CH. reflexivity.
        -- apply component_dtype; assumption.
      * split; [|split].
        -- intros HC. apply CH in HC. discriminate.
        -- reflexivity.
        -- exact Hv.
    + eexists. split; [reflexivity|].
      apply (Forall_Forall2_map _ _ _ _ V). intros v Hv. cbv beta in Hv.
      split; [|split].
      * intros _ Hm. apply component_in; assumption.
      * intros NC. destruct NC. exact I.
      * apply component_dtype; assumption.
Qed.

Lemma Forall2_Forall_l {A B} (P : A -> Prop) (R : A -> B -> Prop) l m :
  Forall2 R l m -> Forall P l -> Forall2 (fun a b => R a b /\ P a) l m.
Proof. intros H. induction H; intros F; inversion F; subst; constructor; auto. Qed.

Lemma inverts c t ndim vs omin omax th above :
  reachable c -> numpy_dtype t -> acceptable t omin omax -> threshold_fits t th ->
  all_between (lower t omin) (upper t omax) vs ->
  exists rs, fst (invert c t ndim vs omin omax th above) = Ok rs /\
    inverted_where (chosen th above) (lower t omin) (upper t omax) vs rs.
Proof.
  intros R N A T V.
  pose proof A as (L & U & H & K).
  destruct (invert_values c t ndim vs omin omax th above (reachable_ok c R) N A T) as (rs & E & F).
  { eapply all_between_weaken; [| |exact V]; assumption. }
  exists rs. split; [exact E|]. unfold inverted_where.
  eapply Forall2_weaken; [exact (Forall2_Forall_l _ _ _ _ F V)|].
  cbv beta. intros v r [(P1 & P2 & _) Hv]. split; auto.
Qed.

Lemma inverted_all (P : Z -> Prop) a b vs rs :
  (forall v, P v) -> inverted_where P a b vs rs -> rs = map (mirror a b) vs.
Proof.
  intros HP H. induction H as [|v r vs rs [H1 _] _ IH]; [reflexivity|].
  cbn [map]. f_equal; [apply H1; apply HP|exact IH].
Qed.

Lemma mirror_between a b vs : all_between a b vs -> all_between a b (map (mirror a b) vs).
Proof.
  intros H. unfold all_between in *. rewrite Forall_map.
  eapply Forall_impl; [|exact H]. unfold mirror. cbv beta. intros; lia.
Qed.
Lemma mirror_twice a b vs : map (mirror a b) (map (mirror a b) vs) = vs.
Proof. rewrite map_map. rewrite <- map_id. apply map_ext. unfold mirror. intros; lia. Qed.

Lemma fits_none t : threshold_fits t None.
Proof. destruct t as [|b|b]; cbn; try exact I. destruct b as [|p|p]; try exact I.
  repeat (destruct p as [p|p|]; try exact I). Qed.

Lemma inverts_all c t ndim vs omin omax above :
  reachable c -> numpy_dtype t -> acceptable t omin omax ->
  all_between (lower t omin) (upper t omax) vs ->
  fst (invert c t ndim vs omin omax None above) = Ok (map (mirror (lower t omin) (upper t omax)) vs).
Proof.
  intros R N A V.
  destruct (inverts c t ndim vs omin omax None above R N A (fits_none t) V) as (rs & E & F).
  rewrite E. f_equal. eapply inverted_all; [|exact F]. intros v. exact I.
Qed.

Lemma calls_app c xs ys :
  calls c (xs ++ ys) = (fst (calls c xs) ++ fst (calls (snd (calls c xs)) ys),
                        snd (calls (snd (calls c xs)) ys)).
Proof.
  revert c. induction xs as [|x xs IH]; intros c; cbn [app calls].
  - cbn [fst snd app]. destruct (calls c ys); reflexivity.
  - destruct (do_call c x) as [r c1]. rewrite IH.
    destruct (calls c1 xs) as [rs c2]. cbn [fst snd app]. reflexivity.
Qed.
Lemma reachable_step c x : reachable c -> reachable (snd (do_call c x)).
Proof.
  intros [xs ->]. exists (xs ++ [x]). rewrite calls_app. cbn [snd calls].
  destruct (do_call (snd (calls [] xs)) x); reflexivity.
Qed.

Lemma invert_twice c t ndim vs omin omax above :
  reachable c -> numpy_dtype t -> acceptable t omin omax ->
  all_between (lower t omin) (upper t omax) vs ->
  exists ws c', invert c t ndim vs omin omax None above = (Ok ws, c') /\
    fst (invert c' t ndim ws omin omax None above) = Ok vs.
Proof.
  intros R N A V.
  pose proof (inverts_all c t ndim vs omin omax above R N A V) as E.
  pose proof (reachable_step c (mkCall t ndim vs omin omax None above) R) as R'.
  unfold do_call in R'. cbn [k_t k_ndim k_vs k_min k_max k_threshold k_above] in R'.
  destruct (invert c t ndim vs omin omax None above) as [r c'].
  cbn [fst snd] in *. subst r. eexists. exists c'. split; [reflexivity|].
  rewrite (inverts_all c' t ndim _ omin omax above R' N A (mirror_between _ _ _ V)).
  rewrite mirror_twice. reflexivity.
Qed.

(** A selected component always lies in the dtype's range, whatever the
    threshold. *)
Lemma uint8_range c ndim vs mn mx th above :
  cache_ok c -> 0 <= mn -> mx <= 255 -> mn < mx -> all_between 0 255 vs ->
  all_between 0 255 (fst (invert_uint8 c ndim (Z.of_nat (length vs)) vs mn mx th above)).
Proof.
  intros C L U H V. unfold invert_uint8.
  destruct (match th with None => (mn =? 0) && (2 <=? ndim) && negb (Z.of_nat (length vs) =? 4) | Some _ => false end) eqn:E.
  - cbn [fst]. unfold all_between. rewrite Forall_map. eapply Forall_impl; [|exact V].
    cbv beta. unfold zclip. intros; lia.
  - destruct (get_table c mn mx th above) as [table c'] eqn:G.
    pose proof (get_table_ok c mn mx th above C) as [A _].
    rewrite G in A. cbn [fst] in *. subst table.
    unfold all_between. rewrite Forall_map. eapply Forall_impl; [|exact V].
    cbv beta. intros v Hv. rewrite table_entry by lia.
    assert (0 <= raw_entry mn mx v <= 255) as RR by (unfold raw_entry, zclip; lia).
    destruct th as [t|]; [|exact RR]. destruct (eqb above (cut t <=? v)); [exact RR|lia].
Qed.

Lemma invert_keeps_dtype c t ndim vs omin omax th above rs :
  reachable c -> numpy_dtype t ->
  all_between (fst (ity_range t)) (snd (ity_range t)) vs ->
  fst (invert c t ndim vs omin omax th above) = Ok rs ->
  length rs = length vs /\ all_between (fst (ity_range t)) (snd (ity_range t)) rs.
Proof.
  intros R N V. pose proof (reachable_ok c R) as C. unfold invert.
  destruct (Z.eqb_spec (Z.of_nat (length vs)) 0).
  { cbn [fst]. intros [= <-]. split; [reflexivity|exact V]. }
  destruct (ity_range t) as [dmin dmax] eqn:RG. cbn [fst snd] in *.
  set (mn := match omin with Some m => m | None => dmin end).
  set (mx := match omax with Some m => m | None => dmax end).
  destruct (Z.leb_spec dmin mn); cbn [negb]; [|discriminate].
  destruct (Z.leb_spec mx dmax); cbn [negb]; [|discriminate].
  destruct (Z.ltb_spec mn mx); cbn [negb]; [|discriminate].
  destruct ((negb (mn =? dmin) || negb (mx =? dmax)) && negb (custom_ok t)); [discriminate|].
  destruct (match t with TU 8 => true | _ => false end) eqn:E8.
  - apply is8 in E8. subst t. cbn in RG. injection RG as <- <-.
    pose proof (uint8_range c ndim vs mn mx th above C ltac:(lia) ltac:(lia) ltac:(lia) V) as W.
    pose proof (eq_refl (length vs)) as LL.
    assert (length (fst (invert_uint8 c ndim (Z.of_nat (length vs)) vs mn mx th above)) = length vs) as LE.
    { unfold invert_uint8. destruct (match th with None => _ | Some _ => false end).
      - cbn [fst]. apply map_length.
      - destruct (get_table c mn mx th above). cbn [fst]. apply map_length. }
    destruct (invert_uint8 c ndim (Z.of_nat (length vs)) vs mn mx th above) as [r c'].
    cbn [fst] in *. intros [= <-]. split; assumption.
  - cbn [fst]. intros [= <-].
    assert (forall v, dmin <= v <= dmax -> dmin <= invert_component t v mn mx <= dmax) as D.
    { intros v Hv. pose proof (component_dtype t v mn mx N) as P. rewrite RG in P. cbn [fst snd] in P.
      apply P; assumption. }
    destruct th as [th|].
    + split; [apply map_length|]. unfold all_between. rewrite Forall_map. eapply Forall_impl; [|exact V].
      cbv beta. intros v Hv.
      destruct (if above then qleb th (inject_Z v) else qltb (inject_Z v) th); [apply D|]; exact Hv.
    + split; [apply map_length|]. unfold all_between. rewrite Forall_map. eapply Forall_impl; [|exact V].
      cbv beta. intros v Hv. apply D. exact Hv.
Qed.

Lemma bad_bounds_raise c t ndim vs omin omax th above :
  vs <> [] -> ~ acceptable t omin omax ->
  (omin = None -> omax = None -> False) ->
  (forall m, omin = Some m -> m <> fst (ity_range t)) ->
  (forall m, omax = Some m -> m <> snd (ity_range t)) ->
  exists e, fst (invert c t ndim vs omin omax th above) = Err e.
Proof.
  intros NE NA CU C1 C2. unfold invert.
  destruct (Z.eqb_spec (Z.of_nat (length vs)) 0) as [Z|Z].
  { destruct vs; [congruence|cbn in Z; lia]. }
  unfold acceptable, lower, upper in NA.
  destruct (ity_range t) as [dmin dmax] eqn:R. cbn [fst snd] in *.
  set (mn := match omin with Some m => m | None => dmin end) in *.
  set (mx := match omax with Some m => m | None => dmax end) in *.
  destruct (Z.leb_spec dmin mn); cbn [negb]; [|eexists; reflexivity].
  destruct (Z.leb_spec mx dmax); cbn [negb]; [|eexists; reflexivity].
  destruct (Z.ltb_spec mn mx); cbn [negb]; [|eexists; reflexivity].
  destruct (custom_ok t) eqn:CO.
  - exfalso. apply NA. repeat (split; [assumption|]). right.
    destruct t; cbn [custom_ok] in CO; try discriminate; apply Z.leb_le; exact CO.
  - assert ((negb (mn =? dmin) || negb (mx =? dmax)) = true) as ->.
    { apply orb_true_iff. destruct omin as [m|].
      - left. specialize (C1 m eq_refl). unfold mn. destruct (Z.eqb_spec m dmin); [contradiction|reflexivity].
      - destruct omax as [m|].
        + right. specialize (C2 m eq_refl). unfold mx. destruct (Z.eqb_spec m dmax); [contradiction|reflexivity].
        + destruct CU; reflexivity. }
    cbn. eexists; reflexivity.
Qed.

(** ** Floats *)
Local Open Scope Q_scope.

Lemma float_component v mn mx :
  mn < mx -> mn <= v -> v <= mx ->
  Qabs (invert_float_component v mn mx - (mn + mx - v)) <= 1 # 100000000.
Proof.
  intros H L U. unfold invert_float_component.
  destruct (qleb (Qabs (mx - - (1) * mn)) (1 # 100000000)) eqn:E.
  - apply qleb_iff in E.
    setoid_replace (- v - (mn + mx - v)) with (- (mx - - (1) * mn)) by ring.
    rewrite Qabs_opp. exact E.
  - assert (qclip v mn mx == v) as C.
    { unfold qclip. qminmax; lra. }
    assert (Qabs (qclip v mn mx - mn) == v - mn) as A.
    { rewrite C. apply Qabs_pos. lra. }
    assert (qclip (mx - Qabs (qclip v mn mx - mn)) mn mx == mx - (v - mn)) as ->.
    { revert A. generalize (Qabs (qclip v mn mx - mn)). intros q A.
      unfold qclip. qminmax; lra. }
    setoid_replace (mx - (v - mn) - (mn + mx - v)) with 0 by ring.
    cbn. discriminate.
Qed.

Lemma float_reduces fmax custom vs omin omax th above :
  float_acceptable fmax custom omin omax ->
  let inv v := invert_float_component v (float_lower fmax omin) (float_upper fmax omax) in
  invert_float fmax custom vs omin omax th above =
  Ok (match th with
      | None => map inv vs
      | Some th => map (fun v => if (if above then qleb th v else qltb v th) then inv v else v) vs
      end).
Proof.
  intros (L & U & H & K) inv. unfold invert_float.
  destruct vs as [|v0 vs0]; [destruct th; reflexivity|].
  fold (float_lower fmax omin). fold (float_upper fmax omax).
  apply qleb_iff in L. rewrite L. apply qleb_iff in U. rewrite U. apply qltb_iff in H. rewrite H.
  cbn [negb].
  assert ((negb (qeqb (float_lower fmax omin) (- fmax)) || negb (qeqb (float_upper fmax omax) fmax))
          && negb custom = false)%bool as ->.
  { destruct K as [ [-> ->] | -> ].
    - cbn [float_lower float_upper].
      assert (qeqb (- fmax) (- fmax) = true) as -> by (apply qeqb_iff; reflexivity).
      assert (qeqb fmax fmax = true) as -> by (apply qeqb_iff; reflexivity). reflexivity.
    - apply andb_false_r. }
  reflexivity.
Qed.

Lemma float_inverts fmax custom vs omin omax th above :
  float_acceptable fmax custom omin omax ->
  Forall (fun v => float_lower fmax omin <= v <= float_upper fmax omax) vs ->
  exists rs, invert_float fmax custom vs omin omax th above = Ok rs /\ Forall2 (fun v r =>
      (float_chosen th above v ->
       Qabs (r - (float_lower fmax omin + float_upper fmax omax - v)) <= 1 # 100000000) /\ (~ float_chosen th above v -> r = v)) vs rs.
Proof.
  intros A V. rewrite (float_reduces _ _ _ _ _ _ _ A). eexists. split; [reflexivity|].
  destruct A as (L & U & H & K).
  destruct th as [th|].
  - apply (Forall_Forall2_map _ _ _ _ V). intros v Hv. cbv beta in Hv.
    assert ((if above then qleb th v else qltb v th) = true <-> float_chosen (Some th) above v) as CH.
    { unfold float_chosen. destruct above; [apply qleb_iff|apply qltb_iff]. }
    destruct (if above then qleb th v else qltb v th).
    + split.
      * intros _. apply float_component; [exact H| |]; apply Hv.
      * intros NC. destruct NC. apply CH. reflexivity.
    + split.
      * intros C. apply CH in C. discriminate.
      * reflexivity.
  - apply (Forall_Forall2_map _ _ _ _ V). intros v Hv. cbv beta in Hv. split.
    + intros _. apply float_component; [exact H| |]; apply Hv.
    + intros NC. destruct NC. exact I.
Qed.

Lemma float_twice fmax custom vs above :
  0 < fmax ->
  exists ws, invert_float fmax custom vs None None None above = Ok ws /\ Forall2 Qeq ws (map (fun v => - v) vs) /\ exists rs, invert_float fmax custom ws None None None above = Ok rs /\ Forall2 Qeq rs vs.
Proof.
  intros F.
  assert (float_acceptable fmax custom None None) as A.
  { unfold float_acceptable. cbn [float_lower float_upper]. split; [lra|]. split; [lra|]. split; [lra|].
    left. split; reflexivity. }
  assert (forall v, invert_float_component v (- fmax) fmax = - v) as C.
  { intros v. unfold invert_float_component.
    assert (qleb (Qabs (fmax - - (1) * - fmax)) (1 # 100000000) = true) as ->; [|reflexivity].
    apply qleb_iff. setoid_replace (fmax - - (1) * - fmax) with 0 by ring. cbn. discriminate. }
  rewrite (float_reduces _ _ _ _ _ _ _ A). cbn [float_lower float_upper].
  eexists. split; [reflexivity|]. split.
  - clear A. induction vs; constructor; [rewrite C; reflexivity|assumption].
  - rewrite (float_reduces _ _ _ _ _ _ _ A). cbn [float_lower float_upper].
    eexists. split; [reflexivity|]. clear A. induction vs; constructor; [|assumption].
    rewrite !C. ring.
Qed.
