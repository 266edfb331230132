(** Proofs about Rot90. *)
From Coq Require Import Lia Lqa.
From Verif Require Import Prelude PreludeFacts GeoModel GeoSpec GeoProofs RotModel RotSpec.

Lemma mod4_cases k : k mod 4 = 0 \/ k mod 4 = 1 \/ k mod 4 = 2 \/ k mod 4 = 3.
Proof. pose proof (Z.mod_pos_bound k 4 eq_refl). lia. Qed.

Lemma odd_mod4 k : Z.odd k = Z.odd (k mod 4).
Proof.
  rewrite (Z.div_mod k 4) at 1 by lia. rewrite Z.odd_add, Z.odd_mul. destruct (Z.odd (k mod 4)); reflexivity.
Qed.

(** ** Arrays *)

Lemma rot90_closed {A} (a : arr A) k :
  match k mod 4 with
  | 0 => np_rot90 a k = a
  | 1 => ah (np_rot90 a k) = aw a /\ aw (np_rot90 a k) = ah a /\ forall y x, apx (np_rot90 a k) y x = apx a (ah a - 1 - x) y
  | 2 => ah (np_rot90 a k) = ah a /\ aw (np_rot90 a k) = aw a /\ forall y x, apx (np_rot90 a k) y x = apx a (ah a - 1 - y) (aw a - 1 - x)
  | _ => ah (np_rot90 a k) = aw a /\ aw (np_rot90 a k) = ah a /\ forall y x, apx (np_rot90 a k) y x = apx a x (aw a - 1 - y)
  end.
Proof.
  unfold np_rot90. destruct (mod4_cases k) as [E|[E|[E|E]]]; rewrite E; cbn [ah aw apx np_flip0 np_flip1 np_transpose].
  - reflexivity.
  - auto.
  - auto.
  - auto.
Qed.

Lemma rot90_shape {A} (a : arr A) k : (ah (np_rot90 a k), aw (np_rot90 a k)) = turned_shape k (ah a, aw a).
Proof.
  pose proof (rot90_closed a k) as C. unfold turned_shape. rewrite odd_mod4.
  destruct (mod4_cases k) as [E|[E|[E|E]]]; rewrite E in *; cbn [Z.odd fst snd].
  - rewrite C. reflexivity.
  - destruct C as [-> [-> _]]. reflexivity.
  - destruct C as [-> [-> _]]. reflexivity.
  - destruct C as [-> [-> _]]. reflexivity.
Qed.

Lemma rot90_turns {A} (a : arr A) k : arr_eq (np_rot90 a k) (quarter_turns (Z.to_nat (k mod 4)) a).
Proof.
  pose proof (rot90_closed a k) as C.
  destruct (mod4_cases k) as [E|[E|[E|E]]]; rewrite E in *.
  - rewrite C. apply arr_eq_refl.
  - destruct C as [C1 [C2 C3]]. split; [exact C1|]. split; [exact C2|]. intros y x _ _. apply C3.
  - destruct C as [C1 [C2 C3]]. split; [exact C1|]. split; [exact C2|]. intros y x _ _. rewrite C3. reflexivity.
  - destruct C as [C1 [C2 C3]]. split; [exact C1|]. split; [exact C2|]. intros y x _ _. rewrite C3.
    change (Z.to_nat 3) with 3%nat. cbn [quarter_turns quarter_turn ah aw apx].
    replace (ah a - 1 - (ah a - 1 - x)) with x by lia. reflexivity.
Qed.

Lemma rot90_compose {A} (a : arr A) j k : arr_eq (np_rot90 (np_rot90 a j) k) (np_rot90 a (j + k)).
Proof.
  pose proof (rot90_closed a j) as J. pose proof (rot90_closed (np_rot90 a j) k) as K. pose proof (rot90_closed a (j + k)) as S.
  rewrite (Z.add_mod j k 4) in S by lia.
  set (b := np_rot90 a j) in *. set (c := np_rot90 b k) in *. set (d := np_rot90 a (j + k)) in *. clearbody b c d.
  destruct (mod4_cases j) as [Ej|[Ej|[Ej|Ej]]]; destruct (mod4_cases k) as [Ek|[Ek|[Ek|Ek]]];
    rewrite Ej, ?Ek in J; rewrite ?Ej, Ek in K; rewrite Ej, Ek in S;
    [change ((0 + 0) mod 4) with 0 in S | change ((0 + 1) mod 4) with 1 in S | change ((0 + 2) mod 4) with 2 in S | change ((0 + 3) mod 4) with 3 in S
    |change ((1 + 0) mod 4) with 1 in S | change ((1 + 1) mod 4) with 2 in S | change ((1 + 2) mod 4) with 3 in S | change ((1 + 3) mod 4) with 0 in S
    |change ((2 + 0) mod 4) with 2 in S | change ((2 + 1) mod 4) with 3 in S | change ((2 + 2) mod 4) with 0 in S | change ((2 + 3) mod 4) with 1 in S
    |change ((3 + 0) mod 4) with 3 in S | change ((3 + 1) mod 4) with 0 in S | change ((3 + 2) mod 4) with 1 in S | change ((3 + 3) mod 4) with 2 in S];
    cbv beta iota in J, K, S; subst;
    repeat match goal with H : _ = _ /\ _ = _ /\ _ |- _ => let H1 := fresh "H" in let H2 := fresh "W" in let P := fresh "P" in destruct H as [H1 [H2 P]] end;
    (split; [congruence|]; split; [congruence|]; intros y x _ _);
    repeat match goal with P : forall y x, apx ?u y x = _ |- context [apx ?u _ _] => rewrite P end;
    try reflexivity; f_equal; lia.
Qed.

(** ** Points *)

Local Open Scope Q_scope.

Lemma steps_turned k h w p : kp_eq (rotate_steps (Z.to_nat (k mod 4)) (inject_Z h) (inject_Z w) p) (turned k h w p).
Proof.
  unfold turned. destruct (mod4_cases k) as [E|[E|[E|E]]]; rewrite E.
  - split; reflexivity.
  - split; reflexivity.
  - change (Z.to_nat 2) with 2%nat. split; cbn [rotate_steps kx ky]; lra.
  - change (Z.to_nat 3) with 3%nat. split; cbn [rotate_steps kx ky]; lra.
Qed.

Lemma Forall2_map_r {X Y} (P : X -> Y -> Prop) (f : X -> Y) l : (forall x, P x (f x)) -> Forall2 P l (map f l).
Proof. intros H. induction l; constructor; auto. Qed.

Lemma rotate_keypoints_ok (keep : bool) k kp :
  let '(h, w) := kps_shape kp in
  (keep = true -> 0 < h /\ 0 < w)%Z ->
  exists r, rotate_keypoints keep k kp = Ok r /\
    kps_shape r = (if keep then (h, w) else turned_shape k (h, w)) /\
    Forall2 (fun p q => kp_eq q (moved keep k h w p)) (kps kp) (kps r).
Proof.
  destruct kp as [l [h w]]. cbn [kps_shape kps]. intros POS. unfold rotate_keypoints. cbn [kps_shape kps].
  assert (forall p, kp_eq p p) as REFL by (intros; split; reflexivity).
  destruct (Z.eqb_spec (k mod 4) 0) as [E|N].
  - exists (mkKpsoi l (h, w)). split; [reflexivity|]. unfold turned_shape, moved. rewrite odd_mod4, E.
    cbn [Z.odd kps kps_shape]. split; [destruct keep; reflexivity|]. rewrite andb_false_r. cbn [andb].
    rewrite <- (map_id l) at 2. apply Forall2_map_r. intros p. unfold turned. rewrite E. apply REFL.
  - assert (((k mod 4) mod 2 =? 0)%Z = negb (Z.odd k)) as OD.
    { rewrite odd_mod4. destruct (mod4_cases k) as [E|[E|[E|E]]]; rewrite E; reflexivity. }
    rewrite OD. unfold turned_shape, moved. destruct (Z.odd k) eqn:O; cbn [negb fst snd].
    + assert (shape2_eqb (h, w) (w, h) = (h =? w)%Z) as SE.
      { unfold shape2_eqb. cbn. destruct (Z.eqb_spec h w) as [->|]; [rewrite Z.eqb_refl; reflexivity|reflexivity]. }
      rewrite SE. destruct keep; cbn [andb].
      * destruct (POS eq_refl) as [HP WP]. destruct (Z.eqb_spec h w) as [->|NE]; cbn [negb].
        { eexists. split; [reflexivity|]. split; [reflexivity|]. cbn [kps]. apply Forall2_map_r. intros p. apply steps_turned. }
        unfold kpsoi_on. cbn [kps kps_shape]. rewrite SE. apply Z.eqb_neq in NE. rewrite ?NE.
        assert (forall p, exists q, kp_project p (w, h) (h, w) = Ok q /\ kp_eq q (rescaled h w w h p)) as PR.
        { intros p. unfold kp_project, project_coords. unfold shape2_eqb. cbn [fst snd].
          assert ((w =? h)%Z = false) as WH by (apply Z.eqb_neq; apply Z.eqb_neq in NE; lia). rewrite WH. cbn [andb].
          assert (forallb (fun v => (0 <? v)%Z) [w; h; h; w] = true) as ALL.
          { cbn. replace (0 <? w)%Z with true by lia. replace (0 <? h)%Z with true by lia. reflexivity. }
          rewrite ALL. cbn [map bind fst snd]. eexists. split; [reflexivity|].
          assert (~ inject_Z h == 0) by (change 0 with (inject_Z 0); rewrite inject_Z_injective; lia).
          assert (~ inject_Z w == 0) by (change 0 with (inject_Z 0); rewrite inject_Z_injective; lia).
          split; cbn; field; assumption. }
        destruct (mapM_total (fun i => kp_project i (w, h) (h, w)) (map (rotate_steps (Z.to_nat (k mod 4)) (inject_Z h) (inject_Z w)) l)) as [r R].
        { intros p _. destruct (PR p) as [q [Q _]]. eauto. }
        rewrite R. cbn [bind]. eexists. split; [reflexivity|]. split; [reflexivity|]. cbn [kps].
        apply mapM_Forall2 in R. revert r R. induction l as [|p l IH]; intros r R; inversion R as [|? q ? r' Q R']; subst; constructor.
        { destruct (PR (rotate_steps (Z.to_nat (k mod 4)) (inject_Z h) (inject_Z w) p)) as [q' [Q1 Q2]].
          rewrite Q in Q1. injection Q1 as <-. destruct (steps_turned k h w p) as [S1 S2]. destruct Q2 as [Q2 Q3].
          split; [rewrite Q2|rewrite Q3]; cbn [rescaled kx ky]; [rewrite S1|rewrite S2]; reflexivity. }
        { apply IH. exact R'. }
      * eexists. split; [reflexivity|]. split; [reflexivity|]. cbn [kps]. apply Forall2_map_r. intros p. apply steps_turned.
    + assert (shape2_eqb (h, w) (h, w) = true) as SE by (unfold shape2_eqb; cbn; rewrite !Z.eqb_refl; reflexivity).
      rewrite SE, !andb_false_r. cbn [andb]. eexists. split; [reflexivity|]. split; [destruct keep; reflexivity|].
      cbn [kps]. apply Forall2_map_r. intros p. apply steps_turned.
Qed.

Lemma turned_compose j k h w p :
  let '(h', w') := turned_shape j (h, w) in
  kp_eq (turned k h' w' (turned j h w p)) (turned (j + k) h w p).
Proof.
  unfold turned_shape, turned. rewrite odd_mod4, (Z.add_mod j k 4) by lia.
  destruct (mod4_cases j) as [Ej|[Ej|[Ej|Ej]]]; destruct (mod4_cases k) as [Ek|[Ek|[Ek|Ek]]]; rewrite Ej, Ek;
    split; cbn; lra.
Qed.

Lemma turned_pixel {A} (a : arr A) k y x p : (0 <= y < ah a)%Z -> (0 <= x < aw a)%Z -> in_pixel y x p ->
  exists y' x', (0 <= y' < ah (np_rot90 a k))%Z /\ (0 <= x' < aw (np_rot90 a k))%Z /\
    in_pixel y' x' (turned k (ah a) (aw a) p) /\ apx (np_rot90 a k) y' x' = apx a y x.
Proof.
  intros Y X [P1 [P2 [P3 P4]]]. pose proof (rot90_closed a k) as C. unfold turned.
  rewrite inject_Z_plus in P2, P4. change (inject_Z 1) with 1 in *.
  destruct (mod4_cases k) as [E|[E|[E|E]]]; rewrite E in *.
  - rewrite C. exists y, x. split; [exact Y|]. split; [exact X|]. split; [|reflexivity].
    unfold in_pixel. rewrite !inject_Z_plus. change (inject_Z 1) with 1. lra.
  - destruct C as [C1 [C2 C3]]. exists x, (ah a - 1 - y)%Z. split; [lia|]. split; [lia|]. split.
    + unfold in_pixel. cbn [kx ky]. replace (ah a - 1 - y + 1)%Z with (ah a - y)%Z by lia.
      unfold Z.sub. rewrite !inject_Z_plus, !inject_Z_opp. change (inject_Z 1) with 1. lra.
    + rewrite C3. f_equal. lia.
  - destruct C as [C1 [C2 C3]]. exists (ah a - 1 - y)%Z, (aw a - 1 - x)%Z. split; [lia|]. split; [lia|]. split.
    + unfold in_pixel. cbn [kx ky]. replace (ah a - 1 - y + 1)%Z with (ah a - y)%Z by lia. replace (aw a - 1 - x + 1)%Z with (aw a - x)%Z by lia.
      unfold Z.sub. rewrite !inject_Z_plus, !inject_Z_opp. change (inject_Z 1) with 1. lra.
    + rewrite C3. f_equal; lia.
  - destruct C as [C1 [C2 C3]]. exists (aw a - 1 - x)%Z, y. split; [lia|]. split; [lia|]. split.
    + unfold in_pixel. cbn [kx ky]. replace (aw a - 1 - x + 1)%Z with (aw a - x)%Z by lia.
      unfold Z.sub. rewrite !inject_Z_plus, !inject_Z_opp. change (inject_Z 1) with 1. lra.
    + rewrite C3. f_equal; lia.
Qed.

Lemma scale_pos v a b : 0 < a -> 0 < b -> (0 <= v * a / b <-> 0 <= v).
Proof.
  intros A B. rewrite <- (Qmult_le_l 0 (v * a / b) b B). setoid_replace (b * (v * a / b)) with (v * a) by (field; lra).
  split; intros H; nra.
Qed.

Lemma moved_on_plane (keep : bool) k h w p : (0 < h)%Z -> (0 < w)%Z -> on_plane (h, w) p ->
  on_plane (if keep then (h, w) else turned_shape k (h, w)) (moved keep k h w p).
Proof.
  intros H W. unfold moved, turned_shape. rewrite (odd_mod4 k).
  assert (0 < inject_Z h) as HQ by (change 0 with (inject_Z 0); rewrite <- Zlt_Qlt; exact H).
  assert (0 < inject_Z w) as WQ by (change 0 with (inject_Z 0); rewrite <- Zlt_Qlt; exact W).
  assert (forall v a b, 0 < a -> 0 < b -> 0 <= v -> v <= b -> 0 <= v * a / b /\ v * a / b <= a) as SC.
  { intros v a b A B V0 V1. split; [apply scale_pos; assumption|]. apply Qle_shift_div_r; [exact B|]. nra. }
  unfold on_plane, turned. cbn [fst snd]. intros [X0 [X1 [Y0 Y1]]].
  destruct (mod4_cases k) as [E|[E|[E|E]]]; rewrite E; cbn [Z.odd andb]; rewrite ?andb_false_r, ?andb_true_r; cbn [andb].
  - destruct keep; cbn [fst snd]; auto.
  - destruct keep; cbn [andb negb fst snd kx ky]; [|repeat split; lra].
    destruct (Z.eqb_spec h w) as [->|N]; cbn [negb kx ky rescaled]; [repeat split; lra|].
    destruct (SC (inject_Z h - ky p) (inject_Z w) (inject_Z h) WQ HQ ltac:(lra) ltac:(lra)).
    destruct (SC (kx p) (inject_Z h) (inject_Z w) HQ WQ X0 X1). auto.
  - destruct keep; cbn [fst snd kx ky]; repeat split; lra.
  - destruct keep; cbn [andb negb fst snd kx ky]; [|repeat split; lra].
    destruct (Z.eqb_spec h w) as [->|N]; cbn [negb kx ky rescaled]; [repeat split; lra|].
    destruct (SC (ky p) (inject_Z w) (inject_Z h) WQ HQ Y0 Y1).
    destruct (SC (inject_Z w - kx p) (inject_Z h) (inject_Z w) HQ WQ ltac:(lra) ltac:(lra)). auto.
Qed.

(** ** Boxes *)

Lemma invert_boxes_related (R : keypoint -> keypoint -> Prop) boxes ks :
  Forall2 R (flat_map bb_corners boxes) ks ->
  length ks = (length boxes * 4)%nat /\
  Forall2 (fun b o => label o = label b /\ exists k0 k1 k2 k3,
     R (mkKp (x1 b) (y1 b)) k0 /\ R (mkKp (x2 b) (y1 b)) k1 /\ R (mkKp (x2 b) (y2 b)) k2 /\ R (mkKp (x1 b) (y2 b)) k3 /\
     smallest_box_around o [k0; k1; k2; k3]) boxes (invert_boxes 0 boxes ks).
Proof.
  revert ks. induction boxes as [|b r IH]; intros ks H; cbn [flat_map bb_corners app] in H.
  - inversion H; subst. split; [reflexivity|constructor].
  - inversion H as [|? k0 ? l0 H0 T0]; subst. inversion T0 as [|? k1 ? l1 H1 T1]; subst.
    inversion T1 as [|? k2 ? l2 H2 T2]; subst. inversion T2 as [|? k3 ? l3 H3 T3]; subst.
    destruct (IH l3 T3) as [L F]. split; [cbn [length]; lia|]. cbn [invert_boxes]. constructor.
    + split; [reflexivity|]. exists k0, k1, k2, k3. repeat (split; [assumption|]).
      cbn [kp_at nth Nat.add Nat.mul]. apply smallest_box_four.
    + change (k0 :: k1 :: k2 :: k3 :: l3) with ([k0; k1; k2; k3] ++ l3). rewrite (invert_boxes_app r 1 [k0; k1; k2; k3]) by reflexivity. exact F.
Qed.

(** The smallest box around four points, from their extreme coordinates. *)
Lemma smallest_bounds o k0 k1 k2 k3 c : smallest_box_around o [k0; k1; k2; k3] ->
  (forall k, In k [k0; k1; k2; k3] -> in_box c (kx k) (ky k)) ->
  (exists k, In k [k0; k1; k2; k3] /\ kx k == x1 c) -> (exists k, In k [k0; k1; k2; k3] /\ kx k == x2 c) ->
  (exists k, In k [k0; k1; k2; k3] /\ ky k == y1 c) -> (exists k, In k [k0; k1; k2; k3] /\ ky k == y2 c) ->
  forall x y, in_box o x y <-> in_box c x y.
Proof.
  intros [P [IN SUB]] C [a [A1 A2]] [b [B1 B2]] [d [D1 D2]] [e [E1 E2]] x y. split.
  - apply SUB. exact C.
  - apply IN in A1. apply IN in B1. apply IN in D1. apply IN in E1. unfold in_box in *.
    intros [X1 [X2 [Y1 Y2]]]. repeat split; lra.
Qed.

Definition turned_box (k h w : Z) (b : bbox) : bbox :=
  match (k mod 4)%Z with
  | 0%Z => b
  | 1%Z => mkBB (inject_Z h - y2 b) (x1 b) (inject_Z h - y1 b) (x2 b) (label b)
  | 2%Z => mkBB (inject_Z w - x2 b) (inject_Z h - y2 b) (inject_Z w - x1 b) (inject_Z h - y1 b) (label b)
  | _ => mkBB (y1 b) (inject_Z w - x2 b) (y2 b) (inject_Z w - x1 b) (label b)
  end.
Definition rescaled_box (h w h' w' : Z) (b : bbox) : bbox :=
  mkBB (x1 b * inject_Z w / inject_Z w') (y1 b * inject_Z h / inject_Z h')
       (x2 b * inject_Z w / inject_Z w') (y2 b * inject_Z h / inject_Z h') (label b).
Definition moved_box (keep_size : bool) (k h w : Z) (b : bbox) : bbox :=
  if keep_size && Z.odd k && negb (h =? w)%Z then rescaled_box h w w h (turned_box k h w b) else turned_box k h w b.

Lemma turned_box_iff k h w b x y :
  let q := turned k h w (mkKp x y) in in_box b x y <-> in_box (turned_box k h w b) (kx q) (ky q).
Proof.
  unfold turned, turned_box, in_box. destruct (mod4_cases k) as [E|[E|[E|E]]]; rewrite E; cbn; split; intros [? [? [? ?]]]; repeat split; lra.
Qed.

Lemma scale_le a b u v : 0 < a -> 0 < b -> (u * a / b <= v * a / b <-> u <= v).
Proof.
  intros A B. rewrite <- (Qmult_le_l (u * a / b) (v * a / b) b B).
  setoid_replace (b * (u * a / b)) with (u * a) by (field; lra). setoid_replace (b * (v * a / b)) with (v * a) by (field; lra).
  apply Qmult_le_r. exact A.
Qed.

Lemma moved_box_iff keep k h w b x y : (keep = true -> 0 < h /\ 0 < w)%Z ->
  let q := moved keep k h w (mkKp x y) in in_box b x y <-> in_box (moved_box keep k h w b) (kx q) (ky q).
Proof.
  intros POS. pose proof (turned_box_iff k h w b x y) as T. cbv zeta in *. rewrite T. unfold moved, moved_box.
  destruct keep; cbn [andb]; [|reflexivity]. destruct (Z.odd k && negb (h =? w)%Z); [|reflexivity].
  destruct (POS eq_refl) as [H W].
  assert (0 < inject_Z h) as HQ by (change 0 with (inject_Z 0); rewrite <- Zlt_Qlt; exact H).
  assert (0 < inject_Z w) as WQ by (change 0 with (inject_Z 0); rewrite <- Zlt_Qlt; exact W).
  unfold in_box, rescaled_box, rescaled. cbn [x1 x2 y1 y2 kx ky]. rewrite !scale_le by assumption. reflexivity.
Qed.

Lemma moved_box_corners keep k h w b : (keep = true -> 0 < h /\ 0 < w)%Z -> proper b ->
  let m := moved keep k h w in let c := moved_box keep k h w b in
  let four := [m (mkKp (x1 b) (y1 b)); m (mkKp (x2 b) (y1 b)); m (mkKp (x2 b) (y2 b)); m (mkKp (x1 b) (y2 b))] in
  (forall q, In q four -> in_box c (kx q) (ky q)) /\
  (exists q, In q four /\ kx q = x1 c) /\ (exists q, In q four /\ kx q = x2 c) /\
  (exists q, In q four /\ ky q = y1 c) /\ (exists q, In q four /\ ky q = y2 c).
Proof.
  intros POS [P1 P2]. cbv zeta. split.
  - intros q Q. cbn [In] in Q.
    destruct Q as [<-|[<-|[<-|[<-|[]]]]]; apply moved_box_iff; try exact POS; unfold in_box; repeat split; lra.
  - unfold moved, moved_box.
    assert (forall t : Prop, t -> t) as ID by auto.
    set (four0 := [turned k h w (mkKp (x1 b) (y1 b)); turned k h w (mkKp (x2 b) (y1 b)); turned k h w (mkKp (x2 b) (y2 b)); turned k h w (mkKp (x1 b) (y2 b))]).
    assert ((exists q, In q four0 /\ kx q = x1 (turned_box k h w b)) /\ (exists q, In q four0 /\ kx q = x2 (turned_box k h w b)) /\
            (exists q, In q four0 /\ ky q = y1 (turned_box k h w b)) /\ (exists q, In q four0 /\ ky q = y2 (turned_box k h w b))) as B.
    { unfold four0, turned, turned_box. destruct (mod4_cases k) as [E|[E|[E|E]]]; rewrite E; cbn [x1 x2 y1 y2 kx ky];
        (split; [|split; [|split]]);
        match goal with |- exists q, In q [?u; ?v; ?s; ?t] /\ _ =>
          first [exists u; split; [cbn; auto|reflexivity] | exists v; split; [cbn; auto|reflexivity]
                |exists s; split; [cbn; auto|reflexivity] | exists t; split; [cbn; auto|reflexivity]] end. }
    destruct (keep && Z.odd k && negb (h =? w)%Z); [|exact B].
    destruct B as [[a [A1 A2]] [[d [D1 D2]] [[e [E1 E2]] [f [F1 F2]]]]].
    assert (forall q, In q four0 -> In (rescaled h w w h q)
      [rescaled h w w h (turned k h w (mkKp (x1 b) (y1 b))); rescaled h w w h (turned k h w (mkKp (x2 b) (y1 b)));
       rescaled h w w h (turned k h w (mkKp (x2 b) (y2 b))); rescaled h w w h (turned k h w (mkKp (x1 b) (y2 b)))]) as MAP.
    { intros q Q. unfold four0 in Q. cbn [In] in Q. destruct Q as [<-|[<-|[<-|[<-|[]]]]]; cbn [In]; auto. }
    split; [exists (rescaled h w w h a); split; [apply MAP; exact A1|cbn; rewrite A2; reflexivity]|].
    split; [exists (rescaled h w w h d); split; [apply MAP; exact D1|cbn; rewrite D2; reflexivity]|].
    split; [exists (rescaled h w w h e); split; [apply MAP; exact E1|cbn; rewrite E2; reflexivity]|].
    exists (rescaled h w w h f); split; [apply MAP; exact F1|cbn; rewrite F2; reflexivity].
Qed.

Lemma rotate_boxes_ok (keep : bool) k b :
  let '(h, w) := bbs_shape b in
  (keep = true -> 0 < h /\ 0 < w)%Z -> Forall proper (bbs b) ->
  exists r, rotate_boxes keep k b = Ok r /\
    bbs_shape r = (if keep then (h, w) else turned_shape k (h, w)) /\
    Forall2 (fun i o => label o = label i /\
      forall x y, let q := moved keep k h w (mkKp x y) in in_box i x y <-> in_box o (kx q) (ky q)) (bbs b) (bbs r).
Proof.
  destruct b as [l [h w]]. cbn [bbs bbs_shape]. intros POS PR. unfold rotate_boxes.
  pose proof (rotate_keypoints_ok keep k (bbsoi_to_keypoints (mkBbsoi l (h, w)))) as RK. cbn [bbsoi_to_keypoints kps_shape kps bbs_shape bbs] in RK.
  destruct (RK POS) as [r [R [S F]]]. rewrite R. cbn [bind].
  destruct (invert_boxes_related _ l (kps r) F) as [L G].
  unfold bbsoi_invert_to_keypoints. cbn [bbs]. rewrite L, Nat.eqb_refl. eexists. split; [reflexivity|].
  cbn [bbs_shape bbs]. split; [exact S|]. clear R F L RK. revert G. generalize (invert_boxes 0 l (kps r)). intros out G.
  induction G as [|i o l' out' [LB [k0 [k1 [k2 [k3 [K0 [K1 [K2 [K3 SM]]]]]]]]] G IH]; constructor.
  - split; [exact LB|]. inversion PR as [|? ? PI _]; subst. intros x y. cbv zeta. rewrite (moved_box_iff keep k h w i x y POS).
    symmetry. destruct (moved_box_corners keep k h w i POS PI) as [C1 [C2 [C3 [C4 C5]]]].
    assert (forall v w : keypoint, kp_eq v w -> forall c, in_box c (kx w) (ky w) -> in_box c (kx v) (ky v)) as TR.
    { intros v u [V1 V2] c. unfold in_box. intros [? [? [? ?]]]. repeat split; lra. }
    apply (smallest_bounds o k0 k1 k2 k3); [exact SM| | | | |].
    + intros q Q. cbn [In] in Q. destruct Q as [<-|[<-|[<-|[<-|[]]]]].
      * apply (TR _ _ K0). apply C1. cbn. auto.
      * apply (TR _ _ K1). apply C1. cbn. auto.
      * apply (TR _ _ K2). apply C1. cbn. auto.
      * apply (TR _ _ K3). apply C1. cbn. auto.
    + destruct C2 as [q [Q E]]. cbn [In] in Q. destruct K0 as [K0 _], K1 as [K1 _], K2 as [K2 _], K3 as [K3 _].
      destruct Q as [<-|[<-|[<-|[<-|[]]]]]; rewrite <- E; [exists k0|exists k1|exists k2|exists k3]; (split; [cbn; auto|assumption]).
    + destruct C3 as [q [Q E]]. cbn [In] in Q. destruct K0 as [K0 _], K1 as [K1 _], K2 as [K2 _], K3 as [K3 _].
      destruct Q as [<-|[<-|[<-|[<-|[]]]]]; rewrite <- E; [exists k0|exists k1|exists k2|exists k3]; (split; [cbn; auto|assumption]).
    + destruct C4 as [q [Q E]]. cbn [In] in Q. destruct K0 as [_ K0], K1 as [_ K1], K2 as [_ K2], K3 as [_ K3].
      destruct Q as [<-|[<-|[<-|[<-|[]]]]]; rewrite <- E; [exists k0|exists k1|exists k2|exists k3]; (split; [cbn; auto|assumption]).
    + destruct C5 as [q [Q E]]. cbn [In] in Q. destruct K0 as [_ K0], K1 as [_ K1], K2 as [_ K2], K3 as [_ K3].
      destruct Q as [<-|[<-|[<-|[<-|[]]]]]; rewrite <- E; [exists k0|exists k1|exists k2|exists k3]; (split; [cbn; auto|assumption]).
  - apply IH. inversion PR; assumption.
Qed.
