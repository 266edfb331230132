From Coq Require Import Lia Lqa FinFun Bool.
From Verif Require Import Prelude PreludeFacts GeoModel SizeModel SizeSpec SizeProofs UtilModel UtilProofs JigModel JigSpec.

Lemma in_cells : forall nr nc y x, In (y, x) (cells nr nc) <-> 0 <= y < nr /\ 0 <= x < nc.
Proof.
  intros. unfold cells. rewrite in_flat_map. split.
  - intros [r [R C]]. apply in_map_iff in C as [c [E C]]. injection E as -> ->.
    apply in_zrange in R, C. lia.
  - intros [R C]. exists y. split; [apply in_zrange; lia|]. apply in_map_iff. exists x. split; [reflexivity|]. apply in_zrange. lia.
Qed.

Definition bounded (d : arr Z) : Prop := forall r c, in_grid d r c -> 0 <= apx d r c < ah d * aw d.
Definition injective (d : arr Z) : Prop := forall r c r2 c2, in_grid d r c -> in_grid d r2 c2 ->
  apx d r c = apx d r2 c2 -> r = r2 /\ c = c2.

Lemma cell_number : forall nc r c, 0 <= c < nc -> (r * nc + c) / nc = r /\ (r * nc + c) mod nc = c.
Proof.
  intros. split.
  - rewrite Z.add_comm, Z.div_add by lia. rewrite Z.div_small by lia. lia.
  - rewrite Z.add_comm, Z_mod_plus_full. apply Z.mod_small. lia.
Qed.
Lemma number_cell : forall nr nc i, 0 <= i < nr * nc -> 0 < nc ->
  0 <= i / nc < nr /\ 0 <= i mod nc < nc /\ i = i / nc * nc + i mod nc.
Proof.
  intros. split; [|split].
  - split; [apply Z.div_pos; lia|]. apply Z.div_lt_upper_bound; lia.
  - apply Z.mod_pos_bound. lia.
  - rewrite (Z.div_mod i nc) at 1 by lia. ring.
Qed.
Lemma sends_iff : forall d r c r' c', bounded d -> in_grid d r c ->
  (sends d r c r' c' <-> r' = apx d r c / aw d /\ c' = apx d r c mod aw d).
Proof.
  intros d r c r' c' B G. pose proof (B r c G) as V. unfold in_grid in G.
  destruct (number_cell _ _ _ V ltac:(lia)) as [D1 [D2 D3]]. split.
  - intros [S1 [S2 S3]]. rewrite S3. destruct (cell_number (aw d) r' c' S2). lia.
  - intros [-> ->]. unfold sends. auto.
Qed.

Lemma injective_rearranges : forall d, bounded d -> injective d -> rearranges d.
Proof.
  intros d B I. split.
  - intros r c G. exists (apx d r c / aw d), (apx d r c mod aw d). apply sends_iff; auto.
  - intros r' c' G. pose proof G as G'. unfold in_grid in G'.
    set (f := fun i => apx d (i / aw d) (i mod aw d)).
    assert (forall i, 0 <= i < ah d * aw d -> in_grid d (i / aw d) (i mod aw d)) as GI.
    { intros i Hi. destruct (number_cell _ _ _ Hi ltac:(lia)) as [D1 [D2 D3]]. split; auto. }
    assert (NoDup (zrange (ah d * aw d))) as ND.
    { unfold zrange. apply Injective_map_NoDup; [intros a b; lia|apply seq_NoDup]. }
    assert (NoDup (map f (zrange (ah d * aw d)))) as NF.
    { assert (forall l, NoDup l -> (forall i, In i l -> 0 <= i < ah d * aw d) -> NoDup (map f l)) as W.
      { induction l as [|i l IH]; intros N H; [constructor|]. inversion_clear N as [|? ? N1 N2]. cbn. constructor.
        - intros J. apply in_map_iff in J as [j [E J]]. apply N1.
          assert (0 <= i < ah d * aw d) as Hi by (apply H; left; reflexivity).
          assert (0 <= j < ah d * aw d) as Hj by (apply H; right; exact J).
          destruct (I _ _ _ _ (GI _ Hj) (GI _ Hi) E) as [E1 E2].
          destruct (number_cell _ _ _ Hi ltac:(lia)) as [_ [_ D]]. destruct (number_cell _ _ _ Hj ltac:(lia)) as [_ [_ D']].
          rewrite D, <- E1, <- E2, <- D'. exact J.
        - apply IH; [exact N2|]. intros k K. apply H. right. exact K. }
      apply W; [exact ND|]. intros i Hi. apply in_zrange in Hi. lia. }
    assert (incl (zrange (ah d * aw d)) (map f (zrange (ah d * aw d)))) as INC.
    { apply NoDup_length_incl; [exact NF|rewrite map_length; lia|].
      intros v V. apply in_map_iff in V as [i [<- V]]. apply in_zrange in V. apply in_zrange.
      assert (0 <= i < ah d * aw d) as Hi by lia.
      pose proof (B _ _ (GI i Hi)). unfold f. lia. }
    assert (In (r' * aw d + c') (zrange (ah d * aw d))) as T by (apply in_zrange; nia).
    apply INC in T. apply in_map_iff in T as [i [E T]]. apply in_zrange in T.
    assert (0 <= i < ah d * aw d) as Hi by lia.
    exists (i / aw d), (i mod aw d). split; [apply GI; exact Hi|]. split.
    + unfold sends. unfold f in E. unfold in_grid in G. tauto.
    + intros r2 c2 G2 [_ [_ S2]]. apply (I r2 c2); [exact G2|apply GI; exact Hi|]. rewrite S2. symmetry. exact E.
Qed.
Lemma rearranges_injective : forall d, rearranges d -> bounded d /\ injective d.
Proof.
  intros d [T U]. split.
  - intros r c G. destruct (T r c G) as [r' [c' [S1 [S2 S3]]]]. rewrite S3. nia.
  - intros r c r2 c2 G G2 E. destruct (T r c G) as [r' [c' S]]. pose proof S as [S1 [S2 S3]].
    destruct (U r' c' ltac:(split; assumption)) as [r0 [c0 [G0 [S0 UQ]]]].
    destruct (UQ r c G S) as [-> ->].
    destruct (UQ r2 c2 G2 ltac:(split; [|split]; [assumption..|lia])) as [-> ->]. split; reflexivity.
Qed.

(** Generation. *)
Definition jinv (nr nc : Z) (s : jstate) : Prop :=
  bounded (mkArr nr nc (js_dest s)) /\ injective (mkArr nr nc (js_dest s)).

Lemma put_same : forall f y x v, put f y x v y x = v.
Proof. intros. unfold put. rewrite !Z.eqb_refl. reflexivity. Qed.
Lemma put_other : forall f y x v y' x', ~ (y' = y /\ x' = x) -> put f y x v y' x' = f y' x'.
Proof. intros. unfold put. destruct ((y' =? y) && (x' =? x)) eqn:E; [|reflexivity]. exfalso. lia. Qed.

Definition transp (y x y2 x2 : Z) (p : Z * Z) : Z * Z :=
  if (fst p =? y) && (snd p =? x) then (y2, x2) else if (fst p =? y2) && (snd p =? x2) then (y, x) else p.
Lemma swap_transp : forall f y x y2 x2 r c, ~ (y = y2 /\ x = x2) ->
  put (put f y x (f y2 x2)) y2 x2 (f y x) r c = (let '(r', c') := transp y x y2 x2 (r, c) in f r' c').
Proof.
  intros. unfold transp, put. cbn [fst snd].
  destruct ((r =? y2) && (c =? x2)) eqn:E2; destruct ((r =? y) && (c =? x)) eqn:E1; try reflexivity. exfalso. lia.
Qed.

Inductive step_result (nr nc : Z) (dirs : Z -> Z -> Z) (s : jstate) (y x : Z) : jstate -> Prop :=
| step_stays : step_result nr nc dirs s y x s
| step_swaps : forall y2 x2, 0 < js_steps s y x -> 0 < js_steps s y2 x2 -> ~ (y = y2 /\ x = x2) ->
    0 <= y2 < nr -> 0 <= x2 < nc -> distance 8 y x y2 x2 = 1 ->
    (0 <= dirs y x < 4 -> distance 4 y x y2 x2 = 1) ->
    step_result nr nc dirs s y x
      (mkJs (put (put (js_steps s) y x (js_steps s y x - 1)) y2 x2 (js_steps s y2 x2 - 1))
            (put (put (js_dest s) y x (js_dest s y2 x2)) y2 x2 (js_dest s y x))).

Lemma jigsaw_step_result : forall nr nc dirs s y x, 0 <= y < nr -> 0 <= x < nc ->
  step_result nr nc dirs s y x (jigsaw_step nr nc dirs s (y, x)).
Proof.
  intros nr nc dirs s y x Y X. unfold jigsaw_step.
  destruct (Z.ltb_spec 0 (js_steps s y x)) as [S|S]; [|constructor].
  destruct (direction_target (dirs y x) y x) as [ty tx] eqn:T. cbv zeta.
  set (y2 := Z.max (Z.min ty (nr - 1)) 0). set (x2 := Z.max (Z.min tx (nc - 1)) 0).
  destruct (negb ((y =? y2) && (x =? x2)) && (1 <=? js_steps s y2 x2)) eqn:E; [|constructor].
  apply andb_prop in E as [E1 E2]. assert (~ (y = y2 /\ x = x2)) as N by lia.
  rewrite (put_other _ _ _ _ y2 x2) by lia.
  assert (0 <= y2 < nr /\ 0 <= x2 < nc) as [B1 B2] by lia.
  assert (-1 <= ty - y <= 1 /\ -1 <= tx - x <= 1 /\ (0 <= dirs y x < 4 -> ty = y \/ tx = x)) as [D1 [D2 D3]].
  { clear - T. unfold direction_target in T.
    destruct (dirs y x) as [|[[[?|?|]|[?|?|]|]|[[?|?|]|[?|?|]|]|]|?]; injection T as <- <-; lia. }
  apply step_swaps; try assumption; try lia; unfold distance; cbn [Z.eqb Pos.eqb]; lia.
Qed.

Lemma jinv_step : forall nr nc dirs s s' y x, 0 <= y < nr -> 0 <= x < nc -> jinv nr nc s ->
  step_result nr nc dirs s y x s' -> jinv nr nc s'.
Proof.
  intros nr nc dirs s s' y x Y X [B I] R. destruct R as [|y2 x2 S1 S2 N Y2 X2 _ _]; [split; assumption|].
  unfold jinv, bounded, injective, in_grid in *. cbn [ah aw apx js_dest] in *. split.
  - intros r c G. rewrite swap_transp by assumption. unfold transp. cbn [fst snd].
    destruct ((r =? y) && (c =? x)); [apply B; lia|]. destruct ((r =? y2) && (c =? x2)); apply B; lia.
  - intros r c r2 c2 G G2. rewrite !swap_transp by assumption. unfold transp. cbn [fst snd].
    destruct ((r =? y) && (c =? x)) eqn:A1; destruct ((r2 =? y) && (c2 =? x)) eqn:A2;
      destruct ((r =? y2) && (c =? x2)) eqn:A3; destruct ((r2 =? y2) && (c2 =? x2)) eqn:A4;
      intros E; try lia; apply I in E; lia.
Qed.

Lemma fold_cells_inv : forall (P : jstate -> Prop) nr nc dirs l s,
  (forall c, In c l -> 0 <= fst c < nr /\ 0 <= snd c < nc) ->
  (forall s s' y x, 0 <= y < nr -> 0 <= x < nc -> P s -> step_result nr nc dirs s y x s' -> P s') ->
  P s -> P (fold_left (jigsaw_step nr nc dirs) l s).
Proof.
  intros P nr nc dirs l. induction l as [|[y x] l IH]; intros s L ST H; [exact H|]. cbn [fold_left]. apply IH.
  - intros c C. apply L. right. exact C.
  - exact ST.
  - pose proof (L (y, x) (or_introl eq_refl)) as [Y X]. cbn in Y, X.
    eapply (ST s _ y x); [assumption..|]. apply jigsaw_step_result; assumption.
Qed.
Lemma generate_inv : forall (P : jstate -> Prop) nr nc max_steps steps dirs,
  (forall s s' y x k, (k < max_steps)%nat -> 0 <= y < nr -> 0 <= x < nc -> P s ->
     step_result nr nc (fun y x => dirs y x k) s y x s' -> P s') ->
  P (mkJs steps (fun y x => y * nc + x)) ->
  exists s, P s /\ generate_jigsaw_destinations nr nc max_steps steps dirs = mkArr nr nc (js_dest s).
Proof.
  intros P nr nc ms steps dirs ST H. unfold generate_jigsaw_destinations. cbv zeta. eexists. split; [|reflexivity].
  assert (forall l s, (forall k, In k l -> (k < ms)%nat) -> P s -> P (fold_left
    (fun s step => fold_left (jigsaw_step nr nc (fun y x => dirs y x step)) (cells nr nc) s) l s)) as W.
  { induction l as [|k l IH]; intros s L Hs; [exact Hs|]. cbn [fold_left]. apply IH; [intros; apply L; right; assumption|].
    apply (fold_cells_inv P); [|intros s0 s' y x; apply (ST s0 s' y x k); apply L; left; reflexivity|exact Hs].
    intros [y x] C. apply in_cells in C. exact C. }
  apply W; [|exact H]. intros k K. apply in_seq in K. lia.
Qed.

Lemma generate_rearranges : forall nr nc ms steps dirs,
  rearranges (generate_jigsaw_destinations nr nc ms steps dirs).
Proof.
  intros nr nc ms steps dirs. destruct (generate_inv (jinv nr nc) nr nc ms steps dirs) as [s [[B I] ->]].
  - intros s s' y x k _ Y X. apply jinv_step; assumption.
  - split; unfold bounded, injective, in_grid; cbn [ah aw apx js_dest].
    + intros r c G. nia.
    + intros r c r2 c2 G G2 E. destruct (cell_number nc r c), (cell_number nc r2 c2); try tauto. rewrite E in *. lia.
  - apply injective_rearranges; assumption.
Qed.

Lemma generate_zero : forall nr nc ms steps dirs, (forall r c, 0 <= r < nr -> 0 <= c < nc -> steps r c <= 0) ->
  forall r c, 0 <= r < nr -> 0 <= c < nc -> apx (generate_jigsaw_destinations nr nc ms steps dirs) r c = r * nc + c.
Proof.
  intros nr nc ms steps dirs Z r c R C.
  destruct (generate_inv (fun s => s = mkJs steps (fun y x => y * nc + x)) nr nc ms steps dirs) as [s [-> ->]]; [|reflexivity|reflexivity].
  intros s s' y x k _ Y X -> ST. destruct ST as [|y2 x2 S1 S2 N Y2 X2 _ _]; [reflexivity|].
  cbn [js_steps] in S1. specialize (Z y x Y X). lia.
Qed.

(** One step: cells that can still move have not moved, moved cells swapped
    with a neighbour. *)
Definition one_step_inv (nr nc conn : Z) (s : jstate) : Prop :=
  forall r c, 0 <= r < nr -> 0 <= c < nc ->
    js_steps s r c <= 1 /\
    (0 < js_steps s r c -> js_dest s r c = r * nc + c) /\
    exists r' c', 0 <= r' < nr /\ 0 <= c' < nc /\ js_dest s r c = r' * nc + c' /\ js_dest s r' c' = r * nc + c /\
      distance conn r c r' c' <= 1.

Lemma distance_sym : forall k r c r' c', distance k r c r' c' = distance k r' c' r c.
Proof. intros. unfold distance. destruct (k =? 8); lia. Qed.

Lemma generate_one_step : forall nr nc conn steps dirs,
  (conn = 4 \/ conn = 8) ->
  (forall r c, 0 <= r < nr -> 0 <= c < nc -> 0 <= steps r c <= 1) ->
  (forall r c k, 0 <= r < nr -> 0 <= c < nc -> 0 <= dirs r c k < conn) ->
  forall r c, 0 <= r < nr -> 0 <= c < nc ->
    let d := generate_jigsaw_destinations nr nc 1 steps dirs in
    exists r' c', sends d r c r' c' /\ sends d r' c' r c /\ distance conn r c r' c' <= 1.
Proof.
  intros nr nc conn steps dirs K SB DB r c R C d. subst d.
  destruct (generate_inv (one_step_inv nr nc conn) nr nc 1 steps dirs) as [s [I ->]].
  - intros s s' y x k _ Y X I ST. destruct ST as [|y2 x2 S1 S2 N Y2 X2 D8 D4]; [exact I|].
    assert (distance conn y x y2 x2 = 1) as DD.
    { destruct K as [-> | ->]; [|exact D8]. apply D4. apply DB; assumption. }
    pose proof (I y x Y X) as [L1 [U1 _]]. pose proof (I y2 x2 Y2 X2) as [L2 [U2 _]].
    specialize (U1 S1). specialize (U2 S2).
    intros r0 c0 R0 C0. cbn [js_steps js_dest]. pose proof (I r0 c0 R0 C0) as [L0 [U0 [r' [c' [R' [C' [E1 [E2 DS]]]]]]]].
    assert ((r0 = y2 /\ c0 = x2) \/ (r0 = y /\ c0 = x /\ ~ (r0 = y2 /\ c0 = x2)) \/ (~ (r0 = y2 /\ c0 = x2) /\ ~ (r0 = y /\ c0 = x))) as [Q|[Q|Q]] by lia.
    + destruct Q as [-> ->]. rewrite !put_same. split; [lia|]. split; [lia|].
      exists y, x. rewrite (put_other _ y2 x2) by lia. rewrite put_same. rewrite distance_sym. repeat split; (assumption || lia).
    + destruct Q as [-> [-> Q]]. rewrite !(put_other _ y2 x2) by lia. rewrite !put_same. split; [lia|]. split; [lia|].
      exists y2, x2. rewrite put_same. repeat split; (assumption || lia).
    + destruct Q as [Q1 Q2]. rewrite !(put_other _ y2 x2), !(put_other _ y x) by lia. split; [lia|]. split; [exact U0|].
      exists r', c'.
      (* the partner is neither of the two swapped cells: they were at home *)
      assert (~ (r' = y2 /\ c' = x2)) as P1.
      { intros [-> ->]. rewrite U2 in E2. destruct (cell_number nc y2 x2 X2), (cell_number nc r0 c0 C0). rewrite E2 in *. lia. }
      assert (~ (r' = y /\ c' = x)) as P2.
      { intros [-> ->]. rewrite U1 in E2. destruct (cell_number nc y x X), (cell_number nc r0 c0 C0). rewrite E2 in *. lia. }
      rewrite (put_other _ y2 x2), (put_other _ y x) by lia. repeat split; (assumption || lia).
  - intros r0 c0 R0 C0. cbn [js_steps js_dest]. specialize (SB r0 c0 R0 C0). split; [lia|]. split; [reflexivity|].
    exists r0, c0. repeat split; try lia. unfold distance. destruct (conn =? 8); lia.
  - destruct (I r c R C) as [_ [_ [r' [c' [R' [C' [E1 [E2 DS]]]]]]]]. exists r', c'. unfold sends. cbn [ah aw apx]. tauto.
Qed.

(** Moving the pixels. *)
Lemma fold_copy : forall A (a : arr A) d ch cw l init y x r c,
  In (r, c) l ->
  (forall r2 c2, In (r2, c2) l ->
     apx d r2 c2 / aw d * ch <= y < apx d r2 c2 / aw d * ch + ch ->
     apx d r2 c2 mod aw d * cw <= x < apx d r2 c2 mod aw d * cw + cw -> r2 = r /\ c2 = c) ->
  apx d r c / aw d * ch <= y < apx d r c / aw d * ch + ch ->
  apx d r c mod aw d * cw <= x < apx d r c mod aw d * cw + cw ->
  fold_left (copy_cell a d ch cw) l init y x =
  apx a (r * ch + (y - apx d r c / aw d * ch)) (c * cw + (x - apx d r c mod aw d * cw)).
Proof.
  intros A a d ch cw l. induction l as [|[r2 c2] l IH] using rev_ind; intros init y x r c IN U Y X; [destruct IN|].
  rewrite fold_left_app. cbn [fold_left]. unfold copy_cell at 1.
  destruct ((apx d r2 c2 / aw d * ch <=? y) && (y <? apx d r2 c2 / aw d * ch + ch) &&
            ((apx d r2 c2 mod aw d * cw <=? x) && (x <? apx d r2 c2 mod aw d * cw + cw))) eqn:E.
  - destruct (U r2 c2) as [-> ->]; [apply in_or_app; right; left; reflexivity|lia|lia|reflexivity].
  - apply IH; [|intros r3 c3 I3; apply U; apply in_or_app; left; exact I3|assumption..].
    apply in_app_or in IN as [IN|[IN|[]]]; [exact IN|]. injection IN as -> ->. exfalso. lia.
Qed.

Lemma bounded_unravels : forall d, bounded d -> unravels d = true.
Proof.
  intros d B. apply forallb_forall. intros [r c] C. apply in_cells in C. cbn [fst snd].
  specialize (B r c C). lia.
Qed.
Lemma unravels_bounded : forall d, unravels d = true -> bounded d.
Proof.
  intros d U r c G. unfold unravels in U. rewrite forallb_forall in U.
  specialize (U (r, c)). cbn [fst snd] in U. unfold in_grid in G. rewrite in_cells in U. specialize (U G). lia.
Qed.

Lemma block_unique : forall s i j v, i * s <= v < i * s + s -> j * s <= v < j * s + s -> i = j.
Proof. intros. nia. Qed.

Lemma apply_jigsaw_ok : forall A zero (a : arr A) d ch cw, rearranges d -> 0 < ah d -> 0 < aw d ->
  ah a = ah d * ch -> aw a = aw d * cw ->
  exists b, apply_jigsaw zero a d = Ok b /\ ah b = ah a /\ aw b = aw a /\
    forall r c r' c' dy dx, in_grid d r c -> sends d r c r' c' -> 0 <= dy < ch -> 0 <= dx < cw ->
      apx b (r' * ch + dy) (c' * cw + dx) = apx a (r * ch + dy) (c * cw + dx).
Proof.
  intros A zero a d ch cw RE H W EH EW. destruct (rearranges_injective d RE) as [B I].
  unfold apply_jigsaw. destruct (Z.eqb_spec (ah d) 0); [lia|]. destruct (Z.eqb_spec (aw d) 0); [lia|].
  rewrite EH, EW. rewrite (Z.mul_comm (ah d)), (Z.mul_comm (aw d)), !Z_mod_mult, !Z.div_mul by lia. cbn [Z.eqb negb].
  rewrite (bounded_unravels d B). cbn [negb]. eexists. split; [reflexivity|]. cbn [ah aw apx]. split; [lia|]. split; [lia|].
  intros r c r' c' dy dx G S DY DX. apply (sends_iff d r c) in S as [-> ->]; [|assumption..].
  rewrite (fold_copy _ _ _ _ _ _ _ _ _ r c).
  - f_equal; lia.
  - apply in_cells. exact G.
  - intros r2 c2 I2 Y X. apply in_cells in I2. apply I; [exact I2|exact G|].
    assert (apx d r2 c2 / aw d = apx d r c / aw d) as E1 by (apply (block_unique ch) with (v := apx d r c / aw d * ch + dy); lia).
    assert (apx d r2 c2 mod aw d = apx d r c mod aw d) as E2 by (apply (block_unique cw) with (v := apx d r c mod aw d * cw + dx); lia).
    rewrite (Z.div_mod (apx d r2 c2) (aw d)), (Z.div_mod (apx d r c) (aw d)) by lia. lia.
  - lia.
  - lia.
Qed.

Lemma apply_jigsaw_raises : forall A zero (a : arr A) d, 0 < ah d -> 0 < aw d ->
  (~ (ah d | ah a) \/ ~ (aw d | aw a)) -> apply_jigsaw zero a d = Err AssertionError.
Proof.
  intros A zero a d H W N. unfold apply_jigsaw. destruct (Z.eqb_spec (ah d) 0); [lia|]. destruct (Z.eqb_spec (aw d) 0); [lia|].
  destruct (Z.eqb_spec (ah a mod ah d) 0) as [E1|E1]; [|reflexivity]. destruct (Z.eqb_spec (aw a mod aw d) 0) as [E2|E2]; [|reflexivity].
  exfalso. apply Z.mod_divide in E1, E2; tauto.
Qed.

(** Moving the coordinates. *)
Local Open Scope Q_scope.

Lemma floor_cell : forall (y : Q) r s, (0 < s)%Z -> inject_Z (r * s) <= y -> y < inject_Z (r * s + s) ->
  Qfloor (y / inject_Z s) = r.
Proof.
  intros y r s S L U. assert (0 < inject_Z s) as P by (change 0 with (inject_Z 0); rewrite <- Zlt_Qlt; exact S).
  rewrite inject_Z_mult in L. rewrite inject_Z_plus, inject_Z_mult in U.
  apply Qfloor_unique.
  - apply Qle_shift_div_l; assumption.
  - apply Qlt_shift_div_r; [assumption|]. lra.
Qed.

Lemma inject_lt : forall a b, (a < b)%Z -> inject_Z a < inject_Z b.
Proof. intros. rewrite <- Zlt_Qlt. assumption. Qed.
Lemma inject_le : forall a b, (a <= b)%Z -> inject_Z a <= inject_Z b.
Proof. intros. rewrite <- Zle_Qle. assumption. Qed.

Lemma jigsaw_coord_cell : forall d ch cw r c r' c' p, bounded d -> (0 < ch)%Z -> (0 < cw)%Z ->
  in_grid d r c -> sends d r c r' c' ->
  inject_Z (c * cw) <= kx p -> kx p < inject_Z (c * cw + cw) ->
  inject_Z (r * ch) <= ky p -> ky p < inject_Z (r * ch + ch) ->
  exists q, jigsaw_coord d (ah d * ch) (aw d * cw) p = Ok q /\
    kx q == kx p + inject_Z ((c' - c) * cw) /\ ky q == ky p + inject_Z ((r' - r) * ch).
Proof.
  intros d ch cw r c r' c' p B CH CW G S X1 X2 Y1 Y2. pose proof (proj1 (sends_iff d r c r' c' B G) S) as [E1 E2].
  pose proof G as [R C]. unfold jigsaw_coord. cbv zeta.
  rewrite (Z.mul_comm (ah d) ch), (Z.mul_comm (aw d) cw), !Z.div_mul by lia.
  rewrite (floor_cell (ky p) r ch), (floor_cell (kx p) c cw) by assumption.
  assert (qltb (kx p) 0 || qleb (inject_Z (cw * aw d)) (kx p) = false) as ->.
  { assert (inject_Z 0 <= inject_Z (c * cw)) by (apply inject_le; nia).
    assert (inject_Z (c * cw + cw) <= inject_Z (cw * aw d)) by (apply inject_le; nia).
    change (inject_Z 0) with 0 in *.
    destruct (qltb (kx p) 0) eqn:Q1; [apply qltb_iff in Q1; lra|]. destruct (qleb (inject_Z (cw * aw d)) (kx p)) eqn:Q2; [apply qleb_iff in Q2; lra|reflexivity]. }
  assert (qltb (ky p) 0 || qleb (inject_Z (ch * ah d)) (ky p) = false) as ->.
  { assert (inject_Z 0 <= inject_Z (r * ch)) by (apply inject_le; nia).
    assert (inject_Z (r * ch + ch) <= inject_Z (ch * ah d)) by (apply inject_le; nia).
    change (inject_Z 0) with 0 in *.
    destruct (qltb (ky p) 0) eqn:Q1; [apply qltb_iff in Q1; lra|]. destruct (qleb (inject_Z (ch * ah d)) (ky p)) eqn:Q2; [apply qleb_iff in Q2; lra|reflexivity]. }
  cbn [orb]. replace ((ch =? 0)%Z || (cw =? 0)%Z) with false by lia.
  destruct (Z.leb_spec (ah d * aw d) (r * aw d + c)) as [L|L]; [nia|].
  destruct (cell_number (aw d) r c C) as [N1 N2]. rewrite N1, N2, <- E1, <- E2. eexists. split; [reflexivity|]. cbn [kx ky].
  split.
  - rewrite Z.mul_sub_distr_r. unfold Z.sub. rewrite inject_Z_plus, inject_Z_opp. ring.
  - rewrite Z.mul_sub_distr_r. unfold Z.sub. rewrite inject_Z_plus, inject_Z_opp. ring.
Qed.

Lemma jigsaw_coord_outside : forall d h w p,
  kx p < 0 \/ inject_Z w <= kx p \/ ky p < 0 \/ inject_Z h <= ky p -> jigsaw_coord d h w p = Ok p.
Proof.
  intros d h w p O. unfold jigsaw_coord. cbv zeta.
  assert ((qltb (kx p) 0 || qleb (inject_Z w) (kx p)) || (qltb (ky p) 0 || qleb (inject_Z h) (ky p)) = true) as ->; [|reflexivity].
  destruct O as [O|[O|[O|O]]].
  - apply qltb_iff in O. rewrite O. reflexivity.
  - apply qleb_iff in O. rewrite O, !orb_true_r. reflexivity.
  - apply qltb_iff in O. rewrite O. cbn [orb]. rewrite orb_true_r. reflexivity.
  - apply qleb_iff in O. rewrite O, !orb_true_r. reflexivity.
Qed.

(** Every position inside of the image lies in a cell. *)
Lemma inside_cell : forall n s (v : Q), (0 < s)%Z -> 0 <= v -> v < inject_Z (n * s) ->
  exists i, (0 <= i < n)%Z /\ inject_Z (i * s) <= v /\ v < inject_Z (i * s + s).
Proof.
  intros n s v S L U. assert (0 < inject_Z s) as P by (change 0 with (inject_Z 0); rewrite <- Zlt_Qlt; exact S).
  exists (Qfloor (v / inject_Z s)). destruct (Qfloor_spec (v / inject_Z s)) as [F1 F2].
  set (f := Qfloor (v / inject_Z s)) in *. clearbody f.
  assert (v == v / inject_Z s * inject_Z s) as EV by (field; lra).
  set (z := v / inject_Z s) in *. clearbody z.
  assert (inject_Z (f * s) <= v) as A1.
  { rewrite inject_Z_mult, EV. apply Qmult_le_compat_r; lra. }
  assert (v < inject_Z (f * s + s)) as A2.
  { rewrite inject_Z_plus, inject_Z_mult, EV.
    assert (z * inject_Z s < (inject_Z f + 1) * inject_Z s) by (apply Qmult_lt_compat_r; assumption). lra. }
  split; [|split; assumption].
  assert (inject_Z 0 < inject_Z (f * s + s)) as A3 by (eapply Qle_lt_trans; [exact L|exact A2]).
  assert (inject_Z (f * s) < inject_Z (n * s)) as A4 by (eapply Qle_lt_trans; [exact A1|exact U]).
  rewrite <- Zlt_Qlt in A3, A4. nia.
Qed.

Lemma pixel_in_cell : forall s i k (v : Q), (0 <= k < s)%Z -> inject_Z (i * s + k) <= v -> v < inject_Z (i * s + k + 1) ->
  inject_Z (i * s) <= v /\ v < inject_Z (i * s + s).
Proof.
  intros s i k v K L U. split.
  - eapply Qle_trans; [apply inject_le; instantiate (1 := (i * s + k)%Z); lia|exact L].
  - eapply Qlt_le_trans; [exact U|]. apply inject_le. lia.
Qed.

(** The padding. *)
Lemma jigsaw_paddings_ok : forall h w d, (0 <= h)%Z -> (0 <= w)%Z -> (0 < ah d)%Z -> (0 < aw d)%Z ->
  exists p, jigsaw_paddings true (h, w) d = Ok p /\ nonneg p /\
    (exists ch, 0 < ch /\ h + t_top p + t_bottom p = ah d * ch)%Z /\
    (exists cw, 0 < cw /\ w + t_left p + t_right p = aw d * cw)%Z /\
    (forall v, multiple_of (ah d) v -> 0 < v -> h <= v -> h + t_top p + t_bottom p <= v)%Z /\
    (forall v, multiple_of (aw d) v -> 0 < v -> w <= v -> w + t_left p + t_right p <= v)%Z.
Proof.
  intros h w d H W DH DW. unfold jigsaw_paddings.
  destruct (multiples_accepts (h, w) (Some (ah d)) (Some (aw d))) as [[p0 P0] _].
  { intros m [E|E]; injection E as <-; assumption. }
  destruct (pad_to_multiples_amounts (h, w) (Some (ah d)) (Some (aw d)) (1 # 2) (1 # 2)) as [p|e] eqn:E.
  - exists p. split; [reflexivity|].
    destruct (positions_do_not_matter_pad_multiples h w (Some (ah d)) (Some (aw d)) (1 # 2) (1 # 2) p H W ltac:(lra) ltac:(lra) ltac:(lra) ltac:(lra) E) as [N [FH FW]].
    destruct (FH _ eq_refl) as [[k1 M1] [P1 S1]]. destruct (FW _ eq_refl) as [[k2 M2] [P2 S2]].
    split; [exact N|]. rewrite M1 in P1. rewrite M2 in P2.
    apply (Z.mul_pos_cancel_r k1 (ah d)) in P1; [|assumption]. apply (Z.mul_pos_cancel_r k2 (aw d)) in P2; [|assumption].
    split; [exists k1; split; [assumption|rewrite M1; apply Z.mul_comm]|].
    split; [exists k2; split; [assumption|rewrite M2; apply Z.mul_comm]|]. split; assumption.
  - unfold pad_to_multiples_amounts in E. rewrite P0 in E. discriminate.
Qed.

Lemma no_crop : forall h w, (0 <= h)%Z -> (0 <= w)%Z -> crop_trbl_to_xyxy h w (mkTrbl 0 0 0 0) = ((0, 0), (w, h))%Z.
Proof.
  intros h w H W. assert (forall a, (0 <= a)%Z -> prevent_zero_size a 0 0 = (0, 0)%Z) as P.
  { intros a A. unfold prevent_zero_size. cbv zeta. rewrite Z.add_0_l, Z.sub_0_r.
    destruct (Z.ltb_spec a 1).
    - assert (a = 0%Z) as -> by lia. reflexivity.
    - reflexivity. }
  unfold crop_trbl_to_xyxy. cbn [t_top t_bottom t_left t_right]. rewrite !P by assumption. f_equal. f_equal; lia.
Qed.

