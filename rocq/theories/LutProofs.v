From Verif Require Import Prelude PreludeFacts DtyModel DtyProofs UtilModel UtilSpec UtilProofs GeoProofs ChanProofs FltProofs LutModel LutSpec.
From Coq Require Import Lia Lqa Qround FinFun.
Local Open Scope Z_scope.

(** ** Tables *)

Lemma arange_nth v : 0 <= v <= 255 -> nth (Z.to_nat v) arange256 0 = v.
Proof.
  intros H. unfold arange256, zrange. rewrite (nth_indep _ 0 (Z.of_nat 0)) by (rewrite map_length, seq_length; lia).
  rewrite map_nth, seq_nth by lia. lia.
Qed.

Lemma arange_length : length arange256 = 256%nat.
Proof. reflexivity. Qed.

Lemma table_nth f v : 0 <= v <= 255 -> nth (Z.to_nat v) (map f arange256) 0 = f v.
Proof.
  intros H. rewrite (nth_indep _ 0 (f 0)) by (rewrite map_length, arange_length; lia). rewrite map_nth, arange_nth by exact H. reflexivity.
Qed.

Lemma comp_range nc im c y x : u8_image nc im -> (c < nc)%nat -> on im y x -> 0 <= comp im c y x <= 255.
Proof.
  intros [_ [_ [_ H]]] C O. destruct (H y x O) as [L F]. rewrite Forall_forall in F. apply F. apply nth_In. lia.
Qed.

Lemma tables_recolor nc im ts (f : nat -> Z -> Z) : u8_image nc im -> length ts = nc -> Forall (fun t => length t = 256%nat) ts ->
  (forall c v, (c < nc)%nat -> 0 <= v <= 255 -> nth (Z.to_nat v) (nth c ts []) 0 = f c v /\ 0 <= f c v <= 255) ->
  exists r, apply_lut nc im (LList ts) = Ok r /\ recolored nc im f r.
Proof.
  intros U L F H. pose proof U as [N [P1 [P2 I]]].
  destruct (apply_lut_entry nc im (LList ts)) as [r [E [HH [WW R]]]]; [split; assumption|assumption|assumption|assumption|intros; apply I; split; assumption|].
  exists r. split; [exact E|].
  assert (forall c y x, (c < nc)%nat -> on im y x -> comp r c y x = f c (comp im c y x)) as V.
  { intros c y x C [Oy Ox]. unfold comp. destruct (R y x Oy Ox) as [_ R2]. rewrite R2 by exact C. cbn [entry].
    apply H; [exact C|]. apply (comp_range nc im c y x U C). split; assumption. }
  split; [|split; [exact HH|split; [exact WW|exact V]]].
  split; [exact N|]. split; [lia|]. split; [lia|]. intros y x O. assert (on im y x) as O' by (unfold on in *; rewrite HH, WW in O; exact O).
  destruct O' as [Oy Ox]. destruct (R y x Oy Ox) as [RL _]. split; [exact RL|]. apply Forall_nth. intros c d C. rewrite RL in C.
  rewrite (nth_indep _ d 0) by lia. change (0 <= comp r c y x <= 255). rewrite V by (assumption || split; assumption). apply H; [exact C|].
  apply (comp_range nc im c y x U C). split; assumption.
Qed.

Lemma flat_recolor nc im t (f : Z -> Z) : u8_image nc im -> length t = 256%nat ->
  (forall v, 0 <= v <= 255 -> nth (Z.to_nat v) t 0 = f v /\ 0 <= f v <= 255) ->
  exists r, apply_lut nc im (LFlat t) = Ok r /\ recolored nc im (fun _ => f) r.
Proof.
  intros U L H. pose proof U as [N [P1 [P2 I]]].
  destruct (apply_lut_entry nc im (LFlat t)) as [r [E [HH [WW R]]]]; [assumption|assumption|assumption|assumption|intros; apply I; split; assumption|].
  exists r. split; [exact E|].
  assert (forall c y x, (c < nc)%nat -> on im y x -> comp r c y x = f (comp im c y x)) as V.
  { intros c y x C [Oy Ox]. unfold comp. destruct (R y x Oy Ox) as [_ R2]. rewrite R2 by exact C. cbn [entry].
    apply H. apply (comp_range nc im c y x U C). split; assumption. }
  split; [|split; [exact HH|split; [exact WW|exact V]]].
  split; [exact N|]. split; [lia|]. split; [lia|]. intros y x O. assert (on im y x) as O' by (unfold on in *; rewrite HH, WW in O; exact O).
  destruct O' as [Oy Ox]. destruct (R y x Oy Ox) as [RL _]. split; [exact RL|]. apply Forall_nth. intros c d C. rewrite RL in C.
  rewrite (nth_indep _ d 0) by lia. change (0 <= comp r c y x <= 255). rewrite V by (assumption || split; assumption). apply H.
  apply (comp_range nc im c y x U C). split; assumption.
Qed.

Lemma recolored_order nc im f r : u8_image nc im -> recolored nc im f r ->
  (forall c v w, (c < nc)%nat -> 0 <= v -> v <= w -> w <= 255 -> f c v <= f c w) -> order_kept nc im r.
Proof.
  intros U [_ [_ [_ R]]] M c y x y' x' C O O' H. rewrite !R by assumption.
  apply M; [exact C|apply (comp_range nc im c y x U C O)|exact H|apply (comp_range nc im c y' x' U C O')].
Qed.

Lemma recolored_ext nc im f g r : u8_image nc im -> recolored nc im f r ->
  (forall c v, (c < nc)%nat -> 0 <= v <= 255 -> f c v = g c v) -> recolored nc im g r.
Proof.
  intros U [A [B [C R]]] E. split; [exact A|]. split; [exact B|]. split; [exact C|]. intros c y x L O. rewrite R by assumption.
  apply E; [exact L|]. apply (comp_range nc im c y x U L O).
Qed.

(** ** Entries *)

Lemma to_u8_range q : 0 <= to_u8 q <= 255.
Proof.
  unfold to_u8. destruct (py_int_nonneg (qclip q 0 255)) as [A [B C]].
  - unfold qclip. qminmax; lra.
  - split; [exact A|]. assert (inject_Z (py_int (qclip q 0 255)) <= inject_Z 255)%Q as L.
    { change (inject_Z 255) with 255%Q. assert (qclip q 0 255 <= 255)%Q by (unfold qclip; qminmax; lra). lra. }
    rewrite <- Zle_Qle in L. exact L.
Qed.

Lemma qclip_mono a b : (a <= b)%Q -> (qclip a 0 255 <= qclip b 0 255)%Q.
Proof. intros H. unfold qclip. qminmax; lra. Qed.

Lemma py_int_mono a b : (0 <= a)%Q -> (a <= b)%Q -> py_int a <= py_int b.
Proof.
  intros A H. destruct (py_int_nonneg a A) as [A1 [A2 A3]]. destruct (py_int_nonneg b) as [B1 [B2 B3]]; [lra|].
  assert (inject_Z (py_int a) < inject_Z (py_int b + 1))%Q as L by (rewrite inject_Z_plus; change (inject_Z 1) with 1%Q; lra).
  rewrite <- Zlt_Qlt in L. lia.
Qed.

Lemma to_u8_mono a b : (a <= b)%Q -> to_u8 a <= to_u8 b.
Proof. intros H. unfold to_u8. apply py_int_mono; [unfold qclip; qminmax; lra|apply qclip_mono; exact H]. Qed.

Lemma to_u8_Z z q : 0 <= z <= 255 -> (q == inject_Z z)%Q -> to_u8 q = z.
Proof.
  intros H E. unfold to_u8. apply py_int_eq.
  assert (0 <= inject_Z z <= 255)%Q as B by (change 0%Q with (inject_Z 0); change 255%Q with (inject_Z 255); rewrite <- !Zle_Qle; exact H).
  unfold qclip. qminmax; lra.
Qed.

Lemma to_u8_near q : (limited q - 1 < inject_Z (to_u8 q) <= limited q)%Q.
Proof. unfold to_u8, limited. destruct (py_int_nonneg (qclip q 0 255)) as [A [B C]]; [unfold qclip; qminmax; lra|]. lra. Qed.

Lemma f32_mono a b : (a <= b)%Q -> (f32 a <= f32 b)%Q.
Proof. apply to_float_mono. reflexivity. Qed.
Lemma f64_mono a b : (a <= b)%Q -> (f64 a <= f64 b)%Q.
Proof. apply to_float_mono. reflexivity. Qed.
Lemma f32_compat a b : (a == b)%Q -> f32 a = f32 b.
Proof. apply to_float_compat. Qed.
Lemma f64_compat a b : (a == b)%Q -> f64 a = f64 b.
Proof. apply to_float_compat. Qed.
Lemma f32_Z z q : Z.abs z <= 16777216 -> (q == inject_Z z)%Q -> (f32 q == inject_Z z)%Q.
Proof. intros H. apply to_float_small; [reflexivity|exact H]. Qed.
Lemma f64_Z z q : Z.abs z <= 9007199254740992 -> (q == inject_Z z)%Q -> (f64 q == inject_Z z)%Q.
Proof. intros H. apply to_float_small; [reflexivity|exact H]. Qed.
Lemma f32_pos q : (0 < q)%Q -> (0 < f32 q)%Q.
Proof. intros H. destruct (to_float_binade 24 q eq_refl H) as [L _]. pose proof (pow2_pos (exponent q)). unfold f32. lra. Qed.
Lemma f64_pos q : (0 < q)%Q -> (0 < f64 q)%Q.
Proof. intros H. destruct (to_float_binade 53 q eq_refl H) as [L _]. pose proof (pow2_pos (exponent q)). unfold f64. lra. Qed.

(** Everything about the 256 numbers of linspace by evaluation. *)
Lemma by_evaluation (P : Z -> bool) : forallb P arange256 = true -> forall v, 0 <= v <= 255 -> P v = true.
Proof. intros F v H. rewrite forallb_forall in F. apply F. apply in_zrange. lia. Qed.

Lemma linspace_range v : 0 <= v <= 255 -> (0 <= linspace1 v <= 1)%Q.
Proof.
  intros H. pose proof (by_evaluation (fun v => qleb 0 (linspace1 v) && qleb (linspace1 v) 1) ltac:(vm_compute; reflexivity) v H) as B. cbv beta in B.
  apply andb_prop in B. destruct B as [B1 B2]. apply qleb_iff in B1, B2. split; assumption.
Qed.

Lemma linspace_mono v w : 0 <= v -> v <= w -> w <= 255 -> (linspace1 v <= linspace1 w)%Q.
Proof.
  intros A H B. unfold linspace1 at 2. destruct (w =? 255) eqn:E; [apply linspace_range; lia|]. apply Z.eqb_neq in E.
  unfold linspace1. replace (v =? 255) with false by (symmetry; apply Z.eqb_neq; lia).
  apply f32_mono, f64_mono. rewrite Zle_Qle in H. assert (0 < f64 (1 # 255))%Q by (apply f64_pos; reflexivity). nra.
Qed.

Lemma linspace_back v : 0 <= v <= 255 -> (f32 (linspace1 v * 255) == inject_Z v)%Q.
Proof.
  intros H. pose proof (by_evaluation (fun v => qeqb (f32 (linspace1 v * 255)) (inject_Z v)) ltac:(vm_compute; reflexivity) v H) as B. cbv beta in B.
  apply qeqb_iff in B. exact B.
Qed.

(** ** contrast.py *)

Lemma adjust_ok nc im f : u8_image nc im -> (forall v, 0 <= v <= 255 -> 0 <= f v <= 255) ->
  exists r, adjust_contrast nc (map f arange256) im = Ok r /\ recolored nc im (fun _ => f) r.
Proof.
  intros U R. pose proof U as [N [P1 [P2 _]]]. unfold adjust_contrast.
  replace (ah im =? 0) with false by (symmetry; apply Z.eqb_neq; lia). replace (aw im =? 0) with false by (symmetry; apply Z.eqb_neq; lia).
  replace (Nat.eqb nc 0) with false by (symmetry; apply Nat.eqb_neq; lia). cbn [orb].
  apply flat_recolor; [exact U|reflexivity|]. intros v H. split; [apply table_nth; exact H|apply R; exact H].
Qed.

Lemma adjust_keeps_order nc im f : u8_image nc im -> (forall v, 0 <= v <= 255 -> 0 <= f v <= 255) ->
  (forall v w, 0 <= v -> v <= w -> w <= 255 -> f v <= f w) ->
  exists r, adjust_contrast nc (map f arange256) im = Ok r /\ recolored nc im (fun _ => f) r /\ order_kept nc im r.
Proof.
  intros U R M. destruct (adjust_ok nc im f U R) as [r [E RC]]. exists r. split; [exact E|]. split; [exact RC|].
  apply (recolored_order nc im (fun _ => f) r U RC). intros; apply M; assumption.
Qed.

Lemma Qplus_le_l' c a b : (a <= b)%Q -> (c + a <= c + b)%Q.
Proof. intros H. lra. Qed.

Lemma f32_mult_mono c a b : (0 <= c)%Q -> (a <= b)%Q -> (f32 (c * a) <= f32 (c * b))%Q.
Proof. intros C H. apply f32_mono. nra. Qed.
Lemma f32_mult_mono_r c a b : (0 <= c)%Q -> (a <= b)%Q -> (f32 (a * c) <= f32 (b * c))%Q.
Proof. intros C H. apply f32_mono. nra. Qed.
Lemma f32_nonneg q : (0 <= q)%Q -> (0 <= f32 q)%Q.
Proof. apply to_float_nonneg. Qed.
Lemma f64_nonneg q : (0 <= q)%Q -> (0 <= f64 q)%Q.
Proof. apply to_float_nonneg. Qed.

Lemma gamma_order nc im m g : u8_image nc im -> power_rises (fpow m) (f32 g) ->
  exists r, adjust_contrast nc (gamma_table m g) im = Ok r /\ u8_image nc r /\ ah r = ah im /\ aw r = aw im /\ order_kept nc im r.
Proof.
  intros U PR. unfold gamma_table.
  destruct (adjust_keeps_order nc im (fun i => to_u8 (f32 (0 + f32 (fpow m (linspace1 i) (f32 g) * 255)))%Q) U) as [r [E [RC O]]].
  - intros. apply to_u8_range.
  - intros v w A H B. apply to_u8_mono, f32_mono. apply Qplus_le_l'. apply f32_mult_mono_r; [discriminate|].
    apply PR; [apply linspace_range; lia|apply linspace_mono; assumption|apply linspace_range; lia].
  - exists r. destruct RC as [R1 [R2 [R3 _]]]. repeat (split; [assumption|]). exact O.
Qed.

Lemma sigmoid_order nc im m g c : u8_image nc im -> exp_rises (fexp m) -> (0 <= g)%Q ->
  exists r, adjust_contrast nc (sigmoid_table m g c) im = Ok r /\ u8_image nc r /\ ah r = ah im /\ aw r = aw im /\ order_kept nc im r.
Proof.
  intros U [EM EP] G. unfold sigmoid_table.
  destruct (adjust_keeps_order nc im (fun i => to_u8 (f32 (0 + f32 (255 / f32 (1 + fexp m (f32 (f32 g * f32 (f32 c - linspace1 i)))))))%Q) U) as [r [E [RC O]]].
  - intros. apply to_u8_range.
  - intros v w A H B. apply to_u8_mono, f32_mono. apply Qplus_le_l'. apply f32_mono.
    set (ev := fexp m (f32 (f32 g * f32 (f32 c - linspace1 v)))). set (ew := fexp m (f32 (f32 g * f32 (f32 c - linspace1 w)))).
    assert (ew <= ev)%Q as L.
    { apply EM. apply f32_mult_mono; [apply f32_nonneg; exact G|]. apply f32_mono. pose proof (linspace_mono v w A H B). lra. }
    assert (0 < ew)%Q by apply EP. assert (f32 (1 + ew) <= f32 (1 + ev))%Q as L2 by (apply f32_mono; lra).
    assert (0 < f32 (1 + ew))%Q as P by (apply f32_pos; lra). unfold Qdiv. rewrite !(Qmult_comm 255). apply Qmult_le_compat_r; [|discriminate].
    apply Qle_shift_inv_l; [exact P|]. assert (0 < f32 (1 + ev))%Q as P2 by lra.
    setoid_replace (/ f32 (1 + ev) * f32 (1 + ew))%Q with (f32 (1 + ew) / f32 (1 + ev))%Q by (unfold Qdiv; ring).
    apply Qle_shift_div_r; [exact P2|]. lra.
  - exists r. destruct RC as [R1 [R2 [R3 _]]]. repeat (split; [assumption|]). exact O.
Qed.

Lemma log_order nc im m g : u8_image nc im -> log_rises (flog2 m) -> (0 <= g)%Q ->
  exists r, adjust_contrast nc (log_table m g) im = Ok r /\ u8_image nc r /\ ah r = ah im /\ aw r = aw im /\ order_kept nc im r.
Proof.
  intros U [LM _] G. unfold log_table.
  destruct (adjust_keeps_order nc im (fun i => to_u8 (f32 (0 + f32 (f32 (f64 (255 * f32 g)) * flog2 m (f32 (1 + linspace1 i)))))%Q) U) as [r [E [RC O]]].
  - intros. apply to_u8_range.
  - intros v w A H B. apply to_u8_mono, f32_mono. apply Qplus_le_l'. apply f32_mult_mono.
    + apply f32_nonneg, f64_nonneg. pose proof (f32_nonneg g G). nra.
    + assert (f32 (1 + linspace1 v) <= f32 (1 + linspace1 w))%Q by (apply f32_mono; pose proof (linspace_mono v w A H B); lra).
      apply LM; [|assumption]. assert (f32 1 == 1)%Q as F1 by (apply (f32_Z 1); [discriminate|reflexivity]).
      assert (f32 1 <= f32 (1 + linspace1 v))%Q; [|lra]. apply f32_mono. assert (0 <= linspace1 v <= 1)%Q by (apply linspace_range; lia). lra.
  - exists r. destruct RC as [R1 [R2 [R3 _]]]. repeat (split; [assumption|]). exact O.
Qed.

Lemma diff127 v : 0 <= v <= 255 -> (f32 (inject_Z v - 127) == inject_Z (v - 127))%Q.
Proof.
  intros H. apply f32_Z; [lia|]. unfold Zminus. rewrite inject_Z_plus. reflexivity.
Qed.

Definition linear_entry (a : Q) (i : Z) : Z := to_u8 (f32 (127 + f32 (f32 a * f32 (inject_Z i - 127))))%Q.

Lemma linear_order nc im a : u8_image nc im ->
  exists r, adjust_contrast nc (linear_table a) im = Ok r /\ recolored nc im (fun _ => linear_entry a) r /\
    ((0 <= a)%Q -> order_kept nc im r) /\ ((a <= 0)%Q -> order_reversed nc im r).
Proof.
  intros U. unfold linear_table. fold (linear_entry a).
  destruct (adjust_ok nc im (linear_entry a) U) as [r [E RC]]; [intros; apply to_u8_range|].
  exists r. split; [exact E|]. split; [exact RC|]. split; intros A.
  - apply (recolored_order nc im (fun _ => linear_entry a) r U RC). intros _ v w _ L1 L2 L3. unfold linear_entry. apply to_u8_mono, f32_mono. apply Qplus_le_l'.
    apply f32_mult_mono; [apply f32_nonneg; exact A|]. apply f32_mono. rewrite Zle_Qle in L2. lra.
  - intros c y x y' x' C O O' H. destruct RC as [_ [_ [_ R]]]. rewrite !R by assumption. unfold linear_entry. apply to_u8_mono, f32_mono. apply Qplus_le_l'.
    apply f32_mono. rewrite Zle_Qle in H. assert (f32 a <= 0)%Q as FA.
    { assert (0 <= f32 (- a))%Q as N by (apply f32_nonneg; lra). unfold f32 in N |- *. rewrite to_float_opp in N. lra. }
    assert (f32 (inject_Z (comp im c y x) - 127) <= f32 (inject_Z (comp im c y' x') - 127))%Q by (apply f32_mono; lra). nra.
Qed.

Lemma limited_near a b e : (0 <= e)%Q -> (a - e <= b <= a + e)%Q -> (limited a - e <= limited b <= limited a + e)%Q.
Proof. intros E [L H]. unfold limited, qclip. qminmax; lra. Qed.

Lemma f32_near q B : (0 <= B)%Q -> (- B <= q <= B)%Q -> (q - B * (1 # 16777216) <= f32 q <= q + B * (1 # 16777216))%Q.
Proof.
  intros P [L H]. pose proof (to_float_near 24 q eq_refl) as N. unfold f32. assert (pow2 (Z.opp 24) == 1 # 16777216)%Q as W by reflexivity. rewrite W in N.
  assert (qabs q <= B)%Q by (destruct (qabs_spec q) as [_ [E|E]]; lra). generalize dependent (qabs q). intros b N G. split; lra.
Qed.

Lemma linear_near a v : (f32 a == a)%Q -> 0 <= v <= 255 -> let x := (127 + a * inject_Z (v - 127))%Q in
  (limited x - (1 + (1 # 1000)) < inject_Z (linear_entry a v) <= limited x + (1 # 1000))%Q.
Proof.
  intros FA V x. unfold linear_entry. pose proof (to_u8_near (f32 (127 + f32 (f32 a * f32 (inject_Z v - 127))))) as T.
  set (d := (a * inject_Z (v - 127))%Q). assert (x == 127 + d)%Q as EX by reflexivity. clearbody x.
  assert (f32 (f32 a * f32 (inject_Z v - 127)) = f32 d) as E by (apply f32_compat; rewrite FA, diff127 by exact V; reflexivity).
  rewrite E in *. set (y := f32 d) in *. set (z := f32 (127 + y)) in *.
  assert (f32 128 == 128)%Q as F128 by (apply (f32_Z 128); [discriminate|reflexivity]).
  assert (f32 255 == 255)%Q as F255 by (apply (f32_Z 255); [discriminate|reflexivity]).
  assert (f32 (-127) == -127)%Q as F127 by (apply (f32_Z (-127)); [discriminate|reflexivity]).
  assert (f32 0 == 0)%Q as F0 by reflexivity.
  destruct (Qlt_le_dec d 128) as [D1|D1].
  - destruct (Qlt_le_dec (-127) d) as [D2|D2].
    + assert (d - 128 * (1 # 16777216) <= y <= d + 128 * (1 # 16777216))%Q as N1 by (apply f32_near; lra).
      assert (127 + y - 256 * (1 # 16777216) <= z <= 127 + y + 256 * (1 # 16777216))%Q as N2 by (apply f32_near; lra).
      destruct (limited_near x z (1 # 1000)) as [M1 M2]; [discriminate|lra|]. lra.
    + assert (y <= -127)%Q as Y by (rewrite <- F127; apply f32_mono; exact D2).
      assert (z <= 0)%Q as Z0 by (rewrite <- F0; apply f32_mono; lra).
      assert (limited z == 0)%Q as LZ by (unfold limited, qclip; qminmax; lra).
      assert (limited x == 0)%Q as LX by (unfold limited, qclip; qminmax; lra). lra.
  - assert (128 <= y)%Q as Y by (rewrite <- F128; apply f32_mono; exact D1).
    assert (255 <= z)%Q as Z0 by (rewrite <- F255; apply f32_mono; lra).
    assert (limited z == 255)%Q as LZ by (unfold limited, qclip; qminmax; lra).
    assert (limited x == 255)%Q as LX by (unfold limited, qclip; qminmax; lra). lra.
Qed.

Lemma linear_one v a : (a == 1)%Q -> 0 <= v <= 255 -> linear_entry a v = v.
Proof.
  intros A V. unfold linear_entry. apply to_u8_Z; [exact V|]. assert (f32 a == 1)%Q as FA by (apply (f32_Z 1); [discriminate|exact A]).
  apply f32_Z; [lia|]. assert (f32 (f32 a * f32 (inject_Z v - 127)) == inject_Z (v - 127))%Q as ->.
  { apply f32_Z; [lia|]. rewrite FA, diff127 by exact V. ring. }
  unfold Zminus. rewrite inject_Z_plus. change (inject_Z (- (127))) with (- (127))%Q. ring.
Qed.

(** ** Histograms *)

Lemma hsum_0 h : hsum h 0 = 0.
Proof. reflexivity. Qed.

Lemma fold_add_app l m : fold_right Z.add 0 (l ++ m) = fold_right Z.add 0 l + fold_right Z.add 0 m.
Proof. induction l as [|a l IH]; cbn [app fold_right]; [lia|]. rewrite IH. lia. Qed.

Lemma hsum_step h n : 0 <= n -> hsum h (n + 1) = hsum h n + h n.
Proof. intros H. unfold hsum. rewrite zrange_one by exact H. rewrite map_app, fold_add_app. cbn [map fold_right]. lia. Qed.

Lemma hsum_mono h m n : (forall v, 0 <= v -> 0 <= h v) -> 0 <= m -> m <= n -> hsum h m <= hsum h n.
Proof.
  intros P M H. replace n with (m + (n - m)) by lia. assert (0 <= n - m) as K0 by lia. revert K0. generalize (n - m). clear n H.
  apply natlike_ind; [rewrite Z.add_0_r; lia|]. intros k K IH. replace (m + Z.succ k) with (m + k + 1) by lia.
  rewrite hsum_step by lia. specialize (P (m + k)). lia.
Qed.

Lemma hsum_ext h g n : (forall v, 0 <= v < n -> h v = g v) -> hsum h n = hsum g n.
Proof.
  intros E. unfold hsum. f_equal. apply map_ext_in. intros v V. apply in_zrange in V. apply E. exact V.
Qed.

Lemma hsum_rev h n : 0 <= n -> hsum (fun j => h (n - 1 - j)) n = hsum h n.
Proof.
  revert n. apply natlike_ind; [reflexivity|]. intros n N IH. unfold Z.succ. rewrite (hsum_step h n N), <- IH.
  unfold hsum at 1. rewrite (Z.add_comm n 1), zrange_add by lia. change (zrange 1) with [0]. cbn [app map fold_right].
  rewrite map_map. unfold hsum. replace (1 + n - 1 - 0) with n by lia.
  replace (map (fun x => h (1 + n - 1 - (1 + x))) (zrange n)) with (map (fun j => h (n - 1 - j)) (zrange n)); [lia|].
  apply map_ext. intros x. f_equal. lia.
Qed.

(** Sums from the bright end. *)
Lemma hsum_top h i : 0 <= i <= 256 -> hsum (fun j => h (255 - j)) i = hsum h 256 - hsum h (256 - i).
Proof.
  intros [A B]. revert i A B. apply (natlike_ind (fun i => i <= 256 -> hsum (fun j => h (255 - j)) i = hsum h 256 - hsum h (256 - i))).
  - intros _. rewrite Z.sub_0_r, hsum_0. lia.
  - intros i I IH B. unfold Z.succ in *. rewrite hsum_step by exact I. rewrite IH by lia.
    replace (256 - i) with (256 - (i + 1) + 1) by lia. rewrite (hsum_step h (256 - (i + 1))) by lia. replace (256 - (i + 1)) with (255 - i) by lia. lia.
Qed.

(** The number of pixels with a property of their value, from the histogram. *)
Definition counting (a : arr Z) (mask : option (arr Z)) (P : Z -> bool) : Z :=
  Z.of_nat (length (filter (fun p => P (apx a (fst p) (snd p)) && in_mask mask (fst p) (snd p)) (positions (ah a) (aw a)))).

Lemma calc_hist_counting mask a v : calc_hist mask a v = counting a mask (fun u => u =? v).
Proof. reflexivity. Qed.

Lemma count_counting mask im c P : count mask im c P = counting (channel c im) mask P.
Proof. reflexivity. Qed.

Lemma counting_split a mask P R S : (forall v, P v = R v || S v) -> (forall v, R v = true -> S v = true -> False) ->
  counting a mask P = counting a mask R + counting a mask S.
Proof.
  intros E D. unfold counting. induction (positions (ah a) (aw a)) as [|p l IH]; [reflexivity|]. cbn [filter].
  specialize (E (apx a (fst p) (snd p))). specialize (D (apx a (fst p) (snd p))). rewrite E.
  destruct (R (apx a (fst p) (snd p))) eqn:RR, (S (apx a (fst p) (snd p))) eqn:SS; cbn [orb andb].
  - exfalso. apply D; reflexivity.
  - destruct (in_mask mask (fst p) (snd p)); cbn [length]; lia.
  - destruct (in_mask mask (fst p) (snd p)); cbn [length]; lia.
  - exact IH.
Qed.

Lemma counting_ext a mask P R : (forall v, P v = R v) -> counting a mask P = counting a mask R.
Proof. intros E. unfold counting. f_equal. f_equal. apply filter_ext. intros p. rewrite E. reflexivity. Qed.

Lemma counting_ext_in a mask P R : (forall y x, on a y x -> P (apx a y x) = R (apx a y x)) -> counting a mask P = counting a mask R.
Proof.
  intros E. unfold counting. f_equal. f_equal. apply filter_ext_in. intros [y x] I. cbn [fst snd]. rewrite E; [reflexivity|].
  unfold positions in I. apply in_prod_iff in I. destruct I as [I1 I2]. change (In y (zrange (ah a))) in I1. change (In x (zrange (aw a))) in I2.
  apply in_zrange in I1, I2. split; assumption.
Qed.

Lemma counting_none a mask P : (forall v, P v = false) -> counting a mask P = 0.
Proof. intros E. unfold counting. induction (positions (ah a) (aw a)) as [|p l IH]; [reflexivity|]. cbn [filter]. rewrite E. exact IH. Qed.

Lemma counting_nonneg a mask P : 0 <= counting a mask P.
Proof. unfold counting. lia. Qed.

(** Sums of (not ignored) entries are counts. *)
Lemma hsum_counting a mask ignore n : 0 <= n ->
  hsum (without ignore (calc_hist mask a)) n = counting a mask (fun v => negb (existsb (Z.eqb v) ignore) && (v <? n) && (0 <=? v)).
Proof.
  revert n. apply natlike_ind.
  - rewrite hsum_0. symmetry. apply counting_none. intros v. destruct (Z.ltb_spec v 0), (Z.leb_spec 0 v); rewrite ?andb_false_r; try reflexivity. lia.
  - intros n N IH. unfold Z.succ. rewrite hsum_step by exact N. rewrite IH.
    rewrite (counting_split a mask (fun v => negb (existsb (Z.eqb v) ignore) && (v <? n + 1) && (0 <=? v))
      (fun v => negb (existsb (Z.eqb v) ignore) && (v <? n) && (0 <=? v)) (fun v => negb (existsb (Z.eqb v) ignore) && (v =? n))).
    + f_equal. unfold without. destruct (existsb (Z.eqb n) ignore) eqn:I.
      * symmetry. apply counting_none. intros v. destruct (Z.eqb_spec v n) as [->|]; [rewrite I; reflexivity|apply andb_false_r].
      * rewrite calc_hist_counting. apply counting_ext. intros v. destruct (Z.eqb_spec v n) as [->|]; [rewrite I; reflexivity|rewrite andb_false_r; reflexivity].
    + intros v. destruct (existsb (Z.eqb v) ignore); [reflexivity|]. cbn [negb andb].
      destruct (Z.ltb_spec v (n + 1)), (Z.ltb_spec v n), (Z.leb_spec 0 v), (Z.eqb_spec v n); cbn; try reflexivity; lia.
    + intros v A B. apply andb_prop in A, B. destruct A as [A _], B as [_ B]. apply andb_prop in A. destruct A as [_ A].
      apply Z.ltb_lt in A. apply Z.eqb_eq in B. lia.
Qed.

Lemma without_nil h v : without [] h v = h v.
Proof. reflexivity. Qed.

Lemma hist_nonneg mask a v : 0 <= calc_hist mask a v.
Proof. rewrite calc_hist_counting. apply counting_nonneg. Qed.

Lemma hsum_darker a mask n : 0 <= n -> (forall y x, on a y x -> 0 <= apx a y x) ->
  hsum (calc_hist mask a) n = counting a mask (fun v => v <? n).
Proof.
  intros N P. transitivity (hsum (without [] (calc_hist mask a)) n); [reflexivity|]. rewrite hsum_counting by exact N. apply counting_ext_in.
  intros y x O. cbn [existsb negb]. specialize (P y x O). destruct (Z.leb_spec 0 (apx a y x)); [|lia]. rewrite andb_true_r. reflexivity.
Qed.

(** ** equalize *)

Definition level (step : Z) (h : Z -> Z) (i : Z) : Z := Z.min ((step / 2 + hsum h i) / step) 255.

Lemma level_range step h i : 0 < step -> (forall v, 0 <= v -> 0 <= h v) -> 0 <= i -> 0 <= level step h i <= 255.
Proof.
  intros S P I. unfold level. pose proof (hsum_mono h 0 i P ltac:(lia) I) as M. rewrite hsum_0 in M.
  assert (0 <= step / 2) by (apply Z.div_pos; lia). assert (0 <= (step / 2 + hsum h i) / step) by (apply Z.div_pos; lia). lia.
Qed.

Lemma level_mono step h i j : 0 < step -> (forall v, 0 <= v -> 0 <= h v) -> 0 <= i -> i <= j -> level step h i <= level step h j.
Proof.
  intros S P I H. unfold level. pose proof (hsum_mono h i j P I H) as M.
  assert ((step / 2 + hsum h i) / step <= (step / 2 + hsum h j) / step) by (apply Z.div_le_mono; lia). lia.
Qed.

Lemma level_levelled step h i : 0 < step -> levelled step (hsum h i) (level step h i).
Proof.
  intros S. unfold levelled, level. rewrite (Z.add_comm (step / 2)). set (d := hsum h i + step / 2). pose proof (Z.div_mod d step ltac:(lia)) as D.
  pose proof (Z.mod_pos_bound d step S) as B. destruct (Z.leb_spec (255 * step) d) as [L|L].
  - assert (255 <= d / step) by (apply Z.div_le_lower_bound; lia). lia.
  - assert (d / step < 255) by (apply Z.div_lt_upper_bound; lia). rewrite Z.min_l by lia. nia.
Qed.

Definition table_entry (trivial : bool) (step : Z) (h : Z -> Z) (v : Z) : Z :=
  if trivial then v else if step =? 0 then v else level step h v.

Lemma arange_id : arange256 = map (fun v => v) arange256.
Proof. symmetry. apply map_id. Qed.

Definition few (h : Z -> Z) : bool := Nat.leb (length (filter (fun v => negb (h v =? 0)) arange256)) 1.
Definition pil_step (h : Z -> Z) : Z :=
  let histo := filter (fun n => negb (n =? 0)) (map h arange256) in (fold_right Z.add 0 histo - last histo 0) / 255.

Lemma equalize_table_eq h : equalize_table h = map (table_entry (few h) (hsum h 255 / 255) h) arange256.
Proof.
  unfold equalize_table, table_entry, few. cbv zeta. generalize (hsum h 255 / 255). intros s.
  destruct (Nat.leb _ 1); [exact arange_id|]. destruct (s =? 0); [exact arange_id|]. apply map_ext. intros v. reflexivity.
Qed.

Lemma filter_map_length {A B} (f : B -> bool) (g : A -> B) l : length (filter f (map g l)) = length (filter (fun a => f (g a)) l).
Proof. induction l as [|a l IH]; [reflexivity|]. cbn [map filter]. destruct (f (g a)); cbn [length]; rewrite IH; reflexivity. Qed.

Lemma pil_table_eq h : pil_equalize_table h = map (table_entry (few h) (pil_step h) h) arange256.
Proof.
  unfold pil_equalize_table, table_entry, few, pil_step. cbv zeta. rewrite filter_map_length.
  generalize ((fold_right Z.add 0 (filter (fun n => negb (n =? 0)) (map h arange256)) - last (filter (fun n => negb (n =? 0)) (map h arange256)) 0) / 255). intros s.
  destruct (Nat.leb _ 1); [exact arange_id|]. destruct (s =? 0); [exact arange_id|]. apply map_ext. intros v. reflexivity.
Qed.

Lemma entry_range t step h v : 0 <= step -> (forall v, 0 <= v -> 0 <= h v) -> 0 <= v <= 255 -> 0 <= table_entry t step h v <= 255.
Proof.
  intros S P V. unfold table_entry. destruct t; [lia|]. destruct (Z.eqb_spec step 0); [lia|]. apply level_range; [lia|exact P|lia].
Qed.

Lemma entry_mono t step h v w : 0 <= step -> (forall v, 0 <= v -> 0 <= h v) -> 0 <= v -> v <= w -> table_entry t step h v <= table_entry t step h w.
Proof.
  intros S P V W. unfold table_entry. destruct t; [lia|]. destruct (Z.eqb_spec step 0); [lia|]. apply level_mono; [lia|exact P|lia|lia].
Qed.

(** Which values occur. *)
Definition uniform (mask : option (arr Z)) (a : arr Z) : Prop := forall y x y' x', on a y x -> on a y' x' -> in_mask mask y x = true -> in_mask mask y' x' = true ->
  apx a y x = apx a y' x'.

Lemma counting_pos a mask P : 0 < counting a mask P <-> exists y x, on a y x /\ in_mask mask y x = true /\ P (apx a y x) = true.
Proof.
  unfold counting. split.
  - intros H. destruct (filter _ (positions (ah a) (aw a))) as [|[y x] l] eqn:F; [cbn in H; lia|].
    assert (In (y, x) (filter (fun p => P (apx a (fst p) (snd p)) && in_mask mask (fst p) (snd p)) (positions (ah a) (aw a)))) as I by (rewrite F; left; reflexivity).
    apply filter_In in I. destruct I as [I C]. cbn [fst snd] in C. apply andb_prop in C. destruct C as [C1 C2].
    unfold positions in I. apply in_prod_iff in I. destruct I as [I1 I2]. change (In y (zrange (ah a))) in I1. change (In x (zrange (aw a))) in I2.
    apply in_zrange in I1, I2. exists y, x. split; [split; assumption|]. split; assumption.
  - intros [y [x [[O1 O2] [M V]]]].
    assert (In (y, x) (filter (fun p => P (apx a (fst p) (snd p)) && in_mask mask (fst p) (snd p)) (positions (ah a) (aw a)))) as I.
    { apply filter_In. split; [|cbn [fst snd]; rewrite M, V; reflexivity]. unfold positions. apply in_prod_iff.
      change (In y (zrange (ah a)) /\ In x (zrange (aw a))). rewrite !in_zrange. split; assumption. }
    destruct (filter _ _); [destruct I|]. cbn [length]. lia.
Qed.

Lemma hist_pos mask a v : calc_hist mask a v <> 0 <-> exists y x, on a y x /\ in_mask mask y x = true /\ apx a y x = v.
Proof.
  rewrite calc_hist_counting. pose proof (counting_nonneg a mask (fun u => u =? v)) as N. pose proof (counting_pos a mask (fun u => u =? v)) as P.
  split.
  - intros H. destruct (proj1 P ltac:(lia)) as [y [x [O [M E]]]]. apply Z.eqb_eq in E. eauto.
  - intros [y [x [O [M E]]]]. assert (0 < counting a mask (fun u => u =? v)); [|lia]. apply P. exists y, x. split; [exact O|]. split; [exact M|]. apply Z.eqb_eq. exact E.
Qed.

Lemma arange_NoDup : NoDup arange256.
Proof. apply FinFun.Injective_map_NoDup; [|apply seq_NoDup]. intros a b H. lia. Qed.

Lemma few_uniform mask a : (forall y x, on a y x -> 0 <= apx a y x <= 255) -> few (calc_hist mask a) = true <-> uniform mask a.
Proof.
  intros R. unfold few. rewrite Nat.leb_le. set (l := filter _ arange256).
  assert (NoDup l) as ND by (apply NoDup_filter, arange_NoDup).
  assert (forall v, In v l <-> 0 <= v <= 255 /\ calc_hist mask a v <> 0) as IL.
  { intros v. unfold l. rewrite filter_In. unfold arange256. rewrite in_zrange. destruct (Z.eqb_spec (calc_hist mask a v) 0); cbn; split; intros [A B];
      (split; [lia|try discriminate; try contradiction; try reflexivity; try assumption]). }
  split.
  - intros L y x y' x' O O' M M'. destruct (Z.eq_dec (apx a y x) (apx a y' x')) as [E|E]; [exact E|exfalso].
    assert (In (apx a y x) l) as I1 by (apply IL; split; [apply R; exact O|apply hist_pos; eauto]).
    assert (In (apx a y' x') l) as I2 by (apply IL; split; [apply R; exact O'|apply hist_pos; eauto]).
    destruct l as [|u [|w l']]; [destruct I1| |cbn in L; lia]. destruct I1 as [E1|[]], I2 as [E2|[]]. apply E. rewrite <- E1, <- E2. reflexivity.
  - intros U. destruct l as [|u [|w l']] eqn:EL; cbn; try lia. exfalso.
    assert (In u l /\ In w l) as [I1 I2] by (rewrite EL; cbn; auto). rewrite EL in *. apply IL in I1, I2. destruct I1 as [_ H1], I2 as [_ H2].
    apply hist_pos in H1, H2. destruct H1 as [y [x [O [M E]]]], H2 as [y' [x' [O' [M' E']]]].
    pose proof (U y x y' x' O O' M M') as EQ. apply NoDup_cons_iff in ND. destruct ND as [ND _]. apply ND. left. lia.
Qed.

Lemma fold_filter_nz l : fold_right Z.add 0 (filter (fun n => negb (n =? 0)) l) = fold_right Z.add 0 l.
Proof. induction l as [|a l IH]; [reflexivity|]. cbn [filter]. destruct (Z.eqb_spec a 0) as [->|]; cbn [negb fold_right]; rewrite IH; lia. Qed.

Lemma pil_step_below h b : 0 <= b <= 255 -> h b <> 0 -> (forall v, b < v <= 255 -> h v = 0) -> pil_step h = hsum h b / 255.
Proof.
  intros B NZ Z0. unfold pil_step. cbv zeta. rewrite fold_filter_nz.
  assert (arange256 = zrange b ++ b :: map (Z.add (b + 1)) (zrange (255 - b))) as SP.
  { change arange256 with (zrange 256). replace 256 with (b + 1 + (255 - b)) by lia. rewrite zrange_add by lia. rewrite zrange_one by lia.
    rewrite <- app_assoc. reflexivity. }
  rewrite SP. rewrite map_app. cbn [map]. rewrite filter_app. cbn [filter]. destruct (Z.eqb_spec (h b) 0) as [|_]; [contradiction|]. cbn [negb].
  assert (filter (fun n => negb (n =? 0)) (map h (map (Z.add (b + 1)) (zrange (255 - b)))) = []) as ->.
  { rewrite map_map. assert (forall l, (forall x, In x l -> h (b + 1 + x) = 0) -> filter (fun n => negb (n =? 0)) (map (fun x => h (b + 1 + x)) l) = []) as G.
    { induction l as [|x l IH]; intros H; [reflexivity|]. cbn [map filter]. rewrite (H x) by (left; reflexivity). cbn. apply IH. intros; apply H; right; assumption. }
    apply G. intros x X. apply in_zrange in X. apply Z0. lia. }
  rewrite last_last. f_equal. rewrite fold_add_app. cbn [fold_right].
  assert (fold_right Z.add 0 (map h (map (Z.add (b + 1)) (zrange (255 - b)))) = 0) as ->.
  { rewrite map_map. assert (forall l, (forall x, In x l -> h (b + 1 + x) = 0) -> fold_right Z.add 0 (map (fun x => h (b + 1 + x)) l) = 0) as G.
    { induction l as [|x l IH]; intros H; [reflexivity|]. cbn [map fold_right]. rewrite (H x) by (left; reflexivity). rewrite IH; [reflexivity|]. intros; apply H; right; assumption. }
    apply G. intros x X. apply in_zrange in X. apply Z0. lia. }
  unfold hsum. lia.
Qed.

Lemma fold_nonneg l : Forall (fun v => 0 <= v) l -> 0 <= fold_right Z.add 0 l.
Proof. induction 1; cbn [fold_right]; lia. Qed.

Lemma last_le_sum l : Forall (fun v => 0 <= v) l -> last l 0 <= fold_right Z.add 0 l.
Proof.
  induction 1 as [|a l A F IH]; [cbn; lia|]. cbn [fold_right]. destruct l as [|b l].
  - cbn. lia.
  - change (last (a :: b :: l) 0) with (last (b :: l) 0). lia.
Qed.

Lemma pil_step_nonneg h : (forall v, 0 <= v -> 0 <= h v) -> 0 <= pil_step h.
Proof.
  intros P. unfold pil_step. cbv zeta. apply Z.div_pos; [|lia]. set (l := filter _ _).
  assert (Forall (fun v => 0 <= v) l) as F.
  { apply Forall_forall. intros v V. apply filter_In in V. destruct V as [V _]. apply in_map_iff in V. destruct V as [u [<- U]]. apply in_zrange in U. apply P. lia. }
  pose proof (last_le_sum l F). lia.
Qed.

(** The two variants in one: [pil] says which. *)
Definition the_step (pil : bool) (h : Z -> Z) : Z := if pil then pil_step h else hsum h 255 / 255.
Definition the_table (pil : bool) : (Z -> Z) -> list Z := if pil then pil_equalize_table else equalize_table.

Lemma the_table_eq pil h : the_table pil h = map (table_entry (few h) (the_step pil h) h) arange256.
Proof. destruct pil; [apply pil_table_eq|apply equalize_table_eq]. Qed.

Lemma the_step_nonneg pil h : (forall v, 0 <= v -> 0 <= h v) -> 0 <= the_step pil h.
Proof.
  intros P. destruct pil; [apply pil_step_nonneg; exact P|]. unfold the_step. apply Z.div_pos; [|reflexivity].
  pose proof (hsum_mono h 0 255 P ltac:(lia) ltac:(lia)) as M. rewrite hsum_0 in M. exact M.
Qed.

Definition eq_entry (pil : bool) (mask : option (arr Z)) (im : arr (list Z)) (c : nat) (v : Z) : Z :=
  let h := calc_hist mask (channel c im) in table_entry (few h) (the_step pil h) h v.

Lemma equalize_by_ok pil nc im mask : u8_image nc im ->
  exists r, equalize_by (the_table pil) nc im mask = Ok r /\ recolored nc im (eq_entry pil mask im) r.
Proof.
  intros U. unfold equalize_by. apply tables_recolor; [exact U|rewrite map_length; apply seq_length| |].
  - apply Forall_forall. intros t T. apply in_map_iff in T. destruct T as [c [<- _]]. rewrite the_table_eq, map_length. reflexivity.
  - intros c v C V. set (g := fun c => the_table pil (calc_hist mask (channel c im))).
    assert (nth c (map g (seq 0 nc)) [] = g c) as ->.
    { rewrite (nth_indep _ [] (g 0%nat)) by (rewrite map_length, seq_length; exact C). rewrite map_nth, seq_nth by exact C. reflexivity. }
    unfold g, eq_entry. cbv zeta. rewrite the_table_eq, table_nth by exact V. split; [reflexivity|].
    apply entry_range; [apply the_step_nonneg|intros; apply hist_nonneg|exact V]. intros; apply hist_nonneg.
Qed.

Lemma eq_entry_order pil mask nc im r : u8_image nc im -> recolored nc im (eq_entry pil mask im) r -> order_kept nc im r.
Proof.
  intros U RC. apply (recolored_order _ _ _ _ U RC). intros c v w C V W B. apply entry_mono; try assumption; [apply the_step_nonneg|]; intros; apply hist_nonneg.
Qed.

Definition single (c : nat) (im : arr (list Z)) : arr (list Z) := mkArr (ah im) (aw im) (fun y x => [nth c (apx im y x) 0]).

Lemma single_channel c im : channel 0 (single c im) = channel c im.
Proof. reflexivity. Qed.

Lemma single_u8 nc im c : u8_image nc im -> (c < nc)%nat -> u8_image 1 (single c im).
Proof.
  intros U C. pose proof U as [_ [P1 [P2 _]]]. split; [lia|]. split; [exact P1|]. split; [exact P2|]. intros y x O. split; [reflexivity|].
  constructor; [|constructor]. apply (comp_range nc im c y x U C O).
Qed.

Lemma stack_channels nc im (f : nat -> Z -> Z) (g : nat -> res (arr (list Z))) : u8_image nc im ->
  (forall c, (c < nc)%nat -> exists r, g c = Ok r /\ recolored 1 (single c im) (fun _ => f c) r) ->
  exists rs, mapM g (seq 0 nc) = Ok rs /\ rs <> [] /\ recolored nc im f (mkArr (ah im) (aw im) (fun y x => map (fun r => nth 0 (apx r y x) 0) rs)).
Proof.
  intros U G. pose proof U as [N [P1 [P2 _]]].
  destruct (mapM_total g (seq 0 nc)) as [rs E].
  { intros c C. apply in_seq in C. destruct (G c) as [r [E _]]; [lia|]. eauto. }
  exists rs. split; [exact E|]. pose proof (mapM_Forall2 _ _ _ E) as F. pose proof (Forall2_length F) as L. rewrite seq_length in L.
  split; [intros ->; cbn in L; lia|].
  assert (forall c y x, (c < nc)%nat -> on im y x -> nth c (map (fun r => nth 0 (apx r y x) 0) rs) 0 = f c (comp im c y x) /\ 0 <= f c (comp im c y x) <= 255) as V.
  { intros c y x C O. set (e := mkArr 0 0 (fun _ _ => @nil Z)).
    rewrite (nth_indep _ 0 ((fun r => nth 0 (apx r y x) 0) e)) by (rewrite map_length; lia). rewrite (map_nth (fun r => nth 0 (apx r y x) 0)).
    pose proof (Forall2_nth _ _ _ F c 0%nat e) as K. rewrite seq_length in K. specialize (K C). rewrite seq_nth in K by exact C. cbn [Nat.add] in K.
    destruct (G c C) as [r [E2 R]]. rewrite E2 in K. injection K as K. rewrite <- K.
    assert (on (single c im) y x) as O2 by exact O.
    pose proof (proj2 (proj2 (proj2 R)) 0%nat y x ltac:(lia) O2) as RV. cbv beta in RV.
    assert (on r y x) as O3 by (destruct R as [_ [R1 [R2 _]]]; unfold on; rewrite R1, R2; exact O).
    pose proof (comp_range 1 r 0 y x (proj1 R) ltac:(lia) O3) as RR. change (comp (single c im) 0 y x) with (comp im c y x) in RV.
    split; [exact RV|]. rewrite <- RV. exact RR. }
  split; [|split; [reflexivity|split; [reflexivity|intros c y x C O; apply V; assumption]]].
  split; [exact N|]. split; [exact P1|]. split; [exact P2|]. intros y x O. cbn [apx]. split; [rewrite map_length; lia|].
  apply Forall_nth. intros c d C. rewrite map_length in C. rewrite (nth_indep _ d 0) by (rewrite map_length; exact C).
  destruct (V c y x) as [V1 V2]; [lia|exact O|]. rewrite V1. exact V2.
Qed.

Lemma size_pos nc im : u8_image nc im -> 0 < size_of nc im.
Proof. intros [N [P1 [P2 _]]]. unfold size_of. nia. Qed.

Lemma the_table_pil : the_table true = pil_equalize_table.
Proof. reflexivity. Qed.

Lemma the_table_own : the_table false = equalize_table.
Proof. reflexivity. Qed.

Lemma equalize_std_ok owned nc im mask : u8_image nc im ->
  exists r, equalize_std owned nc im mask =
    Ok (if Nat.eqb nc 3 && (size_of nc im <? use_pil_below) then r else if owned then r else im, r) /\
    recolored nc im (eq_entry (Nat.eqb nc 3 && (size_of nc im <? use_pil_below)) mask im) r.
Proof.
  intros U. unfold equalize_std. pose proof (size_pos nc im U) as S. replace (size_of nc im =? 0) with false by (symmetry; apply Z.eqb_neq; lia).
  generalize (size_of nc im <? use_pil_below). intros b. rewrite <- the_table_pil, <- the_table_own.
  destruct (Nat.eqb nc 3 && b).
  - destruct (equalize_by_ok true nc im mask U) as [r [E R]]. rewrite E. exists r. split; [reflexivity|exact R].
  - destruct (equalize_by_ok false nc im mask U) as [r [E R]]. rewrite E. exists r. split; [reflexivity|exact R].
Qed.

Definition std (nc : nat) : bool := Nat.eqb nc 1 || Nat.eqb nc 3.
Definition small (nc : nat) (im : arr (list Z)) : bool := Nat.eqb nc 3 && (size_of nc im <? use_pil_below).

Lemma equalize__ok owned nc im mask : u8_image nc im ->
  exists after r, equalize_ owned nc im mask = Ok (after, r) /\
    recolored nc im (eq_entry (small nc im) (if std nc then mask else None) im) r /\
    after = (if small nc im || (std nc && owned) then r else im).
Proof.
  intros U. unfold equalize_. fold (std nc). destruct (std nc) eqn:S.
  - destruct (equalize_std_ok owned nc im mask U) as [r [E R]]. fold (small nc im) in E, R. rewrite E. do 2 eexists. split; [reflexivity|]. split; [exact R|].
    cbn [andb]. destruct (small nc im); [reflexivity|]. reflexivity.
  - assert (small nc im = false) as SM. { unfold small, std in *. apply orb_false_elim in S. destruct S as [_ ->]. reflexivity. }
    rewrite SM. cbn [andb orb].
    destruct (stack_channels nc im (eq_entry false None im)
      (fun c => do r <- equalize_std false 1 (mkArr (ah im) (aw im) (fun y x => [nth c (apx im y x) 0])) None; Ok (snd r)) U) as [rs [E [NE R]]].
    + intros c C. destruct (equalize_std_ok false 1 (single c im) None (single_u8 nc im c U C)) as [r [E R]]. fold (single c im). rewrite E. cbn [bind snd].
      exists r. split; [reflexivity|]. cbn [Nat.eqb andb] in R. apply (recolored_ext 1 (single c im) _ _ _ (single_u8 nc im c U C) R).
      intros c' v C' V. assert (c' = 0%nat) as -> by lia. unfold eq_entry. rewrite single_channel. reflexivity.
    + rewrite E. cbn [bind]. destruct rs as [|r0 rs]; [contradiction|]. do 2 eexists. split; [reflexivity|]. split; [exact R|reflexivity].
Qed.

Lemma equalize_ok owned nc im mask : u8_image nc im ->
  exists after r, equalize owned nc im mask = Ok (after, r) /\
    recolored nc im (eq_entry (small nc im) (if std nc then mask else None) im) r /\
    after = (if (size_of nc im <? use_pil_below) && (Nat.eqb nc 3 || (Nat.eqb nc 1 && owned)) then r else im).
Proof.
  intros U. unfold equalize. pose proof (size_pos nc im U) as S. replace (size_of nc im =? 0) with false by (symmetry; apply Z.eqb_neq; lia).
  rewrite Z.leb_antisym. destruct (size_of nc im <? use_pil_below) eqn:B; cbn [negb andb].
  - destruct (equalize__ok owned nc im mask U) as [after [r [E [R A]]]]. exists after, r. split; [exact E|]. split; [exact R|]. rewrite A.
    unfold small, std. rewrite B. destruct (Nat.eqb nc 3), (Nat.eqb nc 1), owned; reflexivity.
  - destruct (equalize__ok true nc im mask U) as [after [r [E [R A]]]]. rewrite E. cbn [bind snd]. exists im, r. split; [reflexivity|]. split; [exact R|reflexivity].
Qed.

(** What the entries are. *)
Lemma channel_range nc im c : u8_image nc im -> (c < nc)%nat -> forall y x, on (channel c im) y x -> 0 <= apx (channel c im) y x <= 255.
Proof. intros U C y x O. apply (comp_range nc im c y x U C). exact O. Qed.

Lemma eq_entry_level pil mask nc im c v : u8_image nc im -> (c < nc)%nat -> 0 <= v <= 255 ->
  let q := the_step pil (calc_hist mask (channel c im)) in
  (uniform mask (channel c im) \/ q = 0 -> eq_entry pil mask im c v = v) /\
  (~ uniform mask (channel c im) -> q <> 0 -> levelled q (count mask im c (fun u => u <? v)) (eq_entry pil mask im c v)).
Proof.
  intros U C V q. pose proof (few_uniform mask (channel c im) (channel_range nc im c U C)) as F.
  unfold eq_entry. cbv zeta. fold q. unfold table_entry. destruct (few (calc_hist mask (channel c im))).
  - split; [reflexivity|]. intros N. exfalso. apply N. apply F. reflexivity.
  - split.
    + intros [K|K]; [apply F in K; discriminate|]. rewrite K. reflexivity.
    + intros _ Q. destruct (Z.eqb_spec q 0); [contradiction|].
      assert (0 <= q) by (apply the_step_nonneg; intros; apply hist_nonneg).
      rewrite count_counting, <- hsum_darker; [apply level_levelled; lia|lia|]. intros y x O. apply (channel_range nc im c U C y x O).
Qed.

Lemma step_nopil mask nc im c : u8_image nc im -> (c < nc)%nat ->
  the_step false (calc_hist mask (channel c im)) = count mask im c (fun u => u <? 255) / 255.
Proof.
  intros U C. unfold the_step. rewrite count_counting, hsum_darker; [reflexivity|lia|]. intros y x O. apply (channel_range nc im c U C y x O).
Qed.

Lemma step_pil mask nc im c b : u8_image nc im -> (c < nc)%nat ->
  (exists y x, on im y x /\ in_mask mask y x = true /\ comp im c y x = b) ->
  (forall y x, on im y x -> in_mask mask y x = true -> comp im c y x <= b) ->
  the_step true (calc_hist mask (channel c im)) = count mask im c (fun u => u <? b) / 255.
Proof.
  intros U C [y [x [O [M E]]]] B. unfold the_step. rewrite count_counting. pose proof (comp_range nc im c y x U C O) as R. rewrite E in R.
  rewrite (pil_step_below _ b); [|exact R| |].
  - rewrite hsum_darker; [reflexivity|lia|]. intros y' x' O'. apply (channel_range nc im c U C y' x' O').
  - apply hist_pos. exists y, x. split; [exact O|]. split; [exact M|exact E].
  - intros v V. destruct (Z.eq_dec (calc_hist mask (channel c im) v) 0) as [K|K]; [exact K|exfalso]. apply hist_pos in K. destruct K as [y' [x' [O' [M' E']]]].
    specialize (B y' x' O' M'). change (apx (channel c im) y' x') with (comp im c y' x') in E'. lia.
Qed.

(** ** autocontrast *)

Lemma find_split {A} (f : A -> bool) l v : find f l = Some v -> exists l1 l2, l = l1 ++ v :: l2 /\ f v = true /\ forall u, In u l1 -> f u = false.
Proof.
  induction l as [|a l IH]; [discriminate|]. cbn [find]. destruct (f a) eqn:F; intros E.
  - injection E as <-. exists [], l. split; [reflexivity|]. split; [exact F|]. intros u [].
  - destruct (IH E) as [l1 [l2 [-> [B C]]]]. exists (a :: l1), l2. split; [reflexivity|]. split; [exact B|]. intros u [<-|U]; [exact F|apply C; exact U].
Qed.

Lemma first_index_some f v : first_index f = Some v -> 0 <= v <= 255 /\ f v = true /\ forall u, 0 <= u < v -> f u = false.
Proof.
  intros E. unfold first_index in E. destruct (find_some _ _ E) as [I F]. apply in_zrange in I. split; [lia|]. split; [exact F|].
  destruct (find_split _ _ _ E) as [l1 [l2 [S [_ N]]]]. intros u U. apply N.
  assert (nth (Z.to_nat v) arange256 0 = v) as NV by (apply arange_nth; lia). assert (nth (Z.to_nat u) arange256 0 = u) as NU by (apply arange_nth; lia).
  pose proof (f_equal (@length Z) S) as L. rewrite arange_length, app_length in L. cbn [length] in L.
  assert (nth (length l1) arange256 0 = v) as NL by (rewrite S, app_nth2, Nat.sub_diag by lia; reflexivity).
  assert (length l1 = Z.to_nat v) as LV by (pose proof (arange_nth (Z.of_nat (length l1)) ltac:(lia)) as K; rewrite Nat2Z.id in K; lia).
  rewrite <- NU, S, app_nth1 by lia. apply nth_In. lia.
Qed.

Lemma first_index_none f : first_index f = None -> forall u, 0 <= u <= 255 -> f u = false.
Proof. intros E u U. apply (find_none _ _ E). apply in_zrange. lia. Qed.

Lemma first_index_is f v : 0 <= v <= 255 -> f v = true -> (forall u, 0 <= u < v -> f u = false) -> first_index f = Some v.
Proof.
  intros V F N. destruct (first_index f) as [w|] eqn:E.
  - apply first_index_some in E. destruct E as [W [FW NW]]. f_equal. destruct (Z.lt_trichotomy v w) as [L|[L|L]]; [|lia|].
    + rewrite NW in F by lia. discriminate.
    + rewrite N in FW by lia. discriminate.
  - rewrite (first_index_none f E v V) in F. discriminate.
Qed.

(** [v] is the value of rank [k] from below, and from above. *)
Definition low_rank (h : Z -> Z) (k v : Z) : Prop := hsum h v <= k < hsum h (v + 1).
Definition high_rank (h : Z -> Z) (k v : Z) : Prop := hsum h 256 - hsum h (v + 1) <= k < hsum h 256 - hsum h v.

Lemma low_rank_below h k a : 0 <= k -> 0 <= a -> k < hsum h (a + 1) -> exists lo, 0 <= lo <= a /\ low_rank h k lo.
Proof.
  intros K. revert a. apply (natlike_ind (fun a => k < hsum h (a + 1) -> exists lo, 0 <= lo <= a /\ low_rank h k lo)).
  - intros L. exists 0. split; [lia|]. split; [rewrite hsum_0; exact K|exact L].
  - intros a A IH L. unfold Z.succ in *. destruct (Z_lt_le_dec k (hsum h (a + 1))) as [L1|L1].
    + destruct (IH L1) as [lo [B R]]. exists lo. split; [lia|exact R].
    + exists (a + 1). split; [lia|]. split; assumption.
Qed.

Definition cut_with (cut : Z) (h : Z -> Z) : Z -> Z :=
  let lo_cut v := cut - hsum h (v + 1) in
  let lo := match first_index (fun v => lo_cut v <=? 0) with None => 255 | Some lo => lo end in
  let h1 v := if v <? lo then 0 else if v =? lo then lo_cut lo else h v in
  let hi_cut i := hsum (fun j => h1 (255 - j)) (i + 1) - cut in
  let hi := match first_index (fun i => 0 <? hi_cut i) with None => -1 | Some i => 255 - i end in
  fun v => if hi <? v then 0 else if v =? hi then hi_cut (255 - hi) else h1 v.

Lemma cut_hist_with cutoff h : cut_hist cutoff h = cut_with (Qfloor (inject_Z (hsum h 256) * cutoff / 100)) h.
Proof. unfold cut_hist, cut_with. cbv zeta. generalize (Qfloor (inject_Z (hsum h 256) * cutoff / 100)). intros k. reflexivity. Qed.

Definition lower_cut (k lo : Z) (h : Z -> Z) (v : Z) : Z := if v <? lo then 0 else if v =? lo then k - hsum h (lo + 1) else h v.

Lemma lower_sum k lo h v : 0 <= lo -> 0 <= v -> hsum (lower_cut k lo h) v = if v <=? lo then 0 else k + hsum h v - 2 * hsum h (lo + 1).
Proof.
  intros L. revert v. apply natlike_ind.
  - rewrite hsum_0. destruct (Z.leb_spec 0 lo); lia.
  - intros v V IH. unfold Z.succ. rewrite hsum_step, IH by exact V. rewrite (hsum_step h v V). unfold lower_cut.
    destruct (Z.leb_spec v lo), (Z.leb_spec (v + 1) lo), (Z.ltb_spec v lo), (Z.eqb_spec v lo); try lia. subst v. rewrite (hsum_step h lo) by lia. lia.
Qed.

Lemma lower_top k lo h i : 0 <= lo <= 255 -> 0 <= i <= 255 ->
  hsum (fun j => lower_cut k lo h (255 - j)) (i + 1) = if 255 - i <=? lo then k + hsum h 256 - 2 * hsum h (lo + 1) else hsum h 256 - hsum h (255 - i).
Proof.
  intros L I. rewrite hsum_top by lia. replace (256 - (i + 1)) with (255 - i) by lia. rewrite !lower_sum by lia.
  destruct (Z.leb_spec 256 lo); [lia|]. destruct (Z.leb_spec (255 - i) lo); lia.
Qed.

Lemma cut_with_eq k h : cut_with k h =
  let lo := match first_index (fun v => k - hsum h (v + 1) <=? 0) with None => 255 | Some lo => lo end in
  let hi := match first_index (fun i => 0 <? hsum (fun j => lower_cut k lo h (255 - j)) (i + 1) - k) with None => -1 | Some i => 255 - i end in
  fun v => if hi <? v then 0 else if v =? hi then hsum (fun j => lower_cut k lo h (255 - j)) (255 - hi + 1) - k else lower_cut k lo h v.
Proof. unfold cut_with, lower_cut. cbv zeta. reflexivity. Qed.

Lemma lower_end k h : (forall v, 0 <= v -> 0 <= h v) -> 0 <= k ->
  let lo := match first_index (fun v => k - hsum h (v + 1) <=? 0) with None => 255 | Some lo => lo end in
  0 <= lo <= 255 /\ (forall v, 0 <= v < lo -> hsum h (v + 1) < k) /\ (k <= hsum h (lo + 1) \/ lo = 255).
Proof.
  intros P K lo. destruct (first_index _) as [w|] eqn:E.
  - apply first_index_some in E. destruct E as [W [F N]]. subst lo. split; [lia|]. split.
    + intros v V. specialize (N v V). cbv beta in N. apply Z.leb_gt in N. lia.
    + left. apply Z.leb_le in F. lia.
  - subst lo. split; [lia|]. split; [|right; reflexivity]. intros v V. pose proof (first_index_none _ E v ltac:(lia)) as N. cbv beta in N. apply Z.leb_gt in N. lia.
Qed.

Lemma cut_ranks k h lo hi : (forall v, 0 <= v -> 0 <= h v) -> 0 <= k -> 0 <= lo -> lo < hi -> hi <= 255 -> low_rank h k lo -> high_rank h k hi ->
  (forall v, 0 <= v < lo -> cut_with k h v = 0) /\ cut_with k h lo <> 0 /\ (forall v, hi < v <= 255 -> cut_with k h v = 0) /\ cut_with k h hi <> 0.
Proof.
  intros P K L LH H [R1 R2] [T1 T2]. pose proof (lower_end k h P K) as LE. rewrite cut_with_eq. cbv zeta in LE |- *.
  set (l := match first_index (fun v => k - hsum h (v + 1) <=? 0) with None => 255 | Some lo => lo end) in *. destruct LE as [B [BL BU]].
  assert (l <= lo) as LL.
  { destruct (Z_lt_le_dec lo l) as [C|C]; [|exact C]. specialize (BL lo ltac:(lia)). lia. }
  assert (k <= hsum h (l + 1)) as KL.
  { destruct BU as [BU|BU]; [exact BU|]. subst l. assert (lo = 255) by lia. lia. }
  assert (first_index (fun i => 0 <? hsum (fun j => lower_cut k l h (255 - j)) (i + 1) - k) = Some (255 - hi)) as ->.
  { apply first_index_is; [lia| |].
    - rewrite lower_top by lia. replace (255 - (255 - hi)) with hi by lia. destruct (Z.leb_spec hi l); [lia|]. apply Z.ltb_lt. lia.
    - intros u U. rewrite lower_top by lia. destruct (Z.leb_spec (255 - u) l); [lia|]. apply Z.ltb_ge.
      pose proof (hsum_mono h (hi + 1) (255 - u) P ltac:(lia) ltac:(lia)). lia. }
  replace (255 - (255 - hi)) with hi by lia.
  assert (forall v, 0 <= v < lo -> lower_cut k l h v = 0) as Z0.
  { intros v V. unfold lower_cut. destruct (Z.ltb_spec v l); [reflexivity|]. pose proof (hsum_mono h (v + 1) lo P ltac:(lia) ltac:(lia)).
    destruct (Z.eqb_spec v l) as [->|]; [lia|]. pose proof (hsum_mono h (l + 1) v P ltac:(lia) ltac:(lia)). pose proof (hsum_step h v ltac:(lia)). specialize (P v). lia. }
  split; [|split; [|split]].
  - intros v V. destruct (Z.ltb_spec hi v); [reflexivity|]. destruct (Z.eqb_spec v hi); [lia|]. apply Z0. exact V.
  - destruct (Z.ltb_spec hi lo); [lia|]. destruct (Z.eqb_spec lo hi); [lia|]. unfold lower_cut. destruct (Z.ltb_spec lo l); [lia|].
    destruct (Z.eqb_spec lo l) as [<-|]; [lia|]. pose proof (hsum_step h lo ltac:(lia)). pose proof (hsum_mono h (l + 1) lo P ltac:(lia) ltac:(lia)). lia.
  - intros v V. destruct (Z.ltb_spec hi v); [reflexivity|lia].
  - destruct (Z.ltb_spec hi hi); [lia|]. rewrite Z.eqb_refl. rewrite lower_top by lia. replace (255 - (255 - hi)) with hi by lia.
    destruct (Z.leb_spec hi l); lia.
Qed.

Lemma cut_converse k h a b : (forall v, 0 <= v -> 0 <= h v) -> 0 <= k -> 0 <= a -> a < b -> b <= 255 -> cut_with k h a <> 0 -> cut_with k h b <> 0 ->
  exists lo hi, 0 <= lo /\ lo < hi /\ hi <= 255 /\ low_rank h k lo /\ high_rank h k hi.
Proof.
  intros P K A AB BB. pose proof (lower_end k h P K) as LE. rewrite cut_with_eq. cbv zeta in LE |- *.
  set (l := match first_index (fun v => k - hsum h (v + 1) <=? 0) with None => 255 | Some lo => lo end) in *. destruct LE as [B [BL BU]].
  destruct (first_index (fun i => 0 <? hsum (fun j => lower_cut k l h (255 - j)) (i + 1) - k)) as [i|] eqn:E.
  - apply first_index_some in E. destruct E as [I [F N]]. rewrite lower_top in F by lia. apply Z.ltb_lt in F. intros GA GB.
    assert (b <= 255 - i) as BI by (destruct (Z.ltb_spec (255 - i) b); [contradiction|assumption]).
    assert (l < 255 - i) as LI.
    { destruct (Z.leb_spec (255 - i) l) as [C|C]; [exfalso|exact C]. destruct (Z.eq_dec l 255) as [->|NL].
      - change (255 + 1) with 256 in F. pose proof (hsum_mono h 0 256 P ltac:(lia) ltac:(lia)) as M. rewrite hsum_0 in M. lia.
      - destruct BU as [BU|BU]; [|lia]. specialize (N (255 - (l + 1)) ltac:(lia)). cbv beta in N. rewrite lower_top in N by lia.
        replace (255 - (255 - (l + 1))) with (l + 1) in N by lia. destruct (Z.leb_spec (l + 1) l); [lia|]. apply Z.ltb_ge in N. lia. }
    destruct (Z.leb_spec (255 - i) l); [lia|].
    assert (high_rank h k (255 - i)) as HR.
    { split; [|lia]. destruct (Z.eq_dec i 0) as [->|]; [change (255 - 0 + 1) with 256; lia|]. specialize (N (i - 1) ltac:(lia)). cbv beta in N. rewrite lower_top in N by lia.
      destruct (Z.leb_spec (255 - (i - 1)) l); [lia|]. apply Z.ltb_ge in N. replace (255 - (i - 1)) with (255 - i + 1) in N by lia. lia. }
    assert (k < hsum h (a + 1)) as KA.
    { destruct (Z.ltb_spec (255 - i) a); [lia|]. destruct (Z.eqb_spec a (255 - i)); [lia|]. unfold lower_cut in GA. destruct (Z.ltb_spec a l); [contradiction|].
      destruct (Z.eqb_spec a l) as [->|].
      - destruct BU as [BU|BU]; [lia|lia].
      - destruct BU as [BU|BU]; [|lia]. pose proof (hsum_step h a A). pose proof (hsum_mono h (l + 1) a P ltac:(lia) ltac:(lia)). specialize (P a A). lia. }
    destruct (low_rank_below h k a K A KA) as [lo [BLO R]]. exists lo, (255 - i). split; [lia|]. split; [lia|]. split; [lia|]. split; assumption.
  - intros GA. destruct (Z.ltb_spec (-1) a); [contradiction|lia].
Qed.

(** Without a cutoff the histogram itself. *)
Lemma plain_ranks h lo hi : (forall v, 0 <= v -> 0 <= h v) -> 0 <= lo -> lo < hi -> hi <= 255 -> low_rank h 0 lo -> high_rank h 0 hi ->
  (forall v, 0 <= v < lo -> h v = 0) /\ h lo <> 0 /\ (forall v, hi < v <= 255 -> h v = 0) /\ h hi <> 0.
Proof.
  intros P L LH H [R1 R2] [T1 T2]. split; [|split; [|split]].
  - intros v V. pose proof (hsum_step h v ltac:(lia)). pose proof (hsum_mono h (v + 1) lo P ltac:(lia) ltac:(lia)).
    pose proof (hsum_mono h 0 v P ltac:(lia) ltac:(lia)) as M. rewrite hsum_0 in M. specialize (P v). lia.
  - pose proof (hsum_step h lo L). lia.
  - intros v V. pose proof (hsum_step h v ltac:(lia)). pose proof (hsum_mono h (hi + 1) v P ltac:(lia) ltac:(lia)).
    pose proof (hsum_mono h (v + 1) 256 P ltac:(lia) ltac:(lia)). specialize (P v). lia.
  - pose proof (hsum_step h hi ltac:(lia)). lia.
Qed.

Lemma plain_converse h a b : (forall v, 0 <= v -> 0 <= h v) -> 0 <= a -> a < b -> b <= 255 -> h a <> 0 -> h b <> 0 ->
  exists lo hi, 0 <= lo /\ lo < hi /\ hi <= 255 /\ low_rank h 0 lo /\ high_rank h 0 hi.
Proof.
  intros P A AB B HA HB. pose proof (P a A) as PA. pose proof (P b ltac:(lia)) as PB.
  assert (0 < hsum h (a + 1)) as KA by (rewrite hsum_step by exact A; pose proof (hsum_mono h 0 a P ltac:(lia) A) as M; rewrite hsum_0 in M; lia).
  destruct (low_rank_below h 0 a ltac:(lia) A KA) as [lo [BLO R]].
  destruct (low_rank_below (fun j => h (255 - j)) 0 (255 - b)) as [i [BI [I1 I2]]]; [lia|lia| |].
  { rewrite hsum_top by lia. replace (256 - (255 - b + 1)) with b by lia. pose proof (hsum_step h b ltac:(lia)).
    pose proof (hsum_mono h (b + 1) 256 P ltac:(lia) ltac:(lia)). lia. }
  rewrite hsum_top in I1, I2 by lia. exists lo, (255 - i). split; [lia|]. split; [lia|]. split; [lia|]. split; [exact R|].
  split; [replace (255 - i + 1) with (256 - i) by lia; lia|replace (255 - i) with (256 - (i + 1)) by lia; lia].
Qed.

(** The entries of a stretching table. *)
Definition stretch_entry (lo hi i : Z) : Z :=
  let scale := f64 (255 / inject_Z (hi - lo)) in let offset := f64 (inject_Z (- lo) * scale) in to_u8 (f64 (f64 (inject_Z i * scale) + offset)).

Lemma stretch_is g lo hi : 0 <= lo -> lo < hi -> hi <= 255 ->
  (forall v, 0 <= v < lo -> g v = 0) -> g lo <> 0 -> (forall v, hi < v <= 255 -> g v = 0) -> g hi <> 0 ->
  stretch_table g = map (stretch_entry lo hi) arange256.
Proof.
  intros L LH H A B C D. unfold stretch_table.
  assert (first_index (fun v => negb (g v =? 0)) = Some lo) as ->.
  { apply first_index_is; [lia| |].
    - apply negb_true_iff, Z.eqb_neq. exact B.
    - intros u U. apply negb_false_iff, Z.eqb_eq. apply A. exact U. }
  assert (first_index (fun i => negb (g (255 - i) =? 0)) = Some (255 - hi)) as ->.
  { apply first_index_is; [lia| |].
    - apply negb_true_iff, Z.eqb_neq. replace (255 - (255 - hi)) with hi by lia. exact D.
    - intros u U. apply negb_false_iff, Z.eqb_eq. apply C. lia. }
  cbv zeta. replace (255 - (255 - hi)) with hi by lia. destruct (Z.leb_spec hi lo); [lia|]. apply map_ext. intros i. reflexivity.
Qed.

Lemma stretch_id g : (forall a b, 0 <= a -> a < b -> b <= 255 -> g a <> 0 -> g b <> 0 -> False) -> stretch_table g = map (fun v => v) arange256.
Proof.
  intros N. unfold stretch_table. cbv zeta.
  destruct (first_index (fun v => negb (g v =? 0))) as [a|] eqn:EA.
  - destruct (first_index (fun i => negb (g (255 - i) =? 0))) as [i|] eqn:EB.
    + apply first_index_some in EA, EB. destruct EA as [A [FA _]], EB as [B [FB _]]. apply negb_true_iff, Z.eqb_neq in FA, FB.
      destruct (Z.leb_spec (255 - i) a); [exact arange_id|]. exfalso. apply (N a (255 - i)); try assumption; lia.
    + apply first_index_some in EA. destruct (Z.leb_spec 0 a); [exact arange_id|lia].
  - destruct (first_index (fun i => negb (g (255 - i) =? 0))) as [i|] eqn:EB.
    + apply first_index_some in EB. destruct (Z.leb_spec (255 - i) 255); [exact arange_id|lia].
    + exact arange_id.
Qed.

Lemma f64_near q B : (0 <= B)%Q -> (- B <= q <= B)%Q -> (q - B * (1 # 9007199254740992) <= f64 q <= q + B * (1 # 9007199254740992))%Q.
Proof.
  intros P [L H]. pose proof (to_float_near 53 q eq_refl) as N. unfold f64. assert (pow2 (Z.opp 53) == 1 # 9007199254740992)%Q as W by reflexivity. rewrite W in N.
  assert (qabs q <= B)%Q by (destruct (qabs_spec q) as [_ [E|E]]; lra). generalize dependent (qabs q). intros b N G. split; lra.
Qed.

Lemma stretch_mono lo hi v w : lo < hi -> v <= w -> stretch_entry lo hi v <= stretch_entry lo hi w.
Proof.
  intros H L. unfold stretch_entry. cbv zeta. assert (0 < inject_Z (hi - lo))%Q as P by (change 0%Q with (inject_Z 0); rewrite <- Zlt_Qlt; lia).
  assert (0 < f64 (255 / inject_Z (hi - lo)))%Q as S by (apply f64_pos; apply Qlt_shift_div_l; [exact P|]; rewrite Qmult_0_l; reflexivity).
  apply to_u8_mono, f64_mono. rewrite Zle_Qle in L.
  assert (f64 (inject_Z v * f64 (255 / inject_Z (hi - lo))) <= f64 (inject_Z w * f64 (255 / inject_Z (hi - lo))))%Q; [|lra].
  apply f64_mono. nra.
Qed.

Lemma to_u8_nonpos q : (q <= 0)%Q -> to_u8 q = 0.
Proof.
  intros H. pose proof (to_u8_range q). pose proof (to_u8_near q) as [_ N]. assert (limited q == 0)%Q as E by (unfold limited, qclip; qminmax; lra).
  rewrite E in N. change 0%Q with (inject_Z 0) in N. rewrite <- Zle_Qle in N. lia.
Qed.

Lemma stretch_low lo hi v : lo < hi -> v <= lo -> stretch_entry lo hi v = 0.
Proof.
  intros H L. assert (stretch_entry lo hi lo = 0) as E.
  { unfold stretch_entry. cbv zeta. apply to_u8_nonpos. set (s := f64 (255 / inject_Z (hi - lo))).
    assert (f64 (inject_Z (- lo) * s) == - f64 (inject_Z lo * s))%Q as O.
    { rewrite (f64_compat (inject_Z (- lo) * s) (- (inject_Z lo * s))); [apply to_float_opp|]. rewrite inject_Z_opp. ring. }
    rewrite (f64_compat _ 0); [apply Qle_refl|]. rewrite O. ring. }
  pose proof (stretch_mono lo hi v lo H L) as M. pose proof (to_u8_range (f64 (f64 (inject_Z v * f64 (255 / inject_Z (hi - lo))) + f64 (inject_Z (- lo) * f64 (255 / inject_Z (hi - lo)))))).
  rewrite E in M. unfold stretch_entry in *. cbv zeta in *. lia.
Qed.

Lemma stretch_near lo hi v : 0 <= lo -> lo < hi -> hi <= 255 -> lo <= v <= hi ->
  (255 * inject_Z (v - lo) / inject_Z (hi - lo) - (1 + (1 # 1000000)) < inject_Z (stretch_entry lo hi v) <=
   255 * inject_Z (v - lo) / inject_Z (hi - lo) + (1 # 1000000))%Q.
Proof.
  intros L LH H [V1 V2]. unfold stretch_entry. cbv zeta.
  set (d := inject_Z (hi - lo)). assert (1 <= d)%Q as D1 by (change 1%Q with (inject_Z 1); unfold d; rewrite <- Zle_Qle; lia).
  set (t := (255 / d)%Q). assert (t * d == 255)%Q as TD by (unfold t; field; lra).
  assert (0 <= t <= 255)%Q as TB by (split; [unfold t; apply Qle_shift_div_l; lra|unfold t; apply Qle_shift_div_r; lra]).
  set (s := f64 t). assert (t - 255 * (1 # 9007199254740992) <= s <= t + 255 * (1 # 9007199254740992))%Q as S by (apply f64_near; lra).
  assert (255 * inject_Z (v - lo) / d == t * (inject_Z v - inject_Z lo))%Q as X.
  { unfold t, Zminus. rewrite inject_Z_plus, inject_Z_opp. field. lra. }
  rewrite X. assert (0 <= inject_Z v <= 255)%Q as VB by (change 0%Q with (inject_Z 0); change 255%Q with (inject_Z 255); rewrite <- !Zle_Qle; lia).
  assert (0 <= inject_Z lo <= inject_Z v)%Q as LB by (change 0%Q with (inject_Z 0); rewrite <- !Zle_Qle; lia).
  assert (inject_Z v - inject_Z lo <= d)%Q as VD by (unfold d, Zminus; rewrite inject_Z_plus, inject_Z_opp; rewrite Zle_Qle in V2; lra).
  rewrite inject_Z_opp. clearbody s t d. clear X. generalize dependent (inject_Z v). intros a. generalize dependent (inject_Z lo). intros b LB VB VD.
  assert (forall p q, 0 <= p -> 0 <= q -> 0 <= p * q)%Q as MP by (intros; apply Qmult_le_0_compat; assumption).
  assert (forall c, 0 <= c <= 255 -> c * t - 65025 * (1 # 9007199254740992) <= c * s <= c * t + 65025 * (1 # 9007199254740992) /\ 0 <= c * t <= 65025)%Q as N.
  { intros c C. pose proof (MP c (s - t + 255 * (1 # 9007199254740992))%Q ltac:(lra) ltac:(lra)). pose proof (MP c (t + 255 * (1 # 9007199254740992) - s)%Q ltac:(lra) ltac:(lra)).
    pose proof (MP c t ltac:(lra) ltac:(lra)). pose proof (MP (255 - c)%Q t ltac:(lra) ltac:(lra)). split; [split; lra|split; lra]. }
  destruct (N a) as [NA BA]; [lra|]. destruct (N b) as [NB BB]; [lra|].
  assert (a * s - 65536 * (1 # 9007199254740992) <= f64 (a * s) <= a * s + 65536 * (1 # 9007199254740992))%Q as F1 by (apply f64_near; lra).
  assert (- b * s - 65536 * (1 # 9007199254740992) <= f64 (- b * s) <= - b * s + 65536 * (1 # 9007199254740992))%Q as F2 by (apply f64_near; lra).
  set (y := f64 (a * s)) in *. set (z := f64 (- b * s)) in *. clearbody y z.
  assert (y + z - 200000 * (1 # 9007199254740992) <= f64 (y + z) <= y + z + 200000 * (1 # 9007199254740992))%Q as F3 by (apply f64_near; lra).
  pose proof (to_u8_near (f64 (y + z))) as T. set (u := f64 (y + z)) in *. clearbody u.
  pose proof (MP t (a - b)%Q ltac:(lra) ltac:(lra)) as G1. pose proof (MP t (d - (a - b))%Q ltac:(lra) ltac:(lra)) as G2.
  destruct (limited_near (t * (a - b)) u (1 # 1000000)) as [M1 M2]; [discriminate|lra|].
  assert (limited (t * (a - b)) == t * (a - b))%Q as LX by (unfold limited, qclip; qminmax; lra). lra.
Qed.

Lemma stretch_stretched lo hi v : 0 <= lo -> lo < hi -> hi <= 255 -> 0 <= v <= 255 -> stretched lo hi v (stretch_entry lo hi v).
Proof.
  intros L LH H V. split; [intros; apply stretch_low; lia|]. split; [|intros; apply stretch_near; lia].
  intros B. pose proof (stretch_mono lo hi hi v LH B) as M. pose proof (stretch_near lo hi hi L LH H ltac:(lia)) as [N _].
  assert (0 <= stretch_entry lo hi v <= 255) as R by (unfold stretch_entry; cbv zeta; apply to_u8_range).
  assert (0 < inject_Z (hi - lo))%Q as P by (change 0%Q with (inject_Z 0); rewrite <- Zlt_Qlt; lia).
  assert (255 * inject_Z (hi - lo) / inject_Z (hi - lo) == 255)%Q as E by (field; lra). rewrite E in N.
  assert (inject_Z 253 < inject_Z (stretch_entry lo hi hi))%Q as G by (change (inject_Z 253) with 253%Q; lra). rewrite <- Zlt_Qlt in G. lia.
Qed.

Definition counted (ignore : list Z) (v : Z) : bool := negb (existsb (Z.eqb v) ignore).
Definition kept (ignore : list Z) (im : arr (list Z)) (c : nat) : Z -> Z := without ignore (calc_hist None (channel c im)).

Lemma kept_nonneg ignore im c v : 0 <= v -> 0 <= kept ignore im c v.
Proof. intros _. unfold kept, without. destruct (existsb _ _); [lia|apply hist_nonneg]. Qed.

Lemma kept_sum nc im c ignore n : u8_image nc im -> (c < nc)%nat -> 0 <= n ->
  hsum (kept ignore im c) n = count None im c (fun v => counted ignore v && (v <? n)).
Proof.
  intros U C N. unfold kept. rewrite hsum_counting by exact N. rewrite count_counting. apply counting_ext_in. intros y x O.
  pose proof (channel_range nc im c U C y x O) as R. unfold counted. destruct (Z.leb_spec 0 (apx (channel c im) y x)); [|lia]. apply andb_true_r.
Qed.

Lemma kept_total nc im c ignore : u8_image nc im -> (c < nc)%nat -> hsum (kept ignore im c) 256 = count None im c (counted ignore).
Proof.
  intros U C. rewrite (kept_sum nc) by (assumption || lia). rewrite !count_counting. apply counting_ext_in. intros y x O.
  pose proof (channel_range nc im c U C y x O) as R. destruct (Z.ltb_spec (apx (channel c im) y x) 256); [apply andb_true_r|lia].
Qed.

Lemma kept_above nc im c ignore n : u8_image nc im -> (c < nc)%nat -> 0 <= n ->
  hsum (kept ignore im c) 256 - hsum (kept ignore im c) n = count None im c (fun v => counted ignore v && (n <=? v)).
Proof.
  intros U C N. rewrite (kept_total nc) by assumption. rewrite (kept_sum nc) by assumption. rewrite !count_counting.
  rewrite (counting_split _ None (counted ignore) (fun v => counted ignore v && (v <? n)) (fun v => counted ignore v && (n <=? v))); [lia| |].
  - intros v. rewrite <- andb_orb_distrib_r. destruct (Z.ltb_spec v n), (Z.leb_spec n v); cbn [orb]; rewrite ?andb_true_r; try reflexivity. lia.
  - intros v A B. apply andb_prop in A, B. destruct A as [_ A], B as [_ B]. apply Z.ltb_lt in A. apply Z.leb_le in B. lia.
Qed.

Lemma dark_low nc im c ignore k lo : u8_image nc im -> (c < nc)%nat -> 0 <= lo -> dark_rank im c ignore k lo <-> low_rank (kept ignore im c) k lo.
Proof.
  intros U C L. unfold dark_rank, low_rank. cbv zeta. rewrite !(kept_sum nc) by (assumption || lia).
  assert (count None im c (fun v => counted ignore v && (v <? lo + 1)) = count None im c (fun v => counted ignore v && (v <=? lo))) as ->; [|reflexivity].
  rewrite !count_counting. apply counting_ext. intros v. f_equal. destruct (Z.ltb_spec v (lo + 1)), (Z.leb_spec v lo); try reflexivity; lia.
Qed.

Lemma bright_high nc im c ignore k hi : u8_image nc im -> (c < nc)%nat -> 0 <= hi -> bright_rank im c ignore k hi <-> high_rank (kept ignore im c) k hi.
Proof.
  intros U C L. unfold bright_rank, high_rank. cbv zeta. rewrite !(kept_above nc) by (assumption || lia).
  assert (count None im c (fun v => counted ignore v && (hi + 1 <=? v)) = count None im c (fun v => counted ignore v && (hi <? v))) as ->; [|reflexivity].
  rewrite !count_counting. apply counting_ext. intros v. f_equal. destruct (Z.leb_spec (hi + 1) v), (Z.ltb_spec hi v); try reflexivity; lia.
Qed.

Definition rank_of (ignore : list Z) (cutoff : Q) (im : arr (list Z)) (c : nat) : Z := Qfloor (inject_Z (count None im c (counted ignore)) * cutoff / 100).

Lemma rank_nonneg ignore cutoff im c : (0 <= cutoff)%Q -> 0 <= rank_of ignore cutoff im c.
Proof.
  intros H. unfold rank_of. change 0 with (Qfloor 0). apply Qfloor_resp_le. unfold Qdiv. apply Qmult_le_0_compat; [|discriminate].
  apply Qmult_le_0_compat; [|exact H]. change 0%Q with (inject_Z 0). rewrite <- Zle_Qle. rewrite count_counting. apply counting_nonneg.
Qed.

(** The two cases of an autocontrast table. *)
Lemma autocontrast_table_cases nc im c cutoff ignore : u8_image nc im -> (c < nc)%nat -> (0 <= cutoff)%Q ->
  let t := autocontrast_table cutoff ignore (calc_hist None (channel c im)) in let k := rank_of ignore cutoff im c in
  (forall lo hi, 0 <= lo -> lo < hi -> hi <= 255 -> dark_rank im c ignore k lo -> bright_rank im c ignore k hi -> t = map (stretch_entry lo hi) arange256) /\
  ((forall lo hi, 0 <= lo -> lo < hi -> hi <= 255 -> dark_rank im c ignore k lo -> bright_rank im c ignore k hi -> False) -> t = map (fun v => v) arange256).
Proof.
  intros U C CO t k. pose proof (rank_nonneg ignore cutoff im c CO) as K. fold k in K. subst t. unfold autocontrast_table. cbv zeta. fold (kept ignore im c).
  destruct (qeqb cutoff 0) eqn:Q0.
  - assert (k = 0) as K0.
    { apply qeqb_iff in Q0. unfold k, rank_of. 
      assert (inject_Z (count None im c (counted ignore)) * cutoff / 100 == 0)%Q as E by (rewrite Q0; field).
      apply Qfloor_unique; change (inject_Z 0) with 0%Q; lra. }
    rewrite K0. split.
    + intros lo hi L LH H D B. apply (dark_low nc) in D; [|assumption..]. apply (bright_high nc) in B; [|assumption||lia..].
      destruct (plain_ranks (kept ignore im c) lo hi (kept_nonneg ignore im c) L LH H D B) as [A1 [A2 [A3 A4]]]. apply stretch_is; assumption.
    + intros N. apply stretch_id. intros a b A AB B GA GB.
      destruct (plain_converse _ a b (kept_nonneg ignore im c) A AB B GA GB) as [lo [hi [L [LH [H [D R]]]]]].
      apply (N lo hi L LH H); [apply (dark_low nc)|apply (bright_high nc)]; assumption || lia.
  - rewrite cut_hist_with. rewrite (kept_total nc) by assumption. fold (rank_of ignore cutoff im c). fold k. split.
    + intros lo hi L LH H D B. apply (dark_low nc) in D; [|assumption..]. apply (bright_high nc) in B; [|assumption||lia..].
      destruct (cut_ranks k (kept ignore im c) lo hi (kept_nonneg ignore im c) K L LH H D B) as [A1 [A2 [A3 A4]]]. apply stretch_is; assumption.
    + intros N. apply stretch_id. intros a b A AB B GA GB.
      destruct (cut_converse k _ a b (kept_nonneg ignore im c) K A AB B GA GB) as [lo [hi [L [LH [H [D R]]]]]].
      apply (N lo hi L LH H); [apply (dark_low nc)|apply (bright_high nc)]; assumption || lia.
Qed.

(** A table is rising, whatever the histogram. *)
Lemma stretch_any g : exists f, stretch_table g = map f arange256 /\ (forall v, 0 <= v <= 255 -> 0 <= f v <= 255) /\ forall v w, v <= w -> f v <= f w.
Proof.
  unfold stretch_table. cbv zeta.
  set (lo := match first_index (fun v => negb (g v =? 0)) with Some lo => lo | None => 255 end).
  set (hi := match first_index (fun i => negb (g (255 - i) =? 0)) with Some i => 255 - i | None => 0 end). clearbody lo hi.
  destruct (Z.leb_spec hi lo).
  - exists (fun v => v). split; [exact arange_id|]. split; [auto|auto].
  - exists (stretch_entry lo hi). split; [apply map_ext; intros; reflexivity|]. split; [intros; unfold stretch_entry; cbv zeta; apply to_u8_range|].
    intros; apply stretch_mono; assumption.
Qed.

Lemma autocontrast_any cutoff ignore h :
  exists f, autocontrast_table cutoff ignore h = map f arange256 /\ (forall v, 0 <= v <= 255 -> 0 <= f v <= 255) /\ forall v w, v <= w -> f v <= f w.
Proof. unfold autocontrast_table. cbv zeta. apply stretch_any. Qed.

Lemma autocontrast_ok nc im cutoff ignore : u8_image nc im ->
  exists r, autocontrast_no_pil nc im cutoff ignore = Ok r /\ order_kept nc im r /\
    recolored nc im (fun c v => nth (Z.to_nat v) (autocontrast_table cutoff ignore (calc_hist None (channel c im))) 0) r.
Proof.
  intros U. unfold autocontrast_no_pil. set (f := fun c v => nth (Z.to_nat v) (autocontrast_table cutoff ignore (calc_hist None (channel c im))) 0).
  destruct (stack_channels nc im f (fun c => apply_lut 1 (mkArr (ah im) (aw im) (fun y x => [nth c (apx im y x) 0]))
                   (LFlat (autocontrast_table cutoff ignore (calc_hist None (channel c im))))) U) as [rs [E [_ R]]].
  - intros c C. fold (single c im). destruct (autocontrast_any cutoff ignore (calc_hist None (channel c im))) as [g [G [B _]]].
    assert (forall v, 0 <= v <= 255 -> f c v = g v) as FG by (intros v V; unfold f; rewrite G; apply table_nth; exact V).
    apply flat_recolor; [apply (single_u8 nc); assumption|rewrite G, map_length; reflexivity|]. intros v V. split; [reflexivity|]. rewrite FG by exact V. apply B. exact V.
  - rewrite E. cbn [bind]. eexists. split; [reflexivity|]. split; [|exact R]. apply (recolored_order nc im f _ U R).
    intros c v w C V VW W. unfold f. destruct (autocontrast_any cutoff ignore (calc_hist None (channel c im))) as [g [G [B M]]].
    rewrite G, !table_nth by lia. apply M. exact VW.
Qed.

(** ** Quantization *)

Definition q_entry (centerize : bool) (n v : Z) : Z :=
  let t := if (1 <=? n) && (n <? 255)
           then let binsize := f64 (256 / inject_Z n) in
                let q := f32 (inject_Z (Qfloor (f32 (inject_Z v / f32 binsize))) * f32 binsize) in
                if centerize then f32 (q + f32 (f64 (binsize / 2))) else q
           else 0%Q in
  zclip (np_round t) 0 255.

Lemma quantize_row_eq b n : quantize_row b n = map (q_entry b n) arange256.
Proof. unfold quantize_row, q_entry. apply map_ext. intros v. reflexivity. Qed.

Lemma q_range b n v : 0 <= q_entry b n v <= 255.
Proof. unfold q_entry. cbv zeta. generalize (np_round (if (1 <=? n) && (n <? 255) then if b then f32 (f32 (inject_Z (Qfloor (f32 (inject_Z v / f32 (f64 (256 / inject_Z n))))) * f32 (f64 (256 / inject_Z n))) + f32 (f64 (f64 (256 / inject_Z n) / 2))) else f32 (inject_Z (Qfloor (f32 (inject_Z v / f32 (f64 (256 / inject_Z n))))) * f32 (f64 (256 / inject_Z n))) else 0%Q)). intros z. unfold zclip. lia. Qed.

Lemma zclip_mono a b : a <= b -> zclip a 0 255 <= zclip b 0 255.
Proof. unfold zclip. lia. Qed.

Lemma q_mono b n v w : 0 <= v -> v <= w -> q_entry b n v <= q_entry b n w.
Proof.
  intros V L. unfold q_entry. cbv zeta. destruct ((1 <=? n) && (n <? 255)) eqn:N; [|lia]. apply andb_prop in N. destruct N as [N _]. apply Z.leb_le in N.
  assert (0 < inject_Z n)%Q as P by (change 0%Q with (inject_Z 0); rewrite <- Zlt_Qlt; lia).
  assert (0 < f32 (f64 (256 / inject_Z n)))%Q as S by (apply f32_pos, f64_pos, Qlt_shift_div_l; [exact P|]; rewrite Qmult_0_l; reflexivity).
  set (s := f32 (f64 (256 / inject_Z n))) in *. apply zclip_mono. apply np_round_mono.
  assert (f32 (inject_Z (Qfloor (f32 (inject_Z v / s))) * s) <= f32 (inject_Z (Qfloor (f32 (inject_Z w / s))) * s))%Q as M.
  { apply f32_mono. apply Qmult_le_compat_r; [|lra]. rewrite <- Zle_Qle. apply Qfloor_resp_le, f32_mono. unfold Qdiv. apply Qmult_le_compat_r.
    - rewrite <- Zle_Qle. exact L.
    - apply Qinv_le_0_compat. lra. }
  destruct b; [|exact M]. apply f32_mono. lra.
Qed.

Lemma f32_rel q : (0 <= q)%Q -> (q - q * (1 # 16777216) <= f32 q <= q + q * (1 # 16777216))%Q.
Proof. intros H. apply f32_near; [exact H|lra]. Qed.
Lemma f64_rel q : (0 <= q)%Q -> (q - q * (1 # 9007199254740992) <= f64 q <= q + q * (1 # 9007199254740992))%Q.
Proof. intros H. apply f64_near; [exact H|lra]. Qed.

Definition bin_width (n : Z) : Q := f32 (f64 (256 / inject_Z n)).
Definition bin_of (n v : Z) : Z := Qfloor (f32 (inject_Z v / bin_width n)).
Definition bin_value (b : bool) (n j : Z) : Z :=
  zclip (np_round (if b then f32 (f32 (inject_Z j * bin_width n) + f32 (f64 (f64 (256 / inject_Z n) / 2))) else f32 (inject_Z j * bin_width n))) 0 255.

Lemma q_entry_bin b n v : 1 <= n < 255 -> q_entry b n v = bin_value b n (bin_of n v).
Proof.
  intros N. unfold q_entry, bin_value, bin_of, bin_width. cbv zeta. replace ((1 <=? n) && (n <? 255)) with true; [reflexivity|].
  symmetry. apply andb_true_intro. split; [apply Z.leb_le|apply Z.ltb_lt]; lia.
Qed.

Lemma inject_le a b : (inject_Z a <= inject_Z b)%Q <-> a <= b.
Proof. rewrite <- Zle_Qle. reflexivity. Qed.
Lemma inject_lt a b : (inject_Z a < inject_Z b)%Q <-> a < b.
Proof. rewrite <- Zlt_Qlt. reflexivity. Qed.

Lemma width_near n : 1 <= n -> let w := (256 / inject_Z n)%Q in (0 < w /\ w * (1 - (1 # 16000000)) <= bin_width n <= w * (1 + (1 # 16000000)))%Q.
Proof.
  intros N w. assert (0 < inject_Z n)%Q as P by (change 0%Q with (inject_Z 0); apply inject_lt; lia).
  assert (0 < w)%Q as W by (unfold w; apply Qlt_shift_div_l; [exact P|]; rewrite Qmult_0_l; reflexivity).
  split; [exact W|]. unfold bin_width. fold w. pose proof (f64_rel w ltac:(lra)) as A. pose proof (f32_rel (f64 w) ltac:(lra)) as B. split; lra.
Qed.

Lemma bin_index n v : 2 <= n <= 254 -> 0 <= v <= 255 ->
  0 <= bin_of n v < n /\ (bin_of n v = v * n / 256 \/ ((v * n) mod 256 = 0 /\ bin_of n v = v * n / 256 - 1)).
Proof.
  intros N V. destruct (width_near n ltac:(lia)) as [W [W1 W2]]. cbv zeta in *. set (w := (256 / inject_Z n)%Q) in *. set (s := bin_width n) in *.
  assert (0 < inject_Z n)%Q as P by (change 0%Q with (inject_Z 0); apply inject_lt; lia).
  assert (0 < s)%Q as SP by lra. set (x := (inject_Z v / s)%Q).
  assert (x * s == inject_Z v)%Q as XS by (unfold x; field; lra). set (m := (inject_Z (v * n) / 256)%Q).
  assert (m * w == inject_Z v)%Q as MW by (unfold m, w; rewrite inject_Z_mult; field; lra).
  assert (0 <= inject_Z v <= 255)%Q as VB by (change 0%Q with (inject_Z 0); change 255%Q with (inject_Z 255); rewrite !inject_le; lia).
  assert (0 <= m <= 254)%Q as MB.
  { assert (0 <= inject_Z (v * n) <= 65024)%Q as B by (change 0%Q with (inject_Z 0); change 65024%Q with (inject_Z 65024); rewrite !inject_le; nia).
    unfold m. split; [apply Qle_shift_div_l; lra|apply Qle_shift_div_r; lra]. }
  assert (0 <= x)%Q as X0 by (unfold x; apply Qle_shift_div_l; [exact SP|lra]).
  assert (x <= m * (1 + (1 # 10000000)))%Q as XU.
  { unfold x. apply Qle_shift_div_r; [exact SP|]. rewrite <- MW. assert (m * w <= m * (1 + (1 # 10000000)) * (w * (1 - (1 # 16000000))))%Q by nra.
    assert (m * (1 + (1 # 10000000)) * (w * (1 - (1 # 16000000))) <= m * (1 + (1 # 10000000)) * s)%Q; [|lra].
    rewrite (Qmult_comm _ s), (Qmult_comm _ (w * _)). apply Qmult_le_compat_r; [exact W1|]. nra. }
  assert (m * (1 - (1 # 10000000)) <= x)%Q as XL.
  { unfold x. apply Qle_shift_div_l; [exact SP|]. rewrite <- MW. assert (m * (1 - (1 # 10000000)) * (w * (1 + (1 # 16000000))) <= m * w)%Q by nra.
    assert (m * (1 - (1 # 10000000)) * s <= m * (1 - (1 # 10000000)) * (w * (1 + (1 # 16000000))))%Q; [|lra].
    rewrite (Qmult_comm _ s), (Qmult_comm _ (w * _)). apply Qmult_le_compat_r; [exact W2|]. nra. }
  pose proof (f32_rel x X0) as F. unfold bin_of. fold s x. set (y := f32 x) in *.
  assert (m - (1 # 1000) < y < m + (1 # 1000))%Q as Y by (split; lra).
  set (k := v * n / 256). pose proof (Z.div_mod (v * n) 256 ltac:(lia)) as DM. fold k in DM. pose proof (Z.mod_pos_bound (v * n) 256 ltac:(lia)) as MBD.
  set (e := (v * n) mod 256) in *.
  assert (m == inject_Z k + inject_Z e * (1 # 256))%Q as MK by (unfold m; rewrite DM, inject_Z_plus, inject_Z_mult; field).
  assert (0 <= k) as K0 by (unfold k; apply Z.div_pos; nia). assert (k < n) as KN by (unfold k; apply Z.div_lt_upper_bound; nia).
  destruct (Z.eq_dec e 0) as [E|E].
  - rewrite E in MK. change (inject_Z 0) with 0%Q in MK. destruct (Qlt_le_dec y (inject_Z k)) as [L|L].
    + assert (Qfloor y = k - 1) as FE.
      { assert (inject_Z (k - 1) == inject_Z k - 1)%Q as KE by (unfold Zminus; rewrite inject_Z_plus; reflexivity). apply Qfloor_unique; rewrite KE; lra. }
      rewrite FE. destruct (Z.eq_dec k 0) as [KZ|KZ].
      * exfalso. rewrite KZ in L. change (inject_Z 0) with 0%Q in L. pose proof (f32_nonneg x X0). fold y in H. lra.
      * split; [lia|]. right. split; [exact E|reflexivity].
    + assert (Qfloor y = k) as FE by (apply Qfloor_unique; lra). rewrite FE. split; [lia|]. left. reflexivity.
  - assert (1 <= inject_Z e <= 255)%Q as EB by (change 1%Q with (inject_Z 1); change 255%Q with (inject_Z 255); rewrite !inject_le; lia).
    assert (Qfloor y = k) as FE by (apply Qfloor_unique; lra). rewrite FE. split; [lia|]. left. reflexivity.
Qed.

Lemma bin_nearest (b : bool) n j : 2 <= n <= 254 -> 0 <= j < n -> 2 * Z.abs (256 * j + (if b then 128 else 0) - n * bin_value b n j) <= n.
Proof.
  intros N J. destruct (width_near n ltac:(lia)) as [W [W1 W2]]. cbv zeta in *. set (w := (256 / inject_Z n)%Q) in *.
  assert (0 < inject_Z n)%Q as P by (change 0%Q with (inject_Z 0); apply inject_lt; lia).
  assert (w * inject_Z n == 256)%Q as WN by (unfold w; field; lra).
  unfold bin_value. fold w. set (s := bin_width n) in *. clearbody s.
  assert (0 <= inject_Z j)%Q as J0 by (change 0%Q with (inject_Z 0); apply inject_le; lia).
  assert (inject_Z j + 1 <= inject_Z n)%Q as JN by (change 1%Q with (inject_Z 1); rewrite <- inject_Z_plus; apply inject_le; lia).
  assert (forall p q, 0 <= p -> 0 <= q -> 0 <= p * q)%Q as MP by (intros; apply Qmult_le_0_compat; assumption).
  pose proof (MP (inject_Z j) (s - w * (1 - (1 # 16000000)))%Q ltac:(lra) ltac:(lra)) as A1.
  pose proof (MP (inject_Z j) (w * (1 + (1 # 16000000)) - s)%Q ltac:(lra) ltac:(lra)) as A2.
  pose proof (MP (inject_Z j) w ltac:(lra) ltac:(lra)) as A3. pose proof (MP (inject_Z n - 1 - inject_Z j)%Q w ltac:(lra) ltac:(lra)) as A4.
  assert (inject_Z j * s <= 257)%Q by lra. assert (0 <= inject_Z j * s)%Q by lra.
  pose proof (f32_rel (inject_Z j * s) ltac:(lra)) as F1. set (q := f32 (inject_Z j * s)) in *. clearbody q.
  set (t := if b then f32 (q + f32 (f64 (f64 w / 2))) else q). set (o := if b then 128 else 0).
  assert (w <= 256)%Q as WU by (assert (1 <= inject_Z n)%Q by (change 1%Q with (inject_Z 1); apply inject_le; lia); nra).
  assert (inject_Z j * w + inject_Z o * (1 # 256) * w - (1 # 1000) < t < inject_Z j * w + inject_Z o * (1 # 256) * w + (1 # 1000))%Q as T.
  { unfold t, o. destruct b.
    - pose proof (f64_rel w ltac:(lra)) as G1. set (a := f64 w) in *. clearbody a.
      set (a1 := (a / 2)%Q). assert (a1 == a * (1 # 2))%Q as HA by (unfold a1; field). clearbody a1.
      pose proof (f64_rel a1 ltac:(lra)) as G2. set (a2 := f64 a1) in *. clearbody a2.
      pose proof (f32_rel a2 ltac:(lra)) as G3. set (a3 := f32 a2) in *. clearbody a3. pose proof (f32_rel (q + a3) ltac:(lra)) as G4.
      change (inject_Z 128) with 128%Q. split; lra.
    - change (inject_Z 0) with 0%Q. split; lra. }
  clearbody t. destruct (np_round_spec t) as [R1 [R2 _]]. set (e := np_round t) in *. clearbody e.
  assert (inject_Z n <= 254)%Q as N4 by (change 254%Q with (inject_Z 254); apply inject_le; lia).
  pose proof (MP (inject_Z n) (inject_Z e + (1 # 2) - t)%Q ltac:(lra) ltac:(lra)) as B1.
  pose proof (MP (inject_Z n) (t + (1 # 2) - inject_Z e)%Q ltac:(lra) ltac:(lra)) as B2.
  pose proof (MP (inject_Z n) (t - (inject_Z j * w + inject_Z o * (1 # 256) * w - (1 # 1000)))%Q ltac:(lra) ltac:(lra)) as B3.
  pose proof (MP (inject_Z n) (inject_Z j * w + inject_Z o * (1 # 256) * w + (1 # 1000) - t)%Q ltac:(lra) ltac:(lra)) as B4.
  assert (inject_Z n * (inject_Z j * w + inject_Z o * (1 # 256) * w) == 256 * inject_Z j + inject_Z o)%Q as NE.
  { setoid_replace (inject_Z n * (inject_Z j * w + inject_Z o * (1 # 256) * w))%Q with ((w * inject_Z n) * (inject_Z j + inject_Z o * (1 # 256)))%Q by ring. rewrite WN. ring. }
  assert (2 * (256 * inject_Z j + inject_Z o - inject_Z n * inject_Z e) < inject_Z n + 1)%Q as D1 by lra.
  assert (2 * (inject_Z n * inject_Z e - (256 * inject_Z j + inject_Z o)) < inject_Z n + 1)%Q as D2 by lra.
  assert (2 * (256 * j + o - n * e) < n + 1) as I1.
  { apply inject_lt. unfold Zminus. rewrite !inject_Z_mult, !inject_Z_plus, inject_Z_opp, !inject_Z_mult.
    change (inject_Z 2) with 2%Q. change (inject_Z 256) with 256%Q. change (inject_Z 1) with 1%Q. lra. }
  assert (2 * (n * e - (256 * j + o)) < n + 1) as I2.
  { apply inject_lt. unfold Zminus. rewrite !inject_Z_mult, !inject_Z_plus, inject_Z_opp, !inject_Z_plus, !inject_Z_mult.
    change (inject_Z 2) with 2%Q. change (inject_Z 256) with 256%Q. change (inject_Z 1) with 1%Q. lra. }
  assert (0 <= o <= 128) as OB by (unfold o; destruct b; lia). clearbody o.
  assert (0 <= e <= 255) as EB by nia. assert (zclip e 0 255 = e) as -> by (unfold zclip; lia). lia.
Qed.

Lemma quantize_ok nc im n b : u8_image nc im -> 2 <= n <= 255 ->
  exists r, quantize_uniform nc im n b = Ok r /\ recolored nc im (fun _ => q_entry b n) r /\ order_kept nc im r.
Proof.
  intros U N. unfold quantize_uniform. pose proof (size_pos nc im U) as S.
  replace (n =? 256) with false by (symmetry; apply Z.eqb_neq; lia). replace (size_of nc im =? 0) with false by (symmetry; apply Z.eqb_neq; lia). cbn [orb].
  replace ((2 <=? n) && (n <=? 256)) with true by (symmetry; apply andb_true_intro; split; apply Z.leb_le; lia).
  rewrite quantize_row_eq. destruct (flat_recolor nc im (map (q_entry b n) arange256) (q_entry b n) U) as [r [E R]]; [rewrite map_length; reflexivity| |].
  - intros v V. split; [apply table_nth; exact V|apply q_range].
  - exists r. split; [exact E|]. split; [exact R|]. apply (recolored_order nc im (fun _ => q_entry b n) r U R). intros _ v w _ V VW W. apply q_mono; assumption.
Qed.

(** The rows of the powers of two by evaluation. *)
Lemma posterize_entry m v : 1 <= m <= 7 -> 0 <= v <= 255 -> q_entry false (2 ^ m) v = v / 2 ^ (8 - m) * 2 ^ (8 - m).
Proof.
  intros M V. assert (forall m, In m [1; 2; 3; 4; 5; 6; 7] -> forallb (fun v => q_entry false (2 ^ m) v =? v / 2 ^ (8 - m) * 2 ^ (8 - m)) arange256 = true) as H.
  { intros k K. repeat (destruct K as [<-|K]; [vm_compute; reflexivity|]). destruct K. }
  apply Z.eqb_eq. apply (by_evaluation (fun v => q_entry false (2 ^ m) v =? v / 2 ^ (8 - m) * 2 ^ (8 - m))); [|exact V]. apply H.
  assert (m = 1 \/ m = 2 \/ m = 3 \/ m = 4 \/ m = 5 \/ m = 6 \/ m = 7) as C by lia. cbn [In]. intuition lia.
Qed.

(** ** Hue and saturation *)

Lemma row_ok i : -255 <= i <= 255 -> row_index (255 + i) = Ok (255 + i).
Proof. intros I. unfold row_index. destruct (Z.leb_spec 0 (255 + i)); [|lia]. destruct (Z.ltb_spec (255 + i) 512); [reflexivity|lia]. Qed.

Lemma hue_entry r v : 0 <= r <= 510 -> 0 <= v <= 255 -> nth (Z.to_nat v) (hue_row r) 0 = (v + (r - 255)) mod 180.
Proof. intros R V. unfold hue_row. rewrite table_nth by exact V. destruct (Z.ltb_spec r 511); [reflexivity|lia]. Qed.

Lemma sat_entry r v : 0 <= r <= 510 -> 0 <= v <= 255 -> nth (Z.to_nat v) (saturation_row r) 0 = zclip (v + (r - 255)) 0 255.
Proof. intros R V. unfold saturation_row. rewrite table_nth by exact V. destruct (Z.ltb_spec r 511); [reflexivity|lia]. Qed.

Lemma transform_ok im h s : u8_image 3 im -> -255 <= h <= 255 -> -255 <= s <= 255 ->
  exists r, transform_hs im h s = Ok r /\
    recolored 3 im (fun c v => match c with O => (v + h) mod 180 | S O => zclip (v + s) 0 255 | _ => v end) r.
Proof.
  intros U H S. unfold transform_hs. rewrite !row_ok by assumption. cbn [bind].
  pose proof U as [_ [P1 [P2 I]]]. set (im2 := mkArr (ah im) (aw im) (fun y x => firstn 2 (apx im y x))).
  assert (u8_image 2 im2) as U2.
  { split; [lia|]. split; [exact P1|]. split; [exact P2|]. intros y x O. destruct (I y x O) as [L F]. cbn [apx im2]. split; [rewrite firstn_length; lia|].
    rewrite Forall_forall in *. intros v V. apply F. rewrite <- (firstn_skipn 2). apply in_or_app. left. exact V. }
  destruct (tables_recolor 2 im2 [hue_row (255 + h); saturation_row (255 + s)] (fun c v => match c with O => (v + h) mod 180 | _ => zclip (v + s) 0 255 end) U2) as [r [E [R1 [R2 [R3 R4]]]]].
  - reflexivity.
  - constructor; [unfold hue_row; rewrite map_length; reflexivity|]. constructor; [unfold saturation_row; rewrite map_length; reflexivity|constructor].
  - intros c v C V. destruct c as [|[|c]]; [| |lia]; cbn [nth].
    + rewrite hue_entry by lia. replace (v + (255 + h - 255)) with (v + h) by lia. split; [reflexivity|]. pose proof (Z.mod_pos_bound (v + h) 180 ltac:(lia)). lia.
    + rewrite sat_entry by lia. replace (v + (255 + s - 255)) with (v + s) by lia. split; [reflexivity|]. unfold zclip. lia.
  - rewrite E. cbn [bind]. eexists. split; [reflexivity|].
    assert (forall y x, on im y x -> length (apx r y x) = 2%nat /\ Forall (fun v => 0 <= v <= 255) (apx r y x)) as RI.
    { intros y x O. apply (proj2 (proj2 (proj2 R1))). unfold on. rewrite R2, R3. exact O. }
    assert (forall y x, on im y x -> apx r y x ++ skipn 2 (apx im y x) = [(comp im 0 y x + h) mod 180; zclip (comp im 1 y x + s) 0 255; comp im 2 y x]) as V.
    { intros y x O. destruct (RI y x O) as [L F]. destruct (I y x O) as [L3 _].
      pose proof (R4 0%nat y x ltac:(lia) O) as V0. pose proof (R4 1%nat y x ltac:(lia) O) as V1. unfold comp in *. cbn [apx im2] in V0, V1.
      destruct (apx r y x) as [|a [|b [|]]]; try discriminate. destruct (apx im y x) as [|i [|j [|k [|]]]]; try discriminate.
      cbn in V0, V1 |- *. rewrite V0, V1. reflexivity. }
    split; [|split; [reflexivity|split; [reflexivity|]]].
    + split; [lia|]. split; [exact P1|]. split; [exact P2|]. intros y x O. cbn [apx]. rewrite V by exact O. split; [reflexivity|].
      pose proof (Z.mod_pos_bound (comp im 0 y x + h) 180 ltac:(lia)). pose proof (comp_range 3 im 2 y x U ltac:(lia) O).
      repeat constructor; try lia; unfold zclip; lia.
    + intros c y x C O. unfold comp at 1. cbn [apx]. rewrite V by exact O. destruct c as [|[|[|c]]]; [reflexivity|reflexivity|reflexivity|lia].
Qed.

Lemma project_near v : -255 <= v <= 255 -> (inject_Z (180 * v) / 255 - 1 < inject_Z (project_hue v) < inject_Z (180 * v) / 255 + 1)%Q /\ -180 <= project_hue v <= 180.
Proof.
  intros V. assert (forallb (fun u => let v := u - 255 in (Z.abs (255 * project_hue v - 180 * v) <? 255) && (Z.abs (project_hue v) <=? 180)) (zrange 511) = true) as H by (vm_compute; reflexivity).
  rewrite forallb_forall in H. specialize (H (v + 255) ltac:(apply in_zrange; lia)). cbv beta zeta in H. replace (v + 255 - 255) with v in H by lia.
  apply andb_prop in H. destruct H as [H1 H2]. apply Z.ltb_lt in H1. apply Z.leb_le in H2. split; [|lia].
  assert (inject_Z (180 * v) / 255 == inject_Z (180 * v) * (1 # 255))%Q as Q by field.
  assert (-255 < 255 * project_hue v - 180 * v < 255) as [A B] by lia.
  apply inject_lt in A, B. unfold Zminus in A, B. rewrite inject_Z_plus, inject_Z_opp, inject_Z_mult in A, B. change (inject_Z 255) with 255%Q in A, B. change (inject_Z (-255)) with (-255)%Q in A.
  rewrite Q. split; lra.
Qed.

Lemma project_opp v : -255 <= v <= 255 -> project_hue (- v) = - project_hue v.
Proof.
  intros V. assert (forallb (fun u => let v := u - 255 in project_hue (- v) =? - project_hue v) (zrange 511) = true) as H by (vm_compute; reflexivity).
  rewrite forallb_forall in H. specialize (H (v + 255) ltac:(apply in_zrange; lia)). cbv beta zeta in H. replace (v + 255 - 255) with v in H by lia.
  apply Z.eqb_eq in H. exact H.
Qed.

(** ** What the properties need *)

Lemma gamma_fixed nc im m g r v : u8_image nc im -> adjust_contrast nc (gamma_table m g) im = Ok r -> 0 <= v <= 255 ->
  (fpow m (linspace1 v) (f32 g) == linspace1 v)%Q -> forall c y x, (c < nc)%nat -> on im y x -> comp im c y x = v -> comp r c y x = v.
Proof.
  intros U E V P c y x C O EV. unfold gamma_table in E.
  destruct (adjust_ok nc im (fun i => to_u8 (f32 (0 + f32 (fpow m (linspace1 i) (f32 g) * 255)))%Q) U) as [r' [E' RC]]; [intros; apply to_u8_range|].
  rewrite E in E'. injection E' as <-. destruct RC as [_ [_ [_ R]]]. rewrite R by assumption. rewrite EV. cbv beta. apply to_u8_Z; [exact V|].
  apply f32_Z; [lia|]. rewrite (f32_compat _ (linspace1 v * 255)%Q) by (rewrite P; reflexivity). rewrite linspace_back by exact V. ring.
Qed.

Lemma log_black nc im m g r : u8_image nc im -> log_rises (flog2 m) -> adjust_contrast nc (log_table m g) im = Ok r ->
  forall c y x, (c < nc)%nat -> on im y x -> comp im c y x = 0 -> comp r c y x = 0.
Proof.
  intros U [LM L1] E c y x C O EV. unfold log_table in E.
  destruct (adjust_ok nc im (fun i => to_u8 (f32 (0 + f32 (f32 (f64 (255 * f32 g)) * flog2 m (f32 (1 + linspace1 i)))))%Q) U) as [r' [E' RC]]; [intros; apply to_u8_range|].
  rewrite E in E'. injection E' as <-. destruct RC as [_ [_ [_ R]]]. rewrite R by assumption. rewrite EV. cbv beta. apply to_u8_Z; [lia|].
  apply f32_Z; [lia|]. assert (f32 (1 + linspace1 0) == 1)%Q as F1 by reflexivity.
  assert (flog2 m (f32 (1 + linspace1 0)) == 0)%Q as Z0.
  { generalize dependent (f32 (1 + linspace1 0)). intros a F1. assert (flog2 m a <= flog2 m 1)%Q by (apply LM; lra). assert (flog2 m 1 <= flog2 m a)%Q by (apply LM; lra). lra. }
  rewrite (f32_compat _ 0) by (rewrite Z0; ring). reflexivity.
Qed.

Lemma uniform_one_value mask im c : uniform mask (channel c im) <-> one_value mask im c.
Proof. reflexivity. Qed.

Lemma small_spec nc im : small nc im = true <-> small_rgb nc im.
Proof.
  unfold small, small_rgb. rewrite andb_true_iff, Nat.eqb_eq. unfold size_of, use_pil_below. split; intros [-> H]; (split; [reflexivity|]).
  - apply Z.ltb_lt in H. change (Z.of_nat 3) with 3 in H. lia.
  - apply Z.ltb_lt. change (Z.of_nat 3) with 3. lia.
Qed.

Lemma equalize_levels owned nc im mask after r : u8_image nc im -> equalize owned nc im mask = Ok (after, r) ->
  let m := if Nat.eqb nc 1 || Nat.eqb nc 3 then mask else None in
  forall c b, (c < nc)%nat -> (small_rgb nc im -> brightest m im c b) -> (~ small_rgb nc im -> b = 255) ->
  let q := count m im c (fun u => u <? b) / 255 in
  (one_value m im c \/ q = 0 -> forall y x, on im y x -> comp r c y x = comp im c y x) /\
  (~ one_value m im c -> q <> 0 -> forall y x, on im y x -> levelled q (count m im c (fun u => u <? comp im c y x)) (comp r c y x)).
Proof.
  intros U E m c b C B1 B2 q. destruct (equalize_ok owned nc im mask U) as [a' [r' [E' [R _]]]]. rewrite E in E'. injection E' as <- <-.
  unfold std in R. fold m in R. destruct R as [_ [_ [_ R]]].
  assert (the_step (small nc im) (calc_hist m (channel c im)) = q) as SQ.
  { unfold q. destruct (small nc im) eqn:S.
    - apply small_spec in S. specialize (B1 S). destruct B1 as [X1 X2]. apply (step_pil m nc); assumption.
    - assert (b = 255) as -> by (apply B2; intros K; apply small_spec in K; congruence). apply (step_nopil m nc); assumption. }
  split.
  - intros K y x O. rewrite R by assumption. destruct (eq_entry_level (small nc im) m nc im c (comp im c y x) U C (comp_range nc im c y x U C O)) as [L _].
    rewrite SQ in L. apply L. exact K.
  - intros K1 K2 y x O. rewrite R by assumption. destruct (eq_entry_level (small nc im) m nc im c (comp im c y x) U C (comp_range nc im c y x U C O)) as [_ L].
    rewrite SQ in L. apply L; assumption.
Qed.

Lemma levelled_0 q r : 0 < q -> levelled q 0 r -> r = 0.
Proof.
  intros Q L. unfold levelled in L. pose proof (Z.div_mod q 2 ltac:(lia)). pose proof (Z.mod_pos_bound q 2 ltac:(lia)).
  destruct (Z.leb_spec (255 * q) (0 + q / 2)); nia.
Qed.

Lemma levelled_top n r : 0 < n / 255 -> levelled (n / 255) n r -> r = 255.
Proof.
  intros Q L. unfold levelled in L. pose proof (Z.div_mod n 255 ltac:(lia)) as DM. pose proof (Z.mod_pos_bound n 255 ltac:(lia)).
  set (q := n / 255) in *. assert (0 <= q / 2) by (apply Z.div_pos; lia).
  destruct (Z.leb_spec (255 * q) (n + q / 2)); [exact L|lia].
Qed.

Lemma counting_zero a mask P : (forall y x, on a y x -> in_mask mask y x = true -> P (apx a y x) = false) -> counting a mask P = 0.
Proof.
  intros H. unfold counting.
  assert (filter (fun p => P (apx a (fst p) (snd p)) && in_mask mask (fst p) (snd p)) (positions (ah a) (aw a)) = []) as ->; [|reflexivity].
  assert (forall l, (forall p, In p l -> on a (fst p) (snd p)) -> filter (fun p => P (apx a (fst p) (snd p)) && in_mask mask (fst p) (snd p)) l = []) as G.
  { induction l as [|p l IH]; intros A; [reflexivity|]. cbn [filter]. specialize (H (fst p) (snd p) (A p (or_introl eq_refl))).
    destruct (in_mask mask (fst p) (snd p)); [rewrite H by reflexivity; cbn [andb]; apply IH; intros; apply A; right; assumption|].
    rewrite andb_false_r. apply IH. intros; apply A; right; assumption. }
  apply G. intros [y x] I. unfold positions in I. apply in_prod_iff in I. destruct I as [I1 I2]. change (In y (zrange (ah a))) in I1. change (In x (zrange (aw a))) in I2.
  apply in_zrange in I1, I2. split; assumption.
Qed.

Lemma count_pos_div n : 0 <= n -> n / 255 <> 0 -> 0 < n / 255.
Proof. intros. assert (0 <= n / 255) by (apply Z.div_pos; lia). lia. Qed.

(** In a small image of three channels the ends become black and white. *)
Lemma equalize_ends owned im mask after r c b : u8_image 3 im -> ah im * aw im * 3 < 4096 -> equalize owned 3 im mask = Ok (after, r) -> (c < 3)%nat ->
  brightest mask im c b -> 255 <= count mask im c (fun u => u <? b) ->
  forall y x, on im y x ->
    (comp im c y x = b -> comp r c y x = 255) /\
    ((forall y' x', on im y' x' -> in_mask mask y' x' = true -> comp im c y x <= comp im c y' x') -> comp r c y x = 0).
Proof.
  intros U SM E C B N y x O. pose proof (equalize_levels owned 3 im mask after r U E) as L. cbn [Nat.eqb orb] in L. cbv zeta in L.
  destruct (L c b C) as [_ L2]; [intros _; exact B|intros K; exfalso; apply K; split; [reflexivity|exact SM]|].
  assert (~ one_value mask im c) as NU.
  { intros K. destruct B as [[y0 [x0 [O0 [M0 E0]]]] _]. rewrite count_counting in N. rewrite counting_zero in N; [lia|]. intros y' x' O' M'.
    apply Z.ltb_ge. rewrite <- E0. change (apx (channel c im) y' x') with (comp im c y' x'). rewrite (K y0 x0 y' x' O0 O' M0 M'). lia. }
  assert (0 < count mask im c (fun u => u <? b) / 255) as Q by (apply Z.div_str_pos; lia).
  specialize (L2 NU ltac:(lia) y x O). split.
  - intros EB. rewrite EB in L2. apply (levelled_top _ _ Q L2).
  - intros D. assert (count mask im c (fun u => u <? comp im c y x) = 0) as Z0.
    { rewrite count_counting. apply counting_zero. intros y' x' O' M'. apply Z.ltb_ge. apply D; assumption. }
    rewrite Z0 in L2. apply (levelled_0 _ _ Q L2).
Qed.

Lemma equalize_input owned nc im mask after r : u8_image nc im -> equalize owned nc im mask = Ok (after, r) ->
  ~ (ah im * aw im * Z.of_nat nc < 4096 /\ (nc = 3%nat \/ nc = 1%nat /\ owned = true)) -> after = im.
Proof.
  intros U E N. destruct (equalize_ok owned nc im mask U) as [a' [r' [E' [_ A]]]]. rewrite E in E'. injection E' as <- <-. rewrite A.
  destruct ((size_of nc im <? use_pil_below) && (Nat.eqb nc 3 || (Nat.eqb nc 1 && owned))) eqn:B; [|reflexivity]. exfalso. apply N.
  apply andb_prop in B. destruct B as [B1 B2]. apply Z.ltb_lt in B1. split; [exact B1|]. apply orb_prop in B2. destruct B2 as [B2|B2].
  - left. apply Nat.eqb_eq. exact B2.
  - apply andb_prop in B2. destruct B2 as [B2 B3]. right. split; [apply Nat.eqb_eq; exact B2|exact B3].
Qed.

Lemma equalize_no_mask owned nc im mask : nc <> 1%nat -> nc <> 3%nat -> equalize owned nc im mask = equalize owned nc im None.
Proof.
  intros N1 N3. unfold equalize, equalize_. replace (Nat.eqb nc 1) with false by (symmetry; apply Nat.eqb_neq; exact N1).
  replace (Nat.eqb nc 3) with false by (symmetry; apply Nat.eqb_neq; exact N3). reflexivity.
Qed.

Lemma autocontrast_spec nc im cutoff ignore r : u8_image nc im -> (0 <= cutoff)%Q -> autocontrast_no_pil nc im cutoff ignore = Ok r ->
  forall c, (c < nc)%nat -> let k := Qfloor (inject_Z (count None im c (fun v => negb (existsb (Z.eqb v) ignore))) * cutoff / 100) in
  (forall lo hi, 0 <= lo -> lo < hi -> hi <= 255 -> dark_rank im c ignore k lo -> bright_rank im c ignore k hi ->
     forall y x, on im y x -> stretched lo hi (comp im c y x) (comp r c y x)) /\
  ((forall lo hi, 0 <= lo -> lo < hi -> hi <= 255 -> dark_rank im c ignore k lo -> bright_rank im c ignore k hi -> False) ->
     forall y x, on im y x -> comp r c y x = comp im c y x).
Proof.
  intros U CO E c C k. destruct (autocontrast_ok nc im cutoff ignore U) as [r' [E' [_ R]]]. rewrite E in E'. injection E' as <-.
  destruct R as [_ [_ [_ R]]]. destruct (autocontrast_table_cases nc im c cutoff ignore U C CO) as [T1 T2]. change (rank_of ignore cutoff im c) with k in T1, T2.
  split.
  - intros lo hi L LH H D B y x O. pose proof (comp_range nc im c y x U C O) as V. rewrite R by assumption. cbv beta.
    rewrite (T1 lo hi L LH H D B), table_nth by exact V. apply stretch_stretched; assumption.
  - intros N y x O. pose proof (comp_range nc im c y x U C O) as V. rewrite R by assumption. cbv beta. rewrite (T2 N), table_nth by exact V. reflexivity.
Qed.

Lemma autocontrast_route pil two_d nc im cutoff ignore : u8_image nc im -> (cutoff == 0)%Q \/ (two_d = false /\ nc <> 3%nat) ->
  autocontrast pil two_d nc im cutoff ignore = autocontrast_no_pil nc im cutoff ignore.
Proof.
  intros [N [P1 [P2 _]]] H. unfold autocontrast. replace (ah im =? 0) with false by (symmetry; apply Z.eqb_neq; lia).
  replace (aw im =? 0) with false by (symmetry; apply Z.eqb_neq; lia). replace (Nat.eqb nc 0) with false by (symmetry; apply Nat.eqb_neq; lia). cbn [orb].
  destruct H as [H|[-> H]].
  - apply qeqb_iff in H. rewrite H. reflexivity.
  - apply Nat.eqb_neq in H. rewrite H. rewrite andb_false_r. reflexivity.
Qed.

Lemma quantize_bins nc im n b r : u8_image nc im -> 2 <= n <= 254 -> quantize_uniform nc im n b = Ok r ->
  forall c y x, (c < nc)%nat -> on im y x -> let v := comp im c y x in
  exists j, (j = v * n / 256 \/ (v * n) mod 256 = 0 /\ j = v * n / 256 - 1) /\ 0 <= j < n /\ nearest_in_bin b n j (comp r c y x).
Proof.
  intros U N E c y x C O v. destruct (quantize_ok nc im n b U ltac:(lia)) as [r' [E' [R _]]]. rewrite E in E'. injection E' as <-.
  destruct R as [_ [_ [_ R]]]. pose proof (comp_range nc im c y x U C O) as V. fold v in V. destruct (bin_index n v N V) as [B1 B2].
  exists (bin_of n v). split; [exact B2|]. split; [exact B1|]. rewrite R by assumption. fold v. cbv beta. rewrite q_entry_bin by lia. apply bin_nearest; assumption.
Qed.

Lemma quantize_palette nc im n b r : u8_image nc im -> 2 <= n <= 254 -> quantize_uniform nc im n b = Ok r ->
  exists palette, length palette = Z.to_nat n /\ forall c y x, (c < nc)%nat -> on im y x -> In (comp r c y x) palette.
Proof.
  intros U N E. destruct (quantize_ok nc im n b U ltac:(lia)) as [r' [E' [R _]]]. rewrite E in E'. injection E' as <-. destruct R as [_ [_ [_ R]]].
  exists (map (bin_value b n) (zrange n)). split; [rewrite map_length; unfold zrange; rewrite map_length; apply seq_length|].
  intros c y x C O. rewrite R by assumption. cbv beta. pose proof (comp_range nc im c y x U C O) as V. rewrite q_entry_bin by lia.
  apply in_map. apply in_zrange. apply bin_index; [exact N|exact V].
Qed.

Lemma posterize_ok nc im bits : u8_image nc im -> 1 <= bits <= 8 ->
  exists r, quantize_uniform_to_n_bits nc im bits = Ok r /\ recolored nc im (fun _ v => v / 2 ^ (8 - bits) * 2 ^ (8 - bits)) r.
Proof.
  intros U B. unfold quantize_uniform_to_n_bits. replace ((1 <=? bits) && (bits <=? 8)) with true by (symmetry; apply andb_true_intro; split; apply Z.leb_le; lia).
  destruct (Z.eq_dec bits 8) as [->|NB].
  - unfold quantize_uniform. change (2 ^ 8 =? 256) with true. cbn [orb]. exists im. split; [reflexivity|]. split; [exact U|]. split; [reflexivity|]. split; [reflexivity|].
    intros c y x _ _. change (2 ^ (8 - 8)) with 1. rewrite Z.div_1_r, Z.mul_1_r. reflexivity.
  - assert (2 <= 2 ^ bits <= 128) as P.
    { split; [change 2 with (2 ^ 1) at 1; apply Z.pow_le_mono_r; lia|change 128 with (2 ^ 7); apply Z.pow_le_mono_r; lia]. }
    destruct (quantize_ok nc im (2 ^ bits) false U ltac:(lia)) as [r [E [R _]]]. exists r. split; [exact E|].
    apply (recolored_ext _ _ _ _ _ U R). intros c v _ V. apply posterize_entry; [lia|exact V].
Qed.
