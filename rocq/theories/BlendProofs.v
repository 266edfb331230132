(** Proofs about blending. *)
From Coq Require Import Qabs Lia Lqa.
From Verif Require Import Prelude PreludeFacts UtilProofs PtsProofs GeoModel SizeModel SizeProofs AriModel AriProofs InvProofs DropProofs
  BlendModel BlendSpec.

(** ** One component *)

Lemma sat8_between lo hi q : 0 <= lo -> hi <= 255 -> (inject_Z lo <= q)%Q -> (q <= inject_Z hi)%Q -> lo <= sat8 q <= hi.
Proof.
  intros L H A B. apply np_round_mono in A. apply np_round_mono in B. rewrite np_round_Z in A, B.
  unfold sat8, zclip. lia.
Qed.
Lemma sat8_Z z : 0 <= z <= 255 -> sat8 (inject_Z z) = z.
Proof. intros H. unfold sat8. rewrite np_round_Z. unfold zclip. lia. Qed.
Lemma np_round_compat a b : (a == b)%Q -> np_round a = np_round b.
Proof. intros E. apply Z.le_antisymm; apply np_round_mono; rewrite E; apply Qle_refl. Qed.
Lemma sat8_compat a b : (a == b)%Q -> sat8 a = sat8 b.
Proof. intros E. unfold sat8. f_equal. apply np_round_compat. exact E. Qed.

Lemma mixed_between f b a : in_unit a ->
  (inject_Z (Z.min f b) <= mixed f b a)%Q /\ (mixed f b a <= inject_Z (Z.max f b))%Q.
Proof.
  intros [A B]. unfold mixed.
  destruct (Z.le_ge_cases f b) as [L|L].
  - rewrite Z.min_l, Z.max_r by exact L. rewrite Zle_Qle in L. set (x := inject_Z f) in *. set (y := inject_Z b) in *. split; nra.
  - rewrite Z.min_r, Z.max_l by exact L. rewrite Zle_Qle in L. set (x := inject_Z f) in *. set (y := inject_Z b) in *. split; nra.
Qed.

Lemma weighted_near f b a : 0 <= f <= 255 -> 0 <= b <= 255 -> in_unit a ->
  between f b (add_weighted f b a) /\ (Qabs (inject_Z (add_weighted f b a) - mixed f b a) <= 1 # 2)%Q.
Proof.
  intros F B U. pose proof (mixed_between f b a U) as [M1 M2].
  assert (inject_Z f * a + inject_Z b * (1 - a) == mixed f b a)%Q as E by (unfold mixed; ring).
  unfold add_weighted. rewrite (sat8_compat _ _ E). split.
  - apply sat8_between; [lia|lia|exact M1|exact M2].
  - assert (sat8 (mixed f b a) = np_round (mixed f b a)) as ->.
    { unfold sat8, zclip. apply np_round_mono in M1. apply np_round_mono in M2. rewrite np_round_Z in M1, M2. lia. }
    apply np_round_near.
Qed.

Lemma multiply_near8 v a : 0 <= v <= 255 -> in_unit a ->
  0 <= sat8 (inject_Z v * a)%Q <= 255 /\ (Qabs (inject_Z (sat8 (inject_Z v * a)) - inject_Z v * a) <= 1 # 2)%Q.
Proof.
  intros V [A B].
  assert (0 <= inject_Z v /\ inject_Z v <= 255)%Q as [V1 V2].
  { change 0%Q with (inject_Z 0). change 255%Q with (inject_Z 255). rewrite <- !Zle_Qle. lia. }
  assert (inject_Z 0 <= inject_Z v * a /\ inject_Z v * a <= inject_Z 255)%Q as [L H].
  { change (inject_Z 0) with 0%Q. change (inject_Z 255) with 255%Q. split; nra. }
  split; [apply sat8_between; (lia || assumption)|].
  assert (sat8 (inject_Z v * a) = np_round (inject_Z v * a)) as ->.
  { unfold sat8, zclip. apply np_round_mono in L. apply np_round_mono in H. rewrite np_round_Z in L, H. lia. }
  apply np_round_near.
Qed.

Lemma elementwise_blend_near f b a : 0 <= f <= 255 -> 0 <= b <= 255 -> in_unit a ->
  0 <= multiply_add f b a <= 255 /\ (Qabs (inject_Z (multiply_add f b a) - mixed f b a) <= 1)%Q.
Proof.
  intros F B [A1 A2]. assert (in_unit (1 - a)) as U' by (split; lra).
  destruct (multiply_near8 f a F (conj A1 A2)) as [F1 F2].
  destruct (multiply_near8 b (1 - a) B U') as [B1 B2].
  pose proof (mixed_between f b a (conj A1 A2)) as [M1 M2].
  unfold multiply_add. set (x := sat8 (inject_Z f * a)) in *. set (y := sat8 (inject_Z b * (1 - a))) in *.
  split; [lia|]. unfold mixed in *.
  assert (inject_Z (Z.max f b) <= 255)%Q as MX by (change 255%Q with (inject_Z 255); rewrite <- Zle_Qle; lia).
  apply Qabs_Qle_condition in F2. apply Qabs_Qle_condition in B2. apply Qabs_Qle_condition.
  destruct (Z.min_spec 255 (x + y)) as [[C E]|[C E]]; rewrite E.
  - change (inject_Z 255) with 255%Q. apply Z.lt_le_incl in C. rewrite Zle_Qle, inject_Z_plus in C.
    change (inject_Z 255) with 255%Q in C. split; lra.
  - rewrite inject_Z_plus. split; lra.
Qed.

Lemma exact_ends f b a : 0 <= f <= 255 -> 0 <= b <= 255 ->
  ((a == 1)%Q -> add_weighted f b a = f /\ multiply_add f b a = f) /\
  ((a == 0)%Q -> add_weighted f b a = b /\ multiply_add f b a = b).
Proof.
  intros F B.
  assert (forall x y u v, (x == inject_Z u)%Q -> (y == inject_Z v)%Q -> 0 <= u <= 255 -> 0 <= v <= 255 ->
          Z.min 255 (sat8 x + sat8 y) = Z.min 255 (u + v)) as T.
  { intros x y u v X Y U V. rewrite (sat8_compat _ _ X), (sat8_compat _ _ Y), !sat8_Z by assumption. reflexivity. }
  split; intros E; split.
  - unfold add_weighted. rewrite (sat8_compat _ (inject_Z f)) by (rewrite E; ring). apply sat8_Z. exact F.
  - unfold multiply_add. rewrite (T _ _ f 0); [lia| | |exact F|lia]; rewrite E; ring.
  - unfold add_weighted. rewrite (sat8_compat _ (inject_Z b)) by (rewrite E; ring). apply sat8_Z. exact B.
  - unfold multiply_add. rewrite (T _ _ 0 b); [lia| | |lia|exact B]; rewrite E; ring.
Qed.

(** ** Whole images *)

Lemma lookup_is_weight nc a i : lookup_alpha nc a i = weight nc a i.
Proof. reflexivity. Qed.

Lemma pixel_in i nc np : nc <> 0%nat -> (i < np * nc)%nat -> (i / nc < np)%nat.
Proof. intros NZ H. apply Nat.div_lt_upper_bound; [exact NZ|]. lia. Qed.

(** The normalized alphas mean the same. *)
Lemma normalized nc np a : nc <> 0%nat -> np <> 0%nat -> fits nc np a ->
  exists a', normalize_alphas nc np a = Ok a' /\ values a' = values a /\
    (forall i, (i < np * nc)%nat -> lookup_alpha nc a' i = weight nc a i) /\
    (uniform a -> uniform a') /\ (forall l, a' = AChannels l -> length l = nc) /\ fits nc np a' /\ values a' <> [].
Proof.
  intros NC NP F. unfold normalize_alphas.
  assert (length (values a) <> 0%nat) as VN by (destruct a; cbn in *; lia || nia).
  destruct (values a) as [|q [|q2 l2]] eqn:V; [contradiction VN; reflexivity| |].
  - exists (ASingle q). split; [reflexivity|]. split; [reflexivity|]. split; [|split; [|split; [|split]]].
    + intros i Hi. destruct a as [p|l|l|l]; cbn in V; [injection V as ->; reflexivity| | |]; subst l; cbn in F |- *.
      * subst nc. rewrite Nat.mod_1_r. reflexivity.
      * assert (i / nc = 0)%nat as -> by (pose proof (pixel_in i nc np NC Hi); lia). reflexivity.
      * assert (i = 0)%nat as -> by lia. reflexivity.
    + intros _. exact I.
    + discriminate.
    + exact I.
    + discriminate.
  - rewrite <- V in *. destruct a as [p|l|l|l]; cbn in V; [discriminate| | |]; cbn [fits] in F.
    + exists (AChannels l). split; [reflexivity|]. split; [reflexivity|]. split; [reflexivity|]. split; [auto|].
      split; [intros l' E; injection E as <-; exact F|]. split; [exact F|]. cbn. rewrite V. discriminate.
    + exists (APixels l). rewrite F, Nat.eqb_refl. split; [reflexivity|]. split; [reflexivity|]. split; [reflexivity|].
      split; [auto|]. split; [discriminate|]. split; [exact F|]. cbn. rewrite V. discriminate.
    + rewrite F, Nat.eqb_refl. destruct (Nat.eqb_spec np 1) as [->|N].
      * exists (AChannels l). split; [reflexivity|]. split; [reflexivity|]. split.
        { intros i Hi. cbn. rewrite Nat.mod_small by lia. reflexivity. }
        split; [intros []|]. split; [intros l' E; injection E as <-; lia|]. split; [cbn; lia|]. cbn. rewrite V. discriminate.
      * exists (AComponents l). split; [reflexivity|]. split; [reflexivity|]. split; [reflexivity|].
        split; [auto|]. split; [discriminate|]. split; [exact F|]. cbn. rewrite V. discriminate.
Qed.

Lemma weight_in nc np a i : nc <> 0%nat -> fits nc np a -> (i < np * nc)%nat -> In (weight nc a i) (values a).
Proof.
  intros NC F H. destruct a as [q|l|l|l]; cbn in *.
  - left. reflexivity.
  - apply nth_In. rewrite F. apply Nat.mod_upper_bound. exact NC.
  - apply nth_In. rewrite F. apply pixel_in; assumption.
  - apply nth_In. rewrite F. exact H.
Qed.

Lemma blend_ok eps nc np fg bg a :
  (0 <= eps)%Q -> (eps < 1)%Q -> nc <> 0%nat ->
  length fg = (np * nc)%nat -> length bg = length fg -> uint8 fg -> uint8 bg ->
  fits nc np a -> Forall in_unit (values a) ->
  exists r bg', blend_uint8 eps nc fg bg a = Ok (r, bg') /\ length r = length fg /\
    (forall i, (i < length fg)%nat -> blended 1 eps (nth i fg 0) (nth i bg 0) (weight nc a i) (nth i r 0)) /\
    (uniform a -> forall i, (i < length fg)%nat ->
       between (nth i fg 0) (nth i bg 0) (nth i r 0) /\
       ((Qabs (inject_Z (nth i r 0%Z) - mixed (nth i fg 0%Z) (nth i bg 0%Z) (weight nc a i)) <= 1 # 2)%Q \/
        ((1 - eps <= weight nc a i)%Q /\ nth i r 0 = nth i fg 0) \/ ((weight nc a i <= eps)%Q /\ nth i r 0 = nth i bg 0))) /\
    ((uniform a \/ ((64 * 64 <= np)%nat /\ exists l, a = APixels l)) -> bg' = bg).
Proof.
  intros E0 E1 NC LF LB UF UB F U. unfold blend_uint8.
  rewrite LB, Nat.eqb_refl. cbn [negb]. rewrite LF. rewrite Nat.div_mul by exact NC.
  destruct (Nat.eqb_spec (np * nc) 0) as [Z0|NZ].
  { exists fg, bg. split; [reflexivity|]. split; [exact LF|]. split; [intros; lia|]. split; [intros; lia|auto]. }
  assert (np <> 0%nat) as NP by (intros ->; apply NZ; reflexivity).
  destruct (normalized nc np a NC NP F) as [a' [N [V [W [UN [CH [F' NE]]]]]]]. rewrite N. cbn [bind].
  assert (forall i, (i < np * nc)%nat -> 0 <= nth i fg 0 <= 255) as FB by (intros i Hi; apply Forall_nth; [exact UF|lia]).
  assert (forall i, (i < np * nc)%nat -> 0 <= nth i bg 0 <= 255) as BB by (intros i Hi; apply Forall_nth; [exact UB|lia]).
  assert (forall i, (i < np * nc)%nat -> in_unit (weight nc a i)) as WU.
  { intros i Hi. rewrite Forall_forall in U. apply U. apply (weight_in nc np); assumption. }
  rewrite V. destruct (forallb (fun q => qleb (1 - eps) q) (values a)) eqn:HI.
  { exists fg, bg. rewrite forallb_forall in HI.
    assert (forall i, (i < np * nc)%nat -> (1 - eps <= weight nc a i)%Q) as G.
    { intros i Hi. apply qleb_iff, HI. apply (weight_in nc np); assumption. }
    split; [reflexivity|]. split; [exact LF|]. split; [|split].
    - intros i Hi. split; [apply FB; exact Hi|]. split; [right; left; split; [apply G; exact Hi|reflexivity]|].
      split; [reflexivity|]. intros Z. specialize (G i Hi). exfalso. lra.
    - intros _ i Hi. split; [unfold between; lia|]. right. left. split; [apply G; exact Hi|reflexivity].
    - reflexivity. }
  destruct (forallb (fun q => qleb q eps) (values a)) eqn:LO.
  { exists bg, bg. rewrite forallb_forall in LO.
    assert (forall i, (i < np * nc)%nat -> (weight nc a i <= eps)%Q) as G.
    { intros i Hi. apply qleb_iff. apply (LO (weight nc a i)). apply (weight_in nc np); assumption. }
    split; [reflexivity|]. split; [congruence|]. split; [|split].
    - intros i Hi. split; [apply BB; exact Hi|]. split; [right; right; split; [apply G; exact Hi|reflexivity]|].
      split; [|reflexivity]. intros Z. specialize (G i Hi). exfalso. lra.
    - intros _ i Hi. split; [unfold between; lia|]. right. right. split; [apply G; exact Hi|reflexivity].
    - reflexivity. }
  assert (negb (qleb 0 (hd 0%Q (values a)) && qleb (hd 0%Q (values a)) 1) = false) as FST.
  { rewrite V in NE. destruct (values a) as [|q l]; [contradiction|]. inversion U as [|? ? [Q1 Q2] _]; subst. cbn.
    apply qleb_iff in Q1. apply qleb_iff in Q2. rewrite Q1, Q2. reflexivity. }
  rewrite FST. cbv zeta. set (sg := map _ (indexed (combine fg bg))). set (el := map _ (indexed (combine fg bg))).
  set (bm := map _ (indexed bg)).
  assert (length (combine fg bg) = (np * nc)%nat) as CL by (rewrite combine_length; lia).
  assert (length sg = (np * nc)%nat) as SL by (unfold sg, indexed; rewrite indexed_length; exact CL).
  assert (length el = (np * nc)%nat) as EL by (unfold el, indexed; rewrite indexed_length; exact CL).
  assert (forall i, (i < np * nc)%nat -> nth i sg 0 = add_weighted (nth i fg 0) (nth i bg 0) (weight nc a i)) as SN.
  { intros i Hi. unfold sg, indexed. rewrite (nth_indexed _ _ (0, 0) i) by lia.
    rewrite combine_nth by congruence. rewrite (W i Hi). reflexivity. }
  assert (forall i, (i < np * nc)%nat -> nth i el 0 = multiply_add (nth i fg 0) (nth i bg 0) (weight nc a i)) as EN.
  { intros i Hi. unfold el, indexed. rewrite (nth_indexed _ _ (0, 0) i) by lia.
    rewrite combine_nth by congruence. rewrite (W i Hi). reflexivity. }
  assert (forall i, (i < np * nc)%nat -> blended 1 eps (nth i fg 0) (nth i bg 0) (weight nc a i) (nth i sg 0)) as SC.
  { intros i Hi. rewrite (SN i Hi). destruct (weighted_near _ _ _ (FB i Hi) (BB i Hi) (WU i Hi)) as [A B].
    destruct (exact_ends _ _ (weight nc a i) (FB i Hi) (BB i Hi)) as [X1 X0].
    pose proof (FB i Hi). pose proof (BB i Hi). unfold between in A.
    split; [lia|]. split; [left; lra|]. split; [apply X1|apply X0]. }
  assert (forall i, (i < np * nc)%nat -> blended 1 eps (nth i fg 0) (nth i bg 0) (weight nc a i) (nth i el 0)) as EC.
  { intros i Hi. rewrite (EN i Hi). destruct (elementwise_blend_near _ _ _ (FB i Hi) (BB i Hi) (WU i Hi)) as [A B].
    destruct (exact_ends _ _ (weight nc a i) (FB i Hi) (BB i Hi)) as [X1 X0].
    split; [exact A|]. split; [left; exact B|]. split; [apply X1|apply X0]. }
  assert (forall i, (i < np * nc)%nat -> between (nth i fg 0) (nth i bg 0) (nth i sg 0) /\
       ((Qabs (inject_Z (nth i sg 0%Z) - mixed (nth i fg 0%Z) (nth i bg 0%Z) (weight nc a i)) <= 1 # 2)%Q)) as SB.
  { intros i Hi. rewrite (SN i Hi). apply weighted_near; auto. }
  assert (exists bg'', Ok (sg, bg) = Ok (sg, bg'') /\ True) as _ by (exists bg; auto).
  destruct a' as [q|l|l|l].
  - exists sg, bg. split; [reflexivity|]. split; [congruence|]. split; [exact SC|]. split; [|reflexivity].
    intros _ i Hi. destruct (SB i Hi). split; [assumption|left; assumption].
  - rewrite (CH l eq_refl), Nat.eqb_refl. exists sg, bg.
    split; [reflexivity|]. split; [congruence|]. split; [exact SC|]. split; [|reflexivity].
    intros _ i Hi. destruct (SB i Hi). split; [assumption|left; assumption].
  - eexists el, _. split; [reflexivity|]. split; [congruence|]. split; [exact EC|].
    split; [intros UA; destruct (UN UA)|]. intros [UA|[BIG _]]; [destruct (UN UA)|].
    destruct (Nat.leb_spec (64 * 64) np); [reflexivity|lia].
  - eexists el, _. split; [reflexivity|]. split; [congruence|]. split; [exact EC|].
    split; [intros UA; destruct (UN UA)|]. intros [UA|[BIG [l0 ->]]]; [destruct (UN UA)|].
    exfalso. unfold normalize_alphas in N. cbn [values] in N. destruct l0 as [|q0 [|q1 l1]]; [|discriminate|];
      destruct (_ =? _)%nat; discriminate.
Qed.

(** ** Other dtypes *)

Lemma np_round_between lo hi q : (inject_Z lo <= q)%Q -> (q <= inject_Z hi)%Q -> lo <= np_round q <= hi.
Proof. intros A B. apply np_round_mono in A. apply np_round_mono in B. rewrite np_round_Z in A, B. lia. Qed.

Lemma blend_float_mixed f b a : (blend_float f b a == mixed f b a)%Q.
Proof. unfold blend_float, mixed. ring. Qed.

Lemma blend_other_ok is_bool eps nc np fg bg a :
  (0 <= eps)%Q -> (eps < 1)%Q -> nc <> 0%nat ->
  length fg = (np * nc)%nat -> length bg = length fg ->
  (is_bool = true -> Forall (fun v => v = 0 \/ v = 1) fg /\ Forall (fun v => v = 0 \/ v = 1) bg) ->
  fits nc np a -> Forall in_unit (values a) ->
  exists r, blend_other is_bool eps nc fg bg a = Ok r /\ length r = length fg /\
    forall i, (i < length fg)%nat ->
      let f := nth i fg 0 in let b := nth i bg 0 in let w := weight nc a i in
      between f b (nth i r 0) /\
      ((w == 1)%Q -> nth i r 0 = f) /\ ((w == 0)%Q -> nth i r 0 = b) /\
      (is_bool = false ->
        ((Qabs (inject_Z (nth i r 0%Z) - mixed f b w) <= 1 # 2)%Q \/
         ((1 - eps <= w)%Q /\ nth i r 0 = f) \/ ((w <= eps)%Q /\ nth i r 0 = b))) /\
      (is_bool = true -> nth i r 0 = (if qltb (1 # 2) (mixed f b w) then 1 else 0)).
Proof.
  intros E0 E1 NC LF LB BO F U. unfold blend_other.
  rewrite LB, Nat.eqb_refl. cbn [negb]. rewrite LF. rewrite Nat.div_mul by exact NC.
  destruct (Nat.eqb_spec (np * nc) 0) as [Z0|NZ].
  { exists fg. split; [reflexivity|]. split; [exact LF|intros; lia]. }
  assert (np <> 0%nat) as NP by (intros ->; apply NZ; reflexivity).
  destruct (normalized nc np a NC NP F) as [a' [N [V [W [UN [CH [F' NE]]]]]]]. rewrite N. cbn [bind].
  assert (forall i, (i < np * nc)%nat -> in_unit (weight nc a i)) as WU.
  { intros i Hi. rewrite Forall_forall in U. apply U. apply (weight_in nc np); assumption. }
  rewrite V. destruct (negb is_bool && forallb (fun q => qleb (1 - eps) q) (values a)) eqn:HI.
  { exists fg. apply andb_true_iff in HI. destruct HI as [NB HI]. rewrite forallb_forall in HI.
    assert (forall i, (i < np * nc)%nat -> (1 - eps <= weight nc a i)%Q) as G.
    { intros i Hi. apply qleb_iff. apply (HI (weight nc a i)). apply (weight_in nc np); assumption. }
    split; [reflexivity|]. split; [exact LF|]. intros i Hi. cbv zeta. specialize (G i Hi).
    split; [unfold between; lia|]. split; [reflexivity|]. split; [intros; exfalso; lra|].
    split; [intros _; right; left; split; [exact G|reflexivity]|]. intros ->. discriminate. }
  destruct (negb is_bool && forallb (fun q => qleb q eps) (values a)) eqn:LO.
  { exists bg. apply andb_true_iff in LO. destruct LO as [NB LO]. rewrite forallb_forall in LO.
    assert (forall i, (i < np * nc)%nat -> (weight nc a i <= eps)%Q) as G.
    { intros i Hi. apply qleb_iff. apply (LO (weight nc a i)). apply (weight_in nc np); assumption. }
    split; [reflexivity|]. split; [congruence|]. intros i Hi. cbv zeta. specialize (G i Hi).
    split; [unfold between; lia|]. split; [intros; exfalso; lra|]. split; [reflexivity|].
    split; [intros _; right; right; split; [exact G|reflexivity]|]. intros ->. discriminate. }
  assert (negb (qleb 0 (hd 0%Q (values a)) && qleb (hd 0%Q (values a)) 1) = false) as FST.
  { rewrite V in NE. destruct (values a) as [|q l]; [contradiction|]. inversion U as [|? ? [Q1 Q2] _]; subst. cbn.
    apply qleb_iff in Q1. apply qleb_iff in Q2. rewrite Q1, Q2. reflexivity. }
  rewrite FST, andb_false_r. cbv zeta. set (r := map _ (indexed (combine fg bg))).
  assert (length (combine fg bg) = (np * nc)%nat) as CL by (rewrite combine_length; lia).
  assert (length r = (np * nc)%nat) as RL by (unfold r, indexed; rewrite indexed_length; exact CL).
  assert (match a' with AChannels l => if (length l =? nc)%nat then Ok r else Err ValueError | _ => Ok r end = Ok r) as OK.
  { destruct a'; try reflexivity. rewrite (CH _ eq_refl), Nat.eqb_refl. reflexivity. }
  exists r. split; [exact OK|]. split; [congruence|]. intros i Hi. cbv zeta.
  set (f := nth i fg 0). set (b := nth i bg 0). set (w := weight nc a i).
  assert (nth i r 0 = if is_bool then (if qltb (1 # 2) (mixed f b w) then 1 else 0) else np_round (mixed f b w)) as RN.
  { unfold r, indexed. rewrite (nth_indexed _ _ (0, 0) i) by lia. rewrite combine_nth by congruence.
    rewrite (W i Hi). fold f b w. pose proof (blend_float_mixed f b w) as BM.
    destruct is_bool; [|apply np_round_compat; exact BM].
    destruct (qltb (1 # 2) (blend_float f b w)) eqn:A, (qltb (1 # 2) (mixed f b w)) eqn:B; qbool; try reflexivity; exfalso; lra. }
  rewrite RN. pose proof (mixed_between f b w (WU i Hi)) as [M1 M2].
  assert ((w == 1)%Q -> (mixed f b w == inject_Z f)%Q) as W1 by (intros E; unfold mixed; rewrite E; ring).
  assert ((w == 0)%Q -> (mixed f b w == inject_Z b)%Q) as W0 by (intros E; unfold mixed; rewrite E; ring).
  destruct is_bool.
  - destruct (BO eq_refl) as [BF BB].
    assert (f = 0 \/ f = 1) as FB by (rewrite Forall_forall in BF; apply BF; apply nth_In; lia).
    assert (b = 0 \/ b = 1) as BB' by (rewrite Forall_forall in BB; apply BB; apply nth_In; lia).
    clearbody f b w.
    split; [|split; [|split; [|split; [discriminate|reflexivity]]]].
    + unfold between. destruct FB, BB'; subst f b; cbn in M1, M2 |- *;
        change (inject_Z 0) with 0%Q in *; change (inject_Z 1) with 1%Q in *;
        destruct (qltb (1 # 2) (mixed _ _ w)) eqn:E; qbool; try lia; exfalso; lra.
    + intros E. apply W1 in E. destruct FB; subst f; change (inject_Z 0) with 0%Q in *; change (inject_Z 1) with 1%Q in *;
        destruct (qltb (1 # 2) (mixed _ _ w)) eqn:T; qbool; try reflexivity; exfalso; lra.
    + intros E. apply W0 in E. destruct BB'; subst b; change (inject_Z 0) with 0%Q in *; change (inject_Z 1) with 1%Q in *;
        destruct (qltb (1 # 2) (mixed _ _ w)) eqn:T; qbool; try reflexivity; exfalso; lra.
  - split; [apply np_round_between; assumption|].
    split; [intros E; rewrite (np_round_compat _ _ (W1 E)); apply np_round_Z|].
    split; [intros E; rewrite (np_round_compat _ _ (W0 E)); apply np_round_Z|].
    split; [intros _; left; apply np_round_near|discriminate].
Qed.

(** ** Annotations *)

Lemma blend_row_one_branch {B} pc nb drawn (fg bg : list B) :
  blend_row pc nb drawn fg bg = fg \/ blend_row pc nb drawn fg bg = bg.
Proof. unfold blend_row. destruct (qleb _ _); auto. Qed.

Lemma average_one q : (average [q] == q)%Q.
Proof. unfold average. cbn. field. Qed.

Lemma blend_row_single {B} pc nb q rest (fg bg : list B) : (pc <= 1 # 2)%Q ->
  ((1 # 2 <= q)%Q -> blend_row pc nb (q :: rest) fg bg = fg) /\
  ((q < 1 # 2)%Q -> blend_row pc nb (q :: rest) fg bg = bg).
Proof.
  intros P. unfold blend_row, row_alphas. pose proof (average_one q) as A.
  destruct (qltb (1 # 2) pc) eqn:E; qbool; [exfalso; lra|].
  destruct (qleb (1 # 2) (average [q])) eqn:T; qbool; split; intros; try reflexivity; exfalso; lra.
Qed.

Lemma sum_bound l c : Forall (fun q => (c <= q)%Q) l ->
  (inject_Z (Z.of_nat (length l)) * c <= fold_right Qplus 0 l)%Q.
Proof.
  induction 1 as [|q l H _ IH]; cbn [length fold_right]; [change (inject_Z (Z.of_nat 0)) with 0%Q; lra|].
  rewrite Nat2Z.inj_succ, <- Z.add_1_r, inject_Z_plus. change (inject_Z 1) with 1%Q. lra.
Qed.
Lemma sum_bound_lt l c : l <> [] -> Forall (fun q => (q < c)%Q) l ->
  (fold_right Qplus 0 l < inject_Z (Z.of_nat (length l)) * c)%Q.
Proof.
  intros N H. destruct H as [|q l H L]; [contradiction|]. clear N. revert q H.
  induction L as [|q' l H' _ IH]; intros q H.
  - cbn. change (inject_Z 1) with 1%Q. lra.
  - specialize (IH q' H'). change (length (q :: q' :: l)) with (S (length (q' :: l))).
    change (fold_right Qplus 0%Q (q :: q' :: l)) with (q + fold_right Qplus 0 (q' :: l))%Q.
    rewrite Nat2Z.inj_succ, <- Z.add_1_r, inject_Z_plus. change (inject_Z 1) with 1%Q. lra.
Qed.
Lemma average_bounds l c : l <> [] ->
  (Forall (fun q => (c <= q)%Q) l -> (c <= average l)%Q) /\ (Forall (fun q => (q < c)%Q) l -> (average l < c)%Q).
Proof.
  intros N. assert (0 < inject_Z (Z.of_nat (length l)))%Q as LP.
  { change 0%Q with (inject_Z 0). rewrite <- Zlt_Qlt. destruct l; [contradiction|cbn; lia]. }
  unfold average. split; intros H.
  - apply Qle_shift_div_l; [exact LP|]. rewrite Qmult_comm. apply sum_bound. exact H.
  - apply Qlt_shift_div_r; [exact LP|]. rewrite Qmult_comm. apply sum_bound_lt; assumption.
Qed.

Lemma blend_row_channels {B} pc nb drawn (fg bg : list B) : (1 # 2 < pc)%Q -> nb <> 0%nat -> (nb <= length drawn)%nat ->
  (Forall (fun q => (1 # 2 <= q)%Q) (firstn nb drawn) -> blend_row pc nb drawn fg bg = fg) /\
  (Forall (fun q => (q < 1 # 2)%Q) (firstn nb drawn) -> blend_row pc nb drawn fg bg = bg).
Proof.
  intros P N L. assert (firstn nb drawn <> []) as NE by (destruct nb, drawn; cbn in *; (lia || discriminate)).
  destruct (average_bounds (firstn nb drawn) (1 # 2) NE) as [A B0]. unfold blend_row, row_alphas.
  assert (qltb (1 # 2) pc = true) as -> by (apply qltb_iff; exact P).
  split; intros H.
  - apply A in H. apply qleb_iff in H. rewrite H. reflexivity.
  - apply B0 in H. destruct (qleb _ _) eqn:E; qbool; [exfalso; lra|reflexivity].
Qed.

Lemma blend_coordinates_counts pw m ps fg bg : length ps <> length fg \/ length fg <> length bg ->
  blend_coordinates pw m ps fg bg = Err AssertionError.
Proof.
  intros H. unfold blend_coordinates.
  destruct (Nat.eqb_spec (length ps) (length fg)), (Nat.eqb_spec (length fg) (length bg)); cbn; try reflexivity; lia.
Qed.

Lemma blend_coordinates_pointwise m ps fg bg : length ps = length fg -> length fg = length bg ->
  exists r, blend_coordinates true m ps fg bg = Ok r /\ length r = length ps /\
    forall i d, (i < length ps)%nat -> nth i r d = blend_point m (nth i ps d) (nth i fg d) (nth i bg d).
Proof.
  intros A B. unfold blend_coordinates. rewrite A, B, !Nat.eqb_refl. cbn [andb negb].
  eexists. split; [reflexivity|]. split; [rewrite map_length, !combine_length; lia|].
  intros i d H. rewrite (nth_map' _ _ _ (d, (d, d))) by (rewrite !combine_length; lia).
  rewrite combine_nth by (rewrite combine_length; lia). rewrite combine_nth by exact B. reflexivity.
Qed.

Lemma blend_coordinates_either m ps fg bg : length ps = length fg -> length fg = length bg ->
  blend_coordinates false m ps fg bg = Ok fg \/ blend_coordinates false m ps fg bg = Ok bg.
Proof.
  intros A B. unfold blend_coordinates. rewrite A, B, !Nat.eqb_refl. cbn [andb negb]. destruct (qltb _ _); auto.
Qed.

Lemma fold_plus_app : forall a b, (fold_right Qplus 0 (a ++ b) == fold_right Qplus 0 a + fold_right Qplus 0 b)%Q.
Proof. induction a as [|x a IH]; intros b; cbn [fold_right app]; [ring|]. rewrite IH. ring. Qed.
Lemma fold_map_sum : forall {B} (f : nat -> list B) (val : list B -> Q) (F : nat -> Q) (l : list nat),
  (val [] == 0)%Q -> (forall a b, val (a ++ b) == val a + val b)%Q -> (forall i, val (f i) == F i)%Q ->
  (val (concat (map f l)) == fold_right (fun i acc => F i + acc) 0 l)%Q.
Proof.
  intros B f val F l V0 VA E. induction l as [|i l IH]; cbn [map concat fold_right]; [exact V0|]. rewrite VA, E, IH. reflexivity.
Qed.
Lemma rows_sum : forall (m : mask) (val : list Q -> Q), (val [] == 0)%Q -> (forall a b, val (a ++ b) == val a + val b)%Q ->
  (val (concat (rows_of m)) == sum_to (ah m) (fun y => sum_to (aw m) (fun x => val (apx m y x))))%Q.
Proof.
  intros m val V0 VA. unfold rows_of, sum_to. rewrite flat_map_concat_map.
  assert (CC : forall l : list (list (list Q)), (val (concat (concat l)) == val (concat (map (@concat Q) l)))%Q).
  { intros l. induction l as [|a l IH]; cbn [concat map]; [reflexivity|]. rewrite concat_app, !VA, IH. reflexivity. }
  rewrite CC, map_map.
  apply fold_map_sum; [assumption|assumption|]. intros y. apply fold_map_sum; [assumption|assumption|]. intros x. reflexivity.
Qed.
Lemma rows_total : forall m : mask, (fold_right Qplus 0 (concat (rows_of m)) == mask_total m)%Q.
Proof. intros m. apply (rows_sum m (fold_right Qplus 0%Q)); [reflexivity|exact fold_plus_app]. Qed.
Lemma rows_count : forall m : mask, (inject_Z (Z.of_nat (length (concat (rows_of m)))) == mask_count m)%Q.
Proof.
  intros m. apply (rows_sum m (fun l => inject_Z (Z.of_nat (length l)))); [reflexivity|].
  intros a b. rewrite app_length, Nat2Z.inj_add, inject_Z_plus. reflexivity.
Qed.

Lemma blend_coordinates_mean m ps fg bg : length ps = length fg -> length fg = length bg ->
  ((mask_count m == 0)%Q -> blend_coordinates false m ps fg bg = Ok fg) /\
  ((mask_count m * (1 # 2) < mask_total m)%Q -> blend_coordinates false m ps fg bg = Ok fg) /\
  (~ (mask_count m == 0)%Q -> (mask_total m <= mask_count m * (1 # 2))%Q -> blend_coordinates false m ps fg bg = Ok bg).
Proof.
  intros A B. unfold blend_coordinates. rewrite A, B, !Nat.eqb_refl. cbn [andb negb].
  pose proof (rows_total m) as T. pose proof (rows_count m) as C.
  set (l := concat (rows_of m)) in *.
  destruct l as [|q0 l0].
  - cbn [average_or_1]. assert (Z0 : (mask_count m == 0)%Q) by (rewrite <- C; reflexivity).
    split; [reflexivity|]. split; [reflexivity|]. intros N. contradiction.
  - cbn [average_or_1]. set (L := q0 :: l0) in *.
    assert (P : (0 < inject_Z (Z.of_nat (length L)))%Q) by (change 0%Q with (inject_Z 0); rewrite <- Zlt_Qlt; cbn [length L]; unfold L; cbn [length]; lia).
    assert (AV : (average L * mask_count m == mask_total m)%Q).
    { unfold average. rewrite <- C, <- T. field. lra. }
    assert (PC : (0 < mask_count m)%Q) by (rewrite <- C; assumption).
    split; [intros; lra|]. split.
    + intros H. rewrite <- AV in H.
      assert (1 # 2 < average L)%Q as G by (apply (Qmult_lt_r _ _ (mask_count m) PC); lra).
      apply qltb_iff in G. rewrite G. reflexivity.
    + intros _ H. rewrite <- AV in H.
      assert (average L <= 1 # 2)%Q as G by (apply (Qmult_le_r _ _ (mask_count m) PC); lra).
      destruct (qltb (1 # 2) (average L)) eqn:E; qbool; [exfalso; lra|reflexivity].
Qed.

(** ** Mask generators *)

Lemma linspace_length a b n : 0 <= n -> length (linspace a b n) = Z.to_nat n.
Proof.
  intros N. unfold linspace. destruct (Z.eqb_spec n 1) as [->|]; [reflexivity|]. rewrite map_length, seq_length. reflexivity.
Qed.
Definition ramp (n : Z) (k : nat) : Q := if n =? 1 then 0%Q else (inject_Z (Z.of_nat k) / inject_Z (n - 1))%Q.
Lemma linspace_nth a b n k d : (k < Z.to_nat n)%nat -> (nth k (linspace a b n) d == a + (b - a) * ramp n k)%Q.
Proof.
  intros K. unfold linspace, ramp. destruct (Z.eqb_spec n 1) as [->|N].
  - assert (k = 0)%nat as -> by lia. cbn. ring.
  - rewrite (nth_map' _ _ _ 0%nat) by (rewrite seq_length; exact K). rewrite seq_nth by exact K. cbn [plus]. reflexivity.
Qed.
Lemma ramp_unit n k : (k < Z.to_nat n)%nat -> in_unit (ramp n k).
Proof.
  intros K. unfold ramp. destruct (Z.eqb_spec n 1) as [->|N]; [split; lra|].
  assert (0 < inject_Z (n - 1))%Q by (change 0%Q with (inject_Z 0); rewrite <- Zlt_Qlt; lia).
  split; [apply Qle_shift_div_l|apply Qle_shift_div_r]; try assumption.
  - rewrite Qmult_0_l. change 0%Q with (inject_Z 0). rewrite <- Zle_Qle. lia.
  - rewrite Qmult_1_l, <- Zle_Qle. lia.
Qed.
Lemma ramp_mono n k j : (k <= j)%nat -> (j < Z.to_nat n)%nat -> (ramp n k <= ramp n j)%Q.
Proof.
  intros K J. unfold ramp. destruct (Z.eqb_spec n 1) as [->|N]; [lra|].
  assert (0 < inject_Z (n - 1))%Q as P by (change 0%Q with (inject_Z 0); rewrite <- Zlt_Qlt; lia).
  apply Qle_shift_div_l; [exact P|]. unfold Qdiv. rewrite <- Qmult_assoc.
  rewrite (Qmult_comm (/ _)), Qmult_inv_r, Qmult_1_r by lra. rewrite <- Zle_Qle. lia.
Qed.
Lemma ramp_step n k : (S k < Z.to_nat n)%nat -> (ramp n (S k) - ramp n k == 1 / inject_Z (n - 1))%Q.
Proof.
  intros K. unfold ramp. destruct (Z.eqb_spec n 1) as [->|N]; [lia|].
  assert (0 < inject_Z (n - 1))%Q as P by (change 0%Q with (inject_Z 0); rewrite <- Zlt_Qlt; lia).
  rewrite Nat2Z.inj_succ, <- Z.add_1_r, inject_Z_plus. change (inject_Z 1) with 1%Q. field. lra.
Qed.

(** How far the gradient has come at index [i]. *)
Definition progress (s e : Z) (i : nat) : Q :=
  if Z.of_nat i <? s then 0%Q else if Z.of_nat i <? e then ramp (e - s) (i - Z.to_nat s) else 1%Q.

Lemma progress_unit s e i : 0 <= s -> in_unit (progress s e i).
Proof.
  intros S. unfold progress. destruct (Z.ltb_spec (Z.of_nat i) s); [split; lra|].
  destruct (Z.ltb_spec (Z.of_nat i) e); [|split; lra]. apply ramp_unit. lia.
Qed.
Lemma progress_mono s e i j : 0 <= s -> (i <= j)%nat -> (progress s e i <= progress s e j)%Q.
Proof.
  intros S L. destruct (progress_unit s e i S) as [I0 I1], (progress_unit s e j S) as [J0 J1].
  revert I0 I1 J0 J1. unfold progress.
  destruct (Z.ltb_spec (Z.of_nat i) s); [intros; assumption|]. destruct (Z.ltb_spec (Z.of_nat j) s); [lia|].
  destruct (Z.ltb_spec (Z.of_nat j) e); [|intros; assumption]. destruct (Z.ltb_spec (Z.of_nat i) e); [|lia].
  intros. apply ramp_mono; lia.
Qed.

Lemma gradient_list lo hi size s e : 0 <= s <= e -> e <= size ->
  let l := repeat lo (Z.to_nat s) ++ linspace lo hi (e - s) ++ repeat hi (Z.to_nat (size - e)) in
  length l = Z.to_nat size /\
  forall i d, (i < Z.to_nat size)%nat -> (nth i l d == lo + (hi - lo) * progress s e i)%Q.
Proof.
  intros S E. cbv zeta.
  assert (length (linspace lo hi (e - s)) = Z.to_nat (e - s)) as LL by (apply linspace_length; lia).
  split; [rewrite !app_length, !repeat_length, LL; lia|].
  intros i d H. unfold progress. destruct (Z.ltb_spec (Z.of_nat i) s).
  - rewrite app_nth1 by (rewrite repeat_length; lia). rewrite nth_repeat' by lia. ring.
  - rewrite app_nth2 by (rewrite repeat_length; lia). rewrite repeat_length.
    destruct (Z.ltb_spec (Z.of_nat i) e).
    + rewrite app_nth1 by (rewrite LL; lia). apply linspace_nth. lia.
    + rewrite app_nth2 by (rewrite LL; lia). rewrite LL, nth_repeat' by lia. ring.
Qed.

Lemma clip_unit_id q : in_unit q -> (qmin (qmax q 0) 1 == q)%Q.
Proof. intros [A B]. qminmax; lra. Qed.


Lemma clipped_int_mono a b : (a <= b)%Q -> Z.max (py_int a) 0 <= Z.max (py_int b) 0.
Proof.
  intros H. set (m := Z.max (py_int b) 0). assert (0 <= m) as M by lia. assert (py_int b <= m) as B by lia.
  apply (ge_trunc b m M) in B. assert (a < inject_Z (m + 1))%Q as A by lra. apply (ge_trunc a m M) in A. lia.
Qed.

Lemma gradient_ok size lo hi st en : 0 <= size -> in_unit lo -> in_unit hi -> (st <= en)%Q ->
  length (gradient size lo hi st en) = Z.to_nat size /\
  exists t : nat -> Q,
    (forall i, in_unit (t i)) /\ (forall i j, (i <= j)%nat -> (t i <= t j)%Q) /\
    (forall i, (i < Z.to_nat size)%nat ->
       (nth i (gradient size lo hi st en) 0%Q == lo + (hi - lo) * t i)%Q /\
       ((inject_Z (Z.of_nat i + 1) <= st * inject_Z size)%Q -> (t i == 0)%Q) /\
       ((en * inject_Z size < inject_Z (Z.of_nat i + 1))%Q -> (t i == 1)%Q)).
Proof.
  intros S L H C.
  assert (st * inject_Z size <= en * inject_Z size)%Q as CM.
  { apply Qmult_le_compat_r; [exact C|]. change 0%Q with (inject_Z 0). rewrite <- Zle_Qle. exact S. }
  pose proof (clipped_int_mono _ _ CM) as PM. unfold gradient. cbv zeta.
  set (s := Z.min (Z.max (py_int (st * inject_Z size)) 0) size). set (e := Z.min (Z.max (py_int (en * inject_Z size)) 0) size).
  assert (0 <= s <= e) as SE by lia. assert (e <= size) as ES by lia.
  destruct (Z.ltb_spec e s); [lia|].
  destruct (gradient_list (qmin (qmax lo 0) 1) (qmin (qmax hi 0) 1) size s e SE ES) as [LE N].
  split; [exact LE|]. exists (progress s e). split; [intros; apply progress_unit; lia|].
  split; [intros; apply progress_mono; lia|]. intros i I. split; [|split].
  - rewrite (N i 0%Q I). rewrite (clip_unit_id lo L), (clip_unit_id hi H). reflexivity.
  - intros B. apply (lt_trunc _ (Z.of_nat i)) in B; [|lia]. unfold progress. destruct (Z.ltb_spec (Z.of_nat i) s); [reflexivity|lia].
  - intros B. apply (ge_trunc _ (Z.of_nat i)) in B; [|lia]. unfold progress.
    destruct (Z.ltb_spec (Z.of_nat i) s); [lia|]. destruct (Z.ltb_spec (Z.of_nat i) e); [lia|reflexivity].
Qed.

(** *** Grids *)

Lemma cells size n : 0 < size ->
  0 < clipped n size <= size /\ 0 < size / clipped n size /\ clipped n size * (size / clipped n size) <= size.
Proof.
  intros S. unfold clipped. split; [lia|]. split.
  - apply Z.div_str_pos. lia.
  - apply Z.mul_div_le. lia.
Qed.

Lemma grid_ok h w nr nc alphas : 0 < h -> 0 < w -> clipped nr h * clipped nc w <= Z.of_nat (length alphas) ->
  exists m, grid_mask h w nr nc alphas = Ok m /\ ah m = h /\ aw m = w /\
    (forall r c dy dx, 0 <= r < clipped nr h -> 0 <= c < clipped nc w ->
       0 <= dy < cell_size h nr -> 0 <= dx < cell_size w nc ->
       apx m (cell_start h nr + r * cell_size h nr + dy) (cell_start w nc + c * cell_size w nc + dx)
       = nth (Z.to_nat (r * clipped nc w + c)) alphas 0%Q) /\
    (forall y x, In (apx m y x) (firstn (Z.to_nat (clipped nr h * clipped nc w)) alphas)).
Proof.
  intros H W LA. unfold grid_mask.
  assert ((h =? 0) || (w =? 0) = false) as -> by (apply orb_false_iff; split; apply Z.eqb_neq; lia).
  cbv zeta. unfold cell_size, cell_start. fold (clipped nr h) (clipped nc w).
  destruct (cells h nr H) as [R1 [R2 R3]], (cells w nc W) as [C1 [C2 C3]].
  set (R := clipped nr h) in *. set (C := clipped nc w) in *. set (ch := h / R) in *. set (cw := w / C) in *.
  assert (length (firstn (Z.to_nat (R * C)) alphas) = Z.to_nat (R * C)) as FL by (apply firstn_length_le; nia).
  rewrite FL, Nat.eqb_refl. cbn [negb ah aw]. eexists. split; [reflexivity|].
  cbn [copy_make_border ah aw t_top t_bottom t_left t_right apx].
  split; [lia|]. split; [lia|].
  assert (forall y x, 0 <= y < R * ch -> 0 <= x < C * cw ->
          0 <= y / ch < R /\ 0 <= x / cw < C /\ (0 <= (y / ch) * C + x / cw < R * C)) as IX.
  { intros y x Y X.
    assert (0 <= y / ch < R) as Y' by (split; [apply Z.div_pos; lia|apply Z.div_lt_upper_bound; lia]).
    assert (0 <= x / cw < C) as X' by (split; [apply Z.div_pos; lia|apply Z.div_lt_upper_bound; lia]).
    split; [exact Y'|]. split; [exact X'|]. nia. }
  split.
  - intros r c dy dx Hr Hc Hdy Hdx.
    set (top := (h - R * ch) / 2). set (left := (w - C * cw) / 2).
    replace (top + r * ch + dy - top) with (r * ch + dy) by lia.
    replace (left + c * cw + dx - left) with (c * cw + dx) by lia.
    rewrite !border_index_inside by nia.
    replace ((r * ch + dy) / ch) with r by (symmetry; rewrite Z.div_add_l by lia; rewrite Z.div_small by lia; lia).
    replace ((c * cw + dx) / cw) with c by (symmetry; rewrite Z.div_add_l by lia; rewrite Z.div_small by lia; lia).
    apply nth_firstn'. nia.
  - intros y x.
    destruct (border_index_mirror PMReflect (R * ch) (y - (h - R * ch) / 2)) as [i [-> [I _]]]; [nia|discriminate|].
    destruct (border_index_mirror PMReflect (C * cw) (x - (w - C * cw) / 2)) as [j [-> [J _]]]; [nia|discriminate|].
    apply nth_In. rewrite FL. destruct (IX i j I J) as [_ [_ X]]. lia.
Qed.

Lemma grid_short h w nr nc alphas : 0 < h -> 0 < w -> Z.of_nat (length alphas) < clipped nr h * clipped nc w ->
  grid_mask h w nr nc alphas = Err AssertionError.
Proof.
  intros H W L. unfold grid_mask.
  assert ((h =? 0) || (w =? 0) = false) as -> by (apply orb_false_iff; split; apply Z.eqb_neq; lia).
  cbv zeta. fold (clipped nr h) (clipped nc w). rewrite firstn_length.
  destruct (Nat.eqb_spec (Nat.min (Z.to_nat (clipped nr h * clipped nc w)) (length alphas)) (Z.to_nat (clipped nr h * clipped nc w)));
    [lia|reflexivity].
Qed.

Lemma board_row nc j : (j < nc)%nat ->
  nth j (map (fun j => if Nat.even j then 0%Q else 1%Q) (seq 0 nc)) 0%Q = if Nat.even j then 0%Q else 1%Q.
Proof. intros H. rewrite (nth_map' _ _ _ 0%nat) by (rewrite seq_length; exact H). rewrite seq_nth by exact H. reflexivity. Qed.

Lemma board_nth R C r c : 0 <= r < R -> 0 <= c < C ->
  (nth (Z.to_nat (r * C + c)) (checkerboard_alphas R C) 0%Q == if Z.even (r + c) then 1 else 0)%Q.
Proof.
  intros Hr Hc. unfold checkerboard_alphas. cbv zeta. set (row := map _ (seq 0 (Z.to_nat C))).
  assert (length row = Z.to_nat C) as RL by (unfold row; rewrite map_length, seq_length; reflexivity).
  assert (Z.to_nat (r * C + c) = (Z.to_nat r * Z.to_nat C + Z.to_nat c)%nat) as ->.
  { rewrite Z2Nat.inj_add by nia. rewrite Z2Nat.inj_mul by lia. reflexivity. }
  rewrite (PtsProofs.nth_flat_map_const _ (Z.to_nat C)) with (dx := 0%nat);
    [|intros i; destruct (Nat.even i); rewrite ?map_length; exact RL|rewrite seq_length; lia|lia].
  rewrite seq_nth by lia. cbn [plus].
  assert (Z.even (r + c) = Bool.eqb (Nat.even (Z.to_nat r)) (Nat.even (Z.to_nat c))) as ->.
  { rewrite Z.even_add.
    assert (forall z, 0 <= z -> Z.even z = Nat.even (Z.to_nat z)) as EV.
    { intros z Z0. rewrite <- (Z2Nat.id z Z0) at 1. generalize (Z.to_nat z). clear. intros n.
      destruct (Nat.even n) eqn:E.
      - apply Nat.even_spec in E. apply Z.even_spec. destruct E as [k ->]. exists (Z.of_nat k). lia.
      - destruct (Z.even (Z.of_nat n)) eqn:F; [|reflexivity]. apply Z.even_spec in F. destruct F as [k K].
        assert (Nat.Even n) as G by (exists (Z.to_nat k); lia). apply Nat.even_spec in G. congruence. }
    rewrite !EV by lia. reflexivity. }
  destruct (Nat.even (Z.to_nat r)).
  - rewrite (nth_map' _ _ _ 0%Q) by lia. unfold row. rewrite board_row by lia. destruct (Nat.even (Z.to_nat c)); cbn; reflexivity.
  - unfold row. rewrite board_row by lia. destruct (Nat.even (Z.to_nat c)); cbn; reflexivity.
Qed.

Lemma board_values R C q : In q (checkerboard_alphas R C) -> (q == 0)%Q \/ (q == 1)%Q.
Proof.
  unfold checkerboard_alphas. cbv zeta. intros H. apply in_flat_map in H. destruct H as [i [_ H]].
  assert (forall q, In q (map (fun j => if Nat.even j then 0%Q else 1%Q) (seq 0 (Z.to_nat C))) -> q = 0%Q \/ q = 1%Q) as T.
  { intros p P. apply in_map_iff in P. destruct P as [j [<- _]]. destruct (Nat.even j); auto. }
  destruct (Nat.even i).
  - apply in_map_iff in H. destruct H as [p [<- P]]. apply T in P. destruct P as [-> | ->]; [right|left]; reflexivity.
  - apply T in H. destruct H as [-> | ->]; [left|right]; reflexivity.
Qed.

Lemma board_length R C : 0 <= R -> 0 <= C -> Z.of_nat (length (checkerboard_alphas R C)) = R * C.
Proof.
  intros HR HC. unfold checkerboard_alphas. cbv zeta. set (row := map _ (seq 0 (Z.to_nat C))).
  assert (length row = Z.to_nat C) as RL by (unfold row; rewrite map_length, seq_length; reflexivity).
  assert (forall l, length (flat_map (fun i => if Nat.even i then map (fun a => (1 - a)%Q) row else row) l)
          = (length l * Z.to_nat C)%nat) as G.
  { induction l as [|i l IH]; [reflexivity|]. cbn [flat_map length]. rewrite app_length, IH.
    destruct (Nat.even i); rewrite ?map_length, RL; lia. }
  rewrite G, seq_length. lia.
Qed.

Lemma checkerboard_ok h w nr nc : 0 < h -> 0 < w ->
  exists m, checkerboard_mask h w nr nc = Ok m /\ ah m = h /\ aw m = w /\
    (forall r c dy dx, 0 <= r < clipped nr h -> 0 <= c < clipped nc w ->
       0 <= dy < cell_size h nr -> 0 <= dx < cell_size w nc ->
       (apx m (cell_start h nr + r * cell_size h nr + dy) (cell_start w nc + c * cell_size w nc + dx)
       == if Z.even (r + c) then 1 else 0)%Q) /\
    (forall y x, (apx m y x == 0)%Q \/ (apx m y x == 1)%Q).
Proof.
  intros H W. unfold checkerboard_mask.
  assert ((h =? 0) || (w =? 0) = false) as -> by (apply orb_false_iff; split; apply Z.eqb_neq; lia).
  cbv zeta. fold (clipped nr h) (clipped nc w).
  destruct (cells h nr H) as [R1 [R2 R3]], (cells w nc W) as [C1 [C2 C3]].
  assert (clipped (clipped nr h) h = clipped nr h) as RR by (unfold clipped; lia).
  assert (clipped (clipped nc w) w = clipped nc w) as CC by (unfold clipped; lia).
  destruct (grid_ok h w (clipped nr h) (clipped nc w) (checkerboard_alphas (clipped nr h) (clipped nc w)) H W) as
    [m [M [A [B [V I]]]]].
  { rewrite RR, CC, board_length by lia. lia. }
  exists m. split; [exact M|]. split; [exact A|]. split; [exact B|]. split.
  - intros r c dy dx Hr Hc Hdy Hdx. revert V. unfold cell_size, cell_start in *.
    fold (clipped (clipped nr h) h) (clipped (clipped nc w) w). rewrite RR, CC.
    fold (clipped nr h) (clipped nc w) in *. intros V. rewrite (V r c dy dx Hr Hc Hdy Hdx). apply board_nth; lia.
  - intros y x. specialize (I y x). rewrite RR, CC in I. apply (board_values (clipped nr h) (clipped nc w)).
    revert I. generalize (checkerboard_alphas (clipped nr h) (clipped nc w)). intros l I.
    rewrite <- (firstn_skipn (Z.to_nat (clipped nr h * clipped nc w)) l). apply in_or_app. left. exact I.
Qed.

(** *** Masks from annotations *)

Lemma class_fold ids cell acc :
  fold_left (fun acc id => acc || existsb (Z.eqb id) cell) ids acc = true <->
  acc = true \/ exists id, In id ids /\ In id cell.
Proof.
  revert acc. induction ids as [|id ids IH]; intros acc; cbn.
  - split; [auto|]. intros [H|[? [[] _]]]. exact H.
  - rewrite IH, orb_true_iff. split.
    + intros [[H|H]|[i [A B]]]; [auto| |right; exists i; auto].
      right. apply existsb_exists in H. destruct H as [z [Z E]]. apply Z.eqb_eq in E. subst z. exists id. auto.
    + intros [H|[i [[<-|A] B]]]; [auto| |right; exists i; auto].
      left. right. apply existsb_exists. exists id. split; [exact B|apply Z.eqb_refl].
Qed.

Lemma class_mask_ok sm ids y x :
  ((exists id, In id ids /\ In id (apx sm y x)) -> apx (class_id_mask sm ids) y x = 1%Q) /\
  ((forall id, In id ids -> ~ In id (apx sm y x)) -> apx (class_id_mask sm ids) y x = 0%Q).
Proof.
  unfold class_id_mask. cbn [apx]. pose proof (class_fold ids (apx sm y x) false) as F.
  destruct (fold_left _ ids false); split; intros H; try reflexivity.
  - destruct F as [F _]. destruct (F eq_refl) as [D|[id [A B]]]; [discriminate|]. destruct (H id A B).
  - destruct F as [_ F]. discriminate F. right. exact H.
Qed.

Lemma label_eqb_iff a b : label_eqb a b = true <-> a = b.
Proof.
  destruct a as [x|], b as [y|]; cbn; split; intros H; try discriminate; try reflexivity.
  - apply Z.eqb_eq in H. congruence.
  - injection H as ->. apply Z.eqb_refl.
Qed.
Lemma wanted_iff labels b :
  match labels with None => true | Some ls => existsb (label_eqb (l_label b)) ls end = true <-> selected labels b.
Proof.
  destruct labels as [ls|]; cbn; [|tauto]. rewrite existsb_exists. split.
  - intros [l [L E]]. apply label_eqb_iff in E. rewrite E. exact L.
  - intros L. exists (l_label b). split; [exact L|]. apply label_eqb_iff. reflexivity.
Qed.

Lemma paint_ok h w labels m b y x : 0 <= y < h -> 0 <= x < w ->
  ((selected labels b /\ covered b y x) -> paint_box h w labels m b y x = 1%Q) /\
  (~ (selected labels b /\ covered b y x) -> paint_box h w labels m b y x = m y x).
Proof.
  intros Y X. unfold paint_box. pose proof (wanted_iff labels b) as WI.
  destruct (match labels with None => true | Some ls => existsb (label_eqb (l_label b)) ls end).
  - set (x1 := Z.min (Z.max (py_int (l_x1 b)) 0) w). set (y1 := Z.min (Z.max (py_int (l_y1 b)) 0) h).
    set (x2 := Z.min (Z.max (py_int (l_x2 b)) 0) w). set (y2 := Z.min (Z.max (py_int (l_y2 b)) 0) h).
    assert (covered b y x <-> (y1 <= y /\ y < y2 /\ x1 <= x /\ x < x2)) as CV.
    { unfold covered. rewrite <- (ge_trunc (l_x1 b) x), <- (lt_trunc (l_x2 b) x), <- (ge_trunc (l_y1 b) y), <- (lt_trunc (l_y2 b) y) by lia.
      lia. }
    split; intros H.
    + destruct H as [_ C]. apply CV in C. replace ((x1 <? x2) && (y1 <? y2)) with true by lia.
      replace ((y1 <=? y) && (y <? y2) && (x1 <=? x) && (x <? x2)) with true by lia. reflexivity.
    + destruct ((x1 <? x2) && (y1 <? y2)); [|reflexivity].
      destruct ((y1 <=? y) && (y <? y2) && (x1 <=? x) && (x <? x2)) eqn:E; [|reflexivity].
      exfalso. apply H. split; [apply WI; reflexivity|]. apply CV. lia.
  - split; [|reflexivity]. intros [S _]. apply WI in S. discriminate.
Qed.

Lemma paint_all h w labels boxes m y x : 0 <= y < h -> 0 <= x < w ->
  ((exists b, In b boxes /\ selected labels b /\ covered b y x) ->
     fold_left (paint_box h w labels) boxes m y x = 1%Q) /\
  ((forall b, In b boxes -> ~ (selected labels b /\ covered b y x)) ->
     fold_left (paint_box h w labels) boxes m y x = m y x) /\
  (m y x = 1%Q -> fold_left (paint_box h w labels) boxes m y x = 1%Q).
Proof.
  intros Y X. revert m. induction boxes as [|b boxes IH]; intros m.
  - split; [intros [b [[] _]]|]. split; [reflexivity|auto].
  - cbn [fold_left]. destruct (IH (paint_box h w labels m b)) as [I1 [I2 I3]].
    destruct (paint_ok h w labels m b y x Y X) as [P1 P2].
    assert (m y x = 1%Q -> paint_box h w labels m b y x = 1%Q) as KEEP.
    { intros M. unfold paint_box in *.
      destruct (match labels with None => true | Some ls => existsb (label_eqb (l_label b)) ls end); [|exact M].
      destruct (_ && _); [|exact M]. destruct (_ && _); [reflexivity|exact M]. }
    split; [|split].
    + intros [b' [[<-|H] C]]; [apply I3, P1; exact C|]. apply I1. exists b'. auto.
    + intros H. rewrite I2 by (intros b' B'; apply H; right; exact B'). apply P2. apply H. left. reflexivity.
    + intros M. apply I3, KEEP, M.
Qed.

Lemma split_list_cut {A} (l : list A) sizes i : length l = (i + fold_right plus 0 sizes)%nat ->
  concat (split_list l sizes i) = skipn i l /\ map (@length A) (split_list l sizes i) = sizes.
Proof.
  revert i. induction sizes as [|s sizes IH]; intros i L; cbn [split_list fold_right] in *.
  - split; [|reflexivity]. cbn. symmetry. apply skipn_all2. lia.
  - destruct (IH (i + s)%nat) as [I1 I2]; [lia|]. split.
    + cbn [concat]. rewrite I1. rewrite <- UtilProofs.skipn_skipn. apply firstn_skipn.
    + cbn [map]. rewrite I2. f_equal. rewrite firstn_length, skipn_length. lia.
Qed.
