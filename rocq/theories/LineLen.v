(** Proofs about line strings, sixth part: lengths (LineModel, LineSpec). *)
From Coq Require Import List ZArith QArith Qreals Reals Bool Lia Lra Sorting.Sorted.
From Verif Require Import Prelude LineModel LineSpec LineClip LineBox LineRest.
Import ListNotations.
Open Scope R_scope.

Definition dist (p q : point) : R := sqrt (Q2R (dist2 p q)).
Definition rsum (l : list R) : R := fold_right Rplus 0 l.

Lemma path_length_cons a b cs : path_length (a :: b :: cs) = dist a b + path_length (b :: cs).
Proof. reflexivity. Qed.

Lemma dist_nonneg p q : 0 <= dist p q. Proof. apply sqrt_pos. Qed.

Lemma path_length_nonneg cs : 0 <= path_length cs.
Proof.
  induction cs as [|a cs IH]; [cbn; lra|]. destruct cs as [|b cs]; [cbn; lra|].
  rewrite path_length_cons. assert (H := dist_nonneg a b). lra.
Qed.

(** Edge [i] of a line string. *)
Definition edge_length (cs : list point) (i : nat) : R :=
  match nth_error cs i, nth_error cs (S i) with Some a, Some b => dist a b | _, _ => 0 end.
Definition before (cs : list point) (i : nat) : R := rsum (map (edge_length cs) (seq 0 i)).
(** The way from the start to a position. *)
Definition way (cs : list point) (q : position) : R := before cs (fst q) + Q2R (snd q) * edge_length cs (fst q).

Lemma edge_nonneg cs i : 0 <= edge_length cs i.
Proof. unfold edge_length. destruct (nth_error cs i), (nth_error cs (S i)); try lra. apply dist_nonneg. Qed.

Lemma rsum_app a b : rsum (a ++ b) = rsum a + rsum b.
Proof. unfold rsum. induction a; cbn; [lra|]. rewrite IHa. lra. Qed.

Lemma before_S cs i : before cs (S i) = before cs i + edge_length cs i.
Proof. unfold before. rewrite seq_S, map_app, rsum_app. cbn. lra. Qed.

Lemma before_mono cs i j : (i <= j)%nat -> before cs i <= before cs j.
Proof. induction 1; [lra|]. rewrite before_S. assert (H' := edge_nonneg cs m). lra. Qed.

Lemma before_all cs : before cs (pred (length cs)) = path_length cs.
Proof.
  assert (X : forall cs, rsum (map (edge_length cs) (seq 0 (pred (length cs)))) = path_length cs).
  { clear. induction cs as [|a cs IH]; [reflexivity|]. destruct cs as [|b cs]; [reflexivity|].
    rewrite path_length_cons, <- IH. cbn [length pred]. cbn [seq map rsum fold_right].
    f_equal. fold (rsum (map (edge_length (b :: cs)) (seq 0 (length cs)))). unfold rsum.
    rewrite <- seq_shift, map_map. reflexivity. }
  apply X.
Qed.

Lemma Q2R_0 : Q2R 0 = 0. Proof. unfold Q2R. cbn. lra. Qed.
Lemma Q2R_1 : Q2R 1 = 1. Proof. unfold Q2R. cbn. lra. Qed.

Lemma dist_along a b t u p q :
  at_fraction a b t p -> at_fraction a b u q -> (t <= u)%Q -> dist p q = (Q2R u - Q2R t) * dist a b.
Proof.
  intros [A B] [C D] L.
  assert (E : (dist2 p q == (u - t) * (u - t) * dist2 a b)%Q) by (unfold dist2; rewrite A, B, C, D; ring).
  unfold dist. rewrite (Qeq_eqR _ _ E), Q2R_mult, Q2R_mult, Q2R_minus.
  assert (L' : 0 <= Q2R u - Q2R t) by (apply Qle_Rle in L; lra).
  rewrite sqrt_mult_alt by nra. rewrite sqrt_square by exact L'. reflexivity.
Qed.

Lemma way_edge cs q r p1 p2 : at_position cs q p1 -> at_position cs r p2 -> along_edge q r ->
  dist p1 p2 = way cs r - way cs q.
Proof.
  intros (T1 & a & b & Ha & Hb & P1) (T2 & a' & b' & Ha' & Hb' & P2) S. unfold way.
  destruct S as [[E L]|[E Z]].
  - rewrite <- E in *. rewrite Ha in Ha'. rewrite Hb in Hb'. injection Ha' as <-. injection Hb' as <-.
    rewrite (dist_along _ _ _ _ _ _ P1 P2 L). unfold edge_length. rewrite Ha, Hb. lra.
  - rewrite E in *. rewrite Hb in Ha'. injection Ha' as <-.
    assert (PB : at_fraction a b 1 p2).
    { destruct P2 as [X Y]. split; [rewrite X | rewrite Y]; rewrite Z; ring. }
    rewrite (dist_along _ _ _ _ _ _ P1 PB (proj2 T1)). rewrite before_S, (Qeq_eqR _ _ Z), Q2R_0, Q2R_1.
    assert (EE : edge_length cs (fst q) = dist a b) by (unfold edge_length; rewrite Ha, Hb; reflexivity).
    rewrite EE. lra.
Qed.

Lemma way_mono cs q r p1 p2 : at_position cs q p1 -> at_position cs r p2 -> not_after q r -> way cs q <= way cs r.
Proof.
  intros (T1 & _) (T2 & _) N. unfold way.
  destruct T1 as [_ T1]. destruct T2 as [T2 _]. apply Qle_Rle in T1, T2. rewrite Q2R_1 in T1. rewrite Q2R_0 in T2.
  assert (E1 := edge_nonneg cs (fst q)). assert (E2 := edge_nonneg cs (fst r)).
  destruct N as [N|[N L]].
  - assert (B := before_mono cs (S (fst q)) (fst r) N). rewrite before_S in B. nra.
  - rewrite N in *. apply Qle_Rle in L. nra.
Qed.

Lemma way_bounds cs q p : at_position cs q p -> 0 <= way cs q <= path_length cs.
Proof.
  intros (T & a & b & Ha & Hb & _). unfold way.
  destruct T as [T1 T2]. apply Qle_Rle in T1, T2. rewrite Q2R_1 in T2. rewrite Q2R_0 in T1.
  assert (E := edge_nonneg cs (fst q)).
  assert (B0 := before_mono cs 0 (fst q) (Nat.le_0_l _)). unfold before at 1 in B0. cbn in B0.
  assert (L : (S (fst q) < length cs)%nat) by (apply nth_error_Some; congruence).
  assert (B1 := before_mono cs (S (fst q)) (pred (length cs)) ltac:(lia)). rewrite before_all, before_S in B1.
  split; nra.
Qed.

(** The length of a piece. *)
Lemma chained_tail {A} (R : A -> A -> Prop) a l : chained R (a :: l) -> chained R l.
Proof. intros H i x y Hx Hy. exact (H (S i) x y Hx Hy). Qed.

Lemma piece_length cs : forall qs part q0 p0,
  Forall2 (at_position cs) (q0 :: qs) (p0 :: part) -> chained along_edge (q0 :: qs) ->
  path_length (p0 :: part) = way cs (last qs q0) - way cs q0.
Proof.
  induction qs as [|q1 qs IH]; intros part q0 p0 F C.
  - inversion F as [|? ? ? ? F1 F2]; subst. inversion F2; subst. cbn. lra.
  - inversion F as [|? ? ? ? F1 F2]; subst. inversion F2 as [|? p1 ? part' F3 F4]; subst.
    rewrite path_length_cons, (IH part' q1 p1 F2 (chained_tail _ _ _ C)).
    rewrite (way_edge cs q0 q1 p0 p1 F1 F3 (C 0%nat q0 q1 eq_refl eq_refl)).
    change (last (q1 :: qs) q0) with (match qs with [] => q1 | _ => last qs q0 end).
    replace (match qs with [] => q1 | _ :: _ => last qs q0 end) with (last qs q1); [lra|].
    clear. revert q0 q1. destruct qs as [|x qs]; [reflexivity|]. intros q0 q1. revert x. induction qs as [|y qs IH]; intro x; [reflexivity|]. exact (IH y).
Qed.

Lemma last_cons_in {A} (l : list A) : forall y a, In (last (y :: l) a) (y :: l).
Proof. induction l as [|z l IH]; intros y a; [left; reflexivity|]. right. exact (IH z a). Qed.

Lemma last_in {A} (l : list A) a : In (last l a) (a :: l).
Proof. destruct l as [|y l]; [left; reflexivity|]. right. apply last_cons_in. Qed.

Lemma pieces_length cs : forall qss parts lo,
  Forall2 (Forall2 (at_position cs)) qss parts -> Forall (chained along_edge) qss ->
  StronglySorted not_after (concat qss) -> (forall q p, In q (concat qss) -> at_position cs q p -> lo <= way cs q) ->
  lo <= path_length cs ->
  lo + rsum (map path_length parts) <= path_length cs.
Proof.
  induction qss as [|qs qss IH]; intros parts lo F C S LB LO; inversion F as [|? part ? parts' F1 F2]; subst.
  - cbn. lra.
  - cbn [map]. unfold rsum. cbn [fold_right]. fold (rsum (map path_length parts')).
    assert (C1 := Forall_inv C). assert (C2 := Forall_inv_tail C). cbn [concat] in S, LB.
    destruct qs as [|q0 qs]; inversion F1 as [|? p0 ? part' F3 F4]; subst.
    + cbn. rewrite Rplus_0_l. apply IH; try assumption.
    + rewrite (piece_length cs qs part' q0 p0 F1 C1).
      assert (IL : In (last qs q0) (q0 :: qs)) by apply last_in.
      assert (AL : exists pl, at_position cs (last qs q0) pl).
      { clear -F1 IL. revert IL. generalize (last qs q0). intros z IL.
        revert IL. generalize dependent (p0 :: part'). generalize (q0 :: qs). intros l l' F I. induction F; [contradiction|].
        destruct I as [<-|I]; [eauto|auto]. }
      destruct AL as (pl & AL).
      assert (B0 := LB q0 p0 (or_introl eq_refl) F3).
      assert (X : way cs (last qs q0) + rsum (map path_length parts') <= path_length cs).
      { apply IH; try assumption.
        - clear -S. revert S. generalize (concat qss). generalize (q0 :: qs). intros l l' S. induction l; [exact S|]. inversion S; auto.
        - intros q p I A. apply (way_mono cs (last qs q0) q pl p); [exact AL|exact A|].
          clear -S I IL. revert S I IL. generalize (last qs q0). generalize (q0 :: qs). generalize (concat qss). intros l' l z S I IL.
          induction l as [|x l IH]; [contradiction|]. inversion S as [|? ? S1 S2]; subst. destruct IL as [->|IL]; [|exact (IH S1 IL)].
          rewrite Forall_forall in S2. apply S2. apply in_or_app; right; exact I.
        - apply (way_bounds cs _ pl AL). }
      lra.
Qed.

(** The parts are not longer than the line string. *)
Lemma pieces_not_longer cs parts : pieces_of cs parts -> rsum (map path_length parts) <= path_length cs.
Proof.
  intros (qss & F & C & S). assert (H := pieces_length cs qss parts 0 F C S).
  assert (N := path_length_nonneg cs). rewrite Rplus_0_l in H. apply H; [|exact N].
  intros q p _ A. apply (way_bounds cs q p A).
Qed.

(** ** The fraction outside of the image *)

Lemma rsum_nonneg ps : 0 <= rsum (map path_length ps).
Proof. induction ps as [|p ps IH]; [cbn; lra|]. cbn. assert (H := path_length_nonneg p). unfold rsum in IH. lra. Qed.

Lemma short_length cs : path_length cs <> 0 -> (2 <= length cs)%nat.
Proof. destruct cs as [|a [|b cs]]; intro H; [contradiction H; reflexivity|contradiction H; reflexivity|cbn; lia]. Qed.

Lemma fraction_ok isect l s : has_pixels s -> shapely_ok isect (coords l) s ->
  exists f, out_of_image_fraction isect l s = Ok f /\ 0 <= f <= 1 /\
    (Forall (in_image s) (coords l) -> f = 0) /\
    (coords l <> [] -> ~ visible s (coords l) -> f = 1) /\
    (path_length (coords l) <> 0 -> exists parts, clip_out_of_image isect l s = Ok parts /\
       f * path_length (coords l) + rsum (map path_length (map coords parts)) = path_length (coords l)).
Proof.
  intros HP HS. unfold out_of_image_fraction. destruct (Req_EM_T (path_length (coords l)) 0) as [Z|NZ].
  - assert (X : exists f, match coords l with [] => Ok 0 | _ :: _ => Ok (if forallb negb (inside_image_mask s l) then 1 else 0) end = Ok f /\
      0 <= f <= 1 /\ (Forall (in_image s) (coords l) -> f = 0) /\ (coords l <> [] -> ~ visible s (coords l) -> f = 1)).
    { unfold inside_image_mask. destruct (coords l) as [|a cs] eqn:E; [exists 0; split; [reflexivity|split; [lra|split; [reflexivity|intro H; contradiction H; reflexivity]]]|].
      eexists. split; [reflexivity|]. destruct (forallb negb _) eqn:F.
      - split; [lra|]. split; [|reflexivity]. intro A. exfalso. cbn [map forallb] in F. apply andb_true_iff in F. destruct F as [F _].
        apply Forall_inv in A. apply inside_iff in A. rewrite A in F. discriminate F.
      - split; [lra|]. split; [reflexivity|]. intros _ V. exfalso. assert (T : forallb negb (map (inside_point s) (a :: cs)) = true); [|congruence].
        apply forallb_forall. intros b I. apply in_map_iff in I. destruct I as (p & <- & I). apply negb_true_iff. destruct (inside_point s p) eqn:EP; [|reflexivity].
        exfalso. apply V. left. exists p. split; [exact I|apply inside_iff; exact EP]. }
    destruct X as (f & E & B & A & V). exists f. split; [exact E|]. split; [exact B|]. split; [exact A|]. split; [exact V|]. intro H. contradiction.
  - destruct (clip_some isect l s HP HS) as (n & parts & E & R). rewrite E. cbn [bind].
    destruct R as (_ & _ & PP & _ & _ & _ & _ & V & W).
    set (len := path_length (coords l)) in *. assert (LN := path_length_nonneg (coords l)). fold len in LN.
    assert (LP : 0 < len) by (destruct LN as [LN|LN]; [exact LN|symmetry in LN; contradiction]).
    rewrite map_map. cbn [coords]. change (fold_right Rplus 0 (map (fun x : list point => path_length x) parts)) with (rsum (map path_length parts)).
    assert (B1 := pieces_not_longer _ _ (PP (short_length _ NZ))). fold len in B1. assert (B0 := rsum_nonneg parts).
    set (after := rsum (map path_length parts)) in *.
    assert (Q : after / len * len = after) by (field; exact NZ).
    eexists. split; [reflexivity|]. split; [|split; [|split]].
    + assert (0 <= after / len <= 1); [|lra]. split; [apply Rmult_le_reg_r with len; [exact LP|]; rewrite Q; lra|apply Rmult_le_reg_r with len; [exact LP|]; rewrite Q; lra].
    + intro F. assert (EP : parts = [coords l]) by (apply W; [intro H; apply NZ; unfold len; rewrite H; reflexivity|exact F]).
      assert (EA : after = len) by (unfold after, len; rewrite EP; cbn; lra). rewrite EA. field. exact NZ.
    + intros _ NV. assert (EP : parts = []) by (destruct parts; [reflexivity|exfalso; apply NV; apply V; discriminate]).
      assert (EA : after = 0) by (unfold after; rewrite EP; reflexivity). rewrite EA. field. exact NZ.
    + intros _. eexists. split; [reflexivity|]. rewrite !map_map. cbn [coords]. change (rsum (map (fun x : list point => path_length x) parts)) with after.
      assert (X : (1 - after / len) * len = len - after) by (field; exact NZ). rewrite X. lra.
Qed.

(** ** The independent definition *)

Lemma dist_len a b : dist a b = sqrt ((Q2R (fst b) - Q2R (fst a)) ^ 2 + (Q2R (snd b) - Q2R (snd a)) ^ 2).
Proof. unfold dist, dist2. rewrite Q2R_plus, !Q2R_mult, !Q2R_minus. f_equal. ring. Qed.

Lemma len_path cs : len cs = path_length cs.
Proof.
  induction cs as [|a cs IH]; [reflexivity|]. destruct cs as [|b cs]; [reflexivity|].
  rewrite path_length_cons, <- IH, dist_len. reflexivity.
Qed.

Lemma total_len_sum parts : total_len parts = rsum (map path_length parts).
Proof. induction parts as [|p parts IH]; [reflexivity|]. cbn [total_len map]. rewrite IH, len_path. reflexivity. Qed.

Lemma fraction_len isect l s : has_pixels s -> shapely_ok isect (coords l) s ->
  exists f, out_of_image_fraction isect l s = Ok f /\ 0 <= f <= 1 /\
    (Forall (in_image s) (coords l) -> f = 0) /\
    (coords l <> [] -> ~ visible s (coords l) -> f = 1) /\
    (len (coords l) <> 0 -> exists parts, clip_out_of_image isect l s = Ok parts /\
       f * len (coords l) + total_len (map coords parts) = len (coords l)).
Proof.
  intros HP HS. destruct (fraction_ok isect l s HP HS) as (f & E & B & A & V & L). exists f. split; [exact E|]. split; [exact B|].
  split; [exact A|]. split; [exact V|]. rewrite len_path. intro N. destruct (L N) as (parts & E' & X). exists parts. split; [exact E'|].
  rewrite total_len_sum. exact X.
Qed.

Lemma remove_fraction isect o fr : has_pixels (lsoi_shape o) -> (forall l, In l (line_strings o) -> shapely_ok isect (coords l) (lsoi_shape o)) ->
  exists ls, lsoi_remove_out_of_image_fraction isect o fr = Ok (mkLsoi ls (lsoi_shape o)) /\ subsequence ls (line_strings o) /\
    (forall l, In l ls <-> In l (line_strings o) /\ exists f, out_of_image_fraction isect l (lsoi_shape o) = Ok f /\ f < Q2R fr).
Proof.
  intros HP HS. unfold lsoi_remove_out_of_image_fraction.
  destruct (keep_unless_spec (fun l => do f <- out_of_image_fraction isect l (lsoi_shape o); Ok (if Rlt_dec f (Q2R fr) then false else true))
    (fun l => exists f, out_of_image_fraction isect l (lsoi_shape o) = Ok f /\ f < Q2R fr) (line_strings o)) as (ls & E & S & I & _).
  - intros l I. destruct (fraction_ok isect l _ HP (HS l I)) as (f & E & _). rewrite E. cbn [bind]. destruct (Rlt_dec f (Q2R fr)) as [L|L].
    + exists true. split; [reflexivity|]. split; [intros _; exists f; split; [reflexivity|exact L]|reflexivity].
    + exists false. split; [reflexivity|]. split; [discriminate|]. intros (f' & E' & L'). injection E' as <-. contradiction.
  - exists ls. rewrite E. split; [reflexivity|]. split; [exact S|exact I].
Qed.

Lemma clip_not_longer isect l s parts : has_pixels s -> shapely_ok isect (coords l) s ->
  clip_out_of_image isect l s = Ok parts -> total_len (map coords parts) <= len (coords l).
Proof.
  intros HP HS E. destruct (clip_some isect l s HP HS) as (n & parts' & E' & R). rewrite E in E'. injection E' as ->.
  rewrite map_map. cbn [coords]. rewrite map_id, total_len_sum, len_path. destruct R as (_ & _ & PP & _ & _ & _ & _ & V & W).
  destruct (coords l) as [|a [|b r]] eqn:EC.
  - assert (parts' = []) by (destruct parts'; [reflexivity|exfalso; destruct (proj1 V ltac:(discriminate)) as [(p & [] & _)|(p & O & _)];
      destruct O as [(i & x & y & Hx & _)|(q & [] & _)]; destruct i; discriminate]). subst. cbn. lra.
  - unfold clip_out_of_image in E. rewrite EC in E. destruct (existsb _ _); injection E as E.
    + destruct parts' as [|x [|y ps]]; try discriminate. cbn in E. injection E as E. rewrite E in EC. cbn in EC. subst x. cbn. lra.
    + destruct parts'; [cbn; lra|discriminate].
  - apply pieces_not_longer. apply PP. cbn. lia.
Qed.

Lemma remove_extreme isect o fr : has_pixels (lsoi_shape o) -> (forall l, In l (line_strings o) -> shapely_ok isect (coords l) (lsoi_shape o)) ->
  ((fr <= 0)%Q -> lsoi_remove_out_of_image_fraction isect o fr = Ok (mkLsoi [] (lsoi_shape o))) /\
  ((1 < fr)%Q -> exists ls, lsoi_remove_out_of_image_fraction isect o fr = Ok (mkLsoi ls (lsoi_shape o)) /\ forall l, In l (line_strings o) -> In l ls).
Proof.
  intros HP HS. destruct (remove_fraction isect o fr HP HS) as (ls & E & _ & I). split; intro H.
  - apply Qle_Rle in H. rewrite Q2R_0 in H. rewrite E. destruct ls as [|l ls]; [reflexivity|exfalso].
    destruct (proj1 (I l) (or_introl eq_refl)) as (IL & f & EF & L). destruct (fraction_ok isect l _ HP (HS l IL)) as (f' & EF' & B & _).
    rewrite EF in EF'. injection EF' as <-. lra.
  - apply Qlt_Rlt in H. rewrite Q2R_1 in H. exists ls. split; [exact E|]. intros l IL. apply I. split; [exact IL|].
    destruct (fraction_ok isect l _ HP (HS l IL)) as (f' & EF' & B & _). exists f'. split; [exact EF'|]. lra.
Qed.

Lemma half_outside : exists l, shapely_ok box_isect (coords l) (10, 10)%Z /\ coords l <> [] /\ len (coords l) = 20 /\
  clip_out_of_image box_isect l (10, 10)%Z = Ok [mkLine [((0, 5) : point); ((9999 # 1000, 5) : point)]%Q None].
Proof.
  exists (mkLine [(-5, 5); (15, 5)]%Q None). split; [apply box_isect_ok|]. split; [discriminate|]. split.
  - cbn [len coords fst snd]. replace (_ + _ ^ 2) with (20 * 20); [rewrite sqrt_square; lra|]. unfold Q2R. cbn. field.
  - vm_compute. reflexivity.
Qed.
