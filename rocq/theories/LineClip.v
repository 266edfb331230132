(** Proofs about clipping of line strings, second part: the list of points, the
    crossings of the border, and the results (LineModel, LineSpec). *)
From Coq Require Import List ZArith QArith Bool Lia Lqa Sorting.Sorted Setoid.
From Verif Require Import Prelude PreludeFacts LineModel LineSpec LineProofs.
Import ListNotations.
Open Scope Q_scope.

(** ** The list of points with positions *)

Definition mid (i : nat) (tp : Q * point) : atag := ((i, fst tp), (snd tp, true, false)).

Fixpoint acollect (i : nat) (cs : list point) (ooi : list bool) (inters : list (list (Q * point))) : list atag :=
  match cs, ooi, inters with
  | a :: ((b :: r) as cs'), o :: ((o' :: _) as ooi'), it :: inters' =>
      let is_last := match r with [] => true | _ => false end in
      ((i, 0), (a, false, o)) :: map (mid i) it
        ++ (if is_last && negb o' then [((i, 1), (b, false, o'))] else [])
        ++ acollect (S i) cs' ooi' inters'
  | _, _, _ => []
  end.

Lemma acollect_eq i a b r o o' ooi it inters :
  acollect i (a :: b :: r) (o :: o' :: ooi) (it :: inters)
  = ((i, 0), (a, false, o)) :: map (mid i) it
        ++ (if match r with [] => true | _ => false end && negb o' then [((i, 1), (b, false, o'))] else [])
        ++ acollect (S i) (b :: r) (o' :: ooi) inters.
Proof. reflexivity. Qed.

Lemma acollect_erase : forall cs i ooi inters,
  map snd (acollect i cs ooi inters) = collect cs ooi (map (map snd) inters).
Proof.
  induction cs as [|a cs IH]; intros i ooi inters; [reflexivity|].
  destruct cs as [|b r]; [reflexivity|]. destruct ooi as [|o [|o' ooi]]; try reflexivity.
  destruct inters as [|it inters]; [reflexivity|].
  rewrite acollect_eq. cbn [map snd]. rewrite !map_app, IH.
  change (collect (a :: b :: r) (o :: o' :: ooi) (map snd it :: map (map snd) inters))
    with ((a, false, o) :: map (fun p => (p, true, false)) (map snd it)
        ++ (if match r with [] => true | _ => false end && negb o' then [(b, false, o')] else [])
        ++ collect (b :: r) (o' :: ooi) (map (map snd) inters)).
  rewrite !map_map. f_equal. f_equal. f_equal. destruct (_ && _); reflexivity.
Qed.

(** Points with their fractions, in order along the edge from [a] to [b]. *)
Definition listed (a b : point) (it : list (Q * point)) : Prop :=
  Forall (fun tp => 0 <= fst tp <= 1 /\ at_fraction a b (fst tp) (snd tp)) it /\
  StronglySorted Qle (map fst it).

Fixpoint all_listed (cs : list point) (inters : list (list (Q * point))) : Prop :=
  match cs, inters with
  | a :: ((b :: _) as cs'), it :: inters' => listed a b it /\ all_listed cs' inters'
  | _, _ => True
  end.

Lemma wf_app_added : forall it i t rest,
  StronglySorted Qle (t :: map fst it) ->
  (forall t', (t' = t \/ In t' (map fst it)) -> Forall (fun x => x <= t') (t :: map fst it) -> wf (i, t') rest) ->
  wf (i, t) (map (mid i) it ++ rest).
Proof.
  induction it as [|[u p] it IH]; intros i t rest HS HR; cbn [map app].
  - apply HR; [left; reflexivity|]. repeat constructor. apply Qle_refl.
  - cbn [wf fst snd]. inversion HS as [|? ? HS1 HS2]; subst. cbn [map fst] in *.
    assert (L : t <= u) by (inversion HS2; assumption). split; [left; split; [reflexivity|exact L]|].
    split; [auto|]. apply IH; [exact HS1|].
    intros t' I F. apply HR; [right; destruct I as [->|I]; [left; reflexivity|right; exact I]|].
    constructor; [|exact F]. inversion F; subst. lra.
Qed.

Lemma wf_acollect : forall cs ooi i prev inters,
  along_edge prev (i, 0) -> all_listed cs inters -> wf prev (acollect i cs ooi inters).
Proof.
  induction cs as [|a cs IH]; intros ooi i prev inters HP HL; [exact I|].
  destruct cs as [|b r]; [exact I|]. destruct ooi as [|o [|o' ooi]]; try exact I.
  destruct inters as [|it inters]; [exact I|]. destruct HL as [[HF HS] HL].
  rewrite acollect_eq. cbn [wf]. split; [exact HP|]. split; [discriminate|].
  apply wf_app_added.
  - constructor; [exact HS|]. rewrite Forall_map. eapply Forall_impl; [|exact HF]. intros tp [[H _] _]. exact H.
  - intros t' I' F.
    assert (LE : t' <= 1).
    { destruct I' as [->|I']; [lra|]. rewrite in_map_iff in I'. destruct I' as (tp & <- & I').
      rewrite Forall_forall in HF. destruct (HF _ I') as [[_ H] _]. exact H. }
    destruct (match r with [] => true | _ => false end && negb o') eqn:E; cbn [app].
    + cbn [wf]. split; [left; split; [reflexivity|exact LE]|]. split; [discriminate|].
      destruct r; [exact I|discriminate E].
    + apply (IH (o' :: ooi) (S i)); [|exact HL]. right. split; [reflexivity|]. cbn. reflexivity.
Qed.

Lemma placed_acollect cs0 : forall cs ooi i inters,
  (forall k, nth_error cs k = nth_error cs0 (i + k)) -> all_listed cs inters ->
  Forall (placed cs0) (acollect i cs ooi inters).
Proof.
  induction cs as [|a cs IH]; intros ooi i inters HN HL; [constructor|].
  destruct cs as [|b r]; [constructor|]. destruct ooi as [|o [|o' ooi]]; try constructor.
  destruct inters as [|it inters]; [constructor|]. destruct HL as [[HF HS] HL].
  assert (Ha : nth_error cs0 i = Some a) by (rewrite <- (Nat.add_0_r i), <- HN; reflexivity).
  assert (Hb : nth_error cs0 (S i) = Some b) by (rewrite <- Nat.add_1_r, <- HN; reflexivity).
  rewrite acollect_eq. constructor; [|apply Forall_app; split; [|apply Forall_app; split]].
  - split; [cbn; lra|]. exists a, b. split; [exact Ha|split; [exact Hb|apply at_fraction_0]].
  - rewrite Forall_map. eapply Forall_impl; [|exact HF]. intros tp [H1 H2]. split; [exact H1|]. exists a, b.
    split; [exact Ha|split; [exact Hb|exact H2]].
  - destruct (_ && _); constructor; [|constructor]. split; [cbn; lra|]. exists a, b.
    split; [exact Ha|split; [exact Hb|apply at_fraction_1]].
  - apply IH; [|exact HL]. intro k. rewrite Nat.add_succ_comm, <- HN. reflexivity.
Qed.

Lemma lead_acollect i cs ooi inters : lead (acollect i cs ooi inters) = 0%nat.
Proof.
  destruct cs as [|a [|b r]]; [reflexivity..|]. destruct ooi as [|o [|o' ooi]]; [reflexivity..|].
  destruct inters; reflexivity.
Qed.

(** The part of the list that belongs to one edge. *)
Lemma acollect_edge : forall k cs ooi i inters a b o o' it,
  nth_error cs k = Some a -> nth_error cs (S k) = Some b ->
  nth_error ooi k = Some o -> nth_error ooi (S k) = Some o' -> nth_error inters k = Some it ->
  (length inters = pred (length cs))%nat -> length ooi = length cs ->
  exists (pre post : list atag),
    acollect i cs ooi inters
    = pre ++ (((i + k)%nat, 0), (a, false, o)) :: map (mid (i + k)) it ++ post
    /\ lead post = 0%nat
    /\ (o' = false -> exists (q : position) (post' : list atag), post = (q, (b, false, false)) :: post' /\ frac (i + k) q == 1 /\ along_edge ((i + k)%nat, 0) q).
Proof.
  induction k as [|k IH]; intros cs ooi i inters a b o o' it Ha Hb Ho Ho' Hi HL1 HL2.
  - destruct cs as [|a0 [|b0 r]]; try discriminate. destruct ooi as [|o0 [|o0' ooi]]; try discriminate.
    destruct inters as [|it0 inters]; try discriminate.
    injection Ha as ->. injection Hb as ->. injection Ho as ->. injection Ho' as ->. injection Hi as ->.
    rewrite Nat.add_0_r. exists [].
    exists ((if match r with [] => true | _ => false end && negb o' then [((i, 1), (b, false, o'))] else [])
        ++ acollect (S i) (b :: r) (o' :: ooi) inters).
    split; [rewrite acollect_eq; reflexivity|]. split.
    + destruct (_ && _); [reflexivity|apply lead_acollect].
    + intros ->. destruct r as [|b' r]; cbn [andb negb].
      * exists (i, 1), []. split; [reflexivity|]. split; [unfold frac; cbn; rewrite Nat.eqb_refl; reflexivity|left; split; [reflexivity|cbn; lra]].
      * cbn [app]. destruct ooi as [|o1 ooi]; [discriminate HL2|]. destruct inters as [|it1 inters]; [discriminate HL1|].
        rewrite acollect_eq. eexists; eexists; split; [reflexivity|]. split; [|right; split; reflexivity]. unfold frac. cbn [fst snd].
        destruct (Nat.eqb_spec (S i) i); [lia|reflexivity].
  - destruct cs as [|a0 [|b0 r]]; try discriminate. destruct ooi as [|o0 [|o0' ooi]]; try discriminate.
    destruct inters as [|it0 inters]; try discriminate.
    destruct (IH (b0 :: r) (o0' :: ooi) (S i) inters a b o o' it) as (pre & post & E & R); try assumption.
    { cbn in HL1 |- *. lia. } { cbn in HL2 |- *. lia. }
    rewrite acollect_eq, E.
    exists (((i, 0), (a0, false, o0)) :: map (mid i) it0
        ++ (if match r with [] => true | _ => false end && negb o0' then [((i, 1), (b0, false, o0'))] else []) ++ pre), post.
    replace (i + S k)%nat with (S i + k)%nat by lia. split; [|exact R].
    cbn [app]. f_equal. rewrite <- !app_assoc. reflexivity.
Qed.

(** ** Crossings of the border *)

(** Linear functions [g0 + g1 * t] that are all non-negative at [t]: going back
    towards 0, one reaches 0 or a zero of one of them first. *)
Lemma crossing : forall (gs : list (Q * Q)) t,
  0 <= t -> Forall (fun g => 0 <= fst g + snd g * t) gs ->
  exists u, 0 <= u <= t /\ Forall (fun g => 0 <= fst g + snd g * u) gs /\
            (u == 0 \/ Exists (fun g => fst g + snd g * u == 0) gs).
Proof.
  induction gs as [|[g0 g1] gs IH]; intros t Ht HF.
  - exists 0. split; [lra|]. split; [constructor|left; reflexivity].
  - inversion HF as [|? ? H1 H2]; subst. cbn [fst snd] in H1. destruct (IH t Ht H2) as (u & Hu & A & B).
    destruct (Qlt_le_dec (g0 + g1 * u) 0) as [L|L].
    + assert (L1 : u < t).
      { destruct (Qlt_le_dec u t) as [|L1]; [assumption|]. assert (E : u == t) by lra. rewrite E in L. lra. }
      assert (G : 0 < g1) by nra.
      exists (- g0 / g1).
      assert (E : g1 * (- g0 / g1) == - g0) by (field; lra).
      assert (U1 : u <= - g0 / g1) by (apply Qle_shift_div_l; [exact G|lra]).
      assert (U2 : - g0 / g1 <= t) by (apply Qle_shift_div_r; [exact G|lra]).
      split; [lra|]. split.
      * constructor; [cbn; rewrite E; lra|]. rewrite Forall_forall in *. intros g I.
        specialize (A g I). specialize (H2 g I). cbv beta in A, H2 |- *.
        set (v := - g0 / g1) in *. clearbody v. nra.
      * right. left. cbn. rewrite E. ring.
    + exists u. split; [exact Hu|]. split; [constructor; assumption|]. destruct B as [B|B]; [left; exact B|right; right; exact B].
Qed.

(** The border of the core. *)
Definition on_border (s : Z * Z) (p : point) : Prop :=
  in_core s p /\ (fst p == 0 \/ fst p == inject_Z (snd s) - (1 # 1000) \/ snd p == 0 \/ snd p == inject_Z (fst s) - (1 # 1000)).

Lemma in_core_peq s p q : peq p q -> in_core s p -> in_core s q.
Proof. unfold in_core; intros [A B]; rewrite A, B; auto. Qed.

Lemma core_in_image s p : in_core s p -> in_image s p.
Proof. unfold in_core, in_image; intros; lra. Qed.

Lemma cross_before s a b t p :
  ~ in_core s a -> in_core s p -> 0 <= t -> at_fraction a b t p ->
  exists u, 0 <= u <= t /\ on_border s (point_at a b u).
Proof.
  intros NA [[C1 C2] [C3 C4]] Ht [E1 E2].
  set (W := inject_Z (snd s) - (1 # 1000)) in *. set (H := inject_Z (fst s) - (1 # 1000)) in *.
  destruct (crossing [(fst a, fst b - fst a); (W - fst a, - (fst b - fst a)); (snd a, snd b - snd a); (H - snd a, - (snd b - snd a))] t Ht) as (u & Hu & A & B).
  { repeat constructor; cbn [fst snd]; lra. }
  assert (A1 := Forall_inv A). assert (A' := Forall_inv_tail A). assert (A2 := Forall_inv A'). assert (A'' := Forall_inv_tail A').
  assert (A3 := Forall_inv A''). assert (A4 := Forall_inv (Forall_inv_tail A'')). cbn [fst snd] in A1, A2, A3, A4.
  exists u. split; [exact Hu|]. unfold on_border, in_core, point_at; cbn [fst snd]. fold W H. split; [lra|].
  destruct B as [B|B].
  - exfalso. apply NA. unfold in_core. fold W H.
    rewrite !B in *. lra.
  - apply Exists_cons in B. destruct B as [B|B]; [cbn in B; left; lra|].
    apply Exists_cons in B. destruct B as [B|B]; [cbn in B; right; left; lra|].
    apply Exists_cons in B. destruct B as [B|B]; [cbn in B; right; right; left; lra|].
    apply Exists_cons in B. destruct B as [B|B]; [cbn in B; right; right; right; lra|]. inversion B.
Qed.

Lemma at_fraction_flip a b t p : at_fraction a b t p -> at_fraction b a (1 - t) p.
Proof. intros [A B]; split; [rewrite A | rewrite B]; ring. Qed.

Lemma on_border_peq s p q : peq p q -> on_border s p -> on_border s q.
Proof. intros E [A B]. split; [eapply in_core_peq; eassumption|]. destruct E as [E1 E2]. rewrite <- E1, <- E2. exact B. Qed.

Lemma cross_after s a b t p :
  ~ in_core s b -> in_core s p -> t <= 1 -> at_fraction a b t p ->
  exists u, t <= u <= 1 /\ on_border s (point_at a b u).
Proof.
  intros NB CP Ht E. destruct (cross_before s b a (1 - t) p NB CP) as (u & Hu & B); [lra|apply at_fraction_flip; exact E|].
  exists (1 - u). split; [lra|]. eapply on_border_peq; [|exact B]. split; cbn; ring.
Qed.

(** The edges of the image are its border. *)
Lemma on_two_points a b p : on_path [a; b] p -> on_seg a b p.
Proof.
  intros [(i & x & y & A & B & C)|(q & I & E)].
  - destruct i as [|[|[|i]]]; try discriminate. injection A as ->. injection B as ->. exact C.
  - destruct I as [<-|[<-|[]]]; [exists 0|exists 1]; (split; [lra|]); (eapply at_fraction_peq; [apply peq_sym; exact E|]);
      [apply at_fraction_0|apply at_fraction_1].
Qed.

Lemma seg_two_points a b p : on_seg a b p -> on_path [a; b] p.
Proof. intro H. exact (on_path_app [] a b [] p H). Qed.

Lemma edges_border s p : has_pixels s ->
  (exists l, In l (image_edges s) /\ on_path (coords l) p) <-> on_border s p.
Proof.
  destruct s as [h w]. intros [P1 P2]. cbn [fst snd] in *.
  assert (W0 : 0 < inject_Z w - (1 # 1000)).
  { assert (1 <= inject_Z w) by (change 1 with (inject_Z 1); rewrite <- Zle_Qle; exact P2). lra. }
  assert (H0 : 0 < inject_Z h - (1 # 1000)).
  { assert (1 <= inject_Z h) by (change 1 with (inject_Z 1); rewrite <- Zle_Qle; exact P1). lra. }
  unfold image_edges, on_border, in_core. cbn [fst snd].
  set (W := inject_Z w - (1 # 1000)) in *. set (H := inject_Z h - (1 # 1000)) in *. clearbody W H.
  split.
  - intros (l & I & O). destruct I as [<-|[<-|[<-|[<-|[]]]]]; cbn [coords] in O; apply on_two_points in O;
      destruct O as (t & T & E1 & E2); cbn [fst snd] in E1, E2; rewrite E1, E2; (split; [split; nra|]).
    + right; right; left. ring.
    + right; left. ring.
    + right; right; right. ring.
    + left. ring.
  - intros [[[C1 C2] [C3 C4]] [B|[B|[B|B]]]].
    + exists (mkLine [(0, H); (0, 0)] None). split; [cbn; auto|]. apply seg_two_points. exists (1 - snd p / H).
      split; [split|split; cbn [fst snd]].
      * assert (snd p / H <= 1) by (apply Qle_shift_div_r; lra). lra.
      * assert (0 <= snd p / H) by (apply Qle_shift_div_l; lra). lra.
      * rewrite B. ring.
      * field. lra.
    + exists (mkLine [(W, 0); (W, H)] None). split; [cbn; auto|]. apply seg_two_points. exists (snd p / H).
      split; [split|split; cbn [fst snd]].
      * apply Qle_shift_div_l; lra.
      * apply Qle_shift_div_r; lra.
      * rewrite B. ring.
      * field. lra.
    + exists (mkLine [(0, 0); (W, 0)] None). split; [cbn; auto|]. apply seg_two_points. exists (fst p / W).
      split; [split|split; cbn [fst snd]].
      * apply Qle_shift_div_l; lra.
      * apply Qle_shift_div_r; lra.
      * field. lra.
      * rewrite B. ring.
    + exists (mkLine [(W, H); (0, H)] None). split; [cbn; auto|]. apply seg_two_points. exists (1 - fst p / W).
      split; [split|split; cbn [fst snd]].
      * assert (fst p / W <= 1) by (apply Qle_shift_div_r; lra). lra.
      * assert (0 <= fst p / W) by (apply Qle_shift_div_l; lra). lra.
      * field. lra.
      * rewrite B. ring.
Qed.

(** ** The points that shapely reports *)

Lemma insert_in key p l x : In x (insert_by key p l) <-> x = p \/ In x l.
Proof.
  induction l as [|q r IH]; cbn; [intuition|]. destruct (qleb _ _); cbn; [intuition|]. rewrite IH. intuition.
Qed.
Lemma sorted_in key l x : In x (sorted_by key l) <-> In x l.
Proof. induction l as [|p r IH]; cbn; [tauto|]. rewrite insert_in, IH. intuition. Qed.
Lemma insert_length key p l : length (insert_by key p l) = S (length l).
Proof. induction l as [|q r IH]; cbn; [reflexivity|]. destruct (qleb _ _); cbn; [reflexivity|]. rewrite IH. reflexivity. Qed.
Lemma sorted_length key l : length (sorted_by key l) = length l.
Proof. induction l as [|p r IH]; cbn; [reflexivity|]. rewrite insert_length, IH. reflexivity. Qed.

Lemma insert_sorted key p l :
  StronglySorted (fun x y => key x <= key y) l -> StronglySorted (fun x y => key x <= key y) (insert_by key p l).
Proof.
  induction 1 as [|q r HS IH HF]; cbn; [repeat constructor|].
  destruct (qleb (key p) (key q)) eqn:E.
  - apply qleb_iff in E. constructor; [constructor; assumption|]. constructor; [exact E|].
    eapply Forall_impl; [|exact HF]. cbv beta. intros x Hx. lra.
  - constructor; [exact IH|]. rewrite Forall_forall in *. intros x I. apply insert_in in I. destruct I as [->|I]; [|apply HF; exact I].
    apply qleb_false in E. lra.
Qed.
Lemma sorted_sorted key l : StronglySorted (fun x y => key x <= key y) (sorted_by key l).
Proof. induction l; cbn; [constructor|]. apply insert_sorted. assumption. Qed.

Lemma peq_dec a b : {peq a b} + {~ peq a b}.
Proof.
  destruct (Qeq_dec (fst a) (fst b)) as [A|A]; [|right; intros [H _]; contradiction].
  destruct (Qeq_dec (snd a) (snd b)) as [B|B]; [left; split; assumption|right; intros [_ H]; contradiction].
Qed.

Lemma fraction_degenerate a b t u p : peq a b -> at_fraction a b t p -> at_fraction a b u p.
Proof. intros [A B] [C D]. split; [rewrite C, <- A | rewrite D, <- B]; ring. Qed.

Lemma fraction_unique a b t u p : ~ peq a b -> at_fraction a b t p -> at_fraction a b u p -> t == u.
Proof.
  intros N [A B] [C D].
  destruct (Qeq_dec (fst b - fst a) 0) as [E1|E1].
  - destruct (Qeq_dec (snd b - snd a) 0) as [E2|E2]; [exfalso; apply N; split; lra|].
    assert (E : (t - u) * (snd b - snd a) == 0) by (rewrite B in D; lra).
    apply Qmult_integral in E. destruct E; [lra|contradiction].
  - assert (E : (t - u) * (fst b - fst a) == 0) by (rewrite A in C; lra).
    apply Qmult_integral in E. destruct E; [lra|contradiction].
Qed.

Lemma fraction_compose a b c d tc td v p :
  at_fraction a b tc c -> at_fraction a b td d -> at_fraction c d v p -> at_fraction a b (tc + v * (td - tc)) p.
Proof. intros [A B] [C D] [E F]. split; [rewrite E, A, C | rewrite F, B, D]; ring. Qed.

(** A reported point at or before, and one at or after every common point. *)
Definition brackets (a b : point) (ps : list point) (u : Q) : Prop :=
  (exists lo t, In lo ps /\ 0 <= t <= 1 /\ t <= u /\ at_fraction a b t lo) /\
  (exists hi t, In hi ps /\ 0 <= t <= 1 /\ u <= t /\ at_fraction a b t hi).

Lemma inter_points_ok g : (match g with GColl _ => False | _ => True end) ->
  exists ps, inter_points g = Ok ps /\ (forall p, In p ps -> denotes g p) /\
    (forall a b u p, 0 <= u <= 1 -> at_fraction a b u p -> denotes g p -> (forall q, denotes g q -> on_seg a b q) ->
       brackets a b ps u).
Proof.
  destruct g as [q|ps|gs]; intro F; [| |contradiction].
  - exists [q]. split; [reflexivity|]. split; [intros p [<-|[]]; constructor; apply peq_refl|].
    intros a b u p U PU D OS. inversion D as [? ? E| |]; subst.
    assert (PQ : at_fraction a b u q) by (eapply at_fraction_peq; eassumption).
    split; exists q, u; (split; [left; reflexivity|]); (split; [exact U|]); (split; [lra|exact PQ]).
  - destruct ps as [|c r].
    + exists []. split; [reflexivity|]. split; [intros p []|]. intros a b u p U PU D. inversion D.
    + exists [c; last r c]. split; [reflexivity|].
      assert (DC : denotes (GLine (c :: r)) c) by (constructor; exists 0; split; [lra|apply at_fraction_0]).
      assert (DD : denotes (GLine (c :: r)) (last r c)) by (constructor; exists 1; split; [lra|apply at_fraction_1]).
      split; [intros p [<-|[<-|[]]]; assumption|].
      intros a b u p U PU D OS. inversion D as [|? ? ? (v & V & PV)|]; subst.
      destruct (OS c DC) as (tc & TC & PC). destruct (OS _ DD) as (td & TD & PD).
      set (d := last r c) in *. clearbody d.
      destruct (peq_dec a b) as [E|N].
      * split; exists c, u; (split; [left; reflexivity|]); (split; [exact U|]); (split; [lra|]); eapply fraction_degenerate; eassumption.
      * assert (EU : u == tc + v * (td - tc)).
        { eapply fraction_unique; [exact N|exact PU|]. eapply fraction_compose; eassumption. }
        destruct (Qlt_le_dec td tc) as [L|L].
        -- split; [exists d, td|exists c, tc]; (split; [cbn; auto|]); (split; [assumption|]); (split; [nra|assumption]).
        -- split; [exists c, tc|exists d, td]; (split; [cbn; auto|]); (split; [assumption|]); (split; [nra|assumption]).
Qed.

Lemma brackets_incl a b ps qs u : (forall x, In x ps -> In x qs) -> brackets a b ps u -> brackets a b qs u.
Proof.
  intros H [(lo & t & A & B) (hi & t' & A' & B')]. split; [exists lo, t|exists hi, t']; (split; [auto|assumption]).
Qed.

(** All points reported for one edge. *)
Lemma reported_ok a b lines g : correct_intersection a b lines g ->
  exists pss, mapM inter_points (flatten_collection g) = Ok pss /\
    (forall p, In p (concat pss) -> on_seg a b p /\ exists l, In l lines /\ on_path (coords l) p) /\
    (forall u p, 0 <= u <= 1 -> at_fraction a b u p -> (exists l, In l lines /\ on_path (coords l) p) ->
       brackets a b (concat pss) u).
Proof.
  intros [FL HD].
  assert (FF : Forall (fun g' => (match g' with GColl _ => False | _ => True end) /\ forall p, denotes g' p -> denotes g p) (flatten_collection g)).
  { destruct g as [q|ps|gs]; cbn [flatten_collection].
    - constructor; [split; auto|constructor].
    - constructor; [split; auto|constructor].
    - cbn in FL. rewrite Forall_forall in *. intros g' I'. split; [apply FL; exact I'|]. intros p D. econstructor; eassumption. }
  assert (FD : forall p, denotes g p -> exists g', In g' (flatten_collection g) /\ denotes g' p).
  { intros p D. destruct g as [q|ps|gs]; cbn [flatten_collection]; [eexists; split; [left; reflexivity|exact D]..|].
    inversion D; subst. eauto. }
  assert (X : forall gs, Forall (fun g' => (match g' with GColl _ => False | _ => True end) /\ forall p, denotes g' p -> denotes g p) gs ->
     exists pss, mapM inter_points gs = Ok pss /\ (forall p, In p (concat pss) -> denotes g p) /\
       (forall u p g', In g' gs -> denotes g' p -> 0 <= u <= 1 -> at_fraction a b u p -> brackets a b (concat pss) u)).
  { induction gs as [|g' gs IH]; intro H.
    - exists []. split; [reflexivity|]. split; [intros p []|]. intros u p g' [].
    - assert (H1 := Forall_inv H). assert (H2 := Forall_inv_tail H). destruct H1 as [H1 H3].
      destruct (IH H2) as (pss & M & A & B). destruct (inter_points_ok g' H1) as (ps & M' & A' & B').
      exists (ps :: pss). split; [unfold mapM in *; cbn; rewrite M'; cbn; rewrite M; reflexivity|]. cbn [concat]. split.
      + intros p I'. apply in_app_or in I'. destruct I' as [I'|I']; [apply H3, A'; exact I'|apply A; exact I'].
      + intros u p g'' [<-|I'] D U PU.
        * apply brackets_incl with (ps := ps); [intros x Hx; apply in_or_app; left; exact Hx|].
          eapply B'; try eassumption. intros q DQ. apply HD. apply H3. exact DQ.
        * apply brackets_incl with (ps := concat pss); [intros x Hx; apply in_or_app; right; exact Hx|]. eapply B; eassumption. }
  destruct (X _ FF) as (pss & M & A & B). exists pss. split; [exact M|]. split.
  - intros p I'. apply HD. apply A. exact I'.
  - intros u p U PU EX. destruct (FD p) as (g' & I' & D'); [apply HD; split; [exists u; auto|exact EX]|].
    eapply B; eassumption.
Qed.

Lemma sqr_pos (x : Q) : ~ x == 0 -> 0 < x * x.
Proof. intro H. destruct (Qlt_le_dec x 0); [nra|]. destruct (Qle_lt_or_eq _ _ q); [nra|]. exfalso. apply H. symmetry. assumption. Qed.

(** Sorting by the distance to the start is sorting by the fraction. *)
Lemma fractions_exist a b : forall ps, Forall (on_seg a b) ps ->
  StronglySorted (fun x y => dist2 x a <= dist2 y a) ps ->
  exists it, map snd it = ps /\ listed a b it.
Proof.
  assert (D2 : forall t p, at_fraction a b t p -> dist2 p a == t * t * dist2 b a).
  { intros t p [A B]. unfold dist2. rewrite A, B. ring. }
  intros ps. destruct (peq_dec a b) as [E|N].
  - intros HF _. exists (map (fun p => (0, p)) ps). split; [rewrite map_map; apply map_id|]. split.
    + rewrite Forall_map. eapply Forall_impl; [|exact HF]. cbn [fst snd]. intros p (t & T & P). split; [lra|]. eapply fraction_degenerate; eassumption.
    + rewrite map_map. cbn [fst]. clear. induction ps; cbn; constructor; [assumption|]. rewrite Forall_map. apply Forall_forall. intros; lra.
  - assert (PD : 0 < dist2 b a).
    { unfold dist2. assert (S1 := sqr_nonneg (fst b - fst a)). assert (S2 := sqr_nonneg (snd b - snd a)).
      destruct (Qeq_dec (fst b) (fst a)) as [E1|E1].
      - assert (~ snd b - snd a == 0) by (intro E2; apply N; split; lra). assert (S3 := sqr_pos _ H). lra.
      - assert (~ fst b - fst a == 0) by (intro E2; apply E1; lra). assert (S3 := sqr_pos _ H). lra. }
    intros HF HS. induction HS as [|p ps HS IH HP].
    + exists []. split; [reflexivity|]. split; constructor.
    + assert (H1 := Forall_inv HF). destruct (IH (Forall_inv_tail HF)) as (it & E & L1 & L2). destruct H1 as (t & T & P).
      exists ((t, p) :: it). split; [cbn; rewrite E; reflexivity|]. split; [constructor; [split; assumption|exact L1]|].
      cbn [map fst]. constructor; [exact L2|]. rewrite Forall_map. rewrite Forall_forall in L1, HP |- *. intros [t' p'] I'.
      destruct (L1 _ I') as [T' P']. cbn [fst snd] in *.
      assert (I2 : In p' ps) by (rewrite <- E; apply (in_map snd) in I'; exact I').
      specialize (HP _ I2). cbv beta in HP. rewrite (D2 _ _ P), (D2 _ _ P') in HP.
      destruct (Qlt_le_dec t' t); [exfalso|assumption]. set (X := dist2 b a) in *. clearbody X.
      assert (S1 : t' * t' < t * t) by nra.
      assert (S2 : 0 < (t * t - t' * t') * X) by (apply Qmult_lt_0_compat; lra). lra.
Qed.

(** ** All edges *)

Definition edge_inters (isect : point -> point -> list linestring -> geom) (other : list linestring) (se : point * point) : res (list point) :=
  let (p_start, p_end) := se in
  do pts <- mapM inter_points (flatten_collection (isect p_start p_end other));
  Ok (sorted_by (fun p => dist2 p p_start) (concat pts)).

Definition edge_good (s : Z * Z) (a b : point) (it : list (Q * point)) : Prop :=
  listed a b it /\ Forall (fun tp => on_border s (snd tp)) it /\
  (~ peq a b -> forall u, 0 <= u <= 1 -> on_border s (point_at a b u) ->
     (exists tp, In tp it /\ fst tp <= u) /\ (exists tp, In tp it /\ u <= fst tp)).

Lemma edge_ok isect s a b : has_pixels s ->
  correct_intersection a b (image_edges s) (isect a b (image_edges s)) ->
  exists it, edge_inters isect (image_edges s) (a, b) = Ok (map snd it) /\ edge_good s a b it.
Proof.
  intros HP HC. destruct (reported_ok a b _ _ HC) as (pss & M & A & B).
  set (ps := sorted_by (fun p => dist2 p a) (concat pss)).
  destruct (fractions_exist a b ps) as (it & E & L).
  { apply Forall_forall. intros p I. apply sorted_in in I. apply A. exact I. }
  { apply sorted_sorted. }
  exists it. split; [unfold edge_inters; rewrite M; cbn [bind]; rewrite E; reflexivity|].
  split; [exact L|]. split.
  - apply Forall_forall. intros tp I. apply (edges_border s _ HP). apply A. apply (sorted_in (fun p => dist2 p a)).
    fold ps. rewrite <- E. apply in_map. exact I.
  - intros N u U BU. apply (edges_border s _ HP) in BU. destruct (B u _ U (at_point_at a b u) BU) as [(lo & t & I1 & T1 & L1 & P1) (hi & t' & I2 & T2 & L2 & P2)].
    assert (X : forall x, In x (concat pss) -> exists tp, In tp it /\ snd tp = x).
    { intros x I. apply (sorted_in (fun p => dist2 p a)) in I. fold ps in I. rewrite <- E in I. apply in_map_iff in I. destruct I as (tp & E1 & I). eauto. }
    destruct L as [L _]. rewrite Forall_forall in L.
    split.
    + destruct (X lo I1) as (tp & I & <-). exists tp. split; [exact I|]. destruct (L _ I) as [_ P].
      rewrite (fraction_unique a b _ _ _ N P P1). exact L1.
    + destruct (X hi I2) as (tp & I & <-). exists tp. split; [exact I|]. destruct (L _ I) as [_ P].
      rewrite (fraction_unique a b _ _ _ N P P2). exact L2.
Qed.

Fixpoint all_good (s : Z * Z) (cs : list point) (inters : list (list (Q * point))) : Prop :=
  match cs, inters with
  | a :: ((b :: _) as cs'), it :: inters' => edge_good s a b it /\ all_good s cs' inters'
  | _ :: _ :: _, [] => False
  | _, [] => True
  | _, _ :: _ => False
  end.

Lemma find_unfold isect l other :
  find_intersections_with isect l other = mapM (edge_inters isect other) (segments (coords l)).
Proof. reflexivity. Qed.

Lemma find_ok isect s : forall cs lab, has_pixels s -> shapely_ok isect cs s ->
  exists inters, find_intersections_with isect (mkLine cs lab) (image_edges s) = Ok (map (map snd) inters) /\ all_good s cs inters.
Proof.
  intros cs lab HP. rewrite find_unfold. cbn [coords]. clear lab. induction cs as [|a cs IH]; intro HS.
  - exists []. split; [reflexivity|exact I].
  - destruct cs as [|b r]; [exists []; split; [reflexivity|exact I]|].
    destruct IH as (inters & M & G).
    { intros i x y Hx Hy. apply (HS (S i)); assumption. }
    destruct (edge_ok isect s a b HP) as (it & E & GE).
    { apply (HS 0%nat); reflexivity. }
    exists (it :: inters). split; [|split; assumption].
    change (segments (a :: b :: r)) with ((a, b) :: segments (b :: r)). unfold mapM in *. cbn [map sequence]. rewrite E. cbn [bind]. rewrite M. reflexivity.
Qed.

Lemma good_length s : forall cs inters, all_good s cs inters -> length inters = pred (length cs).
Proof.
  induction cs as [|a cs IH]; intros inters G; [destruct inters; [reflexivity|contradiction]|].
  destruct cs as [|b r]; [destruct inters; [reflexivity|contradiction]|].
  destruct inters as [|it inters]; [contradiction|]. destruct G as [_ G]. apply IH in G. cbn [length pred] in *. lia.
Qed.

Lemma good_listed s : forall cs inters, all_good s cs inters -> all_listed cs inters.
Proof.
  induction cs as [|a cs IH]; intros inters G; [exact I|]. destruct cs as [|b r]; [exact I|].
  destruct inters as [|it inters]; [contradiction|]. destruct G as [[G1 _] G]. split; [exact G1|]. apply IH. exact G.
Qed.

Lemma good_nth s : forall k cs inters a b it, all_good s cs inters ->
  nth_error cs k = Some a -> nth_error cs (S k) = Some b -> nth_error inters k = Some it -> edge_good s a b it.
Proof.
  induction k as [|k IH]; intros cs inters a b it G Ha Hb Hi;
    destruct cs as [|a0 [|b0 r]]; try discriminate; destruct inters as [|it0 inters]; try discriminate; destruct G as [G1 G2].
  - injection Ha as ->. injection Hb as ->. injection Hi as ->. exact G1.
  - eapply IH; eassumption.
Qed.

Lemma inside_iff s p : inside_point s p = true <-> in_image s p.
Proof.
  destruct s as [h w], p as [x y]. unfold inside_point, in_image. cbn [fst snd].
  rewrite !andb_true_iff, !qleb_iff, !qltb_iff. tauto.
Qed.

Definition aclip (s : Z * Z) (cs : list point) (inters : list (list (Q * point))) : list (list apt) :=
  asplit (acollect 0 cs (map (fun p => negb (inside_point s p)) cs) inters) [].

(** The function, if not all points are inside. *)
Lemma clip_unfold isect s cs lab inters :
  (2 <= length cs)%nat -> forallb (inside_point s) cs = false ->
  find_intersections_with isect (mkLine cs lab) (image_edges s) = Ok (map (map snd) inters) ->
  all_good s cs inters ->
  clip_out_of_image isect (mkLine cs lab) s = Ok (map (fun c => mkLine c lab) (map (map snd) (aclip s cs inters))).
Proof.
  intros H2 HF HI G. unfold clip_out_of_image. cbn [coords].
  assert (W := wf_acollect cs (map (fun p => negb (inside_point s p)) cs) 0 (0%nat, 0) inters (or_introl (conj eq_refl (Qle_refl 0))) (good_listed _ _ _ G)).
  assert (E : forallb (fun b => b) (inside_image_mask s (mkLine cs lab)) = false).
  { unfold inside_image_mask. cbn [coords]. rewrite <- HF. clear. induction cs; cbn; [reflexivity|]. rewrite IHcs. reflexivity. }
  rewrite E, HI. cbn [bind ls_label].
  replace (map negb (inside_image_mask s (mkLine cs lab))) with (map (fun p => negb (inside_point s p)) cs)
    by (unfold inside_image_mask; cbn [coords]; rewrite map_map; reflexivity).
  rewrite <- (acollect_erase cs 0). change (@nil point) with (map (@snd position point) []).
  rewrite <- asplit_erase.
  change (asplit (acollect 0 cs (map (fun p => negb (inside_point s p)) cs) inters) []) with (aclip s cs inters).
  assert (N : Forall (fun part => part <> [] /\ chained along_edge (map fst part)) (aclip s cs inters))
    by exact (asplit_chained _ _ [] W (chained_nil _) I).
  assert (EF : filter (fun line : list point => negb (Nat.eqb (length line) 0)) (map (map snd) (aclip s cs inters)) = map (map snd) (aclip s cs inters)).
  { revert N. generalize (aclip s cs inters). intros parts0 N. induction N as [|part parts [N1 _] N IHN]; [reflexivity|]. cbn [map filter]. rewrite IHN.
    destruct part; [contradiction N1; reflexivity|reflexivity]. }
  rewrite EF. destruct cs as [|a [|b r]]; [cbn in H2; lia..|reflexivity].
Qed.

(** ** The results *)

Section Results.
Variables (s : Z * Z) (cs : list point) (inters : list (list (Q * point))).
Hypothesis HP : has_pixels s.
Hypothesis G : all_good s cs inters.
Notation ooi := (map (fun p => negb (inside_point s p)) cs).

Lemma clip_wf : wf (0%nat, 0) (acollect 0 cs ooi inters).
Proof. apply wf_acollect; [left; split; [reflexivity|apply Qle_refl]|eapply good_listed; exact G]. Qed.

Lemma clip_placed : Forall (placed cs) (acollect 0 cs ooi inters).
Proof. apply placed_acollect; [reflexivity|eapply good_listed; exact G]. Qed.

Lemma clip_subsequence : subsequence (concat (aclip s cs inters)) (map kept (filter (fun e => negb (is_ooi e)) (acollect 0 cs ooi inters))).
Proof. exact (asplit_subsequence _ []). Qed.

(** Every element that is not marked lies in the image. *)
Lemma acollect_inside : forall cs' i inters', all_good s cs' inters' ->
  Forall (fun e => is_ooi e = false -> in_image s (fst (fst (snd e)))) (acollect i cs' (map (fun p => negb (inside_point s p)) cs') inters').
Proof.
  induction cs' as [|a cs' IH]; intros i inters' G'; [constructor|]. destruct cs' as [|b r]; [constructor|].
  destruct inters' as [|it inters']; [contradiction|]. destruct G' as [(_ & GB & _) G'].
  cbn [map]. rewrite acollect_eq. constructor; [|apply Forall_app; split; [|apply Forall_app; split]].
  - cbn. intro H. apply negb_false_iff in H. apply inside_iff. exact H.
  - rewrite Forall_map. eapply Forall_impl; [|exact GB]. cbn. intros tp [H _] _. apply core_in_image. exact H.
  - destruct (_ && negb (negb (inside_point s b))) eqn:E; constructor; [|constructor]. cbn. intros _.
    apply andb_true_iff in E. destruct E as [_ E]. rewrite negb_involutive in E. apply inside_iff. exact E.
  - apply IH. exact G'.
Qed.

Lemma clip_inside : Forall (Forall (in_image s)) (map (map snd) (aclip s cs inters)).
Proof.
  assert (X : Forall (in_image s) (map snd (concat (aclip s cs inters)))).
  { eapply subsequence_forall; [apply subsequence_map; apply clip_subsequence|].
    rewrite map_map. rewrite Forall_map. assert (A := acollect_inside cs 0 inters G). rewrite Forall_forall in *.
    intros e I. apply filter_In in I. destruct I as [I N]. apply negb_true_iff in N. exact (A e I N). }
  rewrite Forall_forall in *. intros part I. apply Forall_forall. intros p Ip. apply X. rewrite concat_map.
  apply in_concat. exists part. split; assumption.
Qed.

Lemma clip_nonempty : Forall (fun part => part <> []) (map (map snd) (aclip s cs inters)).
Proof.
  assert (N := asplit_chained _ _ [] clip_wf (chained_nil _) I). rewrite Forall_map. eapply Forall_impl; [|exact N].
  intros part [H _]. destruct part; [contradiction H; reflexivity|discriminate].
Qed.

Lemma clip_pieces : pieces_of cs (map (map snd) (aclip s cs inters)).
Proof.
  assert (N : Forall (fun part => part <> [] /\ chained along_edge (map fst part)) (aclip s cs inters))
    by exact (asplit_chained _ _ [] clip_wf (chained_nil _) I).
  assert (SUB := clip_subsequence).
  assert (PL : Forall (aplaced cs) (concat (aclip s cs inters))).
  { eapply subsequence_forall; [exact SUB|]. rewrite Forall_map. assert (P := clip_placed). rewrite Forall_forall in *.
    intros e I. apply filter_In in I. destruct I as [I _]. exact (P e I). }
  exists (map (map fst) (aclip s cs inters)). split; [|split].
  - assert (PL' : Forall (Forall (aplaced cs)) (aclip s cs inters)).
    { rewrite Forall_forall in *. intros part I. apply Forall_forall. intros x Ix. apply PL. apply in_concat. eauto. }
    clear -PL'. induction PL' as [|part parts H _ IH]; cbn; constructor; [|exact IH].
    clear -H. induction H as [|x l H _ IH]; cbn; constructor; [exact H|exact IH].
  - rewrite Forall_map. eapply Forall_impl; [|exact N]. intros part [_ H]. exact H.
  - rewrite <- concat_map. eapply subsequence_sorted; [apply subsequence_map; exact SUB|].
    assert (W := proj1 (wf_sorted _ _ clip_wf)). eapply subsequence_sorted; [|exact W].
    rewrite map_map. cbn [kept fst]. clear. induction (acollect 0 cs ooi inters) as [|e l IH]; cbn; [constructor|].
    destruct (negb (is_ooi e)); cbn; constructor; exact IH.
Qed.

(** The points inside of the image are kept. *)
Lemma acollect_points : forall cs' i inters', all_good s cs' inters' -> (2 <= length cs')%nat ->
  filter (inside_point s) cs'
  = map snd (map kept (filter (fun e => negb (is_added e) && negb (is_ooi e)) (acollect i cs' (map (fun p => negb (inside_point s p)) cs') inters'))).
Proof.
  induction cs' as [|a cs' IH]; intros i inters' G' L; [cbn in L; lia|]. destruct cs' as [|b r]; [cbn in L; lia|].
  destruct inters' as [|it inters']; [contradiction|]. destruct G' as [_ G'].
  cbn [map]. rewrite acollect_eq. cbn [filter]. rewrite filter_app, filter_app.
  assert (E0 : filter (fun e => negb (is_added e) && negb (is_ooi e)) (map (mid i) it) = []).
  { clear. induction it; cbn; [reflexivity|assumption]. }
  rewrite E0. cbn [app is_added is_ooi fst snd negb andb]. rewrite negb_involutive.
  assert (R : (if inside_point s b then b :: filter (inside_point s) r else filter (inside_point s) r)
     = map snd (map kept (filter (fun e => negb (is_added e) && negb (is_ooi e))
           (if match r with [] => true | _ => false end && negb (negb (inside_point s b))
            then [(i, 1, (b, false, negb (inside_point s b)))] else []) ++
         filter (fun e => negb (is_added e) && negb (is_ooi e)) (acollect (S i) (b :: r) (negb (inside_point s b) :: map (fun p => negb (inside_point s p)) r) inters')))).
  { destruct r as [|c r].
    - cbn [andb]. rewrite negb_involutive. destruct (inside_point s b) eqn:E; reflexivity.
    - cbn [andb filter app]. exact (IH (S i) inters' G' ltac:(cbn; lia)). }
  destruct (inside_point s a); cbn [map]; [f_equal; exact R|exact R].
Qed.

Lemma clip_keeps : (2 <= length cs)%nat ->
  subsequence (filter (inside_point s) cs) (concat (map (map snd) (aclip s cs inters))).
Proof.
  intro L. rewrite (acollect_points cs 0 inters G L), <- concat_map. apply subsequence_map.
  exact (asplit_keeps _ []).
Qed.

(** Neighbours in a sorted list around a value. *)
Lemma around {A} (f : A -> Q) t : forall l, StronglySorted (fun x y => f x <= f y) l ->
  (exists lo, In lo l /\ f lo <= t) -> (exists hi, In hi l /\ t <= f hi) ->
  (exists pre x post, l = pre ++ x :: post /\ f x == t) \/
  (exists pre x y post, l = pre ++ x :: y :: post /\ f x <= t /\ t <= f y).
Proof.
  induction l as [|x l IH]; intros HS (lo & I1 & L1) (hi & I2 & L2); [contradiction|].
  inversion HS as [|? ? HS1 HS2]; subst. rewrite Forall_forall in HS2.
  assert (Lx : f x <= t) by (destruct I1 as [->|I1]; [exact L1|specialize (HS2 _ I1); lra]).
  destruct l as [|y l].
  - left. destruct I2 as [->|[]]. exists [], hi, []. split; [reflexivity|lra].
  - destruct (Qlt_le_dec (f y) t) as [L|L].
    + destruct (IH HS1) as [(pre & z & post & E & H)|(pre & z1 & z2 & post & E & H)].
      * exists y. split; [left; reflexivity|lra].
      * exists hi. split; [|exact L2]. destruct I2 as [->|I2]; [|exact I2]. exfalso. specialize (HS2 y (or_introl eq_refl)). lra.
      * left. exists (x :: pre), z, post. split; [rewrite E; reflexivity|exact H].
      * right. exists (x :: pre), z1, z2, post. split; [rewrite E; reflexivity|exact H].
    + right. exists [], x, y, l. split; [reflexivity|]. split; assumption.
Qed.

Lemma lead_app l rest : (lead (l ++ rest) <= length l + lead rest)%nat.
Proof. induction l as [|[q [[c w] o]] l IH]; cbn [app lead length]; [lia|]. destruct w; cbn [lead]; lia. Qed.

Lemma frac_mid k tp : frac k (fst (mid k tp)) = fst tp.
Proof. unfold frac, mid. cbn. rewrite Nat.eqb_refl. reflexivity. Qed.

Lemma clip_covers n : (1 <= n)%nat -> Forall (fun it => (length it <= n)%nat) inters ->
  forall k a b t p, nth_error cs k = Some a -> nth_error cs (S k) = Some b ->
    0 <= t <= 1 -> at_fraction a b t p -> in_core s p ->
    near (hundredths n) (aclip s cs inters) p.
Proof.
  intros Hn HL k a b t p Ha Hb T PT CP.
  assert (LC := good_length _ _ _ G).
  assert (Lk : (S k < length cs)%nat) by (apply nth_error_Some; congruence).
  destruct (nth_error inters k) as [it|] eqn:Hi; [|apply nth_error_None in Hi; lia].
  assert (GE := good_nth s k cs inters a b it G Ha Hb Hi).
  assert (Ln : (length it <= n)%nat) by (rewrite Forall_forall in HL; apply HL; eapply nth_error_In; exact Hi).
  set (o := negb (inside_point s a)). set (o' := negb (inside_point s b)).
  destruct (acollect_edge k cs ooi 0 inters a b o o' it) as (pre & post & E & LP & EP); try assumption.
  { rewrite nth_error_map, Ha. reflexivity. } { rewrite nth_error_map, Hb. reflexivity. } { rewrite map_length. reflexivity. }
  cbn [Nat.add] in E, EP.
  set (mids := map (mid k) it) in *.
  (* the elements of this edge that are not marked *)
  destruct GE as ([LF LS] & GB & GX).
  set (first := if o then [] else [((k, 0), (a, false, false))] : list atag).
  assert (RUN : exists pre1 final post1, acollect 0 cs ooi inters = pre1 ++ (first ++ mids ++ final) ++ post1 /\
     (lead (final ++ post1) = 0)%nat /\
     Forall (fun e => is_ooi e = false /\ frac k (fst e) == 1) final /\ (o' = false -> final <> []) /\
     Forall (fun e => is_added e = false) final /\ (length final <= 1)%nat /\ Forall (fun e => along_edge (k, 0) (fst e)) final).
  { unfold first. destruct o eqn:Eo.
    - destruct o' eqn:Eo'.
      + exists (pre ++ [((k, 0), (a, false, true))]), [], post. split; [rewrite E, app_nil_r, <- !app_assoc; reflexivity|].
        split; [exact LP|]. split; [constructor|]. split; [discriminate|]. split; [constructor|]. split; [cbn; lia|constructor].
      + destruct (EP eq_refl) as (q & post' & -> & Q1 & Q2).
        exists (pre ++ [((k, 0), (a, false, true))]), [(q, (b, false, false))], post'.
        split; [rewrite E, <- !app_assoc; reflexivity|]. split; [exact LP|]. split; [repeat constructor; exact Q1|]. split; [discriminate|]. split; [repeat constructor|]. split; [cbn; lia|constructor; [exact Q2|constructor]].
    - destruct o' eqn:Eo'.
      + exists pre, [], post. split; [rewrite E, app_nil_r; reflexivity|].
        split; [exact LP|]. split; [constructor|]. split; [discriminate|]. split; [constructor|]. split; [cbn; lia|constructor].
      + destruct (EP eq_refl) as (q & post' & -> & Q1 & Q2).
        exists pre, [(q, (b, false, false))], post'.
        split; [rewrite E, <- !app_assoc; reflexivity|]. split; [exact LP|]. split; [repeat constructor; exact Q1|]. split; [discriminate|]. split; [repeat constructor|]. split; [cbn; lia|constructor; [exact Q2|constructor]]. }
  destruct RUN as (pre1 & final & post1 & ER & LR & FF & FN & FA & FL & FP).
  set (run := first ++ mids ++ final) in *.
  assert (MF : Forall (fun e => is_ooi e = false /\ fst (fst e) = k /\ 0 <= snd (fst e) <= 1) mids).
  { unfold mids. rewrite Forall_map. eapply Forall_impl; [|exact LF]. cbn. intros tp [H _]. auto. }
  assert (FI : Forall (fun e => is_ooi e = false /\ fst (fst e) = k /\ 0 <= snd (fst e) <= 1) first).
  { unfold first. destruct o; repeat constructor; cbn; try reflexivity; try lra. }
  assert (RO : Forall (fun e => is_ooi e = false) run).
  { unfold run. apply Forall_app; split; [|apply Forall_app; split].
    - eapply Forall_impl; [|exact FI]. tauto.
    - eapply Forall_impl; [|exact MF]. tauto.
    - eapply Forall_impl; [|exact FF]. tauto. }
  assert (RS : StronglySorted (fun x y => frac k (fst x) <= frac k (fst y)) run).
  { assert (MS : StronglySorted (fun x y : atag => frac k (fst x) <= frac k (fst y)) (mids ++ final)).
    { unfold mids. clear - LF LS FF. induction it as [|[t1 p1] it IH]; cbn [map app].
      - clear -FF. induction FF as [|e l [H1 H2] F IH]; constructor; [exact IH|]. eapply Forall_impl; [|exact F]. cbv beta. intros e' [_ H3]. rewrite H2, H3. lra.
      - cbn [map fst] in LS. inversion LS as [|? ? LS1 LS2]; subst. inversion LF as [|? ? [LF0 _] LF1]; subst. cbn [fst] in LF0.
        constructor; [apply IH; assumption|]. rewrite frac_mid. cbn [fst].
        apply Forall_app; split.
        + rewrite Forall_map. rewrite Forall_map in LS2. eapply Forall_impl; [|exact LS2]. cbv beta. intros tp H. rewrite frac_mid. exact H.
        + eapply Forall_impl; [|exact FF]. cbv beta. intros e [_ H]. rewrite H. lra. }
    unfold run, first. destruct o; [exact MS|]. cbn [app]. constructor; [exact MS|].
    cbn [fst]. unfold frac at 1. cbn [fst snd]. rewrite Nat.eqb_refl. apply Forall_app; split.
    - eapply Forall_impl; [|exact MF]. cbv beta. intros e (_ & H1 & H2). rewrite (frac_same k (fst e) H1). lra.
    - eapply Forall_impl; [|exact FF]. cbv beta. intros e [_ H]. rewrite H. lra. }
  assert (IM : forall tp, In tp it -> In (mid k tp) mids).
  { intros tp I. unfold mids. apply in_map_iff. exists tp. auto. }
  assert (LO : exists lo, In lo run /\ frac k (fst lo) <= t).
  { destruct (inside_point s a) eqn:Ia.
    - exists ((k, 0), (a, false, false)). split; [unfold run, first, o; left; reflexivity|]. unfold frac. cbn. rewrite Nat.eqb_refl. lra.
    - assert (NA : ~ in_core s a) by (intro H; apply core_in_image, inside_iff in H; congruence).
      assert (NP : ~ peq a b).
      { intro H. apply NA. eapply in_core_peq; [|exact CP]. destruct H as [H1 H2]. destruct PT as [P1 P2].
        split; [rewrite P1, <- H1 | rewrite P2, <- H2]; ring. }
      destruct (cross_before s a b t p NA CP (proj1 T) PT) as (u & U & B).
      destruct (GX NP u) as [(tp & I & L) _]; [lra|exact B|].
      exists (mid k tp). split; [unfold run; apply in_or_app; right; apply in_or_app; left; apply IM; exact I|].
      rewrite frac_mid. lra. }
  assert (HI : exists hi, In hi run /\ t <= frac k (fst hi)).
  { destruct (inside_point s b) eqn:Ib.
    - destruct final as [|f final]; [exfalso; apply FN; [reflexivity|reflexivity]|].
      exists f. split; [unfold run; apply in_or_app; right; apply in_or_app; right; left; reflexivity|].
      destruct (Forall_inv FF) as [_ H]. rewrite H. lra.
    - assert (NB : ~ in_core s b) by (intro H; apply core_in_image, inside_iff in H; congruence).
      assert (NP : ~ peq a b).
      { intro H. apply NB. eapply in_core_peq; [|exact CP]. destruct H as [H1 H2]. destruct PT as [P1 P2].
        split; [rewrite P1, <- H1 | rewrite P2, <- H2]; ring. }
      destruct (cross_after s a b t p NB CP (proj2 T) PT) as (u & U & B).
      destruct (GX NP u) as [_ (tp & I & L)]; [lra|exact B|].
      exists (mid k tp). split; [unfold run; apply in_or_app; right; apply in_or_app; left; apply IM; exact I|].
      rewrite frac_mid. lra. }
  assert (LEAD : forall u x v, run = u ++ x :: v -> (lead (x :: v ++ post1) <= n)%nat).
  { intros u x v EV.
    assert (LM : forall u x v, mids ++ final = u ++ x :: v -> (lead (x :: v ++ post1) <= n)%nat).
    { clear - LR Ln FA. intros u x v EV. symmetry in EV. apply app_eq_app in EV. destruct EV as (w & [[E1 E2]|[E1 E2]]).
      - assert (I : In x final) by (rewrite E2; apply in_or_app; right; left; reflexivity).
        rewrite Forall_forall in FA. specialize (FA x I). destruct x as [q [[c w0] o0]]. unfold is_added in FA. cbn in FA. subst w0. cbn. lia.
      - change (x :: v ++ post1) with ((x :: v) ++ post1). rewrite E2, <- app_assoc. assert (H := lead_app w (final ++ post1)).
        rewrite LR in H. assert (length mids = length u + length w)%nat by (rewrite E1, app_length; reflexivity).
        unfold mids in H0. rewrite map_length in H0. lia. }
    unfold run in EV. unfold first in EV. destruct o; cbn [app] in EV; [eapply LM; exact EV|].
    destruct u as [|u0 u]; [injection EV as <- EV|injection EV as _ EV; eapply LM; exact EV]. cbn. lia. }
  assert (F1 : (length final <= 1)%nat) by exact FL.
  assert (PL := clip_placed). assert (W := clip_wf).
  assert (PF : forall x, In x (acollect 0 cs ooi inters) -> In x run -> at_fraction a b (frac k (fst x)) (fst (fst (snd x)))).
  { intros x I1 I2. rewrite Forall_forall in PL. specialize (PL x I1).
    assert (X : fst (fst x) = k \/ exists q0, fst q0 = k /\ along_edge q0 (fst x)).
    { unfold run in I2. apply in_app_or in I2. rewrite Forall_forall in FI, MF, FP.
      destruct I2 as [I2|I2]; [left; apply (FI _ I2)|]. apply in_app_or in I2. destruct I2 as [I2|I2]; [left; apply (MF _ I2)|].
      right. exists (k, 0). split; [reflexivity|]. apply (FP _ I2). }
    destruct X as [X|(q0 & X1 & X2)].
    - apply (placed_frac cs k a b (fst x)); try assumption. left. split; [reflexivity|lra].
    - apply (placed_frac cs k a b q0); assumption. }
  unfold aclip. rewrite ER in PL, W |- *.
  destruct (around (fun e : atag => frac k (fst e)) t run RS LO HI) as [(u & x & v & EV & EX)|(u & x & y & v & EV & EX & EY)].
  - assert (XO : is_ooi x = false) by (rewrite Forall_forall in RO; apply RO; rewrite EV; apply in_or_app; right; left; reflexivity).
    rewrite EV in PL, W |- *. rewrite <- !app_assoc in PL, W |- *. cbn [app] in PL, W |- *. rewrite app_assoc in PL, W |- *.
    assert (PL1 := PL). apply Forall_app in PL1. destruct PL1 as [PL1 PL2].
    destruct (asplit_prefix cs (pre1 ++ u) [] (0%nat, 0) (x :: v ++ post1) W I (Forall_nil _) PL1) as (done & line' & prev' & E1 & W1 & L1 & P1).
    rewrite E1. apply near_app_r.
    assert (PX := Forall_inv PL2).
    assert (IX : In x (acollect 0 cs ooi inters)) by (rewrite ER, EV; apply in_or_app; right; apply in_or_app; left; apply in_or_app; right; left; reflexivity).
    apply cover_at with (cs := cs) (prev := prev'); try assumption.
    + eapply at_fraction_det; [exact PT|]. eapply at_fraction_eq; [exact EX|]. apply PF. exact IX.
      rewrite EV. apply in_or_app; right; left; reflexivity.
    + eapply LEAD. exact EV.
  - assert (XO : is_ooi x = false) by (rewrite Forall_forall in RO; apply RO; rewrite EV; apply in_or_app; right; left; reflexivity).
    assert (YO : is_ooi y = false) by (rewrite Forall_forall in RO; apply RO; rewrite EV; apply in_or_app; right; right; left; reflexivity).
    assert (LD := LEAD _ _ _ EV).
    assert (KX : fst (fst x) = k).
    { assert (IX : In x (first ++ mids)).
      { unfold run in EV. rewrite app_assoc in EV. symmetry in EV. apply app_eq_app in EV.
        destruct EV as (w & [[E1 E2]|[E1 E2]]).
        - exfalso. rewrite E2 in F1. rewrite app_length in F1. cbn in F1. lia.
        - destruct w as [|w0 w]; [cbn in E2; exfalso; rewrite <- E2 in F1; cbn in F1; lia|].
          injection E2 as <- _. rewrite E1. apply in_or_app; right; left; reflexivity. }
      apply in_app_or in IX. rewrite Forall_forall in FI, MF. destruct IX as [IX|IX]; [apply (FI _ IX)|apply (MF _ IX)]. }
    rewrite EV in PL, W |- *. rewrite <- !app_assoc in PL, W |- *. cbn [app] in PL, W |- *. rewrite app_assoc in PL, W |- *.
    assert (PL1 := PL). apply Forall_app in PL1. destruct PL1 as [PL1 PL2].
    destruct (asplit_prefix cs (pre1 ++ u) [] (0%nat, 0) (x :: y :: v ++ post1) W I (Forall_nil _) PL1) as (done & line' & prev' & E1 & W1 & L1 & P1).
    rewrite E1. apply near_app_r.
    apply cover_two with (cs := cs) (prev := prev') (i := k) (a := a) (b := b) (t := t); try assumption.
    rewrite (frac_same k _ KX) in EX. exact EX.
Qed.

(** An edge between two points inside is kept as it is. *)
Lemma clip_exact : forall k a b t p, nth_error cs k = Some a -> nth_error cs (S k) = Some b ->
    in_image s a -> in_image s b -> 0 <= t <= 1 -> at_fraction a b t p ->
    exists part, In part (map (map snd) (aclip s cs inters)) /\ on_path part p.
Proof.
  intros k a b t p Ha Hb IA IB T PT.
  apply inside_iff in IA. apply inside_iff in IB.
  assert (LC := good_length _ _ _ G).
  assert (Lk : (S k < length cs)%nat) by (apply nth_error_Some; congruence).
  destruct (nth_error inters k) as [it|] eqn:Hi; [|apply nth_error_None in Hi; lia].
  assert (GE := good_nth s k cs inters a b it G Ha Hb Hi).
  destruct (acollect_edge k cs ooi 0 inters a b false false it) as (pre & post & E & LP & EP); try assumption.
  { rewrite nth_error_map, Ha. cbn. rewrite IA. reflexivity. } { rewrite nth_error_map, Hb. cbn. rewrite IB. reflexivity. } { rewrite map_length. reflexivity. }
  cbn [Nat.add] in E, EP. destruct (EP eq_refl) as (q & post' & EQ & Q1 & _). subst post.
  assert (PL := clip_placed). assert (W := clip_wf). unfold aclip. rewrite E in PL, W |- *.
  assert (PL1 := PL). apply Forall_app in PL1. destruct PL1 as [PL1 PL2].
  destruct (asplit_prefix cs pre [] (0%nat, 0) _ W I (Forall_nil _) PL1) as (done & line' & prev' & E1 & W1 & L1 & P1).
  rewrite E1. rewrite asplit_in. cbn [negb].
  destruct (cover_exact cs (map (mid k) it) (line' ++ [((k, 0), a)]) ((k, 0), a) (q, (b, false, false)) post' k a b t p) as (part & I1 & I2);
    try assumption; try reflexivity.
  - destruct W1 as (_ & _ & W1). exact W1.
  - apply alast_app.
  - exact (Forall_inv PL2).
  - exact (Forall_inv_tail PL2).
  - rewrite Forall_map. apply Forall_forall. intros tp _. split; reflexivity.
  - cbn. lra.
  - cbn [fst]. rewrite Q1. lra.
  - exists (map snd part). split; [|exact I2]. rewrite map_app. apply in_or_app; right. apply in_map. exact I1.
Qed.
End Results.
