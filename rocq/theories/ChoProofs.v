(** Proofs about Choice over parameters. *)
From Coq Require Import List String Lia Bool Arith.
From Verif Require Import Prelude ChoModel ChoSpec.
From Verif Require RszProofs.
Import ListNotations.
Open Scope nat_scope.

Section Choice.
Variables V P R : Type.
Variable key : P -> string.
Variable draw : P -> nat -> R -> list V * R.
Variable choose : nat -> nat -> R -> list nat * R.
Hypothesis DE : draws_enough draw.
Hypothesis CH : chooses choose.
Local Notation elt := (elt V P).

Lemma counter_uses : forall l k, counter V P key l k = uses key k l.
Proof.
  induction l as [|[v|p] l IH]; intros k; [reflexivity|apply IH|]. unfold counter in *. cbn [filter has_key uses]. destruct (String.eqb (key p) k); cbn [length]; rewrite IH; reflexivity.
Qed.
(** The samples in the dictionary come from parameters of the list. *)
Definition good (samples a : list elt) (d : dict V) : Prop :=
  forall k vs, d k = Some vs -> exists q r r', In (Par q) a /\ key q = k /\ draw q (uses key k samples) r = (vs, r').
Lemma draw_all_ok : forall samples a0 a d r, (forall e, In e a -> In e a0) -> good samples a0 d ->
  good samples a0 (fst (draw_all V P R key draw samples a d r)) /\
  (forall k, d k <> None -> fst (draw_all V P R key draw samples a d r) k <> None) /\
  (forall p, In (Par p) a -> 0 < uses key (key p) samples -> fst (draw_all V P R key draw samples a d r) (key p) <> None).
Proof.
  intros samples a0. induction a as [|[v|p] a IH]; intros d r S G.
  - cbn. split; [exact G|]. split; [auto|]. intros p [].
  - cbn [draw_all]. destruct (IH d r (fun e H => S e (or_intror H)) G) as (A & B & C). split; [exact A|]. split; [exact B|]. intros p [H|H]; [discriminate H|auto].
  - cbn [draw_all]. destruct (counter V P key samples (key p)) as [|n] eqn:E.
    + destruct (IH d r (fun e H => S e (or_intror H)) G) as (A & B & C). split; [exact A|]. split; [exact B|]. intros q [H|H] U; [injection H as <-; rewrite counter_uses in E; lia|auto].
    + destruct (draw p (Datatypes.S n) r) as [vs r1] eqn:D. set (d1 := fun k => if String.eqb k (key p) then Some vs else d k).
      assert (G1 : good samples a0 d1).
      { intros k ws K. unfold d1 in K. destruct (String.eqb_spec k (key p)) as [->|_]; [|exact (G k ws K)]. injection K as <-.
        exists p, r, r1. split; [apply S; left; reflexivity|]. split; [reflexivity|]. rewrite <- counter_uses, E. exact D. }
      destruct (IH d1 r1 (fun e H => S e (or_intror H)) G1) as (A & B & C). split; [exact A|]. split.
      * intros k K. apply B. unfold d1. destruct (String.eqb k (key p)); [discriminate|exact K].
      * intros q [H|H] U; [injection H as <-; apply B; unfold d1; rewrite String.eqb_refl; discriminate|auto].
Qed.
Lemma assign_ok : forall (d : dict V) samples read, (forall k, 0 < uses key k samples -> exists vs, d k = Some vs /\ read k + uses key k samples <= length vs) ->
  exists out, assign V P key samples d read = Ok out /\ length out = length samples /\
  forall i e, nth_error samples i = Some e -> match e with
    | Num v => nth_error out i = Some v
    | Par p => exists vs v, d (key p) = Some vs /\ nth_error out i = Some v /\ nth_error vs (read (key p) + uses key (key p) (firstn i samples)) = Some v
    end.
Proof.
  intros d. induction samples as [|[v|p] samples IH]; intros read H.
  - exists []. split; [reflexivity|]. split; [reflexivity|]. intros [|i] e E; discriminate E.
  - destruct (IH read H) as (out & E & L & N). exists (v :: out). cbn [assign]. rewrite E. split; [reflexivity|]. split; [cbn; lia|].
    intros [|i] e K; [injection K as <-; reflexivity|]. exact (N i e K).
  - cbn [assign]. destruct (H (key p)) as (vs & D & B); [cbn [uses]; rewrite String.eqb_refl; lia|]. rewrite D. cbn [uses] in B. rewrite String.eqb_refl in B.
    destruct (nth_error vs (read (key p))) as [v|] eqn:E; [|apply nth_error_None in E; lia].
    set (read1 := fun k => if String.eqb k (key p) then S (read k) else read k).
    destruct (IH read1) as (out & EO & L & N).
    { intros k U. destruct (H k) as (ws & DK & BK); [cbn [uses]; lia|]. exists ws. split; [exact DK|]. cbn [uses] in BK. unfold read1.
      rewrite (String.eqb_sym k (key p)). destruct (String.eqb (key p) k); lia. }
    rewrite EO. exists (v :: out). split; [reflexivity|]. split; [cbn; lia|]. intros [|i] e K.
    + injection K as <-. exists vs, v. split; [exact D|]. split; [reflexivity|]. cbn [firstn uses]. rewrite Nat.add_0_r. exact E.
    + cbn [nth_error] in K. specialize (N i e K). destruct e as [w|q]; [exact N|]. destruct N as (ws & w & DW & NO & NW). exists ws, w. split; [exact DW|]. split; [exact NO|].
      cbn [firstn uses]. unfold read1 in NW. rewrite (String.eqb_sym (key q) (key p)) in NW. destruct (String.eqb (key p) (key q)); [|exact NW].
      replace (read (key q) + (1 + uses key (key q) (firstn i samples))) with (S (read (key q)) + uses key (key q) (firstn i samples)) by lia. exact NW.
Qed.
Lemma mapM_index : forall (a : list elt) idx, Forall (fun i => i < length a) idx ->
  exists samples, mapM (fun i => match nth_error a i with Some e => Ok e | None => Err IndexError end) idx = Ok samples /\ length samples = length idx /\
  forall j i, nth_error idx j = Some i -> nth_error samples j = nth_error a i.
Proof.
  intros a. induction idx as [|i idx IH]; intros F.
  - exists []. split; [reflexivity|]. split; [reflexivity|]. intros [|j] i E; discriminate E.
  - inversion F as [|? ? I F']; subst. destruct (IH F') as (s & E & L & N). destruct (nth_error a i) as [e|] eqn:A; [|apply nth_error_None in A; lia].
    exists (e :: s). split; [rewrite RszProofs.mapM_cons, A; cbn [bind]; rewrite E; reflexivity|]. split; [cbn; lia|].
    intros [|j] i' K; [injection K as <-; cbn; now rewrite A|]. exact (N j i' K).
Qed.
Lemma in_uses : forall (l : list elt) i p, nth_error l i = Some (Par p) -> 0 < uses key (key p) l.
Proof.
  induction l as [|[v|q] l IH]; intros [|i] p H; try discriminate H; cbn [uses].
  - exact (IH i p H).
  - injection H as <-. rewrite String.eqb_refl. lia.
  - specialize (IH i p H). destruct (String.eqb _ _); lia.
Qed.
Lemma choice_ok : forall a n r, a <> [] -> exists chosen out,
  fst (draw_choice V P R key draw choose a n r) = Ok out /\ length out = n /\ length chosen = n /\
  (forall i j, nth_error (fst (choose (length a) n r)) i = Some j -> nth_error chosen i = nth_error a j) /\
  (forall i v, nth_error chosen i = Some (Num v) -> nth_error out i = Some v) /\
  (forall k, 0 < uses key k chosen -> exists q r0 r1 vs, In (Par q) a /\ key q = k /\ draw q (uses key k chosen) r0 = (vs, r1) /\
     forall i p, nth_error chosen i = Some (Par p) -> key p = k -> nth_error out i = nth_error vs (uses key k (firstn i chosen)) /\ nth_error out i <> None).
Proof.
  intros a n r NE. unfold draw_choice. destruct (CH (length a) n r) as [L F]; [destruct a; [congruence|cbn; lia]|].
  destruct (choose (length a) n r) as [idx r1]. cbn [fst] in *. destruct (mapM_index a idx F) as (s & E & LS & NS). rewrite E.
  pose proof (draw_all_ok s a a (fun _ => None) r1 (fun e H => H)) as DA. destruct (draw_all V P R key draw s a (fun _ => None) r1) as [d r2]. cbn [fst] in *.
  destruct DA as (G & _ & T); [intros k vs K; discriminate K|].
  assert (IN : forall k, 0 < uses key k s -> exists p, In (Par p) a /\ key p = k).
  { intros k U. assert (X : exists i p, nth_error s i = Some (Par p) /\ key p = k).
    { clear - U. induction s as [|[v|p] s IH]; cbn [uses] in U; [lia| |].
      - destruct (IH U) as (i & p & H & K). exists (S i), p. split; assumption.
      - destruct (String.eqb_spec (key p) k) as [K|K]; [exists 0, p; split; [reflexivity|exact K]|]. destruct (IH U) as (i & q & H & KQ). exists (S i), q. split; assumption. }
    destruct X as (i & p & H & K). assert (I : i < length idx) by (rewrite <- LS; apply nth_error_Some; congruence).
    destruct (nth_error idx i) as [j|] eqn:J; [|apply nth_error_None in J; lia]. rewrite (NS i j J) in H. exists p. split; [eapply nth_error_In; exact H|exact K]. }
  assert (ENT : forall k, 0 < uses key k s -> exists vs, d k = Some vs /\ 0 + uses key k s <= length vs).
  { intros k U. destruct (IN k U) as (p & H & <-). specialize (T p H U). destruct (d (key p)) as [vs|] eqn:D; [|congruence]. exists vs. split; [reflexivity|].
    destruct (G _ _ D) as (q & q0 & q1 & _ & _ & DR). pose proof (DE q (uses key (key p) s) q0) as LD. rewrite DR in LD. cbn in LD. lia. }
  destruct (assign_ok d s (fun _ => 0) ENT) as (out & EO & LO & NO). exists s, out. split; [exact EO|]. split; [lia|]. split; [lia|]. split; [exact NS|]. split.
  - intros i v H. exact (NO i _ H).
  - intros k U. destruct (ENT k U) as (vs & D & B). destruct (G k vs D) as (q & q0 & q1 & I & K & DR). exists q, q0, q1, vs. split; [exact I|]. split; [exact K|]. split; [exact DR|].
    intros i p H KP. subst k. destruct (NO i _ H) as (ws & w & DW & NW & NWS). rewrite KP in DW, NWS. rewrite D in DW. injection DW as <-. cbn [Nat.add] in NWS.
    rewrite NW, NWS. split; [reflexivity|discriminate].
Qed.
End Choice.
