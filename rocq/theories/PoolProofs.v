(** Lemmas about PoolModel. *)
From Coq Require Import Lia Permutation.
From Verif Require Import Prelude PreludeFacts PoolModel PoolSpec.

(* ------------------------------------------------------------------ *)
(** ** Seeds *)
Lemma derived_seed_valid : forall base offset,
  0 <= derived_seed base offset <= 2147483647.
Proof.
  intros. unfold derived_seed, seed_min, seed_max.
  pose proof (Z.mod_pos_bound (base + offset) (2147483647 - 0)). lia.
Qed.

Lemma derived_seed_distinct : forall base i j offset,
  i <> j -> Z.abs (i - j) < 2147483647 ->
  derived_seed (base + i) offset <> derived_seed (base + j) offset.
Proof.
  intros base i j offset Hne Hd H. unfold derived_seed, seed_min, seed_max in H.
  change (2147483647 - 0) with 2147483647 in H.
  pose proof (Z.div_mod (base + i + offset) 2147483647).
  pose proof (Z.div_mod (base + j + offset) 2147483647). nia.
Qed.

Lemma worker_seeds_differ : forall base, fst (worker_seeds base) <> snd (worker_seeds base).
Proof.
  intros base. unfold worker_seeds. cbn [fst snd]. unfold derived_seed, seed_min, seed_max. intros H.
  change (2147483647 - 0) with 2147483647 in H.
  pose proof (Z.div_mod (base + -1000000000) 2147483647).
  pose proof (Z.div_mod (base + 0) 2147483647).
  assert ((base + -1000000000) / 2147483647 * 2147483647 + 1000000000 = (base + 0) / 2147483647 * 2147483647) by lia.
  lia.
Qed.

(* ------------------------------------------------------------------ *)
(** ** Batch ids *)

Lemma map_seq_shift : forall {A} (g : nat -> A) n m, map g (seq n m) = map (fun k => g (n + k)%nat) (seq 0 m).
Proof.
  intros A g n m. revert g n. induction m as [|m IH]; intros g n; [reflexivity|]. cbn. f_equal; [f_equal; lia|].
  rewrite (IH g (S n)), (IH (fun k => g (n + k)%nat) 1%nat). apply map_ext. intros k. f_equal. lia.
Qed.


Lemma first_ids_app : forall n m,
  first_ids (n + m) = first_ids n ++ map (fun k => Z.of_nat n + Z.of_nat k) (seq 0 m).
Proof.
  intros. unfold first_ids. rewrite seq_app, map_app. f_equal. cbn. rewrite (map_seq_shift Z.of_nat n m).
  apply map_ext. intros. lia.
Qed.
Lemma first_ids_S : forall n, first_ids (S n) = first_ids n ++ [Z.of_nat n].
Proof. intros n. replace (S n) with (n + 1)%nat by lia. rewrite first_ids_app. cbn. f_equal. f_equal. lia. Qed.

(** [n] ids handed out, nothing suspended / the last one suspended. *)
Definition id_quiet (n : nat) (s : idst) : Prop :=
  i_next s = Z.of_nat n /\ i_suspended s = false /\ i_ids s = first_ids n.
Definition id_mid (n : nat) (s : idst) : Prop :=
  (i_suspended s = false /\ i_next s = Z.of_nat n \/ i_suspended s = true /\ i_next s + 1 = Z.of_nat n) /\
  i_ids s = first_ids n.

Lemma id_nexts : forall k n s, id_mid n s -> id_mid (n + k) (fold_left id_step (repeat EvNext k) s).
Proof.
  induction k as [|k IH]; intros n s H; [now replace (n + 0)%nat with n by lia|].
  cbn [repeat fold_left]. replace (n + S k)%nat with (S n + k)%nat by lia. apply IH.
  destruct H as [H Hi]. unfold id_step. split; cbn [i_next i_suspended i_ids].
  - right. split; [reflexivity|]. destruct H as [[-> H]|[-> H]]; lia.
  - rewrite Hi, first_ids_S. f_equal. f_equal. destruct H as [[-> H]|[-> H]]; lia.
Qed.

Lemma id_call : forall c n s, id_quiet n s -> id_quiet (n + nb_batches c) (fold_left id_step (events c) s).
Proof.
  intros [k|k] n s (H1 & H2 & H3).
  - cbn. unfold id_quiet. cbn [i_next i_suspended i_ids]. rewrite H1, H2, H3, first_ids_app. split; [lia|]. split; [reflexivity|]. f_equal.
  - cbn [events nb_batches]. rewrite fold_left_app.
    assert (HM : id_mid n s) by (split; auto).
    destruct (id_nexts k n s HM) as [H Hi]. cbn [fold_left id_step]. unfold id_quiet. cbn [i_next i_suspended i_ids].
    split; [|split; [reflexivity|exact Hi]]. destruct H as [[-> H]|[-> H]]; lia.
Qed.

Lemma id_calls : forall cs n s, id_quiet n s ->
  id_quiet (n + list_sum (map nb_batches cs)) (fold_left id_step (flat_map events cs) s).
Proof.
  induction cs as [|c cs IH]; intros n s H; [now replace (n + list_sum (map nb_batches []))%nat with n by (cbn; lia)|].
  cbn [flat_map map]. rewrite fold_left_app.
  replace (n + list_sum (nb_batches c :: map nb_batches cs))%nat with ((n + nb_batches c) + list_sum (map nb_batches cs))%nat
    by (change (list_sum (nb_batches c :: map nb_batches cs)) with (nb_batches c + list_sum (map nb_batches cs))%nat; lia).
  apply IH, id_call, H.
Qed.

Lemma ids_consecutive : forall cs k,
  i_ids (id_run (flat_map events cs ++ repeat EvNext k)) = first_ids (list_sum (map nb_batches cs) + k).
Proof.
  intros cs k. unfold id_run. rewrite fold_left_app.
  assert (H0 : id_quiet 0 id_init) by (repeat split).
  apply (id_calls cs) in H0. cbn [Nat.add] in H0. destruct H0 as (H1 & H2 & H3).
  assert (HM : id_mid (list_sum (map nb_batches cs)) (fold_left id_step (flat_map events cs) id_init)) by (split; auto).
  apply (id_nexts k) in HM. apply HM.
Qed.

Lemma first_ids_NoDup : forall n, NoDup (first_ids n).
Proof.
  intros n. unfold first_ids. apply FinFun.Injective_map_NoDup; [|apply seq_NoDup]. intros a b H. lia.
Qed.

(* ------------------------------------------------------------------ *)
(** ** Lists *)
Lemma upd_split : forall {A} i (x : A) l y, nth_error l i = Some y ->
  exists l1 l2, l = l1 ++ y :: l2 /\ upd i x l = l1 ++ x :: l2 /\ length l1 = i.
Proof.
  intros A i x l. revert i. induction l as [|z l IH]; intros [|i] y H; try discriminate.
  - injection H as ->. exists [], l. auto.
  - destruct (IH i y H) as (l1 & l2 & -> & E & L). exists (z :: l1), l2. cbn. rewrite E. auto.
Qed.
Lemma upd_length : forall {A} i (x : A) l, length (upd i x l) = length l.
Proof. intros A i x l. revert i. induction l as [|z l IH]; intros [|i]; cbn; auto. Qed.

Lemma status_eqb_eq : forall a b, status_eqb a b = true <-> a = b.
Proof. intros [] []; cbn; split; congruence. Qed.

(* ------------------------------------------------------------------ *)
(** ** imap_batches *)
Section Imap.
Context {B B' : Type}.
Variable f : B -> B'.
Variable ordered : bool.
Variable chunksize : nat.
Variable output_buffer_size : option nat.
Variable processes : nat.
Notation exec := (exec f ordered chunksize processes).
Notation exec_all := (exec_all f ordered chunksize processes).
Notation pst := (pst B B').
Notation taken := (fun t : list B * status => status_eqb (snd t) Taken).

Definition content (ts : list (list B * status)) : list B := concat (map fst ts).
Arguments content : simpl never.
Definition held_list (s : pst) : list B := match p_held s with Some b => [b] | None => [] end.

Record inv (batches : list B) (s : pst) : Prop := mkInv {
  inv_all : content (p_tasks s) ++ p_chunk s ++ held_list s ++ p_todo s = batches;
  inv_taken : Permutation (p_out s ++ p_avail s) (map f (content (filter taken (p_tasks s))));
  inv_order : ordered = true -> exists done rest, p_tasks s = done ++ rest /\
     forallb taken done = true /\ forallb (fun t => negb (taken t)) rest = true /\
     p_out s ++ p_avail s = map f (content done);
  inv_owe : p_owe s = true -> p_out s <> [];
  inv_wait : p_waiting s = true -> p_owe s = false;
  inv_permits : match create_output_buffer_left output_buffer_size, p_permits s with
     | None, None => True
     | Some k, Some p => (p + length (content (p_tasks s) ++ p_chunk s) + (if p_owe s then 1 else 0)
                          = k + length (p_out s))%nat
     | _, _ => False end;
  inv_chunk : (length (p_chunk s) + length (held_list s) <= chunksize)%nat;
  inv_done : p_done s = true -> p_waiting s = false /\ p_todo s = [] /\ p_held s = None /\ p_chunk s = [] /\
     p_avail s = [] /\ forallb taken (p_tasks s) = true
}.

Lemma content_app : forall a b, content (a ++ b) = content a ++ content b.
Proof. intros. unfold content. now rewrite map_app, concat_app. Qed.

Lemma content_status : forall l1 c st st' l2,
  content (l1 ++ (c, st) :: l2) = content (l1 ++ (c, st') :: l2).
Proof. intros. now rewrite !content_app. Qed.

Lemma set_status_split : forall i st (ts : list (list B * status)) st0, is_status i st0 ts = true ->
  exists l1 c l2, ts = l1 ++ (c, st0) :: l2 /\ set_status i st ts = l1 ++ (c, st) :: l2 /\ length l1 = i /\
    nth_error ts i = Some (c, st0).
Proof.
  intros i st ts st0 H. unfold is_status in H. unfold set_status.
  destruct (nth_error ts i) as [[c s]|] eqn:E; [|discriminate]. apply status_eqb_eq in H. subst s.
  destruct (upd_split i (c, st) ts _ E) as (l1 & l2 & -> & U & L). exists l1, c, l2. auto.
Qed.

Lemma first_queued_spec : forall (ts : list (list B * status)) i, first_queued ts = Some i -> is_status i Queued ts = true.
Proof.
  induction ts as [|[c st] ts IH]; intros i H; [discriminate|].
  destruct st; cbn in H; try (destruct (first_queued ts) as [j|]; [|discriminate]; injection H as <-; exact (IH j eq_refl)).
  injection H as <-. reflexivity.
Qed.
Lemma first_queued_none : forall (ts : list (list B * status)) , first_queued ts = None -> forall t, In t ts -> snd t <> Queued.
Proof.
  induction ts as [|[c st] ts IH]; intros H t Ht; [destruct Ht|].
  destruct st; cbn in H; try discriminate; (destruct (first_queued ts) as [j|] eqn:E; [discriminate|]);
  destruct Ht as [<-|Ht]; try (cbn; congruence); exact (IH eq_refl t Ht).
Qed.

Lemma filter_replace_neutral : forall (l1 l2 : list (list B * status)) c st st', st <> Taken -> st' <> Taken ->
  filter taken (l1 ++ (c, st) :: l2) = filter taken (l1 ++ (c, st') :: l2).
Proof. intros. rewrite !filter_app. f_equal. destruct st, st'; cbn; congruence. Qed.

(** Status changes that do not concern Taken keep the order invariant. *)
Lemma order_neutral : forall (out : list B') l1 c st st' l2, st <> Taken -> st' <> Taken ->
  (exists done rest, l1 ++ (c, st) :: l2 = done ++ rest /\ forallb taken done = true /\
     forallb (fun t => negb (taken t)) rest = true /\ out = map f (content done)) ->
  (exists done rest, l1 ++ (c, st') :: l2 = done ++ rest /\ forallb taken done = true /\
     forallb (fun t => negb (taken t)) rest = true /\ out = map f (content done)).
Proof.
  intros out l1 c st st' l2 H1 H2 (d & r & E & Hd & Hr & Ho).
  assert (exists l3, l1 = d ++ l3 /\ r = l3 ++ (c, st) :: l2) as (l3 & -> & ->).
  { clear Ho Hr. revert l1 E. induction d as [|t d IH]; intros l1 E.
    - exists l1. cbn in E. auto.
    - cbn in Hd. apply andb_prop in Hd. destruct Hd as [Ht Hd]. destruct l1 as [|u l1].
      + cbn in E. injection E as <- _. apply status_eqb_eq in Ht. cbn in Ht. congruence.
      + cbn in E. injection E as -> E. destruct (IH Hd l1 E) as (l3 & -> & ->). exists l3. auto. }
  exists d, (l3 ++ (c, st') :: l2). rewrite <- app_assoc. repeat split; auto.
  rewrite forallb_app in Hr |- *. apply andb_prop in Hr. destruct Hr as [Ha Hb]. cbn in Hb. apply andb_prop in Hb.
  rewrite Ha. cbn. destruct Hb as [_ Hb]. rewrite Hb. destruct st'; cbn; congruence.
Qed.

Lemma init_inv : forall batches, inv batches (p_init output_buffer_size batches).
Proof.
  intros batches. constructor; cbn; auto; try discriminate; try lia.
  - intros _. exists [], []. auto.
  - destruct (create_output_buffer_left output_buffer_size); [change (content []) with (@nil B); cbn; lia|auto].
Qed.

Lemma step_inv : forall batches s l s', inv batches s -> exec s l = Some s' -> inv batches s'.
Proof.
  intros batches [todo held chunk tasks avail out permits owe waiting done] l s' I E.
  destruct I as [IA IT IO IOw IW IP IC ID]. cbn in IA, IT, IO, IOw, IW, IP, IC, ID. unfold held_list in *. cbn in IA, IC.
  destruct l as [| | | |i| |i| |]; cbv beta iota delta [PoolModel.exec] in E.
  - (* load *)
    destruct todo as [|b todo]; [discriminate|]. destruct held; [discriminate|].
    destruct (Nat.ltb (length chunk) chunksize) eqn:Hc; [|discriminate]. injection E as <-.
    apply Nat.ltb_lt in Hc.
    constructor; cbn; auto; try lia.
    intros Hd. destruct (ID Hd) as (_ & ? & _). discriminate.
  - (* acquire *)
    destruct held as [b|]; [|discriminate].
    assert (HH : forall pp, (match create_output_buffer_left output_buffer_size, pp with
       | None, None => True
       | Some k, Some p => (p + length (content tasks ++ chunk ++ [b]) + (if owe then 1 else 0) = k + length out)%nat
       | _, _ => False end) -> inv batches (mkPst todo None (chunk ++ [b]) tasks avail out pp owe waiting done)).
    { intros pp Hpp. constructor; cbn; auto.
      - rewrite <- IA, <- !app_assoc. reflexivity.
      - rewrite app_length. cbn in *. lia.
      - intros Hd. destruct (ID Hd) as (_ & _ & ? & _). discriminate. }
    destruct permits as [[|k]|]; [discriminate| |]; injection E as <-; apply HH.
    + revert IP; destruct (create_output_buffer_left output_buffer_size); intros IP; auto. rewrite !app_length in *. cbn. lia.
    + revert IP; destruct (create_output_buffer_left output_buffer_size); intros IP; auto.
  - (* submit *)
    destruct (negb (isnil chunk) && _) eqn:Hc; [|discriminate]. injection E as <-.
    apply andb_prop in Hc. destruct Hc as [Hc _].
    constructor; cbn; auto.
    + rewrite content_app, <- app_assoc. unfold content at 2. cbn. now rewrite app_nil_r.
    + rewrite filter_app. cbn. now rewrite app_nil_r.
    + intros Ho. destruct (IO Ho) as (d & r & -> & Hd & Hr & Hout). exists d, (r ++ [(chunk, Queued)]).
      rewrite <- app_assoc. repeat split; auto. rewrite forallb_app, Hr. reflexivity.
    + revert IP; destruct (create_output_buffer_left output_buffer_size), permits; intros IP; auto.
      rewrite content_app, !app_length in *. unfold content at 2. cbn. rewrite app_nil_r. lia.
    + destruct held; cbn in IC |- *; lia.
    + intros Hd. destruct (ID Hd) as (_ & _ & _ & -> & _). discriminate.
  - (* take *)
    destruct (first_queued tasks) as [i|] eqn:Ei; [|discriminate].
    destruct (Nat.ltb _ _); [|discriminate]. injection E as <-.
    apply first_queued_spec in Ei.
    destruct (set_status_split i Running tasks Queued Ei) as (l1 & c & l2 & -> & -> & L & _).
    constructor; cbn; auto.
    + now rewrite (content_status l1 c Running Queued l2).
    + rewrite (filter_replace_neutral l1 l2 c Running Queued); auto; congruence.
    + intros Ho. eapply order_neutral; [| |exact (IO Ho)]; congruence.
    + now rewrite (content_status l1 c Running Queued l2).
    + intros Hd. destruct (ID Hd) as (_ & _ & _ & _ & _ & H). rewrite forallb_app in H. cbn in H.
      rewrite andb_false_r in H. discriminate.
  - (* finish *)
    destruct (is_status i Running tasks) eqn:Ei; [|discriminate]. injection E as <-.
    destruct (set_status_split i Finished tasks Running Ei) as (l1 & c & l2 & -> & -> & L & _).
    constructor; cbn; auto.
    + now rewrite (content_status l1 c Finished Running l2).
    + rewrite (filter_replace_neutral l1 l2 c Finished Running); auto; congruence.
    + intros Ho. eapply order_neutral; [| |exact (IO Ho)]; congruence.
    + now rewrite (content_status l1 c Finished Running l2).
    + intros Hd. destruct (ID Hd) as (_ & _ & _ & _ & _ & H). rewrite forallb_app in H. cbn in H.
      rewrite andb_false_r in H. discriminate.
  - (* request *)
    destruct (waiting || done) eqn:Hw; [discriminate|]. apply orb_false_elim in Hw. destruct Hw as [-> ->].
    injection E as <-. constructor; cbn; auto; try discriminate.
    revert IP; destruct (create_output_buffer_left output_buffer_size), permits; intros IP; auto; destruct owe; cbn; auto. lia.
  - (* next chunk *)
    destruct (waiting && isnil avail && is_status i Finished tasks && _) eqn:Hc; [|discriminate].
    injection E as <-. apply andb_prop in Hc. destruct Hc as [Hc Hord]. apply andb_prop in Hc. destruct Hc as [Hc Ei].
    apply andb_prop in Hc. destruct Hc as [Hw Ha]. destruct avail; [|discriminate].
    destruct (set_status_split i Taken tasks Finished Ei) as (l1 & c & l2 & -> & -> & L & N). rewrite N.
    rewrite app_nil_r in *. subst waiting.
    constructor; cbn; auto.
    + now rewrite (content_status l1 c Taken Finished l2).
    + rewrite filter_app in *. cbn in *. rewrite content_app in *. rewrite map_app in *.
      change ((c, Taken) :: filter taken l2) with ([(c, Taken)] ++ filter taken l2). rewrite content_app.
      unfold content at 2. cbn. rewrite app_nil_r, map_app.
      rewrite (Permutation_app_comm out). etransitivity; [apply Permutation_app_head, IT|].
      rewrite !app_assoc. apply Permutation_app_tail, Permutation_app_comm.
    + intros Ho. destruct (IO Ho) as (d & r & Ed & Hd & Hr & Hout). rewrite Ho in Hord. cbn in Hord.
      rewrite <- L, firstn_app, firstn_all, Nat.sub_diag in Hord. cbn in Hord. rewrite app_nil_r in Hord.
      assert (d = l1 /\ r = (c, Finished) :: l2) as [-> ->].
      { clear Hout IA IT IP ID L N Ei IO. revert l1 Ed Hord. induction d as [|t d IH]; intros l1 Ed Hord.
        - destruct l1 as [|u l1]; [cbn in Ed; auto|]. exfalso. cbn in Ed, Hord. subst r. cbn in Hr.
          apply andb_prop in Hord. destruct Hord as [Hu _]. rewrite Hu in Hr. discriminate.
        - destruct l1 as [|u l1].
          + cbn in Ed. injection Ed as <- _. cbn in Hd. discriminate.
          + cbn in Ed. injection Ed as -> Ed. cbn in Hd, Hord. apply andb_prop in Hd, Hord.
            destruct (IH (proj2 Hd) l1 Ed (proj2 Hord)) as [-> ->]. auto. }
      exists (l1 ++ [(c, Taken)]), l2. rewrite <- app_assoc. split; [reflexivity|].
      rewrite forallb_app, Hd. split; [reflexivity|]. cbn in Hr. split; [exact Hr|].
      rewrite content_app, map_app, Hout. unfold content at 3. cbn. now rewrite app_nil_r.
    + now rewrite (content_status l1 c Taken Finished l2).
    + intros Hd. destruct (ID Hd) as (H & _). discriminate.
  - (* deliver *)
    destruct avail as [|x avail]; [discriminate|]. destruct waiting; [|discriminate]. injection E as <-.
    rewrite (IW eq_refl) in *.
    constructor; cbn; auto; try discriminate.
    + now rewrite <- app_assoc.
    + intros Ho. destruct (IO Ho) as (d & r & Ed & Hd & Hr & Hout). exists d, r. repeat split; auto. now rewrite <- app_assoc.
    + intros _ H. symmetry in H. now apply app_cons_not_nil in H.
    + revert IP; destruct (create_output_buffer_left output_buffer_size), permits; intros IP; auto. rewrite !app_length in *. cbn. lia.
    + intros Hd. destruct (ID Hd) as (H & _). discriminate.
  - (* stop *)
    destruct (waiting && _ && _ && _ && _ && _ && _) eqn:Hc; [|discriminate]. injection E as <-.
    repeat (apply andb_prop in Hc; destruct Hc as [Hc ?]).
    destruct avail; [|discriminate]. destruct todo; [|discriminate]. destruct held; [discriminate|]. destruct chunk; [|discriminate].
    constructor; cbn; auto; try discriminate. intros _. repeat split; auto.
Qed.

Lemma run_inv : forall batches ls s s', inv batches s -> exec_all s ls = Some s' -> inv batches s'.
Proof.
  intros batches ls. induction ls as [|l ls IH]; intros s s' I E; cbn in E; [congruence|].
  destruct (exec s l) as [s1|] eqn:E1; [|discriminate]. eauto using step_inv.
Qed.
Lemma reach_inv : forall batches ls s', exec_all (p_init output_buffer_size batches) ls = Some s' -> inv batches s'.
Proof. intros. eapply run_inv; [apply init_inv|eassumption]. Qed.

(** In flight. *)
Lemma in_flight_eq : forall batches s k p, inv batches s ->
  create_output_buffer_left output_buffer_size = Some k -> p_permits s = Some p ->
  in_flight batches s = Z.of_nat k - Z.of_nat p - (if p_owe s then 1 else 0) + Z.of_nat (length (held_list s)).
Proof.
  intros batches s k p I Ek Ep. destruct I as [IA IT IO IOw IW IP IC ID]. rewrite Ek, Ep in IP.
  unfold in_flight. rewrite <- IA. rewrite !app_length in *. destruct (p_owe s); lia.
Qed.

Lemma in_flight_bound : forall batches ls s k, output_buffer_size = Some k -> k <> O ->
  exec_all (p_init output_buffer_size batches) ls = Some s ->
  in_flight batches s <= Z.of_nat k + 1 /\ (p_owe s = true -> in_flight batches s <= Z.of_nat k) /\
  (p_held s = None -> in_flight batches s <= Z.of_nat k).
Proof.
  intros batches ls s k Ek Hk E. apply reach_inv in E.
  assert (Ec : create_output_buffer_left output_buffer_size = Some k) by (rewrite Ek; destruct k; [congruence|reflexivity]).
  pose proof (inv_permits _ _ E) as IP. rewrite Ec in IP. destruct (p_permits s) as [p|] eqn:Ep; [|destruct IP].
  rewrite (in_flight_eq batches s k p E Ec Ep). unfold held_list.
  destruct (p_held s), (p_owe s); cbn; repeat split; intros; try discriminate; lia.
Qed.

(** Order and completeness. *)
Lemma ordered_prefix : forall batches ls s, ordered = true ->
  exec_all (p_init output_buffer_size batches) ls = Some s ->
  exists rest, map f batches = p_out s ++ rest.
Proof.
  intros batches ls s Ho E. apply reach_inv in E. destruct E as [IA IT IO IOw IW IP IC ID].
  destruct (IO Ho) as (d & r & Ed & Hd & Hr & Hout). rewrite <- IA, Ed, content_app, !map_app, <- Hout.
  rewrite <- !app_assoc. eauto.
Qed.

Lemma filter_all : forall {A} (p : A -> bool) l, forallb p l = true -> filter p l = l.
Proof. induction l as [|x l IH]; cbn; auto. destruct (p x); cbn; [|discriminate]. intros. f_equal. auto. Qed.

Lemma content_filter_perm : forall (p : list B * status -> bool) ts,
  Permutation (content ts) (content (filter p ts) ++ content (filter (fun t => negb (p t)) ts)).
Proof.
  intros p ts. induction ts as [|t ts IH]; [constructor|].
  change (content (t :: ts)) with (fst t ++ content ts). cbn [filter]. destruct (p t); cbn [negb].
  - change (content (t :: ?l)) with (fst t ++ content l). rewrite <- app_assoc. now apply Permutation_app_head.
  - change (content (t :: filter (fun t0 => negb (p t0)) ts)) with (fst t ++ content (filter (fun t0 => negb (p t0)) ts)).
    rewrite IH at 1. rewrite !app_assoc. apply Permutation_app_tail, Permutation_app_comm.
Qed.

Lemma nothing_twice : forall batches ls s,
  exec_all (p_init output_buffer_size batches) ls = Some s ->
  exists rest, Permutation (map f batches) (p_out s ++ rest).
Proof.
  intros batches ls s E. apply reach_inv in E. destruct E as [IA IT IO IOw IW IP IC ID].
  exists (p_avail s ++ map f (content (filter (fun t => negb (taken t)) (p_tasks s)) ++ p_chunk s ++ held_list s ++ p_todo s)).
  rewrite <- IA. rewrite map_app. rewrite (Permutation_map f (content_filter_perm taken (p_tasks s))).
  rewrite !map_app. rewrite <- IT. now rewrite <- !app_assoc.
Qed.

Lemma done_complete : forall batches ls s,
  exec_all (p_init output_buffer_size batches) ls = Some s -> p_done s = true ->
  Permutation (p_out s) (map f batches) /\ (ordered = true -> p_out s = map f batches).
Proof.
  intros batches ls s E Hd. apply reach_inv in E. destruct E as [IA IT IO IOw IW IP IC ID].
  destruct (ID Hd) as (_ & Et & Eh & Ec & Ea & Hall). unfold held_list in *.
  rewrite Et, Eh, Ec in IA. cbn in IA. rewrite app_nil_r in IA. rewrite Ea in IT, IO. rewrite app_nil_r in IT.
  split.
  - rewrite IT, (filter_all _ _ Hall), IA. reflexivity.
  - intros Ho. destruct (IO Ho) as (d & r & Ed & Hd' & Hr & Hout). rewrite app_nil_r in Hout. rewrite Hout. f_equal.
    rewrite <- IA, Ed, content_app. destruct r as [|t r]; [unfold content at 3; cbn; now rewrite app_nil_r|].
    exfalso. rewrite Ed, forallb_app in Hall. cbn in Hall, Hr. destruct (status_eqb (snd t) Taken); cbn in *;
    [discriminate|now rewrite andb_false_r in Hall].
Qed.

(** Termination. *)
Definition weight (t : list B * status) : nat :=
  match snd t with
  | Queued => 3 * length (fst t) + 3 | Running => 3 * length (fst t) + 2
  | Finished => 3 * length (fst t) + 1 | Taken => 0 end.
Definition measure (s : pst) : nat :=
  9 * length (p_todo s) + 8 * length (held_list s) + 7 * length (p_chunk s) + list_sum (map weight (p_tasks s))
  + 2 * length (p_avail s) + (if p_waiting s then 0 else 1) + (if p_done s then 0 else 2).

Lemma list_sum_mid : forall {A} (w : A -> nat) l1 x l2,
  list_sum (map w (l1 ++ x :: l2)) = (list_sum (map w l1) + w x + list_sum (map w l2))%nat.
Proof.
  intros. rewrite map_app. cbn [map]. rewrite list_sum_app.
  change (list_sum (w x :: map w l2)) with (w x + list_sum (map w l2))%nat. lia.
Qed.

Lemma step_measure : forall s l s', exec s l = Some s' -> (measure s' < measure s)%nat.
Proof.
  intros [todo held chunk tasks avail out permits owe waiting done] l s' E.
  unfold measure, held_list.
  destruct l as [| | | |i| |i| |]; cbv beta iota delta [PoolModel.exec] in E.
  - destruct todo as [|b todo]; [discriminate|]. destruct held; [discriminate|].
    destruct (Nat.ltb (length chunk) chunksize); [|discriminate]. injection E as <-.
    cbn [p_todo p_held p_chunk p_tasks p_avail p_out p_waiting p_done length]. lia.
  - destruct held as [b|]; [|discriminate]. destruct permits as [[|k]|]; [discriminate| |]; injection E as <-;
    cbn [p_todo p_held p_chunk p_tasks p_avail p_out p_waiting p_done length]; rewrite app_length; cbn [length]; lia.
  - destruct (negb (isnil chunk) && _) eqn:Hc; [|discriminate]. injection E as <-.
    apply andb_prop in Hc. destruct Hc as [Hc _]. destruct chunk as [|b chunk]; [discriminate|].
    cbn [p_todo p_held p_chunk p_tasks p_avail p_out p_waiting p_done].
    rewrite list_sum_mid. change (list_sum (map weight [])) with 0%nat.
    unfold weight at 2. cbn [snd fst]. cbn [length]. lia.
  - destruct (first_queued tasks) as [i|] eqn:Ei; [|discriminate].
    destruct (Nat.ltb _ _); [|discriminate]. injection E as <-.
    apply first_queued_spec in Ei.
    destruct (set_status_split i Running tasks Queued Ei) as (l1 & c & l2 & -> & -> & L & _).
    cbn [p_todo p_held p_chunk p_tasks p_avail p_out p_waiting p_done].
    rewrite !list_sum_mid. unfold weight at 2 5. cbn [snd fst]. lia.
  - destruct (is_status i Running tasks) eqn:Ei; [|discriminate]. injection E as <-.
    destruct (set_status_split i Finished tasks Running Ei) as (l1 & c & l2 & -> & -> & L & _).
    cbn [p_todo p_held p_chunk p_tasks p_avail p_out p_waiting p_done].
    rewrite !list_sum_mid. unfold weight at 2 5. cbn [snd fst]. lia.
  - destruct (waiting || done) eqn:Hw; [discriminate|]. apply orb_false_elim in Hw. destruct Hw as [-> ->].
    injection E as <-. cbn [p_todo p_held p_chunk p_tasks p_avail p_out p_waiting p_done]. lia.
  - destruct (waiting && isnil avail && is_status i Finished tasks && _) eqn:Hc; [|discriminate].
    injection E as <-. apply andb_prop in Hc. destruct Hc as [Hc Hord]. apply andb_prop in Hc. destruct Hc as [Hc Ei].
    destruct (set_status_split i Taken tasks Finished Ei) as (l1 & c & l2 & -> & -> & L & N). rewrite N.
    cbn [p_todo p_held p_chunk p_tasks p_avail p_out p_waiting p_done].
    rewrite !list_sum_mid. unfold weight at 2 5. cbn [snd fst]. rewrite map_length. lia.
  - destruct avail as [|x avail]; [discriminate|]. destruct waiting; [|discriminate]. injection E as <-.
    cbn [p_todo p_held p_chunk p_tasks p_avail p_out p_waiting p_done length]. lia.
  - destruct (waiting && _ && _ && _ && _ && _ && _) eqn:Hc; [|discriminate]. injection E as <-.
    repeat (apply andb_prop in Hc; destruct Hc as [Hc ?]). subst.
    cbn [p_todo p_held p_chunk p_tasks p_avail p_out p_waiting p_done length].
    destruct done; [discriminate|]. lia.
Qed.

Lemma run_measure : forall ls s s', exec_all s ls = Some s' -> (length ls + measure s' <= measure s)%nat.
Proof.
  induction ls as [|l ls IH]; intros s s' E; cbn in E; [injection E as ->; cbn; lia|].
  destruct (exec s l) as [s1|] eqn:E1; [|discriminate]. apply step_measure in E1. apply IH in E. cbn [length]. lia.
Qed.

Lemma run_length : forall batches ls s, exec_all (p_init output_buffer_size batches) ls = Some s ->
  (length ls <= 9 * length batches + 3)%nat.
Proof.
  intros batches ls s E. apply run_measure in E. unfold measure at 2, p_init, held_list in E.
  cbn [p_todo p_held p_chunk p_tasks p_avail p_out p_waiting p_done length map] in E.
  change (list_sum []) with 0%nat in E. lia.
Qed.

(** Progress. *)
Lemma is_status_at : forall (l1 l2 : list (list B * status)) c st, is_status (length l1) st (l1 ++ (c, st) :: l2) = true.
Proof. intros. unfold is_status. rewrite nth_error_app2, Nat.sub_diag by lia. cbn. now apply status_eqb_eq. Qed.

(** The first task that was not taken. *)
Lemma first_untaken : forall ts : list (list B * status), forallb taken ts = true \/
  exists l1 c st l2, ts = l1 ++ (c, st) :: l2 /\ forallb taken l1 = true /\ st <> Taken.
Proof.
  induction ts as [|[c st] ts IH]; [now left|].
  destruct st eqn:Est; try (right; exists [], c, st, ts; subst st; repeat split; congruence).
  destruct IH as [H|(l1 & c' & st' & l2 & -> & H & N)]; [left; exact H|].
  right. exists ((c, Taken) :: l1), c', st', l2. repeat split; auto.
Qed.

Lemma progress : forall batches s, inv batches s -> p_done s = false ->
  (1 <= chunksize)%nat -> (1 <= processes)%nat ->
  (match create_output_buffer_left output_buffer_size with Some k => chunksize <= k | None => True end)%nat ->
  exists l s', exec s l = Some s'.
Proof.
  intros batches s I Hdone Hcs Hp Hk. destruct I as [IA IT IO IOw IW IP IC ID].
  destruct s as [todo held chunk tasks avail out permits owe waiting done]. cbn in IA, IT, IO, IOw, IW, IP, IC, ID, Hdone. subst done.
  destruct waiting; [|exists LRequest; cbn; eauto]. rewrite (IW eq_refl) in *.
  destruct avail as [|x avail]; [|exists LDeliver; cbn; eauto].
  rewrite app_nil_r in *.
  destruct (first_queued tasks) as [i|] eqn:Eq.
  { destruct (Nat.ltb (count_status Running tasks) processes) eqn:Er; [exists LTake; unfold PoolModel.exec; cbv beta iota; rewrite Eq, Er; eauto|].
    apply Nat.ltb_ge in Er. assert (Hr : (1 <= count_status Running tasks)%nat) by lia.
    unfold count_status in Hr. destruct (filter (fun t => status_eqb (snd t) Running) tasks) as [|[c st] r] eqn:Ef; [cbn in Hr; lia|].
    assert (Hin : In (c, st) tasks /\ status_eqb st Running = true) by (apply (filter_In (fun t => status_eqb (snd t) Running)); rewrite Ef; now left).
    destruct Hin as [Hin Hst]. apply status_eqb_eq in Hst. subst st. apply in_split in Hin. destruct Hin as (l1 & l2 & ->).
    exists (LFinish (length l1)). unfold PoolModel.exec; cbv beta iota. rewrite is_status_at. eauto. }
  destruct (first_untaken tasks) as [Hall|(l1 & c & st & l2 & E & Hl1 & Nst)].
  - (* everything submitted was taken *)
    assert (Hout : length out = length (content tasks)).
    { apply Permutation_length in IT. rewrite map_length, (filter_all _ _ Hall) in IT. exact IT. }
    destruct held as [b|].
    + exists LAcquire. cbn. destruct permits as [[|p]|]; eauto. exfalso.
      destruct (create_output_buffer_left output_buffer_size) as [k|]; [|exact IP].
      rewrite app_length in IP. cbn in IC. lia.
    + destruct todo as [|b todo].
      * destruct chunk as [|b chunk].
        -- exists LStop. unfold PoolModel.exec; cbv beta iota; cbn. rewrite Hall. eauto.
        -- exists LSubmit. unfold PoolModel.exec; cbv beta iota. cbn [isnil isnone andb negb]. rewrite orb_true_r. eauto.
      * destruct (Nat.ltb (length chunk) chunksize) eqn:El; [exists LLoad; unfold PoolModel.exec; cbv beta iota; rewrite El; eauto|].
        exists LSubmit. apply Nat.ltb_ge in El. cbn in IC. assert (Heq : length chunk = chunksize) by lia.
        unfold PoolModel.exec; cbv beta iota. rewrite Heq, Nat.eqb_refl. destruct chunk; [cbn in Heq; lia|]. cbn. eauto.
  - destruct st; try congruence.
    + exfalso. apply (first_queued_none _ Eq (c, Queued)); [rewrite E; apply in_elt|reflexivity].
    + exists (LFinish (length l1)). unfold PoolModel.exec; cbv beta iota. rewrite E, is_status_at. eauto.
    + exists (LNextChunk (length l1)). unfold PoolModel.exec; cbv beta iota. rewrite E, is_status_at. cbn.
      rewrite firstn_app, firstn_all, Nat.sub_diag. cbn. rewrite app_nil_r, Hl1, orb_true_r. eauto.
Qed.

(** Deadlock. *)
Lemma deadlock : forall batches ls s k, output_buffer_size = Some (S k) -> (S k < chunksize)%nat ->
  (S k < length batches)%nat -> exec_all (p_init output_buffer_size batches) ls = Some s ->
  p_out s = [] /\ p_done s = false.
Proof.
  intros batches ls s k Ek Hc Hl. revert s.
  assert (H : forall ls s0 s, inv batches s0 -> p_tasks s0 = [] -> p_out s0 = [] -> exec_all s0 ls = Some s -> p_tasks s = [] /\ p_out s = [] /\ inv batches s).
  { clear ls. induction ls as [|l ls IH]; intros s0 s I H1 H2 E; [cbn in E; injection E as <-; auto|].
    cbn [PoolModel.exec_all] in E. destruct (exec s0 l) as [s1|] eqn:E1; [|discriminate].
    pose proof (step_inv _ _ _ _ I E1) as I1. refine (IH s1 s I1 _ _ E).
    - destruct s0 as [todo held chunk tasks avail out permits owe waiting done]. cbn in H1, H2. subst tasks out.
      destruct l as [| | | |i| |i| |]; cbv beta iota delta [PoolModel.exec] in E1; repeat (match type of E1 with context [match ?x with _ => _ end] => destruct x eqn:? end; try discriminate);
      try (injection E1 as <-; reflexivity); try (injection E1 as <-; cbn; unfold set_status; destruct i; reflexivity); try (destruct i; discriminate).
      exfalso. destruct I as [IA IT IO IOw IW IP IC ID]. cbn in *. rewrite Ek in IP. cbn in IP.
      destruct permits as [p|]; [|exact IP]. unfold held_list in *. cbn in *. change (content []) with (@nil B) in *. cbn in IP, IA.
      apply andb_prop in Heqb. destruct Heqb as [Hne Hor]. apply orb_prop in Hor. destruct Hor as [Hor|Hor].
      + apply Nat.eqb_eq in Hor. lia.
      + apply andb_prop in Hor. destruct Hor as [Ht Hh]. destruct todo; [|discriminate]. destruct held; [discriminate|].
        cbn in IA. rewrite app_nil_r in IA. subst chunk. lia.
    - destruct s0 as [todo held chunk tasks avail out permits owe waiting done]. cbn in H1, H2. subst tasks out.
      destruct I as [IA IT IO IOw IW IP IC ID]. cbn in IT. change (content []) with (@nil B) in IT. apply Permutation_sym, Permutation_nil in IT. cbn in IT. subst avail.
      destruct l as [| | | |i| |i| |]; cbv beta iota delta [PoolModel.exec] in E1; repeat (match type of E1 with context [match ?x with _ => _ end] => destruct x eqn:? end; try discriminate);
      try (injection E1 as <-; reflexivity); try (injection E1 as <-; cbn; unfold set_status; destruct i; reflexivity); try (destruct i; discriminate); try discriminate. }
  intros s E. destruct (H ls _ s (init_inv batches) eq_refl eq_refl E) as (H1 & H2 & I).
  split; [exact H2|]. destruct (p_done s) eqn:Hd; [|reflexivity]. exfalso.
  destruct I as [IA IT IO IOw IW IP IC ID]. destruct (ID Hd) as (_ & Et & Eh & Ec & _). unfold held_list in IA.
  rewrite H1, Et, Eh, Ec in IA. change (content []) with (@nil B) in IA. cbn in IA. subst batches. cbn in Hl. lia.
Qed.

Lemma maximal_run_complete : forall batches ls s,
  (1 <= chunksize)%nat -> (1 <= processes)%nat ->
  (match output_buffer_size with Some (S k) => chunksize <= S k | _ => True end)%nat ->
  exec_all (p_init output_buffer_size batches) ls = Some s ->
  (forall l, exec s l = None) ->
  p_done s = true.
Proof.
  intros batches ls s Hc Hp Hk E Hmax. destruct (p_done s) eqn:Hd; [reflexivity|]. exfalso.
  destruct (progress batches s (reach_inv _ _ _ E) Hd Hc Hp) as (l & s' & El).
  - destruct output_buffer_size as [[|k]|]; auto.
  - rewrite Hmax in El. discriminate.
Qed.

End Imap.

(** Statements for fixed arguments, and surprising executions. *)
Lemma ids_unique : forall cs k, NoDup (i_ids (id_run (flat_map events cs ++ repeat EvNext k))).
Proof. intros. rewrite ids_consecutive. apply first_ids_NoDup. Qed.

Lemma ids_dup_during_imap : exists es, es = [EvNext; EvMap 1] /\ ~ NoDup (i_ids (id_run es)).
Proof. eexists. split; [reflexivity|]. cbn. intros H. inversion H as [|x l Hx _]. apply Hx. now left. Qed.

Lemma ids_dup_abandoned : exists es,
  es = [EvNext; EvAbandon] ++ events (MapBatches 1) /\ ~ NoDup (i_ids (id_run es)).
Proof. eexists. split; [reflexivity|]. cbn. intros H. inversion H as [|x l Hx _]. apply Hx. now left. Qed.

Lemma imap_bound : forall {B B'} (f : B -> B') ordered chunksize k processes batches ls s,
  k <> O -> exec_all f ordered chunksize processes (p_init (Some k) batches) ls = Some s ->
  in_flight batches s <= Z.of_nat k + 1 /\
  (p_held s = None -> in_flight batches s <= Z.of_nat k).
Proof.
  intros B B' f ordered chunksize k processes batches ls s Hk E.
  destruct (in_flight_bound f ordered chunksize (Some k) processes batches ls s k eq_refl Hk E) as (H1 & _ & H3). auto.
Qed.

Lemma imap_bound_tight : exists (ls : list label) s,
  exec_all (fun b : Z => b) true 1 1 (p_init (Some 2%nat) [10; 11; 12; 13]) ls = Some s /\ in_flight [10; 11; 12; 13] s = 3.
Proof. exists [LLoad; LAcquire; LSubmit; LLoad; LAcquire; LSubmit; LLoad]. eexists. split; reflexivity. Qed.

Lemma imap_deadlock : forall {B B'} (f : B -> B') ordered chunksize k processes batches ls s,
  (S k < chunksize)%nat -> (S k < length batches)%nat ->
  exec_all f ordered chunksize processes (p_init (Some (S k)) batches) ls = Some s ->
  p_out s = [] /\ p_done s = false.
Proof.
  intros B B' f ordered chunksize k processes batches ls s H1 H2 E.
  exact (deadlock f ordered chunksize (Some (S k)) processes batches ls s k eq_refl H1 H2 E).
Qed.
