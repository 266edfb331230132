(** C146: Choice over stochastic parameters. *)
From Coq Require Import List QArith String Lia.
From Verif Require Import Prelude ChoModel ChoSpec ChoProofs.
Import ListNotations.
Open Scope nat_scope.

(** C146: sampling succeeds. Every component is a chosen number or a sample of a listed parameter that has the same name
    (its string) as the chosen one. The parameter is asked once, for as many samples as needed, and they are used in
    order, each of them once. *)
Theorem C146_components : forall V P R key (draw : P -> nat -> R -> list V * R) choose, draws_enough draw -> chooses choose ->
  forall a n r, a <> [] -> exists chosen out,
  fst (draw_choice V P R key draw choose a n r) = Ok out /\ length out = n /\ length chosen = n /\
  (forall i j, nth_error (fst (choose (length a) n r)) i = Some j -> nth_error chosen i = nth_error a j) /\
  (forall i v, nth_error chosen i = Some (Num v) -> nth_error out i = Some v) /\
  (forall k, 0 < uses key k chosen -> exists q r0 r1 vs, In (Par q) a /\ key q = k /\ draw q (uses key k chosen) r0 = (vs, r1) /\
     forall i p, nth_error chosen i = Some (Par p) -> key p = k -> nth_error out i = nth_error vs (uses key k (firstn i chosen)) /\ nth_error out i <> None).
Proof. exact choice_ok. Qed.
Print Assumptions C146_components.

(** C146: if the names of the listed parameters are different, every component is a sample of the chosen parameter. *)
Theorem C146_own_samples : forall V P R key (draw : P -> nat -> R -> list V * R) choose, draws_enough draw -> chooses choose ->
  forall a n r, a <> [] -> (forall p q, In (Par p) a -> In (Par q) a -> key p = key q -> p = q) ->
  exists out, fst (draw_choice V P R key draw choose a n r) = Ok out /\ length out = n /\
  forall i j, nth_error (fst (choose (length a) n r)) i = Some j ->
    match nth_error a j with
    | Some (Num v) => nth_error out i = Some v
    | Some (Par p) => exists v m r0, nth_error out i = Some v /\ In v (fst (draw p m r0))
    | None => False
    end.
Proof.
  intros V P R key draw choose DE CH a n r NE INJ. destruct (choice_ok V P R key draw choose DE CH a n r NE) as (s & out & E & L & LS & NS & NN & NK).
  exists out. split; [exact E|]. split; [exact L|]. intros i j J.
  destruct (CH (length a) n r) as [LC F]; [destruct a; [congruence|cbn; lia]|].
  rewrite Forall_forall in F. pose proof (F j (nth_error_In _ _ J)) as JA. pose proof (NS i j J) as S.
  destruct (nth_error a j) as [[v|p]|] eqn:A; [exact (NN i v S)| |apply nth_error_None in A; lia].
  destruct (NK (key p) (in_uses V P key s i p S)) as (q & r0 & r1 & vs & I & K & D & H). destruct (H i p S eq_refl) as [O ON].
  assert (q = p) by (apply INJ; [exact I|eapply nth_error_In; exact A|exact K]). subst q.
  destruct (nth_error out i) as [v|]; [|congruence]. exists v, (uses key (key p) s), r0. split; [reflexivity|]. rewrite D. cbn [fst]. eapply nth_error_In. symmetry. exact O.
Qed.
Print Assumptions C146_own_samples.

(** Names do not tell all parameters apart: of two DeterministicLists that differ in the fifth decimal only the later is
    ever asked. *)
Theorem C146_similar_parameters_refuted : exists p q choose, chooses choose /\ fst (choose 2 1 tt) = [0] /\
  exists v, fst (draw_choice Q (list Q) unit list_key list_draw choose [Par p; Par q] 1 tt) = Ok [v] /\
    ~ (exists w, In w p /\ (w == v)%Q).
Proof.
  exists [0%Q], [(1 # 50000)%Q], (fun m n (r : unit) => (repeat 0 n, r)).
  split; [intros m n r M; cbn [fst]; split; [apply repeat_length|apply Forall_forall; intros x X; apply repeat_spec in X; lia]|].
  split; [reflexivity|]. exists (1 # 50000)%Q. split; [vm_compute; reflexivity|]. intros (w & [<-|[]] & E). discriminate E.
Qed.
Print Assumptions C146_similar_parameters_refuted.

(** A number and two lists, chosen in turns. *)
Example C146_case : draws_enough list_draw /\ chooses (fun m n (r : unit) => (map (fun i => i mod m) (seq 0 n), r)) /\
  fst (draw_choice Q (list Q) unit list_key list_draw (fun m n r => (map (fun i => i mod m) (seq 0 n), r)) [Num 7%Q; Par [1%Q; 2%Q]; Par [3%Q]] 6 tt) =
    Ok [7%Q; 1%Q; 3%Q; 7%Q; 2%Q; 3%Q].
Proof.
  split; [intros p n r; cbn; rewrite map_length, seq_length; reflexivity|]. split; [|vm_compute; reflexivity].
  intros m n r M. cbn [fst]. rewrite map_length, seq_length. split; [reflexivity|]. apply Forall_forall. intros x X. apply in_map_iff in X. destruct X as (i & <- & _). apply Nat.mod_upper_bound. lia.
Qed.
