(** C145: SaveDebugImageEveryNBatches. *)
From Coq Require Import List ZArith Ascii String Lia Bool.
From Verif Require Import Prelude SavModel SavSpec SavProofs.
Import ListNotations.
Open Scope Z_scope.

(** C145: after any history of batches the folder has a file for every due batch that could be drawn, named after its
    number; the latest of them is also in batch_latest.png, and all other files are as before. *)
Theorem C145_files : forall B I (draw : B -> res I) interval bs (f : folder I), interval <> 0 ->
  exists s g rs, save_batches B I draw (new_saver interval) f bs = (s, g, rs) /\
    (forall i image, drawn draw interval bs i image -> exists name, numbered (Z.of_nat i) name /\ g name = Some image) /\
    (forall i image, drawn draw interval bs i image -> (forall j image', (i < j)%nat -> ~ drawn draw interval bs j image') -> g "batch_latest.png"%string = Some image) /\
    (forall name, name <> "batch_latest.png"%string -> (forall i image, drawn draw interval bs i image -> ~ numbered (Z.of_nat i) name) -> g name = f name) /\
    ((forall i image, ~ drawn draw interval bs i image) -> forall name, g name = f name).
Proof.
  intros B I draw interval bs f NZ. destruct (save_from B I draw interval NZ bs 0 f) as (g & E & A & L & U). cbn [Nat.add] in *.
  eexists _, g, _. split; [exact E|]. split; [|split; [|split]].
  - intros i image (D & b & N & DB). exists (filename Numbered (Z.of_nat i)). split; [apply names_ok; lia|]. eapply A; eassumption.
  - intros i image (D & b & N & DB) H. apply (L i b image N D DB). intros j b' image' J N' D' DB'. apply (H j image' J). split; [exact D'|]. eauto.
  - intros name NL H. apply U. intros j b image N D DB. split; [|exact NL]. intros ->. apply (H j image); [split; [exact D|eauto]|apply names_ok; lia].
  - intros H name. apply U. intros j b image N D DB. exfalso. apply (H j image). split; [exact D|eauto].
Qed.
Print Assumptions C145_files.
(** C145: no two batches share a file. *)
Theorem C145_names : (forall n m name, numbered n name -> numbered m name -> n = m) /\ (forall n, ~ numbered n "batch_latest.png").
Proof. split; [exact numbered_inj|exact numbered_latest]. Qed.
Print Assumptions C145_names.
(** C145: batches are returned unchanged; only drawing a due batch may fail, with the error of drawing, and later batches
    are counted and saved as if it had not. *)
Theorem C145_batches : forall B I (draw : B -> res I) interval bs (f : folder I), interval <> 0 ->
  exists s g rs, save_batches B I draw (new_saver interval) f bs = (s, g, rs) /\ length rs = length bs /\
    forall i b, nth_error bs i = Some b ->
      (~ due interval i -> nth_error rs i = Some (Ok b)) /\
      (due interval i -> nth_error rs i = Some (match draw b with Ok _ => Ok b | Err e => Err e end)).
Proof.
  intros B I draw interval bs f NZ. destruct (save_from B I draw interval NZ bs 0 f) as (g & E & _). cbn [Nat.add] in E.
  eexists _, g, _. split; [exact E|]. split; [rewrite map_length, combine_length, seq_length; lia|]. intros i b N.
  assert (C : nth_error (combine (seq 0 (length bs)) bs) i = Some (i, b)).
  { assert (G : forall l k j x, nth_error l j = Some x -> nth_error (combine (seq k (length l)) l) j = Some ((k + j)%nat, x : B)).
    { induction l as [|a l IH]; intros k [|j] x H; try discriminate H; cbn in *; [injection H as ->; rewrite Nat.add_0_r; reflexivity|].
      rewrite (IH (S k) j x H). f_equal. f_equal. lia. }
    exact (G bs 0%nat i b N). }
  rewrite (map_nth_error _ _ _ C). cbn [fst snd].
  split; intros D.
  - destruct (Z.of_nat i mod interval =? 0) eqn:K; [|reflexivity]. apply (due_iff interval NZ) in K. contradiction.
  - apply (due_iff interval NZ) in D. rewrite D. reflexivity.
Qed.
Print Assumptions C145_batches.
(** C145: with interval 0 every batch raises and nothing is saved. *)
Theorem C145_zero : forall B I (draw : B -> res I) bs (f : folder I), exists s,
  save_batches B I draw (new_saver 0) f bs = (s, f, repeat (Err GenericException) (length bs)).
Proof.
  intros B I draw bs f.
  assert (G : forall bs s, s_interval s = 0 -> exists s', save_batches B I draw s f bs = (s', f, repeat (Err GenericException) (length bs))).
  { induction bs0 as [|b bs0 IH]; intros s H; [exists s; reflexivity|]. cbn [save_batches]. unfold save_batch. rewrite H. cbn [Z.eqb].
    destruct (IH (mkS 0 (s_id s + 1) (s_dests s)) eq_refl) as [s' E]. exists s'. rewrite E. reflexivity. }
  apply G. reflexivity.
Qed.
Print Assumptions C145_zero.
(** The documentation promises the latest image in latest.png; this file is never written. *)
Theorem C145_documented_name_refuted : forall B I (draw : B -> res I) interval bs (f : folder I), interval <> 0 ->
  exists s g rs, save_batches B I draw (new_saver interval) f bs = (s, g, rs) /\ g "latest.png"%string = f "latest.png"%string.
Proof.
  intros B I draw interval bs f NZ. destruct (C145_files B I draw interval bs f NZ) as (s & g & rs & E & _ & _ & U & _).
  exists s, g, rs. split; [exact E|]. apply U; [discriminate|]. intros i image _ (d & u & H & _). discriminate H.
Qed.
Print Assumptions C145_documented_name_refuted.

(** Every second of five batches; the third cannot be drawn. *)
Example C145_case : drawn (fun b => if b =? 30 then Err ValueError else Ok b) 2 [10; 20; 30; 40; 50] 4 50 /\ numbered 12 "batch_000012.png" /\
  let '(_, g, rs) := save_batches Z Z (fun b => if b =? 30 then Err ValueError else Ok b) (new_saver 2) (fun _ => None) [10; 20; 30; 40; 50] in
  g "batch_000000.png"%string = Some 10 /\ g "batch_000001.png"%string = None /\ g "batch_000002.png"%string = None /\ g "batch_000004.png"%string = Some 50 /\
  g "batch_latest.png"%string = Some 50 /\ rs = [Ok 10; Ok 20; Err ValueError; Ok 40; Ok 50].
Proof.
  split; [split; [exists 2; reflexivity|exists 50; split; reflexivity]|]. split; [exact (names_ok 12 ltac:(lia))|]. vm_compute. repeat split.
Qed.
