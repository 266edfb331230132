(** Proofs about saving debug images. *)
From Coq Require Import List ZArith Ascii String DecimalString Decimal DecimalFacts DecimalN Lia Bool.
From Verif Require Import Prelude SavModel SavSpec.
Import ListNotations.
Open Scope Z_scope.

Lemma append_length : forall a b, String.length (a ++ b)%string = (String.length a + String.length b)%nat.
Proof. induction a as [|c a IH]; intros b; [reflexivity|]. cbn. now rewrite IH. Qed.
Lemma append_inj_l : forall s a b, (s ++ a)%string = (s ++ b)%string -> a = b.
Proof. induction s as [|c s IH]; intros a b H; [exact H|]. cbn in H. injection H as H. auto. Qed.
Lemma append_inj_r : forall a b s, (a ++ s)%string = (b ++ s)%string -> a = b.
Proof.
  assert (G : forall a b s, String.length a = String.length b -> (a ++ s)%string = (b ++ s)%string -> a = b).
  { induction a as [|c a IH]; intros [|c' b] s L H; try discriminate L; [reflexivity|]. cbn in H, L. injection H as -> H. injection L as L. f_equal. eapply IH; eassumption. }
  intros a b s H. apply (G a b s); [|exact H]. pose proof (f_equal String.length H) as E. rewrite !append_length in E. lia.
Qed.
Fixpoint zeros (k : nat) (u : uint) : uint := match k with O => u | S k => D0 (zeros k u) end.
Definition zero_string (k : nat) : string := String.concat "" (repeat "0"%string k).
Lemma zero_string_S : forall k s, (zero_string (S k) ++ s)%string = String "0" (zero_string k ++ s).
Proof. intros [|k] s; reflexivity. Qed.
Lemma zero_string_length : forall k, String.length (zero_string k) = k.
Proof.
  induction k as [|k IH]; [reflexivity|]. pose proof (f_equal String.length (zero_string_S k "")) as E. cbn [String.length] in E. rewrite !append_length in E. cbn [String.length] in E. lia.
Qed.
Lemma zeros_read : forall k s u, s <> EmptyString -> NilZero.uint_of_string s = Some u -> NilZero.uint_of_string (zero_string k ++ s) = Some (zeros k u).
Proof.
  induction k as [|k IH]; intros s u N H; [exact H|]. rewrite zero_string_S. unfold NilZero.uint_of_string.
  cbn [NilEmpty.uint_of_string]. specialize (IH s u N H). unfold NilZero.uint_of_string in IH.
  destruct (zero_string k ++ s)%string eqn:E; [exfalso; apply N; destruct k; [exact E|rewrite zero_string_S in E; discriminate]|].
  rewrite IH. reflexivity.
Qed.
Lemma of_zeros : forall k u, N.of_uint (zeros k u) = N.of_uint u.
Proof. induction k as [|k IH]; intros u; [reflexivity|]. cbn [zeros]. rewrite <- (IH u). reflexivity. Qed.
Lemma to_uint_head : forall n, N.to_uint n <> Nil /\ (forall d, N.to_uint n = D0 d -> d = Nil).
Proof.
  intros n. pose proof (DecimalN.Unsigned.to_of (N.to_uint n)) as E. rewrite DecimalN.Unsigned.of_to in E. rewrite E. unfold unorm.
  destruct (nzhead (N.to_uint n)) eqn:F; split; try discriminate; try (intros d H; discriminate H).
  - intros d H. injection H as <-. reflexivity.
  - intros d H. exfalso. exact (nzhead_nonzero _ _ F).
Qed.
Lemma six_digits_ok : forall n, 0 <= n -> exists u, NilZero.uint_of_string (six_digits n) = Some u /\ Z.of_N (N.of_uint u) = n /\
  (6 <= String.length (six_digits n))%nat /\ ((6 < String.length (six_digits n))%nat -> String.get 0 (six_digits n) <> Some "0"%char).
Proof.
  intros n N. unfold six_digits. set (u := N.to_uint (Z.to_N n)). set (s := NilZero.string_of_uint u).
  destruct (to_uint_head (Z.to_N n)) as [NE HD]. fold u in NE, HD.
  assert (R : NilZero.uint_of_string s = Some u) by (apply NilZero.usu; exact NE).
  assert (SE : s <> EmptyString) by (intros E; rewrite E in R; discriminate R).
  exists (zeros (6 - String.length s) u). fold (zero_string (6 - String.length s)).
  split; [apply zeros_read; assumption|]. split; [rewrite of_zeros; unfold u; rewrite DecimalN.Unsigned.of_to; apply Z2N.id; exact N|].
  rewrite append_length, zero_string_length. split; [lia|]. intros L. replace (6 - String.length s)%nat with 0%nat by lia. cbn [zero_string repeat String.concat append].
  intros G. assert (L6 : (6 < String.length s)%nat) by lia. clear L. subst s. destruct u as [|d|d|d|d|d|d|d|d|d|d] eqn:U; try discriminate G.
  - congruence.
  - rewrite (HD d eq_refl) in L6. cbn in L6. lia.
Qed.
Lemma names_ok : forall n, 0 <= n -> numbered n (filename Numbered n).
Proof. intros n N. destruct (six_digits_ok n N) as (u & A & B & C & D). exists (six_digits n), u. repeat split; assumption. Qed.
Lemma numbered_inj : forall n m f, numbered n f -> numbered m f -> n = m.
Proof.
  intros n m f (d & u & -> & R & E & _) (d' & u' & H & R' & E' & _). apply append_inj_l in H. apply append_inj_r in H. subst d'. congruence.
Qed.
Lemma numbered_latest : forall n, ~ numbered n "batch_latest.png".
Proof.
  intros n (d & u & H & R & _). change "batch_latest.png"%string with ("batch_" ++ "latest" ++ ".png")%string in H. apply append_inj_l in H. apply append_inj_r in H. subst d. discriminate R.
Qed.

Section Saving.
Variables B I : Type.
Variable draw : B -> res I.
Variable interval : Z.
Hypothesis NZ : interval <> 0.
(** The augmenter after [n] batches. *)
Definition after (n : nat) : saver := mkS interval (Z.of_nat n - 1)
  [mkD Numbered (Z.of_nat n - 1) (match n with O => None | S _ => Some (filename Numbered (Z.of_nat n - 1)) end);
   mkD Latest (Z.of_nat n - 1) (match n with O => None | S _ => Some (filename Latest (Z.of_nat n - 1)) end)].
Lemma due_iff : forall i, (Z.of_nat i mod interval =? 0) = true <-> due interval i.
Proof. intros i. unfold due. rewrite Z.eqb_eq. apply Z.mod_divide. exact NZ. Qed.
Definition written (i : nat) (image : I) (f : folder I) : folder I := fun name =>
  if String.eqb name "batch_latest.png" then Some image else if String.eqb name (filename Numbered (Z.of_nat i)) then Some image else f name.
Lemma save_step : forall i f b, save_batch B I draw (after i) f b =
  (after (S i), if Z.of_nat i mod interval =? 0 then match draw b with Ok image => written i image f | Err _ => f end else f,
   if Z.of_nat i mod interval =? 0 then match draw b with Ok _ => Ok b | Err e => Err e end else Ok b).
Proof.
  intros i f b. unfold save_batch. cbn [s_interval s_id s_dests after].
  destruct (Z.eqb_spec interval 0) as [C|_]; [contradiction|].
  assert (E : Z.of_nat i - 1 + 1 = Z.of_nat i) by lia. unfold after at 1. cbn [s_dests map]. unfold dest_on_batch. cbn [d_pattern d_id]. rewrite E.
  assert (E' : Z.of_nat (S i) - 1 = Z.of_nat i) by lia. unfold after. rewrite E'.
  destruct (Z.of_nat i mod interval =? 0); [|reflexivity]. destruct (draw b); reflexivity.
Qed.
Lemma save_from : forall bs i f, exists g, save_batches B I draw (after i) f bs = (after (i + length bs), g, 
   map (fun p => if Z.of_nat (fst p) mod interval =? 0 then match draw (snd p) with Ok _ => Ok (snd p) | Err e => Err e end else Ok (snd p)) (combine (seq i (length bs)) bs)) /\
  (forall j b image, nth_error bs j = Some b -> due interval (i + j) -> draw b = Ok image -> g (filename Numbered (Z.of_nat (i + j))) = Some image) /\
  (forall j b image, nth_error bs j = Some b -> due interval (i + j) -> draw b = Ok image ->
     (forall j' b' image', (j < j')%nat -> nth_error bs j' = Some b' -> due interval (i + j') -> draw b' <> Ok image') -> g "batch_latest.png"%string = Some image) /\
  (forall name, (forall j b image, nth_error bs j = Some b -> due interval (i + j) -> draw b = Ok image -> name <> filename Numbered (Z.of_nat (i + j)) /\ name <> "batch_latest.png"%string) -> g name = f name).
Proof.
  induction bs as [|b bs IH]; intros i f.
  { exists f. cbn [length save_batches combine seq map]. rewrite Nat.add_0_r. split; [reflexivity|]. split; [|split]; intros j; [destruct j; discriminate|destruct j; discriminate|reflexivity]. }
  cbn [save_batches]. rewrite save_step.
  set (f1 := if Z.of_nat i mod interval =? 0 then match draw b with Ok image => written i image f | Err _ => f end else f).
  destruct (IH (S i) f1) as (g & E & A & L & U). rewrite E. exists g.
  split; [cbn [length seq combine map fst snd]; replace (i + S (length bs))%nat with (S i + length bs)%nat by lia; reflexivity|].
  assert (F1 : due interval i -> forall image, draw b = Ok image -> f1 = written i image f).
  { intros D image H. unfold f1. apply due_iff in D. rewrite D, H. reflexivity. }
  assert (NE : forall n m, 0 <= n -> 0 <= m -> n <> m -> filename Numbered n <> filename Numbered m).
  { intros n m N M H C. apply H. apply (numbered_inj n m (filename Numbered n)); [|rewrite C]; apply names_ok; assumption. }
  assert (NL : forall n, 0 <= n -> filename Numbered n <> "batch_latest.png"%string).
  { intros n N C. apply (numbered_latest n). rewrite <- C. apply names_ok. exact N. }
  split; [|split].
  - intros [|j] b' image N D H.
    + cbn in N. injection N as <-. rewrite Nat.add_0_r in *. rewrite (F1 D image H) in U. rewrite U.
      * unfold written. rewrite String.eqb_refl. destruct (String.eqb_spec (filename Numbered (Z.of_nat i)) "batch_latest.png"); reflexivity.
      * intros j b' image' N' D' H'. split; [apply NE; lia|apply NL; lia].
    + cbn in N. replace (i + S j)%nat with (S i + j)%nat in * by lia. eapply A; eassumption.
  - intros [|j] b' image N D H R.
    + cbn in N. injection N as <-. rewrite Nat.add_0_r in *. rewrite U.
      * rewrite (F1 D image H). reflexivity.
      * intros j b' image' N' D' H'. exfalso. apply (R (S j) b' image'); [lia|exact N'| |exact H']. replace (i + S j)%nat with (S i + j)%nat by lia. exact D'.
    + cbn in N. replace (i + S j)%nat with (S i + j)%nat in * by lia. apply (L j b' image N D H). intros j' b2 im2 J N2 D2.
      apply (R (S j') b2 im2); [lia|exact N2|]. replace (i + S j')%nat with (S i + j')%nat by lia. exact D2.
  - intros name H. rewrite U.
    + unfold f1. destruct (Z.of_nat i mod interval =? 0) eqn:D; [|reflexivity]. apply due_iff in D. destruct (draw b) as [image|e] eqn:DB; [|reflexivity].
      destruct (H 0%nat b image eq_refl ltac:(rewrite Nat.add_0_r; exact D) DB) as [H1 H2]. rewrite Nat.add_0_r in H1. unfold written.
      destruct (String.eqb_spec name "batch_latest.png"); [contradiction|]. destruct (String.eqb_spec name (filename Numbered (Z.of_nat i))); [contradiction|reflexivity].
    + intros j b' image N D DB. replace (S i + j)%nat with (i + S j)%nat in * by lia. apply (H (S j) b' image N D DB).
Qed.
End Saving.
