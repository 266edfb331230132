From Coq Require Import Permutation Lia.
From Verif Require Import Prelude PreludeFacts AugModel AugSpec.

Section P.
Context {R : rngops} {V : Type}.
Notation batch := (batch V).
Notation aug := (aug R V).
Notation world := (world R).

(** Induction over augmenter trees. *)
Section AugInd.
Variable P : aug -> Prop.
Hypothesis HLeaf : forall id body, P (Leaf id body).
Hypothesis HCol : forall id body, P (ColLeaf id body).
Hypothesis HSeq : forall id o cs, Forall P cs -> P (Seq id o cs).
Hypothesis HSome : forall id n o cs, Forall P cs -> P (SomeOf id n o cs).
Hypothesis HSomet : forall id p N t e,
  (forall a, t = Some a -> P a) -> (forall a, e = Some a -> P a) -> P (Sometimes id p N t e).
Hypothesis HWrap : forall id pre post c, P c -> P (Wrap id pre post c).
Fixpoint aug_ind2 (a : aug) : P a :=
  let go := (fix go (cs : list aug) : Forall P cs :=
    match cs with [] => Forall_nil _ | c :: cs' => Forall_cons _ (aug_ind2 c) (go cs') end) in
  match a with
  | Leaf id body => HLeaf id body
  | ColLeaf id body => HCol id body
  | Seq id o cs => HSeq id o cs (go cs)
  | SomeOf id n o cs => HSome id n o cs (go cs)
  | Sometimes id p N t e =>
      HSomet id p N t e
        (match t with
         | Some a' => fun x (E : Some a' = Some x) => match E in _ = o return match o with Some y => P y | None => True end with eq_refl => aug_ind2 a' end
         | None => fun x (E : None = Some x) => match E in _ = o return match o with Some y => P y | None => True end with eq_refl => I end
         end)
        (match e with
         | Some a' => fun x (E : Some a' = Some x) => match E in _ = o return match o with Some y => P y | None => True end with eq_refl => aug_ind2 a' end
         | None => fun x (E : None = Some x) => match E in _ = o return match o with Some y => P y | None => True end with eq_refl => I end
         end)
  | Wrap id pre post c => HWrap id pre post c (aug_ind2 c)
  end.
End AugInd.

(* ------------------------------------------------------------------ *)
(** * Row selection *)

Lemma bind_ok {A B} (x : res A) (f : A -> res B) r :
  bind x f = Ok r -> exists a, x = Ok a /\ f a = Ok r.
Proof. destruct x; cbn; [eauto|discriminate]. Qed.

Lemma Ok_inj : forall {A} (x y : A), Ok x = Ok y -> x = y.
Proof. intros A x y H. now injection H. Qed.

Lemma get_rows_ok : forall (rows : list V) is,
  (forall i, In i is -> (i < length rows)%nat) ->
  exists sub, get_rows rows is = Ok sub /\ length sub = length is /\
    forall k i, nth_error is k = Some i -> nth_error sub k = nth_error rows i.
Proof.
  intros rows is; induction is as [|i is IH]; intros H.
  - exists []; split; [reflexivity|split; [reflexivity|]]. intros k i E; destruct k; discriminate.
  - destruct IH as (sub & E & L & N); [intros; apply H; now right|].
    specialize (H i (or_introl eq_refl)).
    cbn. destruct (nth_error rows i) as [v|] eqn:Ev; [|apply nth_error_None in Ev; lia].
    rewrite E. cbn. exists (v :: sub). split; [reflexivity|]. cbn. split; [lia|].
    intros [|k] j Ej; cbn in *; [injection Ej as ->; now rewrite Ev|now apply N].
Qed.

Lemma set_row_ok : forall (rows : list V) i v, (i < length rows)%nat ->
  exists rows', set_row rows i v = Ok rows' /\ length rows' = length rows /\
    nth_error rows' i = Some v /\ forall j, j <> i -> nth_error rows' j = nth_error rows j.
Proof.
  induction rows as [|r rows IH]; intros i v H; cbn in H; [lia|].
  destruct i as [|i]; cbn.
  - exists (v :: rows). repeat split. intros [|j] Hj; [congruence|reflexivity].
  - destruct (IH i v) as (rows' & E & L & N & O); [lia|].
    rewrite E; cbn. exists (r :: rows'). cbn. repeat split; [lia|exact N|].
    intros [|j] Hj; [reflexivity|]. cbn. apply O. congruence.
Qed.

Lemma set_rows_ok : forall is (rows sub : list V),
  NoDup is -> (forall i, In i is -> (i < length rows)%nat) -> length sub = length is ->
  exists rows', set_rows rows is sub = Ok rows' /\ length rows' = length rows /\
    (forall k i, nth_error is k = Some i -> nth_error rows' i = nth_error sub k) /\
    (forall i, ~ In i is -> nth_error rows' i = nth_error rows i).
Proof.
  induction is as [|i is IH]; intros rows sub ND H L.
  - exists rows. cbn. repeat split; auto. intros k i E; destruct k; discriminate.
  - destruct sub as [|v sub]; [discriminate|]. inversion ND as [|? ? NI ND']; subst.
    destruct (set_row_ok rows i v) as (rows1 & E1 & L1 & N1 & O1); [apply H; now left|].
    destruct (IH rows1 sub) as (rows2 & E2 & L2 & N2 & O2); auto.
    { intros j Hj. rewrite L1. apply H. now right. }
    exists rows2. cbn. rewrite E1; cbn. split; [exact E2|]. split; [lia|]. split.
    + intros [|k] j Ej; cbn in Ej |- *.
      * injection Ej as <-. rewrite O2 by exact NI. exact N1.
      * now apply N2.
    + intros j Hj. rewrite O2 by (intros Q; apply Hj; now right).
      apply O1. intros ->. apply Hj. now left.
Qed.

Lemma cells_mono (P Q : nat -> nat -> V -> V -> Prop) b b' :
  (forall c i x y, P c i x y -> Q c i x y) -> cells P b b' -> cells Q b b'.
Proof.
  intros H [L C]. split; [exact L|]. intros c. specialize (C c).
  destruct (nth c b None), (nth c b' None); auto.
  destruct C as [C1 C2]. split; [exact C1|]. intros i x y Hx Hy. apply H. eapply C2; eauto.
Qed.

Lemma cells_refl (P : nat -> nat -> V -> V -> Prop) b : (forall c i x, P c i x x) -> cells P b b.
Proof.
  intros H. split; [reflexivity|]. intros c. destruct (nth c b None); auto.
  split; [reflexivity|]. intros i x y E1 E2. rewrite E1 in E2. injection E2 as <-. apply H.
Qed.

Lemma nth_error_len {A} (l l' : list A) i x : length l' = length l -> nth_error l i = Some x ->
  exists y, nth_error l' i = Some y.
Proof.
  intros L E. destruct (nth_error l' i) eqn:E'; [eauto|].
  apply nth_error_None in E'. assert (i < length l)%nat by (apply nth_error_Some; congruence). lia.
Qed.

Lemma cells_comp (P Q S : nat -> nat -> V -> V -> Prop) b b' b'' :
  (forall c i x y z, P c i x y -> Q c i y z -> S c i x z) ->
  cells P b b' -> cells Q b' b'' -> cells S b b''.
Proof.
  intros H [L C] [L' C']. split; [congruence|]. intros c. specialize (C c). specialize (C' c).
  destruct (nth c b None) as [r|], (nth c b' None) as [r'|], (nth c b'' None) as [r''|]; auto; try tauto.
  destruct C as [C1 C2], C' as [C1' C2']. split; [congruence|].
  intros i x z Hx Hz. destruct (nth_error_len r r' i x C1 Hx) as [y Hy].
  eapply H; [eapply C2; eauto|eapply C2'; eauto].
Qed.

Lemma cells_cons (P : nat -> nat -> V -> V -> Prop) (c c' : option (list V)) (b b' : batch) :
  (match c, c' with
   | None, None => True
   | Some r, Some r' => length r' = length r /\
       forall i x y, nth_error r i = Some x -> nth_error r' i = Some y -> P 0%nat i x y
   | _, _ => False end) ->
  cells (fun c => P (S c)) b b' -> cells P (c :: b) (c' :: b').
Proof.
  intros H [L C]. split; [cbn; lia|]. intros [|k]; cbn; [exact H|apply C].
Qed.
Lemma cells_cons_inv (P : nat -> nat -> V -> V -> Prop) (c c' : option (list V)) (b b' : batch) :
  cells P (c :: b) (c' :: b') ->
  (match c, c' with
   | None, None => True
   | Some r, Some r' => length r' = length r /\
       forall i x y, nth_error r i = Some x -> nth_error r' i = Some y -> P 0%nat i x y
   | _, _ => False end) /\
  cells (fun c => P (S c)) b b'.
Proof.
  intros [L C]. split; [apply (C 0%nat)|]. split; [cbn in L; lia|]. intros k. apply (C (S k)).
Qed.

Lemma same_shape_nb_rows P (b b' : batch) : cells P b b' -> nb_rows b' = nb_rows b.
Proof.
  revert P b'; induction b as [|c b IH]; intros P b' H.
  - destruct H as [L _]. destruct b'; [reflexivity|discriminate].
  - destruct b' as [|c' b']; [destruct H as [L _]; discriminate|].
    apply cells_cons_inv in H. destruct H as [H1 H2].
    destruct c, c'; cbn; try tauto. eapply IH; eauto.
Qed.

Lemma cells_lengths P (b b' : batch) (n : nat) : cells P b b' ->
  Forall (fun c => match c with None => True | Some rows => length rows = n end) b ->
  Forall (fun c => match c with None => True | Some rows => length rows = n end) b'.
Proof.
  revert P b'; induction b as [|c b IH]; intros P b' H F.
  - destruct H as [L _]. destruct b'; [constructor|discriminate].
  - destruct b' as [|c' b']; [constructor|].
    apply cells_cons_inv in H. destruct H as [H1 H2]. inversion F; subst.
    constructor; [|eapply IH; eauto].
    destruct c, c'; auto; try tauto. destruct H1. congruence.
Qed.

Lemma cells_rect P (b b' : batch) : cells P b b' -> rect b -> rect b'.
Proof.
  intros H HR. unfold rect. rewrite (same_shape_nb_rows _ _ _ H).
  eapply cells_lengths; eauto.
Qed.

(** The selection of rows [is] of [b]. *)
Definition sub_of (is : list nat) (b sub : batch) : Prop :=
  length sub = length b /\
  forall c, match nth c b None, nth c sub None with
            | None, None => True
            | Some r, Some s => is <> [] /\ length s = length is /\
                forall k i, nth_error is k = Some i -> nth_error s k = nth_error r i
            | Some r, None => is = []
            | None, Some _ => False
            end.

Lemma subselect_ok : forall (b : batch) is n,
  Forall (fun c => match c with None => True | Some rows => length rows = n end) b ->
  (forall i, In i is -> (i < n)%nat) ->
  exists sub, subselect b is = Ok sub /\ sub_of is b sub.
Proof.
  intros b is n HF Hi. unfold subselect, mapM. induction b as [|c b IH].
  - exists []. split; [reflexivity|]. split; [reflexivity|]. intros [|c]; cbn; auto.
  - inversion HF as [|? ? Hc HF']; subst. destruct (IH HF') as (sub & E & L & C).
    assert (exists c', subselect_column is c = Ok c' /\
      match c, c' with
            | None, None => True
            | Some r, Some s => is <> [] /\ length s = length is /\
                forall k i, nth_error is k = Some i -> nth_error s k = nth_error r i
            | Some r, None => is = []
            | None, Some _ => False
            end) as (c' & E' & H').
    { destruct c as [rows|]; cbn; [|exists None; auto].
      destruct (get_rows_ok rows is) as (s & Es & Ls & Ns); [intros i Hin; rewrite Hc; auto|].
      rewrite Es. cbn. destruct s as [|v s].
      - exists None. split; [reflexivity|]. now destruct is.
      - exists (Some (v :: s)). split; [reflexivity|]. split; [|split; assumption].
        intros ->. discriminate. }
    exists (c' :: sub). cbn. rewrite E'. cbn. rewrite E. cbn. split; [reflexivity|].
    split; [cbn; congruence|]. intros [|k]; cbn; [exact H'|apply C].
Qed.

Lemma sub_of_lengths is b sub : sub_of is b sub ->
  Forall (fun c => match c with None => True | Some rows => length rows = length is end) sub.
Proof.
  intros [L C]. apply Forall_nth. intros c d Hc. specialize (C c).
  unfold AugModel.batch in *. rewrite (nth_indep _ d None) by exact Hc.
  destruct (nth c b None), (nth c sub None); try tauto; exact I.
Qed.

Lemma nb_rows_cases (b : batch) n :
  Forall (fun c => match c with None => True | Some rows => length rows = n end) b ->
  nb_rows b = n \/ (nb_rows b = 0%nat /\ Forall (fun c => c = None) b).
Proof.
  induction b as [|c b IH]; intros H; [right; split; [reflexivity|constructor]|].
  inversion H; subst. destruct c; cbn; [now left|].
  destruct IH as [IH|[IH1 IH2]]; [assumption|now left|right]. split; [exact IH1|now constructor].
Qed.

Lemma lengths_rect (b : batch) n :
  Forall (fun c => match c with None => True | Some rows => length rows = n end) b -> rect b.
Proof.
  intros H. destruct (nb_rows_cases b n H) as [E|[E1 E2]]; unfold rect; [now rewrite E|].
  eapply Forall_impl; [|exact E2]. intros c ->. exact I.
Qed.

(** Writing back a processed selection changes the selected rows only. *)
Lemma invert_ok : forall (b sub sub' : batch) is n,
  Forall (fun c => match c with None => True | Some rows => length rows = n end) b ->
  NoDup is -> (forall i, In i is -> (i < n)%nat) ->
  sub_of is b sub -> same_shape sub sub' ->
  exists b', invert_subselect b is sub' = Ok b' /\ same_shape b b' /\
    forall c r r', nth c b None = Some r -> nth c b' None = Some r' ->
      (forall i, ~ In i is -> nth_error r' i = nth_error r i) /\
      (forall s', nth c sub' None = Some s' ->
         forall k i, nth_error is k = Some i -> nth_error r' i = nth_error s' k) /\
      (nth c sub' None = None -> is = []).
Proof.
  induction b as [|c b IH]; intros sub sub' is n HF ND Hi [SL SC] SS.
  - exists []. cbn. split; [now destruct sub'|]. split; [apply cells_refl; auto|].
    intros [|k] ? ? E; discriminate.
  - destruct sub as [|s sub]; [discriminate|].
    destruct sub' as [|s' sub']; [destruct SS; discriminate|].
    apply cells_cons_inv in SS. destruct SS as [SS1 SS2]. inversion HF as [|? ? Hc HF']; subst.
    destruct (IH sub sub' is n HF' ND Hi) as (b' & E & SH & C); auto.
    { split; [cbn in SL; lia|]. intros k. apply (SC (S k)). }
    specialize (SC 0%nat). cbn in SC.
    destruct c as [rows|].
    + destruct s as [srows|].
      * destruct SC as (NE & Ls & Ns). destruct s' as [srows'|]; [|tauto]. destruct SS1 as [Ls' _].
        destruct (set_rows_ok is rows srows') as (rows' & E' & L' & N' & O'); auto;
          [now rewrite Hc|lia|].
        exists (Some rows' :: b'). cbn. rewrite E'. cbn. rewrite E. cbn. split; [reflexivity|].
        split; [apply cells_cons; [split; auto|exact SH]|].
        intros [|k] r r' E1 E2; cbn in *; [|eapply C; eauto].
        injection E1 as <-. injection E2 as <-. split; [exact O'|].
        split; [|discriminate]. intros z Ez; injection Ez as <-. exact N'.
      * destruct s' as [srows'|]; [tauto|]. subst is.
        exists (Some rows :: b'). cbn. rewrite E. cbn. split; [reflexivity|].
        split; [apply cells_cons; [split; auto|exact SH]|].
        intros [|k] r r' E1 E2; cbn in *; [|eapply C; eauto].
        injection E1 as <-. injection E2 as <-. split; [reflexivity|]. split; [discriminate|auto].
    + destruct s as [srows|]; [tauto|]. destruct s' as [srows'|]; [tauto|].
      exists (None :: b'). cbn. rewrite E. cbn. split; [reflexivity|].
      split; [apply cells_cons; [exact I|exact SH]|].
      intros [|k] r r' E1 E2; cbn in *; [discriminate|eapply C; eauto].
Qed.

(** Process the selected rows with something that relates cells by [G]. *)
Lemma selected_rows_change : forall (b sub sub' : batch) is G,
  rect b -> NoDup is -> (forall i, In i is -> (i < nb_rows b)%nat) ->
  sub_of is b sub -> cells (fun c _ => G c) sub sub' ->
  exists b', invert_subselect b is sub' = Ok b' /\
    cells (fun c i x y => (In i is -> G c x y) /\ (~ In i is -> x = y)) b b'.
Proof.
  intros b sub sub' is G HR ND Hi HS HC.
  destruct (invert_ok b sub sub' is (nb_rows b)) as (b' & E & [L SH] & C); auto.
  { eapply cells_mono; [|exact HC]. auto. }
  exists b'. split; [exact E|]. split; [exact L|]. intros c. specialize (SH c).
  destruct (nth c b None) as [r|] eqn:E1, (nth c b' None) as [r'|] eqn:E2; auto.
  destruct SH as [SH _]. split; [exact SH|]. intros i x y Hx Hy.
  destruct (C c r r' E1 E2) as (C1 & C2 & C3). split.
  - intros Hin. apply In_nth_error in Hin. destruct Hin as [k Hk].
    destruct HS as [_ HS]. specialize (HS c). rewrite E1 in HS.
    destruct HC as [_ HC]. specialize (HC c).
    destruct (nth c sub' None) as [s'|] eqn:E3.
    + specialize (C2 s' eq_refl k i Hk). destruct (nth c sub None) as [s|]; [|tauto].
      destruct HS as (_ & Ls & Ns). destruct HC as [_ HC]. apply (HC k).
      * rewrite (Ns k i Hk). exact Hx.
      * rewrite <- C2. exact Hy.
    + rewrite (C3 eq_refl) in Hk. destruct k; discriminate.
  - intros Hn. rewrite (C1 i Hn) in Hy. congruence.
Qed.

(* ------------------------------------------------------------------ *)
(** * What executing a pipeline can do to the world *)

Lemma pre_draw_last : forall en key (smp : @sampler R) N n c st s c' st',
  pre_draw en key smp N n c st = (s, c', st') ->
  c_last c' = c_last c \/ c_last c' = Some key.
Proof.
  intros en key smp N n c st s c' st'. unfold pre_draw.
  destruct (negb en); [destruct (smp n st); intros E; injection E as <- <- <-; auto|].
  destruct (negb (key_eqb (c_last c) key)).
  { destruct (smp n st); intros E; injection E as <- <- <-; auto. }
  destruct (Nat.leb N n); [destruct (smp n st); intros E; injection E as <- <- <-; auto|].
  assert (Hp : forall c0 st0 c1 st1, prefetch smp N c0 st0 = (c1, st1) -> c_last c1 = c_last c0).
  { intros c0 st0 c1 st1. unfold prefetch. destruct (smp N st0). intros E; injection E as <- <-. reflexivity. }
  destruct (match c_samples c with None => prefetch smp N c st | Some _ => (c, st) end) as [c1 st1] eqn:E1.
  assert (H1 : c_last c1 = c_last c).
  { destruct (c_samples c); [injection E1 as <- <-; reflexivity|eapply Hp; eauto]. }
  cbv zeta. match goal with |- context[if ?x then _ else _] => destruct x end.
  - destruct (prefetch smp N c1 st1) as [c2 st2] eqn:E2. apply Hp in E2.
    intros E; injection E as <- <- <-. cbn. left. congruence.
  - intros E; injection E as <- <- <-. cbn. left. congruence.
Qed.

Section Inv.
Variable I : world -> world -> Prop.
Variable S : nat -> Prop.
Hypothesis Irefl : forall w, I w w.
Hypothesis Itrans : forall w1 w2 w3, I w1 w2 -> I w2 w3 -> I w1 w3.
Hypothesis Iset_st : forall w id s, S id -> I w (set_st w id s).
Hypothesis Iset_cache : forall w id i c, S id ->
  (c_last c = c_last (n_cache (w_node w id) i) \/ c_last c = Some (n_key (w_node w id))) ->
  I w (set_cache w id i c).

Lemma set_st_cache : forall (w : world) id s, n_cache (w_node (set_st w id s) id) = n_cache (w_node w id)
  /\ n_key (w_node (set_st w id s) id) = n_key (w_node w id).
Proof.
  intros w id s. unfold set_st. destruct (n_rng (w_node w id)); cbn; auto.
  rewrite Nat.eqb_refl. auto.
Qed.

Lemma run_prog_inv : forall {A} en id (p : prog R A) w a w', S id ->
  run_prog en id p w = (a, w') -> I w w'.
Proof.
  intros A en id p; induction p as [a|op k IH|i smp N n k IH]; intros w a0 w' HS E; cbn in E.
  - injection E as <- <-. apply Irefl.
  - destruct (op (get_st w id)) as [s st1]. eapply Itrans; [apply (Iset_st w id st1 HS)|].
    eapply IH; eauto.
  - destruct (pre_draw _ _ _ _ _ _ _) as [[s c1] st1] eqn:Ep.
    eapply Itrans; [apply (Iset_st w id st1 HS)|].
    eapply Itrans; [apply (Iset_cache _ id i c1 HS)|eapply IH; eauto].
    destruct (set_st_cache w id st1) as [-> ->]. eapply pre_draw_last; eauto.
Qed.

Lemma col_loop_inv : forall det restore id body (b : batch) pos w b' w', S id ->
  col_loop det restore id body pos b w = (b', w') -> I w w'.
Proof.
  intros det restore id body b; induction b as [|c b IH]; intros pos w b' w' HS E; cbn in E.
  - injection E as <- <-. apply Irefl.
  - destruct c as [[|x l]|].
    + destruct (col_loop _ _ _ _ _ _ _) eqn:E1. injection E as <- <-. eapply IH; eauto.
    + destruct (run_prog _ _ _ _) as [v w1] eqn:E1.
      destruct (col_loop det restore id body (Datatypes.S pos) b _) as [rest w3] eqn:E2.
      injection E as <- <-. eapply Itrans; [eapply run_prog_inv; eauto|].
      eapply Itrans; [|eapply IH; eauto]. destruct restore; [now apply Iset_st|apply Irefl].
    + destruct (col_loop _ _ _ _ _ _ _) eqn:E1. injection E as <- <-. eapply IH; eauto.
Qed.

Lemma draw_order_inv : forall id o n w order w', S id -> draw_order id o n w = (order, w') -> I w w'.
Proof.
  intros id o n w order w' HS E. unfold draw_order in E. destruct o.
  - destruct (permutation R n (get_st w id)). injection E as <- <-. now apply Iset_st.
  - injection E as <- <-. apply Irefl.
Qed.

Lemma shuffle_rows_inv : forall id rows w l w', S id -> shuffle_rows id rows w = (l, w') -> I w w'.
Proof.
  intros id rows; induction rows as [|r rows IH]; intros w l w' HS E; cbn in E.
  - injection E as <- <-. apply Irefl.
  - destruct (shuffle R r (get_st w id)) as [r' st1].
    destruct (shuffle_rows id rows _) as [rs' w1] eqn:E1. injection E as <- <-.
    eapply Itrans; [apply (Iset_st w id st1 HS)|eapply IH; eauto].
Qed.

Lemma draw_active_inv : forall id n nc ni w l w', S id -> draw_active id n nc ni w = (l, w') -> I w w'.
Proof.
  intros id n nc ni w l w' HS E. unfold draw_active in E.
  destruct (draw_n id n nc ni w) as [nn w1] eqn:E1.
  eapply Itrans; [|eapply shuffle_rows_inv; eauto].
  unfold draw_n in E1. destruct n.
  - injection E1 as <- <-. apply Irefl.
  - injection E1 as <- <-. apply Irefl.
  - destruct (discrete_uniform _ _ _ _). injection E1 as <- <-. now apply Iset_st.
  - destruct (smp _ _). injection E1 as <- <-. now apply Iset_st.
Qed.

Definition finv (f : world -> batch -> res (batch * world)) : Prop :=
  forall w b b' w', f w b = Ok (b', w') -> I w w'.

Lemma seq_loop_inv : forall fs order, Forall finv fs -> finv (seq_loop fs order).
Proof.
  intros fs order HF; induction order as [|i is IH]; intros w b b' w' E; cbn in E.
  - injection E as <- <-. apply Irefl.
  - destruct (nth_error fs i) as [f|] eqn:Ef; [|discriminate].
    apply bind_ok in E. destruct E as ([b1 w1] & E1 & E2). cbn in E2.
    apply nth_error_In in Ef. rewrite Forall_forall in HF.
    eapply Itrans; [eapply HF; eauto|eapply IH; eauto].
Qed.

Lemma someof_loop_inv : forall fs active order, Forall finv fs -> finv (someof_loop fs active order).
Proof.
  intros fs active order HF; induction order as [|i is IH]; intros w b b' w' E; cbn in E.
  - injection E as <- <-. apply Irefl.
  - destruct (nonzero _) as [|k ks]; [eapply IH; eauto|].
    destruct (nth_error fs i) as [f|] eqn:Ef; [|discriminate].
    apply bind_ok in E. destruct E as (sub & E1 & E).
    apply bind_ok in E. destruct E as ([sub' w1] & E2 & E).
    apply bind_ok in E. destruct E as (b1 & E3 & E). cbn in E, E3.
    apply nth_error_In in Ef. rewrite Forall_forall in HF.
    eapply Itrans; [eapply HF; eauto|eapply IH; eauto].
Qed.

Lemma sometimes_branch_inv : forall f rows, (forall g, f = Some g -> finv g) ->
  finv (sometimes_branch f rows).
Proof.
  intros [f|] rows HF w b b' w' E; cbn in E.
  - apply bind_ok in E. destruct E as (sub & E1 & E).
    apply bind_ok in E. destruct E as ([sub' w1] & E2 & E).
    apply bind_ok in E. destruct E as (b1 & E3 & E). cbn in E, E3. injection E as <- <-.
    eapply HF; eauto.
  - injection E as <- <-. apply Irefl.
Qed.

Lemma propagating_inv : forall hk id parents f, finv f -> finv (propagating hk id parents f).
Proof.
  intros hk id parents f HF w b b' w' E. unfold propagating in E.
  apply bind_ok in E. destruct E as ([b1 w1] & E1 & E). cbn in E. injection E as <- <-.
  eapply HF; eauto.
Qed.

Lemma augment_batch_inv : forall hk id parents f, S id -> finv f -> finv (augment_batch hk id parents f).
Proof.
  intros hk id parents f HS HF w b b' w' E. unfold augment_batch in E.
  apply bind_ok in E. destruct E as ([b1 w1] & E1 & E). cbn in E. injection E as <- <-.
  destruct (Nat.eqb _ 0).
  - injection E1 as <- <-. apply Irefl.
  - apply bind_ok in E1. destruct E1 as ([b2 w2] & E2 & E1). cbn in E1. injection E1 as <- <-.
    apply HF in E2. destruct (n_det (w_node w id)); [|exact E2].
    eapply Itrans; [exact E2|]. now apply Iset_st.
Qed.

Lemma run_inv : forall hk a parents, (forall id, In id (ids a) -> S id) -> finv (run hk parents a).
Proof.
  intros hk a. induction a using aug_ind2; intros parents HS; cbn -[augment_batch propagating].
  - apply augment_batch_inv; [apply HS; now left|]. intros w b b' w' E.
    apply Ok_inj in E. eapply run_prog_inv; [apply HS; now left|exact E].
  - apply augment_batch_inv; [apply HS; now left|]. intros w b b' w' E. unfold run_columns in E.
    destruct (col_loop _ _ _ _ _ _ _) as [b1 w1] eqn:E1. apply Ok_inj in E. injection E as <- <-.
    assert (S id) by (apply HS; now left).
    eapply Itrans; [eapply col_loop_inv; eauto|].
    destruct (_ && _); [now apply Iset_st|apply Irefl].
  - apply augment_batch_inv; [apply HS; now left|]. apply propagating_inv. intros w b b' w' E.
    destruct (draw_order _ _ _ _) as [order w1] eqn:E1.
    eapply Itrans; [eapply draw_order_inv; [apply HS; now left|exact E1]|].
    eapply seq_loop_inv; [|exact E]. apply Forall_map. rewrite Forall_forall in *.
    intros c Hc. apply H; [exact Hc|]. intros j Hj. apply HS. right. apply in_flat_map. eauto.
  - apply augment_batch_inv; [apply HS; now left|]. apply propagating_inv. intros w b b' w' E.
    destruct (draw_order _ _ _ _) as [order w1] eqn:E1.
    eapply Itrans; [eapply draw_order_inv; [apply HS; now left|exact E1]|].
    destruct (draw_active _ _ _ _ _) as [active w2] eqn:E2.
    eapply Itrans; [eapply draw_active_inv; [apply HS; now left|exact E2]|].
    eapply someof_loop_inv; [|exact E]. apply Forall_map. rewrite Forall_forall in *.
    intros c Hc. apply H; [exact Hc|]. intros j Hj. apply HS. right. apply in_flat_map. eauto.
  - apply augment_batch_inv; [apply HS; now left|]. apply propagating_inv. intros w b b' w' E.
    destruct (pre_draw _ _ _ _ _ _ _) as [[s c1] st1] eqn:Ep.
    assert (Hid : S id) by (apply HS; now left).
    eapply Itrans; [apply (Iset_st w id st1 Hid)|].
    eapply Itrans; [apply (Iset_cache _ id 0 c1 Hid)|].
    { destruct (set_st_cache w id st1) as [-> ->]. eapply pre_draw_last; eauto. }
    apply bind_ok in E. destruct E as ([b1 w1] & E1 & E). cbn in E.
    eapply Itrans; eapply sometimes_branch_inv; eauto.
    + intros g. destruct t as [a|]; [|discriminate]. destruct (Nat.eqb _ _); [discriminate|].
      intros Eg; injection Eg as <-. apply H; [reflexivity|].
      intros j Hj. apply HS. right. apply in_or_app. now left.
    + intros g. destruct e as [a|]; [|discriminate]. destruct (Nat.eqb _ _); [discriminate|].
      intros Eg; injection Eg as <-. apply H0; [reflexivity|].
      intros j Hj. apply HS. right. apply in_or_app. now right.
  - apply augment_batch_inv; [apply HS; now left|]. apply propagating_inv. intros w b b' w' E.
    apply bind_ok in E. destruct E as (b1 & E1 & E).
    apply bind_ok in E. destruct E as ([b2 w2] & E2 & E).
    apply bind_ok in E. destruct E as (b3 & E3 & E). injection E as <- <-. cbn.
    eapply IHa; [|exact E2]. intros j Hj. apply HS. now right.
Qed.
End Inv.

(** Flags never change. *)
Definition same_flags (w w' : world) : Prop :=
  forall id, n_act (w_node w' id) = n_act (w_node w id) /\ n_det (w_node w' id) = n_det (w_node w id).

Lemma set_st_flags : forall (w : world) id s, same_flags w (set_st w id s).
Proof.
  intros w id s j. unfold set_st. destruct (n_rng (w_node w id)); cbn; auto.
  destruct (Nat.eqb_spec j id); subst; cbn; auto.
Qed.
Lemma set_cache_flags : forall (w : world) id i c, same_flags w (set_cache w id i c).
Proof.
  intros w id i c j. unfold set_cache. cbn. destruct (Nat.eqb_spec j id); subst; cbn; auto.
Qed.
Lemma same_flags_trans : forall w1 w2 w3 : world, same_flags w1 w2 -> same_flags w2 w3 -> same_flags w1 w3.
Proof. intros w1 w2 w3 H1 H2 j. destruct (H1 j), (H2 j). split; congruence. Qed.
Lemma same_flags_refl : forall (w : world), same_flags w w.
Proof. intros w j; auto. Qed.

Lemma run_flags : forall hk parents (a : aug) w b b' w', run hk parents a w b = Ok (b', w') -> same_flags w w'.
Proof.
  intros hk parents a. apply (run_inv same_flags (fun _ => True)); auto.
  - exact same_flags_refl.
  - exact same_flags_trans.
  - intros; apply set_st_flags.
  - intros; apply set_cache_flags.
Qed.
Lemma run_prog_flags : forall {A} en id (p : prog R A) w a w', run_prog en id p w = (a, w') -> same_flags w w'.
Proof.
  intros. eapply (run_prog_inv same_flags (fun _ => True)); eauto using same_flags_refl, same_flags_trans.
  - intros; apply set_st_flags.
  - intros; apply set_cache_flags.
Qed.
Lemma draw_order_flags : forall id o n w order w', draw_order id o n w = (order, w') -> same_flags w w'.
Proof.
  intros. eapply (draw_order_inv same_flags (fun _ => True)); eauto using same_flags_refl, same_flags_trans.
  intros; apply set_st_flags.
Qed.
Lemma draw_active_flags : forall id n nc ni w l w', draw_active id n nc ni w = (l, w') -> same_flags w w'.
Proof.
  intros. eapply (draw_active_inv same_flags (fun _ => True)); eauto using same_flags_refl, same_flags_trans.
  intros; apply set_st_flags.
Qed.

Lemma all_active_flags : forall (w w' : world) (a : aug), same_flags w w' -> all_active w a -> all_active w' a.
Proof. intros w w' a HF H id Hid. destruct (HF id) as [-> _]. auto. Qed.

(* ------------------------------------------------------------------ *)
(** * Running without hooks *)

Lemma map_columns_some : forall (b : batch) pos (f : nat -> list V -> option (list V)),
  (forall i l, f i l = Some l) -> map_columns f pos b = b.
Proof.
  intros b; induction b as [|c b IH]; intros pos f H; [reflexivity|].
  destruct c as [[|x l]|]; cbn; rewrite ?H, IH; auto.
Qed.
Lemma unhide_true : forall keep (b : batch) pos (b' : batch), (forall i l, keep i l = true) ->
  unhide_from keep pos b b' = b'.
Proof.
  intros keep b; induction b as [|c b IH]; intros pos b' H; [reflexivity|].
  destruct c as [[|x l]|], b' as [|c' b']; cbn; rewrite ?H, ?IH; auto.
Qed.
Lemma hide_true : forall keep (b : batch), (forall i l, keep i l = true) -> hide keep b = b.
Proof. intros keep b H. apply map_columns_some. intros; now rewrite H. Qed.

Lemma propagating_none : forall id parents f (w : world) (b : batch), propagating None id parents f w b =
  bind (f w b) (fun r => Ok r).
Proof.
  intros. unfold propagating. rewrite hide_true by reflexivity.
  destruct (f w b) as [[b' w']|e]; cbn; [|reflexivity]. unfold unhide. now rewrite unhide_true by reflexivity.
Qed.

Lemma augment_batch_none : forall id parents f (w : world) (b : batch), n_act (w_node w id) = true ->
  augment_batch None id parents f w b =
  if Nat.eqb (nb_rows b) 0 then Ok (b, w)
  else bind (f w b) (fun r => Ok (fst r, if n_det (w_node w id) then set_st (snd r) id (get_st w id) else snd r)).
Proof.
  intros id parents f w b Ha. unfold augment_batch. cbn [hook_preprocess hook_postprocess].
  rewrite hide_true by (intros; unfold hook_activated; now rewrite Ha).
  destruct (Nat.eqb (nb_rows b) 0).
  - cbn. unfold unhide. now rewrite unhide_true by (intros; unfold hook_activated; now rewrite Ha).
  - destruct (f w b) as [[b' w']|e]; cbn; [|reflexivity].
    unfold unhide. now rewrite unhide_true by (intros; unfold hook_activated; now rewrite Ha).
Qed.

Lemma rect_empty_cells : forall (b : batch) P, rect b -> nb_rows b = 0%nat -> cells P b b.
Proof.
  intros b P HR E. split; [reflexivity|]. intros c.
  destruct (nth c b None) as [r|] eqn:Ec; auto. split; [reflexivity|].
  intros i x y Hx _. exfalso. unfold rect in HR. rewrite Forall_forall in HR.
  assert (In (Some r) b).
  { rewrite <- Ec. apply nth_In. destruct (Nat.lt_ge_cases c (length b)) as [L|L]; [exact L|].
    rewrite nth_overflow in Ec by exact L. discriminate. }
  specialize (HR _ H). cbn in HR. rewrite E in HR. destruct r; [|discriminate]. now destruct i.
Qed.

(** An augmenter whose body relates the cells of any non-empty batch. *)
Lemma augment_batch_cells : forall id parents f (w : world) (b : batch) P,
  n_act (w_node w id) = true -> rect b ->
  (nb_rows b <> 0%nat -> exists b' w', f w b = Ok (b', w') /\ cells P b b') ->
  exists b' w', augment_batch None id parents f w b = Ok (b', w') /\ cells P b b'.
Proof.
  intros id parents f w b P Ha HR Hf. rewrite augment_batch_none by exact Ha.
  destruct (Nat.eqb_spec (nb_rows b) 0).
  - exists b, w. split; [reflexivity|]. now apply rect_empty_cells.
  - destruct (Hf n) as (b' & w' & E & C). rewrite E. cbn. eauto.
Qed.

(** Sequential execution of children in an order. *)
Lemma seq_loop_cells : forall (children : list aug) Gs parents order w b,
  Forall2 acts children Gs -> rect b ->
  (forall c, In c children -> all_active w c) ->
  (forall j, In j order -> (j < length children)%nat) ->
  exists b' w', seq_loop (map (run None parents) children) order w b = Ok (b', w') /\
    cells (fun c _ => via Gs order c) b b'.
Proof.
  intros children Gs parents order; induction order as [|j js IH]; intros w b HA HR HW HO.
  - exists b, w. split; [reflexivity|]. apply cells_refl. reflexivity.
  - cbn. rewrite nth_error_map.
    destruct (nth_error children j) as [a|] eqn:Ej;
      [|apply nth_error_None in Ej; specialize (HO j (or_introl eq_refl)); lia].
    cbn. pose proof (nth_error_In _ _ Ej) as Hin.
    assert (HG : acts a (nth j Gs (fun _ _ _ => False))).
    { clear - HA Ej. revert j Ej. induction HA as [|x y l l' H HA IH]; intros [|j] E; try discriminate; cbn in *.
      - injection E as <-. exact H.
      - now apply IH. }
    destruct (HG parents w b HR (HW a Hin)) as (b1 & w1 & E1 & C1). rewrite E1. cbn.
    destruct (IH w1 b1) as (b2 & w2 & E2 & C2); auto.
    + eapply cells_rect; eauto.
    + intros c Hc. eapply all_active_flags; [eapply run_flags; eauto|auto].
    + intros k Hk. apply HO. now right.
    + exists b2, w2. split; [exact E2|]. eapply cells_comp; [|exact C1|exact C2].
      cbn. intros; eauto.
Qed.

Lemma nth_F2 : forall {A B} (P : A -> B -> Prop) l l' j a d, Forall2 P l l' ->
  nth_error l j = Some a -> P a (nth j l' d).
Proof.
  intros A B P l l' j a d H; revert j; induction H; intros [|j] E; try discriminate; cbn in *.
  - injection E as <-. assumption.
  - auto.
Qed.

(* -------- selection of active children -------- *)

Lemma nonzero_from_spec : forall v i k,
  In k (nonzero_from i v) <-> (i <= k)%nat /\ nth (k - i) v false = true.
Proof.
  induction v as [|x v IH]; intros i k; cbn.
  - split; [tauto|]. intros [_ H]. destruct (k - i)%nat; discriminate.
  - destruct x; cbn; rewrite IH; split.
    + intros [->|[H1 H2]]; [split; [lia|]; now rewrite Nat.sub_diag|].
      split; [lia|]. replace (k - i)%nat with (S (k - S i)) by lia. exact H2.
    + intros [H1 H2]. destruct (Nat.eq_dec i k); [now left|right]. split; [lia|].
      replace (k - i)%nat with (S (k - S i)) in H2 by lia. exact H2.
    + intros [H1 H2]. split; [lia|]. replace (k - i)%nat with (S (k - S i)) by lia. exact H2.
    + intros [H1 H2]. destruct (Nat.eq_dec i k); [subst; now rewrite Nat.sub_diag in H2|].
      split; [lia|]. replace (k - i)%nat with (S (k - S i)) in H2 by lia. exact H2.
Qed.
Lemma nonzero_spec : forall v k, In k (nonzero v) <-> nth k v false = true.
Proof. intros v k. unfold nonzero. rewrite nonzero_from_spec, Nat.sub_0_r. intuition lia. Qed.
Lemma nonzero_from_nodup : forall v i, NoDup (nonzero_from i v).
Proof.
  induction v as [|x v IH]; intros i; cbn; [constructor|]. destruct x; [|apply IH].
  constructor; [|apply IH]. rewrite nonzero_from_spec. lia.
Qed.
Lemma nonzero_nodup : forall v, NoDup (nonzero v).
Proof. intros; apply nonzero_from_nodup. Qed.
Lemma nonzero_lt : forall v k, In k (nonzero v) -> (k < length v)%nat.
Proof.
  intros v k H. apply nonzero_spec in H. destruct (Nat.lt_ge_cases k (length v)); [assumption|].
  rewrite nth_overflow in H by assumption. discriminate.
Qed.

(** One child on its rows. *)
Lemma child_on_rows : forall (a : aug) G parents w b rows,
  acts a G -> rect b -> all_active w a ->
  NoDup rows -> (forall i, In i rows -> (i < nb_rows b)%nat) ->
  exists sub sub' w' b', subselect b rows = Ok sub /\
    run None parents a w sub = Ok (sub', w') /\ invert_subselect b rows sub' = Ok b' /\
    same_flags w w' /\
    cells (fun c i x y => (In i rows -> G c x y) /\ (~ In i rows -> x = y)) b b'.
Proof.
  intros a G parents w b rows HA HR HW ND HL.
  destruct (subselect_ok b rows (nb_rows b) HR HL) as (sub & E1 & S1).
  pose proof (lengths_rect _ _ (sub_of_lengths _ _ _ S1)) as HR'.
  destruct (HA parents w sub HR' HW) as (sub' & w' & E2 & C2).
  destruct (selected_rows_change b sub sub' rows G HR ND HL S1 C2) as (b' & E3 & C3).
  exists sub, sub', w', b'. repeat split; auto; try apply (run_flags _ _ _ _ _ _ _ E2); apply C3.
Qed.

Lemma someof_loop_cells : forall (children : list aug) Gs parents active order w b,
  Forall2 acts children Gs -> rect b -> length active = nb_rows b ->
  (forall c, In c children -> all_active w c) ->
  (forall j, In j order -> (j < length children)%nat) ->
  exists b' w', someof_loop (map (run None parents) children) active order w b = Ok (b', w') /\
    cells (fun c i => via Gs (filter (fun j => nth j (nth i active []) false) order) c) b b'.
Proof.
  intros children Gs parents active order; induction order as [|j js IH]; intros w b HA HR HL HW HO.
  - exists b, w. split; [reflexivity|]. apply cells_refl. reflexivity.
  - cbn [someof_loop].
    set (v := map (fun r => nth j r false) active).
    assert (Hv : forall i, nth i v false = nth j (nth i active []) false).
    { intros i. unfold v. destruct (Nat.lt_ge_cases i (length active)).
      - rewrite (nth_indep _ false ((fun r => nth j r false) [])) by now rewrite map_length.
        now rewrite (map_nth (fun r => nth j r false)).
      - rewrite (nth_overflow (map _ _)) by now rewrite map_length.
        rewrite (nth_overflow active) by assumption. now destruct j. }
    destruct (nonzero v) as [|k ks] eqn:Ek.
    + destruct (IH w b) as (b' & w' & E & C); auto; [intros; apply HO; now right|].
      exists b', w'. split; [exact E|]. eapply cells_mono; [|exact C].
      intros c i x y H. cbn. rewrite <- Hv.
      destruct (nth i v false) eqn:E1; [|exact H].
      apply nonzero_spec in E1. rewrite Ek in E1. destruct E1.
    + rewrite <- Ek. rewrite nth_error_map.
      destruct (nth_error children j) as [a|] eqn:Ej;
        [|apply nth_error_None in Ej; specialize (HO j (or_introl eq_refl)); lia].
      cbn [option_map]. pose proof (nth_error_In _ _ Ej) as Hin.
      pose proof (nth_F2 _ _ _ _ _ (fun _ _ _ => False) HA Ej) as HG.
      destruct (child_on_rows a _ parents w b (nonzero v) HG HR (HW a Hin) (nonzero_nodup v))
        as (sub & sub' & w1 & b1 & E1 & E2 & E3 & F1 & C1).
      { intros i Hi. apply nonzero_lt in Hi. unfold v in Hi. rewrite map_length in Hi. lia. }
      rewrite E1; cbn [bind]. rewrite E2; cbn [bind fst snd]. rewrite E3; cbn [bind].
      destruct (IH w1 b1) as (b2 & w2 & E4 & C2); auto.
      * eapply cells_rect; eauto.
      * rewrite (same_shape_nb_rows _ _ _ C1). exact HL.
      * intros c Hc. eapply all_active_flags; eauto.
      * intros; apply HO; now right.
      * exists b2, w2. split; [exact E4|]. eapply cells_comp; [|exact C1|exact C2].
        intros c i x y z [H1 H2] H3. cbn. rewrite <- Hv.
        destruct (nth i v false) eqn:Ei.
        -- exists y. split; [|exact H3]. apply H1. now apply nonzero_spec.
        -- rewrite H2; [exact H3|]. rewrite nonzero_spec. congruence.
Qed.

End P.
