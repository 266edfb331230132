(** Proofs about input normalization. *)
From Verif Require Import Prelude PreludeFacts DtyModel DtySpec DtyProofs MapModel NormModel NormSpec.
From Coq Require Import Lia Lqa.
Local Open Scope Q_scope.

(** * Numbers that arrays can hold *)
Lemma Qred_of : forall r x, r == x -> Qred x = x -> Qred r = x.
Proof. intros r x E H. rewrite (Qred_complete r x E). exact H. Qed.

Lemma f32c_holds : forall d x, holds d x -> f32c x = x.
Proof.
  intros d x [R H]. unfold f32c. apply Qred_of; [|exact R].
  assert (I : forall n, x = inject_Z n -> (Z.abs n <= 2 ^ 24)%Z -> to_float 24 x == x).
  { intros n -> A. apply to_float_Z; [lia|exact A]. }
  destruct d as [b|b|p e].
  - destruct H as (n & lo & hi & E & _ & _ & A). exact (I n E A).
  - destruct H as (n & lo & hi & E & _ & _ & A). exact (I n E A).
  - destruct H as ((m & k & E & _ & A) & _). apply (to_float_exact 24 24 x m k); [lia|exact E|lia].
Qed.

Lemma int_bounds : forall d, In d array_dtypes -> is_float d = false ->
  exists lo hi lo' hi', range_of d = (lo, hi) /\
    bound_in float32 lo == inject_Z lo' /\ bound_in float32 hi == inject_Z hi' /\
    (lo' <= lo)%Z /\ (hi <= hi')%Z /\ dtype_eqb float32 d = false.
Proof.
  intros d H F. unfold array_dtypes in H. cbn [In] in H.
  assert (K : forall d, is_float d = false -> (
    let lo := fst (range_of d) in let hi := snd (range_of d) in
    let lo' := np_round (bound_in float32 lo) in let hi' := np_round (bound_in float32 hi) in
    Qeq_bool (bound_in float32 lo) (inject_Z lo') && Qeq_bool (bound_in float32 hi) (inject_Z hi') &&
    (lo' <=? lo)%Z && (hi <=? hi')%Z && negb (dtype_eqb float32 d) = true) ->
    exists lo hi lo' hi', range_of d = (lo, hi) /\
    bound_in float32 lo == inject_Z lo' /\ bound_in float32 hi == inject_Z hi' /\
    (lo' <= lo)%Z /\ (hi <= hi')%Z /\ dtype_eqb float32 d = false).
  { clear. intros d F E. cbv zeta in E. rewrite !andb_true_iff in E. destruct E as ((((E1 & E2) & E3) & E4) & E5).
    apply Qeq_bool_eq in E1, E2. apply Z.leb_le in E3, E4. apply negb_true_iff in E5.
    exists (fst (range_of d)), (snd (range_of d)), (np_round (bound_in float32 (fst (range_of d)))),
      (np_round (bound_in float32 (snd (range_of d)))).
    split; [destruct (range_of d); reflexivity|]. exact (conj E1 (conj E2 (conj E3 (conj E4 E5)))). }
  repeat (destruct H as [<- | H]; [first [discriminate F | apply K; [reflexivity|vm_compute; reflexivity]]|]).
  contradiction.
Qed.

Lemma int_range_of : forall d lo hi lo' hi', int_range d lo hi -> range_of d = (lo', hi') -> lo' = lo /\ hi' = hi.
Proof. intros d lo hi lo' hi' H E. rewrite (range_of_int _ _ _ H) in E. injection E as <- <-. split; reflexivity. Qed.

Lemma restore_int : forall d x, In d array_dtypes -> is_float d = false -> holds d x ->
  exists r, change_dtype float32 d x true true = Ok r /\ Qred r = x.
Proof.
  intros d x D F [R H].
  assert (I : exists n lo hi, x = inject_Z n /\ int_range d lo hi /\ (lo <= n <= hi)%Z /\ (Z.abs n <= 2 ^ 24)%Z).
  { destruct d; [exact H|exact H|discriminate F]. }
  destruct I as (n & lo & hi & -> & IR & N & A). clear H.
  destruct (int_bounds d D F) as (lo0 & hi0 & lo' & hi' & RO & B1 & B2 & L1 & L2 & NE).
  destruct (int_range_of _ _ _ _ _ IR RO) as [-> ->].
  exists (inject_Z n). split; [|exact R].
  unfold change_dtype. rewrite NE, F. cbn [andb negb is_float float32].
  rewrite RO. cbn [fst snd].
  rewrite (np_round_eq (inject_Z n) n (Qeq_refl _)).
  assert (C : exists r, clip_ float32 (inject_Z n) lo hi = Ok r /\ r == inject_Z n).
  { unfold clip_. cbn [gated float32].
    change (range_of (DF 24 104)) with (range_of float32). destruct (range_of float32) as [slo shi].
    change (bound_in (DF 24 104)) with (bound_in float32).
    eexists. split; [reflexivity|].
    assert (V1 : (if (lo <? slo)%Z then inject_Z n else qmax (inject_Z n) (bound_in float32 lo)) == inject_Z n).
    { destruct (lo <? slo)%Z; [reflexivity|].
      rewrite (qmax_compat _ _ _ _ (Qeq_refl _) B1).
      assert (inject_Z lo' <= inject_Z n) by (rewrite <- Zle_Qle; lia). qminmax; lra. }
    set (v1 := if (lo <? slo)%Z then _ else _) in *. clearbody v1.
    destruct (shi <? hi)%Z; [exact V1|].
    rewrite (qmin_compat _ _ _ _ V1 B2).
    assert (inject_Z n <= inject_Z hi') by (rewrite <- Zle_Qle; lia). qminmax; lra. }
  destruct C as (r & -> & RV). cbn [bind].
  exact (astype_int float32 d lo hi r n IR RV N).
Qed.

Lemma restore_float : forall d x, In d array_dtypes -> is_float d = true -> holds d x ->
  exists r, change_dtype float32 d x true true = Ok r /\ Qred r = x.
Proof.
  intros d x D F H. unfold array_dtypes in D. cbn [In] in D.
  repeat (destruct D as [<- | D]; [try discriminate F|]); [| | |contradiction];
    destruct H as (R & (m & k & V & M1 & M2) & B1 & B2).
  - (* float16 *)
    destruct (widen_float 11 5 24 104 x m k) as (r & r' & C1 & C2 & C3 & C4);
      [lia|lia|vm_compute; reflexivity|exact V|exact M1|exact B1|].
    (* converting x itself *)
    destruct (bound_float_exact 11 5 24 104) as [U1 U2]; [lia|lia|].
    set (M0 := ((2 ^ 11 - 1) * 2 ^ 5)%Z) in *.
    assert (C : exists c, clip_ (DF 24 104) x (- M0) M0 = Ok c /\ c == x).
    { unfold clip_. cbn [gated range_of]. eexists. split; [reflexivity|].
      destruct (Z.ltb_spec (- M0) (- ((2 ^ 24 - 1) * 2 ^ 104))); [exfalso; vm_compute in H; discriminate|].
      destruct (Z.ltb_spec ((2 ^ 24 - 1) * 2 ^ 104) M0) as [H'|H']; [exfalso; vm_compute in H'; discriminate|].
      rewrite (qmin_compat _ _ _ _ (qmax_compat _ _ _ _ (Qeq_refl x) U2) U1). rewrite inject_Z_opp. qminmax; lra. }
    destruct C as (c & CE & CV).
    exists (to_float 11 c). split.
    { change (change_dtype float32 (DF 11 5) x true true) with
        (do v2 <- clip_ (DF 24 104) x (- M0) M0; astype float32 (DF 11 5) v2). rewrite CE. reflexivity. } apply Qred_of; [|exact R].
    transitivity c; [|exact CV]. apply (to_float_exact 11 11 c m k); [lia|rewrite CV; exact V|lia].
  - exists x. split; [reflexivity|exact R].
  - destruct (widen_float 24 104 53 971 x m k) as (r & r' & C1 & C2 & C3 & C4);
      [lia|lia|vm_compute; reflexivity|exact V|exact M2|exact B2|].
    exists r. split; [exact C1|]. apply Qred_of; [exact C2|exact R].
Qed.

Lemma restore_holds : forall d x, In d array_dtypes -> holds d x ->
  exists r, change_dtype float32 d x true true = Ok r /\ Qred r = x.
Proof.
  intros d x D H. destruct (is_float d) eqn:F; [apply restore_float|apply restore_int]; assumption.
Qed.

Lemma restore_all : forall d l, In d array_dtypes -> Forall (holds d) l ->
  exists l', restore_dtypes float32 d l = Ok l' /\ map Qred l' = l.
Proof.
  intros d l D F. unfold restore_dtypes. induction F as [|x l X F (l' & IH1 & IH2)].
  - exists []. split; reflexivity.
  - destruct (restore_holds d x D X) as (r & R1 & R2).
    exists (r :: l'). unfold mapM in *. cbn [map sequence]. rewrite R1. cbn [bind]. rewrite IH1. cbn [bind map]. rewrite R2, IH2.
    split; reflexivity.
Qed.

Lemma restore_rows : forall d rows, In d array_dtypes -> Forall (Forall (holds d)) rows ->
  restore (ANum d) rows = Ok (concat rows).
Proof.
  intros d rows D F. unfold restore.
  destruct (restore_all d (concat rows) D) as (l' & -> & E).
  - clear D. induction F; cbn [concat]; [constructor|apply Forall_app; split; assumption].
  - cbn [bind]. rewrite E. reflexivity.
Qed.

Lemma f32_row : forall d row, Forall (holds d) row -> map f32c row = row.
Proof. intros d row F. induction F as [|x l X F IH]; cbn [map]; [reflexivity|]. rewrite (f32c_holds d x X), IH. reflexivity. Qed.

Lemma construct_ok : forall c row, ordered c row -> construct c row = row.
Proof.
  intros c row O. destruct c; [reflexivity|].
  destruct row as [|x1 [|y1 [|x2 [|y2 [|? ?]]]]]; try reflexivity.
  destruct O as [O1 O2]. cbn [construct].
  assert (A : qltb x2 x1 = false) by (destruct (qltb x2 x1) eqn:E; [apply qltb_iff in E; lra|reflexivity]).
  assert (B : qltb y2 y1 = false) by (destruct (qltb y2 y1) eqn:E; [apply qltb_iff in E; lra|reflexivity]).
  rewrite A, B. reflexivity.
Qed.

(** * Groups *)
Lemma groups_concat : forall k rows, Forall (fun r => length r = k) rows -> groups (length rows) k (concat rows) = rows.
Proof.
  intros k rows F. induction F as [|r rows R F IH]; [reflexivity|].
  cbn [length groups concat]. subst k.
  rewrite firstn_app, firstn_all, Nat.sub_diag, firstn_O, app_nil_r.
  rewrite skipn_app, skipn_all, Nat.sub_diag. cbn [app skipn]. rewrite IH. reflexivity.
Qed.

Lemma concat_length_const : forall (m : nat) (rows : list (list Q)), Forall (fun r => length r = m) rows ->
  length (concat rows) = (length rows * m)%nat.
Proof.
  intros m rows F. induction F as [|r rows R F IH]; [reflexivity|].
  cbn [concat length]. rewrite app_length, IH, R. lia.
Qed.

(** * Types of the forms *)
Lemma single_eqb_refl : forall c, single_eqb c c = true.
Proof. destruct c; reflexivity. Qed.

Definition floop (t : bool) (l0 : list pv) (parents : list pv) :=
  fix loop (l : list pv) (deepest : pv * bool * list pv) : pv * bool * list pv :=
    match l with
    | [] => deepest
    | attr_i :: l' =>
        let '(nonempty, success, found) := find_first attr_i (parents ++ [PSeq t l0]) in
        if success then (nonempty, success, found)
        else if Nat.ltb (length (snd deepest)) (length found)
        then loop l' (nonempty, success, found) else loop l' deepest
    end.
Lemma find_first_seq : forall t l parents, find_first (PSeq t l) parents = floop t l parents l (PNone, false, parents).
Proof. reflexivity. Qed.

(** A list of sequences, one of which is not empty. *)
Lemma floop_lists : forall {A} (P : A -> Prop) (f : A -> pv) (leaf : A -> pv * list pv) t0 l0 ps,
  (forall a ps', P a -> find_first (f a) ps' = (fst (leaf a), true, ps' ++ snd (leaf a))) ->
  forall (l : list (list A)) deepest,
  Forall (Forall P) l -> concat l <> [] ->
  exists a items, In items l /\ In a items /\
    floop t0 l0 ps (map (fun items => PSeq false (map f items)) l) deepest =
    (fst (leaf a), true, ps ++ [PSeq t0 l0; PSeq false (map f items)] ++ snd (leaf a)).
Proof.
  intros A P f lf t0 l0 ps HF l. induction l as [|items l IH]; intros deepest FP NE; [contradiction NE; reflexivity|].
  inversion FP as [|? ? FP1 FP2]; subst.
  cbn [map floop]. rewrite find_first_seq.
  destruct items as [|a items].
  - cbn [map floop]. cbn [concat app] in NE.
    destruct (Nat.ltb (length (snd deepest)) (length (ps ++ [PSeq t0 l0]))).
    + destruct (IH (PNone, false, ps ++ [PSeq t0 l0]) FP2 NE) as (a & it & I1 & I2 & E).
      exists a, it. split; [right; exact I1|]. split; [exact I2|exact E].
    + destruct (IH deepest FP2 NE) as (a & it & I1 & I2 & E).
      exists a, it. split; [right; exact I1|]. split; [exact I2|exact E].
  - exists a, (a :: items). split; [left; reflexivity|]. split; [left; reflexivity|].
    cbn [map floop]. rewrite HF by (exact (Forall_inv FP1)). rewrite <- !app_assoc. reflexivity.
Qed.

Definition type_of_form (c : single) (v : form) : ntype :=
  match v with
  | FNone => (O, LNone)
  | FArray d _ _ => (O, LArr (kind_of (ANum d)))
  | FTuple row => (O, LTuple (size_of c))
  | FItem _ => (O, LSingle c)
  | FOi _ => (O, LOi c)
  | FEmpty => (O, LEmpty)
  | FArrays l => (1%nat, LArr (kind_of (ANum (match l with p :: _ => fst p | [] => float32 end))))
  | FTuples _ => (1%nat, LTuple (size_of c))
  | FItems _ => (1%nat, LSingle c)
  | FOis _ => (1%nat, LOi c)
  | FEmpties _ => (1%nat, LEmpty)
  | FTupleLists _ => (2%nat, LTuple (size_of c))
  | FItemLists _ => (2%nat, LSingle c)
  end.

Lemma nums_only : forall row, forallb is_num (map PNum row) = true.
Proof. induction row; [reflexivity|assumption]. Qed.

Lemma size_pos : forall c, exists n, size_of c = Datatypes.S n.
Proof. destruct c; eexists; reflexivity. Qed.

Lemma find_tuple : forall row ps, row <> [] ->
  find_first (tuple_py row) ps = (PNum (hd 0 row), true, ps ++ [tuple_py row]).
Proof. intros [|x row] ps NE; [contradiction NE; reflexivity|]. reflexivity. Qed.

Lemma type_tuple : forall x ps row, (length ps <= 3)%nat -> row <> [] ->
  type_of (x, true, ps ++ [tuple_py row]) = Ok (length ps, LTuple (length row)).
Proof.
  intros x ps row L NE. unfold type_of. rewrite app_length. cbn [length].
  destruct (Nat.ltb_spec 4 (length ps + 1)); [lia|]. cbn [negb].
  rewrite last_last. unfold tuple_py. rewrite map_length, nums_only.
  destruct row as [|r row]; [contradiction NE; reflexivity|]. cbn [length Nat.eqb negb andb].
  replace (length ps + 1 - 1)%nat with (length ps) by lia. reflexivity.
Qed.

Lemma row_ne : forall c row, row_ok c row -> row <> [].
Proof. intros c row [L _] ->. destruct (size_pos c) as [n E]. rewrite E in L. discriminate L. Qed.

(** For lists whose elements are no tuples of numbers. *)
Lemma last_list : forall l, match last [PSeq false l] PNone with
  | PSeq true l0 => if negb (Nat.eqb (length l0) 0) && forallb is_num l0 then Some (length l0) else None
  | _ => None end = None.
Proof. reflexivity. Qed.

Lemma floop_empties : forall t l0 ps n deepest, snd (fst deepest) = false ->
  length (snd deepest) = length ps \/ length (snd deepest) = (length ps + 1)%nat ->
  floop t l0 ps (repeat (PSeq false []) n) deepest =
  if Nat.eqb n 0 then deepest else if Nat.ltb (length (snd deepest)) (length ps + 1) then (PNone, false, ps ++ [PSeq t l0]) else deepest.
Proof.
  intros t l0 ps n. induction n as [|n IH]; intros deepest D1 D2; [reflexivity|].
  cbn [repeat floop Nat.eqb]. rewrite find_first_seq. cbn [floop].
  rewrite app_length. cbn [length].
  destruct (Nat.ltb_spec (length (snd deepest)) (length ps + 1)).
  - rewrite IH; [|reflexivity|right; cbn [snd]; rewrite app_length; reflexivity].
    cbn [snd]. rewrite app_length. cbn [length]. rewrite Nat.ltb_irrefl. destruct n; reflexivity.
  - rewrite IH by assumption. destruct n; [reflexivity|]. cbn [Nat.eqb].
    destruct (Nat.ltb_spec (length (snd deepest)) (length ps + 1)); [lia|reflexivity].
Qed.

Lemma estimate_form : forall c v, well_formed c v -> estimate (to_py c v) = Ok (type_of_form c v).
Proof.
  intros c v W. unfold estimate. destruct v; cbn [well_formed to_py type_of_form] in *.
  - reflexivity.
  - reflexivity.
  - rewrite find_tuple by (apply (row_ne c), W).
    rewrite (type_tuple _ [] row); [|cbn; lia|apply (row_ne c), W].
    destruct W as [-> _]. reflexivity.
  - reflexivity.
  - reflexivity.
  - reflexivity.
  - destruct W as [NE _]. destruct l as [|p l]; [contradiction NE; reflexivity|]. reflexivity.
  - destruct W as [NE F]. destruct rows as [|row rows]; [contradiction NE; reflexivity|].
    apply Forall_inv in F. rewrite find_first_seq. cbn [map floop].
    rewrite find_tuple by (apply (row_ne c), F).
    rewrite type_tuple; [|cbn; lia|apply (row_ne c), F]. destruct F as [-> _]. reflexivity.
  - destruct l as [|i l]; [contradiction W; reflexivity|]. reflexivity.
  - destruct l as [|i l]; [contradiction W; reflexivity|]. reflexivity.
  - rewrite find_first_seq, floop_empties; [|reflexivity|left; reflexivity].
    destruct n; [inversion W|]. reflexivity.
  - destruct W as [NE F]. rewrite find_first_seq.
    destruct (floop_lists (row_in c float32) tuple_py (fun row => (PNum (hd 0 row), [tuple_py row])) false
      (map (fun rows => PSeq false (map tuple_py rows)) l) []
      (fun a ps' H => find_tuple a ps' (row_ne c a (proj1 H))) l (PNone, false, []) F NE)
      as (a & items & I1 & I2 & E).
    rewrite E. cbn [fst snd app].
    rewrite Forall_forall in F. specialize (F _ I1). rewrite Forall_forall in F. specialize (F _ I2).
    change [?x; ?y; ?z] with ([x; y] ++ [z]).
    rewrite type_tuple; [|cbn; lia|apply (row_ne c), F]. destruct F as [[-> _] _]. reflexivity.
  - rewrite find_first_seq.
    destruct (floop_lists (fun _ => True) (PItem c) (fun i => (PItem c i, [])) false
      (map (fun items => PSeq false (map (PItem c) items)) l) []
      (fun a ps' _ => f_equal (fun x => (PItem c a, true, x)) (eq_sym (app_nil_r ps'))) l (PNone, false, []))
      as (a & items & I1 & I2 & E); [apply Forall_forall; intros x _; apply Forall_forall; intros; exact I|exact W|].
    rewrite E. reflexivity.
Qed.

(** * The round trip *)
Lemma combine_fst : forall {A B C} (h : A -> C) (l : list A) (ss : list B), length ss = length l ->
  map (fun p => h (fst p)) (combine l ss) = map h l.
Proof.
  intros A B C h l. induction l as [|a l IH]; intros [|s ss] L; try discriminate L; [reflexivity|].
  cbn [combine map fst]. rewrite IH by (injection L as L; exact L). reflexivity.
Qed.

Lemma per_image_ok : forall {A} (f : A -> list Z -> oi) l shapes ss, shapes = Some ss -> length ss = length l ->
  per_image f l shapes = Ok (NOis (map (fun p => f (fst p) (snd p)) (combine l ss))).
Proof.
  intros A f l shapes ss -> L. unfold per_image, exactly. rewrite L, Nat.eqb_refl. reflexivity.
Qed.

Lemma one_shape_ok : forall shapes ss, shapes = Some ss -> length ss = 1%nat ->
  exists s, ss = [s] /\ one_shape shapes = Ok s.
Proof.
  intros shapes ss -> L. destruct ss as [|s [|? ?]]; try discriminate L. exists s. split; reflexivity.
Qed.

Definition bare (row : list Q) : item := mkItem row None.

Lemma from_array_ok : forall c d rows s, Forall (row_in c d) rows -> from_array c rows s = mkOi (map bare rows) s.
Proof.
  intros c d rows s F. unfold from_array. f_equal.
  induction F as [|row rows [[L O] H] F IH]; [reflexivity|]. cbn [map].
  rewrite (f32_row d row H), (construct_ok c row O), IH. reflexivity.
Qed.

Lemma to_array_ok : forall c d g rows s, Forall (row_in c d) (map (on_row g) rows) ->
  to_array (on_oi g (mkOi (map bare rows) s)) = map (on_row g) rows.
Proof.
  intros c d g rows s F. unfold to_array. cbn [on_oi oi_items].
  induction rows as [|row rows IH]; [reflexivity|]. cbn [map] in *.
  inversion F as [|? ? [_ F1] F2]; subst. rewrite IH by exact F2. f_equal.
  apply (f32_row d). exact F1.
Qed.

Lemma rows_holds : forall c d rows, Forall (row_in c d) rows -> Forall (Forall (holds d)) rows.
Proof. intros c d rows F. eapply Forall_impl; [|exact F]. intros r [_ H]. exact H. Qed.
Lemma rows_lengths : forall c d rows, Forall (row_in c d) rows -> Forall (fun r => length r = size_of c) rows.
Proof. intros c d rows F. eapply Forall_impl; [|exact F]. intros r [[H _] _]. exact H. Qed.

Lemma as_row_ok : forall c row, row_ok c row -> as_row c (tuple_py row) = Ok row.
Proof.
  intros c row [L _]. unfold as_row, tuple_py. rewrite map_length, L, Nat.eqb_refl.
  unfold mapM. rewrite map_map. clear L. induction row as [|x row IH]; [reflexivity|].
  cbn [map sequence]. rewrite IH. reflexivity.
Qed.
Lemma plain_ok : forall c row, row_ok c row -> plain c row = bare row.
Proof. intros c row [_ O]. unfold plain. rewrite construct_ok by exact O. reflexivity. Qed.

Lemma mapM_map_ok : forall {A B C} (f : B -> res C) (g : A -> B) (h : A -> C) l,
  Forall (fun a => f (g a) = Ok (h a)) l -> mapM f (map g l) = Ok (map h l).
Proof.
  intros A B C f g h l F. unfold mapM. induction F as [|a l E F IH]; [reflexivity|].
  cbn [map sequence]. rewrite E. cbn [bind]. rewrite IH. reflexivity.
Qed.

Lemma numeric_dtype : forall d, numeric (kind_of (ANum d)) = true.
Proof. destruct d; reflexivity. Qed.

Lemma id_map : forall {A} (l : list A), map (fun x => x) l = l.
Proof. intros A l. apply map_id. Qed.

Lemma Forall_all : forall {A} (P : A -> Prop) l, (forall a, P a) -> Forall P l.
Proof. intros A P l H. apply Forall_forall. intros a _. apply H. Qed.

Lemma round_trip : forall c g v shapes,
  well_formed c v -> supported v -> well_formed c (on_items g v) -> enough_shapes v shapes ->
  exists n, normalize c (to_py c v) shapes = Ok n /\
            invert_normalize c (augment g n) (to_py c v) = Ok (to_py c (on_items g v)).
Proof.
  intros c g v shapes W S W' E. unfold normalize, invert_normalize. rewrite (estimate_form c v W). cbn [bind].
  destruct v; cbn [type_of_form].
  - exists (NRaw PNone). destruct c; split; reflexivity.
  - rewrite numeric_dtype. cbn [to_py well_formed supported on_items enough_shapes images_needed] in *.
    destruct E as (ss & E1 & E2). destruct W as [D W]. destruct W' as [_ W'].
    destruct mats as [|m [|? ?]]; try discriminate S. clear S. cbn [map] in *.
    apply Forall_inv in W, W'. destruct W as [K F]. destruct W' as [K' F'].
    assert (AI : as_images c (PArr (mkNd (ANum d) [Z.of_nat (length [m]); Z.of_nat k; Z.of_nat (size_of c)] (concat [concat m])))
                 = Ok [m]).
    { unfold as_images. cbn [n_shape n_flat]. rewrite Z.eqb_refl, !Nat2Z.id. cbn [length groups map concat].
      rewrite app_nil_r. rewrite firstn_all2.
      - rewrite <- K, groups_concat by (apply (rows_lengths c d), F). reflexivity.
      - rewrite (concat_length_const (size_of c)) by (apply (rows_lengths c d), F). rewrite K. lia. }
    rewrite AI. cbn [bind]. rewrite (per_image_ok _ _ _ ss E1 E2).
    destruct ss as [|s [|? ?]]; try discriminate E2. cbn [combine map fst snd].
    rewrite (from_array_ok c d m s F).
    eexists. split; [reflexivity|]. cbn [augment map as_ois bind the_one].
    unfold first_dtype. cbn [find_first bind n_dt].
    rewrite (to_array_ok c d g m s F').
    rewrite restore_rows by (first [exact D | apply (rows_holds c d), F']).
    cbn [bind]. rewrite K'. cbn [concat length]. rewrite app_nil_r. reflexivity.
  - rewrite Nat.eqb_refl. cbn [to_py well_formed on_items enough_shapes images_needed] in *.
    destruct E as (ss & E1 & E2). destruct (one_shape_ok _ _ E1 E2) as (s & -> & ->). cbn [bind].
    rewrite (as_row_ok c row W). cbn [bind]. rewrite (plain_ok c row W).
    eexists. split; [reflexivity|]. reflexivity.
  - rewrite single_eqb_refl. cbn [to_py well_formed on_items enough_shapes images_needed] in *.
    destruct E as (ss & E1 & E2). destruct (one_shape_ok _ _ E1 E2) as (s & -> & ->). cbn [bind as_item].
    rewrite single_eqb_refl. cbn [bind]. eexists. split; reflexivity.
  - rewrite single_eqb_refl. cbn [to_py on_items as_oi]. rewrite single_eqb_refl. cbn [bind].
    eexists. split; reflexivity.
  - eexists. split; reflexivity.
  - rewrite numeric_dtype. cbn [to_py well_formed supported on_items enough_shapes images_needed] in *.
    destruct E as (ss & E1 & E2). destruct W as [NE W]. destruct W' as [_ W']. destruct S as [d S].
    cbn [as_seq bind].
    rewrite (mapM_map_ok _ _ (fun p => snd p)).
    2:{ eapply Forall_impl; [|exact W]. intros [d' rows] [_ F]. cbn [fst snd] in *. cbn [as_rows n_shape n_flat].
        rewrite Z.eqb_refl, Nat2Z.id, groups_concat by (apply (rows_lengths c d'), F). reflexivity. }
    cbn [bind]. rewrite (per_image_ok _ _ _ ss E1) by (rewrite map_length; exact E2).
    eexists. split; [reflexivity|]. cbn [augment as_ois bind].
    assert (FD : first_dtype (PSeq false (map (fun p : dtype * list (list Q) =>
      PArr (mkNd (ANum (fst p)) [Z.of_nat (length (snd p)); Z.of_nat (size_of c)] (concat (snd p)))) l)) = Ok (ANum d)).
    { destruct l as [|p l]; [contradiction NE; reflexivity|]. apply Forall_inv in S. rewrite <- S. reflexivity. }
    rewrite FD. cbn [bind]. clear FD NE E1.
    assert (GO : mapM (fun o => rows_array c (ANum d) (to_array o))
      (map (on_oi g) (map (fun p => from_array c (fst p) (snd p)) (combine (map (fun p => snd p) l) ss))) =
      Ok (map (fun p => PArr (mkNd (ANum (fst p)) [Z.of_nat (length (snd p)); Z.of_nat (size_of c)] (concat (snd p))))
           (map (fun p => (fst p, map (on_row g) (snd p))) l))).
    { clear shapes. revert ss E2. induction l as [|[d' rows] l IH]; intros ss E2.
      - destruct ss; [reflexivity|discriminate E2].
      - destruct ss as [|s ss]; [discriminate E2|]. cbn [map combine fst snd] in *.
        inversion W as [|? ? [D F] W1]; subst. inversion W' as [|? ? [_ F'] W1']; subst.
        inversion S as [|? ? S0 S1]; subst. cbn [fst snd] in *.
        unfold mapM in *. cbn [map sequence].
        rewrite (from_array_ok c d' rows s F), (to_array_ok c d' g rows s F').
        unfold rows_array at 1. rewrite restore_rows by (first [exact D | apply (rows_holds c d'), F']).
        cbn [bind]. rewrite IH by (first [assumption | injection E2 as E2; exact E2]). reflexivity. }
    rewrite GO. reflexivity.
  - rewrite Nat.eqb_refl. cbn [to_py well_formed on_items enough_shapes images_needed] in *.
    destruct E as (ss & E1 & E2). destruct (one_shape_ok _ _ E1 E2) as (s & -> & ->). cbn [bind as_seq].
    destruct W as [NE W].
    rewrite (mapM_map_ok _ _ (fun row => row)) by (eapply Forall_impl; [|exact W]; intros row; apply as_row_ok).
    cbn [bind]. rewrite id_map. eexists. split; [reflexivity|].
    cbn [augment map as_ois bind the_one on_oi oi_items]. rewrite !map_map.
    f_equal. f_equal. apply map_ext_in. intros row H. rewrite Forall_forall in W.
    rewrite (plain_ok c row (W row H)). reflexivity.
  - rewrite single_eqb_refl. cbn [to_py well_formed on_items enough_shapes images_needed] in *.
    destruct E as (ss & E1 & E2). destruct (one_shape_ok _ _ E1 E2) as (s & -> & ->). cbn [bind as_seq].
    rewrite (mapM_map_ok _ _ (fun i => i))
      by (apply Forall_all; intros i; cbn [as_item]; rewrite single_eqb_refl; reflexivity).
    cbn [bind]. rewrite id_map. eexists. split; reflexivity.
  - rewrite single_eqb_refl. cbn [to_py on_items as_seq bind].
    rewrite (mapM_map_ok _ _ (fun i => i))
      by (apply Forall_all; intros i; cbn [as_oi]; rewrite single_eqb_refl; reflexivity).
    cbn [bind]. rewrite id_map. eexists. split; reflexivity.
  - eexists. split; reflexivity.
  - rewrite Nat.eqb_refl. cbn [to_py well_formed on_items enough_shapes images_needed] in *.
    destruct E as (ss & E1 & E2). destruct W as [NE W]. destruct W' as [_ W']. cbn [as_seq bind].
    rewrite (mapM_map_ok _ _ (fun rows => rows)).
    2:{ eapply Forall_impl; [|exact W]. intros rows F. cbn [as_seq bind].
        rewrite (mapM_map_ok _ _ (fun row => row)) by
          (eapply Forall_impl; [|exact F]; intros row R; apply as_row_ok; exact (proj1 R)).
        rewrite id_map. reflexivity. }
    cbn [bind]. rewrite id_map. rewrite (per_image_ok _ _ _ ss E1 E2).
    eexists. split; [reflexivity|]. cbn [augment as_ois bind]. rewrite !map_map.
    f_equal. f_equal. clear NE W' E1. revert ss E2. induction l as [|rows l IH]; intros ss E2.
    + destruct ss; [reflexivity|discriminate E2].
    + destruct ss as [|s ss]; [discriminate E2|]. cbn [map combine fst snd].
      inversion W as [|? ? F W1]; subst.
      rewrite (from_array_ok c float32 rows s F). cbn [on_oi oi_items]. rewrite !map_map.
      rewrite IH by (first [assumption | injection E2 as E2; exact E2]). reflexivity.
  - rewrite single_eqb_refl. cbn [to_py on_items as_seq bind enough_shapes images_needed] in *.
    destruct E as (ss & E1 & E2).
    rewrite (mapM_map_ok _ _ (fun items => items)).
    2:{ apply Forall_all. intros items. cbn [as_seq bind].
        rewrite (mapM_map_ok _ _ (fun i => i))
          by (apply Forall_all; intros i; cbn [as_item]; rewrite single_eqb_refl; reflexivity).
        rewrite id_map. reflexivity. }
    cbn [bind]. rewrite id_map. rewrite (per_image_ok _ _ _ ss E1 E2).
    eexists. split; [reflexivity|]. cbn [augment as_ois bind]. rewrite !map_map. cbn [on_oi oi_items].
    f_equal. f_equal. clear S W W' E1. revert ss E2. induction l as [|rows l IH]; intros ss E2.
    + destruct ss; [reflexivity|discriminate E2].
    + destruct ss as [|s ss]; [discriminate E2|]. cbn [map combine fst snd oi_items].
      rewrite IH by (injection E2 as E2; exact E2). reflexivity.
Qed.

Lemma on_items_id : forall v, on_items (fun i => i) v = v.
Proof.
  assert (R : forall rows, map (on_row (fun i => i)) rows = rows) by (intros rows; apply map_id).
  assert (O : forall o, on_oi (fun i => i) o = o) by (intros [items s]; unfold on_oi; cbn; rewrite map_id; reflexivity).
  destruct v; cbn [on_items]; try reflexivity.
  - rewrite (map_ext _ _ R), map_id. reflexivity.
  - rewrite O. reflexivity.
  - rewrite (map_ext _ (fun p => p)); [rewrite map_id; reflexivity|].
    intros [d rows]. cbn [fst snd]. rewrite R. reflexivity.
  - rewrite R. reflexivity.
  - rewrite map_id. reflexivity.
  - rewrite (map_ext _ _ O), map_id. reflexivity.
  - rewrite (map_ext _ _ R), map_id. reflexivity.
  - rewrite (map_ext _ (fun x => x)); [rewrite map_id; reflexivity|]. intros x. apply map_id.
Qed.

Lemma identity_round_trip : forall c v shapes,
  well_formed c v -> supported v -> enough_shapes v shapes ->
  exists n, normalize c (to_py c v) shapes = Ok n /\ invert_normalize c n (to_py c v) = Ok (to_py c v).
Proof.
  intros c v shapes W S E.
  destruct (round_trip c (fun i => i) v shapes W S) as (n & N & I); [rewrite on_items_id; exact W|exact E|].
  exists n. split; [exact N|]. rewrite on_items_id in I.
  replace (augment (fun i => i) n) with n in I; [exact I|].
  destruct n as [l|r]; [|reflexivity]. cbn [augment]. f_equal. symmetry. rewrite (map_ext _ (fun x => x)); [apply map_id|].
  intros [items s]. unfold on_oi. cbn. rewrite map_id. reflexivity.
Qed.

Lemma as_images_ok : forall c d k mats, Forall (fun m => length m = k /\ Forall (row_in c d) m) mats ->
  as_images c (to_py c (FArray d k mats)) = Ok mats.
Proof.
  intros c d k mats F. cbn [to_py as_images n_shape n_flat]. rewrite Z.eqb_refl, !Nat2Z.id.
  rewrite <- (map_length (@concat Q) mats). rewrite groups_concat.
  - f_equal. rewrite map_map. rewrite <- (map_id mats) at 2. apply map_ext_in. intros m M.
    rewrite Forall_forall in F. destruct (F m M) as [<- R]. apply groups_concat. apply (rows_lengths c d), R.
  - apply Forall_map. eapply Forall_impl; [|exact F]. intros m [<- R]. cbv beta.
    apply concat_length_const, (rows_lengths c d), R.
Qed.

(** The number of images in an array does not matter for normalization, but
    inversion asserts that there is just one. *)
Lemma several_images : forall c d k mats ss,
  well_formed c (FArray d k mats) -> length ss = length mats -> length mats <> 1%nat ->
  exists l, normalize c (to_py c (FArray d k mats)) (Some ss) = Ok (NOis l) /\ length l = length mats /\
    forall g, invert_normalize c (augment g (NOis l)) (to_py c (FArray d k mats)) = Err AssertionError.
Proof.
  intros c d k mats ss W L N. unfold normalize. rewrite (estimate_form c _ W). cbn [bind type_of_form].
  rewrite numeric_dtype. rewrite (as_images_ok c d k mats (proj2 W)). cbn [bind].
  rewrite (per_image_ok _ _ _ ss eq_refl L). eexists. split; [reflexivity|].
  assert (LN : length (combine mats ss) = length mats) by (rewrite combine_length, L; lia).
  split; [rewrite map_length; exact LN|].
  intros g. unfold invert_normalize. rewrite (estimate_form c _ W). cbn [bind type_of_form].
  rewrite numeric_dtype. cbn [augment as_ois bind].
  assert (TO : forall l : list oi, length l <> 1%nat -> the_one l = Err AssertionError).
  { intros [|x [|y l]] H; try reflexivity. contradiction H; reflexivity. }
  rewrite TO by (rewrite !map_length, LN; exact N). reflexivity.
Qed.

Lemma wrong_shapes : forall c v shapes n, well_formed c v -> images_needed v = Some n ->
  (forall l, shapes = Some l -> length l <> n) -> normalize c (to_py c v) shapes = Err ValueError.
Proof.
  intros c v shapes n W I H. unfold normalize. rewrite (estimate_form c v W). cbn [bind].
  assert (X : forall k, k = n -> exactly k shapes = Err ValueError).
  { intros k ->. unfold exactly. destruct shapes as [l|]; [|reflexivity].
    destruct (Nat.eqb_spec (length l) n); [exfalso; exact (H l eq_refl e)|reflexivity]. }
  assert (O : 1%nat = n -> one_shape shapes = Err ValueError).
  { intros E. unfold one_shape. rewrite (X 1%nat E). reflexivity. }
  assert (P : forall A (f : A -> list Z -> oi) l, length l = n -> per_image f l shapes = Err ValueError).
  { intros A f l E. unfold per_image. rewrite (X _ E). reflexivity. }
  destruct v; cbn [type_of_form images_needed] in *; try discriminate I; injection I as I.
  - rewrite numeric_dtype, (as_images_ok c d k mats (proj2 W)). cbn [bind]. apply P, I.
  - rewrite Nat.eqb_refl, (O I). reflexivity.
  - rewrite single_eqb_refl, (O I). reflexivity.
  - rewrite numeric_dtype. cbn [to_py as_seq bind].
    rewrite (mapM_map_ok _ _ (fun p => snd p)).
    2:{ eapply Forall_impl; [|exact (proj2 W)]. intros [d' rows] [_ F]. cbn [fst snd] in *. cbn [as_rows n_shape n_flat].
        rewrite Z.eqb_refl, Nat2Z.id, groups_concat by (apply (rows_lengths c d'), F). reflexivity. }
    cbn [bind]. apply P. rewrite map_length. exact I.
  - rewrite Nat.eqb_refl, (O I). reflexivity.
  - rewrite single_eqb_refl, (O I). reflexivity.
  - rewrite Nat.eqb_refl. cbn [to_py as_seq bind].
    rewrite (mapM_map_ok _ _ (fun rows => rows)).
    2:{ eapply Forall_impl; [|exact (proj2 W)]. intros rows F. cbn [as_seq bind].
        rewrite (mapM_map_ok _ _ (fun row => row)) by
          (eapply Forall_impl; [|exact F]; intros row R; apply as_row_ok; exact (proj1 R)).
        rewrite id_map. reflexivity. }
    cbn [bind]. apply P. rewrite map_length. exact I.
  - rewrite single_eqb_refl. cbn [to_py as_seq bind].
    rewrite (mapM_map_ok _ _ (fun items => items)).
    2:{ apply Forall_all. intros items. cbn [as_seq bind].
        rewrite (mapM_map_ok _ _ (fun i => i))
          by (apply Forall_all; intros i; cbn [as_item]; rewrite single_eqb_refl; reflexivity).
        rewrite id_map. reflexivity. }
    cbn [bind]. apply P. rewrite map_length. exact I.
Qed.

(** * Images *)
Lemma with_shape_same : forall a s, n_shape a = s -> with_shape a s = a.
Proof. intros [d s f] s' <-. reflexivity. Qed.

Lemma dims2 : forall a, dims a = 2%nat -> exists h w, n_shape a = [h; w].
Proof. intros a H. unfold dims in H. destruct (n_shape a) as [|h [|w [|? ?]]]; try discriminate H. exists h, w. reflexivity. Qed.
Lemma dims3 : forall a, dims a = 3%nat -> exists h w c, n_shape a = [h; w; c].
Proof. intros a H. unfold dims in H. destruct (n_shape a) as [|h [|w [|c [|? ?]]]]; try discriminate H. exists h, w, c. reflexivity. Qed.

Lemma images_round_trip : forall v, images_ok v ->
  exists n, normalize_images v = Ok n /\ invert_normalize_images n v = Ok v.
Proof.
  intros [|a|l|] W; cbn [images_ok] in W; [| | |contradiction].
  - exists INone. split; reflexivity.
  - unfold dims in W. cbn [normalize_images invert_normalize_images]. eexists. split; [reflexivity|].
    destruct a as [d s f]. cbn [n_shape] in *.
    destruct s as [|h [|w [|c [|? ?]]]]; cbn [length] in W; try lia; cbn [n_shape with_shape n_dt n_flat Z.eqb negb Pos.eqb]; reflexivity.
  - cbn [normalize_images].
    set (f := fun a => match n_shape a with [h; w] => Ok (with_shape a [h; w; 1%Z]) | [_; _; _] => Ok a | _ => Err AssertionError end).
    assert (E : exists l', mapM f l = Ok l' /\ mapM invert_image (combine l' l) = Ok l).
    { induction l as [|a l IH]; [exists []; split; reflexivity|].
      inversion W as [|? ? A W1]; subst. destruct (IH W1) as (l' & E1 & E2). unfold mapM in *.
      destruct A as [A|A].
      - destruct (dims2 a A) as (h & w & S). exists (with_shape a [h; w; 1%Z] :: l').
        cbn [map sequence combine]. unfold f at 1. rewrite S. cbn [bind]. rewrite E1. split; [reflexivity|].
        cbn [invert_image]. rewrite S. cbn [n_shape with_shape Z.eqb Pos.eqb bind]. rewrite E2. cbn [bind].
        f_equal. f_equal. transitivity (with_shape a [h; w]); [reflexivity|apply with_shape_same, S].
      - destruct (dims3 a A) as (h & w & c & S). exists (a :: l').
        cbn [map sequence combine]. unfold f at 1. rewrite S. cbn [bind]. rewrite E1. split; [reflexivity|].
        cbn [invert_image]. rewrite S. cbn [bind]. rewrite E2. reflexivity. }
    destruct E as (l' & -> & E2). cbn [bind]. eexists. split; [reflexivity|].
    cbn [invert_normalize_images invert_list]. unfold invert_list. rewrite E2. reflexivity.
Qed.

Lemma invert_image_ok : forall new old, image_fits new old -> dims old = 2%nat \/ dims old = 3%nat ->
  exists out, invert_image (new, old) = Ok out /\ image_result new out old.
Proof.
  intros new old [F1 F2] D. destruct (dims3 new F1) as (h & w & c & S). unfold invert_image.
  destruct D as [D|D].
  - destruct (dims2 old D) as (ho & wo & SO). rewrite SO, S. specialize (F2 D). rewrite S in F2. cbn [nth] in F2. subst c.
    cbn [Z.eqb Pos.eqb]. eexists. split; [reflexivity|]. unfold image_result, dims. rewrite S, SO. repeat split.
  - destruct (dims3 old D) as (ho & wo & co & SO). rewrite SO. exists new. split; [reflexivity|].
    unfold image_result, dims. rewrite S, SO. repeat split.
Qed.

Lemma invert_list_ok : forall news olds, Forall2 image_fits news olds ->
  Forall (fun a => dims a = 2%nat \/ dims a = 3%nat) olds ->
  exists outs, invert_list news olds = Ok (IList outs) /\ length outs = length olds /\
    forall i, (i < length olds)%nat -> image_result (nth i news (mkNd AObj [] [])) (nth i outs (mkNd AObj [] []))
                                    (nth i olds (mkNd AObj [] [])).
Proof.
  intros news olds F D. unfold invert_list.
  assert (E : exists outs, mapM invert_image (combine news olds) = Ok outs /\ length outs = length olds /\
    forall i, (i < length olds)%nat -> image_result (nth i news (mkNd AObj [] [])) (nth i outs (mkNd AObj [] []))
                                    (nth i olds (mkNd AObj [] []))).
  { unfold mapM. induction F as [|n o news olds FF F IH].
    - exists []. split; [reflexivity|]. split; [reflexivity|]. intros i H. inversion H.
    - inversion D as [|? ? D0 D1]; subst. destruct (IH D1) as (outs & E1 & E2 & E3).
      destruct (invert_image_ok n o FF D0) as (out & O1 & O2).
      exists (out :: outs). cbn [combine map sequence]. rewrite O1. cbn [bind]. rewrite E1. cbn [bind].
      split; [reflexivity|]. split; [cbn [length]; rewrite E2; reflexivity|].
      intros [|i] H; cbn [nth]; [exact O2|]. apply E3. cbn [length] in H. lia. }
  destruct E as (outs & -> & E2). cbn [bind]. exists outs. split; [reflexivity|exact E2].
Qed.

Lemma groups_length : forall n k l, length (groups n k l) = n.
Proof. induction n as [|n IH]; intros k l; cbn [groups length]; [reflexivity|]. rewrite IH. reflexivity. Qed.

Lemma array_with_list_result : forall old n s news,
  n_shape old = Z.of_nat n :: s -> (length s = 2 \/ length s = 3)%nat -> length news = n ->
  Forall (fun a => dims a = 3%nat /\ (length s = 2%nat -> nth 2 (n_shape a) 0 = 1)%Z) news ->
  exists outs, invert_normalize_images (IList news) (IArr old) = Ok (IList outs) /\
    Forall2 (fun new out => n_dt out = n_dt new /\ n_flat out = n_flat new /\ dims out = length s /\
                            firstn 2 (n_shape out) = firstn 2 (n_shape new)) news outs.
Proof.
  intros old n s news SH L N F. cbn [invert_normalize_images]. rewrite SH.
  assert (X : match Z.of_nat n :: s with [_; _] => [old] | _ => subarrays old end = subarrays old).
  { destruct s as [|a [|b s]]; cbn [length] in L; try lia. reflexivity. }
  rewrite X. unfold subarrays. rewrite SH, Nat2Z.id. clear X SH.
  set (gs := groups n _ _). assert (G : length gs = n) by apply groups_length. clearbody gs.
  unfold invert_list.
  assert (E : exists outs, mapM invert_image (combine news (map (fun l => mkNd (n_dt old) s l) gs)) = Ok outs /\
    Forall2 (fun new out => n_dt out = n_dt new /\ n_flat out = n_flat new /\ dims out = length s /\
                            firstn 2 (n_shape out) = firstn 2 (n_shape new)) news outs).
  { unfold mapM. revert n N gs G. induction F as [|a news [A1 A2] F IH]; intros n N gs G.
    - exists []. split; [reflexivity|constructor].
    - destruct n as [|n]; [discriminate N|]. destruct gs as [|x gs]; [discriminate G|].
      injection N as N. injection G as G. destruct (IH n N gs G) as (outs & E1 & E2).
      destruct (invert_image_ok a (mkNd (n_dt old) s x)) as (out & O1 & O2 & O3 & O4 & O5);
        [split; [exact A1|exact A2]|exact L|].
      exists (out :: outs). cbn [map combine sequence]. rewrite O1. cbn [bind]. rewrite E1. split; [reflexivity|].
      constructor; [|exact E2]. exact (conj O2 (conj O3 (conj O4 O5))). }
  destruct E as (outs & -> & E2). cbn [bind]. exists outs. split; [reflexivity|exact E2].
Qed.
