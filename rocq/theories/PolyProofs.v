(** Proofs about input normalization of polygons and line strings. *)
From Coq Require Import Lia Lqa Qabs.
From Verif Require Import Prelude PreludeFacts DtyModel DtySpec DtyProofs MapModel NormModel NormSpec NormProofs
  PolyModel PolySpec.

(** * Types *)
Definition tloop (b : bool) (l0 : list tv) (parents : list tv) :=
  fix loop (l : list tv) (deepest : tv * bool * list tv) : tv * bool * list tv :=
    match l with
    | [] => deepest
    | attr_i :: l' =>
        let '(nonempty, success, found) := find_first_t attr_i (parents ++ [TSeq b l0]) in
        if success then (nonempty, success, found)
        else if Nat.ltb (length (snd deepest)) (length found)
        then loop l' (nonempty, success, found) else loop l' deepest
    end.
Lemma find_first_tseq : forall b l ps, find_first_t (TSeq b l) ps = tloop b l ps l (TNone, false, ps).
Proof. reflexivity. Qed.

(** Values without any element. *)
Definition hollow (t : tv) (d : nat) : Prop := forall ps, exists found,
  find_first_t t ps = (TNone, false, found) /\ length found = (length ps + d)%nat.
(** Values whose first element gives the type [(n, k)]. *)
Definition typed (t : tv) (n : nat) (k : tleaf) : Prop := exists lf path,
  (forall ps, find_first_t t ps = (lf, true, ps ++ path)) /\
  type_of_t (lf, true, path) = Ok (n, k) /\ (length path <= n + 1)%nat.

Definition deepest_of (ds : list nat) : nat := fold_right (fun d m => Nat.max (S d) m) O ds.
Lemma hollow_seq : forall b l ds, Forall2 hollow l ds -> hollow (TSeq b l) (deepest_of ds).
Proof.
  intros b l ds F ps. rewrite find_first_tseq.
  assert (G : forall l' ds', Forall2 hollow l' ds' -> forall found, exists found',
    tloop b l ps l' (TNone, false, found) = (TNone, false, found') /\
    length found' = Nat.max (length found) (if Nat.eqb (deepest_of ds') 0 then 0 else length ps + deepest_of ds')%nat).
  { clear F. intros l' ds' F. induction F as [|x d l' ds' X F IH]; intros found.
    - exists found. split; [reflexivity|]. cbn. lia.
    - cbn [tloop]. destruct (X (ps ++ [TSeq b l])) as (fx & EX & LX). rewrite EX.
      rewrite app_length in LX. cbn [length] in LX. cbn [snd].
      cbn [deepest_of fold_right].
      change (fold_right (fun d m => Nat.max (S d) m) O ds') with (deepest_of ds').
      destruct (Nat.ltb_spec (length found) (length fx)) as [H|H].
      + destruct (IH fx) as (f' & E' & L'). exists f'. split; [exact E'|]. rewrite L'.
        destruct (Nat.eqb_spec (deepest_of ds') 0), (Nat.eqb_spec (Nat.max (S d) (deepest_of ds')) 0); lia.
      + destruct (IH found) as (f' & E' & L'). exists f'. split; [exact E'|]. rewrite L'.
        destruct (Nat.eqb_spec (deepest_of ds') 0), (Nat.eqb_spec (Nat.max (S d) (deepest_of ds')) 0); lia. }
  destruct (G l ds F ps) as (f & E & L). exists f. split; [exact E|]. rewrite L.
  destruct (Nat.eqb_spec (deepest_of ds) 0); lia.
Qed.

Lemma hollow_empty : forall b, hollow (TSeq b []) 0.
Proof. intros b. apply (hollow_seq b [] []). constructor. Qed.

Lemma type_cons : forall lf path n k l, k <> TLNone -> (length path <= 3)%nat ->
  type_of_t (lf, true, path) = Ok (n, k) -> type_of_t (lf, true, TSeq false l :: path) = Ok (S n, k).
Proof.
  intros lf path n k l K L. unfold type_of_t. cbn [length negb].
  destruct (Nat.ltb_spec 4 (length path)); [lia|]. destruct (Nat.ltb_spec 4 (S (length path))); [lia|].
  destruct path as [|p path].
  - cbn [last length]. destruct lf; intros E; injection E as <- <-; try reflexivity. contradiction K; reflexivity.
  - change (last (TSeq false l :: p :: path) TNone) with (last (p :: path) TNone).
    destruct (match last (p :: path) TNone with
      | TSeq true l0 => if negb (Nat.eqb (length l0) 0) && forallb is_tnum l0 then Some (length l0) else None
      | _ => None end) as [q|].
    + intros E. injection E as <- <-. cbn [length]. f_equal. f_equal. lia.
    + destruct lf; intros E; injection E as <- <-; try reflexivity. contradiction K; reflexivity.
Qed.

Lemma find_after : forall b l1 x l2 lf path, Forall (fun y => exists d, hollow y d) l1 ->
  (forall ps, find_first_t x ps = (lf, true, ps ++ path)) ->
  forall ps, find_first_t (TSeq b (l1 ++ x :: l2)) ps = (lf, true, ps ++ TSeq b (l1 ++ x :: l2) :: path).
Proof.
  intros b l1 x l2 lf path F E ps. rewrite find_first_tseq.
  assert (G : forall l deepest, tloop b l ps (l1 ++ x :: l2) deepest = (lf, true, (ps ++ [TSeq b l]) ++ path)).
  { intros l. induction F as [|y l1 [d Y] F IH]; intros deepest.
    - cbn [app tloop]. rewrite E. reflexivity.
    - cbn [app tloop]. destruct (Y (ps ++ [TSeq b l])) as (f & EF & _). rewrite EF.
      destruct (Nat.ltb (length (snd deepest)) (length f)); apply IH. }
  rewrite G, <- app_assoc. reflexivity.
Qed.

Lemma typed_first : forall l1 x l2 n k, Forall (fun y => exists d, hollow y d) l1 -> typed x n k ->
  k <> TLNone -> (n <= 2)%nat -> typed (TSeq false (l1 ++ x :: l2)) (S n) k.
Proof.
  intros l1 x l2 n k F (lf & path & E & T & L) K N.
  exists lf, (TSeq false (l1 ++ x :: l2) :: path). split; [|split].
  - apply find_after; assumption.
  - apply type_cons; [exact K|lia|exact T].
  - cbn [length]. lia.
Qed.

Lemma typed_seq : forall l n k, Forall (fun y => typed y n k \/ exists d, hollow y d) l ->
  Exists (fun y => typed y n k) l -> k <> TLNone -> (n <= 2)%nat -> typed (TSeq false l) (S n) k.
Proof.
  intros l n k F X K N.
  assert (D : exists l1 x l2, l = l1 ++ x :: l2 /\ Forall (fun y => exists d, hollow y d) l1 /\ typed x n k).
  { induction F as [|y l Y F IH]; [inversion X|].
    destruct Y as [Y|Y].
    - exists [], y, l. split; [reflexivity|]. split; [constructor|exact Y].
    - assert (X' : Exists (fun y => typed y n k) l).
      { inversion X as [? ? H|? ? H]; subst; [|exact H]. exfalso. destruct Y as [d Y]. destruct H as (lf & path & E & _).
        destruct (Y []) as (f & EF & _). rewrite (E []) in EF. discriminate EF. }
      destruct (IH X') as (l1 & x & l2 & -> & F1 & T). exists (y :: l1), x, l2.
      split; [reflexivity|]. split; [constructor; assumption|exact T]. }
  destruct D as (l1 & x & l2 & -> & F1 & T). apply typed_first; assumption.
Qed.

Lemma typed_estimate : forall t n k, typed t n k -> estimate_t t = Ok (n, k).
Proof. intros t n k (lf & path & E & T & _). unfold estimate_t. rewrite E. exact T. Qed.
Lemma hollow_estimate : forall t d, hollow t d -> (d <= 4)%nat -> estimate_t t = Ok (d, TLEmpty).
Proof.
  intros t d H L. destruct (H []) as (f & E & LF). unfold estimate_t. rewrite E. unfold type_of_t.
  cbn [length] in LF. rewrite LF. destruct (Nat.ltb_spec 4 (0 + d)); [lia|]. reflexivity.
Qed.

Lemma typed_arr : forall a, typed (TArr a) 0 (TLArr (kind_of (n_dt a))).
Proof. intros a. exists (TArr a), []. split; [intros ps; rewrite app_nil_r; reflexivity|]. split; [reflexivity|cbn; lia]. Qed.
Lemma typed_one : forall e, typed (TOne e) 0 TLOne.
Proof. intros e. exists (TOne e), []. split; [intros ps; rewrite app_nil_r; reflexivity|]. split; [reflexivity|cbn; lia]. Qed.
Lemma typed_oi : forall o, typed (TOi o) 0 TLOi.
Proof. intros o. exists (TOi o), []. split; [intros ps; rewrite app_nil_r; reflexivity|]. split; [reflexivity|cbn; lia]. Qed.

Definition point_leaf (kp : bool) : tleaf := if kp then TLKp else TLTuple 2.
Lemma point_leaf_ne : forall kp, point_leaf kp <> TLNone.
Proof. destruct kp; discriminate. Qed.
Lemma typed_point : forall kp p, length p = 2%nat -> typed (point_py kp p) 0 (point_leaf kp).
Proof.
  intros kp p L. destruct p as [|x [|y [|? ?]]]; try discriminate L. destruct kp.
  - exists (TKp x y), []. split; [intros ps; rewrite app_nil_r; reflexivity|]. split; [reflexivity|cbn; lia].
  - exists (TNum x), [TSeq true [TNum x; TNum y]]. split; [intros ps; reflexivity|]. split; [reflexivity|cbn; lia].
Qed.

Lemma pts_len : forall d pts, pts_in d pts -> Forall (fun p => length p = 2%nat) pts.
Proof. intros d pts F. exact (rows_lengths CKeypoint d pts F). Qed.

(** A list of things of one type, or of lists of them. *)
Lemma typed_map : forall {A} (f : A -> tv) l n k, l <> [] -> (forall a, In a l -> typed (f a) n k) ->
  k <> TLNone -> (n <= 2)%nat -> typed (TSeq false (map f l)) (S n) k.
Proof.
  intros A f l n k NE H K N. apply typed_seq; [| |exact K|exact N].
  - apply Forall_forall. intros t I. apply in_map_iff in I. destruct I as (a & <- & I). left. apply H, I.
  - destruct l as [|a l]; [contradiction NE; reflexivity|]. left. apply H. left; reflexivity.
Qed.

Lemma hollow_nil_or : forall {A} (f : A -> tv) l n k, (forall a, In a l -> typed (f a) n k \/ exists d, hollow (f a) d) ->
  k <> TLNone -> (n <= 2)%nat -> typed (TSeq false (map f l)) (S n) k \/ exists d, hollow (TSeq false (map f l)) d.
Proof.
  intros A f l n k H K N.
  assert (D : (Exists (fun y => typed y n k) (map f l)) \/ exists ds, Forall2 hollow (map f l) ds).
  { induction l as [|a l IH]; [right; exists []; constructor|].
    destruct (H a (or_introl eq_refl)) as [T|[d Hd]]; [left; left; exact T|].
    destruct (IH (fun x I => H x (or_intror I))) as [E|[ds E]]; [left; right; exact E|].
    right. exists (d :: ds). constructor; assumption. }
  destruct D as [E|[ds E]].
  - left. apply typed_seq; [|exact E|exact K|exact N]. apply Forall_forall. intros t I.
    apply in_map_iff in I. destruct I as (a & <- & I). apply H, I.
  - right. exists (deepest_of ds). apply hollow_seq, E.
Qed.

Lemma points_dicho : forall kp pts, Forall (fun p => length p = 2%nat) pts ->
  typed (points_py kp pts) 1 (point_leaf kp) \/ exists d, hollow (points_py kp pts) d.
Proof.
  intros kp pts F. apply hollow_nil_or; [|apply point_leaf_ne|lia].
  intros p I. left. apply typed_point. rewrite Forall_forall in F. apply F, I.
Qed.
Lemma points_typed : forall kp pts, pts <> [] -> Forall (fun p => length p = 2%nat) pts ->
  typed (points_py kp pts) 1 (point_leaf kp).
Proof.
  intros kp pts NE F. apply typed_map; [exact NE| |apply point_leaf_ne|lia].
  intros p I. apply typed_point. rewrite Forall_forall in F. apply F, I.
Qed.

Lemma concat_ne : forall {A} (l : list (list A)), concat l <> [] -> Exists (fun x => x <> []) l.
Proof.
  intros A l. induction l as [|x l IH]; intros NE; [contradiction NE; reflexivity|].
  destruct x; [right; apply IH; exact NE|left; discriminate].
Qed.

(** A list of lists, at least one of which is not empty. *)
Lemma typed_lists : forall {A} (f : A -> tv) (l : list (list A)) k, concat l <> [] ->
  (forall a, In a (concat l) -> typed (f a) 0 k) -> k <> TLNone ->
  typed (TSeq false (map (fun im => TSeq false (map f im)) l)) 2 k.
Proof.
  intros A f l k NE H K. apply typed_seq; [| |exact K|lia].
  - apply Forall_forall. intros t I. apply in_map_iff in I. destruct I as (im & <- & I).
    apply hollow_nil_or; [|exact K|lia]. intros a Ia. left. apply H. apply in_concat. exists im. split; assumption.
  - apply concat_ne in NE. apply Exists_exists in NE. destruct NE as (im & I & NE). apply Exists_exists.
    exists (TSeq false (map f im)). split; [apply in_map_iff; exists im; split; [reflexivity|exact I]|].
    apply typed_map; [exact NE| |exact K|lia]. intros a Ia. apply H. apply in_concat. exists im. split; assumption.
Qed.

Definition type_of_pform (v : pform) : nat * tleaf :=
  match v with
  | GNone => (O, TLNone)
  | GEmpty => (O, TLEmpty)
  | GEmpties _ => (1%nat, TLEmpty)
  | GEmpties2 _ => (2%nat, TLEmpty)
  | GArray d _ _ _ => (O, TLArr (kind_of (ANum d)))
  | GArrays d _ => (1%nat, TLArr (kind_of (ANum d)))
  | GArrLists d _ => (2%nat, TLArr (kind_of (ANum d)))
  | GOne _ => (O, TLOne)
  | GOi _ => (O, TLOi)
  | GOnes _ => (1%nat, TLOne)
  | GOis _ => (1%nat, TLOi)
  | GOneLists _ => (2%nat, TLOne)
  | GPts kp _ => (1%nat, point_leaf kp)
  | GPtLists kp _ => (2%nat, point_leaf kp)
  | GPtLists3 kp _ => (3%nat, point_leaf kp)
  end.

Lemma hollow_repeat : forall n, hollow (empties n) (if Nat.eqb n 0 then 0 else 1)%nat.
Proof.
  intros n. unfold empties.
  replace (if Nat.eqb n 0 then 0 else 1)%nat with (deepest_of (repeat O n)).
  - apply hollow_seq. induction n; [constructor|]. cbn [repeat]. constructor; [apply hollow_empty|assumption].
  - induction n as [|n IH]; [reflexivity|]. cbn [repeat deepest_of fold_right].
    change (fold_right (fun d m => Nat.max (S d) m) O (repeat O n)) with (deepest_of (repeat O n)).
    rewrite IH. destruct n; reflexivity.
Qed.

Lemma estimate_pform : forall v, pwell v -> estimate_t (to_tv v) = Ok (type_of_pform v).
Proof.
  intros v W. destruct v; cbn [pwell to_tv type_of_pform] in *.
  - reflexivity.
  - reflexivity.
  - apply hollow_estimate; [|lia]. pose proof (hollow_repeat n) as H. destruct n; [lia|exact H].
  - assert (D : deepest_of (map (fun n => if Nat.eqb n 0 then 0 else 1)%nat ns) = 2%nat).
    { assert (B : forall l, (deepest_of (map (fun n => if Nat.eqb n 0 then 0 else 1)%nat l) <= 2)%nat).
      { induction l as [|a l IH]; cbn [map deepest_of fold_right]; [lia|].
        change (fold_right (fun d m => Nat.max (S d) m) O (map (fun n => if Nat.eqb n 0 then 0 else 1)%nat l))
          with (deepest_of (map (fun n => if Nat.eqb n 0 then 0 else 1)%nat l)).
        destruct (Nat.eqb a 0); lia. }
      destruct W as (n & I & N). specialize (B ns). clear - I N B.
      induction ns as [|a ns IH]; [inversion I|]. cbn [map deepest_of fold_right] in *.
      change (fold_right (fun d m => Nat.max (S d) m) O (map (fun n => if Nat.eqb n 0 then 0 else 1)%nat ns))
        with (deepest_of (map (fun n => if Nat.eqb n 0 then 0 else 1)%nat ns)) in *.
      destruct I as [->|I].
      - destruct (Nat.eqb_spec n 0); lia.
      - rewrite IH by (try exact I; lia). destruct (Nat.eqb a 0); lia. }
    apply hollow_estimate; [|lia]. rewrite <- D. apply hollow_seq.
    clear. induction ns; [constructor|]. cbn [map]. constructor; [apply hollow_repeat|assumption].
  - reflexivity.
  - destruct W as (_ & NE & _). apply typed_estimate.
    apply typed_map; [exact NE| |discriminate|lia]. intros pl _. apply (typed_arr (image_array d (fst pl) (snd pl))).
  - destruct W as (_ & NE & _). apply typed_estimate. apply typed_lists; [exact NE| |discriminate].
    intros pts _. unfold array_py. apply (typed_arr (mkNd (ANum d) [Z.of_nat (length pts); 2] (concat pts))).
  - reflexivity.
  - reflexivity.
  - apply typed_estimate. apply typed_map; [exact W| |discriminate|lia]. intros e _. apply typed_one.
  - apply typed_estimate. apply typed_map; [exact W| |discriminate|lia]. intros e _. apply typed_oi.
  - apply typed_estimate. apply typed_lists; [exact W| |discriminate]. intros e _. apply typed_one.
  - destruct W as [NE F]. apply typed_estimate, points_typed; [exact NE|exact (pts_len _ _ F)].
  - destruct W as [NE F]. apply typed_estimate. rewrite Forall_forall in F.
    apply typed_seq; [| |apply point_leaf_ne|lia].
    + apply Forall_forall. intros t I. apply in_map_iff in I. destruct I as (pts & <- & I).
      apply points_dicho, (pts_len float32), F, I.
    + apply concat_ne, Exists_exists in NE. destruct NE as (pts & I & NE). apply Exists_exists.
      exists (points_py kp pts). split; [apply in_map, I|]. apply points_typed; [exact NE|apply (pts_len float32), F, I].
  - destruct W as [NE F]. apply typed_estimate. rewrite Forall_forall in F.
    assert (F' : forall im, In im l -> forall pts, In pts im -> Forall (fun p => length p = 2%nat) pts).
    { intros im I pts J. apply (pts_len float32). specialize (F im I). rewrite Forall_forall in F. apply F, J. }
    apply typed_seq; [| |apply point_leaf_ne|lia].
    + apply Forall_forall. intros t I. apply in_map_iff in I. destruct I as (im & <- & I).
      apply hollow_nil_or; [|apply point_leaf_ne|lia].
      intros pts J. apply points_dicho, (F' im I pts J).
    + apply concat_ne, Exists_exists in NE. destruct NE as (pts & J & NE). apply in_concat in J.
      destruct J as (im & I & J). apply Exists_exists.
      exists (TSeq false (map (points_py kp) im)). split; [apply in_map_iff; exists im; split; [reflexivity|exact I]|].
      apply typed_seq; [| |apply point_leaf_ne|lia].
      * apply Forall_forall. intros t I'. apply in_map_iff in I'. destruct I' as (pts' & <- & I').
        apply points_dicho, (F' im I pts' I').
      * apply Exists_exists. exists (points_py kp pts). split; [apply in_map, J|].
        apply points_typed; [exact NE|exact (F' im I pts J)].
Qed.

(** * Constructors *)
Notation bare_ent := unlabelled.

Lemma f32_pts_ok : forall d pts, pts_in d pts -> f32_pts pts = pts.
Proof.
  intros d pts F. unfold f32_pts. induction F as [|p pts [_ H] F IH]; [reflexivity|]. cbn [map].
  rewrite (f32_row d p H), IH. reflexivity.
Qed.
Lemma is_closed_iff : forall pts, is_closed pts = true <-> closed_ring pts.
Proof.
  intros pts. unfold is_closed, closed_ring. rewrite andb_true_iff, Nat.leb_le, forallb_forall, Forall_forall.
  split; intros [H1 H2]; (split; [exact H1|]); intros ab I; specialize (H2 ab I); unfold close1 in *; apply qleb_iff; exact H2.
Qed.
Lemma open_ring_ok : forall pts, ~ closed_ring pts -> open_ring pts = pts.
Proof.
  intros pts H. unfold open_ring. destruct (is_closed pts) eqn:E; [|reflexivity].
  contradiction H. apply is_closed_iff, E.
Qed.

Lemma make_pts : forall c d t pts,
  match c with
  | CPoly => make_polygon t = Ok (open_ring (f32_pts pts))
  | CLine => make_line t = Ok (f32_pts pts) end ->
  pts_in d pts -> accepted c pts -> make c t = Ok (bare_ent pts).
Proof.
  intros c d t pts E F A. unfold make. destruct c; rewrite E; cbn [bind]; rewrite (f32_pts_ok d pts F); [|reflexivity].
  rewrite open_ring_ok by (apply A; reflexivity). reflexivity.
Qed.

Lemma make_array : forall c d pts, pts_in d pts -> accepted c pts -> make c (array_py d pts) = Ok (bare_ent pts).
Proof.
  intros c d pts F A. apply (make_pts c d); [|exact F|exact A].
  unfold array_py, make_polygon, make_line, rows2. cbn [n_shape n_flat]. rewrite Z.eqb_refl, Nat2Z.id.
  rewrite groups_concat by exact (pts_len _ _ F). destruct c; reflexivity.
Qed.

Lemma make_points : forall c kp pts, pts_in float32 pts -> accepted c pts -> accepted_kp c kp ->
  make c (points_py kp pts) = Ok (bare_ent pts).
Proof.
  intros c kp pts F A AK. apply (make_pts c float32); [|exact F|exact A]. pose proof (pts_len _ _ F) as L. clear F A.
  assert (T : forall (h : tv -> res (list Q)), (forall x y, h (TSeq true [TNum x; TNum y]) = Ok [x; y]) ->
    mapM h (map (point_py false) pts) = Ok pts).
  { intros h H. rewrite (mapM_map_ok _ _ (fun p => p)); [rewrite map_id; reflexivity|].
    eapply Forall_impl; [|exact L]. intros [|x [|y [|? ?]]] E; try discriminate E. apply H. }
  unfold points_py. destruct c.
  - destruct pts as [|p pts]; [reflexivity|].
    destruct kp.
    + assert (M : mapM kp_row (map (point_py true) (p :: pts)) = Ok (p :: pts)).
      { rewrite (mapM_map_ok _ _ (fun p => p)); [rewrite map_id; reflexivity|].
        eapply Forall_impl; [|exact L]. intros [|x [|y [|? ?]]] E; try discriminate E. reflexivity. }
      apply Forall_inv in L. destruct p as [|x [|y [|? ?]]]; try discriminate L.
      change (map (point_py true) ([x; y] :: pts)) with (TKp x y :: map (point_py true) pts) in *.
      rewrite (eq_refl : make_polygon (TSeq false (TKp x y :: map (point_py true) pts)) =
        (do l <- mapM kp_row (TKp x y :: map (point_py true) pts); Ok (open_ring (f32_pts l)))).
      rewrite M. reflexivity.
    + specialize (T first_two (fun _ _ => eq_refl)).
      apply Forall_inv in L. destruct p as [|x [|y [|? ?]]]; try discriminate L.
      change (map (point_py false) ([x; y] :: pts)) with (TSeq true [TNum x; TNum y] :: map (point_py false) pts) in *.
      rewrite (eq_refl : make_polygon (TSeq false (TSeq true [TNum x; TNum y] :: map (point_py false) pts)) =
        (do l <- mapM first_two (TSeq true [TNum x; TNum y] :: map (point_py false) pts); Ok (open_ring (f32_pts l)))).
      rewrite T. reflexivity.
  - destruct kp; [discriminate (AK eq_refl)|]. unfold make_line. rewrite (T exactly_two (fun _ _ => eq_refl)). reflexivity.
Qed.

(** * Subarrays *)
Lemma groups_concat_map : forall {A} (f : A -> list Q) k (l : list A), (forall a, In a l -> length (f a) = k) ->
  groups (length l) k (concat (map f l)) = map f l.
Proof.
  intros A f k l H. rewrite <- (map_length f). apply groups_concat. apply Forall_forall. intros x I.
  apply in_map_iff in I. destruct I as (a & <- & I). apply H, I.
Qed.

Lemma sub_image : forall d p (im : list points), Forall (fun pts => length pts = p /\ pts_in d pts) im ->
  sub (image_array d p im) = map (array_py d) im.
Proof.
  intros d p im F. unfold sub, subarrays, image_array. cbn [n_shape n_dt n_flat]. rewrite Nat2Z.id.
  rewrite Forall_forall in F.
  rewrite groups_concat_map.
  - rewrite !map_map. apply map_ext_in. intros pts I. destruct (F pts I) as [L _]. unfold array_py. rewrite L. reflexivity.
  - intros pts I. destruct (F pts I) as [L P]. rewrite (concat_length_const 2) by exact (pts_len _ _ P).
    rewrite L. cbn [fold_right]. lia.
Qed.

Lemma image_len : forall d p (im : list points), Forall (fun pts => length pts = p /\ pts_in d pts) im ->
  length (concat (map (@concat Q) im)) = (length im * (p * 2))%nat.
Proof.
  intros d p im F. assert (ML : length im = length (map (@concat Q) im)) by (symmetry; apply map_length).
  rewrite ML. apply concat_length_const. apply Forall_forall.
  intros x I. apply in_map_iff in I. destruct I as (pts & <- & I). rewrite Forall_forall in F. destruct (F pts I) as [L P].
  rewrite (concat_length_const 2) by exact (pts_len _ _ P). rewrite L. reflexivity.
Qed.

Lemma sub_images : forall d k p (l : list (list points)),
  Forall (fun im => length im = k /\ Forall (fun pts => length pts = p /\ pts_in d pts) im) l ->
  subarrays (mkNd (ANum d) [Z.of_nat (length l); Z.of_nat k; Z.of_nat p; 2]
    (concat (map (fun im => concat (map (@concat Q) im)) l))) = map (image_array d p) l.
Proof.
  intros d k p l F. unfold subarrays. cbn [n_shape n_dt n_flat]. rewrite Nat2Z.id. rewrite Forall_forall in F.
  rewrite groups_concat_map.
  - rewrite map_map. apply map_ext_in. intros im I. destruct (F im I) as [L _]. unfold image_array. rewrite L. reflexivity.
  - intros im I. destruct (F im I) as [L P]. rewrite (image_len d p im P), L. cbn [fold_right]. lia.
Qed.

(** * Restoring arrays *)
Lemma restore_one_ok : forall d pts, In d array_dtypes -> pts_in d pts ->
  restore_one (ANum d) pts = Ok (mkNd (ANum d) [Z.of_nat (length pts); 2] (concat pts)).
Proof.
  intros d pts D F. unfold restore_one. rewrite restore_rows; [reflexivity|exact D|exact (rows_holds _ _ _ F)].
Qed.

Lemma merge_same : forall d arrs sh, arrs <> [] -> Forall (fun a => n_shape a = sh) arrs ->
  merge d arrs = Some (mkNd d (Z.of_nat (length arrs) :: sh) (concat (map n_flat arrs))).
Proof.
  intros d arrs sh NE F. destruct arrs as [|a arrs]; [contradiction NE; reflexivity|]. unfold merge.
  assert (S : n_shape a = sh) by exact (Forall_inv F).
  rewrite S.
  assert (B : forallb (fun b => Nat.eqb (length (n_shape b)) (length sh) &&
     forallb (fun p => fst p =? snd p) (combine (n_shape b) sh)) (a :: arrs) = true).
  { apply forallb_forall. rewrite Forall_forall in F. intros b I. rewrite (F b I), Nat.eqb_refl. cbn [andb].
    clear. induction sh as [|z sh IH]; [reflexivity|]. cbn [combine forallb fst snd]. rewrite Z.eqb_refl. exact IH. }
  rewrite B. reflexivity.
Qed.

Lemma restore_ents : forall d es, In d array_dtypes -> Forall (fun e => pts_in d (e_pts e)) es ->
  mapM (fun e => restore_one (ANum d) (e_pts e)) es =
  Ok (map (fun e => mkNd (ANum d) [Z.of_nat (length (e_pts e)); 2] (concat (e_pts e))) es).
Proof.
  intros d es D F. rewrite <- (map_id es) at 1. apply mapM_map_ok. eapply Forall_impl; [|exact F].
  intros e H. apply restore_one_ok; assumption.
Qed.

Lemma restore_image_ok : forall d p o, In d array_dtypes -> p_ents o <> [] ->
  Forall (fun e => length (e_pts e) = p /\ pts_in d (e_pts e)) (p_ents o) ->
  restore_image (ANum d) o = Ok (TArr (image_array d p (map e_pts (p_ents o)))).
Proof.
  intros d p o D NE F. unfold restore_image. rewrite restore_ents; [|exact D|].
  2:{ eapply Forall_impl; [|exact F]. intros e [_ H]. exact H. }
  cbn [bind]. rewrite (merge_same _ _ [Z.of_nat p; 2]).
  - unfold image_array. rewrite !map_length, !map_map. reflexivity.
  - destruct (p_ents o); [contradiction NE; reflexivity|discriminate].
  - apply Forall_forall. intros a I. apply in_map_iff in I. destruct I as (e & <- & I). cbn [n_shape].
    rewrite Forall_forall in F. destruct (F e I) as [-> _]. reflexivity.
Qed.

(** * Round trip *)
Lemma many_ok : forall c (images : list (list tv)) (l : list (list points)) ss,
  Forall2 (fun ts ptss => Forall2 (fun t pts => make c t = Ok (bare_ent pts)) ts ptss) images l ->
  length ss = length l ->
  many c images (Some ss) = Ok (QOis (map (fun q => mkPoi (map bare_ent (fst q)) (snd q)) (combine l ss))).
Proof.
  intros c images l ss F E. unfold many, exactly.
  assert (FL : length images = length l) by (clear - F; induction F; cbn [length]; congruence).
  rewrite E, FL, Nat.eqb_refl. cbn [bind].
  assert (G : mapM (fun p => do es <- mapM (make c) (fst p); Ok (mkPoi es (snd p))) (combine images ss) =
    Ok (map (fun q => mkPoi (map bare_ent (fst q)) (snd q)) (combine l ss))).
  { clear FL. revert ss E. induction F as [|ts ptss images l H F IH]; intros ss E; [reflexivity|].
    destruct ss as [|s ss]; [discriminate E|]. cbn [combine].
    assert (M : mapM (make c) ts = Ok (map bare_ent ptss)).
    { clear - H. unfold mapM. induction H as [|t pts ts ptss X H IH]; [reflexivity|].
      cbn [map sequence]. rewrite X. cbn [bind]. rewrite IH. reflexivity. }
    unfold mapM in *. cbn [map sequence fst snd]. rewrite M. cbn [bind].
    rewrite IH by (injection E as E; exact E). reflexivity. }
  rewrite G. reflexivity.
Qed.

Lemma many_map : forall c (f : points -> tv) (l : list (list points)) ss, 
  Forall (Forall (fun pts => make c (f pts) = Ok (bare_ent pts))) l -> length ss = length l ->
  many c (map (map f) l) (Some ss) = Ok (QOis (map (fun q => mkPoi (map bare_ent (fst q)) (snd q)) (combine l ss))).
Proof.
  intros c f l ss F E. apply many_ok; [|exact E].
  induction F as [|im l H F IH]; [constructor|]. cbn [map]. constructor.
  - clear - H. induction H; [constructor|]. cbn [map]. constructor; assumption.
  - clear - F. induction F as [|im l H F IH]; [constructor|]. cbn [map]. constructor; [|exact IH].
    clear - H. induction H; [constructor|]. cbn [map]. constructor; assumption.
Qed.

(** The objects of the augmented images. *)
Lemma aug_combine : forall {B} (h : poi -> B) (k : list points -> B) g (l : list (list points)) (ss : list (list Z)),
  length ss = length l ->
  (forall im s, h (mkPoi (map (on_ent g) (map bare_ent im)) s) = k (map g im)) ->
  map h (map (on_poi g) (map (fun q => mkPoi (map bare_ent (fst q)) (snd q)) (combine l ss))) = map k (map (map g) l).
Proof.
  intros B h k g l. induction l as [|im l IH]; intros ss E H; [reflexivity|].
  destruct ss as [|s ss]; [discriminate E|]. cbn [combine map fst snd]. unfold on_poi at 1. cbn [p_ents p_shape].
  rewrite H, IH; [reflexivity|injection E as E; exact E|exact H].
Qed.
Lemma aug_mapM : forall {B} (h : poi -> res B) (k : list points -> B) g (l : list (list points)) (ss : list (list Z)),
  length ss = length l ->
  (forall im s, In im l -> h (mkPoi (map (on_ent g) (map bare_ent im)) s) = Ok (k (map g im))) ->
  mapM h (map (on_poi g) (map (fun q => mkPoi (map bare_ent (fst q)) (snd q)) (combine l ss))) = Ok (map k (map (map g) l)).
Proof.
  intros B h k g l. unfold mapM. induction l as [|im l IH]; intros ss E H; [reflexivity|].
  destruct ss as [|s ss]; [discriminate E|]. cbn [combine map sequence fst snd]. unfold on_poi at 1. cbn [p_ents p_shape].
  rewrite H by (left; reflexivity). cbn [bind]. rewrite IH; [reflexivity|injection E as E; exact E|].
  intros im' s' I. apply H. right; exact I.
Qed.

Lemma aug_pts : forall g im, map e_pts (map (on_ent g) (map bare_ent im)) = map g im.
Proof. intros g im. rewrite !map_map. reflexivity. Qed.

Definition back (kp : bool) : list Q -> tv := if kp then pt_kp else pt_tuple.
Lemma back_ok : forall kp p, length p = 2%nat -> back kp p = point_py kp p.
Proof. intros kp [|x [|y [|? ?]]] L; try discriminate L. destruct kp; reflexivity. Qed.
Lemma back_pts : forall kp d pts, pts_in d pts -> TSeq false (map (back kp) pts) = points_py kp pts.
Proof.
  intros kp d pts F. unfold points_py. f_equal. apply map_ext_in. intros p I. apply back_ok.
  pose proof (pts_len _ _ F) as L. rewrite Forall_forall in L. apply L, I.
Qed.

Lemma first_dtype_typed : forall l, forall d, 
  (exists l1 a l2, l = l1 ++ TArr a :: l2 /\ Forall (fun y => exists d', hollow y d') l1 /\ n_dt a = ANum d) \/
  (exists l1 im1 a im2 l2, l = l1 ++ TSeq false (im1 ++ TArr a :: im2) :: l2 /\
     Forall (fun y => exists d', hollow y d') l1 /\ Forall (fun y => exists d', hollow y d') im1 /\ n_dt a = ANum d) ->
  first_dtype_t (TSeq false l) = Ok (ANum d).
Proof.
  assert (A : forall a ps, find_first_t (TArr a) ps = (TArr a, true, ps ++ [])) by (intros; rewrite app_nil_r; reflexivity).
  intros l d [(l1 & a & l2 & -> & F & E)|(l1 & im1 & a & im2 & l2 & -> & F & F1 & E)]; unfold first_dtype_t.
  - rewrite (find_after false l1 (TArr a) l2 (TArr a) [] F (A a)). rewrite E. reflexivity.
  - rewrite (find_after false l1 _ l2 (TArr a) _ F (find_after false im1 (TArr a) im2 (TArr a) [] F1 (A a))). rewrite E. reflexivity.
Qed.

Lemma same_lists : forall l d (l' : list (list points)), concat l' <> [] ->
  l = map (fun im => TSeq false (map (array_py d) im)) l' -> first_dtype_t (TSeq false l) = Ok (ANum d).
Proof.
  intros l d l' NE ->. apply first_dtype_typed. right.
  assert (D : exists l1 pts im l2, l' = l1 ++ (pts :: im) :: l2 /\ Forall (fun y => y = []) l1).
  { induction l' as [|im l' IH]; [contradiction NE; reflexivity|]. destruct im as [|pts im].
    - destruct (IH NE) as (l1 & pts & im & l2 & -> & F). exists ([] :: l1), pts, im, l2.
      split; [reflexivity|]. constructor; [reflexivity|exact F].
    - exists [], pts, im, l'. split; [reflexivity|constructor]. }
  destruct D as (l1 & pts & im & l2 & -> & F).
  exists (map (fun im => TSeq false (map (array_py d) im)) l1), [],
    (mkNd (ANum d) [Z.of_nat (length pts); 2] (concat pts)), (map (array_py d) im),
    (map (fun im => TSeq false (map (array_py d) im)) l2).
  split; [rewrite map_app; reflexivity|]. split; [|split; [constructor|reflexivity]].
  apply Forall_forall. intros y I. apply in_map_iff in I. destruct I as (im' & <- & I).
  rewrite Forall_forall in F. rewrite (F im' I). exists O. apply hollow_empty.
Qed.

Lemma Forall_Forall : forall {A} (P R : A -> Prop) l, Forall P l -> Forall R l -> Forall (fun a => P a /\ R a) l.
Proof. intros A P R l F. induction F; intros G; [constructor|]. inversion G; subst. constructor; [split; assumption|auto]. Qed.

Ltac shapes E := let ss := fresh "ss" in let L := fresh "L" in destruct E as (ss & -> & L).

Lemma normal_combine : forall {B} (h : B -> list points) (l : list B) (ss : list (list Z)),
  map (fun q => mkPoi (map bare_ent (fst q)) (snd q)) (combine (map h l) ss) =
  map (fun q => mkPoi (fst q) (snd q)) (combine (map (fun x => map bare_ent (h x)) l) ss).
Proof.
  intros B h l. induction l as [|x l IH]; intros ss; [reflexivity|]. destruct ss as [|s ss]; [reflexivity|].
  cbn [map combine fst snd]. rewrite IH. reflexivity.
Qed.
Lemma normal_combine' : forall (l : list (list points)) (ss : list (list Z)),
  map (fun q => mkPoi (map bare_ent (fst q)) (snd q)) (combine l ss) =
  map (fun q => mkPoi (fst q) (snd q)) (combine (map (map bare_ent) l) ss).
Proof. intros l ss. rewrite <- (normal_combine (fun x => x)), map_id. reflexivity. Qed.
Lemma normal_ois : forall l, l = map (fun q => mkPoi (fst q) (snd q)) (combine (map p_ents l) (map p_shape l)).
Proof. induction l as [|[e s] l IH]; [reflexivity|]. cbn [map combine fst snd p_ents p_shape]. rewrite <- IH. reflexivity. Qed.
Ltac nf := cbn [normal_form objects shapes_of];
  first [reflexivity | rewrite normal_combine'; reflexivity | rewrite normal_combine; reflexivity | f_equal; apply normal_ois].

Lemma poly_round_trip : forall c g v shapes,
  pwell v -> psupported c v -> pwell (on_objects g v) -> penough v shapes ->
  exists n, pnormalize c (to_tv v) shapes = Ok n /\ n = normal_form v shapes /\
            pinvert (paugment g n) (to_tv v) = Ok (to_tv (on_objects g v)).
Proof.
  intros c g v shapes W S W' E. unfold pnormalize, pinvert. rewrite (estimate_pform v W). cbn [bind].
  destruct v; cbn [type_of_pform].
  - exists QNone. split; [|split]; reflexivity.
  - exists QNone. split; [|split]; reflexivity.
  - exists QNone. split; [|split]; reflexivity.
  - exists QNone. split; [|split]; reflexivity.
  - rewrite numeric_dtype. cbn [to_tv pwell psupported on_objects penough pimages_needed] in *.
    cbv [penough] in E. cbn [pimages_needed] in E. shapes E.
    destruct W as (D & NE & K & F). destruct W' as (_ & _ & _ & F').
    unfold t_arr, dims_ok. cbn [n_shape length last]. rewrite Nat.eqb_refl, Z.eqb_refl. cbn [andb bind].
    rewrite (sub_images d k p l F), map_map.
    assert (SE : map (fun x => sub (image_array d p x)) l = map (map (array_py d)) l).
    { apply map_ext_in. intros im I. rewrite Forall_forall in F. apply sub_image, (F im I). }
    rewrite SE, many_map; [|clear - F S|exact L].
    2:{ pose proof (Forall_Forall _ _ _ F S) as G. eapply Forall_impl; [|exact G].
        intros im [[_ F1] F2]. pose proof (Forall_Forall _ _ _ F1 F2) as G1. eapply Forall_impl; [|exact G1].
        intros pts [[_ P] A]. apply make_array; assumption. }
    eexists. split; [reflexivity|]. split; [nf|]. cbn [paugment p_ois bind n_dt]. unfold restore_images.
    rewrite (aug_mapM _ (fun im => TArr (image_array d p im))); [|exact L|].
    2:{ intros im s I. rewrite Forall_forall in F. rewrite Forall_forall in F'.
        specialize (F' (map g im) (in_map _ _ _ I)). specialize (F im I). destruct F as [LK _]. destruct F' as [_ F'].
        rewrite (restore_image_ok d p); [cbn [p_ents]; rewrite aug_pts; reflexivity|exact D| |].
        - cbn [p_ents]. destruct im; [cbn in LK; lia|discriminate].
        - cbn [p_ents]. apply Forall_forall. intros e Ie. rewrite map_map in Ie. apply in_map_iff in Ie.
          destruct Ie as (pts & <- & Ip). cbn [on_ent unlabelled e_pts]. rewrite Forall_forall in F'.
          apply F'. apply in_map, Ip. }
    cbn [bind]. rewrite (mapM_map_ok _ _ (fun im => image_array d p im)) by (apply Forall_forall; intros; reflexivity).
    cbn [bind]. rewrite (merge_same _ _ [Z.of_nat k; Z.of_nat p; 2]).
    + rewrite !map_length. f_equal. f_equal. f_equal. rewrite !map_map. reflexivity.
    + destruct l; [contradiction NE; reflexivity|discriminate].
    + apply Forall_forall. intros a I. apply in_map_iff in I. destruct I as (im & <- & I). cbn [image_array n_shape].
      rewrite Forall_forall in F'. destruct (F' im I) as [-> _]. reflexivity.
  - rewrite numeric_dtype. cbn [to_tv pwell psupported on_objects penough pimages_needed] in *.
    cbv [penough] in E. cbn [pimages_needed] in E. shapes E.
    destruct W as (D & NE & F). destruct W' as (_ & _ & F'). cbn [t_seq bind].
    rewrite (mapM_map_ok _ _ (fun pl => image_array d (fst pl) (snd pl))).
    2:{ apply Forall_forall. intros pl _. unfold t_arr, dims_ok, image_array. cbn [n_shape length last].
        rewrite Nat.eqb_refl, Z.eqb_refl. reflexivity. }
    cbn [bind]. rewrite map_map.
    assert (SE : map (fun x => sub (image_array d (fst x) (snd x))) l = map (map (array_py d)) (map snd l)).
    { rewrite map_map. apply map_ext_in. intros pl I. rewrite Forall_forall in F. apply sub_image, (F pl I). }
    rewrite SE, many_map; [| |rewrite map_length; exact L].
    2:{ apply Forall_forall. intros im I. apply in_map_iff in I. destruct I as (pl & <- & I).
        rewrite Forall_forall in F, S. destruct (F pl I) as [_ F1]. specialize (S pl I).
        pose proof (Forall_Forall _ _ _ F1 S) as G1. eapply Forall_impl; [|exact G1].
        intros pts [[_ P] A]. apply make_array; assumption. }
    eexists. split; [reflexivity|]. split; [nf|]. cbn [paugment p_ois bind].
    rewrite (first_dtype_typed _ d).
    2:{ left. destruct l as [|pl l]; [contradiction NE; reflexivity|].
        exists [], (image_array d (fst pl) (snd pl)), (map (fun pl => TArr (image_array d (fst pl) (snd pl))) l).
        split; [reflexivity|]. split; [constructor|reflexivity]. }
    cbn [bind].
    assert (GO : mapM (restore_image (ANum d))
      (map (on_poi g) (map (fun q => mkPoi (map bare_ent (fst q)) (snd q)) (combine (map snd l) ss))) =
      Ok (map (fun pl => TArr (image_array d (fst pl) (snd pl))) (map (fun pl => (fst pl, map g (snd pl))) l))).
    { clear NE S SE. revert ss L. unfold mapM. induction l as [|[p im] l IH]; intros ss L; [reflexivity|].
      destruct ss as [|s ss]; [discriminate L|]. cbn [combine map sequence fst snd] in *.
      inversion F as [|? ? [NEi _] F1]; subst. inversion F' as [|? ? [_ Fi'] F1']; subst. cbn [fst snd] in *.
      rewrite (restore_image_ok d p); [|exact D| |].
      - cbn [bind]. rewrite IH; [|exact F1|exact F1'|injection L as L; exact L].
        cbn [bind on_poi p_ents]. rewrite aug_pts. reflexivity.
      - cbn [on_poi p_ents]. destruct im; [contradiction NEi; reflexivity|discriminate].
      - cbn [on_poi p_ents]. apply Forall_forall. intros e Ie. rewrite map_map in Ie. apply in_map_iff in Ie.
        destruct Ie as (pts & <- & Ip). cbn [on_ent unlabelled e_pts]. rewrite Forall_forall in Fi'.
        apply Fi'. apply in_map, Ip. }
    rewrite GO. reflexivity.
  - rewrite numeric_dtype. cbn [to_tv pwell psupported on_objects penough pimages_needed] in *.
    cbv [penough] in E. cbn [pimages_needed] in E. shapes E.
    destruct W as (D & NE & F). destruct W' as (_ & _ & F'). cbn [t_seq bind].
    rewrite (mapM_map_ok _ _ (fun im => map (array_py d) im)) by (apply Forall_forall; intros; reflexivity). cbn [bind].
    rewrite (mapM_map_ok _ _ (fun im => map (fun pts => mkNd (ANum d) [Z.of_nat (length pts); 2] (concat pts)) im)).
    2:{ apply Forall_forall. intros im _. apply mapM_map_ok. apply Forall_forall. intros pts _. unfold t_arr, array_py, dims_ok.
        cbn [n_shape length last]. rewrite Nat.eqb_refl, Z.eqb_refl. reflexivity. }
    cbn [bind]. rewrite map_map.
    assert (SE : map (fun x => map TArr (map (fun pts => mkNd (ANum d) [Z.of_nat (length pts); 2] (concat pts)) x)) l =
                 map (map (array_py d)) l).
    { apply map_ext. intros im. rewrite map_map. reflexivity. }
    rewrite SE, many_map; [| |exact L].
    2:{ pose proof (Forall_Forall _ _ _ F S) as G. eapply Forall_impl; [|exact G].
        intros im [F1 F2]. pose proof (Forall_Forall _ _ _ F1 F2) as G1. eapply Forall_impl; [|exact G1].
        intros pts [P A]. apply make_array; assumption. }
    eexists. split; [reflexivity|]. split; [nf|]. cbn [paugment p_ois bind].
    rewrite (same_lists _ d l NE eq_refl). cbn [bind].
    rewrite (aug_mapM _ (fun im => TSeq false (map (array_py d) im))); [reflexivity|exact L|].
    intros im s I. cbn [p_ents]. rewrite restore_ents; [|exact D|].
    + cbn [bind]. rewrite !map_map. reflexivity.
    + rewrite Forall_forall in F'. specialize (F' (map g im) (in_map _ _ _ I)). rewrite Forall_forall in F'.
      apply Forall_forall. intros e Ie. rewrite map_map in Ie. apply in_map_iff in Ie. destruct Ie as (pts & <- & Ip).
      cbn [on_ent unlabelled e_pts]. apply F'. apply in_map, Ip.
  - cbv [penough] in E. cbn [pimages_needed] in E. destruct E as (ss & E1 & E2).
    destruct (one_shape_ok _ _ E1 E2) as (s & -> & ->). cbn [bind to_tv t_one].
    eexists. split; [reflexivity|]. split; [rewrite E1; nf|]. reflexivity.
  - cbn [to_tv t_oi bind]. eexists. split; [reflexivity|]. split; [destruct o; nf|]. reflexivity.
  - cbv [penough] in E. cbn [pimages_needed] in E. destruct E as (ss & E1 & E2).
    destruct (one_shape_ok _ _ E1 E2) as (s & -> & ->). cbn [bind to_tv t_seq].
    rewrite (mapM_map_ok _ _ (fun e => e)) by (apply Forall_forall; intros; reflexivity). rewrite map_id. cbn [bind].
    eexists. split; [reflexivity|]. split; [rewrite E1; nf|]. cbn [paugment map p_ois bind the_one on_poi p_ents p_shape].
    rewrite !map_length, Nat.eqb_refl. reflexivity.
  - cbn [to_tv t_seq bind].
    rewrite (mapM_map_ok _ _ (fun e => e)) by (apply Forall_forall; intros; reflexivity). rewrite map_id. cbn [bind].
    eexists. split; [reflexivity|]. split; [nf|]. reflexivity.
  - cbv [penough] in E. cbn [pimages_needed] in E. shapes E. cbn [to_tv t_seq bind].
    rewrite (mapM_map_ok _ _ (fun im => map TOne im)) by (apply Forall_forall; intros; reflexivity). cbn [bind].
    rewrite (mapM_map_ok _ _ (fun im => im)).
    2:{ apply Forall_forall. intros im _. rewrite (mapM_map_ok _ _ (fun e => e)) by (apply Forall_forall; intros; reflexivity).
        rewrite map_id. reflexivity. }
    rewrite map_id. cbn [bind]. unfold exactly. rewrite L, Nat.eqb_refl. cbn [bind].
    eexists. split; [reflexivity|]. split; [nf|]. cbn [paugment p_ois bind on_objects to_tv].
    assert (GO : map (fun o => TSeq false (map TOne (p_ents o)))
      (map (on_poi g) (map (fun p => mkPoi (fst p) (snd p)) (combine l ss))) =
      map (fun im => TSeq false (map TOne im)) (map (map (on_ent g)) l)).
    { clear W S W'. revert ss L. induction l as [|im l IH]; intros ss L; [reflexivity|]. destruct ss as [|s ss]; [discriminate L|].
      cbn [combine map fst snd on_poi p_ents]. rewrite IH by (injection L as L; exact L). reflexivity. }
    rewrite GO. reflexivity.
  - cbn [to_tv pwell psupported on_objects] in *. cbv [penough] in E. cbn [pimages_needed] in E. destruct E as (ss & E1 & E2).
    destruct (one_shape_ok _ _ E1 E2) as (s & -> & ES). destruct W as [_ F]. destruct W' as [_ F']. destruct S as [S1 S2].
    exists (QOis [mkPoi [bare_ent pts] s]). split; [|split; [rewrite E1; nf|]].
    + unfold point_leaf. destruct kp; rewrite ES; cbn [bind]; rewrite make_points by assumption; reflexivity.
    + rewrite <- (back_pts kp float32 (g pts) F'). unfold point_leaf. destruct kp; reflexivity.
  - cbn [to_tv pwell psupported on_objects] in *. cbv [penough] in E. cbn [pimages_needed] in E. destruct E as (ss & E1 & E2).
    destruct (one_shape_ok _ _ E1 E2) as (s & -> & ES). destruct W as [_ F]. destruct W' as [_ F']. destruct S as [S1 S2].
    exists (QOis [mkPoi (map bare_ent l) s]).
    assert (M : mapM (make c) (map (points_py kp) l) = Ok (map bare_ent l)).
    { apply mapM_map_ok. pose proof (Forall_Forall _ _ _ F S2) as G. eapply Forall_impl; [|exact G].
      intros pts [H1 H2]. apply make_points; assumption. }
    assert (B : map (fun e => TSeq false (map (back kp) (e_pts e))) (map (on_ent g) (map bare_ent l)) = map (points_py kp) (map g l)).
    { rewrite !map_map. apply map_ext_in. intros pts I. cbn [on_ent unlabelled e_pts]. apply (back_pts kp float32).
      rewrite Forall_forall in F'. apply F'. apply in_map, I. }
    split; [|split; [rewrite E1; nf|]]; unfold point_leaf.
    + destruct kp; rewrite ES; cbn [bind t_seq]; rewrite M; reflexivity.
    + destruct kp; cbn [paugment map p_ois bind the_one on_poi p_ents p_shape]; rewrite <- B; reflexivity.
  - cbn [to_tv pwell psupported on_objects] in *. cbv [penough] in E. cbn [pimages_needed] in E. shapes E.
    destruct W as [_ F]. destruct W' as [_ F']. destruct S as [S1 S2].
    exists (QOis (map (fun q => mkPoi (map bare_ent (fst q)) (snd q)) (combine l ss))).
    assert (M : mapM t_seq (map (fun im => TSeq false (map (points_py kp) im)) l) = Ok (map (map (points_py kp)) l)).
    { apply mapM_map_ok. apply Forall_forall; intros; reflexivity. }
    assert (N : many c (map (map (points_py kp)) l) (Some ss) =
      Ok (QOis (map (fun q => mkPoi (map bare_ent (fst q)) (snd q)) (combine l ss)))).
    { apply many_map; [|exact L]. pose proof (Forall_Forall _ _ _ F S2) as G. eapply Forall_impl; [|exact G].
      intros im [F1 F2]. pose proof (Forall_Forall _ _ _ F1 F2) as G1. eapply Forall_impl; [|exact G1].
      intros pts [H1 H2]. apply make_points; assumption. }
    assert (B : map (fun o => TSeq false (map (fun e => TSeq false (map (back kp) (e_pts e))) (p_ents o)))
      (map (on_poi g) (map (fun q => mkPoi (map bare_ent (fst q)) (snd q)) (combine l ss))) =
      map (fun im => TSeq false (map (points_py kp) im)) (map (map g) l)).
    { clear S2 S1 M N F. revert ss L. induction l as [|im l IH]; intros ss L; [reflexivity|]. destruct ss as [|s ss]; [discriminate L|].
      cbn [combine map fst snd] in *. inversion F' as [|? ? F1 F2]; subst. rewrite IH by (first [exact F2|injection L as L; exact L]).
      f_equal. f_equal. cbn [on_poi p_ents]. rewrite !map_map. apply map_ext_in. intros pts I.
      cbn [on_ent unlabelled e_pts]. apply (back_pts kp float32). rewrite Forall_forall in F1. apply F1. apply in_map, I. }
    split; [|split; [nf|]]; unfold point_leaf.
    + destruct kp; cbn [t_seq bind]; rewrite M; cbn [bind]; exact N.
    + destruct kp; cbn [paugment p_ois bind]; rewrite <- B; reflexivity.
Qed.

(** * Further facts *)
Lemma on_ent_id : forall e, on_ent (fun p => p) e = e.
Proof. intros [p l]. reflexivity. Qed.
Lemma on_poi_id : forall o, on_poi (fun p => p) o = o.
Proof. intros [es s]. unfold on_poi. cbn [p_ents p_shape]. rewrite (map_ext _ (fun e => e)) by apply on_ent_id. rewrite map_id. reflexivity. Qed.
Lemma map2_id : forall {A} (l : list (list A)), map (map (fun p => p)) l = l.
Proof. intros A l. rewrite (map_ext _ (fun x => x)) by apply map_id. apply map_id. Qed.
Lemma on_objects_id : forall v, on_objects (fun p => p) v = v.
Proof.
  destruct v; cbn [on_objects]; try reflexivity; f_equal; rewrite ?map2_id, ?map_id; try reflexivity.
  - rewrite (map_ext _ (fun pl => pl)); [apply map_id|]. intros [p im]. cbn [fst snd]. rewrite map_id. reflexivity.
  - apply on_ent_id.
  - apply on_poi_id.
  - rewrite (map_ext _ (fun e => e)) by apply on_ent_id. apply map_id.
  - rewrite (map_ext _ (fun e => e)) by apply on_poi_id. apply map_id.
  - rewrite (map_ext _ (fun im => im)); [apply map_id|]. intros im.
    rewrite (map_ext _ (fun e => e)) by apply on_ent_id. apply map_id.
Qed.
Lemma paugment_id : forall n, paugment (fun p => p) n = n.
Proof.
  intros [l|]; [|reflexivity]. cbn [paugment]. rewrite (map_ext _ (fun e => e)) by apply on_poi_id. rewrite map_id. reflexivity.
Qed.

Lemma unchanged : forall c v shapes, pwell v -> psupported c v -> penough v shapes ->
  pnormalize c (to_tv v) shapes = Ok (normal_form v shapes) /\
  pinvert (normal_form v shapes) (to_tv v) = Ok (to_tv v).
Proof.
  intros c v shapes W S E.
  destruct (poly_round_trip c (fun p => p) v shapes W S) as (n & E1 & E2 & E3); [rewrite on_objects_id; exact W|exact E|].
  subst n. rewrite paugment_id, on_objects_id in E3. split; assumption.
Qed.

(** Too few or too many image shapes. *)
Lemma wrong_shapes : forall c v n shapes, pwell v -> pimages_needed v = Some n ->
  (forall ss, shapes = Some ss -> length ss <> n) -> pnormalize c (to_tv v) shapes = Err ValueError.
Proof.
  intros c v n shapes W N H. unfold pnormalize. rewrite (estimate_pform v W). cbn [bind].
  assert (X : forall m, m = n -> exactly m shapes = Err ValueError).
  { intros m ->. unfold exactly. destruct shapes as [ss|]; [|reflexivity].
    destruct (Nat.eqb_spec (length ss) n); [|reflexivity]. contradiction (H ss eq_refl). }
  assert (X1 : n = 1%nat -> one_shape shapes = Err ValueError) by (intros K; unfold one_shape; rewrite X by (symmetry; exact K); reflexivity).
  destruct v; cbn [pimages_needed type_of_pform pwell to_tv] in *; try discriminate N; injection N as <-;
    rewrite ?numeric_dtype.
  - destruct W as (_ & _ & _ & F). unfold t_arr, dims_ok. cbn [n_shape length last]. rewrite Nat.eqb_refl, Z.eqb_refl. cbn [andb bind].
    unfold many. rewrite X; [reflexivity|]. rewrite (sub_images d k p l F), !map_length. reflexivity.
  - cbn [t_seq bind]. rewrite (mapM_map_ok _ _ (fun pl => image_array d (fst pl) (snd pl))).
    2:{ apply Forall_forall. intros pl _. unfold t_arr, dims_ok, image_array. cbn [n_shape length last].
        rewrite Nat.eqb_refl, Z.eqb_refl. reflexivity. }
    cbn [bind]. unfold many. rewrite X; [reflexivity|]. rewrite !map_length. reflexivity.
  - cbn [t_seq bind].
    rewrite (mapM_map_ok _ _ (fun im => map (array_py d) im)) by (apply Forall_forall; intros; reflexivity). cbn [bind].
    rewrite (mapM_map_ok _ _ (fun im => map (fun pts => mkNd (ANum d) [Z.of_nat (length pts); 2] (concat pts)) im)).
    2:{ apply Forall_forall. intros im _. apply mapM_map_ok. apply Forall_forall. intros pts _. unfold t_arr, array_py, dims_ok.
        cbn [n_shape length last]. rewrite Nat.eqb_refl, Z.eqb_refl. reflexivity. }
    cbn [bind]. unfold many. rewrite X; [reflexivity|]. rewrite !map_length. reflexivity.
  - rewrite X1 by reflexivity. reflexivity.
  - rewrite X1 by reflexivity. reflexivity.
  - cbn [t_seq bind].
    rewrite (mapM_map_ok _ _ (fun im => map TOne im)) by (apply Forall_forall; intros; reflexivity). cbn [bind].
    rewrite (mapM_map_ok _ _ (fun im => im)).
    2:{ apply Forall_forall. intros im _. rewrite (mapM_map_ok _ _ (fun e => e)) by (apply Forall_forall; intros; reflexivity).
        rewrite map_id. reflexivity. }
    rewrite map_id. cbn [bind]. rewrite X by reflexivity. reflexivity.
  - unfold point_leaf. destruct kp; rewrite X1 by reflexivity; reflexivity.
  - unfold point_leaf. destruct kp; rewrite X1 by reflexivity; reflexivity.
  - assert (M : mapM t_seq (map (fun im => TSeq false (map (points_py kp) im)) l) = Ok (map (map (points_py kp)) l)).
    { apply mapM_map_ok. apply Forall_forall; intros; reflexivity. }
    unfold point_leaf. destruct kp; cbn [t_seq bind]; rewrite M; cbn [bind]; unfold many;
      (rewrite X by (rewrite !map_length; reflexivity)); reflexivity.
Qed.

(** Line strings of Keypoints. *)
Lemma keypoint_lines : forall pts s, pwell (GPts true pts) ->
  pnormalize CLine (to_tv (GPts true pts)) (Some [s]) = Err TypeError_.
Proof.
  intros pts s W. unfold pnormalize. rewrite (estimate_pform _ W). cbn [bind type_of_pform point_leaf to_tv].
  destruct W as [NE F]. apply pts_len in F. destruct pts as [|p pts]; [contradiction NE; reflexivity|].
  apply Forall_inv in F. destruct p as [|x [|y [|? ?]]]; try discriminate F. reflexivity.
Qed.
(** Polygons given as a tuple of points. *)
Lemma tuple_polygon : forall pts s, pts <> [] -> Forall (fun p => length p = 2%nat) pts ->
  pnormalize CPoly (TSeq true (map pt_tuple pts)) (Some [s]) = Err AssertionError.
Proof.
  intros pts s NE F. destruct pts as [|p pts]; [contradiction NE; reflexivity|].
  apply Forall_inv in F. destruct p as [|x [|y [|? ?]]]; try discriminate F. reflexivity.
Qed.

(** Closed polygons. *)
Lemma closed_dropped : forall kp pts s, pwell (GPts kp pts) -> closed_ring pts ->
  pnormalize CPoly (to_tv (GPts kp pts)) (Some [s]) = Ok (normal_form (GPts kp (removelast pts)) (Some [s])).
Proof.
  intros kp pts s W C. unfold pnormalize. rewrite (estimate_pform _ W). cbn [bind type_of_pform to_tv].
  destruct W as [NE F].
  assert (M : make CPoly (points_py kp pts) = Ok (unlabelled (removelast pts))).
  { assert (G : make_polygon (points_py kp pts) = Ok (open_ring (f32_pts pts))).
    { pose proof (pts_len _ _ F) as L. destruct pts as [|p pts]; [contradiction NE; reflexivity|].
      destruct kp; unfold points_py.
      - assert (M : mapM kp_row (map (point_py true) (p :: pts)) = Ok (p :: pts)).
        { rewrite (mapM_map_ok _ _ (fun p => p)); [rewrite map_id; reflexivity|].
          eapply Forall_impl; [|exact L]. intros [|x [|y [|? ?]]] E; try discriminate E. reflexivity. }
        apply Forall_inv in L. destruct p as [|x [|y [|? ?]]]; try discriminate L.
        change (map (point_py true) ([x; y] :: pts)) with (TKp x y :: map (point_py true) pts) in *.
        rewrite (eq_refl : make_polygon (TSeq false (TKp x y :: map (point_py true) pts)) =
          (do l <- mapM kp_row (TKp x y :: map (point_py true) pts); Ok (open_ring (f32_pts l)))).
        rewrite M. reflexivity.
      - assert (M : mapM first_two (map (point_py false) (p :: pts)) = Ok (p :: pts)).
        { rewrite (mapM_map_ok _ _ (fun p => p)); [rewrite map_id; reflexivity|].
          eapply Forall_impl; [|exact L]. intros [|x [|y [|? ?]]] E; try discriminate E. reflexivity. }
        apply Forall_inv in L. destruct p as [|x [|y [|? ?]]]; try discriminate L.
        change (map (point_py false) ([x; y] :: pts)) with (TSeq true [TNum x; TNum y] :: map (point_py false) pts) in *.
        rewrite (eq_refl : make_polygon (TSeq false (TSeq true [TNum x; TNum y] :: map (point_py false) pts)) =
          (do l <- mapM first_two (TSeq true [TNum x; TNum y] :: map (point_py false) pts); Ok (open_ring (f32_pts l)))).
        rewrite M. reflexivity. }
    unfold make. rewrite G. cbn [bind]. rewrite (f32_pts_ok float32 pts F). unfold open_ring.
    apply is_closed_iff in C. rewrite C. reflexivity. }
  unfold point_leaf. destruct kp; cbn [one_shape exactly length Nat.eqb bind]; rewrite M; reflexivity.
Qed.
Lemma removelast_in : forall {A} (P : A -> Prop) l, Forall P l -> Forall P (removelast l).
Proof.
  intros A P l F. induction F as [|x l X F IH]; [constructor|]. cbn [removelast]. destruct l; [constructor|].
  constructor; assumption.
Qed.
Lemma closed_back : forall kp pts s, pwell (GPts kp pts) -> closed_ring pts ->
  pinvert (normal_form (GPts kp (removelast pts)) (Some [s])) (to_tv (GPts kp pts)) =
  Ok (to_tv (GPts kp (removelast pts))).
Proof.
  intros kp pts s W C. unfold pinvert. rewrite (estimate_pform _ W). cbn [bind type_of_pform].
  destruct W as [_ F]. cbn [to_tv]. rewrite <- (back_pts kp float32 (removelast pts)) by (apply removelast_in, F).
  destruct kp; reflexivity.
Qed.

(** Arrays without any polygon. *)
Lemma no_polygons : forall c (d : dtype) n p ss, (1 <= n)%nat -> length ss = n ->
  let a := TArr (mkNd (ANum d) [Z.of_nat n; 0; Z.of_nat p; 2] []) in
  exists m, pnormalize c a (Some ss) = Ok m /\ exists e, pinvert m a = Err e.
Proof.
  intros c d n p ss N L a. subst a.
  assert (ES : estimate_t (TArr (mkNd (ANum d) [Z.of_nat n; 0; Z.of_nat p; 2] [])) = Ok (O, TLArr (kind_of (ANum d)))) by reflexivity.
  assert (GR : forall k, groups k 0 [] = repeat [] k) by (induction k as [|k IH]; [reflexivity|]; cbn; rewrite IH; reflexivity).
  assert (SUB : map sub (subarrays (mkNd (ANum d) [Z.of_nat n; 0; Z.of_nat p; 2] [])) = repeat [] n).
  { unfold subarrays. cbn [n_shape n_dt n_flat fold_right Z.mul Z.to_nat]. rewrite Nat2Z.id, GR.
    clear. induction n as [|n IH]; [reflexivity|]. cbn [repeat map]. rewrite IH. reflexivity. }
  exists (QOis (map (fun s => mkPoi [] s) ss)). split.
  - unfold pnormalize. rewrite ES. cbn [bind]. rewrite numeric_dtype. unfold t_arr, dims_ok.
    cbn [n_shape length last]. rewrite Nat.eqb_refl, Z.eqb_refl. cbn [andb bind]. rewrite SUB.
    unfold many, exactly. rewrite repeat_length, L, Nat.eqb_refl. cbn [bind].
    assert (G : mapM (fun p : list tv * list Z => do es <- mapM (make c) (fst p); Ok (mkPoi es (snd p)))
      (combine (repeat [] n) ss) = Ok (map (fun s => mkPoi [] s) ss)).
    { clear - L. revert n L. unfold mapM. induction ss as [|s ss IH]; intros n <-; [reflexivity|]. cbn [length repeat combine map sequence fst snd bind].
      rewrite IH by reflexivity. reflexivity. }
    rewrite G. reflexivity.
  - exists GenericException. unfold pinvert. rewrite ES. cbn [bind]. rewrite numeric_dtype. cbn [p_ois bind n_dt].
    destruct ss as [|s ss]; [cbn in L; lia|]. unfold restore_images.
    assert (G : mapM (restore_image (ANum d)) (map (fun s => mkPoi [] s) (s :: ss)) = Ok (map (fun _ => TSeq false []) (s :: ss))).
    { apply mapM_map_ok. apply Forall_forall. intros; reflexivity. }
    rewrite G. reflexivity.
Qed.
