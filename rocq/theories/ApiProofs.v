(** Proofs about normalization of maps, augment() and augment_batches(). *)
From Verif Require Import Prelude PreludeFacts DtyModel DtySpec DtyProofs MapModel MapSpec MapProofs NormModel NormSpec NormProofs
  PolyModel PolySpec PolyProofs ApiModel ApiSpec.
From Coq Require Import Lia Lqa.

(** * Shapes *)
Lemma zs_eqb_iff : forall a b, zs_eqb a b = true <-> a = b.
Proof.
  induction a as [|x a IH]; intros [|y b]; cbn [zs_eqb]; try (split; congruence).
  rewrite Bool.andb_true_iff, Z.eqb_eq, IH. split; [intros [-> ->]; reflexivity|intros H; injection H as -> ->; split; reflexivity].
Qed.
Lemma pairs_eqb_iff : forall a b : list Z,
  Nat.eqb (length a) (length b) && forallb (fun p => fst p =? snd p) (combine a b) = true <-> a = b.
Proof.
  induction a as [|x a IH]; intros [|y b]; cbn [length combine forallb]; try (split; cbn; congruence).
  specialize (IH b). cbn [Nat.eqb fst snd]. rewrite !Bool.andb_true_iff in *. rewrite Z.eqb_eq.
  split; [intros (A & -> & B); f_equal; apply IH; split; assumption|].
  intros H. injection H as -> H. apply IH in H. tauto.
Qed.
Lemma same_shapeb_iff : forall l, same_shapeb l = true <-> same_shape l.
Proof.
  intros [|a l]; unfold same_shapeb, same_shape; [split; [intros _ a b []|reflexivity]|].
  rewrite forallb_forall. split.
  - intros H. assert (E : forall b, In b (a :: l) -> fst b = fst a).
    { intros b [<-|I]; [reflexivity|]. apply zs_eqb_iff, H, I. }
    intros x y X Y. rewrite (E x X), (E y Y). reflexivity.
  - intros H b I. apply zs_eqb_iff. apply H; [right; exact I|left; reflexivity].
Qed.
Lemma merge_spec : forall d r, r <> [] ->
  merge d (map (as_array d) r) =
  if same_shapeb r then Some (stacked d (fst (hd ([], []) r)) (map snd r)) else None.
Proof.
  intros d [|a r] NE; [contradiction NE; reflexivity|].
  destruct (same_shapeb (a :: r)) eqn:S.
  - apply same_shapeb_iff in S.
    rewrite (merge_same d _ (fst a)); [|discriminate|].
    + rewrite map_length, map_map. cbn [hd]. unfold stacked. rewrite map_length. reflexivity.
    + apply Forall_forall. intros x I. apply in_map_iff in I. destruct I as (b & <- & I). cbn [as_array n_shape].
      apply S; [exact I|left; reflexivity].
  - unfold merge. cbn [map].
    match goal with |- (if ?f then _ else _) = _ => destruct f eqn:F; [|reflexivity] end.
    exfalso. assert (T : same_shapeb (a :: r) = true); [|rewrite S in T; discriminate T].
    rewrite forallb_forall in F. cbn [same_shapeb]. apply forallb_forall. intros b I. apply zs_eqb_iff.
    apply pairs_eqb_iff. apply (F (as_array d b)). right. apply in_map, I.
Qed.

Definition prod (s : list Z) : Z := fold_right Z.mul 1 s.
Lemma sub_stacked : forall d s l, Forall (fun q => length q = Z.to_nat (prod s)) l ->
  subarrays (stacked d s l) = map (fun q => mkNd d s q) l.
Proof.
  intros d s l F. unfold subarrays, stacked. cbn [n_shape n_dt n_flat]. rewrite Nat2Z.id.
  fold (prod s). rewrite groups_concat by exact F. reflexivity.
Qed.

(** * Maps *)
Section Maps.
Context {M : Type} (c : mcls M) (ok : adt -> content -> Prop) (obj : M -> Prop) (on : (content -> content) -> M -> M).
Hypothesis L1 : forall d q, ok d q -> m_kind c (kind_of d) = true.
Hypothesis L2 : forall d q, ok d q -> hwc q.
Hypothesis L3 : forall d q s, ok d q -> good_shape s -> exists m, m_make c (as_array d q) s = Ok m /\ obj m /\
  forall g, ok d (g q) -> m_get c (on g m) = Ok (as_array d (g q)).
Hypothesis L4 : forall m, obj m -> m_copy c m = Ok m.
Hypothesis L5 : forall d q, ok d q -> adt_eqb d d = true.

Lemma hwc_prod : forall q, hwc q -> length (snd q) = Z.to_nat (prod (fst q)).
Proof.
  intros q (h & w & k & E & H & W & K & L). rewrite E. cbn [prod fold_right]. rewrite Z.mul_1_r, Z.mul_assoc, <- L.
  rewrite Nat2Z.id. reflexivity.
Qed.
Lemma hwc_dims : forall q, hwc q -> length (fst q) = 3%nat.
Proof. intros q (h & w & k & -> & _). reflexivity. Qed.

Lemma copies : forall l, Forall obj l -> copy_maps c (Some l) = Ok (Some l).
Proof.
  intros l F. unfold copy_maps. rewrite <- (map_id l) at 1.
  rewrite (mapM_map_ok _ _ (fun m => m)); [rewrite map_id; reflexivity|].
  eapply Forall_impl; [|exact F]. exact L4.
Qed.

(** Making the objects of a list of arrays. *)
Lemma make_all : forall d l ss, Forall (ok d) l -> length ss = length l -> Forall good_shape ss ->
  exists ms, make_maps c (map (as_array d) l) (Some ss) = Ok (Some ms) /\ Forall obj ms /\ length ms = length l /\
    forall g, Forall (ok d) (map g l) -> mapM (m_get c) (map (on g) ms) = Ok (map (as_array d) (map g l)).
Proof.
  intros d l ss F E G. unfold make_maps, exactly. rewrite map_length, E, Nat.eqb_refl. cbn [bind].
  revert ss E G. induction F as [|q l Q F IH]; intros [|s ss] E G; try discriminate E.
  - exists []. repeat split; constructor.
  - destruct (IH ss) as (ms & E1 & E2 & E3 & E4); [injection E as E; exact E|exact (Forall_inv_tail G)|].
    destruct (L3 d q s Q (Forall_inv G)) as (m & M1 & M2 & M3).
    exists (m :: ms). split; [|split; [constructor; assumption|split; [cbn [length]; rewrite E3; reflexivity|]]].
    + unfold mapM in *. cbn [map combine sequence fst snd]. rewrite M1. cbn [bind].
      destruct (sequence (map (fun p => m_make c (fst p) (snd p)) (combine (map (as_array d) l) ss))) as [x|e];
        cbn [bind] in E1; [|discriminate E1].
      injection E1 as ->. reflexivity.
    + intros g GF. cbn [map] in GF. unfold mapM in *. cbn [map sequence]. rewrite (M3 g (Forall_inv GF)). cbn [bind].
      rewrite (E4 g (Forall_inv_tail GF)). reflexivity.
Qed.

Lemma restore_all_maps : forall d l, Forall (fun q => adt_eqb d d = true) l ->
  mapM (restore_map d) (map (as_array d) l) = Ok (map (as_array d) l).
Proof.
  intros d l F. apply mapM_map_ok. eapply Forall_impl; [|exact F]. intros q A. unfold restore_map.
  cbn [as_array n_dt]. rewrite A. reflexivity.
Qed.

Lemma arrays_of : forall d (l : list content), Forall hwc l ->
  mapM (@m_arr M 3) (map (fun q => MArr (as_array d q)) l) = Ok (map (as_array d) l).
Proof.
  intros d l F. apply mapM_map_ok. eapply Forall_impl; [|exact F]. intros q H. unfold m_arr.
  cbn [as_array n_shape]. rewrite (hwc_dims q H). reflexivity.
Qed.
Lemma arr4 : forall d s l, length s = 3%nat -> @m_arr M 4 (MArr (stacked d s l)) = Ok (stacked d s l).
Proof. intros d s l D. unfold m_arr, stacked. cbn [n_shape length]. rewrite D. reflexivity. Qed.
Lemma objects_of : forall l : list M, mapM m_obj (map MObj l) = Ok l.
Proof. intros l. rewrite (mapM_map_ok _ _ (fun m => m)); [rewrite map_id; reflexivity|]. apply Forall_all. reflexivity. Qed.

Lemma on_array : forall d s l (g : content -> content), l <> [] ->
  to_mv (on_maps (on g) g (WArray d s l)) =
  match merge d (map (as_array d) (map (fun q => g (s, q)) l)) with
  | Some a => MArr a | None => MSeq false (map MArr (map (as_array d) (map (fun q => g (s, q)) l)))
  end.
Proof.
  intros d s l g NE. rewrite merge_spec by (destruct l; [contradiction NE; reflexivity|discriminate]).
  cbn [on_maps]. cbv zeta.
  destruct (same_shapeb (map (fun q => g (s, q)) l)) eqn:S; cbn [to_mv].
  - destruct l as [|q l]; [contradiction NE; reflexivity|]. reflexivity.
  - f_equal. rewrite !map_map. reflexivity.
Qed.
Lemma well_array : forall d s l (g : content -> content), l <> [] ->
  mwell ok obj (on_maps (on g) g (WArray d s l)) -> Forall (ok d) (map (fun q => g (s, q)) l).
Proof.
  intros d s l g NE. cbn [on_maps]. cbv zeta.
  destruct (same_shapeb (map (fun q => g (s, q)) l)) eqn:S; cbn [mwell]; intros [_ F]; [|exact F].
  apply same_shapeb_iff in S. rewrite Forall_forall in F. apply Forall_forall. intros x I.
  specialize (F (snd x)). destruct l as [|q0 l]; [contradiction NE; reflexivity|]. cbn [map] in F, I, S.
  assert (E : fst (g (s, q0)) = fst x) by (apply S; [left; reflexivity|exact I]).
  rewrite E in F. rewrite (surjective_pairing x). apply F.
  change (snd (g (s, q0)) :: map snd (map (fun q => g (s, q)) l)) with (map snd (g (s, q0) :: map (fun q => g (s, q)) l)).
  apply in_map, I.
Qed.

Lemma maps_round_trip : forall v shapes, mwell ok obj v -> menough v shapes ->
  exists n, mnormalize c (to_mv v) shapes = Ok n /\ copy_maps c n = Ok n /\
    forall g, mwell ok obj (on_maps (on g) g v) ->
      minvert c (all_maps (on g) n) (to_mv v) = Ok (to_mv (on_maps (on g) g v)).
Proof.
  intros v shapes W E. destruct v as [| |d s l|d l|m|l]; cbn [mwell] in W.
  - exists None. repeat split; reflexivity.
  - exists None. repeat split; reflexivity.
  - destruct W as [NE F]. destruct E as (ss & -> & E & G).
    assert (F' : Forall (ok d) (map (fun q => (s, q)) l)).
    { apply Forall_forall. intros x I. apply in_map_iff in I. destruct I as (q & <- & I).
      rewrite Forall_forall in F. apply F, I. }
    destruct (make_all d (map (fun q => (s, q)) l) ss F') as (ms & E1 & E2 & E3 & E4); [rewrite map_length; exact E|exact G|].
    assert (K : exists q, ok d (s, q)).
    { destruct l as [|q l]; [contradiction NE; reflexivity|]. exists q. exact (Forall_inv F). }
    destruct K as [q0 K]. assert (D := hwc_dims _ (L2 _ _ K)). cbn [fst] in D.
    assert (SA : subarrays (stacked d s l) = map (as_array d) (map (fun q => (s, q)) l)).
    { rewrite sub_stacked, map_map; [reflexivity|]. eapply Forall_impl; [|exact F]. intros q Q.
      apply (hwc_prod (s, q)), (L2 d), Q. }
    exists (Some ms). split; [|split; [apply copies, E2|]].
    + unfold mnormalize, estimate_m. cbn [to_mv find_first_m type_of_m length Nat.ltb Nat.leb negb last].
      cbn [bind]. change (n_dt (stacked d s l)) with d. rewrite (L1 d _ K), (arr4 d s l D). cbn [bind]. rewrite SA. exact E1.
    + intros g W'. apply well_array in W'; [|exact NE]. rewrite on_array by exact NE.
      unfold minvert, estimate_m. cbn [to_mv find_first_m type_of_m length Nat.ltb Nat.leb negb last all_maps].
      cbn [bind]. change (n_dt (stacked d s l)) with d. rewrite (L1 d _ K).
      change (hd 0 (n_shape (stacked d s l))) with (Z.of_nat (length l)). rewrite map_length, E3, map_length, Z.eqb_refl. cbn [negb].
      rewrite E4 by (rewrite map_map; exact W'). cbn [bind]. rewrite (map_map (fun q => (s, q)) g). unfold restore_maps.
      rewrite restore_all_maps; [|apply Forall_all; intros _; exact (L5 _ _ K)].
      cbn [bind]. destruct (merge _ _); reflexivity.
  - destruct W as [NE F]. destruct E as (ss & -> & E & G).
    destruct (make_all d l ss F E G) as (ms & E1 & E2 & E3 & E4).
    destruct l as [|q l]; [contradiction NE; reflexivity|]. assert (K := Forall_inv F). cbv beta in K.
    assert (H : Forall hwc (q :: l)) by (eapply Forall_impl; [|exact F]; intros x; apply L2).
    exists (Some ms). split; [|split; [apply copies, E2|]].
    + unfold mnormalize, estimate_m. cbn [to_mv map find_first_m type_of_m app length Nat.ltb Nat.leb negb last].
      cbn [bind]. change (n_dt (as_array d q)) with d. rewrite (L1 d _ K). cbn [m_seq bind].
      change (MArr (as_array d q) :: map (fun c0 => MArr (as_array d c0)) l)
        with (map (fun c0 => @MArr M (as_array d c0)) (q :: l)).
      rewrite arrays_of by exact H. cbn [bind]. exact E1.
    + intros g W'. cbn [on_maps mwell] in W'. destruct W' as [_ W'].
      unfold minvert, estimate_m. cbn [to_mv map find_first_m type_of_m app length Nat.ltb Nat.leb negb last all_maps].
      cbn [bind]. change (n_dt (as_array d q)) with d. rewrite (L1 d _ K). rewrite (E4 g W'). cbn [bind].
      rewrite restore_all_maps; [|apply Forall_all; intros _; exact (L5 _ _ K)].
      cbn [bind on_maps to_mv map]. rewrite !map_map. reflexivity.
  - exists (Some [m]). split; [reflexivity|]. split; [apply copies; constructor; [exact W|constructor]|]. reflexivity.
  - destruct W as [NE F]. exists (Some l). split; [|split; [apply copies, F|]].
    + destruct l as [|m l]; [contradiction NE; reflexivity|].
      unfold mnormalize, estimate_m. cbn [to_mv map find_first_m type_of_m app length Nat.ltb Nat.leb negb last bind m_seq].
      change (MObj m :: map MObj l) with (map MObj (m :: l)). rewrite objects_of. reflexivity.
    + intros g _. destruct l as [|m l]; [contradiction NE; reflexivity|].
      unfold minvert, estimate_m. cbn [to_mv map find_first_m type_of_m app length Nat.ltb Nat.leb negb last bind all_maps on_maps].
      reflexivity.
Qed.

(** Wrong numbers of images. *)
Lemma maps_wrong_images : forall v shapes n, mwell ok obj v -> mimages_needed v = Some n ->
  (forall l, shapes = Some l -> length l <> n) -> mnormalize c (to_mv v) shapes = Err ValueError.
Proof.
  intros v shapes n W N H.
  assert (X : forall k, k = n -> exactly k shapes = Err ValueError).
  { intros k ->. unfold exactly. destruct shapes as [l|]; [|reflexivity].
    destruct (Nat.eqb_spec (length l) n); [|reflexivity]. exfalso. exact (H l eq_refl e). }
  destruct v as [| |d s l|d l|m|l]; try discriminate N; injection N as N; cbn [mwell] in W; destruct W as [NE F].
  - assert (K : exists q, ok d (s, q)).
    { destruct l as [|q l]; [contradiction NE; reflexivity|]. exists q. exact (Forall_inv F). }
    destruct K as [q0 K]. assert (D := hwc_dims _ (L2 _ _ K)). cbn [fst] in D.
    unfold mnormalize, estimate_m. cbn [to_mv find_first_m type_of_m length Nat.ltb Nat.leb negb last].
    cbn [bind]. change (n_dt (stacked d s l)) with d. rewrite (L1 d _ K), (arr4 d s l D). cbn [bind]. unfold make_maps.
    rewrite sub_stacked by (eapply Forall_impl; [|exact F]; intros q Q; apply (hwc_prod (s, q)), (L2 d), Q).
    rewrite X by (rewrite map_length; exact N). reflexivity.
  - destruct l as [|q l]; [contradiction NE; reflexivity|]. assert (K := Forall_inv F). cbv beta in K.
    assert (Hw : Forall hwc (q :: l)) by (eapply Forall_impl; [|exact F]; intros x; apply L2).
    unfold mnormalize, estimate_m. cbn [to_mv map find_first_m type_of_m app length Nat.ltb Nat.leb negb last].
    cbn [bind]. change (n_dt (as_array d q)) with d. rewrite (L1 d _ K). cbn [m_seq bind].
    change (MArr (as_array d q) :: map (fun c0 => MArr (as_array d c0)) l)
      with (map (fun c0 => @MArr M (as_array d c0)) (q :: l)).
    rewrite arrays_of by exact Hw. cbn [bind]. unfold make_maps. rewrite X by (rewrite map_length; exact N). reflexivity.
Qed.
End Maps.

(** ** Heatmaps *)
Lemma hwc_map_shape : forall d q, hwc q -> map_shape (as_array d q).
Proof. intros d q (h & w & k & E & H & W & K & L). right. exists h, w, k. cbn [as_array n_shape n_flat]. tauto. Qed.

Lemma heat_kind : forall d q, heat_content d q -> m_kind heat_cls (kind_of d) = true.
Proof. intros d q (-> & _). reflexivity. Qed.
Lemma heat_hwc : forall d q, heat_content d q -> hwc q.
Proof. intros d q (_ & H & _). exact H. Qed.
Lemma heat_make : forall d q s, heat_content d q -> good_shape s ->
  exists m, m_make heat_cls (as_array d q) s = Ok m /\ heat_object m /\
  forall g, heat_content d (g q) -> m_get heat_cls (on_heat g m) = Ok (as_array d (g q)).
Proof.
  intros d q s (-> & H & V) G. cbn [m_make heat_cls].
  rewrite mk_heatmap_ok; [|apply hwc_map_shape, H|reflexivity|exact G|reflexivity].
  assert (ST : stored (as_array (ANum float32) q) 0 1 = snd q).
  { unfold stored. rewrite not_clipped; [reflexivity|apply hwc_map_shape, H|].
    apply Forall_firstn'. eapply Forall_impl; [|exact V]. intros v [A B]. pose proof eps_pos. lra. }
  assert (S3 : shape3 (as_array (ANum float32) q) = fst q /\ is_2d (as_array (ANum float32) q) = false).
  { unfold shape3, is_2d. cbn [as_array n_shape]. rewrite (hwc_dims q H). split; reflexivity. }
  destruct S3 as [S3 S2]. rewrite ST, S3, S2.
  eexists. split; [reflexivity|]. split.
  - split; [|split; [reflexivity|split; [reflexivity|split; [exact G|discriminate]]]].
    split; [reflexivity|]. split; [destruct q; exact H|exact V].
  - intros g _. cbn [m_get heat_cls on_heat hm_arr]. destruct q; reflexivity.
Qed.
Lemma heat_copy : forall m, heat_object m -> m_copy heat_cls m = Ok m.
Proof.
  intros [[d sh vals] shape mn mx was2d] ((D & H & V) & Mn & Mx & G & T).
  cbn [hm_arr n_dt n_shape n_flat hm_min hm_max hm_shape hm_2d content_of fst snd] in *. subst d mn mx.
  cbn [m_copy heat_cls]. unfold hm_deepcopy, get_arr.
  cbn [hm_arr n_dt n_shape n_flat hm_min hm_max hm_shape hm_2d]. change (unit_range 0 1) with true. cbv iota.
  destruct H as (h & w & k & E & Hh & Hw & Hk & L). cbn [fst snd content_of n_shape n_flat] in E, L. subst sh. cbn [nth] in *.
  assert (NC : forall a, map_shape a -> n_flat a = vals -> stored a 0 1 = vals).
  { intros a S F. unfold stored. rewrite not_clipped; [rewrite F; reflexivity|exact S|].
    rewrite F. apply Forall_firstn'. eapply Forall_impl; [|exact V]. intros v [A B]. pose proof eps_pos. lra. }
  destruct was2d.
  - rewrite (T eq_refl) in *. change (1 =? 1) with true. cbn [andb firstn].
    assert (MS : map_shape (mkNd (ANum float32) [h; w] vals)).
    { left. exists h, w. cbn [n_shape n_flat]. rewrite L. repeat split; try assumption; lia. }
    rewrite mk_heatmap_ok; [|exact MS|reflexivity|exact G|reflexivity].
    rewrite (NC _ MS eq_refl). reflexivity.
  - cbn [andb].
    assert (MS : map_shape (mkNd (ANum float32) [h; w; k] vals)).
    { right. exists h, w, k. cbn [n_shape n_flat]. repeat split; assumption. }
    rewrite mk_heatmap_ok; [|exact MS|reflexivity|exact G|reflexivity].
    rewrite (NC _ MS eq_refl). reflexivity.
Qed.
Lemma heat_eqb : forall d q, heat_content d q -> adt_eqb d d = true.
Proof. intros d q (-> & _). reflexivity. Qed.

(** ** Segmentation maps *)
Lemma seg_dtypes : forall d, segmap_dtype d -> m_kind seg_cls (kind_of d) = true /\ adt_eqb d d = true.
Proof. intros d [->|[->|[->|[->|[->| ->]]]]]; split; reflexivity. Qed.
Lemma seg_kind : forall d q, seg_content d q -> m_kind seg_cls (kind_of d) = true.
Proof. intros d q (D & _). exact (proj1 (seg_dtypes d D)). Qed.
Lemma seg_eqb : forall d q, seg_content d q -> adt_eqb d d = true.
Proof. intros d q (D & _). exact (proj2 (seg_dtypes d D)). Qed.
Lemma seg_hwc : forall d q, seg_content d q -> hwc q.
Proof. intros d q (_ & H & _). exact H. Qed.
Lemma not_neg : forall l n, l <> [] -> Forall (fun v => 0 <= v)%Q l -> (0 < n)%nat ->
  exists m, np_min (firstn n l) = Ok m /\ qleb 0 m = true.
Proof.
  intros l n NE F N. destruct (np_min_spec (firstn n l)) as (m & E & _ & I); [apply firstn_nonempty; assumption|].
  exists m. split; [exact E|]. apply qleb_iff. apply In_firstn in I. rewrite Forall_forall in F. apply F, I.
Qed.
Lemma hwc_ne : forall q, hwc q -> snd q <> [].
Proof.
  intros q (h & w & k & _ & H & W & K & L) E. rewrite E in L. cbn [length] in L.
  assert (0 < h * w * k) by (repeat apply Z.mul_pos_pos; assumption). lia.
Qed.
Lemma seg_make : forall d q s, seg_content d q -> good_shape s ->
  exists m, m_make seg_cls (as_array d q) s = Ok m /\ seg_object m /\
  forall g, seg_content d (g q) -> m_get seg_cls (on_seg g m) = Ok (as_array d (g q)).
Proof.
  intros d q s (D & H & V) G. exists (mkSeg (mkNd (ANum (DI 32)) (fst q) (snd q)) s d 3).
  assert (V0 : Forall (fun v => 0 <= v)%Q (snd q)) by (eapply Forall_impl; [|exact V]; intros v [_ B]; exact B).
  split; [|split].
  - cbn [m_make seg_cls]. rewrite mk_segmap_int.
    + unfold shape3, is_2d. cbn [as_array n_shape n_flat n_dt]. rewrite (hwc_dims q H). reflexivity.
    + exact D.
    + apply hwc_map_shape, H.
    + intros _. apply Forall_firstn'. exact V0.
  - split; [reflexivity|]. split; [destruct q; exact H|exact V0].
  - intros g (_ & _ & V'). cbn [m_get seg_cls]. unfold seg_get_arr. cbn [on_seg sg_ndim sg_dt sg_arr Nat.eqb].
    unfold on_content, as_array, content_of. cbn [n_dt n_shape n_flat]. rewrite <- (surjective_pairing q). f_equal. f_equal.
    transitivity (map (fun v : Q => v) (snd (g q))); [|apply map_id].
    apply map_ext_in. intros v I. rewrite Forall_forall in V'.
    apply astype_back; [exact D|]. exact (proj1 (V' v I)).
Qed.
Lemma seg_copies : forall m, seg_object m -> m_copy seg_cls m = Ok m.
Proof.
  intros [[d sh vals] shape dt ndim] (D & H & V). cbn [sg_arr n_dt n_flat] in *. subst d.
  cbn [m_copy seg_cls]. unfold seg_copy, mk_segmap. cbn [sg_arr n_shape n_dt n_flat sg_shape sg_dt sg_ndim].
  assert (L := hwc_dims _ H). cbn [content_of fst n_shape] in L. rewrite L. cbn [existsb Nat.eqb orb negb bind n_dt n_flat].
  destruct (not_neg vals 100 (hwc_ne _ H) V) as (m & E1 & E2); [lia|]. rewrite E1. cbn [bind]. rewrite E2.
  cbn [negb Z.leb Z.compare Pos.compare Pos.compare_cont bind n_shape n_flat]. rewrite L. reflexivity.
Qed.

Lemma heat_round_trip : forall v shapes, mwell heat_content heat_object v -> menough v shapes ->
  exists n, mnormalize heat_cls (to_mv v) shapes = Ok n /\ copy_maps heat_cls n = Ok n /\
    forall g, mwell heat_content heat_object (on_maps (on_heat g) g v) ->
      minvert heat_cls (all_maps (on_heat g) n) (to_mv v) = Ok (to_mv (on_maps (on_heat g) g v)).
Proof. exact (maps_round_trip heat_cls heat_content heat_object on_heat heat_kind heat_hwc heat_make heat_copy heat_eqb). Qed.
Lemma seg_round_trip : forall v shapes, mwell seg_content seg_object v -> menough v shapes ->
  exists n, mnormalize seg_cls (to_mv v) shapes = Ok n /\ copy_maps seg_cls n = Ok n /\
    forall g, mwell seg_content seg_object (on_maps (on_seg g) g v) ->
      minvert seg_cls (all_maps (on_seg g) n) (to_mv v) = Ok (to_mv (on_maps (on_seg g) g v)).
Proof. exact (maps_round_trip seg_cls seg_content seg_object on_seg seg_kind seg_hwc seg_make seg_copies seg_eqb). Qed.
Lemma heat_wrong_images : forall v shapes n, mwell heat_content heat_object v -> mimages_needed v = Some n ->
  (forall l, shapes = Some l -> length l <> n) -> mnormalize heat_cls (to_mv v) shapes = Err ValueError.
Proof. exact (maps_wrong_images heat_cls heat_content heat_object heat_kind heat_hwc). Qed.
Lemma seg_wrong_images : forall v shapes n, mwell seg_content seg_object v -> mimages_needed v = Some n ->
  (forall l, shapes = Some l -> length l <> n) -> mnormalize seg_cls (to_mv v) shapes = Err ValueError.
Proof. exact (maps_wrong_images seg_cls seg_content seg_object seg_kind seg_hwc). Qed.

(** * Images *)
Definition norm_image (p : adt * content) : nd := mkNd (fst p) (with_channel (fst (snd p))) (snd (snd p)).
Definition norm_images (v : iform) : images :=
  match v with
  | VNone => INone
  | VSingle d h w q => IArr (mkNd d [1; h; w; 1] q)
  | VArray d s l => IArr (stacked d (with_channel s) l)
  | VList l => IList (map norm_image l)
  end.
Lemma image_prod : forall c, image_ok c -> length (snd c) = Z.to_nat (prod (fst c)) /\
  length (snd c) = Z.to_nat (prod (with_channel (fst c))).
Proof.
  intros [s q]. cbn [fst snd]. intros [(h & w & E & H & W & L)|(h & w & k & E & H & W & K & L)]; cbn [fst snd] in *; subst s;
    cbn [with_channel prod fold_right]; rewrite ?Z.mul_1_r, ?Z.mul_1_l, ?Z.mul_assoc, <- ?L, ?Nat2Z.id; split; reflexivity.
Qed.
Lemma single_prod : forall h w q, image_ok ([h; w], q) -> Forall (fun x => length x = Z.to_nat (prod [h; w; 1])) [q].
Proof. intros h w q O. constructor; [|constructor]. exact (proj2 (image_prod _ O)). Qed.

Lemma images_norm : forall v, iwell v ->
  normalize_images (to_images v) = Ok (norm_images v) /\ image_shapes (norm_images v) = sizes v.
Proof.
  intros [|d h w q|d s l|l] W; cbn [iwell] in W.
  - split; reflexivity.
  - split; [reflexivity|]. cbn [norm_images image_shapes sizes].
    assert (E : mkNd d [1; h; w; 1] q = stacked d [h; w; 1] [q]) by (unfold stacked; cbn; rewrite app_nil_r; reflexivity).
    rewrite E, sub_stacked; [reflexivity|]. apply single_prod, W.
  - destruct W as [NE F]. split.
    + destruct l as [|q l]; [contradiction NE; reflexivity|].
      destruct (Forall_inv F) as [(h & w & E & _)|(h & w & k & E & _)]; cbn [fst] in E; subst s; reflexivity.
    + cbn [norm_images image_shapes sizes]. rewrite sub_stacked, map_map; [reflexivity|].
      eapply Forall_impl; [|exact F]. intros q O. exact (proj2 (image_prod _ O)).
  - split; [|cbn [norm_images image_shapes sizes]; rewrite map_map; reflexivity].
    cbn [to_images normalize_images norm_images].
    rewrite (mapM_map_ok _ _ norm_image); [reflexivity|].
    eapply Forall_impl; [|exact W]. intros [d [s q]] [(h & w & E & _)|(h & w & k & E & _)]; cbn [fst snd] in E; subst s; reflexivity.
Qed.

Lemma kept : forall g h w q, keeps_channels g ->
  exists h' w', fst (g ([h; w; 1], q)) = [h'; w'; 1] /\ fst (on_image g ([h; w], q)) = [h'; w'] /\
    snd (on_image g ([h; w], q)) = snd (g ([h; w; 1], q)).
Proof.
  intros g h w q K. destruct (K ([h; w; 1], q) eq_refl) as [L N]. cbn [on_image fst snd].
  destruct (fst (g ([h; w; 1], q))) as [|h' [|w' [|c [|? ?]]]]; try discriminate L. cbn [nth fst] in N. subst c.
  exists h', w'. repeat split; reflexivity.
Qed.
Lemma same_gray : forall g h w l, keeps_channels g ->
  same_shapeb (map (fun q => on_image g ([h; w], q)) l) = same_shapeb (map (fun q => g ([h; w; 1], q)) l).
Proof.
  intros g h w l K. apply Bool.eq_iff_eq_true. rewrite !same_shapeb_iff. unfold same_shape. split; intros H a b A B;
    apply in_map_iff in A, B; destruct A as (x & <- & A), B as (y & <- & B);
    destruct (kept g h w x K) as (hx & wx & X1 & X2 & _), (kept g h w y K) as (hy & wy & Y1 & Y2 & _).
  - specialize (H _ _ (in_map (fun q => on_image g ([h; w], q)) l x A) (in_map (fun q => on_image g ([h; w], q)) l y B)).
    cbv beta in H. rewrite X2, Y2 in H. rewrite X1, Y1. injection H as -> ->. reflexivity.
  - specialize (H _ _ (in_map (fun q => g ([h; w; 1], q)) l x A) (in_map (fun q => g ([h; w; 1], q)) l y B)).
    cbv beta in H. rewrite X1, Y1 in H. rewrite X2, Y2. injection H as -> ->. reflexivity.
Qed.
Lemma combine_maps : forall {A B C} (f : A -> B) (g : A -> C) l, combine (map f l) (map g l) = map (fun a => (f a, g a)) l.
Proof. intros A B C f g l. induction l as [|a l IH]; [reflexivity|]. cbn [map combine]. rewrite IH. reflexivity. Qed.

Lemma invert_one : forall g d d' s q, keeps_channels g -> image_ok (s, q) ->
  invert_image (as_array d (g (with_channel s, q)), mkNd d' s q) = Ok (as_array d (on_image g (s, q))).
Proof.
  intros g d d' s q K O. unfold invert_image. cbn [n_shape].
  destruct O as [(h & w & E & _)|(h & w & k & E & _)]; cbn [fst] in E; subst s; cbn [with_channel].
  - destruct (kept g h w q K) as (h' & w' & E1 & E2 & E3). unfold as_array at 1. cbn [n_shape]. rewrite E1. cbn [Z.eqb Pos.eqb].
    unfold with_shape, as_array. cbn [n_dt n_flat]. rewrite E2, E3. reflexivity.
  - reflexivity.
Qed.

Lemma images_back : forall g v, iwell v -> keeps_channels g ->
  invert_normalize_images (all_images g (norm_images v)) (to_images v) = Ok (to_images (on_images g v)).
Proof.
  intros g [|d h w q|d s l|l] W K; cbn [iwell] in W.
  - reflexivity.
  - cbn [norm_images all_images].
    assert (E : mkNd d [1; h; w; 1] q = stacked d [h; w; 1] [q]) by (unfold stacked; cbn; rewrite app_nil_r; reflexivity).
    rewrite E, sub_stacked by (apply single_prod, W).
    cbn [map same_shapeb forallb content_of n_shape n_flat].
    destruct (kept g h w q K) as (h' & w' & E1 & E2 & E3).
    change (content_of {| n_dt := d; n_shape := [h; w; 1]; n_flat := q |}) with ([h; w; 1], q). rewrite E1.
    cbn [on_images to_images]. rewrite E2, E3. cbn [nth].
    cbn. unfold with_shape, stacked. cbn [n_dt n_flat concat]. rewrite app_nil_r. reflexivity.
  - destruct W as [NE F]. cbn [norm_images all_images on_images].
    rewrite sub_stacked by (eapply Forall_impl; [|exact F]; intros q O; exact (proj2 (image_prod _ O))).
    rewrite map_map. unfold content_of. cbn [n_shape n_flat]. cbv zeta.
    assert (S : (exists h w, s = [h; w]) \/ (exists h w k, s = [h; w; k])).
    { destruct l as [|q l]; [contradiction NE; reflexivity|].
      destruct (Forall_inv F) as [(h & w & E & _)|(h & w & k & E & _)]; cbn [fst] in E; [left|right]; eauto. }
    destruct S as [(h & w & ->)|(h & w & k & ->)]; cbn [with_channel].
    + rewrite (same_gray g h w l K).
      destruct (same_shapeb (map (fun x => g ([h; w; 1], x)) l)) eqn:S.
      * destruct l as [|q l]; [contradiction NE; reflexivity|]. cbn [map].
        destruct (kept g h w q K) as (h' & w' & E1 & E2 & E3). rewrite E1, E2.
        cbn [to_images]. unfold stacked. cbn [invert_normalize_images n_shape map length Z.eqb Pos.eqb negb].
        unfold with_shape. cbn [n_dt n_flat map length]. rewrite E3. rewrite !map_map.
        rewrite !map_length.
        reflexivity.
      * cbn [to_images invert_normalize_images]. change (n_shape (stacked d [h; w] l)) with [Z.of_nat (length l); h; w].
        change (n_dt (stacked d [h; w; 1] l)) with d. cbv iota.
        rewrite sub_stacked by (eapply Forall_impl; [|exact F]; intros q O; exact (proj1 (image_prod _ O))).
        unfold invert_list. rewrite !map_map. rewrite combine_maps.
        rewrite (mapM_map_ok _ _ (fun q => as_array d (on_image g ([h; w], q)))).
        -- cbn [bind]. reflexivity.
        -- eapply Forall_impl; [|exact F]. intros q O. cbn [n_dt stacked]. apply (invert_one g d d [h; w] q K O).
    + destruct (same_shapeb (map (fun x => g ([h; w; k], x)) l)) eqn:S.
      * change (map (fun q => on_image g ([h; w; k], q)) l) with (map (fun q => g ([h; w; k], q)) l). rewrite S. reflexivity.
      * change (map (fun q => on_image g ([h; w; k], q)) l) with (map (fun q => g ([h; w; k], q)) l). rewrite S.
        cbn [to_images invert_normalize_images]. change (n_shape (stacked d [h; w; k] l)) with [Z.of_nat (length l); h; w; k].
        change (n_dt (stacked d [h; w; k] l)) with d. cbv iota.
        rewrite sub_stacked by (eapply Forall_impl; [|exact F]; intros q O; exact (proj1 (image_prod _ O))).
        unfold invert_list. rewrite !map_map. rewrite combine_maps.
        rewrite (mapM_map_ok _ _ (fun q => as_array d (g ([h; w; k], q)))).
        -- cbn [bind]. reflexivity.
        -- eapply Forall_impl; [|exact F]. intros q O. reflexivity.
  - cbn [norm_images all_images on_images to_images invert_normalize_images]. unfold invert_list.
    rewrite map_map, combine_maps.
    rewrite (mapM_map_ok _ _ (fun p => as_array (fst p) (on_image g (snd p)))).
    + cbn [bind]. rewrite map_map. reflexivity.
    + eapply Forall_impl; [|exact W]. intros [d [s q]] O. apply (invert_one g d d s q K O).
Qed.

(** * The whole batch *)
Lemma batch_round_trip : forall x f r (D : Type) (d : D), performs x f -> applies x r ->
  augment_ubatch f (mkUb (python r) u_none d) = Ok (mkUb (python r) (python (act x r)) d).
Proof.
  intros x f r D d P (W & S & W' & K).
  destruct W as (Wi & Wh & Ws & Wk & Wb & Wp & Wl), W' as (Wi' & Wh' & Ws' & Wk' & Wb' & Wp' & Wl').
  destruct S as (Sk & Sb & Sp & Sl & Eh & Es & Ek & Eb & Ep & El).
  destruct (images_norm _ Wi) as [N1 N2].
  destruct (heat_round_trip _ _ Wh Eh) as (nh & H1 & H2 & H3).
  destruct (seg_round_trip _ _ Ws Es) as (ns & S1 & S2 & S3).
  destruct (round_trip CKeypoint (x_kps x) _ _ Wk Sk Wk' Ek) as (nk & K1 & K2).
  destruct (round_trip CBox (x_bbs x) _ _ Wb Sb Wb' Eb) as (nb & B1 & B2).
  destruct (poly_round_trip CPoly (x_pol x) _ _ Wp Sp Wp' Ep) as (np & P1 & _ & P2).
  destruct (poly_round_trip CLine (x_lin x) _ _ Wl Sl Wl' El) as (nl & L1 & _ & L2).
  unfold augment_ubatch, to_normalized_batch. cbn [ub_out ub_in ub_data u_is_none u_none u_img u_heat u_seg u_kps u_bbs u_pol u_lin negb].
  unfold normalize_cols. cbn [python u_img u_heat u_seg u_kps u_bbs u_pol u_lin].
  rewrite N1. cbn [bind]. rewrite N2, H1. cbn [bind]. rewrite S1. cbn [bind]. rewrite K1. cbn [bind]. rewrite B1. cbn [bind].
  rewrite P1. cbn [bind]. rewrite L1. cbn [bind].
  unfold augment_nbatch, in_augmentation. cbn [nb_in nb_out nb_data c_img c_heat c_seg c_kps c_bbs c_pol c_lin].
  rewrite H2. cbn [bind]. rewrite S2. cbn [bind]. rewrite P. cbn [bind c_img c_heat c_seg c_kps c_bbs c_pol c_lin].
  unfold fill_, restore_cols. cbn [nb_out ub_in ub_data c_img c_heat c_seg c_kps c_bbs c_pol c_lin python u_img u_heat u_seg u_kps u_bbs u_pol u_lin].
  rewrite images_back by assumption. cbn [bind]. rewrite (H3 _ Wh'). cbn [bind]. rewrite (S3 _ Ws'). cbn [bind].
  rewrite K2. cbn [bind]. rewrite B2. cbn [bind]. rewrite P2. cbn [bind]. rewrite L2. cbn [bind]. reflexivity.
Qed.

Lemma u_is_none_iff : forall u, u_is_none u = true <-> u = u_none.
Proof.
  intros [i h s k b p l]. unfold u_is_none, u_none. cbn [u_img u_heat u_seg u_kps u_bbs u_pol u_lin]. split.
  - intros H. destruct i; try discriminate H. destruct h; try discriminate H. destruct s; try discriminate H.
    destruct k; try discriminate H. destruct b; try discriminate H. destruct p; try discriminate H.
    destruct l; try discriminate H. reflexivity.
  - intros H. injection H as -> -> -> -> -> -> ->. reflexivity.
Qed.
Lemma augment_twice : forall (D : Type) f f' (b b' : ubatch D), augment_ubatch f b = Ok b' -> ub_out b' <> u_none ->
  augment_ubatch f' b' = Err AssertionError.
Proof.
  intros D f f' b b' _ N. unfold augment_ubatch, to_normalized_batch.
  destruct (u_is_none (ub_out b')) eqn:E; [apply u_is_none_iff in E; contradiction|reflexivity].
Qed.
Lemma bind_ok : forall {A B} (m : res A) (k : A -> res B) x, bind m k = Ok x -> exists a, m = Ok a /\ k a = Ok x.
Proof. intros A B [a|e] k x H; [exists a; split; [reflexivity|exact H]|discriminate H]. Qed.
Lemma inputs_kept : forall (D : Type) f (b b' : ubatch D), augment_ubatch f b = Ok b' ->
  ub_in b' = ub_in b /\ ub_data b' = ub_data b.
Proof.
  intros D f b b' H. unfold augment_ubatch in H. apply bind_ok in H. destruct H as (nb & _ & H).
  apply bind_ok in H. destruct H as (r & _ & H). unfold fill_ in H. apply bind_ok in H. destruct H as (o & _ & H).
  injection H as <-. split; reflexivity.
Qed.
Lemma nbatch_kept : forall (D : Type) f (b b' : nbatch D), augment_nbatch f b = Ok b' ->
  nb_in b' = nb_in b /\ nb_data b' = nb_data b.
Proof.
  intros D f b b' H. unfold augment_nbatch in H. apply bind_ok in H. destruct H as (nb & _ & H).
  apply bind_ok in H. destruct H as (r & _ & H). injection H as <-. split; reflexivity.
Qed.

(** Doing nothing. *)
Lemma content_id : forall a : nd, on_content (fun c => c) a = a.
Proof. intros [d s l]. reflexivity. Qed.

(** * augment() *)
Lemma put_arg : forall r a, put (python r) (arg_py a) = python (add_arg r a).
Proof. intros [i h s k b p l] [d c|v|v|v|v|v|v|v]; reflexivity. Qed.
Lemma fold_put : forall args r, fold_left put (map arg_py args) (python r) = python (fold_left add_arg args r).
Proof.
  induction args as [|a args IH]; intros r; [reflexivity|]. cbn [map fold_left]. rewrite put_arg. apply IH.
Qed.
Lemma batch_of_args : forall args, batch_of (map arg_py args) = mkUb (python (request_of args)) u_none tt.
Proof. intros args. unfold batch_of, request_of. rewrite <- fold_put. reflexivity. Qed.

Definition col (r : request) (a : argument) : Prop :=
  match a with
  | GImage d c => r_img r = VList [(d, c)]
  | GImages v => r_img r = v
  | GHeat v => r_heat r = v
  | GSeg v => r_seg r = v
  | GKps v => r_kps r = v
  | GBbs v => r_bbs r = v
  | GPol v => r_pol r = v
  | GLin v => r_lin r = v
  end.
Lemma col_add : forall r a, col (add_arg r a) a.
Proof. intros [i h s k b p l] [d c|v|v|v|v|v|v|v]; reflexivity. Qed.
Lemma col_other : forall r a b, col r a -> kind_no b <> kind_no a -> col (add_arg r b) a.
Proof.
  intros [i h s k b p l] a c H N. destruct a, c; cbn [kind_no] in N; try (exfalso; apply N; reflexivity); exact H.
Qed.
Lemma col_fold : forall args r a, col r a -> ~ In (kind_no a) (map kind_no args) -> col (fold_left add_arg args r) a.
Proof.
  induction args as [|b args IH]; intros r a H N; [exact H|]. cbn [fold_left]. apply IH.
  - apply col_other; [exact H|]. intros E. apply N. left. exact E.
  - intros I. apply N. right. exact I.
Qed.
Lemma col_all : forall args r, NoDup (map kind_no args) -> forall a, In a args -> col (fold_left add_arg args r) a.
Proof.
  induction args as [|b args IH]; intros r ND a I; [destruct I|]. cbn [fold_left]. inversion ND as [|? ? N1 N2]; subst.
  destruct I as [<-|I]; [|apply IH; assumption]. apply col_fold; [apply col_add|exact N1].
Qed.
Lemma pick_arg : forall x r a, col r a -> pick (python (act x r)) (arg_py a) = Ok (arg_py (on_arg x a)).
Proof. intros x r a C. destruct a; cbn [col] in C; cbn [pick arg_py python act u_img u_heat u_seg u_kps u_bbs u_pol u_lin r_img r_heat r_seg r_kps r_bbs r_pol r_lin]; rewrite C; reflexivity. Qed.
Lemma pick_all : forall x r args, (forall a, In a args -> col r a) ->
  mapM (pick (python (act x r))) (map arg_py args) = Ok (map arg_py (map (on_arg x) args)).
Proof.
  intros x r args H. rewrite map_map. apply mapM_map_ok. apply Forall_forall. intros a I. apply pick_arg, H, I.
Qed.
Lemma known_args : forall args, existsb (fun k => negb (known k)) (map arg_py args) = false.
Proof. induction args as [|a args IH]; [reflexivity|]. cbn [map existsb]. rewrite IH. destruct a; reflexivity. Qed.
Lemma some_known : forall args, args <> [] -> existsb known (map arg_py args) = true.
Proof. intros [|a args] N; [contradiction N; reflexivity|]. destruct a; reflexivity. Qed.
Lemma image_kind : forall args, has_image (map arg_py args) = true -> exists a, In a args /\ kind_no a = 0%nat /\ exists d c, a = GImage d c.
Proof.
  intros args H. unfold has_image in H. apply existsb_exists in H. destruct H as (k & I & K).
  apply in_map_iff in I. destruct I as (a & <- & I). exists a. destruct a; try discriminate K. repeat split; eauto.
Qed.
Lemma images_kind : forall args, has_images (map arg_py args) = true -> exists a, In a args /\ kind_no a = 0%nat /\ exists v, a = GImages v.
Proof.
  intros args H. unfold has_images in H. apply existsb_exists in H. destruct H as (k & I & K).
  apply in_map_iff in I. destruct I as (a & <- & I). exists a. destruct a; try discriminate K. repeat split; eauto.
Qed.
Lemma nodup_same : forall args a b, NoDup (map kind_no args) -> In a args -> In b args -> kind_no a = kind_no b -> a = b.
Proof.
  induction args as [|c args IH]; intros a b ND A B E; [destruct A|]. cbn [map] in ND. inversion ND as [|? ? N1 N2]; subst.
  destruct A as [<-|A], B as [<-|B]; [reflexivity| | |exact (IH a b N2 A B E)]; exfalso; apply N1.
  - rewrite E. apply in_map, B.
  - rewrite <- E. apply in_map, A.
Qed.
Lemma not_both : forall args, NoDup (map kind_no args) -> has_image (map arg_py args) && has_images (map arg_py args) = false.
Proof.
  intros args ND. destruct (has_image (map arg_py args)) eqn:A; [|reflexivity].
  destruct (has_images (map arg_py args)) eqn:B; [|reflexivity]. exfalso.
  destruct (image_kind _ A) as (a & A1 & A2 & d & c & ->), (images_kind _ B) as (b & B1 & B2 & v & ->).
  discriminate (nodup_same args _ _ ND A1 B1 eq_refl).
Qed.
Lemma results_of : forall l, match map arg_py l with [v] => Ok (ROne v) | _ => Ok (RTuple (map arg_py l)) end = Ok (results l).
Proof. intros [|a [|b l]]; reflexivity. Qed.

Lemma augment_new_python : forall x f args, performs x f -> applies x (request_of args) -> args <> [] -> NoDup (map kind_no args) ->
  augment_call true f false (map arg_py args) = Ok (results (map (on_arg x) args)).
Proof.
  intros x f args P A NE ND. unfold augment_call.
  rewrite (some_known args NE), known_args, (not_both args ND). cbn [negb andb].
  rewrite batch_of_args, (batch_round_trip x f _ _ tt P A). cbn [bind ub_out].
  rewrite pick_all; [cbn [bind]; apply results_of|]. intros a I. apply col_all; assumption.
Qed.
Lemma augment_returns_batch : forall b x f args, performs x f -> applies x (request_of args) -> args <> [] -> NoDup (map kind_no args) ->
  augment_call b f true (map arg_py args) =
  Ok (RBatch (mkUb (python (request_of args)) (python (act x (request_of args))) tt)).
Proof.
  intros b x f args P A NE ND. unfold augment_call.
  rewrite (some_known args NE), known_args, (not_both args ND). cbn [negb]. rewrite !Bool.andb_false_r. cbn [andb].
  rewrite batch_of_args, (batch_round_trip x f _ _ tt P A). reflexivity.
Qed.
(** Python 2.7 and 3.5. *)
Lemma images_given : forall a b, kind_no a = 0%nat -> kind_no b <> 0%nat -> r_img (request_of [a]) <> VNone ->
  r_img (request_of [a; b]) <> VNone /\ r_img (request_of [b; a]) <> VNone.
Proof.
  intros a b A B N. destruct a; try discriminate A; destruct b; try (exfalso; apply B; reflexivity); split; exact N.
Qed.
Lemma not_inone : forall v, v <> VNone -> match to_images v with INone => true | _ => false end = false.
Proof. intros [|d h w q|d s l|l] N; [contradiction N; reflexivity| | |]; reflexivity. Qed.
Lemma augment_old_one : forall x f a, performs x f -> applies x (request_of [a]) ->
  augment_call false f false [arg_py a] = Ok (results [on_arg x a]).
Proof.
  intros x f a P A. unfold augment_call.
  change [arg_py a] with (map arg_py [a]).
  rewrite some_known, known_args, not_both; [|repeat constructor; intros []|discriminate].
  cbn [negb andb map length Nat.ltb Nat.leb Nat.eqb].
  change [arg_py a] with (map arg_py [a]).
  rewrite batch_of_args, (batch_round_trip x f _ _ tt P A). cbn [bind ub_out].
  replace (standard_order (map arg_py [a])) with (map arg_py [a]) by (destruct a; reflexivity).
  rewrite pick_all; [reflexivity|]. intros b [<-|[]]. apply col_all; [repeat constructor; intros []|left; reflexivity].
Qed.
Lemma augment_old_two : forall x f a b, performs x f -> kind_no a = 0%nat -> kind_no b <> 0%nat ->
  r_img (request_of [a]) <> VNone ->
  (applies x (request_of [a; b]) -> augment_call false f false [arg_py a; arg_py b] = Ok (results [on_arg x a; on_arg x b])) /\
  (applies x (request_of [b; a]) -> augment_call false f false [arg_py b; arg_py a] = Ok (results [on_arg x a; on_arg x b])).
Proof.
  intros x f a b P A B N. destruct (images_given a b A B N) as [N1 N2].
  assert (D1 : NoDup (map kind_no [a; b])).
  { constructor; [intros [E|[]]; rewrite A in E; exact (B E)|repeat constructor; intros []]. }
  assert (D2 : NoDup (map kind_no [b; a])).
  { constructor; [intros [E|[]]; rewrite A in E; exact (B (eq_sym E))|repeat constructor; intros []]. }
  split; intros Ap; unfold augment_call.
  - change [arg_py a; arg_py b] with (map arg_py [a; b]).
    rewrite some_known, known_args, (not_both _ D1) by discriminate. unfold images_none. rewrite batch_of_args.
    cbn [ub_in python u_img]. rewrite (not_inone _ N1). cbn [negb andb map length Nat.ltb Nat.leb Nat.eqb].
    rewrite (batch_round_trip x f _ _ tt P Ap). cbn [bind ub_out].
    replace (standard_order [arg_py a; arg_py b]) with (map arg_py [a; b])
      by (destruct a; try discriminate A; destruct b; try (exfalso; apply B; reflexivity); reflexivity).
    rewrite pick_all; [reflexivity|]. intros y I. apply col_all; assumption.
  - change [arg_py b; arg_py a] with (map arg_py [b; a]).
    rewrite some_known, known_args, (not_both _ D2) by discriminate. unfold images_none. rewrite batch_of_args.
    cbn [ub_in python u_img]. rewrite (not_inone _ N2). cbn [negb andb map length Nat.ltb Nat.leb Nat.eqb].
    rewrite (batch_round_trip x f _ _ tt P Ap). cbn [bind ub_out].
    replace (standard_order [arg_py b; arg_py a]) with (map arg_py [a; b])
      by (destruct a; try discriminate A; destruct b; try (exfalso; apply B; reflexivity); reflexivity).
    rewrite pick_all; [reflexivity|]. intros y I. apply col_all; [exact D2|]. destruct I as [<-|[<-|[]]]; [right; left|left]; reflexivity.
Qed.
(** Rejected calls. *)
Lemma augment_rejects : forall py36 f rb kw,
  (kw = [] -> augment_call py36 f rb kw = Err AssertionError) /\
  (forall n, In (AUnknown n) kw -> augment_call py36 f rb kw = Err AssertionError) /\
  (forall a v, In (AImage a) kw -> In (AImages v) kw -> augment_call py36 f rb kw = Err AssertionError).
Proof.
  intros py36 f rb kw. unfold augment_call. split; [intros ->; reflexivity|]. split.
  - intros n I. destruct (existsb known kw); [|reflexivity]. cbn [negb].
    replace (existsb (fun k => negb (known k)) kw) with true; [reflexivity|]. symmetry. apply existsb_exists.
    exists (AUnknown n). split; [exact I|reflexivity].
  - intros a v I J. destruct (existsb known kw); [|reflexivity]. cbn [negb].
    destruct (existsb (fun k => negb (known k)) kw); [reflexivity|].
    replace (has_image kw && has_images kw) with true; [reflexivity|]. symmetry. apply andb_true_intro. split.
    + apply existsb_exists. exists (AImage a). split; [exact I|reflexivity].
    + apply existsb_exists. exists (AImages v). split; [exact J|reflexivity].
Qed.
Lemma augment_old_rejects : forall f args, NoDup (map kind_no args) ->
  (2 < length args)%nat \/ (length args = 2%nat /\ r_img (request_of args) = VNone) ->
  augment_call false f false (map arg_py args) = Err ValueError.
Proof.
  intros f args ND H. unfold augment_call.
  rewrite some_known by (destruct H as [H|[H _]]; destruct args; cbn [length] in H; try lia; discriminate).
  rewrite known_args, (not_both _ ND). cbn [negb andb]. rewrite map_length.
  destruct H as [H|[H E]].
  - apply Nat.ltb_lt in H. rewrite H. reflexivity.
  - rewrite H. cbn [Nat.ltb Nat.leb Nat.eqb andb]. unfold images_none. rewrite batch_of_args. cbn [ub_in python u_img].
    rewrite E. reflexivity.
Qed.

(** * augment_batches() *)
Lemma index_free : forall (D : Type) f i j (b : bin D), one_batch f i b = one_batch f j b.
Proof.
  intros D f i j b. unfold one_batch. destruct b; cbn [normalize_batch bind]; try reflexivity.
  - unfold augment_nbatch, in_augmentation. cbn [nb_in nb_out nb_data].
    destruct (copy_maps heat_cls (c_heat (nb_in b))); cbn [bind]; [|reflexivity].
    destruct (copy_maps seg_cls (c_seg (nb_in b))); cbn [bind]; [|reflexivity].
    destruct (f _); cbn [bind]; reflexivity.
  - destruct (to_normalized_batch b) as [n|e]; cbn [bind]; [|reflexivity].
    unfold augment_nbatch, in_augmentation. cbn [nb_in nb_out nb_data].
    destruct (copy_maps heat_cls (c_heat (nb_in n))); cbn [bind]; [|reflexivity].
    destruct (copy_maps seg_cls (c_seg (nb_in n))); cbn [bind]; [|reflexivity].
    destruct (f _); cbn [bind]; reflexivity.
  - destruct (Nat.eqb _ 3 || Nat.eqb _ 4); cbn [bind]; [|reflexivity].
    unfold augment_nbatch, in_augmentation, only. cbn [nb_in nb_out nb_data bind copy_maps c_heat c_seg c_img c_kps c_bbs c_pol c_lin].
    destruct (f _); reflexivity.
  - unfold augment_nbatch, in_augmentation, only. cbn [nb_in nb_out nb_data bind copy_maps c_heat c_seg c_img c_kps c_bbs c_pol c_lin n_none].
    destruct (f _); reflexivity.
  - unfold augment_nbatch, in_augmentation, only. cbn [nb_in nb_out nb_data bind copy_maps c_heat c_seg c_img c_kps c_bbs c_pol c_lin].
    destruct (f _); reflexivity.
  - unfold augment_nbatch, in_augmentation, only. cbn [nb_in nb_out nb_data bind copy_maps c_heat c_seg c_img c_kps c_bbs c_pol c_lin].
    destruct (mapM (m_copy heat_cls) l); cbn [bind]; [|reflexivity]. destruct (f _); reflexivity.
  - unfold augment_nbatch, in_augmentation, only. cbn [nb_in nb_out nb_data bind copy_maps c_heat c_seg c_img c_kps c_bbs c_pol c_lin].
    destruct (mapM (m_copy seg_cls) l); cbn [bind]; [|reflexivity]. destruct (f _); reflexivity.
  - unfold augment_nbatch, in_augmentation, only. cbn [nb_in nb_out nb_data bind copy_maps c_heat c_seg c_img c_kps c_bbs c_pol c_lin].
    destruct (f _); reflexivity.
  - unfold augment_nbatch, in_augmentation, only. cbn [nb_in nb_out nb_data bind copy_maps c_heat c_seg c_img c_kps c_bbs c_pol c_lin].
    destruct (f _); reflexivity.
  - unfold augment_nbatch, in_augmentation, only. cbn [nb_in nb_out nb_data bind copy_maps c_heat c_seg c_img c_kps c_bbs c_pol c_lin].
    destruct (f _); reflexivity.
Qed.

Lemma unnormalized_same : forall (D : Type) f i (b : ubatch D),
  one_batch f i (BUnnorm b) = (do u <- augment_ubatch f b; Ok (BUnnorm u)).
Proof.
  intros D f i b. unfold one_batch, augment_ubatch. cbn [normalize_batch].
  unfold to_normalized_batch. destruct (negb (u_is_none (ub_out b))); [reflexivity|].
  destruct (normalize_cols (ub_in b)) as [n|e]; cbn [bind]; [|reflexivity].
  unfold augment_nbatch, in_augmentation. cbn [nb_in nb_out nb_data].
  destruct (copy_maps heat_cls (c_heat n)); cbn [bind]; [|reflexivity].
  destruct (copy_maps seg_cls (c_seg n)); cbn [bind]; [|reflexivity].
  destruct (f _) as [r|e]; cbn [bind]; [|reflexivity].
  cbn [unnormalize_batch nb_data unwrap bind nb_in nb_out]. unfold fill, fill_. cbn [nb_out nb_data].
  destruct (restore_cols r (ub_in b)); reflexivity.
Qed.

Lemma form_kept : forall (D : Type) f i (b r : bin D), one_batch f i b = Ok r ->
  bkind_of r = bkind_of b /\ data_of r = data_of b /\ unaugmented r = unaugmented b.
Proof.
  intros D f i b r H. destruct b; try discriminate H.
  - unfold one_batch in H. cbn [normalize_batch bind] in H. apply bind_ok in H. destruct H as (x & A & H).
    apply nbatch_kept in A. destruct A as [A1 A2]. cbn [nb_in nb_data] in A1, A2.
    cbn [unnormalize_batch] in H. rewrite A2 in H. cbn [unwrap bind] in H. injection H as <-.
    cbn [bkind_of data_of unaugmented nb_data nb_in]. rewrite A1. repeat split; reflexivity.
  - rewrite unnormalized_same in H. apply bind_ok in H. destruct H as (u & A & H). injection H as <-.
    apply inputs_kept in A. destruct A as [A1 A2]. cbn [bkind_of data_of unaugmented]. rewrite A1, A2. repeat split; reflexivity.
  - unfold one_batch in H. apply bind_ok in H. destruct H as (n & _ & H). apply bind_ok in H. destruct H as (x & _ & H).
    cbn [unnormalize_batch] in H. destruct (c_img (nb_out x)); try discriminate H; injection H as <-; repeat split; reflexivity.
  - unfold one_batch in H. apply bind_ok in H. destruct H as (n & _ & H). apply bind_ok in H. destruct H as (x & _ & H).
    injection H as <-; repeat split; reflexivity.
  - unfold one_batch in H. apply bind_ok in H. destruct H as (n & _ & H). apply bind_ok in H. destruct H as (x & _ & H).
    cbn [unnormalize_batch] in H. destruct (c_img (nb_out x)); try discriminate H; injection H as <-; repeat split; reflexivity.
  - unfold one_batch in H. apply bind_ok in H. destruct H as (n & _ & H). apply bind_ok in H. destruct H as (x & _ & H).
    cbn [unnormalize_batch] in H. destruct (c_heat (nb_out x)); try discriminate H; injection H as <-; repeat split; reflexivity.
  - unfold one_batch in H. apply bind_ok in H. destruct H as (n & _ & H). apply bind_ok in H. destruct H as (x & _ & H).
    cbn [unnormalize_batch] in H. destruct (c_seg (nb_out x)); try discriminate H; injection H as <-; repeat split; reflexivity.
  - unfold one_batch in H. apply bind_ok in H. destruct H as (n & _ & H). apply bind_ok in H. destruct H as (x & _ & H).
    cbn [unnormalize_batch] in H. destruct (c_kps (nb_out x)); try discriminate H; injection H as <-; repeat split; reflexivity.
  - unfold one_batch in H. apply bind_ok in H. destruct H as (n & _ & H). apply bind_ok in H. destruct H as (x & _ & H).
    cbn [unnormalize_batch] in H. destruct (c_bbs (nb_out x)); try discriminate H; injection H as <-; repeat split; reflexivity.
  - unfold one_batch in H. apply bind_ok in H. destruct H as (n & _ & H). apply bind_ok in H. destruct H as (x & _ & H).
    cbn [unnormalize_batch] in H. destruct (c_pol (nb_out x)); try discriminate H; injection H as <-; repeat split; reflexivity.
Qed.

Lemma batches_nth : forall (D : Type) f (bs : list (bin D)) k rs, batches_from f k bs = Ok rs ->
  length rs = length bs /\
  forall i b, nth_error bs i = Some b -> exists r, nth_error rs i = Some r /\ one_batch (f (k + i)%nat) (Z.of_nat (k + i)) b = Ok r.
Proof.
  intros D f bs. induction bs as [|b bs IH]; intros k rs H; cbn [batches_from] in H.
  - injection H as <-. split; [reflexivity|]. intros [|i] b E; discriminate E.
  - apply bind_ok in H. destruct H as (x & X & H). apply bind_ok in H. destruct H as (l & L & H). injection H as <-.
    destruct (IH (S k) l L) as [A B]. split; [cbn [length]; rewrite A; reflexivity|].
    intros [|i] b' E.
    + injection E as <-. exists x. rewrite Nat.add_0_r. split; [reflexivity|exact X].
    + destruct (B i b' E) as (r & R1 & R2). exists r. split; [exact R1|].
      replace (k + S i)%nat with (S k + i)%nat by lia. exact R2.
Qed.
Lemma kth_batch : forall (D : Type) f (bs rs : list (bin D)), augment_batches f bs = Ok rs ->
  length rs = length bs /\
  forall k b, nth_error bs k = Some b -> exists r, nth_error rs k = Some r /\
    augment_batches (fun _ => f k) [b] = Ok [r] /\
    bkind_of r = bkind_of b /\ data_of r = data_of b /\ unaugmented r = unaugmented b.
Proof.
  intros D f bs rs H. destruct (batches_nth D f bs 0 rs H) as [A B]. split; [exact A|].
  intros k b E. destruct (B k b E) as (r & R1 & R2). cbn [Nat.add] in R2. exists r. split; [exact R1|]. split.
  - unfold augment_batches, batches_from. rewrite (index_free D (f k) (Z.of_nat 0) (Z.of_nat k)), R2. reflexivity.
  - exact (form_kept D _ _ _ _ R2).
Qed.

Lemma performs_only : forall (D : Type) x f (n : ncols) (d : idata D), performs x f ->
  copy_maps heat_cls (c_heat n) = Ok (c_heat n) -> copy_maps seg_cls (c_seg n) = Ok (c_seg n) ->
  augment_nbatch f (mkNb n n_none d) =
  Ok (mkNb n (mkN (all_images (x_img x) (c_img n)) (all_maps (on_heat (x_heat x)) (c_heat n))
                  (all_maps (on_seg (x_seg x)) (c_seg n)) (augment (x_kps x) (c_kps n))
                  (augment (x_bbs x) (c_bbs n)) (paugment (x_pol x) (c_pol n)) (paugment (x_lin x) (c_lin n))) d).
Proof.
  intros D x f n d P H S. unfold augment_nbatch, in_augmentation. cbn [nb_in nb_data]. rewrite H. cbn [bind]. rewrite S. cbn [bind].
  rewrite P. reflexivity.
Qed.
Lemma each_form : forall (D : Type) x (f : nat -> inner), (forall k, performs x (f k)) ->
  (forall r (d : D), applies x r ->
     augment_batches f [BUnnorm (mkUb (python r) u_none d)] = Ok [BUnnorm (mkUb (python r) (python (act x r)) d)]) /\
  (forall l, augment_batches f [@BImgs D l] = Ok [BImgs (map (on_content (x_img x)) l)]) /\
  (forall l, Forall heat_object l -> augment_batches f [@BHeats D l] = Ok [BHeats (map (on_heat (x_heat x)) l)]) /\
  (forall l, Forall seg_object l -> augment_batches f [@BSegs D l] = Ok [BSegs (map (on_seg (x_seg x)) l)]) /\
  (forall l, augment_batches f [@BKps D l] = Ok [BKps (map (on_oi (x_kps x)) l)]) /\
  (forall l, augment_batches f [@BBbs D l] = Ok [BBbs (map (on_oi (x_bbs x)) l)]) /\
  (forall l, augment_batches f [@BPols D l] = Ok [BPols (map (on_poi (x_pol x)) l)]) /\
  augment_batches f [@BEmpty D] = Ok [BEmpty].
Proof.
  intros D x f P.
  split; [|split; [|split; [|split; [|split; [|split; [|split]]]]]].
  - intros r d A. unfold augment_batches, batches_from. rewrite unnormalized_same.
    rewrite (batch_round_trip x (f 0%nat) r D d (P 0%nat) A). reflexivity.
  - intros l. unfold augment_batches, batches_from, one_batch. cbn [normalize_batch bind]. unfold only.
    rewrite (performs_only D x _ _ _ (P 0%nat)) by reflexivity. reflexivity.
  - intros l F. unfold augment_batches, batches_from, one_batch. cbn [normalize_batch bind]. unfold only.
    rewrite (performs_only D x _ _ _ (P 0%nat)); [reflexivity| |reflexivity].
    apply (copies heat_cls heat_object heat_copy l F).
  - intros l F. unfold augment_batches, batches_from, one_batch. cbn [normalize_batch bind]. unfold only.
    rewrite (performs_only D x _ _ _ (P 0%nat)); [reflexivity|reflexivity|].
    apply (copies seg_cls seg_object seg_copies l F).
  - intros l. unfold augment_batches, batches_from, one_batch. cbn [normalize_batch bind]. unfold only.
    rewrite (performs_only D x _ _ _ (P 0%nat)) by reflexivity. reflexivity.
  - intros l. unfold augment_batches, batches_from, one_batch. cbn [normalize_batch bind]. unfold only.
    rewrite (performs_only D x _ _ _ (P 0%nat)) by reflexivity. reflexivity.
  - intros l. unfold augment_batches, batches_from, one_batch. cbn [normalize_batch bind]. unfold only.
    rewrite (performs_only D x _ _ _ (P 0%nat)) by reflexivity. reflexivity.
  - unfold augment_batches, batches_from, one_batch. cbn [normalize_batch bind]. unfold only.
    rewrite (performs_only D x _ _ _ (P 0%nat)) by reflexivity. reflexivity.
Qed.

(** ** Background processes *)
Lemma steps_app : forall (D : Type) (es : list (event D)) s es', steps s (es ++ es') = (do s' <- steps s es; steps s' es').
Proof.
  intros D es. induction es as [|e es IH]; intros s es'; [reflexivity|]. cbn [app steps].
  destruct (step s e); cbn [bind]; [apply IH|reflexivity].
Qed.
Lemma lookup_remove : forall (D : Type) i j (l : list (Z * bin D)),
  lookup i (remove j l) = if i =? j then None else lookup i l.
Proof.
  intros D i j l. induction l as [|[k b] l IH]; [destruct (i =? j); reflexivity|].
  unfold remove in *. cbn [filter fst lookup].
  destruct (Z.eqb_spec k j) as [->|NE]; cbn [negb].
  - rewrite IH. destruct (Z.eqb_spec i j) as [->|N2]; [reflexivity|]. destruct (Z.eqb_spec j i); [congruence|reflexivity].
  - cbn [lookup]. destruct (Z.eqb_spec k i) as [->|N2]; [|exact IH].
    destruct (Z.eqb_spec i j); [congruence|reflexivity].
Qed.
Lemma idx_kept : forall (D : Type) f k (b : bin D) nb r, normalize_batch k b = Ok nb -> augment_nbatch f nb = Ok r ->
  idx_of (nb_data r) = k.
Proof.
  intros D f k b nb r N A. apply nbatch_kept in A. destruct A as [_ ->].
  destruct b; cbn [normalize_batch] in N; try discriminate N; try (injection N as <-; reflexivity).
  - apply bind_ok in N. destruct N as (n & _ & N). injection N as <-. reflexivity.
  - destruct (Nat.eqb _ 3 || Nat.eqb _ 4); [|discriminate N]. injection N as <-. reflexivity.
Qed.

Definition reached {D} (bs : list (bin D)) (rs : list (bin D)) (n : nat) (ks : list nat) (s : bstate D) : Prop :=
  s_next s = Z.of_nat n /\
  (forall k, lookup (Z.of_nat k) (s_orig s) =
             if Nat.ltb k n && negb (existsb (Nat.eqb k) ks) then nth_error bs k else None) /\
  (forall i, i < 0 -> lookup i (s_orig s) = None) /\
  Forall2 (fun k x => nth_error rs k = Some x) ks (s_out s).
Lemma existsb_in : forall k ks, existsb (Nat.eqb k) ks = true <-> In k ks.
Proof.
  intros k ks. rewrite existsb_exists. split.
  - intros (x & I & E). apply Nat.eqb_eq in E. subst x. exact I.
  - intros I. exists k. split; [exact I|apply Nat.eqb_refl].
Qed.
Lemma any_execution : forall (D : Type) f (bs rs : list (bin D)) n ks es, augment_batches f bs = Ok rs ->
  execution f bs n ks es -> exists s, steps (bstart D) es = Ok s /\ reached bs rs n ks s.
Proof.
  intros D f bs rs n ks es A X. destruct (batches_nth D f bs 0 rs A) as [L N]. cbn [Nat.add] in N.
  induction X as [|n ks es b X IH E|n ks es k b nb r X IH K NI E NB AU].
  - exists (bstart D). split; [reflexivity|]. repeat split; try reflexivity. constructor.
  - destruct IH as (s & ST & R1 & R2 & R3 & R4). rewrite steps_app, ST. cbn [bind steps].
    destruct (N n b E) as (x & _ & O). unfold one_batch in O. apply bind_ok in O. destruct O as (nb & NB & _).
    unfold step. rewrite R1, NB. cbn [bind]. eexists. split; [reflexivity|].
    split; [cbn [s_next]; lia|]. cbn [s_orig s_out lookup]. split; [|split; [|exact R4]].
    + intros k. destruct (Z.eqb_spec (Z.of_nat n) (Z.of_nat k)) as [Q|Q].
      * apply Nat2Z.inj in Q. subst k. destruct (Nat.ltb_spec n (S n)); [|lia]. cbn [andb].
        assert (F : existsb (Nat.eqb n) ks = false).
        { destruct (existsb (Nat.eqb n) ks) eqn:F; [|reflexivity]. exfalso. apply existsb_in in F.
          clear - X F. revert F. enough (G : forall k, In k ks -> (k < n)%nat) by (intros F; specialize (G n F); lia).
          induction X as [|n ks es b X IH E|n ks es k b nb r X IH K NI E NB AU]; intros j I.
          - destruct I.
          - specialize (IH j I). lia.
          - apply in_app_or in I. destruct I as [I|[<-|[]]]; [exact (IH j I)|exact K]. }
        rewrite F. cbn [negb]. symmetry. exact E.
      * rewrite lookup_remove. destruct (Z.eqb_spec (Z.of_nat k) (Z.of_nat n)); [congruence|].
        rewrite R2. assert (NK : k <> n) by (intros ->; apply Q; reflexivity).
        destruct (Nat.ltb_spec k n), (Nat.ltb_spec k (S n)); try lia; reflexivity.
    + intros i I. destruct (Z.eqb_spec (Z.of_nat n) i); [lia|]. rewrite lookup_remove, R3 by exact I. destruct (i =? Z.of_nat n); reflexivity.
  - destruct IH as (s & ST & R1 & R2 & R3 & R4). rewrite steps_app, ST. cbn [bind steps].
    unfold step. rewrite (idx_kept D (f k) (Z.of_nat k) b nb r NB AU). rewrite R2.
    assert (F : existsb (Nat.eqb k) ks = false).
    { destruct (existsb (Nat.eqb k) ks) eqn:F; [|reflexivity]. exfalso. apply NI, existsb_in, F. }
    destruct (Nat.ltb_spec k n); [|lia]. rewrite F, E. cbn [andb negb].
    destruct (N k b E) as (x & RX & O). unfold one_batch in O. rewrite NB in O. cbn [bind] in O. rewrite AU in O. cbn [bind] in O.
    rewrite O. cbn [bind]. eexists. split; [reflexivity|]. split; [exact R1|]. cbn [s_orig s_out]. split; [|split].
    + intros j. rewrite lookup_remove, R2, existsb_app. cbn [existsb]. rewrite Bool.orb_false_r.
      destruct (Z.eqb_spec (Z.of_nat j) (Z.of_nat k)) as [Q|Q].
      * apply Nat2Z.inj in Q. subst j. rewrite Nat.eqb_refl, Bool.orb_true_r. cbn [negb]. rewrite Bool.andb_false_r. reflexivity.
      * destruct (Nat.eqb_spec j k) as [->|Q2]; [contradiction Q; reflexivity|]. rewrite Bool.orb_false_r. reflexivity.
    + intros i I. rewrite lookup_remove, R3 by exact I. destruct (i =? Z.of_nat k); reflexivity.
    + apply Forall2_app; [exact R4|]. constructor; [exact RX|constructor].
Qed.
Lemma outputs_in_order : forall (A : Type) (rs out : list A) n, Forall2 (fun k x => nth_error rs k = Some x) (seq 0 n) out ->
  n = length rs -> out = rs.
Proof.
  intros A rs out n H E.
  assert (G : forall m k o, Forall2 (fun k x => nth_error rs k = Some x) (seq k m) o -> o = firstn m (skipn k rs)).
  { clear. induction m as [|m IH]; intros k o H; inversion H as [|? x ? o' X H']; subst; [reflexivity|].
    apply IH in H'. subst o'. clear IH H. revert k X. induction rs as [|r rs IHr]; intros [|k] X; try discriminate X.
    - injection X as ->. reflexivity.
    - cbn [skipn nth_error] in *. rewrite <- (IHr k X). reflexivity. }
  rewrite (G _ _ _ H), E. cbn [skipn]. apply firstn_all.
Qed.
Lemma background_outputs : forall (D : Type) f (bs rs : list (bin D)) n ks es, augment_batches f bs = Ok rs ->
  execution f bs n ks es ->
  exists s, steps (bstart D) es = Ok s /\ Forall2 (fun k x => nth_error rs k = Some x) ks (s_out s) /\
    (ks = seq 0 (length bs) -> s_out s = rs) /\
    (forall r k, idx_of (nb_data r) = k -> (k < 0 \/ Z.of_nat n <= k \/ In (Z.to_nat k) ks) ->
       steps (bstart D) (es ++ [ERecv r]) = Err AssertionError).
Proof.
  intros D f bs rs n ks es A X. destruct (any_execution D f bs rs n ks es A X) as (s & ST & R1 & R2 & R3 & R4).
  exists s. split; [exact ST|]. split; [exact R4|]. split.
  - intros ->. apply (outputs_in_order _ rs (s_out s) _ R4). symmetry. apply (batches_nth D f bs 0 rs A).
  - intros r k K H. rewrite steps_app, ST. cbn [bind steps step]. rewrite K.
    replace (lookup k (s_orig s)) with (@None (bin D)); [reflexivity|]. symmetry.
    destruct (Z.ltb_spec k 0); [apply R3; assumption|].
    rewrite <- (Z2Nat.id k) by assumption. rewrite R2.
    destruct H as [H|[H|H]]; [lia| |].
    + destruct (Nat.ltb_spec (Z.to_nat k) n); [lia|]. reflexivity.
    + apply existsb_in in H. rewrite H. cbn [negb]. rewrite Bool.andb_false_r. reflexivity.
Qed.

(** * Rejected maps *)
Lemma seq_first : forall (M : Type) d (q : content) (l : list content),
  estimate_m (MSeq false (map (fun c => @MArr M (as_array d c)) (q :: l))) = Ok (1%nat, MLArr (kind_of d)).
Proof. reflexivity. Qed.
Lemma arr_first : forall (M : Type) d s l, estimate_m (@MArr M (stacked d s l)) = Ok (0%nat, MLArr (kind_of d)).
Proof. reflexivity. Qed.
Lemma flat_segmaps : forall d shapes, segmap_dtype d ->
  (forall s l, length s = 2%nat -> mnormalize seg_cls (MArr (stacked d s l)) shapes = Err ValueError) /\
  (forall l, l <> [] -> Forall (fun c => length (fst c) = 2%nat) l ->
     mnormalize seg_cls (MSeq false (map (fun c => MArr (as_array d c)) l)) shapes = Err ValueError).
Proof.
  intros d shapes D. destruct (seg_dtypes d D) as [K _]. split.
  - intros s l S. unfold mnormalize. rewrite arr_first. cbn [bind]. rewrite K. unfold m_arr, stacked. cbn [n_shape length].
    rewrite S. reflexivity.
  - intros [|q l] NE F; [contradiction NE; reflexivity|]. unfold mnormalize. rewrite seq_first. cbn [bind]. rewrite K.
    cbn [m_seq map bind]. unfold mapM. cbn [map sequence].
    replace (@m_arr segmap 3 (MArr (as_array d q))) with (@Err nd ValueError); [reflexivity|].
    unfold m_arr. cbn [as_array n_shape]. rewrite (Forall_inv F). reflexivity.
Qed.

Lemma make_rejects : forall (M : Type) (c : mcls M) d q l ss, length ss = length (q :: l) ->
  (forall s, In s ss -> m_make c (as_array d q) s = Err AssertionError) ->
  make_maps c (map (as_array d) (q :: l)) (Some ss) = Err AssertionError.
Proof.
  intros M c d q l ss L H. unfold make_maps, exactly. rewrite map_length, L, Nat.eqb_refl. cbn [bind].
  destruct ss as [|s ss]; [discriminate L|]. unfold mapM. cbn [map combine sequence fst snd]. rewrite H by (left; reflexivity). reflexivity.
Qed.
Lemma heat_not_float32 : forall d q s, any_dtype d -> d <> ANum float32 -> hwc q -> m_kind heat_cls (kind_of d) = true ->
  m_make heat_cls (as_array d q) s = Err AssertionError.
Proof.
  intros d q s A N (h & w & k & E & H & W & K & L) KD. cbn [m_make heat_cls]. unfold mk_heatmap, as_array. rewrite E. cbn [n_shape bind fst snd n_dt].
  destruct (Z.ltb_spec 0 h); [|lia]. destruct (Z.ltb_spec 0 w); [|lia]. cbn [andb negb].
  assert (F : is_float32 d = false).
  { destruct A as [->|[->|(e & -> & I)]]; try reflexivity. unfold array_dtypes in I. cbn [In] in I.
    repeat (destruct I as [<-|I]; [first [reflexivity|contradiction N; reflexivity]|]). contradiction. }
  rewrite F. reflexivity.
Qed.
Lemma seg_no_segmap_dtype : forall d q s, any_dtype d -> ~ segmap_dtype d -> seg_content (ANum (DI 32)) q ->
  m_kind seg_cls (kind_of d) = true -> m_make seg_cls (as_array d q) s = Err AssertionError.
Proof.
  intros d q s A N (_ & H & V) KD. cbn [m_make seg_cls].
  assert (V0 : Forall (fun v => 0 <= v)%Q (snd q)) by (eapply Forall_impl; [|exact V]; intros v [_ B]; exact B).
  destruct (not_neg (snd q) 100 (hwc_ne q H) V0) as (m & E1 & E2); [lia|].
  unfold mk_segmap. change (n_shape (as_array d q)) with (fst q). rewrite (hwc_dims q H).
  change (existsb (Nat.eqb 3) [2; 3]%nat) with true. cbn [negb]. change (n_dt (as_array d q)) with d.
  unfold segmap_dtype in N.
  destruct A as [->|[->|(e & -> & I)]]; [exfalso; tauto|discriminate KD|].
  unfold array_dtypes in I. cbn [In] in I.
  repeat (destruct I as [<-|I]; [first [exfalso; tauto|discriminate KD|idtac]|]); [| | |contradiction];
    cbn [bind n_dt as_array]; change (n_flat (as_array _ q)) with (snd q); cbn [n_flat]; rewrite E1; cbn [bind]; rewrite E2; reflexivity.
Qed.
Lemma heat_dtypes_rejected : forall d q l ss, any_dtype d -> d <> ANum float32 -> Forall hwc (q :: l) ->
  length ss = length (q :: l) ->
  mnormalize heat_cls (to_mv (WArrays d (q :: l))) (Some ss) = Err AssertionError /\
  (Forall (fun c => fst c = fst q) l ->
   mnormalize heat_cls (to_mv (WArray d (fst q) (map snd (q :: l)))) (Some ss) = Err AssertionError).
Proof.
  intros d q l ss A N F L.
  assert (R : m_kind heat_cls (kind_of d) = true -> make_maps heat_cls (map (as_array d) (q :: l)) (Some ss) = Err AssertionError).
  { intros K. apply make_rejects; [exact L|]. intros s _. apply heat_not_float32; try assumption. exact (Forall_inv F). }
  split.
  - cbn [to_mv]. unfold mnormalize. rewrite seq_first. cbn [bind].
    destruct (m_kind heat_cls (kind_of d)) eqn:K; [|reflexivity]. cbn [m_seq bind].
    rewrite arrays_of by exact F. cbn [bind]. exact (R eq_refl).
  - intros S. cbn [to_mv]. unfold mnormalize. rewrite arr_first. cbn [bind].
    destruct (m_kind heat_cls (kind_of d)) eqn:K; [|reflexivity].
    rewrite arr4 by (apply hwc_dims; exact (Forall_inv F)). cbn [bind].
    assert (E : forall c, In c (q :: l) -> fst c = fst q).
    { intros c [<-|I]; [reflexivity|]. rewrite Forall_forall in S. apply S, I. }
    rewrite sub_stacked.
    + rewrite map_map. rewrite (map_ext_in _ (as_array d)); [exact (R eq_refl)|].
      intros c I. unfold as_array. rewrite (E c I). reflexivity.
    + apply Forall_forall. intros x I. apply in_map_iff in I. destruct I as (c & <- & I). rewrite <- (E c I).
      apply hwc_prod. rewrite Forall_forall in F. apply F, I.
Qed.
Lemma seg_dtypes_rejected : forall d q l ss, any_dtype d -> ~ segmap_dtype d -> Forall (seg_content (ANum (DI 32))) (q :: l) ->
  length ss = length (q :: l) ->
  mnormalize seg_cls (to_mv (WArrays d (q :: l))) (Some ss) = Err AssertionError /\
  (Forall (fun c => fst c = fst q) l ->
   mnormalize seg_cls (to_mv (WArray d (fst q) (map snd (q :: l)))) (Some ss) = Err AssertionError).
Proof.
  intros d q l ss A N F0 L.
  assert (F : Forall hwc (q :: l)) by (eapply Forall_impl; [|exact F0]; intros c; apply seg_hwc).
  assert (R : m_kind seg_cls (kind_of d) = true -> make_maps seg_cls (map (as_array d) (q :: l)) (Some ss) = Err AssertionError).
  { intros K. apply make_rejects; [exact L|]. intros s _. apply seg_no_segmap_dtype; try assumption. exact (Forall_inv F0). }
  split.
  - cbn [to_mv]. unfold mnormalize. rewrite seq_first. cbn [bind].
    destruct (m_kind seg_cls (kind_of d)) eqn:K; [|reflexivity]. cbn [m_seq bind].
    rewrite arrays_of by exact F. cbn [bind]. exact (R eq_refl).
  - intros S. cbn [to_mv]. unfold mnormalize. rewrite arr_first. cbn [bind].
    destruct (m_kind seg_cls (kind_of d)) eqn:K; [|reflexivity].
    rewrite arr4 by (apply hwc_dims; exact (Forall_inv F)). cbn [bind].
    assert (E : forall c, In c (q :: l) -> fst c = fst q).
    { intros c [<-|I]; [reflexivity|]. rewrite Forall_forall in S. apply S, I. }
    rewrite sub_stacked.
    + rewrite map_map. rewrite (map_ext_in _ (as_array d)); [exact (R eq_refl)|].
      intros c I. unfold as_array. rewrite (E c I). reflexivity.
    + apply Forall_forall. intros x I. apply in_map_iff in I. destruct I as (c & <- & I). rewrite <- (E c I).
      apply hwc_prod. rewrite Forall_forall in F. apply F, I.
Qed.

(** * Doing nothing *)
Lemma shape_all_same : forall (A : Type) (s : list Z) (h : A -> list Q) l, same_shapeb (map (fun a => (s, h a)) l) = true.
Proof.
  intros A s h l. apply same_shapeb_iff. intros a b I J. apply in_map_iff in I, J.
  destruct I as (x & <- & _), J as (y & <- & _). reflexivity.
Qed.
Lemma on_images_id : forall v, iwell v -> on_images (fun c => c) v = v.
Proof.
  intros [|d h w q|d s l|l] W; cbn [iwell] in W; [reflexivity|reflexivity| |].
  - destruct W as [NE F]. cbn [on_images]. cbv zeta.
    assert (E : map (fun q => on_image (fun c => c) (s, q)) l = map (fun q => (s, q)) l).
    { destruct l as [|q0 l0]; [reflexivity|]. destruct (Forall_inv F) as [(h & w & E & _)|(h & w & k & E & _)]; cbn [fst] in E; subst s; reflexivity. }
    rewrite E, shape_all_same. destruct l as [|q l]; [contradiction NE; reflexivity|]. cbn [map fst]. f_equal.
    rewrite map_map. cbn [snd]. rewrite map_id. reflexivity.
  - cbn [on_images]. f_equal. transitivity (map (fun p : adt * content => p) l); [|apply map_id].
    apply map_ext_in. intros [d [s q]] I. rewrite Forall_forall in W.
    destruct (W _ I) as [(h & w & E & _)|(h & w & k & E & _)]; cbn [fst snd] in E; subst s; reflexivity.
Qed.
Lemma on_maps_id : forall (M : Type) (on : M -> M) v, (forall m, on m = m) ->
  (forall d s l, v = WArray d s l -> l <> []) -> on_maps on (fun c => c) v = v.
Proof.
  intros M on v H NE. destruct v as [| |d s l|d l|m|l]; cbn [on_maps]; try reflexivity.
  - cbv zeta. rewrite shape_all_same. specialize (NE d s l eq_refl). destruct l as [|q l]; [contradiction NE; reflexivity|].
    cbn [map fst]. f_equal. rewrite map_map. cbn [snd]. rewrite map_id. reflexivity.
  - rewrite map_id. reflexivity.
  - rewrite H. reflexivity.
  - rewrite (map_ext on (fun m => m) H), map_id. reflexivity.
Qed.
Lemma act_id : forall r, rwell r -> act no_change r = r.
Proof.
  intros [i h s k b p l] (Wi & Wh & Ws & _). cbn [r_img r_heat r_seg] in *. unfold act, no_change.
  cbn [r_img r_heat r_seg r_kps r_bbs r_pol r_lin x_img x_heat x_seg x_kps x_bbs x_pol x_lin].
  rewrite (on_images_id i Wi).
  rewrite (on_maps_id _ _ h); [|intros [a sh mn mx t]; unfold on_heat; cbn [hm_arr]; rewrite content_id; reflexivity|intros d s0 l0 ->; exact (proj1 Wh)].
  rewrite (on_maps_id _ _ s); [|intros [a sh dt n]; unfold on_seg; cbn [sg_arr]; rewrite content_id; reflexivity|intros d s0 l0 ->; exact (proj1 Ws)].
  rewrite !on_items_id, !on_objects_id. reflexivity.
Qed.
Lemma keeps_id : keeps_channels (fun c => c).
Proof. intros c L. split; [exact L|reflexivity]. Qed.
Lemma applies_id : forall r, rwell r -> rsupported r -> applies no_change r.
Proof. intros r W S. split; [exact W|]. split; [exact S|]. split; [rewrite act_id; exact W|exact keeps_id]. Qed.
Lemma augment_nothing : forall f args, performs no_change f -> rwell (request_of args) -> rsupported (request_of args) ->
  args <> [] -> NoDup (map kind_no args) ->
  augment_call true f false (map arg_py args) = Ok (results args).
Proof.
  intros f args P W S NE ND. rewrite (augment_new_python no_change f args P (applies_id _ W S) NE ND).
  unfold augment_call.
  assert (E : map arg_py (map (on_arg no_change) args) = map arg_py args).
  { pose proof (pick_all no_change (request_of args) args (fun a I => col_all args nothing ND a I)) as A.
    rewrite (act_id _ W) in A.
    assert (B : mapM (pick (python (request_of args))) (map arg_py args) = Ok (map arg_py args)).
    { pose proof (fun a I => col_all args nothing ND a I) as C. clear - C. fold (request_of args) in C.
      rewrite (mapM_map_ok _ _ arg_py); [reflexivity|]. apply Forall_forall. intros a I. specialize (C a I).
      destruct a; cbn [col] in C; cbn [pick arg_py python u_img u_heat u_seg u_kps u_bbs u_pol u_lin]; rewrite C; reflexivity. }
    rewrite A in B. injection B as B. exact B. }
  f_equal. destruct args as [|a [|b l]]; cbn [map] in E; cbn [map results].
  - reflexivity.
  - injection E as E. rewrite E. reflexivity.
  - f_equal. exact E.
Qed.

(** Arrays of another integer dtype are converted to the dtype of the input. *)
Lemma adt_eqb_true : forall a b, adt_eqb a b = true -> a = b.
Proof. intros [|x|] [|y|] H; cbn in H; try discriminate; try reflexivity. apply dtype_eqb_eq in H. congruence. Qed.
Lemma restore_saturates : forall x slo shi y lo hi a ns, int_range x slo shi -> int_range y lo hi -> not_64_bit x ->
  n_dt a = ANum x -> n_flat a = map inject_Z ns -> Forall (fun n => slo <= n <= shi) ns ->
  exists zs, restore_map (ANum y) a = Ok (mkNd (ANum y) (n_shape a) (map inject_Z zs)) /\ Forall2 (saturated lo hi) ns zs.
Proof.
  intros x slo shi y lo hi a ns X Y N D V B. destruct (restore_list x slo shi y lo hi ns X Y N B) as (zs & E & F). exists zs. split; [|exact F].
  unfold restore_map. destruct (adt_eqb (n_dt a) (ANum y)) eqn:Q.
  - apply adt_eqb_true in Q. rewrite D in Q. injection Q as ->. unfold restore_dtypes in E.
    assert (E2 : mapM (fun v => change_dtype y y v true true) (map inject_Z ns) = Ok (map inject_Z ns)).
    { clear. induction ns as [|n ns IH]; [reflexivity|]. unfold mapM in *. cbn [map sequence]. rewrite same_dtype_identity. rewrite IH. reflexivity. }
    rewrite E2 in E. injection E as E. destruct a as [da sa fa]. cbn [n_dt n_shape n_flat] in *. subst. rewrite E. reflexivity.
  - rewrite D, V, E. reflexivity.
Qed.
Lemma dtype_restored : forall {M} (c : mcls M) y lo hi q l ms arrs, int_range y lo hi -> m_kind c (kind_of (ANum y)) = true ->
  Forall2 (fun m a => m_get c m = Ok a) ms arrs ->
  Forall (fun a => exists x slo shi ns, int_range x slo shi /\ not_64_bit x /\ n_dt a = ANum x /\ n_flat a = map inject_Z ns /\ Forall (fun n => slo <= n <= shi) ns) arrs ->
  exists rs, minvert c (Some ms) (to_mv (WArrays (ANum y) (q :: l))) = Ok (MSeq false (map MArr rs)) /\
    Forall2 (fun a r => n_dt r = ANum y /\ n_shape r = n_shape a /\
      exists ns zs, n_flat a = map inject_Z ns /\ n_flat r = map inject_Z zs /\ Forall2 (saturated lo hi) ns zs) arrs rs.
Proof.
  intros M c y lo hi q l ms arrs Y K G A. cbn [to_mv map]. unfold minvert. change (estimate_m (MSeq false (MArr (as_array (ANum y) q) :: map (fun c0 => MArr (as_array (ANum y) c0)) l))) with (@Ok (nat * mleaf) (1%nat, MLArr (kind_of (ANum y)))).
  cbn [bind]. rewrite K. change (find_first_m (MSeq false (MArr (as_array (ANum y) q) :: map (fun c0 => MArr (as_array (ANum y) c0)) l)) []) with (@MArr M (as_array (ANum y) q), true, [@MSeq M false (MArr (as_array (ANum y) q) :: map (fun c0 => MArr (as_array (ANum y) c0)) l)]).
  cbn [bind]. change (n_dt (as_array (ANum y) q)) with (ANum y).
  assert (E : mapM (m_get c) ms = Ok arrs). { clear -G. induction G as [|m a ms arrs E G IH]; [reflexivity|]. unfold mapM in *. cbn [map sequence]. rewrite E, IH. reflexivity. }
  rewrite E. cbn [bind]. clear E G. induction A as [|a arrs (x & slo & shi & ns & X & N & D & V & B) A IH].
  - exists []. split; [reflexivity|constructor].
  - destruct (restore_saturates x slo shi y lo hi a ns X Y N D V B) as (zs & E & F). destruct IH as (rs & E2 & F2).
    unfold mapM in *. cbn [map sequence]. rewrite E. destruct (sequence (map (restore_map (ANum y)) arrs)) as [rs'|] eqn:E3; cbn [bind] in E2; [|discriminate].
    injection E2 as E2. assert (rs' = rs). { revert rs E2 F2. clear. induction rs' as [|b rs' IH]; intros [|b' rs] E F; try discriminate; [reflexivity|]. cbn in E. injection E as -> E. f_equal. destruct arrs; inversion F; subst. revert E. clear. revert rs. induction rs' as [|b0 rs' IH]; intros [|b1 rs] E; try discriminate; [reflexivity|]. cbn in E. injection E as -> E. f_equal. auto. }
    subst rs'. exists (mkNd (ANum y) (n_shape a) (map inject_Z zs) :: rs). split; [reflexivity|]. constructor; [|exact F2]. cbn. split; [reflexivity|]. split; [reflexivity|]. exists ns, zs. auto.
Qed.
