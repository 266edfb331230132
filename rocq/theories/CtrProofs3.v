(** Proofs for CtrProps: CLAHE and histogram equalization. *)
From Coq Require Import String Ascii List ZArith QArith Qabs Bool Lia.
From Verif Require Import Prelude PreludeFacts RszProofs ColModel ColSpec ColProofs CtrModel CtrSpec CtrProofs CtrProofs2.
Import ListNotations.
Open Scope Z_scope.

(** ** CLAHE *)
Lemma clahe_ok : forall clahe tile_min limits hs ws pc im, 0 < ci_h im -> 0 < ci_w im -> (0 < ci_c im)%nat ->
  (forall l, In l [length limits; length hs; length ws] -> (1 <= l)%nat /\ ((1 # 2 < pc)%Q -> (ci_c im <= l)%nat)) ->
  exists out, clahe_image clahe tile_min limits hs ws pc im = Ok out /\ same_kind_c out im /\
    forall c, (c < ci_c im)%nat -> exists n, ((1 # 2 < pc)%Q -> n = c) /\ ((pc <= 1 # 2)%Q -> n = 0%nat) /\
      exists l h w, nth_error limits n = Some l /\ nth_error hs n = Some h /\ nth_error ws n = Some w /\
      clahe_channel clahe tile_min l h w (fun y x => ci_px im y x c) (fun y x => ci_px out y x c).
Proof.
  intros clahe tile_min limits hs ws pc im H W C L. unfold clahe_image.
  destruct (Z.eqb_spec (ci_h im) 0); [lia|]. destruct (Z.eqb_spec (ci_w im) 0); [lia|]. destruct (Nat.eqb_spec (ci_c im) 0) as [|NC]; [lia|]. cbn [orb]. match goal with H1 : ci_h im <> 0, H2 : ci_w im <> 0 |- _ => clear H1 H2 end.
  set (g := fun c : nat => _).
  assert (G : forall c, (c < ci_c im)%nat -> exists n, ((1 # 2 < pc)%Q -> n = c) /\ ((pc <= 1 # 2)%Q -> n = 0%nat) /\ exists l h w, nth_error limits n = Some l /\ nth_error hs n = Some h /\ nth_error ws n = Some w /\
    exists pl, g c = Ok pl /\ clahe_channel clahe tile_min l h w (fun y x => ci_px im y x c) pl).
  { intros c Hc. exists (if qltb (1 # 2) pc then c else 0%nat). split; [intros Q1; rewrite (proj2 (qltb_iff _ _) Q1); reflexivity|]. split; [intros Q1; rewrite (proj2 (qltb_false _ _) Q1); reflexivity|].
    unfold g. set (n := if qltb (1 # 2) pc then c else 0%nat). assert (B : forall l, In l [length limits; length hs; length ws] -> (n < l)%nat).
    { intros l I. destruct (L l I) as [L1 L2]. unfold n. destruct (qltb (1 # 2) pc) eqn:Q; [|lia]. apply qltb_iff in Q. specialize (L2 Q). lia. }
    clearbody n. cbn zeta. pose proof (B _ (or_introl eq_refl)) as B1. pose proof (B _ (or_intror (or_introl eq_refl))) as B2. pose proof (B _ (or_intror (or_intror (or_introl eq_refl)))) as B3.
    destruct (nth_error limits n) as [l|] eqn:E1; [|apply nth_error_None in E1; lia]. destruct (nth_error hs n) as [h|] eqn:E2; [|apply nth_error_None in E2; lia]. destruct (nth_error ws n) as [w|] eqn:E3; [|apply nth_error_None in E3; lia].
    exists l, h, w. repeat (split; [reflexivity|]). eexists. split; [reflexivity|].
    destruct (Z.ltb_spec 1 (Z.max w tile_min)); cbn [orb]; [split; [intros; lia|reflexivity]|]. destruct (Z.ltb_spec 1 (Z.max h tile_min)); (split; [intros; try lia; reflexivity|intros; try lia; reflexivity]). }
  destruct (mapM_seq g (ci_c im) 0) as (ps & R & LP & N).
  { intros i Hi. destruct (G i ltac:(lia)) as (n1 & _ & _ & l & h & w & _ & _ & _ & pl & P & _). exists pl. exact P. }
  rewrite R. cbn [bind]. eexists. split; [reflexivity|]. split; [repeat split; reflexivity|]. intros c Hc. destruct (G c Hc) as (k & A & B & l & h & w & E1 & E2 & E3 & pl & P & Q0).
  exists k. split; [exact A|]. split; [exact B|]. exists l, h, w. repeat (split; [assumption|]). cbn [ci_px]. pose proof (N c (fun _ _ => 0%Q) Hc) as X. rewrite Nat.add_0_l in X. rewrite P in X. injection X as <-. exact Q0.
Qed.
Lemma clahe_empty : forall clahe tile_min limits hs ws pc im, ci_h im = 0 \/ ci_w im = 0 \/ ci_c im = 0%nat -> clahe_image clahe tile_min limits hs ws pc im = Ok im.
Proof.
  intros clahe tile_min limits hs ws pc im H. unfold clahe_image. assert (X : (ci_h im =? 0) || (ci_w im =? 0) || Nat.eqb (ci_c im) 0 = true).
  { destruct H as [-> |[-> | ->]]; [reflexivity|rewrite orb_true_r; reflexivity|cbn; rewrite orb_true_r; reflexivity]. }
  rewrite X. reflexivity.
Qed.
Lemma clahe_batch_ok : forall clahe tile_min drawn imgs outs, clahe_batch clahe tile_min drawn imgs = Ok outs <->
  Forall (fun im => ci_dt im = U8 \/ ci_dt im = U16) imgs /\
  Forall2 (fun p out => let '(im, (l, h, w, pc)) := p in clahe_image clahe tile_min l h w pc im = Ok out) (combine imgs drawn) outs.
Proof.
  intros clahe tile_min drawn imgs outs. unfold clahe_batch.
  set (ga := "uint8 uint16"%string). set (gd := "bool uint32 uint64 int8 int16 int32 int64 float16 float32 float64 float128"%string).
  assert (LA : lists ga [U8; U16]) by (apply (words_next "uint8" "uint16" ["uint16"%string]); [cbn; repeat split; discriminate|apply words_last; cbn; repeat split; discriminate]).
  destruct (gate_in_library ga gd (map ci_dt imgs)) as [(la & L & F & G)|(la & L & F & G)]; [unfold library_gates, ga, gd; cbn [In]; tauto| |];
    rewrite G; apply parse_lists in LA, L; assert (la = [U8; U16]) by congruence; subst la.
  - cbn [bind]. rewrite mapM_Ok_iff. rewrite Forall_map in F. split.
    + intros H. split; [eapply Forall_impl; [|exact F]; cbn; intuition|]. induction H as [|p o ps os E H IH]; constructor; [|exact IH]. destruct p as [im [[[? ?] ?] ?]]. exact E.
    + intros [_ H]. induction H as [|p o ps os E H IH]; constructor; [|exact IH]. destruct p as [im [[[? ?] ?] ?]]. exact E.
  - cbn [bind]. split; [discriminate|]. intros [H _]. exfalso. apply Exists_exists in F. destruct F as (x & I & N). apply in_map_iff in I. destruct I as (im & <- & I). rewrite Forall_forall in H. apply N. cbn. destruct (H im I) as [-> | ->]; auto.
Qed.
Lemma clahe_refused : forall clahe tile_min drawn imgs, Exists (fun im => ci_dt im <> U8 /\ ci_dt im <> U16) imgs -> clahe_batch clahe tile_min drawn imgs = Err ValueError.
Proof.
  intros clahe tile_min drawn imgs H. unfold clahe_batch.
  set (ga := "uint8 uint16"%string). set (gd := "bool uint32 uint64 int8 int16 int32 int64 float16 float32 float64 float128"%string).
  assert (LA : lists ga [U8; U16]) by (apply (words_next "uint8" "uint16" ["uint16"%string]); [cbn; repeat split; discriminate|apply words_last; cbn; repeat split; discriminate]).
  destruct (gate_in_library ga gd (map ci_dt imgs)) as [(la & L & F & G)|(la & L & F & G)]; [unfold library_gates, ga, gd; cbn [In]; tauto| |rewrite G; reflexivity].
  exfalso. apply parse_lists in LA, L. assert (la = [U8; U16]) by congruence. subst la. rewrite Forall_map, Forall_forall in F. apply Exists_exists in H. destruct H as (im & I & N1 & N2). specialize (F im I). cbn in F. intuition congruence.
Qed.

(** ** Intensity channels *)
Section Conv.
Variable cvt : cspace -> cspace -> ColModel.color -> ColModel.color.
Variable gray : cspace -> ColModel.color -> Z.
Notation change := (change_colorspace cvt gray).
Notation changes := (change_colorspaces cvt gray).
Lemma changes_cons : forall im imgs t f, changes (im :: imgs) (NOne t) (NOne f) = (do r <- change im t f; do rs <- changes imgs (NOne t) (NOne f); Ok (snd r :: rs)).
Proof.
  intros im imgs t f. unfold change_colorspaces, per_image, change_each. cbn [length repeat bind combine]. rewrite RszProofs.mapM_cons. cbn [fst snd].
  destruct (change im t f) as [r|]; cbn [bind]; [|reflexivity]. destruct (mapM _ _) as [rs|]; reflexivity.
Qed.
Lemma changes_nil : forall t f, changes [] (NOne t) (NOne f) = Ok [].
Proof. reflexivity. Qed.
Lemma change_colors : forall im t f, im_c im = Some 3%nat -> im_u8 im = true -> 0 <= im_h im -> 0 <= im_w im -> f <> GRAY ->
  exists after out, change im (Some t) (Some f) = Ok (after, out) /\ converted_colors cvt gray f t im out.
Proof.
  intros im t f C U H W F. destruct (Z.eq_dec (im_h im) 0) as [H0|H0]; [|destruct (Z.eq_dec (im_w im) 0) as [W0|W0]].
  - exists im, im. split; [apply change_none; left; exact H0|]. repeat split; try assumption. intros y x [A B]. lia.
  - exists im, im. split; [apply change_none; right; exact W0|]. repeat split; try assumption. intros y x [A B]. lia.
  - destruct (change_image cvt gray im t f) as (a & o & E & ((_ & O1 & O2) & O3 & O4)); [repeat split; try assumption; lia|exact F|]. exists a, o. split; [exact E|]. repeat split; try assumption; apply O3.
Qed.
Definition color_image (im : image) : Prop := im_c im = Some 3%nat /\ im_u8 im = true /\ 0 <= im_h im /\ 0 <= im_w im.
Lemma colors_some : forall im, uint8_image im -> match colors_of im with
  | Some c => colors im /\ color_image c /\ (forall y x, pixel c y x = pixel im y x) /\ same_size c im
  | None => ~ colors im end.
Proof.
  intros im (U & H & W & C). unfold colors_of, colors. destruct (im_c im) as [[|[|[|[|[|n]]]]]|] eqn:E; try (intros [X|X]; discriminate).
  - split; [left; reflexivity|]. split; [repeat split; assumption|]. split; [reflexivity|split; reflexivity].
  - split; [right; reflexivity|]. split; [repeat split; assumption|]. split; [reflexivity|split; reflexivity].
Qed.
Lemma converted_same : forall f t a b c, (forall y x, pixel a y x = pixel b y x) -> same_size a b -> converted_colors cvt gray f t a c -> converted_colors cvt gray f t b c.
Proof.
  intros f t a b c P (S1 & S2) ((A1 & A2) & A3 & A4 & A5). split; [split; congruence|]. split; [exact A3|]. split; [exact A4|]. intros y x I. rewrite <- P. apply A5. unfold inside in *. rewrite S1, S2. exact I.
Qed.
(** The images with the converted ones. *)
Definition paired (from to : cspace) (im : image) (p : image * option image) : Prop :=
  fst p = im /\ ((~ colors im /\ snd p = None) \/ (colors im /\ exists c, snd p = Some c /\ color_image c /\ converted_colors cvt gray from to im c)).
Lemma assign_ok : forall from to imgs, Forall uint8_image imgs -> from <> GRAY ->
  exists conv, changes (flat_map (fun im => match colors_of im with Some c => [c] | None => [] end) imgs) (NOne (Some to)) (NOne (Some from)) = Ok conv /\
    Forall2 (paired from to) imgs (assign imgs conv).
Proof.
  intros from to imgs F G. induction F as [|im imgs U F (conv & E & IH)]; [exists []; split; [reflexivity|constructor]|].
  cbn [flat_map assign]. pose proof (colors_some im U) as C. destruct (colors_of im) as [c|].
  - destruct C as (C1 & (C2 & C3 & C4 & C5) & P & S). destruct (change_colors c to from C2 C3 C4 C5 G) as (a & o & E' & CC). exists (o :: conv). cbn [app]. rewrite changes_cons, E'. cbn [bind]. rewrite E. split; [reflexivity|].
    constructor; [|exact IH]. split; [reflexivity|]. right. split; [exact C1|]. exists o. split; [reflexivity|]. split; [|apply (converted_same from to c im o P S CC)].
    destruct CC as ((S1 & S2) & X1 & X2 & _). repeat split; try assumption; congruence.
  - exists conv. split; [exact E|]. constructor; [|exact IH]. split; [reflexivity|]. left. auto.
Qed.
Lemma intensity_lt : forall to id, intensity to id -> (id < 3)%nat /\ intensity_channel to = Ok id /\ to <> GRAY.
Proof. intros to id H. unfold intensity in H. decompose [or and] H; subst; repeat split; try lia; discriminate. Qed.
Definition norm_of (id : nat) (p : image * option image) : image := match snd p with Some c => one_channel c id | None => fst p end.
Lemma norm_ok : forall from to id im p, paired from to im p -> normalized cvt gray from to id im (norm_of id p).
Proof.
  intros from to id im [i o] (E & [[N S]|(C & c & S & (_ & U & _) & CC)]); cbn [fst snd] in *; subst; unfold norm_of; cbn [fst snd].
  - split; [reflexivity|]. intros C. contradiction.
  - split; [intros N; contradiction|]. intros _. exists c. split; [exact CC|]. repeat split. exact U.
Qed.
Lemma store_ok : forall from to id im c aug, intensity to id -> color_image c -> converted_colors cvt gray from to im c -> same_shape_u8 (one_channel c id) aug ->
  exists s, store c aug id = Ok s /\ color_image s /\ same_size s im /\ forall y x, replaced id (im_px aug y x 0%nat) (pixel c y x) (pixel s y x).
Proof.
  intros from to id im c aug IN (C1 & C2 & C3 & C4) ((S1 & S2) & _ & _ & _) ((A1 & A2) & A3 & A4). cbn [one_channel im_h im_w im_c] in *. unfold store. rewrite A3, A1, A2, !Z.eqb_refl. cbn [andb].
  eexists. split; [reflexivity|]. split; [repeat split; assumption|]. split; [split; assumption|]. intros y x n Hn. destruct (intensity_lt to id IN) as (I & _ & _).
  rewrite !pixel_comp by exact Hn. cbn [im_px]. split; [intros ->; rewrite Nat.eqb_refl; reflexivity|]. intros N. apply Nat.eqb_neq in N. rewrite N. reflexivity.
Qed.
Lemma back_ok : forall from to id imgs pairs aug, intensity to id -> from <> GRAY -> Forall uint8_image imgs -> Forall2 (paired from to) imgs pairs ->
  Forall2 same_shape_u8 (map (norm_of id) pairs) aug ->
  exists tmps back, mapM (fun q => match snd (fst q) with Some c => do s <- store c (snd q) id; Ok [s] | None => Ok [] end) (combine pairs aug) = Ok tmps /\
    changes (concat tmps) (NOne (Some from)) (NOne (Some to)) = Ok back /\
    let outs := map (fun q => match snd (fst q) with Some b => with_alpha (fst (fst q)) b | None => snd q end) (combine (assign imgs back) aug) in
    length outs = length imgs /\ forall i d, (i < length imgs)%nat -> denormalized cvt gray from to id (nth i imgs d) (nth i aug d) (nth i outs d).
Proof.
  intros from to id imgs pairs aug IN F U P. revert aug. destruct (intensity_lt to id IN) as (_ & _ & TG). induction P as [|im p imgs pairs PR P IH]; intros aug A.
  - inversion A. exists [], []. split; [reflexivity|]. split; [reflexivity|]. split; [reflexivity|]. intros i d Hi. cbn in Hi. lia.
  - cbn [map] in A. inversion A as [|n a ns aug' A1 A2 EN EA]; subst. inversion U as [|? ? U1 U2]; subst. destruct (IH U2 aug' A2) as (tmps & back & T & B & L & D). clear IH.
    destruct PR as (EF & CASES). destruct p as [i0 o0]. cbn [fst snd] in *. subst i0.
    pose proof (colors_some im U1) as CO. cbn [combine]. rewrite RszProofs.mapM_cons. cbn [fst snd]. destruct CASES as [[N ->]|(C & c & -> & CI & CC)].
    + cbn [bind]. rewrite T. cbn [bind]. exists ([] :: tmps), back. split; [reflexivity|]. split; [exact B|]. cbn [assign]. destruct (colors_of im); [tauto|]. cbn [combine map fst snd length]. split; [rewrite L; reflexivity|].
      intros [|i] d Hi; cbn [nth]; [split; [reflexivity|intros X; contradiction]|apply D; cbn in Hi; lia].
    + unfold norm_of in A1. cbn [snd] in A1. destruct (store_ok from to id im c a IN CI CC A1) as (s & S & (SI1 & SI2 & SI3 & SI4) & (SS1 & SS2) & RP). rewrite S. cbn [bind]. rewrite T. cbn [bind].
      destruct (change_colors s from to SI1 SI2 SI3 SI4 TG) as (af & b & E & ((B1 & B2) & B3 & B4 & B5)).
      exists ([s] :: tmps), (b :: back). split; [reflexivity|]. cbn [concat app]. rewrite changes_cons, E. cbn [bind]. rewrite B. split; [reflexivity|].
      cbn [assign]. destruct (colors_of im) as [c0|]; [|contradiction]. cbn [combine map fst snd length]. split; [rewrite L; reflexivity|].
      intros [|i] d Hi; cbn [nth]; [|apply D; cbn in Hi; lia]. split; [intros X; contradiction|]. intros _.
      assert (PX : forall y x, pixel (with_alpha im b) y x = pixel b y x) by (intros y x; unfold with_alpha, pixel; destruct (im_c im) as [[|[|[|[|[|k]]]]]|]; reflexivity).
      split.
      * unfold with_alpha. destruct C as [C|C]; rewrite C; (split; [split; cbn; congruence|]); (split; [cbn; congruence|exact B4]).
      * exists c. split; [exact CC|]. intros y x I. split.
        -- exists (pixel s y x). split; [apply RP|]. rewrite PX. apply B5. unfold inside in *. rewrite SS1, SS2. exact I.
        -- intros C4. unfold with_alpha. rewrite C4. reflexivity.
Qed.
Lemma apply_ok : forall func from to id imgs, intensity to id -> from <> GRAY -> Forall uint8_image imgs ->
  exists norm, Forall2 (normalized cvt gray from to id) imgs norm /\
    (forall e, func norm = Err e -> apply_intensity cvt gray func from to imgs = Err e) /\
    (forall aug, func norm = Ok aug -> Forall2 same_shape_u8 norm aug ->
      exists outs, apply_intensity cvt gray func from to imgs = Ok outs /\ length outs = length imgs /\
        forall i d, (i < length imgs)%nat -> denormalized cvt gray from to id (nth i imgs d) (nth i aug d) (nth i outs d)).
Proof.
  intros func from to id imgs IN F U. destruct (intensity_lt to id IN) as (_ & IC & TG). destruct (assign_ok from to imgs U F) as (conv & E & P).
  exists (map (norm_of id) (assign imgs conv)). split.
  - set (l := assign imgs conv) in *. clearbody l. clear - P. induction P; cbn; constructor; [apply norm_ok; assumption|assumption].
  - unfold apply_intensity. rewrite IC. cbn [bind]. rewrite E. cbn [bind]. change (map (fun p : image * option image => match snd p with Some c => one_channel c id | None => fst p end) (assign imgs conv)) with (map (norm_of id) (assign imgs conv)). split.
    + intros e H. rewrite H. reflexivity.
    + intros aug H S. rewrite H. cbn [bind]. destruct (back_ok from to id imgs _ aug IN F U P S) as (tmps & back & T & B & L & D). rewrite T. cbn [bind]. rewrite B. cbn [bind]. eexists. split; [reflexivity|]. split; assumption.
Qed.
Lemma equalize_ok : forall eq im, uint8_image im -> equalized eq im (equalize_image eq im) /\ same_shape_u8 im (equalize_image eq im).
Proof.
  intros eq im (U & H & W & C). assert (X : equalized eq im (equalize_image eq im)); [|split; [exact X|apply X]].
  unfold equalize_image, equalized, same_shape_u8, channels. destruct (im_c im) as [[|n]|] eqn:E; [| |contradiction].
  - split; [repeat split; assumption|]. intros y x c _ Hc. lia.
  - destruct (Z.eqb_spec (im_h im) 0); cbn [orb]; [split; [repeat split; assumption|]; intros y x c [A B] _; lia|]. destruct (Z.eqb_spec (im_w im) 0); [split; [repeat split; assumption|]; intros y x c [A B] _; lia|].
    split; [repeat split; exact E || reflexivity|]. intros y x c _ _. reflexivity.
Qed.
Lemma normalized_u8 : forall from to id im n, uint8_image im -> normalized cvt gray from to id im n -> uint8_image n.
Proof.
  intros from to id im n U (N1 & N2). pose proof (colors_some im U) as C. destruct (colors_of im) as [c|].
  - destruct C as (C & _). destruct (N2 C) as (conv & ((S1 & S2) & X1 & X2 & _) & ((T1 & T2) & T3 & T4 & _)). destruct U as (U1 & U2 & U3 & U4). repeat split; try lia; congruence.
  - rewrite (N1 C). exact U.
Qed.
Lemma equalize_batch_ok : forall eq imgs, Forall uint8_image imgs -> equalize_batch eq imgs = Ok (map (equalize_image eq) imgs).
Proof.
  intros eq imgs F. unfold equalize_batch. assert (X : forallb im_u8 imgs = true) by (apply forallb_forall; intros x I; rewrite Forall_forall in F; apply F; exact I). rewrite X. reflexivity.
Qed.
Lemma histogram_ok : forall eq from to id imgs, intensity to id -> from <> GRAY -> Forall uint8_image imgs ->
  exists norm aug outs, Forall2 (normalized cvt gray from to id) imgs norm /\ Forall2 (equalized eq) norm aug /\
    histogram_equalization eq cvt gray from to imgs = Ok outs /\ length outs = length imgs /\
    forall i d, (i < length imgs)%nat -> denormalized cvt gray from to id (nth i imgs d) (nth i aug d) (nth i outs d).
Proof.
  intros eq from to id imgs IN F U. destruct (apply_ok (equalize_batch eq) from to id imgs IN F U) as (norm & N & _ & A).
  assert (UN : Forall uint8_image norm). { clear A. revert U. induction N; intros U; [constructor|]. inversion_clear U. constructor; [eapply normalized_u8; eassumption|auto]. }
  pose proof (equalize_batch_ok eq norm UN) as E. destruct (A _ E) as (outs & O & L & D).
  { clear A E N. induction UN; cbn; constructor; [apply equalize_ok; assumption|assumption]. }
  exists norm, (map (equalize_image eq) norm), outs. split; [exact N|]. split; [clear A E N D; induction UN; cbn; constructor; [apply equalize_ok; assumption|assumption]|]. split; [|split; assumption].
  unfold histogram_equalization. assert (X : forallb im_u8 imgs = true) by (apply forallb_forall; intros x I; rewrite Forall_forall in U; apply U; exact I). rewrite X. exact O.
Qed.
Lemma histogram_refused : forall eq from to imgs, Exists (fun im => im_u8 im = false) imgs -> histogram_equalization eq cvt gray from to imgs = Err ValueError.
Proof.
  intros eq from to imgs H. unfold histogram_equalization. assert (X : forallb im_u8 imgs = false).
  { apply Exists_exists in H. destruct H as (x & I & N). destruct (forallb im_u8 imgs) eqn:E; [|reflexivity]. rewrite forallb_forall in E. rewrite (E x I) in N. discriminate. }
  rewrite X. reflexivity.
Qed.
End Conv.
Lemma check_ok : forall from to f t, check_applier from to = Ok (f, t) <-> from = Some f /\ to = Some t /\ may_come_from f /\ exists id, intensity t id.
Proof.
  intros from to f t. unfold check_applier, may_come_from, intensity. split.
  - destruct from as [f'|]; [|discriminate]. destruct to as [t'|]; [|discriminate].
    destruct f'; cbn; try discriminate; destruct t'; cbn; try discriminate; intros H; injection H as <- <-; (split; [reflexivity|]); (split; [reflexivity|]); (split; [tauto|]); eauto 8.
  - intros (-> & -> & F & (id & T)). decompose [or and] F; subst; decompose [or and] T; subst; reflexivity.
Qed.
Lemma check_err : forall from to, match check_applier from to with Ok (f, t) => True | Err e => e = AssertionError end.
Proof. intros [f|] [t|]; try reflexivity; destruct f; try reflexivity; destruct t; cbn; auto. Qed.
