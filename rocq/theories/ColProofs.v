(** Proofs about the functions on colours. *)
From Coq Require Import Qabs Qround Lia Lqa.
From Verif Require Import Prelude PreludeFacts AriModel AriProofs DropProofs InvProofs UtilModel UtilProofs BlendModel BlendSpec BlendProofs ConvModel RszModel RszProofs ChkProofs
  ColModel ColSpec.
Open Scope Z_scope.

(** ** Conversions *)
Lemma cspace_eqb_iff : forall a b, cspace_eqb a b = true <-> a = b.
Proof. intros a b. destruct a, b; cbn; split; congruence. Qed.
Lemma cspace_eqb_false : forall a b, cspace_eqb a b = false <-> a <> b.
Proof. intros a b. rewrite <- cspace_eqb_iff. destruct (cspace_eqb a b); intuition congruence. Qed.
Lemma direct_iff : forall a b, a <> GRAY -> a <> b -> (direct a b = true <-> offered a b).
Proof. intros a b G N. unfold offered. destruct a, b; cbn; split; intros H; try congruence; try tauto; destruct H as [[H|H]|[H|H]]; congruence. Qed.
Lemma comp_color : forall (c : color), (comp c 0, comp c 1, comp c 2) = c.
Proof. intros [[a b] d]. reflexivity. Qed.
Lemma pixel_comp : forall im y x n, (n < 3)%nat -> comp (pixel im y x) n = im_px im y x n.
Proof. intros im y x n H. destruct n as [|[|[|n]]]; [reflexivity..|lia]. Qed.
Lemma size_bool : forall im, has_pixels im -> (im_h im =? 0) || (im_w im =? 0) = false.
Proof. intros im (H & W). apply Bool.orb_false_iff. split; apply Z.eqb_neq; lia. Qed.
Lemma size_bool0 : forall im, no_pixels im -> (im_h im =? 0) || (im_w im =? 0) = true.
Proof. intros im [H|H]; rewrite H; [reflexivity|apply Bool.orb_true_r]. Qed.

Section Conv.
Variable cvt : cspace -> cspace -> color -> color.
Variable gray : cspace -> color -> Z.

Lemma cvt_color_out : forall from to im y x, pixel (snd (cvt_color cvt gray from to im)) y x = opencv cvt gray from to (pixel im y x).
Proof.
  intros from to im y x. unfold cvt_color, opencv. destruct to; cbn [snd fresh]; try reflexivity; unfold pixel; cbn [im_px]; apply comp_color.
Qed.
Lemma cvt_color_shape : forall from to im, let o := snd (cvt_color cvt gray from to im) in
  im_h o = im_h im /\ im_w o = im_w im /\ im_u8 o = true /\ im_c o = Some 3%nat.
Proof. intros from to im. unfold cvt_color. destruct to; cbn; auto. Qed.
Lemma cvt_color_after : forall from to im, fst (cvt_color cvt gray from to im) = match to with GRAY => im | _ => snd (cvt_color cvt gray from to im) end.
Proof. intros from to im. destruct to; reflexivity. Qed.
Definition conv2 (from to : cspace) (n : image) : image * image :=
  if direct from to then cvt_color cvt gray from to n else cvt_color cvt gray RGB to (snd (cvt_color cvt gray from RGB n)).
Lemma change_form : forall im to from, colored im -> from <> GRAY -> from <> to ->
  change_colorspace cvt gray im (Some to) (Some from) =
  Ok (if in_place im then fst (conv2 from to (fresh im (im_px im))) else im, snd (conv2 from to (fresh im (im_px im)))).
Proof.
  intros im to from (P & U & C) G N. unfold change_colorspace, conv2. rewrite (size_bool im P), U, C. cbn [negb].
  rewrite (proj2 (cspace_eqb_false from GRAY) G), (proj2 (cspace_eqb_false from to) N).
  destruct (direct from to); [destruct (cvt_color _ _ _ _ _); reflexivity|].
  destruct (cvt_color cvt gray from RGB _) as [a b]. cbn [snd]. destruct (cvt_color cvt gray RGB to b); reflexivity.
Qed.
Lemma change_same : forall im s, colored im -> s <> GRAY -> change_colorspace cvt gray im (Some s) (Some s) = Ok (im, im).
Proof.
  intros im s (P & U & C) G. unfold change_colorspace. rewrite (size_bool im P), U, C. cbn [negb].
  rewrite (proj2 (cspace_eqb_false s GRAY) G), (proj2 (cspace_eqb_iff s s) eq_refl). reflexivity.
Qed.
Lemma conv2_out : forall from to im y x, from <> GRAY -> from <> to -> converted cvt gray from to (pixel im y x) (pixel (snd (conv2 from to (fresh im (im_px im)))) y x).
Proof.
  intros from to im y x G N. unfold converted, conv2. destruct (direct from to) eqn:D.
  - right; left. split; [exact N|]. split; [apply direct_iff; assumption|]. rewrite cvt_color_out. reflexivity.
  - right; right. split; [exact N|]. split; [intros O; apply direct_iff in O; congruence|]. rewrite !cvt_color_out. reflexivity.
Qed.
Lemma conv2_shape : forall from to im, let o := snd (conv2 from to (fresh im (im_px im))) in
  im_h o = im_h im /\ im_w o = im_w im /\ im_u8 o = true /\ im_c o = Some 3%nat.
Proof.
  intros from to im. unfold conv2. destruct (direct from to).
  - destruct (cvt_color_shape from to (fresh im (im_px im))) as (A & B & C & D). cbn in A, B. cbn. auto.
  - destruct (cvt_color_shape RGB to (snd (cvt_color cvt gray from RGB (fresh im (im_px im))))) as (A & B & C & D).
    destruct (cvt_color_shape from RGB (fresh im (im_px im))) as (A' & B' & _). cbn zeta. rewrite A, B, A', B'. cbn. auto.
Qed.
Lemma conv2_image : forall from to im, colored im -> from <> GRAY -> from <> to -> converted_image cvt gray from to im (snd (conv2 from to (fresh im (im_px im)))).
Proof.
  intros from to im ((H & W) & U & C) G N. destruct (conv2_shape from to im) as (A & B & D & E).
  split; [split; [split; rewrite ?A, ?B; assumption|split; assumption]|]. split; [split; assumption|]. intros y x _. apply conv2_out; assumption.
Qed.
Lemma change_image : forall im to from, colored im -> from <> GRAY ->
  exists after out, change_colorspace cvt gray im (Some to) (Some from) = Ok (after, out) /\ converted_image cvt gray from to im out.
Proof.
  intros im to from C G. destruct (cspace_eqb from to) eqn:E; [apply cspace_eqb_iff in E|apply cspace_eqb_false in E].
  - subst to. exists im, im. split; [apply change_same; assumption|]. split; [exact C|]. split; [split; reflexivity|]. intros y x _. left. auto.
  - eexists _, _. split; [apply change_form; assumption|]. apply conv2_image; assumption.
Qed.
Lemma change_errors : forall im to from, has_pixels im ->
  match change_colorspace cvt gray im to from with
  | Ok _ => im_u8 im = true /\ im_c im = Some 3%nat /\ to <> None /\ from <> None /\ from <> Some GRAY
  | Err e => (im_u8 im = false /\ e = ValueError) \/
             (im_u8 im = true /\ e = AssertionError /\ (im_c im <> Some 3%nat \/ to = None \/ from = None \/ from = Some GRAY))
  end.
Proof.
  intros im to from P. unfold change_colorspace. rewrite (size_bool im P). destruct (im_u8 im); cbn [negb]; [|left; auto].
  destruct to as [to|]; [|right; auto]. destruct from as [from|]; [|right; tauto].
  destruct (cspace_eqb from GRAY) eqn:G; [apply cspace_eqb_iff in G; subst; right; tauto|apply cspace_eqb_false in G].
  destruct (im_c im) as [[|[|[|[|n]]]]|]; try (right; split; [reflexivity|]; split; [reflexivity|]; left; discriminate).
  destruct (cspace_eqb from to); [repeat split; congruence|].
  match goal with |- context [let '(_, _) := ?e in _] => destruct e as [a b] end. repeat split; congruence.
Qed.
Lemma change_none : forall im to from, no_pixels im -> change_colorspace cvt gray im to from = Ok (im, im).
Proof. intros im to from P. unfold change_colorspace. rewrite (size_bool0 im P). reflexivity. Qed.
Lemma in_place_iff : forall im, in_place im = true <-> writable im.
Proof. intros im. unfold in_place, writable. rewrite Bool.andb_true_iff. tauto. Qed.
Lemma conv2_after : forall from to im, from <> GRAY -> from <> to -> let r := conv2 from to (fresh im (im_px im)) in
  fst r = match to with GRAY => if direct from to then fresh im (im_px im) else snd (cvt_color cvt gray from RGB (fresh im (im_px im))) | _ => snd r end.
Proof.
  intros from to im G N. cbn zeta. unfold conv2. destruct (direct from to); rewrite cvt_color_after; reflexivity.
Qed.

(** ** Lists *)
Lemma mapM_Ok_iff : forall {A B} (f : A -> res B) l r, mapM f l = Ok r <-> Forall2 (fun x y => f x = Ok y) l r.
Proof.
  intros A B f l. induction l as [|x l IH]; intros r.
  - unfold mapM. cbn. split; [intros H; injection H as <-; constructor|intros H; inversion H; reflexivity].
  - rewrite mapM_cons. destruct (f x) as [y|e] eqn:E; cbn [bind].
    + destruct (mapM f l) as [s|e2] eqn:E2; cbn [bind].
      * split; [intros H; injection H as <-; constructor; [exact E|apply IH; reflexivity]|].
        intros H. inversion H as [|a b c d H1 H2 X Y]; subst. rewrite E in H1. injection H1 as <-. apply IH in H2. injection H2 as <-. reflexivity.
      * split; [discriminate|]. intros H. inversion H as [|a b c d H1 H2 X Y]; subst. apply IH in H2. discriminate.
    + split; [discriminate|]. intros H. inversion H as [|a b c d H1 H2 X Y]; subst. congruence.
Qed.

Lemma per_image_named : forall nb a l, named nb a l -> per_image nb a = Ok l.
Proof.
  intros nb a l (L & [E|(s & E & F)]); subst a; cbn [per_image].
  - rewrite L, Nat.eqb_refl. reflexivity.
  - f_equal. revert l L F. induction nb as [|nb IH]; intros [|x l] L F; try discriminate; [reflexivity|]. cbn. rewrite (F x) by (left; reflexivity). f_equal. apply IH; [cbn in L; lia|]. intros y Hy. apply F. right. exact Hy.
Qed.
Lemma per_image_bad : forall nb a, (forall l, ~ named nb a l) -> per_image nb a = Err AssertionError.
Proof.
  intros nb a H. destruct a as [s|l|]; cbn [per_image].
  - exfalso. apply (H (repeat s nb)). split; [apply repeat_length|]. right. exists s. split; [reflexivity|]. intros x X. apply repeat_spec in X. exact X.
  - destruct (Nat.eqb_spec (length l) nb) as [E|E]; [|reflexivity]. exfalso. apply (H l). split; [exact E|]. left. reflexivity.
  - reflexivity.
Qed.
Lemma Forall2_nth_iff : forall {A B} (R : A -> B -> Prop) l r (d : A) (e : B),
  Forall2 R l r <-> length r = length l /\ forall i, (i < length l)%nat -> R (nth i l d) (nth i r e).
Proof.
  intros A B R l. induction l as [|x l IH]; intros r d e.
  - split; [intros H; inversion H; split; [reflexivity|cbn; lia]|]. intros [L _]. destruct r; [constructor|discriminate].
  - split.
    + intros H. inversion H as [|a b c d' H1 H2 X Y]; subst. apply (IH d' d e) in H2. destruct H2 as [L F]. split; [cbn; lia|]. intros [|i] Hi; [exact H1|]. cbn in *. apply F. lia.
    + intros [L F]. destruct r as [|y r]; [discriminate|]. constructor; [apply (F 0%nat); cbn; lia|]. apply (IH r d e). cbn in L. split; [lia|]. intros i Hi. apply (F (S i)). cbn. lia.
Qed.
Lemma images_form : forall imgs to from ts fs outs, named (length imgs) to ts -> named (length imgs) from fs ->
  (change_colorspaces cvt gray imgs to from = Ok outs <->
   length outs = length imgs /\
   forall i d s, (i < length imgs)%nat -> exists after, change_colorspace cvt gray (nth i imgs d) (nth i ts s) (nth i fs s) = Ok (after, nth i outs d)).
Proof.
  intros imgs to from ts fs outs T F. unfold change_colorspaces. rewrite (per_image_named _ _ _ T), (per_image_named _ _ _ F). cbn [bind].
  assert (LT := proj1 T). assert (LF := proj1 F). clear T F.
  set (f := fun p : image * (cname * cname) => change_colorspace cvt gray (fst p) (fst (snd p)) (snd (snd p))).
  set (l := combine imgs (combine ts fs)).
  assert (LL : length l = length imgs) by (unfold l; rewrite !combine_length; lia).
  assert (NL : forall i d s, (i < length imgs)%nat -> nth i l (d, (s, s)) = (nth i imgs d, (nth i ts s, nth i fs s))).
  { intros i d s Hi. unfold l. rewrite combine_nth by (rewrite combine_length; lia). rewrite combine_nth by lia. reflexivity. }
  clearbody l.
  assert (D : length imgs = 0%nat \/ exists im0 : image, True) by (destruct imgs as [|im0 ?]; [left; reflexivity|right; exists im0; exact Logic.I]).
  destruct D as [D|[im0 _]].
  { rewrite D in *. destruct l; [|discriminate]. unfold change_each. cbn. split; [intros H; injection H as <-; split; [reflexivity|intros; cbn in *; lia]|]. intros [L _]. destruct outs; [reflexivity|discriminate]. }
  unfold change_each. fold f. split.
  - destruct (mapM f l) as [r|e] eqn:E; cbn [bind]; [|discriminate]. intros H. injection H as <-.
    apply mapM_Ok_iff in E. apply (Forall2_nth_iff _ _ _ (im0, (None, None)) (im0, im0)) in E. destruct E as [L E]. pose proof (eq_trans L LL) as LR. rewrite map_length. split; [exact LR|].
    intros i d s Hi. assert (Hl : (i < length l)%nat) by lia. specialize (E i Hl). rewrite (nth_indep l _ (d, (s, s))) in E by exact Hl. rewrite NL in E by exact Hi. unfold f in E. cbn [fst snd] in E. rewrite E.
    exists (fst (nth i r (im0, im0))). rewrite (nth_indep (map snd r) d (snd (im0, im0))) by (rewrite map_length; lia). rewrite map_nth. destruct (nth i r _); reflexivity.
  - intros [L H].
    assert (X : exists r, mapM f l = Ok r /\ map snd r = outs).
    { assert (G : forall i, (i < length l)%nat -> exists y, f (nth i l (im0, (None, None))) = Ok y /\ snd y = nth i outs im0).
      { intros i Hi. destruct (H i im0 None) as [a Ha]; [lia|]. exists (a, nth i outs im0). split; [|reflexivity]. rewrite NL by lia. exact Ha. }
      clear H NL. clearbody f. clear LT LF. assert (LO : length outs = length l) by lia. clear L LL.
      revert outs LO G. induction l as [|p l IH]; intros outs LO G.
      - destruct outs; [|discriminate]. exists []. split; reflexivity.
      - destruct outs as [|o outs]; [discriminate|]. destruct (G 0%nat) as (y & Y1 & Y2); [cbn; lia|]. cbn in Y1, Y2.
        destruct (IH outs) as (r & R1 & R2); [cbn in LO; lia| |].
        { intros i Hi. destruct (G (S i)) as (z & Z1 & Z2); [cbn; lia|]. cbn in Z1, Z2. exists z. auto. }
        exists (y :: r). rewrite mapM_cons, Y1. cbn [bind]. rewrite R1. cbn [bind map]. rewrite Y2, R2. split; reflexivity. }
    destruct X as (r & R1 & R2). rewrite R1. cbn [bind]. rewrite R2. reflexivity.
Qed.
Lemma images_wrong : forall imgs to from, (forall l, ~ named (length imgs) to l) \/ (forall l, ~ named (length imgs) from l) ->
  change_colorspaces cvt gray imgs to from = Err AssertionError.
Proof.
  intros imgs to from [H|H]; unfold change_colorspaces.
  - rewrite (per_image_bad _ _ H). reflexivity.
  - rewrite (per_image_bad _ _ H). destruct to as [s|l|]; cbn [per_image]; try reflexivity. destruct (Nat.eqb _ _); reflexivity.
Qed.

(** ** ChangeColorspace *)
Lemma blended_same : forall tol eps v a, 0 <= v <= 255 -> (0 <= tol)%Q -> blended tol eps v v a v.
Proof.
  intros tol eps v a V T. split; [exact V|]. split; [|split; intros; reflexivity]. left. unfold mixed.
  assert (E : (inject_Z v - (a * inject_Z v + (1 - a) * inject_Z v) == 0)%Q) by ring. rewrite E. exact T.
Qed.
Lemma blended_weighted : forall eps f b a, 0 <= f <= 255 -> 0 <= b <= 255 -> in_unit a -> blended (1 # 2) eps f b a (add_weighted f b a).
Proof.
  intros eps f b a F B U. destruct (weighted_near f b a F B U) as [W1 W2]. unfold between in W1. split; [lia|]. split; [left; exact W2|].
  split; intros E; unfold add_weighted.
  - rewrite (sat8_compat _ (inject_Z f)); [apply sat8_Z; exact F|]. rewrite E. ring.
  - rewrite (sat8_compat _ (inject_Z b)); [apply sat8_Z; exact B|]. rewrite E. ring.
Qed.
Lemma blend_images_ok : forall fg bg a, colored fg -> same_size fg bg -> byte_image fg -> byte_image bg -> in_unit a -> (1 # 1000 < a)%Q ->
  exists out, blend_images cs_eps fg bg a = Ok out /\ colored out /\ same_size out fg /\
    (forall y x, inside fg y x -> blend_of a (pixel fg y x) (pixel bg y x) (pixel out y x)).
Proof.
  intros fg bg a (P & U & C) (SH & SW) BF BB IU AE. unfold blend_images. rewrite <- SH, <- SW, !Z.eqb_refl. cbn [andb negb]. rewrite (size_bool fg P).
  assert (A2 : qleb a cs_eps = false) by (apply qleb_false; exact AE).
  assert (A3 : qleb 0 a && qleb a 1 = true) by (apply andb_true_intro; split; apply qleb_iff; apply IU).
  rewrite A2, A3. cbn [negb].
  assert (BC : forall y x n, inside fg y x -> (n < 3)%nat -> 0 <= im_px fg y x n <= 255 /\ 0 <= im_px bg y x n <= 255).
  { intros y x n I Hn. pose proof (BF y x I) as X. assert (I' : inside bg y x) by (unfold inside in *; rewrite <- SH, <- SW; exact I). pose proof (BB y x I') as Y.
    unfold bytes, pixel, byte in X, Y. destruct n as [|[|[|n]]]; [tauto..|lia]. }
  destruct (qleb (1 - cs_eps) a) eqn:A1.
  - eexists. split; [reflexivity|]. split; [split; [exact P|split; reflexivity]|]. split; [split; reflexivity|]. intros y x I n Hn. rewrite !pixel_comp by exact Hn. cbn [fresh im_px].
    destruct (BC y x n I Hn) as [B1 B2]. split; [exact B1|]. apply qleb_iff in A1. split; [right; left; split; [exact A1|reflexivity]|]. split; [reflexivity|]. intros E. lra.
  - eexists. split; [reflexivity|]. split; [split; [exact P|split; reflexivity]|]. split; [split; reflexivity|]. intros y x I n Hn. rewrite !pixel_comp by exact Hn. cbn [fresh im_px].
    destruct (BC y x n I Hn) as [B1 B2]. apply blended_weighted; assumption.
Qed.
Lemma converted_bytes : forall from to c c', byte_conversions cvt gray -> bytes c -> converted cvt gray from to c c' -> bytes c'.
Proof.
  intros from to c c' (B1 & B2) B [(E & ->)|[(E & O & ->)|(E & O & ->)]]; [exact B|unfold opencv; destruct to; try (apply B1; exact B); repeat split; apply B2; exact B|].
  assert (X : bytes (cvt from RGB c)) by (apply B1; exact B). cbn [opencv]. unfold opencv. destruct to; try (apply B1; exact X); repeat split; apply B2; exact X.
Qed.
Lemma converted_image_bytes : forall from to im out, byte_conversions cvt gray -> byte_image im -> converted_image cvt gray from to im out -> byte_image out.
Proof.
  intros from to im out BC B (C & (SH & SW) & H) y x I. assert (I' : inside im y x) by (unfold inside in *; rewrite <- SH, <- SW; exact I).
  eapply converted_bytes; [exact BC|apply B; exact I'|apply H; exact I'].
Qed.
Lemma blended_form : forall from to alpha im, (1 # 1000 < alpha)%Q -> from <> to ->
  change_blended cvt gray from (Some to) alpha im = (do r <- change_colorspace cvt gray im (Some to) (Some from); let '(after, out) := r in blend_images cs_eps out after alpha).
Proof.
  intros from to alpha im A N. unfold change_blended. assert (E : qleb alpha cs_eps = false) by (apply qleb_false; exact A). rewrite E, (proj2 (cspace_eqb_false from to) N). reflexivity.
Qed.
Lemma blended_with : forall from to alpha im after out, byte_conversions cvt gray -> colored im -> byte_image im -> from <> GRAY -> from <> to -> in_unit alpha -> (1 # 1000 < alpha)%Q ->
  change_colorspace cvt gray im (Some to) (Some from) = Ok (after, out) -> converted_image cvt gray from to im out -> same_size after im -> byte_image after ->
  exists r, change_blended cvt gray from (Some to) alpha im = Ok r /\ colored r /\ same_size r im /\
    forall y x, inside im y x -> blend_of alpha (pixel out y x) (pixel after y x) (pixel r y x).
Proof.
  intros from to alpha im after out BC C B G N U A E CI S BA. rewrite (blended_form _ _ _ _ A N), E. cbn [bind].
  pose proof (converted_image_bytes _ _ _ _ BC B CI) as BO. destruct CI as (C1 & (S1 & S2) & C3). destruct S as (S3 & S4).
  destruct (blend_images_ok out after alpha) as (r & R1 & R2 & (R3 & R4) & R5); try assumption; [split; congruence|].
  exists r. split; [exact R1|]. split; [exact R2|]. split; [split; congruence|]. intros y x I. apply R5. unfold inside in *. rewrite S1, S2. exact I.
Qed.
Lemma blended_ok : forall from to alpha im, byte_conversions cvt gray -> colored im -> byte_image im -> from <> GRAY -> in_unit alpha ->
  (~ writable im \/ (to = GRAY /\ (from = RGB \/ from = BGR))) ->
  exists r, change_blended cvt gray from (Some to) alpha im = Ok r /\ colored r /\ same_size r im /\
    forall y x, inside im y x -> exists c, converted cvt gray from to (pixel im y x) c /\ blend_of alpha c (pixel im y x) (pixel r y x).
Proof.
  intros from to alpha im BC C B G U W. destruct (change_image im to from C G) as (after & out & E & CI).
  destruct (qleb alpha cs_eps) eqn:A.
  { exists im. unfold change_blended. rewrite A. split; [reflexivity|]. split; [exact C|]. split; [split; reflexivity|]. intros y x I. destruct CI as (C1 & (S1 & S2) & C3). exists (pixel out y x). split; [apply C3; exact I|].
    pose proof (B y x I) as X. intros n Hn. apply qleb_iff in A. assert (V : 0 <= comp (pixel im y x) n <= 255) by (rewrite pixel_comp by exact Hn; unfold bytes, pixel, byte in X; destruct n as [|[|[|n]]]; [tauto..|lia]).
    split; [exact V|]. split; [right; right; split; [exact A|reflexivity]|]. split; [|reflexivity]. intros E1. exfalso. rewrite E1 in A. unfold cs_eps in A. lra. }
  destruct (cspace_eqb from to) eqn:N.
  { exists im. unfold change_blended. rewrite A, N. split; [reflexivity|]. split; [exact C|]. split; [split; reflexivity|]. intros y x I. apply cspace_eqb_iff in N. subst to. exists (pixel im y x). split; [left; auto|].
    pose proof (B y x I) as X. intros n Hn. assert (V : 0 <= comp (pixel im y x) n <= 255) by (rewrite pixel_comp by exact Hn; unfold bytes, pixel, byte in X; destruct n as [|[|[|n]]]; [tauto..|lia]).
    apply blended_same; [exact V|]. discriminate. }
  apply qleb_false in A. apply cspace_eqb_false in N.
  assert (S : same_pixels after im /\ byte_image after).
  { rewrite (change_form im to from C G N) in E. injection E as EA EO.
    assert (X : after = im \/ after = fresh im (im_px im)).
    { destruct (in_place im) eqn:IP; [|left; congruence]. right. destruct W as [W|(-> & W)]; [exfalso; apply W; apply in_place_iff; exact IP|].
      rewrite <- EA. rewrite conv2_after by assumption. assert (D : direct from GRAY = true) by (destruct W; subst from; reflexivity). rewrite D. reflexivity. }
    destruct X as [-> | ->]; (split; [split; [split; reflexivity|intros; reflexivity]|]); [exact B|]. intros y x I. exact (B y x I). }
  destruct S as ((S & PX) & BA). destruct (blended_with from to alpha im after out BC C B G N U A E CI S BA) as (r & R1 & R2 & R3 & R4).
  exists r. split; [exact R1|]. split; [exact R2|]. split; [exact R3|]. intros y x I. exists (pixel out y x). split; [apply CI; exact I|]. rewrite <- PX; [apply R4; exact I|]. unfold inside in *. destruct S as (-> & ->). exact I.
Qed.
Lemma color_ext : forall c c' : color, (forall n, (n < 3)%nat -> comp c n = comp c' n) -> c = c'.
Proof. intros [[a b] d] [[a' b'] d'] H. pose proof (H 0%nat) as X. pose proof (H 1%nat) as Y. pose proof (H 2%nat) as Z. cbn in *. rewrite X, Y, Z by lia. reflexivity. Qed.
Lemma in_place_full : forall from to alpha im, byte_conversions cvt gray -> colored im -> byte_image im -> from <> GRAY -> to <> GRAY -> from <> to -> in_unit alpha -> (1 # 1000 < alpha)%Q -> writable im ->
  exists r, change_blended cvt gray from (Some to) alpha im = Ok r /\ converted_image cvt gray from to im r.
Proof.
  intros from to alpha im BC C B G G2 N U A W. pose proof (change_form im to from C G N) as E. rewrite (proj2 (in_place_iff im) W) in E.
  assert (EA : fst (conv2 from to (fresh im (im_px im))) = snd (conv2 from to (fresh im (im_px im)))) by (rewrite conv2_after by assumption; destruct to; congruence).
  rewrite EA in E. set (o := snd (conv2 from to (fresh im (im_px im)))) in *. pose proof (conv2_image from to im C G N) as CI. fold o in CI.
  pose proof (converted_image_bytes _ _ _ _ BC B CI) as BO. pose proof CI as (C1 & S & C3).
  rewrite (blended_form _ _ _ _ A N), E. cbn [bind]. unfold blend_images. rewrite !Z.eqb_refl. cbn [andb negb]. rewrite (size_bool o (proj1 C1)).
  assert (A2 : qleb alpha cs_eps = false) by (apply qleb_false; exact A).
  assert (A3 : qleb 0 alpha && qleb alpha 1 = true) by (apply andb_true_intro; split; apply qleb_iff; apply U).
  rewrite A2, A3. cbn [negb].
  assert (F : forall px, (forall y x n, inside im y x -> (n < 3)%nat -> px y x n = im_px o y x n) -> converted_image cvt gray from to im (fresh o px)).
  { intros px H. split; [split; [exact (proj1 C1)|split; reflexivity]|]. split; [exact S|]. intros y x I. assert (EP : pixel (fresh o px) y x = pixel o y x).
    { apply color_ext. intros n Hn. rewrite !pixel_comp by exact Hn. cbn [fresh im_px]. apply H; assumption. }
    rewrite EP. apply C3. exact I. }
  destruct (qleb (1 - cs_eps) alpha) eqn:A1; (eexists; split; [reflexivity|]; apply F); [reflexivity|].
  intros y x n I Hn. destruct (S) as (S1 & S2). assert (I' : inside o y x) by (unfold inside in *; rewrite S1, S2; exact I).
  pose proof (BO y x I') as X. assert (V : 0 <= im_px o y x n <= 255) by (unfold bytes, pixel, byte in X; destruct n as [|[|[|n]]]; [tauto..|lia]).
  destruct (weighted_near _ _ alpha V V U) as [W1 _]. unfold between in W1. lia.
Qed.
Lemma gray_of_other : forall from alpha im, byte_conversions cvt gray -> colored im -> byte_image im -> from <> GRAY -> from <> RGB -> from <> BGR -> in_unit alpha -> (1 # 1000 < alpha)%Q -> writable im ->
  exists r, change_blended cvt gray from (Some GRAY) alpha im = Ok r /\ colored r /\ same_size r im /\
    forall y x, inside im y x -> exists c, converted cvt gray from GRAY (pixel im y x) c /\ blend_of alpha c (cvt from RGB (pixel im y x)) (pixel r y x).
Proof.
  intros from alpha im BC C B G N1 N2 U A W. pose proof (change_form im GRAY from C G G) as E. rewrite (proj2 (in_place_iff im) W) in E.
  rewrite conv2_after in E by assumption. assert (D : direct from GRAY = false) by (destruct from; try reflexivity; congruence). rewrite D in E.
  set (o := snd (conv2 from GRAY (fresh im (im_px im)))) in *. pose proof (conv2_image from GRAY im C G G) as CI. fold o in CI.
  set (a := snd (cvt_color cvt gray from RGB (fresh im (im_px im)))) in *.
  assert (PA : forall y x, pixel a y x = cvt from RGB (pixel im y x)) by (intros y x; unfold a; rewrite cvt_color_out; reflexivity).
  destruct (blended_with from GRAY alpha im a o BC C B G G U A E CI) as (r & R1 & R2 & R3 & R4).
  - destruct (cvt_color_shape from RGB (fresh im (im_px im))) as (X & Y & _). split; [exact X|exact Y].
  - intros y x I. rewrite PA. apply BC. apply B. exact I.
  - exists r. split; [exact R1|]. split; [exact R2|]. split; [exact R3|]. intros y x I. exists (pixel o y x). split; [apply CI; exact I|]. rewrite <- PA. apply R4. exact I.
Qed.
End Conv.

(** ** Colour temperatures *)
Definition lin (r : Z -> Q) (t : Q) : Q := (r (Qfloor t) + (t - inject_Z (Qfloor t)) * (r (Qceiling t) - r (Qfloor t)))%Q.
Lemma ceil_cases : forall t, (Qceiling t = Qfloor t /\ (t == inject_Z (Qfloor t))%Q) \/ (Qceiling t = Qfloor t + 1 /\ (inject_Z (Qfloor t) < t)%Q).
Proof.
  intros t. pose proof (Qfloor_spec t) as F. pose proof (Qle_ceiling t) as C1. pose proof (Qceiling_lt t) as C2.
  destruct (Qlt_le_dec (inject_Z (Qfloor t)) t) as [L|L].
  - right. split; [|exact L].
    assert (X : (inject_Z (Qfloor t) < inject_Z (Qceiling t))%Q) by lra. apply (proj1 (inject_Z_lt _ _)) in X.
    assert (Y : (inject_Z (Qceiling t - 1) < inject_Z (Qfloor t + 1))%Q) by (rewrite (inject_Z_plus (Qfloor t) 1); change (inject_Z 1) with 1%Q; lra). apply (proj1 (inject_Z_lt _ _)) in Y. lia.
  - left. assert (E : (t == inject_Z (Qfloor t))%Q) by lra. split; [|exact E].
    assert (X : (inject_Z (Qfloor t) <= inject_Z (Qceiling t))%Q) by lra. apply (proj1 (inject_Z_le _ _)) in X.
    assert (Y : (inject_Z (Qceiling t - 1) < inject_Z (Qfloor t))%Q) by lra. apply (proj1 (inject_Z_lt _ _)) in Y. lia.
Qed.
Lemma lin_seg : forall r t j, (inject_Z j <= t)%Q -> (t <= inject_Z (j + 1))%Q ->
  (lin r t == r j + (t - inject_Z j) * (r (j + 1)%Z - r j))%Q.
Proof.
  intros r t j A B. unfold lin. pose proof (Qfloor_spec t) as F. rewrite inject_Z_plus in B. change (inject_Z 1) with 1%Q in B.
  destruct (Qlt_le_dec t (inject_Z j + 1)) as [L|L].
  - assert (E : Qfloor t = j).
    { assert (X : (inject_Z j < inject_Z (Qfloor t + 1))%Q) by (rewrite inject_Z_plus; change (inject_Z 1) with 1%Q; lra). apply (proj1 (inject_Z_lt _ _)) in X.
      assert (Y : (inject_Z (Qfloor t) < inject_Z (j + 1))%Q) by (rewrite (inject_Z_plus j); change (inject_Z 1) with 1%Q; lra). apply (proj1 (inject_Z_lt _ _)) in Y. lia. }
    destruct (ceil_cases t) as [[C D]|[C D]]; rewrite C, E in *; [|reflexivity]. rewrite D. ring.
  - assert (E : (t == inject_Z (j + 1))%Q) by (rewrite inject_Z_plus; change (inject_Z 1) with 1%Q; lra).
    assert (E2 : Qfloor t = j + 1) by (rewrite (Qfloor_comp _ _ E); apply Qfloor_Z).
    assert (E3 : Qceiling t = j + 1) by (rewrite (Qceiling_comp _ _ E); apply Qceiling_Z).
    rewrite E2, E3, E, inject_Z_plus. change (inject_Z 1) with 1%Q. ring.
Qed.
Lemma lin_between : forall r a b t, (forall i j, a <= i -> i <= j -> j <= b -> (r i <= r j)%Q) -> (inject_Z a <= t)%Q -> (t <= inject_Z b)%Q ->
  a <= Qfloor t /\ Qceiling t <= b /\ (r (Qfloor t) <= lin r t)%Q /\ (lin r t <= r (Qceiling t))%Q.
Proof.
  intros r a b t M A B. pose proof (Qfloor_spec t) as F.
  assert (FA : a <= Qfloor t). { assert (X : (inject_Z a < inject_Z (Qfloor t + 1))%Q) by (rewrite inject_Z_plus; change (inject_Z 1) with 1%Q; lra). apply (proj1 (inject_Z_lt _ _)) in X. lia. }
  assert (CB : Qceiling t <= b). { pose proof (Qceiling_lt t) as X. assert (Y : (inject_Z (Qceiling t - 1) < inject_Z b)%Q) by lra. apply (proj1 (inject_Z_lt _ _)) in Y. lia. }
  split; [exact FA|]. split; [exact CB|]. unfold lin. destruct (ceil_cases t) as [[C D]|[C D]].
  - rewrite C. split; [|]; apply Qle_lteq; right; ring.
  - assert (X : (r (Qfloor t) <= r (Qceiling t))%Q) by (apply M; lia). set (d := (t - inject_Z (Qfloor t))%Q). assert (0 <= d <= 1)%Q by (unfold d; lra).
    set (u := r (Qfloor t)) in *. set (v := r (Qceiling t)) in *. split; nra.
Qed.
Lemma lin_mono : forall r a b t t', (forall i j, a <= i -> i <= j -> j <= b -> (r i <= r j)%Q) ->
  (inject_Z a <= t)%Q -> (t <= t')%Q -> (t' <= inject_Z b)%Q -> (lin r t <= lin r t')%Q.
Proof.
  intros r a b t t' M A L B. destruct (lin_between r a b t M A ltac:(lra)) as (F1 & C1 & L1 & U1). destruct (lin_between r a b t' M ltac:(lra) B) as (F2 & C2 & L2 & U2).
  pose proof (Qfloor_resp_le _ _ L) as FF. destruct (Z.eq_dec (Qfloor t) (Qfloor t')) as [E|N].
  - destruct (ceil_cases t) as [[C D]|[C D]].
    + apply Qle_trans with (r (Qfloor t)); [rewrite <- C; exact U1|rewrite E; exact L2].
    + destruct (ceil_cases t') as [[C' D']|[C' D']]; [rewrite <- E in D'; lra|]. unfold lin. rewrite C, C', <- E.
      assert (X : (r (Qfloor t) <= r (Qfloor t + 1)%Z)%Q) by (apply M; lia). set (u := r (Qfloor t)) in *. set (v := r (Qfloor t + 1)) in *. assert (Y : (0 <= (t' - t) * (v - u))%Q) by (apply Qmult_le_0_compat; lra). lra.
  - assert (CC : Qceiling t <= Qfloor t') by (destruct (ceil_cases t) as [[C _]|[C _]]; lia).
    assert (X : (r (Qceiling t) <= r (Qfloor t'))%Q).
    { pose proof (Qfloor_spec t') as F'. apply M; [|exact CC|]. { destruct (ceil_cases t) as [[C _]|[C _]]; lia. } { destruct (ceil_cases t') as [[C _]|[C _]]; lia. } }
    lra.
Qed.
Lemma lin_opp : forall r t, (lin (fun i => - r i) t == - lin r t)%Q.
Proof. intros r t. unfold lin. ring. Qed.

(** The table. *)
Definition entry (i : Z) (n : nat) : Z := comp (nth (Z.to_nat i) table (0, 0, 0)) n.
Lemma seq_in : forall (P : nat -> bool) m i, forallb P (seq 0 m) = true -> 0 <= i < Z.of_nat m -> P (Z.to_nat i) = true.
Proof. intros P m i H I. rewrite forallb_forall in H. apply H. apply in_seq. lia. Qed.
Lemma entry_bytes : forall i n, 0 <= i <= 390 -> 0 <= entry i n <= 255.
Proof.
  intros i n I. assert (H : forallb (fun k => let '(a, b, d) := nth k table (0, 0, 0) in ((0 <=? a) && (a <=? 255)) && ((0 <=? b) && (b <=? 255)) && ((0 <=? d) && (d <=? 255))) (seq 0 391) = true) by (vm_compute; reflexivity).
  apply (seq_in _ 391 i) in H; [|lia]. cbv beta in H. unfold entry. destruct (nth (Z.to_nat i) table (0, 0, 0)) as [[a b] d]. apply andb_prop in H. destruct H as [H1 H2]. apply andb_prop in H1. destruct H1 as [H0 H1].
  apply andb_prop in H0, H1, H2. rewrite !Z.leb_le in *. unfold comp. destruct n as [|[|n]]; tauto.
Qed.
Lemma entry_steps : forall i, 0 <= i < 390 ->
  entry (i + 1) 0 <= entry i 0 /\ (i < 56 -> entry i 1 <= entry (i + 1) 1) /\ (55 <= i -> entry (i + 1) 1 <= entry i 1) /\ entry i 2 <= entry (i + 1) 2.
Proof.
  intros i I. assert (H : forallb (fun k => let '(a, b, d) := nth k table (0, 0, 0) in let '(a', b', d') := nth (S k) table (0, 0, 0) in
    (a' <=? a) && (negb (Nat.ltb k 56) || (b <=? b')) && (negb (Nat.leb 55 k) || (b' <=? b)) && (d <=? d')) (seq 0 390) = true) by (vm_compute; reflexivity).
  apply (seq_in _ 390 i) in H; [|lia]. cbv beta in H. unfold entry. replace (Z.to_nat (i + 1)) with (S (Z.to_nat i)) by lia.
  destruct (nth (Z.to_nat i) table (0, 0, 0)) as [[a b] d]. destruct (nth (S (Z.to_nat i)) table (0, 0, 0)) as [[a' b'] d']. cbn [comp].
  apply andb_prop in H. destruct H as [H H4]. apply andb_prop in H. destruct H as [H H3]. apply andb_prop in H. destruct H as [H1 H2]. rewrite Z.leb_le in *.
  split; [exact H1|]. split; [|split; [|exact H4]].
  - intros X. apply Bool.orb_prop in H2. destruct H2 as [H2|H2]; [|apply Z.leb_le; exact H2]. apply Bool.negb_true_iff, Nat.ltb_ge in H2. lia.
  - intros X. apply Bool.orb_prop in H3. destruct H3 as [H3|H3]; [|apply Z.leb_le; exact H3]. apply Bool.negb_true_iff, Nat.leb_gt in H3. lia.
Qed.
Lemma steps_mono : forall (f : Z -> Z) a b, (forall i, a <= i < b -> f i <= f (i + 1)) -> forall i j, a <= i -> i <= j -> j <= b -> f i <= f j.
Proof.
  intros f a b S i j A I. revert I. apply (Zlt_lower_bound_ind (fun j => j <= b -> f i <= f j) i); clear j. intros j IH I B.
  destruct (Z.eq_dec i j) as [->|N]; [lia|]. specialize (IH (j - 1)). specialize (S (j - 1)). replace (j - 1 + 1) with j in S by lia. lia.
Qed.
Lemma div255_le : forall a b, a <= b -> (inject_Z a / 255 <= inject_Z b / 255)%Q.
Proof. intros a b H. rewrite Zle_Qle in H. unfold Qdiv. apply Qmult_le_compat_r; [exact H|]. discriminate. Qed.
Lemma row_entry : forall i n, row i n = (inject_Z (entry i n) / 255)%Q.
Proof. reflexivity. Qed.
Lemma row_unit : forall i n, 0 <= i <= 390 -> (0 <= row i n <= 1)%Q.
Proof.
  intros i n I. rewrite row_entry. pose proof (entry_bytes i n I) as [A B]. apply div255_le in A. apply div255_le in B. assert (E0 : (inject_Z 0 / 255 == 0)%Q) by reflexivity. assert (E1 : (inject_Z 255 / 255 == 1)%Q) by reflexivity. rewrite E0 in A. rewrite E1 in B. split; assumption.
Qed.
Lemma multiplier_lin : forall k n, multiplier k n = lin (fun i => row i n) (qclip k 1000 40000 / 100 - 10)%Q.
Proof. reflexivity. Qed.
Lemma div100 : forall q, (q / 100 == q * (1 # 100))%Q.
Proof. intros q. unfold Qdiv. reflexivity. Qed.
Lemma t_range : forall k, (inject_Z 0 <= qclip k 1000 40000 / 100 - 10)%Q /\ (qclip k 1000 40000 / 100 - 10 <= inject_Z 390)%Q.
Proof. intros k. rewrite div100. assert (X := qclip_in k 1000 40000 ltac:(lra)). change (inject_Z 0) with 0%Q. change (inject_Z 390) with 390%Q. split; lra. Qed.
Lemma lin_unit : forall r t a b, (inject_Z a <= t)%Q -> (t <= inject_Z b)%Q -> (forall i, a <= i <= b -> (0 <= r i <= 1)%Q) -> (0 <= lin r t <= 1)%Q.
Proof.
  intros r t a b A B R. pose proof (Qfloor_spec t) as F.
  assert (FA : a <= Qfloor t). { assert (X : (inject_Z a < inject_Z (Qfloor t + 1))%Q) by (rewrite inject_Z_plus; change (inject_Z 1) with 1%Q; lra). apply (proj1 (inject_Z_lt _ _)) in X. lia. }
  assert (CB : Qceiling t <= b). { pose proof (Qceiling_lt t) as X. assert (Y : (inject_Z (Qceiling t - 1) < inject_Z b)%Q) by lra. apply (proj1 (inject_Z_lt _ _)) in Y. lia. }
  assert (FC : Qfloor t <= Qceiling t) by (destruct (ceil_cases t) as [[C _]|[C _]]; lia).
  pose proof (R (Qfloor t) ltac:(lia)) as X. pose proof (R (Qceiling t) ltac:(lia)) as Y. unfold lin. set (d := (t - inject_Z (Qfloor t))%Q). assert (0 <= d <= 1)%Q by (unfold d; lra).
  set (u := r (Qfloor t)) in *. set (v := r (Qceiling t)) in *.
  assert (P1 : (0 <= d * v)%Q) by (apply Qmult_le_0_compat; lra). assert (P2 : (0 <= (1 - d) * u)%Q) by (apply Qmult_le_0_compat; lra).
  assert (P3 : (0 <= d * (1 - v))%Q) by (apply Qmult_le_0_compat; lra). assert (P4 : (0 <= (1 - d) * (1 - u))%Q) by (apply Qmult_le_0_compat; lra). split; lra.
Qed.
Lemma multiplier_unit : forall k n, (0 <= multiplier k n <= 1)%Q.
Proof. intros k n. rewrite multiplier_lin. destruct (t_range k). apply (lin_unit _ _ 0 390); try assumption. intros i I. apply row_unit. exact I. Qed.
Lemma t_mono : forall k k', (k <= k')%Q -> (qclip k 1000 40000 / 100 - 10 <= qclip k' 1000 40000 / 100 - 10)%Q.
Proof. intros k k' H. rewrite !div100. assert (X : (qclip k 1000 40000 <= qclip k' 1000 40000)%Q) by (unfold qclip; qminmax; lra). lra. Qed.
Lemma row_mono : forall n a b, (forall i, a <= i < b -> entry i n <= entry (i + 1) n) -> forall i j, a <= i -> i <= j -> j <= b -> (row i n <= row j n)%Q.
Proof. intros n a b S i j A I B. rewrite !row_entry. apply div255_le. apply (steps_mono (fun i => entry i n) a b); assumption. Qed.
Lemma row_anti : forall n a b, (forall i, a <= i < b -> entry (i + 1) n <= entry i n) -> forall i j, a <= i -> i <= j -> j <= b -> (- row i n <= - row j n)%Q.
Proof.
  intros n a b S i j A I B. rewrite !row_entry. assert (X : - entry i n <= - entry j n). { apply (steps_mono (fun i => - entry i n) a b); try assumption. intros k K. specialize (S k K). lia. }
  assert (Y : entry j n <= entry i n) by lia. apply div255_le in Y. lra.
Qed.
Lemma multiplier_red : forall k k', (k <= k')%Q -> (multiplier k' 0 <= multiplier k 0)%Q.
Proof.
  intros k k' H. rewrite !multiplier_lin. pose proof (t_mono k k' H) as T. destruct (t_range k) as [A _]. destruct (t_range k') as [_ B].
  pose proof (lin_mono (fun i => - row i 0)%Q 0 390 _ _ (row_anti 0 0 390 ltac:(intros i I; apply (entry_steps i I))) A T B) as X. rewrite !(lin_opp (fun i => row i 0)) in X. lra.
Qed.
Lemma multiplier_blue : forall k k', (k <= k')%Q -> (multiplier k 2 <= multiplier k' 2)%Q.
Proof.
  intros k k' H. rewrite !multiplier_lin. pose proof (t_mono k k' H) as T. destruct (t_range k) as [A _]. destruct (t_range k') as [_ B].
  exact (lin_mono (fun i => row i 2)%Q 0 390 _ _ (row_mono 2 0 390 ltac:(intros i I; apply (entry_steps i I))) A T B).
Qed.
Lemma multiplier_green_up : forall k k', (k <= k')%Q -> (k' <= 6600)%Q -> (multiplier k 1 <= multiplier k' 1)%Q.
Proof.
  intros k k' H L. rewrite !multiplier_lin. pose proof (t_mono k k' H) as T. destruct (t_range k) as [A _].
  refine (lin_mono (fun i => row i 1)%Q 0 56 _ _ (row_mono 1 0 56 _) A T _).
  - intros i I. apply (entry_steps i); lia.
  - rewrite div100. change (inject_Z 56) with 56%Q. assert (X : (qclip k' 1000 40000 <= 6600)%Q) by (unfold qclip; qminmax; lra). lra.
Qed.
Lemma multiplier_green_down : forall k k', (6500 <= k)%Q -> (k <= k')%Q -> (multiplier k' 1 <= multiplier k 1)%Q.
Proof.
  intros k k' L H. rewrite !multiplier_lin. pose proof (t_mono k k' H) as T. destruct (t_range k') as [_ B].
  assert (A : (inject_Z 55 <= qclip k 1000 40000 / 100 - 10)%Q) by (rewrite div100; change (inject_Z 55) with 55%Q; assert (X : (6500 <= qclip k 1000 40000)%Q) by (unfold qclip; qminmax; lra); lra).
  pose proof (lin_mono (fun i => - row i 1)%Q 55 390 _ _ (row_anti 1 55 390 ltac:(intros i I; apply (entry_steps i); lia)) A T B) as X. rewrite !(lin_opp (fun i => row i 1)) in X. lra.
Qed.
Lemma qclip_same : forall k, (1000 <= k <= 40000)%Q -> (qclip k 1000 40000 == k)%Q.
Proof. intros k H. unfold qclip. qminmax; lra. Qed.
Lemma lin_compat : forall r t t', (t == t')%Q -> (lin r t == lin r t')%Q.
Proof. intros r t t' E. unfold lin. rewrite (Qfloor_comp _ _ E), (Qceiling_comp _ _ E), E. reflexivity. Qed.
Lemma multiplier_compat : forall k k' n, (k == k')%Q -> (multiplier k n == multiplier k' n)%Q.
Proof.
  intros k k' n E. rewrite !multiplier_lin. apply lin_compat. rewrite !div100. assert (X : (qclip k 1000 40000 == qclip k' 1000 40000)%Q) by (unfold qclip; qminmax; lra). lra.
Qed.
Lemma multiplier_at : forall j n, 10 <= j <= 400 -> (multiplier (inject_Z (100 * j)) n == row (j - 10) n)%Q.
Proof.
  intros j n J. rewrite multiplier_lin.
  assert (E : (qclip (inject_Z (100 * j)) 1000 40000 / 100 - 10 == inject_Z (j - 10))%Q).
  { rewrite div100, qclip_same. { rewrite inject_Z_mult. unfold Z.sub. rewrite inject_Z_plus. change (inject_Z 100) with 100%Q. change (inject_Z (-(10))) with (-10)%Q. ring. }
    change 1000%Q with (inject_Z 1000). change 40000%Q with (inject_Z 40000). rewrite <- !Zle_Qle. lia. }
  rewrite (lin_compat _ _ _ E). unfold lin. rewrite Qfloor_Z, Qceiling_Z. ring.
Qed.
Lemma multiplier_between : forall j d n, 10 <= j < 400 -> (0 <= d <= 1)%Q ->
  (multiplier (inject_Z (100 * j) + 100 * d) n == (1 - d) * multiplier (inject_Z (100 * j)) n + d * multiplier (inject_Z (100 * (j + 1))) n)%Q.
Proof.
  intros j d n J D. rewrite !multiplier_at by lia. rewrite multiplier_lin.
  assert (JQ : (1000 <= inject_Z (100 * j) <= 39900)%Q) by (change 1000%Q with (inject_Z 1000); change 39900%Q with (inject_Z 39900); rewrite <- !Zle_Qle; lia).
  assert (E : (qclip (inject_Z (100 * j) + 100 * d) 1000 40000 / 100 - 10 == inject_Z (j - 10) + d)%Q).
  { rewrite div100, qclip_same by lra. rewrite inject_Z_mult. unfold Z.sub. rewrite inject_Z_plus. change (inject_Z 100) with 100%Q. change (inject_Z (-(10))) with (-10)%Q. ring. }
  rewrite (lin_compat _ _ _ E), (lin_seg _ _ (j - 10)).
  - replace (j + 1 - 10) with (j - 10 + 1) by lia. ring.
  - lra.
  - rewrite inject_Z_plus. change (inject_Z 1) with 1%Q. lra.
Qed.
Lemma multiplier_clip : forall k n, ((k <= 1000)%Q -> (multiplier k n == multiplier 1000 n)%Q) /\ ((40000 <= k)%Q -> (multiplier k n == multiplier 40000 n)%Q).
Proof.
  intros k n. split; intros H; rewrite !multiplier_lin; apply lin_compat; rewrite !div100.
  - assert (X : (qclip k 1000 40000 == qclip 1000 1000 40000)%Q) by (unfold qclip; qminmax; lra). lra.
  - assert (X : (qclip k 1000 40000 == qclip 40000 1000 40000)%Q) by (unfold qclip; qminmax; lra). lra.
Qed.

Lemma round_scaled : forall v m, 0 <= v -> (0 <= m <= 1)%Q -> darkened m v (np_round (inject_Z v * m)).
Proof.
  intros v m V M. assert (VQ : (0 <= inject_Z v)%Q) by (change 0%Q with (inject_Z 0); rewrite <- Zle_Qle; exact V).
  assert (A : (inject_Z 0 <= inject_Z v * m)%Q) by (change (inject_Z 0) with 0%Q; apply Qmult_le_0_compat; lra).
  assert (B : (inject_Z v * m <= inject_Z v)%Q). { assert (X : (0 <= inject_Z v * (1 - m))%Q) by (apply Qmult_le_0_compat; lra). lra. }
  pose proof (np_round_mono _ _ A) as RA. pose proof (np_round_mono _ _ B) as RB. rewrite np_round_Z in RA, RB. split; [lia|].
  pose proof (np_round_near (inject_Z v * m)) as N. assert (E : (inject_Z (np_round (inject_Z v * m)) - m * inject_Z v == inject_Z (np_round (inject_Z v * m)) - inject_Z v * m)%Q) by ring. rewrite E. exact N.
Qed.
Lemma byte_comp : forall c n, bytes c -> byte (comp c n).
Proof. intros [[a b] d] n (A & B & D). destruct n as [|[|n]]; assumption. Qed.
Lemma adjusted : forall im k, im_c im = Some 3%nat -> byte_image im ->
  exists r, adjust im k = Ok r /\ im_u8 r = true /\ im_c r = Some 3%nat /\ same_size r im /\ writable r /\
    forall y x, inside im y x -> darkened_color (multiplier k) (pixel im y x) (pixel r y x).
Proof.
  intros im k C B. unfold adjust. rewrite C. eexists. split; [reflexivity|]. split; [reflexivity|]. split; [reflexivity|]. split; [split; reflexivity|]. split; [split; reflexivity|].
  intros y x I n Hn. rewrite !pixel_comp by exact Hn. cbn [fresh im_px]. pose proof (byte_comp _ n (B y x I)) as V. rewrite pixel_comp in V by exact Hn. unfold byte in V.
  destruct (round_scaled (im_px im y x n) (multiplier k n) ltac:(lia) (multiplier_unit k n)) as [D1 D2]. rewrite Z.mod_small by lia. split; assumption.
Qed.

Section Conv2.
Variable cvt : cspace -> cspace -> color -> color.
Variable gray : cspace -> color -> Z.

Lemma darkened_bytes : forall m im r, byte_image im -> same_size r im -> (forall y x, inside im y x -> darkened_color m (pixel im y x) (pixel r y x)) -> byte_image r.
Proof.
  intros m im r B (S1 & S2) D y x I. assert (I' : inside im y x) by (unfold inside in *; rewrite <- S1, <- S2; exact I).
  assert (X : forall n, (n < 3)%nat -> byte (comp (pixel r y x) n)). { intros n Hn. destruct (D y x I' n Hn) as [D1 _]. pose proof (byte_comp _ n (B y x I')) as V. unfold byte in *. lia. }
  pose proof (X 0%nat) as X0. pose proof (X 1%nat) as X1. pose proof (X 2%nat) as X2. cbn in X0, X1, X2. unfold bytes, pixel. repeat split; try apply X0; try apply X1; try apply X2; lia.
Qed.
Lemma tempered : forall im k from, byte_conversions cvt gray -> colored im -> byte_image im -> from <> GRAY ->
  exists out, temper cvt gray im k (Some from) = Ok out /\ recolored cvt gray k from im out.
Proof.
  intros im k from BC C B G. unfold temper. destruct (change_image cvt gray im RGB from C G) as (a & rgb & E & CI). rewrite E. cbn [bind snd].
  pose proof (converted_image_bytes cvt gray _ _ _ _ BC B CI) as BR. destruct CI as (CR & SR & PR).
  destruct (adjusted rgb k (proj2 (proj2 CR)) BR) as (adj & EA & U & CA & SA & W & D). rewrite EA. cbn [bind].
  assert (CC : colored adj). { split; [|split; assumption]. destruct CR as ((H1 & H2) & _). destruct SA as (S1 & S2). split; rewrite ?S1, ?S2; assumption. }
  destruct (change_image cvt gray adj from RGB CC ltac:(discriminate)) as (b & out & E2 & CO). rewrite E2. cbn [bind snd]. exists out. split; [reflexivity|].
  destruct CO as (C1 & (S1 & S2) & P1). destruct SA as (A1 & A2). destruct SR as (R1 & R2). split; [exact C1|]. split; [split; congruence|].
  intros y x I. assert (IR : inside rgb y x) by (unfold inside in *; rewrite R1, R2; exact I). assert (IA : inside adj y x) by (unfold inside in *; rewrite A1, A2; exact IR).
  exists (pixel rgb y x), (pixel adj y x). split; [apply PR; exact I|]. split; [apply D; exact IR|apply P1; exact IA].
Qed.
Lemma recolored_rgb : forall k im out, recolored cvt gray k RGB im out -> forall y x, inside im y x -> darkened_color (multiplier k) (pixel im y x) (pixel out y x).
Proof.
  intros k im out (_ & _ & H) y x I. destruct (H y x I) as (c1 & c2 & A & D & B).
  destruct A as [(_ & ->)|[(N & _)|(N & _)]]; try congruence. destruct B as [(_ & ->)|[(N & _)|(N & _)]]; try congruence. exact D.
Qed.
Lemma temper_none : forall im k from, no_pixels im -> im_c im = Some 3%nat -> exists out, temper cvt gray im k from = Ok out /\ same_size out im /\ im_c out = Some 3%nat.
Proof.
  intros im k from N C. unfold temper. rewrite change_none by exact N. cbn [bind snd]. unfold adjust. rewrite C. cbn [bind].
  rewrite change_none by exact N. cbn [bind snd]. eexists. split; [reflexivity|]. split; [split; reflexivity|reflexivity].
Qed.
Lemma kelvins_named : forall nb k l, one_each nb k l -> per_image_kelvins nb k = Ok l.
Proof.
  intros nb k l (L & [E|(s & E & F)]); subst k; cbn [per_image_kelvins].
  - rewrite L, Nat.eqb_refl. reflexivity.
  - f_equal. revert l L F. induction nb as [|nb IH]; intros [|x l] L F; try discriminate; [reflexivity|]. cbn. rewrite (F x) by (left; reflexivity). f_equal. apply IH; [cbn in L; lia|]. intros y Hy. apply F. right. exact Hy.
Qed.
Lemma kelvins_bad : forall nb k, (forall l, ~ one_each nb k l) -> per_image_kelvins nb k = Err AssertionError.
Proof.
  intros nb k H. destruct k as [l|q|]; cbn [per_image_kelvins].
  - destruct (Nat.eqb_spec (length l) nb) as [E|E]; [|reflexivity]. exfalso. apply (H l). split; [exact E|]. left. reflexivity.
  - exfalso. apply (H (repeat q nb)). split; [apply repeat_length|]. right. exists q. split; [reflexivity|]. intros x X. apply repeat_spec in X. exact X.
  - reflexivity.
Qed.
Lemma temperatures_form : forall imgs k from ks fs, imgs <> [] -> one_each (length imgs) k ks -> named (length imgs) from fs ->
  change_color_temperatures cvt gray imgs k from =
  if qleb 1000 (nth 0 ks 0%Q) && qleb (nth 0 ks 0%Q) 40000 then mapM (fun p => temper cvt gray (fst p) (fst (snd p)) (snd (snd p))) (combine imgs (combine ks fs)) else Err AssertionError.
Proof.
  intros imgs k from ks fs N K F. unfold change_color_temperatures. destruct imgs as [|im imgs]; [congruence|]. rewrite (kelvins_named _ _ _ K), (per_image_named _ _ _ F). cbn [bind].
  destruct ks as [|k0 ks]; [destruct K as [K _]; discriminate|]. cbn [nth]. destruct (_ && _); reflexivity.
Qed.
Lemma mapM_combine3 : forall {A B C D} (f : A * (B * C) -> res D) (R : A -> B -> C -> D -> Prop) la lb lc (a : A) (b : B) (c : C) (d : D), length lb = length la -> length lc = length la ->
  (forall i, (i < length la)%nat -> exists o, f (nth i la a, (nth i lb b, nth i lc c)) = Ok o /\ R (nth i la a) (nth i lb b) (nth i lc c) o) ->
  exists outs, mapM f (combine la (combine lb lc)) = Ok outs /\ length outs = length la /\ forall i, (i < length la)%nat -> R (nth i la a) (nth i lb b) (nth i lc c) (nth i outs d).
Proof.
  intros A B C D f R la. induction la as [|x la IH]; intros lb lc a b c d LB LC H.
  - exists []. split; [reflexivity|]. split; [reflexivity|]. intros i Hi. cbn in Hi. lia.
  - destruct lb as [|y lb]; [discriminate|]. destruct lc as [|z lc]; [discriminate|]. destruct (H 0%nat) as (o & O1 & O2); [cbn; lia|]. cbn in O1, O2.
    destruct (IH lb lc a b c d) as (outs & E & L & R'); [cbn in LB; lia|cbn in LC; lia| |].
    { intros i Hi. destruct (H (S i)) as (p & P1 & P2); [cbn; lia|]. exists p. split; assumption. }
    exists (o :: outs). cbn [combine]. rewrite mapM_cons, O1. cbn [bind]. rewrite E. cbn [bind]. split; [reflexivity|]. split; [cbn; lia|]. intros [|i] Hi; [exact O2|]. cbn. apply R'. cbn in Hi. lia.
Qed.

(** ** Children *)
Lemma images_ok : forall imgs to from ts fs, named (length imgs) to ts -> named (length imgs) from fs -> Forall colored imgs ->
  (forall i, (i < length imgs)%nat -> nth i ts None <> None /\ nth i fs None <> None /\ nth i fs None <> Some GRAY) ->
  exists outs, change_colorspaces cvt gray imgs to from = Ok outs /\ length outs = length imgs /\
    forall i d, (i < length imgs)%nat -> exists t f, nth i ts None = Some t /\ nth i fs None = Some f /\ converted_image cvt gray f t (nth i imgs d) (nth i outs d).
Proof.
  intros imgs to from ts fs T F C H.
  assert (X : exists outs, length outs = length imgs /\ forall i d, (i < length imgs)%nat -> exists t f a, nth i ts None = Some t /\ nth i fs None = Some f /\
            change_colorspace cvt gray (nth i imgs d) (Some t) (Some f) = Ok (a, nth i outs d) /\ converted_image cvt gray f t (nth i imgs d) (nth i outs d)).
  { destruct T as [LT _]. destruct F as [LF _]. clear to from. revert ts fs LT LF H. induction C as [|im imgs C1 C2 IH]; intros ts fs LT LF H.
    - exists []. split; [reflexivity|]. intros i d Hi. cbn in Hi. lia.
    - destruct ts as [|t ts]; [discriminate|]. destruct fs as [|f fs]; [discriminate|]. destruct (H 0%nat) as (H1 & H2 & H3); [cbn; lia|]. cbn in H1, H2, H3.
      destruct t as [t|]; [|congruence]. destruct f as [f|]; [|congruence]. destruct (change_image cvt gray im t f C1 ltac:(congruence)) as (a & o & E & CI).
      destruct (IH ts fs) as (outs & L & R); [cbn in LT; lia|cbn in LF; lia| |].
      { intros i Hi. apply (H (S i)). cbn. lia. }
      exists (o :: outs). split; [cbn; lia|]. intros [|i] d Hi; [exists t, f, a; auto|]. cbn. apply R. cbn in Hi. lia. }
  destruct X as (outs & L & R). exists outs. split; [|split; [exact L|]].
  - apply (images_form cvt gray imgs to from ts fs outs T F). split; [exact L|]. intros i d s Hi. destruct (R i d Hi) as (t & f & a & E1 & E2 & E3 & _). exists a.
    rewrite (nth_indep ts s None) by (destruct T; lia). rewrite (nth_indep fs s None) by (destruct F; lia). rewrite E1, E2. exact E3.
  - intros i d Hi. destruct (R i d Hi) as (t & f & a & E1 & E2 & E3 & E4). exists t, f. auto.
Qed.
Lemma named_one : forall nb s, named nb (NOne s) (repeat s nb).
Proof. intros nb s. split; [apply repeat_length|]. right. exists s. split; [reflexivity|]. intros x X. apply repeat_spec in X. exact X. Qed.
Lemma named_list : forall l, named (length l) (NList l) l.
Proof. intros l. split; [reflexivity|left; reflexivity]. Qed.
Lemma nth_repeat' : forall {A} (s d : A) nb i, (i < nb)%nat -> nth i (repeat s nb) d = s.
Proof. intros A s d nb. induction nb as [|nb IH]; intros [|i] H; cbn; try lia; [reflexivity|]. apply IH. lia. Qed.
Lemma images_one : forall imgs to from, Forall colored imgs -> from <> GRAY ->
  exists outs, change_colorspaces cvt gray imgs (NOne (Some to)) (NOne (Some from)) = Ok outs /\ Forall2 (converted_image cvt gray from to) imgs outs.
Proof.
  intros imgs to from C G. destruct (images_ok imgs _ _ _ _ (named_one _ (Some to)) (named_one _ (Some from)) C) as (outs & E & L & R).
  { intros i Hi. rewrite !nth_repeat' by exact Hi. repeat split; congruence. }
  exists outs. split; [exact E|]. destruct imgs as [|im0 imgs0] eqn:EI; [destruct outs; [constructor|discriminate]|]. rewrite <- EI in *.
  apply (Forall2_nth_iff _ _ _ im0 im0). split; [exact L|]. intros i Hi. destruct (R i im0 Hi) as (t & f & E1 & E2 & CI). rewrite !nth_repeat' in E1, E2 by exact Hi. injection E1 as <-. injection E2 as <-. exact CI.
Qed.
Lemma with_space : forall children to from imgs, Forall colored imgs -> from <> GRAY -> to <> GRAY ->
  exists inner, Forall2 (converted_image cvt gray from to) imgs inner /\
    (forall e, children inner = Err e -> with_colorspace cvt gray children (Some to) (Some from) imgs = Err e) /\
    (forall inner', children inner = Ok inner' -> Forall colored inner' ->
       exists outs, with_colorspace cvt gray children (Some to) (Some from) imgs = Ok outs /\ Forall2 (converted_image cvt gray to from) inner' outs).
Proof.
  intros children to from imgs C G G2. destruct (images_one imgs to from C G) as (inner & E & F). exists inner. split; [exact F|]. unfold with_colorspace. rewrite E. cbn [bind]. split.
  - intros e X. rewrite X. reflexivity.
  - intros inner' X C'. rewrite X. cbn [bind]. apply images_one; assumption.
Qed.
End Conv2.

(** ** Hue *)
Lemma hue_floor : forall a b c, 0 <= a -> 0 < b -> 0 < c -> py_int (inject_Z a / inject_Z b * inject_Z c)%Q = a * c / b.
Proof.
  intros a b c A B C. assert (BQ : (0 < inject_Z b)%Q) by (change 0%Q with (inject_Z 0); rewrite <- Zlt_Qlt; exact B).
  assert (E : (inject_Z a / inject_Z b * inject_Z c == inject_Z (a * c) / inject_Z b)%Q) by (rewrite inject_Z_mult; field; intros Z0; rewrite Z0 in BQ; discriminate BQ).
  assert (N : 0 <= a * c) by (apply Z.mul_nonneg_nonneg; lia).
  assert (P : (0 <= inject_Z (a * c) / inject_Z b)%Q) by (apply Qle_shift_div_l; [exact BQ|]; rewrite Qmult_0_l; change 0%Q with (inject_Z 0); rewrite <- Zle_Qle; exact N).
  unfold py_int. assert (L : qleb 0 (inject_Z a / inject_Z b * inject_Z c) = true) by (apply qleb_iff; rewrite E; exact P). rewrite L.
  rewrite (Qfloor_comp _ _ E).
  pose proof (Qfloor_spec (inject_Z (a * c) / inject_Z b)%Q) as F. set (f := Qfloor (inject_Z (a * c) / inject_Z b)%Q) in *.
  assert (M : (inject_Z (a * c) / inject_Z b * inject_Z b == inject_Z (a * c))%Q) by (field; intros Z0; rewrite Z0 in BQ; discriminate BQ).
  destruct F as [F1 F2].
  assert (G1 : (inject_Z (f * b) <= inject_Z (a * c))%Q) by (rewrite <- M, (inject_Z_mult f b); apply Qmult_le_compat_r; [exact F1|apply Qlt_le_weak; exact BQ]).
  assert (G2 : (inject_Z (a * c) < inject_Z ((f + 1) * b))%Q) by (rewrite <- M, (inject_Z_mult (f + 1) b), (inject_Z_plus f 1); apply Qmult_lt_compat_r; [exact BQ|exact F2]).
  apply (proj1 (inject_Z_le _ _)) in G1. apply (proj1 (inject_Z_lt _ _)) in G2. apply (Z.div_unique (a * c) b f (a * c - f * b)); [left; nia|ring].
Qed.
Lemma to_child : forall h, 0 <= h -> hue_to_child h = h * 255 / 180.
Proof. intros h H. unfold hue_to_child. exact (hue_floor h 180 255 H ltac:(lia) ltac:(lia)). Qed.
Lemma from_child : forall v, hue_from_child v = v mod 255 * 180 / 255.
Proof. intros v. unfold hue_from_child. exact (hue_floor (v mod 255) 255 180 ltac:(pose proof (Z.mod_pos_bound v 255); lia) ltac:(lia) ltac:(lia)). Qed.
Lemma from_child_angle : forall v, same_angle v (hue_from_child v) /\ 0 <= hue_from_child v <= 179.
Proof.
  intros v. rewrite from_child. pose proof (Z.mod_pos_bound v 255 ltac:(lia)) as M. pose proof (Z.div_mod v 255 ltac:(lia)) as D.
  set (m := v mod 255) in *. set (q := v / 255) in *. pose proof (Z.div_mod (m * 180) 255 ltac:(lia)) as D2. pose proof (Z.mod_pos_bound (m * 180) 255 ltac:(lia)) as M2.
  set (h := m * 180 / 255) in *. split; [|lia]. exists q. lia.
Qed.
Lemma same_angle_unique : forall v h h', same_angle v h -> same_angle v h' -> h = h'.
Proof. intros v h h' (k & A & B) (k' & A' & B'). assert (k = k') by lia. subst k'. lia. Qed.
Lemma hue_roundtrip : forall h, 0 <= h < 180 -> hue_from_child (hue_to_child h) = if h mod 12 =? 0 then h else h - 1.
Proof.
  intros h H. rewrite to_child, from_child by lia.
  assert (X : forallb (fun k => let h := Z.of_nat k in (h * 255 / 180) mod 255 * 180 / 255 =? (if h mod 12 =? 0 then h else h - 1)) (seq 0 180) = true) by (vm_compute; reflexivity).
  apply (seq_in _ 180 h) in X; [|lia]. cbv beta zeta in X. apply Z.eqb_eq in X. rewrite Z2Nat.id in X by lia. exact X.
Qed.

Section Conv3.
Variable cvt : cspace -> cspace -> color -> color.
Variable gray : cspace -> color -> Z.

Lemma hs_form : forall hsv, colored hsv -> exists hs, to_hs hsv = Ok hs /\ hue_and_saturation hsv hs.
Proof.
  intros hsv (P & U & C). unfold to_hs. rewrite C. cbn [Nat.ltb Nat.leb]. eexists. split; [reflexivity|]. split; [split; reflexivity|]. split; [reflexivity|]. intros y x I. split; [|reflexivity].
  intros H. cbn [im_px]. rewrite to_child by exact H. pose proof (Z.div_mod (im_px hsv y x 0%nat * 255) 180 ltac:(lia)) as D. pose proof (Z.mod_pos_bound (im_px hsv y x 0%nat * 255) 180 ltac:(lia)). lia.
Qed.
Lemma mapM_total : forall {A B} (f : A -> res B) (R : A -> B -> Prop) l, (forall x, In x l -> exists y, f x = Ok y /\ R x y) -> exists r, mapM f l = Ok r /\ Forall2 R l r.
Proof.
  intros A B f R l. induction l as [|x l IH]; intros H; [exists []; split; [reflexivity|constructor]|].
  destruct (H x) as (y & Y1 & Y2); [left; reflexivity|]. destruct IH as (r & R1 & R2); [intros z Z; apply H; right; exact Z|]. exists (y :: r). rewrite mapM_cons, Y1. cbn [bind]. rewrite R1. split; [reflexivity|constructor; assumption].
Qed.
Lemma from_hs_ok : forall hs hsv, colored hsv -> same_size hs hsv -> im_c hs = Some 2%nat ->
  exists o, from_hs hs hsv = Ok o /\ colored o /\ same_size o hsv /\ forall y x, hs_merged (im_px hs y x 0%nat) (im_px hs y x 1%nat) (pixel hsv y x) (pixel o y x).
Proof.
  intros hs hsv (P & U & C) (S1 & S2) C2. unfold from_hs. rewrite C, C2. cbn [Nat.ltb Nat.leb orb]. rewrite S1, S2, !Z.eqb_refl. cbn [andb negb]. eexists. split; [reflexivity|]. split; [split; [exact P|split; reflexivity]|].
  split; [split; reflexivity|]. intros y x. unfold hs_merged, pixel. cbn [fresh im_px comp]. split; [apply from_child_angle|]. split; [unfold zclip; lia|reflexivity].
Qed.
Lemma from_hs_all_ok : forall hs hsv, Forall2 (fun a b => colored b /\ same_size a b /\ im_c a = Some 2%nat) hs hsv ->
  exists outs, from_hs_all hs hsv = Ok outs /\ length outs = length hs /\ forall i d, (i < length hs)%nat -> colored (nth i outs d) /\ same_size (nth i outs d) (nth i hsv d) /\
     forall y x, hs_merged (im_px (nth i hs d) y x 0%nat) (im_px (nth i hs d) y x 1%nat) (pixel (nth i hsv d) y x) (pixel (nth i outs d) y x).
Proof.
  intros hs hsv F. induction F as [|a b hs hsv (C & S & C2) F IH].
  - exists []. split; [reflexivity|]. split; [reflexivity|]. intros i d Hi. cbn in Hi. lia.
  - destruct (from_hs_ok a b C S C2) as (o & O1 & O2). destruct IH as (outs & E & L & R). exists (o :: outs). cbn [from_hs_all]. rewrite O1. cbn [bind]. rewrite E. split; [reflexivity|]. split; [cbn; lia|].
    intros [|i] d Hi; [exact O2|]. cbn. apply R. cbn in Hi. lia.
Qed.
Lemma with_hs : forall children from imgs, Forall colored imgs -> from <> GRAY ->
  exists hsv hs, Forall2 (converted_image cvt gray from HSV) imgs hsv /\ Forall2 hue_and_saturation hsv hs /\
    (forall e, children hs = Err e -> with_hue_and_saturation cvt gray children (Some from) imgs = Err e) /\
    (forall hs', children hs = Ok hs' -> Forall2 (fun a b => same_size a b /\ im_c a = Some 2%nat) hs' imgs ->
       exists outs, with_hue_and_saturation cvt gray children (Some from) imgs = Ok outs /\ length outs = length imgs /\
         forall i d, (i < length imgs)%nat -> colored (nth i outs d) /\ same_size (nth i outs d) (nth i imgs d) /\
           forall y x, inside (nth i imgs d) y x -> exists c,
             hs_merged (im_px (nth i hs' d) y x 0%nat) (im_px (nth i hs' d) y x 1%nat) (pixel (nth i hsv d) y x) c /\
             converted cvt gray HSV from c (pixel (nth i outs d) y x)).
Proof.
  intros children from imgs C G. destruct (images_one cvt gray imgs HSV from C G) as (hsv & E & F). destruct (mapM_total to_hs hue_and_saturation hsv) as (hs & E2 & F2).
  { intros x X. apply hs_form. clear E. induction F as [|a b la lb (C1 & _) F IH]; [destruct X|]. destruct X as [<-|X]; [exact C1|]. apply IH; [inversion C; assumption|exact X]. }
  exists hsv, hs. split; [exact F|]. split; [exact F2|]. unfold with_hue_and_saturation. rewrite E. cbn [bind]. rewrite E2. cbn [bind]. split.
  - intros e X. rewrite X. reflexivity.
  - intros hs' X F3. rewrite X. cbn [bind].
    assert (F4 : Forall2 (fun a b => colored b /\ same_size a b /\ im_c a = Some 2%nat) hs' hsv).
    { clear - F F3. revert hs' F3. induction F as [|a b la lb (C1 & (S1 & S2) & _) F IH]; intros hs' F3; inversion F3 as [|u v lu lv ((T1 & T2) & C2) F4 X1 X2]; subst; constructor; [|apply IH; assumption].
      split; [exact C1|]. split; [split; congruence|exact C2]. }
    destruct (from_hs_all_ok hs' hsv F4) as (mid & E3 & L & R). rewrite E3. cbn [bind].
    assert (LM : length hs' = length imgs) by (clear - F3; induction F3; cbn; congruence).
    assert (CM : Forall colored mid). { apply Forall_forall. intros m Hm. destruct (In_nth _ _ m Hm) as (i & Hi & Hn). rewrite <- Hn. apply R. lia. }
    destruct (images_one cvt gray mid from HSV CM ltac:(discriminate)) as (outs & E4 & F5). exists outs. split; [exact E4|].
    assert (LO : length outs = length mid) by (clear - F5; induction F5; cbn; congruence). split; [lia|].
    intros i d Hi. apply (Forall2_nth_iff _ _ _ d d) in F5. destruct F5 as [_ F5]. destruct (F5 i ltac:(lia)) as (C5 & (S5 & S5') & P5). destruct (R i d ltac:(lia)) as (_ & (S6 & S6') & P6).
    apply (Forall2_nth_iff _ _ _ d d) in F. destruct F as [LH F]. destruct (F i Hi) as (_ & (S7 & S7') & _). split; [exact C5|]. split; [split; congruence|].
    intros y x I. exists (pixel (nth i mid d) y x). split; [apply P6|]. apply P5. unfold inside in *. rewrite S6, S6', S7, S7'. exact I.
Qed.

(** ** Brightness *)
Lemma channel_iff : forall s id, channel_id (Some s) = Ok id <-> brightness s id.
Proof. intros s id. unfold brightness. destruct s; cbn; split; intros H; try discriminate; try (injection H as <-); try tauto; destruct H as [[[H|[H|[H|H]]] ?]|[[H ?]|[H ?]]]; try discriminate; subst; reflexivity. Qed.
Lemma brightness_3 : forall s id, brightness s id -> (id < 3)%nat /\ s <> GRAY.
Proof. intros s id [[[H|[H|[H|H]]] ->]|[[H ->]|[H ->]]]; subst; split; try lia; discriminate. Qed.
Lemma extracted : forall im s id, colored im -> brightness s id -> exists ch, extract_channel im (Some s) = Ok ch /\ single_channel id im ch.
Proof.
  intros im s id (P & U & C) B. destruct (brightness_3 s id B) as [L _]. apply channel_iff in B. unfold extract_channel. rewrite B. cbn [bind]. rewrite C.
  assert (X : Nat.ltb id 3 = true) by (apply Nat.ltb_lt; exact L). rewrite X. eexists. split; [reflexivity|]. split; [split; reflexivity|]. split; [reflexivity|]. split; [exact U|]. intros y x _. cbn [im_px]. rewrite Nat.add_0_r. reflexivity.
Qed.
Lemma stored : forall ch im s id, colored im -> brightness s id -> same_size ch im -> im_c ch = Some 1%nat -> (forall y x, inside im y x -> byte (im_px ch y x 0%nat)) ->
  exists o, store_channel ch im (Some s) = Ok o /\ colored o /\ same_size o im /\ forall y x, inside im y x -> replaced id (im_px ch y x 0%nat) (pixel im y x) (pixel o y x).
Proof.
  intros ch im s id (P & U & C) B (S1 & S2) C1 BY. destruct (brightness_3 s id B) as [L _]. apply channel_iff in B. unfold store_channel. rewrite B. cbn [bind]. rewrite C, C1, S1, S2, !Z.eqb_refl. cbn [orb andb Nat.eqb].
  eexists. split; [reflexivity|]. split; [split; [exact P|split; [exact U|reflexivity]]|]. split; [split; reflexivity|]. intros y x I n Hn. rewrite !pixel_comp by exact Hn. cbn [im_px]. rewrite U.
  destruct (Nat.eqb_spec n id) as [E|N]; [|split; [intros; congruence|reflexivity]]. split; [|intros; congruence]. intros _.
  pose proof (BY y x I) as V. unfold byte in V. destruct I as [IY IX].
  assert (EY : (if im_h im =? 1 then 0 else y) = y) by (destruct (Z.eqb_spec (im_h im) 1); lia). assert (EX : (if im_w im =? 1 then 0 else x) = x) by (destruct (Z.eqb_spec (im_w im) 1); lia). rewrite EY, EX. apply Z.mod_small. lia.
Qed.
Lemma store_all : forall chs cvts ss (d : image), length cvts = length chs -> length ss = length chs ->
  (forall i, (i < length chs)%nat -> exists o, store_channel (nth i chs d) (nth i cvts d) (nth i ss None) = Ok o) ->
  exists outs, store_channels chs cvts ss = Ok outs /\ length outs = length chs /\ forall i, (i < length chs)%nat -> store_channel (nth i chs d) (nth i cvts d) (nth i ss None) = Ok (nth i outs d).
Proof.
  intros chs. induction chs as [|ch chs IH]; intros cvts ss d L1 L2 H.
  - destruct cvts; [|discriminate]. exists []. split; [reflexivity|]. split; [reflexivity|]. intros i Hi. cbn in Hi. lia.
  - destruct cvts as [|c cvts]; [discriminate|]. destruct ss as [|s ss]; [discriminate|]. destruct (H 0%nat) as (o & O); [cbn; lia|]. cbn in O.
    destruct (IH cvts ss d) as (outs & E & L & R); [cbn in L1; lia|cbn in L2; lia|intros i Hi; apply (H (S i)); cbn; lia|].
    exists (o :: outs). cbn [store_channels]. rewrite O. cbn [bind]. rewrite E. split; [reflexivity|]. split; [cbn; lia|]. intros [|i] Hi; [exact O|]. cbn. apply R. cbn in Hi. lia.
Qed.
Lemma mapM_nth_ok : forall {A B} (f : A -> res B) l (a : A) (b : B), (forall i, (i < length l)%nat -> exists o, f (nth i l a) = Ok o) ->
  exists r, mapM f l = Ok r /\ length r = length l /\ forall i, (i < length l)%nat -> f (nth i l a) = Ok (nth i r b).
Proof.
  intros A B f l a b. induction l as [|x l IH]; intros H; [exists []; split; [reflexivity|]; split; [reflexivity|]; intros i Hi; cbn in Hi; lia|].
  destruct (H 0%nat) as (o & O); [cbn; lia|]. cbn in O. destruct IH as (r & E & L & R); [intros i Hi; apply (H (S i)); cbn; lia|]. exists (o :: r). rewrite mapM_cons, O. cbn [bind]. rewrite E. split; [reflexivity|]. split; [cbn; lia|].
  intros [|i] Hi; [exact O|]. cbn. apply R. cbn in Hi. lia.
Qed.
Lemma with_bright : forall children from drawn imgs d, Forall colored imgs -> from <> GRAY -> length drawn = length imgs -> Forall (fun s => exists t id, s = Some t /\ brightness t id) drawn ->
  exists cvts chs, length cvts = length imgs /\ length chs = length imgs /\
    (forall i, (i < length imgs)%nat -> exists t id, nth i drawn None = Some t /\ brightness t id /\
        converted_image cvt gray from t (nth i imgs d) (nth i cvts d) /\ single_channel id (nth i cvts d) (nth i chs d)) /\
    (forall e, children chs = Err e -> with_brightness cvt gray children (Some from) drawn imgs = Err e) /\
    (forall chs', children chs = Ok chs' -> length chs' = length imgs ->
       (forall i, (i < length imgs)%nat -> same_size (nth i chs' d) (nth i imgs d) /\ im_c (nth i chs' d) = Some 1%nat /\
           forall y x, inside (nth i imgs d) y x -> byte (im_px (nth i chs' d) y x 0%nat)) ->
       exists outs, with_brightness cvt gray children (Some from) drawn imgs = Ok outs /\ length outs = length imgs /\
         forall i, (i < length imgs)%nat -> exists t id, nth i drawn None = Some t /\ brightness t id /\ colored (nth i outs d) /\ same_size (nth i outs d) (nth i imgs d) /\
           forall y x, inside (nth i imgs d) y x -> exists c,
             replaced id (im_px (nth i chs' d) y x 0%nat) (pixel (nth i cvts d) y x) c /\ converted cvt gray t from c (pixel (nth i outs d) y x)).
Proof.
  intros children from drawn imgs d C G LD V.
  assert (VN : forall i, (i < length imgs)%nat -> exists t id, nth i drawn None = Some t /\ brightness t id).
  { intros i Hi. rewrite Forall_forall in V. destruct (V (nth i drawn None)) as (t & id & E & B); [apply nth_In; lia|]. exists t, id. auto. }
  assert (ND : named (length imgs) (NList drawn) drawn) by (rewrite <- LD; apply named_list).
  destruct (images_ok cvt gray imgs (NList drawn) (NOne (Some from)) drawn _ ND (named_one _ _) C) as (cvts & E & LC & R).
  { intros i Hi. destruct (VN i Hi) as (t & id & Et & B). rewrite Et, nth_repeat' by exact Hi. repeat split; congruence. }
  assert (R' : forall i, (i < length imgs)%nat -> exists t id, nth i drawn None = Some t /\ brightness t id /\ converted_image cvt gray from t (nth i imgs d) (nth i cvts d)).
  { intros i Hi. destruct (R i d Hi) as (t & f & E1 & E2 & CI). rewrite nth_repeat' in E2 by exact Hi. injection E2 as <-. destruct (VN i Hi) as (t' & id & Et & B). rewrite E1 in Et. injection Et as <-. exists t, id. auto. }
  assert (LL : length (combine cvts drawn) = length imgs) by (rewrite combine_length; lia).
  destruct (mapM_nth_ok (fun p => extract_channel (fst p) (snd p)) (combine cvts drawn) (d, None) d) as (chs & E2 & LH & R2).
  { intros i Hi. rewrite combine_nth by lia. cbn [fst snd]. destruct (R' i ltac:(lia)) as (t & id & Et & B & (CC & _)). rewrite Et. destruct (extracted _ t id CC B) as (ch & X & _). exists ch. exact X. }
  exists cvts, chs. split; [exact LC|]. split; [lia|]. split; [|split].
  - intros i Hi. destruct (R' i Hi) as (t & id & Et & B & CI). exists t, id. split; [exact Et|]. split; [exact B|]. split; [exact CI|]. specialize (R2 i ltac:(lia)). rewrite combine_nth in R2 by lia. cbn [fst snd] in R2. rewrite Et in R2.
    destruct (extracted _ t id (proj1 CI) B) as (ch & X & Y). rewrite X in R2. injection R2 as <-. exact Y.
  - intros e X. unfold with_brightness. rewrite E. cbn [bind]. rewrite E2. cbn [bind]. rewrite X. reflexivity.
  - intros chs' X L' H. unfold with_brightness. rewrite E. cbn [bind]. rewrite E2. cbn [bind]. rewrite X. cbn [bind].
    assert (ST : forall i, (i < length imgs)%nat -> exists o t id, nth i drawn None = Some t /\ brightness t id /\ store_channel (nth i chs' d) (nth i cvts d) (nth i drawn None) = Ok o /\ colored o /\ same_size o (nth i imgs d) /\
       forall y x, inside (nth i imgs d) y x -> replaced id (im_px (nth i chs' d) y x 0%nat) (pixel (nth i cvts d) y x) (pixel o y x)).
    { intros i Hi. destruct (R' i Hi) as (t & id & Et & B & (CC & (S1 & S2) & _)). destruct (H i Hi) as ((T1 & T2) & C1 & BY).
      destruct (stored (nth i chs' d) (nth i cvts d) t id CC B ltac:(split; congruence) C1) as (o & O1 & O2 & (O3 & O3') & O4).
      { intros y x I. apply BY. unfold inside in *. rewrite <- S1, <- S2. exact I. }
      exists o, t, id. rewrite Et. split; [reflexivity|]. split; [exact B|]. split; [exact O1|]. split; [exact O2|]. split; [split; congruence|]. intros y x I. apply O4. unfold inside in *. rewrite S1, S2. exact I. }
    destruct (store_all chs' cvts drawn d ltac:(lia) ltac:(lia)) as (mid & E3 & LM & R3).
    { intros i Hi. destruct (ST i ltac:(lia)) as (o & t & id & _ & _ & O & _). exists o. exact O. }
    rewrite E3. cbn [bind].
    assert (SM : forall i, (i < length imgs)%nat -> exists t id, nth i drawn None = Some t /\ brightness t id /\ colored (nth i mid d) /\ same_size (nth i mid d) (nth i imgs d) /\
       forall y x, inside (nth i imgs d) y x -> replaced id (im_px (nth i chs' d) y x 0%nat) (pixel (nth i cvts d) y x) (pixel (nth i mid d) y x)).
    { intros i Hi. destruct (ST i Hi) as (o & t & id & Et & B & O & Q). rewrite (R3 i ltac:(lia)) in O. injection O as <-. exists t, id. split; [exact Et|]. split; [exact B|exact Q]. }
    assert (CM : Forall colored mid). { apply Forall_forall. intros m Hm. destruct (In_nth _ _ d Hm) as (i & Hi & Hn). rewrite <- Hn. destruct (SM i ltac:(lia)) as (t & id & _ & _ & Q & _). exact Q. }
    assert (NM : named (length mid) (NList drawn) drawn) by (replace (length mid) with (length drawn) by lia; apply named_list).
    destruct (images_ok cvt gray mid (NOne (Some from)) (NList drawn) _ drawn (named_one _ _) NM CM) as (outs & E4 & LO & R4).
    { intros i Hi. destruct (SM i ltac:(lia)) as (t & id & Et & B & _). destruct (brightness_3 t id B). rewrite Et, nth_repeat' by exact Hi. repeat split; congruence. }
    exists outs. split; [exact E4|]. split; [lia|]. intros i Hi. destruct (SM i Hi) as (t & id & Et & B & CC & (S1 & S2) & P). destruct (R4 i d ltac:(lia)) as (t' & f & Q1 & Q2 & (C4 & (S3 & S4) & P4)).
    rewrite nth_repeat' in Q1 by lia. injection Q1 as <-. rewrite Et in Q2. injection Q2 as <-. exists t, id. split; [exact Et|]. split; [exact B|]. split; [exact C4|]. split; [split; congruence|].
    intros y x I. exists (pixel (nth i mid d) y x). split; [apply P; exact I|]. apply P4. unfold inside in *. rewrite S1, S2. exact I.
Qed.
End Conv3.

(** ** Quantization *)
Lemma flat_nth : forall (f : Z -> list (list Z)) w, (forall y, length (f y) = w) -> forall ys i j, (j < w)%nat -> (i < length ys)%nat ->
  nth (i * w + j) (flat_map f ys) [] = nth j (f (nth i ys 0)) [].
Proof.
  intros f w L ys. induction ys as [|y ys IH]; intros i j Hj Hi; [cbn in Hi; lia|]. cbn [flat_map]. destruct i as [|i].
  - cbn [Nat.mul Nat.add nth]. rewrite app_nth1 by (rewrite L; lia). reflexivity.
  - rewrite app_nth2 by (rewrite L; lia). rewrite L. replace (S i * w + j - w)%nat with (i * w + j)%nat by lia. cbn [nth]. apply IH; [lia|cbn in Hi; lia].
Qed.
Lemma flat_len : forall (f : Z -> list (list Z)) w, (forall y, length (f y) = w) -> forall ys, length (flat_map f ys) = (length ys * w)%nat.
Proof. intros f w L ys. induction ys as [|y ys IH]; [reflexivity|]. cbn [flat_map]. rewrite app_length, L, IH. cbn. lia. Qed.
Lemma vectors_len : forall h w nc px, 0 <= h -> 0 <= w -> Z.of_nat (length (pixel_vectors h w nc px)) = h * w.
Proof.
  intros h w nc px H W. unfold pixel_vectors. rewrite (flat_len _ (Z.to_nat w)); [|intros y; rewrite map_length; unfold zrange; rewrite map_length, seq_length; reflexivity].
  unfold zrange. rewrite map_length, seq_length, Nat2Z.inj_mul, !Z2Nat.id by assumption. reflexivity.
Qed.
Lemma vectors_in : forall h w nc px y x, 0 <= y < h -> 0 <= x < w -> In (map (px y x) (seq 0 nc)) (pixel_vectors h w nc px).
Proof.
  intros h w nc px y x Y X. unfold pixel_vectors. apply in_flat_map. exists y. split; [apply in_zrange; exact Y|]. apply in_map_iff. exists x. split; [reflexivity|apply in_zrange; exact X].
Qed.
Lemma trunc_byte : forall q, (0 <= q <= 255)%Q -> 0 <= py_int q <= 255 /\ (inject_Z (py_int q) <= q)%Q /\ (q < inject_Z (py_int q) + 1)%Q.
Proof.
  intros q [A B]. destruct (py_int_nonneg q A) as (C & D & E). split; [|split; assumption]. split; [exact C|].
  assert (X : (inject_Z (py_int q) <= inject_Z 255)%Q) by (change (inject_Z 255) with 255%Q; lra). apply (proj1 (inject_Z_le _ _)) in X. exact X.
Qed.
Lemma nth_map_seq : forall {A} (f : nat -> A) n k d, (k < n)%nat -> nth k (map f (seq 0 n)) d = f k.
Proof. intros A f n k d H. rewrite (nth_indep _ d (f 0%nat)) by (rewrite map_length, seq_length; exact H). rewrite map_nth, seq_nth by exact H. reflexivity. Qed.

Section KM.
Variable km : Z -> list (list Z) -> Z -> Z -> Q -> list nat * list (list Q).
Variable rng : Type.
Variable generate_seed : rng -> Z * rng.

Lemma kmeans_ok : forall im n it eps cv g, im_u8 im = true -> 0 <= im_h im -> 0 <= im_w im -> 2 <= n <= 256 -> byte_channels im ->
  (forall seed pixels, clustering (channels im) pixels n (km seed pixels n it eps)) ->
  exists out cv' g', quantize_kmeans km rng generate_seed im n it eps cv g = Ok (out, cv', g') /\
    same_size out im /\ im_c out = im_c im /\ im_u8 out = true /\
    exists palette, Z.of_nat (length palette) <= n /\ Forall (fun c => length c = channels im /\ Forall byte c) palette /\
      forall y x, inside im y x -> In (map (im_px out y x) (seq 0 (channels im))) palette.
Proof.
  intros im n it eps cv g U H W N BY CL. unfold quantize_kmeans. rewrite U. cbn [negb].
  assert (E : (2 <=? n) && (n <=? 256) = true) by (apply andb_true_intro; split; apply Z.leb_le; lia). rewrite E. cbn [negb].
  destruct (Z.leb_spec (im_h im * im_w im) n) as [S|S].
  - exists im, cv, g. split; [reflexivity|]. split; [split; reflexivity|]. split; [reflexivity|]. split; [exact U|].
    exists (pixel_vectors (im_h im) (im_w im) (channels im) (im_px im)). split; [rewrite vectors_len by assumption; exact S|]. split.
    + apply Forall_forall. intros c Hc. unfold pixel_vectors in Hc. apply in_flat_map in Hc. destruct Hc as (y & Y & Hc). apply in_map_iff in Hc. destruct Hc as (x & <- & X). apply in_zrange in Y. apply in_zrange in X.
      split; [rewrite map_length, seq_length; reflexivity|]. apply Forall_forall. intros v Hv. apply in_map_iff in Hv. destruct Hv as (k & <- & K). apply in_seq in K. apply BY; [split; assumption|lia].
    + intros y x [Y X]. apply vectors_in; assumption.
  - fold (channels im). specialize (CL 1 (pixel_vectors (im_h im) (im_w im) (channels im) (im_px im))).
    destruct (km 1 _ n it eps) as [labels centers]. destruct (generate_seed g) as [seed g']. destruct CL as (C1 & C2 & C3 & C4). cbn [fst snd] in *.
    eexists _, seed, g'. split; [reflexivity|]. split; [split; reflexivity|]. split; [reflexivity|]. split; [reflexivity|].
    exists (map (map (fun q => py_int q mod 256)) centers). split; [rewrite map_length; lia|]. split.
    + apply Forall_forall. intros c Hc. apply in_map_iff in Hc. destruct Hc as (c0 & <- & Hc). rewrite Forall_forall in C4. destruct (C4 c0 Hc) as [L F]. split; [rewrite map_length; exact L|].
      apply Forall_forall. intros v Hv. apply in_map_iff in Hv. destruct Hv as (q & <- & Hq). unfold byte. pose proof (Z.mod_pos_bound (py_int q) 256 ltac:(lia)). lia.
    + intros y x [Y X]. cbn [im_px]. apply in_map_iff.
      set (l := nth (Z.to_nat (y * im_w im + x)) labels 0%nat).
      assert (LI : In l labels). { apply nth_In. rewrite C1. pose proof (vectors_len (im_h im) (im_w im) (channels im) (im_px im) H W) as V. assert (X2 : y * im_w im + x < im_h im * im_w im) by nia. assert (X3 : 0 <= y * im_w im) by (apply Z.mul_nonneg_nonneg; lia). lia. }
      rewrite Forall_forall in C3. specialize (C3 l LI). exists (nth l centers []). split; [|apply nth_In; exact C3].
      rewrite Forall_forall in C4. destruct (C4 (nth l centers []) (nth_In _ _ C3)) as [L _].
      apply nth_ext with (d := 0) (d' := 0); [rewrite !map_length, seq_length; exact L|]. intros k K. rewrite map_length in K. rewrite nth_map_seq by lia.
      rewrite (nth_indep _ 0 (py_int 0 mod 256)) by (rewrite map_length; exact K). rewrite (map_nth (fun q => py_int q mod 256)). reflexivity.
Qed.
Lemma kmeans_center : forall im n it eps cv g out cv' g' y x k, n < im_h im * im_w im -> quantize_kmeans km rng generate_seed im n it eps cv g = Ok (out, cv', g') ->
  (forall seed pixels, clustering (channels im) pixels n (km seed pixels n it eps)) -> inside im y x -> (k < channels im)%nat ->
  let r := km 1 (pixel_vectors (im_h im) (im_w im) (channels im) (im_px im)) n it eps in
  let q := nth k (nth (nth (Z.to_nat (y * im_w im + x)) (fst r) 0%nat) (snd r) []) 0%Q in
  (inject_Z (im_px out y x k) <= q)%Q /\ (q < inject_Z (im_px out y x k) + 1)%Q.
Proof.
  intros im n it eps cv g out cv' g' y x k S E CL [Y X] K r q. unfold quantize_kmeans in E. destruct (im_u8 im); [|discriminate]. cbn [negb] in E.
  destruct ((2 <=? n) && (n <=? 256)); [|discriminate]. cbn [negb] in E. destruct (Z.leb_spec (im_h im * im_w im) n) as [S'|S']; [lia|]. fold (channels im) in E. fold r in E.
  pose proof (CL 1 (pixel_vectors (im_h im) (im_w im) (channels im) (im_px im))) as C. fold r in C. subst q. destruct r as [labels centers]. destruct (generate_seed g) as [seed gg]. injection E as <- <- <-. destruct C as (C1 & C2 & C3 & C4). cbn [fst snd im_px] in *.
  set (l := nth (Z.to_nat (y * im_w im + x)) labels 0%nat).
  assert (LI : In l labels). { apply nth_In. rewrite C1. pose proof (vectors_len (im_h im) (im_w im) (channels im) (im_px im) ltac:(lia) ltac:(lia)) as V. assert (X2 : y * im_w im + x < im_h im * im_w im) by nia. assert (X3 : 0 <= y * im_w im) by (apply Z.mul_nonneg_nonneg; lia). lia. }
  rewrite Forall_forall in C3. specialize (C3 l LI). rewrite Forall_forall in C4. destruct (C4 (nth l centers []) (nth_In _ _ C3)) as [L F]. rewrite Forall_forall in F.
  assert (KL : (k < length (nth l centers []))%nat) by (rewrite L; exact K). specialize (F (nth k (nth l centers []) 0%Q) (nth_In _ _ KL)). destruct (trunc_byte _ F) as (A & B & C). rewrite Z.mod_small by lia. split; assumption.
Qed.
Lemma kmeans_small : forall im n it eps cv g, im_u8 im = true -> 2 <= n <= 256 -> im_h im * im_w im <= n -> quantize_kmeans km rng generate_seed im n it eps cv g = Ok (im, cv, g).
Proof.
  intros im n it eps cv g U N S. unfold quantize_kmeans. rewrite U. cbn [negb].
  assert (E : (2 <=? n) && (n <=? 256) = true) by (apply andb_true_intro; split; apply Z.leb_le; lia). rewrite E. cbn [negb].
  apply Z.leb_le in S. rewrite S. reflexivity.
Qed.
Lemma kmeans_same : forall im n it eps cv g cv' g', match quantize_kmeans km rng generate_seed im n it eps cv g, quantize_kmeans km rng generate_seed im n it eps cv' g' with
  | Ok (a, _, _), Ok (b, _, _) => a = b | Err e, Err e' => e = e' | _, _ => False end.
Proof.
  intros. unfold quantize_kmeans. destruct (negb (im_u8 im)); [reflexivity|]. destruct (negb _); [reflexivity|]. destruct (_ <=? _); [reflexivity|].
  destruct (km _ _ _ _ _) as [l c]. destruct (generate_seed g), (generate_seed g'). reflexivity.
Qed.
Lemma kmeans_err : forall im n it eps cv g e, quantize_kmeans km rng generate_seed im n it eps cv g = Err e <->
  (im_u8 im = false /\ e = ValueError) \/ (im_u8 im = true /\ (n < 2 \/ 256 < n) /\ e = AssertionError).
Proof.
  intros im n it eps cv g e. unfold quantize_kmeans. destruct (im_u8 im); cbn [negb]; [|split; [intros H; injection H as <-; auto|intros [[_ ->]|[X _]]; [reflexivity|discriminate]]].
  destruct ((2 <=? n) && (n <=? 256)) eqn:E; cbn [negb].
  - apply andb_prop in E. rewrite !Z.leb_le in E. split; [|intros [[X _]|(_ & X & _)]; [discriminate|lia]]. destruct (_ <=? _); [discriminate|]. destruct (km _ _ _ _ _). destruct (generate_seed g). discriminate.
  - apply Bool.andb_false_iff in E. rewrite !Z.leb_gt in E. split; [intros H; injection H as <-; right; split; [reflexivity|]; split; [lia|reflexivity]|]. intros [[X _]|(_ & _ & ->)]; [discriminate|reflexivity].
Qed.
End KM.

Section QU.
Variable cv2 : inter -> kind -> Z -> Z -> Z -> Z -> nat -> (Z -> Z -> nat -> Q) -> res (Z -> Z -> nat -> Q).

Lemma to_size : forall p h w ip p', imresize_single cv2 p (STup [Some (Int h); Some (Int w)]) ip = Ok p' -> p_h p' = h /\ p_w p' = w /\ p_c p' = p_c p.
Proof.
  intros p h w ip p' H. destruct (single_form cv2 p _ ip p' H) as (sz & (E & _ & _) & _ & A & B & C). injection E as E1 E2. rewrite <- E1 in A. rewrite <- E2 in B. cbn in A, B. auto.
Qed.
Lemma factor_le : forall m size v, 0 <= m -> 0 < size -> 0 <= v <= size -> m < size -> 0 <= py_int (inject_Z v * (inject_Z m / inject_Z size))%Q <= m /\ py_int (inject_Z v * (inject_Z m / inject_Z size))%Q = v * m / size.
Proof.
  intros m size v M S V L.
  assert (E : py_int (inject_Z v * (inject_Z m / inject_Z size))%Q = v * m / size).
  { destruct (Z.eq_dec v 0) as [->|N].
    - assert (X : (inject_Z 0 * (inject_Z m / inject_Z size) == 0)%Q) by (change (inject_Z 0) with 0%Q; apply Qmult_0_l).
      unfold py_int. assert (Q1 : qleb 0 (inject_Z 0 * (inject_Z m / inject_Z size)) = true) by (apply qleb_iff; rewrite X; apply Qle_refl). rewrite Q1, (Qfloor_comp _ _ X). rewrite Z.mul_0_l, Z.div_0_l by lia. reflexivity.
    - rewrite (Z.mul_comm v m), <- (hue_floor m size v) by lia.
      assert (X : (inject_Z v * (inject_Z m / inject_Z size) == inject_Z m / inject_Z size * inject_Z v)%Q) by ring.
      unfold py_int. assert (QE : qleb 0 (inject_Z v * (inject_Z m / inject_Z size)) = qleb 0 (inject_Z m / inject_Z size * inject_Z v)).
      { destruct (qleb 0 (inject_Z m / inject_Z size * inject_Z v)) eqn:Q; [apply qleb_iff in Q; apply qleb_iff; rewrite X; exact Q|apply qleb_false in Q; apply qleb_false; rewrite X; exact Q]. }
      rewrite QE, (Qfloor_comp _ _ X), (Qceiling_comp _ _ X). reflexivity. }
  rewrite E. split; [|reflexivity]. split; [apply Z.div_pos; nia|]. apply Z.div_le_upper_bound; nia.
Qed.
Lemma max_size_ok : forall m ip p s, 0 <= m -> 0 <= p_h p -> 0 <= p_w p -> ensure_max_size cv2 (Some m) ip p = Ok s -> p_h s <= m /\ p_w s <= m /\ p_c s = p_c p /\
  (Z.max (p_h p) (p_w p) <= m -> s = p) /\ (m < Z.max (p_h p) (p_w p) -> p_h s = p_h p * m / Z.max (p_h p) (p_w p) /\ p_w s = p_w p * m / Z.max (p_h p) (p_w p)).
Proof.
  intros m ip p s M H W E. unfold ensure_max_size in E. cbn zeta in E. destruct (Z.leb_spec (Z.max (p_h p) (p_w p)) m) as [L|L].
  - injection E as <-. split; [lia|]. split; [lia|]. split; [reflexivity|]. split; [reflexivity|]. lia.
  - destruct (to_size _ _ _ _ _ E) as (A & B & C). destruct (factor_le m (Z.max (p_h p) (p_w p)) (p_h p)) as [F1 F2]; try lia. destruct (factor_le m (Z.max (p_h p) (p_w p)) (p_w p)) as [G1 G2]; try lia.
    rewrite A, B. split; [lia|]. split; [lia|]. split; [exact C|]. split; [lia|]. intros _. split; assumption.
Qed.
Section Q2.
Variable quantize : pic -> Z -> res pic.
Variables to_cs from_cs : pic -> res pic.
Hypothesis Hq : forall p n q, quantize p n = Ok q -> same_shape_pic q p.
Hypothesis Ht : forall p q, to_cs p = Ok q -> same_shape_pic q p.
Hypothesis Hf : forall p q, from_cs p = Ok q -> same_shape_pic q p.

Lemma max_size_chan : forall ms ip p s, ensure_max_size cv2 ms ip p = Ok s -> p_c s = p_c p.
Proof.
  intros ms ip p s E. unfold ensure_max_size in E. destruct ms as [m|]; [|injection E as <-; reflexivity]. cbn zeta in E. destruct (_ <=? _); [injection E as <-; reflexivity|]. apply to_size in E. tauto.
Qed.
Lemma same_shape_iff : forall a b, same_shape a b = true <-> same_shape_pic b a.
Proof.
  intros a b. unfold same_shape_pic. split; [apply same_shape_eq|]. intros (A & B & C). unfold same_shape. rewrite A, B, C, !Z.eqb_refl. cbn. destruct (p_c a); [apply Nat.eqb_refl|reflexivity].
Qed.
Lemma final_shape : forall p r ip o, p_c r = p_c p -> (if same_shape p r then Ok r else imresize_single cv2 r (STup [Some (Int (p_h p)); Some (Int (p_w p))]) ip) = Ok o -> same_shape_pic o p.
Proof.
  intros p r ip o C E. destruct (same_shape p r) eqn:S; [injection E as <-; apply same_shape_iff; exact S|]. apply to_size in E. destruct E as (A & B & D). split; [exact A|]. split; [exact B|congruence].
Qed.
Lemma join_ok : forall rgb p r, p_c rgb = Some 3%nat -> join_alpha rgb p = Ok r -> p_c r = Some 4%nat /\ p_h r = p_h p /\ p_w r = p_w p /\ (forall y x, p_px r y x 3%nat = p_px p y x 3%nat) /\ (forall y x n, (n < 3)%nat -> p_px r y x n = p_px rgb y x n).
Proof.
  intros rgb p r C E. unfold join_alpha in E. destruct (_ && _) eqn:S; cbn [negb] in E; [|discriminate]. rewrite C in E. injection E as <-. apply andb_prop in S. destruct S as [S1 S2]. apply Z.eqb_eq in S1, S2. cbn [p_c p_h p_w p_px].
  split; [reflexivity|]. split; [exact S1|]. split; [exact S2|]. split; [intros; reflexivity|]. intros y x n N. apply Nat.ltb_lt in N. rewrite N. reflexivity.
Qed.
(** The steps of a successful call. *)
Lemma steps : forall ms ip n p o, quantize_image cv2 quantize to_cs from_cs ms ip n p = Ok o ->
  exists s r, ensure_max_size cv2 ms ip p = Ok s /\ same_shape_pic r s /\ (if same_shape p r then Ok r else imresize_single cv2 r (STup [Some (Int (p_h p)); Some (Int (p_w p))]) ip) = Ok o /\
   ((p_c p = Some 1%nat /\ quantize s n = Ok r) \/
    (p_c p = Some 3%nat /\ exists t q, to_cs (first_three s) = Ok t /\ quantize t n = Ok q /\ from_cs q = Ok r) \/
    (p_c p = Some 4%nat /\ exists t q b, to_cs (first_three s) = Ok t /\ quantize t n = Ok q /\ from_cs q = Ok b /\ same_shape_pic b (first_three s) /\ join_alpha b s = Ok r)).
Proof.
  intros ms ip n p o E. unfold quantize_image in E. destruct (p_c p) as [[|[|[|[|[|c]]]]]|] eqn:C; try discriminate.
  - destruct (ensure_max_size cv2 ms ip p) as [s|e] eqn:E1; [|discriminate]. cbn [bind] in E. destruct (quantize s n) as [q|e] eqn:E2; [|discriminate]. cbn [bind] in E.
    exists s, q. split; [reflexivity|]. split; [apply (Hq s n); exact E2|]. split; [exact E|]. left. auto.
  - destruct (ensure_max_size cv2 ms ip p) as [s|e] eqn:E1; [|discriminate]. cbn [bind] in E. destruct (to_cs (first_three s)) as [t|e] eqn:E2; [|discriminate]. cbn [bind] in E.
    destruct (quantize t n) as [q|e] eqn:E3; [|discriminate]. cbn [bind] in E. destruct (from_cs q) as [b|e] eqn:E4; [|discriminate]. cbn [bind Nat.eqb] in E.
    pose proof (Ht _ _ E2) as (A1 & A2 & A3). pose proof (Hq _ _ _ E3) as (B1 & B2 & B3). pose proof (Hf _ _ E4) as (D1 & D2 & D3). pose proof (max_size_chan _ _ _ _ E1) as CS. cbn in A1, A2, A3.
    exists s, b. split; [reflexivity|]. split; [split; [congruence|split; [congruence|]]; rewrite D3, B3, A3, CS, C; reflexivity|]. split; [exact E|]. right; left. split; [reflexivity|]. exists t, q. auto.
  - destruct (ensure_max_size cv2 ms ip p) as [s|e] eqn:E1; [|discriminate]. cbn [bind] in E. destruct (to_cs (first_three s)) as [t|e] eqn:E2; [|discriminate]. cbn [bind] in E.
    destruct (quantize t n) as [q|e] eqn:E3; [|discriminate]. cbn [bind] in E. destruct (from_cs q) as [b|e] eqn:E4; [|discriminate]. cbn [bind Nat.eqb] in E. destruct (join_alpha b s) as [r|e] eqn:E5; [|discriminate]. cbn [bind] in E.
    pose proof (Ht _ _ E2) as (A1 & A2 & A3). pose proof (Hq _ _ _ E3) as (B1 & B2 & B3). pose proof (Hf _ _ E4) as (D1 & D2 & D3). pose proof (max_size_chan _ _ _ _ E1) as CS. cbn in A1, A2, A3.
    assert (CB : p_c b = Some 3%nat) by congruence. destruct (join_ok _ _ _ CB E5) as (J1 & J2 & J3 & _).
    exists s, r. split; [reflexivity|]. split; [split; [exact J2|split; [exact J3|]]; rewrite J1, CS, C; reflexivity|]. split; [exact E|]. right; right. split; [reflexivity|]. exists t, q, b.
    split; [exact E2|]. split; [exact E3|]. split; [exact E4|]. split; [split; [cbn; congruence|split; [cbn; congruence|exact CB]]|exact E5].
Qed.
Lemma shape_kept : forall ms ip n p o, quantize_image cv2 quantize to_cs from_cs ms ip n p = Ok o -> same_shape_pic o p.
Proof.
  intros ms ip n p o E. destruct (steps _ _ _ _ _ E) as (s & r & E1 & (_ & _ & S) & F & _). apply (final_shape p r ip o); [|exact F]. rewrite S. apply (max_size_chan _ _ _ _ E1).
Qed.
Lemma small_kept : forall ms ip n p o, (forall m, ms = Some m -> p_h p <= m /\ p_w p <= m) -> quantize_image cv2 quantize to_cs from_cs ms ip n p = Ok o ->
  (p_c p = Some 1%nat /\ quantize p n = Ok o) \/
  (exists t q b, to_cs (first_three p) = Ok t /\ quantize t n = Ok q /\ from_cs q = Ok b /\ (forall y x c, (c < 3)%nat -> p_px o y x c = p_px b y x c) /\
     (p_c p = Some 3%nat \/ p_c p = Some 4%nat /\ forall y x, p_px o y x 3%nat = p_px p y x 3%nat)).
Proof.
  intros ms ip n p o SM E. destruct (steps _ _ _ _ _ E) as (s & r & E1 & S & F & C).
  assert (X : s = p). { unfold ensure_max_size in E1. destruct ms as [m|]; [|congruence]. destruct (SM m eq_refl). cbn zeta in E1. destruct (Z.leb_spec (Z.max (p_h p) (p_w p)) m); [congruence|lia]. }
  subst s. apply same_shape_iff in S. rewrite S in F. injection F as <-.
  destruct C as [C|[(C & t & q & A1 & A2 & A3)|(C & t & q & b & A1 & A2 & A3 & A4 & A5)]]; [left; exact C| |].
  - right. exists t, q, r. split; [exact A1|]. split; [exact A2|]. split; [exact A3|]. split; [reflexivity|left; exact C].
  - right. exists t, q, b. split; [exact A1|]. split; [exact A2|]. split; [exact A3|]. destruct (join_ok b p r) as (_ & _ & _ & J4 & J5); [apply A4|exact A5|]. split; [exact J5|]. right. split; [exact C|exact J4].
Qed.
Lemma thin : forall m ip n p, 0 <= m -> 0 < p_h p -> 0 < p_w p -> m < Z.max (p_h p) (p_w p) -> Z.min (p_h p) (p_w p) * m < Z.max (p_h p) (p_w p) ->
  exists e, quantize_image cv2 quantize to_cs from_cs (Some m) ip n p = Err e.
Proof.
  intros m ip n p M H W L T. destruct (quantize_image cv2 quantize to_cs from_cs (Some m) ip n p) as [o|e] eqn:E; [|exists e; reflexivity]. exfalso.
  destruct (steps _ _ _ _ _ E) as (s & r & E1 & (S1 & S2 & S3) & F & C). destruct (max_size_ok m ip p s M ltac:(lia) ltac:(lia) E1) as (A1 & A2 & A3 & _ & A5). destruct (A5 L) as [B1 B2].
  assert (Z0 : p_h s = 0 \/ p_w s = 0).
  { destruct (Z.le_ge_cases (p_h p) (p_w p)) as [Q|Q].
    - left. rewrite Z.max_r, Z.min_l in * by exact Q. rewrite B1. apply Z.div_small. split; [apply Z.mul_nonneg_nonneg; lia|exact T].
    - right. rewrite Z.max_l, Z.min_r in * by exact Q. rewrite B2. apply Z.div_small. split; [apply Z.mul_nonneg_nonneg; lia|exact T]. }
  assert (CH : p_c r <> Some 0%nat) by (rewrite S3, A3; destruct C as [[C _]|[[C _]|[C _]]]; rewrite C; discriminate).
  assert (NS : same_shape p r = false). { destruct (same_shape p r) eqn:X; [|reflexivity]. apply same_shape_iff in X. destruct X as (X1 & X2 & _). lia. }
  rewrite NS in F. rewrite (single_core cv2) in F. cbn [check_sizes] in F. assert (Q1 : qleb 0 (val (Int (p_h p))) && qleb 0 (val (Int (p_w p))) = true).
  { cbn [val]. apply andb_true_intro. split; apply qleb_iff; change 0%Q with (inject_Z 0); rewrite <- Zle_Qle; lia. }
  rewrite Q1 in F. cbn [bind] in F. unfold core in F. cbn [fst snd target] in F.
  assert (Q2 : (p_h p =? p_h r) && (p_w p =? p_w r) = false). { apply Bool.andb_false_iff. rewrite !Z.eqb_neq. lia. }
  rewrite Q2 in F. assert (Q3 : (p_h p =? 0) || (p_w p =? 0) = false) by (apply Bool.orb_false_iff; rewrite !Z.eqb_neq; lia).
  assert (Q4 : (p_h r =? 0) || (p_w r =? 0) = true) by (apply Bool.orb_true_iff; rewrite !Z.eqb_eq; lia).
  rewrite Q3, Q4 in F. destruct (p_c r) as [[|c]|]; [congruence| |]; cbn [orb bind] in F; discriminate.
Qed.
End Q2.
Lemma floor_scaled : forall a b m, 0 < m -> a = b / m -> a * m <= b < (a + 1) * m.
Proof. intros a b m M ->. pose proof (Z.mul_div_le b m M). pose proof (Z.mul_succ_div_gt b m M). lia. Qed.
Lemma max_size_shrunk : forall m ip p s, 0 <= m -> 0 <= p_h p -> 0 <= p_w p -> ensure_max_size cv2 (Some m) ip p = Ok s -> shrunk m p s /\ p_h s <= m /\ p_w s <= m.
Proof.
  intros m ip p s M H W E. destruct (max_size_ok m ip p s M H W E) as (A & B & _ & C & D). split; [|split; assumption]. split.
  - intros L. rewrite (C L). split; reflexivity.
  - intros L. destruct (D L) as [D1 D2]. split; apply floor_scaled; try assumption; lia.
Qed.
Lemma bounded : forall q q' to_cs from_cs m ip n p, (forall p t, to_cs p = Ok t -> same_shape_pic t p) -> 0 <= m -> 0 <= p_h p -> 0 <= p_w p ->
  (forall s, shrunk m p s -> p_h s <= m -> p_w s <= m -> q s n = q' s n) ->
  quantize_image cv2 q to_cs from_cs (Some m) ip n p = quantize_image cv2 q' to_cs from_cs (Some m) ip n p.
Proof.
  intros q q' to_cs from_cs m ip n p Ht M H W EQ. unfold quantize_image.
  assert (T : forall s t, shrunk m p s -> same_shape_pic t (first_three s) -> shrunk m p t) by (intros s t S (X & Y & _); cbn in X, Y; unfold shrunk in *; rewrite X, Y; exact S).
  destruct (p_c p) as [[|[|[|[|[|c]]]]]|]; try reflexivity.
  - destruct (ensure_max_size cv2 (Some m) ip p) as [s|e] eqn:E; [|reflexivity]. cbn [bind]. destruct (max_size_shrunk m ip p s M H W E) as (S & A & B). rewrite (EQ s S A B). reflexivity.
  - destruct (ensure_max_size cv2 (Some m) ip p) as [s|e] eqn:E; [|reflexivity]. cbn [bind]. destruct (max_size_shrunk m ip p s M H W E) as (S & A & B).
    destruct (to_cs (first_three s)) as [t|e] eqn:E2; [|reflexivity]. cbn [bind]. pose proof (Ht _ _ E2) as S2. specialize (T s t S S2). destruct S2 as (X & Y & _). cbn in X, Y. rewrite (EQ t T) by lia. reflexivity.
  - destruct (ensure_max_size cv2 (Some m) ip p) as [s|e] eqn:E; [|reflexivity]. cbn [bind]. destruct (max_size_shrunk m ip p s M H W E) as (S & A & B).
    destruct (to_cs (first_three s)) as [t|e] eqn:E2; [|reflexivity]. cbn [bind]. pose proof (Ht _ _ E2) as S2. specialize (T s t S S2). destruct S2 as (X & Y & _). cbn in X, Y. rewrite (EQ t T) by lia. reflexivity.
Qed.
End QU.
