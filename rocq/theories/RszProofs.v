(** Proofs about resizing. *)
From Coq Require Import Lia Lqa.
From Verif Require Import Prelude PreludeFacts UtilModel ConvModel ConvSpec ConvProofs RszModel RszSpec.
Local Open Scope Z_scope.

Section R.
Variable cv2 : resizer.

(** What happens to one image. *)
Definition core (k : kind) (h w : Z) (c : option nat) (sz : num * num) (ip : inter_arg) (px : Z -> Z -> nat -> Q) : res (Z -> Z -> nat -> Q) :=
  let h' := target h (fst sz) in let w' := target w (snd sz) in
  if (h' =? h) && (w' =? w) then Ok px
  else if (h' =? 0) || (w' =? 0) || (match c with Some O => true | _ => false end) then Ok (fun _ _ _ => 0%Q)
  else if (h =? 0) || (w =? 0) then Err AssertionError
  else do i <- choose h w h' w' ip; if negb (allowed i k) then Err ValueError else resize_one cv2 i k h w h' w' c px.

Lemma mapM_cons : forall {A B} (f : A -> res B) x l, mapM f (x :: l) = (do y <- f x; do r <- mapM f l; Ok (y :: r)).
Proof. reflexivity. Qed.
Lemma mapM_ok_map : forall {A B} (f : A -> B) l, mapM (fun x => Ok (f x)) l = Ok (map f l).
Proof. intros A B f l. induction l as [|x l IH]; [reflexivity|]. rewrite mapM_cons. cbn [bind map]. rewrite IH. reflexivity. Qed.
Lemma mapM_err : forall {A B} (f : A -> res B) e l, l <> [] -> (forall x, f x = Err e) -> mapM f l = Err e.
Proof. intros A B f e [|x l] H E; [congruence|]. rewrite mapM_cons, E. reflexivity. Qed.
Lemma mapM_ext : forall {A B} (f g : A -> res B) l, (forall x, In x l -> f x = g x) -> mapM f l = mapM g l.
Proof.
  intros A B f g l H. induction l as [|x l IH]; [reflexivity|]. rewrite !mapM_cons, (H x) by (left; reflexivity). rewrite IH; [reflexivity|]. intros y I1. apply H. right. exact I1.
Qed.
Lemma mapM_map' : forall {A B C} (g : A -> B) (f : B -> res C) l, mapM f (map g l) = mapM (fun x => f (g x)) l.
Proof. intros A B C g f l. induction l as [|x l IH]; [reflexivity|]. cbn [map]. rewrite !mapM_cons, IH. reflexivity. Qed.
Lemma mapM_post : forall {A B C} (f : A -> res B) (g : B -> C) l, mapM (fun x => do y <- f x; Ok (g y)) l = (do r <- mapM f l; Ok (map g r)).
Proof.
  intros A B C f g l. induction l as [|x l IH]; [reflexivity|]. rewrite !mapM_cons. destruct (f x) as [y|e]; cbn [bind]; [|reflexivity]. rewrite IH. destruct (mapM f l); reflexivity.
Qed.
Lemma mapM_bind : forall {A B S} (s : res S) (f : S -> A -> res B) l, l <> [] -> mapM (fun x => do z <- s; f z x) l = (do z <- s; mapM (f z) l).
Proof. intros A B S [s|e] f l H; cbn [bind]; [reflexivity|]. apply mapM_err; auto. Qed.

Lemma resize_array_core : forall a sz ip, s_imgs a <> [] ->
  resize_array cv2 a sz ip = (do l <- mapM (core (s_kind a) (s_h a) (s_w a) (s_c a) sz ip) (s_imgs a);
    Ok (mkStack (s_kind a) (target (s_h a) (fst sz)) (target (s_w a) (snd sz)) (s_c a) l)).
Proof.
  intros [k h w c imgs] sz ip NE. unfold resize_array. cbn [s_kind s_h s_w s_c s_imgs] in *. cbn zeta.
  assert (G : forall f g : (Z -> Z -> nat -> Q) -> res (Z -> Z -> nat -> Q), (forall px, f px = g px) -> mapM f imgs = mapM g imgs) by (intros; apply mapM_ext; auto).
  destruct ((target h (fst sz) =? h) && (target w (snd sz) =? w)) eqn:E1.
  - rewrite (G _ (fun px => Ok px)) by (intros px; unfold core; rewrite E1; reflexivity). rewrite (mapM_ok_map (fun px => px)), map_id. cbn [bind].
    apply andb_prop in E1. destruct E1 as [E1 E2]. apply Z.eqb_eq in E1, E2. rewrite E1, E2. reflexivity.
  - destruct ((target h (fst sz) =? 0) || (target w (snd sz) =? 0) || match c with Some O => true | _ => false end) eqn:E2.
    + rewrite (G _ (fun px => Ok (fun _ _ _ => 0%Q))) by (intros px; unfold core; rewrite E1, E2; reflexivity). rewrite mapM_ok_map. reflexivity.
    + destruct ((h =? 0) || (w =? 0)) eqn:E3.
      * rewrite (mapM_err _ AssertionError); [reflexivity|exact NE|]. intros px. unfold core. rewrite E1, E2, E3. reflexivity.
      * destruct (choose h w (target h (fst sz)) (target w (snd sz)) ip) as [i|e] eqn:E4; cbn [bind].
        -- destruct (negb (allowed i k)) eqn:E5.
           ++ rewrite (mapM_err _ ValueError); [reflexivity|exact NE|]. intros px. unfold core. rewrite E1, E2, E3, E4. cbn [bind]. rewrite E5. reflexivity.
           ++ rewrite (G _ (core k h w c sz ip)); [reflexivity|]. intros px. unfold core. rewrite E1, E2, E3, E4. cbn [bind]. rewrite E5. reflexivity.
        -- rewrite (mapM_err _ e); [reflexivity|exact NE|]. intros px. unfold core. rewrite E1, E2, E3, E4. reflexivity.
Qed.
Lemma core_gray : forall k h w sz ip px, core k h w (Some 1%nat) sz ip px = core k h w None sz ip px.
Proof. reflexivity. Qed.
Lemma single_core : forall p s ip, imresize_single cv2 p s ip =
  (do sz <- check_sizes s; do px <- core (p_kind p) (p_h p) (p_w p) (p_c p) sz ip (p_px p);
   Ok (mkPic (p_kind p) (target (p_h p) (fst sz)) (target (p_w p) (snd sz)) (p_c p) px)).
Proof.
  intros [k h w c px] s ip. unfold imresize_single. cbn [p_kind p_h p_w p_c p_px imresize_many]. destruct (check_sizes s) as [sz|e]; cbn [bind]; [|reflexivity].
  rewrite resize_array_core by discriminate. cbn [s_kind s_h s_w s_c s_imgs]. rewrite mapM_cons.
  destruct c as [n|]; [|rewrite core_gray].
  - destruct (core k h w (Some n) sz ip px); reflexivity.
  - destruct (core k h w None sz ip px); reflexivity.
Qed.
Lemma resize_alone_single : forall p s ip, (do sz <- check_sizes s; resize_alone cv2 sz ip p) = imresize_single cv2 p s ip.
Proof.
  intros [k h w c px] s ip. rewrite single_core. destruct (check_sizes s) as [sz|e]; cbn [bind]; [|reflexivity]. unfold resize_alone.
  rewrite resize_array_core by (cbn; discriminate). cbn [stacked s_kind s_h s_w s_c s_imgs map fold_left p_kind p_h p_w p_c p_px]. rewrite mapM_cons. destruct (core k h w c sz ip px); reflexivity.
Qed.
Lemma same_shape_eq : forall a b, same_shape a b = true -> p_h b = p_h a /\ p_w b = p_w a /\ p_c b = p_c a.
Proof.
  intros a b H. unfold same_shape in H. apply andb_prop in H. destruct H as [H H3]. apply andb_prop in H. destruct H as [H1 H2]. apply Z.eqb_eq in H1, H2.
  split; [congruence|]. split; [congruence|]. destruct (p_c a), (p_c b); try discriminate; [|reflexivity]. apply Nat.eqb_eq in H3. congruence.
Qed.
Lemma promote_same : forall k, promote k k = k.
Proof. intros [|b|b|b]; cbn; rewrite ?Z.max_id; reflexivity. Qed.
Lemma promote_all : forall l k, (forall p, In p l -> p_kind p = k) -> fold_left promote (map p_kind l) k = k.
Proof.
  induction l as [|p l IH]; intros k H; [reflexivity|]. cbn. rewrite (H p) by (left; reflexivity). rewrite promote_same. apply IH. intros q I1. apply H. right. exact I1.
Qed.
(** A list of images of one dtype, or of different shapes. *)
Lemma many_is_single : forall l s ip, (exists k, forall p, In p l -> p_kind p = k) \/ (exists p q, In p l /\ In q l /\ same_shape p q = false) ->
  imresize_many cv2 (IList l) s ip = (do l' <- mapM (fun p => imresize_single cv2 p s ip) l; Ok (IList l')).
Proof.
  intros [|p r] s ip H; [reflexivity|]. cbn [imresize_many].
  assert (E : mapM (fun q => imresize_single cv2 q s ip) (p :: r) = (do sz <- check_sizes s; mapM (resize_alone cv2 sz ip) (p :: r))).
  { rewrite <- mapM_bind by discriminate. apply mapM_ext. intros q _. symmetry. apply resize_alone_single. }
  rewrite E. destruct (check_sizes s) as [sz|e]; cbn [bind]; [|reflexivity]. destruct (forallb (same_shape p) r) eqn:F; [|reflexivity].
  rewrite forallb_forall in F.
  assert (HK : forall q, In q (p :: r) -> p_kind q = p_kind p).
  { destruct H as [(k & H)|(a & b & Ia & Ib & H)].
    - intros q I1. rewrite (H q I1), (H p) by (left; reflexivity). reflexivity.
    - exfalso. assert (S1 : forall q, In q (p :: r) -> p_h q = p_h p /\ p_w q = p_w p /\ p_c q = p_c p).
      { intros q [<-|I1]; [auto|]. apply same_shape_eq. apply F. exact I1. }
      destruct (S1 a Ia) as (A1 & A2 & A3), (S1 b Ib) as (B1 & B2 & B3). unfold same_shape in H. rewrite A1, A2, A3, B1, B2, B3, !Z.eqb_refl in H.
      destruct (p_c p); [rewrite Nat.eqb_refl in H|]; discriminate. }
  rewrite resize_array_core by (cbn; discriminate). unfold stacked. cbn [s_kind s_h s_w s_c s_imgs].
  rewrite promote_all by (intros q I1; apply HK; right; exact I1). rewrite mapM_map'.
  assert (R : mapM (resize_alone cv2 sz ip) (p :: r) = (do l <- mapM (fun x => core (p_kind p) (p_h p) (p_w p) (p_c p) sz ip (p_px x)) (p :: r);
    Ok (map (mkPic (p_kind p) (target (p_h p) (fst sz)) (target (p_w p) (snd sz)) (p_c p)) l))).
  { rewrite <- mapM_post. apply mapM_ext. intros q I1. assert (S1 : p_h q = p_h p /\ p_w q = p_w p /\ p_c q = p_c p) by (destruct I1 as [<-|I1]; [auto|apply same_shape_eq, F; exact I1]).
    destruct S1 as (A1 & A2 & A3). pose proof (HK q I1) as A4. unfold resize_alone. rewrite resize_array_core by (cbn; discriminate). cbn [stacked s_kind s_h s_w s_c s_imgs map fold_left].
    rewrite mapM_cons, A1, A2, A3, A4. destruct (core (p_kind p) (p_h p) (p_w p) (p_c p) sz ip (p_px q)); reflexivity. }
  rewrite R. destruct (mapM (fun x => core (p_kind p) (p_h p) (p_w p) (p_c p) sz ip (p_px x)) (p :: r)) as [l|e]; [|reflexivity]. reflexivity.
Qed.
Lemma array_is_single : forall a s ip, (do r <- imresize_many cv2 (IArr a) s ip; match r with IArr a' => Ok (unstacked a') | _ => Err IndexError end) =
  mapM (fun p => imresize_single cv2 p s ip) (unstacked a).
Proof.
  intros [k h w c imgs] s ip. destruct imgs as [|px imgs]; [reflexivity|]. cbn [imresize_many].
  assert (E : mapM (fun q => imresize_single cv2 q s ip) (unstacked (mkStack k h w c (px :: imgs))) =
    (do sz <- check_sizes s; do l <- mapM (core k h w c sz ip) (px :: imgs); Ok (map (mkPic k (target h (fst sz)) (target w (snd sz)) c) l))).
  { unfold unstacked. cbn [s_kind s_h s_w s_c s_imgs]. rewrite mapM_map'.
    erewrite mapM_ext; [|intros q _; rewrite single_core; reflexivity]. cbn [p_kind p_h p_w p_c p_px].
    rewrite (mapM_bind (check_sizes s) (fun sz px0 => do px <- core k h w c sz ip px0; Ok (mkPic k (target h (fst sz)) (target w (snd sz)) c px))) by discriminate.
    destruct (check_sizes s) as [sz|e]; cbn [bind]; [|reflexivity]. apply mapM_post. }
  rewrite E. destruct (check_sizes s) as [sz|e]; cbn [bind]; [|reflexivity]. rewrite resize_array_core by (cbn; discriminate). cbn [s_kind s_h s_w s_c s_imgs].
  destruct (mapM (core k h w c sz ip) (px :: imgs)); reflexivity.
Qed.

(** ** Values *)
Lemma pre_value : forall i k q, allowed i k = true -> value_of k q -> value_of (pre_kind i k) (pre k q).
Proof.
  intros i k q HA H. destruct k as [|b|b|b]; cbn [pre_kind pre].
  - destruct H as [H|H]; [exists 0|exists 255]; (split; [rewrite H; reflexivity|change (2 ^ 8 - 1) with 255; lia]).
  - exact H.
  - assert (X : value_of (KInt b) q -> value_of (if b =? 8 then KInt 16 else KInt b) q).
    { intros X. destruct (Z.eqb_spec b 8) as [->|N]; [|exact X]. destruct X as (z & E & B). exists z. split; [exact E|]. change (2 ^ (8 - 1)) with 128 in B. change (2 ^ (16 - 1)) with 32768. lia. }
    destruct i; auto.
  - destruct (Z.eqb_spec b 16) as [->|N]; [apply value_float; exact Logic.I|destruct i; exact H].
Qed.
Lemma post_value : forall i k q, allowed i k = true -> value_of (pre_kind i k) q -> value_of k (post i k q).
Proof.
  intros i k q HA H. destruct k as [|b|b|b]; cbn [pre_kind post] in *.
  - destruct (qltb 127 q); [right|left]; reflexivity.
  - exact H.
  - assert (X : value_of (if b =? 8 then KInt 16 else KInt b) q -> value_of (KInt b) (if b =? 8 then qclip q (-128) 127 else q)).
    { intros X. destruct (Z.eqb_spec b 8) as [->|N]; [|exact X]. destruct X as (z & E & B). exists (zclip z (-128) 127).
      split; [rewrite (qclip_compat q (inject_Z z)) by exact E; change (-128)%Q with (inject_Z (-128)); change 127%Q with (inject_Z 127); apply qclip_Z|].
      change (2 ^ (8 - 1)) with 128. unfold zclip. lia. }
    destruct i; auto.
  - destruct (Z.eqb_spec b 16) as [->|N]; [|exact H]. apply value_float. cbn [Z.eqb Pos.eqb]. apply qclip_in. lra.
Qed.
(** Restoring undoes the conversion. *)
Lemma post_pre : forall i k q q', value_of k q -> (q' == pre k q)%Q -> (post i k q' == q)%Q.
Proof.
  intros i k q q' H E. destruct k as [|b|b|b]; cbn [post pre] in *.
  - assert (X : (q' == 0)%Q \/ (q' == 255)%Q) by (destruct H as [H|H]; rewrite E, H; [left|right]; reflexivity).
    destruct (qltb 127 q') eqn:T; [apply qltb_iff in T|apply qltb_false in T]; destruct H as [H|H]; rewrite H in *; try reflexivity; rewrite E in T; lra.
  - exact E.
  - assert (X : ((if b =? 8 then qclip q' (-128) 127 else q') == q)%Q).
    { destruct (Z.eqb_spec b 8) as [->|N]; [|exact E]. rewrite (qclip_compat q' q) by exact E. destruct H as (z & Ez & B). change (2 ^ (8 - 1)) with 128 in B.
      rewrite (qclip_compat q (inject_Z z)) by exact Ez. change (-128)%Q with (inject_Z (-128)). change 127%Q with (inject_Z 127). rewrite qclip_Z, zclip_in by lia. symmetry. exact Ez. }
    destruct i; auto.
  - assert (X : ((if b =? 16 then qclip q' (-65504) 65504 else q') == q)%Q).
    { apply value_float in H. destruct (b =? 16); [|exact E]. rewrite (qclip_compat q' q) by exact E. rewrite qclip_id; [reflexivity|apply H|apply H]. }
    destruct i; exact X.
Qed.
Lemma post_mono : forall i k a b, (a <= b)%Q -> (post i k a <= post i k b)%Q.
Proof.
  intros i k a b H. destruct k as [|n|n|n]; cbn [post].
  - destruct (qltb 127 a) eqn:E1, (qltb 127 b) eqn:E2; try apply qltb_iff in E1; try apply qltb_false in E1; try apply qltb_iff in E2; try apply qltb_false in E2; lra.
  - exact H.
  - destruct i; try exact H; destruct (n =? 8); try exact H; apply qclip_mono; exact H.
  - destruct i; destruct (n =? 16); try exact H; apply qclip_mono; exact H.
Qed.
Lemma post_compat : forall i k a b, (a == b)%Q -> (post i k a == post i k b)%Q.
Proof. intros i k a b H. apply Qle_antisym; apply post_mono; rewrite H; apply Qle_refl. Qed.

(** One image. *)
Lemma mapM_nth : forall {A B} (f : A -> res B) l, (forall x, In x l -> exists y, f x = Ok y) ->
  exists r, mapM f l = Ok r /\ length r = length l /\ forall n x d, nth_error l n = Some x -> f x = Ok (nth n r d).
Proof.
  intros A B f l H. induction l as [|x l IH].
  - exists []. split; [reflexivity|]. split; [reflexivity|]. intros [|n] x d E; discriminate E.
  - destruct (H x) as (y & Ey); [left; reflexivity|]. destruct IH as (r & Er & L & N); [intros z I1; apply H; right; exact I1|].
    exists (y :: r). rewrite mapM_cons, Ey. cbn [bind]. rewrite Er. split; [reflexivity|]. split; [cbn; rewrite L; reflexivity|].
    intros [|n] z d E; cbn in *; [injection E as <-; exact Ey|]. apply N. exact E.
Qed.
Lemma resize_one_ok : forall i k h w h' w' c px, resizes cv2 -> allowed i k = true -> 0 < h -> 0 < w -> 0 < h' -> 0 < w' -> c <> Some 0%nat ->
  (forall y x j, 0 <= y < h -> 0 <= x < w -> (j < match c with None => 1%nat | Some n => n end)%nat -> value_of k (px y x j)) ->
  exists out, resize_one cv2 i k h w h' w' c px = Ok out /\
    forall y x j, 0 <= y < h' -> 0 <= x < w' -> (j < match c with None => 1%nat | Some n => n end)%nat ->
      value_of k (out y x j) /\
      exists out1, cv2 i (pre_kind i k) h w h' w' 1%nat (fun y x _ => pre k (px y x j)) = Ok out1 /\ (out y x j == post i k (out1 y x 0%nat))%Q.
Proof.
  intros i k h w h' w' c px HC HA Hh Hw Hh' Hw' Nc HV. unfold resize_one. set (n := match c with None => 1%nat | Some n => n end) in *. cbn zeta.
  assert (Nn : (0 < n)%nat) by (unfold n; destruct c as [[|m]|]; [congruence|lia|lia]).
  assert (HV' : forall y x j, 0 <= y < h -> 0 <= x < w -> (j < n)%nat -> value_of (pre_kind i k) (pre k (px y x j))) by (intros; apply pre_value; auto).
  destruct (Nat.ltb_spec 512 n) as [L|L].
  - assert (G : forall j, In j (seq 0 n) -> exists out1, cv2 i (pre_kind i k) h w h' w' 1%nat (fun y x _ => pre k (px y x j)) = Ok out1).
    { intros j Ij. apply in_seq in Ij. destruct (HC i (pre_kind i k) h w h' w' 1%nat (fun y x _ => pre k (px y x j)) Hh Hw Hh' Hw' ltac:(lia) ltac:(intros y x j0 Hy Hx _; apply HV'; auto; lia)) as (o & Eo & _). exists o. exact Eo. }
    destruct (mapM_nth _ _ G) as (r & Er & Lr & Nr). rewrite Er. cbn [bind]. eexists. split; [reflexivity|]. intros y x j Hy Hx Hj. cbn beta.
    assert (Ej : nth_error (seq 0 n) j = Some j) by (rewrite (nth_error_nth' _ 0%nat) by (rewrite seq_length; exact Hj); rewrite seq_nth by exact Hj; reflexivity).
    pose proof (Nr j j (fun _ _ _ => 0%Q) Ej) as Eo. destruct (HC i (pre_kind i k) h w h' w' 1%nat (fun y x _ => pre k (px y x j)) Hh Hw Hh' Hw' ltac:(lia) ltac:(intros; apply HV'; auto)) as (o & Eo2 & V).
    rewrite Eo in Eo2. injection Eo2 as Eo2. split; [apply post_value; [exact HA|]; rewrite Eo2; apply V; auto|]. eexists. split; [exact Eo|]. reflexivity.
  - destruct (HC i (pre_kind i k) h w h' w' n (fun y x j => pre k (px y x j)) Hh Hw Hh' Hw' ltac:(lia) HV') as (o & Eo & V). rewrite Eo. cbn [bind]. eexists. split; [reflexivity|].
    intros y x j Hy Hx Hj. destruct (V y x j Hy Hx Hj) as (V1 & o1 & E1 & V2). split; [apply post_value; auto|]. exists o1. split; [exact E1|]. apply post_compat. exact V2.
Qed.

(** ** Requests *)
Lemma check_request : forall s sz, check_sizes s = Ok sz <-> request s sz.
Proof.
  intros s [a b]. unfold check_sizes, request. destruct s as [n|l].
  - destruct (qleb (val n) 0) eqn:E; [apply qleb_iff in E|apply qleb_false in E].
    + split; [discriminate|]. intros [H _]. lra.
    + split; [intros H; injection H as <- <-; auto|]. intros [_ H]. congruence.
  - cbn [fst snd]. split.
    + intros H. destruct l as [|[x|] [|[y|] [|z l]]]; try discriminate. destruct (qleb 0 (val x)) eqn:E1; [|discriminate]. destruct (qleb 0 (val y)) eqn:E2; [|discriminate].
      apply qleb_iff in E1, E2. cbn in H. injection H as <- <-. auto.
    + intros (-> & H1 & H2). apply qleb_iff in H1, H2. rewrite H1, H2. reflexivity.
Qed.
Lemma request_nonneg : forall s sz, request s sz -> (0 <= val (fst sz))%Q /\ (0 <= val (snd sz))%Q.
Proof. intros [n|l] [a b] H; cbn in *; [destruct H as [H E]; injection E as -> ->; split; lra|tauto]. Qed.
Lemma target_nonneg : forall side n, 0 <= side -> (0 <= val n)%Q -> 0 <= target side n.
Proof.
  intros side [z|q] Hs H; cbn in *; [apply (proj1 (inject_Z_le 0 z)); exact H|]. change 0 with (np_round (inject_Z 0)). apply np_round_mono.
  apply Qmult_le_0_compat; [apply (inject_Z_le 0); exact Hs|exact H].
Qed.
Lemma target_requested : forall side n s', requested side n s' <-> s' = target side n.
Proof. intros side [z|q] s'; cbn; tauto. Qed.
Lemma choose_ok : forall p h' w' ip i, choose (p_h p) (p_w p) h' w' ip = Ok i <-> interpolation_for p h' w' ip i.
Proof.
  intros p h' w' [[j|]|] i; cbn [choose interpolation_for].
  - split; [congruence|intros ->; reflexivity].
  - split; [discriminate|tauto].
  - destruct (Z.ltb_spec (p_h p) h'), (Z.ltb_spec (p_w p) w'); cbn [orb]; split; intros X; try (injection X as <-; lia || tauto); try (destruct X as [[-> X]|[-> X]]; try reflexivity; lia).
    all: try (injection X as <-). all: try (left; split; [reflexivity|lia]). all: right; split; [reflexivity|lia].
Qed.
Lemma allowed_resizable : forall i k, allowed i k = true <-> resizable i k.
Proof.
  intros i k. unfold resizable. split.
  - destruct k as [|b|b|b]; cbn [allowed]; intros H.
    + left. left. reflexivity.
    + left. apply orb_prop in H. destruct H as [H|H]; apply Z.eqb_eq in H; subst b; cbn; tauto.
    + apply orb_prop in H. destruct H as [H|H]; [left; apply orb_prop in H; destruct H as [H|H]; apply Z.eqb_eq in H; subst b; cbn; tauto|].
      apply andb_prop in H. destruct H as [H H2]. apply Z.eqb_eq in H. subst b. right. destruct i; try discriminate. auto.
    + left. apply orb_prop in H. destruct H as [H|H]; [apply orb_prop in H; destruct H as [H|H]|]; apply Z.eqb_eq in H; subst b; cbn; tauto.
  - intros [H|[-> ->]]; [|reflexivity]. cbn in H. repeat (destruct H as [<-|H]; [reflexivity|]). destruct H.
Qed.
(** The cases of resizing one image. *)
Lemma core_cases : forall p s sz ip, proper_pic p -> request s sz ->
  let h' := target (p_h p) (fst sz) in let w' := target (p_w p) (snd sz) in
  (h' = p_h p /\ w' = p_w p /\ imresize_single cv2 p s ip = Ok (mkPic (p_kind p) (p_h p) (p_w p) (p_c p) (p_px p))) \/
  (~ (h' = p_h p /\ w' = p_w p) /\ (h' = 0 \/ w' = 0 \/ chans p = 0%nat) /\ imresize_single cv2 p s ip = Ok (mkPic (p_kind p) h' w' (p_c p) (fun _ _ _ => 0%Q))) \/
  (must_compute p h' w' /\ (p_h p = 0 \/ p_w p = 0) /\ imresize_single cv2 p s ip = Err AssertionError) \/
  (must_compute p h' w' /\ 0 < p_h p /\ 0 < p_w p /\ ip = Some None /\ imresize_single cv2 p s ip = Err AssertionError) \/
  (exists i, must_compute p h' w' /\ 0 < p_h p /\ 0 < p_w p /\ interpolation_for p h' w' ip i /\ ~ resizable i (p_kind p) /\ imresize_single cv2 p s ip = Err ValueError) \/
  (exists i, must_compute p h' w' /\ 0 < p_h p /\ 0 < p_w p /\ 0 < h' /\ 0 < w' /\ interpolation_for p h' w' ip i /\ resizable i (p_kind p) /\
     imresize_single cv2 p s ip = (do px <- resize_one cv2 i (p_kind p) (p_h p) (p_w p) h' w' (p_c p) (p_px p); Ok (mkPic (p_kind p) h' w' (p_c p) px))).
Proof.
  intros p s sz ip (P1 & P2 & _) HR h' w'. pose proof (proj2 (check_request s sz) HR) as HC. destruct (request_nonneg s sz HR) as [R1 R2].
  pose proof (target_nonneg (p_h p) (fst sz) P1 R1) as T1. pose proof (target_nonneg (p_w p) (snd sz) P2 R2) as T2. fold h' in T1. fold w' in T2.
  rewrite single_core, HC. cbn [bind]. unfold core. fold h' w'. cbn zeta.
  destruct (Z.eqb_spec h' (p_h p)) as [E1|E1]; [destruct (Z.eqb_spec w' (p_w p)) as [E2|E2]|]; cbn [andb].
  { left. split; [exact E1|]. split; [exact E2|]. cbn [bind]. rewrite E1, E2. reflexivity. }
  all: right; assert (NS : ~ (h' = p_h p /\ w' = p_w p)) by tauto.
  all: assert (MC : h' <> 0 -> w' <> 0 -> (match p_c p with Some O => true | _ => false end) = false -> must_compute p h' w')
    by (intros A B C; split; [exact NS|]; split; [exact A|]; split; [exact B|]; unfold chans; destruct (p_c p) as [[|m]|]; [discriminate|lia|lia]).
  all: destruct (Z.eqb_spec h' 0) as [Z1|Z1]; [left; split; [exact NS|]; split; [tauto|reflexivity]|].
  all: destruct (Z.eqb_spec w' 0) as [Z2|Z2]; [left; split; [exact NS|]; split; [tauto|reflexivity]|]; cbn [orb].
  all: destruct (match p_c p with Some O => true | _ => false end) eqn:Z3; [left; split; [exact NS|]; split; [right; right; unfold chans; destruct (p_c p) as [[|m]|]; try discriminate; reflexivity|reflexivity]|].
  all: specialize (MC Z1 Z2 eq_refl); right.
  all: destruct (Z.eqb_spec (p_h p) 0) as [Y1|Y1]; [left; split; [exact MC|]; split; [tauto|reflexivity]|].
  all: destruct (Z.eqb_spec (p_w p) 0) as [Y2|Y2]; [left; split; [exact MC|]; split; [tauto|reflexivity]|]; cbn [orb]; right.
  all: assert (Q1 : 0 < p_h p) by lia; assert (Q2 : 0 < p_w p) by lia.
  all: destruct (choose (p_h p) (p_w p) h' w' ip) as [i|e] eqn:EC; cbn [bind].
  all: try (left; split; [exact MC|]; split; [exact Q1|]; split; [exact Q2|]; destruct ip as [[j|]|]; cbn in EC; try discriminate; injection EC as <-; split; reflexivity).
  all: right; apply choose_ok in EC; destruct (allowed i (p_kind p)) eqn:EA; cbn [negb].
  all: try (left; exists i; split; [exact MC|]; split; [exact Q1|]; split; [exact Q2|]; split; [exact EC|]; split; [|reflexivity]; intros X; apply allowed_resizable in X; congruence).
  all: right; exists i; apply allowed_resizable in EA; split; [exact MC|]; split; [exact Q1|]; split; [exact Q2|]; split; [lia|]; split; [lia|]; split; [exact EC|]; split; [exact EA|]; reflexivity.
Qed.

Lemma single_form : forall p s ip p', imresize_single cv2 p s ip = Ok p' ->
  exists sz, request s sz /\ p_kind p' = p_kind p /\ requested (p_h p) (fst sz) (p_h p') /\ requested (p_w p) (snd sz) (p_w p') /\ p_c p' = p_c p.
Proof.
  intros p s ip p' H. rewrite single_core in H. destruct (check_sizes s) as [sz|e] eqn:E; cbn [bind] in H; [|discriminate].
  destruct (core _ _ _ _ _ _ _) as [px|e]; cbn [bind] in H; [|discriminate]. injection H as <-. exists sz. split; [apply check_request; exact E|]. cbn. rewrite !target_requested. auto.
Qed.
Lemma mapM_length : forall {A B} (f : A -> res B) l r, mapM f l = Ok r -> length r = length l.
Proof.
  intros A B f l. induction l as [|x l IH]; intros r H; [injection H as <-; reflexivity|]. rewrite mapM_cons in H. destruct (f x); [|discriminate]. cbn [bind] in H.
  destruct (mapM f l) as [r'|]; [|discriminate]. injection H as <-. cbn. rewrite (IH r'); reflexivity.
Qed.
Lemma mapM_rel : forall {A B} (f : A -> res B) (R : A -> B -> Prop) l r, mapM f l = Ok r -> (forall x y, In x l -> f x = Ok y -> R x y) -> Forall2 R l r.
Proof.
  intros A B f R l. induction l as [|x l IH]; intros r H HR; [injection H as <-; constructor|]. rewrite mapM_cons in H. destruct (f x) as [y|] eqn:E; [|discriminate]. cbn [bind] in H.
  destruct (mapM f l) as [r'|] eqn:E2; [|discriminate]. injection H as <-. constructor; [apply HR; [left; reflexivity|exact E]|]. apply IH; [reflexivity|]. intros a b I1. apply HR. right. exact I1.
Qed.
Lemma list_form : forall l s ip r, imresize_many cv2 (IList l) s ip = Ok r ->
  exists l', r = IList l' /\ (l = [] -> l' = []) /\
    (l <> [] -> exists sz, request s sz /\
       Forall2 (fun p p' => requested (p_h p) (fst sz) (p_h p') /\ requested (p_w p) (snd sz) (p_w p') /\ p_c p' = p_c p) l l').
Proof.
  intros [|p r0] s ip r H; [injection H as <-; exists []; split; [reflexivity|]; split; [reflexivity|congruence]|].
  cbn [imresize_many] in H. destruct (check_sizes s) as [sz|e] eqn:E; cbn [bind] in H; [|discriminate]. apply check_request in E.
  destruct (forallb (same_shape p) r0) eqn:F.
  - rewrite resize_array_core in H by (cbn; discriminate). cbn [stacked s_kind s_h s_w s_c s_imgs] in H. destruct (mapM _ (map p_px (p :: r0))) as [l|e] eqn:M; cbn [bind] in H; [|discriminate].
    injection H as <-. eexists. split; [reflexivity|]. split; [discriminate|]. intros _. exists sz. split; [exact E|]. apply mapM_length in M. rewrite map_length in M.
    unfold unstacked. cbn [s_kind s_h s_w s_c s_imgs]. rewrite forallb_forall in F.
    assert (S1 : forall q, In q (p :: r0) -> p_h q = p_h p /\ p_w q = p_w p /\ p_c q = p_c p) by (intros q [<-|I1]; [auto|apply same_shape_eq, F; exact I1]).
    generalize (fold_left promote (map p_kind r0) (p_kind p)). intros k. clear F. revert l M S1. generalize (p :: r0) as l0. induction l0 as [|q l0 IH]; intros [|px l] M S1; try discriminate; [constructor|].
    cbn [map]. constructor; [|apply IH; [cbn in M; lia|intros q' I1; apply S1; right; exact I1]]. cbn [p_h p_w p_c]. destruct (S1 q) as (-> & -> & ->); [left; reflexivity|]. rewrite !target_requested. auto.
  - destruct (mapM (resize_alone cv2 sz ip) (p :: r0)) as [l|e] eqn:M; cbn [bind] in H; [|discriminate]. injection H as <-. exists l. split; [reflexivity|]. split; [discriminate|]. intros _. exists sz. split; [exact E|].
    eapply mapM_rel; [exact M|]. intros q q' _ H. unfold resize_alone in H. rewrite resize_array_core in H by (cbn; discriminate). cbn [stacked s_kind s_h s_w s_c s_imgs map fold_left] in H. rewrite mapM_cons in H.
    destruct (core _ _ _ _ _ _ _); cbn [bind] in H; [|discriminate]. injection H as <-. cbn [p_h p_w p_c]. rewrite !target_requested. auto.
Qed.
Lemma array_form : forall a s ip r, imresize_many cv2 (IArr a) s ip = Ok r ->
  exists a', r = IArr a' /\ (s_imgs a = [] -> a' = a) /\
    (s_imgs a <> [] -> exists sz, request s sz /\ s_kind a' = s_kind a /\ requested (s_h a) (fst sz) (s_h a') /\ requested (s_w a) (snd sz) (s_w a') /\ s_c a' = s_c a /\
       length (s_imgs a') = length (s_imgs a)).
Proof.
  intros [k h w c [|px imgs]] s ip r H; [injection H as <-; eexists; split; [reflexivity|]; split; [reflexivity|cbn; congruence]|].
  cbn [imresize_many] in H. destruct (check_sizes s) as [sz|e] eqn:E; cbn [bind] in H; [|discriminate]. apply check_request in E.
  rewrite resize_array_core in H by (cbn; discriminate). cbn [s_kind s_h s_w s_c s_imgs] in H. destruct (mapM _ (px :: imgs)) as [l|e] eqn:M; cbn [bind] in H; [|discriminate].
  injection H as <-. eexists. split; [reflexivity|]. cbn [s_kind s_h s_w s_c s_imgs]. split; [discriminate|]. intros _. exists sz. split; [exact E|]. rewrite !target_requested. apply mapM_length in M. auto.
Qed.

(** ** Pixels *)
Lemma same_size : forall p s sz ip, proper_pic p -> request s sz -> requested (p_h p) (fst sz) (p_h p) -> requested (p_w p) (snd sz) (p_w p) ->
  imresize_single cv2 p s ip = Ok p.
Proof.
  intros p s sz ip P R H1 H2. rewrite target_requested in H1, H2. destruct p as [k h w c px]. cbn in *. rewrite single_core, (proj2 (check_request s sz) R). cbn [bind p_kind p_h p_w p_c p_px].
  unfold core. rewrite <- H1, <- H2, !Z.eqb_refl. reflexivity.
Qed.
Lemma resized_pixels : forall p s ip p', resizes cv2 -> proper_pic p -> imresize_single cv2 p s ip = Ok p' ->
  proper_pic p' /\
  forall y x c, pixel p' y x c ->
    (p_h p' = p_h p /\ p_w p' = p_w p /\ p_px p' y x c = p_px p y x c) \/
    exists i out1, must_compute p (p_h p') (p_w p') /\ 0 < p_h p /\ 0 < p_w p /\ 0 < p_h p' /\ 0 < p_w p' /\
      interpolation_for p (p_h p') (p_w p') ip i /\ resizable i (p_kind p) /\
      cv2 i (pre_kind i (p_kind p)) (p_h p) (p_w p) (p_h p') (p_w p') 1%nat (fun y x _ => pre (p_kind p) (p_px p y x c)) = Ok out1 /\
      (p_px p' y x c == post i (p_kind p) (out1 y x 0%nat))%Q.
Proof.
  intros p s ip p' HC P H. destruct (single_form _ _ _ _ H) as (sz & R & _). pose proof P as (P1 & P2 & P3).
  destruct (core_cases p s sz ip P R) as [(A & B & C)|[(A & B & C)|[(A & B & C)|[(A & B & C & D & F)|[(i & A & B & C & D & F & G)|(i & A & B & C & D & F & G & K & L)]]]]]; try congruence.
  - rewrite H in C. injection C as ->. split; [exact P|]. intros y x c _. left. auto.
  - rewrite H in C. injection C as ->. unfold proper_pic, pixel. cbn [p_kind p_h p_w p_c p_px]. unfold chans in *. cbn [p_c].
    destruct (request_nonneg _ _ R) as [R1 R2]. pose proof (target_nonneg (p_h p) (fst sz) P1 R1). pose proof (target_nonneg (p_w p) (snd sz) P2 R2). split; [split; [assumption|]; split; [assumption|]|]; intros; exfalso; lia.
  - destruct (resize_one_ok i (p_kind p) (p_h p) (p_w p) (target (p_h p) (fst sz)) (target (p_w p) (snd sz)) (p_c p) (p_px p)) as (out & EO & V); auto.
    + apply allowed_resizable. exact K.
    + destruct A as (_ & _ & _ & A). unfold chans in A. destruct (p_c p) as [[|n]|]; congruence.
    + intros y x j Hy Hx Hj. apply P3. split; [exact Hy|]. split; [exact Hx|exact Hj].
    + rewrite EO in L. cbn [bind] in L. rewrite H in L. injection L as ->. cbn [p_kind p_h p_w p_c p_px]. split.
      * split; [cbn; lia|]. split; [cbn; lia|]. intros y x c (Hy & Hx & Hj). cbn in Hy, Hx. cbn [p_kind p_px]. apply (V y x c Hy Hx). exact Hj.
      * intros y x c (Hy & Hx & Hj). cbn in Hy, Hx. destruct (V y x c Hy Hx Hj) as (_ & o1 & E1 & E2). right. exists i, o1. split; [exact A|]. repeat (split; [assumption|]). exact E2.
Qed.
Lemma accepted : forall p s sz ip h' w', resizes cv2 -> proper_pic p -> request s sz -> requested (p_h p) (fst sz) h' -> requested (p_w p) (snd sz) w' ->
  ((exists p', imresize_single cv2 p s ip = Ok p') <->
   (must_compute p h' w' -> p_h p <> 0 /\ p_w p <> 0 /\ exists i, interpolation_for p h' w' ip i /\ resizable i (p_kind p))).
Proof.
  intros p s sz ip h' w' HC P R H1 H2. rewrite target_requested in H1, H2. subst h' w'. pose proof P as (P1 & P2 & P3).
  destruct (core_cases p s sz ip P R) as [(A & B & C)|[(A & B & C)|[(A & B & C)|[(A & B & C & D & F)|[(i & A & B & C & D & F & G)|(i & A & B & C & D & F & G & K & L)]]]]].
  - split; [intros _ (M & _); tauto|]. intros _. eexists. exact C.
  - split; [intros _ (_ & M); tauto|]. intros _. eexists. exact C.
  - rewrite C. split; [intros (p' & X); discriminate X|]. intros X. destruct (X A) as (X1 & X2 & _). tauto.
  - rewrite F. split; [intros (p' & X); discriminate X|]. intros X. destruct (X A) as (_ & _ & j & X1 & _). subst ip. destruct X1.
  - rewrite G. split; [intros (p' & X); discriminate X|]. intros X. exfalso. destruct (X A) as (_ & _ & j & X1 & X2). apply choose_ok in X1. apply choose_ok in D. rewrite D in X1. injection X1 as <-. contradiction.
  - split; [|intros _]; [intros _ _; split; [lia|]; split; [lia|]; exists i; auto|].
    destruct (resize_one_ok i (p_kind p) (p_h p) (p_w p) (target (p_h p) (fst sz)) (target (p_w p) (snd sz)) (p_c p) (p_px p)) as (out & EO & V); auto.
    + apply allowed_resizable. exact K.
    + destruct A as (_ & _ & _ & A). unfold chans in A. destruct (p_c p) as [[|n]|]; congruence.
    + intros y x j Hy Hx Hj. apply P3. split; [exact Hy|]. split; [exact Hx|exact Hj].
    + rewrite EO in L. cbn [bind] in L. eexists. exact L.
Qed.
Lemma errors : forall p s ip e, resizes cv2 -> proper_pic p -> imresize_single cv2 p s ip = Err e ->
  (exists n, s = SNum n /\ (val n <= 0)%Q /\ e = ValueError) \/
  (exists l, s = STup l /\ (forall sz, ~ request s sz) /\ e = AssertionError) \/
  (exists sz h' w', request s sz /\ requested (p_h p) (fst sz) h' /\ requested (p_w p) (snd sz) w' /\ must_compute p h' w' /\
     (((p_h p = 0 \/ p_w p = 0 \/ ip = Some None) /\ e = AssertionError) \/
      (exists i, p_h p <> 0 /\ p_w p <> 0 /\ interpolation_for p h' w' ip i /\ ~ resizable i (p_kind p) /\ e = ValueError))).
Proof.
  intros p s ip e HC P H. destruct (check_sizes s) as [sz|e1] eqn:E.
  - apply check_request in E. right. right. exists sz, (target (p_h p) (fst sz)), (target (p_w p) (snd sz)). split; [exact E|]. split; [apply target_requested; reflexivity|]. split; [apply target_requested; reflexivity|].
    pose proof (accepted p s sz ip _ _ HC P E (proj2 (target_requested _ _ _) eq_refl) (proj2 (target_requested _ _ _) eq_refl)) as AC.
    destruct (core_cases p s sz ip P E) as [(A & B & C)|[(A & B & C)|[(A & B & C)|[(A & B & C & D & F)|[(i & A & B & C & D & F & G)|(i & A & B & C & D & F & G & K & L)]]]]]; try congruence.
    + rewrite H in C. injection C as ->. split; [exact A|]. left. tauto.
    + rewrite H in F. injection F as ->. split; [exact A|]. left. tauto.
    + rewrite H in G. injection G as ->. split; [exact A|]. right. exists i. split; [lia|]. split; [lia|]. auto.
    + exfalso. destruct (proj2 AC) as (p' & X); [|congruence]. intros _. split; [lia|]. split; [lia|]. exists i. auto.
  - rewrite single_core, E in H. cbn [bind] in H. injection H as ->. destruct s as [n|l].
    + left. exists n. unfold check_sizes in E. destruct (qleb (val n) 0) eqn:Q1; [|discriminate]. injection E as <-. apply qleb_iff in Q1. auto.
    + right. left. exists l. split; [reflexivity|]. split; [intros sz X; apply check_request in X; congruence|].
      unfold check_sizes in E. destruct l as [|[x|] [|[y|] [|z l]]]; try (injection E as <-; reflexivity). destruct (qleb 0 (val x) && qleb 0 (val y)); [discriminate|]. injection E as <-. reflexivity.
Qed.
Lemma nearest : forall p s p' y x c, resizes cv2 -> picks cv2 -> proper_pic p -> imresize_single cv2 p s (Some (Some Nearest)) = Ok p' -> pixel p' y x c ->
  exists y0 x0, pixel p y0 x0 c /\ (p_px p' y x c == p_px p y0 x0 c)%Q.
Proof.
  intros p s p' y x c HC HP P H HX. destruct (resized_pixels p s _ p' HC P H) as (_ & X). destruct (single_form _ _ _ _ H) as (sz & _ & _ & _ & _ & EC).
  pose proof HX as (Hy & Hx & Hc). assert (Hc' : (c < chans p)%nat) by (unfold chans in *; rewrite <- EC; exact Hc).
  destruct (X y x c HX) as [(A & B & C)|(i & o & A & B & C & D & F & G & K & L & M)].
  - exists y, x. split; [unfold pixel; rewrite <- A, <- B; auto|]. rewrite C. reflexivity.
  - cbn in G. subst i. destruct (HP _ _ _ _ _ _ _ B C L y x Hy Hx) as (y0 & x0 & Hy0 & Hx0 & E). exists y0, x0. assert (PX : pixel p y0 x0 c) by (split; auto). split; [exact PX|]. rewrite M. apply (post_pre Nearest); [apply P; exact PX|exact E].
Qed.
Lemma in_range : forall p s ip p' y x c lo hi, resizes cv2 -> averages cv2 -> proper_pic p -> ip <> Some (Some Cubic) -> imresize_single cv2 p s ip = Ok p' -> pixel p' y x c ->
  value_of (p_kind p) lo -> value_of (p_kind p) hi -> (forall y0 x0, pixel p y0 x0 c -> (lo <= p_px p y0 x0 c <= hi)%Q) -> (lo <= p_px p' y x c <= hi)%Q.
Proof.
  intros p s ip p' y x c lo hi HC HA P NC H HX Vlo Vhi HB. destruct (resized_pixels p s _ p' HC P H) as (_ & X). destruct (single_form _ _ _ _ H) as (sz & _ & _ & _ & _ & EC).
  pose proof HX as (Hy & Hx & Hc). assert (Hc' : (c < chans p)%nat) by (unfold chans in *; rewrite <- EC; exact Hc).
  destruct (X y x c HX) as [(A & B & C)|(i & o & A & B & C & D & F & G & K & L & M)].
  - rewrite C. apply HB. unfold pixel. rewrite <- A, <- B. auto.
  - assert (Ni : i = Nearest \/ i = Linear \/ i = Area).
    { destruct ip as [[j|]|]; cbn in G; [subst j; destruct i; try tauto; congruence|destruct G|tauto]. }
    apply allowed_resizable in K.
    assert (R : (pre (p_kind p) lo <= o y x 0%nat <= pre (p_kind p) hi)%Q).
    { apply (HA _ _ _ _ _ _ _ _ _ _ Ni B C L); [apply pre_value; auto|apply pre_value; auto| |exact Hy|exact Hx].
      intros y0 x0 Hy0 Hx0. cbn beta. assert (PX : pixel p y0 x0 c) by (split; auto). specialize (HB y0 x0 PX). destruct (p_kind p); cbn [pre]; lra. }
    rewrite M. destruct R as [R1 R2]. apply (post_mono i (p_kind p)) in R1. apply (post_mono i (p_kind p)) in R2.
    rewrite (post_pre i (p_kind p) lo (pre (p_kind p) lo) Vlo (Qeq_refl _)) in R1. rewrite (post_pre i (p_kind p) hi (pre (p_kind p) hi) Vhi (Qeq_refl _)) in R2. split; assumption.
Qed.
(** Channel [c] of an image, as an image. *)
Lemma channel : forall p s ip p' c, resizes cv2 -> proper_pic p -> imresize_single cv2 p s ip = Ok p' -> (c < chans p)%nat ->
  exists p1, imresize_single cv2 (mkPic (p_kind p) (p_h p) (p_w p) None (fun y x _ => p_px p y x c)) s ip = Ok p1 /\ p_h p1 = p_h p' /\ p_w p1 = p_w p' /\
    forall y x, pixel p' y x c -> (p_px p' y x c == p_px p1 y x 0%nat)%Q.
Proof.
  intros p s ip p' c HC P H Hc. set (q := mkPic (p_kind p) (p_h p) (p_w p) None (fun y x _ => p_px p y x c)).
  destruct (single_form _ _ _ _ H) as (sz & R & K1 & Z1 & Z2 & EC). pose proof P as (P1 & P2 & P3).
  assert (PQ : proper_pic q) by (split; [exact P1|]; split; [exact P2|]; intros y x j (Hy & Hx & _); cbn [q p_kind p_px]; apply P3; split; auto).
  pose proof (proj1 (accepted p s sz ip _ _ HC P R Z1 Z2) (ex_intro _ _ H)) as AC.
  assert (IQ : forall i, interpolation_for q (p_h p') (p_w p') ip i <-> interpolation_for p (p_h p') (p_w p') ip i) by (intros i; reflexivity).
  destruct (proj2 (accepted q s sz ip _ _ HC PQ R Z1 Z2)) as (p1 & E1).
  { intros (M1 & M2 & M3 & M4). assert (MP : must_compute p (p_h p') (p_w p')) by (split; [exact M1|]; split; [exact M2|]; split; [exact M3|lia]). exact (AC MP). }
  exists p1. split; [exact E1|]. destruct (single_form _ _ _ _ E1) as (sz1 & R1 & K2 & Y1 & Y2 & EC1).
  assert (sz1 = sz) by (apply check_request in R; apply check_request in R1; congruence). subst sz1. cbn [q p_h p_w] in Y1, Y2. rewrite target_requested in Y1, Y2, Z1, Z2.
  split; [congruence|]. split; [congruence|]. intros y x HX. pose proof HX as (Hy & Hx & _).
  destruct (resized_pixels p s _ p' HC P H) as (_ & X). destruct (resized_pixels q s _ p1 HC PQ E1) as (_ & X1).
  assert (HX1 : pixel p1 y x 0) by (split; [rewrite Y1, <- Z1; exact Hy|]; split; [rewrite Y2, <- Z2; exact Hx|]; unfold chans; rewrite EC1; cbn; lia).
  destruct (X y x c HX) as [(A & B & C)|(i & o & A & B & C & D & F & G & K & L & M)]; destruct (X1 y x 0%nat HX1) as [(A' & B' & C')|(i' & o' & A' & B' & C' & D' & F' & G' & K' & L' & M')].
  - rewrite C, C'. reflexivity.
  - exfalso. destruct A' as (A' & _). apply A'. cbn [q p_h p_w]. split; congruence.
  - exfalso. destruct A as (A & _). apply A. cbn [q p_h p_w] in A', B'. split; congruence.
  - assert (i' = i). { assert (EH : p_h p1 = p_h p') by congruence. assert (EW : p_w p1 = p_w p') by congruence. rewrite EH, EW in G'. apply (proj1 (IQ i')) in G'. apply choose_ok in G. apply choose_ok in G'. congruence. }
    subst i'. cbn [q p_kind p_h p_w p_px] in L'. rewrite Y1, <- Z1, Y2, <- Z2 in L'. rewrite L in L'. injection L' as <-. rewrite M, M'. reflexivity.
Qed.
Lemma auto_choice : forall p s sz h' w', request s sz -> requested (p_h p) (fst sz) h' -> requested (p_w p) (snd sz) w' ->
  imresize_single cv2 p s None = imresize_single cv2 p s (Some (Some (if (p_h p <? h') || (p_w p <? w') then Area else Linear))).
Proof.
  intros p s sz h' w' R H1 H2. rewrite target_requested in H1, H2. subst h' w'. rewrite !single_core, (proj2 (check_request s sz) R). reflexivity.
Qed.
Lemma heatmap_form : forall p s ip p', heatmap_resize cv2 p s ip = Ok p' -> exists r, imresize_single cv2 p s ip = Ok r /\ p_kind p' = p_kind r /\ p_h p' = p_h r /\ p_w p' = p_w r /\ p_c p' = p_c r /\
  forall y x c, p_px p' y x c = qclip (p_px r y x c) 0 1.
Proof.
  intros p s ip p' H. unfold heatmap_resize in H. destruct (imresize_single cv2 p s ip) as [r|e]; cbn [bind] in H; [|discriminate]. injection H as <-. exists r. cbn. auto 10.
Qed.
End R.
