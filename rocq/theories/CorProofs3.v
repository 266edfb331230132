(** Proofs about the layout of debug images. *)
From Coq Require Import List ZArith QArith Bool Lia.
From Verif Require Import Prelude PreludeFacts CtrModel CorModel CorSpec CorProofs CorProofs2.
Import ListNotations.
Open Scope Z_scope.

Definition full (i : nat) (s : Z * Z) : canvas := mkCanvas (fst s) (snd s) (fun y x => Some (i, y, x)).
Definition cell_ok (height width : Z) (c : cell) : Prop :=
  0 <= height /\ 0 <= width /\ match c with TextCell _ _ => True | ImageCell _ h w => height = h /\ 0 < h /\ 0 < w <= width end.
(** A drawn cell shows its image, centred. *)
Definition shows (width : Z) (c : cell) (r : canvas) : Prop :=
  match c with
  | TextCell _ _ => True
  | ImageCell i h w => exists l rt, 0 <= l <= rt /\ rt <= l + 1 /\ l + w + rt = width /\ part_of (full i (h, w)) r 1 (1 + l)
  end.
Lemma part_ext : forall a b c y x, cv_h a = cv_h b -> cv_w a = cv_w b -> (forall u v, 0 <= u < cv_h a -> 0 <= v < cv_w a -> cv_px a u v = cv_px b u v) -> part_of a c y x -> part_of b c y x.
Proof. intros a b c y x H W E (A1 & A2 & A3 & A4 & A5). unfold part_of. rewrite <- H, <- W. repeat (split; [assumption|]). intros u v U V. rewrite A5 by assumption. apply E; assumption. Qed.
Lemma bordered_ok : forall height width c, cell_ok height width c -> exists r, draw_bordered height width c = Ok r /\ sized (height + 2) (width + 2) r /\ shows width c r.
Proof.
  intros height width [h w|i h w] (H & W & K); unfold draw_bordered, draw_cell.
  - cbn [bind]. eexists. split; [reflexivity|]. unfold sized, pad_canvas. cbn [cv_h cv_w shows]. repeat split; lia.
  - destruct K as (-> & H0 & W0). destruct (resizepad_row h width w H0 W0) as (rt & l & E & L1 & L2 & L3). rewrite E. cbn [bind].
    eexists. split; [reflexivity|]. rewrite !Z.eqb_refl. cbn [andb].
    split; [unfold sized, pad_canvas; cbn [cv_h cv_w]; lia|].
    exists l, rt. repeat (split; [lia|]).
    apply (part_trans _ (pad_canvas 0 rt 0 l (full i (h, w))) _ 0 l 1 1); apply part_pad; lia.
Qed.
Lemma fold_max_ge : forall l a, a <= fold_left Z.max l a /\ forall x, In x l -> x <= fold_left Z.max l a.
Proof.
  induction l as [|b l IH]; intros a; cbn [fold_left]; [split; [lia|intros x []]|].
  destruct (IH (Z.max a b)) as [A B]. split; [lia|]. intros x [<-|H]; [lia|apply B; exact H].
Qed.
Lemma max_list_ge : forall l, l <> [] -> exists m, max_list l = Ok m /\ forall x, In x l -> x <= m.
Proof.
  intros [|a l] N; [congruence|]. eexists. split; [reflexivity|]. destruct (fold_max_ge l a) as [A B]. intros x [<-|H]; [exact A|apply B; exact H].
Qed.
Lemma column_ok : forall cells heights, cells <> [] -> length heights = length cells -> Forall (fun c => 0 <= min_width c) cells ->
  Forall2 (fun h c => 0 <= h /\ match c with TextCell _ _ => True | ImageCell _ h' w => h = h' /\ 0 < h' /\ 0 < w end) heights cells ->
  exists width c, draw_column heights cells = Ok c /\ 0 <= width /\ sized (zsum (map (fun h => h + 2) heights)) (width + 2) c /\
    forall k ce, nth_error cells k = Some ce -> exists r, shows width ce r /\ part_of r c (zsum (firstn k (map (fun h => h + 2) heights))) 0.
Proof.
  intros cells heights N L MW F. unfold draw_column. destruct (max_list_ge (map min_width cells)) as (width & E & G); [destruct cells; [congruence|discriminate]|].
  rewrite E. cbn [bind].
  assert (W : 0 <= width). { destruct cells as [|c0 l0]; [congruence|]. inversion MW; subst. specialize (G (min_width c0) (or_introl eq_refl)). lia. }
  assert (M : exists rs, mapM (fun p => draw_bordered (snd p) width (fst p)) (combine cells heights) = Ok rs /\
              Forall2 (fun h c => sized h (width + 2) c) (map (fun h => h + 2) heights) rs /\ length rs = length cells /\
              forall k ce, nth_error cells k = Some ce -> exists r, nth_error rs k = Some r /\ shows width ce r).
  { assert (G' : Forall (fun c => min_width c <= width) cells) by (apply Forall_forall; intros c HC; apply G, in_map; exact HC).
    clear E G N MW L. revert G'. induction F as [|h c hs cs (H0 & HK) F IH]; intros G'.
    - exists []. split; [reflexivity|]. split; [constructor|]. split; [reflexivity|]. intros [|k] ce H; discriminate.
    - inversion G' as [|a b G1 G2]; subst. destruct (IH G2) as (rs & E & F2 & LR & K). clear IH.
      destruct (bordered_ok h width c) as (r & ER & SR & SH).
      { unfold cell_ok. split; [exact H0|]. split; [exact W|]. destruct c as [|i h' w]; [exact Logic.I|]. cbn [min_width] in G1. lia. }
      exists (r :: rs). cbn [combine]. rewrite RszProofs.mapM_cons. cbn [fst snd]. rewrite ER. cbn [bind]. rewrite E. cbn [bind]. split; [reflexivity|].
      split; [constructor; [exact SR|exact F2]|]. split; [cbn [length]; lia|].
      intros [|k] ce H; cbn [nth_error] in *; [injection H as <-; exists r; split; [reflexivity|exact SH]|apply K; exact H]. }
  destruct M as (rs & EM & F2 & LR & K). rewrite EM. cbn [bind].
  assert (RN : rs <> []) by (destruct cells; [congruence|]; destruct rs; [discriminate|discriminate]).
  destruct (vstack_ok (width + 2) rs (map (fun h => h + 2) heights) RN F2) as (c & EC & SC & PC); [|lia|].
  { clear -F. induction F as [|h c hs cs (H0 & _) F IH]; cbn [map]; constructor; [lia|exact IH]. }
  exists width, c. split; [exact EC|]. split; [exact W|]. split; [exact SC|].
  intros k ce H. destruct (K k ce H) as (r & R1 & R2). exists r. split; [exact R2|]. apply PC. exact R1.
Qed.

Definition maxes (acc hs : list Z) : list Z := map (fun p => Z.max (fst p) (snd p)) (combine acc hs).
Lemma maxes_same : forall hs, maxes hs hs = hs.
Proof. induction hs as [|h hs IH]; [reflexivity|]. unfold maxes in *. cbn [combine map fst snd]. rewrite Z.max_id, IH. reflexivity. Qed.
Lemma maxes_zero : forall A (l : list A) hs, length l = length hs -> Forall (fun h => 0 <= h) hs -> maxes (map (fun _ => 0) l) hs = hs.
Proof.
  induction l as [|a l IH]; intros [|h hs] L F; try discriminate; [reflexivity|]. inversion F; subst. cbn [length] in L.
  unfold maxes in *. cbn [map combine fst snd]. rewrite Z.max_r by lia. f_equal. apply IH; [lia|assumption].
Qed.
Section Grid.
Variable sizes : list (Z * Z).
Hypothesis positive : Forall (fun s => 0 < fst s /\ 0 < snd s) sizes.
Definition image_cells : list cell := map (fun p => ImageCell (fst p) (fst (snd p)) (snd (snd p))) (combine (seq 0 (length sizes)) sizes).
Definition text_column (t : (Z * Z) * (Z * Z)) : list cell := TextCell (fst (fst t)) (snd (fst t)) :: TextCell (fst (snd t)) (snd (snd t)) :: image_cells.
Lemma image_cells_nth : forall i s, nth_error sizes i = Some s -> nth_error image_cells i = Some (ImageCell i (fst s) (snd s)).
Proof.
  unfold image_cells. intros i s H. assert (G : forall (l : list (Z * Z)) k j, nth_error l j = Some s ->
    nth_error (map (fun p => ImageCell (fst p) (fst (snd p)) (snd (snd p))) (combine (seq k (length l)) l)) j = Some (ImageCell (k + j) (fst s) (snd s))).
  { induction l as [|a l IH]; intros k [|j] E; try discriminate; cbn [nth_error length seq combine map] in *.
    - injection E as ->. cbn [fst snd]. rewrite Nat.add_0_r. reflexivity.
    - rewrite IH by exact E. replace (S k + j)%nat with (k + S j)%nat by lia. reflexivity. }
  exact (G sizes 0%nat i H).
Qed.
Lemma image_heights : map min_height image_cells = map fst sizes.
Proof.
  unfold image_cells. rewrite map_map. cbn [min_height]. generalize 0%nat as k. induction sizes as [|a l IH]; intros k; [reflexivity|].
  cbn [length seq combine map fst snd]. f_equal. inversion positive; subst. apply IH; assumption.
Qed.
Lemma image_length : length image_cells = length sizes.
Proof. unfold image_cells. rewrite map_length, combine_length, seq_length. lia. Qed.
Lemma heights_ok : forall texts A B, 0 <= A -> 0 <= B -> exists A' B', 0 <= A' /\ 0 <= B' /\
  fold_left (fun acc c => map (fun p => Z.max (fst p) (snd p)) (combine acc (map min_height c))) (map text_column texts) (A :: B :: map fst sizes) = A' :: B' :: map fst sizes.
Proof.
  induction texts as [|t texts IH]; intros A B HA HB; [exists A, B; repeat split; assumption|].
  cbn [map fold_left text_column min_height combine fst snd]. rewrite image_heights. change (map (fun p => Z.max (fst p) (snd p)) (combine (map fst sizes) (map fst sizes))) with (maxes (map fst sizes) (map fst sizes)).
  rewrite maxes_same. apply IH; lia.
Qed.
Lemma heights_grid : forall t texts, exists A' B', 0 <= A' /\ 0 <= B' /\
  fold_left (fun acc c => map (fun p => Z.max (fst p) (snd p)) (combine acc (map min_height c))) (map text_column (t :: texts)) (map (fun _ => 0) (text_column t)) = A' :: B' :: map fst sizes.
Proof.
  intros t texts. cbn [map fold_left text_column min_height combine fst snd]. rewrite image_heights.
  change (map (fun p => Z.max (fst p) (snd p)) (combine (map (fun _ => 0) image_cells) (map fst sizes))) with (maxes (map (fun _ => 0) image_cells) (map fst sizes)).
  rewrite maxes_zero; [apply heights_ok; lia|rewrite image_length, map_length; reflexivity|].
  apply Forall_forall. intros h H. apply in_map_iff in H. destruct H as (s & <- & H). rewrite Forall_forall in positive. apply positive in H. lia.
Qed.
Lemma grid_ok : forall texts, texts <> [] -> Forall (fun t => 0 <= snd (fst t) /\ 0 <= snd (snd t)) texts ->
  exists c (top col : nat -> Z), debug_image texts sizes = Ok c /\
    (forall i s, nth_error sizes i = Some s -> top (S i) = top i + fst s + 2) /\
    forall i j s, nth_error sizes i = Some s -> (j < length texts)%nat ->
      exists l r, 0 <= l <= r /\ r <= l + 1 /\ col (S j) = col j + l + snd s + r + 2 /\ part_of (full i s) c (top i) (col j + 1 + l).
Proof.
  intros texts N TW. assert (DE : debug_image texts sizes = do r <- draw_grid (map text_column texts); Ok (pad_canvas 1 1 1 1 r)) by reflexivity.
  rewrite DE. clear DE.
  destruct texts as [|t texts]; [congruence|]. clear N. unfold draw_grid.
  change (map text_column (t :: texts)) with (text_column t :: map text_column texts). cbv beta iota zeta.
  assert (LN : forallb (fun c => Nat.eqb (length c) (length (text_column t))) (text_column t :: map text_column texts) = true).
  { apply forallb_forall. intros c [<-|H]; [apply Nat.eqb_refl|]. apply in_map_iff in H. destruct H as (u & <- & _). apply Nat.eqb_refl. }
  rewrite LN. cbn [negb]. cbv zeta.
  change (text_column t :: map text_column texts) with (map text_column (t :: texts)).
  destruct (heights_grid t texts) as (A & B & HA & HB & EH). rewrite EH. set (hs := A :: B :: map fst sizes).
  set (hs2 := map (fun h => h + 2) hs).
  assert (C : forall u, In u (t :: texts) -> exists width c, draw_column hs (text_column u) = Ok c /\ 0 <= width /\ sized (zsum hs2) (width + 2) c /\
              forall k ce, nth_error (text_column u) k = Some ce -> exists r, shows width ce r /\ part_of r c (zsum (firstn k hs2)) 0).
  { intros u HU. apply column_ok; [discriminate|unfold hs, text_column; cbn [length]; rewrite map_length, image_length; reflexivity| |].
    - rewrite Forall_forall in TW. apply TW in HU. constructor; [cbn [min_width]; lia|]. constructor; [cbn [min_width]; lia|].
      apply Forall_forall. intros c H. unfold image_cells in H. apply in_map_iff in H. destruct H as ((k & s) & <- & H). apply in_combine_r in H.
      rewrite Forall_forall in positive. apply positive in H. cbn [min_width snd fst]. lia.
    - constructor; [split; [exact HA|exact Logic.I]|]. constructor; [split; [exact HB|exact Logic.I]|].
      unfold image_cells. generalize 0%nat as k. clear EH LN hs hs2. induction sizes as [|a l IH]; intros k; [constructor|].
      cbn [length seq combine map fst snd]. inversion positive; subst. constructor; [cbn [fst snd]; lia|apply IH; assumption]. }
  assert (M : exists ws cs, mapM (draw_column hs) (map text_column (t :: texts)) = Ok cs /\ length ws = length (t :: texts) /\
              Forall2 (fun w c => sized (zsum hs2) w c) (map (fun w => w + 2) ws) cs /\ Forall (fun w => 0 <= w) ws /\
              forall j, (j < length (t :: texts))%nat -> exists width c, nth_error ws j = Some width /\ nth_error cs j = Some c /\
                forall i s, nth_error sizes i = Some s -> exists r, shows width (ImageCell i (fst s) (snd s)) r /\ part_of r c (zsum (firstn (2 + i) hs2)) 0).
  { revert C. clear TW EH LN. generalize (t :: texts) as us. induction us as [|u us IH]; intros C.
    - exists [], []. split; [reflexivity|]. split; [reflexivity|]. split; [constructor|]. split; [constructor|]. intros j H. cbn [length] in H. lia.
    - destruct IH as (ws & cs & E & L & F & P & K); [intros v HV; apply C; right; exact HV|].
      destruct (C u (or_introl eq_refl)) as (width & c & E1 & W & S1 & K1). exists (width :: ws), (c :: cs).
      cbn [map]. rewrite RszProofs.mapM_cons, E1. cbn [bind]. rewrite E. cbn [bind]. split; [reflexivity|]. split; [cbn [length]; lia|].
      split; [constructor; assumption|]. split; [constructor; assumption|].
      intros [|j] H; cbn [nth_error length] in *.
      + exists width, c. split; [reflexivity|]. split; [reflexivity|]. intros i s HS. apply (K1 (2 + i)%nat). cbn [Nat.add text_column nth_error]. apply image_cells_nth. exact HS.
      + apply K. lia. }
  destruct M as (ws & cs & EM & LW & F & PW & K). rewrite EM. cbn [bind].
  assert (CN : cs <> []) by (destruct cs; [inversion F; destruct ws; discriminate|discriminate]).
  assert (H2 : Forall (fun h => 0 <= h) hs2).
  { unfold hs2, hs. apply Forall_forall. intros h H. apply in_map_iff in H. destruct H as (h0 & <- & [<-|[<-|H]]); [lia|lia|].
    apply in_map_iff in H. destruct H as (s & <- & H). rewrite Forall_forall in positive. apply positive in H. lia. }
  destruct (hstack_ok (zsum hs2) cs (map (fun w => w + 2) ws) CN F) as (g & EG & SG & PG); [|apply zsum_nonneg; exact H2|].
  { apply Forall_forall. intros w H. apply in_map_iff in H. destruct H as (w0 & <- & H). rewrite Forall_forall in PW. apply PW in H. lia. }
  rewrite EG. cbn [bind]. eexists. exists (fun i => 2 + zsum (firstn (2 + i) hs2)), (fun j => 1 + zsum (firstn j (map (fun w => w + 2) ws))).
  split; [reflexivity|].
  assert (ST : forall (l : list Z) k x, nth_error l k = Some x -> zsum (firstn (S k) l) = zsum (firstn k l) + x).
  { induction l as [|a l IH]; intros [|k] x H; try discriminate; cbn [nth_error] in H.
    - injection H as ->. cbn. lia.
    - change (firstn (S (S k)) (a :: l)) with (a :: firstn (S k) l). change (firstn (S k) (a :: l)) with (a :: firstn k l).
      unfold zsum in *. cbn [fold_right]. rewrite (IH k x H). lia. }
  split.
  - intros i s H. change (2 + S i)%nat with (S (2 + i)). rewrite (ST hs2 (2 + i)%nat (fst s + 2)); [lia|].
    unfold hs2, hs. cbn [map Nat.add nth_error]. rewrite map_map. exact (map_nth_error (fun x => fst x + 2) i sizes H).
  - intros i j s HS HJ. destruct (K j HJ) as (width & c & W1 & C1 & R1). destruct (R1 i s HS) as (r & (l & rt & L1 & L2 & L3 & P1) & P2).
    exists l, rt. split; [exact L1|]. split; [exact L2|]. split.
    + rewrite (ST _ j (width + 2)); [lia|]. exact (map_nth_error (fun w => w + 2) j ws W1).
    + pose proof (PG j c C1) as P3. destruct s as [sh sw]. cbn [fst snd] in *.
      pose proof (part_trans _ _ _ _ _ _ _ (part_trans _ _ _ _ _ _ _ P1 P2) P3) as P4.
      pose proof (part_trans _ _ _ _ _ _ _ P4 (part_pad 1 1 1 1 g ltac:(lia) ltac:(lia) ltac:(lia) ltac:(lia))) as P5.
      match type of P5 with part_of _ _ ?a ?b => match goal with |- part_of _ _ ?a' ?b' => replace a' with a by lia; replace b' with b by lia; exact P5 end end.
Qed.
End Grid.
