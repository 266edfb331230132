(** Properties C96-C105: segments, Voronoi cells, point samplers, Voronoi and
    Superpixels. *)
From Coq Require Import Lia Lqa Permutation String.
From Coq Require Import List.
From Verif Require Import Prelude PreludeFacts GeoModel KeepModel SegModel SegSpec SegProofs SegRest SegPts SegSamp SegAug.

(* ------------------------------------------------------------------ *)
(** * C96: replacing segments by their average color *)

(** uint8 and int8 with numba: exactly the segments whose flag is set are
    replaced by their average color. *)
Theorem C96_numba : forall nc (im seg : arr Z) flags, wf_arr im -> nc <> 0 -> flags <> Some [] -> ids_ok im seg ->
  exists out, replace_segments true D8 nc im seg flags = Ok out /\ averaged (wanted flags) im seg out.
Proof. intros. apply (replace_averaged true D8); try assumption. discriminate. Qed.
Print Assumptions C96_numba.

(** Otherwise (no numba, or another integer dtype) the flags are those of the
    ranks of the ids. *)
Theorem C96_numpy : forall numba k nc (im seg : arr Z) flags, wf_arr im -> nc <> 0 -> flags <> Some [] -> ids_ok im seg ->
  k = DInt \/ (k = D8 /\ numba = false) ->
  exists out, replace_segments numba k nc im seg flags = Ok out /\
    averaged (fun id => exists r, rank_of im seg id r /\ wanted flags r) im seg out.
Proof.
  intros numba k nc im seg flags WF NC NE K D.
  destruct (replace_averaged numba k nc im seg flags WF NC NE K) as [out [R A]]; [destruct D as [->|[-> _]]; discriminate|].
  exists out. split; [exact R|]. destruct D as [->|[-> ->]]; exact A.
Qed.
Print Assumptions C96_numpy.

(** If no id is missing, flags are by id on every route. *)
Theorem C96_no_gaps : forall numba k nc (im seg : arr Z) flags, wf_arr im -> nc <> 0 -> flags <> Some [] ->
  ids_ok im seg -> no_gaps im seg -> k <> DBool ->
  exists out, replace_segments numba k nc im seg flags = Ok out /\ averaged (wanted flags) im seg out.
Proof. exact replace_no_gaps. Qed.
Print Assumptions C96_no_gaps.

(** The new color lies between the smallest and the largest value of the
    segment, so that nothing overflows. *)
Theorem C96_range : forall numba k nc (im seg : arr Z) flags out lo hi, wf_arr im -> nc <> 0 ->
  flags <> Some [] -> ids_ok im seg -> k <> DBool ->
  replace_segments numba k nc im seg flags = Ok out ->
  forall y x, inside im y x ->
  (forall y' x', inside im y' x' -> apx seg y' x' = apx seg y x -> lo <= apx im y' x' <= hi) ->
  lo <= apx out y x <= hi.
Proof. exact replace_range. Qed.
Print Assumptions C96_range.

(** With bool images the "average" is True as soon as one pixel is True. *)
Theorem C96_bool : forall numba nc (im seg : arr Z) flags, wf_arr im -> nc <> 0 ->
  flags <> Some [] -> ids_ok im seg -> no_gaps im seg ->
  (forall y x, inside im y x -> apx im y x = 0 \/ apx im y x = 1) ->
  exists out, replace_segments numba DBool nc im seg flags = Ok out /\ ah out = ah im /\ aw out = aw im /\
  forall y x, inside im y x ->
    (wanted flags (apx seg y x) -> (apx out y x = 0 \/ apx out y x = 1) /\
       (apx out y x = 1 <-> exists y' x', inside im y' x' /\ apx seg y' x' = apx seg y x /\ apx im y' x' = 1)) /\
    (~ wanted flags (apx seg y x) -> apx out y x = apx im y x).
Proof. exact replace_bool. Qed.
Print Assumptions C96_bool.

(** A 2x3 image with the segments 0 0 1 / 1 1 1. *)
Definition ex_im : arr Z := mkArr 2 3 (fun y x => 10 * y + x).
Definition ex_seg : arr Z := mkArr 2 3 (fun y x => if (y =? 0) && (x <? 2) then 0 else 1).
(** The same with the ids 0 and 2. *)
Definition ex_gap : arr Z := mkArr 2 3 (fun y x => if (y =? 0) && (x <? 2) then 0 else 2).
Example ex_seg_ok : wf_arr ex_im /\ ids_ok ex_im ex_seg /\ no_gaps ex_im ex_seg /\ ids_ok ex_im ex_gap.
Proof.
  assert (occurs ex_im ex_seg 0) by (exists 0, 0; split; [unfold inside; cbn; lia|reflexivity]).
  assert (occurs ex_im ex_seg 1) by (exists 1, 0; split; [unfold inside; cbn; lia|reflexivity]).
  split; [split; cbn; lia|]. split; [intros y x _; cbn; destruct (_ && _); lia|].
  split; [|intros y x _; cbn; destruct (_ && _); lia].
  intros i j [y [x [_ <-]]] J. assert (j = 0 \/ j = 1) as [-> | ->]; [|assumption|assumption].
  cbn in J. destruct (_ && _) in J; lia.
Qed.
(** Segment 1 has the values 2, 10, 11, 12. *)
Example C96_case : forall numba, match replace_segments numba D8 3 ex_im ex_seg (Some [false; true]) with
  | Ok out => map (fun p => apx out (fst p) (snd p)) (positions 2 3) = [0; 1; 8; 8; 8; 8] | Err _ => False end.
Proof. intros []; reflexivity. Qed.

(** Without numba the flags are not those of the ids if an id is missing. *)
Theorem C96_gap_refuted : exists (im seg : arr Z) flags out, wf_arr im /\ ids_ok im seg /\
  replace_segments false D8 1 im seg (Some flags) = Ok out /\ ~ averaged (wanted (Some flags)) im seg out.
Proof.
  destruct (replace_segments false D8 1 ex_im ex_gap (Some [false; true; false])) as [out|] eqn:E; [|discriminate].
  exists ex_im, ex_gap, [false; true; false], out.
  split; [apply ex_seg_ok|]. split; [apply ex_seg_ok|]. split; [exact E|]. intros [_ [_ A]].
  destruct (A 1 0) as [_ A2]; [unfold inside; cbn; lia|]. cbn [apx ex_gap andb Z.eqb] in A2.
  specialize (A2 ltac:(cbn; discriminate)). vm_compute in E. injection E as <-. vm_compute in A2. discriminate.
Qed.
Print Assumptions C96_gap_refuted.

(** One True pixel out of four: the average is 1/4, the result is True. *)
Theorem C96_bool_mean_refuted : exists (im seg out : arr Z), wf_arr im /\ ids_ok im seg /\ no_gaps im seg /\
  replace_segments false DBool 1 im seg None = Ok out /\ ~ averaged (wanted None) im seg out.
Proof.
  set (im := mkArr 1 4 (fun _ x => if x =? 2 then 1 else 0)). set (seg := mkArr 1 4 (fun _ _ : Z => 0)).
  destruct (replace_segments false DBool 1 im seg None) as [out|] eqn:E; [|discriminate].
  assert (occurs im seg 0) as O by (exists 0, 0; split; [unfold inside; cbn; lia|reflexivity]).
  exists im, seg, out. split; [split; cbn; lia|]. split; [intros y x _; cbn; lia|].
  split; [intros i j [y [x [_ <-]]] J; cbn in J; replace j with 0 by lia; exact O|]. split; [exact E|].
  intros [_ [_ A]]. destruct (A 0 0) as [A1 _]; [unfold inside; cbn; lia|]. specialize (A1 I).
  assert (mean_of im seg 0 0) as M.
  { exists (positions 1 4). split; [|split; [discriminate|reflexivity]]. split; [apply nodup_positions|].
    intros y x. rewrite in_positions. unfold inside. cbn. tauto. }
  pose proof (mean_of_unique _ _ _ _ _ A1 M) as C. vm_compute in E. injection E as <-. vm_compute in C. discriminate.
Qed.
Print Assumptions C96_bool_mean_refuted.

(* ------------------------------------------------------------------ *)
(** * C97: replacing twice *)

Theorem C97_idempotent : forall numba k nc (im seg : arr Z) flags out, wf_arr im -> nc <> 0 ->
  flags <> Some [] -> ids_ok im seg -> replace_segments numba k nc im seg flags = Ok out ->
  exists out2, replace_segments numba k nc out seg flags = Ok out2 /\ arr_eq out2 out.
Proof. exact replace_twice. Qed.
Print Assumptions C97_idempotent.

(** The first call changes something. *)
Example C97_case : exists out, replace_segments true D8 3 ex_im ex_seg None = Ok out /\ apx out 1 2 = 8 /\ apx ex_im 1 2 = 12.
Proof. eexists. split; [reflexivity|]. split; reflexivity. Qed.

(* ------------------------------------------------------------------ *)
(** * C98: Voronoi cells *)

(** Every pixel belongs to a cell nearest to its centre; the cells chosen by the
    mask are replaced by the average of their pixels. *)
Theorem C98_cells : forall kd nc (im : arr Z) cells mask, kd_ok kd -> wf_arr im -> nc <> 0 -> cells <> [] ->
  (forall f, mask = Some f -> length f = length cells) ->
  exists out cell, segment_voronoi kd true D8 nc im cells mask = Ok out /\
    (forall y x, inside im y x -> nearest cells (centre y x) (cell y x)) /\
    averaged (fun c => match mask with None => True | Some f => nth (Z.to_nat c) f false = true end)
             im (cell_map im cell) out.
Proof. exact voronoi_ok. Qed.
Print Assumptions C98_cells.

Theorem C98_no_cells : forall kd numba k nc im mask, segment_voronoi kd numba k nc im [] mask = Ok im.
Proof. reflexivity. Qed.
Print Assumptions C98_no_cells.

(** The assumption about the KD tree can be met. *)
Example C98_kd : kd_ok argmin.
Proof. exact argmin_ok. Qed.
(** Two cells, at the left and at the right. *)
Example C98_case : match segment_voronoi argmin true D8 3 ex_im [(0, 1); (3, 1)]%Q (Some [true; false]) with
  | Ok out => map (fun p => apx out (fst p) (snd p)) (positions 2 3) = [5; 5; 2; 5; 5; 12] | Err _ => False end.
Proof. vm_compute. reflexivity. Qed.

(** Without numba the mask is shifted if a cell has no pixel: here cell 1 is
    replaced although only cell 0 (which has no pixel) is chosen. *)
Theorem C98_mask_refuted : exists kd im cells mask out y x, kd_ok kd /\ wf_arr im /\ length mask = length cells /\
  segment_voronoi kd false D8 1 im cells (Some mask) = Ok out /\ inside im y x /\
  (forall i, nearest cells (centre y x) i -> nth i mask false = false) /\ apx out y x <> apx im y x.
Proof.
  destruct (segment_voronoi argmin false D8 1 ex_im [(-100, 0); (1, 1)]%Q (Some [true; false])) as [out|] eqn:E;
    [|vm_compute in E; discriminate].
  exists argmin, ex_im, [(-100, 0); (1, 1)]%Q, [true; false], out, 1, 2.
  split; [exact argmin_ok|]. split; [split; cbn; lia|]. split; [reflexivity|]. split; [exact E|].
  split; [unfold inside; cbn; lia|]. split.
  - intros i [c [C N]]. destruct i as [|[|i]]; [|reflexivity|destruct i; discriminate].
    cbn in C. injection C as <-. specialize (N (1, 1)%Q (or_intror (or_introl eq_refl))). vm_compute in N. exfalso. apply N. reflexivity.
  - vm_compute in E. injection E as <-. vm_compute. discriminate.
Qed.
Print Assumptions C98_mask_refuted.

(* ------------------------------------------------------------------ *)
(** * C99: regular grids of points *)

Theorem C99_grid : forall rng child uniforms permutation keep_draw (a b : rng -> nat -> list Z) images r, images_ok images ->
  (forall r n, length (a r n) = n) -> (forall r n, length (b r n) = n) ->
  exists pts, sample_points rng child uniforms permutation keep_draw (SGrid rng a b) images r = Ok pts /\
  length pts = length (pshapes images) /\
  forall k s, nth_error (pshapes images) k = Some s ->
  exists nr nc dr dc ps, nth_error (a (child r 0) (length (pshapes images))) k = Some dr /\
    nth_error (b (child r 1) (length (pshapes images))) k = Some dc /\
    limited dr (fst s) nr /\ limited dc (snd s) nc /\ nth_error pts k = Some ps /\ is_grid s nr nc ps.
Proof. exact grid_rows. Qed.
Print Assumptions C99_grid.

Theorem C99_relative_grid : forall rng child uniforms permutation keep_draw (a b : rng -> nat -> list Q) images r, images_ok images ->
  (forall r n, length (a r n) = n) -> (forall r n, length (b r n) = n) ->
  exists pts, sample_points rng child uniforms permutation keep_draw (SRel rng a b) images r = Ok pts /\
  length pts = length (pshapes images) /\
  forall k s, nth_error (pshapes images) k = Some s ->
  exists nr nc fr fc zr zc ps, nth_error (a (child r 0) (length (pshapes images))) k = Some fr /\
    nth_error (b (child r 1) (length (pshapes images))) k = Some fc /\
    rounded (fr * inject_Z (fst s)) zr /\ rounded (fc * inject_Z (snd s)) zc /\
    limited zr (fst s) nr /\ limited zc (snd s) nc /\ nth_error pts k = Some ps /\ is_grid s nr nc ps.
Proof. exact rel_rows. Qed.
Print Assumptions C99_relative_grid.

(** The Voronoi cells of a complete grid are the equal rectangles. *)
Theorem C99_rectangles : forall s nr nc pts j i p, 0 < fst s -> 0 < snd s -> is_grid s nr nc pts ->
  0 <= j < nr -> 0 <= i < nc -> in_rectangle s nr nc j i p ->
  forall k, nearest pts p k <-> k = Z.to_nat (j * nc + i).
Proof. exact grid_cells. Qed.
Print Assumptions C99_rectangles.

(** Generators for the examples: no randomness. *)
Definition ex_child (r : unit) (_ : Z) : unit := r.
Definition ex_uni (_ : unit) (n : nat) : list Q := repeat (1#3) n.
Definition ex_perm (_ : unit) (n : nat) : list nat := rev (seq 0 n).
Definition ex_keep (p : pkeep) (_ : unit) (n : nat) : list bool :=
  match p with
  | KeepBinom q => repeat (qltb (1#2) q) n
  | _ => map (fun i => Nat.even i) (seq 0 n)
  end.
Definition ex_run := sample_points unit ex_child ex_uni ex_perm ex_keep.
Definition ex_images : pimages := PList [(3, (4, 6)); (3, (1, 8))].
Example ex_images_ok : images_ok ex_images.
Proof.
  split; [discriminate|]. split; [intros s [<-|[<-|[]]]; cbn; lia|]. intros i [<-|[<-|[]]]; reflexivity.
Qed.
Example ex_draws_ok : draws_ok ex_uni ex_perm ex_keep.
Proof.
  split; [|split].
  - intros r n. split; [apply repeat_length|]. intros u U. apply repeat_spec in U. subst. split; discriminate.
  - intros r n. apply Permutation_sym, Permutation_rev.
  - intros [q|a b|] r n; cbn; [apply repeat_length|rewrite map_length; apply seq_length|rewrite map_length; apply seq_length].
Qed.
Example C99_case : exists pts, ex_run (SGrid unit (fun _ n => repeat 2 n) (fun _ n => repeat 3 n)) ex_images tt = Ok pts /\
  map (@length point) pts = [6%nat; 3%nat] /\
  point_eq (nth 4 (nth 0 pts []) (0, 0)%Q) (3, 3)%Q.
Proof. eexists. split; [vm_compute; reflexivity|]. split; [reflexivity|]. split; reflexivity. Qed.
Example C99_rectangle : in_rectangle (4, 6) 2 3 1 1 (centre 2 3) /\ is_grid (4, 6) 2 3 (point_grid (4, 6) 2 3).
Proof. split; [repeat split; reflexivity|]. apply point_grid_ok; cbn; lia. Qed.

(* ------------------------------------------------------------------ *)
(** * C100: all samplers *)

(** However samplers are nested: one list of points per image, all points on the
    image plane, and never an empty list unless subsampling asks for it. *)
Theorem C100_samplers : forall rng child uniforms permutation keep_draw m (s : sampler rng) images r,
  draws_ok uniforms permutation keep_draw -> sampler_ok m s -> images_ok images ->
  exists pts, sample_points rng child uniforms permutation keep_draw s images r = Ok pts /\
    Forall2 (row_ok (1 <= m)) (pshapes images) pts.
Proof. intros. apply run_ok; assumption. Qed.
Print Assumptions C100_samplers.

(** No image at all or an image that is not (H, W, C) is rejected. *)
Theorem C100_rejects : forall rng child uniforms permutation keep_draw (s : sampler rng) images r,
  pshapes images = [] \/
    match images with PList l => exists i, In i l /\ fst i <> 3 | PArray nd _ _ => nd <> 4 end ->
  sample_points rng child uniforms permutation keep_draw s images r = Err AssertionError.
Proof. intros. apply run_bad, verify_bad. assumption. Qed.
Print Assumptions C100_rejects.

Definition ex_nested : sampler unit :=
  SSub unit (SDropout unit (SRel unit (fun _ n => repeat (1#2) n) (fun _ n => repeat (1#2) n)) KeepParam) 2.
Example C100_case : exists pts, ex_run ex_nested ex_images tt = Ok pts /\ map (@length point) pts = [2%nat; 2%nat].
Proof. eexists. split; [vm_compute; reflexivity|reflexivity]. Qed.
Example C100_case_ok : sampler_ok 1 ex_nested.
Proof. cbn. repeat split; intros; try apply repeat_length; lia. Qed.

(* ------------------------------------------------------------------ *)
(** * C101: uniformly distributed points *)

(** Image [k] gets max(1, drawn number) points; each of them uses two uniform
    samples of its own, scaled to the image and rounded. *)
Theorem C101_uniform : forall rng child uniforms permutation keep_draw images (n_points : rng -> nat -> list Z) r,
  draws_ok uniforms permutation keep_draw -> images_ok images -> (forall r n, length (n_points r n) = n) ->
  exists pts us, sample_points rng child uniforms permutation keep_draw (SUniform rng n_points) images r = Ok pts /\
  length pts = length (pshapes images) /\ (forall u, In u us -> (0 <= u <= 1)%Q) /\
  forall k s d, nth_error (pshapes images) k = Some s ->
    nth_error (n_points (child r 0) (length (pshapes images))) k = Some d ->
    let before := fold_right Z.add 0 (firstn k (map (fun v => Z.max v 1) (n_points (child r 0) (length (pshapes images))))) in
    exists ps, nth_error pts k = Some ps /\ Z.of_nat (length ps) = Z.max d 1 /\
      forall j, 0 <= j < Z.max d 1 -> exists u v X Y,
        nth_error us (Z.to_nat (2 * (before + j))) = Some u /\
        nth_error us (Z.to_nat (2 * (before + j) + 1)) = Some v /\
        nth_error ps (Z.to_nat j) = Some (inject_Z X, inject_Z Y) /\
        rounded (u * inject_Z (snd s)) X /\ rounded (v * inject_Z (fst s)) Y /\ 0 <= X <= snd s /\ 0 <= Y <= fst s.
Proof.
  intros rng child uniforms permutation keep_draw images n_points r D IO NP.
  destruct (uniform_rows rng child uniforms permutation keep_draw images n_points r D IO NP) as [pts [us [R [L [U P]]]]].
  exists pts, us. split; [exact R|]. split; [exact L|]. split; [exact U|]. intros k s d S K before.
  destruct (P k s d S K) as [ps [E [LE J]]]. exists ps. split; [exact E|]. split; [exact LE|]. intros j JR.
  destruct (J j JR) as [u [v [E1 [E2 E3]]]]. destruct IO as [_ [POS _]]. destruct (POS s (nth_error_In _ _ S)) as [H W].
  destruct (abs_point_ok s u v H W) as [X [Y [A [B [C [F G]]]]]]; [apply U; eapply nth_error_In; exact E1|apply U; eapply nth_error_In; exact E2|].
  exists u, v, X, Y. rewrite A in E3. auto 10.
Qed.
Print Assumptions C101_uniform.

Example C101_case : ex_run (SUniform unit (fun _ n => repeat 2 n)) ex_images tt = Ok [[(2, 1); (2, 1)]; [(3, 0); (3, 0)]]%Q.
Proof. vm_compute. reflexivity. Qed.

(* ------------------------------------------------------------------ *)
(** * C102: dropping points *)

(** If at least one point of an image is kept exactly the kept points remain in
    their order, otherwise exactly the middle point; an image without points
    stays without. *)
Theorem C102_kept : forall rng child uniforms permutation keep_draw (o : sampler rng) p images r out,
  draws_ok uniforms permutation keep_draw ->
  sample_points rng child uniforms permutation keep_draw (SDropout rng o p) images r = Ok out ->
  exists pts, sample_points rng child uniforms permutation keep_draw o images (child r 0) = Ok pts /\
  length out = length pts /\
  forall k ps, nth_error pts k = Some ps ->
  let keep := keep_draw p (child (child r 1) (Z.of_nat k)) (length ps) in
  exists qs, nth_error out k = Some qs /\
    (In true keep -> kept_exactly ps keep qs) /\
    (~ In true keep -> ps <> [] ->
       exists q, nth_error ps (Z.to_nat ((Z.of_nat (length ps) - 1) / 2)) = Some q /\ qs = [q]) /\
    (ps = [] -> qs = []) /\ subsequence qs ps /\ (ps <> [] -> qs <> []).
Proof.
  intros rng child uniforms permutation keep_draw o p images r out D R.
  destruct (dropout_rows _ _ _ _ _ o p images r out D R) as [pts [R' [L P]]]. exists pts. split; [exact R'|]. split; [exact L|].
  intros k ps K keep. eexists. split; [apply P, K|]. apply dropout_spec. apply D.
Qed.
Print Assumptions C102_kept.

(** Assumption about Binomial: probability 1 always gives 1, probability 0 never. *)
Definition binomial_ok {rng} (keep_draw : pkeep -> rng -> nat -> list bool) : Prop :=
  forall r n, (forall q, (q == 1)%Q -> keep_draw (KeepBinom q) r n = repeat true n) /\
              (forall q, (q == 0)%Q -> keep_draw (KeepBinom q) r n = repeat false n).

(** p_drop = 0 keeps all points, p_drop = 1 leaves one point per image. *)
Theorem C102_extremes : forall rng child uniforms permutation keep_draw (o : sampler rng) p keep images r out pts,
  draws_ok uniforms permutation keep_draw -> binomial_ok keep_draw ->
  convert_p_drop (DropNum p) = Ok keep ->
  sample_points rng child uniforms permutation keep_draw (SDropout rng o keep) images r = Ok out ->
  sample_points rng child uniforms permutation keep_draw o images (child r 0) = Ok pts ->
  ((p == 0)%Q -> out = pts) /\
  ((p == 1)%Q -> forall k ps, nth_error pts k = Some ps -> ps <> [] ->
     exists q, nth_error ps (Z.to_nat ((Z.of_nat (length ps) - 1) / 2)) = Some q /\ nth_error out k = Some [q]).
Proof.
  intros rng child uniforms permutation keep_draw o p keep images r out pts D B C R R0. cbn in C. injection C as <-.
  destruct (dropout_rows _ _ _ _ _ o _ images r out D R) as [pts' [R' [L P]]]. rewrite R0 in R'. injection R' as <-. split.
  - intro P0. apply nth_ext with (d := []) (d' := []); [exact L|]. intros k K. rewrite L in K.
    destruct (nth_in_range pts k K) as [ps PS]. specialize (P k ps PS).
    rewrite (nth_error_nth _ _ _ P), (nth_error_nth _ _ _ PS).
    destruct (B (child (child r 1) (Z.of_nat k)) (length ps)) as [B1 _]. rewrite B1 by (rewrite P0; reflexivity).
    destruct ps as [|a ps]; [reflexivity|]. unfold apply_dropout. cbn [length repeat existsb orb].
    change (true :: repeat true (length ps)) with (repeat true (length (a :: ps))). rewrite kept_all, firstn_all. reflexivity.
  - intros P1 k ps PS NE. specialize (P k ps PS). rewrite P.
    destruct (B (child (child r 1) (Z.of_nat k)) (length ps)) as [_ B0]. rewrite B0 by (rewrite P1; reflexivity).
    destruct (dropout_spec ps (repeat false (length ps)) (repeat_length _ _)) as [_ [M _]].
    destruct M as [q [Q E]]; [intro I; apply repeat_spec in I; discriminate|exact NE|].
    exists q. split; [exact Q|]. rewrite E. reflexivity.
Qed.
Print Assumptions C102_extremes.

(** The argument p_drop: a tuple (a, b) needs 0 <= a < b <= 1 and the points are
    then kept with a probability from [1 - b, 1 - a]. *)
Theorem C102_argument : forall a b,
  ((0 <= a)%Q /\ (a < b)%Q /\ (b <= 1)%Q -> convert_p_drop (DropIter [a; b]) = Ok (KeepBinomUniform (1 - b) (1 - a))) /\
  (~ ((0 <= a)%Q /\ (a < b)%Q /\ (b <= 1)%Q) -> convert_p_drop (DropIter [a; b]) = Err AssertionError) /\
  (forall l, length l <> 2%nat -> convert_p_drop (DropIter l) = Err AssertionError) /\
  (forall p, convert_p_drop (DropNum p) = Ok (KeepBinom (1 - p))) /\
  convert_p_drop DropParam = Ok KeepParam /\ convert_p_drop DropOther = Err GenericException.
Proof.
  intros a b. split; [|split; [|split; [|auto]]].
  - intros [A [L B]]. cbn. rewrite (proj2 (qltb_iff a b) L). cbn.
    rewrite (proj2 (qleb_iff 0 a) A), (proj2 (qleb_iff b 1) B), (proj2 (qleb_iff a 1)), (proj2 (qleb_iff 0 b)) by lra. reflexivity.
  - intro N. cbn. destruct (qltb a b) eqn:L; [|reflexivity]. cbn. apply qltb_iff in L.
    destruct (qleb 0 a && qleb a 1 && (qleb 0 b && qleb b 1)) eqn:E; [|reflexivity]. exfalso. apply N.
    rewrite !andb_true_iff, !qleb_iff in E. tauto.
  - intros [|x [|y [|z l]]] N; try reflexivity. exfalso. apply N. reflexivity.
Qed.
Print Assumptions C102_argument.

Example C102_binomial : binomial_ok ex_keep.
Proof.
  intros r n. split; intros q Q; cbn; f_equal; [apply qltb_iff; rewrite Q; reflexivity|].
  destruct (qltb (1#2) q) eqn:E; [|reflexivity]. apply qltb_iff in E. rewrite Q in E. discriminate.
Qed.
Example C102_case : ex_run (SDropout unit (SUniform unit (fun _ n => repeat 3 n)) (KeepBinom 0)) ex_images tt = Ok [[(2, 1)]; [(3, 0)]]%Q.
Proof. vm_compute. reflexivity. Qed.

(* ------------------------------------------------------------------ *)
(** * C103: subsampling *)

(** min(n, number of points) different points of the other sampler remain; all of
    them, unchanged, if there are not too many. *)
Theorem C103_subsample : forall rng child uniforms permutation keep_draw (o : sampler rng) n images r out,
  draws_ok uniforms permutation keep_draw -> 0 <= n ->
  sample_points rng child uniforms permutation keep_draw (SSub rng o n) images r = Ok out ->
  exists pts, sample_points rng child uniforms permutation keep_draw o images (child r (Z.of_nat (length (pshapes images)))) = Ok pts /\
  length out = length pts /\
  forall k ps, nth_error pts k = Some ps -> exists qs, nth_error out k = Some qs /\
    chosen_from ps qs /\ Z.of_nat (length qs) = Z.min n (Z.of_nat (length ps)) /\
    (Z.of_nat (length ps) <= n -> qs = ps).
Proof.
  intros rng child uniforms permutation keep_draw o n images r out D N R.
  destruct (sub_rows _ _ _ _ _ o n images r out R) as [pts [R' [L P]]]. exists pts. split; [exact R'|]. split; [exact L|].
  intros k ps K. eexists. split; [apply P, K|]. unfold clip_max. rewrite Z.max_l by lia.
  destruct (subsample_spec ps n (permutation (child r (Z.of_nat k)) (length ps))) as [A [B [_ C]]]; [apply D|lia|].
  split; [exact A|]. split; [apply B, N|]. intro. apply C; assumption.
Qed.
Print Assumptions C103_subsample.

Example C103_case : ex_run (SSub unit (SGrid unit (fun _ n => repeat 2 n) (fun _ n => repeat 2 n)) 3) (PList [(3, (4, 4))]) tt
  = ex_run (SSub unit (SGrid unit (fun _ n => repeat 2 n) (fun _ n => repeat 2 n)) 3) (PArray 4 1 (4, 4)) tt /\
  match ex_run (SSub unit (SGrid unit (fun _ n => repeat 2 n) (fun _ n => repeat 2 n)) 3) (PList [(3, (4, 4))]) tt with
  | Ok [l] => length l = 3%nat | _ => False end.
Proof. vm_compute. split; reflexivity. Qed.

(** A negative maximum is accepted; it does not limit anything but removes one
    point. *)
Theorem C103_negative_refuted : exists o n images out, n < 0 /\
  ex_run (SSub unit o n) images tt = Ok out /\ exists ps, In ps out /\ n < 0 < Z.of_nat (length ps) /\ length ps = 3%nat.
Proof.
  exists (SGrid unit (fun _ n => repeat 2 n) (fun _ n => repeat 2 n)), (-5), (PList [(3, (4, 4))]).
  eexists. split; [lia|]. split; [vm_compute; reflexivity|]. eexists. split; [left; reflexivity|]. split; [cbn; lia|reflexivity].
Qed.
Print Assumptions C103_negative_refuted.

(* ------------------------------------------------------------------ *)
(** * C104: Voronoi *)

(** The result has the shape of the input. *)
Theorem C104_shape : forall cv2_resize kd points flags ms ip m, usable m -> thick m ms -> ip_in ip valid_ips = true -> kd_ok kd ->
  (forall s, exists cells, points s = Ok cells) -> (forall n, length (flags n) = n) ->
  exists out, voronoi_image cv2_resize kd true ms ip points flags m = Ok out /\
    i_shape out = i_shape m /\ i_nc out = i_nc m.
Proof. intros. apply voronoi_shape; assumption. Qed.
Print Assumptions C104_shape.

(** Images that are not reduced: the cells with a set flag get their average color. *)
Theorem C104_averages : forall cv2_resize kd points flags ms ip m cells, usable m -> fits m ms -> kd_ok kd ->
  points (i_shape m) = Ok cells -> cells <> [] -> length (flags (length cells)) = length cells ->
  exists px cell, voronoi_image cv2_resize kd true ms ip points flags m = Ok (mkImg (i_int32 m) (i_nc m) px) /\
    (forall y x, inside (i_px m) y x -> nearest cells (centre y x) (cell y x)) /\
    averaged (fun c => nth (Z.to_nat c) (flags (length cells)) false = true) (i_px m) (cell_map (i_px m) cell) px.
Proof. intros. apply voronoi_small; assumption. Qed.
Print Assumptions C104_averages.

Theorem C104_nothing_replaced : forall cv2_resize kd points flags ms ip m cells, usable m -> fits m ms -> kd_ok kd ->
  points (i_shape m) = Ok cells -> length (flags (length cells)) = length cells -> ~ In true (flags (length cells)) ->
  exists out, voronoi_image cv2_resize kd true ms ip points flags m = Ok out /\
    arr_eq (i_px out) (i_px m) /\ i_nc out = i_nc m.
Proof. intros. apply (voronoi_none cv2_resize kd points flags ms ip m cells); assumption. Qed.
Print Assumptions C104_nothing_replaced.

(** Images with a ratio of sides above [max_size] cannot be augmented. *)
Theorem C104_thin_images_raise : forall cv2_resize kd points flags ms ip m, usable m -> 0 < ms ->
  ms < Z.max (ah (i_px m)) (aw (i_px m)) ->
  Z.min (ah (i_px m)) (aw (i_px m)) * ms < Z.max (ah (i_px m)) (aw (i_px m)) ->
  (forall s, exists cells, points s = Ok cells) ->
  voronoi_image cv2_resize kd true (Some ms) ip points flags m = Err AssertionError.
Proof. intros. apply voronoi_thin; assumption. Qed.
Print Assumptions C104_thin_images_raise.

(** So the shape is not kept for all images. *)
Theorem C104_thin_refuted : exists cv2_resize kd points flags m, usable m /\ kd_ok kd /\
  (forall s, exists cells, points s = Ok cells) /\
  voronoi_image cv2_resize kd true (Some 128) (IS "linear"%string) points flags m = Err AssertionError.
Proof.
  exists (fun _ _ _ _ _ => 0), argmin, (fun _ => Ok [(0, 0)%Q]), (fun n => repeat true n), (mkImg false 3 (mkArr 1 300 (fun _ x => x))).
  assert (forall s : shape2, exists cells, (fun _ : shape2 => Ok [(0, 0)%Q]) s = Ok cells) as P by (intro; eexists; reflexivity).
  split; [repeat split|]. split; [exact argmin_ok|]. split; [exact P|].
  apply C104_thin_images_raise; [repeat split|lia|cbn; lia|cbn; lia|exact P].
Qed.
Print Assumptions C104_thin_refuted.

Example C104_case : exists m, usable m /\ thick m (Some 2) /\ ~ fits m (Some 2) /\ thick m (Some 3) /\ fits m (Some 3) /\
  exists px, voronoi_image (fun _ _ _ _ _ => 0) argmin true (Some 3) (IS "linear"%string) (fun _ => Ok [(0, 1); (3, 1)]%Q) (fun n => repeat true n) m
    = Ok (mkImg false 3 px) /\ map (fun p => apx px (fst p) (snd p)) (positions 2 3) = [5; 5; 7; 5; 5; 7].
Proof.
  exists (mkImg false 3 ex_im). split; [repeat split|]. split; [cbn; lia|]. split; [cbn; lia|]. split; [cbn; lia|]. split; [cbn; lia|].
  eexists. split; [reflexivity|]. vm_compute. reflexivity.
Qed.

(* ------------------------------------------------------------------ *)
(** * C105: Superpixels *)

Theorem C105_shape : forall cv2_resize slic samples numba k ms ip n m, usable m -> thick m ms -> ip_in ip valid_ips = true ->
  (forall n, length (samples n) = n) -> (forall s n y x, 0 <= apx (slic s n) y x) ->
  exists out, superpixels_image cv2_resize slic numba k ms ip n samples m = Ok out /\
    i_shape out = i_shape m /\ i_nc out = i_nc m.
Proof. intros. apply super_shape; assumption. Qed.
Print Assumptions C105_shape.

(** Images that are not reduced: segment [id] gets its average color iff sample
    number [id] (modulo the number of samples) exceeds 0.5. *)
Theorem C105_averages : forall cv2_resize slic samples numba k ms ip n m, usable m -> fits m ms -> k <> DBool ->
  (forall n, length (samples n) = n) -> (forall n q, In q (samples n) -> 0 <= q)%Q ->
  ids_ok (i_px m) (slic (i_shape m) (Z.max n 1)) -> no_gaps (i_px m) (slic (i_shape m) (Z.max n 1)) ->
  exists px, superpixels_image cv2_resize slic numba k ms ip n samples m = Ok (mkImg (i_int32 m) (i_nc m) px) /\
    averaged (fun id => exists q, nth_error (samples (Z.to_nat (Z.max n 1))) (Z.to_nat (id mod Z.max n 1)) = Some q /\ (1#2 < q)%Q)
      (i_px m) (slic (i_shape m) (Z.max n 1)) px.
Proof. intros. apply super_small; assumption. Qed.
Print Assumptions C105_averages.

Theorem C105_thin_images_raise : forall cv2_resize slic samples numba k ms ip n m, usable m -> 0 < ms ->
  ms < Z.max (ah (i_px m)) (aw (i_px m)) ->
  Z.min (ah (i_px m)) (aw (i_px m)) * ms < Z.max (ah (i_px m)) (aw (i_px m)) ->
  (exists q, In q (samples (Z.to_nat (Z.max n 1))) /\ (0 < q)%Q) ->
  superpixels_image cv2_resize slic numba k (Some ms) ip n samples m = Err AssertionError.
Proof. intros. apply super_thin; assumption. Qed.
Print Assumptions C105_thin_images_raise.

Theorem C105_thin_refuted : exists cv2_resize slic samples m, usable m /\
  superpixels_image cv2_resize slic true D8 (Some 128) (IS "linear"%string) 50 samples m = Err AssertionError.
Proof.
  exists (fun _ _ _ _ _ => 0), (fun s _ => mkArr (fst s) (snd s) (fun _ _ => 0)), (fun n => repeat 1%Q n), (mkImg false 3 (mkArr 1 300 (fun _ x => x))).
  split; [repeat split|]. apply C105_thin_images_raise; [repeat split|lia|cbn; lia|cbn; lia|].
  exists 1%Q. split; [|reflexivity]. left. reflexivity.
Qed.
Print Assumptions C105_thin_refuted.

Example C105_case : usable (mkImg false 3 ex_im) /\ fits (mkImg false 3 ex_im) (Some 128) /\
  exists px, superpixels_image (fun _ _ _ _ _ => 0) (fun _ _ => ex_seg) true D8 (Some 128) (IS "linear"%string) 2
    (fun n => map (fun i => if Nat.eqb i 0 then 0%Q else 1%Q) (seq 0 n)) (mkImg false 3 ex_im) = Ok (mkImg false 3 px) /\
    map (fun p => apx px (fst p) (snd p)) (positions 2 3) = [0; 1; 8; 8; 8; 8].
Proof. split; [repeat split|]. split; [cbn; lia|]. eexists. split; [reflexivity|]. vm_compute. reflexivity. Qed.
