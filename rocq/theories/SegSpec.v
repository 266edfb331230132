(** Vocabulary of the statements about segmentation.py; independent of the
    functions of the model (only its types of images and samplers are used). *)
From Verif Require Import Prelude GeoModel KeepModel SegModel.
From Coq Require Import Permutation.

(** (y, x) is a pixel of the image. *)
Definition inside {A} (a : arr A) (y x : Z) : Prop := 0 <= y < ah a /\ 0 <= x < aw a.

(** [ps] lists every pixel of the segment [id] exactly once. *)
Definition enumerates (im seg : arr Z) (id : Z) (ps : list (Z * Z)) : Prop :=
  NoDup ps /\ forall y x, In (y, x) ps <-> inside im y x /\ apx seg y x = id.

(** The values of an image at some pixels. *)
Definition values (im : arr Z) (ps : list (Z * Z)) : list Z := map (fun p => apx im (fst p) (snd p)) ps.
(** Their sum. *)
Definition total (l : list Z) : Z := fold_right Z.add 0 l.

(** [v] is the average of the values in segment [id], rounded towards zero. *)
Definition mean_of (im seg : arr Z) (id v : Z) : Prop :=
  exists ps, enumerates im seg id ps /\ ps <> [] /\
    v = Z.quot (total (values im ps)) (Z.of_nat (length ps)).

(** In [out] the segments with [chosen id] are replaced by their average color
    in [im], everything else is as in [im]. *)
Definition averaged (chosen : Z -> Prop) (im seg out : arr Z) : Prop :=
  ah out = ah im /\ aw out = aw im /\
  forall y x, inside im y x ->
    (chosen (apx seg y x) -> mean_of im seg (apx seg y x) (apx out y x)) /\
    (~ chosen (apx seg y x) -> apx out y x = apx im y x).

(** The flag number [i] (repeating the flags if there are too few); no flags:
    everything is chosen. *)
Definition wanted (flags : option (list bool)) (i : Z) : Prop :=
  match flags with
  | None => True
  | Some f => nth (Z.to_nat (i mod Z.of_nat (length f))) f false = true
  end.

(** The id occurs in the map of segments. *)
Definition occurs (im seg : arr Z) (id : Z) : Prop := exists y x, inside im y x /\ apx seg y x = id.

(** [r] smaller ids than [id] occur in the map. *)
Definition rank_of (im seg : arr Z) (id r : Z) : Prop :=
  exists l, NoDup l /\ (forall v, In v l <-> v < id /\ occurs im seg v) /\ r = Z.of_nat (length l).

(** Ids are at least 0. *)
Definition ids_ok (im seg : arr Z) : Prop := forall y x, inside im y x -> 0 <= apx seg y x.
(** No id below the largest one is missing. *)
Definition no_gaps (im seg : arr Z) : Prop :=
  forall i j, occurs im seg i -> 0 <= j <= i -> occurs im seg j.

(* ------------------------------------------------------------------ *)

(** Squared distance of points (x, y). *)
Definition dist2 (p q : point) : Q :=
  ((fst p - fst q) * (fst p - fst q) + (snd p - snd q) * (snd p - snd q))%Q.
(** The centre of a pixel. *)
Definition centre (y x : Z) : point := (inject_Z x + (1#2), inject_Z y + (1#2))%Q.

(** [i] is the number of a cell to which no other cell is strictly closer. *)
Definition nearest (cells : list point) (p : point) (i : nat) : Prop :=
  exists c, nth_error cells i = Some c /\ forall d, In d cells -> (dist2 c p <= dist2 d p)%Q.

(** Assumption about the KD tree: it returns a nearest cell. *)
Definition kd_ok (q : list point -> point -> nat) : Prop :=
  forall cells p, cells <> [] -> nearest cells p (q cells p).

(* ------------------------------------------------------------------ *)

(** Equal points. *)
Definition point_eq (p q : point) : Prop := (fst p == fst q)%Q /\ (snd p == snd q)%Q.

(** The point lies on the image plane. *)
Definition on_plane (s : shape2) (p : point) : Prop :=
  (0 <= fst p <= inject_Z (snd s))%Q /\ (0 <= snd p <= inject_Z (fst s))%Q.

(** The point in row [j] and column [i] of a grid of [nr] rows and [nc] columns:
    the centre of one of [nr]*[nc] equal rectangles covering the image. *)
Definition grid_point (s : shape2) (nr nc j i : Z) : point :=
  ((inject_Z i + (1#2)) * inject_Z (snd s) / inject_Z nc,
   (inject_Z j + (1#2)) * inject_Z (fst s) / inject_Z nr)%Q.

(** The points of a grid, row by row. *)
Definition is_grid (s : shape2) (nr nc : Z) (pts : list point) : Prop :=
  Z.of_nat (length pts) = nr * nc /\
  forall j i, 0 <= j < nr -> 0 <= i < nc ->
    exists p, nth_error pts (Z.to_nat (j * nc + i)) = Some p /\ point_eq p (grid_point s nr nc j i).

(** The point lies in the interior of that rectangle. *)
Definition in_rectangle (s : shape2) (nr nc j i : Z) (p : point) : Prop :=
  (inject_Z i * inject_Z (snd s) / inject_Z nc < fst p
     < (inject_Z i + 1) * inject_Z (snd s) / inject_Z nc)%Q /\
  (inject_Z j * inject_Z (fst s) / inject_Z nr < snd p
     < (inject_Z j + 1) * inject_Z (fst s) / inject_Z nr)%Q.

(** A value limited to the interval from 1 to the size of the axis (at least 1). *)
Definition limited (n size c : Z) : Prop :=
  (n <= 1 -> c = 1) /\ (size <= 1 -> c = 1) /\
  (1 <= n -> 1 <= size -> (n <= size -> c = n) /\ (size <= n -> c = size)).

(** [q] is a nearest integer. *)
Definition rounded (q : Q) (n : Z) : Prop := (inject_Z n - (1#2) <= q <= inject_Z n + (1#2))%Q.

(** [small] is obtained from [l] by removing elements. *)
Inductive subsequence {A} : list A -> list A -> Prop :=
| sub_nil : subsequence [] []
| sub_keep : forall a s l, subsequence s l -> subsequence (a :: s) (a :: l)
| sub_drop : forall a s l, subsequence s l -> subsequence s (a :: l).

(** The elements of [l] at the positions where [keep] is true, in order. *)
Definition kept_exactly {A} (l : list A) (keep : list bool) (out : list A) : Prop :=
  exists is, out = map snd is /\
    is = filter (fun im => nth (fst im) keep false) (combine (seq 0 (length l)) l).

(** [out] consists of elements of [l] at pairwise different positions. *)
Definition chosen_from {A} (l out : list A) : Prop :=
  exists is, NoDup is /\ Forall2 (fun i a => nth_error l i = Some a) is out.

(* ------------------------------------------------------------------ *)

(** The map of the numbers of cells of the pixels. *)
Definition cell_map (im : arr Z) (cell : Z -> Z -> nat) : arr Z :=
  mkArr (ah im) (aw im) (fun y x => Z.of_nat (cell y x)).

(** Assumptions about the random number generator: uniform samples lie in [0, 1],
    permutations are permutations, as many samples as asked for are drawn. *)
Definition draws_ok {rng} (uniforms : rng -> nat -> list Q) (permutation : rng -> nat -> list nat)
  (keep_draw : pkeep -> rng -> nat -> list bool) : Prop :=
  (forall r n, length (uniforms r n) = n /\ forall u, In u (uniforms r n) -> (0 <= u <= 1)%Q) /\
  (forall r n, Permutation (permutation r n) (seq 0 n)) /\
  (forall p r n, length (keep_draw p r n) = n).

(** The parameters of a sampler draw as many values as asked for; [m] is a lower
    bound of all values of [n_points_max] in it. *)
Fixpoint sampler_ok {rng} (m : Z) (s : sampler rng) : Prop :=
  match s with
  | SGrid _ a b => (forall r n, length (a r n) = n) /\ (forall r n, length (b r n) = n)
  | SRel _ a b => (forall r n, length (a r n) = n) /\ (forall r n, length (b r n) = n)
  | SDropout _ o _ => sampler_ok m o
  | SUniform _ a => forall r n, length (a r n) = n
  | SSub _ o k => sampler_ok m o /\ m <= k
  end.

(** At least one image, all of them (H, W, C). *)
Definition images_ok (p : pimages) : Prop :=
  pshapes p <> [] /\ (forall s, In s (pshapes p) -> 0 <= fst s /\ 0 <= snd s) /\
  match p with PList l => forall i, In i l -> fst i = 3 | PArray nd _ _ => nd = 4 end.

(** Points of one image: all on the image plane and, if [ne], at least one. *)
Definition row_ok (ne : Prop) (s : shape2) (ps : list point) : Prop :=
  Forall (on_plane s) ps /\ (ne -> ps <> []).

(** An image with pixels whose dtype can be resized. *)
Definition usable (m : img) : Prop :=
  0 < ah (i_px m) /\ 0 < aw (i_px m) /\ 0 < i_nc m /\ i_int32 m = false.

(** The image is not larger than [max_size]. *)
Definition fits (m : img) (max_size : option Z) : Prop :=
  match max_size with None => True | Some ms => let '(h, w) := i_shape m in Z.max h w <= ms end.

(** The image stays non-empty when its longer side is reduced to [max_size]. *)
Definition thick (m : img) (max_size : option Z) : Prop :=
  match max_size with
  | None => True
  | Some ms => let '(h, w) := i_shape m in
      Z.max h w <= ms \/ (0 < ms /\ Z.max h w <= Z.min h w * ms)
  end.
