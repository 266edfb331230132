(** Model of input normalization of heatmaps and segmentation maps
    (imgaug/augmentables/normalization.py), of batches
    (imgaug/augmentables/batches.py) and of augment() and augment_batches()
    (imgaug/augmenters/meta.py). No proofs here. *)
From Verif Require Import Prelude DtyModel MapModel NormModel PolyModel.

(** * Heatmaps and segmentation maps *)
(** Python values as they can occur as inputs, where [M] is HeatmapsOnImage or
    SegmentationMapsOnImage. [normalization.py:159-230, 1257-1296] *)
Inductive mv (M : Type) :=
| MNone | MNum (q : Q) | MArr (a : nd) | MObj (m : M) | MSeq (tuple : bool) (l : list (mv M)) | MOther.
Arguments MNone {M}. Arguments MNum {M}. Arguments MArr {M}. Arguments MObj {M}. Arguments MSeq {M}. Arguments MOther {M}.

(** The constructor, the array that is restored, copying, and the kinds of
    arrays that are accepted. [normalization.py:159-230, 589-669, 1057-1088] *)
Record mcls (M : Type) := mkMcls {
  m_make : nd -> list Z -> res M;
  m_get : M -> res nd;
  m_copy : M -> res M;
  m_kind : kind -> bool
}.
Arguments mkMcls {M}. Arguments m_make {M}. Arguments m_get {M}. Arguments m_copy {M}. Arguments m_kind {M}.
(** normalization.py:159-190, 589-626, 1057-1068; the default range is 0 to 1 (heatmaps.py:43). *)
Definition heat_cls : mcls heatmap :=
  mkMcls (fun a s => mk_heatmap a s 0 1) (fun h => Ok (hm_arr h)) hm_deepcopy
         (fun k => match k with KFloat => true | _ => false end).
(** normalization.py:193-230, 629-669, 1071-1088. *)
Definition seg_cls : mcls segmap :=
  mkMcls mk_segmap seg_get_arr (fun s => seg_copy s None)
         (fun k => match k with KInt | KUint | KBool => true | _ => false end).

(** find_first_nonempty (normalization.py:1214-1254), as in NormModel. *)
Fixpoint find_first_m {M} (attr : mv M) (parents : list (mv M)) {struct attr} : mv M * bool * list (mv M) :=
  match attr with
  | MSeq _ l =>
      (fix loop (l : list (mv M)) (deepest : mv M * bool * list (mv M)) : mv M * bool * list (mv M) :=
         match l with
         | [] => deepest
         | attr_i :: l' =>
             let '(nonempty, success, found) := find_first_m attr_i (parents ++ [attr]) in
             if success then (nonempty, success, found)
             else if Nat.ltb (length (snd deepest)) (length found)
             then loop l' (nonempty, success, found) else loop l' deepest
         end) l (MNone, false, parents)
  | _ => (attr, true, parents)
  end.
(** The part of a type string after the leading "iterable-". [normalization.py:1257-1296] *)
Inductive mleaf := MLEmpty | MLTuple | MLNone | MLArr (k : kind) | MLObj | MLOther.
(** normalization.py:1275 [is_single_number]. *)
Definition is_mnum {M} (v : mv M) : bool := match v with MNum _ => true | _ => false end.
(** _nonempty_info_to_type_str (normalization.py:1257-1296). *)
Definition type_of_m {M} (info : mv M * bool * list (mv M)) : res (nat * mleaf) :=
  let '(nonempty, success, parents) := info in
  let n := length parents in
  if Nat.ltb 4 n then Err AssertionError
  else if negb success then Ok (n, MLEmpty)
  else
    let only_numbers := match last parents MNone with
                        | MSeq true l => negb (Nat.eqb (length l) 0) && forallb is_mnum l
                        | _ => false
                        end in
    if only_numbers then Ok ((n - 1)%nat, MLTuple)
    else match nonempty with
         | MNone => Ok (O, MLNone)
         | MArr a => Ok (n, MLArr (kind_of (n_dt a)))
         | MObj _ => Ok (n, MLObj)
         | _ => Ok (n, MLOther)
         end.
(** estimate_normalization_type (normalization.py:1186-1189). *)
Definition estimate_m {M} (v : mv M) : res (nat * mleaf) := type_of_m (find_first_m v []).

(** The elements of a sequence as arrays of 3 dimensions (normalization.py:72-94, 181, 217) or as objects. *)
Definition m_seq {M} (v : mv M) : res (list (mv M)) := match v with MSeq _ l => Ok l | _ => Err TypeError_ end.
(** normalization.py:63-94. *)
Definition m_arr {M} (ndim : nat) (v : mv M) : res nd :=
  match v with
  | MArr a => if Nat.eqb (length (n_shape a)) ndim then Ok a else Err ValueError
  | _ => Err TypeError_
  end.
(** normalization.py:177, 190, 213, 230. *)
Definition m_obj {M} (v : mv M) : res M := match v with MObj m => Ok m | _ => Err TypeError_ end.
(** [[HeatmapsOnImage(attr_i, shape=shape_i) for attr_i, shape_i in zip(inputs, shapes)]].
    [normalization.py:173-176, 183-186, 206-211, 220-227] *)
Definition make_maps {M} (c : mcls M) (arrs : list nd) (shapes : option (list (list Z))) : res (option (list M)) :=
  do ss <- exactly (length arrs) shapes;
  do l <- mapM (fun p => m_make c (fst p) (snd p)) (combine arrs ss);
  Ok (Some l).

(** normalize_heatmaps (normalization.py:159-190) and normalize_segmentation_maps (193-230). *)
Definition mnormalize {M} (c : mcls M) (inputs : mv M) (shapes : option (list (list Z))) : res (option (list M)) :=
  do t <- estimate_m inputs;
  match t with
  | (O, MLNone) => Ok None
  | (O, MLArr k) =>
      if m_kind c k then do a <- m_arr 4 inputs; make_maps c (subarrays a) shapes else Err AssertionError
  | (O, MLObj) => do m <- m_obj inputs; Ok (Some [m])
  | (O, MLEmpty) => Ok None
  | (1%nat, MLArr k) =>
      if m_kind c k then do l <- m_seq inputs; do arrs <- mapM (m_arr 3) l; make_maps c arrs shapes
      else Err AssertionError
  | (1%nat, MLObj) => do l <- m_seq inputs; do ms <- mapM m_obj l; Ok (Some ms)
  | _ => Err AssertionError
  end.

(** Comparing dtypes. [dtypes.py:75-135] *)
Definition adt_eqb (a b : adt) : bool :=
  match a, b with
  | ABool, ABool => true
  | ANum x, ANum y => dtype_eqb x y
  | AObj, AObj => true
  | _, _ => false
  end.
(** restore_dtype_and_merge (normalization.py:1192-1202) of one array. Simplification:
    conversions between bool and numbers, which only occur for lists of mixed
    dtypes, raise. *)
Definition restore_map (d : adt) (a : nd) : res nd :=
  if adt_eqb (n_dt a) d then Ok a
  else match n_dt a, d with
       | ANum x, ANum y => do l <- restore_dtypes x y (n_flat a); Ok (mkNd d (n_shape a) l)
       | _, _ => Err GenericException
       end.
(** The same for a list of arrays. [normalization.py:1192-1202] *)
Definition restore_maps {M} (d : adt) (l : list nd) : res (mv M) :=
  do l' <- mapM (restore_map d) l;
  match merge d l' with Some a => Ok (MArr a) | None => Ok (MSeq false (map MArr l')) end.

(** invert_normalize_heatmaps (normalization.py:589-626) and invert_normalize_segmentation_maps (629-669). *)
Definition minvert {M} (c : mcls M) (n : option (list M)) (old : mv M) : res (mv M) :=
  do t <- estimate_m old;
  let isnone := match n with None => true | Some _ => false end in
  let ms := match n with None => Err TypeError_ | Some l => Ok l end in
  match t with
  | (O, MLNone) => if isnone then Ok MNone else Err AssertionError
  | (O, MLArr k) =>
      if m_kind c k
      then do l <- ms;
           match old with
           | MArr a =>
               if negb (Z.of_nat (length l) =? hd 0 (n_shape a)) then Err AssertionError
               else do arrs <- mapM (m_get c) l; restore_maps (n_dt a) arrs
           | _ => Err GenericException
           end
      else Err AssertionError
  | (O, MLObj) => do l <- ms; do m <- the_one l; Ok (MObj m)
  | (O, MLEmpty) => if isnone then Ok (MSeq false []) else Err AssertionError
  | (1%nat, MLArr k) =>
      if m_kind c k
      then do l <- ms;
           do d <- match find_first_m old [] with (MArr a, _, _) => Ok (n_dt a) | _ => Err GenericException end;
           do arrs <- mapM (m_get c) l; do r <- mapM (restore_map d) arrs; Ok (MSeq false (map MArr r))
      else Err AssertionError
  | (1%nat, MLObj) => do l <- ms; Ok (MSeq false (map MObj l))
  | _ => Err AssertionError
  end.

(** * Batches *)
(** The columns of an UnnormalizedBatch. [batches.py:143-163] *)
Record ucols := mkU {
  u_img : images; u_heat : mv heatmap; u_seg : mv segmap;
  u_kps : pv; u_bbs : pv; u_pol : tv; u_lin : tv
}.
(** The columns of a Batch or a _BatchInAugmentation. [batches.py:364-384, 660-674] *)
Record ncols := mkN {
  c_img : images; c_heat : option (list heatmap); c_seg : option (list segmap);
  c_kps : normalized; c_bbs : normalized; c_pol : pnorm; c_lin : pnorm
}.
(** All columns None. [batches.py:147-163, 367-384] *)
Definition u_none : ucols := mkU INone MNone MNone PNone PNone TNone TNone.
(** batches.py:367-384. *)
Definition n_none : ncols := mkN INone None None (NRaw PNone) (NRaw PNone) QNone QNone.

(** UnnormalizedBatch: the *_unaug and *_aug attributes and data. [batches.py:143-163] *)
Record ubatch (D : Type) := mkUb { ub_in : ucols; ub_out : ucols; ub_data : D }.
(** Batch. [batches.py:364-384] *)
Record nbatch (D : Type) := mkNb { nb_in : ncols; nb_out : ncols; nb_data : D }.
Arguments mkUb {D}. Arguments ub_in {D}. Arguments ub_out {D}. Arguments ub_data {D}.
Arguments mkNb {D}. Arguments nb_in {D}. Arguments nb_out {D}. Arguments nb_data {D}.

(** [attr is None]. [batches.py:202-206] *)
Definition u_is_none (u : ucols) : bool :=
  match u_img u, u_heat u, u_seg u, u_kps u, u_bbs u, u_pol u, u_lin u with
  | INone, MNone, MNone, PNone, PNone, TNone, TNone => true
  | _, _, _, _, _, _, _ => false
  end.
(** The shapes of the normalized images. [batches.py:212-215] *)
Definition image_shapes (v : images) : option (list (list Z)) :=
  match v with
  | IArr a => Some (map n_shape (subarrays a))
  | IList l => Some (map n_shape l)
  | _ => None
  end.

(** The columns of UnnormalizedBatch.to_normalized_batch (batches.py:211-234). *)
Definition normalize_cols (u : ucols) : res ncols :=
  do img <- normalize_images (u_img u);
  let shapes := image_shapes img in
  do heat <- mnormalize heat_cls (u_heat u) shapes;
  do seg <- mnormalize seg_cls (u_seg u) shapes;
  do kps <- normalize CKeypoint (u_kps u) shapes;
  do bbs <- normalize CBox (u_bbs u) shapes;
  do pol <- pnormalize CPoly (u_pol u) shapes;
  do lin <- pnormalize CLine (u_lin u) shapes;
  Ok (mkN img heat seg kps bbs pol lin).
(** to_normalized_batch (batches.py:186-234). *)
Definition to_normalized_batch {D} (b : ubatch D) : res (nbatch D) :=
  if negb (u_is_none (ub_out b)) then Err AssertionError
  else do n <- normalize_cols (ub_in b); Ok (mkNb n n_none (ub_data b)).

(** The columns restored by fill_from_augmented_normalized_batch_ (batches.py:260-275). *)
Definition restore_cols (n : ncols) (u : ucols) : res ucols :=
  do img <- invert_normalize_images (c_img n) (u_img u);
  do heat <- minvert heat_cls (c_heat n) (u_heat u);
  do seg <- minvert seg_cls (c_seg n) (u_seg u);
  do kps <- invert_normalize CKeypoint (c_kps n) (u_kps u);
  do bbs <- invert_normalize CBox (c_bbs n) (u_bbs u);
  do pol <- pinvert (c_pol n) (u_pol u);
  do lin <- pinvert (c_lin n) (u_lin u);
  Ok (mkU img heat seg kps bbs pol lin).
(** fill_from_augmented_normalized_batch_ (batches.py:236-276): in-place, keeps data. *)
Definition fill_ {D} (b : ubatch D) (n : nbatch D) : res (ubatch D) :=
  do out <- restore_cols (nb_out n) (ub_in b); Ok (mkUb (ub_in b) out (ub_data b)).
(** fill_from_augmented_normalized_batch (batches.py:278-327): a new batch with the data of [n]. *)
Definition fill {D E} (b : ubatch D) (n : nbatch E) : res (ubatch E) :=
  do out <- restore_cols (nb_out n) (ub_in b); Ok (mkUb (ub_in b) out (nb_data n)).

(** Copying an optional list of maps: utils.py:10-21 [copy_augmentables]. *)
Definition copy_maps {M} (c : mcls M) (o : option (list M)) : res (option (list M)) :=
  match o with None => Ok None | Some l => do l' <- mapM (m_copy c) l; Ok (Some l') end.
(** to_batch_in_augmentation (batches.py:453-477): copies of all columns. Copies of arrays,
    keypoints, boxes, polygons and line strings are equal to the original. *)
Definition in_augmentation {D} (b : nbatch D) : res ncols :=
  let n := nb_in b in
  do heat <- copy_maps heat_cls (c_heat n);
  do seg <- copy_maps seg_cls (c_seg n);
  Ok (mkN (c_img n) heat seg (c_kps n) (c_bbs n) (c_pol n) (c_lin n)).

(** ** augment_batch_ *)
(** The whole augmentation of a _BatchInAugmentation by one augmenter (meta.py:592-654,
    modelled in AugModel), including hooks. *)
Definition inner := ncols -> res ncols.
(** meta.py:553-673 on a Batch. *)
Definition augment_nbatch {D} (f : inner) (b : nbatch D) : res (nbatch D) :=
  do n <- in_augmentation b;
  do r <- f n;
  Ok (mkNb (nb_in b) r (nb_data b)).
(** meta.py:553-673 on an UnnormalizedBatch. *)
Definition augment_ubatch {D} (f : inner) (b : ubatch D) : res (ubatch D) :=
  do nb <- to_normalized_batch b;
  do r <- augment_nbatch f nb;
  fill_ b r.

(** ** augment() *)
(** The named arguments of augment(), and its results. [meta.py:1925-1928] *)
Inductive kwarg :=
| AImage (a : nd) | AImages (v : images) | AHeat (v : mv heatmap) | ASeg (v : mv segmap)
| AKps (v : pv) | ABbs (v : pv) | APol (v : tv) | ALin (v : tv) | AUnknown (name : Z).
(** The names. [meta.py:1925-1928] *)
Inductive key := YImage | YImages | YHeat | YSeg | YKps | YBbs | YPol | YLin | YUnknown (name : Z).
(** meta.py:1937. *)
Definition key_of (k : kwarg) : key :=
  match k with
  | AImage _ => YImage | AImages _ => YImages | AHeat _ => YHeat | ASeg _ => YSeg | AKps _ => YKps
  | ABbs _ => YBbs | APol _ => YPol | ALin _ => YLin | AUnknown n => YUnknown n
  end.
(** meta.py:1925-1928 [expected_keys_call]. *)
Definition known (k : kwarg) : bool := match k with AUnknown _ => false | _ => true end.
(** The batch built from the arguments: kwargs.get(name, None). [meta.py:1945-1952, 1988-1996] *)
Definition put (u : ucols) (k : kwarg) : ucols :=
  let '(mkU a b c d e f g) := u in
  match k with
  | AImage i => mkU (IList [i]) b c d e f g
  | AImages v => mkU v b c d e f g
  | AHeat v => mkU a v c d e f g
  | ASeg v => mkU a b v d e f g
  | AKps v => mkU a b c v e f g
  | ABbs v => mkU a b c d v f g
  | APol v => mkU a b c d e v g
  | ALin v => mkU a b c d e f v
  | AUnknown _ => u
  end.
(** meta.py:1988-1996. *)
Definition batch_of (kw : list kwarg) : ubatch unit := mkUb (fold_left put kw u_none) u_none tt.
(** meta.py:1945, 1946. *)
Definition has_image (kw : list kwarg) : bool := existsb (fun k => match k with AImage _ => true | _ => false end) kw.
(** meta.py:1946. *)
Definition has_images (kw : list kwarg) : bool := existsb (fun k => match k with AImages _ => true | _ => false end) kw.
(** [attr[0]] of the augmented images. [meta.py:2009-2010] *)
Definition first_image (v : images) : res nd :=
  match v with
  | IList (a :: _) => Ok a
  | IArr a => match subarrays a with x :: _ => Ok x | [] => Err IndexError end
  | IList [] => Err IndexError
  | _ => Err TypeError_
  end.
(** The result for one argument. [meta.py:2008-2012, 2015-2019] *)
Definition pick (u : ucols) (k : kwarg) : res kwarg :=
  match k with
  | AImage _ => do a <- first_image (u_img u); Ok (AImage a)
  | AImages _ => Ok (AImages (u_img u))
  | AHeat _ => Ok (AHeat (u_heat u))
  | ASeg _ => Ok (ASeg (u_seg u))
  | AKps _ => Ok (AKps (u_kps u))
  | ABbs _ => Ok (ABbs (u_bbs u))
  | APol _ => Ok (APol (u_pol u))
  | ALin _ => Ok (ALin (u_lin u))
  | AUnknown _ => Err GenericException
  end.
(** Position in [expected_keys] (meta.py:1925-1927); image= takes the place of images=. *)
Definition rank (k : kwarg) : nat :=
  match k with
  | AImage _ | AImages _ => 0 | AHeat _ => 1 | ASeg _ => 2 | AKps _ => 3 | ABbs _ => 4 | APol _ => 5 | ALin _ => 6
  | AUnknown _ => 7
  end.
(** Going through [expected_keys] instead of the arguments. [meta.py:2013-2019] *)
Definition standard_order (kw : list kwarg) : list kwarg :=
  flat_map (fun i => filter (fun k => Nat.eqb (rank k) i) kw) (seq 0 7).

(** What augment() returns: the batch, one value, or a tuple. [meta.py:2002-2023] *)
Inductive answer := RBatch (b : ubatch unit) | ROne (v : kwarg) | RTuple (l : list kwarg).
(** The images are None. [meta.py:1975] *)
Definition images_none (kw : list kwarg) : bool := match u_img (ub_in (batch_of kw)) with INone => true | _ => false end.
(** augment (meta.py:1920-2023). [py36]: is this Python 3.6 or newer? The warnings are left out. *)
Definition augment_call (py36 : bool) (f : inner) (return_batch : bool) (kw : list kwarg) : res answer :=
  if negb (existsb known kw) then Err AssertionError
  else if existsb (fun k => negb (known k)) kw then Err AssertionError
  else if has_image kw && has_images kw then Err AssertionError
  else if negb py36 && negb return_batch && Nat.ltb 2 (length kw) then Err ValueError
  else if negb py36 && negb return_batch && Nat.eqb (length kw) 2 && images_none kw then Err ValueError
  else
    do b <- augment_ubatch f (batch_of kw);
    if return_batch then Ok (RBatch b)
    else
      do l <- mapM (pick (ub_out b)) (if py36 then kw else standard_order kw);
      match l with [v] => Ok (ROne v) | _ => Ok (RTuple l) end.

(** ** augment_batches() *)
(** What may be given as a batch (meta.py:386-443), and what is returned for it. *)
Inductive bin (D : Type) :=
| BNorm (b : nbatch D) | BUnnorm (b : ubatch D) | BArr (a : nd) | BEmpty | BImgs (l : list nd)
| BHeats (l : list heatmap) | BSegs (l : list segmap) | BKps (l : list oi) | BBbs (l : list oi)
| BPols (l : list poi) | BLines (l : list poi) | BOtherList | BOther.
Arguments BNorm {D}. Arguments BUnnorm {D}. Arguments BArr {D}. Arguments BEmpty {D}. Arguments BImgs {D}.
Arguments BHeats {D}. Arguments BSegs {D}. Arguments BKps {D}. Arguments BBbs {D}. Arguments BPols {D}.
Arguments BLines {D}. Arguments BOtherList {D}. Arguments BOther {D}.
(** (idx, data) or (idx,). [meta.py:389, 394, 401-427] *)
Inductive idata (D : Type) := IPair (idx : Z) (d : D) | IIdx (idx : Z).
Arguments IPair {D}. Arguments IIdx {D}.
(** [data[0]]. [meta.py:511] *)
Definition idx_of {D} (d : idata D) : Z := match d with IPair i _ => i | IIdx i => i end.

(** Replacing one column of a batch without data. [meta.py:401-427] *)
Definition only {D} (n : ncols) (idx : Z) : nbatch (idata D) := mkNb n n_none (IIdx idx).
(** _normalize_batch (meta.py:385-456). The copies of lines 387 and 393 are equal to the original;
    the dtype string is the constructor of [bin]. *)
Definition normalize_batch {D} (idx : Z) (b : bin D) : res (nbatch (idata D)) :=
  match b with
  | BNorm b => Ok (mkNb (nb_in b) (nb_out b) (IPair idx (nb_data b)))
  | BUnnorm b => do n <- to_normalized_batch b; Ok (mkNb (nb_in n) (nb_out n) (IPair idx (nb_data n)))
  | BArr a =>
      if Nat.eqb (length (n_shape a)) 3 || Nat.eqb (length (n_shape a)) 4
      then Ok (only (mkN (IArr a) None None (NRaw PNone) (NRaw PNone) QNone QNone) idx)
      else Err AssertionError
  | BEmpty => Ok (only n_none idx)
  | BImgs l => Ok (only (mkN (IList l) None None (NRaw PNone) (NRaw PNone) QNone QNone) idx)
  | BHeats l => Ok (only (mkN INone (Some l) None (NRaw PNone) (NRaw PNone) QNone QNone) idx)
  | BSegs l => Ok (only (mkN INone None (Some l) (NRaw PNone) (NRaw PNone) QNone QNone) idx)
  | BKps l => Ok (only (mkN INone None None (NOis l) (NRaw PNone) QNone QNone) idx)
  | BBbs l => Ok (only (mkN INone None None (NRaw PNone) (NOis l) QNone QNone) idx)
  | BPols l => Ok (only (mkN INone None None (NRaw PNone) (NRaw PNone) (QOis l) QNone) idx)
  | BLines _ | BOtherList | BOther => Err GenericException
  end.

(** The data without the index. [meta.py:462, 465] *)
Definition unwrap {D} (d : idata D) : res D := match d with IPair _ x => Ok x | IIdx _ => Err IndexError end.
(** _unnormalize_batch (meta.py:458-487). *)
Definition unnormalize_batch {D} (r : nbatch (idata D)) (orig : bin D) : res (bin D) :=
  match orig with
  | BNorm _ => do d <- unwrap (nb_data r); Ok (BNorm (mkNb (nb_in r) (nb_out r) d))
  | BUnnorm b => do d <- unwrap (nb_data r); do u <- fill b (mkNb (nb_in r) (nb_out r) d); Ok (BUnnorm u)
  | BArr _ | BImgs _ =>
      match c_img (nb_out r) with IArr a => Ok (BArr a) | IList l => Ok (BImgs l) | _ => Err GenericException end
  | BEmpty => Ok BEmpty
  | BHeats _ => match c_heat (nb_out r) with Some l => Ok (BHeats l) | None => Err GenericException end
  | BSegs _ => match c_seg (nb_out r) with Some l => Ok (BSegs l) | None => Err GenericException end
  | BKps _ => match c_kps (nb_out r) with NOis l => Ok (BKps l) | _ => Err GenericException end
  | BBbs _ => match c_bbs (nb_out r) with NOis l => Ok (BBbs l) | _ => Err GenericException end
  | BPols _ => match c_pol (nb_out r) with QOis l => Ok (BPols l) | _ => Err GenericException end
  | BLines _ | BOtherList | BOther => Err GenericException
  end.

(** One iteration of the loop without background processes. [meta.py:489-499] *)
Definition one_batch {D} (f : inner) (idx : Z) (b : bin D) : res (bin D) :=
  do n <- normalize_batch idx b;
  do r <- augment_nbatch f n;
  unnormalize_batch r b.
(** augment_batches without background processes (meta.py:489-499). The k-th call of the
    augmenter is [f k], as augmenters are stateful. *)
Fixpoint batches_from {D} (f : nat -> inner) (k : nat) (bs : list (bin D)) : res (list (bin D)) :=
  match bs with
  | [] => Ok []
  | b :: bs' =>
      do x <- one_batch (f k) (Z.of_nat k) b;
      do l <- batches_from f (S k) bs';
      Ok (x :: l)
  end.
(** meta.py:489-499. *)
Definition augment_batches {D} (f : nat -> inner) (bs : list (bin D)) : res (list (bin D)) := batches_from f 0 bs.

(** With background processes: the loader takes the next batch ([ELoad]), or a
    result arrives from the pool ([ERecv]). [meta.py:500-521] *)
Inductive event (D : Type) := ELoad (b : bin D) | ERecv (r : nbatch (idata D)).
Arguments ELoad {D}. Arguments ERecv {D}.
(** The index of the next batch, id_to_batch_orig, the batches given to the pool, and what was
    yielded. [meta.py:500-521] *)
Record bstate (D : Type) := mkBst {
  s_next : Z; s_orig : list (Z * bin D); s_sent : list (nbatch (idata D)); s_out : list (bin D)
}.
Arguments mkBst {D}. Arguments s_next {D}. Arguments s_orig {D}. Arguments s_sent {D}. Arguments s_out {D}.
(** id_to_batch_orig[idx]. [meta.py:512-515] *)
Fixpoint lookup {D} (idx : Z) (l : list (Z * bin D)) : option (bin D) :=
  match l with [] => None | (i, b) :: l' => if i =? idx then Some b else lookup idx l' end.
(** del id_to_batch_orig[idx]. [meta.py:520] *)
Definition remove {D} (idx : Z) (l : list (Z * bin D)) : list (Z * bin D) :=
  filter (fun p => negb (fst p =? idx)) l.
(** One event. [meta.py:500-521] *)
Definition step {D} (s : bstate D) (e : event D) : res (bstate D) :=
  match e with
  | ELoad b =>
      do n <- normalize_batch (s_next s) b;
      Ok (mkBst (s_next s + 1) ((s_next s, b) :: remove (s_next s) (s_orig s)) (s_sent s ++ [n]) (s_out s))
  | ERecv r =>
      match lookup (idx_of (nb_data r)) (s_orig s) with
      | None => Err AssertionError
      | Some b =>
          do x <- unnormalize_batch r b;
          Ok (mkBst (s_next s) (remove (idx_of (nb_data r)) (s_orig s)) (s_sent s) (s_out s ++ [x]))
      end
  end.
(** meta.py:500-521. *)
Fixpoint steps {D} (s : bstate D) (es : list (event D)) : res (bstate D) :=
  match es with [] => Ok s | e :: es' => do s' <- step s e; steps s' es' end.
(** meta.py:500. *)
Definition bstart (D : Type) : bstate D := mkBst 0 [] [] [].
