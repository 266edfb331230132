(** Vocabulary of the statements about heatmap and segmentation map inputs,
    augment() and augment_batches(). *)
From Verif Require Import Prelude DtyModel MapModel MapSpec NormModel NormSpec PolyModel PolySpec ApiModel.

(** * Contents of arrays *)
(** Shape and values, without the dtype. *)
Notation content := (list Z * list Q)%type.
Definition as_array (d : adt) (c : content) : nd := mkNd d (fst c) (snd c).
Definition content_of (a : nd) : content := (n_shape a, n_flat a).
(** Changing shape and values of an array. *)
Definition on_content (g : content -> content) (a : nd) : nd := as_array (n_dt a) (g (content_of a)).

(** A list of arrays of one dtype is one array if all have the same shape. *)
Definition same_shape (l : list content) : Prop := forall a b, In a l -> In b l -> fst a = fst b.
Fixpoint zs_eqb (a b : list Z) : bool :=
  match a, b with
  | [], [] => true
  | x :: a', y :: b' => (x =? y) && zs_eqb a' b'
  | _, _ => false
  end.
Definition same_shapeb (l : list content) : bool :=
  match l with [] => true | a :: l' => forallb (fun b => zs_eqb (fst b) (fst a)) l' end.

(** * Heatmaps and segmentation maps *)
Inductive mform (M : Type) :=
| WNone
| WEmpty                                            (* empty list *)
| WArray (d : adt) (s : list Z) (l : list (list Q)) (* (N,H,W,C) array *)
| WArrays (d : adt) (l : list content)              (* list of (H,W,C) arrays *)
| WObj (m : M)
| WObjs (l : list M).
Arguments WNone {M}. Arguments WEmpty {M}. Arguments WArray {M}. Arguments WArrays {M}.
Arguments WObj {M}. Arguments WObjs {M}.

Definition stacked (d : adt) (s : list Z) (l : list (list Q)) : nd := mkNd d (Z.of_nat (length l) :: s) (concat l).
Definition to_mv {M} (v : mform M) : mv M :=
  match v with
  | WNone => MNone
  | WEmpty => MSeq false []
  | WArray d s l => MArr (stacked d s l)
  | WArrays d l => MSeq false (map (fun c => MArr (as_array d c)) l)
  | WObj m => MObj m
  | WObjs l => MSeq false (map MObj l)
  end.

(** Changing the content of every map. *)
Definition on_heat (g : content -> content) (h : heatmap) : heatmap :=
  mkHm (on_content g (hm_arr h)) (hm_shape h) (hm_min h) (hm_max h) (hm_2d h).
Definition on_seg (g : content -> content) (s : segmap) : segmap :=
  mkSeg (on_content g (sg_arr s)) (sg_shape s) (sg_dt s) (sg_ndim s).
Definition on_maps {M} (on : M -> M) (g : content -> content) (v : mform M) : mform M :=
  match v with
  | WNone => WNone
  | WEmpty => WEmpty
  | WArray d s l =>
      let r := map (fun q => g (s, q)) l in
      if same_shapeb r then WArray d (match r with [] => s | c :: _ => fst c end) (map snd r) else WArrays d r
  | WArrays d l => WArrays d (map g l)
  | WObj m => WObj (on m)
  | WObjs l => WObjs (map on l)
  end.
Definition all_maps {M} (on : M -> M) (n : option (list M)) : option (list M) :=
  match n with None => None | Some l => Some (map on l) end.

(** Valid maps: at least one pixel and channel, values from 0 to 1 in float32,
    or class indices of the dtype that are not negative. *)
Definition hwc (c : content) : Prop :=
  exists h w k, fst c = [h; w; k] /\ 0 < h /\ 0 < w /\ 0 < k /\ Z.of_nat (length (snd c)) = h * w * k.
Definition heat_content (d : adt) (c : content) : Prop :=
  d = ANum float32 /\ hwc c /\ Forall (fun v => 0 <= v <= 1)%Q (snd c).
Definition seg_content (d : adt) (c : content) : Prop :=
  segmap_dtype d /\ hwc c /\ Forall (fun v => value_of d v /\ 0 <= v)%Q (snd c).
Definition heat_object (h : heatmap) : Prop :=
  heat_content (n_dt (hm_arr h)) (content_of (hm_arr h)) /\ hm_min h = 0%Q /\ hm_max h = 1%Q /\
  (length (hm_shape h) = 2 \/ length (hm_shape h) = 3)%nat /\
  (hm_2d h = true -> nth 2 (n_shape (hm_arr h)) 0 = 1).
Definition seg_object (s : segmap) : Prop :=
  n_dt (sg_arr s) = ANum (DI 32) /\ hwc (content_of (sg_arr s)) /\ Forall (fun v => 0 <= v)%Q (n_flat (sg_arr s)).

(** A form all of whose maps are valid; [ok]: arrays, [obj]: objects. *)
Definition mwell {M} (ok : adt -> content -> Prop) (obj : M -> Prop) (v : mform M) : Prop :=
  match v with
  | WNone | WEmpty => True
  | WArray d s l => l <> [] /\ Forall (fun q => ok d (s, q)) l
  | WArrays d l => l <> [] /\ Forall (ok d) l
  | WObj m => obj m
  | WObjs l => l <> [] /\ Forall obj l
  end.
(** How many images are needed. *)
Definition mimages_needed {M} (v : mform M) : option nat :=
  match v with WArray _ _ l => Some (length l) | WArrays _ l => Some (length l) | _ => None end.
Definition good_shape (s : list Z) : Prop := (length s = 2 \/ length s = 3)%nat.
Definition menough {M} (v : mform M) (shapes : option (list (list Z))) : Prop :=
  match mimages_needed v with
  | None => True
  | Some n => exists l, shapes = Some l /\ length l = n /\ Forall good_shape l
  end.

(** * Images *)
Inductive iform :=
| VNone
| VSingle (d : adt) (h w : Z) (q : list Q)          (* (H,W) array *)
| VArray (d : adt) (s : list Z) (l : list (list Q)) (* (N,H,W) or (N,H,W,C) array *)
| VList (l : list (adt * content)).                 (* list of (H,W) or (H,W,C) arrays *)
Definition arr_of (p : adt * content) : nd := as_array (fst p) (snd p).
Definition to_images (v : iform) : images :=
  match v with
  | VNone => INone
  | VSingle d h w q => IArr (mkNd d [h; w] q)
  | VArray d s l => IArr (stacked d s l)
  | VList l => IList (map arr_of l)
  end.
(** Augmenters see (H,W) images as (H,W,1) images. *)
Definition on_image (g : content -> content) (c : content) : content :=
  match fst c with
  | [h; w] => let r := g ([h; w; 1], snd c) in (firstn 2 (fst r), snd r)
  | _ => g c
  end.
Definition on_images (g : content -> content) (v : iform) : iform :=
  match v with
  | VNone => VNone
  | VSingle d h w q =>
      let r := on_image g ([h; w], q) in VSingle d (nth 0 (fst r) 0) (nth 1 (fst r) 0) (snd r)
  | VArray d s l =>
      let r := map (fun q => on_image g (s, q)) l in
      if same_shapeb r then VArray d (match r with [] => s | c :: _ => fst c end) (map snd r)
      else VList (map (fun c => (d, c)) r)
  | VList l => VList (map (fun p => (fst p, on_image g (snd p))) l)
  end.
(** The same on normalized images; an array becomes a list if the images end up
    with different shapes. *)
Definition all_images (g : content -> content) (v : images) : images :=
  match v with
  | INone => INone
  | IArr a =>
      let r := map (fun b => g (content_of b)) (subarrays a) in
      if same_shapeb r
      then IArr (stacked (n_dt a) (match r with [] => tl (n_shape a) | c :: _ => fst c end) (map snd r))
      else IList (map (as_array (n_dt a)) r)
  | IList l => IList (map (on_content g) l)
  | IOther => IOther
  end.
(** Images have a non-negative size, and an image of one channel keeps it. *)
Definition image_ok (c : content) : Prop :=
  (exists h w, fst c = [h; w] /\ 0 <= h /\ 0 <= w /\ Z.of_nat (length (snd c)) = h * w) \/
  (exists h w k, fst c = [h; w; k] /\ 0 <= h /\ 0 <= w /\ 0 <= k /\ Z.of_nat (length (snd c)) = h * w * k).
Definition iwell (v : iform) : Prop :=
  match v with
  | VNone => True
  | VSingle d h w q => image_ok ([h; w], q)
  | VArray d s l => l <> [] /\ Forall (fun q => image_ok (s, q)) l
  | VList l => Forall (fun p => image_ok (snd p)) l
  end.
Definition keeps_channels (g : content -> content) : Prop :=
  forall c, length (fst c) = 3%nat -> length (fst (g c)) = 3%nat /\ nth 2 (fst (g c)) 0 = nth 2 (fst c) 0.
(** The sizes of the images. *)
Definition with_channel (s : list Z) : list Z := match s with [h; w] => [h; w; 1] | _ => s end.
Definition sizes (v : iform) : option (list (list Z)) :=
  match v with
  | VNone => None
  | VSingle _ h w _ => Some [[h; w; 1]]
  | VArray _ s l => Some (map (fun _ => with_channel s) l)
  | VList l => Some (map (fun p => with_channel (fst (snd p))) l)
  end.

(** * Requests: everything one can give to augment() *)
Record request := mkR {
  r_img : iform; r_heat : mform heatmap; r_seg : mform segmap;
  r_kps : form; r_bbs : form; r_pol : pform; r_lin : pform
}.
Definition nothing : request := mkR VNone WNone WNone FNone FNone GNone GNone.
Definition python (r : request) : ucols :=
  mkU (to_images (r_img r)) (to_mv (r_heat r)) (to_mv (r_seg r)) (to_py CKeypoint (r_kps r)) (to_py CBox (r_bbs r))
      (to_tv (r_pol r)) (to_tv (r_lin r)).
(** What an augmenter does to each kind of data. *)
Record action := mkAct {
  x_img : content -> content; x_heat : content -> content; x_seg : content -> content;
  x_kps : item -> item; x_bbs : item -> item; x_pol : points -> points; x_lin : points -> points
}.
Definition act (x : action) (r : request) : request :=
  mkR (on_images (x_img x) (r_img r)) (on_maps (on_heat (x_heat x)) (x_heat x) (r_heat r))
      (on_maps (on_seg (x_seg x)) (x_seg x) (r_seg r)) (on_items (x_kps x) (r_kps r)) (on_items (x_bbs x) (r_bbs r))
      (on_objects (x_pol x) (r_pol r)) (on_objects (x_lin x) (r_lin r)).
(** An augmenter with this effect on normalized data. *)
Definition performs (x : action) (f : inner) : Prop :=
  forall n, f n = Ok (mkN (all_images (x_img x) (c_img n)) (all_maps (on_heat (x_heat x)) (c_heat n))
                          (all_maps (on_seg (x_seg x)) (c_seg n)) (augment (x_kps x) (c_kps n))
                          (augment (x_bbs x) (c_bbs n)) (paugment (x_pol x) (c_pol n)) (paugment (x_lin x) (c_lin n))).
(** Valid data in supported forms, with one entry per image. *)
Definition rwell (r : request) : Prop :=
  iwell (r_img r) /\ mwell heat_content heat_object (r_heat r) /\ mwell seg_content seg_object (r_seg r) /\
  well_formed CKeypoint (r_kps r) /\ well_formed CBox (r_bbs r) /\ pwell (r_pol r) /\ pwell (r_lin r).
Definition rsupported (r : request) : Prop :=
  supported (r_kps r) /\ supported (r_bbs r) /\ psupported CPoly (r_pol r) /\ psupported CLine (r_lin r) /\
  menough (r_heat r) (sizes (r_img r)) /\ menough (r_seg r) (sizes (r_img r)) /\
  enough_shapes (r_kps r) (sizes (r_img r)) /\ enough_shapes (r_bbs r) (sizes (r_img r)) /\
  penough (r_pol r) (sizes (r_img r)) /\ penough (r_lin r) (sizes (r_img r)).
(** ... before and after the augmentation. *)
Definition applies (x : action) (r : request) : Prop :=
  rwell r /\ rsupported r /\ rwell (act x r) /\ keeps_channels (x_img x).
Definition no_change : action :=
  mkAct (fun c => c) (fun c => c) (fun c => c) (fun i => i) (fun i => i) (fun p => p) (fun p => p).

(** ** The keyword arguments of augment() *)
Inductive argument :=
| GImage (d : adt) (c : content) | GImages (v : iform) | GHeat (v : mform heatmap) | GSeg (v : mform segmap)
| GKps (v : form) | GBbs (v : form) | GPol (v : pform) | GLin (v : pform).
Definition arg_py (a : argument) : kwarg :=
  match a with
  | GImage d c => AImage (as_array d c) | GImages v => AImages (to_images v)
  | GHeat v => AHeat (to_mv v) | GSeg v => ASeg (to_mv v)
  | GKps v => AKps (to_py CKeypoint v) | GBbs v => ABbs (to_py CBox v) | GPol v => APol (to_tv v) | GLin v => ALin (to_tv v)
  end.
Definition on_arg (x : action) (a : argument) : argument :=
  match a with
  | GImage d c => GImage d (on_image (x_img x) c)
  | GImages v => GImages (on_images (x_img x) v)
  | GHeat v => GHeat (on_maps (on_heat (x_heat x)) (x_heat x) v)
  | GSeg v => GSeg (on_maps (on_seg (x_seg x)) (x_seg x) v)
  | GKps v => GKps (on_items (x_kps x) v)
  | GBbs v => GBbs (on_items (x_bbs x) v)
  | GPol v => GPol (on_objects (x_pol x) v)
  | GLin v => GLin (on_objects (x_lin x) v)
  end.
(** The kind of data; image= and images= are the same kind. *)
Definition kind_no (a : argument) : nat :=
  match a with
  | GImage _ _ | GImages _ => 0 | GHeat _ => 1 | GSeg _ => 2 | GKps _ => 3 | GBbs _ => 4 | GPol _ => 5 | GLin _ => 6
  end.
Definition add_arg (r : request) (a : argument) : request :=
  let '(mkR i h s k b p l) := r in
  match a with
  | GImage d c => mkR (VList [(d, c)]) h s k b p l
  | GImages v => mkR v h s k b p l
  | GHeat v => mkR i v s k b p l
  | GSeg v => mkR i h v k b p l
  | GKps v => mkR i h s v b p l
  | GBbs v => mkR i h s k v p l
  | GPol v => mkR i h s k b v l
  | GLin v => mkR i h s k b p v
  end.
Definition request_of (args : list argument) : request := fold_left add_arg args nothing.
(** A tuple with one element is returned as the element. *)
Definition results (l : list argument) : answer :=
  match l with [a] => ROne (arg_py a) | _ => RTuple (map arg_py l) end.

(** ** Batches *)
(** The form of what is returned for one batch. *)
Inductive bkind := KBatch | KUnnormalized | KArrays | KEmptyList | KHeatmaps | KSegmaps | KKeypoints | KBoxes | KPolygons | KNoBatch.
Definition bkind_of {D} (b : bin D) : bkind :=
  match b with
  | BNorm _ => KBatch | BUnnorm _ => KUnnormalized | BArr _ | BImgs _ => KArrays | BEmpty => KEmptyList
  | BHeats _ => KHeatmaps | BSegs _ => KSegmaps | BKps _ => KKeypoints | BBbs _ => KBoxes | BPols _ => KPolygons
  | BLines _ | BOtherList | BOther => KNoBatch
  end.
Definition data_of {D} (b : bin D) : option D :=
  match b with BNorm b => Some (nb_data b) | BUnnorm b => Some (ub_data b) | _ => None end.
(** The unaugmented data of a batch. *)
Definition unaugmented {D} (b : bin D) : option (ncols + ucols) :=
  match b with BNorm b => Some (inl (nb_in b)) | BUnnorm b => Some (inr (ub_in b)) | _ => None end.

(** Executions with background processes: batches are loaded in order, and the
    pool returns each loaded batch, augmented, at most once, in any order and
    at any time. [n]: number of loaded batches, [ks]: the returned ones. *)
Inductive execution {D} (f : nat -> inner) (bs : list (bin D)) : nat -> list nat -> list (event D) -> Prop :=
| ex_start : execution f bs 0 [] []
| ex_load n ks es b : execution f bs n ks es -> nth_error bs n = Some b -> execution f bs (S n) ks (es ++ [ELoad b])
| ex_recv n ks es k b nb r : execution f bs n ks es -> (k < n)%nat -> ~ In k ks -> nth_error bs k = Some b ->
    normalize_batch (Z.of_nat k) b = Ok nb -> augment_nbatch (f k) nb = Ok r ->
    execution f bs n (ks ++ [k]) (es ++ [ERecv r]).

(** The dtypes of arrays. *)
Definition any_dtype (d : adt) : Prop := d = ABool \/ d = AObj \/ exists e, d = ANum e /\ In e array_dtypes.
