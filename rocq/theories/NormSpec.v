(** Vocabulary of the property theorems about input normalization: the
    supported input forms and what is done to them. *)
From Verif Require Import Prelude DtyModel DtySpec MapModel NormModel.

(** The input forms for keypoints and bounding boxes. A row is the list of the
    2 or 4 coordinates of one item. *)
Inductive form :=
| FNone
| FArray (d : dtype) (k : nat) (mats : list (list (list Q)))  (* (N,k,2) or (N,k,4) array *)
| FTuple (row : list Q)
| FItem (i : item)
| FOi (o : oi)
| FEmpty                                        (* empty list *)
| FArrays (l : list (dtype * list (list Q)))    (* list of (K,2) or (B,4) arrays *)
| FTuples (rows : list (list Q))                (* list of tuples, one image *)
| FItems (l : list item)                        (* list of objects, one image *)
| FOis (l : list oi)                            (* list of containers *)
| FEmpties (n : nat)                            (* list of empty lists *)
| FTupleLists (l : list (list (list Q)))        (* list of lists of tuples *)
| FItemLists (l : list (list item)).            (* list of lists of objects *)

(** The Python value of a form. *)
Definition tuple_py (row : list Q) : pv := PSeq true (map PNum row).
Definition to_py (c : single) (v : form) : pv :=
  match v with
  | FNone => PNone
  | FArray d k mats =>
      PArr (mkNd (ANum d) [Z.of_nat (length mats); Z.of_nat k; Z.of_nat (size_of c)] (concat (map (@concat Q) mats)))
  | FTuple row => tuple_py row
  | FItem i => PItem c i
  | FOi o => POi c o
  | FEmpty => PSeq false []
  | FArrays l =>
      PSeq false (map (fun p => PArr (mkNd (ANum (fst p)) [Z.of_nat (length (snd p)); Z.of_nat (size_of c)]
                                           (concat (snd p)))) l)
  | FTuples rows => PSeq false (map tuple_py rows)
  | FItems l => PSeq false (map (PItem c) l)
  | FOis l => PSeq false (map (POi c) l)
  | FEmpties n => PSeq false (repeat (PSeq false []) n)
  | FTupleLists l => PSeq false (map (fun rows => PSeq false (map tuple_py rows)) l)
  | FItemLists l => PSeq false (map (fun items => PSeq false (map (PItem c) items)) l)
  end.

(** Applying a function to every item, whatever the form; the items of
    coordinate-based forms have no label. *)
Definition on_row (g : item -> item) (row : list Q) : list Q := it_coords (g (mkItem row None)).
Definition on_oi (g : item -> item) (o : oi) : oi := mkOi (map g (oi_items o)) (oi_shape o).
Definition on_items (g : item -> item) (v : form) : form :=
  match v with
  | FArray d k mats => FArray d k (map (map (on_row g)) mats)
  | FTuple row => FTuple (on_row g row)
  | FItem i => FItem (g i)
  | FOi o => FOi (on_oi g o)
  | FArrays l => FArrays (map (fun p => (fst p, map (on_row g) (snd p))) l)
  | FTuples rows => FTuples (map (on_row g) rows)
  | FItems l => FItems (map g l)
  | FOis l => FOis (map (on_oi g) l)
  | FTupleLists l => FTupleLists (map (map (on_row g)) l)
  | FItemLists l => FItemLists (map (map g) l)
  | FNone | FEmpty | FEmpties _ => v
  end.
(** An augmentation of the normalized data that changes every item by [g]. *)
Definition augment (g : item -> item) (n : normalized) : normalized :=
  match n with NOis l => NOis (map (on_oi g) l) | NRaw v => NRaw v end.

(** Coordinates: the right number of them, boxes not inverted. *)
Definition ordered (c : single) (row : list Q) : Prop :=
  match c, row with
  | CBox, [x1; y1; x2; y2] => x1 <= x2 /\ y1 <= y2
  | _, _ => True
  end%Q.
Definition row_ok (c : single) (row : list Q) : Prop := length row = size_of c /\ ordered c row.

(** [x] is a number in lowest terms which arrays of dtype [d] and float32
    arrays can hold. *)
Definition holds (d : dtype) (x : Q) : Prop :=
  Qred x = x /\
  match d with
  | DF p e => (exists m k, x == inject_Z m * pow2 k /\ Z.abs m < 2 ^ p /\ Z.abs m < 2 ^ 24)%Z%Q /\
              (- inject_Z ((2 ^ p - 1) * 2 ^ e) <= x <= inject_Z ((2 ^ p - 1) * 2 ^ e))%Q /\
              (- inject_Z ((2 ^ 24 - 1) * 2 ^ 104) <= x <= inject_Z ((2 ^ 24 - 1) * 2 ^ 104))%Q
  | _ => exists n lo hi, x = inject_Z n /\ int_range d lo hi /\ lo <= n <= hi /\ Z.abs n <= 2 ^ 24
  end.
Definition array_dtypes : list dtype :=
  [DU 8; DU 16; DU 32; DU 64; DI 8; DI 16; DI 32; DI 64; DF 11 5; DF 24 104; DF 53 971].
Definition row_in (c : single) (d : dtype) (row : list Q) : Prop := row_ok c row /\ Forall (holds d) row.

Definition well_formed (c : single) (v : form) : Prop :=
  match v with
  | FArray d k mats => In d array_dtypes /\ Forall (fun m => length m = k /\ Forall (row_in c d) m) mats
  | FTuple row => row_ok c row
  | FArrays l => l <> [] /\ Forall (fun p => In (fst p) array_dtypes /\ Forall (row_in c (fst p)) (snd p)) l
  | FTuples rows => rows <> [] /\ Forall (row_ok c) rows
  | FItems l => l <> []
  | FOis l => l <> []
  | FEmpties n => (1 <= n)%nat
  | FTupleLists l => concat l <> [] /\ Forall (Forall (row_in c float32)) l
  | FItemLists l => concat l <> []
  | FNone | FItem _ | FOi _ | FEmpty => True
  end.
(** The forms that work: an array is for a single image, and the arrays of a
    list have the same dtype. *)
Definition supported (v : form) : Prop :=
  match v with
  | FArray _ _ mats => length mats = 1%nat
  | FArrays l => exists d, Forall (fun p => fst p = d) l
  | _ => True
  end.

(** How many image shapes a form needs; [None]: it does not use them. *)
Definition images_needed (v : form) : option nat :=
  match v with
  | FNone | FOi _ | FEmpty | FOis _ | FEmpties _ => None
  | FArray _ _ mats => Some (length mats)
  | FTuple _ | FItem _ | FTuples _ | FItems _ => Some 1%nat
  | FArrays l => Some (length l)
  | FTupleLists l => Some (length l)
  | FItemLists l => Some (length l)
  end.
Definition enough_shapes (v : form) (shapes : option (list (list Z))) : Prop :=
  match images_needed v with
  | None => True
  | Some n => exists l, shapes = Some l /\ length l = n
  end.

(** Images: an array of 2, 3 or more dimensions, or a list of arrays of 2 or 3
    dimensions. *)
Definition dims (a : nd) : nat := length (n_shape a).
Definition images_ok (v : images) : Prop :=
  match v with
  | INone => True
  | IArr a => (2 <= dims a)%nat
  | IList l => Forall (fun a => dims a = 2%nat \/ dims a = 3%nat) l
  | IOther => False
  end.
(** [out] has the dimensions of [old] and the values of [new], a (H,W,C) image
    where C is 1 if [old] has two dimensions. *)
Definition image_result (new : nd) (out : nd) (old : nd) : Prop :=
  n_dt out = n_dt new /\ n_flat out = n_flat new /\ dims out = dims old /\
  firstn 2 (n_shape out) = firstn 2 (n_shape new).
Definition image_fits (new old : nd) : Prop :=
  dims new = 3%nat /\ (dims old = 2%nat -> nth 2 (n_shape new) 0 = 1).
