(** Model of input normalization (imgaug/augmentables/normalization.py) for
    images, keypoints and bounding boxes. No proofs here. *)
From Verif Require Import Prelude DtyModel MapModel.

(** Numbers are rationals in lowest terms; [f32c] rounds to float32. *)
Definition f32c (q : Q) : Q := Qred (to_float 24 q).

(** Keypoint and BoundingBox: coordinates (x, y) or (x1, y1, x2, y2) and the
    label (boxes only). KeypointsOnImage and BoundingBoxesOnImage: the list of
    items and the image shape. [the classes named in 233-386 (normalization.py)] *)
Inductive single := CKeypoint | CBox.
(** the classes named in 233-386 (normalization.py). *)
Record item := mkItem { it_coords : list Q; it_label : option Z }.
(** the classes named in 233-386 (normalization.py). *)
Record oi := mkOi { oi_items : list item; oi_shape : list Z }.

(** Python values as they can occur as inputs. [PSeq true] is a tuple,
    [PSeq false] a list; [POther] is an instance of any other class. *)
Inductive pv :=
| PNone | PNum (q : Q) | PArr (a : nd) | PItem (c : single) (i : item)
| POi (c : single) (o : oi) | PSeq (tuple : bool) (l : list pv) | POther.

(** normalization.py:1257-1296, comparison of class names. *)
Definition single_eqb (a b : single) : bool :=
  match a, b with CKeypoint, CKeypoint | CBox, CBox => true | _, _ => false end.
(** Number of coordinates of an item. [normalization.py:106-127, 246-303, 319-386] *)
Definition size_of (c : single) : nat := match c with CKeypoint => 2 | CBox => 4 end.

(** BoundingBox.__init__ (bbs.py 51-62) orders the coordinates;
    Keypoint.__init__ stores them. *)
Definition construct (c : single) (row : list Q) : list Q :=
  match c, row with
  | CBox, [x1; y1; x2; y2] =>
      let '(x1', x2') := if qltb x2 x1 then (x2, x1) else (x1, x2) in
      let '(y1', y2') := if qltb y2 y1 then (y2, y1) else (y1, y2) in
      [x1'; y1'; x2'; y2']
  | _, _ => row
  end.

(** * Estimating the type of an input *)
(** find_first_nonempty (normalization.py:1214-1254): the first non-empty leaf, whether there
    is one, and the sequences it is in, outermost first. The test in line 1229
    is for one-letter strings, which are not modelled. *)
Fixpoint find_first (attr : pv) (parents : list pv) {struct attr} : pv * bool * list pv :=
  match attr with
  | PSeq _ l =>
      (fix loop (l : list pv) (deepest : pv * bool * list pv) : pv * bool * list pv :=
         match l with
         | [] => deepest
         | attr_i :: l' =>
             let '(nonempty, success, found) := find_first attr_i (parents ++ [attr]) in
             if success then (nonempty, success, found)
             else if Nat.ltb (length (snd deepest)) (length found)
             then loop l' (nonempty, success, found) else loop l' deepest
         end) l (PNone, false, parents)
  | _ => (attr, true, parents)
  end.

(** The type strings: number of leading "iterable-" and the rest. "None" never
    has a prefix. [normalization.py:1257-1296] *)
Inductive kind := KFloat | KInt | KUint | KBool | KObj.
(** normalization.py:1257-1296. *)
Inductive leaf := LEmpty | LTuple (n : nat) | LNone | LArr (k : kind) | LSingle (c : single) | LOi (c : single) | LOther.
(** normalization.py:1257-1296. *)
Definition ntype : Type := nat * leaf.

(** normalization.py:1257-1296 [dtype.kind]. *)
Definition kind_of (d : adt) : kind :=
  match d with
  | ANum (DF _ _) => KFloat | ANum (DI _) => KInt | ANum (DU _) => KUint | ABool => KBool | AObj => KObj
  end.
(** normalization.py:1257-1296 [is_single_number]. *)
Definition is_num (v : pv) : bool := match v with PNum _ => true | _ => false end.

(** _nonempty_info_to_type_str (normalization.py:1257-1296). *)
Definition type_of (info : pv * bool * list pv) : res ntype :=
  let '(nonempty, success, parents) := info in
  let n := length parents in
  if Nat.ltb 4 n then Err AssertionError
  else if negb success then Ok (n, LEmpty)
  else
    let only_numbers := match last parents PNone with
                        | PSeq true l => if negb (Nat.eqb (length l) 0) && forallb is_num l then Some (length l) else None
                        | _ => None
                        end in
    match only_numbers with
    | Some k => Ok ((n - 1)%nat, LTuple k)
    | None =>
        match nonempty with
        | PNone => Ok (O, LNone)
        | PArr a => Ok (n, LArr (kind_of (n_dt a)))
        | PItem c _ => Ok (n, LSingle c)
        | POi c _ => Ok (n, LOi c)
        | _ => Ok (n, LOther)
        end
    end.
(** estimate_normalization_type (normalization.py:1186-1189). *)
Definition estimate (v : pv) : res ntype := type_of (find_first v []).

(** * Arrays *)
(** [n] consecutive groups of [k] values: iterating over an array. [normalization.py:246-303, 319-386] *)
Fixpoint groups (n k : nat) (l : list Q) : list (list Q) :=
  match n with O => [] | Datatypes.S n' => firstn k l :: groups n' k (skipn k l) end.

(** KeypointsOnImage.from_xy_array (kps.py 982-1010) and
    BoundingBoxesOnImage.from_xyxy_array (bbs.py 1507-1548). The latter goes
    through from_point_soup (bbs.py 1210-1248), which takes minima and maxima
    and hence orders the coordinates, as the constructor does. *)
Definition from_array (c : single) (rows : list (list Q)) (shape : list Z) : oi :=
  mkOi (map (fun row => mkItem (construct c (map f32c row)) None) rows) shape.

(** to_xy_array (kps.py 942-957) and to_xyxy_array (bbs.py 1586-1610). *)
Definition to_array (o : oi) : list (list Q) := map (fun i => map f32c (it_coords i)) (oi_items o).

(** restore_dtype_and_merge (normalization.py:1192-1202) for one float32 array of rows. *)
Definition restore (d : adt) (rows : list (list Q)) : res (list Q) :=
  match d with
  | ANum d' => do l <- restore_dtypes float32 d' (concat rows); Ok (map Qred l)
  | _ => Err GenericException
  end.
(** normalization.py:1192-1202. *)
Definition rows_array (c : single) (d : adt) (rows : list (list Q)) : res pv :=
  do l <- restore d rows;
  Ok (PArr (mkNd d [Z.of_nat (length rows); Z.of_nat (size_of c)] l)).

(** * Normalization *)
(** What normalization returns: a list of KeypointsOnImage or
    BoundingBoxesOnImage, or some other value, usually None. [normalization.py:233-386] *)
Inductive normalized := NOis (l : list oi) | NRaw (v : pv).

(** _assert_exactly_n_shapes (normalization.py:36-60); [shapes] is the result of
    _preprocess_shapes (12-33). *)
Definition exactly (n : nat) (shapes : option (list (list Z))) : res (list (list Z)) :=
  match shapes with
  | None => Err ValueError
  | Some l => if Nat.eqb (length l) n then Ok l else Err ValueError
  end.
(** normalization.py:36-60 with n=1. *)
Definition one_shape (shapes : option (list (list Z))) : res (list Z) :=
  do l <- exactly 1 shapes; match l with s :: _ => Ok s | [] => Err ValueError end.

(** Reading the elements of a sequence as numbers, tuples, objects, containers
    and arrays. Elements of another type lead to some Python exception sooner
    or later; the model raises TypeError. *)
Definition as_num (v : pv) : res Q := match v with PNum q => Ok q | _ => Err TypeError_ end.
(** normalization.py:233-386. *)
Definition as_row (c : single) (v : pv) : res (list Q) :=
  match v with
  | PSeq _ l => if Nat.eqb (length l) (size_of c) then mapM as_num l else Err ValueError
  | _ => Err TypeError_
  end.
(** normalization.py:233-386. *)
Definition as_item (c : single) (v : pv) : res item :=
  match v with PItem c' i => if single_eqb c c' then Ok i else Err TypeError_ | _ => Err TypeError_ end.
(** normalization.py:233-386. *)
Definition as_oi (c : single) (v : pv) : res oi :=
  match v with POi c' o => if single_eqb c c' then Ok o else Err TypeError_ | _ => Err TypeError_ end.
(** normalization.py:233-386. *)
Definition as_seq (v : pv) : res (list pv) :=
  match v with PSeq _ l => Ok l | _ => Err TypeError_ end.
(** A (K,2) or (B,4) array as a list of rows (checks in 72-127). *)
Definition as_rows (c : single) (v : pv) : res (list (list Q)) :=
  match v with
  | PArr a =>
      match n_shape a with
      | [k; m] => if Z.eqb m (Z.of_nat (size_of c)) then Ok (groups (Z.to_nat k) (size_of c) (n_flat a)) else Err ValueError
      | _ => Err ValueError
      end
  | _ => Err TypeError_
  end.
(** A (N,K,2) or (N,B,4) array as a list of lists of rows (normalization.py:63-69, 97-103). *)
Definition as_images (c : single) (v : pv) : res (list (list (list Q))) :=
  match v with
  | PArr a =>
      match n_shape a with
      | [n; k; m] =>
          if Z.eqb m (Z.of_nat (size_of c))
          then Ok (map (groups (Z.to_nat k) (size_of c)) (groups (Z.to_nat n) (Z.to_nat k * size_of c) (n_flat a)))
          else Err ValueError
      | _ => Err ValueError
      end
  | _ => Err TypeError_
  end.
(** normalization.py:233-386, items without label. *)
Definition plain (c : single) (row : list Q) : item := mkItem (construct c row) None.
(** The sequence of per-image inputs with their shapes. [normalization.py:233-386 [zip(inputs, shapes)]] *)
Definition per_image {A} (f : A -> list Z -> oi) (l : list A) (shapes : option (list (list Z))) : res normalized :=
  do ss <- exactly (length l) shapes;
  Ok (NOis (map (fun p => f (fst p) (snd p)) (combine l ss))).
(** normalization.py:233-386, "array[float]", "array[int]", "array[uint]". *)
Definition numeric (k : kind) : bool := match k with KFloat | KInt | KUint => true | _ => false end.

(** normalize_keypoints (normalization.py:233-303) and normalize_bounding_boxes (306-386). *)
Definition normalize (c : single) (inputs : pv) (shapes : option (list (list Z))) : res normalized :=
  do t <- estimate inputs;
  match t with
  | (O, LNone) => Ok (match c with CKeypoint => NRaw inputs | CBox => NRaw PNone end)
  | (O, LArr k) =>
      if numeric k then do mats <- as_images c inputs; per_image (from_array c) mats shapes
      else Err AssertionError
  | (O, LTuple m) =>
      if Nat.eqb m (size_of c)
      then do s <- one_shape shapes; do row <- as_row c inputs; Ok (NOis [mkOi [plain c row] s])
      else Err AssertionError
  | (O, LSingle c') =>
      if single_eqb c c'
      then do s <- one_shape shapes; do i <- as_item c inputs; Ok (NOis [mkOi [i] s])
      else Err AssertionError
  | (O, LOi c') =>
      if single_eqb c c' then do o <- as_oi c inputs; Ok (NOis [o]) else Err AssertionError
  | (O, LEmpty) | (1%nat, LEmpty) => Ok (NRaw PNone)
  | (1%nat, LArr k) =>
      if numeric k
      then do l <- as_seq inputs; do mats <- mapM (as_rows c) l; per_image (from_array c) mats shapes
      else Err AssertionError
  | (1%nat, LTuple m) =>
      if Nat.eqb m (size_of c)
      then do s <- one_shape shapes; do l <- as_seq inputs; do rows <- mapM (as_row c) l;
           Ok (NOis [mkOi (map (plain c) rows) s])
      else Err AssertionError
  | (1%nat, LSingle c') =>
      if single_eqb c c'
      then do s <- one_shape shapes; do l <- as_seq inputs; do items <- mapM (as_item c) l;
           Ok (NOis [mkOi items s])
      else Err AssertionError
  | (1%nat, LOi c') =>
      if single_eqb c c' then do l <- as_seq inputs; do ois <- mapM (as_oi c) l; Ok (NOis ois)
      else Err AssertionError
  | (2%nat, LTuple m) =>
      if Nat.eqb m (size_of c)
      then do l <- as_seq inputs;
           do mats <- mapM (fun v => do l' <- as_seq v; mapM (as_row c) l') l;
           per_image (from_array c) mats shapes
      else Err AssertionError
  | (2%nat, LSingle c') =>
      if single_eqb c c'
      then do l <- as_seq inputs;
           do its <- mapM (fun v => do l' <- as_seq v; mapM (as_item c) l') l;
           per_image mkOi its shapes
      else Err AssertionError
  | _ => Err AssertionError
  end.

(** * Inversion *)
(** normalization.py:672-861. *)
Definition as_ois (n : normalized) : res (list oi) := match n with NOis l => Ok l | NRaw _ => Err TypeError_ end.
(** normalization.py:672-861. *)
Definition is_none (n : normalized) : bool := match n with NRaw PNone => true | _ => false end.
(** [assert len(...) == 1]. [normalization.py:672-861] *)
Definition the_one {A} (l : list A) : res A := match l with [x] => Ok x | _ => Err AssertionError end.
(** normalization.py:672-861. *)
Definition row_tuple (row : list Q) : pv := PSeq true (map PNum row).
(** normalization.py:672-861. *)
Definition item_tuple (i : item) : pv := row_tuple (it_coords i).
(** The dtype of the first non-empty array. [normalization.py:672-861 [find_first_nonempty(...)[0].dtype]] *)
Definition first_dtype (old : pv) : res adt :=
  match find_first old [] with (PArr a, _, _) => Ok (n_dt a) | _ => Err GenericException end.

(** invert_normalize_keypoints (normalization.py:672-762) and
    invert_normalize_bounding_boxes (765-861). *)
Definition invert_normalize (c : single) (n : normalized) (old : pv) : res pv :=
  do t <- estimate old;
  match t with
  | (O, LNone) => if is_none n then Ok PNone else Err AssertionError
  | (O, LArr k) =>
      if numeric k
      then do ois <- as_ois n; do o <- the_one ois; do d <- first_dtype old;
           let rows := to_array o in
           do l <- restore d rows;
           Ok (PArr (mkNd d [1; Z.of_nat (length rows); Z.of_nat (size_of c)] l))
      else Err AssertionError
  | (O, LTuple m) =>
      if Nat.eqb m (size_of c)
      then do ois <- as_ois n; do o <- the_one ois; do i <- the_one (oi_items o); Ok (item_tuple i)
      else Err AssertionError
  | (O, LSingle c') =>
      if single_eqb c c'
      then do ois <- as_ois n; do o <- the_one ois; do i <- the_one (oi_items o); Ok (PItem c i)
      else Err AssertionError
  | (O, LOi c') =>
      if single_eqb c c' then do ois <- as_ois n; do o <- the_one ois; Ok (POi c o) else Err AssertionError
  | (O, LEmpty) => if is_none n then Ok (PSeq false []) else Err AssertionError
  | (1%nat, LArr k) =>
      if numeric k
      then do ois <- as_ois n; do d <- first_dtype old;
           do l <- mapM (fun o => rows_array c d (to_array o)) ois; Ok (PSeq false l)
      else Err AssertionError
  | (1%nat, LTuple m) =>
      if Nat.eqb m (size_of c)
      then do ois <- as_ois n; do o <- the_one ois; Ok (PSeq false (map item_tuple (oi_items o)))
      else Err AssertionError
  | (1%nat, LSingle c') =>
      if single_eqb c c'
      then do ois <- as_ois n; do o <- the_one ois; Ok (PSeq false (map (PItem c) (oi_items o)))
      else Err AssertionError
  | (1%nat, LOi c') =>
      if single_eqb c c' then do ois <- as_ois n; Ok (PSeq false (map (POi c) ois)) else Err AssertionError
  | (1%nat, LEmpty) => if is_none n then Ok old else Err AssertionError
  | (2%nat, LTuple m) =>
      if Nat.eqb m (size_of c)
      then do ois <- as_ois n; Ok (PSeq false (map (fun o => PSeq false (map item_tuple (oi_items o))) ois))
      else Err AssertionError
  | (2%nat, LSingle c') =>
      if single_eqb c c'
      then do ois <- as_ois n; Ok (PSeq false (map (fun o => PSeq false (map (PItem c) (oi_items o))) ois))
      else Err AssertionError
  | _ => Err AssertionError
  end.

(** * Images *)
(** [None], an array, an iterable of arrays, or something else. [normalization.py:130-156, 525-586] *)
Inductive images := INone | IArr (a : nd) | IList (l : list nd) | IOther.
(** normalization.py:130-156, 525-586. *)
Definition with_shape (a : nd) (s : list Z) : nd := mkNd (n_dt a) s (n_flat a).

(** normalize_images (normalization.py:130-156). Adding an axis of size one does not change
    the values in row-major order. *)
Definition normalize_images (v : images) : res images :=
  match v with
  | INone => Ok INone
  | IArr a =>
      Ok (IArr (match n_shape a with
                | [h; w] => with_shape a [1; h; w; 1]
                | [n; h; w] => with_shape a [n; h; w; 1]
                | _ => a
                end))
  | IList l =>
      do l' <- mapM (fun a => match n_shape a with
                              | [h; w] => Ok (with_shape a [h; w; 1])
                              | [_; _; _] => Ok a
                              | _ => Err AssertionError
                              end) l;
      Ok (IList l')
  | IOther => Err ValueError
  end.

(** Python's [zip] and the loop in lines 566-582. *)
Definition invert_image (p : nd * nd) : res nd :=
  let '(image, image_old) := p in
  match n_shape image_old with
  | [_; _] =>
      match n_shape image with
      | [h; w; c] => if c =? 1 then Ok (with_shape image [h; w]) else Err AssertionError
      | _ => Err IndexError
      end
  | [_; _; _] => Ok image
  | _ => Err AssertionError
  end.
(** normalization.py:525-586. *)
Definition invert_list (l old : list nd) : res images :=
  do l' <- mapM invert_image (combine l old); Ok (IList l').
(** [list(images_old)] of an array of at least one dimension. [normalization.py:525-586] *)
Definition subarrays (a : nd) : list nd :=
  match n_shape a with
  | n :: s =>
      let k := Z.to_nat (fold_right Z.mul 1 s) in
      map (fun l => mkNd (n_dt a) s l) (groups (Z.to_nat n) k (n_flat a))
  | [] => []
  end.

(** invert_normalize_images (normalization.py:525-586). *)
Definition invert_normalize_images (v old : images) : res images :=
  match old with
  | INone => match v with INone => Ok INone | _ => Err AssertionError end
  | IArr o =>
      match v with
      | IArr a =>
          match n_shape o with
          | [_; _] =>
              match n_shape a with
              | [n; h; w; c] =>
                  if negb (n =? 1) then Err AssertionError
                  else if negb (c =? 1) then Err AssertionError
                  else Ok (IArr (with_shape a [h; w]))
              | _ => Err IndexError
              end
          | [_; _; _] =>
              match n_shape a with
              | [n; h; w; c] => if negb (c =? 1) then Err AssertionError else Ok (IArr (with_shape a [n; h; w]))
              | _ => Err IndexError
              end
          | _ => Ok v
          end
      | IList l => invert_list l (match n_shape o with [_; _] => [o] | _ => subarrays o end)
      | _ => Err TypeError_
      end
  | IList lo => match v with IList l => invert_list l lo | IArr a => invert_list (subarrays a) lo | _ => Err TypeError_ end
  | IOther => Err ValueError
  end.
