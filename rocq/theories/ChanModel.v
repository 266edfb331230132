(** Model of WithChannels, ChannelShuffle and shuffle_channels
    (imgaug/augmenters/meta.py 3697-3941, 4841-5012). No proofs here. *)
From Verif Require Import Prelude.

(** A (H, W, C) image: shape, dtype and one value per row, column, channel.
    Only indices inside the shape are meaningful. [images as used in 3697-3941, 4841-5012 (meta.py)] *)
Record cimg (A : Type) := mkC {
  ch : Z; cw : Z; cc : Z;
  cdt : Z;                       (* dtype, an opaque tag *)
  cpx : Z -> Z -> Z -> A
}.
Arguments mkC {A}. Arguments ch {A}. Arguments cw {A}. Arguments cc {A}.
Arguments cdt {A}. Arguments cpx {A}.

(** numpy's treatment of one entry of an index list over an axis of length
    [n]: negative entries count from the end, others out of range raise. *)
Definition norm_index (n v : Z) : res Z :=
  if (0 <=? v) && (v <? n) then Ok v
  else if (- n <=? v) && (v <? 0) then Ok (v + n)
  else Err IndexError.
(** numpy indexing in 3886, 3897 (meta.py). *)
Definition norm_indices (n : Z) (cs : list Z) : res (list Z) := mapM (norm_index n) cs.

Section WithPixels.
Context {A : Type}.

(** [image[..., cs]] with a list of channel indices. [meta.py:3884-3889] *)
Definition take_channels (cs : list Z) (im : cimg A) : res (cimg A) :=
  do is <- norm_indices (cc im) cs;
  Ok (mkC (ch im) (cw im) (Z.of_nat (length is)) (cdt im)
          (fun y x k => cpx im y x (nth (Z.to_nat k) is 0))).

(** One assignment [image[..., i] = image_aug[..., k]]. [meta.py:3892-3898] *)
Definition put_channel (aug : cimg A) (k i : Z) (px : Z -> Z -> Z -> A) : Z -> Z -> Z -> A :=
  fun y x c => if c =? i then cpx aug y x k else px y x c.
(** meta.py:3892-3898. *)
Fixpoint put_channels (aug : cimg A) (k : Z) (is : list Z) (px : Z -> Z -> Z -> A) : Z -> Z -> Z -> A :=
  match is with
  | [] => px
  | i :: is' => put_channels aug (k + 1) is' (put_channel aug (if cc aug =? 1 then 0 else k) i px)
  end.
(** [image[..., cs] = image_aug] (meta.py 3897). numpy performs the
    assignments in list order, broadcasts a last axis of length 1 and raises
    for other lengths. Heights and widths agree here (checked before). *)
Definition assign_channels (cs : list Z) (im aug : cimg A) : res (cimg A) :=
  do is <- norm_indices (cc im) cs;
  if (cc aug =? Z.of_nat (length is)) || (cc aug =? 1)
  then Ok (mkC (ch im) (cw im) (cc im) (cdt im) (put_channels aug 0 is (cpx im)))
  else Err ValueError.

(** A cell of a non-image column: its [.shape] (third entry absent for
    (H, W)) and its content. [meta.py:3901-3920] *)
Record cell (V : Type) := mkCell { cell_channels : option Z; cell_value : V }.
Arguments mkCell {V}. Arguments cell_channels {V}. Arguments cell_value {V}.

(** A batch in augmentation: images and the other columns by name. [meta.py:3788-3834] *)
Record cbatch (V : Type) := mkB {
  b_images : option (list (cimg A));
  b_columns : list (Z * list (cell V))
}.
Arguments mkB {V}. Arguments b_images {V}. Arguments b_columns {V}.

(** WithChannels.__init__ (meta.py 3770-3783): the accepted values of
    [channels]. Values of other types raise; not modelled. *)
Inductive chans_arg := ChNone | ChInt (v : Z) | ChList (vs : list Z).
(** meta.py:3770-3783. *)
Definition init_channels (a : chans_arg) : option (list Z) :=
  match a with ChNone => None | ChInt v => Some [v] | ChList vs => Some vs end.

Section Child.
Context {V : Type}.

(** _reduce_images_to_channels (meta.py:3884-3889); the array and the list case
    coincide image by image. *)
Definition reduce_images (channels : option (list Z)) (ims : list (cimg A)) : res (list (cimg A)) :=
  match channels with
  | None => Ok ims
  | Some cs => mapM (take_channels cs) ims
  end.

(** _assert_lengths_not_changed (meta.py:3838-3842). *)
Definition assert_lengths (aug old : list (cimg A)) : res unit :=
  if Nat.eqb (length aug) (length old) then Ok tt else Err AssertionError.
(** _assert_shapes_not_changed (meta.py:3845-3859). *)
Definition assert_shapes (aug old : list (cimg A)) : res unit :=
  if forallb (fun p => (ch (fst p) =? ch (snd p)) && (cw (fst p) =? cw (snd p))) (combine aug old)
  then Ok tt else Err AssertionError.
(** _assert_dtypes_not_changed (meta.py:3862-3877). *)
Definition assert_dtypes (aug old : list (cimg A)) : res unit :=
  if forallb (fun p => cdt (fst p) =? cdt (snd p)) (combine aug old)
  then Ok tt else Err AssertionError.

(** _invert_reduce_images_to_channels (meta.py:3892-3898). *)
Definition invert_reduce (channels : option (list Z)) (aug old : list (cimg A)) : res (list (cimg A)) :=
  match channels with
  | None => Ok aug
  | Some cs => mapM (fun p => assign_channels cs (fst p) (snd p)) (combine old aug)
  end.

(** _replace_unaugmented_cells (meta.py:3901-3920). [n / m >= 0.5] of Python as
    [2 n >= m]; a cell with zero channels raises ZeroDivisionError, modelled
    as [GenericException]. *)
Definition replace_cells (channels : option (list Z)) (aug old : list (cell V)) : res (list (cell V)) :=
  match channels with
  | None => Ok aug
  | Some cs =>
      do ns <- mapM (fun c : cell V =>
                 let n := match cell_channels c with Some n => n | None => 1 end in
                 if n =? 0 then Err GenericException else Ok n) old;
      Ok (map (fun p : cell V * cell V * Z => let '(a, o, n) := p in
                 if n <=? 2 * Z.of_nat (length cs) then a else o)
              (combine (combine aug old) ns))
  end.

(** meta.py:3901-3920 [getattr(batch, name)]. *)
Definition lookup_column (name : Z) (cols : list (Z * list (cell V))) : option (list (cell V)) :=
  option_map snd (find (fun p => fst p =? name) cols).

(** WithChannels._augment_batch_ (meta.py:3788-3834). [child] is the augmentation
    of the children (any function of the batch, incl. one that raises).
    Hooks are absent; [np.array(images_aug)] (3880-3882) keeps values. *)
Definition with_channels (channels : option (list Z)) (child : cbatch V -> res (cbatch V))
    (b : cbatch V) : res (cbatch V) :=
  match channels with
  | Some [] => Ok b
  | _ =>
    do ims <- match b_images b with
              | None => Ok None
              | Some l => do r <- reduce_images channels l; Ok (Some r)
              end;
    do b1 <- child (mkB ims (b_columns b));
    do _ <- match b_images b1, b_images b with
            | Some aug, Some old =>
                do _ <- assert_lengths aug old; do _ <- assert_shapes aug old; assert_dtypes aug old
            | Some _, None => Err TypeError_
            | None, _ => Ok tt
            end;
    do cols <- mapM (fun p : Z * list (cell V) =>
                 match lookup_column (fst p) (b_columns b) with
                 | Some old => do v <- replace_cells channels (snd p) old; Ok (fst p, v)
                 | None => Err TypeError_
                 end) (b_columns b1);
    do ims2 <- match b_images b1, b_images b with
               | Some aug, Some old => do r <- invert_reduce channels aug old; Ok (Some r)
               | _, _ => Ok None
               end;
    Ok (mkB ims2 cols)
  end.
End Child.

(** [channels_perm_full[source] = target], one after the other (meta.py:5004-5005). *)
Definition upd (i v : Z) (f : Z -> Z) : Z -> Z := fun c => if c =? i then v else f c.
(** meta.py:5004-5005. *)
Fixpoint assign_all (nc : Z) (src tgt : list Z) (full : Z -> Z) : res (Z -> Z) :=
  match src, tgt with
  | s :: src', t :: tgt' => do i <- norm_index nc s; assign_all nc src' tgt' (upd i t full)
  | _, _ => Ok full
  end.

(** shuffle_channels (meta.py:4949-5006). [ndim2] says the image is (H, W);
    [permute l] is the outcome of [random_state.permutation(l)]. *)
Definition all_channels (nc : Z) : list Z := map Z.of_nat (seq 0 (Z.to_nat nc)).
(** meta.py:4994-5000. *)
Definition covers_all (nc : Z) (channels : option (list Z)) : bool :=
  match channels with
  | None => true
  | Some cs => forallb (fun c => existsb (Z.eqb c) cs) (all_channels nc)
  end.
(** meta.py:4949-5006. *)
Definition shuffle_channels (ndim2 : bool) (permute : list Z -> list Z)
    (channels : option (list Z)) (im : cimg A) : res (cimg A) :=
  if ndim2 || (cc im =? 1) then Ok im
  else match channels, covers_all (cc im) channels with
       | Some cs, false =>
           do full <- assign_all (cc im) cs (permute cs) (fun c => c);
           take_channels (map full (all_channels (cc im))) im
       | _, _ => take_channels (permute (all_channels (cc im))) im
       end.

(** ChannelShuffle._augment_batch_ (meta.py:4925-4937): image i is shuffled if its
    sample p_i is at least 1-1e-4. The images share one RNG; its successive
    permutations are [permute i]. *)
Fixpoint channel_shuffle (permute : nat -> list Z -> list Z) (channels : option (list Z))
    (i : nat) (ps : list Q) (ims : list (cimg A)) : res (list (cimg A)) :=
  match ps, ims with
  | p :: ps', im :: ims' =>
      do im' <- (if qleb (9999 # 10000) p then shuffle_channels false (permute i) channels im else Ok im);
      do r <- channel_shuffle permute channels (S i) ps' ims';
      Ok (im' :: r)
  | _, _ => Ok ims
  end.
End WithPixels.
Arguments mkCell {V}. Arguments cell_channels {V}. Arguments cell_value {V}.
Arguments mkB {A V}. Arguments b_images {A V}. Arguments b_columns {A V}.
