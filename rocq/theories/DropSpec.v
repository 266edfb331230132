(** What a user expects of dropping areas, components and channels. *)
From Coq Require Import Permutation.
From Verif Require Import Prelude DropModel.

(** ** Cutout *)

(** A pixel belongs to a rectangle if its lower right corner does. *)
Definition inside (x1 y1 x2 y2 : Q) (y x : Z) : Prop :=
  (x1 < inject_Z (x + 1) /\ inject_Z (x + 1) <= x2 /\
   y1 < inject_Z (y + 1) /\ inject_Z (y + 1) <= y2)%Q.

(** The value meant for channel [c]. *)
Definition meant_for (v : fill_value) (per_channel : bool) (c : nat) : Q :=
  match v with
  | One q => q
  | Many qs => if per_channel then nth (c mod length qs)%nat qs 0%Q else nth 0 qs 0%Q
  end.
Definition some_value (v : fill_value) : Prop := v <> Many [].
Definition given_per_channel (f : fill) : bool := qleb (1 # 2) (f_per_channel f).

Definition in_area (im : arr pixel) (a : area) (y x : Z) : Prop :=
  let '(x1, y1, x2, y2) := corners (ah im) (aw im) a in inside x1 y1 x2 y2 y x.

Definition in_image {A} (im : arr A) (y x : Z) : Prop := 0 <= y < ah im /\ 0 <= x < aw im.

(** A list cut into consecutive parts of given lengths. *)
Definition cut {A} (l : list A) (ns : list nat) (parts : list (list A)) : Prop :=
  concat parts = l /\ map (@length A) parts = ns.

(** Three lists of the same length whose corresponding members are related. *)
Inductive Forall3 {A B C} (P : A -> B -> C -> Prop) : list A -> list B -> list C -> Prop :=
| F3_nil : Forall3 P [] [] []
| F3_cons a b c la lb lc : P a b c -> Forall3 P la lb lc -> Forall3 P (a :: la) (b :: lb) (c :: lc).

(** ** Replacing *)

Definition binary (q : Q) : Prop := (q == 0 \/ q == 1)%Q.
(** How many entries before position [i] are set. *)
Definition set_before (mask : list Q) (i : nat) : nat :=
  length (filter (fun m => qltb (1 # 2) m) (firstn i mask)).
(** A sample, rounded and limited to the range of the dtype. *)
Definition rounded (lo hi : Z) (q : Q) : Z := zclip (np_round q) lo hi.

(** ** Dropping channels *)

(** [D]: a choice of channels for an image with [nb] channels and samples
    [ps]: only channels with a sample below 1/2, at most [nb - keep] of them,
    and as many as possible under these two conditions. *)
Definition chosen (keep nb : nat) (ps : list Q) (D : list nat) : Prop :=
  let low := filter (fun c => qltb (nth c ps 0%Q) (1 # 2)) (seq 0 nb) in
  NoDup D /\ incl D low /\ length D = Nat.min (length low) (nb - keep).

(** [image'] is [image] with exactly the channels of [D] zeroed. *)
Definition zeroed_at {Ch} (zeroed : Ch -> Ch) (image : list Ch) (D : list nat) (image' : list Ch) : Prop :=
  length image' = length image /\
  forall c d, (c < length image)%nat ->
    (In c D -> nth c image' d = zeroed (nth c image d)) /\
    (~ In c D -> nth c image' d = nth c image d).

Definition row_cleared {B} (clear : B -> B) (row row' : B) (lost_all : Prop) : Prop :=
  (lost_all -> row' = clear row) /\ (~ lost_all -> row' = row).
