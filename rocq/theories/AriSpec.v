(** What a user expects of adding and multiplying, independent of the code. *)
From Coq Require Import Qabs.
From Verif Require Import Prelude DtyModel AriModel.

(** [x] limited to the interval. *)
Definition limited (lo hi : Z) (x : Q) : Q := qmax (inject_Z lo) (qmin (inject_Z hi) x).

(** [r] is a value of the range that lies within [e] of the exact result [x],
    limited to the range: no wrapping around, no other error. *)
Definition saturates (lo hi : Z) (e x : Q) (r : Z) : Prop :=
  lo <= r <= hi /\ (Qabs (inject_Z r - limited lo hi x) <= e)%Q.

Definition uint8_image (vs : list Z) : Prop := Forall (fun v => 0 <= v <= 255) vs.

(** The amount meant for the component at flat index [i] of an image with
    [nc] channels. *)
Definition meant (nc : nat) (v : value) (i : nat) : Q :=
  match v with
  | VNum q => q
  | VArr _ [q] => q
  | VArr _ qs | VList qs => nth (i mod nc)%nat qs 0%Q
  end.
(** One value, or as many as there are channels. *)
Definition per_image (nc : nat) (v : value) : Prop :=
  match v with
  | VNum _ => True
  | VArr _ qs => length qs = 1%nat \/ length qs = nc
  | VList qs => length qs = nc
  end.

(** Integer images other than uint8, integer amounts of up to 32 bits, and the
    amounts for which the sum is known not to overflow while it is computed. *)
Definition wide_image (d : dtype) : Prop := d = DU 16 \/ d = DI 8 \/ d = DI 16.
Definition small_int (d : dtype) : Prop :=
  d = DU 8 \/ d = DU 16 \/ d = DU 32 \/ d = DI 8 \/ d = DI 16 \/ d = DI 32.
Definition unsigned (d : dtype) : Prop := match d with DU _ => True | _ => False end.
Definition moderate (image : dtype) (u : Z) : Prop :=
  match image with DI 8 => Z.abs u <= 2 ^ 15 - 2 ^ 8 | _ => Z.abs u <= 2 ^ 31 - 2 ^ 16 end.

(** The same for images with or without a channel axis. *)
Definition single_or (nc : option nat) (m : value) : Prop :=
  match nc with
  | Some n => per_image n m
  | None => match m with VNum _ => True | VArr _ qs => length qs = 1%nat | VList _ => False end
  end.
Definition channels (nc : option nat) : nat := match nc with Some n => n | None => 1 end.
