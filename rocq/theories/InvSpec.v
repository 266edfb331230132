(** What a user expects of invert and solarize, independent of the code. *)
From Coq Require Import Qabs.
From Verif Require Import Prelude InvModel.

(** The bounds in force: the requested ones, else those of the dtype. *)
Definition lower (t : ity) (omin : option Z) : Z :=
  match omin with Some m => m | None => fst (ity_range t) end.
Definition upper (t : ity) (omax : option Z) : Z :=
  match omax with Some m => m | None => snd (ity_range t) end.

(** Integer dtypes have 8, 16, 32 or 64 bits. *)
Definition numpy_dtype (t : ity) : Prop :=
  match t with TBool => True | TU b | TI b => b = 8 \/ b = 16 \/ b = 32 \/ b = 64 end.

(** The documentation accepts bounds inside the dtype's range, and bounds
    other than the dtype's own for integer dtypes of up to 32 bits. *)
Definition acceptable (t : ity) (omin omax : option Z) : Prop :=
  fst (ity_range t) <= lower t omin /\ upper t omax <= snd (ity_range t) /\
  lower t omin < upper t omax /\
  ((omin = None /\ omax = None) \/ match t with TU b | TI b => b <= 32 | TBool => False end).

Definition all_between (a b : Z) (vs : list Z) : Prop := Forall (fun v => a <= v <= b) vs.

(** A value of [a..b] counted from the other end. *)
Definition mirror (a b v : Z) : Z := a + b - v.

(** Components chosen by a threshold. *)
Definition chosen (threshold : option Q) (above : bool) (v : Z) : Prop :=
  match threshold with
  | None => True
  | Some t => if above then (t <= inject_Z v)%Q else (inject_Z v < t)%Q
  end.

(** Result of inverting the chosen components and leaving the others. *)
Definition inverted_where (P : Z -> Prop) (a b : Z) (vs rs : list Z) : Prop :=
  Forall2 (fun v r => (P v -> r = mirror a b v) /\ (~ P v -> r = v)) vs rs.

(** One call of invert, and any sequence of calls in one process: the second
    component is the state kept between calls. *)
Record call := mkCall {
  k_t : ity; k_ndim : Z; k_vs : list Z; k_min : option Z; k_max : option Z;
  k_threshold : option Q; k_above : bool
}.
Definition do_call (c : cache) (x : call) : res (list Z) * cache :=
  invert c (k_t x) (k_ndim x) (k_vs x) (k_min x) (k_max x) (k_threshold x) (k_above x).
Fixpoint calls (c : cache) (xs : list call) : list (res (list Z)) * cache :=
  match xs with
  | [] => ([], c)
  | x :: xs' => let '(r, c1) := do_call c x in
                let '(rs, c2) := calls c1 xs' in (r :: rs, c2)
  end.
(** The state after some sequence of calls since the start of the process. *)
Definition reachable (c : cache) : Prop := exists xs, c = snd (calls [] xs).

(** ** Floats, exact arithmetic *)
Definition float_lower (fmax : Q) (omin : option Q) : Q :=
  match omin with Some m => m | None => (- fmax)%Q end.
Definition float_upper (fmax : Q) (omax : option Q) : Q :=
  match omax with Some m => m | None => fmax end.
Definition float_acceptable (fmax : Q) (custom : bool) (omin omax : option Q) : Prop :=
  (- fmax <= float_lower fmax omin)%Q /\ (float_upper fmax omax <= fmax)%Q /\
  (float_lower fmax omin < float_upper fmax omax)%Q /\
  ((omin = None /\ omax = None) \/ custom = true).
Definition float_chosen (threshold : option Q) (above : bool) (v : Q) : Prop :=
  match threshold with
  | None => True
  | Some t => if above then (t <= v)%Q else (v < t)%Q
  end.

(** Thresholds for uint8 images: the whole numbers from 0 up. Other dtypes
    take any threshold. *)
Definition threshold_fits (t : ity) (threshold : option Q) : Prop :=
  match t, threshold with
  | TU 8, Some th => exists k, 0 <= k /\ (th == inject_Z k)%Q
  | _, _ => True
  end.
