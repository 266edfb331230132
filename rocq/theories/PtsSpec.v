(** Vocabulary of the property theorems about points. *)
From Verif Require Import Prelude.
Local Open Scope Q_scope.

Definition peq (a b : Q * Q) : Prop := fst a == fst b /\ snd a == snd b.

(** The point [t] of the way from [a] to [b]. *)
Definition between (a b : Q * Q) (t : Q) (p : Q * Q) : Prop :=
  fst p == fst a + t * (fst b - fst a) /\ snd p == snd a + t * (snd b - snd a).

(** Squared distance. *)
Definition distance2 (a b : Q * Q) : Q :=
  (fst a - fst b) * (fst a - fst b) + (snd a - snd b) * (snd a - snd b).

(** [z] is the integer nearest to [q]; at a tie the even one. *)
Definition nearest (q : Q) (z : Z) : Prop :=
  inject_Z z - (1 # 2) <= q <= inject_Z z + (1 # 2) /\
  (q == inject_Z z - (1 # 2) \/ q == inject_Z z + (1 # 2) -> Z.even z = true).

(** [z] lies in an image of [n] rows or columns. *)
Definition inside (n z : Z) : Prop := (0 <= z < n)%Z.

(** What reading back keypoint [kp] must give: the centre of the pixel it
    rounds to if that pixel exists, else the substitute. *)
Definition read_back (h w : Z) (not_found : option (Q * Q)) (kp : Q * Q) (r : list (Q * Q)) : Prop :=
  exists px py, nearest (fst kp) px /\ nearest (snd kp) py /\
    ((inside h py /\ inside w px /\ exists c, r = [c] /\ peq c (inject_Z px + (1 # 2), inject_Z py + (1 # 2))) \/
     (~ (inside h py /\ inside w px) /\ r = match not_found with Some q => [q] | None => [] end)).

(** Neighbouring elements of a list. *)
Definition consecutive {X} (l : list X) : list (X * X) := combine l (tl l).

(** [l] is obtained from [l'] by leaving out elements. *)
Inductive subsequence {X} : list X -> list X -> Prop :=
| sub_nil : forall l, subsequence [] l
| sub_keep : forall x l l', subsequence l l' -> subsequence (x :: l) (x :: l')
| sub_skip : forall x l l', subsequence l l' -> subsequence l (x :: l').

(** [p] lies on the line segment from [a] to [b]. *)
Definition on_segment (p a b : Q * Q) : Prop := exists t, 0 <= t <= 1 /\ between a b t p.
