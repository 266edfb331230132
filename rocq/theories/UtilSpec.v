(** Vocabulary of the property theorems about the helpers of imgaug.py. *)
From Verif Require Import Prelude UtilModel.

(** [v] is the greatest (for [le] = <=) or least (>=) of the values at the
    positions [P]. *)
Definition extremum (le : Z -> Z -> Prop) (P : Z -> Z -> Prop) (px : Z -> Z -> Z) (v : Z) : Prop :=
  (exists y x, P y x /\ px y x = v) /\ forall y x, P y x -> le (px y x) v.

(** [r] is n/k rounded up. *)
Definition rounded_up (n k r : Z) : Prop := (r - 1) * k < n <= r * k.

(** Position (y, x) lies in block (i, j) of a grid of blocks of size kh x kw. *)
Definition in_block (kh kw i j y x : Z) : Prop :=
  i * kh <= y < (i + 1) * kh /\ j * kw <= x < (j + 1) * kw.

(** The values a nested list yields, from left to right. *)
Inductive yields {V} : nested V -> list V -> Prop :=
| yields_leaf : forall v, yields (Leaf v) [v]
| yields_node : forall tup ts, forall ls, yields_all ts ls -> yields (Node tup ts) ls
with yields_all {V} : list (nested V) -> list V -> Prop :=
| yields_nil : yields_all [] []
| yields_cons : forall t ts l ls, yields t l -> yields_all ts ls -> yields_all (t :: ts) (l ++ ls).

(** The point lies on the line through two points. *)
Definition on_line (p a b : Q * Q) : Prop :=
  ((fst b - fst a) * (snd p - snd a) == (snd b - snd a) * (fst p - fst a))%Q.

(** Entry of channel [c] for value [v] of a table. *)
Definition entry (table : lut) (c : nat) (v : Z) : Z :=
  match table with
  | LFlat t => nth (Z.to_nat v) t 0
  | LRows rows | LRows3 rows => nth c (nth (Z.to_nat v) rows []) 0
  | LList ts => nth (Z.to_nat v) (nth c ts []) 0
  end.
(** A table for images with [nc] channels. *)
Definition table_for (nc : nat) (table : lut) : Prop :=
  match table with
  | LFlat t => length t = 256%nat
  | LRows rows | LRows3 rows => length rows = 256%nat /\ Forall (fun r => length r = nc) rows
  | LList ts => length ts = nc /\ Forall (fun t => length t = 256%nat) ts
  end.
