(** Vocabulary of the property theorems about channels. *)
From Verif Require Import Prelude ChanModel.
From Coq Require Import Permutation.

(** Index [v], possibly negative, denotes channel [c] of [n] channels. *)
Definition denotes (n v c : Z) : Prop := 0 <= c < n /\ (v = c \/ v = c - n).
Definition selected (n : Z) (cs : list Z) (c : Z) : Prop := exists v, In v cs /\ denotes n v c.
(** Entry [k] is the last of the list that denotes channel [c]. *)
Definition last_entry (n : Z) (cs : list Z) (k : nat) (c : Z) : Prop :=
  (k < length cs)%nat /\ denotes n (nth k cs 0) c /\
  forall k', (k < k' < length cs)%nat -> ~ denotes n (nth k' cs 0) c.

(** The image with the listed channels of [im], in list order. *)
Definition is_selection {A} (cs : list Z) (im sel : cimg A) : Prop :=
  ch sel = ch im /\ cw sel = cw im /\ cdt sel = cdt im /\ cc sel = Z.of_nat (length cs) /\
  forall k c, (k < length cs)%nat -> denotes (cc im) (nth k cs 0) c ->
    forall y x, cpx sel y x (Z.of_nat k) = cpx im y x c.

(** [out] is [im] with the listed channels replaced by those of [aug];
    an image [aug] with one channel serves for every listed channel, and a
    channel listed repeatedly takes the last one. *)
Definition is_merge {A} (cs : list Z) (im aug out : cimg A) : Prop :=
  ch out = ch im /\ cw out = cw im /\ cc out = cc im /\ cdt out = cdt im /\
  (forall c y x, 0 <= c < cc im -> ~ selected (cc im) cs c -> cpx out y x c = cpx im y x c) /\
  (forall k c y x, last_entry (cc im) cs k c ->
     cpx out y x c = cpx aug y x (if cc aug =? 1 then 0 else Z.of_nat k)).

(** All entries exist in an image of [n] channels. *)
Definition exist_in (n : Z) (cs : list Z) : Prop := Forall (fun v => exists c, denotes n v c) cs.

(** [out] has the channels of [im] reordered: channel c of [out] is channel
    [s c] of [im]. *)
Definition reordered {A} (s : Z -> Z) (im out : cimg A) : Prop :=
  ch out = ch im /\ cw out = cw im /\ cc out = cc im /\ cdt out = cdt im /\
  Permutation (map s (map Z.of_nat (seq 0 (Z.to_nat (cc im)))))
              (map Z.of_nat (seq 0 (Z.to_nat (cc im)))) /\
  forall c y x, 0 <= c < cc im -> cpx out y x c = cpx im y x (s c).

(** No channel is listed twice, e.g. as 2 and as -1 for 3 channels. *)
Definition no_channel_twice (n : Z) (cs : list Z) : Prop :=
  forall i j c, (i < length cs)%nat -> (j < length cs)%nat ->
    denotes n (nth i cs 0) c -> denotes n (nth j cs 0) c -> i = j.

(** Children that keep what WithChannels requires never make it fail. *)
Definition wc_keeps {A V} (inner : cbatch (A:=A) V) (r : res (cbatch (A:=A) V)) : Prop :=
  exists b1, r = Ok b1 /\ map fst (b_columns b1) = map fst (b_columns inner) /\
    match b_images inner, b_images b1 with
    | Some ims, Some augs => Forall2 (fun im aug => ch aug = ch im /\ cw aug = cw im /\ cdt aug = cdt im /\
                                                  (cc aug = cc im \/ cc aug = 1)) ims augs
    | None, None => True
    | _, _ => False
    end.
