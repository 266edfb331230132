(** What the theorems about saving debug images say, in plain terms. *)
From Coq Require Import List ZArith Ascii String DecimalString Decimal.
From Verif Require Import Prelude.
Import ListNotations.
Open Scope Z_scope.

(** File names like batch_000012.png: at least six decimal digits, more only if needed, of the number [n]. *)
Definition numbered (n : Z) (name : string) : Prop :=
  exists digits u, name = ("batch_" ++ digits ++ ".png")%string /\ NilZero.uint_of_string digits = Some u /\ Z.of_N (N.of_uint u) = n /\
    (6 <= String.length digits)%nat /\ ((6 < String.length digits)%nat -> String.get 0 digits <> Some "0"%char).
(** The i-th batch is one of every [n]. *)
Definition due (n : Z) (i : nat) : Prop := (n | Z.of_nat i).
(** The i-th batch is due and can be drawn as [image]. *)
Definition drawn {B I} (draw : B -> res I) (n : Z) (bs : list B) (i : nat) (image : I) : Prop :=
  due n i /\ exists b, nth_error bs i = Some b /\ draw b = Ok image.
