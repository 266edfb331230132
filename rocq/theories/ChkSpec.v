(** What the theorems about Lambda, AssertLambda, AssertShape,
    RemoveCBAsByOutOfImageFraction and ClipCBAsToImagePlanes say, in plain terms. *)
From Coq Require Import Qreals Reals.
From Verif Require Import Prelude GeoModel GeoSpec LineModel LineSpec ChkModel.

(** The size [n] is one of those that the entry of the expected shape allows. *)
Definition allows (e : dimspec) (n : Z) : Prop :=
  match e with
  | DNone => True
  | DInt m => n = m
  | DTuple [a; b] => (a <= n < b)%Z
  | DTuple _ => False
  | DList l => In n l
  | DOther => False
  end.
(** An entry as documented: None, an integer, a pair (the documented form of a range) or a list. *)
Definition documented (e : dimspec) : Prop :=
  match e with DTuple l => length l = 2%nat | DOther => False | _ => True end.

(** The shapes of the items of one column fit the entries [target] (first: number of items). *)
Definition fits (target : list dimspec) (shapes : list (list Z)) : Prop :=
  (exists e, nth_error target 0 = Some e /\ allows e (Z.of_nat (length shapes))) /\
  forall s k e, In s shapes -> nth_error target (S k) = Some e -> exists n, nth_error s k = Some n /\ allows e n.

(** Column [i] of the batch holds the items [l]. *)
Definition holds {V} (b : list (option (list V))) (i : nat) (l : list V) : Prop := nth_error b i = Some (Some l).

(** Two columns are of the same kind and their items are related one by one. *)
Definition column_rel {A} (R : A -> A -> Prop) (c c' : option (list A)) : Prop :=
  match c, c' with
  | None, None => True
  | Some l, Some l' => Forall2 R l l'
  | _, _ => False
  end.
Definition column_all {A} (P : A -> Prop) (c : option (list A)) : Prop :=
  match c with None => True | Some l => Forall P l end.

(** [out] are the items with [P], in order. *)
Inductive those {A} (P : A -> Prop) : list A -> list A -> Prop :=
| th_nil : those P [] []
| th_keep : forall i l out, P i -> those P l out -> those P (i :: l) (i :: out)
| th_drop : forall i l out, ~ P i -> those P l out -> those P (i :: l) out.

(** In the rectangle from (0, 0) to (w, h), borders included. *)
Definition in_rectangle (s : Z * Z) (p : LineModel.point) : Prop :=
  (0 <= fst p <= inject_Z (snd s) /\ 0 <= snd p <= inject_Z (fst s))%Q.
(** What is assumed of shapely's intersection of a polygon of three or more points with the image:
    polygons (none of which degenerates to nothing) in the rectangle or nothing. *)
Definition rect_ok (isect3 : list LineModel.point -> Z * Z -> pgeom) (ext : list LineModel.point) (s : Z * Z) : Prop :=
  let part e := polygon_new e <> [] /\ all_apart (polygon_new e) /\ Forall (in_rectangle s) e in
  match isect3 ext s with
  | PPolygon e => part e
  | PMultiPolygon es => Forall part es
  | PLinesOrPoints | PCollection true => True
  | _ => False
  end.
(** The corners of a box are in order. *)
Definition sorted_boxes (o : bbsoi) : Prop := Forall proper (bbs o).
