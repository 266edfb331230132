(** What C75 to C79 are about, independent of tables. *)
From Verif Require Import Prelude.
Local Open Scope Z_scope.

(** A nonempty uint8 image with [nc] components per pixel. *)
Definition on {A} (im : arr A) (y x : Z) : Prop := 0 <= y < ah im /\ 0 <= x < aw im.
Definition u8_image (nc : nat) (im : arr (list Z)) : Prop :=
  (0 < nc)%nat /\ 0 < ah im /\ 0 < aw im /\ forall y x, on im y x -> length (apx im y x) = nc /\ Forall (fun v => 0 <= v <= 255) (apx im y x).

(** Component [c] of a pixel. *)
Definition comp (im : arr (list Z)) (c : nat) (y x : Z) : Z := nth c (apx im y x) 0.

(** [r] is a uint8 image of the same size, in which every component of channel
    [c] is the value of [f c] at the component of [im]. *)
Definition recolored (nc : nat) (im : arr (list Z)) (f : nat -> Z -> Z) (r : arr (list Z)) : Prop :=
  u8_image nc r /\ ah r = ah im /\ aw r = aw im /\
  forall c y x, (c < nc)%nat -> on im y x -> comp r c y x = f c (comp im c y x).

(** Brighter components stay brighter (or become equal), in every channel. *)
Definition order_kept (nc : nat) (im r : arr (list Z)) : Prop :=
  forall c y x y' x', (c < nc)%nat -> on im y x -> on im y' x' -> comp im c y x <= comp im c y' x' -> comp r c y x <= comp r c y' x'.
Definition order_reversed (nc : nat) (im r : arr (list Z)) : Prop :=
  forall c y x y' x', (c < nc)%nat -> on im y x -> on im y' x' -> comp im c y x <= comp im c y' x' -> comp r c y' x' <= comp r c y x.

Definition same_image (nc : nat) (im r : arr (list Z)) : Prop := recolored nc im (fun _ v => v) r.

(** The number of pixels whose component [c] satisfies [P], where the mask is not zero. *)
Definition in_mask (mask : option (arr Z)) (y x : Z) : bool := match mask with Some m => negb (apx m y x =? 0) | None => true end.
Definition positions (h w : Z) : list (Z * Z) :=
  list_prod (map Z.of_nat (seq 0 (Z.to_nat h))) (map Z.of_nat (seq 0 (Z.to_nat w))).
Definition count (mask : option (arr Z)) (im : arr (list Z)) (c : nat) (P : Z -> bool) : Z :=
  Z.of_nat (length (filter (fun p => P (comp im c (fst p) (snd p)) && in_mask mask (fst p) (snd p)) (positions (ah im) (aw im)))).

(** [new] is [darker] in units of [q], rounded to the nearest whole number, at most 255. *)
Definition levelled (q darker new : Z) : Prop :=
  if 255 * q <=? darker + q / 2 then new = 255 else new * q <= darker + q / 2 < (new + 1) * q.

(** [lo] is the value of the pixel of rank [k], counting from the darkest (rank
    0) of the pixels whose values are not ignored; [hi] that from the brightest. *)
Definition dark_rank (im : arr (list Z)) (c : nat) (ignore : list Z) (k lo : Z) : Prop :=
  let counted v := negb (existsb (Z.eqb v) ignore) in
  count None im c (fun v => counted v && (v <? lo)) <= k < count None im c (fun v => counted v && (v <=? lo)).
Definition bright_rank (im : arr (list Z)) (c : nat) (ignore : list Z) (k hi : Z) : Prop :=
  let counted v := negb (existsb (Z.eqb v) ignore) in
  count None im c (fun v => counted v && (hi <? v)) <= k < count None im c (fun v => counted v && (hi <=? v)).

(** [r] is the value [v] stretched linearly from [lo, hi] to [0, 255], cut down to
    an integer (up to a tiny error), at least 254 from [hi] on. *)
Definition stretched (lo hi v r : Z) : Prop :=
  (v <= lo -> r = 0) /\ (hi <= v -> 254 <= r <= 255) /\
  (lo <= v <= hi -> (255 * inject_Z (v - lo) / inject_Z (hi - lo) - (1 + (1 # 1000000)) < inject_Z r <=
                     255 * inject_Z (v - lo) / inject_Z (hi - lo) + (1 # 1000000))%Q).

(** power, exp and log2 behave as expected on the arguments in question. *)
Definition power_rises (pow : Q -> Q -> Q) (g : Q) : Prop := forall a b, (0 <= a -> a <= b -> b <= 1 -> pow a g <= pow b g)%Q.
Definition exp_rises (exp : Q -> Q) : Prop := (forall a b, a <= b -> exp a <= exp b)%Q /\ (forall a, 0 < exp a)%Q.
Definition log_rises (log2 : Q -> Q) : Prop := (forall a b, 1 <= a -> a <= b -> log2 a <= log2 b)%Q /\ (log2 1 == 0)%Q.

(** Into [0, 255]. *)
Definition limited (q : Q) : Q := qclip q 0 255.

(** Within the mask all components of channel [c] are the same. *)
Definition one_value (mask : option (arr Z)) (im : arr (list Z)) (c : nat) : Prop :=
  forall y x y' x', on im y x -> on im y' x' -> in_mask mask y x = true -> in_mask mask y' x' = true -> comp im c y x = comp im c y' x'.

(** [b] is the largest component of channel [c] within the mask. *)
Definition brightest (mask : option (arr Z)) (im : arr (list Z)) (c : nat) (b : Z) : Prop :=
  (exists y x, on im y x /\ in_mask mask y x = true /\ comp im c y x = b) /\
  (forall y x, on im y x -> in_mask mask y x = true -> comp im c y x <= b).

(** An image of three channels with fewer than 64 * 64 components. *)
Definition small_rgb (nc : nat) (im : arr (list Z)) : Prop := nc = 3%nat /\ ah im * aw im * 3 < 4096.

(** [e] is the number nearest to the lower end (or the center) of the bin [j]
    of [n] equally wide bins of [0, 256). *)
Definition nearest_in_bin (center : bool) (n j e : Z) : Prop := 2 * Z.abs (256 * j + (if center then 128 else 0) - n * e) <= n.
