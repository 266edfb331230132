(** Property theorems about helpers of imgaug/imgaug.py. *)
From Verif Require Import Prelude SizeModel UtilModel UtilSpec UtilProofs.

(* ---- C24: pooling ---- *)

(** With the default padding the padded pixels do not matter: cell (i, j) is the
    extremum of the image pixels in block (i, j), where the grid of blocks is
    centered on the image. [uint8]: dtype (fast path, up to 512 channels) *)
Theorem C24_max_pool_is_blockwise_max : forall uint8 lo hi nc kh kw cval (a : arr Z),
  0 < kh -> 0 < kw -> 0 < ah a -> 0 < aw a ->
  exists r top lft, max_pool uint8 lo hi nc kh kw PMEdge cval a = Ok r /\
    rounded_up (ah a) kh (ah r) /\ rounded_up (aw a) kw (aw r) /\
    top = (ah r * kh - ah a) / 2 /\ lft = (aw r * kw - aw a) / 2 /\
    forall i j, 0 <= i < ah r -> 0 <= j < aw r ->
      extremum Z.le (fun y x => 0 <= y < ah a /\ 0 <= x < aw a /\ in_block kh kw i j (y + top) (x + lft)) (apx a) (apx r i j).
Proof. exact max_pool_edge. Qed.
Print Assumptions C24_max_pool_is_blockwise_max.

Theorem C24_min_pool_is_blockwise_min : forall uint8 lo hi nc kh kw cval (a : arr Z),
  0 < kh -> 0 < kw -> 0 < ah a -> 0 < aw a ->
  exists r top lft, min_pool uint8 lo hi nc kh kw PMEdge cval a = Ok r /\
    rounded_up (ah a) kh (ah r) /\ rounded_up (aw a) kw (aw r) /\
    top = (ah r * kh - ah a) / 2 /\ lft = (aw r * kw - aw a) / 2 /\
    forall i j, 0 <= i < ah r -> 0 <= j < aw r ->
      extremum Z.ge (fun y x => 0 <= y < ah a /\ 0 <= x < aw a /\ in_block kh kw i j (y + top) (x + lft)) (apx a) (apx r i j).
Proof. exact min_pool_edge. Qed.
Print Assumptions C24_min_pool_is_blockwise_min.

(** Other padding modes: blocks of the padded image. *)
Theorem C24_blocks_of_padded_image : forall uint8 lo hi nc op le kh kw mode cval (a : arr Z),
  (op = Z.max /\ le = Z.le) \/ (op = Z.min /\ le = Z.ge) ->
  0 < kh -> 0 < kw -> 0 < ah a -> 0 < aw a ->
  exists r top rgt bottom lft, pool_dispatch uint8 lo hi nc op kh kw mode cval a = Ok r /\
    rounded_up (ah a) kh (ah r) /\ rounded_up (aw a) kw (aw r) /\
    0 <= top /\ top <= bottom <= top + 1 /\ 0 <= lft /\ lft <= rgt <= lft + 1 /\
    top + ah a + bottom = ah r * kh /\ lft + aw a + rgt = aw r * kw /\
    forall i j, 0 <= i < ah r -> 0 <= j < aw r ->
      extremum le (in_block kh kw i j)
        (apx (copy_make_border a (mkTrbl top rgt bottom lft) mode
                (if uint8 then Z.max (Z.min cval 255) 0 else Z.max (Z.min cval hi) lo))) (apx r i j).
Proof. exact any_mode. Qed.
Print Assumptions C24_blocks_of_padded_image.

(** The fast path and the generic path agree. *)
Theorem C24_fast_path_agrees : forall nc nc' op kh kw mode cval (a : arr Z), op = Z.max \/ op = Z.min ->
  0 < kh -> 0 < kw -> 0 < ah a -> 0 < aw a ->
  exists r r', pool_dispatch true 0 255 nc op kh kw mode cval a = Ok r /\
               pool_dispatch false 0 255 nc' op kh kw mode cval a = Ok r' /\ arr_eq r r'.
Proof. exact dispatch_same. Qed.
Print Assumptions C24_fast_path_agrees.

Definition C24_image : arr Z := mkArr 3 5 (fun y x => (7 * y + 3 * x) mod 11).
Definition C24_rows (r : res (arr Z)) : option (list (list Z)) :=
  match r with
  | Ok a => Some (map (fun y => map (fun x => apx a y x) (zrange (aw a))) (zrange (ah a)))
  | Err _ => None
  end.
Example C24_ex1 : C24_rows (Ok C24_image) = Some [[0; 3; 6; 9; 1]; [7; 10; 2; 5; 8]; [3; 6; 9; 1; 4]] /\
  C24_rows (max_pool true 0 255 3 2 2 PMEdge 0 C24_image) = Some [[10; 9; 8]; [6; 9; 4]] /\
  C24_rows (min_pool true 0 255 3 2 3 PMEdge 0 C24_image) = Some [[0; 1]; [3; 1]] /\
  C24_rows (max_pool false (-5) 5 3 2 3 PMConstant 99 C24_image) = Some [[10; 9]; [9; 5]].
Proof. repeat split; vm_compute; reflexivity. Qed.

(* ---- C25: lookup tables ---- *)

Theorem C25_table_applied_per_channel : forall nc (im : arr (list Z)) table, table_for nc table -> (0 < nc)%nat -> 0 < ah im -> 0 < aw im ->
  (forall y x, 0 <= y < ah im -> 0 <= x < aw im -> length (apx im y x) = nc /\ Forall (fun v => 0 <= v <= 255) (apx im y x)) ->
  exists r, apply_lut nc im table = Ok r /\ ah r = ah im /\ aw r = aw im /\
    forall y x, 0 <= y < ah im -> 0 <= x < aw im ->
      length (apx r y x) = nc /\
      forall c, (c < nc)%nat -> nth c (apx r y x) 0 = entry table c (nth c (apx im y x) 0).
Proof. exact apply_lut_entry. Qed.
Print Assumptions C25_table_applied_per_channel.

Theorem C25_other_tables_rejected : forall nc (im : arr (list Z)) table, ~ table_for nc table -> (0 < nc)%nat -> 0 < ah im -> 0 < aw im ->
  apply_lut nc im table = Err AssertionError.
Proof. exact apply_lut_rejects. Qed.
Print Assumptions C25_other_tables_rejected.

Definition C25_tables (nc : nat) : lut := LList (map (fun c => map (fun v => (v + Z.of_nat c) mod 256) (zrange 256)) (seq 0 nc)).
Example C25_ex1 : (length (match C25_tables 600 with LList ts => ts | _ => [] end) = 600)%nat /\
  match apply_lut 600 (mkArr 1 2 (fun y x => map (fun c => Z.of_nat c mod 7 + x) (seq 0 600))) (C25_tables 600) with
  | Ok r => map (fun c => nth c (apx r 0 1) 0) [0; 1; 511; 512; 599]%nat = [1; 3; 256 mod 256; (512 mod 7 + 1 + 512) mod 256; (599 mod 7 + 1 + 599) mod 256]
  | Err _ => False
  end.
Proof. split; vm_compute; reflexivity. Qed.

(* ---- C26: draw_grid ---- *)

Theorem C26_every_image_in_its_cell : forall {A} (zero : A) images rows cols, images <> [] ->
  Forall (fun im => 0 < ah im /\ 0 < aw im) images -> given_positive rows -> given_positive cols ->
  exists g r c ch cw, draw_grid zero images rows cols = Ok g /\
    Z.of_nat (length images) <= r * c /\
    Forall (fun im => ah im <= ch /\ aw im <= cw) images /\ In ch (map ah images) /\ In cw (map aw images) /\
    ah g = ch * r /\ aw g = cw * c /\
    (forall idx im y x, nth_error images idx = Some im -> 0 <= y < ah im -> 0 <= x < aw im ->
       let Y := ch * (Z.of_nat idx / c) + y in let X := cw * (Z.of_nat idx mod c) + x in
       0 <= Y < ah g /\ 0 <= X < aw g /\ apx g Y X = apx im y x) /\
    (forall Y X, 0 <= Y < ah g -> 0 <= X < aw g ->
       (forall idx im y x, nth_error images idx = Some im -> 0 <= y < ah im -> 0 <= x < aw im ->
          ~ (Y = ch * (Z.of_nat idx / c) + y /\ X = cw * (Z.of_nat idx mod c) + x)) ->
       apx g Y X = zero).
Proof. exact (@draw_grid_spec). Qed.
Print Assumptions C26_every_image_in_its_cell.

Theorem C26_number_of_rows_and_columns : forall {A} (zero : A) images rows cols g, images <> [] ->
  Forall (fun im => 0 < ah im /\ 0 < aw im) images -> given_positive rows -> given_positive cols ->
  draw_grid zero images rows cols = Ok g ->
  exists r c ch cw, ah g = ch * r /\ aw g = cw * c /\ In ch (map ah images) /\ In cw (map aw images) /\
    Forall (fun im => ah im <= ch /\ aw im <= cw) images /\
    (forall v, rows = Some v -> r = v /\ rounded_up (Z.of_nat (length images)) r c) /\
    (rows = None -> forall v, cols = Some v -> c = v /\ rounded_up (Z.of_nat (length images)) c r) /\
    (rows = None -> cols = None -> r = c /\ (r - 1) * (r - 1) < Z.of_nat (length images) <= r * r).
Proof. exact (@draw_grid_shape). Qed.
Print Assumptions C26_number_of_rows_and_columns.

Definition C26_images : list (arr Z) := [mkArr 1 2 (fun y x => 10 + x); mkArr 2 1 (fun y x => 20 + y); mkArr 2 2 (fun y x => 30 + 2 * y + x)].
Example C26_ex1 : C24_rows (draw_grid 0 C26_images None None) =
  Some [[10; 11; 20; 0]; [0; 0; 21; 0]; [30; 31; 0; 0]; [32; 33; 0; 0]].
Proof. vm_compute. reflexivity. Qed.

(** Given rows and cols: cols is ignored. *)
Theorem C26_given_columns_refuted : exists images : list (arr Z), length images = 3%nat /\
  Forall (fun im => ah im = 1 /\ aw im = 1) images /\
  exists g, draw_grid 0 images (Some 2) (Some 3) = Ok g /\ aw g = 2.
Proof.
  exists (repeat (mkArr 1 1 (fun _ _ => 5)) 3). split; [reflexivity|]. split; [repeat constructor|].
  eexists. split; [reflexivity|]. reflexivity.
Qed.
Print Assumptions C26_given_columns_refuted.

(* ---- C45: flatten ---- *)

Theorem C45_flatten_yields_leaves_in_order : forall {V} (t : nested V) l, yields t l <-> l = flatten t.
Proof. exact (@yields_flatten). Qed.
Print Assumptions C45_flatten_yields_leaves_in_order.
Example C45_ex1 : flatten (Node true [Leaf 1; Node false [Leaf 2; Node true []; Node true [Leaf 3]]; Leaf 4]) = [1; 2; 3; 4].
Proof. reflexivity. Qed.

(* ---- C46: line intersections ---- *)

Theorem C46_point_lies_on_both_lines : forall x1 y1 x2 y2 x3 y3 x4 y4,
  match line_intersection x1 y1 x2 y2 x3 y3 x4 y4 with
  | Some p => on_line p (x1, y1) (x2, y2) /\ on_line p (x3, y3) (x4, y4)
  | None => ((x2 - x1) * (y4 - y3) == (y2 - y1) * (x4 - x3))%Q
  end.
Proof. exact line_intersection_spec. Qed.
Print Assumptions C46_point_lies_on_both_lines.

Theorem C46_false_iff_parallel : forall x1 y1 x2 y2 x3 y3 x4 y4,
  line_intersection x1 y1 x2 y2 x3 y3 x4 y4 = None <-> ((x2 - x1) * (y4 - y3) == (y2 - y1) * (x4 - x3))%Q.
Proof. exact line_intersection_none. Qed.
Print Assumptions C46_false_iff_parallel.

Theorem C46_point_is_unique : forall x1 y1 x2 y2 x3 y3 x4 y4 p q,
  line_intersection x1 y1 x2 y2 x3 y3 x4 y4 = Some p ->
  on_line q (x1, y1) (x2, y2) -> on_line q (x3, y3) (x4, y4) -> (fst q == fst p /\ snd q == snd p)%Q.
Proof. exact line_intersection_unique. Qed.
Print Assumptions C46_point_is_unique.
Example C46_ex1 : match line_intersection 0 0 2 2 0 2 2 0 with Some (x, y) => (x == 1 /\ y == 1)%Q | None => False end.
Proof. vm_compute. split; reflexivity. Qed.
