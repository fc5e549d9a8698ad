(** Properties C01-C09 (grid).  Theorems, examples and Print Assumptions only. *)
From Coq Require Import Reals Lra ZArith Lia.
From Flocq Require Import Core.Raux Core.Zaux IEEE754.BinarySingleNaN.
From Verif Require Import Outcome Num Float64 GridModel Spec GridProofs GridFloat PropGridAux.
Local Open Scope Z_scope.

(** A 3 x 2 grid used in the examples. *)
Definition ex_grid : grid R := mkGrid 3 2 (1/2)%R (-1)%R 4%R (1/2)%R 5%R [0; 50; 100; -1; 7; 99].

(** C01 *)
Theorem C01_row_major_bijection : forall {T} (g : grid T),
  dims g -> cells g <= 2 ^ 32 ->
  (forall i j, in_grid g i j ->
     0 <= grid2RowMajor g i j < cells g /\ rowMajor2Grid g (grid2RowMajor g i j) = Ok (i, j)) /\
  (forall idx, 0 <= idx < cells g ->
     exists i j, in_grid g i j /\ rowMajor2Grid g idx = Ok (i, j) /\ grid2RowMajor g i j = idx).
Proof. exact @c01_bijection. Qed.
Print Assumptions C01_row_major_bijection.
Example C01_example : dims ex_grid /\ cells ex_grid <= 2 ^ 32 /\ in_grid ex_grid 1 2 /\
  grid2RowMajor ex_grid 1 2 = 5.
Proof. unfold dims, in_grid, cells, is_u32; cbn; lia. Qed.

(** Without the bound two different cells share an index. *)
Theorem C01_large_grid_refuted : exists g : grid R, dims g /\ in_grid g 0 0 /\ in_grid g 65536 0 /\
  grid2RowMajor g 65536 0 = grid2RowMajor g 0 0.
Proof. exact c01_large. Qed.
Print Assumptions C01_large_grid_refuted.

(** C02 *)
Theorem C02_bounds_exact : forall {T} (g : grid T) i j,
  dims g -> 0 < g_xsize g -> 0 < g_ysize g -> is_u32 i -> is_u32 j ->
  (gridBounds g i j = true <-> in_grid g i j).
Proof. exact @c02_pair. Qed.
Print Assumptions C02_bounds_exact.
Theorem C02_index_bounds_exact : forall {T} (g : grid T) idx,
  0 < cells g <= 2 ^ 32 -> is_u32 idx -> (gridBoundsIdx g idx = true <-> idx < cells g).
Proof. exact @c02_idx. Qed.
Print Assumptions C02_index_bounds_exact.
Theorem C02_pair_bounds_imply_index_bounds : forall {T} (g : grid T) i j,
  dims g -> 0 < cells g <= 2 ^ 32 -> is_u32 i -> is_u32 j ->
  gridBounds g i j = true -> gridBoundsIdx g (grid2RowMajor g i j) = true.
Proof. exact @c02_pair_idx. Qed.
Print Assumptions C02_pair_bounds_imply_index_bounds.
Theorem C02_empty_grid_accepts_everything : forall {T} {NT : Num T} i j idx,
  is_u32 i -> is_u32 j -> is_u32 idx ->
  gridBounds (@grid_default T NT) i j = true /\ gridBoundsIdx (@grid_default T NT) idx = true.
Proof. exact @c02_empty. Qed.
Print Assumptions C02_empty_grid_accepts_everything.
Example C02_example : dims ex_grid /\ gridBounds ex_grid 1 2 = true /\ gridBounds ex_grid 2 1 = false.
Proof. unfold dims, is_u32; vm_compute; intuition discriminate. Qed.

(** C03 *)
Theorem C03_constructor_accepts_iff_size_matches : forall {T} {NT : Num T} xmin xmax ymin ymax rs data,
  (exists g, grid_ctor xmin xmax ymin ymax rs data = Ok g) <->
  (exists xs ys, axis_length xmin xmax rs = Ok xs /\ axis_length ymin ymax rs = Ok ys /\
     lenZ data = (xs * ys) mod 2 ^ 32).
Proof. exact @c03_ctor. Qed.
Print Assumptions C03_constructor_accepts_iff_size_matches.
Theorem C03_message_constructor_accepts_iff_size_matches : forall {T} {NT : Num T} (m : msg T),
  (exists g, grid_msg_ctor m = Ok g) <-> lenZ (m_data m) = (m_width m * m_height m) mod 2 ^ 32.
Proof. exact @c03_msg_ctor. Qed.
Print Assumptions C03_message_constructor_accepts_iff_size_matches.
Theorem C03_reads_total_after_construction : forall {T} {NT : Num T} (m : msg T) g,
  is_u32 (m_width m) -> is_u32 (m_height m) -> m_width m * m_height m < 2 ^ 32 ->
  grid_msg_ctor m = Ok g ->
  (forall i j, in_grid g i j -> exists v,
     nthZ (m_data m) (i * m_width m + j) = Some v /\ getCell g i j = Ok (nofZ v / nofZ 100)%num) /\
  (forall idx, is_u32 idx -> 0 < cells g -> cells g <= idx -> getCellIdx g idx = Throw EInvalidArgument).
Proof. exact @c03_total. Qed.
Print Assumptions C03_reads_total_after_construction.
Theorem C03_overflowing_size_accepted_refuted : exists (m : msg R) g,
  is_u32 (m_width m) /\ is_u32 (m_height m) /\ grid_msg_ctor m = Ok g /\ in_grid g 0 0 /\
  gridBounds g 0 0 = true /\ getCell g 0 0 = Throw EOutOfRange.
Proof. exact c03_overflow. Qed.
Print Assumptions C03_overflowing_size_accepted_refuted.
Example C03_example : exists g,
  grid_msg_ctor (mkMsg 3 2 (1/2)%R (-1)%R 4%R [0; 50; 100; -1; 7; 99]) = Ok g /\ in_grid g 1 1.
Proof. eexists; split; [vm_compute; reflexivity|]. unfold in_grid; cbn; lia. Qed.

(** C04 *)
Theorem C04_update_is_message : forall {T} {NT : Num T} (g : grid T) (m : msg T),
  let g' := grid_update g m in
  g_xsize g' = m_width m /\ g_ysize g' = m_height m /\ g_res g' = m_res m /\
  g_xmin g' = m_ox m /\ g_ymin g' = m_oy m /\ g_data g' = m_data m /\
  (forall h, grid_msg_ctor m = Ok h -> g' = h).
Proof. exact @c04_update. Qed.
Print Assumptions C04_update_is_message.
(** The upper limits of the map too, in exact arithmetic. *)
Theorem C04_update_extent : forall (g : grid R) (m : msg R), let g' := grid_update g m in
  (g_xmax g' = m_ox m + IZR (m_width m) * m_res m /\ g_ymax g' = m_oy m + IZR (m_height m) * m_res m)%R.
Proof. exact c04_extent. Qed.
Print Assumptions C04_update_extent.
Theorem C04_update_checks_size_refuted : forall g : grid R, exists m : msg R,
  grid_msg_ctor m = Throw EInvalidArgument /\
  gridBounds (grid_update g m) 1 0 = true /\ getCell (grid_update g m) 1 0 = Throw EOutOfRange.
Proof. exact c04_unchecked. Qed.
Print Assumptions C04_update_checks_size_refuted.
(** What does hold: if every message satisfies the size rule, reads stay total after any history of updates. *)
Theorem C04_sized_messages_keep_reads_total : forall {T} {NT : Num T} (ms : list (msg T)) (g : grid T),
  sized g -> 0 <= cells g < 2 ^ 32 ->
  (forall m, In m ms -> is_u32 (m_width m) /\ is_u32 (m_height m) /\ m_width m * m_height m < 2 ^ 32 /\
                        lenZ (m_data m) = m_width m * m_height m) ->
  forall i j, in_grid (fold_left grid_update ms g) i j ->
    exists v, getCell (fold_left grid_update ms g) i j = Ok v.
Proof. exact @c04_history. Qed.
Print Assumptions C04_sized_messages_keep_reads_total.
Example C04_example : sized ex_grid /\ 0 <= cells ex_grid < 2 ^ 32 /\
  in_grid (fold_left grid_update [mkMsg 1 2 1%R 0%R 0%R [5; 6]] ex_grid) 1 0.
Proof. unfold sized, cells, in_grid; vm_compute; intuition discriminate. Qed.

(** C05 *)
Theorem C05_cell_centre_round_trip : forall (g : grid R) i j,
  dims g -> (0 < g_res g)%R -> in_grid g i j ->
  world2Grid g (fst (grid2World g i j)) (snd (grid2World g i j)) = Ok (i, j).
Proof. exact c05_real. Qed.
Print Assumptions C05_cell_centre_round_trip.
Theorem C05_cell_centre_round_trip_binary64 : forall (L : libm) (g : grid b64) i j,
  dims g -> in_grid g i j ->
  is_finite (g_res g) = true -> is_finite (g_xmin g) = true -> is_finite (g_ymin g) = true ->
  (bpow radix2 (-500) <= B2R (g_res g) <= bpow radix2 500)%R ->
  (Rabs (B2R (g_xmin g)) <= bpow radix2 48 * B2R (g_res g))%R ->
  (Rabs (B2R (g_ymin g)) <= bpow radix2 48 * B2R (g_res g))%R ->
  @world2Grid b64 (F64 L) g (fst (@grid2World b64 (F64 L) g i j)) (snd (@grid2World b64 (F64 L) g i j))
  = Ok (i, j).
Proof. exact c05_b64. Qed.
Print Assumptions C05_cell_centre_round_trip_binary64.
(** The magnitude hypothesis is needed: far from the origin the round trip breaks (origin -2^60, resolution 1). *)
Theorem C05_far_origin_refuted : forall L : libm, exists g : grid b64,
  dims g /\ in_grid g 0 1 /\ is_finite (g_res g) = true /\ is_finite (g_xmin g) = true /\
  is_finite (g_ymin g) = true /\ B2R (g_res g) = 1%R /\
  @world2Grid b64 (F64 L) g (fst (@grid2World b64 (F64 L) g 0 1)) (snd (@grid2World b64 (F64 L) g 0 1))
  <> Ok (0, 1).
Proof. exact c05_far. Qed.
Print Assumptions C05_far_origin_refuted.
Example C05_example : dims ex_grid /\ (0 < g_res ex_grid)%R /\ in_grid ex_grid 1 2.
Proof. unfold dims, is_u32, in_grid; cbn. repeat split; try lia; lra. Qed.
(** The binary64 hypotheses hold for a 0.05 m grid with origin (-12.5, 3). *)
Example C05_example_binary64 : exists g : grid b64, dims g /\ in_grid g 200 300 /\
  is_finite (g_res g) = true /\ is_finite (g_xmin g) = true /\ is_finite (g_ymin g) = true /\
  (bpow radix2 (-500) <= B2R (g_res g) <= bpow radix2 500)%R /\
  (Rabs (B2R (g_xmin g)) <= bpow radix2 48 * B2R (g_res g))%R /\
  (Rabs (B2R (g_ymin g)) <= bpow radix2 48 * B2R (g_res g))%R.
Proof. exact c05_example_b64. Qed.

(** C06 *)
Theorem C06_world2Grid_containing_cell : forall (g : grid R) x y,
  dims g -> 0 < g_xsize g -> 0 < g_ysize g -> (0 < g_res g)%R -> on_map g x y ->
  exists i j, world2Grid g x y = Ok (i, j) /\ in_grid g i j /\ in_cell g i j x y /\
    (Rabs (fst (grid2World g i j) - x) <= g_res g / 2)%R /\
    (Rabs (snd (grid2World g i j) - y) <= g_res g / 2)%R /\
    (* away from the far edges the cell is the half-open one *)
    ((x < g_xmin g + IZR (g_xsize g) * g_res g)%R -> (x < g_xmin g + (IZR j + 1) * g_res g)%R) /\
    ((y < g_ymin g + IZR (g_ysize g) * g_res g)%R -> (y < g_ymin g + (IZR i + 1) * g_res g)%R).
Proof. exact c06_on_map. Qed.
Print Assumptions C06_world2Grid_containing_cell.
Example C06_example : dims ex_grid /\ (0 < g_res ex_grid)%R /\ on_map ex_grid (1/2)%R 4%R.
Proof. unfold dims, is_u32, on_map; cbn. repeat split; try lia; lra. Qed.

(** C07 *)
Theorem C07_left_or_below_is_undefined : forall (g : grid R) x y,
  (0 < g_res g)%R -> (x < g_xmin g \/ y < g_ymin g)%R -> world2Grid g x y = UB UFloatCast.
Proof. exact c07_ub. Qed.
Print Assumptions C07_left_or_below_is_undefined.
(** Expected: points outside the map are recognisable as such.  False: a strip one cell wide is snapped in. *)
Theorem C07_off_map_rejected_refuted : forall (g : grid R) x y,
  dims g -> 0 < g_xsize g -> 0 < g_ysize g -> (0 < g_res g)%R ->
  (g_xmin g + IZR (g_xsize g) * g_res g <= x < g_xmin g + (IZR (g_xsize g) + 1) * g_res g)%R ->
  (g_ymin g <= y < g_ymin g + IZR (g_ysize g) * g_res g)%R ->
  exists i, world2Grid g x y = Ok (i, g_xsize g - 1) /\ in_grid g i (g_xsize g - 1).
Proof. exact c07_snap. Qed.
Print Assumptions C07_off_map_rejected_refuted.
Theorem C07_far_right_or_above_is_out_of_bounds : forall (g : grid R) x y i j,
  dims g -> (0 < g_res g)%R -> world2Grid g x y = Ok (i, j) ->
  (g_xmin g + (IZR (g_xsize g) + 1) * g_res g <= x \/
   g_ymin g + (IZR (g_ysize g) + 1) * g_res g <= y)%R -> ~ in_grid g i j.
Proof. exact c07_far. Qed.
Print Assumptions C07_far_right_or_above_is_out_of_bounds.
(** Together with C06: an in-bounds answer means the point is on the map or in the one-cell strip beyond it. *)
Theorem C07_in_bounds_means_near : forall (g : grid R) x y i j,
  dims g -> (0 < g_res g)%R -> world2Grid g x y = Ok (i, j) -> in_grid g i j ->
  (g_xmin g <= x < g_xmin g + (IZR (g_xsize g) + 1) * g_res g /\
   g_ymin g <= y < g_ymin g + (IZR (g_ysize g) + 1) * g_res g)%R.
Proof. exact c07_near. Qed.
Print Assumptions C07_in_bounds_means_near.
Example C07_example : (ex_grid.(g_xmin) + IZR (ex_grid.(g_xsize)) * ex_grid.(g_res) <= 3/4 <
   ex_grid.(g_xmin) + (IZR (ex_grid.(g_xsize)) + 1) * ex_grid.(g_res))%R /\
  (ex_grid.(g_ymin) <= 4 < ex_grid.(g_ymin) + IZR (ex_grid.(g_ysize)) * ex_grid.(g_res))%R.
Proof. cbn. lra. Qed.

(** C08 *)
Theorem C08_axis_length_inverts_axis_upper : forall lo rs (n : Z),
  (0 < rs)%R -> is_u32 n -> axis_length lo (axis_upper lo rs n) rs = Ok n.
Proof. exact c08_inverse. Qed.
Print Assumptions C08_axis_length_inverts_axis_upper.
Theorem C08_axis_length_nearest : forall lo hi rs n,
  (0 < rs)%R -> axis_length lo hi rs = Ok n -> (Rabs ((hi - lo) - IZR n * rs) <= rs / 2)%R.
Proof. exact axis_length_nearest. Qed.
Print Assumptions C08_axis_length_nearest.
Example C08_example : (0 < 1/20)%R /\ is_u32 400.
Proof. unfold is_u32. split; [lra|lia]. Qed.

(** C09 *)
Theorem C09_overloads_agree : forall {T} {NT : Num T} (g : grid T) i j x y,
  getCell g i j = getCellIdx g (grid2RowMajor g i j) /\
  (world2Grid g x y = Ok (i, j) -> getCellXY g x y = getCell g i j).
Proof. exact @c09_overloads. Qed.
Print Assumptions C09_overloads_agree.
Theorem C09_read_is_stored_byte : forall {T} {NT : Num T} (g : grid T) idx a,
  is_u32 idx -> getCellIdx g idx = Ok a ->
  exists v, nth_error (g_data g) (Z.to_nat idx) = Some v /\ a = (nofZ v / nofZ 100)%num.
Proof. exact @c09_stored. Qed.
Print Assumptions C09_read_is_stored_byte.
(** In binary64 distinct bytes read as distinct values in the same order; negative bytes read negative. *)
Theorem C09_reads_order_binary64 : forall (L : libm) u v, is_byte u -> is_byte v ->
  let rd := fun w => @ndiv b64 (F64 L) (@nofZ b64 (F64 L) w) (@nofZ b64 (F64 L) 100) in
  @nlt b64 (F64 L) (rd u) (rd v) = (u <? v) /\ @nlt b64 (F64 L) (rd u) (@nofZ b64 (F64 L) 0) = (u <? 0) /\
  is_finite (rd u) = true.
Proof. exact c09_order. Qed.
Print Assumptions C09_reads_order_binary64.
Example C09_example : getCellIdx ex_grid 3 = Ok (-1 / 100)%R /\ is_byte (-1).
Proof. unfold is_byte; split; [reflexivity|lia]. Qed.
