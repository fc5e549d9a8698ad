(** Properties C30 - C35, C69, C70: mapping.  The notions are defined in SpecMapping.v and Spec.v. *)
From Coq Require Import Reals ZArith List Lia Lra.
From Flocq Require Import Core.Raux IEEE754.BinarySingleNaN.
From Verif Require Import Outcome Num Float64 GridModel NumericsModel MappingModel Spec SpecMotion SpecMapping
  RayProofs MappingProofs MappingFloat PropMappingAux.
Import ListNotations.
Local Open Scope Z_scope.

(** C30 *)
Theorem C30_ray_cells : forall {T} {NT : Num T} (m : mapper T) (g : grid T) x0 y0 x1 y1,
  0 <= x0 < 2 ^ 30 -> 0 <= y0 < 2 ^ 30 -> 0 <= x1 < 2 ^ 30 -> 0 <= y1 < 2 ^ 30 ->
  exists l, rayTrace m g x0 y0 x1 y1 = free_all m g l /\ NoDup l /\
    (forall x y, In (x, y) l <-> on_ray x0 y0 x1 y1 x y) /\
    lenZ l = Z.max (Z.abs (x1 - x0)) (Z.abs (y1 - y0)).
Proof. exact @c30_ray. Qed.
Print Assumptions C30_ray_cells.
Theorem C30_segment_box : forall x0 y0 x1 y1 x y, on_ray x0 y0 x1 y1 x y ->
  Z.min x0 x1 <= x <= Z.max x0 x1 /\ Z.min y0 y1 <= y <= Z.max y0 y1 /\ (x, y) <> (x1, y1).
Proof. exact on_ray_box. Qed.
Print Assumptions C30_segment_box.
Theorem C30_segment_start : forall x0 y0 x1 y1, (x0, y0) <> (x1, y1) -> on_ray x0 y0 x1 y1 x0 y0.
Proof. exact on_ray_start. Qed.
Print Assumptions C30_segment_start.
Theorem C30_effect : forall {T} {NT : Num T} (m : mapper T) (g g' : grid T) x0 y0 x1 y1,
  mappable g -> in_grid g y0 x0 -> in_grid g y1 x1 -> rayTrace m g x0 y0 x1 y1 = Ok g' ->
  same_frame g g' /\
  forall i j v, in_grid g i j -> cell_is g i j v ->
    (on_ray x0 y0 x1 y1 j i -> exists v', fuse m (mp_free m) v = Ok v' /\ cell_is g' i j v') /\
    (~ on_ray x0 y0 x1 y1 j i -> cell_is g' i j v).
Proof. exact @ray_effect. Qed.
Print Assumptions C30_effect.
Example C30_example : on_ray 7 4 1 1 5 3 /\ on_ray 7 4 1 1 2 1 /\ ~ on_ray 7 4 1 1 2 2.
Proof. cbv. intuition congruence. Qed.

(** C31 *)
Theorem C31_outside : forall {T} {NT : Num T} (m : mapper T) (g : grid T) s pose ri rj,
  mappable g -> world2Grid g (v0 pose) (v1 pose) = Ok (ri, rj) ->
  (~ in_grid g ri rj <-> exists g', updateMap m g s pose = Ok (false, g')) /\
  (~ in_grid g ri rj -> updateMap m g s pose = Ok (false, g)).
Proof. exact @c31_outside. Qed.
Print Assumptions C31_outside.
Theorem C31_effect : forall {T} {NT : Num T} (m : mapper T) (g : grid T) s pose g',
  mappable g -> updateMap m g s pose = Ok (true, g') ->
  same_frame g g' /\ exists ri rj ends,
    world2Grid g (v0 pose) (v1 pose) = Ok (ri, rj) /\ in_grid g ri rj /\ beam_ends m g s pose ends /\
    forall i j v, in_grid g i j -> cell_is g i j v ->
      exists v', seen m ri rj i j ends v v' /\ cell_is g' i j v'.
Proof. exact @c31_effect. Qed.
Print Assumptions C31_effect.
Theorem C31_only_on_rays : forall {T} {NT : Num T} (m : mapper T) (g : grid T) s pose g',
  mappable g -> updateMap m g s pose = Ok (true, g') ->
  exists ri rj ends, world2Grid g (v0 pose) (v1 pose) = Ok (ri, rj) /\ beam_ends m g s pose ends /\
    forall i j v v', in_grid g i j -> cell_is g i j v -> cell_is g' i j v' -> v <> v' ->
      exists ei ej, In (Some (ei, ej)) ends /\ (on_ray rj ri ej ei j i \/ (i, j) = (ei, ej)).
Proof. exact @c31_changed. Qed.
Print Assumptions C31_only_on_rays.
(** The end of a beam is where the mounted sensor sees it. *)
Theorem C31_beam_end : forall (m : mapper R) (pose : vec3 R) tx ty ta a r, mp_Tbs m = transform2d tx ty ta ->
  end_point (sensor_pose m pose) a r =
  rigid (v0 pose) (v1 pose) (v2 pose) (rigid tx ty ta (r * cos a, r * sin a))%R.
Proof. exact end_point_R. Qed.
Print Assumptions C31_beam_end.
Theorem C31_defined_on_known_maps : forall (L : libm) Tbs (g : grid b64) s pose ri rj ends,
  explog_rules L -> mappable g -> known g ->
  @world2Grid b64 (F64 L) g (v0 pose) (v1 pose) = Ok (ri, rj) -> in_grid g ri rj ->
  @beam_ends b64 (F64 L) (@mapper_ctor b64 (F64 L) Tbs) g s pose ends ->
  exists g', @updateMap b64 (F64 L) (@mapper_ctor b64 (F64 L) Tbs) g s pose = Ok (true, g') /\ known g'.
Proof. exact c32_total. Qed.
Print Assumptions C31_defined_on_known_maps.
(** A scan that really goes through: one beam of 6 m along the x axis of a 10 x 10 map. *)
Example C31_example : exists g',
  @updateMap b64 (F64 toy_libm) (@mapper_ctor b64 (F64 toy_libm) (mount (b 0 0))) (map10 7 20) (scan1 (b 6 0)) pose00 = Ok (true, g').
Proof.
  destruct (C31_defined_on_known_maps toy_libm (mount (b 0 0)) (map10 7 20) (scan1 (b 6 0)) pose00 0 0 [Some (0, 6)]) as (g' & E & _).
  - exact toy_rules.
  - apply map10_mappable.
  - apply map10_known. lia.
  - apply pose00_cell.
  - apply in10; lia.
  - split; [reflexivity|]. intros [|[|k]] r e H1 H2; cbn in H1, H2; try discriminate.
    injection H1 as <-. injection H2 as <-. apply beam10; [split; reflexivity|left; reflexivity].
  - exists g'. exact E.
Qed.

(** C32 *)
Theorem C32_range : forall (L : libm) Tbs (g g' : grid b64) h, explog_rules L -> mappable g -> known g ->
  @map_run b64 (F64 L) (@mapper_ctor b64 (F64 L) Tbs) g h = Ok g' -> known g'.
Proof. exact c32_range. Qed.
Print Assumptions C32_range.
Theorem C32_certainty_absorbing : forall (L : libm) Tbs (g g' : grid b64) h i j v, explog_rules L -> mappable g ->
  @map_run b64 (F64 L) (@mapper_ctor b64 (F64 L) Tbs) g h = Ok g' ->
  in_grid g i j -> cell_is g i j v -> v = 0 \/ v = 100 -> cell_is g' i j v.
Proof. exact c32_absorbing. Qed.
Print Assumptions C32_certainty_absorbing.
Example C32_example : explog_rules toy_libm /\ mappable (map10 3 100) /\ known (map10 3 100) /\ cell_is (map10 3 100) 0 3 100.
Proof. split; [exact toy_rules|]. split; [apply map10_mappable|]. split; [apply map10_known; lia|reflexivity]. Qed.

(** C33: a used beam that touches an unknown cell makes the whole update undefined. *)
Theorem C33_unknown_cells_refuted : forall L, explog_rules L -> forall Tbs (g : grid b64) s pose ri rj k r ei ej i j v,
  mappable g -> byte_map g ->
  @world2Grid b64 (F64 L) g (v0 pose) (v1 pose) = Ok (ri, rj) -> in_grid g ri rj ->
  nth_error (s_ranges s) k = Some r ->
  @hits b64 (F64 L) g s (@sensor_pose b64 (F64 L) (@mapper_ctor b64 (F64 L) Tbs) pose) (@angle_at b64 (F64 L) s k) r (Some (ei, ej)) ->
  in_grid g i j -> cell_is g i j v -> v < 0 -> on_ray rj ri ej ei j i \/ (i, j) = (ei, ej) ->
  @updateMap b64 (F64 L) (@mapper_ctor b64 (F64 L) Tbs) g s pose = UB UFloatCast.
Proof. exact c33_unknown. Qed.
Print Assumptions C33_unknown_cells_refuted.
Theorem C33_cell_refuted : forall L, explog_rules L -> forall Tbs log c, -128 <= c <= -1 ->
  @fuse b64 (F64 L) (@mapper_ctor b64 (F64 L) Tbs) log c = UB UFloatCast.
Proof. exact fuse_unknown. Qed.
Print Assumptions C33_cell_refuted.
(** The witness: cell (0, 3) unknown, one 6 m beam crosses it. *)
Example C33_example : forall L, explog_rules L -> trig0 L ->
  @updateMap b64 (F64 L) (@mapper_ctor b64 (F64 L) (mount (b 0 0))) (map10 3 (-1)) (scan1 (b 6 0)) pose00 = UB UFloatCast.
Proof.
  intros L HL HT. apply (C33_unknown_cells_refuted L HL) with (ri := 0) (rj := 0) (k := 0%nat) (r := b 6 0) (ei := 0) (ej := 6) (i := 0) (j := 3) (v := -1).
  - apply map10_mappable.
  - apply map10_bytes. lia.
  - apply pose00_cell.
  - apply in10; lia.
  - reflexivity.
  - apply beam10; [exact HT|left; reflexivity].
  - apply in10; lia.
  - reflexivity.
  - lia.
  - left. cbv. intuition congruence.
Qed.

(** C34: 9 : 1 are the odds of an occupied, 35 : 65 those of a free observation. *)
Theorem C34_occupied : forall Tbs (g : grid R) x y c, mappable g -> in_grid g y x -> cell_is g y x c -> 1 <= c <= 99 ->
  exists v, updateCell (mapper_ctor Tbs) g x y (mp_occ (mapper_ctor Tbs)) = Ok (set_cell g y x v) /\ c <= v <= 100 /\
    forall p, bayes c 9 p -> (IZR v <= 100 * p < IZR v + 1)%R.
Proof. exact c34_occ. Qed.
Print Assumptions C34_occupied.
Theorem C34_free : forall Tbs (g : grid R) x y c, mappable g -> in_grid g y x -> cell_is g y x c -> 1 <= c <= 99 ->
  exists v, updateCell (mapper_ctor Tbs) g x y (mp_free (mapper_ctor Tbs)) = Ok (set_cell g y x v) /\ 0 <= v < c /\
    forall p, bayes c (35 / 65) p -> (IZR v <= 100 * p < IZR v + 1)%R.
Proof. exact c34_free. Qed.
Print Assumptions C34_free.
Example C34_example : bayes 50 9 (9 / 10) /\ bayes 50 (35 / 65) (35 / 100).
Proof. unfold bayes. split; (split; [lra|field]). Qed.

(** C35 *)
Theorem C35_gated_ignored : forall {T} {NT : Num T} (m : mapper T) (g : grid T) s pose l1 l2 r r',
  gated s r = true -> gated s r' = true ->
  let with_ranges rs := mkScan (s_amin s) (s_ainc s) (s_rmin s) (s_rmax s) rs in
  updateMap m g (with_ranges (l1 ++ r :: l2)) pose = updateMap m g (with_ranges (l1 ++ r' :: l2)) pose.
Proof. exact @c35_gated. Qed.
Print Assumptions C35_gated_ignored.
Theorem C35_all_gated : forall {T} {NT : Num T} (m : mapper T) (g : grid T) s pose o g',
  Forall (fun r => gated s r = true) (s_ranges s) -> updateMap m g s pose = Ok (o, g') -> g' = g.
Proof. exact @c35_all_gated. Qed.
Print Assumptions C35_all_gated.
Theorem C35_gate : forall (s : scan R) r, gated s r = true <-> (s_rmax s < r \/ r < s_rmin s)%R.
Proof. exact c35_gate. Qed.
Print Assumptions C35_gate.
Theorem C35_bearing : forall (s : scan R) k, angle_at s k = (s_amin s + INR k * s_ainc s)%R.
Proof. exact angle_at_R. Qed.
Print Assumptions C35_bearing.
Theorem C35_nan_range_undefined : forall (L : libm) (m : mapper b64) (g : grid b64) (s : scan b64) pose ri rj (l1 l2 : list b64),
  mappable g -> @world2Grid b64 (F64 L) g (v0 pose) (v1 pose) = Ok (ri, rj) -> in_grid g ri rj ->
  s_ranges s = l1 ++ (B754_nan : b64) :: l2 -> Forall (fun r => @gated b64 (F64 L) s r = true) l1 ->
  @updateMap b64 (F64 L) m g s pose = UB UFloatCast.
Proof. exact c35_nan. Qed.
Print Assumptions C35_nan_range_undefined.
Example C35_example : forall L m, @updateMap b64 (F64 L) m (map10 3 20) (scan1 B754_nan) pose00 = UB UFloatCast.
Proof.
  intros L m. apply (C35_nan_range_undefined L m (map10 3 20) (scan1 B754_nan) pose00 0 0 [] []).
  - apply map10_mappable.
  - apply pose00_cell.
  - apply in10; lia.
  - reflexivity.
  - constructor.
Qed.

(** C69: rays start at the robot's cell wherever the sensor is mounted, so the robot's own cell is
    observed free once per beam. *)
Theorem C69_rays_start_at_base : forall {T} {NT : Num T} (m : mapper T) (g : grid T) s pose g' ri rj c ends,
  mappable g -> updateMap m g s pose = Ok (true, g') ->
  world2Grid g (v0 pose) (v1 pose) = Ok (ri, rj) -> beam_ends m g s pose ends -> Forall (leaves ri rj) ends ->
  cell_is g ri rj c -> exists c', free_times m (length (s_ranges s)) c = Ok c' /\ cell_is g' ri rj c'.
Proof. exact @c69_base. Qed.
Print Assumptions C69_rays_start_at_base.
(** The sensor is 5 m ahead of the robot and sees 1 m; still the robot's cell and cell (0, 3), which lie
    behind the sensor, are observed free. *)
Theorem C69_only_between_sensor_and_end_refuted : forall L, explog_rules L -> trig0 L ->
  exists g' v0 v3, @updateMap b64 (F64 L) (@mapper_ctor b64 (F64 L) (mount (b 5 0))) (map10 0 50) (scan1 (b 1 0)) pose00 = Ok (true, g') /\
    @fuse b64 (F64 L) (@mapper_ctor b64 (F64 L) (mount (b 5 0))) (mp_free (@mapper_ctor b64 (F64 L) (mount (b 5 0)))) 50 = Ok v0 /\
    cell_is g' 0 0 v0 /\ v3 = v0 /\ cell_is g' 0 3 v3.
Proof. exact c69_witness. Qed.
Print Assumptions C69_only_between_sensor_and_end_refuted.

(** C70 *)
Theorem C70_fifteen_free_observations : forall Tbs (g : grid R) x y c,
  mappable g -> in_grid g y x -> cell_is g y x c -> 0 <= c <= 99 ->
  exists n g', (n <= 15)%nat /\ free_all (mapper_ctor Tbs) g (repeat (x, y) n) = Ok g' /\ cell_is g' y x 0.
Proof. exact c70_erode. Qed.
Print Assumptions C70_fifteen_free_observations.
Theorem C70_then_never_occupied : forall (L : libm) Tbs (g g' : grid b64) h i j, explog_rules L -> mappable g ->
  @map_run b64 (F64 L) (@mapper_ctor b64 (F64 L) Tbs) g h = Ok g' ->
  in_grid g i j -> cell_is g i j 0 -> cell_is g' i j 0.
Proof. exact c70_stays. Qed.
Print Assumptions C70_then_never_occupied.
Example C70_example : let g := mkGrid 1 1 1%R 0%R 0%R 1%R 1%R [99] in mappable g /\ in_grid g 0 0 /\ cell_is g 0 0 99.
Proof. cbv. intuition congruence. Qed.
