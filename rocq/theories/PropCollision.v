(** Properties C10 - C17: the collision search. *)
From Coq Require Import Reals ZArith List Lia.
From Flocq Require Import Core.Raux IEEE754.BinarySingleNaN.
From Verif Require Import Outcome Num Float64 GridModel CollisionModel Spec PropCollisionAux PropCollisionAux2.
Local Open Scope Z_scope.

(** [robot_at c g px py i j rb rc rm] (PropCollisionAux.v): the robot position falls in cell (i, j)
    of row i <= 2^30 and column j <= 2^30, and the boundary, collision and search radii are rb, rc and
    rm whole cells, each at most 46340 = floor(sqrt(2^31 - 1)) in magnitude. *)

(** C10 *)
Theorem C10_collision_exact : forall {T} {NT : Num T} (c : collision T) g px py i j rb rc rm,
  ordinary_map g -> robot_at c g px py i j rb rc rm ->
  exists res, collisionCheck c g px py = Ok res /\
    (res = true <-> exists a b, scanned rb rm a b /\ occupied g (c_occ c) (i + b) (j + a) /\
                                a ^ 2 + b ^ 2 <= rc ^ 2).
Proof. exact @c10_exact. Qed.
Print Assumptions C10_collision_exact.
(** In exact arithmetic, for every position on the map. *)
Theorem C10_collision_exact_on_map : forall (c : collision R) (g : grid R) px py,
  (0 < g_res g)%R -> 0 < g_xsize g <= 2 ^ 30 -> 0 < g_ysize g <= 2 ^ 30 -> cells g <= 2 ^ 32 -> sized g ->
  on_map g px py ->
  let fl := fun x => Zfloor (x / g_res g) in
  - 46340 <= fl (c_brad c) <= 46340 -> - 46340 <= fl (c_brad c + c_othr c)%R <= 46340 -> - 46340 <= fl (c_srad c) <= 46340 ->
  exists i j res, in_grid g i j /\ in_cell g i j px py /\ collisionCheck c g px py = Ok res /\
    (res = true <-> exists a b, scanned (fl (c_brad c)) (fl (c_srad c)) a b /\
       occupied g (c_occ c) (i + b) (j + a) /\ a ^ 2 + b ^ 2 <= fl (c_brad c + c_othr c)%R ^ 2).
Proof. exact c10_real. Qed.
Print Assumptions C10_collision_exact_on_map.
Example C10_example : forall L : libm, ordinary_map (map11 5 8) /\
  @robot_at b64 (F64 L) (cfg11 1 3 5) (map11 5 8) b55 b55 5 5 1 3 5 /\
  @collisionCheck b64 (F64 L) (cfg11 1 3 5) (map11 5 8) b55 b55 = Ok true /\
  @collisionCheck b64 (F64 L) (cfg11 1 2 5) (map11 5 8) b55 b55 = Ok false.
Proof.
  intros L. split; [apply map11_ordinary|]. split; [apply robot11; cbn; auto 10|].
  split; vm_compute; reflexivity.
Qed.

(** C11 *)
Theorem C11_queries_agree : forall {T} {NT : Num T} (c : collision T) g px py i j rb rc rm,
  ordinary_map g -> robot_at c g px py i j rb rc rm ->
  exists b m d v, collisionCheck c g px py = Ok b /\ minDistance c g px py = Ok (m, d) /\
    minDirection c g px py = Ok (m, v) /\ (b = true <-> m = Crash).
Proof. exact @c11_agree. Qed.
Print Assumptions C11_queries_agree.

(** C12 *)
Theorem C12_nearest_obstacle : forall {T} {NT : Num T} (c : collision T) g px py i j rb rc rm d,
  ordinary_map g -> robot_at c g px py i j rb rc rm ->
  minDistance c g px py = Ok (Obstacle, d) ->
  exists a b, scanned rb rm a b /\ occupied g (c_occ c) (i + b) (j + a) /\
    (forall a' b', scanned rb rm a' b' -> occupied g (c_occ c) (i + b') (j + a') ->
                   a ^ 2 + b ^ 2 <= a' ^ 2 + b' ^ 2) /\
    rc ^ 2 < a ^ 2 + b ^ 2 /\
    d = (nsqrt (nofZ (a ^ 2 + b ^ 2)) * g_res g - c_brad c)%num /\
    minDirection c g px py = Ok (Obstacle, ((g_res g * nofZ a)%num, (g_res g * nofZ b)%num)).
Proof. exact @c12_min. Qed.
Print Assumptions C12_nearest_obstacle.
Theorem C12_none_means_nothing_scanned : forall {T} {NT : Num T} (c : collision T) g px py i j rb rc rm d,
  ordinary_map g -> robot_at c g px py i j rb rc rm ->
  minDistance c g px py = Ok (NoneMsg, d) ->
  d = nmax /\ minDirection c g px py = Ok (NoneMsg, (nmax, nmax)) /\
  forall a b, scanned rb rm a b -> ~ occupied g (c_occ c) (i + b) (j + a).
Proof. exact @c12_none. Qed.
Print Assumptions C12_none_means_nothing_scanned.
Example C11_C12_example : forall L : libm, ordinary_map (map11 5 8) /\
  @robot_at b64 (F64 L) (cfg11 1 2 5) (map11 5 8) b55 b55 5 5 1 2 5 /\
  (let* ' (m, d) := @minDistance b64 (F64 L) (cfg11 1 2 5) (map11 5 8) b55 b55 in Ok (m, Beqb d (b64_ofZ 2)))
    = Ok (Obstacle, true) /\
  (let* ' (m, (x, y)) := @minDirection b64 (F64 L) (cfg11 1 2 5) (map11 5 8) b55 b55 in
     Ok (m, Beqb x (b64_ofZ 3), Beqb y (b64_ofZ 0))) = Ok (Obstacle, true, true) /\
  (let* ' (m, _) := @minDistance b64 (F64 L) (cfg11 1 1 2) (map11 5 8) b55 b55 in Ok m) = Ok NoneMsg /\
  (let* ' (m, _) := @minDistance b64 (F64 L) (cfg11 1 3 5) (map11 5 8) b55 b55 in Ok m) = Ok Crash.
Proof.
  intros L. split; [apply map11_ordinary|]. split; [apply robot11; cbn; auto 10|].
  split; [vm_compute; reflexivity|]. split; [vm_compute; reflexivity|].
  split; vm_compute; reflexivity.
Qed.

(** C13: no divergence, no overflow, no exception ... *)
Theorem C13_total : forall {T} {NT : Num T} (c : collision T) g px py i j rb rc rm,
  ordinary_map g -> robot_at c g px py i j rb rc rm ->
  is_ok (collisionCheck c g px py) = true /\ is_ok (minDistance c g px py) = true /\
  is_ok (minDirection c g px py) = true.
Proof. exact @c13_total. Qed.
Print Assumptions C13_total.
(** ... and one circle is a visit to each of its cells exactly once, stopping at the first hit. *)
Theorem C13_each_cell_once : forall {T} {NT : Num T} (c : collision T) g i j rb rc rm r s,
  ordinary_map g -> 0 <= i <= 2 ^ 30 -> 0 <= j <= 2 ^ 30 -> - 46340 <= rc <= 46340 ->
  - 46340 <= rb -> rm <= 46340 -> 1 <= r <= 46340 ->
  exists l, NoDup l /\ (forall a b, In (a, b) l <-> on_circle r a b) /\
    bresenhamCircle c (mkCfg rb rc rm j i) g r s = visit c (mkCfg rb rc rm j i) g l s /\
    is_ok (bresenhamCircle c (mkCfg rb rc rm j i) g r s) = true.
Proof. exact @c13_visits. Qed.
Print Assumptions C13_each_cell_once.
(** The bound is sharp: a collision radius of 46341 cells overflows. *)
Theorem C13_large_radius_refuted : forall L : libm,
  @collisionCheck b64 (F64 L) (mkCollision (b64_ofZ 1) (b64_ofZ 1) (b64_ofZ 46340) (b64_scaled 1 (-1))) (map11 5 6) b55 b55
  = UB USignedOverflow.
Proof. exact c13_overflow. Qed.
Print Assumptions C13_large_radius_refuted.
Example C13_example : on_circle 46340 46340 0 /\ on_circle 5 3 4 /\ ~ on_circle 5 3 3.
Proof. unfold on_circle; cbn; lia. Qed.

(** C14 *)
Theorem C14_chain_crosses_circle : forall r (l : list (Z * Z)) p, chain4 p l -> 1 <= r ->
  (r + 1) ^ 2 <= fst p ^ 2 + snd p ^ 2 ->
  (exists q, In q l /\ fst q ^ 2 + snd q ^ 2 <= (r - 1) ^ 2) ->
  exists q, In q l /\ on_circle r (fst q) (snd q).
Proof. exact c14_chain. Qed.
Print Assumptions C14_chain_crosses_circle.
Theorem C14_wall_is_seen : forall {T} {NT : Num T} (c : collision T) g px py i j rb rc rm r p l,
  ordinary_map g -> robot_at c g px py i j rb rc rm ->
  1 <= r -> rb <= r <= rm -> r < rc -> chain4 p l ->
  (r + 1) ^ 2 <= fst p ^ 2 + snd p ^ 2 ->
  (exists q, In q l /\ fst q ^ 2 + snd q ^ 2 <= (r - 1) ^ 2) ->
  (forall q, In q l -> occupied g (c_occ c) (i + snd q) (j + fst q)) ->
  collisionCheck c g px py = Ok true.
Proof. exact @c14_wall. Qed.
Print Assumptions C14_wall_is_seen.
Example C14_example : chain4 (4, 0) [(3, 0); (3, 1); (2, 1); (1, 1); (1, 0)] /\ (3 + 1) ^ 2 <= 4 ^ 2 + 0 ^ 2 /\
  1 ^ 2 + 0 ^ 2 <= (3 - 1) ^ 2 /\ on_circle 3 3 1.
Proof. unfold chain4, adjacent4, on_circle; cbn; lia. Qed.

(** C15: not every occupied cell within the collision radius is reported ... *)
Theorem C15_every_near_cell_reported_refuted : forall L : libm,
  exists (c : collision b64) g px py i j rb rc rm a b,
  (exists bd sr ot oc, @collision_ctor b64 (F64 L) bd sr ot oc = Ok c) /\ ordinary_map g /\
  @robot_at b64 (F64 L) c g px py i j rb rc rm /\ @occupied b64 (F64 L) g (c_occ c) (i + b) (j + a) /\
  rb ^ 2 <= a ^ 2 + b ^ 2 < rc ^ 2 /\ @collisionCheck b64 (F64 L) c g px py = Ok false.
Proof. exact c15_refuted. Qed.
Print Assumptions C15_every_near_cell_reported_refuted.
Theorem C15_inside_boundary_refuted : forall L : libm,
  exists (c : collision b64) g px py i j rb rc rm a b,
  (exists bd sr ot oc, @collision_ctor b64 (F64 L) bd sr ot oc = Ok c) /\ ordinary_map g /\
  @robot_at b64 (F64 L) c g px py i j rb rc rm /\ @occupied b64 (F64 L) g (c_occ c) (i + b) (j + a) /\
  a ^ 2 + b ^ 2 < rb ^ 2 /\ @collisionCheck b64 (F64 L) c g px py = Ok false.
Proof. exact c15_refuted_inside. Qed.
Print Assumptions C15_inside_boundary_refuted.
(** ... anything that lies wholly inside the boundary radius is invisible, whatever it is ... *)
Theorem C15_blind_inside_boundary : forall {T} {NT : Num T} (c : collision T) g px py i j rb rc rm,
  ordinary_map g -> robot_at c g px py i j rb rc rm -> 1 <= rb ->
  (forall a b, occupied g (c_occ c) (i + b) (j + a) -> a ^ 2 + b ^ 2 <= (rb - 1) ^ 2) ->
  collisionCheck c g px py = Ok false /\ minDistance c g px py = Ok (NoneMsg, nmax).
Proof. exact @c15_blind. Qed.
Print Assumptions C15_blind_inside_boundary.
(** ... and at every distance there are cells on the diagonals that lie on no circle: if only such cells are
    occupied no collision is reported, whatever the radii ... *)
Theorem C15_gaps_at_every_distance : forall N, exists k, N <= k /\
  forall (T : Type) (NT : Num T) (c : collision T) g px py i j rb rc rm,
  ordinary_map g -> robot_at c g px py i j rb rc rm ->
  (forall a b, occupied g (c_occ c) (i + b) (j + a) -> Z.abs a = k /\ Z.abs b = k) ->
  collisionCheck c g px py = Ok false.
Proof. exact @c15_gaps. Qed.
Print Assumptions C15_gaps_at_every_distance.
Example C15_gap_example : forall L : libm, ordinary_map (map11 6 6) /\
  @robot_at b64 (F64 L) (cfg11 1 4 5) (map11 6 6) b55 b55 5 5 1 4 5 /\
  @occupied b64 (F64 L) (map11 6 6) (c_occ (cfg11 1 4 5)) (5 + 1) (5 + 1) /\
  (forall a b, @occupied b64 (F64 L) (map11 6 6) (c_occ (cfg11 1 4 5)) (5 + b) (5 + a) -> Z.abs a = 1 /\ Z.abs b = 1) /\
  (forall r, 1 <= r -> ~ on_circle r 1 1).
Proof.
  intros L. split; [apply map11_ordinary|]. split; [apply robot11; cbn; auto 10|].
  split; [apply map11_occupied; lia|].
  split; [intros a b O; apply map11_only in O; lia|]. intros r Hr [H _]. rewrite !Z.pow_2_r in H. change (Z.max (Z.abs 1) (Z.abs 1)) with 1 in H.
  assert (r = 1 \/ 2 <= r) as [->|D] by lia; nia.
Qed.
(** ... but two occupied cells sharing an edge are never both missed between the radii, and cells
    straight ahead, behind, left or right are never missed. *)
Theorem C15_two_cells_reported : forall {T} {NT : Num T} (c : collision T) g px py i j rb rc rm p q,
  ordinary_map g -> robot_at c g px py i j rb rc rm -> 1 <= rb <= rm -> adjacent4 p q ->
  (rb + 1) ^ 2 <= fst p ^ 2 + snd p ^ 2 <= (rm - 1) ^ 2 ->
  fst p ^ 2 + snd p ^ 2 <= rc ^ 2 -> fst q ^ 2 + snd q ^ 2 <= rc ^ 2 ->
  occupied g (c_occ c) (i + snd p) (j + fst p) -> occupied g (c_occ c) (i + snd q) (j + fst q) ->
  collisionCheck c g px py = Ok true.
Proof. exact @c15_domino. Qed.
Print Assumptions C15_two_cells_reported.
Theorem C15_axis_cells_reported : forall {T} {NT : Num T} (c : collision T) g px py i j rb rc rm k a b,
  ordinary_map g -> robot_at c g px py i j rb rc rm -> 1 <= k -> rb <= k <= rm -> k <= rc ->
  (Z.abs a = k /\ b = 0) \/ (a = 0 /\ Z.abs b = k) ->
  occupied g (c_occ c) (i + b) (j + a) ->
  collisionCheck c g px py = Ok true.
Proof. exact @c15_axis. Qed.
Print Assumptions C15_axis_cells_reported.
Example C15_example : forall L : libm, ordinary_map (map11 5 7) /\
  @robot_at b64 (F64 L) (cfg11 1 3 5) (map11 5 7) b55 b55 5 5 1 3 5 /\
  @occupied b64 (F64 L) (map11 5 7) (c_occ (cfg11 1 3 5)) (5 + 0) (5 + 2) /\
  adjacent4 (2, 0) (2, 1) /\ (1 + 1) ^ 2 <= 2 ^ 2 + 0 ^ 2 <= (5 - 1) ^ 2.
Proof.
  intros L. split; [apply map11_ordinary|]. split; [apply robot11; cbn; auto 10|].
  split; [apply map11_occupied; lia|]. unfold adjacent4; cbn; lia.
Qed.

(** C16 *)
Theorem C16_unknown_is_never_an_obstacle_binary64 :
  forall (L : libm) (c : collision b64) (g : grid b64) b s o t i j,
  @collision_ctor b64 (F64 L) b s o t = Ok c -> is_nan t = false -> Forall is_byte (g_data g) ->
  @occupied b64 (F64 L) g (c_occ c) i j ->
  exists v, nth_error (g_data g) (Z.to_nat (i * g_xsize g + j)) = Some v /\ 0 <= v <= 127.
Proof. exact c16_unknown_b64. Qed.
Print Assumptions C16_unknown_is_never_an_obstacle_binary64.
Theorem C16_unknown_is_never_an_obstacle : forall (c : collision R) (g : grid R) b s o t i j,
  collision_ctor b s o t = Ok c -> occupied g (c_occ c) i j ->
  exists v, nth_error (g_data g) (Z.to_nat (i * g_xsize g + j)) = Some v /\ 0 <= v.
Proof. exact c16_unknown_R. Qed.
Print Assumptions C16_unknown_is_never_an_obstacle.
Theorem C16_raising_threshold_binary64 : forall (L : libm) b s o t1 t2 (g : grid b64) px py i j rb rc rm,
  ordinary_map g -> @robot_at b64 (F64 L) (mkCollision b s o t2) g px py i j rb rc rm ->
  @nle b64 (F64 L) t1 t2 = true ->
  @collisionCheck b64 (F64 L) (mkCollision b s o t2) g px py = Ok true ->
  @collisionCheck b64 (F64 L) (mkCollision b s o t1) g px py = Ok true.
Proof. exact c16_mono_b64. Qed.
Print Assumptions C16_raising_threshold_binary64.
Theorem C16_raising_threshold : forall b s o t1 t2 (g : grid R) px py i j rb rc rm,
  ordinary_map g -> robot_at (mkCollision b s o t2) g px py i j rb rc rm -> (t1 <= t2)%R ->
  collisionCheck (mkCollision b s o t2) g px py = Ok true ->
  collisionCheck (mkCollision b s o t1) g px py = Ok true.
Proof. exact c16_mono_R. Qed.
Print Assumptions C16_raising_threshold.
Theorem C16_high_threshold_disables_binary64 :
  forall (L : libm) (c : collision b64) (g : grid b64) px py i j rb rc rm,
  ordinary_map g -> @robot_at b64 (F64 L) c g px py i j rb rc rm -> Forall is_byte (g_data g) ->
  @nlt b64 (F64 L) (@ndiv b64 (F64 L) (@nofZ b64 (F64 L) 127) (@nofZ b64 (F64 L) 100)) (c_occ c) = true ->
  @collisionCheck b64 (F64 L) c g px py = Ok false /\
  @minDistance b64 (F64 L) c g px py = Ok (NoneMsg, @nmax b64 (F64 L)).
Proof. exact c16_disabled_b64. Qed.
Print Assumptions C16_high_threshold_disables_binary64.
Theorem C16_high_threshold_disables : forall (c : collision R) (g : grid R) px py i j rb rc rm,
  ordinary_map g -> robot_at c g px py i j rb rc rm -> Forall is_byte (g_data g) -> (127 / 100 < c_occ c)%R ->
  collisionCheck c g px py = Ok false /\ minDistance c g px py = Ok (NoneMsg, nmax).
Proof. exact c16_disabled_R. Qed.
Print Assumptions C16_high_threshold_disables.
(** A threshold of 90, meant as a percentage, is accepted, and sees nothing. *)
Example C16_example : forall L : libm,
  let c := mkCollision (b64_ofZ 1) (b64_ofZ 5) (b64_ofZ 2) (b64_ofZ 90) in
  @collision_ctor b64 (F64 L) (b64_ofZ 1) (b64_ofZ 5) (b64_ofZ 2) (b64_ofZ 90) = Ok c /\
  @nlt b64 (F64 L) (@ndiv b64 (F64 L) (@nofZ b64 (F64 L) 127) (@nofZ b64 (F64 L) 100)) (c_occ c) = true /\
  @collisionCheck b64 (F64 L) c (map11 5 7) b55 b55 = Ok false /\
  @collisionCheck b64 (F64 L) (cfg11 1 3 5) (map11 5 7) b55 b55 = Ok true.
Proof.
  intros L. split; [apply c17_iff2; vm_compute; reflexivity|].
  split; [vm_compute; reflexivity|]. split; vm_compute; reflexivity.
Qed.

(** C17 *)
Theorem C17_constructor_validation : forall {T} {NT : Num T} (b s o t : T),
  ((exists c, collision_ctor b s o t = Ok c) <->
   nlt s b = false /\ nlt (nofZ 100) t = false /\ nlt t n0 = false) /\
  (forall c, collision_ctor b s o t = Ok c -> c = mkCollision b s o t) /\
  (is_ok (collision_ctor b s o t) = false -> collision_ctor b s o t = Throw EInvalidArgument).
Proof. exact @c17_iff. Qed.
Print Assumptions C17_constructor_validation.
Theorem C17_nan_is_accepted : forall (L : libm) (b s o t : b64),
  (is_nan b = true \/ is_nan s = true \/ @nlt b64 (F64 L) s b = false) ->
  (is_nan t = true \/ (@nlt b64 (F64 L) (@nofZ b64 (F64 L) 100) t = false /\ @nlt b64 (F64 L) t (@nofZ b64 (F64 L) 0) = false)) ->
  @collision_ctor b64 (F64 L) b s o t = Ok (mkCollision b s o t).
Proof. exact c17_nan. Qed.
Print Assumptions C17_nan_is_accepted.
(** A NaN threshold turns every cell, unknown ones included, into an obstacle. *)
Theorem C17_nan_threshold_occupies_everything : forall (L : libm) (g : grid b64) t i j,
  is_nan t = true -> sized g -> (@occupied b64 (F64 L) g t i j <-> in_grid g i j).
Proof. exact c17_nan_thr. Qed.
Print Assumptions C17_nan_threshold_occupies_everything.
Example C17_example : forall L : libm,
  @collision_ctor b64 (F64 L) (b64_ofZ 5) (b64_ofZ 1) (b64_ofZ 2) (b64_ofZ 90) = Throw EInvalidArgument /\
  is_ok (@collision_ctor b64 (F64 L) B754_nan (b64_ofZ 1) (b64_ofZ 2) B754_nan) = true.
Proof. intros L. vm_compute. auto. Qed.
