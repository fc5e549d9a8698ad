(** Properties C20 - C29: numerics.hpp.  [follows], [same_angle] and [rigid] are defined in SpecMotion.v. *)
From Coq Require Import Reals ZArith List Lia Lra.
From Flocq Require Import Core.Zaux Core.Raux IEEE754.BinarySingleNaN.
From Verif Require Import Outcome Num Float64 GridModel CollisionModel NumericsModel SpecMotion
  TrigLemmas NumericsProofs MotionProofs AngleFloat.
Local Open Scope R_scope.

(** C20 *)
Theorem C20_wraps : forall y : R,
  - PI <= normalize_angle_PI y < PI /\ same_angle (normalize_angle_PI y) y.
Proof. exact c20_wrap. Qed.
Print Assumptions C20_wraps.
Theorem C20_identity_in_range : forall y : R, - PI <= y < PI -> normalize_angle_PI y = y.
Proof. exact c20_id. Qed.
Print Assumptions C20_identity_in_range.
Theorem C20_idempotent : forall y : R, normalize_angle_PI (normalize_angle_PI y) = normalize_angle_PI y.
Proof. exact c20_idem. Qed.
Print Assumptions C20_idempotent.
Theorem C20_canonical : forall a b : R, same_angle a b <-> normalize_angle_PI a = normalize_angle_PI b.
Proof. exact c20_canonical. Qed.
Print Assumptions C20_canonical.
(** In binary64 the half-open range is not kept: the double just below -pi wraps to +pi itself, and a
    large finite angle wraps to less than -1000. *)
Theorem C20_binary64_range_refuted : forall L : libm,
  (exists y : b64, is_finite y = true /\ Bltb y (Bopp b64_pi) = true /\
     Beqb (@normalize_angle_PI b64 (F64 L) y) b64_pi = true) /\
  (exists y : b64, is_finite y = true /\ Bltb (@normalize_angle_PI b64 (F64 L) y) (b64_ofZ (-1000)) = true).
Proof.
  exact (fun L => conj (ex_intro _ below_minus_pi (conj eq_refl (c20_b64_pi L)))
                       (ex_intro _ (b64_scaled 7 60) (c20_b64_large L))).
Qed.
Print Assumptions C20_binary64_range_refuted.
(** For moderate angles the binary64 result is within the rounding of the exact one: finite, in the closed range
    and a multiple of 2*pi away from the input, up to 2^(n-47) for angles up to 2^n. *)
Theorem C20_binary64_moderate : forall (L : libm) (n : Z) (y : b64), (3 <= n <= 40)%Z ->
  is_finite y = true -> Rabs (B2R y) <= bpow radix2 n ->
  let a := @normalize_angle_PI b64 (F64 L) y in
  is_finite a = true /\ Rabs (B2R a) <= PI + bpow radix2 (n - 47) /\
  exists k : Z, Rabs (B2R a - (B2R y + 2 * PI * IZR k)) <= bpow radix2 (n - 47).
Proof. exact wrappi_b64. Qed.
Print Assumptions C20_binary64_moderate.
Example C20_moderate_example : is_finite (b64_ofZ 1000) = true /\ Rabs (B2R (b64_ofZ 1000)) <= bpow radix2 10.
Proof. split; [reflexivity|]. rewrite (proj1 (FloatLemmas.ofZ_exact 1000 ltac:(vm_compute; discriminate))). cbn. rewrite Rabs_pos_eq; lra. Qed.
Example C20_example : normalize_angle_PI (3 * PI / 2) = - PI / 2.
Proof.
  pose proof PI_pos. rewrite <- (C20_identity_in_range (- PI / 2)) by lra.
  apply C20_canonical. exists 1%Z. field.
Qed.

(** C21 *)
Theorem C21_wraps : forall y : R,
  0 <= normalize_angle_2PI y < 2 * PI /\ same_angle (normalize_angle_2PI y) y.
Proof. exact c21_wrap. Qed.
Print Assumptions C21_wraps.
Theorem C21_canonical : forall a b : R, same_angle a b <-> normalize_angle_2PI a = normalize_angle_2PI b.
Proof. exact c21_canonical. Qed.
Print Assumptions C21_canonical.
(** In binary64 a tiny negative angle wraps to 2*pi, which is outside the half-open range. *)
Theorem C21_binary64_range_refuted : forall L : libm, exists y : b64, is_finite y = true /\
  Bltb y (b64_ofZ 0) = true /\
  Beqb (@normalize_angle_2PI b64 (F64 L) y) (Bmult mode_NE (b64_ofZ 2) b64_pi) = true.
Proof. exact (fun L => ex_intro _ (b64_scaled (-1) (-60)) (conj eq_refl (c21_b64_2pi L))). Qed.
Print Assumptions C21_binary64_range_refuted.
Theorem C21_binary64_moderate : forall (L : libm) (n : Z) (y : b64), (3 <= n <= 40)%Z ->
  is_finite y = true -> Rabs (B2R y) <= bpow radix2 n ->
  let a := @normalize_angle_2PI b64 (F64 L) y in
  is_finite a = true /\ 0 <= B2R a <= 2 * PI + bpow radix2 (n - 47) /\
  exists k : Z, Rabs (B2R a - (B2R y + 2 * PI * IZR k)) <= bpow radix2 (n - 47).
Proof. exact wrap2pi_b64. Qed.
Print Assumptions C21_binary64_moderate.
Example C21_moderate_example : is_finite (b64_ofZ (-1000)) = true /\ Rabs (B2R (b64_ofZ (-1000))) <= bpow radix2 10.
Proof. split; [reflexivity|]. rewrite (proj1 (FloatLemmas.ofZ_exact (-1000) ltac:(vm_compute; discriminate))). cbn. rewrite Rabs_left; lra. Qed.
Example C21_example : normalize_angle_2PI (- PI / 2) = normalize_angle_2PI (3 * PI / 2).
Proof. apply C21_canonical. exists (-1)%Z. field. Qed.

(** C22 *)
Theorem C22_yaw_quaternion : forall k yaw : R, k <> 0 -> - PI < yaw <= PI ->
  getYaw 0 0 (k * sin (yaw / 2)) (k * cos (yaw / 2)) = yaw.
Proof. exact c22_yaw. Qed.
Print Assumptions C22_yaw_quaternion.
(** Also with roll and pitch, away from the gimbal lock. *)
Theorem C22_yaw_of_rpy : forall k roll pitch yaw : R, k <> 0 -> - PI < yaw <= PI -> 0 < cos pitch ->
  Rabs (sin pitch) < 99999 / 100000 - 1 / 1000000000000 ->
  let q := setRPY roll pitch yaw in
  getYaw (k * qx q) (k * qy q) (k * qz q) (k * qw q) = yaw.
Proof. exact c22_general. Qed.
Print Assumptions C22_yaw_of_rpy.
Example C22_example : getYaw 0 0 (-1 * sin (PI / 2 / 2)) (-1 * cos (PI / 2 / 2)) = PI / 2.
Proof. pose proof PI_pos. apply C22_yaw_quaternion; lra. Qed.

(** C23 *)
Theorem C23_acts_as_rigid_motion : forall (x y a : R) (p : R * R),
  mvmul (transform2d x y a) (V3 (fst p) (snd p) 1) = V3 (fst (rigid x y a p)) (snd (rigid x y a p)) 1.
Proof. exact c23_action. Qed.
Print Assumptions C23_acts_as_rigid_motion.
Theorem C23_composes : forall x y a x' y' b : R,
  mmul (transform2d x y a) (transform2d x' y' b) =
  transform2d (fst (rigid x y a (x', y'))) (snd (rigid x y a (x', y'))) (a + b).
Proof. exact c23_compose. Qed.
Print Assumptions C23_composes.
Theorem C23_translation_then_rotation : forall x y a : R,
  transform2d x y a = mmul (transform2d_xy x y) (transform2d_rot a).
Proof. exact c23_split. Qed.
Print Assumptions C23_translation_then_rotation.
Theorem C23_preserves_distance : forall (x y a : R) (p q : R * R),
  let p' := rigid x y a p in let q' := rigid x y a q in
  distance (fst p') (snd p') (fst q') (snd q') = distance (fst p) (snd p) (fst q) (snd q).
Proof. exact c23_isometry. Qed.
Print Assumptions C23_preserves_distance.
Theorem C23_inverse_refuted : exists x y a : R,
  mmul (transform2dInv (transform2d x y a)) (transform2d x y a) <> M3 (V3 1 0 0) (V3 0 1 0) (V3 0 0 1).
Proof. exact c23_refuted. Qed.
Print Assumptions C23_inverse_refuted.
(** The helper inverts only if its angle argument, which is the translation, happens to be right. *)
Theorem C23_inverse_only_if : forall x y a : R, - PI <= a < PI ->
  mmul (transform2dInv (transform2d x y a)) (transform2d x y a) = M3 (V3 1 0 0) (V3 0 1 0) (V3 0 0 1) ->
  same_angle (sin a * x - cos a * y) (- a).
Proof. exact c23_inv_only. Qed.
Print Assumptions C23_inverse_only_if.
(** With the arguments in the order x, y, angle the result is the inverse. *)
Theorem C23_correct_inverse : forall x y a : R,
  mmul (transform2d (- (cos a * x + sin a * y)) (sin a * x - cos a * y) (- a)) (transform2d x y a) =
  M3 (V3 1 0 0) (V3 0 1 0) (V3 0 0 1).
Proof. exact c23_right_order. Qed.
Print Assumptions C23_correct_inverse.

(** C24 *)
Theorem C24_exact_motion : forall (x u : vec3 R) (dt : R) (gamma : R -> vec3 R), follows x u gamma ->
  dt <> 0 \/ Rabs (v2 u) < 1 / 1000000000000 ->
  integrate_twist x u dt = gamma dt.
Proof. exact c24_exact. Qed.
Print Assumptions C24_exact_motion.
(** The motion the theorem speaks of always exists. *)
Theorem C24_motion_exists : forall x u : vec3 R, exists gamma, follows x u gamma.
Proof. exact (fun x u => ex_intro _ _ (follows_exists x u)). Qed.
Print Assumptions C24_motion_exists.
Theorem C24_durations_add : forall (x u : vec3 R) (s t : R), s <> 0 -> t <> 0 -> s + t <> 0 ->
  integrate_twist (integrate_twist x u s) u t = integrate_twist x u (s + t).
Proof. exact c24_group. Qed.
Print Assumptions C24_durations_add.
Theorem C24_heading : forall (x u : vec3 R) (dt : R), dt <> 0 -> 1 / 1000000000000 <= Rabs (v2 u) ->
  v2 (integrate_twist x u dt) = v2 x + v2 u * dt.
Proof. exact c24_heading. Qed.
Print Assumptions C24_heading.
Example C24_example : integrate_twist (V3 0 0 0) (V3 1 0 1) (PI / 2) = V3 1 1 (PI / 2).
Proof. exact quarter_turn. Qed.

(** C25 *)
Theorem C25_accepts_exactly : forall (c : collision R) (g : grid R) x u dt h gamma n,
  dt <> 0 -> follows x u gamma -> num_steps dt h = Ok n ->
  (validate_control c g x u dt h = Ok true <->
   forall k, (1 <= k <= n)%Z ->
     collisionCheck c g (v0 (gamma (IZR k * dt))) (v1 (gamma (IZR k * dt))) = Ok false).
Proof. exact c25_true. Qed.
Print Assumptions C25_accepts_exactly.
Theorem C25_rejects_exactly : forall (c : collision R) (g : grid R) x u dt h gamma n,
  dt <> 0 -> follows x u gamma -> num_steps dt h = Ok n ->
  (validate_control c g x u dt h = Ok false <->
   exists k, (1 <= k <= n)%Z /\
     collisionCheck c g (v0 (gamma (IZR k * dt))) (v1 (gamma (IZR k * dt))) = Ok true /\
     forall j, (1 <= j < k)%Z -> collisionCheck c g (v0 (gamma (IZR j * dt))) (v1 (gamma (IZR j * dt))) = Ok false).
Proof. exact c25_false. Qed.
Print Assumptions C25_rejects_exactly.
Theorem C25_shorter_horizon : forall (c : collision R) (g : grid R) x u dt h h' n,
  dt <> 0 -> Rabs h' <= Rabs h -> num_steps dt h = Ok n ->
  validate_control c g x u dt h = Ok true -> validate_control c g x u dt h' = Ok true.
Proof. exact c25_shorter. Qed.
Print Assumptions C25_shorter_horizon.
(** The initial pose is not checked: with no whole step, everything is accepted. *)
Theorem C25_initial_pose_unchecked : forall (c : collision R) (g : grid R) x u dt h,
  dt <> 0 -> Rabs h < Rabs dt -> validate_control c g x u dt h = Ok true.
Proof. exact c25_no_steps. Qed.
Print Assumptions C25_initial_pose_unchecked.
Example C25_example : 1 / 10 <> 0 /\ num_steps (1 / 10) (1 / 2) = Ok 5%Z /\
  exists gamma, follows (V3 0 0 0) (V3 1 0 1) gamma.
Proof. split; [lra|]. split; [exact steps_example|]. eexists. apply follows_exists. Qed.

(** C26 *)
Theorem C26_path_follows_motion : forall (x u : vec3 R) dt h gamma n,
  dt <> 0 -> follows x u gamma -> num_steps dt h = Ok n ->
  exists poses, constTwistPath x u dt h = Ok poses /\ lenZ poses = n /\
    forall k, (1 <= k <= n)%Z -> exists p, nthZ poses (k - 1) = Some p /\
      p_x p = v0 (gamma (IZR k * dt)) /\ p_y p = v1 (gamma (IZR k * dt)) /\
      qx (p_q p) = 0 /\ qy (p_q p) = 0 /\
      qz (p_q p) * qz (p_q p) + qw (p_q p) * qw (p_q p) = 1 /\
      same_angle (getYaw (qx (p_q p)) (qy (p_q p)) (qz (p_q p)) (qw (p_q p))) (v2 (gamma (IZR k * dt))).
Proof. exact c26_path. Qed.
Print Assumptions C26_path_follows_motion.
Example C26_example : exists poses, constTwistPath (V3 0 0 0) (V3 1 0 1) (1 / 10) (1 / 2) = Ok poses /\ lenZ poses = 5%Z.
Proof.
  destruct (C26_path_follows_motion (V3 0 0 0) (V3 1 0 1) (1 / 10) (1 / 2) _ 5%Z ltac:(lra)
              (follows_exists _ _) steps_example) as (ps & H1 & H2 & _). eauto.
Qed.

(** C27 *)
Theorem C27_step_count : forall dt h n, dt <> 0 -> num_steps dt h = Ok n ->
  (0 <= n)%Z /\ IZR n * Rabs dt <= Rabs h < (IZR n + 1) * Rabs dt.
Proof. exact c27_steps. Qed.
Print Assumptions C27_step_count.
Theorem C27_step_count_defined : forall dt h, dt <> 0 -> Rabs h < 4294967296 * Rabs dt ->
  exists n, num_steps dt h = Ok n.
Proof. exact c27_defined. Qed.
Print Assumptions C27_step_count_defined.
(** In binary64: 0.3 / 0.1 gives two steps (0.5 / 0.1 gives five), and a zero step is undefined behaviour. *)
Theorem C27_binary64_rounding : forall L : libm,
  @num_steps b64 (F64 L) (@lit b64 (F64 L) 1 10) (@lit b64 (F64 L) 3 10) = Ok 2%Z /\
  @num_steps b64 (F64 L) (@lit b64 (F64 L) 1 10) (@lit b64 (F64 L) 5 10) = Ok 5%Z.
Proof. exact c27_b64_example. Qed.
Print Assumptions C27_binary64_rounding.
Theorem C27_zero_step_undefined : forall (L : libm) (h dt : b64), dt = B754_zero false \/ dt = B754_zero true ->
  @num_steps b64 (F64 L) dt h = UB UFloatCast.
Proof. exact Babs_div_zero. Qed.
Print Assumptions C27_zero_step_undefined.

(** C28 *)
Theorem C28_symmetric : forall p : R, 1 / 1000000000000 <= p <= 1 - 1 / 1000000000000 -> entropy (1 - p) = entropy p.
Proof. exact c28_sym. Qed.
Print Assumptions C28_symmetric.
Theorem C28_positive_at_most_ln2 : forall p : R, 1 / 1000000000000 <= p <= 1 - 1 / 1000000000000 ->
  0 < entropy p <= ln 2.
Proof. exact c28_range. Qed.
Print Assumptions C28_positive_at_most_ln2.
Theorem C28_maximum_at_half : entropy (1 / 2) = ln 2.
Proof. exact c28_half. Qed.
Print Assumptions C28_maximum_at_half.
Theorem C28_unknown : forall p : R, p <= - 1 / 1000000000000 -> entropy p = 7 / 10.
Proof. exact c28_unknown. Qed.
Print Assumptions C28_unknown.
Theorem C28_certain : forall p : R, Rabs p < 1 / 1000000000000 \/ Rabs (1 - p) < 1 / 1000000000000 ->
  entropy p = 1 / 1000.
Proof. exact c28_certain. Qed.
Print Assumptions C28_certain.
(** Unknown cells rank above every known cell. *)
Theorem C28_unknown_ranks_highest : forall p q : R, p <= - 1 / 1000000000000 -> 0 <= q <= 1 ->
  entropy q < entropy p.
Proof. exact c28_order. Qed.
Print Assumptions C28_unknown_ranks_highest.
Example C28_example : entropy (1 / 4) = entropy (3 / 4) /\ entropy (-1) = 7 / 10 /\ entropy 1 = 1 / 1000.
Proof.
  split; [|split].
  - replace (3 / 4) with (1 - 1 / 4) by field. rewrite C28_symmetric by lra. reflexivity.
  - apply C28_unknown. lra.
  - apply C28_certain. right. rewrite Rabs_right; lra.
Qed.

(** C29 *)
Theorem C29_metric : forall x0 y0 x1 y1 x2 y2 : R,
  0 <= distance x0 y0 x1 y1 /\ (distance x0 y0 x1 y1 = 0 <-> x0 = x1 /\ y0 = y1) /\
  distance x0 y0 x1 y1 = distance x1 y1 x0 y0 /\
  distance x0 y0 x2 y2 <= distance x0 y0 x1 y1 + distance x1 y1 x2 y2.
Proof. exact c29_metric. Qed.
Print Assumptions C29_metric.
Theorem C29_polar : forall a r : R,
  let p := polar2Cartesian a r in
  distance 0 0 (fst p) (snd p) = Rabs r /\
  polar2CartesianHomo a r = V3 (fst p) (snd p) 1 /\
  (0 < r -> - PI < a <= PI -> Ratan2 (snd p) (fst p) = a).
Proof. exact c29_polar. Qed.
Print Assumptions C29_polar.
