(** Properties C55-C62, C71 and C72: the ergodic controller. *)
From Coq Require Import Reals Lra Lia ZArith List Bool.
From Flocq Require Import IEEE754.BinarySingleNaN.
From Coquelicot Require Import Coquelicot.
From Verif Require Import Outcome Num Float64 GridModel NumericsModel SpecMotion NumericsProofs MotionProofs BufferModel BasisModel SpecBasis RobotModel SpecRobot RobotProofs
  ErgodicModel SpecErgodic ErgodicProofs ErgodicReal ErgodicSystem ErgodicFloat PropErgodicAux.
Import ListNotations.
Local Open Scope R_scope.

(** ** C55 *)
Theorem C55_limits : forall e0 e : ec R, constructed e0 ->
  v0 (ec_umin e0) <= v0 (ec_umax e0) -> v1 (ec_umin e0) <= v1 (ec_umax e0) -> v2 (ec_umin e0) <= v2 (ec_umax e0) ->
  history e0 e ->
  (Forall (fun u => u = V3 0 0 0) (ec_ut e) \/ Forall (in_box (ec_umin e0) (ec_umax e0)) (ec_ut e)) /\
  forall g x draws u e', ec_control e g x draws = Ok (u, e') ->
    in_box (ec_umin e0) (ec_umax e0) u /\ Forall (in_box (ec_umin e0) (ec_umax e0)) (ec_ut e').
Proof. exact c55_history. Qed.
Print Assumptions C55_limits.
Theorem C55_limits_binary64 : forall (L : libm) (e0 e : ec b64), @constructed b64 (F64 L) e0 -> limits64 e0 -> @history b64 (F64 L) e0 e ->
  (Forall (fun u => u = @zero3 b64 (F64 L)) (ec_ut e) \/ Forall (in_box64 (ec_umin e0) (ec_umax e0)) (ec_ut e)) /\
  forall g x draws u e', @ec_control b64 (F64 L) e g x draws = Ok (u, e') ->
    in_box64 (ec_umin e0) (ec_umax e0) u /\ Forall (in_box64 (ec_umin e0) (ec_umax e0)) (ec_ut e').
Proof. exact c55_64. Qed.
Print Assumptions C55_limits_binary64.
(** The component that is not a number does occur: see C56_refuted. *)
(** The limits are not checked; with an upper limit below the lower one no call succeeds: std::clamp is undefined. *)
Theorem C55_inverted_limits : forall (T : Type) (NT : Num T) (e : ec T) g x draws,
  nlt (v0 (ec_umax e)) (v0 (ec_umin e)) = true \/ nlt (v1 (ec_umax e)) (v1 (ec_umin e)) = true \/ nlt (v2 (ec_umax e)) (v2 (ec_umin e)) = true ->
  is_ok (ec_control e g x draws) = false.
Proof. exact (fun T NT e => control_inverted e). Qed.
Print Assumptions C55_inverted_limits.
Example C55_example_inverted :
  (let* e := @ec_ctor b64 NF (@omni_plant b64 NF) (b64_scaled 1 (-1)) (b64_scaled 3 (-1)) (b64_scaled 1 0) (b64_scaled 1 0) 2 10 5
     (M3 (V3 (b64_scaled 1 0) o0 o0) (V3 o0 (b64_scaled 1 0) o0) (V3 o0 o0 (b64_scaled 1 0))) (V3 (b64_scaled 1 0) (b64_scaled (-1) 0) (b64_scaled (-1) 0)) (V3 (b64_scaled (-1) 0) (b64_scaled 1 0) (b64_scaled 1 0)) in
   let* t := peak64 1 in @ec_control b64 NF (setTarget e t) map2 pose1 []) = UB UClamp.
Proof. vm_compute. reflexivity. Qed.
Example C55_example : constructed (unit_ec []) /\ limits (unit_ec []) /\
  exists u e', ec_control (setTarget (unit_ec []) (peak 0)) (square 0) (V3 (1 / 2) (1 / 2) 0) [] = Ok (u, e').
Proof. split; [exact unit_constructed|]. split; [apply unit_limits|apply unit_runs]. Qed.
Example C55_example_binary64 :
  run_ec 1 (fun _ _ u e => negb (is_nan (v0 u)) && negb (is_nan (v1 u)) && is_ok (@ec_control b64 NF e map2 pose1 [])) = true.
Proof. exact near_run. Qed.

(** ** C56 *)
Theorem C56_never_throws : forall e0 e : ec R, constructed e0 -> ec_model e0 = cart_plant ->
  v0 (ec_umin e0) <= v0 (ec_umax e0) -> v1 (ec_umin e0) = 0 -> v1 (ec_umax e0) = 0 -> v2 (ec_umin e0) <= v2 (ec_umax e0) ->
  history e0 e ->
  (forall g x draws, ec_control e g x draws <> Throw EInvalidArgument) /\ optTraj e <> Throw EInvalidArgument /\ ec_path e <> Throw EInvalidArgument.
Proof. exact c56_never. Qed.
Print Assumptions C56_never_throws.
Theorem C56_throws_only_on_nan_binary64 : forall (L : libm) (e0 e : ec b64), @constructed b64 (F64 L) e0 -> ec_model e0 = @cart_plant b64 (F64 L) ->
  limits64 e0 -> v1 (ec_umin e0) = @n0 b64 (F64 L) -> v1 (ec_umax e0) = @n0 b64 (F64 L) -> @history b64 (F64 L) e0 e ->
  (exists g x draws, @ec_control b64 (F64 L) e g x draws = Throw EInvalidArgument) \/
  @optTraj b64 (F64 L) e = Throw EInvalidArgument \/ @ec_path b64 (F64 L) e = Throw EInvalidArgument ->
  exists u, In u (ec_ut e) /\ is_nan (v1 u) = true.
Proof. exact c56_64. Qed.
Print Assumptions C56_throws_only_on_nan_binary64.
(** A Gaussian whose density underflows on the whole map: the first call returns NaN, the second throws. *)
Theorem C56_refuted : exists (L : libm) (e0 e : ec b64) g x t u, @constructed b64 (F64 L) e0 /\ ec_model e0 = @cart_plant b64 (F64 L) /\
  limits64 e0 /\ v1 (ec_umin e0) = @n0 b64 (F64 L) /\ v1 (ec_umax e0) = @n0 b64 (F64 L) /\ length t = 1%nat /\
  @ec_control b64 (F64 L) (setTarget e0 t) g x [] = Ok (u, e) /\ is_nan (v0 u) = true /\ is_nan (v1 u) = true /\ is_nan (v2 u) = true /\
  @ec_control b64 (F64 L) e g x [] = Throw EInvalidArgument.
Proof. exact far_away. Qed.
Print Assumptions C56_refuted.
Example C56_example : exists e, ec_ctor cart_plant (1 / 10) (1 / 2) 1 1 2 10 5 (diag 1 0 1) (V3 (-1) 0 (-1)) (V3 1 0 1) = Ok e.
Proof. destruct (ctor_steps cart_plant (1 / 10) (1 / 2) 1 1 2 10 5 (diag 1 0 1) (V3 (-1) 0 (-1)) (V3 1 0 1) 5 steps_example ltac:(lia) ltac:(lia)) as (_ & H).
  destruct (H ltac:(lia)) as (e & E & _). eauto. Qed.

(** ** C57 *)
Theorem C57_columns : forall (T : Type) (NT : Num T) (e : ec T), reachable e ->
  num_steps (ec_dt e) (ec_horizon e) = Ok (lenZ (ec_ut e)).
Proof. exact (fun T NT e H => columns_steps e H). Qed.
Print Assumptions C57_columns.
(** The first column is forgotten, the others are simulated from the new pose, followed by a stop: *)
Theorem C57_first_column_dropped : forall (T : Type) (NT : Num T) (e : ec T) a b l g x draws,
  ec_control (set_ut e (a :: l)) g x draws = ec_control (set_ut e (b :: l)) g x draws.
Proof. exact (fun T NT e => control_first_column e). Qed.
Print Assumptions C57_first_column_dropped.
Theorem C57_warm_start : forall (T : Type) (NT : Num T) (e e' : ec T) g x draws u, ec_control e g x draws = Ok (u, e') ->
  exists traj, rk4_solve (ec_dt e) (rb_f (pl_robot (ec_model e))) x (tl (ec_ut e) ++ [zero3]) (ec_horizon e) = Ok traj.
Proof. exact (fun T NT e e' g x draws u H => warm_start e e' g x draws u H). Qed.
Print Assumptions C57_warm_start.
Theorem C57_trajectory : forall (T : Type) (NT : Num T) (e e' e2 : ec T) g x draws u, ec_control e g x draws = Ok (u, e') -> idle e' e2 ->
  nth_error (ec_ut e2) 0 = Some u /\ ec_ut e2 = ec_ut e' /\
  optTraj e2 = rk4_solve (ec_dt e) (rb_f (pl_robot (ec_model e))) x (ec_ut e2) (ec_horizon e).
Proof. exact (fun T NT e e' e2 g x draws u => c57_traj e e' e2 g x draws u). Qed.
Print Assumptions C57_trajectory.
Theorem C57_path : forall (e : ec R) ps, reachable e -> ec_path e = Ok ps ->
  exists tr, optTraj e = Ok tr /\ lenZ tr = ec_steps e /\ lenZ ps = ec_steps e /\
  forall i x, nth_error tr i = Some x -> exists p, nth_error ps i = Some p /\ p_x p = v0 x /\ p_y p = v1 x /\
    qx (p_q p) = 0 /\ qy (p_q p) = 0 /\ qz (p_q p) * qz (p_q p) + qw (p_q p) * qw (p_q p) = 1 /\
    same_angle (getYaw (qx (p_q p)) (qy (p_q p)) (qz (p_q p)) (qw (p_q p))) (v2 x).
Proof. exact c57_path. Qed.
Print Assumptions C57_path.
Theorem C57_path_defined : forall (T : Type) (NT : Num T) (e : ec T), reachable e -> is_ok (ec_path e) = is_ok (optTraj e).
Proof. exact (fun T NT e H => path_defined e H). Qed.
Print Assumptions C57_path_defined.
Example C57_example : exists ps, ec_path (unit_ec []) = Ok ps.
Proof. exact unit_path. Qed.

(** ** C58 *)
Theorem C58_recomputed : forall (e e' : ec R) g ps, 0 < ec_resolution e -> g_xmin g <= g_xmax g -> g_ymin g <= g_ymax g ->
  ((g_xmax g - g_xmin g) / ec_resolution e + 3 / 2) * ((g_ymax g - g_ymin g) / ec_resolution e + 3 / 2) < 4294967296 ->
  describes ps (ec_target e) ->
  1 / 1000000000000 <= Rabs (g_xmax g - g_xmin g - bs_lx (ec_basis e)) \/ 1 / 1000000000000 <= Rabs (g_ymax g - g_ymin g - bs_ly (ec_basis e)) ->
  configTarget e g = Ok e' -> tracks e' ps g.
Proof. exact c58_recomputed. Qed.
Print Assumptions C58_recomputed.
Theorem C58_unchanged : forall (e : ec R) g,
  Rabs (g_xmax g - g_xmin g - bs_lx (ec_basis e)) < 1 / 1000000000000 -> Rabs (g_ymax g - g_ymin g - bs_ly (ec_basis e)) < 1 / 1000000000000 ->
  exists e', configTarget e g = Ok e' /\ ec_phik e' = ec_phik e /\ ec_basis e' = ec_basis e /\ ec_map_pos e' = (g_xmin g, g_ymin g).
Proof. exact config_unchanged. Qed.
Print Assumptions C58_unchanged.
Theorem C58_control_configures : forall (T : Type) (NT : Num T) (e e' : ec T) g x draws u, ec_control e g x draws = Ok (u, e') ->
  exists e1, configTarget (set_pose e x) g = Ok e1 /\ e' = set_ut e1 (ec_ut e').
Proof. exact (fun T NT e e' g x draws u => control_config e e' g x draws u). Qed.
Print Assumptions C58_control_configures.
Theorem C58_new_target_refuted : exists e e' g ps t,
  reachable e /\ describes ps t /\ configTarget (setTarget e t) g = Ok e' /\ ~ tracks e' ps g.
Proof. exact c58_refuted_target. Qed.
Print Assumptions C58_new_target_refuted.
Theorem C58_new_origin_refuted : exists e e' g ps,
  reachable e /\ describes ps (ec_target e) /\ configTarget e g = Ok e' /\ ~ tracks e' ps g.
Proof. exact c58_refuted_origin. Qed.
Print Assumptions C58_new_origin_refuted.
Example C58_example : exists e, configTarget (setTarget (unit_ec []) (peak 0)) (square 0) = Ok e /\ tracks e [(0, 0, 1, 1)] (square 0).
Proof. exact (unit_config 0). Qed.

(** ** C59 *)
Theorem C59_ergodic_gradient : forall (e : ec R) phik past xt edx i x, ec_phik e = Some phik ->
  let pts := past ++ map (fun x => (v0 x, v1 x)) xt in
  gradErgodicMetric e (trajCoeff (ec_basis e) pts) xt = Ok edx -> nth_error xt i = Some x ->
  length edx = length xt /\
  exists d, nth_error edx i = Some d /\ v2 d = 0 /\
    let E p := ec_weight e * (INR (length pts) / 2 * metric (bs_lx (ec_basis e)) (bs_ly (ec_basis e)) (bs_lam (ec_basis e)) (bs_k (ec_basis e)) phik
                 (put pts (length past + i) p)) in
    is_derive (fun s => E (s, v1 x)) (v0 x) (v0 d) /\ is_derive (fun s => E (v0 x, s)) (v1 x) (v1 d).
Proof. exact c59_gradient. Qed.
Print Assumptions C59_ergodic_gradient.
Example C59_example : exists edx, let e := set_domain (unit_ec []) (Some [1; 0; 0; 0]) (0, 0) (mkBasis 1 1 (map weight (basis_numbers 2)) (basis_numbers 2)) in
  gradErgodicMetric e (trajCoeff (ec_basis e) ([(0, 0)] ++ [(1 / 2, 1 / 2)])) [V3 (1 / 2) (1 / 2) 0] = Ok edx.
Proof. eexists. reflexivity. Qed.

(** ** C60 *)
Theorem C60_barrier_gradient : forall (e : ec R) xt, length (gradBarrier e xt) = length xt /\ forall i x, nth_error xt i = Some x ->
  exists d, nth_error (gradBarrier e xt) i = Some d /\ v2 d = 0 /\
    is_derive (barrier (bs_lx (ec_basis e))) (v0 x) (v0 d) /\ is_derive (barrier (bs_ly (ec_basis e))) (v1 x) (v1 d).
Proof. exact c60_gradient. Qed.
Print Assumptions C60_barrier_gradient.
Theorem C60_barrier_sign : forall l x d : R, is_derive (barrier l) x d ->
  (1 / 20 <= x <= l - 1 / 20 -> d = 0 /\ barrier l x = 0) /\
  (1 / 20 <= x -> l - 1 / 20 < x -> d = 50 * (x - (l - 1 / 20)) /\ 0 < d) /\
  (x < 1 / 20 -> x <= l - 1 / 20 -> d = - (50 * (1 / 20 - x)) /\ d < 0).
Proof. exact c60_sign. Qed.
Print Assumptions C60_barrier_sign.
Example C60_example : is_derive (barrier 2) 0 (bdx_at 2 0) /\ 0 < 1 / 20 /\ 0 <= 2 - 1 / 20.
Proof. split; [apply derive_barrier|lra]. Qed.

(** ** C61 *)
Theorem C61_minimises : forall (e : ec R) r xt rhot i x rho, tuned e r -> node_model e ->
  nth_error xt i = Some x -> nth_error rhot i = Some rho ->
  exists us u, updateControl e xt rhot = Ok us /\ nth_error us i = Some u /\
    unique_minimiser (in_box (ec_umin e) (ec_umax e)) (hamiltonian r x rho) u.
Proof. exact c61_minimises. Qed.
Print Assumptions C61_minimises.
Example C61_example : tuned (unit_ec []) (V3 1 1 1) /\ node_model (unit_ec []).
Proof. split; [apply unit_tuned|left; reflexivity]. Qed.

(** ** C62 *)
Theorem C62_constructor : forall (m : plant R) dt h r w nb size batch Ri umin umax, dt <> 0 -> Rabs h < 4294967296 * Rabs dt ->
  (0 <= nb)%Z -> (nb * nb < 2 ^ 31)%Z ->
  (Rabs dt <= Rabs h < 2 * Rabs dt -> ec_ctor m dt h r w nb size batch Ri umin umax = Throw EInvalidArgument) /\
  (~ (Rabs dt <= Rabs h < 2 * Rabs dt) -> exists e, ec_ctor m dt h r w nb size batch Ri umin umax = Ok e).
Proof. exact c62_ctor. Qed.
Print Assumptions C62_constructor.
Theorem C62_zero_steps : forall (e : ec R) g x draws, reachable e -> ec_dt e <> 0 -> Rabs (ec_horizon e) < Rabs (ec_dt e) ->
  is_ok (ec_control e g x draws) = false /\ (is_ok (configTarget (set_pose e x) g) = true -> ec_control e g x draws = Throw EArma).
Proof. exact c62_zero. Qed.
Print Assumptions C62_zero_steps.
Example C62_example_one : ec_ctor omni_plant (1 / 2) (1 / 2) 1 1 2 10 5 (diag 1 1 1) (V3 (-1) (-1) (-1)) (V3 1 1 1) = Throw EInvalidArgument.
Proof. apply (C62_constructor omni_plant (1 / 2) (1 / 2)); rewrite ?(Rabs_pos_eq (1 / 2)) by lra; try lra; try lia. Qed.
Example C62_example_zero : exists e, ec_ctor omni_plant (1 / 2) (1 / 4) 1 1 2 10 5 (diag 1 1 1) (V3 (-1) (-1) (-1)) (V3 1 1 1) = Ok e.
Proof. apply (C62_constructor omni_plant (1 / 2) (1 / 4)); rewrite ?(Rabs_pos_eq (1 / 2)), ?(Rabs_pos_eq (1 / 4)) by lra; try lra; try lia. Qed.

(** ** C71 *)
Theorem C71_control_defined : forall (e : ec R) g x draws, reachable e -> limits e -> node_model e -> (2 <= ec_steps e)%Z ->
  0 < ec_resolution e -> g_xmin g <= g_xmax g -> g_ymin g <= g_ymax g ->
  1 / 1000000000000 <= g_xmax g - g_xmin g \/ 1 / 1000000000000 <= g_ymax g - g_ymin g ->
  ((g_xmax g - g_xmin g) / ec_resolution e + 3 / 2) * ((g_ymax g - g_ymin g) / ec_resolution e + 3 / 2) < 4294967296 ->
  (b_size (ec_buffer e) < 2 ^ 31)%Z -> (0 <= b_batch (ec_buffer e))%Z -> drawable (ec_buffer e) draws ->
  exists u e', ec_control e g x draws = Ok (u, e').
Proof. exact control_defined. Qed.
Print Assumptions C71_control_defined.
(** Without a map extent the coefficients are read before they were ever computed. *)
Theorem C71_uninitialised : forall (e : ec R) g x draws, constructed e -> limits e -> node_model e -> (2 <= ec_steps e)%Z ->
  0 < ec_resolution e -> 0 <= g_xmax g - g_xmin g < 1 / 1000000000000 -> 0 <= g_ymax g - g_ymin g < 1 / 1000000000000 ->
  ((g_xmax g - g_xmin g) / ec_resolution e + 3 / 2) * ((g_ymax g - g_ymin g) / ec_resolution e + 3 / 2) < 4294967296 ->
  (b_size (ec_buffer e) < 2 ^ 31)%Z -> (0 <= b_batch (ec_buffer e))%Z -> ec_control e g x draws = UB UUninit.
Proof. exact control_uninit. Qed.
Print Assumptions C71_uninitialised.
Example C71_example : forall t x, exists u e', ec_control (setTarget (unit_ec []) t) (square 0) x [] = Ok (u, e').
Proof. exact unit_runs. Qed.
Example C71_example_empty : forall x, ec_control (unit_ec []) (mkGrid 0 0 1 0 0 0 0 []) x [] = UB UUninit.
Proof.
  intros x. apply C71_uninitialised; try (cbn; lra); try (cbn; lia); [apply unit_constructed|apply unit_limits|left; reflexivity].
Qed.

(** ** C72 *)
Theorem C72_optimality_system : forall (e : ec R) g x draws u e' r, reachable e -> node_model e -> tuned e r -> ec_control e g x draws = Ok (u, e') ->
  exists past traj rho phik,
  let ws := tl (ec_ut e) ++ [V3 0 0 0] in
  let pts := map at2 (map (framed g) (past ++ traj)) in
  let metric' := metric (bs_lx (ec_basis e')) (bs_ly (ec_basis e')) (bs_lam (ec_basis e')) (bs_k (ec_basis e')) phik in
  rk4_solve (ec_dt e) (rb_f (pl_robot (ec_model e))) x ws (ec_horizon e) = Ok traj /\
  recalls (ec_buffer e) draws past /\
  ec_phik e' = Some phik /\ length rho = length ws /\ nth_error (ec_ut e') 0 = Some u /\
  forall i y, nth_error (map (framed g) traj) i = Some y -> exists d b w m r0 r1 ui,
    (* state gradients *)
    v2 d = 0 /\
    is_derive (fun s => ec_weight e * (INR (length pts) / 2 * metric' (put pts (length past + i) (s, v1 y)))) (v0 y) (v0 d) /\
    is_derive (fun s => ec_weight e * (INR (length pts) / 2 * metric' (put pts (length past + i) (v0 y, s)))) (v1 y) (v1 d) /\
    v2 b = 0 /\ is_derive (barrier (bs_lx (ec_basis e'))) (v0 y) (v0 b) /\ is_derive (barrier (bs_ly (ec_basis e'))) (v1 y) (v1 b) /\
    (* co-state *)
    nth_error ws i = Some w /\ jacobian (fun z => body (v2 z) w) m y /\
    nth_error rho i = Some r0 /\ nth_error (rho ++ [V3 0 0 0]) (S i) = Some r1 /\
    (forall gam, costate_motion d b m r1 gam -> r0 = gam (- ec_dt e)) /\ (exists gam, costate_motion d b m r1 gam) /\
    (* control *)
    nth_error (ec_ut e') i = Some ui /\ unique_minimiser (in_box (ec_umin e) (ec_umax e)) (hamiltonian r y r0) ui.
Proof. exact control_system. Qed.
Print Assumptions C72_optimality_system.
Example C72_example : forall t x, reachable (setTarget (unit_ec []) t) /\ node_model (setTarget (unit_ec []) t) /\
  tuned (setTarget (unit_ec []) t) (V3 1 1 1) /\ exists u e', ec_control (setTarget (unit_ec []) t) (square 0) x [] = Ok (u, e').
Proof. intros t x. split; [apply unit_reachable|]. split; [left; reflexivity|]. split; [apply (unit_tuned t)|apply unit_runs]. Qed.
