(** Properties C73 to C79: predictions, and the node as a whole. *)
From Coq Require Import Reals ZArith List Bool Lia Lra.
From Flocq Require Import Core.Raux IEEE754.BinarySingleNaN.
From Verif Require Import Outcome Num Float64 GridModel CollisionModel NumericsModel BufferModel BasisModel RobotModel DwaModel ErgodicModel
  ExplorationModel Spec SpecMotion SpecRobot SpecDwa SpecErgodic SpecExploration SpecSystem
  PredictProofs ClearanceProofs SystemProofs PropDwaAux PropExplorationAux PropSystemAux.
Import ListNotations ExplorationModel.
Local Open Scope R_scope.

(** ** C73 *)
Theorem C73_motion : forall x u g s t, follows x u g -> gap (g s) (g t) <= Rabs (t - s) * speed u.
Proof. exact c73_motion. Qed.
Print Assumptions C73_motion.
Theorem C73_step : forall x u dt, dt <> 0 -> gap x (integrate_twist x u dt) <= Rabs dt * speed u.
Proof. exact c73_step. Qed.
Print Assumptions C73_step.
Theorem C73_rollout : forall dt u, dt <> 0 -> forall n x k y, nth_error (rollout n dt u x) k = Some y ->
  gap x y <= INR (S k) * Rabs dt * speed u.
Proof. exact c73_rollout. Qed.
Print Assumptions C73_rollout.
(** Between the poses that are checked the robot is within half a step of one of them, or of the start. *)
Theorem C73_between : forall x u g dt n t, 0 < dt -> follows x u g -> 0 <= t <= INR n * dt ->
  exists k, (k <= n)%nat /\ gap (g (INR k * dt)) (g t) <= dt / 2 * speed u.
Proof. exact c73_between. Qed.
Print Assumptions C73_between.
Example C73_example : exists g, follows (V3 1 2 0) (V3 1 0 (1 / 2)) g /\ speed (V3 1 0 (1 / 2)) = 1.
Proof. eexists. split; [apply MotionProofs.follows_exists|]. unfold speed. cbn [v0 v1]. replace (1 ^ 2 + 0 ^ 2) with 1 by ring. apply sqrt_1. Qed.

(** ** C74 *)
Theorem C74_left_or_below : forall c g x u dt h n pre p post, 0 < g_res g -> num_steps dt h = Ok n ->
  rollout (Z.to_nat n) dt u x = pre ++ p :: post -> Forall (clear c g) pre -> left_or_below g p ->
  validate_control c g x u dt h = UB UFloatCast.
Proof. exact c74_left. Qed.
Print Assumptions C74_left_or_below.
Theorem C74_right_or_above : forall c g p, proper_map g -> proper_radii c g -> indexable g p -> beyond g (c_srad c + g_res g) p ->
  collisionCheck c g (v0 p) (v1 p) = Ok false.
Proof. exact c74_right. Qed.
Print Assumptions C74_right_or_above.
(** A free map is no guarantee that an iteration of the node completes. *)
Theorem C74_free_map_is_enough_refuted : exists (L : libm) p n l m, @cart_node b64 (F64 L) p = Ok (Some (n, l)) /\
  Forall (fun v => v = 0%Z) (m_data m) /\ @fails b64 (F64 L) n (@shared_init b64 (F64 L)) l [MMap m] (UB UFloatCast).
Proof. exact leave_fails. Qed.
Print Assumptions C74_free_map_is_enough_refuted.
Example C74_example : proper_map yard /\ proper_radii bodyR yard /\ indexable yard (V3 13 5 0) /\
  beyond yard (c_srad bodyR + g_res yard) (V3 13 5 0) /\ left_or_below yard (V3 (-1) 5 0).
Proof.
  split; [exact yard_proper|]. split; [exact body_radii|]. unfold indexable, beyond, left_or_below. cbn [yard bodyR g_xmin g_ymin g_xsize g_ysize g_res c_srad v0 v1].
  assert (20 < IZR (2 ^ 30)) by (apply IZR_lt; reflexivity). repeat split; try lra; left; lra.
Qed.

(** ** C75 *)
Theorem C75_within_limits : forall om p n l0 evs s l e u, sane_sizes p -> sane_limits om p -> node_of om p = Ok (Some (n, l0)) ->
  exec n shared_init l0 evs s l -> odometry_ok om p (messages evs) -> In e evs -> In (Cmd u) (ev_out e) ->
  in_box (lower om p) (upper om p) u.
Proof. exact c75. Qed.
Print Assumptions C75_within_limits.
Theorem C75_cart_never_moves_sideways_refuted : exists (L : libm) p n l evs s l' e u, @cart_node b64 (F64 L) p = Ok (Some (n, l)) /\
  @exec b64 (F64 L) n (@shared_init b64 (F64 L)) l evs s l' /\ In e evs /\ In (Cmd u) (ev_out e) /\ Bltb (B754_zero false) (v1 u) = true.
Proof. exact side_exec. Qed.
Print Assumptions C75_cart_never_moves_sideways_refuted.
Example C75_example : sane_sizes pR /\ sane_limits false pR /\ exists n l evs s l' e u, node_of false pR = Ok (Some (n, l)) /\
  exec n shared_init l evs s l' /\ odometry_ok false pR (messages evs) /\ messages evs = [MOdom odomR; MMap yard_msg] /\
  In e evs /\ In (Cmd u) (ev_out e).
Proof. split; [exact pR_sizes|]. split; [exact pR_limits|exact pR_exec]. Qed.

(** ** C76 *)
Theorem C76_reference_long_enough_refuted : exists (L : libm) p n l m, @cart_node b64 (F64 L) p = Ok (Some (n, l)) /\
  @nle b64 (F64 L) (pa_dwa_horizon p) (pa_ec_horizon p) = true /\
  @fails b64 (F64 L) n (@shared_init b64 (F64 L)) l [MMap m] (Throw EArma).
Proof. exact short_fails. Qed.
Print Assumptions C76_reference_long_enough_refuted.
(** One controller step to spare is enough ([sane_times]). *)
Theorem C76_step_to_spare : forall om p n l0 evs s l g x vb ref, sane_sizes p -> sane_limits om p -> sane_times p ->
  node_of om p = Ok (Some (n, l0)) -> exec n shared_init l0 evs s l -> odometry_ok om p (messages evs) -> optTraj (lp_ec l) = Ok ref ->
  (forall u q, sampled (nd_dwa n) vb u -> In q (rollout (Z.to_nat (dw_steps (nd_dwa n))) (dw_dt (nd_dwa n)) u x) ->
     is_ok (collisionCheck (dw_collision (nd_dwa n)) g (v0 q) (v1 q)) = true) ->
  is_ok (dwa_follow (nd_dwa n) g x vb ref (ec_dt (lp_ec l))) = true.
Proof. exact c76. Qed.
Print Assumptions C76_step_to_spare.

(** ** C77 *)
Theorem C77_iteration_completes : forall om p n l0 evs s l V lk draws t m0 m1 m2 m3,
  sane_sizes p -> sane_limits om p -> sane_times p -> node_of om p = Ok (Some (n, l0)) ->
  (forall u, in_box (lower om p) (upper om p) u -> speed u <= V) ->
  exec n shared_init l0 evs s l -> callbacks m0 s (mo_test t) -> callbacks m1 (mo_test t) (mo_plan t) ->
  callbacks m2 (mo_plan t) (mo_check t) -> callbacks m3 (mo_check t) (mo_dwa t) ->
  odometry_ok om p (messages evs ++ m0 ++ m1 ++ m2 ++ m3) ->
  let x := last_pose (lp_pose l) [lk] in
  suitable p (nd_collision n) V x (sh_grid (mo_plan t)) -> suitable p (nd_collision n) V x (sh_grid (mo_check t)) ->
  suitable p (nd_collision n) V x (sh_grid (mo_dwa t)) -> drawable (ec_buffer (lp_ec (stage_lookup l lk))) draws ->
  exists l' out, body n l (view lk draws t) = Ok (l', out).
Proof. exact c77. Qed.
Print Assumptions C77_iteration_completes.
(** When no map callback is half way, the map is that of one of the messages. *)
Theorem C77_whole_maps : forall n l0 evs s l ms s', exec n shared_init l0 evs s l -> callbacks ms s s' -> sh_recv s' = true -> settled s' ->
  exists m, In (MMap m) (messages evs ++ ms) /\ sh_grid s' = grid_of_msg m.
Proof. exact c77_whole. Qed.
Print Assumptions C77_whole_maps.
Example C77_example : sane_times pR /\ (forall u, in_box (lower false pR) (upper false pR) u -> speed u <= 1) /\
  callbacks [MOdom odomR; MMap yard_msg] shared_init sR /\ sh_recv sR = true /\ settled sR /\
  exists n l, node_of false pR = Ok (Some (n, l)) /\ suitable pR (nd_collision n) 1 (tf_pose tfR) (sh_grid sR).
Proof.
  split; [exact pR_times|]. split; [exact pR_speed|]. split; [apply sR_callbacks|]. split; [reflexivity|].
  split; [unfold settled; rewrite (proj2 sR_callbacks); constructor|]. destruct pR_node as (n & l & N). exists n, l. split; [exact N|]. exact (pR_suitable n l N).
Qed.

(** ** C78 *)
(** Along the whole of a validated motion, not only at the poses that were checked, a wall of occupied cells that is
    farther than r + 2 cells from the robot at one end never comes nearer than r - 2 cells: r is any radius that is
    scanned and counts as a collision, and half the distance travelled in one step is added. *)
Theorem C78_clearance : forall c g x u dt h n gam r w l t, proper_map g -> proper_radii c g -> 0 < dt -> follows x u gam ->
  num_steps dt h = Ok n -> validate_control c g x u dt h = Ok true -> dt / 2 <= t <= IZR n * dt ->
  (forall s, 0 <= s <= IZR n * dt -> on_map g (v0 (gam s)) (v1 (gam s))) -> (1 <= r)%Z ->
  (Zfloor (c_brad c / g_res g) <= r <= Zfloor (c_srad c / g_res g))%Z -> (r < Zfloor ((c_brad c + c_othr c) / g_res g))%Z ->
  wall g (c_occ c) w l ->
  ~ comes_close g w l (gam t) (IZR (r - 2) * g_res g - dt / 2 * speed u) (IZR (r + 2) * g_res g + dt / 2 * speed u).
Proof. exact c78. Qed.
Print Assumptions C78_clearance.
Example C78_example : proper_map walled /\ proper_radii wide_body walled /\ follows x35 creep path35 /\ num_steps 1 2 = Ok 2%Z /\
  validate_control wide_body walled x35 creep 1 2 = Ok true /\
  (forall s, 0 <= s <= 2 * 1 -> on_map walled (v0 (path35 s)) (v1 (path35 s))) /\
  (Zfloor (c_brad wide_body / g_res walled) <= 3 <= Zfloor (c_srad wide_body / g_res walled))%Z /\
  (3 < Zfloor ((c_brad wide_body + c_othr wide_body) / g_res walled))%Z /\ wall walled (c_occ wide_body) (9, 0)%Z wall_cells.
Proof.
  split; [exact walled_proper|]. split; [exact wide_radii|]. split; [exact path35_follows|]. split; [exact creep_steps|]. split; [exact creep_valid|].
  split; [intros s Hs; rewrite path35_at; unfold on_map; cbn; lra|].
  cbn [wide_body walled c_brad c_srad c_othr g_res].
  rewrite (Zfloor_imp 2 (2 / 1)) by (cbn; lra). rewrite (Zfloor_imp 4 ((2 + 2) / 1)) by (cbn; lra). rewrite (Zfloor_imp 4 (4 / 1)) by (cbn; lra).
  split; [lia|]. split; [lia|exact walled_wall].
Qed.

(** ** C79 *)
Theorem C79_starts : forall om p, pa_ec_dt p <> 0 -> pa_dwa_dt p <> 0 -> (0 <= pa_num_basis p)%Z ->
  (exists n l, node_of om p = Ok (Some (n, l))) <-> startable om p.
Proof. exact c79. Qed.
Print Assumptions C79_starts.
Example C79_example : startable false pR /\ ~ startable true pR.
Proof. split; [exact pR_startable|]. intros (H & _). cbn in H. lia. Qed.
