(** Property theorems on the plans of a running node: C87.  The notions are defined in SpecPlan.v, proofs in PlanProofs. *)
From Coq Require Import Reals ZArith List Bool.
From Verif Require Import Outcome Num NumericsModel RobotModel GridModel CollisionModel BufferModel ErgodicModel ExplorationModel
  Spec SpecMotion SpecRobot SpecErgodic SpecExploration SpecSystem SpecPlan PlanProofs PropSystemAux PropPlanAux.
Import ListNotations ExplorationModel.
Local Open Scope R_scope.

(** ** C87 *)
(** Every trajectory a node publishes shows the motion under the next plan: optimal for the penalties, limits, time step and weight
    among the parameters, with the first poses looked up, or a batch of them, as the past, and on the rectangle of the map planned on.  The coefficients of
    the target are those of the Gaussians among the parameters on a map planned on before, of the same extents. *)
Theorem C87_plans : forall om p r n l0 evs s l j e path, sane_sizes p -> sane_limits om p -> penalties om p r ->
  node_of om p = Ok (Some (n, l0)) -> exec n shared_init l0 evs s l -> nth_error evs j = Some e -> In (Traj path) (ev_out e) ->
  exists lx ly ks phik past tr,
  all_modes (pa_num_basis p) ks /\
  Rabs (g_xmax (plan_map e) - g_xmin (plan_map e) - lx) < 1 / 1000000000000 /\ Rabs (g_ymax (plan_map e) - g_ymin (plan_map e) - ly) < 1 / 1000000000000 /\
  remembers p (ev_draws e) (looked_up (map ev_lookup (firstn (S j) evs))) past /\
  next_plan om p r (plan_map e) lx ly ks phik past (ev_pose e) (tl (plan_before e) ++ [V3 0 0 0]) (plan_after e) /\
  rk4_solve (pa_ec_dt p) (motion_of om) (ev_pose e) (plan_after e) (pa_ec_horizon p) = Ok tr /\ shows path tr /\
  (0 < pa_target_resolution p -> (forall e', In e' (firstn (S j) evs) -> planned e' -> plannable p (plan_map e')) ->
   exists e0, In e0 (firstn (S j) evs) /\ planned e0 /\ lx = g_xmax (plan_map e0) - g_xmin (plan_map e0) /\ ly = g_ymax (plan_map e0) - g_ymin (plan_map e0) /\
     coefficients p ks phik (plan_map e0)).
Proof. exact c87_plan. Qed.
Print Assumptions C87_plans.
(** Each plan is the warm start of the next one, from one iteration to the next; the first warm start is to stand still. *)
Theorem C87_first_plan : forall om p n l0, sane_sizes p -> node_of om p = Ok (Some (n, l0)) ->
  exists k, num_steps (pa_ec_dt p) (pa_ec_horizon p) = Ok k /\ ec_ut (lp_ec l0) = repeat (V3 0 0 0) (Z.to_nat k).
Proof. exact c87_start. Qed.
Print Assumptions C87_first_plan.
Theorem C87_plans_carried_over : forall (n : node R) s l evs s' l', exec n s l evs s' l' ->
  (forall e, nth_error evs 0 = Some e -> plan_before e = ec_ut (lp_ec l)) /\
  (forall j e e', nth_error evs j = Some e -> nth_error evs (S j) = Some e' -> plan_before e' = plan_after e) /\
  (forall e, In e evs -> ~ planned e -> plan_after e = plan_before e).
Proof. exact c87_chain. Qed.
Print Assumptions C87_plans_carried_over.
(** Its first control is commanded if it passes the check. *)
Theorem C87_first_control_commanded : forall om p n l0 evs s l e u, sane_sizes p -> node_of om p = Ok (Some (n, l0)) ->
  exec n shared_init l0 evs s l -> In e evs -> planned e -> nth_error (plan_after e) 0 = Some u -> passes n (check_map e) (ev_pose e) u ->
  In (Cmd u) (ev_out e).
Proof. exact c87_command. Qed.
Print Assumptions C87_first_control_commanded.
Example C87_example : exists n l evs s l' e path, sane_sizes pR /\ sane_limits false pR /\ penalties false pR (V3 1 0 1) /\
  node_of false pR = Ok (Some (n, l)) /\ exec n shared_init l evs s l' /\ nth_error evs 0 = Some e /\ In (Traj path) (ev_out e) /\
  0 < pa_target_resolution pR /\ plannable pR (plan_map e).
Proof. exact plan_exec. Qed.
