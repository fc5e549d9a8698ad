(** Property theorems on rollouts in binary64 arithmetic and the motions they stand for: C91.  Proofs in NearProofs. *)
From Coq Require Import Reals ZArith List Bool.
From Flocq Require Import IEEE754.BinarySingleNaN.
From Verif Require Import Outcome Num Float64 GridModel CollisionModel NumericsModel BufferModel DwaModel ErgodicModel ExplorationModel
  SpecMotion SpecDwa SpecExploration SpecNear NearProofs PropNearAux.
Import ListNotations.
Local Open Scope R_scope.

(** ** C91 *)
(** The k-th pose computed is that of the motion with the constant twist [u], but for k times the error of a step. *)
Theorem C91_rollout : forall (L : libm) (x u : vec3 b64) (dt : b64) (n : nat) gamma, accurate L -> tame x u dt (Z.of_nat n) ->
  twist_motion (real3 x) (B2R (v0 u)) (B2R (v1 u)) (B2R (v2 u)) gamma ->
  forall k p, nth_error (@rollout b64 (F64 L) n dt u x) k = Some p ->
  near u dt gamma (Z.of_nat (S k)) (v0 p) (v1 p) /\ near_heading dt gamma (Z.of_nat (S k)) (v2 p).
Proof. exact c91_rollout. Qed.
Print Assumptions C91_rollout.
Example C91_example_curve : accurate (rounded (b64_ofZ 1)) /\ tame start1 curve eighth (Z.of_nat 16) /\
  exists gamma, twist_motion (real3 start1) (B2R (v0 curve)) (B2R (v1 curve)) (B2R (v2 curve)) gamma.
Proof. exact (conj rounded_accurate (conj curve_tame curve_motion)). Qed.

(** If validate_control accepts a twist, then at the end of every step of the motion a position that near was tested and is free. *)
Theorem C91_validated : forall (L : libm) (c : collision b64) (g : grid b64) (x u : vec3 b64) (dt h : b64) (n : Z) gamma,
  accurate L -> tame x u dt n -> twist_motion (real3 x) (B2R (v0 u)) (B2R (v1 u)) (B2R (v2 u)) gamma ->
  @num_steps b64 (F64 L) dt h = Ok n -> @validate_control b64 (F64 L) c g x u dt h = Ok true -> near_free L c g u dt n gamma.
Proof. exact c91_validated. Qed.
Print Assumptions C91_validated.

(** Whatever twist a node publishes: the robot is stopped, or this holds for the motion commanded, with the map and the steps of
    the validation or those of the dynamic window. *)
Theorem C91_commanded : forall (L : libm) (nd : node b64) s l evs s' l' e u gamma, accurate L ->
  @exec b64 (F64 L) nd s l evs s' l' -> In e evs -> In (Cmd u) (ev_out e) ->
  (forall n, @val_steps b64 (F64 L) nd n -> tame (ev_pose e) u (nd_val_dt nd) (Z.of_nat n)) ->
  tame (ev_pose e) u (dw_dt (nd_dwa nd)) (dw_steps (nd_dwa nd)) ->
  twist_motion (real3 (ev_pose e)) (B2R (v0 u)) (B2R (v1 u)) (B2R (v2 u)) gamma ->
  (exists n, @val_steps b64 (F64 L) nd n /\ near_free L (nd_collision nd) (check_map e) u (nd_val_dt nd) (Z.of_nat n) gamma) \/
  near_free L (dw_collision (nd_dwa nd)) (dwa_map e) u (dw_dt (nd_dwa nd)) (dw_steps (nd_dwa nd)) gamma \/
  u = V3 (b64_ofZ 0) (b64_ofZ 0) (b64_ofZ 0).
Proof. exact c91_commanded. Qed.
Print Assumptions C91_commanded.
(** A node that publishes a twist that moves the robot, accepted by the validation over two steps: *)
Example C91_example_node : accurate (rounded (b64_ofZ 1)) /\
  exists n l evs s l' e u, @exec b64 NR n (@shared_init b64 NR) l evs s l' /\ In e evs /\ In (Cmd u) (ev_out e) /\
  (forall k, @val_steps b64 NR n k -> tame (ev_pose e) u (nd_val_dt n) (Z.of_nat k)) /\ tame (ev_pose e) u (dw_dt (nd_dwa n)) (dw_steps (nd_dwa n)) /\
  B2R (v0 u) = -1 /\ 0 < B2R (nd_val_dt n) /\ 0 < B2R (dw_dt (nd_dwa n)) /\
  @num_steps b64 NR (nd_val_dt n) (nd_val_horizon n) = Ok 2%Z /\
  @validate_control b64 NR (nd_collision n) (check_map e) (ev_pose e) u (nd_val_dt n) (nd_val_horizon n) = Ok true.
Proof. exact (conj rounded_accurate edge_exec). Qed.

(** A cosine that is one unit in the last place off near 0 is not enough: one step of 1/8 s with the speed 1 m/s then ends more
    than 0.05 mm beside the motion. *)
Theorem C91_one_ulp_refuted : exists L x u dt, faithful L /\ tame x u dt 1 /\ forall gamma,
  twist_motion (real3 x) (B2R (v0 u)) (B2R (v1 u)) (B2R (v2 u)) gamma ->
  exists p, nth_error (@rollout b64 (F64 L) 1 dt u x) 0 = Some p /\ / 20000 < Rabs (B2R (v0 p) - v0 (gamma (B2R dt))) /\ drift u dt < / 100000000.
Proof. exact c91_faithful. Qed.
Print Assumptions C91_one_ulp_refuted.
