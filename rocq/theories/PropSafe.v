(** Property theorems on the clearance of motions checked in binary64 arithmetic: C92.  Proofs in SafeProofs. *)
From Coq Require Import Reals ZArith List Bool.
From Flocq Require Import IEEE754.BinarySingleNaN.
From Verif Require Import Outcome Num Float64 GridModel CollisionModel NumericsModel BufferModel DwaModel ErgodicModel ExplorationModel
  SpecMotion SpecDwa SpecExploration SpecNear SpecSafe SafeProofs PropMappingAux PropNearAux PropSystemAux PropSafeAux.
Import ListNotations.
Local Open Scope R_scope.

(** ** C92 *)
(** If validate_control accepts a twist in binary64 arithmetic, the whole of the true motion keeps clear of the walls. *)
Theorem C92_validated : forall (L : libm) (c : collision b64) (g : grid b64) (x u : vec3 b64) (dt h : b64) (n : Z) gam,
  accurate L -> tame x u dt n -> 0 < B2R dt -> twist_motion (real3 x) (B2R (v0 u)) (B2R (v1 u)) (B2R (v2 u)) gam ->
  @num_steps b64 (F64 L) dt h = Ok n -> @validate_control b64 (F64 L) c g x u dt h = Ok true -> keeps_clear64 L c g u dt n gam.
Proof. exact c92_validated. Qed.
Print Assumptions C92_validated.
Example C92_example_validated : let L := rounded (b64_ofZ 1) in accurate L /\ tame x64 creep64 (b 1 0) 2 /\ 0 < B2R (b 1 0) /\
  twist_motion (real3 x64) (B2R (v0 creep64)) (B2R (v1 creep64)) (B2R (v2 creep64)) path64 /\
  @num_steps b64 (F64 L) (b 1 0) (b 2 0) = Ok 2%Z /\ @validate_control b64 (F64 L) body64 walled64 x64 creep64 (b 1 0) (b 2 0) = Ok true /\
  usable walled64 /\ whole_cells L body64 walled64 2 4 4 /\ wall64 L walled64 (c_occ body64) (9, 0)%Z wall_cells /\
  (forall s, 0 <= s <= IZR 2 * B2R (b 1 0) -> inside (real_grid walled64) (IZR 2 * drift creep64 (b 1 0)) (path64 s)).
Proof. exact creep_all. Qed.

(** Whatever twist a node publishes: the robot stands still, or its true motion keeps clear of the walls of the map read by the
    validation, or of those of the map read by the dynamic window. *)
Theorem C92_commanded : forall (L : libm) (nd : node b64) s l evs s' l' e u gam, accurate L ->
  @exec b64 (F64 L) nd s l evs s' l' -> In e evs -> In (Cmd u) (ev_out e) -> 0 < B2R (nd_val_dt nd) -> 0 < B2R (dw_dt (nd_dwa nd)) ->
  (forall n, @val_steps b64 (F64 L) nd n -> tame (ev_pose e) u (nd_val_dt nd) (Z.of_nat n)) ->
  tame (ev_pose e) u (dw_dt (nd_dwa nd)) (dw_steps (nd_dwa nd)) ->
  twist_motion (real3 (ev_pose e)) (B2R (v0 u)) (B2R (v1 u)) (B2R (v2 u)) gam ->
  (forall t, gam t = real3 (ev_pose e)) \/
  (exists n, @val_steps b64 (F64 L) nd n /\ keeps_clear64 L (nd_collision nd) (check_map e) u (nd_val_dt nd) (Z.of_nat n) gam) \/
  keeps_clear64 L (dw_collision (nd_dwa nd)) (dwa_map e) u (dw_dt (nd_dwa nd)) (dw_steps (nd_dwa nd)) gam.
Proof. exact c92_commanded. Qed.
Print Assumptions C92_commanded.
Example C92_example_node : accurate (rounded (b64_ofZ 1)) /\
  exists n l evs s l' e u, @exec b64 NR n (@shared_init b64 NR) l evs s l' /\ In e evs /\ In (Cmd u) (ev_out e) /\
  (forall k, @val_steps b64 NR n k -> tame (ev_pose e) u (nd_val_dt n) (Z.of_nat k)) /\ tame (ev_pose e) u (dw_dt (nd_dwa n)) (dw_steps (nd_dwa n)) /\
  B2R (v0 u) = -1 /\ 0 < B2R (nd_val_dt n) /\ 0 < B2R (dw_dt (nd_dwa n)) /\
  @num_steps b64 NR (nd_val_dt n) (nd_val_horizon n) = Ok 2%Z /\
  @validate_control b64 NR (nd_collision n) (check_map e) (ev_pose e) u (nd_val_dt n) (nd_val_horizon n) = Ok true.
Proof. exact (conj rounded_accurate edge_exec). Qed.
