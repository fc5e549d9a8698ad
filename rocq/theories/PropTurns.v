(** Property theorems on the clearance of motions while the map changes: C94.  Notions in SpecTurns.v, proofs in TurnsProofs. *)
From Coq Require Import Reals ZArith List Bool.
From Flocq Require Import IEEE754.BinarySingleNaN.
From Verif Require Import Outcome Num Float64 GridModel CollisionModel NumericsModel BufferModel DwaModel ErgodicModel ExplorationModel FineModel
  SpecMotion SpecDwa SpecExploration SpecNear SpecSafe SpecFine SpecTurns TurnsProofs PropMappingAux PropExplorationAux PropNearAux PropSystemAux PropSafeAux PropTurnsAux.
Import ListNotations.
Local Open Scope R_scope.

(** ** C94 *)
(** If a twist is accepted while the map changes, the true motion is away from the walls of each map around the moment it was read. *)
Theorem C94_validated : forall (L : libm) (gs : nat -> grid b64) (c : collision b64) (x u : vec3 b64) (dt h : b64) (n : Z) k0 k gam,
  accurate L -> tame x u dt n -> 0 < B2R dt -> twist_motion (real3 x) (B2R (v0 u)) (B2R (v1 u)) (B2R (v2 u)) gam ->
  @num_steps b64 (F64 L) dt h = Ok n -> @validate_control_at b64 (F64 L) gs c x u dt h k0 = Ok (true, k) ->
  forall j t, (1 <= j <= n)%Z -> Rabs (t - IZR j * B2R dt) <= B2R dt / 2 ->
  away_from_walls L c (gs (k0 + Z.to_nat (j - 1))%nat) u dt n (gam (IZR j * B2R dt)) (gam t).
Proof. exact c94_validated. Qed.
Print Assumptions C94_validated.
(** The wall is there at the second check only. *)
Example C94_example_validated : let L := rounded (b64_ofZ 1) in accurate L /\ tame x64 creep64 (b 1 0) 2 /\ 0 < B2R (b 1 0) /\
  twist_motion (real3 x64) (B2R (v0 creep64)) (B2R (v1 creep64)) (B2R (v2 creep64)) path64 /\
  @num_steps b64 (F64 L) (b 1 0) (b 2 0) = Ok 2%Z /\ @validate_control_at b64 (F64 L) appears body64 x64 creep64 (b 1 0) (b 2 0) 0 = Ok (true, 2%nat) /\
  usable (appears 1) /\ whole_cells L body64 (appears 1) 2 4 4 /\ wall64 L (appears 1) (c_occ body64) (9, 0)%Z wall_cells /\
  inside (real_grid (appears 1)) (IZR 2 * drift creep64 (b 1 0)) (path64 (IZR 2 * B2R (b 1 0))).
Proof. exact creep_turns. Qed.

(** Whatever twist a node publishes while maps arrive: the robot stands still, or its true motion is away from the walls of each map read by
    the checks of this twist, around the moment of the check, and throughout from the walls that are on all of these maps. *)
Theorem C94_commanded : forall (L : libm) (nd : node b64) s l evs s' l' e u gam, accurate L ->
  @fine_exec b64 (F64 L) nd s l evs s' l' -> In e evs -> In (Cmd u) (fe_out e) -> 0 < B2R (nd_val_dt nd) -> 0 < B2R (dw_dt (nd_dwa nd)) ->
  (forall n, @val_steps b64 (F64 L) nd n -> tame (fine_pose e) u (nd_val_dt nd) (Z.of_nat n)) ->
  tame (fine_pose e) u (dw_dt (nd_dwa nd)) (dw_steps (nd_dwa nd)) -> (0 <= dw_steps (nd_dwa nd))%Z ->
  twist_motion (real3 (fine_pose e)) (B2R (v0 u)) (B2R (v1 u)) (B2R (v2 u)) gam ->
  (forall t, gam t = real3 (fine_pose e)) \/
  (exists n, @val_steps b64 (F64 L) nd n /\ let ss := firstn n (fe_checks e) in
     clear_each_moment L (nd_collision nd) ss u (nd_val_dt nd) (Z.of_nat n) gam /\ clear_of_lasting_walls L (nd_collision nd) ss u (nd_val_dt nd) (Z.of_nat n) gam) \/
  (exists k0, let ss := firstn (Z.to_nat (dw_steps (nd_dwa nd))) (skipn k0 (fe_checks e)) in
     clear_each_moment L (dw_collision (nd_dwa nd)) ss u (dw_dt (nd_dwa nd)) (dw_steps (nd_dwa nd)) gam /\
     clear_of_lasting_walls L (dw_collision (nd_dwa nd)) ss u (dw_dt (nd_dwa nd)) (dw_steps (nd_dwa nd)) gam).
Proof. exact c94_commanded. Qed.
Print Assumptions C94_commanded.
(** An obstacle appears between the two checks of the validation. *)
Example C94_example_node : accurate (rounded (b64_ofZ 1)) /\
  exists n l evs s l' e u, @cart_node b64 NR edge_params = Ok (Some (n, l)) /\ @fine_exec b64 NR n (@shared_init b64 NR) l evs s l' /\ In e evs /\ In (Cmd u) (fe_out e) /\
  (forall k, @val_steps b64 NR n k -> tame (fine_pose e) u (nd_val_dt n) (Z.of_nat k)) /\ tame (fine_pose e) u (dw_dt (nd_dwa n)) (dw_steps (nd_dwa n)) /\
  (0 <= dw_steps (nd_dwa n))%Z /\ B2R (v0 u) = -1 /\ 0 < B2R (nd_val_dt n) /\ 0 < B2R (dw_dt (nd_dwa n)) /\
  @num_steps b64 NR (nd_val_dt n) (nd_val_horizon n) = Ok 2%Z /\ map (@sh_grid b64) (fe_checks e) = map (fun k => @grid_of_msg b64 NR (map_msg k)) [200; 0]%nat.
Proof. exact (conj rounded_accurate late_exec). Qed.
