(** Binary64 versions of C52, C54 and C75: velocity limits but for rounding, and the column index. *)
From Coq Require Import Reals ZArith List Bool Lia Lra.
From Flocq Require Import Core.Core IEEE754.BinarySingleNaN.
From Verif Require Import Outcome Num Float64 GridModel CollisionModel NumericsModel RobotModel DwaModel ErgodicModel ExplorationModel
  SpecDwa SpecErgodic SpecExploration SpecLimits DwaFloat WindowFloat LimitsFloat PropMappingAux PropDwaAux PropExplorationAux PropLimitsAux.
Import ListNotations ExplorationModel.
Local Open Scope R_scope.

(** ** C52: what remains of the limits in binary64 *)
Theorem C52_control_near_limits_binary64 : forall (L : libm) (d : dwa b64) g x0 vb vref b u, sane_window d vb ->
  @dwa_control b64 (F64 L) d g x0 vb vref = Ok (b, u) -> near_limits d u.
Proof. exact control_near. Qed.
Print Assumptions C52_control_near_limits_binary64.
Theorem C52_follow_near_limits_binary64 : forall (L : libm) (d : dwa b64) g x0 vb ref dtr b u, sane_window d vb ->
  @dwa_follow b64 (F64 L) d g x0 vb ref dtr = Ok (b, u) -> near_limits d u.
Proof. exact follow_near. Qed.
Print Assumptions C52_follow_near_limits_binary64.
Example C52_near_example : sane_window w3 still /\
  check (fun s u => s && Beqb (v0 u) (b 1 0)) (@dwa_control b64 (F64 toy_libm) w3 (room 200) x5 still (V3 (b 2 0) z0 z0)) = true.
Proof. exact (conj w3_sane w3_run). Qed.

(** ** C54 *)
Theorem C54_follow_never_throws_binary64 : forall (L : libm) (d : dwa b64) g x0 vb ref (dtr : b64),
  (0 < lenZ ref <= two32)%Z -> (0 <= dw_steps d <= 2 ^ 24)%Z -> is_finite (dw_dt d) = true -> is_finite dtr = true ->
  0 < B2R (dw_dt d) <= bpow radix2 500 -> bpow radix2 (-400) <= B2R dtr <= bpow radix2 500 ->
  IZR (dw_steps d) * B2R (dw_dt d) <= IZR (lenZ ref) * B2R dtr ->
  (forall u p, @sampled b64 (F64 L) d vb u -> In p (@rollout b64 (F64 L) (Z.to_nat (dw_steps d)) (dw_dt d) u x0) ->
     is_ok (@collisionCheck b64 (F64 L) (dw_collision d) g (v0 p) (v1 p)) = true) ->
  is_ok (@dwa_follow b64 (F64 L) d g x0 vb ref dtr) = true.
Proof. exact c54_b64. Qed.
Print Assumptions C54_follow_never_throws_binary64.
Example C54_example_binary64 : (0 < lenZ [x5; x5] <= two32)%Z /\ ((0 <= dw_steps w3 <= 2 ^ 24)%Z /\ is_finite (dw_dt w3) = true /\ is_finite (b 1 (-1)) = true /\
  0 < B2R (dw_dt w3) <= bpow radix2 500 /\ bpow radix2 (-400) <= B2R (b 1 (-1)) <= bpow radix2 500 /\
  IZR (dw_steps w3) * B2R (dw_dt w3) <= IZR (lenZ [x5; x5]) * B2R (b 1 (-1))) /\
  (forall u p, @sampled b64 (F64 toy_libm) w3 still u -> In p (@rollout b64 (F64 toy_libm) (Z.to_nat (dw_steps w3)) (dw_dt w3) u x5) ->
     is_ok (@collisionCheck b64 (F64 toy_libm) (dw_collision w3) (room 200) (v0 p) (v1 p)) = true).
Proof. split; [cbv; split; congruence|]. exact (conj w3_times w3_answers). Qed.

(** ** C75 *)
Theorem C75_near_limits_binary64 : forall (L : libm) om (p : params b64) n l0 evs s l e u, sane_counts p -> sane_limits64 om p ->
  (if om then @omni_node b64 (F64 L) p else @cart_node b64 (F64 L) p) = Ok (Some (n, l0)) ->
  @exec b64 (F64 L) n (@shared_init b64 (F64 L)) l0 evs s l -> odometry_ok64 om p (messages evs) ->
  In e evs -> In (Cmd u) (ev_out e) -> nearly_in_box om p u.
Proof. exact c75_b64. Qed.
Print Assumptions C75_near_limits_binary64.
Example C75_example_binary64 : sane_counts usual /\ sane_limits64 false usual /\
  exists (L : libm) n l evs s l' e u, @cart_node b64 (F64 L) usual = Ok (Some (n, l)) /\
  @exec b64 (F64 L) n (@shared_init b64 (F64 L)) l evs s l' /\ odometry_ok64 false usual (messages evs) /\
  In (MOdom odom_half) (messages evs) /\ In e evs /\ In (Cmd u) (ev_out e) /\ is_finite (v0 u) = true.
Proof. exact (conj usual_counts (conj usual_limits half_exec)). Qed.
