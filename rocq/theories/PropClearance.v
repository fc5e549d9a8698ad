(** Property theorem on the clearance along commanded motions: C81.  Proofs in ClearanceExec. *)
From Coq Require Import Reals ZArith List Bool Lia Lra.
From Verif Require Import Outcome Num GridModel CollisionModel NumericsModel BufferModel DwaModel ErgodicModel ExplorationModel
  Spec SpecMotion SpecRobot SpecDwa SpecErgodic SpecExploration SpecSystem SpecClearance
  MotionProofs ExplorationProofs SystemProofs ClearanceProofs ClearanceExec PropSystemAux PropClearanceAux.
Import ListNotations ExplorationModel.
Local Open Scope R_scope.

(** ** C81 *)
(** Whatever twist is published: the robot stands still, or it was checked against the map read by the check and its whole motion
    over the validation horizon keeps clear of the walls on that map, or the same holds for the map, the time step and the number
    of steps of the dynamic window. *)
Theorem C81_commanded_motions_keep_clear : forall (n : node R) s l evs s' l' e u gam, exec n s l evs s' l' -> In e evs -> In (Cmd u) (ev_out e) ->
  follows (ev_pose e) u gam -> 0 < nd_val_dt n -> 0 < dw_dt (nd_dwa n) ->
  (u = V3 0 0 0 /\ forall t, gam t = ev_pose e) \/
  (exists k, num_steps (nd_val_dt n) (nd_val_horizon n) = Ok k /\ keeps_clear (nd_collision n) (check_map e) u (nd_val_dt n) k gam) \/
  keeps_clear (dw_collision (nd_dwa n)) (dwa_map e) u (dw_dt (nd_dwa n)) (dw_steps (nd_dwa n)) gam.
Proof. exact c81. Qed.
Print Assumptions C81_commanded_motions_keep_clear.
Example C81_example : exists n l evs s l' e u gam, node_of false pR = Ok (Some (n, l)) /\ exec n shared_init l evs s l' /\ In e evs /\ In (Cmd u) (ev_out e) /\
  follows (ev_pose e) u gam /\ 0 < nd_val_dt n /\ 0 < dw_dt (nd_dwa n) /\ proper_map (check_map e) /\ proper_radii (nd_collision n) (check_map e).
Proof. exact clear_exec. Qed.
