(** A run for PropClearance. *)
From Coq Require Import Reals ZArith List Bool Lia Lra.
From Verif Require Import Outcome Num GridModel CollisionModel NumericsModel BufferModel DwaModel ErgodicModel ExplorationModel
  Spec SpecMotion SpecRobot SpecDwa SpecErgodic SpecExploration SpecSystem SpecClearance
  MotionProofs ExplorationProofs SystemProofs ClearanceProofs ClearanceExec PropSystemAux.
Import ListNotations ExplorationModel.
Local Open Scope R_scope.

Lemma pR_steps n l : node_of false pR = Ok (Some (n, l)) -> nd_val_dt n = 1 / 2 /\ dw_dt (nd_dwa n) = 1 / 2.
Proof.
  unfold node_of, cart_node, start. destruct (weight_at _ 0); cbn [bind]; try discriminate. destruct (weight_at _ 1); cbn [bind]; try discriminate.
  destruct (gaussians_of _) as [t| | |]; cbn [bind]; try discriminate. destruct (collision_ctor _ _ _ _) as [c| | |]; cbn [bind]; try discriminate.
  destruct (ec_ctor _ _ _ _ _ _ _ _ _ _ _) as [ec0| | |]; cbn [bind]; try discriminate.
  unfold dwa_ctor. destruct (num_steps _ _); cbn [bind]; try discriminate.
  destruct (nlt _ _); intros H; [discriminate|]. injection H as <- _. cbn. split; reflexivity.
Qed.
Lemma clear_exec : exists n l evs s l' e u gam, node_of false pR = Ok (Some (n, l)) /\ exec n shared_init l evs s l' /\ In e evs /\ In (Cmd u) (ev_out e) /\
  follows (ev_pose e) u gam /\ 0 < nd_val_dt n /\ 0 < dw_dt (nd_dwa n) /\ proper_map (check_map e) /\ proper_radii (nd_collision n) (check_map e).
Proof.
  destruct pR_node as (n & l & N). destruct (pR_completes n l N) as (l' & out & Bd). destruct sR_callbacks as [C _].
  pose proof (iteration_intro n shared_init (Some tfR) [] momR [MOdom odomR; MMap yard_msg] [] [] [] [] [] l l' sR out C (cb_none _) (cb_none _) (cb_none _) (cb_none _) (cb_none _) Bd) as It.
  set (e := mkEvent l l' (Some tfR) [] momR [MOdom odomR; MMap yard_msg] ([] ++ [] ++ [] ++ [] ++ []) out) in *.
  pose proof (iteration_commands _ _ _ _ It) as Cm. assert (K : lp_known (ev_post e) = true).
  { pose proof (body_pose _ _ _ _ _ (iteration_body _ _ _ _ It)) as (_ & K & _). rewrite K. reflexivity. }
  rewrite K in Cm. change (sh_recv (mo_test (ev_at e))) with true in Cm. cbn [andb] in Cm.
  exists n, l, [e], sR, l', e, (lp_u l'). eexists. split; [exact N|]. split; [econstructor; [exact It|reflexivity|constructor]|].
  split; [left; reflexivity|]. split.
  { assert (I : In (lp_u l') (commands (ev_out e))) by (rewrite Cm; left; reflexivity). unfold commands in I.
    apply in_flat_map in I. destruct I as ([v| |] & I1 & I2); [destruct I2 as [->|[]]; exact I1|destruct I2..]. }
  split; [apply follows_exists|]. destruct (pR_steps n l N) as (-> & ->). split; [lra|]. split; [lra|].
  change (check_map e) with (sh_grid sR). rewrite sR_grid. destruct (pR_suitable n l N) as (_ & A & B & _). split; assumption.
Qed.
