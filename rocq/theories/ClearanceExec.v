(** Clearance along the motions that the node commands. *)
From Coq Require Import Reals ZArith List Bool Lia Lra.
From Flocq Require Import Core.Raux.
From Verif Require Import Outcome Num GridModel CollisionModel NumericsModel BufferModel DwaModel ErgodicModel ExplorationModel
  Spec SpecMotion SpecRobot SpecDwa SpecErgodic SpecExploration SpecSystem SpecClearance
  NumericsProofs MotionProofs RobotProofs DwaProofs PredictProofs ClearanceProofs ExplorationProofs.
Import ListNotations.
Local Open Scope R_scope.

Lemma steps_clear c g x u dt n gam : 0 < dt -> follows x u gam ->
  Forall (clear c g) (rollout (Z.to_nat n) dt u x) -> keeps_clear c g u dt n gam.
Proof.
  intros Hd F V PM PR Om r w l t H1 H2 H3 W Ht (Far & q & Iq & Near). destruct (nearest_step dt n t Hd Ht) as (k & Hk & K).
  assert (Cl : collisionCheck c g (v0 (gam (IZR k * dt))) (v1 (gam (IZR k * dt))) = Ok false).
  { apply (validate_rollout c g u dt (Z.to_nat n) x) in V. rewrite <- (shift_0 x) in V. apply (loop_true c g u dt ltac:(lra)) with (i := Z.to_nat k) in V; [|lia].
    unfold clear_at in V. rewrite INR_IZR_INZ, Z2Nat.id in V by lia. rewrite (follows_unique x u gam F). exact V. }
  assert (G : gap (gam (IZR k * dt)) (gam t) <= dt / 2 * speed u).
  { eapply Rle_trans; [apply (c73_motion x u gam _ _ F)|]. apply Rmult_le_compat_r; [apply speed_pos|exact K]. }
  rewrite (wall_at c g (gam (IZR k * dt)) r w l PM PR) in Cl; try assumption; try discriminate.
  - apply Om. assert (1 <= IZR k <= IZR n) by (split; apply IZR_le; lia). split; [apply Rmult_le_pos; lra|apply Rmult_le_compat_r; lra].
  - split; [|exists q; split; [exact Iq|]].
    + pose proof (gap_tri (gam t) (gam (IZR k * dt)) (centre g w)) as Tr. rewrite (gap_sym (gam t) (gam (IZR k * dt))) in Tr. lra.
    + pose proof (gap_tri (gam (IZR k * dt)) (gam t) (centre g q)) as Tr. lra.
Qed.
Lemma control_fails (d : dwa R) g x0 vb vref u : dwa_control d g x0 vb vref = Ok (false, u) -> u = V3 0 0 0 \/ safe d g x0 u.
Proof.
  intros H. apply (@search_false R RNum Rlt_t Rlt_i) in H. destruct H as (m & Q & _ & [(_ & E)|(_ & O & B)]); [left; exact E|right].
  apply vref_cases in O. destruct O as [(F & _)|(_ & ->)]; [exact F|]. cbn [nlt RNum] in B. apply Rltb_true in B. lra.
Qed.
Lemma follow_fails (d : dwa R) g x0 vb ref dtr u : dwa_follow d g x0 vb ref dtr = Ok (false, u) -> u = V3 0 0 0 \/ safe d g x0 u.
Proof.
  unfold dwa_follow. cbv zeta. intros H. apply (@search_false R RNum Rlt_t Rlt_i) in H. destruct H as (m & Q & _ & [(_ & E)|(_ & O & B)]); [left; exact E|right].
  apply (@traj_cases R RNum Rlt_t Rlt_i) in O. destruct O as [(F & _)|(_ & ->)]; [exact F|]. cbn [nlt RNum] in B. apply Rltb_true in B. lra.
Qed.
Lemma still_motion x gam : follows x (V3 0 0 0) gam -> forall t, gam t = x.
Proof.
  intros F t. rewrite (follows_unique _ _ _ F t). unfold flow. cbn [v0 v1 v2].
  assert (E : rate (0 : R) = 0). { unfold rate. destruct (Rltb _ _); reflexivity. }
  rewrite E. destruct (Req_EM_T 0 0); [|lra]. destruct x as [a b c]. cbn [v0 v1 v2]. apply V3_eq; ring.
Qed.
Lemma c81 (n : node R) s l evs s' l' e u gam : exec n s l evs s' l' -> In e evs -> In (Cmd u) (ev_out e) ->
  follows (ev_pose e) u gam -> 0 < nd_val_dt n -> 0 < dw_dt (nd_dwa n) ->
  (u = V3 0 0 0 /\ forall t, gam t = ev_pose e) \/
  (exists k, num_steps (nd_val_dt n) (nd_val_horizon n) = Ok k /\ keeps_clear (nd_collision n) (check_map e) u (nd_val_dt n) k gam) \/
  keeps_clear (dw_collision (nd_dwa n)) (dwa_map e) u (dw_dt (nd_dwa n)) (dw_steps (nd_dwa n)) gam.
Proof.
  intros X I C F Hv Hd. apply In_nth_error in I. destruct I as [j K]. destruct (exec_split _ _ _ _ _ _ _ _ X K) as (s1 & s2 & _ & It & _).
  assert (D : u = V3 0 0 0 \/ passes n (check_map e) (ev_pose e) u \/ safe (nd_dwa n) (dwa_map e) (ev_pose e) u).
  { destruct (iteration_cases _ _ _ _ _ It C) as [P|[(vref & [|] & D)|(ref & dtr & [|] & D)]]; [auto| | | |].
    - right. right. apply c50_success in D. tauto.
    - apply control_fails in D. tauto.
    - right. right. apply c50_follow in D. tauto.
    - apply follow_fails in D. tauto. }
  destruct D as [->|[(k & (Kr & Kt) & P)|S]].
  - left. split; [reflexivity|]. apply still_motion. exact F.
  - right. left. exists (Z.of_nat k). split.
    + unfold num_steps, to_u32. rewrite Kt. destruct (Z.leb_spec 0 (Z.of_nat k)); [|lia]. destruct (Z.ltb_spec (Z.of_nat k) two32); [reflexivity|lia].
    + apply (steps_clear _ _ (ev_pose e)); auto. rewrite Nat2Z.id. exact P.
  - right. right. apply (steps_clear _ _ (ev_pose e)); auto.
Qed.
