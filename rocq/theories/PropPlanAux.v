(** A run for PropPlan. *)
From Coq Require Import Reals ZArith List Bool Lia Lra.
From Verif Require Import Outcome Num GridModel CollisionModel NumericsModel BufferModel DwaModel ErgodicModel ExplorationModel
  Spec SpecMotion SpecRobot SpecDwa SpecErgodic SpecExploration SpecSystem SpecPlan
  ExplorationProofs SystemProofs PlanProofs PropSystemAux.
Import ListNotations ExplorationModel.
Local Open Scope R_scope.

Lemma plan_exec : exists n l evs s l' e path, sane_sizes pR /\ sane_limits false pR /\ penalties false pR (V3 1 0 1) /\
  node_of false pR = Ok (Some (n, l)) /\ exec n shared_init l evs s l' /\ nth_error evs 0 = Some e /\ In (Traj path) (ev_out e) /\
  0 < pa_target_resolution pR /\ plannable pR (plan_map e).
Proof.
  destruct pR_node as (n & l & N). destruct (pR_completes n l N) as (l' & out & Bd). destruct sR_callbacks as [C _].
  pose proof (iteration_intro n shared_init (Some tfR) [] momR [MOdom odomR; MMap yard_msg] [] [] [] [] [] l l' sR out C (cb_none _) (cb_none _) (cb_none _) (cb_none _) (cb_none _) Bd) as It.
  set (e := mkEvent l l' (Some tfR) [] momR [MOdom odomR; MMap yard_msg] ([] ++ [] ++ [] ++ [] ++ []) out) in *.
  assert (F : lp_follow l = false).
  { destruct (node_built _ _ _ _ pR_sizes N) as (e0 & B). clear - N. unfold node_of, cart_node, start in N. destruct (weight_at _ 0); cbn [bind] in N; try discriminate.
    destruct (weight_at _ 1); cbn [bind] in N; try discriminate. destruct (gaussians_of _) as [gs| | |]; cbn [bind] in N; try discriminate.
    destruct (collision_ctor _ _ _ _) as [c| | |]; cbn [bind] in N; try discriminate. destruct (ec_ctor _ _ _ _ _ _ _ _ _ _ _) as [e| | |]; cbn [bind] in N; try discriminate.
    destruct (dwa_ctor _ _ _ _ _ _ _ _ _ _ _ _ _ _ _ _) as [d| | |]; cbn [bind] in N; try discriminate. destruct (nlt _ _); [discriminate|]. injection N as _ <-. reflexivity. }
  assert (P : exists path, In (Traj path) out).
  { apply body_inv in Bd. cbv zeta in Bd. destruct Bd as [(A & _ & _)|(_ & ee & u & o1 & o2 & P & _ & ->)]; [discriminate A|].
    destruct P as [St|u ee path _ _ _]; [exfalso; unfold still in St; cbn [stage_lookup view se_lookup lp_follow] in St; rewrite F in St; discriminate|].
    exists path. left. reflexivity. }
  destruct P as (path & P). exists n, l, [e], sR, l', e, path. split; [exact pR_sizes|]. split; [exact pR_limits|].
  split; [unfold penalties; cbn; split; [lra|split; [discriminate|split; [lra|exists []; reflexivity]]]|]. split; [exact N|].
  split; [econstructor; [exact It|reflexivity|constructor]|]. split; [reflexivity|]. split; [exact P|]. split; [cbn; lra|].
  change (plan_map e) with (sh_grid sR). rewrite sR_grid. unfold plannable. cbn. lra.
Qed.
