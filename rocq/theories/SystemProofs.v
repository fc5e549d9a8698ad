(** Proofs about the node as a whole. *)
From Coq Require Import Reals ZArith List Bool Lia Lra.
From Flocq Require Import Core.Raux.
From Verif Require Import Outcome Num Float64 GridModel CollisionModel NumericsModel BufferModel BasisModel RobotModel DwaModel ErgodicModel
  ExplorationModel Spec SpecMotion SpecRobot SpecDwa SpecErgodic SpecExploration SpecSystem
  NumericsProofs MotionProofs BasisProofs RobotProofs DwaProofs ErgodicProofs ErgodicReal ErgodicSystem ExplorationProofs PredictProofs.
Import ListNotations ExplorationModel.
Local Open Scope R_scope.
Ltac Zify.zify_post_hook ::= idtac.

(** ** The parts of a node *)
Record built (om : bool) (p : params R) (n : node R) (l : loop R) (e0 : ec R) : Prop := {
  bu_made : constructed e0;
  bu_umin : ec_umin e0 = lower om p;
  bu_umax : ec_umax e0 = upper om p;
  bu_model : node_model e0;
  bu_dt : ec_dt e0 = pa_ec_dt p;
  bu_hor : ec_horizon e0 = pa_ec_horizon p;
  bu_res : ec_resolution e0 = pa_target_resolution p;
  bu_size : b_size (ec_buffer e0) = pa_buffer_size p;
  bu_batch : b_batch (ec_buffer e0) = pa_batch_size p;
  bu_ec : history e0 (lp_ec l);
  bu_u : lp_u l = zero3;
  bu_min : dw_min (nd_dwa n) = lower om p;
  bu_max : dw_max (nd_dwa n) = upper om p;
  bu_r0 : v0 (dw_acc (nd_dwa n)) * dw_acc_dt (nd_dwa n) = v0 (reach om p);
  bu_r1 : v1 (dw_acc (nd_dwa n)) * dw_acc_dt (nd_dwa n) = v1 (reach om p);
  bu_r2 : v2 (dw_acc (nd_dwa n)) * dw_acc_dt (nd_dwa n) = v2 (reach om p);
  bu_ddt : dw_dt (nd_dwa n) = pa_dwa_dt p;
  bu_dhor : dw_horizon (nd_dwa n) = pa_dwa_horizon p;
  bu_steps : num_steps (pa_dwa_dt p) (pa_dwa_horizon p) = Ok (dw_steps (nd_dwa n));
  bu_col : dw_collision (nd_dwa n) = nd_collision n;
  bu_vdt : nd_val_dt n = pa_val_dt p;
  bu_vhor : nd_val_horizon n = pa_val_horizon p }.
Lemma start_built om model Rinv umin umax acc_y max_y min_y vy (p : params R) n l : sane_sizes p ->
  start model Rinv umin umax acc_y max_y min_y vy p = Ok (Some (n, l)) ->
  umin = lower om p -> umax = upper om p -> (model = omni_plant \/ model = cart_plant /\ om = false) ->
  acc_y * pa_acc_dt p = v1 (reach om p) -> max_y = v1 (upper om p) -> min_y = v1 (lower om p) ->
  exists e0, built om p n l e0.
Proof.
  intros (S1 & S2 & S3) H U1 U2 M A B1 B2. unfold start in H.
  destruct (gaussians_of _) as [gs| | |]; cbn [bind] in H; try discriminate. destruct (collision_ctor _ _ _ _) as [c| | |]; cbn [bind] in H; try discriminate.
  destruct (ec_ctor _ _ _ _ _ _ _ _ _ _ _) as [e0| | |] eqn:E; cbn [bind] in H; try discriminate.
  destruct (dwa_ctor _ _ _ _ _ _ _ _ _ _ _ _ _ _ _ _) as [d| | |] eqn:D; cbn [bind] in H; try discriminate. destruct (nlt _ _); [discriminate|].
  injection H as <- <-. exists e0.
  assert (S4 : (0 <= pa_buffer_size p < two32)%Z) by (change two32 with (2 ^ 32)%Z; lia).
  assert (K : constructed e0).
  { do 11 eexists. split; [|exact E]. change two32 with (2 ^ 32)%Z. lia. }
  destruct (ctor_inv _ _ _ _ _ _ _ _ _ _ _ _ S1 S4 E) as (_ & Q & _).
  unfold dwa_ctor in D. destruct (num_steps (pa_dwa_dt p) (pa_dwa_horizon p)) as [st| | |] eqn:N; cbn [bind] in D; try discriminate.
  apply Ok_eq in D. subst d. rewrite Q. subst umin umax max_y min_y.
  split; cbn [nd_dwa nd_collision nd_val_dt nd_val_horizon dw_min dw_max dw_acc dw_acc_dt dw_dt dw_horizon dw_steps dw_collision v0 v1 v2
    ec_umin ec_umax ec_dt ec_horizon ec_resolution ec_buffer ec_model buffer_ctor b_size b_batch loop_init lp_ec lp_u]; try reflexivity; try exact A; try exact N.
  - rewrite <- Q. exact K.
  - unfold node_model. cbn [ec_model ec_umin ec_umax]. destruct M as [->|[-> ->]]; [left; reflexivity|right]. repeat split; reflexivity.
  - eapply history_snoc; [constructor|constructor].
Qed.
Lemma node_built om p n l : sane_sizes p -> node_of om p = Ok (Some (n, l)) -> exists e0, built om p n l e0.
Proof.
  intros S H. destruct om; unfold node_of, omni_node, cart_node in H.
  - destruct (weight_at p 0); cbn [bind] in H; try discriminate. destruct (weight_at p 1); cbn [bind] in H; try discriminate.
    destruct (weight_at p 2); cbn [bind] in H; try discriminate. eapply start_built; [exact S|exact H|reflexivity|reflexivity|auto|reflexivity..].
  - destruct (weight_at p 0); cbn [bind] in H; try discriminate. destruct (weight_at p 1); cbn [bind] in H; try discriminate.
    eapply start_built; [exact S|exact H|reflexivity|reflexivity|auto|cbn; unfold n0; cbn; lra|reflexivity..].
Qed.

(** ** The velocity the callbacks leave *)
Definition wide_write om p (w : write R) : Prop :=
  match w with
  | WVx x => v0 (lower om p) - v0 (reach om p) <= x <= v0 (upper om p) + v0 (reach om p)
  | WVy x => v1 (lower om p) - v1 (reach om p) <= x <= v1 (upper om p) + v1 (reach om p)
  | WVw x => v2 (lower om p) - v2 (reach om p) <= x <= v2 (upper om p) + v2 (reach om p)
  | _ => True end.
Definition wide om p (s : shared R) : Prop := recoverable om p (sh_vb s) /\ Forall (wide_write om p) (sh_todo s).
Lemma wide_init om p : sane_limits om p -> wide om p shared_init.
Proof.
  intros ((A & B & C) & D & E & F). split; [|constructor]. unfold recoverable. cbn [shared_init sh_vb zero3 v0 v1 v2] in *. unfold n0. cbn [nofZ RNum]. lra.
Qed.
Lemma wide_callbacks om p ms s s' : callbacks ms s s' -> odometry_ok om p ms -> wide om p s -> wide om p s'.
Proof.
  induction 1 as [s|m ms s s' E C IH|w rest ms s s' E C IH]; intros O W; [exact W| |].
  - apply IH; [intros v I; apply O; right; exact I|]. destruct W as [W _]. split; [exact W|]. cbn [sh_todo]. destruct m as [m|v]; cbn [writes_of].
    + unfold map_writes. repeat constructor.
    + destruct (O v (or_introl eq_refl)) as (A & B & D). unfold odom_writes. repeat (constructor; [assumption|]). constructor.
  - apply IH; [exact O|]. destruct W as [(W0 & W1 & W2) F]. rewrite E in F. inversion F as [|? ? F1 F2]; subst. split; [|exact F2].
    unfold recoverable. destruct w; cbn [do_write sh_vb write_vb v0 v1 v2 wide_write] in *; auto.
Qed.
Lemma ok_app om p a b : odometry_ok om p (a ++ b) <-> odometry_ok om p a /\ odometry_ok om p b.
Proof.
  unfold odometry_ok. split; [intros H; split; intros v I; apply H, in_or_app; auto|]. intros [A B] v I. apply in_app_or in I. destruct I; auto.
Qed.
Lemma wide_iteration om p n s e s' : iteration n s e s' -> odometry_ok om p (ev_early e ++ ev_late e) -> wide om p s ->
  wide om p (mo_dwa (ev_at e)) /\ wide om p s'.
Proof.
  intros []. cbn [ev_early ev_late ev_at]. rewrite !ok_app. intros (O0 & O1 & O2 & O3 & O4 & O5) W.
  assert (W3 : wide om p (mo_dwa t)) by (do 4 (eapply wide_callbacks; [eassumption|assumption|]); exact W).
  split; [exact W3|]. do 2 (eapply wide_callbacks; [eassumption|assumption|]). exact W3.
Qed.

(** ** C75 *)
Lemma sampled_box om p (n : node R) l e0 vb u : built om p n l e0 -> sane_limits om p -> recoverable om p vb -> sampled (nd_dwa n) vb u ->
  in_box (lower om p) (upper om p) u.
Proof.
  intros B ((L0 & L1 & L2) & R0 & R1 & R2) (V0 & V1 & V2) (A0 & A1 & A2).
  rewrite (bu_min _ _ _ _ _ B), (bu_max _ _ _ _ _ B) in *. cbn [v0 v1 v2] in L0, L1, L2.
  pose proof (bu_r0 _ _ _ _ _ B) as Q0. pose proof (bu_r1 _ _ _ _ _ B) as Q1. pose proof (bu_r2 _ _ _ _ _ B) as Q2.
  repeat split; first [apply (fun a b c => c51_axis _ _ _ _ _ _ _ a b c A0)|apply (fun a b c => c51_axis _ _ _ _ _ _ _ a b c A1)|apply (fun a b c => c51_axis _ _ _ _ _ _ _ a b c A2)]; lra.
Qed.
Lemma search_box om p (n : node R) l e0 vb obj b u : built om p n l e0 -> sane_limits om p -> recoverable om p vb -> dwa_search (nd_dwa n) obj vb = Ok (b, u) ->
  in_box (lower om p) (upper om p) u.
Proof.
  intros B S V H. destruct b.
  - apply (@search_true R RNum Rlt_t Rlt_i max_maxR) in H. destruct H as [H _]. eapply sampled_box; eauto.
  - apply (@search_false R RNum Rlt_t Rlt_i) in H. destruct H as (m & _ & _ & [[_ ->]|[H _]]); [|eapply sampled_box; eauto]. destruct S as [S _]. exact S.
Qed.
Definition running_ok om p (e0 : ec R) (l : loop R) : Prop := history e0 (lp_ec l) /\ in_box (lower om p) (upper om p) (lp_u l).
Lemma history_control om p n l0 e0 (e : ec R) g x draws u e' : built om p n l0 e0 -> sane_limits om p -> history e0 e -> ec_control e g x draws = Ok (u, e') ->
  history e0 e' /\ in_box (lower om p) (upper om p) u.
Proof.
  intros B ((L0 & L1 & L2) & _) H C. split; [eapply history_snoc; [exact H|econstructor; exact C]|]. cbn [v0 v1 v2] in *.
  pose proof (bu_umin _ _ _ _ _ B) as U1. pose proof (bu_umax _ _ _ _ _ B) as U2.
  destruct (c55_history e0 e (bu_made _ _ _ _ _ B)) as [_ Q]; try exact H; try (rewrite U1, U2; lra).
  rewrite U1, U2 in Q. exact (proj1 (Q _ _ _ _ _ C)).
Qed.
Lemma body_ok om p n l0 e0 l o l' out : built om p n l0 e0 -> sane_limits om p -> recoverable om p (se_vb o) -> running_ok om p e0 l ->
  body n l o = Ok (l', out) -> running_ok om p e0 l'.
Proof.
  intros B S V (H & U) K. apply body_inv in K. cbv zeta in K. set (x := stage_lookup l (se_lookup o)) in *.
  assert (X : running_ok om p e0 x).
  { unfold x. destruct (se_lookup o); [|split; assumption]. split; [|exact U]. cbn [stage_lookup lp_ec]. eapply history_snoc; [exact H|constructor]. }
  clearbody x. clear H U. destruct K as [(_ & -> & _)|(_ & e & u & o1 & o2 & P & C & _)]; [exact X|]. destruct X as [H U].
  assert (Q : history e0 e /\ in_box (lower om p) (upper om p) u).
  { destruct P as [_|u e tr _ P _]; [split; assumption|]. eapply history_control; eauto. }
  destruct Q as [Q1 Q2]. destruct C as [_|b v _ _ D|ref v tr _ _ _ D _|ref v _ _ _ D]; (split; [exact Q1|]); cbn [lp_u]; [exact Q2| | |];
    (eapply search_box; [exact B|exact S|exact V|exact D]).
Qed.
Lemma exec_ok om p n l0 e0 s l evs s' l' : built om p n l0 e0 -> sane_limits om p -> exec n s l evs s' l' -> odometry_ok om p (messages evs) ->
  wide om p s -> running_ok om p e0 l -> wide om p s' /\ running_ok om p e0 l'.
Proof.
  intros B S. induction 1 as [s l|s l e s1 evs s' l' I P X IH]; intros O W G; [split; assumption|].
  unfold messages in O. cbn [flat_map] in O. rewrite ok_app in O. destruct O as [O1 O2]. pose proof (wide_iteration _ _ _ _ _ _ I O1 W) as [W1 W2].
  apply IH; [exact O2|exact W2|]. subst l. eapply body_ok; [exact B|exact S| |exact G|exact (iteration_body _ _ _ _ I)]. exact (proj1 W1).
Qed.
Lemma built_ok om p n l e0 : built om p n l e0 -> sane_limits om p -> running_ok om p e0 l.
Proof.
  intros B S. split; [exact (bu_ec _ _ _ _ _ B)|]. rewrite (bu_u _ _ _ _ _ B). destruct S as [S _]. exact S.
Qed.
Lemma c75 om p n l0 evs s l e u : sane_sizes p -> sane_limits om p -> node_of om p = Ok (Some (n, l0)) ->
  exec n shared_init l0 evs s l -> odometry_ok om p (messages evs) -> In e evs -> In (Cmd u) (ev_out e) ->
  in_box (lower om p) (upper om p) u.
Proof.
  intros Z S N X O I C. destruct (node_built _ _ _ _ Z N) as (e0 & B). apply In_nth_error in I. destruct I as [k K].
  apply nth_error_split in K. destruct K as (a & b & -> & _). apply exec_app in X. destruct X as (s1 & l1 & X1 & X2).
  assert (O' : odometry_ok om p (messages (a ++ [e]))).
  { intros v J. apply O. unfold messages in *. rewrite flat_map_app in *. cbn [flat_map] in *. rewrite app_nil_r in J. apply in_or_app. apply in_app_or in J. destruct J; [auto|right; apply in_or_app; auto]. }
  inversion X2 as [|? ? ? s2 ? ? ? I P X3]; subst.
  assert (X4 : exec n shared_init l0 (a ++ [e]) s2 (ev_post e)).
  { apply exec_app. exists s1, (ev_pre e). split; [exact X1|]. econstructor; [exact I|reflexivity|constructor]. }
  destruct (exec_ok _ _ _ _ _ _ _ _ _ _ B S X4 O' (wide_init _ _ S) (built_ok _ _ _ _ _ B S)) as (_ & _ & Q).
  apply iteration_body, body_inv in I. cbv zeta in I. destruct I as [(_ & _ & E)|(_ & ee & w & o1 & o2 & P1 & P2 & E)].
  - rewrite E in C. destruct C.
  - rewrite E in C. rewrite (in_cmd _ _ _ _ _ _ _ _ _ P1 P2 C). exact Q.
Qed.

(** ** C77: iterations complete *)
Lemma call_sizes (e e' : ec R) : call e e' -> b_size (ec_buffer e') = b_size (ec_buffer e) /\ b_batch (ec_buffer e') = b_batch (ec_buffer e).
Proof.
  intros [a g x draws u a' C|a x|a t|a g a' C].
  - rewrite (proj1 (ErgodicProofs.control_buffer _ _ _ _ _ _ C)). auto.
  - cbn [addStateMemory set_buffer ec_buffer]. apply append_size.
  - auto.
  - rewrite (proj1 (config_buffer _ _ _ C)). auto.
Qed.
Lemma history_sizes (e e' : ec R) : history e e' -> b_size (ec_buffer e') = b_size (ec_buffer e) /\ b_batch (ec_buffer e') = b_batch (ec_buffer e).
Proof. induction 1 as [|e1 e2 H [A B] C]; [auto|]. apply call_sizes in C. destruct C. split; congruence. Qed.
Lemma traj_defined (e : ec R) : reachable e -> limits e -> node_model e -> exists ref, optTraj e = Ok ref /\ lenZ ref = ec_steps e.
Proof.
  intros Rch Lm M. pose proof (reachable_inv _ Rch) as I. pose proof (i_len _ I) as LU. pose proof (i_steps _ I) as NS.
  assert (O : exists tr, rk4_solve (ec_dt e) (rb_f omni) (ec_pose e) (ec_ut e) (ec_horizon e) = Ok tr).
  { pose proof (proj1 (c46_defined (ec_dt e) (ec_pose e) (ec_ut e) (ec_horizon e) _ NS) ltac:(lia)) as O. destruct (rk4_solve _ _ _ _ _); try discriminate. eauto. }
  assert (Q : exists tr, optTraj e = Ok tr).
  { unfold optTraj. destruct M as [M|(M & Z1 & Z2)]; rewrite M; [exact O|]. cbn [cart_plant pl_robot]. rewrite cart_solves; [exact O|].
    exact (columns_straight e Rch Lm M Z1 Z2). }
  destruct Q as (tr & Q). exists tr. split; [exact Q|]. unfold optTraj, rk4_solve in Q. rewrite NS in Q. cbn [bind] in Q. apply rk4_loop_len in Q.
  pose proof (steps_range _ _ _ NS). unfold lenZ. lia.
Qed.
Lemma node_history om p n l e0 e : built om p n l e0 -> sane_limits om p -> history e0 e ->
  reachable e /\ limits e /\ node_model e /\ ec_dt e = pa_ec_dt p /\ ec_horizon e = pa_ec_horizon p /\ ec_resolution e = pa_target_resolution p /\
  b_size (ec_buffer e) = pa_buffer_size p /\ b_batch (ec_buffer e) = pa_batch_size p.
Proof.
  intros B ((L0 & L1 & L2) & _) H. cbn [v0 v1 v2] in *. pose proof (history_kept _ _ H) as (KM & KD & KH & KR & _ & _ & _ & _ & Um & UM & _).
  pose proof (history_sizes _ _ H) as [Z1 Z2]. rewrite (bu_umin _ _ _ _ _ B) in Um. rewrite (bu_umax _ _ _ _ _ B) in UM.
  split; [exists e0; split; [exact (bu_made _ _ _ _ _ B)|exact H]|]. split; [unfold limits; rewrite Um, UM; lra|].
  split; [|rewrite KD, KH, KR, Z1, Z2; repeat split; [apply (bu_dt _ _ _ _ _ B)|apply (bu_hor _ _ _ _ _ B)|apply (bu_res _ _ _ _ _ B)|apply (bu_size _ _ _ _ _ B)|apply (bu_batch _ _ _ _ _ B)]].
  pose proof (bu_model _ _ _ _ _ B) as M. unfold node_model in *. rewrite KM, Um, UM, <- (bu_umin _ _ _ _ _ B), <- (bu_umax _ _ _ _ _ B). exact M.
Qed.
Lemma node_steps om p n l e0 e : built om p n l e0 -> sane_limits om p -> sane_times p -> history e0 e ->
  (2 <= ec_steps e)%Z /\ IZR (ec_steps e) * pa_ec_dt p <= pa_ec_horizon p < (IZR (ec_steps e) + 1) * pa_ec_dt p.
Proof.
  intros B S ((D & H0) & _) H. destruct (node_history _ _ _ _ _ _ B S H) as (Rch & _ & _ & ED & EH & _). pose proof (reachable_inv _ Rch) as I.
  pose proof (i_steps _ I) as N. pose proof (i_not1 _ I) as N1. rewrite ED, EH in N. destruct (c27_steps (pa_ec_dt p) (pa_ec_horizon p) (ec_steps e) ltac:(lra) N) as [Z Q].
  rewrite !Rabs_pos_eq in Q by lra. split; [|exact Q]. assert (0 < ec_steps e)%Z; [|lia]. apply lt_IZR. apply Rnot_le_lt. intros Ng.
  assert (IZR (ec_steps e) * pa_ec_dt p <= 0) by (rewrite <- (Rmult_0_l (pa_ec_dt p)); apply Rmult_le_compat_r; lra). lra.
Qed.
Lemma reach_ok om p n l e0 g x V u dt h k : built om p n l e0 -> suitable p (nd_collision n) V x g -> speed u <= V -> 0 < dt -> 0 <= h <= Rmax (pa_val_horizon p) (pa_dwa_horizon p) ->
  num_steps dt h = Ok k -> forall q, In q (rollout (Z.to_nat k) dt u x) -> answers (nd_collision n) g q.
Proof.
  intros B (_ & PM & PR & SP & _) U D (H1 & H2) N q I. apply on_map_answers; try assumption.
  eapply rollout_on_map; [|exact SP| |exact I]; [lra|]. destruct (c27_steps dt h k ltac:(lra) N) as (Z & Q & _). rewrite !Rabs_pos_eq in * by lra.
  rewrite INR_IZR_INZ, Z2Nat.id by exact Z. rewrite (Rmult_comm V). apply Rle_trans with (h * speed u); [apply Rmult_le_compat_r; [apply speed_pos|exact Q]|].
  apply Rmult_le_compat; [lra|apply speed_pos|lra|exact U].
Qed.
Lemma msg_grid_extent (m : msg R) : let g := grid_of_msg m in g_xmax g - g_xmin g = IZR (g_xsize g) * g_res g /\ g_ymax g - g_ymin g = IZR (g_ysize g) * g_res g.
Proof. cbn. unfold axis_upper. cbn [nadd nmul nofZ RNum]. split; ring. Qed.
Lemma plan_total om p n l0 e0 V (l : loop R) lk o : built om p n l0 e0 -> sane_sizes p -> sane_limits om p -> sane_times p -> running_ok om p e0 l ->
  let x := stage_lookup l lk in
  suitable p (nd_collision n) V (lp_pose x) (se_plan o) -> drawable (ec_buffer (lp_ec x)) (se_draws o) ->
  exists l1 out1, stage_plan (stage_count n x) o = Ok (l1, out1) /\ running_ok om p e0 l1 /\ lp_pose l1 = lp_pose x.
Proof.
  intros B Zs S Ti G x. assert (X : running_ok om p e0 x).
  { unfold x. destruct lk; [|exact G]. destruct G as [H U]. split; [|exact U]. cbn [stage_lookup lp_ec]. eapply history_snoc; [exact H|constructor]. }
  clearbody x. clear G l. intros Su Dr. destruct X as [H U].
  assert (K : lp_ec (stage_count n x) = lp_ec x /\ lp_pose (stage_count n x) = lp_pose x /\ lp_u (stage_count n x) = lp_u x).
  { unfold stage_count. destruct (lp_follow x); repeat split. }
  destruct K as (K1 & K2 & K3). unfold stage_plan. destruct (lp_follow (stage_count n x)).
  { exists (stage_count n x), []. split; [reflexivity|]. unfold running_ok. rewrite K1, K3. auto. }
  rewrite K1, K2. destruct (node_history _ _ _ _ _ _ B S H) as (Rch & Lm & M & ED & EH & ER & ES & EB).
  destruct (node_steps _ _ _ _ _ _ B S Ti H) as (St & _). destruct Su as ((m & Gm) & PM & PR & SP & NZ & Sz).
  pose proof (msg_grid_extent m) as (Ex & Ey). rewrite <- Gm in Ex, Ey. destruct PM as (Rp & (Cx & Cy & _) & _).
  assert (0 < IZR (g_xsize (se_plan o))) by (apply IZR_lt; lia). assert (0 < IZR (g_ysize (se_plan o))) by (apply IZR_lt; lia).
  assert (0 < IZR (g_xsize (se_plan o)) * g_res (se_plan o)) by (apply Rmult_lt_0_compat; assumption).
  assert (0 < IZR (g_ysize (se_plan o)) * g_res (se_plan o)) by (apply Rmult_lt_0_compat; assumption).
  destruct Zs as (_ & Zs & Zb). destruct Ti as (_ & Tr & _).
  destruct (ErgodicSystem.control_defined (lp_ec x) (se_plan o) (lp_pose x) (se_draws o) Rch Lm M St) as (u & e' & C); rewrite ?ER, ?ES, ?EB, ?Ex, ?Ey; try lra; try lia; try assumption.
  rewrite C. cbn [bind]. destruct (history_control _ _ _ _ _ _ _ _ _ _ _ B S H C) as [H' U']. destruct (node_history _ _ _ _ _ _ B S H') as (Rch' & Lm' & M' & _).
  destruct (traj_defined e' Rch' Lm' M') as (ref & T & _). pose proof (path_defined e' Rch') as PD. rewrite T in PD. destruct (ec_path e') as [pth| | |]; try discriminate.
  cbn [bind]. do 2 eexists. split; [reflexivity|]. split; [split; [exact H'|exact U']|reflexivity].
Qed.
Lemma check_total om p n l0 e0 V (l : loop R) o : built om p n l0 e0 -> sane_limits om p -> sane_times p -> running_ok om p e0 l ->
  (forall u, in_box (lower om p) (upper om p) u -> speed u <= V) -> recoverable om p (se_vb o) ->
  suitable p (nd_collision n) V (lp_pose l) (se_valid o) -> suitable p (nd_collision n) V (lp_pose l) (se_dwa o) ->
  exists l1 out1, stage_check n l o = Ok (l1, out1).
Proof.
  intros B S Ti (H & U) HV Rv Su1 Su2. pose proof Ti as ((D & H0) & _ & Dd & (Dh1 & Dh2) & Vd & (Vh1 & Vh2)). unfold stage_check.
  destruct (c27_defined (pa_val_dt p) (pa_val_horizon p) ltac:(lra)) as (kv & Nv); [rewrite !Rabs_pos_eq by lra; exact Vh2|].
  pose proof (bu_col _ _ _ _ _ B) as BC. pose proof (bu_ddt _ _ _ _ _ B) as BD. pose proof (bu_dhor _ _ _ _ _ B) as BH. pose proof (bu_steps _ _ _ _ _ B) as BS.
  assert (R1 : forall q, In q (rollout (Z.to_nat kv) (pa_val_dt p) (lp_u l) (lp_pose l)) -> answers (nd_collision n) (se_valid o) q).
  { eapply reach_ok; [exact B|exact Su1|apply HV, U|exact Vd| |exact Nv]. split; [exact Vh1|apply Rmax_l]. }
  assert (R2 : forall v q, sampled (nd_dwa n) (se_vb o) v -> In q (rollout (Z.to_nat (dw_steps (nd_dwa n))) (dw_dt (nd_dwa n)) v (lp_pose l)) ->
    answers (dw_collision (nd_dwa n)) (se_dwa o) q).
  { intros v q Sv. rewrite BC, BD. eapply reach_ok; [exact B|exact Su2|apply HV; eapply sampled_box; eauto|exact Dd| |exact BS]. split; [exact Dh1|apply Rmax_r]. }
  unfold validate_control. rewrite (bu_vdt _ _ _ _ _ B), (bu_vhor _ _ _ _ _ B), Nv. cbn [bind].
  pose proof (validate_total (nd_collision n) (se_valid o) (lp_u l) (pa_val_dt p) (Z.to_nat kv) (lp_pose l)) as VT.
  specialize (VT ltac:(apply Forall_forall; exact R1)). destruct (validate_loop _ _ _ _ _ _) as [[|]| | |]; try discriminate; cbn [bind]; [eauto|].
  destruct (lp_follow l).
  - pose proof (control_total (nd_dwa n) (se_dwa o) (lp_pose l) (se_vb o) (lp_u l) R2) as CT. destruct (dwa_control _ _ _ _ _) as [[b v]| | |]; try discriminate. cbn [bind]. eauto.
  - destruct (node_history _ _ _ _ _ _ B S H) as (Rch & Lm & M & ED & _). destruct (traj_defined _ Rch Lm M) as (ref & T & LT). rewrite T. cbn [bind].
    destruct (node_steps _ _ _ _ _ _ B S Ti H) as (St & Q1 & Q2). pose proof (steps_range _ _ _ (i_steps _ (reachable_inv _ Rch))) as SR.
    assert (F : is_ok (dwa_follow (nd_dwa n) (se_dwa o) (lp_pose l) (se_vb o) ref (ec_dt (lp_ec l))) = true).
    { apply c54_follow; rewrite ?LT, ?ED, ?BD; try lra; try lia.
      - destruct (c27_steps (pa_dwa_dt p) (pa_dwa_horizon p) _ ltac:(lra) BS) as (_ & K & _). rewrite !Rabs_pos_eq in K by lra. lra.
      - rewrite BD in R2. exact R2. }
    destruct (dwa_follow _ _ _ _ _ _) as [[[|] v]| | |]; try discriminate; cbn [bind]; [|eauto].
    unfold constTwistPath. rewrite BD, BH, BS. cbn [bind]. eauto.
Qed.
Lemma c77 om p n l0 evs s l V lk draws t m0 m1 m2 m3 : sane_sizes p -> sane_limits om p -> sane_times p -> node_of om p = Ok (Some (n, l0)) ->
  (forall u, in_box (lower om p) (upper om p) u -> speed u <= V) ->
  exec n shared_init l0 evs s l -> callbacks m0 s (mo_test t) -> callbacks m1 (mo_test t) (mo_plan t) -> callbacks m2 (mo_plan t) (mo_check t) ->
  callbacks m3 (mo_check t) (mo_dwa t) -> odometry_ok om p (messages evs ++ m0 ++ m1 ++ m2 ++ m3) ->
  let x := last_pose (lp_pose l) [lk] in
  suitable p (nd_collision n) V x (sh_grid (mo_plan t)) -> suitable p (nd_collision n) V x (sh_grid (mo_check t)) ->
  suitable p (nd_collision n) V x (sh_grid (mo_dwa t)) -> drawable (ec_buffer (lp_ec (stage_lookup l lk))) draws ->
  exists l' out, ExplorationModel.body n l (view lk draws t) = Ok (l', out).
Proof.
  intros Zs S Ti N HV X C0 C1 C2 C3 O x Su1 Su2 Su3 Dr. destruct (node_built _ _ _ _ Zs N) as (e0 & B). rewrite !ok_app in O. destruct O as (O & O0 & O1 & O2 & O3).
  destruct (exec_ok _ _ _ _ _ _ _ _ _ _ B S X O (wide_init _ _ S) (built_ok _ _ _ _ _ B S)) as (W & G).
  assert (W3 : wide om p (mo_dwa t)) by (do 4 (eapply wide_callbacks; [eassumption|assumption|]); exact W).
  assert (E : x = lp_pose (stage_lookup l lk)) by (symmetry; apply lookup_pose). rewrite E in *. clear E x.
  unfold ExplorationModel.body. cbn [view se_lookup se_recv]. destruct (_ && _)%bool; [|eauto].
  destruct (plan_total om p n l0 e0 V l lk (view lk draws t) B Zs S Ti G Su1 Dr) as (l1 & out1 & P & G1 & Q). fold (view lk draws t). rewrite P. cbn [bind].
  rewrite <- Q in Su2, Su3. destruct (check_total om p n l0 e0 V l1 (view lk draws t) B S Ti G1 HV (proj1 W3) Su2 Su3) as (l2 & out2 & K). rewrite K. cbn [bind]. eauto.
Qed.

(** ** Whole maps *)
Definition whole_map (ms : list (message R)) (s : shared R) : Prop :=
  (settled s /\ (sh_recv s = true -> exists m, In (MMap m) ms /\ sh_grid s = grid_of_msg m)) \/
  (exists m k, In (MMap m) ms /\ (k < 9)%nat /\ sh_todo s = skipn k (map_writes m) /\ fold_left (fun g w => write_grid w g) (sh_todo s) (sh_grid s) = grid_of_msg m).
Lemma whole_write ms s w rest : whole_map ms s -> sh_todo s = w :: rest -> whole_map ms (do_write w rest s).
Proof.
  intros [(S & Q)|(m & k & I & K & T & F)] E.
  - left. unfold settled in *. rewrite E in S. inversion S as [|? ? S1 S2]; subst. split; [exact S2|]. destruct w; try contradiction; exact Q.
  - destruct (Nat.eq_dec k 8) as [->|Hk].
    + left. rewrite T in E. cbn in E. injection E as <- <-. split; [constructor|]. intros _. exists m. split; [exact I|]. rewrite T in F. exact F.
    + right. exists m, (S k). split; [exact I|]. split; [lia|]. rewrite E in F. split; [|exact F]. cbn [do_write sh_todo].
      rewrite T in E. do 8 (destruct k as [|k]; [cbn in E; injection E as <- <-; reflexivity|]). lia.
Qed.
Lemma whole_start ms s m : whole_map ms s -> sh_todo s = [] -> whole_map (ms ++ [m]) (mkShared (sh_grid s) (sh_recv s) (sh_vb s) (writes_of m)).
Proof.
  intros W E. destruct m as [m|v]; cbn [writes_of].
  - right. exists m, 0%nat. split; [apply in_or_app; right; left; reflexivity|]. split; [lia|]. split; reflexivity.
  - left. split; [repeat constructor|]. cbn [sh_recv sh_grid]. intros R. destruct W as [(_ & Q)|(m & k & _ & K & T & _)].
    + destruct (Q R) as (m & I & G). exists m. split; [apply in_or_app; auto|exact G].
    + rewrite E in T. do 9 (destruct k as [|k]; [discriminate|]). lia.
Qed.
Lemma whole_callbacks ms s s' : callbacks ms s s' -> forall h, whole_map h s -> whole_map (h ++ ms) s'.
Proof.
  induction 1 as [s|m ms s s' E C IH|w rest ms s s' E C IH]; intros h X.
  - rewrite app_nil_r. exact X.
  - replace (h ++ m :: ms) with ((h ++ [m]) ++ ms) by (rewrite <- app_assoc; reflexivity). apply IH, whole_start; auto.
  - apply IH, whole_write; auto.
Qed.
Lemma whole_exec n s l evs s' l' : exec n s l evs s' l' -> forall h, whole_map h s -> whole_map (h ++ messages evs) s'.
Proof.
  induction 1 as [s l|s l e s1 evs s' l' I P X IH]; intros h E; [rewrite app_nil_r; exact E|].
  apply iteration_callbacks in I. destruct I as (C1 & rest & C2 & <-). unfold messages. cbn [flat_map]. rewrite app_assoc. apply IH.
  rewrite app_assoc. eapply whole_callbacks; [exact C2|]. eapply whole_callbacks; eauto.
Qed.
Lemma c77_whole n l0 evs s l ms s' : exec n shared_init l0 evs s l -> callbacks ms s s' -> sh_recv s' = true -> settled s' ->
  exists m, In (MMap m) (messages evs ++ ms) /\ sh_grid s' = grid_of_msg m.
Proof.
  intros X C Rc S. assert (W : whole_map [] (@shared_init R RNum)) by (left; split; [constructor|discriminate]).
  pose proof (whole_callbacks _ _ _ C _ (whole_exec _ _ _ _ _ _ X _ W)) as [(_ & Q)|(m & k & _ & K & T & _)]; [exact (Q Rc)|].
  exfalso. unfold settled in S. rewrite T in S. do 9 (destruct k as [|k]; [inversion S; contradiction|]). lia.
Qed.

(** ** C76 *)
Lemma c76 om p n l0 evs s l g x vb ref : sane_sizes p -> sane_limits om p -> sane_times p -> node_of om p = Ok (Some (n, l0)) ->
  exec n shared_init l0 evs s l -> odometry_ok om p (messages evs) -> optTraj (lp_ec l) = Ok ref ->
  (forall u q, sampled (nd_dwa n) vb u -> In q (rollout (Z.to_nat (dw_steps (nd_dwa n))) (dw_dt (nd_dwa n)) u x) ->
     is_ok (collisionCheck (dw_collision (nd_dwa n)) g (v0 q) (v1 q)) = true) ->
  is_ok (dwa_follow (nd_dwa n) g x vb ref (ec_dt (lp_ec l))) = true.
Proof.
  intros Zs S Ti N X O T A. destruct (node_built _ _ _ _ Zs N) as (e0 & B).
  destruct (exec_ok _ _ _ _ _ _ _ _ _ _ B S X O (wide_init _ _ S) (built_ok _ _ _ _ _ B S)) as (_ & H & _).
  pose proof Ti as ((D & H0) & _ & Dd & (Dh1 & Dh2) & _). pose proof (bu_ddt _ _ _ _ _ B) as BD. pose proof (bu_steps _ _ _ _ _ B) as BS.
  destruct (node_history _ _ _ _ _ _ B S H) as (Rch & Lm & M & ED & _). destruct (traj_defined _ Rch Lm M) as (ref' & T' & LT). rewrite T in T'. apply Ok_eq in T'. subst ref'.
  destruct (node_steps _ _ _ _ _ _ B S Ti H) as (St & Q1 & Q2). pose proof (steps_range _ _ _ (i_steps _ (reachable_inv _ Rch))) as SR.
  apply c54_follow; rewrite ?LT, ?ED, ?BD; try lra; try lia.
  - destruct (c27_steps (pa_dwa_dt p) (pa_dwa_horizon p) _ ltac:(lra) BS) as (_ & K & _). rewrite !Rabs_pos_eq in K by lra. lra.
  - rewrite BD in A. exact A.
Qed.

(** ** C79 *)
Lemma Rltb_spec a b : BoolSpec (a < b) (b <= a) (Rltb a b).
Proof. unfold Rltb. destruct (Rlt_dec a b); constructor; lra. Qed.
Lemma steps_iff dt h : dt <> 0 -> ((exists n, num_steps dt h = Ok n) <-> Rabs h < 4294967296 * Rabs dt).
Proof.
  intros D. split; [|apply c27_defined; exact D]. intros (n & N). pose proof (steps_range _ _ _ N) as (_ & L). destruct (c27_steps dt h n D N) as (_ & _ & U).
  assert (IZR n + 1 <= 4294967296) by (rewrite <- plus_IZR; apply IZR_le; change two32 with 4294967296%Z in L; lia).
  assert (0 < Rabs dt) by (apply Rabs_pos_lt; exact D). nra.
Qed.
Lemma weight_iff (p : params R) k : (exists w, weight_at p k = Ok w) <-> (k < length (pa_weights p))%nat.
Proof.
  unfold weight_at. rewrite <- nth_error_Some. destruct (nth_error _ k) eqn:E; split; try congruence; try eauto.
  intros (w & W). discriminate.
Qed.
Lemma gaussians_iff (l : list ((R * R) * (R * R))) : (exists t, gaussians_of l = Ok t) <-> Forall (fun g => fst (snd g) <> 0 /\ snd (snd g) <> 0) l.
Proof.
  induction l as [|[mu [sx sy]] l IH]; [split; [constructor|cbn; eauto]|]. cbn [gaussians_of]. split.
  - intros (t & H). destruct (Req_EM_T sx 0) as [X|X]; [rewrite gaussian_throws in H by auto; discriminate|].
    destruct (Req_EM_T sy 0) as [Y|Y]; [rewrite gaussian_throws in H by auto; discriminate|]. constructor; [split; assumption|].
    apply IH. rewrite gaussian_ok in H by assumption. cbn [bind] in H. destruct (gaussians_of l); try discriminate. eauto.
  - intros F. inversion F as [|? ? (X & Y) F']; subst. cbn [fst snd] in *. rewrite gaussian_ok by assumption. cbn [bind].
    destruct (proj2 IH F') as (t & T). rewrite T. cbn [bind]. eauto.
Qed.
Lemma collision_iff (b s o t : R) : (exists c, collision_ctor b s o t = Ok c) <-> b <= s /\ 0 <= t <= 100.
Proof.
  unfold collision_ctor, n0. cbn [nlt nofZ RNum]. destruct (Rltb_spec s b); [split; [intros (c & HH); discriminate|lra]|].
  destruct (Rltb_spec 100 t); [split; [intros (c & HH); discriminate|lra]|]. destruct (Rltb_spec t 0); [split; [intros (c & HH); discriminate|lra]|].
  cbn [orb]. split; [lra|eauto].
Qed.
Lemma basis_iff nb : (0 <= nb)%Z -> (exists b, basis_ctor (n0 : R) n0 nb = Ok b) <-> (nb * nb < 2 ^ 31)%Z.
Proof.
  intros N. unfold basis_ctor. change two31 with (2 ^ 31)%Z. destruct (Z.ltb_spec (nb * nb) (2 ^ 31)); [split; [auto|eauto]|].
  split; [|lia]. intros (b & B). destruct (_ && _)%bool in B; discriminate.
Qed.
Lemma ctor_iff m dt h r w nb size batch Ri (umin umax : vec3 R) : dt <> 0 -> (0 <= nb)%Z ->
  (exists e, ec_ctor m dt h r w nb size batch Ri umin umax = Ok e) <->
  Rabs h < 4294967296 * Rabs dt /\ ~ (Rabs dt <= Rabs h < 2 * Rabs dt) /\ (nb * nb < 2 ^ 31)%Z.
Proof.
  intros D N. unfold ec_ctor. assert (0 < Rabs dt) by (apply Rabs_pos_lt; exact D). split.
  - intros (e & E). destruct (num_steps dt h) as [k| | |] eqn:K; cbn [bind] in E; try discriminate.
    split; [apply steps_iff; eauto|]. destruct (basis_ctor _ _ _) as [bs| | |] eqn:B; cbn [bind] in E; try discriminate.
    split; [|apply basis_iff; eauto]. destruct (Z.eqb_spec k 1) as [->|K1]; [discriminate|]. intros Q. apply K1.
    destruct (c27_steps dt h k D K) as (K0 & L & U). assert (k < 2)%Z by (apply lt_IZR, Rmult_lt_reg_r with (Rabs dt); lra).
    assert (0 < k)%Z; [|lia]. apply lt_IZR. assert (0 < IZR k + 1 - 0) by (assert (0 <= IZR k) by (apply IZR_le; exact K0); lra). assert (1 < IZR k + 1); [|lra]. apply Rmult_lt_reg_r with (Rabs dt); lra.
  - intros (A & B & C). destruct (proj2 (steps_iff dt h D) A) as (k & K). rewrite K. cbn [bind]. destruct (proj2 (basis_iff nb N) C) as (bs & Bs). rewrite Bs. cbn [bind].
    destruct (Z.eqb_spec k 1) as [->|K1]; [|eauto]. exfalso. apply B. destruct (c27_steps dt h 1 D K) as (_ & L & U). lra.
Qed.
Lemma start_iff model Ri umin umax ay My my vy (p : params R) : pa_ec_dt p <> 0 -> pa_dwa_dt p <> 0 -> (0 <= pa_num_basis p)%Z ->
  (exists n l, start model Ri umin umax ay My my vy p = Ok (Some (n, l))) <->
  Forall (fun g => fst (snd g) <> 0 /\ snd (snd g) <> 0) (pa_gaussians p) /\
  pa_boundary_radius p <= pa_search_radius p /\ 0 <= pa_occupied_threshold p <= 100 /\
  Rabs (pa_ec_horizon p) < 4294967296 * Rabs (pa_ec_dt p) /\
  ~ (Rabs (pa_ec_dt p) <= Rabs (pa_ec_horizon p) < 2 * Rabs (pa_ec_dt p)) /\
  (pa_num_basis p * pa_num_basis p < 2 ^ 31)%Z /\
  Rabs (pa_dwa_horizon p) < 4294967296 * Rabs (pa_dwa_dt p) /\
  pa_dwa_horizon p <= pa_ec_horizon p.
Proof.
  intros D1 D2 N. unfold start. rewrite <- gaussians_iff. split.
  - intros (n & l & H). destruct (gaussians_of _) as [t| | |]; cbn [bind] in H; try discriminate. split; [eauto|].
    destruct (collision_ctor _ _ _ _) as [c| | |] eqn:C; cbn [bind] in H; try discriminate.
    destruct (proj1 (collision_iff _ _ _ _) (ex_intro _ c C)) as (C1 & C2). split; [exact C1|]. split; [exact C2|].
    destruct (ec_ctor _ _ _ _ _ _ _ _ _ _ _) as [e| | |] eqn:E; cbn [bind] in H; try discriminate.
    destruct (proj1 (ctor_iff _ _ _ _ _ _ _ _ _ _ _ D1 N) (ex_intro _ e E)) as (E1 & E2 & E3). do 3 (split; [assumption|]).
    unfold dwa_ctor in H. destruct (num_steps (pa_dwa_dt p) _) as [k| | |] eqn:K; cbn [bind] in H; try discriminate.
    split; [apply steps_iff; eauto|]. cbn [nlt RNum] in H. destruct (Rltb_spec (pa_ec_horizon p) (pa_dwa_horizon p)); [discriminate|lra].
  - intros ((t & T) & C1 & C2 & E1 & E2 & E3 & K & L). rewrite T. cbn [bind].
    destruct (proj2 (collision_iff _ _ (pa_obstacle_threshold p) _) (conj C1 C2)) as (c & C). rewrite C. cbn [bind].
    destruct (proj2 (ctor_iff model (pa_ec_dt p) (pa_ec_horizon p) (pa_target_resolution p) (pa_expl_weight p) (pa_num_basis p) (pa_buffer_size p) (pa_batch_size p) Ri umin umax D1 N) (conj E1 (conj E2 E3))) as (e & E).
    rewrite E. cbn [bind]. unfold dwa_ctor. destruct (proj2 (steps_iff _ _ D2) K) as (k & Kk). rewrite Kk. cbn [bind nlt RNum].
    destruct (Rltb_spec (pa_ec_horizon p) (pa_dwa_horizon p)); [lra|eauto].
Qed.
Lemma c79 om (p : params R) : pa_ec_dt p <> 0 -> pa_dwa_dt p <> 0 -> (0 <= pa_num_basis p)%Z ->
  (exists n l, node_of om p = Ok (Some (n, l))) <-> startable om p.
Proof.
  intros D1 D2 N. unfold startable. destruct om; unfold node_of, omni_node, cart_node; split.
  - intros (n & l & H). destruct (weight_at p 0); cbn [bind] in H; try discriminate. destruct (weight_at p 1); cbn [bind] in H; try discriminate.
    destruct (weight_at p 2) as [w| | |] eqn:W; cbn [bind] in H; try discriminate.
    split; [exact (proj1 (weight_iff p 2) (ex_intro _ w W))|]. eapply start_iff; eauto.
  - intros (L & H). destruct (proj2 (weight_iff p 0) ltac:(lia)) as (w0 & ->). destruct (proj2 (weight_iff p 1) ltac:(lia)) as (w1 & ->).
    destruct (proj2 (weight_iff p 2) ltac:(lia)) as (w2 & ->). cbn [bind]. apply start_iff; assumption.
  - intros (n & l & H). destruct (weight_at p 0); cbn [bind] in H; try discriminate. destruct (weight_at p 1) as [w| | |] eqn:W; cbn [bind] in H; try discriminate.
    split; [exact (proj1 (weight_iff p 1) (ex_intro _ w W))|]. eapply start_iff; eauto.
  - intros (L & H). destruct (proj2 (weight_iff p 0) ltac:(lia)) as (w0 & ->). destruct (proj2 (weight_iff p 1) ltac:(lia)) as (w1 & ->).
    cbn [bind]. apply start_iff; assumption.
Qed.
