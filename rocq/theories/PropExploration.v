(** Properties C63 - C68: the exploration loop.  [exec] and [event] are defined in ExplorationModel.v; the notions
    used to describe them in SpecExploration.v. *)
From Coq Require Import ZArith List Bool.
From Flocq Require Import IEEE754.BinarySingleNaN.
From Verif Require Import Outcome Num Float64 GridModel CollisionModel NumericsModel BufferModel DwaModel ErgodicModel ExplorationModel
  SpecDwa SpecExploration ExplorationProofs PropMappingAux PropDwaAux PropExplorationAux.
Import ListNotations.
Local Open Scope Z_scope.

(** ** C63 *)
Theorem C63_nothing_before : forall (T : Type) (NT : Num T) n ec0 t evs (s : shared T) l k e,
  exec n shared_init (loop_init ec0 t) evs s l -> nth_error evs k = Some e -> commands (ev_out e) <> [] ->
  (exists j e', (j <= k)%nat /\ nth_error evs j = Some e' /\ ev_lookup e' <> None) /\
  exists m, In (MMap m) (messages (firstn k evs) ++ ev_early e).
Proof. exact (fun T NT => c63_before). Qed.
Print Assumptions C63_nothing_before.
Theorem C63_always_after : forall (T : Type) (NT : Num T) n ec0 t evs1 (s1 : shared T) l1 evs2 s2 l2 e,
  exec n shared_init (loop_init ec0 t) evs1 s1 l1 -> exec n s1 l1 evs2 s2 l2 ->
  (exists e', In e' evs1 /\ ev_lookup e' <> None) -> map_processed (messages evs1) s1 -> In e evs2 ->
  length (commands (ev_out e)) = 1%nat.
Proof. exact (fun T NT => c63_after). Qed.
Print Assumptions C63_always_after.
(** The callbacks, when they have returned, have the effect of their messages. *)
Theorem C63_callbacks : forall (T : Type) (NT : Num T) (s s' : shared T), sh_todo s = [] -> sh_todo s' = [] ->
  (forall m, callbacks [MMap m] s s' -> sh_grid s' = grid_of_msg m /\ sh_recv s' = true /\ sh_vb s' = sh_vb s) /\
  (forall v, callbacks [MOdom v] s s' -> sh_vb s' = v /\ sh_recv s' = sh_recv s /\ sh_grid s' = sh_grid s).
Proof. exact (fun T NT s s' A B => conj (fun m H => map_callback s s' m H A B) (fun v H => odom_callback s s' v H A B)). Qed.
Print Assumptions C63_callbacks.
(** A lookup, then a map: nothing is published in the first iteration, one twist in each of the next two. *)
Example C63_example : exists n l evs s l', @cart_node b64 NN usual = Ok (Some (n, l)) /\
  @exec b64 NN n (@shared_init b64 NN) l evs s l' /\ map cmds evs = [0; 1; 1]%nat.
Proof.
  destruct (scene_exec _ _ _ wait_run) as (n & l & evs & s & l' & C & X & _ & R). exists n, l, evs, s, l'. split; [exact C|]. split; [exact X|].
  destruct (map cmds evs) as [|[|] [|[|[|]] [|[|[|]] [|]]]]; try discriminate; reflexivity.
Qed.

(** ** C64 *)
Theorem C64_checked_or_zero : forall (L : libm) (n : node b64) s l evs s' l' e u,
  @exec b64 (F64 L) n s l evs s' l' -> In e evs -> In (Cmd u) (ev_out e) ->
  @passes b64 (F64 L) n (check_map e) (ev_pose e) u \/
  (@safe b64 (F64 L) (nd_dwa n) (dwa_map e) (ev_pose e) u /\ @sampled b64 (F64 L) (nd_dwa n) (dwa_vb e) u) \/
  u = V3 (b64_ofZ 0) (b64_ofZ 0) (b64_ofZ 0).
Proof. exact c64_64. Qed.
Print Assumptions C64_checked_or_zero.
(** The first case with a twist that moves the robot, the second (C65), and the third (C66) occur: *)
Example C64_example : exists n l evs s l' e u, @exec b64 NN n (@shared_init b64 NN) l evs s l' /\ In e evs /\
  In (Cmd u) (ev_out e) /\ @passes b64 NN n (check_map e) (ev_pose e) u /\ B2SF (v0 u) = B2SF (b64_ofZ (-1)).
Proof. exact moving_exec. Qed.

(** ** C65 *)
(** After a take-over with twist [v], at most [turns n - 1] iterations do not plan, where [turns n] is the number of
    steps of the window (or 2^32 for 0).  All of them publish [v] after checking it, except possibly the last one,
    for which a collision is predicted. *)
Theorem C65_following_is_bounded : forall (T : Type) (NT : Num T) n (s : shared T) l ev evs rest s' l' v,
  0 <= dw_steps (nd_dwa n) < two32 -> exec n s l (ev :: evs ++ rest) s' l' -> took_over ev -> In (Cmd v) (ev_out ev) ->
  (forall e, In e evs -> ~ planned e) -> Z.of_nat (length evs) <= turns n - 1 /\
  forall pre e post, evs = pre ++ e :: post ->
    (ev_out e = [Cmd v] /\ passes n (check_map e) (ev_pose e) v) \/ (post = [] /\ hits n (check_map e) (ev_pose e) v).
Proof. exact (fun T NT => c65_bound). Qed.
Print Assumptions C65_following_is_bounded.
(** As long as the checks pass the bound is reached, and then the controller plans. *)
Theorem C65_bound_is_reached : forall (T : Type) (NT : Num T) n (s : shared T) l ev evs rest s' l' v,
  0 <= dw_steps (nd_dwa n) < two32 -> exec n s l (ev :: evs ++ rest) s' l' -> took_over ev -> In (Cmd v) (ev_out ev) ->
  (forall e, In e evs -> passes n (check_map e) (ev_pose e) v) -> Z.of_nat (length evs) <= turns n - 1 ->
  (forall e, In e evs -> ev_out e = [Cmd v]) /\
  (Z.of_nat (length evs) = turns n - 1 -> forall e rest', rest = e :: rest' -> planned e).
Proof. exact (fun T NT => c65_exact). Qed.
Print Assumptions C65_bound_is_reached.
(** A take-over, one repetition (the window has two steps), a plan: *)
Example C65_example : exists n l e1 e2 e3 s l', @exec b64 NN n (@shared_init b64 NN) l [e1; e2; e3] s l' /\
  0 <= dw_steps (nd_dwa n) < two32 /\ turns n = 2 /\ took_over e1 /\ ~ planned e2 /\ planned e3.
Proof. exact follow_exec. Qed.

(** ** C66 *)
Theorem C66_replans : forall (T : Type) (NT : Num T) n (s : shared T) l e1 e2 rest s' l' v,
  exec n s l (e1 :: e2 :: rest) s' l' -> In (Cmd v) (ev_out e1) -> ~ took_over e1 ->
  planned e1 \/ hits n (check_map e1) (ev_pose e1) (lp_u (ev_pre e1)) -> planned e2.
Proof. exact (fun T NT => c66_next). Qed.
Print Assumptions C66_replans.
(** If the twist of the controller did not pass and every sample collides, the robot is stopped and the controller
    plans in the next iteration. *)
Theorem C66_nothing_found : forall (L : libm) (n : node b64) s l e1 e2 rest s' l' v,
  @exec b64 (F64 L) n s l (e1 :: e2 :: rest) s' l' -> In (Cmd v) (ev_out e1) ->
  ~ @passes b64 (F64 L) n (check_map e1) (ev_pose e1) v ->
  (forall u, @sampled b64 (F64 L) (nd_dwa n) (dwa_vb e1) u -> @collides b64 (F64 L) (nd_dwa n) (dwa_map e1) (ev_pose e1) u) ->
  v = V3 (b64_ofZ 0) (b64_ofZ 0) (b64_ofZ 0) /\ planned e2.
Proof. exact c66_stuck. Qed.
Print Assumptions C66_nothing_found.
Example C66_example : exists n l e1 e2 s l' u, @exec b64 NN n (@shared_init b64 NN) l [e1; e2] s l' /\
  In (Cmd u) (ev_out e1) /\ eqb_vec u (V3 z0 z0 z0) = true /\ ~ took_over e1 /\ planned e1 /\ planned e2.
Proof. exact stuck_exec. Qed.

Example C66_example_following : exists n l e1 e2 e3 s l', @exec b64 NN n (@shared_init b64 NN) l [e1; e2; e3] s l' /\ took_over e1 /\
  ~ took_over e2 /\ ~ planned e2 /\ @hits b64 NN n (check_map e2) (ev_pose e2) (lp_u (ev_pre e2)) /\ planned e3.
Proof. exact fail_follow_exec. Qed.

(** ** C67 *)
Theorem C67_safe_when_published_refuted : exists (L : libm) p n ec0 t evs s l e u,
  @cart_node b64 (F64 L) p = Ok (Some (n, @loop_init b64 (F64 L) ec0 t)) /\
  @exec b64 (F64 L) n (@shared_init b64 (F64 L)) (@loop_init b64 (F64 L) ec0 t) evs s l /\ In e evs /\ In (Cmd u) (ev_out e) /\
  @passes b64 (F64 L) n (check_map e) (ev_pose e) u /\ @hits b64 (F64 L) n (map_at_publication e) (ev_pose e) u.
Proof. exact late_exec. Qed.
Print Assumptions C67_safe_when_published_refuted.
Theorem C67_half_updated_map_refuted : exists (L : libm) p n l m1 m2, @cart_node b64 (F64 L) p = Ok (Some (n, l)) /\
  m_width m1 * m_height m1 = lenZ (m_data m1) /\ m_width m2 * m_height m2 = lenZ (m_data m2) /\
  @fails b64 (F64 L) n (@shared_init b64 (F64 L)) l [MMap m1; MMap m2] (Throw EOutOfRange).
Proof. exact torn_fails. Qed.
Print Assumptions C67_half_updated_map_refuted.

(** ** C68 *)
Theorem C68_last_pose : forall (T : Type) (NT : Num T) n (s : shared T) l evs s' l' k e, exec n s l evs s' l' ->
  nth_error evs k = Some e -> ev_pose e = last_pose (lp_pose l) (map ev_lookup (firstn (S k) evs)).
Proof. exact (fun T NT => c68_pose). Qed.
Print Assumptions C68_last_pose.
Theorem C68_memory : forall (T : Type) (NT : Num T) n (s : shared T) l evs s' l', exec n s l evs s' l' ->
  ec_buffer (lp_ec l') = fold_left append (map to_col (looked_up (map ev_lookup evs))) (ec_buffer (lp_ec l)).
Proof. exact (fun T NT => c68_memory). Qed.
Print Assumptions C68_memory.
Theorem C68_stale_pose : forall (T : Type) (NT : Num T) n (s : shared T) l evs s' l', exec n s l evs s' l' ->
  sh_recv s = true -> lp_known l = true -> (forall e, In e evs -> ev_lookup e = None) ->
  ec_buffer (lp_ec l') = ec_buffer (lp_ec l) /\
  forall e, In e evs -> ev_pose e = lp_pose l /\ length (commands (ev_out e)) = 1%nat.
Proof. exact (fun T NT => c68_stale). Qed.
Print Assumptions C68_stale_pose.
(** The published trajectory starts from that pose. *)
Theorem C68_plans_from_it : forall (T : Type) (NT : Num T) n (s : shared T) l evs s' l' e p, exec n s l evs s' l' -> In e evs ->
  In (Traj p) (ev_out e) -> ec_pose (lp_ec (ev_post e)) = ev_pose e /\ ec_path (lp_ec (ev_post e)) = Ok p.
Proof. exact (fun T NT => c68_plan). Qed.
Print Assumptions C68_plans_from_it.
Example C68_example : exists n l evs s l' t, @exec b64 NN n (@shared_init b64 NN) l evs s l' /\
  map cmds evs = [1; 1; 1]%nat /\ map ev_lookup evs = [Some t; None; None] /\ lenZ (b_mem (ec_buffer (lp_ec l'))) = 1.
Proof. exact stale_exec. Qed.
