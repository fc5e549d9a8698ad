(** Concrete nodes for PropSystem: one over the reals, and binary64 runs of the cart node. *)
From Coq Require Import Reals ZArith List Bool Lia Lra.
From Flocq Require Import Core.Raux IEEE754.BinarySingleNaN.
From Verif Require Import Outcome Num Float64 GridModel CollisionModel NumericsModel BufferModel BasisModel RobotModel DwaModel ErgodicModel
  ExplorationModel Spec SpecMotion SpecRobot SpecDwa SpecErgodic SpecExploration SpecSystem
  MotionProofs DwaProofs ErgodicProofs ExplorationProofs PredictProofs ClearanceProofs SystemProofs PropMappingAux PropDwaAux PropExplorationAux.
Import ListNotations ExplorationModel.
Local Open Scope R_scope.
Ltac Zify.zify_post_hook ::= idtac.

(** ** A cart over the reals in a free yard of 10 by 10 *)
Definition pR : params R :=
  mkParams (1 / 2) 1 1 0 1 (-1) 0 (-1) 4 0 4 1 2 (1 / 2) (1 / 2) (1 / 2) 2 1 1 2 10 5 [1; 1]
    (1 / 2) 1 1 3 0 3 [((1, 5), (1, 1))].
Definition yard_msg : msg R := mkMsg 10 10 1 0 0 (repeat 0%Z 100).
Lemma pR_sizes : sane_sizes pR. Proof. unfold sane_sizes. cbn. lia. Qed.
Lemma pR_limits : sane_limits false pR.
Proof. unfold sane_limits, in_box. cbn. lra. Qed.
Lemma pR_times : sane_times pR. Proof. unfold sane_times. cbn. lra. Qed.
Lemma pR_startable : startable false pR.
Proof.
  unfold startable. cbn [pR pa_weights pa_gaussians pa_boundary_radius pa_search_radius pa_occupied_threshold pa_ec_horizon pa_ec_dt pa_num_basis pa_dwa_horizon pa_dwa_dt length].
  rewrite !Rabs_pos_eq by lra. split; [lia|]. split; [constructor; [cbn; lra|constructor]|]. repeat (split; [lra|]). split; [lia|]. lra.
Qed.
Lemma pR_node : exists n l, node_of false pR = Ok (Some (n, l)).
Proof. apply c79; [cbn; lra|cbn; lra|cbn; lia|exact pR_startable]. Qed.
Lemma pR_collision n l : node_of false pR = Ok (Some (n, l)) -> nd_collision n = bodyR.
Proof.
  unfold node_of, cart_node, start. destruct (weight_at _ 0); cbn [bind]; try discriminate. destruct (weight_at _ 1); cbn [bind]; try discriminate.
  destruct (gaussians_of _) as [t| | |]; cbn [bind]; try discriminate. destruct (collision_ctor _ _ _ _) as [c| | |] eqn:C; cbn [bind]; try discriminate.
  destruct (ec_ctor _ _ _ _ _ _ _ _ _ _ _) as [ec0| | |]; cbn [bind]; try discriminate. destruct (dwa_ctor _ _ _ _ _ _ _ _ _ _ _ _ _ _ _ _); cbn [bind]; try discriminate.
  destruct (nlt _ _); intros H; [discriminate|]. injection H as <- _. cbn [nd_collision].
  unfold collision_ctor in C. destruct (nlt _ _); [discriminate|]. destruct (_ || _)%bool; [discriminate|]. injection C as <-. reflexivity.
Qed.
Lemma pR_speed u : in_box (lower false pR) (upper false pR) u -> speed u <= 1.
Proof.
  intros (A & B & _). cbn in A, B. unfold speed. rewrite <- sqrt_1. apply sqrt_le_1_alt. nra.
Qed.
Definition tfR : transform R := mkTf (11 / 2) (11 / 2) (Q4 0 0 0 1).
Lemma pR_suitable n l : node_of false pR = Ok (Some (n, l)) -> suitable pR (nd_collision n) 1 (tf_pose tfR) (grid_of_msg yard_msg).
Proof.
  intros N. rewrite (pR_collision n l N). split; [exists yard_msg; reflexivity|]. split; [exact yard_proper|]. split; [exact body_radii|].
  split; [|split; [left; cbn; lra|cbn; lra]].
  cbn [pR pa_val_horizon pa_dwa_horizon]. rewrite Rmax_left by lra. apply space_near; cbn; lra.
Qed.
(** One iteration: odometry and the map arrive, the pose is known, a twist is published *)
Definition odomR : vec3 R := V3 (1 / 2) 0 (1 / 4).
Definition sR : shared R := deliver_all [MOdom odomR; MMap yard_msg] shared_init.
Definition momR : moments R := mkMoments sR sR sR sR sR.
Lemma sR_grid : sh_grid sR = grid_of_msg yard_msg. Proof. reflexivity. Qed.
Lemma sR_callbacks : callbacks [MOdom odomR; MMap yard_msg] shared_init sR /\ sh_todo sR = [].
Proof. apply deliver_all_callbacks. reflexivity. Qed.
Lemma odomR_ok : odometry_ok false pR [MOdom odomR; MMap yard_msg].
Proof. intros v [E|[E|[]]]; [|discriminate]. injection E as <-. unfold recoverable. cbn. lra. Qed.
Lemma pR_completes n l : node_of false pR = Ok (Some (n, l)) -> exists l' out, ExplorationModel.body n l (view (Some tfR) [] momR) = Ok (l', out).
Proof.
  intros N. pose proof (pR_suitable n l N) as Su. destruct sR_callbacks as [C _].
  apply (c77 false pR n l [] shared_init l 1 (Some tfR) [] momR [MOdom odomR; MMap yard_msg] [] [] []); try exact Su; try exact (cb_none _); try exact (exec_nil _ _ _).
  - exact pR_sizes.
  - exact pR_limits.
  - exact pR_times.
  - exact N.
  - exact pR_speed.
  - exact C.
  - exact odomR_ok.
  - cbn [stage_lookup lp_ec addStateMemory set_buffer ec_buffer]. destruct (node_built _ _ _ _ pR_sizes N) as (e0 & B).
    assert (E : ec_buffer (lp_ec l) = buffer_ctor 10 5).
    { clear - N. unfold node_of, cart_node, start in N. destruct (weight_at _ 0); cbn [bind] in N; try discriminate. destruct (weight_at _ 1); cbn [bind] in N; try discriminate.
      destruct (gaussians_of _) as [t| | |]; cbn [bind] in N; try discriminate. destruct (collision_ctor _ _ _ _) as [c| | |]; cbn [bind] in N; try discriminate.
      destruct (ec_ctor _ _ _ _ _ _ _ _ _ _ _) as [ec0| | |] eqn:E; cbn [bind] in N; try discriminate. destruct (dwa_ctor _ _ _ _ _ _ _ _ _ _ _ _ _ _ _ _); cbn [bind] in N; try discriminate.
      destruct (nlt _ _); [discriminate|]. injection N as _ <-. cbn [loop_init lp_ec setTarget set_target ec_buffer].
      apply ctor_inv in E; [|cbn; lia|cbn; unfold two32; lia]. destruct E as (_ & -> & _). reflexivity. }
    rewrite E. left. cbn. lia.
Qed.
Lemma pR_exec : exists n l evs s l' e u, node_of false pR = Ok (Some (n, l)) /\ exec n shared_init l evs s l' /\
  odometry_ok false pR (messages evs) /\ messages evs = [MOdom odomR; MMap yard_msg] /\ In e evs /\ In (Cmd u) (ev_out e).
Proof.
  destruct pR_node as (n & l & N). destruct (pR_completes n l N) as (l' & out & Bd). destruct sR_callbacks as [C _].
  pose proof (iteration_intro n shared_init (Some tfR) [] momR [MOdom odomR; MMap yard_msg] [] [] [] [] [] l l' sR out C (cb_none _) (cb_none _) (cb_none _) (cb_none _) (cb_none _) Bd) as It.
  set (e := mkEvent l l' (Some tfR) [] momR [MOdom odomR; MMap yard_msg] ([] ++ [] ++ [] ++ [] ++ []) out) in *.
  pose proof (iteration_commands _ _ _ _ It) as Cm. assert (K : lp_known (ev_post e) = true).
  { pose proof (body_pose _ _ _ _ _ (iteration_body _ _ _ _ It)) as (_ & K & _). rewrite K. reflexivity. }
  rewrite K in Cm. change (sh_recv (mo_test (ev_at e))) with true in Cm. cbn [andb] in Cm.
  exists n, l, [e], sR, l', e, (lp_u l'). split; [exact N|]. split; [econstructor; [exact It|reflexivity|constructor]|].
  split; [exact odomR_ok|]. split; [reflexivity|]. split; [left; reflexivity|].
  assert (I : In (lp_u l') (commands (ev_out e))) by (rewrite Cm; left; reflexivity). unfold commands in I.
  apply in_flat_map in I. destruct I as ([v| |] & I1 & I2); [destruct I2 as [->|[]]; exact I1|destruct I2..].
Qed.

(** ** binary64 *)
Definition fails_with (f : res (loop b64 * list (output b64)) -> bool) (p : params b64) (k : nat) (lk : option (transform b64)) : bool :=
  match @cart_node b64 NN p with
  | Ok (Some (n, l)) => let s := @deliver b64 NN (MM k) (@shared_init b64 NN) in f (@ExplorationModel.body b64 NN n l (view lk [] (mkMoments s s s s s)))
  | _ => false
  end.
Lemma fails_spec f p k lk : fails_with f p k lk = true -> exists n l r, @cart_node b64 NN p = Ok (Some (n, l)) /\ f r = true /\
  (is_ok r = false -> @fails b64 NN n (@shared_init b64 NN) l [MM k] r).
Proof.
  unfold fails_with. destruct (@cart_node b64 NN p) as [[[n l]|]| | |]; try discriminate. cbv zeta. set (s := @deliver b64 NN _ _). intros H.
  exists n, l, (@ExplorationModel.body b64 NN n l (view lk [] (mkMoments s s s s s))). split; [reflexivity|]. split; [exact H|]. intros Z.
  exists lk, [], (mkMoments s s s s s), [MM k], [], [], []. split; [apply deliver_callbacks; reflexivity|]. do 3 (split; [constructor|]). split; [reflexivity|]. split; [reflexivity|exact Z].
Qed.
(** C74: the prediction leaves the map on the left *)
Definition far_check : params b64 := params1 (b 2 0) (b 1 (-1)) (b 3 (-1)) (b 1 (-1)) (b 1 0).
Lemma leave_run : fails_with (fun r => match r with UB UFloatCast => true | _ => false end) far_check 200 (tf_at (b 13 (-3))) = true.
Proof. vm_compute. reflexivity. Qed.
Lemma leave_fails : exists (L : libm) p n l m, @cart_node b64 (F64 L) p = Ok (Some (n, l)) /\ Forall (fun v => v = 0%Z) (m_data m) /\
  @fails b64 (F64 L) n (@shared_init b64 (F64 L)) l [MMap m] (UB UFloatCast).
Proof.
  destruct (fails_spec _ _ _ _ leave_run) as (n & l & r & C & F & K). destruct r as [| |[]|]; try discriminate.
  exists node_libm, far_check, n, l, (map_msg 200). split; [exact C|]. split; [|apply K; reflexivity].
  apply Forall_forall. intros v I. cbn [map_msg m_data] in I. vm_compute in I. repeat (destruct I as [<-|I]; [reflexivity|]). destruct I.
Qed.
(** C76: the reference has fewer columns than the window needs *)
Definition short_ref : params b64 := params1 (b 1 0) (b 1 (-2)) (b 39 (-5)) (b 1 (-5)) (b 39 (-5)).
Lemma short_run : fails_with (fun r => match r with Throw EArma => true | _ => false end) short_ref 53 home = true.
Proof. vm_compute. reflexivity. Qed.
Lemma short_fails : exists (L : libm) p n l m, @cart_node b64 (F64 L) p = Ok (Some (n, l)) /\
  @nle b64 (F64 L) (pa_dwa_horizon p) (pa_ec_horizon p) = true /\
  @fails b64 (F64 L) n (@shared_init b64 (F64 L)) l [MMap m] (Throw EArma).
Proof.
  destruct (fails_spec _ _ _ _ short_run) as (n & l & r & C & F & K). destruct r as [|[]| |]; try discriminate.
  exists node_libm, short_ref, n, l, (map_msg 53). split; [exact C|]. split; [vm_compute; reflexivity|]. apply K. reflexivity.
Qed.
(** C75: odometry with a sideways velocity makes the cart node publish one *)
Lemma side_run : scene usual [([MM 53; MOdom (V3 z0 (b 1 (-3)) z0)], [], home)] (fun n evs s l => test1 (fun e => match commands (ev_out e) with
  [u] => Bltb z0 (v1 u) | _ => false end) evs) = true.
Proof. vm_compute. reflexivity. Qed.
Lemma side_exec : exists (L : libm) p n l evs s l' e u, @cart_node b64 (F64 L) p = Ok (Some (n, l)) /\
  @exec b64 (F64 L) n (@shared_init b64 (F64 L)) l evs s l' /\ In e evs /\ In (Cmd u) (ev_out e) /\ Bltb (B754_zero false) (v1 u) = true.
Proof.
  destruct (scene_exec _ _ _ side_run) as (n & l & evs & s & l' & C & X & _ & T). destruct evs as [|e [|]]; try discriminate. cbn [test1] in T.
  destruct (commands (ev_out e)) as [|u [|]] eqn:O; try discriminate. exists node_libm, usual, n, l, [e], s, l', e, u. split; [exact C|]. split; [exact X|].
  split; [left; reflexivity|]. split; [apply cmd_in, O|]. exact T.
Qed.

(** ** C78: a slow drive towards a wall, the last column of the map *)
Definition wall_data : list Z := flat_map (fun _ => [0; 0; 0; 0; 0; 0; 0; 0; 0; 100]%Z) (seq 0 10).
Definition walled : grid R := mkGrid 10 10 1 0 0 10 10 wall_data.
Definition wide_body : collision R := mkCollision 2 4 2 (1 / 2).
Definition wall_cells : list (Z * Z) := map (fun i => (9, i)%Z) [1; 2; 3; 4; 5; 6; 7; 8; 9]%Z.
Definition x35 : vec3 R := V3 (7 / 2) (11 / 2) 0.
Definition creep : vec3 R := V3 (1 / 10) 0 0.
Definition path35 (t : R) : vec3 R := flow x35 (1 / 10) 0 (rate 0) t.
Lemma path35_at t : path35 t = V3 (7 / 2 + t / 10) (11 / 2) 0.
Proof.
  unfold path35, flow, rate, x35. cbn [v0 v1 v2]. assert (R0 : Rltb (Rabs 0) (1 / 1000000000000) = true) by (apply Rltb_true; rewrite Rabs_R0; lra).
  rewrite R0. destruct (Req_EM_T 0 0) as [_|N]; [|contradict N; reflexivity]. rewrite cos_0, sin_0. f_equal; lra.
Qed.
Lemma path35_follows : follows x35 creep path35.
Proof. exact (MotionProofs.follows_exists x35 creep). Qed.
Lemma walled_proper : proper_map walled.
Proof. unfold proper_map, sized, cells. cbn. repeat split; try lra; lia. Qed.
Lemma wide_radii : proper_radii wide_body walled.
Proof.
  unfold proper_radii. cbn [wide_body walled c_brad c_srad c_othr g_res].
  rewrite (Zfloor_imp 2 (2 / 1)) by (cbn; lra). rewrite (Zfloor_imp 4 ((2 + 2) / 1)) by (cbn; lra). rewrite (Zfloor_imp 4 (4 / 1)) by (cbn; lra). lia.
Qed.
Lemma walled_cells : forallb (fun k => (nth k wall_data 0 =? 0)%Z || (Nat.modulo k 10 =? 9)%nat) (seq 0 100) = true.
Proof. vm_compute. reflexivity. Qed.
Lemma walled_occupied i j : occupied walled (1 / 2) i j -> j = 9%Z.
Proof.
  intros ((A & B) & v & V & Th). cbn [walled g_xsize g_ysize g_data] in *.
  pose proof (proj1 (forallb_forall _ _) walled_cells (Z.to_nat (i * 10 + j)) ltac:(apply in_seq; lia)) as W. cbn beta in W.
  rewrite (nth_error_nth _ _ 0%Z V) in W. apply orb_prop in W. destruct W as [W|W].
  - apply Z.eqb_eq in W. subst v. exfalso. cbn in Th. unfold Rltb in Th. destruct (Rlt_dec _ _) as [|N]; [discriminate|]. apply N. lra.
  - apply Nat.eqb_eq in W. apply (f_equal Z.of_nat) in W. rewrite Nat2Z.inj_mod, Z2Nat.id in W by lia. change (Z.of_nat 10) with 10%Z in W. change (Z.of_nat 9) with 9%Z in W.
    rewrite Z.add_comm, Z.mod_add, Z.mod_small in W by lia. exact W.
Qed.
Lemma walled_clear x : 7 / 2 <= x < 4 -> collisionCheck wide_body walled x (11 / 2) = Ok false.
Proof.
  intros Hx. destruct walled_proper as (Rp & (X & Y & C) & S). destruct wide_radii as (A & B & D).
  destruct (PropCollisionAux2.c10_real wide_body walled x (11 / 2) Rp X Y C S ltac:(unfold on_map; cbn; lra) A B D) as (i & j & r & G & (Cx & _) & E & T).
  cbv zeta in T. rewrite E. f_equal. destruct r; [|reflexivity]. exfalso. destruct (proj1 T eq_refl) as (a & b0 & _ & O & Sq). clear T E A B D.
  apply walled_occupied in O. cbn [wide_body walled c_brad c_othr g_res g_xmin] in *. rewrite (Zfloor_imp 4 ((2 + 2) / 1)) in Sq by (cbn; lra).
  assert (J : (j < 4)%Z) by (apply lt_IZR; cbn; lra). rewrite !Z.pow_2_r in Sq. nia.
Qed.
Lemma creep_steps : num_steps 1 2 = Ok 2%Z.
Proof. rewrite steps_R. rewrite (Zfloor_imp 2 (Rabs (2 / 1))) by (rewrite Rabs_pos_eq by lra; cbn; lra). reflexivity. Qed.
Lemma creep_valid : validate_control wide_body walled x35 creep 1 2 = Ok true.
Proof.
  apply (proj2 (c25_true wide_body walled x35 creep 1 2 path35 2%Z ltac:(lra) path35_follows creep_steps)). intros k Hk. rewrite path35_at. cbn [v0 v1].
  apply walled_clear. assert (1 <= IZR k <= 2) by (split; apply IZR_le; lia). lra.
Qed.
Lemma walled_wall : wall walled (c_occ wide_body) (9, 0)%Z wall_cells.
Proof.
  split; [cbn; unfold adjacent4; cbn; lia|]. intros q I. cbn in I.
  repeat (destruct I as [<-|I]; [split; [unfold in_grid; cbn; lia|exists 100%Z; split; [reflexivity|cbn; apply Rltb_false; lra]]|]). destruct I.
Qed.
