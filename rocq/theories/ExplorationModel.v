(** Model of exploration.hpp: the control loop, the two callbacks and how they interleave.  Definitions only. *)
From Verif Require Import Outcome Num GridModel CollisionModel NumericsModel BufferModel BasisModel RobotModel DwaModel ErgodicModel.
Local Open Scope Z_scope.

Section Exploration.
Context {T : Type} {NT : Num T}.

(** ** The loop *)

(** What does not change during Exploration::control: the members collision_ and dwa_, and the arguments val_dt
    and val_horizon. *)
Record node := mkNode { nd_collision : collision T; nd_dwa : dwa T; nd_val_dt : T; nd_val_horizon : T }.

(** The member ergodic_control_ and the local variables u, pose, pose_known, follow_dwa and i. *)
Record loop := mkLoop { lp_ec : ec T; lp_u : vec3 T; lp_pose : vec3 T; lp_known : bool; lp_follow : bool; lp_i : Z }.

(** exploration.hpp:181-195: the state before the first iteration (publishing the target markers is left out) *)
Definition loop_init (e : ec T) (t : target T) : loop := mkLoop (setTarget e t) zero3 zero3 false false 0.

(** geometry_msgs::Transform *)
Record transform := mkTf { tf_x : T; tf_y : T; tf_q : quat T }.
(** exploration.hpp:203-206 *)
Definition tf_pose (t : transform) : vec3 T :=
  V3 (tf_x t) (tf_y t) (getYaw (qx (tf_q t)) (qy (tf_q t)) (qz (tf_q t)) (qw (tf_q t))).

(** What one iteration reads from outside: the result of the lookup ([None]: a TransformException), then, each at
    its own time, map_received_, grid_ in the ergodic controller, what arma::randi returns there, grid_ in
    validate_control, and grid_ and vb_ in the dynamic window.  Each of these stages is taken to see one value of
    grid_; the values of different stages may differ. *)
Record seen := mkSeen { se_lookup : option transform; se_recv : bool; se_plan : grid T; se_draws : list Z;
  se_valid : grid T; se_dwa : grid T; se_vb : vec3 T }.

(** What is published, on cmd_vel, trajectory and dwa_trajectory *)
Inductive output := Cmd (u : vec3 T) | Traj (p : list (pose T)) | DwaTraj (p : list (pose T)).

(** exploration.hpp:199-218 *)
Definition stage_lookup (l : loop) (o : option transform) : loop :=
  match o with
  | Some t => let x := tf_pose t in mkLoop (addStateMemory (lp_ec l) x) (lp_u l) x true (lp_follow l) (lp_i l)
  | None => l
  end.
(** exploration.hpp:223-228; i is an unsigned int *)
Definition stage_count (n : node) (l : loop) : loop :=
  if lp_follow l then
    let i := u32 (lp_i l + 1) in
    mkLoop (lp_ec l) (lp_u l) (lp_pose l) (lp_known l) (negb (i =? dw_steps (nd_dwa n))) i
  else l.
(** exploration.hpp:230-236 *)
Definition stage_plan (l : loop) (o : seen) : res (loop * list output) :=
  if lp_follow l then Ok (l, [])
  else
    let* ' (u, e) := ec_control (lp_ec l) (se_plan o) (lp_pose l) (se_draws o) in
    let* p := ec_path e in
    Ok (mkLoop e u (lp_pose l) (lp_known l) (lp_follow l) (lp_i l), [Traj p]).
(** exploration.hpp:238-278 *)
Definition stage_check (n : node) (l : loop) (o : seen) : res (loop * list output) :=
  let* valid := validate_control (nd_collision n) (se_valid o) (lp_pose l) (lp_u l) (nd_val_dt n) (nd_val_horizon n) in
  if valid then Ok (l, [])
  else if lp_follow l then
    let* ' (_, u) := dwa_control (nd_dwa n) (se_dwa o) (lp_pose l) (se_vb o) (lp_u l) in
    Ok (mkLoop (lp_ec l) u (lp_pose l) (lp_known l) false (lp_i l), [])
  else
    let* ref := optTraj (lp_ec l) in
    let* ' (found, u) := dwa_follow (nd_dwa n) (se_dwa o) (lp_pose l) (se_vb o) ref (ec_dt (lp_ec l)) in
    if found then
      let* p := constTwistPath (lp_pose l) u (dw_dt (nd_dwa n)) (dw_horizon (nd_dwa n)) in
      Ok (mkLoop (lp_ec l) u (lp_pose l) (lp_known l) true 0, [DwaTraj p])
    else Ok (mkLoop (lp_ec l) u (lp_pose l) (lp_known l) false (lp_i l), []).
(** exploration.hpp:197-292: one iteration; rate.sleep() is not modelled *)
Definition body (n : node) (l : loop) (o : seen) : res (loop * list output) :=
  let l := stage_lookup l (se_lookup o) in
  if (se_recv o && lp_known l)%bool then
    let* ' (l, out1) := stage_plan (stage_count n l) o in
    let* ' (l, out2) := stage_check n l o in
    Ok (l, out1 ++ out2 ++ [Cmd (lp_u l)])
  else Ok (l, []).

(** ** The callbacks *)

(** The single assignments of the callbacks, in program order: grid.cpp:86-93 and exploration.hpp:173, 163-165. *)
Inductive write :=
  | WXsize (z : Z) | WYsize (z : Z) | WRes (x : T) | WXmin (x : T) | WYmin (x : T) | WXmax | WYmax | WData (d : list Z)
  | WRecv | WVx (x : T) | WVy (x : T) | WVw (x : T).
(** exploration.hpp:169-174 with grid.cpp:84-94 *)
Definition map_writes (m : msg T) : list write :=
  [WXsize (m_width m); WYsize (m_height m); WRes (m_res m); WXmin (m_ox m); WYmin (m_oy m); WXmax; WYmax; WData (m_data m); WRecv].
(** exploration.hpp:161-166 *)
Definition odom_writes (v : vec3 T) : list write := [WVx (v0 v); WVy (v1 v); WVw (v2 v)].
Inductive message := MMap (m : msg T) | MOdom (v : vec3 T).
Definition writes_of (m : message) : list write := match m with MMap m => map_writes m | MOdom v => odom_writes v end.

(** The members shared by the two threads, and what is left of the callback being executed. *)
Record shared := mkShared { sh_grid : grid T; sh_recv : bool; sh_vb : vec3 T; sh_todo : list write }.
(** exploration.hpp:134-146 *)
Definition shared_init : shared := mkShared grid_default false zero3 [].

Definition write_grid (w : write) (g : grid T) : grid T :=
  match w with
  | WXsize z => mkGrid z (g_ysize g) (g_res g) (g_xmin g) (g_ymin g) (g_xmax g) (g_ymax g) (g_data g)
  | WYsize z => mkGrid (g_xsize g) z (g_res g) (g_xmin g) (g_ymin g) (g_xmax g) (g_ymax g) (g_data g)
  | WRes x => mkGrid (g_xsize g) (g_ysize g) x (g_xmin g) (g_ymin g) (g_xmax g) (g_ymax g) (g_data g)
  | WXmin x => mkGrid (g_xsize g) (g_ysize g) (g_res g) x (g_ymin g) (g_xmax g) (g_ymax g) (g_data g)
  | WYmin x => mkGrid (g_xsize g) (g_ysize g) (g_res g) (g_xmin g) x (g_xmax g) (g_ymax g) (g_data g)
  | WXmax => mkGrid (g_xsize g) (g_ysize g) (g_res g) (g_xmin g) (g_ymin g) (axis_upper (g_xmin g) (g_res g) (g_xsize g)) (g_ymax g) (g_data g)
  | WYmax => mkGrid (g_xsize g) (g_ysize g) (g_res g) (g_xmin g) (g_ymin g) (g_xmax g) (axis_upper (g_ymin g) (g_res g) (g_ysize g)) (g_data g)
  | WData d => mkGrid (g_xsize g) (g_ysize g) (g_res g) (g_xmin g) (g_ymin g) (g_xmax g) (g_ymax g) d
  | _ => g
  end.
Definition write_vb (w : write) (v : vec3 T) : vec3 T :=
  match w with WVx x => V3 x (v1 v) (v2 v) | WVy x => V3 (v0 v) x (v2 v) | WVw x => V3 (v0 v) (v1 v) x | _ => v end.
Definition write_recv (w : write) (b : bool) : bool := match w with WRecv => true | _ => b end.
Definition do_write (w : write) (rest : list write) (s : shared) : shared :=
  mkShared (write_grid w (sh_grid s)) (write_recv w (sh_recv s)) (write_vb w (sh_vb s)) rest.

(** What the callback thread does between two stages of the loop; the list has the messages whose callback
    started.  There is one callback thread (AsyncSpinner(1), exploration_cart_node.cpp:106), so a callback starts
    only after the previous one has returned. *)
Inductive callbacks : list message -> shared -> shared -> Prop :=
  | cb_none s : callbacks [] s s
  | cb_start m ms s s' : sh_todo s = [] -> callbacks ms (mkShared (sh_grid s) (sh_recv s) (sh_vb s) (writes_of m)) s' ->
      callbacks (m :: ms) s s'
  | cb_write w rest ms s s' : sh_todo s = w :: rest -> callbacks ms (do_write w rest s) s' -> callbacks ms s s'.

(** ** Executions *)

(** The values of the shared members at the stages of one iteration, and at publication. *)
Record moments := mkMoments { mo_test : shared; mo_plan : shared; mo_check : shared; mo_dwa : shared; mo_pub : shared }.
Definition view (lk : option transform) (draws : list Z) (t : moments) : seen :=
  mkSeen lk (sh_recv (mo_test t)) (sh_grid (mo_plan t)) draws (sh_grid (mo_check t)) (sh_grid (mo_dwa t)) (sh_vb (mo_dwa t)).
(** One iteration of the loop thread, the callback thread running in between: [early] are the messages whose
    callbacks started before map_received_ is read, [late] the others. *)
Record event := mkEvent { ev_pre : loop; ev_post : loop; ev_lookup : option transform; ev_draws : list Z; ev_at : moments;
  ev_early : list message; ev_late : list message; ev_out : list output }.
Definition ev_seen (e : event) : seen := view (ev_lookup e) (ev_draws e) (ev_at e).
Inductive iteration (n : node) : shared -> event -> shared -> Prop :=
  iteration_intro s lk draws t early l1 l2 l3 l4 l5 l l' s' out :
    callbacks early s (mo_test t) -> callbacks l1 (mo_test t) (mo_plan t) -> callbacks l2 (mo_plan t) (mo_check t) ->
    callbacks l3 (mo_check t) (mo_dwa t) -> callbacks l4 (mo_dwa t) (mo_pub t) -> callbacks l5 (mo_pub t) s' ->
    body n l (view lk draws t) = Ok (l', out) ->
    iteration n s (mkEvent l l' lk draws t early (l1 ++ l2 ++ l3 ++ l4 ++ l5) out) s'.
(** Any number of completed iterations *)
Inductive exec (n : node) : shared -> loop -> list event -> shared -> loop -> Prop :=
  | exec_nil s l : exec n s l [] s l
  | exec_cons s l e s1 evs s' l' : iteration n s e s1 -> ev_pre e = l -> exec n s1 (ev_post e) evs s' l' ->
      exec n s l (e :: evs) s' l'.
(** An iteration that does not complete, with the messages whose callbacks started: the exception leaves
    Exploration::control and ends the node, or the behaviour is undefined.  (The stages after the failing one are
    not executed.) *)
Definition fails (n : node) (s : shared) (l : loop) (ms : list message) (f : res (loop * list output)) : Prop :=
  exists lk draws t l0 l1 l2 l3, callbacks l0 s (mo_test t) /\ callbacks l1 (mo_test t) (mo_plan t) /\ callbacks l2 (mo_plan t) (mo_check t) /\
    callbacks l3 (mo_check t) (mo_dwa t) /\ ms = l0 ++ l1 ++ l2 ++ l3 /\ body n l (view lk draws t) = f /\ is_ok f = false.

(** ** The nodes *)

(** The parameters of the two nodes.  Those for y are only read by the omni node, the cart node has the constants
    of exploration_cart_node.cpp:134-135, 158, 198-200 instead. *)
Record params := mkParams {
  pa_val_dt : T; pa_val_horizon : T; pa_max_vel_x : T; pa_max_vel_y : T; pa_max_rot_vel : T;
  pa_min_vel_x : T; pa_min_vel_y : T; pa_min_rot_vel : T; pa_acc_lim_x : T; pa_acc_lim_y : T; pa_acc_lim_th : T;
  pa_boundary_radius : T; pa_search_radius : T; pa_obstacle_threshold : T; pa_occupied_threshold : T;
  pa_ec_dt : T; pa_ec_horizon : T; pa_target_resolution : T; pa_expl_weight : T;
  pa_num_basis : Z; pa_buffer_size : Z; pa_batch_size : Z; pa_weights : list T;
  pa_dwa_dt : T; pa_dwa_horizon : T; pa_acc_dt : T; pa_vx_samples : Z; pa_vy_samples : Z; pa_vth_samples : Z;
  pa_gaussians : list ((T * T) * (T * T)) }.

(** control_weights.at(k) *)
Definition weight_at (p : params) (k : nat) : res T :=
  match nth_error (pa_weights p) k with Some w => Ok (n1 / w)%num | None => Throw EOutOfRange end.
(** exploration_cart_node.cpp:183-187: the elements are constructed one after the other *)
Fixpoint gaussians_of (l : list ((T * T) * (T * T))) : res (target T) :=
  match l with
  | [] => Ok []
  | (mu, sigma) :: l => let* g := gaussian_ctor mu sigma in let* gs := gaussians_of l in Ok (g :: gs)
  end.
(** What a node hands to Exploration; [None] when it has called ros::shutdown(), so that nh_.ok() is false and
    the loop of Exploration::control is never entered. *)
Definition setup : Type := option (node * loop).
(** exploration_cart_node.cpp:113-207 (and omni: 115-213), the parts that differ being arguments *)
Definition start (model : plant T) (Rinv : mat3 T) (umin umax : vec3 T) (acc_y max_y min_y : T) (vy : Z) (p : params) : res setup :=
  let* gs := gaussians_of (pa_gaussians p) in
  let* c := collision_ctor (pa_boundary_radius p) (pa_search_radius p) (pa_obstacle_threshold p) (pa_occupied_threshold p) in
  let* e := ec_ctor model (pa_ec_dt p) (pa_ec_horizon p) (pa_target_resolution p) (pa_expl_weight p) (pa_num_basis p)
              (pa_buffer_size p) (pa_batch_size p) Rinv umin umax in
  let* d := dwa_ctor c (pa_dwa_dt p) (pa_dwa_horizon p) (pa_acc_dt p) (pa_acc_lim_x p) acc_y (pa_acc_lim_th p)
              (pa_max_vel_x p) (pa_min_vel_x p) max_y min_y (pa_max_rot_vel p) (pa_min_rot_vel p)
              (pa_vx_samples p) vy (pa_vth_samples p) in
  if (pa_ec_horizon p <? pa_dwa_horizon p)%num then Ok None
  else Ok (Some (mkNode c d (pa_val_dt p) (pa_val_horizon p), loop_init e gs)).
Definition diagonal (a b c : T) : mat3 T := M3 (V3 a n0 n0) (V3 n0 b n0) (V3 n0 n0 c).
(** exploration_cart_node.cpp:134-135, 152-159, 198-200 *)
Definition cart_node (p : params) : res setup :=
  let* r0 := weight_at p 0 in
  let* r2 := weight_at p 1 in
  start cart_plant (diagonal r0 n0 r2) (V3 (pa_min_vel_x p) n0 (pa_min_rot_vel p)) (V3 (pa_max_vel_x p) n0 (pa_max_rot_vel p))
    n0 n0 n0 0 p.
(** exploration_omni_node.cpp:139-140, 157-164, 204-206 *)
Definition omni_node (p : params) : res setup :=
  let* r0 := weight_at p 0 in
  let* r1 := weight_at p 1 in
  let* r2 := weight_at p 2 in
  start omni_plant (diagonal r0 r1 r2) (V3 (pa_min_vel_x p) (pa_min_vel_y p) (pa_min_rot_vel p))
    (V3 (pa_max_vel_x p) (pa_max_vel_y p) (pa_max_rot_vel p)) (pa_acc_lim_y p) (pa_max_vel_y p) (pa_min_vel_y p) (pa_vy_samples p) p.

End Exploration.
Arguments node T : clear implicits.
Arguments loop T : clear implicits.
Arguments transform T : clear implicits.
Arguments seen T : clear implicits.
Arguments output T : clear implicits.
Arguments write T : clear implicits.
Arguments message T : clear implicits.
Arguments shared T : clear implicits.
Arguments moments T : clear implicits.
Arguments event T : clear implicits.
Arguments params T : clear implicits.
Arguments setup T : clear implicits.
