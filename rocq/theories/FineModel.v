(** The checks of one iteration of the loop (exploration.hpp:238-278) at a finer grain than in ExplorationModel: the map is read anew by
    every collision check, so that a callback may change it between two checks of the same rollout.  validate_control and
    DynamicWindow::control take the member grid_ by reference (exploration.hpp:240, 248, 259).  [gs k] is the map seen by the [k]-th
    collision check of the iteration; every function takes the number of checks made before and returns the number made after.
    Definitions only. *)
From Coq Require Import List.
From Verif Require Import Outcome Num GridModel CollisionModel NumericsModel BufferModel BasisModel RobotModel DwaModel ErgodicModel ExplorationModel.
Import ListNotations.
Local Open Scope num_scope.

Section Fine.
Context {T : Type} {NT : Num T}.
Variable gs : nat -> grid T.

(** numerics.hpp:318-327 and dynamic_window.cpp:242-251 *)
Fixpoint validate_loop_at (n : nat) (c : collision T) (x u : vec3 T) (dt : T) (k : nat) : res (bool * nat) :=
  match n with
  | O => Ok (true, k)
  | S n' =>
      let x := integrate_twist x u dt in
      let x := V3 (v0 x) (v1 x) (normalize_angle_PI (v2 x)) in
      let* b := collisionCheck c (gs k) (v0 x) (v1 x) in
      if b then Ok (false, S k) else validate_loop_at n' c x u dt (S k)
  end.
(** numerics.hpp:312-330 *)
Definition validate_control_at (c : collision T) (x0 u : vec3 T) (dt horizon : T) (k : nat) : res (bool * nat) :=
  let* steps := num_steps dt horizon in
  validate_loop_at (Z.to_nat steps) c x0 u dt k.
(** dynamic_window.cpp:237-256 *)
Definition objective_vref_at (d : dwa T) (x0 vref u : vec3 T) (k : nat) : res (T * nat) :=
  let* ' (free, k) := validate_loop_at (Z.to_nat (dw_steps d)) (dw_collision d) x0 u (dw_dt d) k in
  if negb free then Ok (nmax, k)
  else let e := vsub vref u in Ok (vdot e e, k).
(** dynamic_window.cpp:266-283 *)
Fixpoint objective_loop_at (n : nat) (d : dwa T) (u : vec3 T) (xt_ref : list (vec3 T)) (tf : T)
    (pose : vec3 T) (t cost : T) (k : nat) : res (T * nat) :=
  match n with
  | O => Ok (cost, k)
  | S n' =>
      let pose := integrate_twist pose u (dw_dt d) in
      let pose := V3 (v0 pose) (v1 pose) (normalize_angle_PI (v2 pose)) in
      let* hit := collisionCheck (dw_collision d) (gs k) (v0 pose) (v1 pose) in
      if hit then Ok (nmax, S k)
      else
        let* j := ref_index xt_ref t tf in
        let* r := col_at xt_ref j in
        let cost := cost + norm2d (v0 r - v0 pose) (v1 r - v1 pose) in
        let cost := cost + nabs (normalize_angle_PI (normalize_angle_PI (v2 r) - v2 pose)) in
        objective_loop_at n' d u xt_ref tf pose (t + dw_dt d) cost (S k)
  end.
(** dynamic_window.cpp:258-286 *)
Definition objective_traj_at (d : dwa T) (x0 : vec3 T) (xt_ref : list (vec3 T)) (tf : T) (u : vec3 T) (k : nat) : res (T * nat) :=
  objective_loop_at (Z.to_nat (dw_steps d)) d u xt_ref tf x0 n0 n0 k.

(** dynamic_window.cpp:114-129 and 166-181; the state is min_cost and u_opt *)
Fixpoint loop_w_at (obj : vec3 T -> nat -> res (T * nat)) (n : nat) (vx vy w dw : T) (st : T * vec3 T) (k : nat) : res (T * vec3 T * nat) :=
  match n with
  | O => Ok (st, k)
  | S n' =>
      let u := V3 vx vy w in
      let* ' (cost, k) := obj u k in
      loop_w_at obj n' vx vy (w + dw) dw (if cost <? fst st then (cost, u) else st) k
  end.
(** dynamic_window.cpp:108-132 and 160-184 *)
Fixpoint loop_vy_at (obj : vec3 T -> nat -> res (T * nat)) (n nth : nat) (vx vy w : T) (dv : vec3 T) (st : T * vec3 T) (k : nat) : res (T * vec3 T * nat) :=
  match n with
  | O => Ok (st, k)
  | S n' =>
      let* ' (st, k) := loop_w_at obj nth vx vy w (v2 dv) st k in
      loop_vy_at obj n' nth vx (vy + v1 dv) w dv st k
  end.
(** dynamic_window.cpp:104-135 and 156-187 *)
Fixpoint loop_vx_at (obj : vec3 T -> nat -> res (T * nat)) (n ny nth : nat) (vx : T) (lo dv : vec3 T) (st : T * vec3 T) (k : nat) : res (T * vec3 T * nat) :=
  match n with
  | O => Ok (st, k)
  | S n' =>
      let* ' (st, k) := loop_vy_at obj ny nth vx (v1 lo) (v2 lo) dv st k in
      loop_vx_at obj n' ny nth (vx + v0 dv) lo dv st k
  end.
(** dynamic_window.cpp:94-139 and 144-191 *)
Definition dwa_search_at (d : dwa T) (obj : vec3 T -> nat -> res (T * nat)) (vb : vec3 T) (k : nat) : res (bool * vec3 T * nat) :=
  let '(lo, dv) := dwa_window d vb in
  let* ' ((min_cost, u_opt), k) :=
    loop_vx_at obj (Z.to_nat (dw_nx d)) (Z.to_nat (dw_ny d)) (Z.to_nat (dw_nth d)) (v0 lo) lo dv (nmax, V3 n0 n0 n0) k in
  if almost_equal min_cost nmax then Ok (false, u_opt, k) else Ok (true, u_opt, k).
(** dynamic_window.cpp:92-139 *)
Definition dwa_control_at (d : dwa T) (x0 vb vref : vec3 T) (k : nat) : res (bool * vec3 T * nat) :=
  dwa_search_at d (objective_vref_at d x0 vref) vb k.
(** dynamic_window.cpp:141-191 *)
Definition dwa_follow_at (d : dwa T) (x0 vb : vec3 T) (xt_ref : list (vec3 T)) (dt_ref : T) (k : nat) : res (bool * vec3 T * nat) :=
  let tf := nofZ (lenZ xt_ref) * dt_ref in
  dwa_search_at d (objective_traj_at d x0 xt_ref tf) vb k.

(** exploration.hpp:238-278; [vb] is the velocity when the dynamic window reads it *)
Definition stage_check_at (n : node T) (l : loop T) (vb : vec3 T) : res (loop T * list (output T) * nat) :=
  let* ' (valid, k) := validate_control_at (nd_collision n) (lp_pose l) (lp_u l) (nd_val_dt n) (nd_val_horizon n) 0 in
  if valid : bool then Ok (l, [], k)
  else if lp_follow l then
    let* ' ((_, u), k) := dwa_control_at (nd_dwa n) (lp_pose l) vb (lp_u l) k in
    Ok (mkLoop (lp_ec l) u (lp_pose l) (lp_known l) false (lp_i l), [], k)
  else
    let* ref := optTraj (lp_ec l) in
    let* ' ((found, u), k) := dwa_follow_at (nd_dwa n) (lp_pose l) vb ref (ec_dt (lp_ec l)) k in
    if found : bool then
      let* p := constTwistPath (lp_pose l) u (dw_dt (nd_dwa n)) (dw_horizon (nd_dwa n)) in
      Ok (mkLoop (lp_ec l) u (lp_pose l) (lp_known l) true 0, [DwaTraj p], k)
    else Ok (mkLoop (lp_ec l) u (lp_pose l) (lp_known l) false (lp_i l), [], k).
(** exploration.hpp:197-292: one iteration, with the number of collision checks it makes *)
Definition body_at (n : node T) (l : loop T) (o : seen T) : res (loop T * list (output T) * nat) :=
  let l := stage_lookup l (se_lookup o) in
  if (se_recv o && lp_known l)%bool then
    let* ' (l, out1) := stage_plan (stage_count n l) o in
    let* ' ((l, out2), k) := stage_check_at n l (se_vb o) in
    Ok (l, out1 ++ out2 ++ [Cmd (lp_u l)], k)
  else Ok (l, [], O).
End Fine.

Section Runs.
Context {T : Type} {NT : Num T}.

(** The callback thread runs between the reads of the loop: the shared members at [n] successive moments after [s]. *)
Inductive steps : list (message T) -> shared T -> list (shared T) -> shared T -> Prop :=
  | steps_nil s : steps [] s [] s
  | steps_cons a ms s s1 ss s' : callbacks a s s1 -> steps ms s1 ss s' -> steps (a ++ ms) s (s1 :: ss) s'.
(** One iteration: the shared members when map_received_ is read, when the controller plans, at every collision check, and when the
    window reads the velocity.  The latter is allowed between any two of the checks, the code reads it after the last check of the
    validation. *)
Record fine_event := mkFine { fe_pre : loop T; fe_post : loop T; fe_lookup : option (transform T); fe_draws : list Z;
  fe_test : shared T; fe_plan : shared T; fe_checks : list (shared T); fe_vb : shared T; fe_msgs : list (message T); fe_out : list (output T) }.
(** The map at the [k]-th check; [t0] after the last one *)
Definition maps (t0 : shared T) (checks : list (shared T)) (k : nat) : grid T := sh_grid (nth k checks t0).
Inductive fine_iteration (n : node T) : shared T -> fine_event -> shared T -> Prop :=
  fine_intro s lk draws test plan c1 vbm c2 last m0 m1 m2 m3 l l' s' out :
    callbacks m0 s test -> callbacks m1 test plan -> steps m2 plan (c1 ++ vbm :: c2) last -> callbacks m3 last s' ->
    body_at (maps last (c1 ++ c2)) n l (mkSeen lk (sh_recv test) (sh_grid plan) draws (sh_grid plan) (sh_grid plan) (sh_vb vbm))
      = Ok (l', out, length (c1 ++ c2)) ->
    fine_iteration n s (mkFine l l' lk draws test plan (c1 ++ c2) vbm (m0 ++ m1 ++ m2 ++ m3) out) s'.
Inductive fine_exec (n : node T) : shared T -> loop T -> list fine_event -> shared T -> loop T -> Prop :=
  | fine_nil s l : fine_exec n s l [] s l
  | fine_cons s l e s1 evs s' l' : fine_iteration n s e s1 -> fe_pre e = l -> fine_exec n s1 (fe_post e) evs s' l' ->
      fine_exec n s l (e :: evs) s' l'.
End Runs.
Arguments fine_event T : clear implicits.
