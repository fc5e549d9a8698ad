(** Model of dynamic_window.hpp and dynamic_window.cpp.  Definitions only. *)
From Verif Require Import Outcome Num GridModel CollisionModel NumericsModel RobotModel.
Local Open Scope num_scope.

(** arma::uword is a 64 bit unsigned number *)
Definition two64 : Z := 18446744073709551616.

Section Dwa.
Context {T : Type} {NT : Num T}.

(** dynamic_window.hpp:161-172 *)
Record dwa := mkDwa {
  dw_collision : collision T; dw_dt : T; dw_horizon : T; dw_acc_dt : T;
  dw_acc : vec3 T;      (* acc_lim_x_, acc_lim_y_, acc_lim_th_ *)
  dw_max : vec3 T;      (* max_vel_x_, max_vel_y_, max_rot_vel_ *)
  dw_min : vec3 T;      (* min_vel_x_, min_vel_y_, min_rot_vel_ *)
  dw_nx : Z; dw_ny : Z; dw_nth : Z; dw_steps : Z }.

(** dynamic_window.cpp:46-90; the sample counts are unsigned *)
Definition dwa_ctor (c : collision T) (dt horizon acc_dt acc_lim_x acc_lim_y acc_lim_th max_vel_x min_vel_x
    max_vel_y min_vel_y max_rot_vel min_rot_vel : T) (vx_samples vy_samples vth_samples : Z) : res dwa :=
  let* steps := num_steps dt horizon in
  let vx := if (vx_samples =? 0)%Z then 1%Z else vx_samples in
  let vy := if (vy_samples =? 0)%Z then 1%Z else vy_samples in
  let vth := if (vth_samples =? 0)%Z then 1%Z else vth_samples in
  Ok (mkDwa c dt horizon acc_dt (V3 acc_lim_x acc_lim_y acc_lim_th) (V3 max_vel_x max_vel_y max_rot_vel)
        (V3 min_vel_x min_vel_y min_rot_vel) vx vy vth steps).

(** dynamic_window.cpp:193-235: lower limits and increments *)
Definition dwa_window (d : dwa) (vb : vec3 T) : vec3 T * vec3 T :=
  let l0 := fmax (v0 vb - v0 (dw_acc d) * dw_acc_dt d) (v0 (dw_min d)) in
  let u0 := fmin (v0 vb + v0 (dw_acc d) * dw_acc_dt d) (v0 (dw_max d)) in
  let l1 := fmax (v1 vb - v1 (dw_acc d) * dw_acc_dt d) (v1 (dw_min d)) in
  let u1 := fmin (v1 vb + v1 (dw_acc d) * dw_acc_dt d) (v1 (dw_max d)) in
  let l2 := fmax (v2 vb - v2 (dw_acc d) * dw_acc_dt d) (v2 (dw_min d)) in
  let u2 := fmin (v2 vb + v2 (dw_acc d) * dw_acc_dt d) (v2 (dw_max d)) in
  let d0 := if (1 <? dw_nx d)%Z then (u0 - l0) / nofZ (dw_nx d - 1) else n0 in
  let d1 := if (1 <? dw_ny d)%Z then (u1 - l1) / nofZ (dw_ny d - 1) else n0 in
  let d2 := if (1 <? dw_nth d)%Z then (u2 - l2) / nofZ (dw_nth d - 1) else n0 in
  (V3 l0 l1 l2, V3 d0 d1 d2).

(** dynamic_window.cpp:237-256; the loop of lines 242-251 is the one of validate_control *)
Definition objective_vref (d : dwa) (g : grid T) (x0 vref u : vec3 T) : res T :=
  let* free := validate_loop (Z.to_nat (dw_steps d)) (dw_collision d) g x0 u (dw_dt d) in
  if negb free then Ok nmax
  else let e := vsub vref u in Ok (vdot e e).

(** arma::norm of a 2-vector; Armadillo rescales when the sum of squares is zero or not finite, which is
    not modelled *)
Definition norm2d (a b : T) : T := nsqrt (a * a + b * b).
(** dynamic_window.cpp:276 *)
Definition ref_index (xt_ref : list (vec3 T)) (t tf : T) : res Z :=
  to_u32 (nround (nofZ ((lenZ xt_ref - 1) mod two64) * t / tf)).
(** dynamic_window.cpp:266-283: the loop, [n] iterations left; the access to xt_ref is bounds checked *)
Fixpoint objective_loop (n : nat) (d : dwa) (g : grid T) (u : vec3 T) (xt_ref : list (vec3 T)) (tf : T)
    (pose : vec3 T) (t cost : T) : res T :=
  match n with
  | O => Ok cost
  | S n' =>
      let pose := integrate_twist pose u (dw_dt d) in
      let pose := V3 (v0 pose) (v1 pose) (normalize_angle_PI (v2 pose)) in
      let* hit := collisionCheck (dw_collision d) g (v0 pose) (v1 pose) in
      if hit then Ok nmax
      else
        let* j := ref_index xt_ref t tf in
        let* r := col_at xt_ref j in
        let cost := cost + norm2d (v0 r - v0 pose) (v1 r - v1 pose) in
        let cost := cost + nabs (normalize_angle_PI (normalize_angle_PI (v2 r) - v2 pose)) in
        objective_loop n' d g u xt_ref tf pose (t + dw_dt d) cost
  end.
(** dynamic_window.cpp:258-286 *)
Definition objective_traj (d : dwa) (g : grid T) (x0 u : vec3 T) (xt_ref : list (vec3 T)) (tf : T) : res T :=
  objective_loop (Z.to_nat (dw_steps d)) d g u xt_ref tf x0 n0 n0.

(** dynamic_window.cpp:114-129 and 166-181: the innermost loop; the state is min_cost and u_opt *)
Fixpoint loop_w (obj : vec3 T -> res T) (n : nat) (vx vy w dw : T) (st : T * vec3 T) : res (T * vec3 T) :=
  match n with
  | O => Ok st
  | S n' =>
      let u := V3 vx vy w in
      let* cost := obj u in
      loop_w obj n' vx vy (w + dw) dw (if cost <? fst st then (cost, u) else st)
  end.
(** dynamic_window.cpp:108-132 and 160-184 *)
Fixpoint loop_vy (obj : vec3 T -> res T) (n nth : nat) (vx vy w : T) (dv : vec3 T) (st : T * vec3 T) : res (T * vec3 T) :=
  match n with
  | O => Ok st
  | S n' =>
      let* st := loop_w obj nth vx vy w (v2 dv) st in
      loop_vy obj n' nth vx (vy + v1 dv) w dv st
  end.
(** dynamic_window.cpp:104-135 and 156-187 *)
Fixpoint loop_vx (obj : vec3 T -> res T) (n ny nth : nat) (vx : T) (lo dv : vec3 T) (st : T * vec3 T) : res (T * vec3 T) :=
  match n with
  | O => Ok st
  | S n' =>
      let* st := loop_vy obj ny nth vx (v1 lo) (v2 lo) dv st in
      loop_vx obj n' ny nth (vx + v0 dv) lo dv st
  end.
(** The search common to both overloads of control: lines 94-139 and 144-191 *)
Definition dwa_search (d : dwa) (obj : vec3 T -> res T) (vb : vec3 T) : res (bool * vec3 T) :=
  let '(lo, dv) := dwa_window d vb in
  let* ' (min_cost, u_opt) :=
    loop_vx obj (Z.to_nat (dw_nx d)) (Z.to_nat (dw_ny d)) (Z.to_nat (dw_nth d)) (v0 lo) lo dv (nmax, V3 n0 n0 n0) in
  if almost_equal min_cost nmax then Ok (false, u_opt) else Ok (true, u_opt).
(** dynamic_window.cpp:92-139 *)
Definition dwa_control (d : dwa) (g : grid T) (x0 vb vref : vec3 T) : res (bool * vec3 T) :=
  dwa_search d (objective_vref d g x0 vref) vb.
(** dynamic_window.cpp:141-191 *)
Definition dwa_follow (d : dwa) (g : grid T) (x0 vb : vec3 T) (xt_ref : list (vec3 T)) (dt_ref : T) : res (bool * vec3 T) :=
  let tf := nofZ (lenZ xt_ref) * dt_ref in
  dwa_search d (fun u => objective_traj d g x0 u xt_ref tf) vb.

End Dwa.
Arguments dwa T : clear implicits.
