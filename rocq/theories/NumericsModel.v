(** Model of numerics.hpp.  Definitions only. *)
From Verif Require Import Outcome Num GridModel CollisionModel.
Local Open Scope num_scope.

Section Numerics.
Context {T : Type} {NT : Num T}.

(** arma::vec of length 3, and a 3 x 3 arma::mat by rows. *)
Record vec3 := V3 { v0 : T; v1 : T; v2 : T }.
Record mat3 := M3 { r0 : vec3; r1 : vec3; r2 : vec3 }.

(** arma operators: vector sum, scaling, row times column, matrix times vector, matrix product.
    A row product is accumulated left to right (arma::gemv_emul_tinysq). *)
Definition vadd (a b : vec3) : vec3 := V3 (v0 a + v0 b) (v1 a + v1 b) (v2 a + v2 b).
Definition vscale (a : vec3) (k : T) : vec3 := V3 (v0 a * k) (v1 a * k) (v2 a * k).
Definition vdot (a b : vec3) : T := v0 a * v0 b + v1 a * v1 b + v2 a * v2 b.
Definition mvmul (m : mat3) (v : vec3) : vec3 := V3 (vdot (r0 m) v) (vdot (r1 m) v) (vdot (r2 m) v).
Definition col0 (m : mat3) : vec3 := V3 (v0 (r0 m)) (v0 (r1 m)) (v0 (r2 m)).
Definition col1 (m : mat3) : vec3 := V3 (v1 (r0 m)) (v1 (r1 m)) (v1 (r2 m)).
Definition col2 (m : mat3) : vec3 := V3 (v2 (r0 m)) (v2 (r1 m)) (v2 (r2 m)).
Definition rmmul (r : vec3) (m : mat3) : vec3 := V3 (vdot r (col0 m)) (vdot r (col1 m)) (vdot r (col2 m)).
Definition mmul (a b : mat3) : mat3 := M3 (rmmul (r0 a) b) (rmmul (r1 a) b) (rmmul (r2 a) b).

(** numerics.hpp:67-70 with the default epsilon 1.0e-12 *)
Definition eps12 : T := lit 1 1000000000000.
Definition almost_equal (a b : T) : bool := nabs (a - b) <? eps12.

(** numerics.hpp:77-89 *)
Definition normalize_angle_PI (rad : T) : T :=
  let q := nfloor ((rad + npi) / (n2 * npi)) in
  let rad := (rad + npi) - q * n2 * npi in
  let rad := if rad <? n0 then rad + n2 * npi else rad in
  rad - npi.

(** numerics.hpp:96-108 *)
Definition normalize_angle_2PI (rad : T) : T :=
  let q := nfloor (rad / (n2 * npi)) in
  let rad := rad - q * n2 * npi in
  if rad <? n0 then rad + n2 * npi else rad.

(** numerics.hpp:118-142 *)
Definition getYaw (qx qy qz qw : T) : T :=
  let sqx := qx * qx in
  let sqy := qy * qy in
  let sqz := qz * qz in
  let sqw := qw * qw in
  let sarg := - n2 * (qx * qz - qw * qy) / (sqx + sqy + sqz + sqw) in
  if (sarg <? - lit 99999 100000) || almost_equal sarg (- lit 99999 100000)
  then - n2 * natan2 qy qx
  else if (lit 99999 100000 <? sarg) || almost_equal sarg (lit 99999 100000)
  then n2 * natan2 qy qx
  else natan2 (n2 * (qx * qy + qw * qz)) (sqw + sqx - sqy - sqz).

(** numerics.hpp:152-157 *)
Definition distance (x0 y0 x1 y1 : T) : T :=
  let dx := x1 - x0 in
  let dy := y1 - y0 in
  nsqrt (dx * dx + dy * dy).

(** numerics.hpp:164-179 *)
Definition entropy (p : T) : T :=
  if almost_equal n0 p || almost_equal n1 p then lit 1 1000
  else if p <? n0 then lit 7 10
  else - p * nln p - (n1 - p) * nln (n1 - p).

(** numerics.hpp:186-191 *)
Definition polar2Cartesian (angle range : T) : T * T := (range * ncos angle, range * nsin angle).
(** numerics.hpp:198-203 *)
Definition polar2CartesianHomo (angle range : T) : vec3 := V3 (range * ncos angle) (range * nsin angle) n1.

(** numerics.hpp:212-219 *)
Definition transform2d (x y angle : T) : mat3 :=
  M3 (V3 (ncos angle) (- nsin angle) x) (V3 (nsin angle) (ncos angle) y) (V3 n0 n0 n1).
(** numerics.hpp:227-232 *)
Definition transform2d_xy (x y : T) : mat3 := M3 (V3 n1 n0 x) (V3 n0 n1 y) (V3 n0 n0 n1).
(** numerics.hpp:239-245 *)
Definition transform2d_rot (angle : T) : mat3 :=
  M3 (V3 (ncos angle) (- nsin angle) n0) (V3 (nsin angle) (ncos angle) n0) (V3 n0 n0 n1).

(** numerics.hpp:252-264.  The arguments of the final call are in the order of the source. *)
Definition transform2dInv (m : mat3) : mat3 :=
  let stheta := - v0 (r1 m) in
  let ctheta := v0 (r0 m) in
  let theta := natan2 stheta ctheta in
  let x := - (ctheta * v2 (r0 m) - stheta * v2 (r1 m)) in
  let y := - (stheta * v2 (r0 m) + ctheta * v2 (r1 m)) in
  transform2d theta x y.

(** numerics.hpp:273-298 *)
Definition integrate_twist (x u : vec3) (dt : T) : vec3 :=
  let dqb :=
    if almost_equal (v2 u) n0 then V3 (v0 u * dt) (v1 u * dt) n0
    else
      let vb := vscale u dt in
      V3 ((v0 vb * nsin (v2 vb) + v1 vb * (ncos (v2 vb) - n1)) / v2 vb)
         ((v1 vb * nsin (v2 vb) + v0 vb * (n1 - ncos (v2 vb))) / v2 vb)
         (v2 vb) in
  vadd x (mvmul (transform2d_rot (v2 x)) dqb).

(** numerics.hpp:316, 345: the number of steps *)
Definition num_steps (dt horizon : T) : res Z := to_u32 (nabs (horizon / dt)).

(** numerics.hpp:318-327: the loop, [n] iterations left *)
Fixpoint validate_loop (n : nat) (c : collision T) (g : grid T) (x u : vec3) (dt : T) : res bool :=
  match n with
  | O => Ok true
  | S n' =>
      let x := integrate_twist x u dt in
      let x := V3 (v0 x) (v1 x) (normalize_angle_PI (v2 x)) in
      let* b := collisionCheck c g (v0 x) (v1 x) in
      if b then Ok false else validate_loop n' c g x u dt
  end.

(** numerics.hpp:312-330 *)
Definition validate_control (c : collision T) (g : grid T) (x0 u : vec3) (dt horizon : T) : res bool :=
  let* steps := num_steps dt horizon in
  validate_loop (Z.to_nat steps) c g x0 u dt.

(** tf2::Quaternion (x, y, z, w) and tf2::Quaternion::setRPY of tf2/LinearMath/Quaternion.h *)
Record quat := Q4 { qx : T; qy : T; qz : T; qw : T }.
Definition setRPY (roll pitch yaw : T) : quat :=
  let half := lit 1 2 in
  let hy := yaw * half in
  let hp := pitch * half in
  let hr := roll * half in
  let cy := ncos hy in let sy := nsin hy in
  let cp := ncos hp in let sp := nsin hp in
  let cr := ncos hr in let sr := nsin hr in
  Q4 (sr * cp * cy - cr * sp * sy) (cr * sp * cy + sr * cp * sy)
     (cr * cp * sy - sr * sp * cy) (cr * cp * cy + sr * sp * sy).

(** A pose of nav_msgs::Path: position and orientation *)
Record pose := mkPose { p_x : T; p_y : T; p_q : quat }.

(** numerics.hpp:349-364: the loop *)
Fixpoint path_loop (n : nat) (x u : vec3) (dt : T) : list pose :=
  match n with
  | O => []
  | S n' =>
      let x := integrate_twist x u dt in
      mkPose (v0 x) (v1 x) (setRPY n0 n0 (normalize_angle_PI (v2 x))) :: path_loop n' x u dt
  end.

(** numerics.hpp:340-367.  The frame id is not modelled. *)
Definition constTwistPath (x0 u : vec3) (dt horizon : T) : res (list pose) :=
  let* steps := num_steps dt horizon in
  Ok (path_loop (Z.to_nat steps) x0 u dt).

End Numerics.
Arguments vec3 T : clear implicits.
Arguments mat3 T : clear implicits.
Arguments quat T : clear implicits.
Arguments pose T : clear implicits.
