(** Reference notions for the robot models and integrators, over the reals and independent of the model
    functions. *)
From Coq Require Import Reals ZArith List.
From Coquelicot Require Import Coquelicot.
From Verif Require Import Outcome Num Float64 NumericsModel RobotModel SpecMotion.
Import ListNotations.
Local Open Scope R_scope.

(** Component and update of a vector; indices above 2 mean 2. *)
Definition get (i : nat) (v : vec3 R) : R := match i with 0 => v0 v | 1 => v1 v | _ => v2 v end%nat.
Definition upd (v : vec3 R) (j : nat) (t : R) : vec3 R :=
  match j with 0 => V3 t (v1 v) (v2 v) | 1 => V3 (v0 v) t (v2 v) | _ => V3 (v0 v) (v1 v) t end%nat.
Definition entry (m : mat3 R) (i j : nat) : R :=
  get j match i with 0 => r0 m | 1 => r1 m | _ => r2 m end%nat.

(** [m] is the matrix of partial derivatives of [f] at [x]. *)
Definition jacobian (f : vec3 R -> vec3 R) (m : mat3 R) (x : vec3 R) : Prop :=
  forall i j, (i < 3)%nat -> (j < 3)%nat -> is_derive (fun t => get i (f (upd x j t))) (get j x) (entry m i j).

(** [d] is the derivative of the curve [f] at [t]. *)
Definition velocity (f : R -> vec3 R) (t : R) (d : vec3 R) : Prop :=
  forall i, (i < 3)%nat -> is_derive (fun s => get i (f s)) t (get i d).

(** World velocity of a body at heading [th] moving with body twist [u]. *)
Definition body (th : R) (u : vec3 R) : vec3 R :=
  V3 (v0 u * cos th - v1 u * sin th) (v0 u * sin th + v1 u * cos th) (v2 u).

(** Speeds of the four mecanum wheels (radius r, half distances bx and by) that realise a body twist:
    front left, front right, rear right, rear left. *)
Definition wheel_speeds (r bx by' : R) (u : vec3 R) : R * R * R * R :=
  ((v0 u - v1 u - (bx + by') * v2 u) / r, (v0 u + v1 u + (bx + by') * v2 u) / r,
   (v0 u - v1 u + (bx + by') * v2 u) / r, (v0 u + v1 u - (bx + by') * v2 u) / r).

Definition gap (a b : vec3 R) : R := sqrt ((v0 a - v0 b) ^ 2 + (v1 a - v1 b) ^ 2).
Definition speed (u : vec3 R) : R := sqrt (v0 u ^ 2 + v1 u ^ 2).

(** [g] is the state reached from [x] by following each twist of [us] for a time [dt]. *)
Inductive driven (dt : R) : vec3 R -> list (vec3 R) -> vec3 R -> Prop :=
| driven_nil x : driven dt x [] x
| driven_cons x u us gamma y :
    twist_motion x (v0 u) (v1 u) (v2 u) gamma -> driven dt (gamma dt) us y -> driven dt x (u :: us) y.

(** The co-state equation with constant coefficients: rho' = -g - b - m^T rho. *)
Definition costate_motion (g b : vec3 R) (m : mat3 R) (rho : vec3 R) (gamma : R -> vec3 R) : Prop :=
  gamma 0 = rho /\
  forall t j, (j < 3)%nat ->
    is_derive (fun s => get j (gamma s)) t
      (- get j g - get j b - (entry m 0 j * v0 (gamma t) + entry m 1 j * v1 (gamma t) + entry m 2 j * v2 (gamma t))).

Definition sup3 (c : vec3 R) : R := Rmax (Rmax (Rabs (v0 c)) (Rabs (v1 c))) (Rabs (v2 c)).

(** How far one RK4 step may end from the exact motion. *)
Definition rk4_error (dt : R) (u : vec3 R) : R := speed u * Rabs dt * (v2 u * dt) ^ 4 / 2880.
Fixpoint total (l : list R) : R := match l with [] => 0 | a :: l => a + total l end.

(** Values of a function that may throw, 0 where it does. *)
Definition okv (r : res (vec3 R)) : vec3 R := match r with Ok v => v | _ => V3 0 0 0 end.
(** One column of a matrix with three rows of four, and a wheel speed vector from its components. *)
Definition rows4 (p : vec4 R * vec4 R * vec4 R) (g : vec4 R -> R) : vec3 R := V3 (g (fst (fst p))) (g (snd (fst p))) (g (snd p)).
Definition of4 (p : R * R * R * R) : vec4 R := let '(a, b, c, d) := p in V4 a b c d.
(** By how much the weights of RungeKutta45::step exceed those of the published scheme. *)
Definition delta : R := 2197 / 4101 - 2197 / 4104.
(** The binary64 number nearest to 1e-12. *)
Definition eps64 : b64 := b64_scaled 4951760157141521 (-92).
