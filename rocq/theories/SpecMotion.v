(** Reference notions for planar motion, over the reals and independent of the model functions. *)
From Coq Require Import Reals ZArith.
From Coquelicot Require Import Coquelicot.
From Verif Require Import Outcome Num NumericsModel.
Local Open Scope R_scope.

(** [gamma] starts at [x] and moves with the constant body twist (vx, vy, w). *)
Definition twist_motion (x : vec3 R) (vx vy w : R) (gamma : R -> vec3 R) : Prop :=
  gamma 0 = x /\
  forall t,
    is_derive (fun s => v0 (gamma s)) t (vx * cos (v2 (gamma t)) - vy * sin (v2 (gamma t))) /\
    is_derive (fun s => v1 (gamma s)) t (vx * sin (v2 (gamma t)) + vy * cos (v2 (gamma t))) /\
    is_derive (fun s => v2 (gamma s)) t w.

(** The motion the library means by a twist [u]: rates below 1e-12 are taken as no rotation. *)
Definition follows (x u : vec3 R) (gamma : R -> vec3 R) : Prop :=
  (1 / 1000000000000 <= Rabs (v2 u) -> twist_motion x (v0 u) (v1 u) (v2 u) gamma) /\
  (Rabs (v2 u) < 1 / 1000000000000 -> twist_motion x (v0 u) (v1 u) 0 gamma).

(** Angles equal up to full turns. *)
Definition same_angle (a b : R) : Prop := exists k : Z, a = b + 2 * IZR k * PI.

(** Rotating by [a] then translating by (x, y). *)
Definition rigid (x y a : R) (p : R * R) : R * R :=
  (x + cos a * fst p - sin a * snd p, y + sin a * fst p + cos a * snd p).
