(** Reference notions for the update of the controls in binary64 arithmetic. *)
From Coq Require Import Reals.
From Flocq Require Import Core.Raux Core.Zaux IEEE754.BinarySingleNaN.
From Verif Require Import Num Float64 NumericsModel BasisModel RobotModel ErgodicModel SpecBarrier.
Local Open Scope R_scope.

Definition up_to3 (M : R) (x : vec3 b64) : Prop := up_to M (v0 x) /\ up_to M (v1 x) /\ up_to M (v2 x).
(** The co-state [rho] in the frame of a robot with heading [th]; a cart ([side] false) has no lateral component. *)
Definition turned (side : bool) (th : R) (rho : vec3 b64) : vec3 R :=
  V3 (cos th * B2R (v0 rho) + sin th * B2R (v1 rho)) (if side then - sin th * B2R (v0 rho) + cos th * B2R (v1 rho) else 0) (B2R (v2 rho)).
Definition limit (lo hi x : R) : R := Rmax lo (Rmin hi x).
(** One component of the control: a row of R^-1 times the turned co-state, negated and limited. *)
Definition wanted (row : vec3 b64) (lo hi : b64) (b : vec3 R) : R :=
  limit (B2R lo) (B2R hi) (- (B2R (v0 row) * v0 b + B2R (v1 row) * v1 b + B2R (v2 row) * v2 b)).
(** Finite limits in order. *)
Definition ordered (lo hi : b64) : Prop := is_finite lo = true /\ is_finite hi = true /\ B2R lo <= B2R hi.
(** [u] is a number between its limits, and the wanted one up to [err]. *)
Definition meets (lo hi : b64) (w err : R) (u : b64) : Prop :=
  is_finite u = true /\ B2R lo <= B2R u <= B2R hi /\ Rabs (B2R u - w) <= err.
Definition lateral (L : libm) (e : ec b64) (side : bool) : Prop :=
  ec_model e = if side then @omni_plant b64 (F64 L) else @cart_plant b64 (F64 L).
Definition real3 (x : vec3 b64) : vec3 R := V3 (B2R (v0 x)) (B2R (v1 x)) (B2R (v2 x)).
(** [m] is the inverse of a diagonal matrix of positive weights. *)
Definition inverse_of (m : mat3 b64) (w : vec3 R) : Prop := 0 < v0 w /\ 0 < v1 w /\ 0 < v2 w /\
  real3 (r0 m) = V3 (/ v0 w) 0 0 /\ real3 (r1 m) = V3 0 (/ v1 w) 0 /\ real3 (r2 m) = V3 0 0 (/ v2 w).
