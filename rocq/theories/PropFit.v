(** Property theorems for the quartic fit of RungeKutta45: C80.  Proofs in FitProofs. *)
From Coq Require Import Reals ZArith List Lra Lia.
From Verif Require Import Outcome Num NumericsModel RobotModel FitModel SpecMotion SpecRobot SpecFit MotionProofs RobotProofs FitProofs.
Import ListNotations.
Local Open Scope R_scope.

(** ** C80 *)
(** If the derivative is [d] at every pose on the line from [x0] in the direction [d], the columns are poses on that line, at times
    spread evenly from 0 to the horizon, each (1 + delta) times as far from [x0] as it should be. *)
Theorem C80_constant_velocity : forall (U : Type) fit (c : rk45 R) (f : vec3 R -> U -> res (vec3 R)) x0 d ut dt horizon n xt,
  fits_lines fit -> 0 < rk_hmin c -> 0 < rk_hmax c + rk_hmin c -> (forall s u, In u ut -> f (moved x0 d s) u = Ok d) ->
  num_steps dt horizon = Ok n -> rk45_trajectory fit c f x0 ut dt horizon = Ok (Some xt) ->
  lenZ xt = n /\ (n = 1%Z -> xt = [moved x0 d ((1 + delta) * horizon)]) /\
  forall i, (2 <= n)%Z -> (Z.of_nat i < n)%Z -> nth_error xt i = Some (moved x0 d ((1 + delta) * (IZR (Z.of_nat i) * horizon / IZR (n - 1)))).
Proof. exact (fun U => c80_columns). Qed.
Print Assumptions C80_constant_velocity.
(** An omni-directional robot driven straight, against its exact motion. *)
Theorem C80_omni_straight : forall fit (c : rk45 R) x0 vx vy ut dt horizon n xt gam, twist_motion x0 vx vy 0 gam ->
  fits_lines fit -> 0 < rk_hmin c -> 0 < rk_hmax c + rk_hmin c -> (forall u, In u ut -> u = V3 vx vy 0) -> num_steps dt horizon = Ok n ->
  rk45_trajectory fit c (rb_f omni) x0 ut dt horizon = Ok (Some xt) ->
  forall i, (2 <= n)%Z -> (Z.of_nat i < n)%Z -> nth_error xt i = Some (gam ((1 + delta) * (IZR (Z.of_nat i) * horizon / IZR (n - 1)))).
Proof. exact c80_omni. Qed.
Print Assumptions C80_omni_straight.
(** With the step fixed to a k-th of the horizon the call returns a trajectory if k is at least 4 ... *)
Theorem C80_four_steps : forall (U : Type) fit (c : rk45 R) (f : vec3 R -> U -> res (vec3 R)) ut d n h horizon dt x k, fits_lines fit ->
  1 / 1000000000000 <= h -> rk_hmin c = h -> rk_hmax c = h -> (forall s u, In u ut -> f (moved x d s) u = Ok d) -> delta * sup3 d < rk_eps c ->
  num_steps dt horizon = Ok n -> (1 <= n <= lenZ ut)%Z -> horizon = IZR k * h -> (4 <= k <= rk_iter c)%Z -> (rk_iter c < two32 - 1)%Z ->
  exists xt, rk45_trajectory fit c f x ut dt horizon = Ok (Some xt).
Proof. exact (fun U => c80_enough). Qed.
Print Assumptions C80_four_steps.
(** ... and throws if it is smaller, as a quartic is not fitted to fewer than five points. *)
Theorem C80_few_steps : forall (U : Type) fit (c : rk45 R) (f : vec3 R -> U -> res (vec3 R)) ut d n h horizon dt x k,
  1 / 1000000000000 <= h -> rk_hmin c = h -> rk_hmax c = h -> (forall s u, In u ut -> f (moved x d s) u = Ok d) -> delta * sup3 d < rk_eps c ->
  num_steps dt horizon = Ok n -> (1 <= n <= lenZ ut)%Z -> (1 <= k)%Z -> horizon = IZR k * h -> (k <= rk_iter c < two32 - 1)%Z -> (k <= 3)%Z ->
  rk45_trajectory fit c f x ut dt horizon = Throw EArma.
Proof. exact (fun U => c80_few). Qed.
Print Assumptions C80_few_steps.
(** Co-states with a constant rate of change, integrated backwards from the horizon. *)
Theorem C80_costates : forall (U : Type) fit (c : rk45 R) func (fdx : vec3 R -> U -> mat3 R) rhoT d xt ut edx bdx dt horizon n rt,
  fits_lines fit -> 0 < rk_hmin c -> (forall rho e b x u, In e edx -> In b bdx -> In x xt -> In u ut -> func rho e b (fdx x u) = d) ->
  num_steps dt horizon = Ok n -> rk45_costates fit c func fdx rhoT xt ut edx bdx dt horizon = Ok (Some rt) ->
  lenZ rt = n /\ forall i, (2 <= n)%Z -> (Z.of_nat i < n)%Z ->
    nth_error rt i = Some (moved rhoT d ((1 + delta) * (IZR (Z.of_nat i) * horizon / IZR (n - 1) - horizon))).
Proof. exact (fun U => c80_co_columns). Qed.
Print Assumptions C80_costates.
(** One metre per second for half a second, with steps of a tenth: the last of the five columns is (1 + delta) half metres away. *)
Example C80_example : exists fit xt, fits_lines fit /\
  rk45_trajectory fit (mkRK45 (1 / 10) (1 / 10) (1 / 100) 100) (rb_f omni) (V3 0 0 0) (repeat (V3 1 0 0) 5) (1 / 10) (1 / 2) = Ok (Some xt) /\
  nth_error xt 0 = Some (V3 0 0 0) /\ nth_error xt 4 = Some (V3 ((1 + delta) / 2) 0 0).
Proof. exact c80_example. Qed.
(** The same with steps of a quarter. *)
Example C80_example_few : forall fit,
  rk45_trajectory fit (mkRK45 (1 / 4) (1 / 4) (1 / 100) 100) (rb_f omni) (V3 0 0 0) (repeat (V3 1 0 0) 5) (1 / 10) (1 / 2) = Throw EArma.
Proof. exact c80_example_few. Qed.
(** The hypotheses of [C80_costates] in a robot at rest under a constant gradient. *)
Example C80_example_costates : forall rho e b x u : vec3 R, In e (repeat (V3 1 2 3) 5) -> In b (repeat (V3 0 0 0) 5) -> In x (repeat (V3 0 0 0) 5) ->
  In u (repeat (V3 0 0 0) 5) -> rhodot rho e b (omni_fdx x u) = V3 (-1) (-2) (-3).
Proof. exact c80_example_co. Qed.

(** ** C49 *)
(** With the upper limit of the step below the lower one, neither solver returns, in any arithmetic ... *)
Theorem C49_inverted_limits : forall (T : Type) (NT : Num T) (U : Type) (c : rk45 T), nlt (rk_hmax c) (rk_hmin c) = true ->
  (forall (f : vec3 T -> U -> res (vec3 T)) x ut dt horizon r, rk45_solve c f x ut dt horizon <> Ok r) /\
  (forall func (fdx : vec3 T -> U -> mat3 T) rhoT xt ut edx bdx dt horizon r, rk45_co_solve c func fdx rhoT xt ut edx bdx dt horizon <> Ok r).
Proof. exact (fun T NT U c H => conj (fun f x ut dt h r => c49_never c f x ut dt h r H) (fun func fdx rhoT xt ut edx bdx dt h r => c49_co_never c func fdx rhoT xt ut edx bdx dt h r H)). Qed.
Print Assumptions C49_inverted_limits.
(** ... because std::clamp is called outside its precondition. *)
Theorem C49_inverted_limits_undefined : forall (U : Type) (c : rk45 R) (f : vec3 R -> U -> res (vec3 R)) x ut dt horizon n,
  0 < rk_hmax c < rk_hmin c -> rk_hmin c <= horizon < 4294967295 * rk_hmin c -> (forall y u, is_ok (f y u) = true) ->
  num_steps dt horizon = Ok n -> (1 <= n <= lenZ ut)%Z -> rk45_solve c f x ut dt horizon = UB UClamp.
Proof. exact (fun U => c49_clamp). Qed.
Print Assumptions C49_inverted_limits_undefined.
Example C49_example_inverted : rk45_solve (mkRK45 (1 / 10) (1 / 20) (1 / 100) 100) (rb_f omni) (V3 0 0 0) (repeat (V3 1 0 0) 5) (1 / 10) (1 / 2) = UB UClamp.
Proof.
  apply (c49_clamp _ _ _ _ _ _ 5); cbn [rk_hmin rk_hmax]; try lra; [reflexivity|exact steps_example|cbn; lia].
Qed.
