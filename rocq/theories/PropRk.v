(** Properties C82 and C83: the adaptive integrator; and the co-state equation of C47 for any matrix.  The notions are
    defined in SpecRk.v. *)
From Coq Require Import Reals Lra ZArith Lia List Bool.
From Verif Require Import Outcome Num GridModel CollisionModel NumericsModel RobotModel SpecRobot SpecRk MotionProofs RkProofs PropRkAux.
Import ListNotations.
Local Open Scope R_scope.

(** ** C82 *)
(** The points to which the solver fits: from the initial state at time 0 to the horizon, neighbours joined by accepted steps. *)
Theorem C82_forward : forall (U : Type) (c : rk45 R) (f : vec3 R -> U -> res (vec3 R)) x0 ut dt horizon n st,
  0 < rk_hmin c -> rk_hmin c <= rk_hmax c -> (rk_hmin c + rk_hmax c) / 2 <= horizon -> tol <= horizon ->
  num_steps dt horizon = Ok n -> (1 <= n)%Z -> rk45_solve c f x0 ut dt horizon = Ok (Some st) ->
  exists t x mid, rev st = (0, x0) :: mid ++ [(t, x)] /\ horizon - tol < t <= horizon /\
    linked (fun a b => forward_step f ut n horizon (rk_eps c) a b /\ step_size (rk_hmin c) (rk_hmax c) horizon a b) (rev st) /\
    IZR (lenZ st) <= horizon / rk_hmin c + 1.
Proof. exact (fun U => c82_forward). Qed.
Print Assumptions C82_forward.
(** The same for co-states, from the horizon down to time 0. *)
Theorem C82_backward : forall (U : Type) (c : rk45 R) func (fdx : vec3 R -> U -> mat3 R) rhoT xt ut edx bdx dt horizon n st,
  0 < rk_hmin c -> rk_hmin c <= rk_hmax c -> rk_hmin c <= horizon -> tol <= horizon ->
  num_steps dt horizon = Ok n -> (1 <= n)%Z -> rk45_co_solve c func fdx rhoT xt ut edx bdx dt horizon = Ok (Some st) ->
  exists t x mid, rev st = (horizon, rhoT) :: mid ++ [(t, x)] /\ 0 <= t < tol /\
    linked (fun a b => backward_step func fdx xt ut edx bdx n horizon (rk_eps c) a b /\ step_size (rk_hmin c) (rk_hmax c) 0 a b) (rev st) /\
    IZR (lenZ st) <= horizon / rk_hmin c + 1.
Proof. exact (fun U => c82_backward). Qed.
Print Assumptions C82_backward.
(** The next step: 0.84 times the fourth root of the tolerance over the error, within the limits. *)
Theorem C82_next_step : forall (c : rk45 R) h r q, rk_hmin c <= rk_hmax c -> 0 < q -> q ^ 4 = rk_eps c / r ->
  rk45_adapt c h r = Ok (Rmax (rk_hmin c) (Rmin (rk_hmax c) (84 / 100 * q * h))).
Proof. exact c82_adapt. Qed.
Print Assumptions C82_next_step.
Example C82_example : exists st,
  rk45_solve (mkRK45 (1 / 10) (1 / 10) (1 / 100) 100) (rb_f omni) (V3 0 0 0) (repeat (V3 1 0 0) 5) (1 / 10) (1 / 2) = Ok (Some st) /\
  num_steps (1 / 10) (1 / 2) = Ok 5%Z.
Proof. destruct forward_example as (st & E). exists st. split; [exact E|exact steps_example]. Qed.
Example C82_example_backward : let l := repeat (V3 0 0 0) 5 in
  rk45_co_solve (mkRK45 (1 / 2) (1 / 2) (1 / 100) 100) decay omni_fdx (V3 1 2 3) l l l l (1 / 10) (1 / 2) = Ok (Some [(0, V3 1 2 3); (1 / 2, V3 1 2 3)]).
Proof. exact back_example. Qed.
Example C82_example_next_step : rk45_adapt (mkRK45 (1 / 10) 1 (1 / 100) 100) (1 / 2) (1 / 1600) = Ok (84 / 100).
Proof.
  rewrite (c82_adapt _ _ _ 2) by (cbn; lra). cbn [rk_hmin rk_hmax]. f_equal. rewrite Rmin_right, Rmax_right; lra.
Qed.

(** ** C83 *)
(** One step on x' = lam x, and on rho' = lam rho backwards: the polynomial of Fehlberg's fourth order formula, plus an
    excess linear in the error of the weight; the estimate is the difference to the fifth order formula. *)
Theorem C83_forward : forall lam x h, h <> 0 -> let z := h * lam in
  rk45_step (fun x u => Ok (times x u)) x lam h =
  Ok (times x (fehlberg4 z + excess z), Rabs (fehlberg5 z - fehlberg4 z - excess z) * sup3 x / h).
Proof. exact (fun lam x h H => c83_stages lam x h h H). Qed.
Print Assumptions C83_forward.
Theorem C83_backward : forall lam rho e b m h, h <> 0 -> let z := - h * lam in
  rk45_co_step (fun rho _ _ _ => times rho lam) rho e b m h =
  Ok (times rho (fehlberg4 z + excess z), Rabs (fehlberg5 z - fehlberg4 z - excess z) * sup3 rho / h).
Proof. exact (fun lam x e b m h H => c83_stages lam x (- h) h H). Qed.
Print Assumptions C83_backward.
Example C83_example : exists r, rk45_step (fun x u => Ok (times x u)) (V3 1 0 0) 1 1 = Ok (V3 (65 / 24 + 1 / 104 + delta * (1 + 12 / 13 + 72 / 169 + 513 / 2197)) 0 0, r).
Proof.
  eexists. rewrite C83_forward by lra. f_equal. f_equal. unfold times, fehlberg4, taylor4, excess. cbn [v0 v1 v2].
  f_equal; field.
Qed.

(** ** C47 *)
(** The right-hand side for any matrix. *)
Theorem C47_rhodot : forall (rho g b : vec3 R) (m : mat3 R) j, (j < 3)%nat ->
  get j (rhodot rho g b m) = - get j g - get j b - (entry m 0 j * v0 rho + entry m 1 j * v1 rho + entry m 2 j * v2 rho).
Proof. exact rhodot_entries. Qed.
Print Assumptions C47_rhodot.
Example C47_example_rhodot : get 0 (rhodot (V3 1 10 100) (V3 0 0 0) (V3 0 0 0) (M3 (V3 1 2 3) (V3 4 5 6) (V3 7 8 9))) = - 741.
Proof. rewrite C47_rhodot by lia. cbn. lra. Qed.
