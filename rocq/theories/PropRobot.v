(** Property theorems for the robot models and the integrators: C43-C49.  Proofs in RobotProofs. *)
From Coq Require Import Reals ZArith List Lra Lia.
From Flocq Require Import Core.Raux IEEE754.BinarySingleNaN.
From Coquelicot Require Import Coquelicot.
From Verif Require Import Outcome Num Float64 NumericsModel RobotModel SpecMotion SpecRobot MotionProofs RobotProofs.
Import ListNotations.
Local Open Scope R_scope.

(** ** C43 *)
Theorem C43_omni : forall x u : vec3 R,
  jacobian (fun y => omni_f y u) (omni_fdx x u) x /\ jacobian (omni_f x) (omni_fdu x) u.
Proof. exact (fun x u => conj (omni_dx x u) (omni_du x u)). Qed.
Print Assumptions C43_omni.
Theorem C43_simple_cart : forall x u : vec3 R, Rabs (v1 u) < 1 / 1000000000000 ->
  jacobian (fun y => okv (simple_f y u)) (simple_fdx x u) x /\ jacobian (fun v => okv (simple_f x v)) (simple_fdu x) u.
Proof. exact (fun x u H => conj (simple_dx x u H) (simple_du x u H)). Qed.
Print Assumptions C43_simple_cart.
Theorem C43_cart : forall (wr wb : R) (x : vec3 R) (a b : R),
  jacobian (fun y => cart_f wr wb y (a, b)) (cart_fdx wr wb x (a, b)) x /\
  velocity (fun t => cart_f wr wb x (t, b)) a (fst (cart_fdu wr wb x)) /\
  velocity (fun t => cart_f wr wb x (a, t)) b (snd (cart_fdu wr wb x)).
Proof. exact (fun wr wb x a b => conj (cart_dx wr wb x (a, b)) (cart_du wr wb x a b)). Qed.
Print Assumptions C43_cart.
Theorem C43_mecanum : forall (wr bx by' : R) (x : vec3 R) (a b c d : R),
  jacobian (fun y => mec_f wr bx by' y (V4 a b c d)) (mec_fdx wr bx by' x (V4 a b c d)) x /\
  velocity (fun t => mec_f wr bx by' x (V4 t b c d)) a (rows4 (mec_fdu wr bx by' x) w0) /\
  velocity (fun t => mec_f wr bx by' x (V4 a t c d)) b (rows4 (mec_fdu wr bx by' x) w1) /\
  velocity (fun t => mec_f wr bx by' x (V4 a b t d)) c (rows4 (mec_fdu wr bx by' x) w2) /\
  velocity (fun t => mec_f wr bx by' x (V4 a b c t)) d (rows4 (mec_fdu wr bx by' x) w3).
Proof. exact (fun wr bx by' x a b c d => conj (mec_dx wr bx by' x (V4 a b c d)) (mec_du wr bx by' x a b c d)). Qed.
Print Assumptions C43_mecanum.
(** Driving forward while facing +x, turning changes the y velocity at unit rate. *)
Example C43_example : entry (omni_fdx (V3 0 0 0) (V3 1 0 1)) 1 2 = 1 /\ Rabs (v1 (V3 1 0 1)) < 1 / 1000000000000.
Proof. cbn. rewrite cos_0, sin_0, Rabs_R0. split; lra. Qed.

(** ** C44 *)
Theorem C44_cart : forall (wr wb : R) (x : vec3 R) (u : R * R), wb <> 0 ->
  cart_f wr wb x u = body (v2 x) (cart_twist wr wb u) /\ v1 (cart_twist wr wb u) = 0.
Proof. exact (fun wr wb x u H => conj (cart_body wr wb x u H) eq_refl). Qed.
Print Assumptions C44_cart.
Theorem C44_mecanum : forall (wr bx by' : R) (x : vec3 R) (u : vec4 R), bx + by' <> 0 ->
  mec_f wr bx by' x u = body (v2 x) (mec_twist wr bx by' u).
Proof. exact mec_body. Qed.
Print Assumptions C44_mecanum.
Theorem C44_mecanum_inverse : forall (wr bx by' : R) (u : vec3 R), wr <> 0 -> bx + by' <> 0 ->
  mec_twist wr bx by' (of4 (wheel_speeds wr bx by' u)) = u.
Proof. exact mec_inverse. Qed.
Print Assumptions C44_mecanum_inverse.
Theorem C44_simple_cart : forall x u : vec3 R, Rabs (v1 u) < 1 / 1000000000000 ->
  simple_f x u = Ok (body (v2 x) (V3 (v0 u) 0 (v2 u))).
Proof. exact simple_body. Qed.
Print Assumptions C44_simple_cart.
Theorem C44_omni : forall x u : vec3 R, omni_f x u = body (v2 x) u.
Proof. exact omni_body. Qed.
Print Assumptions C44_omni.
(** Both wheels at 2 rad/s with radius 1/10 drive straight at 1/5. *)
Example C44_example : cart_twist (1 / 10) (1 / 4) (2, 2) = V3 (1 / 5) 0 0 /\ 1 / 4 <> 0 /\
  mec_twist (1 / 10) (1 / 4) (1 / 4) (V4 2 2 2 2) = V3 (1 / 5) 0 0 /\ 1 / 4 + 1 / 4 <> 0.
Proof.
  unfold cart_twist, mec_twist, vscale, dot4, n0, n1, n2. cbn. repeat split; try lra;
    (apply NumericsProofs.V3_eq; field).
Qed.

(** ** C45 *)
Theorem C45_throws : forall x u : vec3 R, 1 / 1000000000000 <= Rabs (v1 u) -> simple_f x u = Throw EInvalidArgument.
Proof. exact simple_throws. Qed.
Print Assumptions C45_throws.
Theorem C45_accepts : forall x u : vec3 R, Rabs (v1 u) < 1 / 1000000000000 ->
  simple_f x u = Ok (V3 (v0 u * cos (v2 x)) (v0 u * sin (v2 x)) (v2 u)).
Proof. exact simple_ok. Qed.
Print Assumptions C45_accepts.
Theorem C45_binary64 : forall (L : libm) (x u : vec3 b64),
  (is_nan (v1 u) = true \/ Bleb eps64 (Babs (v1 u)) = true -> @simple_f b64 (F64 L) x u = Throw EInvalidArgument) /\
  (is_nan (v1 u) = false -> Bltb (Babs (v1 u)) eps64 = true -> is_ok (@simple_f b64 (F64 L) x u) = true).
Proof. exact c45_b64. Qed.
Print Assumptions C45_binary64.
Example C45_example : 1 / 1000000000000 <= Rabs (v1 (V3 1 (1 / 10) 0)) /\ Rabs (v1 (V3 1 0 5)) < 1 / 1000000000000 /\
  Bleb eps64 (Babs (b64_ofZ (-1))) = true /\ Bltb (Babs (b64_ofZ 0)) eps64 = true.
Proof.
  cbn [v1]. rewrite Rabs_R0, Rabs_right by lra. split; [lra|]. split; [lra|]. split; vm_compute; reflexivity.
Qed.

(** ** C46 *)
Theorem C46_step : forall dt (x u : vec3 R) g, twist_motion x (v0 u) (v1 u) (v2 u) g ->
  exists y, rk4_step dt (rb_f omni) x u = Ok y /\ v2 y = v2 x + v2 u * dt /\
    gap y (g dt) <= speed u * Rabs dt * (v2 u * dt) ^ 4 / 2880.
Proof. exact c46_step. Qed.
Print Assumptions C46_step.
Theorem C46_columns : forall (U : Type) dt (f : vec3 R -> U -> res (vec3 R)) x ut h xt n,
  num_steps dt h = Ok n -> rk4_solve dt f x ut h = Ok xt ->
  lenZ xt = n /\
  forall i p u q, nth_error (x :: xt) i = Some p -> nth_error ut i = Some u -> nth_error xt i = Some q ->
    exists y, rk4_step dt f p u = Ok y /\ v0 q = v0 y /\ v1 q = v1 y /\ - PI <= v2 q < PI /\ same_angle (v2 q) (v2 y).
Proof. exact @c46_cols. Qed.
Print Assumptions C46_columns.
Theorem C46_step_count : forall dt h n, dt <> 0 -> num_steps dt h = Ok n ->
  (0 <= n)%Z /\ IZR n * Rabs dt <= Rabs h < (IZR n + 1) * Rabs dt.
Proof. exact c27_steps. Qed.
Print Assumptions C46_step_count.
Theorem C46_defined : forall dt (x : vec3 R) ut h n, num_steps dt h = Ok n ->
  ((n <= lenZ ut)%Z -> is_ok (rk4_solve dt (rb_f omni) x ut h) = true) /\
  ((lenZ ut < n)%Z -> rk4_solve dt (rb_f omni) x ut h = Throw EArma).
Proof. exact c46_defined. Qed.
Print Assumptions C46_defined.
(** The errors of the steps add up; the heading stays exact up to full turns. *)
Theorem C46_trajectory : forall dt (x : vec3 R) ut h xt i q y,
  rk4_solve dt (rb_f omni) x ut h = Ok xt -> nth_error xt i = Some q -> driven dt x (firstn (S i) ut) y ->
  gap q y <= total (map (rk4_error dt) (firstn (S i) ut)) /\ same_angle (v2 q) (v2 y).
Proof. exact c46_global. Qed.
Print Assumptions C46_trajectory.
Theorem C46_driven_exists : forall dt us (x : vec3 R), exists y, driven dt x us y.
Proof. exact driven_exists. Qed.
Print Assumptions C46_driven_exists.
Example C46_example : num_steps (1 / 10) (1 / 2) = Ok 5%Z /\
  (5 <= lenZ (repeat (V3 1 0 1) 5))%Z /\
  is_ok (rk4_solve (1 / 10) (rb_f omni) (V3 0 0 0) (repeat (V3 1 0 1) 5) (1 / 2)) = true /\
  twist_motion (V3 0 0 0) 1 0 1 (flow (V3 0 0 0) 1 0 1).
Proof.
  split; [exact steps_example|]. split; [cbn; lia|]. split; [|apply flow_motion].
  apply (proj1 (c46_defined _ _ _ _ _ steps_example)). cbn. lia.
Qed.

(** ** C47 *)
Theorem C47_exact_step : forall dt (rho g b x u : vec3 R) gam,
  costate_motion g b (omni_fdx x u) rho gam -> co_step dt rhodot rho g b (omni_fdx x u) = gam (- dt).
Proof. exact (fun dt rho g b x u gam => c47_step dt rho g b _ gam (nilp_omni x u)). Qed.
Print Assumptions C47_exact_step.
Theorem C47_exact_step_simple_cart : forall dt (rho g b x u : vec3 R) gam,
  costate_motion g b (simple_fdx x u) rho gam -> co_step dt rhodot rho g b (simple_fdx x u) = gam (- dt).
Proof. exact (fun dt rho g b x u gam => c47_step dt rho g b _ gam (nilp_simple x u)). Qed.
Print Assumptions C47_exact_step_simple_cart.
Theorem C47_exact_step_cart : forall dt (rho g b x : vec3 R) wr wb u gam,
  costate_motion g b (cart_fdx wr wb x u) rho gam -> co_step dt rhodot rho g b (cart_fdx wr wb x u) = gam (- dt).
Proof. exact (fun dt rho g b x wr wb u gam => c47_step dt rho g b _ gam (nilp_cart wr wb x u)). Qed.
Print Assumptions C47_exact_step_cart.
Theorem C47_exact_step_mecanum : forall dt (rho g b x : vec3 R) wr bx by' u gam,
  costate_motion g b (mec_fdx wr bx by' x u) rho gam -> co_step dt rhodot rho g b (mec_fdx wr bx by' x u) = gam (- dt).
Proof. exact (fun dt rho g b x wr bx by' u gam => c47_step dt rho g b _ gam (nilp_mec wr bx by' x u)). Qed.
Print Assumptions C47_exact_step_mecanum.
Theorem C47_recurrence : forall (U : Type) dt func (fdx : vec3 R -> U -> mat3 R) rhoT xt ut edx bdx h rs n,
  num_steps dt h = Ok n -> co_solve dt func fdx rhoT xt ut edx bdx h = Ok rs ->
  lenZ rs = n /\
  forall j, (j < length rs)%nat -> exists e b x u nx,
    nth_error edx j = Some e /\ nth_error bdx j = Some b /\ nth_error xt j = Some x /\ nth_error ut j = Some u /\
    nth_error (rs ++ [rhoT]) (S j) = Some nx /\ nth_error rs j = Some (co_step dt func nx e b (fdx x u)).
Proof. exact @c47_recurrence. Qed.
Print Assumptions C47_recurrence.
Theorem C47_forward_order : forall (U : Type) dt func (fdx : vec3 R -> U -> mat3 R) rhoT xt ut edx bdx xt' ut' edx' bdx' h rs rs' k,
  co_solve dt func fdx rhoT xt ut edx bdx h = Ok rs -> co_solve dt func fdx rhoT xt' ut' edx' bdx' h = Ok rs' ->
  (forall j, (k <= j)%nat -> nth_error xt j = nth_error xt' j /\ nth_error ut j = nth_error ut' j /\
     nth_error edx j = nth_error edx' j /\ nth_error bdx j = nth_error bdx' j) ->
  forall j, (k <= j)%nat -> nth_error rs j = nth_error rs' j.
Proof. exact @c47_causal. Qed.
Print Assumptions C47_forward_order.
Theorem C47_defined : forall (U : Type) dt func (fdx : vec3 R -> U -> mat3 R) rhoT xt ut edx bdx h n,
  num_steps dt h = Ok n ->
  ((n <= lenZ xt)%Z /\ (n <= lenZ ut)%Z /\ (n <= lenZ edx)%Z /\ (n <= lenZ bdx)%Z ->
    is_ok (co_solve dt func fdx rhoT xt ut edx bdx h) = true) /\
  ((lenZ xt < n)%Z \/ (lenZ ut < n)%Z \/ (lenZ edx < n)%Z \/ (lenZ bdx < n)%Z ->
    co_solve dt func fdx rhoT xt ut edx bdx h = Throw EArma).
Proof. exact @c47_defined. Qed.
Print Assumptions C47_defined.
Example C47_example : exists gam,
  costate_motion (V3 1 0 0) (V3 0 2 0) (omni_fdx (V3 0 0 0) (V3 1 0 1)) (V3 0 0 3) gam.
Proof. exact (c47_exists _ _ _ _ (nilp_omni _ _)). Qed.
Example C47_example_solve : forall l : list (vec3 R), length l = 5%nat ->
  is_ok (co_solve (1 / 10) rhodot omni_fdx (V3 0 0 0) l l l l (1 / 2)) = true.
Proof.
  intros l H. apply (proj1 (c47_defined _ _ _ _ _ _ _ _ _ _ steps_example)). unfold lenZ. rewrite H. cbn. lia.
Qed.

(** ** C48 *)
(** Along a line on which the derivative is [d], a step ends (1 + delta) h d away instead of h d, and
    the reported error does not depend on h. *)
Theorem C48_step : forall (U : Type) (f : vec3 R -> U -> res (vec3 R)) x u h d, 0 < h ->
  (forall s, f (V3 (v0 x + v0 d * s) (v1 x + v1 d * s) (v2 x + v2 d * s)) u = Ok d) ->
  rk45_step f x u h =
  Ok (V3 (v0 x + v0 d * ((1 + delta) * h)) (v1 x + v1 d * ((1 + delta) * h)) (v2 x + v2 d * ((1 + delta) * h)), delta * sup3 d).
Proof. exact @step_line. Qed.
Print Assumptions C48_step.
Theorem C48_exact_refuted : exists (x u d : vec3 R) (h : R), 0 < h /\
  (forall s, rb_f omni (V3 (v0 x + v0 d * s) (v1 x + v1 d * s) (v2 x + v2 d * s)) u = Ok d) /\
  forall y r, rk45_step (rb_f omni) x u h = Ok (y, r) ->
    y <> V3 (v0 x + v0 d * h) (v1 x + v1 d * h) (v2 x + v2 d * h) /\ 0 < r.
Proof.
  exists (V3 0 0 0), (V3 1 0 0), (V3 1 0 0), 1.
  assert (F : forall s, rb_f omni (V3 (0 + 1 * s) (0 + 0 * s) (0 + 0 * s)) (V3 1 0 0) = Ok (V3 1 0 0)).
  { intros s. unfold omni, rb_f. f_equal. rewrite (omni_at (V3 0 0 0) _ _ 0) by (cbn [v2]; ring).
    unfold body. cbn [v0 v1 v2]. rewrite cos_0, sin_0. apply NumericsProofs.V3_eq; ring. }
  split; [lra|]. split; [exact F|]. intros y r E. rewrite (step_line (rb_f omni) (V3 0 0 0) (V3 1 0 0) 1 (V3 1 0 0) Rlt_0_1 F) in E.
  injection E as <- <-. split.
  - intros K. injection K as K _ _. cbn in K. pose proof delta_pos. lra.
  - unfold sup3. cbn [v0 v1 v2]. rewrite Rabs_R1, Rabs_R0. repeat rewrite (Rmax_left 1 0) by lra. pose proof delta_pos. lra.
Qed.
Print Assumptions C48_exact_refuted.
Theorem C48_never_accepts : forall (U : Type) (c : rk45 R) (f : vec3 R -> U -> res (vec3 R)) x d u0 ut dt horizon n m,
  0 < rk_hmin c -> rk_hmin c <= rk_hmax c -> 1 / 1000000000000 <= horizon -> (0 <= rk_iter c < two32)%Z ->
  (forall s, f (V3 (v0 x + v0 d * s) (v1 x + v1 d * s) (v2 x + v2 d * s)) u0 = Ok d) ->
  rk_eps c + 1 / 1000000000000 <= delta * sup3 d ->
  num_steps dt horizon = Ok n -> to_u32 (horizon / rk_hmin c) = Ok m -> (m + 1 < two32)%Z ->
  rk45_solve c f x (u0 :: ut) dt horizon = Ok None.
Proof. exact @c48_never_accepts. Qed.
Print Assumptions C48_never_accepts.
(** Driving straight at 1 m/s with tolerance 1e-4 meets the error condition. *)
Example C48_example : 1 / 10000 + 1 / 1000000000000 <= delta * sup3 (V3 1 0 0).
Proof. unfold sup3, delta. cbn [v0 v1 v2]. rewrite Rabs_R1, Rabs_R0. repeat rewrite (Rmax_left 1 0) by lra. lra. Qed.

(** ** C49 *)
Theorem C49_terminates : forall (T : Type) (NT : Num T) (U : Type) (c : rk45 T) (f : vec3 T -> U -> res (vec3 T)) x0 ut dt horizon,
  (0 <= rk_iter c < two32)%Z -> (forall x u, f x u <> Diverge) ->
  rk45_solve c f x0 ut dt horizon <> Diverge.
Proof. exact @c49_terminates. Qed.
Print Assumptions C49_terminates.
Theorem C49_costate_terminates : forall (T : Type) (NT : Num T) (U : Type) (c : rk45 T) func (fdx : vec3 T -> U -> mat3 T) rhoT xt ut edx bdx dt horizon,
  (0 <= rk_iter c < two32)%Z -> rk45_co_solve c func fdx rhoT xt ut edx bdx dt horizon <> Diverge.
Proof. exact @c49_co_terminates. Qed.
Print Assumptions C49_costate_terminates.
(** Equal step limits that do not divide the horizon: the write past the last column is caught by the
    bounds check. *)
Theorem C49_storage_refuted : forall (U : Type) (c : rk45 R) (f : vec3 R -> U -> res (vec3 R)) ut d steps h0 horizon dt x,
  0 < h0 -> rk_hmin c = h0 -> rk_hmax c = h0 -> (forall x u, f x u = Ok d) -> delta * sup3 d < rk_eps c ->
  num_steps dt horizon = Ok steps -> (1 <= steps <= lenZ ut)%Z -> h0 <= horizon ->
  (Zfloor (horizon / h0) <= rk_iter c < two32 - 1)%Z ->
  IZR (Zfloor (horizon / h0)) * h0 + 1 / 1000000000000 <= horizon ->
  rk45_solve c f x ut dt horizon = Throw EArma.
Proof. exact @c49_overflow. Qed.
Print Assumptions C49_storage_refuted.
(** One more column would do, for every model and tolerance. *)
Theorem C49_one_more_column : forall (U : Type) (c : rk45 R) (f : vec3 R -> U -> res (vec3 R)) ut steps ms horizon x,
  0 < rk_hmin c -> rk_hmin c <= rk_hmax c -> 1 / 1000000000000 <= horizon -> (forall x u, is_ok (f x u) = true) ->
  (1 <= steps <= two32)%Z -> (steps <= lenZ ut)%Z -> (Zfloor (horizon / rk_hmin c) + 2 <= ms)%Z -> (0 <= rk_iter c < two32)%Z ->
  is_ok (rk45_loop (S (Z.to_nat (rk_iter c))) c f ut steps ms horizon x 0 ((rk_hmax c + rk_hmin c) / 2) [(0, x)] 0) = true.
Proof. exact @c49_one_more. Qed.
Print Assumptions C49_one_more_column.
(** Steps of 0.3 over a horizon of 0.5, at rest. *)
Example C49_example :
  rk45_solve (mkRK45 (3 / 10) (3 / 10) (1 / 1000) 100) (fun (_ _ : vec3 R) => Ok (V3 0 0 0)) (V3 0 0 0)
    (repeat (V3 0 0 0) 5) (1 / 10) (1 / 2) = Throw EArma.
Proof.
  assert (F : Zfloor (1 / 2 / (3 / 10)) = 1%Z) by (apply Zfloor_imp; cbn [Z.add Pos.add]; split; lra).
  apply (c49_overflow _ _ _ (V3 0 0 0) 5 (3 / 10)); rewrite ?F; cbn; try lra; try lia; try reflexivity.
  - unfold sup3. cbn. rewrite Rabs_R0. repeat rewrite (Rmax_left 0 0) by lra. lra.
  - exact steps_example.
Qed.
