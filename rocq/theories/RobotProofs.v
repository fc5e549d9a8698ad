From Coq Require Import Reals ZArith List Lra Lia Psatz.
From Flocq Require Import Core.Raux Core.Round_NE Core.Generic_fmt.
From Coquelicot Require Import Coquelicot.
From Verif Require Import Outcome Num Float64 GridModel GridProofs CollisionModel NumericsModel SpecMotion TrigLemmas NumericsProofs MotionProofs RobotModel SpecRobot.
Import ListNotations.
Local Open Scope R_scope.

Ltac rrn := unfold lit, n0, n1, n2; cbn [nadd nsub nmul ndiv nneg nabs nsqrt nfloor nround nsin ncos nexp nln natan2 npow nlt nle nofZ ntrunc nto32 npi nmax RNum] in *.

Lemma lt3 (P : nat -> Prop) : P 0%nat -> P 1%nat -> P 2%nat -> forall i, (i < 3)%nat -> P i.
Proof. intros ? ? ? i Hi. destruct i as [|[|[|]]]; auto; lia. Qed.

Lemma jac_intro f m x :
  (forall i, (i < 3)%nat -> is_derive (fun t => get i (f (upd x 0 t))) (v0 x) (entry m i 0)) ->
  (forall i, (i < 3)%nat -> is_derive (fun t => get i (f (upd x 1 t))) (v1 x) (entry m i 1)) ->
  (forall i, (i < 3)%nat -> is_derive (fun t => get i (f (upd x 2 t))) (v2 x) (entry m i 2)) -> jacobian f m x.
Proof. intros A B C i j Hi Hj. destruct j as [|[|[|]]]; [exact (A i Hi)|exact (B i Hi)|exact (C i Hi)|lia]. Qed.
Ltac each := let i := fresh in let H := fresh in intros i H; destruct i as [|[|[|]]]; [| | |exfalso; lia].
Ltac cder := first [apply @is_derive_const | auto_derive; auto; ring].

(** C43 *)
Lemma omni_dx x u : jacobian (fun y => omni_f y u) (omni_fdx x u) x.
Proof.
  apply jac_intro; each; cbn [get upd entry omni_f omni_fdx v0 v1 v2 r0 r1 r2]; rrn; cder.
Qed.
Lemma omni_du x u : jacobian (omni_f x) (omni_fdu x) u.
Proof.
  apply jac_intro; each; cbn [get upd entry omni_f omni_fdu v0 v1 v2 r0 r1 r2]; rrn; cder.
Qed.
Lemma cart_dx wr wb x u : jacobian (fun y => cart_f wr wb y u) (cart_fdx wr wb x u) x.
Proof.
  apply jac_intro; each; unfold cart_f, cart_fdx, vscale; cbn [get upd entry v0 v1 v2 r0 r1 r2]; rrn;
    try apply @is_derive_const; unfold Rdiv; auto_derive; auto; ring.
Qed.
Lemma cart_du wr wb x u0 u1 :
  velocity (fun t => cart_f wr wb x (t, u1)) u0 (fst (cart_fdu wr wb x)) /\
  velocity (fun t => cart_f wr wb x (u0, t)) u1 (snd (cart_fdu wr wb x)).
Proof.
  split; unfold velocity; each; unfold cart_f, cart_fdu, vscale; cbn [get v0 v1 v2 fst snd]; rrn; unfold Rdiv; auto_derive; auto; ring.
Qed.
Lemma mec_dx wr bx by' x u : jacobian (fun y => mec_f wr bx by' y u) (mec_fdx wr bx by' x u) x.
Proof.
  apply jac_intro; each; unfold mec_f, mec_fdx; cbn [get upd entry v0 v1 v2 r0 r1 r2 w0 w1 w2 w3]; rrn;
    try apply @is_derive_const; unfold Rdiv; auto_derive; auto; ring.
Qed.
Lemma mec_du wr bx by' x a b c d :
  velocity (fun t => mec_f wr bx by' x (V4 t b c d)) a (rows4 (mec_fdu wr bx by' x) w0) /\
  velocity (fun t => mec_f wr bx by' x (V4 a t c d)) b (rows4 (mec_fdu wr bx by' x) w1) /\
  velocity (fun t => mec_f wr bx by' x (V4 a b t d)) c (rows4 (mec_fdu wr bx by' x) w2) /\
  velocity (fun t => mec_f wr bx by' x (V4 a b c t)) d (rows4 (mec_fdu wr bx by' x) w3).
Proof.
  repeat apply conj; unfold velocity; each; unfold mec_f, mec_fdu, rows4; cbn [get v0 v1 v2 fst snd w0 w1 w2 w3]; rrn;
    unfold Rdiv; auto_derive; auto; ring.
Qed.

Lemma simple_ok x u : Rabs (v1 u) < 1 / 1000000000000 ->
  simple_f x u = Ok (V3 (v0 u * cos (v2 x)) (v0 u * sin (v2 x)) (v2 u)).
Proof.
  intros H. unfold simple_f.
  assert (E : almost_equal (v1 u) n0 = true).
  { apply (proj2 (almost_equal_R _ _)). unfold n0. cbn [nofZ RNum]. rewrite Rminus_0_r. exact H. }
  rewrite E. reflexivity.
Qed.
Lemma simple_throws x u : 1 / 1000000000000 <= Rabs (v1 u) -> simple_f x u = Throw EInvalidArgument.
Proof.
  intros H. unfold simple_f.
  assert (E : almost_equal (v1 u) n0 = false).
  { apply (proj2 (almost_equal_Rf _ _)). unfold n0. cbn [nofZ RNum]. rewrite Rminus_0_r. exact H. }
  rewrite E. reflexivity.
Qed.
Lemma simple_dx x u : Rabs (v1 u) < 1 / 1000000000000 ->
  jacobian (fun y => okv (simple_f y u)) (simple_fdx x u) x.
Proof.
  intros H. apply jac_intro; intros i Hi;
    (eapply is_derive_ext; [intros t; rewrite simple_ok by exact H; reflexivity|]); revert i Hi; each;
    cbn [okv get upd entry simple_fdx v0 v1 v2 r0 r1 r2]; rrn; cder.
Qed.
Lemma simple_du x u : Rabs (v1 u) < 1 / 1000000000000 ->
  jacobian (fun v => okv (simple_f x v)) (simple_fdu x) u.
Proof.
  intros H. apply jac_intro; intros i Hi.
  1,3: (eapply is_derive_ext; [intros t; rewrite simple_ok by exact H; reflexivity|]); revert i Hi; each;
    cbn [okv get upd entry simple_fdu v0 v1 v2 r0 r1 r2]; rrn; cder.
  apply is_derive_ext_loc with (f := fun _ => get i (V3 (v0 u * cos (v2 x)) (v0 u * sin (v2 x)) (v2 u))).
  - assert (P : 0 < 1 / 1000000000000 - Rabs (v1 u)) by lra.
    exists (mkposreal _ P). intros y Hy. cbn in Hy. unfold ball in Hy; cbn in Hy. unfold AbsRing_ball, abs, minus, plus, opp in Hy; cbn in Hy.
    rewrite simple_ok; [reflexivity|]. cbn [upd v1].
    replace y with (v1 u + (y + - v1 u)) by ring. eapply Rle_lt_trans; [apply Rabs_triang|]. lra.
  - revert i Hi; each; cbn [get entry simple_fdu v0 v1 v2 r0 r1 r2]; rrn; apply @is_derive_const.
Qed.

(** C44 *)
Lemma omni_body x u : omni_f x u = body (v2 x) u.
Proof. reflexivity. Qed.
Lemma cart_body wr wb x u : wb <> 0 -> cart_f wr wb x u = body (v2 x) (cart_twist wr wb u).
Proof.
  intros H. unfold cart_f, cart_twist, body, vscale. cbn [v0 v1 v2]. rrn. apply V3_eq; field; auto.
Qed.
Lemma mec_body wr bx by' x u : bx + by' <> 0 -> mec_f wr bx by' x u = body (v2 x) (mec_twist wr bx by' u).
Proof.
  intros H. unfold mec_f, mec_twist, body, vscale, dot4. cbn [v0 v1 v2 w0 w1 w2 w3]. rrn. apply V3_eq; field; auto.
Qed.
Lemma simple_body x u : Rabs (v1 u) < 1 / 1000000000000 -> simple_f x u = Ok (body (v2 x) (V3 (v0 u) 0 (v2 u))).
Proof.
  intros H. rewrite simple_ok by exact H. f_equal. unfold body. cbn [v0 v1 v2]. apply V3_eq; ring.
Qed.
Lemma mec_inverse wr bx by' u : wr <> 0 -> bx + by' <> 0 -> mec_twist wr bx by' (of4 (wheel_speeds wr bx by' u)) = u.
Proof.
  intros H H'. destruct u as [a b c]. unfold mec_twist, wheel_speeds, of4, vscale, dot4. cbn [v0 v1 v2 w0 w1 w2 w3].
  rrn. apply V3_eq; field; auto.
Qed.

(** C46: Simpson's rule for the sine *)
Lemma bound_by_derivative (f f' g g' : R -> R) :
  f 0 = 0 -> g 0 = 0 -> (forall t, is_derive f t (f' t)) -> (forall t, is_derive g t (g' t)) ->
  (forall t, 0 <= t -> Rabs (f' t) <= g' t) -> forall t, 0 <= t -> Rabs (f t) <= g t.
Proof.
  intros F0 G0 F G B t Ht.
  assert (M : forall h h', (forall t, is_derive h t (h' t)) -> h 0 = 0 -> (forall t, 0 <= t -> 0 <= h' t) -> 0 <= h t).
  { intros h h' D H0 P. destruct (MVT_gen h 0 t h') as (c & Hc & E).
    - intros; apply D.
    - intros. apply continuity_pt_filterlim. apply (ex_derive_continuous h). exists (h' x); apply D.
    - rewrite Rmin_left in Hc by lra. rewrite H0 in E. specialize (P c ltac:(lra)). nra. }
  apply Rabs_le. split.
  - assert (0 <= g t + f t); [|lra].
    apply (M (fun t => g t + f t) (fun t => g' t + f' t)).
    + intros s. apply (is_derive_plus (V := R_NormedModule) g f); auto.
    + lra.
    + intros s Hs. specialize (B s Hs). pose proof (Rabs_le_between (f' s) (g' s)) as K. apply K in B. lra.
  - assert (0 <= g t - f t); [|lra].
    apply (M (fun t => g t - f t) (fun t => g' t - f' t)).
    + intros s. apply (is_derive_minus (V := R_NormedModule) g f); auto.
    + lra.
    + intros s Hs. specialize (B s Hs). pose proof (Rabs_le_between (f' s) (g' s)) as K. apply K in B. lra.
Qed.
Lemma simpson_pos a : 0 <= a -> Rabs (a * (2 + cos a) - 3 * sin a) <= a ^ 5 / 60.
Proof.
  assert (S : forall t, 0 <= t -> Rabs (sin t) <= t).
  { apply (bound_by_derivative sin cos (fun t => t) (fun _ => 1)).
    - apply sin_0.
    - reflexivity.
    - intros t; auto_derive; [trivial|ring].
    - intros t; auto_derive; [trivial|ring].
    - intros t _. apply Rabs_le. pose proof (COS_bound t). lra. }
  assert (A : forall t, 0 <= t -> Rabs (sin t - t * cos t) <= t ^ 3 / 3).
  { apply (bound_by_derivative (fun t => sin t - t * cos t) (fun t => t * sin t) (fun t => t ^ 3 / 3) (fun t => t ^ 2)).
    - rewrite sin_0. ring.
    - field.
    - intros t; auto_derive; [trivial|ring].
    - intros t; auto_derive; [trivial|field].
    - intros t Ht. rewrite Rabs_mult, (Rabs_right t) by lra. specialize (S t Ht). nra. }
  assert (B : forall t, 0 <= t -> Rabs (2 - 2 * cos t - t * sin t) <= t ^ 4 / 12).
  { apply (bound_by_derivative (fun t => 2 - 2 * cos t - t * sin t) (fun t => sin t - t * cos t) (fun t => t ^ 4 / 12) (fun t => t ^ 3 / 3)).
    - rewrite cos_0. ring.
    - field.
    - intros t; auto_derive; [trivial|ring].
    - intros t; auto_derive; [trivial|field].
    - exact A. }
  apply (bound_by_derivative (fun t => t * (2 + cos t) - 3 * sin t) (fun t => 2 - 2 * cos t - t * sin t) (fun t => t ^ 5 / 60) (fun t => t ^ 4 / 12)).
  - rewrite sin_0. ring.
  - field.
  - intros t; auto_derive; [trivial|ring].
  - intros t; auto_derive; [trivial|field].
  - exact B.
Qed.
Lemma simpson_bound a : Rabs (a * (2 + cos a) - 3 * sin a) <= Rabs a ^ 5 / 60.
Proof.
  destruct (Rle_or_lt 0 a) as [H|H].
  - rewrite (Rabs_right a) by lra. apply simpson_pos; exact H.
  - rewrite (Rabs_left a) by lra. pose proof (simpson_pos (- a) ltac:(lra)) as K.
    rewrite cos_neg, sin_neg in K. rewrite <- Rabs_Ropp. eapply Rle_trans; [|exact K]. right. f_equal. ring.
Qed.

(** One step from [x], before the heading is wrapped. *)
Definition rk (dt : R) (x u : vec3 R) : vec3 R :=
  let a := v2 u * dt / 2 in let m := v2 x + a in
  V3 (v0 x + dt * ((2 + cos a) / 3) * (v0 u * cos m - v1 u * sin m))
     (v1 x + dt * ((2 + cos a) / 3) * (v0 u * sin m + v1 u * cos m))
     (v2 x + v2 u * dt).
Lemma omni_at (x y u : vec3 R) th : v2 y = th -> omni_f y u = body th u.
Proof. intros <-. reflexivity. Qed.
Lemma rk_omni dt x u : rk4_step dt (rb_f omni) x u = Ok (rk dt x u).
Proof.
  unfold rk4_step, omni, rb_f, bind. f_equal.
  set (th := v2 x). set (w := v2 u). set (m := th + w * dt / 2).
  set (k1 := omni_f x u). assert (K1 : k1 = body th u) by (apply (omni_at x); reflexivity). clearbody k1.
  set (k2 := omni_f (vadd x (vscale (vscale k1 half) dt)) u).
  assert (K2 : k2 = body m u).
  { apply (omni_at x). rewrite K1. unfold vadd, vscale, half, body, m. cbn [v0 v1 v2]. rrn. fold th w. field. }
  clearbody k2.
  set (k3 := omni_f (vadd x (vscale (vscale k2 half) dt)) u).
  assert (K3 : k3 = body m u).
  { apply (omni_at x). rewrite K2. unfold vadd, vscale, half, body, m. cbn [v0 v1 v2]. rrn. fold th w. field. }
  clearbody k3.
  set (k4 := omni_f (vadd x (vscale k3 dt)) u).
  assert (K4 : k4 = body (m + w * dt / 2) u).
  { apply (omni_at x). rewrite K3. unfold vadd, vscale, half, body, m. cbn [v0 v1 v2]. rrn. fold th w. field. }
  clearbody k4. subst k1 k2 k3 k4.
  unfold rk, vadd, vscale, body. cbn [v0 v1 v2]. rrn. fold th w.
  assert (E1 : th = m - w * dt / 2) by (unfold m; field). fold m.
  set (a := w * dt / 2) in *.
  assert (C : cos th = cos m * cos a + sin m * sin a) by (rewrite E1; apply cos_minus).
  assert (S : sin th = sin m * cos a - cos m * sin a) by (rewrite E1; apply sin_minus).
  apply V3_eq.
  - rewrite C, S, cos_plus, sin_plus. field.
  - rewrite C, S, cos_plus, sin_plus. field.
  - field.
Qed.

Lemma gap_scaled a b dx dy k : v0 a - v0 b = k * dx -> v1 a - v1 b = k * dy -> gap a b = Rabs k * sqrt (dx ^ 2 + dy ^ 2).
Proof.
  intros E1 E2. unfold gap. rewrite E1, E2.
  replace ((k * dx) ^ 2 + (k * dy) ^ 2) with (Rsqr k * (dx ^ 2 + dy ^ 2)) by (unfold Rsqr; ring).
  rewrite sqrt_mult by (unfold Rsqr; nra). rewrite sqrt_Rsqr_abs. reflexivity.
Qed.
Lemma rk_flow_gap dt x u :
  gap (rk dt x u) (flow x (v0 u) (v1 u) (v2 u) dt) <= speed u * Rabs dt * (v2 u * dt) ^ 4 / 2880.
Proof.
  set (w := v2 u). set (a := w * dt / 2). set (m := v2 x + a).
  set (dx := v0 u * cos m - v1 u * sin m). set (dy := v0 u * sin m + v1 u * cos m).
  assert (SP : sqrt (dx ^ 2 + dy ^ 2) = speed u).
  { unfold speed. f_equal. unfold dx, dy. pose proof (sc1 m).
    transitivity ((v0 u ^ 2 + v1 u ^ 2) * (sin m * sin m + cos m * cos m)); [ring|rewrite H; ring]. }
  destruct (Req_EM_T w 0) as [W|W].
  - assert (A0 : a = 0) by (unfold a; rewrite W; field).
    assert (M0 : m = v2 x) by (unfold m; rewrite A0; ring).
    rewrite (gap_scaled _ _ dx dy 0).
    + rewrite Rabs_R0, W. right. field.
    + unfold rk, flow. fold w a m. destruct (Req_EM_T w 0); [|contradiction]. cbn [v0]. rewrite A0, cos_0, M0. field.
    + unfold rk, flow. fold w a m. destruct (Req_EM_T w 0); [|contradiction]. cbn [v1]. rewrite A0, cos_0, M0. field.
  - assert (E1 : v2 x = m - a) by (unfold m; ring).
    assert (E2 : v2 x + w * dt = m + a) by (unfold m, a; field).
    set (D := 2 / 3 * (a * (2 + cos a) - 3 * sin a) / w).
    rewrite (gap_scaled _ _ dx dy D).
    + rewrite SP.
      assert (B : Rabs D <= Rabs dt * (w * dt) ^ 4 / 2880).
      { unfold D, Rdiv. rewrite (Rabs_mult _ (/ w)), Rabs_inv, (Rabs_mult (2 * / 3)). rewrite (Rabs_right (2 * / 3)) by lra.
        pose proof (simpson_bound a) as K. assert (P : 0 < Rabs w) by (apply Rabs_pos_lt; exact W).
        assert (A5 : Rabs a ^ 5 = Rabs w * (Rabs dt * (w * dt) ^ 4) / 32).
        { assert (AA : Rabs a = Rabs w * Rabs dt / 2).
          { unfold a, Rdiv. rewrite !Rabs_mult, (Rabs_right (/ 2)) by lra. reflexivity. }
          assert (W2 : Rabs w ^ 2 = w ^ 2) by (apply pow2_abs).
          assert (D2 : Rabs dt ^ 2 = dt ^ 2) by (apply pow2_abs).
          rewrite AA.
          transitivity (Rabs w * Rabs dt * (Rabs w ^ 2) ^ 2 * (Rabs dt ^ 2) ^ 2 / 32); [field|].
          rewrite W2, D2. field. }
        rewrite A5 in K. apply Rmult_le_reg_r with (Rabs w); [exact P|].
        replace (2 * / 3 * Rabs (a * (2 + cos a) - 3 * sin a) * / Rabs w * Rabs w) with (2 * / 3 * Rabs (a * (2 + cos a) - 3 * sin a)) by (field; lra).
        lra. }
      pose proof (sqrt_pos (v0 u ^ 2 + v1 u ^ 2)) as Q. fold (speed u) in Q.
      apply Rle_trans with (speed u * (Rabs dt * (w * dt) ^ 4 / 2880)); [|right; field].
      rewrite (Rmult_comm (Rabs D)). apply Rmult_le_compat_l; assumption.
    + unfold rk, flow. fold w a m. destruct (Req_EM_T w 0); [contradiction|]. cbn [v0].
      rewrite E2, E1, cos_plus, cos_minus, sin_plus, sin_minus. unfold D, dx. replace dt with (2 * a / w) by (unfold a; field; exact W).
      field; exact W.
    + unfold rk, flow. fold w a m. destruct (Req_EM_T w 0); [contradiction|]. cbn [v1].
      rewrite E2, E1, cos_plus, cos_minus, sin_plus, sin_minus. unfold D, dy. replace dt with (2 * a / w) by (unfold a; field; exact W).
      field; exact W.
Qed.
Lemma c46_step dt x u g : twist_motion x (v0 u) (v1 u) (v2 u) g ->
  exists y, rk4_step dt (rb_f omni) x u = Ok y /\ v2 y = v2 x + v2 u * dt /\
    gap y (g dt) <= speed u * Rabs dt * (v2 u * dt) ^ 4 / 2880.
Proof.
  intros G. exists (rk dt x u). split; [apply rk_omni|]. split; [reflexivity|].
  rewrite (motion_unique _ _ _ _ _ G). apply rk_flow_gap.
Qed.

(** gap is a distance *)
Lemma gap_sym a b : gap a b = gap b a.
Proof. unfold gap. f_equal. ring. Qed.
Lemma gap_tri a b c : gap a c <= gap a b + gap b c.
Proof.
  assert (G : forall a b, gap a b = dist_euc (v0 a) (v1 a) (v0 b) (v1 b)).
  { intros. unfold gap, dist_euc. f_equal. unfold Rsqr. ring. }
  rewrite !G. apply triangle.
Qed.
Lemma flow_gap x y vx vy w t : same_angle (v2 x) (v2 y) ->
  gap (flow x vx vy w t) (flow y vx vy w t) = gap x y /\
  same_angle (v2 (flow x vx vy w t)) (v2 (flow y vx vy w t)).
Proof.
  intros (k & E).
  assert (C : forall b, cos (v2 x + b) = cos (v2 y + b)).
  { intros b. rewrite E. replace (v2 y + 2 * IZR k * PI + b) with (v2 y + b + 2 * IZR k * PI) by ring. apply cos_period_Z. }
  assert (S : forall b, sin (v2 x + b) = sin (v2 y + b)).
  { intros b. rewrite E. replace (v2 y + 2 * IZR k * PI + b) with (v2 y + b + 2 * IZR k * PI) by ring. apply sin_period_Z. }
  assert (C0 := C 0). assert (S0 := S 0). rewrite !Rplus_0_r in C0, S0.
  unfold flow. destruct (Req_EM_T w 0) as [W|W].
  - split; [|exists k; exact E]. unfold gap. cbn [v0 v1 v2]. rewrite C0, S0. f_equal. ring.
  - split; [|exists k; cbn [v2]; rewrite E; ring]. unfold gap. cbn [v0 v1 v2]. rewrite C0, S0, C, S. f_equal. field. exact W.
Qed.
Definition wrap (x : vec3 R) : vec3 R := V3 (v0 x) (v1 x) (normalize_angle_PI (v2 x)).
Lemma rk4_loop_cols {U} dt f n : forall x (ut : list U) xt, rk4_loop n dt f x ut = Ok xt ->
  length xt = n /\ (n <= length ut)%nat /\
  forall i p u q, nth_error (x :: xt) i = Some p -> nth_error ut i = Some u -> nth_error xt i = Some q ->
    exists y, rk4_step dt f p u = Ok y /\ q = wrap y.
Proof.
  induction n as [|n IH]; intros x ut xt H; cbn in H.
  - injection H as <-. split; [reflexivity|]. split; [lia|]. intros i p u q _ _ Q. destruct i; discriminate.
  - destruct ut as [|u ut]; [discriminate|]. destruct (rk4_step dt f x u) as [y| | |] eqn:E; try discriminate. cbn in H.
    destruct (rk4_loop n dt f _ ut) as [l| | |] eqn:E'; try discriminate. cbn in H. injection H as <-.
    destruct (IH _ _ _ E') as (L & L' & C). split; [cbn; lia|]. split; [cbn; lia|].
    intros [|i] p v q P V Q.
    + cbn in P, V, Q. injection P as <-. injection V as <-. injection Q as <-. exists y. split; [exact E|reflexivity].
    + cbn [nth_error] in V, Q. exact (C i p v q P V Q).
Qed.
Lemma c46_cols {U} dt f x (ut : list U) h xt n : num_steps dt h = Ok n -> rk4_solve dt f x ut h = Ok xt ->
  lenZ xt = n /\
  forall i p u q, nth_error (x :: xt) i = Some p -> nth_error ut i = Some u -> nth_error xt i = Some q ->
    exists y, rk4_step dt f p u = Ok y /\ v0 q = v0 y /\ v1 q = v1 y /\ - PI <= v2 q < PI /\ same_angle (v2 q) (v2 y).
Proof.
  intros N H. unfold rk4_solve in H. rewrite N in H. cbn in H.
  assert (P : (0 <= n)%Z). { rewrite steps_R in N. destruct (_ <? _)%Z; [|discriminate]. injection N as <-. apply Zfloor_lub, Rabs_pos. }
  destruct (rk4_loop_cols _ _ _ _ _ _ H) as (L & _ & C). split; [unfold lenZ; lia|].
  intros i p u q A B D. destruct (C i p u q A B D) as (y & Y & ->). exists y. split; [exact Y|].
  split; [reflexivity|]. split; [reflexivity|]. cbn [wrap v2]. apply c20_wrap.
Qed.
Lemma rk4_loop_omni dt n : forall x ut, (n <= length ut)%nat -> exists xt, rk4_loop n dt (rb_f omni) x ut = Ok xt.
Proof.
  induction n as [|n IH]; intros x ut H; cbn [rk4_loop]; [eauto|].
  destruct ut as [|u ut]; cbn in H; [lia|]. rewrite rk_omni. cbn [bind]. destruct (IH (wrap (rk dt x u)) ut ltac:(lia)) as (xt & E).
  unfold wrap in E. rewrite E. cbn [bind]. eauto.
Qed.
Lemma rk4_loop_short {U} dt (f : vec3 R -> U -> res (vec3 R)) n : (forall x u, is_ok (f x u) = true) -> forall x ut, (length ut < n)%nat -> rk4_loop n dt f x ut = Throw EArma.
Proof.
  intros F. induction n as [|n IH]; intros x ut H; cbn; [lia|].
  destruct ut as [|u ut]; [reflexivity|]. cbn in H.
  assert (exists y, rk4_step dt f x u = Ok y) as (y & ->).
  { unfold rk4_step. pose proof (F x u) as K. destruct (f x u) as [k1| | |]; try discriminate. cbn.
    pose proof (F (vadd x (vscale (vscale k1 half) dt)) u) as K2. destruct (f _ u) as [k2| | |]; try discriminate. cbn.
    pose proof (F (vadd x (vscale (vscale k2 half) dt)) u) as K3. destruct (f _ u) as [k3| | |]; try discriminate. cbn.
    pose proof (F (vadd x (vscale k3 dt)) u) as K4. destruct (f _ u) as [k4| | |]; try discriminate. cbn. eauto. }
  cbn. rewrite IH by lia. reflexivity.
Qed.
Lemma c46_defined dt x ut h n : num_steps dt h = Ok n ->
  ((n <= lenZ ut)%Z -> is_ok (rk4_solve dt (rb_f omni) x ut h) = true) /\
  ((lenZ ut < n)%Z -> rk4_solve dt (rb_f omni) x ut h = Throw EArma).
Proof.
  intros N. unfold rk4_solve. rewrite N. cbn [bind]. unfold lenZ. split; intros H.
  - destruct (rk4_loop_omni dt (Z.to_nat n) x ut ltac:(lia)) as (xt & ->). reflexivity.
  - apply rk4_loop_short; [reflexivity|lia].
Qed.
Lemma driven_flow dt us : forall x y, driven dt x us y ->
  y = fold_left (fun x u => flow x (v0 u) (v1 u) (v2 u) dt) us x.
Proof.
  induction us as [|u us IH]; intros x y H; inversion H; subst; cbn; [reflexivity|].
  rewrite <- (motion_unique _ _ _ _ _ ltac:(eassumption)). apply IH. assumption.
Qed.
Lemma driven_exists dt us : forall x, exists y, driven dt x us y.
Proof.
  induction us as [|u us IH]; intros x; [eexists; constructor|].
  destruct (IH (flow x (v0 u) (v1 u) (v2 u) dt)) as (y & H). exists y. econstructor; [apply flow_motion|exact H].
Qed.
Lemma rk4_global dt n : forall x x' ut xt e, same_angle (v2 x') (v2 x) -> gap x' x <= e ->
  rk4_loop n dt (rb_f omni) x' ut = Ok xt -> forall i q y,
  nth_error xt i = Some q -> driven dt x (firstn (S i) ut) y ->
  gap q y <= e + total (map (rk4_error dt) (firstn (S i) ut)) /\ same_angle (v2 q) (v2 y).
Proof.
  induction n as [|n IH]; intros x x' ut xt e A G H i q y Q D; cbn [rk4_loop] in H.
  - injection H as <-. destruct i; discriminate.
  - destruct ut as [|u ut]; [discriminate|]. rewrite rk_omni in H. cbn [bind] in H.
    set (z := rk dt x' u) in *.
    set (z' := V3 (v0 z) (v1 z) (normalize_angle_PI (v2 z))) in *.
    destruct (rk4_loop n dt _ _ ut) as [l| | |] eqn:E'; try discriminate. cbn [bind] in H.
    assert (XT : xt = z' :: l) by congruence. rewrite XT in Q. clear H XT.
    cbn [firstn] in D. inversion D as [|? ? ? gam ? TM DR]. subst.
    rewrite (motion_unique _ _ _ _ _ TM) in DR. set (x1 := flow x (v0 u) (v1 u) (v2 u) dt) in *.
    assert (GZ : gap z' x1 <= e + rk4_error dt u).
    { change (gap z' x1) with (gap z x1). eapply Rle_trans; [apply (gap_tri z (flow x' (v0 u) (v1 u) (v2 u) dt) x1)|].
      pose proof (rk_flow_gap dt x' u) as K. fold z in K. fold (rk4_error dt u) in K.
      destruct (flow_gap x' x (v0 u) (v1 u) (v2 u) dt A) as (K2 & _). fold x1 in K2. lra. }
    assert (AZ : same_angle (v2 z') (v2 x1)).
    { apply same_angle_trans with (v2 z); [apply c20_wrap|].
      destruct A as (k & A). exists k. unfold z, x1, rk, flow. destruct (Req_EM_T (v2 u) 0) as [W|W]; cbn [v2]; rewrite ?W, A; ring. }
    destruct i as [|i].
    + cbn [nth_error] in Q. assert (q = z') by congruence. subst q. cbn [firstn] in DR. inversion DR; subst. unfold firstn. cbn [map total]. split; [lra|exact AZ].
    + cbn [nth_error] in Q. destruct (IH x1 z' ut l (e + rk4_error dt u) AZ GZ E' i q y Q DR) as (K1 & K2).
      split; [|exact K2]. change (firstn (S (S i)) (u :: ut)) with (u :: firstn (S i) ut). cbn [map total]. lra.
Qed.
Lemma c46_global dt x ut h xt i q y : rk4_solve dt (rb_f omni) x ut h = Ok xt ->
  nth_error xt i = Some q -> driven dt x (firstn (S i) ut) y ->
  gap q y <= total (map (rk4_error dt) (firstn (S i) ut)) /\ same_angle (v2 q) (v2 y).
Proof.
  intros H Q D. unfold rk4_solve in H. destruct (num_steps dt h) as [n| | |]; try discriminate. cbn [bind] in H.
  destruct (rk4_global dt _ x x ut xt 0 ltac:(exists 0%Z; ring) ltac:(unfold gap; right; replace (_ + _) with 0 by ring; apply sqrt_0) H i q y Q D) as (A & B).
  split; [lra|exact B].
Qed.

(** C47 *)
Definition nilp (m : mat3 R) : Prop := exists a b, m = M3 (V3 0 0 a) (V3 0 0 b) (V3 0 0 0).
Lemma nilp_omni x u : nilp (omni_fdx x u). Proof. do 2 eexists; reflexivity. Qed.
Lemma nilp_simple x u : nilp (simple_fdx x u). Proof. do 2 eexists; reflexivity. Qed.
Lemma nilp_cart wr wb x u : nilp (cart_fdx wr wb x u). Proof. do 2 eexists; reflexivity. Qed.
Lemma nilp_mec wr bx by' x u : nilp (mec_fdx wr bx by' x u). Proof. do 2 eexists; reflexivity. Qed.
Definition co_flow (g b rho : vec3 R) (p q t : R) : vec3 R :=
  let c0 := - v0 g - v0 b in let c1 := - v1 g - v1 b in let c2 := - v2 g - v2 b in
  V3 (v0 rho + c0 * t) (v1 rho + c1 * t) (v2 rho + (c2 - p * v0 rho - q * v1 rho) * t - (p * c0 + q * c1) * t ^ 2 / 2).
Lemma co_flow_motion g b rho p q : costate_motion g b (M3 (V3 0 0 p) (V3 0 0 q) (V3 0 0 0)) rho (co_flow g b rho p q).
Proof.
  split.
  - destruct rho as [a c d]. unfold co_flow. cbn [v0 v1 v2]. apply V3_eq; field.
  - intros t. each; unfold co_flow; cbn [get entry r0 r1 r2 v0 v1 v2]; auto_derive; trivial; field.
Qed.
Lemma co_unique g b rho p q gam : costate_motion g b (M3 (V3 0 0 p) (V3 0 0 q) (V3 0 0 0)) rho gam ->
  forall t, gam t = co_flow g b rho p q t.
Proof.
  intros (G0 & G). destruct (co_flow_motion g b rho p q) as (F0 & F).
  assert (H0 : forall t, v0 (gam t) = v0 (co_flow g b rho p q t)).
  { apply (antiderivative_unique _ _ (fun _ => - v0 g - v0 b)).
    - intros t. pose proof (G t 0%nat ltac:(lia)) as K. cbn [get entry r0 r1 r2 v0 v1 v2] in K. replace (- v0 g - v0 b) with (- v0 g - v0 b - (0 * v0 (gam t) + 0 * v1 (gam t) + 0 * v2 (gam t))) by ring. exact K.
    - intros t. unfold co_flow; cbn [v0]. auto_derive; [trivial|ring].
    - rewrite G0, F0. reflexivity. }
  assert (H1 : forall t, v1 (gam t) = v1 (co_flow g b rho p q t)).
  { apply (antiderivative_unique _ _ (fun _ => - v1 g - v1 b)).
    - intros t. pose proof (G t 1%nat ltac:(lia)) as K. cbn [get entry r0 r1 r2 v0 v1 v2] in K. replace (- v1 g - v1 b) with (- v1 g - v1 b - (0 * v0 (gam t) + 0 * v1 (gam t) + 0 * v2 (gam t))) by ring. exact K.
    - intros t. unfold co_flow; cbn [v1]. auto_derive; [trivial|ring].
    - rewrite G0, F0. reflexivity. }
  assert (H2 : forall t, v2 (gam t) = v2 (co_flow g b rho p q t)).
  { apply (antiderivative_unique _ _ (fun t => - v2 g - v2 b - (p * v0 (gam t) + q * v1 (gam t)))).
    - intros t. pose proof (G t 2%nat ltac:(lia)) as K. cbn [get entry r0 r1 r2 v0 v1 v2] in K.
      replace (p * v0 (gam t) + q * v1 (gam t)) with (p * v0 (gam t) + q * v1 (gam t) + 0 * v2 (gam t)) by ring. exact K.
    - intros t. rewrite H0, H1. unfold co_flow; cbn [v0 v1 v2]. auto_derive; [trivial|field].
    - rewrite G0, F0. reflexivity. }
  intros t. rewrite <- (vec3_eta (gam t)), <- (vec3_eta (co_flow g b rho p q t)). apply V3_eq; auto.
Qed.
Lemma rhodot_nilp rho g b p q :
  rhodot rho g b (M3 (V3 0 0 p) (V3 0 0 q) (V3 0 0 0)) =
  V3 (- v0 g - v0 b) (- v1 g - v1 b) (- v2 g - v2 b - (p * v0 rho + q * v1 rho)).
Proof.
  unfold rhodot, vsub, vneg, mtvmul, vdot, col0, col1, col2. cbn [v0 v1 v2 r0 r1 r2]. rrn. apply V3_eq; ring.
Qed.
Lemma c47_step dt rho g b m gam : nilp m -> costate_motion g b m rho gam ->
  co_step dt rhodot rho g b m = gam (- dt).
Proof.
  intros (p & q & ->) G. rewrite (co_unique _ _ _ _ _ _ G). clear G gam.
  set (c0 := - v0 g - v0 b). set (c1 := - v1 g - v1 b). set (c2 := - v2 g - v2 b).
  unfold co_step.
  set (k1 := rhodot rho g b _). assert (K1 : k1 = V3 c0 c1 (c2 - (p * v0 rho + q * v1 rho))) by apply rhodot_nilp. clearbody k1.
  set (k2 := rhodot (vsub rho (vscale (vscale k1 half) dt)) g b _).
  assert (K2 : k2 = V3 c0 c1 (c2 - (p * (v0 rho - c0 * dt / 2) + q * (v1 rho - c1 * dt / 2)))).
  { unfold k2. rewrite rhodot_nilp. apply V3_eq; try reflexivity. rewrite K1. unfold vsub, vscale, half. cbn [v0 v1 v2]. rrn. fold c2. field. }
  clearbody k2.
  set (k3 := rhodot (vsub rho (vscale (vscale k2 half) dt)) g b _).
  assert (K3 : k3 = V3 c0 c1 (c2 - (p * (v0 rho - c0 * dt / 2) + q * (v1 rho - c1 * dt / 2)))).
  { unfold k3. rewrite rhodot_nilp. apply V3_eq; try reflexivity. rewrite K2. unfold vsub, vscale, half. cbn [v0 v1 v2]. rrn. fold c2. field. }
  clearbody k3.
  set (k4 := rhodot (vsub rho (vscale k3 dt)) g b _).
  assert (K4 : k4 = V3 c0 c1 (c2 - (p * (v0 rho - c0 * dt) + q * (v1 rho - c1 * dt)))).
  { unfold k4. rewrite rhodot_nilp. apply V3_eq; try reflexivity. rewrite K3. unfold vsub, vscale. cbn [v0 v1 v2]. rrn. fold c2. field. }
  clearbody k4. subst k1 k2 k3 k4.
  unfold co_flow, vsub, vadd, vscale. cbn [v0 v1 v2]. rrn. fold c0 c1 c2. apply V3_eq; field.
Qed.
Lemma c47_exists g b m rho : nilp m -> exists gam, costate_motion g b m rho gam.
Proof. intros (p & q & ->). eexists. apply co_flow_motion. Qed.

Section CoLoop.
Context {U : Type} (dt : R) (func : @costate R) (fdx : vec3 R -> U -> mat3 R).
Lemma nthZ_nat {A} (l : list A) i : nthZ l (Z.of_nat i) = nth_error l i.
Proof. unfold nthZ. destruct (Z.ltb_spec (Z.of_nat i) 0); [lia|]. rewrite Nat2Z.id. reflexivity. Qed.
Lemma col_at_ok {A} (l : list A) i a : col_at l (Z.of_nat i) = Ok a -> nth_error l i = Some a.
Proof. unfold col_at. rewrite nthZ_nat. destruct (nth_error l i); congruence. Qed.
Lemma co_loop_cols i : forall rho xt (ut : list U) edx bdx acc rs,
  co_loop i dt func fdx rho xt ut edx bdx acc = Ok rs ->
  exists l, rs = l ++ acc /\ length l = i /\
  forall j, (j < i)%nat -> exists e b x u nx,
    nth_error edx j = Some e /\ nth_error bdx j = Some b /\ nth_error xt j = Some x /\ nth_error ut j = Some u /\
    nth_error (l ++ [rho]) (S j) = Some nx /\ nth_error l j = Some (co_step dt func nx e b (fdx x u)).
Proof.
  induction i as [|i IH]; intros rho xt ut edx bdx acc rs H; cbn [co_loop] in H.
  - injection H as <-. exists []. split; [reflexivity|]. split; [reflexivity|]. intros; lia.
  - destruct (col_at edx (Z.of_nat i)) as [e| | |] eqn:E1; try discriminate. cbn in H.
    destruct (col_at bdx (Z.of_nat i)) as [b| | |] eqn:E2; try discriminate. cbn in H.
    destruct (col_at xt (Z.of_nat i)) as [x| | |] eqn:E3; try discriminate. cbn in H.
    destruct (col_at ut (Z.of_nat i)) as [u| | |] eqn:E4; try discriminate. cbn in H.
    apply col_at_ok in E1, E2, E3, E4.
    set (r1 := co_step dt func rho e b (fdx x u)) in *.
    destruct (IH r1 xt ut edx bdx (r1 :: acc) rs H) as (l & -> & L & C).
    exists (l ++ [r1]). rewrite <- app_assoc. split; [reflexivity|]. split; [rewrite app_length; cbn; lia|].
    intros j Hj. destruct (Nat.eq_dec j i) as [->|N].
    + exists e, b, x, u, rho. repeat (split; [assumption|]). split.
      * rewrite nth_error_app2 by (rewrite app_length; cbn; lia). rewrite app_length. cbn [length].
        replace (S i - (length l + 1))%nat with 0%nat by lia. reflexivity.
      * rewrite nth_error_app2 by lia. replace (i - length l)%nat with 0%nat by lia. reflexivity.
    + destruct (C j ltac:(lia)) as (e' & b' & x' & u' & nx & A1 & A2 & A3 & A4 & A5 & A6).
      exists e', b', x', u', nx. repeat (split; [assumption|]). split.
      * rewrite nth_error_app1 by (rewrite app_length; cbn; lia). exact A5.
      * rewrite nth_error_app1 by lia. exact A6.
Qed.
Lemma col_at_total {A} (l : list A) i : (i < length l)%nat -> exists a, col_at l (Z.of_nat i) = Ok a.
Proof.
  intros H. unfold col_at. rewrite nthZ_nat. apply nth_error_Some in H. destruct (nth_error l i); [eauto|congruence].
Qed.
Lemma col_at_throw {A} (l : list A) i : (length l <= i)%nat -> col_at l (Z.of_nat i) = Throw EArma.
Proof. intros H. unfold col_at. rewrite nthZ_nat. apply nth_error_None in H. rewrite H. reflexivity. Qed.
Lemma co_loop_ok i : forall rho xt (ut : list U) edx bdx acc,
  (i <= length xt)%nat -> (i <= length ut)%nat -> (i <= length edx)%nat -> (i <= length bdx)%nat ->
  is_ok (co_loop i dt func fdx rho xt ut edx bdx acc) = true.
Proof.
  induction i as [|i IH]; intros rho xt ut edx bdx acc H1 H2 H3 H4; cbn [co_loop]; [reflexivity|].
  destruct (col_at_total edx i ltac:(lia)) as (e & ->). destruct (col_at_total bdx i ltac:(lia)) as (b & ->).
  destruct (col_at_total xt i ltac:(lia)) as (x & ->). destruct (col_at_total ut i ltac:(lia)) as (u & ->).
  cbn [bind]. apply IH; lia.
Qed.
Lemma co_loop_short i rho xt (ut : list U) edx bdx acc : (0 < i)%nat ->
  (length xt < i \/ length ut < i \/ length edx < i \/ length bdx < i)%nat ->
  co_loop i dt func fdx rho xt ut edx bdx acc = Throw EArma.
Proof.
  destruct i as [|i]; [lia|]. intros _ H. cbn [co_loop].
  destruct (Nat.lt_ge_cases i (length edx)) as [A|A]; [destruct (col_at_total edx i A) as (e & ->)|rewrite col_at_throw by lia; reflexivity].
  cbn [bind].
  destruct (Nat.lt_ge_cases i (length bdx)) as [B|B]; [destruct (col_at_total bdx i B) as (b & ->)|rewrite col_at_throw by lia; reflexivity].
  cbn [bind].
  destruct (Nat.lt_ge_cases i (length xt)) as [C|C]; [destruct (col_at_total xt i C) as (x & ->)|rewrite col_at_throw by lia; reflexivity].
  cbn [bind].
  destruct (Nat.lt_ge_cases i (length ut)) as [D|D]; [lia|rewrite col_at_throw by lia; reflexivity].
Qed.
End CoLoop.
Lemma steps_nonneg dt h n : @num_steps R _ dt h = Ok n -> (0 <= n)%Z.
Proof. intros N. rewrite steps_R in N. destruct (_ <? _)%Z; [|discriminate]. injection N as <-. apply Zfloor_lub, Rabs_pos. Qed.
Section CoSolve.
Context {U : Type} (dt : R) (func : @costate R) (fdx : vec3 R -> U -> mat3 R).
Lemma c47_recurrence rhoT xt (ut : list U) edx bdx h rs n :
  num_steps dt h = Ok n -> co_solve dt func fdx rhoT xt ut edx bdx h = Ok rs ->
  lenZ rs = n /\
  forall j, (j < length rs)%nat -> exists e b x u nx,
    nth_error edx j = Some e /\ nth_error bdx j = Some b /\ nth_error xt j = Some x /\ nth_error ut j = Some u /\
    nth_error (rs ++ [rhoT]) (S j) = Some nx /\ nth_error rs j = Some (co_step dt func nx e b (fdx x u)).
Proof.
  intros N H. unfold co_solve in H. rewrite N in H. cbn in H. pose proof (steps_nonneg _ _ _ N).
  destruct (co_loop_cols dt func fdx _ _ _ _ _ _ _ _ H) as (l & -> & L & C). rewrite app_nil_r in *.
  split; [unfold lenZ; lia|]. rewrite L. exact C.
Qed.
Lemma c47_defined rhoT xt (ut : list U) edx bdx h n :
  num_steps dt h = Ok n ->
  ((n <= lenZ xt)%Z /\ (n <= lenZ ut)%Z /\ (n <= lenZ edx)%Z /\ (n <= lenZ bdx)%Z ->
    is_ok (co_solve dt func fdx rhoT xt ut edx bdx h) = true) /\
  ((lenZ xt < n)%Z \/ (lenZ ut < n)%Z \/ (lenZ edx < n)%Z \/ (lenZ bdx < n)%Z ->
    co_solve dt func fdx rhoT xt ut edx bdx h = Throw EArma).
Proof.
  intros N. unfold co_solve. rewrite N. cbn. unfold lenZ. split; intros H.
  - apply co_loop_ok; lia.
  - apply co_loop_short; lia.
Qed.
Lemma c47_causal rhoT xt (ut : list U) edx bdx xt' ut' edx' bdx' h rs rs' k :
  co_solve dt func fdx rhoT xt ut edx bdx h = Ok rs -> co_solve dt func fdx rhoT xt' ut' edx' bdx' h = Ok rs' ->
  (forall j, (k <= j)%nat -> nth_error xt j = nth_error xt' j /\ nth_error ut j = nth_error ut' j /\
     nth_error edx j = nth_error edx' j /\ nth_error bdx j = nth_error bdx' j) ->
  forall j, (k <= j)%nat -> nth_error rs j = nth_error rs' j.
Proof.
  intros H H' A. destruct (num_steps dt h) as [n| | |] eqn:N.
  2,3,4: unfold co_solve in H; rewrite N in H; discriminate.
  destruct (c47_recurrence _ _ _ _ _ _ _ _ N H) as (L & C). destruct (c47_recurrence _ _ _ _ _ _ _ _ N H') as (L' & C').
  assert (LL : length rs = length rs') by (unfold lenZ in *; lia).
  assert (K : forall d j, (k <= j)%nat -> (j + d = length rs)%nat -> nth_error (rs ++ [rhoT]) j = nth_error (rs' ++ [rhoT]) j).
  { induction d as [|d IH]; intros j Hk Hd.
    - rewrite !nth_error_app2 by lia. rewrite LL. reflexivity.
    - destruct (C j ltac:(lia)) as (e & b & x & u & nx & A1 & A2 & A3 & A4 & A5 & A6).
      destruct (C' j ltac:(lia)) as (e' & b' & x' & u' & nx' & B1 & B2 & B3 & B4 & B5 & B6).
      destruct (A j Hk) as (X1 & X2 & X3 & X4). specialize (IH (S j) ltac:(lia) ltac:(lia)).
      rewrite !nth_error_app1 by lia. rewrite A6, B6. congruence. }
  intros j Hj. destruct (Nat.lt_ge_cases j (length rs)) as [J|J].
  - specialize (K (length rs - j)%nat j Hj ltac:(lia)). rewrite !nth_error_app1 in K by lia. exact K.
  - rewrite (proj2 (nth_error_None rs j)) by lia. rewrite (proj2 (nth_error_None rs' j)) by lia. reflexivity.
Qed.
End CoSolve.

(** C48 *)
Lemma fmax_R (a b : R) : fmax a b = Rmax a b.
Proof.
  unfold fmax. cbn [nlt RNum]. destruct (Rltb a b) eqn:E.
  - apply Rltb_true in E. rewrite Rmax_right; lra.
  - apply Rltb_false in E. rewrite Rmax_left; lra.
Qed.
Lemma max3_R (c : vec3 R) : max3 c = sup3 c.
Proof. unfold max3, sup3. rewrite !fmax_R. reflexivity. Qed.
Lemma sup3_scale k c : sup3 (vscale c k) = Rabs k * sup3 c.
Proof.
  unfold sup3, vscale. cbn [v0 v1 v2]. rrn. rewrite !Rabs_mult. pose proof (Rabs_pos k).
  rewrite !(Rmult_comm _ (Rabs k)). rewrite <- !RmaxRmult by assumption. reflexivity.
Qed.
Lemma sup3_pos c : 0 <= sup3 c.
Proof. unfold sup3. eapply Rle_trans; [apply (Rabs_pos (v2 c))|apply Rmax_r]. Qed.
Lemma stages_line g x c sh h : h <> 0 -> (forall s, g (V3 (v0 x + v0 c * s) (v1 x + v1 c * s) (v2 x + v2 c * s)) = Ok c) ->
  rk45_stages g x sh h =
  Ok (V3 (v0 x + v0 c * ((1 + delta) * sh)) (v1 x + v1 c * ((1 + delta) * sh)) (v2 x + v2 c * ((1 + delta) * sh)),
      Rabs sh * delta * sup3 c / h).
Proof.
  intros Hh G.
  assert (L : forall y s, y = V3 (v0 x + v0 c * s) (v1 x + v1 c * s) (v2 x + v2 c * s) -> g y = Ok c) by (intros y s ->; apply G).
  unfold rk45_stages.
  rewrite (L x 0) by (rewrite <- (vec3_eta x) at 1; apply V3_eq; ring). cbn [bind].
  erewrite (L _ (sh / 4)) by (unfold vadd, vscale; cbn [v0 v1 v2]; rrn; apply V3_eq; field). cbn [bind].
  erewrite (L _ (sh * 3 / 8)) by (unfold vadd, vscale; cbn [v0 v1 v2]; rrn; apply V3_eq; field). cbn [bind].
  erewrite (L _ (sh * 12 / 13)) by (unfold vadd, vsub, vscale; cbn [v0 v1 v2]; rrn; apply V3_eq; field). cbn [bind].
  erewrite (L _ sh) by (unfold vadd, vsub, vscale; cbn [v0 v1 v2]; rrn; apply V3_eq; field). cbn [bind].
  erewrite (L _ (sh / 2)) by (unfold vadd, vsub, vscale; cbn [v0 v1 v2]; rrn; apply V3_eq; field). cbn [bind].
  f_equal. f_equal.
  - unfold vadd, vsub, vscale, delta. cbn [v0 v1 v2]. rrn. apply V3_eq; field.
  - rewrite max3_R.
    match goal with |- (sup3 ?v / h)%num = _ => replace v with (vscale c (- (sh * delta))) end.
    2:{ unfold vadd, vsub, vscale, delta. cbn [v0 v1 v2]. rrn. apply V3_eq; field. }
    rewrite sup3_scale, Rabs_Ropp, Rabs_mult. rewrite (Rabs_right delta) by (unfold delta; lra). rrn. field. exact Hh.
Qed.
Lemma delta_pos : 0 < delta.
Proof. unfold delta. lra. Qed.

(** C49 *)
Lemma rk45_loop_terminates {T} {NT : Num T} {U} (c : rk45 T) (f : vec3 T -> U -> res (vec3 T)) ut steps ms horizon :
  (0 <= rk_iter c < two32)%Z -> (forall x u, f x u <> Diverge) ->
  forall fuel x t h st iter, (0 <= iter)%Z -> (iter + Z.of_nat fuel = rk_iter c + 1)%Z -> (0 < fuel)%nat ->
  rk45_loop fuel c f ut steps ms horizon x t h st iter <> Diverge.
Proof.
  intros R F. induction fuel as [|fuel IH]; intros x t h st iter I E P; [lia|]. cbn [rk45_loop].
  destruct (rk45_index steps t horizon) as [i| | |] eqn:EI; cbn [bind]; try discriminate.
  2:{ unfold rk45_index, to_u32 in EI. destruct (ntrunc _) as [z|]; [destruct (_ && _)%bool|]; discriminate. }
  destruct (col_at ut i) as [u| | |] eqn:EU; cbn [bind]; try discriminate.
  2:{ unfold col_at in EU. destruct (nthZ ut i); discriminate. }
  destruct (rk45_step f x u h) as [[xn r]| | |] eqn:ES; cbn [bind]; try discriminate.
  2:{ exfalso. unfold rk45_step, rk45_stages in ES.
      repeat match type of ES with bind ?m _ = _ => let E := fresh in destruct m as [?k| | |] eqn:E; cbn [bind] in ES; [|discriminate|discriminate|exact (F _ _ E)] end; discriminate. }
  destruct (rk45_accept c r); [destruct (lenZ st <? ms)%Z|]; cbn [bind]; try discriminate;
    (destruct (rk45_adapt c h r) as [h'| | |] eqn:AE; cbn [bind]; try discriminate; [|unfold rk45_adapt in AE; destruct (clampable _ _); discriminate]);
    (destruct (Z.eqb_spec iter (rk_iter c)) as [Q|Q]; [discriminate|]);
    (match goal with |- (if ?b then _ else _) <> _ => destruct b end; [discriminate|]);
    unfold u32; rewrite Z.mod_small by lia; apply IH; lia.
Qed.
Lemma c49_terminates {T} {NT : Num T} {U} (c : rk45 T) (f : vec3 T -> U -> res (vec3 T)) x0 ut dt horizon :
  (0 <= rk_iter c < two32)%Z -> (forall x u, f x u <> Diverge) ->
  rk45_solve c f x0 ut dt horizon <> Diverge.
Proof.
  intros R F. unfold rk45_solve.
  destruct (num_steps dt horizon) as [n| | |] eqn:E1; cbn [bind]; try discriminate.
  2:{ unfold num_steps, to_u32 in E1. destruct (ntrunc _) as [z|]; [destruct (_ && _)%bool|]; discriminate. }
  destruct (to_u32 _) as [m| | |] eqn:E2; cbn [bind]; try discriminate.
  2:{ unfold to_u32 in E2. destruct (ntrunc _) as [z|]; [destruct (_ && _)%bool|]; discriminate. }
  destruct (_ =? 0)%Z; [discriminate|]. apply rk45_loop_terminates; auto; lia.
Qed.
Lemma rk45_co_loop_terminates {T} {NT : Num T} {U} (c : rk45 T) func (fdx : vec3 T -> U -> mat3 T) xt ut edx bdx steps ms horizon :
  (0 <= rk_iter c < two32)%Z ->
  forall fuel x t h st iter, (0 <= iter)%Z -> (iter + Z.of_nat fuel = rk_iter c + 1)%Z -> (0 < fuel)%nat ->
  rk45_co_loop fuel c func fdx xt ut edx bdx steps ms horizon x t h st iter <> Diverge.
Proof.
  intros R. induction fuel as [|fuel IH]; intros x t h st iter I E P; [lia|]. cbn [rk45_co_loop].
  assert (CA : forall A (l : list A) i, col_at l i <> Diverge) by (intros A l i; unfold col_at; destruct (nthZ l i); discriminate).
  destruct (rk45_index steps t horizon) as [i| | |] eqn:EI; cbn [bind]; try discriminate.
  2:{ unfold rk45_index, to_u32 in EI. destruct (ntrunc _) as [z|]; [destruct (_ && _)%bool|]; discriminate. }
  destruct (col_at edx i) as [e| | |] eqn:E1; cbn [bind]; try discriminate; [|exfalso; eapply CA; exact E1].
  destruct (col_at bdx i) as [b| | |] eqn:E2; cbn [bind]; try discriminate; [|exfalso; eapply CA; exact E2].
  destruct (col_at xt i) as [xx| | |] eqn:E3; cbn [bind]; try discriminate; [|exfalso; eapply CA; exact E3].
  destruct (col_at ut i) as [u| | |] eqn:E4; cbn [bind]; try discriminate; [|exfalso; eapply CA; exact E4].
  destruct (rk45_co_step func x e b (fdx xx u) h) as [[xn r]| | |] eqn:ES; cbn [bind]; try discriminate.
  destruct (rk45_accept c r); [destruct (lenZ st <? ms)%Z|]; cbn [bind]; try discriminate;
    (destruct (rk45_adapt c h r) as [h'| | |] eqn:AE; cbn [bind]; try discriminate; [|unfold rk45_adapt in AE; destruct (clampable _ _); discriminate]);
    (destruct (Z.eqb_spec iter (rk_iter c)) as [Q|Q]; [discriminate|]);
    (match goal with |- (if ?b then _ else _) <> _ => destruct b end; [discriminate|]);
    unfold u32; rewrite Z.mod_small by lia; apply IH; lia.
Qed.
Lemma c49_co_terminates {T} {NT : Num T} {U} (c : rk45 T) func (fdx : vec3 T -> U -> mat3 T) rhoT xt ut edx bdx dt horizon :
  (0 <= rk_iter c < two32)%Z -> rk45_co_solve c func fdx rhoT xt ut edx bdx dt horizon <> Diverge.
Proof.
  intros R. unfold rk45_co_solve.
  destruct (num_steps dt horizon) as [n| | |] eqn:E1; cbn [bind]; try discriminate.
  2:{ unfold num_steps, to_u32 in E1. destruct (ntrunc _) as [z|]; [destruct (_ && _)%bool|]; discriminate. }
  destruct (to_u32 _) as [m| | |] eqn:E2; cbn [bind]; try discriminate.
  2:{ unfold to_u32 in E2. destruct (ntrunc _) as [z|]; [destruct (_ && _)%bool|]; discriminate. }
  destruct (_ =? 0)%Z; [discriminate|]. apply rk45_co_loop_terminates; auto; lia.
Qed.

(** The time index over the reals *)
Lemma ZnearestA_range x n : 0 <= x <= IZR n -> (0 <= ZnearestA x <= n)%Z.
Proof.
  intros H. split.
  - apply le_IZR. pose proof (Znearest_half (Z.leb 0) x). apply Rabs_le_between in H0.
    assert (IZR (ZnearestA x) > -1) by lra. apply lt_IZR in H1. apply IZR_le. lia.
  - pose proof (Znearest_half (Z.leb 0) x). apply Rabs_le_between in H0.
    assert (IZR (ZnearestA x) < IZR (n + 1)) by (rewrite plus_IZR; lra). apply lt_IZR in H1. lia.
Qed.
Lemma index_R steps t horizon : (1 <= steps <= two32)%Z -> 0 < horizon -> 0 <= t <= horizon ->
  exists i, rk45_index steps t horizon = Ok i /\ (0 <= i <= steps - 1)%Z.
Proof.
  intros S H T. unfold rk45_index, to_u32. unfold u32. rewrite Z.mod_small by lia. rrn.
  set (q := Rabs (t / horizon)).
  assert (Q : 0 <= q <= 1).
  { unfold q. split; [apply Rabs_pos|]. rewrite Rabs_right.
    - apply Rmult_le_reg_r with horizon; [exact H|]. field_simplify; lra.
    - apply Rle_ge. apply Rmult_le_pos; [lra|]. left. apply Rinv_0_lt_compat. exact H. }
  assert (B : 0 <= IZR (steps - 1) * q <= IZR (steps - 1)).
  { assert (0 <= IZR (steps - 1)) by (apply IZR_le; lia). nra. }
  pose proof (ZnearestA_range _ _ B) as N. rewrite Zfloor_IZR, Ztrunc_IZR.
  set (k := ZnearestA _) in *.
  destruct (Z.leb_spec 0 k); [|lia]. destruct (Z.ltb_spec k two32); [|lia]. cbn. exists k. split; [reflexivity|lia].
Qed.
Lemma adapt_range (c : rk45 R) h r : rk_hmin c <= rk_hmax c ->
  exists h', rk45_adapt c h r = Ok h' /\ rk_hmin c <= h' <= rk_hmax c.
Proof.
  intros H. unfold rk45_adapt, clampable. cbn [nlt RNum]. rewrite (proj2 (Rltb_false _ _) H). cbn [negb]. eexists. split; [reflexivity|].
  set (z := nmul h _). clearbody z. unfold fclamp. cbn [nlt RNum].
  destruct (Rltb z (rk_hmin c)) eqn:E; [lra|]. apply Rltb_false in E.
  destruct (Rltb (rk_hmax c) z) eqn:E'; [lra|]. apply Rltb_false in E'. lra.
Qed.
Lemma index_0 steps horizon : rk45_index steps 0 horizon = Ok 0%Z.
Proof.
  unfold rk45_index, to_u32. rrn. replace (0 / horizon) with 0 by (unfold Rdiv; ring). rewrite Rabs_R0, Rmult_0_r.
  assert (N : ZnearestA 0 = 0%Z) by (apply (@Zrnd_IZR ZnearestA _ 0)).
  rewrite N, Zfloor_IZR, Ztrunc_IZR. reflexivity.
Qed.
Lemma step_line {U} (f : vec3 R -> U -> res (vec3 R)) x u h c : 0 < h ->
  (forall s, f (V3 (v0 x + v0 c * s) (v1 x + v1 c * s) (v2 x + v2 c * s)) u = Ok c) ->
  rk45_step f x u h =
  Ok (V3 (v0 x + v0 c * ((1 + delta) * h)) (v1 x + v1 c * ((1 + delta) * h)) (v2 x + v2 c * ((1 + delta) * h)), delta * sup3 c).
Proof.
  intros H G. unfold rk45_step. rewrite (stages_line _ x c h h) by (auto; lra). f_equal. f_equal.
  rewrite Rabs_right by lra. field. lra.
Qed.
Lemma reject_R (c : rk45 R) r : rk_eps c + 1 / 1000000000000 <= r -> rk45_accept c r = false.
Proof.
  intros H. unfold rk45_accept.
  assert (E1 : almost_equal r (rk_eps c) = false).
  { apply (proj2 (almost_equal_Rf _ _)). rewrite Rabs_right; lra. }
  rewrite E1. cbn [nlt RNum]. replace (Rltb r (rk_eps c)) with false; [reflexivity|]. symmetry. apply (proj2 (Rltb_false _ _)). lra.
Qed.
Lemma accept_R (c : rk45 R) r : r < rk_eps c -> rk45_accept c r = true.
Proof. intros H. unfold rk45_accept. cbn [nlt RNum]. rewrite (proj2 (Rltb_true _ _) H). reflexivity. Qed.
Lemma flag_R t horizon : t + 1 / 1000000000000 <= horizon -> ((horizon <? t)%num || almost_equal t horizon)%bool = false.
Proof.
  intros H. rewrite (proj2 (almost_equal_Rf t horizon)).
  - cbn [nlt RNum]. rewrite (proj2 (Rltb_false _ _)); [reflexivity|lra].
  - rewrite Rabs_left1; lra.
Qed.

Section Reject.
Context {U : Type} (c : rk45 R) (f : vec3 R -> U -> res (vec3 R)) (u0 : U) (ut : list U) (x d : vec3 R) (steps ms : Z) (horizon : R).
Hypothesis Hmin : 0 < rk_hmin c.
Hypothesis Hmm : rk_hmin c <= rk_hmax c.
Hypothesis Hh : 1 / 1000000000000 <= horizon.
Hypothesis Hf : forall s, f (V3 (v0 x + v0 d * s) (v1 x + v1 d * s) (v2 x + v2 d * s)) u0 = Ok d.
Hypothesis Hr : rk_eps c + 1 / 1000000000000 <= delta * sup3 d.
Lemma reject_loop st : (0 <= rk_iter c < two32)%Z -> forall fuel h iter, 0 < h -> (0 <= iter)%Z -> (0 < fuel)%nat -> (iter + Z.of_nat fuel = rk_iter c + 1)%Z ->
  rk45_loop fuel c f (u0 :: ut) steps ms horizon x 0 h st iter = Ok None.
Proof.
  intros HI. induction fuel as [|fuel IH]; intros h iter P I F E; [lia|]. cbn [rk45_loop].
  rewrite index_0. cbn [bind].
  change (col_at (u0 :: ut) 0) with (@Ok U u0). cbn [bind]. rewrite (step_line f x u0 h d P Hf). cbn [bind].
  destruct (adapt_range c h (delta * sup3 d) Hmm) as (h' & AE & AR).
  rewrite (reject_R _ _ Hr). cbn [bind]. rewrite AE. cbn [bind]. rewrite (flag_R 0 horizon) by lra.
  destruct (Z.eqb_spec iter (rk_iter c)) as [Q|Q]; [reflexivity|].
  unfold u32. rewrite Z.mod_small by lia. apply IH; try lia.
  cbn [negb andb].
  destruct (horizon <? _)%num; [rrn|]; lra.
Qed.
End Reject.
Lemma u32_nonneg (x : R) m : to_u32 x = Ok m -> (0 <= m < two32)%Z.
Proof.
  unfold to_u32. destruct (ntrunc x); [|discriminate]. destruct (_ && _)%bool eqn:E; [|discriminate].
  intros M. injection M as <-. apply andb_prop in E as [E E']. lia.
Qed.
Lemma u32_floor (x : R) m : 0 <= x -> to_u32 x = Ok m -> m = Zfloor x.
Proof.
  intros P. unfold to_u32. cbn [ntrunc RNum]. rewrite Ztrunc_floor by exact P. destruct (_ && _)%bool; [|discriminate]. congruence.
Qed.
Lemma c48_never_accepts {U} (c : rk45 R) (f : vec3 R -> U -> res (vec3 R)) x d u0 ut dt horizon n m :
  0 < rk_hmin c -> rk_hmin c <= rk_hmax c -> 1 / 1000000000000 <= horizon -> (0 <= rk_iter c < two32)%Z ->
  (forall s, f (V3 (v0 x + v0 d * s) (v1 x + v1 d * s) (v2 x + v2 d * s)) u0 = Ok d) ->
  rk_eps c + 1 / 1000000000000 <= delta * sup3 d ->
  num_steps dt horizon = Ok n -> to_u32 (horizon / rk_hmin c) = Ok m -> (m + 1 < two32)%Z ->
  rk45_solve c f x (u0 :: ut) dt horizon = Ok None.
Proof.
  intros Hmin Hmm Hh HI Hf Hr N M B. unfold rk45_solve. rewrite N. cbn [bind].
  change (horizon / rk_hmin c)%num with (horizon / rk_hmin c). rewrite M. cbn [bind].
  pose proof (u32_nonneg _ _ M). unfold u32. rewrite Z.mod_small by lia. destruct (Z.eqb_spec (m + 1) 0) as [?|?H]; [lia|].
  change (@n0 R _) with 0. apply (reject_loop c f u0 ut x d n _ horizon Hmin Hmm Hh Hf Hr); auto; try lia.
  rrn. lra.
Qed.

(** With one more column the storage suffices. *)
Section Storage.
Context {U : Type} (c : rk45 R) (f : vec3 R -> U -> res (vec3 R)) (ut : list U) (steps ms : Z) (horizon : R).
Hypothesis Hmin : 0 < rk_hmin c.
Hypothesis Hmm : rk_hmin c <= rk_hmax c.
Hypothesis Hh : 1 / 1000000000000 <= horizon.
Hypothesis Hf : forall x u, is_ok (f x u) = true.
Hypothesis Hs : (1 <= steps <= two32)%Z.
Hypothesis Hu : (steps <= lenZ ut)%Z.
Hypothesis Hms : (Zfloor (horizon / rk_hmin c) + 2 <= ms)%Z.
Hypothesis HI : (0 <= rk_iter c < two32)%Z.
Lemma stages_total (g : vec3 R -> res (vec3 R)) x sh h : (forall x, is_ok (g x) = true) -> exists p, rk45_stages g x sh h = Ok p.
Proof.
  intros G. unfold rk45_stages.
  assert (B : forall {A} a (k : vec3 R -> res A), (forall v, exists p, k v = Ok p) -> exists p, bind (g a) k = Ok p).
  { intros A a k H. specialize (G a). destruct (g a); try discriminate. apply H. }
  repeat (apply B; intros ?). eauto.
Qed.
Lemma step_total x u h : exists p, rk45_step f x u h = Ok p.
Proof. apply stages_total. intros y. apply Hf. Qed.
Lemma col_total i : (0 <= i <= steps - 1)%Z -> exists u, col_at ut i = Ok u.
Proof.
  intros H. unfold lenZ in Hu. rewrite <- (Z2Nat.id i) by lia.
  destruct (col_at_total ut (Z.to_nat i) ltac:(lia)) as (u & E). eauto.
Qed.
Lemma storage_loop : forall fuel x t h st iter, (0 <= iter)%Z -> (0 < fuel)%nat -> (iter + Z.of_nat fuel = rk_iter c + 1)%Z ->
  0 <= t -> t < horizon -> IZR (lenZ st - 1) * rk_hmin c <= t -> 0 < h -> rk_hmin c <= h \/ t + h = horizon ->
  is_ok (rk45_loop fuel c f ut steps ms horizon x t h st iter) = true.
Proof.
  induction fuel as [|fuel IH]; intros x t h st iter I F E T0 T1 LB P C; [lia|]. cbn [rk45_loop].
  destruct (index_R steps t horizon Hs ltac:(lra) ltac:(lra)) as (i & -> & Hi). cbn [bind].
  destruct (col_total i Hi) as (u & ->). cbn [bind].
  destruct (step_total x u h) as ((xn & r) & ->). cbn [bind].
  assert (LT : (lenZ st < ms)%Z).
  { assert (K : (lenZ st - 1 <= Zfloor (horizon / rk_hmin c))%Z).
    { apply Zfloor_lub. apply Rmult_le_reg_r with (rk_hmin c); [exact Hmin|].
      replace (horizon / rk_hmin c * rk_hmin c) with horizon by (field; lra). lra. }
    lia. }
  destruct (adapt_range c h r Hmm) as (h' & AE & AR). rewrite AE.
  assert (NX : forall t' st' x', 0 <= t' -> ((horizon <? t')%num || almost_equal t' horizon)%bool = false -> IZR (lenZ st' - 1) * rk_hmin c <= t' ->
    iter <> rk_iter c ->
    is_ok (rk45_loop fuel c f ut steps ms horizon x' t'
      (if (negb false && (horizon <? t' + h')%num)%bool then (horizon - t')%num else h') st' (u32 (iter + 1))) = true).
  { intros t' st' x' A B D Q. unfold u32. rewrite Z.mod_small by lia.
    apply orb_false_elim in B as [B1 B2]. cbn [nlt RNum] in B1. apply Rltb_false in B1. apply (proj1 (almost_equal_Rf _ _)) in B2.
    assert (t' < horizon). { destruct (Req_dec t' horizon) as [->|]; [|lra]. rewrite Rminus_eq_0, Rabs_R0 in B2. lra. }
    cbn [negb andb]. destruct (horizon <? t' + h')%num.
    - apply IH; auto; try lia; rrn; [lra|right; ring].
    - apply IH; auto; try lia; [lra|left; lra]. }
  destruct (rk45_accept c r); cbn [bind].
  - destruct (Z.ltb_spec (lenZ st) ms); [|lia]. cbn [bind].
    destruct (Z.eqb_spec iter (rk_iter c)) as [Q|Q]; [reflexivity|].
    destruct (_ || _)%bool eqn:FL; [reflexivity|].
    apply NX; auto; rrn; [lra|].
    assert (NE : t + h <> horizon).
    { intros EE. rewrite EE in FL. rewrite (proj2 (almost_equal_R horizon horizon)) in FL; [rewrite orb_true_r in FL; discriminate|].
      rewrite Rminus_eq_0, Rabs_R0. lra. }
    destruct C as [C|C]; [|contradiction].
    replace (lenZ (((t + h)%R, xn) :: st) - 1)%Z with (lenZ st - 1 + 1)%Z by (unfold lenZ; cbn [length]; lia).
    rewrite plus_IZR. lra.
  - destruct (Z.eqb_spec iter (rk_iter c)) as [Q|Q]; [reflexivity|].
    destruct (_ || _)%bool eqn:FL; [reflexivity|]. apply NX; auto.
Qed.
End Storage.

(** Storage overflow *)
Section Overflow.
Context {U : Type} (c : rk45 R) (f : vec3 R -> U -> res (vec3 R)) (ut : list U) (d : vec3 R) (steps ms : Z) (h0 horizon : R).
Hypothesis H0 : 0 < h0.
Hypothesis Hmin : rk_hmin c = h0.
Hypothesis Hmax : rk_hmax c = h0.
Hypothesis Hf : forall x u, f x u = Ok d.
Hypothesis Hr : delta * sup3 d < rk_eps c.
Hypothesis Hs : (1 <= steps <= two32)%Z.
Hypothesis Hu : (steps <= lenZ ut)%Z.
Hypothesis HI : (0 <= rk_iter c < two32)%Z.
Lemma overflow_loop k : forall fuel x st iter, 
  (k < fuel)%nat -> (0 <= iter)%Z -> (iter + Z.of_nat k <= rk_iter c)%Z -> ms = (lenZ st + Z.of_nat k)%Z ->
  forall t h, 0 <= t -> t + INR k * h0 + 1 / 1000000000000 <= horizon -> t + INR k * h0 + h0 > horizon ->
  0 < h -> (k <> 0%nat -> h = h0) ->
  rk45_loop fuel c f ut steps ms horizon x t h st iter = Throw EArma.
Proof.
  induction k as [|k IH]; intros fuel x st iter Hk I IT M t h T0 T1 T2 P HH; (destruct fuel as [|fuel]; [lia|]); cbn [rk45_loop].
  - cbn [INR] in T1, T2.
    destruct (index_R steps t horizon Hs ltac:(lra) ltac:(lra)) as (i & -> & Hi). cbn [bind].
    destruct (col_total ut steps Hs Hu i Hi) as (u & ->). cbn [bind].
    rewrite (step_line f x u h d P) by auto. cbn [bind]. rewrite accept_R by exact Hr.
    destruct (Z.ltb_spec (lenZ st) ms); [lia|]. reflexivity.
  - rewrite S_INR in T1, T2. assert (0 <= INR k * h0) by (apply Rmult_le_pos; [apply pos_INR|lra]).
    specialize (HH ltac:(lia)). subst h.
    destruct (index_R steps t horizon Hs ltac:(lra) ltac:(lra)) as (i & -> & Hi). cbn [bind].
    destruct (col_total ut steps Hs Hu i Hi) as (u & ->). cbn [bind].
    rewrite (step_line f x u h0 d H0) by auto. cbn [bind]. rewrite accept_R by exact Hr.
    destruct (Z.ltb_spec (lenZ st) ms); [|lia]. cbn [bind].
    destruct (adapt_range c h0 (delta * sup3 d) ltac:(lra)) as (h' & AE & AR). rewrite Hmin, Hmax in AR.
    assert (h' = h0) by lra. subst h'. rewrite AE. cbn [bind].
    change (t + h0)%num with (t + h0).
    rewrite flag_R by lra.
    destruct (Z.eqb_spec iter (rk_iter c)); [lia|]. unfold u32. rewrite Z.mod_small by lia.
    cbn [negb andb].
    apply IH; try lia; try lra.
    + unfold lenZ in *. cbn [length]. lia.
    + match goal with |- context [if ?b then _ else _] => destruct b end; rrn; lra.
    + intros K. assert (1 <= INR k) by (apply (le_INR 1); lia).
      cbn [nlt nadd RNum]. rewrite (proj2 (Rltb_false _ _)); [reflexivity|]. nra.
Qed.
End Overflow.
Lemma c49_overflow {U} (c : rk45 R) (f : vec3 R -> U -> res (vec3 R)) ut d steps h0 horizon dt x :
  0 < h0 -> rk_hmin c = h0 -> rk_hmax c = h0 -> (forall x u, f x u = Ok d) -> delta * sup3 d < rk_eps c ->
  num_steps dt horizon = Ok steps -> (1 <= steps <= lenZ ut)%Z -> h0 <= horizon ->
  (Zfloor (horizon / h0) <= rk_iter c < two32 - 1)%Z ->
  IZR (Zfloor (horizon / h0)) * h0 + 1 / 1000000000000 <= horizon ->
  rk45_solve c f x ut dt horizon = Throw EArma.
Proof.
  intros H0 Hmin Hmax Hf Hr N Hs HH IT G. set (n := Zfloor (horizon / h0)) in *.
  assert (Q0 : 0 <= horizon / h0) by (apply Rmult_le_pos; [lra|left; apply Rinv_0_lt_compat; exact H0]).
  assert (N1 : (1 <= n)%Z). { apply Zfloor_lub. apply Rmult_le_reg_r with h0; [exact H0|]. replace (horizon / h0 * h0) with horizon by (field; lra). lra. }
  assert (SB : (steps < two32)%Z). { pose proof N as N'. rewrite steps_R in N'. destruct (Z.ltb_spec (Zfloor (Rabs (horizon / dt))) two32); [|discriminate]. injection N' as <-. assumption. }
  unfold rk45_solve. rewrite N. cbn [bind]. rewrite Hmin, Hmax.
  assert (M : to_u32 (horizon / h0)%num = Ok n).
  { unfold to_u32. rrn. rewrite Ztrunc_floor by exact Q0. fold n. destruct (Z.leb_spec 0 n); [|lia]. destruct (Z.ltb_spec n two32); [reflexivity|lia]. }
  rewrite M. cbn [bind]. assert (UE : u32 (n + 1) = (n + 1)%Z) by (unfold u32; apply Z.mod_small; lia).
  rewrite UE. destruct (Z.eqb_spec (n + 1) 0) as [?|?H]; [lia|].
  change (@n0 R _) with 0.
  assert (NN : INR (Z.to_nat n) = IZR n) by (rewrite INR_IZR_INZ, Z2Nat.id by lia; reflexivity).
  assert (UB : horizon < (IZR n + 1) * h0).
  { apply Rmult_lt_reg_r with (/ h0); [apply Rinv_0_lt_compat; exact H0|].
    replace ((IZR n + 1) * h0 * / h0) with (IZR n + 1) by (field; lra). apply Zfloor_ub. }
  apply (overflow_loop c f ut d steps (n + 1) h0 horizon H0 Hmin Hmax Hf Hr ltac:(lia) ltac:(lia) ltac:(lia) (Z.to_nat n)); try lia; rewrite ?NN; rrn; try lra.
  clear - N1. clearbody n. unfold lenZ. cbn [length]. lia.
Qed.
Lemma c49_one_more {U} (c : rk45 R) (f : vec3 R -> U -> res (vec3 R)) ut steps ms horizon x :
  0 < rk_hmin c -> rk_hmin c <= rk_hmax c -> 1 / 1000000000000 <= horizon -> (forall x u, is_ok (f x u) = true) ->
  (1 <= steps <= two32)%Z -> (steps <= lenZ ut)%Z -> (Zfloor (horizon / rk_hmin c) + 2 <= ms)%Z -> (0 <= rk_iter c < two32)%Z ->
  is_ok (rk45_loop (S (Z.to_nat (rk_iter c))) c f ut steps ms horizon x 0 ((rk_hmax c + rk_hmin c) / 2) [(0, x)] 0) = true.
Proof.
  intros. apply (storage_loop c f ut steps ms horizon); auto; try lia; try lra.
  cbn. lra.
Qed.

From Flocq Require Import IEEE754.BinarySingleNaN.
From Verif Require Import FloatLemmas.
(** C45 in binary64 *)
Lemma eps64_lit (L : libm) : @eps12 b64 (F64 L) = eps64.
Proof. apply B2SF_inj. vm_compute. reflexivity. Qed.
Lemma sub_zero (L : libm) (v : b64) : @almost_equal b64 (F64 L) v (@n0 b64 (F64 L)) = Bltb (Babs v) eps64.
Proof.
  unfold almost_equal. rewrite eps64_lit. unfold n0. cbn [nabs nsub nlt nofZ F64].
  replace (b64_ofZ 0) with (B754_zero false : b64) by (apply B2SF_inj; vm_compute; reflexivity).
  f_equal. destruct v as [[|]|[|]| |s m e H]; reflexivity.
Qed.
Lemma ltb_leb (v : b64) : Bltb (Babs v) eps64 = false <-> is_nan v = true \/ Bleb eps64 (Babs v) = true.
Proof.
  assert (F : is_finite eps64 = true) by (vm_compute; reflexivity).
  destruct v as [s|s| |s m e H].
  - replace (Babs (B754_zero s : b64)) with (B754_zero false : b64) by (destruct s; reflexivity).
    split; [|intros [K|K]]; try discriminate; intros K; exfalso; revert K; vm_compute; discriminate.
  - replace (Babs (B754_infinity s : b64)) with (B754_infinity false : b64) by (destruct s; reflexivity).
    split; intros _; [right; vm_compute; reflexivity|vm_compute; reflexivity].
  - split; intros _; [left; reflexivity|vm_compute; reflexivity].
  - set (a := Babs _). assert (FA : is_finite a = true) by reflexivity.
    rewrite Bltb_R, Bleb_R by assumption. split.
    + intros K. right. destruct (Rlt_bool_spec (B2R a) (B2R eps64)); [discriminate|]. apply Rle_bool_true. assumption.
    + intros [K|K]; [discriminate|]. destruct (Rle_bool_spec (B2R eps64) (B2R a)); [|discriminate]. apply Rlt_bool_false. assumption.
Qed.
Lemma c45_b64 (L : libm) (x u : vec3 b64) :
  (is_nan (v1 u) = true \/ Bleb eps64 (Babs (v1 u)) = true -> @simple_f b64 (F64 L) x u = Throw EInvalidArgument) /\
  (is_nan (v1 u) = false -> Bltb (Babs (v1 u)) eps64 = true -> is_ok (@simple_f b64 (F64 L) x u) = true).
Proof.
  unfold simple_f. rewrite sub_zero. split.
  - intros H. apply ltb_leb in H. rewrite H. reflexivity.
  - intros _ H. rewrite H. reflexivity.
Qed.
