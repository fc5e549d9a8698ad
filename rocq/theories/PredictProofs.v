(** Proofs about predicted motions: how far they go, and where they can be checked. *)
From Coq Require Import Reals ZArith List Bool Lia Lra.
From Flocq Require Import Core.Core IEEE754.BinarySingleNaN.
From Verif Require Import Outcome Num Float64 FloatLemmas GridModel CollisionModel NumericsModel RobotModel DwaModel
  Spec SpecMotion SpecRobot SpecDwa SpecSystem GridProofs PropCollisionAux PropCollisionAux2 NumericsProofs MotionProofs RobotProofs DwaProofs.
Import ListNotations.
Local Open Scope R_scope.

(** ** Speed times time *)
Lemma speed_pos u : 0 <= speed u.
Proof. apply sqrt_pos. Qed.
Lemma sin_sq_le y : sin y ^ 2 <= y ^ 2.
Proof.
  assert (P : forall z, 0 <= z -> sin z ^ 2 <= z ^ 2).
  { intros z H. destruct (Rle_lt_dec z 1) as [H1|H1].
    - assert (0 <= sin z) by (apply sin_ge_0; [exact H|pose proof PI2_1; lra]).
      assert (sin z <= z). { destruct (Req_dec z 0) as [->|N]; [rewrite sin_0; lra|]. left. apply sin_lt_x. lra. } nra.
    - pose proof (SIN_bound z). nra. }
  destruct (Rle_lt_dec 0 y) as [H|H]; [exact (P y H)|]. specialize (P (- y) ltac:(lra)). rewrite sin_neg in P. nra.
Qed.
Lemma chord th a : (sin (th + a) - sin th) ^ 2 + (cos th - cos (th + a)) ^ 2 <= a ^ 2.
Proof.
  replace ((sin (th + a) - sin th) ^ 2 + (cos th - cos (th + a)) ^ 2) with (4 * sin (a / 2) ^ 2).
  - pose proof (sin_sq_le (a / 2)). nra.
  - replace a with (2 * (a / 2)) at 2 3 by field. set (h := a / 2). clearbody h.
    rewrite sin_plus, cos_plus, sin_2a, cos_2a_sin. pose proof (sin2_cos2 th) as P. pose proof (sin2_cos2 h) as Q. unfold Rsqr in *.
    set (s := sin th) in *. set (c := cos th) in *. set (S := sin h) in *. set (C := cos h) in *.
    transitivity (4 * S ^ 2 * ((s * s + c * c) * (S * S + C * C))); [rewrite P, Q; ring|ring].
Qed.
Lemma flow_gap x vx vy w t : gap x (flow x vx vy w t) <= Rabs t * sqrt (vx ^ 2 + vy ^ 2).
Proof.
  assert (P : 0 <= vx ^ 2 + vy ^ 2) by nra.
  unfold gap. rewrite <- (sqrt_Rsqr_abs t), <- sqrt_mult by (try apply Rle_0_sqr; exact P). apply sqrt_le_1_alt. unfold Rsqr, flow.
  destruct (Req_EM_T w 0) as [E|E]; cbn [v0 v1].
  - pose proof (sin2_cos2 (v2 x)) as Q. unfold Rsqr in Q. set (s := sin (v2 x)) in *. set (c := cos (v2 x)) in *.
    apply Req_le. transitivity (t * t * ((vx ^ 2 + vy ^ 2) * (s * s + c * c))); [ring|rewrite Q; ring].
  - pose proof (chord (v2 x) (w * t)) as C. set (A := sin (v2 x + w * t) - sin (v2 x)) in *. set (B := cos (v2 x) - cos (v2 x + w * t)) in *.
    replace (cos (v2 x + w * t) - cos (v2 x)) with (- B) by (unfold B; ring).
    apply Rle_trans with ((vx ^ 2 + vy ^ 2) * ((A ^ 2 + B ^ 2) / w ^ 2)); [apply Req_le; field; exact E|].
    rewrite (Rmult_comm (t * t)). apply Rmult_le_compat_l; [exact P|]. apply Rmult_le_reg_r with (w ^ 2); [nra|].
    replace ((A ^ 2 + B ^ 2) / w ^ 2 * w ^ 2) with (A ^ 2 + B ^ 2) by (field; exact E). nra.
Qed.

Lemma flow_between x vx vy w s t : gap (flow x vx vy w s) (flow x vx vy w t) <= Rabs (t - s) * sqrt (vx ^ 2 + vy ^ 2).
Proof. replace (flow x vx vy w t) with (flow (flow x vx vy w s) vx vy w (t - s)); [apply flow_gap|]. rewrite flow_add. f_equal. ring. Qed.
Lemma c73_motion x u g s t : follows x u g -> gap (g s) (g t) <= Rabs (t - s) * speed u.
Proof. intros F. rewrite !(follows_unique _ _ _ F). apply flow_between. Qed.
Lemma follows_start x u g : follows x u g -> g 0 = x.
Proof.
  intros [A B]. destruct (Rle_lt_dec (1 / 1000000000000) (Rabs (v2 u))) as [H|H]; [exact (proj1 (A H))|exact (proj1 (B H))].
Qed.
Lemma c73_step x u dt : dt <> 0 -> gap x (integrate_twist x u dt) <= Rabs dt * speed u.
Proof. intros H. rewrite integrate_flow by auto. apply flow_gap. Qed.
Lemma gap_shift_r a p k : gap a (shift p k) = gap a p.
Proof. reflexivity. Qed.
Lemma c73_rollout dt u : dt <> 0 -> forall n x k y, nth_error (rollout n dt u x) k = Some y -> gap x y <= INR (S k) * Rabs dt * speed u.
Proof.
  intros Hd n x k y E. assert (K : (k < n)%nat). { rewrite <- (rollout_len n dt u x). apply nth_error_Some. congruence. }
  destruct (rollout_flow dt u Hd n x k K) as [m M]. rewrite E in M.
  assert (Y : y = shift (flow x (v0 u) (v1 u) (rate (v2 u)) (INR (S k) * dt)) m) by congruence. rewrite Y, gap_shift_r.
  eapply Rle_trans; [apply flow_gap|]. rewrite Rabs_mult, (Rabs_pos_eq (INR (S k))) by apply pos_INR. apply Rle_refl.
Qed.
(** Every moment of the motion is within half a step of one of the poses that are checked, or of the start. *)
Lemma c73_between x u g dt n t : 0 < dt -> follows x u g -> 0 <= t <= INR n * dt ->
  exists k, (k <= n)%nat /\ gap (g (INR k * dt)) (g t) <= dt / 2 * speed u.
Proof.
  intros Hd F Ht. set (q := t / dt). assert (Q : t = q * dt) by (unfold q; field; lra).
  assert (Q0 : 0 <= q) by (apply Rmult_le_reg_r with dt; lra). assert (Qn : q <= INR n) by (apply Rmult_le_reg_r with dt; lra).
  set (z := Zfloor (q + 1 / 2)). pose proof (Zfloor_lb (q + 1 / 2)) as L. pose proof (Zfloor_ub (q + 1 / 2)) as U. fold z in L, U.
  assert (Z0 : (0 <= z)%Z). { apply Zfloor_lub. cbn. lra. }
  assert (Zn : (z <= Z.of_nat n)%Z). { assert (z < Z.of_nat n + 1)%Z; [|lia]. apply lt_IZR. rewrite plus_IZR, <- INR_IZR_INZ. lra. }
  exists (Z.to_nat z). split; [lia|]. eapply Rle_trans; [apply (c73_motion x u); exact F|].
  apply Rmult_le_compat_r; [apply speed_pos|]. rewrite INR_IZR_INZ, Z2Nat.id by exact Z0. rewrite Q.
  replace (q * dt - IZR z * dt) with ((q - IZR z) * dt) by ring. rewrite Rabs_mult, (Rabs_pos_eq dt) by lra.
  replace (dt / 2) with (1 / 2 * dt) by field. apply Rmult_le_compat_r; [lra|]. apply Rabs_le. lra.
Qed.

(** ** Where predictions can be checked *)
Lemma gap_coord a b r : gap a b <= r -> Rabs (v0 a - v0 b) <= r /\ Rabs (v1 a - v1 b) <= r.
Proof.
  intros H. unfold gap in H. split; (eapply Rle_trans; [|exact H]); rewrite <- sqrt_Rsqr_abs; apply sqrt_le_1_alt; unfold Rsqr; pose proof (pow2_ge_0 (v0 a - v0 b)); pose proof (pow2_ge_0 (v1 a - v1 b)); lra.
Qed.
Lemma on_map_answers c g p : proper_map g -> proper_radii c g -> on_map g (v0 p) (v1 p) -> answers c g p.
Proof.
  intros (R & (X & Y & C) & S) (A & B & D) M. destruct (c10_real c g (v0 p) (v1 p) R X Y C S M A B D) as (i & j & r & _ & _ & E & _).
  unfold answers. rewrite E. reflexivity.
Qed.
Lemma validate_total c g u dt n : forall x, Forall (answers c g) (rollout n dt u x) -> is_ok (validate_loop n c g x u dt) = true.
Proof.
  induction n as [|n IH]; intros x A; [reflexivity|]. cbn [rollout validate_loop] in *. cbv zeta in *. inversion A as [|? ? C A']; subst.
  unfold answers in C. destruct (collisionCheck _ _ _ _) as [[|]| | |]; try discriminate; [reflexivity|]. cbn [bind]. apply IH, A'.
Qed.
Lemma control_total (d : dwa R) g x0 vb vref :
  (forall u p, sampled d vb u -> In p (rollout (Z.to_nat (dw_steps d)) (dw_dt d) u x0) -> answers (dw_collision d) g p) ->
  is_ok (dwa_control d g x0 vb vref) = true.
Proof.
  intros H. unfold dwa_control. apply search_total. intros u Hu. unfold objective_vref.
  pose proof (validate_total (dw_collision d) g u (dw_dt d) (Z.to_nat (dw_steps d)) x0) as V.
  assert (F : Forall (answers (dw_collision d) g) (rollout (Z.to_nat (dw_steps d)) (dw_dt d) u x0)) by (apply Forall_forall; intros p Hp; exact (H u p Hu Hp)).
  specialize (V F). destruct (validate_loop _ _ _ _ _ _) as [[|]| | |]; try discriminate; reflexivity.
Qed.
Lemma space_near g x r : g_xmin g <= v0 x - r -> v0 x + r <= g_xmin g + IZR (g_xsize g) * g_res g ->
  g_ymin g <= v1 x - r -> v1 x + r <= g_ymin g + IZR (g_ysize g) * g_res g -> space_around g x r.
Proof.
  intros A B C D y G. apply gap_coord in G. destruct G as [G1 G2]. apply Rabs_le_inv in G1. apply Rabs_le_inv in G2.
  unfold on_map. lra.
Qed.
Lemma rollout_on_map g x r n dt u : dt <> 0 -> space_around g x r -> INR n * Rabs dt * speed u <= r ->
  forall p, In p (rollout n dt u x) -> on_map g (v0 p) (v1 p).
Proof.
  intros Hd Hr H p I. apply In_nth_error in I. destruct I as [k K]. apply Hr.
  eapply Rle_trans; [exact (c73_rollout dt u Hd n x k p K)|]. eapply Rle_trans; [|exact H].
  apply Rmult_le_compat_r; [apply speed_pos|]. apply Rmult_le_compat_r; [apply Rabs_pos|]. apply le_INR.
  assert (k < n)%nat; [|lia]. rewrite <- (rollout_len n dt u x). apply nth_error_Some. congruence.
Qed.

(** ** Off the map *)
Lemma check_left c g p : 0 < g_res g -> left_or_below g p -> collisionCheck c g (v0 p) (v1 p) = UB UFloatCast.
Proof.
  intros R [H|H]; unfold collisionCheck, mk_config; [rewrite world2Grid_left|rewrite world2Grid_below]; auto.
Qed.
Lemma validate_stops {T} {NT : Num T} c g u dt k p post : collisionCheck c g (v0 p) (v1 p) = UB k -> forall n x pre, rollout n dt u x = pre ++ p :: post ->
  Forall (clear c g) pre -> validate_loop n c g x u dt = UB k.
Proof.
  intros E. induction n as [|n IH]; intros x pre H F; cbn [rollout] in H; [destruct pre; discriminate|]. cbn [validate_loop]. cbv zeta in *.
  set (y := V3 _ _ _) in *. destruct pre as [|q pre]; cbn [app] in H; injection H as Hy H.
  - subst p. rewrite E. reflexivity.
  - subst q. inversion F as [|? ? C F']; subst. unfold clear in C. rewrite C. cbn [bind]. exact (IH y pre H F').
Qed.
Lemma c74_left c g x u dt h n pre p post : 0 < g_res g -> num_steps dt h = Ok n -> rollout (Z.to_nat n) dt u x = pre ++ p :: post ->
  Forall (clear c g) pre -> left_or_below g p -> validate_control c g x u dt h = UB UFloatCast.
Proof.
  intros R S E F L. unfold validate_control. rewrite S. cbn [bind]. exact (validate_stops c g u dt _ p post (check_left c g p R L) _ x pre E F).
Qed.
Lemma on_circle_bound r a b : (1 <= r)%Z -> on_circle r a b -> (- r <= a <= r /\ - r <= b <= r)%Z.
Proof. intros H C. apply on_circle_ring_set in C. apply (proj2 (CircleProofs.ring_exact r a b H)) in C. exact (CircleProofs.ring_bound r a b H C). Qed.
Lemma c74_right c g p : proper_map g -> proper_radii c g -> indexable g p -> beyond g (c_srad c + g_res g) p ->
  collisionCheck c g (v0 p) (v1 p) = Ok false.
Proof.
  intros (R & (X & Y & C) & S) (A & B & D) ((P1 & P2) & (P3 & P4)) Far.
  set (fl := fun x => Zfloor (x / g_res g)) in *. set (jx := fl (v0 p - g_xmin g)). set (iy := fl (v1 p - g_ymin g)).
  assert (Q : forall z, z / g_res g * g_res g = z) by (intros z; field; lra).
  assert (FL : forall z, 0 <= z < IZR (2 ^ 30) * g_res g -> (0 <= fl z < 2 ^ 30)%Z).
  { intros z [Z1 Z2]. split; [apply Zfloor_lub; cbn; unfold Rdiv; apply Rmult_le_pos; [lra|left; apply Rinv_0_lt_compat, R]|].
    apply lt_IZR. eapply Rle_lt_trans; [apply Zfloor_lb|]. apply Rmult_lt_reg_r with (g_res g); [exact R|]. rewrite Q. exact Z2. }
  pose proof (FL (v0 p - g_xmin g) ltac:(lra)) as J. pose proof (FL (v1 p - g_ymin g) ltac:(lra)) as I. fold jx in J. fold iy in I.
  set (j := (if jx =? g_xsize g then jx - 1 else jx)%Z). set (i := (if iy =? g_ysize g then iy - 1 else iy)%Z).
  assert (W : world2Grid g (v0 p) (v1 p) = Ok (i, j)).
  { rewrite world2Grid_R. change (axis_idx (v0 p) (g_xmin g) (g_res g)) with jx. change (axis_idx (v1 p) (g_ymin g) (g_res g)) with iy.
    destruct ((0 <=? jx) && (jx <? two32))%Z%bool eqn:E1; [|unfold two32 in E1; lia].
    destruct ((0 <=? iy) && (iy <? two32))%Z%bool eqn:E2; [|unfold two32 in E2; lia].
    unfold snap, i, j, u32, two32. destruct (Z.eqb_spec iy (g_ysize g)); destruct (Z.eqb_spec jx (g_xsize g)); rewrite ?Z.mod_small by lia; reflexivity. }
  assert (RA : robot_at c g (v0 p) (v1 p) i j (fl (c_brad c)) (fl (c_brad c + c_othr c)) (fl (c_srad c))).
  { unfold robot_at. rewrite W. cbn [ndiv nadd RNum]. rewrite !to_int_floor. unfold fl in *.
    assert (RR : forall z, (- 46340 <= z <= 46340)%Z -> (if ((- two31 <=? z) && (z <? two31))%Z%bool then Ok z else UB UFloatCast) = Ok z).
    { intros z Hz. destruct ((- two31 <=? z) && (z <? two31))%Z%bool eqn:E; [reflexivity|unfold two31 in E; lia]. }
    rewrite !RR by lia. unfold i, j. repeat split; try lia; destruct (Z.eqb_spec iy (g_ysize g)); destruct (Z.eqb_spec jx (g_xsize g)); lia. }
  destruct (c10_exact c g (v0 p) (v1 p) i j _ _ _ ltac:(unfold ordinary_map; repeat split; first [assumption | lia]) RA) as (res & E & K).
  destruct res; [|exact E]. exfalso. destruct (proj1 K eq_refl) as (a & b & (r & Hr & H1 & O) & ((Oi & Oj) & _) & _).
  apply on_circle_bound in O; [|exact H1].
  assert (FF : forall z s, IZR s * g_res g + (c_srad c + g_res g) <= z -> (s + fl (c_srad c) + 1 <= fl z)%Z).
  { intros z s H. apply Zfloor_lub. rewrite !plus_IZR. apply Rmult_le_reg_r with (g_res g); [exact R|]. rewrite Q.
    pose proof (Zfloor_lb (c_srad c / g_res g)) as L. fold (fl (c_srad c)) in L. apply (Rmult_le_compat_r (g_res g)) in L; [|lra]. rewrite Q in L. lra. }
  destruct Far as [F|F].
  - assert (G : (g_xsize g + fl (c_srad c) + 1 <= jx)%Z) by (apply FF; lra). unfold j in Oj. destruct (Z.eqb_spec jx (g_xsize g)); lia.
  - assert (G : (g_ysize g + fl (c_srad c) + 1 <= iy)%Z) by (apply FF; lra). unfold i in Oi. destruct (Z.eqb_spec iy (g_ysize g)); lia.
Qed.
