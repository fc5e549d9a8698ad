(** Proofs of the statements of PropNumerics.v. *)
From Coq Require Import Reals Lra Lia ZArith List ZifyBool Rgeom.
From Coquelicot Require Import Coquelicot.
From Flocq Require Import Core.Raux IEEE754.BinarySingleNaN.
From Verif Require Import Outcome Num Float64 GridModel GridProofs CollisionModel NumericsModel SpecMotion TrigLemmas.
Import ListNotations.
Local Open Scope R_scope.

Ltac runfold := unfold almost_equal, eps12, lit, n0, n1, n2 in *;
  cbn [nadd nsub nmul ndiv nneg nabs nsqrt nfloor nround nsin ncos nexp nln natan2 npow nlt nle nofZ ntrunc npi nmax RNum] in *.

Lemma almost_equal_R (a b : R) : almost_equal a b = true <-> Rabs (a - b) < 1 / 1000000000000.
Proof. runfold. rewrite Rltb_true. reflexivity. Qed.
Lemma almost_equal_Rf (a b : R) : almost_equal a b = false <-> 1 / 1000000000000 <= Rabs (a - b).
Proof. runfold. rewrite Rltb_false. reflexivity. Qed.

(** ** Wrapping *)
Lemma floor_frac x m : 0 < m -> 0 <= x - IZR (Zfloor (x / m)) * m < m.
Proof.
  intros Hm. pose proof (Zfloor_lb (x / m)) as A. pose proof (Zfloor_ub (x / m)) as B.
  assert (E : x / m * m = x) by (field; lra).
  set (q := x / m) in *. set (f := IZR (Zfloor q)) in *.
  assert (f * m <= q * m) by (apply Rmult_le_compat_r; lra).
  assert (q * m < (f + 1) * m) by (apply Rmult_lt_compat_r; lra). lra.
Qed.

Lemma norm_PI_eq y : normalize_angle_PI y = y - IZR (Zfloor ((y + PI) / (2 * PI))) * (2 * PI).
Proof.
  unfold normalize_angle_PI. runfold. pose proof PI_pos.
  pose proof (floor_frac (y + PI) (2 * PI) ltac:(lra)) as F.
  set (k := IZR (Zfloor ((y + PI) / (2 * PI)))) in *.
  destruct (Rltb (y + PI - k * 2 * PI) 0) eqn:E; [apply Rltb_true in E; lra|]. lra.
Qed.
Lemma c20_wrap y : - PI <= normalize_angle_PI y < PI /\ same_angle (normalize_angle_PI y) y.
Proof.
  rewrite norm_PI_eq. pose proof PI_pos.
  pose proof (floor_frac (y + PI) (2 * PI) ltac:(lra)) as F. split; [lra|].
  exists (- Zfloor ((y + PI) / (2 * PI)))%Z. rewrite opp_IZR. ring.
Qed.
Lemma c20_id y : - PI <= y < PI -> normalize_angle_PI y = y.
Proof.
  intros Hy. rewrite norm_PI_eq. pose proof PI_pos.
  assert (E : Zfloor ((y + PI) / (2 * PI)) = 0%Z); [|rewrite E; lra].
  apply Zfloor_imp. cbn. split.
  - apply Rmult_le_reg_r with (2 * PI); [lra|]. replace ((y + PI) / (2 * PI) * (2 * PI)) with (y + PI) by (field; lra). lra.
  - apply Rmult_lt_reg_r with (2 * PI); [lra|]. replace ((y + PI) / (2 * PI) * (2 * PI)) with (y + PI) by (field; lra). lra.
Qed.
Lemma c20_idem y : normalize_angle_PI (normalize_angle_PI y) = normalize_angle_PI y.
Proof. apply c20_id. apply c20_wrap. Qed.
(** Equal angles wrap to the same number. *)
Lemma same_in_range a b lo : lo <= a < lo + 2 * PI -> lo <= b < lo + 2 * PI -> same_angle a b -> a = b.
Proof.
  intros Ha Hb [k Hk]. pose proof PI_pos.
  assert (-1 < IZR k < 1) as [K1 K2].
  { split; apply Rmult_lt_reg_r with (2 * PI); lra. }
  apply lt_IZR in K1. apply lt_IZR in K2. assert (k = 0)%Z by lia. subst k. lra.
Qed.
Lemma same_angle_trans a b c : same_angle a b -> same_angle b c -> same_angle a c.
Proof. intros [k ->] [m ->]. exists (k + m)%Z. rewrite plus_IZR. ring. Qed.
Lemma same_angle_sym a b : same_angle a b -> same_angle b a.
Proof. intros [k ->]. exists (- k)%Z. rewrite opp_IZR. ring. Qed.
Lemma c20_canonical a b : same_angle a b <-> normalize_angle_PI a = normalize_angle_PI b.
Proof.
  pose proof (c20_wrap a) as [A1 A2]. pose proof (c20_wrap b) as [B1 B2]. split; intros H.
  - apply (same_in_range _ _ (- PI)); [lra|lra|].
    eapply same_angle_trans; [exact A2|]. eapply same_angle_trans; [exact H|]. apply same_angle_sym; exact B2.
  - eapply same_angle_trans; [apply same_angle_sym; exact A2|]. rewrite H. exact B2.
Qed.

Lemma c21_wrap y : 0 <= normalize_angle_2PI y < 2 * PI /\ same_angle (normalize_angle_2PI y) y.
Proof.
  unfold normalize_angle_2PI. runfold. pose proof PI_pos.
  pose proof (floor_frac y (2 * PI) ltac:(lra)) as F.
  set (z := Zfloor (y / (2 * PI))) in *. set (k := IZR z) in *.
  destruct (Rltb (y - k * 2 * PI) 0) eqn:E; [apply Rltb_true in E; lra|].
  split; [lra|]. exists (- z)%Z. rewrite opp_IZR. fold k. ring.
Qed.
Lemma c21_canonical a b : same_angle a b <-> normalize_angle_2PI a = normalize_angle_2PI b.
Proof.
  pose proof (c21_wrap a) as [A1 A2]. pose proof (c21_wrap b) as [B1 B2]. split; intros H.
  - apply (same_in_range _ _ 0); [lra|lra|].
    eapply same_angle_trans; [exact A2|]. eapply same_angle_trans; [exact H|]. apply same_angle_sym; exact B2.
  - eapply same_angle_trans; [apply same_angle_sym; exact A2|]. rewrite H. exact B2.
Qed.

(** binary64 *)
Definition below_minus_pi : b64 := b64_scaled (-7074237752028441) (-51).
Lemma c20_b64_pi (L : libm) :
  Bltb below_minus_pi (Bopp b64_pi) = true /\
  Beqb (@normalize_angle_PI b64 (F64 L) below_minus_pi) b64_pi = true.
Proof. split; vm_compute; reflexivity. Qed.
(** 7 * 2^60 "wraps" to about -1020 *)
Lemma c20_b64_large (L : libm) :
  is_finite (b64_scaled 7 60) = true /\
  Bltb (@normalize_angle_PI b64 (F64 L) (b64_scaled 7 60)) (b64_ofZ (-1000)) = true.
Proof. split; vm_compute; reflexivity. Qed.
Lemma c21_b64_2pi (L : libm) :
  Bltb (b64_scaled (-1) (-60)) (b64_ofZ 0) = true /\
  Beqb (@normalize_angle_2PI b64 (F64 L) (b64_scaled (-1) (-60))) (Bmult mode_NE (b64_ofZ 2) b64_pi) = true.
Proof. split; vm_compute; reflexivity. Qed.

(** ** Yaw *)
Definition qscale (k : R) (q : quat R) : quat R := Q4 (k * qx q) (k * qy q) (k * qz q) (k * qw q).
Definition yaw_of (q : quat R) : R := getYaw (qx q) (qy q) (qz q) (qw q).

Lemma half_cos a : cos a = cos (a * (1 / 2)) * cos (a * (1 / 2)) - sin (a * (1 / 2)) * sin (a * (1 / 2)).
Proof. rewrite <- cos_plus. f_equal. field. Qed.
Lemma half_sin a : sin a = 2 * (sin (a * (1 / 2)) * cos (a * (1 / 2))).
Proof.
  replace (sin a) with (sin (a * (1 / 2) + a * (1 / 2))) by (f_equal; field). rewrite sin_plus. ring.
Qed.
Lemma sc1 a : sin a * sin a + cos a * cos a = 1.
Proof. pose proof (sin2_cos2 a) as H. unfold Rsqr in H. exact H. Qed.

Lemma c22_general k roll pitch yaw : k <> 0 -> - PI < yaw <= PI -> 0 < cos pitch ->
  Rabs (sin pitch) < 99999 / 100000 - 1 / 1000000000000 ->
  yaw_of (qscale k (setRPY roll pitch yaw)) = yaw.
Proof.
  intros Hk Hy Hp Hs. unfold yaw_of, getYaw, qscale, setRPY. cbn [qx qy qz qw]. runfold.
  pose proof (half_sin yaw) as SY. pose proof (half_cos yaw) as CY.
  pose proof (half_sin pitch) as SP. pose proof (half_cos pitch) as CP.
  pose proof (sc1 (yaw * (1 / 2))) as UY. pose proof (sc1 (pitch * (1 / 2))) as UP. pose proof (sc1 (roll * (1 / 2))) as UR.
  set (cy := cos (yaw * (1 / 2))) in *. set (sy := sin (yaw * (1 / 2))) in *.
  set (cp := cos (pitch * (1 / 2))) in *. set (sp := sin (pitch * (1 / 2))) in *.
  set (cr := cos (roll * (1 / 2))) in *. set (sr := sin (roll * (1 / 2))) in *.
  set (X := k * (sr * cp * cy - cr * sp * sy)). set (Y := k * (cr * sp * cy + sr * cp * sy)).
  set (Z := k * (cr * cp * sy - sr * sp * cy)). set (W := k * (cr * cp * cy + sr * sp * sy)).
  assert (K2 : 0 < k * k) by nra.
  assert (N : X * X + Y * Y + Z * Z + W * W = k * k).
  { unfold X, Y, Z, W.
    replace (_ + _) with (k * k * ((sy * sy + cy * cy) * (sp * sp + cp * cp) * (sr * sr + cr * cr))) by ring.
    rewrite UY, UP, UR. ring. }
  assert (A : Ropp 2 * (X * Z - W * Y) / (X * X + Y * Y + Z * Z + W * W) = sin pitch).
  { rewrite N. rewrite SP. unfold X, Y, Z, W.
    replace (Ropp 2 * _) with (k * k * (2 * (sp * cp)) * ((sy * sy + cy * cy) * (sr * sr + cr * cr))) by ring.
    rewrite UY, UR. field. exact Hk. }
  rewrite A. apply Rabs_def2 in Hs.
  destruct (Rltb (sin pitch) (- (99999 / 100000))) eqn:E1; [apply Rltb_true in E1; lra|].
  destruct (Rltb (Rabs (sin pitch - - (99999 / 100000))) (1 / 1000000000000)) eqn:E2.
  { apply Rltb_true in E2. apply Rabs_def2 in E2. lra. }
  destruct (Rltb (99999 / 100000) (sin pitch)) eqn:E3; [apply Rltb_true in E3; lra|].
  destruct (Rltb (Rabs (sin pitch - 99999 / 100000)) (1 / 1000000000000)) eqn:E4.
  { apply Rltb_true in E4. apply Rabs_def2 in E4. lra. }
  cbn [orb].
  replace (2 * (X * Y + W * Z)) with (k * k * cos pitch * sin yaw).
  2:{ rewrite CP, SY. unfold X, Y, Z, W.
      transitivity (k * k * (cp * cp - sp * sp) * (2 * (sy * cy)) * (sr * sr + cr * cr)); [rewrite UR; ring|ring]. }
  replace (W * W + X * X - Y * Y - Z * Z) with (k * k * cos pitch * cos yaw).
  2:{ rewrite CP, CY. unfold X, Y, Z, W.
      transitivity (k * k * (cp * cp - sp * sp) * (cy * cy - sy * sy) * (sr * sr + cr * cr)); [rewrite UR; ring|ring]. }
  apply Ratan2_polar; [|exact Hy]. apply Rmult_lt_0_compat; assumption.
Qed.

Lemma c22_yaw k yaw : k <> 0 -> - PI < yaw <= PI ->
  getYaw 0 0 (k * sin (yaw / 2)) (k * cos (yaw / 2)) = yaw.
Proof.
  intros Hk Hy. rewrite <- (c22_general k 0 0 yaw Hk Hy) at 3.
  - unfold yaw_of, qscale, setRPY. runfold. cbn [qx qy qz qw]. rewrite !Rmult_0_l, sin_0, cos_0.
    replace (yaw / 2) with (yaw * (1 / 2)) by field. f_equal; ring.
  - rewrite cos_0. lra.
  - rewrite sin_0, Rabs_R0. lra.
Qed.

(** ** Transforms *)
Lemma V3_eq (a b c a' b' c' : R) : a = a' -> b = b' -> c = c' -> V3 a b c = V3 a' b' c'.
Proof. intros -> -> ->. reflexivity. Qed.

Lemma c23_action x y a p : mvmul (transform2d x y a) (V3 (fst p) (snd p) 1) =
  V3 (fst (rigid x y a p)) (snd (rigid x y a p)) 1.
Proof. unfold mvmul, transform2d, vdot, rigid. runfold. cbn. apply V3_eq; ring. Qed.
Lemma c23_compose x y a x' y' b :
  mmul (transform2d x y a) (transform2d x' y' b) =
  transform2d (fst (rigid x y a (x', y'))) (snd (rigid x y a (x', y'))) (a + b).
Proof.
  unfold mmul, rmmul, transform2d, vdot, rigid. runfold. cbn. rewrite cos_plus, sin_plus.
  f_equal; apply V3_eq; ring.
Qed.
Lemma c23_split x y a : transform2d x y a = mmul (transform2d_xy x y) (transform2d_rot a).
Proof. unfold mmul, rmmul, transform2d, transform2d_xy, transform2d_rot, vdot. runfold. cbn. f_equal; apply V3_eq; ring. Qed.
Lemma c23_isometry x y a p q :
  let p' := rigid x y a p in let q' := rigid x y a q in
  distance (fst p') (snd p') (fst q') (snd q') = distance (fst p) (snd p) (fst q) (snd q).
Proof.
  cbv zeta. unfold distance, rigid. runfold. cbn [fst snd]. f_equal.
  set (u := fst q - fst p). set (v := snd q - snd p).
  replace (x + cos a * fst q - sin a * snd q - (x + cos a * fst p - sin a * snd p)) with (cos a * u - sin a * v) by (unfold u, v; ring).
  replace (y + sin a * fst q + cos a * snd q - (y + sin a * fst p + cos a * snd p)) with (sin a * u + cos a * v) by (unfold u, v; ring).
  pose proof (sc1 a).
  replace (_ + _) with ((sin a * sin a + cos a * cos a) * (u * u + v * v)) by ring. rewrite H. ring.
Qed.
Definition identity3 : mat3 R := M3 (V3 1 0 0) (V3 0 1 0) (V3 0 0 1).

(** What the helper computes for a rigid transform, and what it should have computed. *)
Lemma inv_parts x y a : - PI <= a < PI ->
  transform2dInv (transform2d x y a) =
  transform2d (- a) (- (cos a * x + sin a * y)) (sin a * x - cos a * y).
Proof.
  intros Ha. unfold transform2dInv. cbn [transform2d r0 r1 v0 v2]. runfold.
  replace (Ratan2 (- sin a) (cos a)) with (- a).
  - f_equal; ring.
  - rewrite <- (Ratan2_polar 1 (- a)) at 1 by lra. rewrite sin_neg, cos_neg. f_equal; ring.
Qed.
Lemma c23_right_order x y a :
  mmul (transform2d (- (cos a * x + sin a * y)) (sin a * x - cos a * y) (- a)) (transform2d x y a) = identity3.
Proof.
  rewrite c23_compose. unfold rigid, transform2d, identity3. runfold. cbn [fst snd].
  rewrite cos_neg, sin_neg. replace (- a + a) with 0 by ring. rewrite cos_0, sin_0.
  f_equal; apply V3_eq; ring.
Qed.
(** The helper's result is the inverse only if the swapped arguments happen to agree. *)
Lemma c23_inv_only x y a : - PI <= a < PI ->
  mmul (transform2dInv (transform2d x y a)) (transform2d x y a) = identity3 ->
  same_angle (sin a * x - cos a * y) (- a).
Proof.
  intros Ha H. rewrite inv_parts in H by assumption. rewrite c23_compose in H.
  set (th := sin a * x - cos a * y) in *. unfold transform2d, identity3 in H. runfold.
  injection H as H1 H2 H3 H4 H5 H6. clear H3 H5 H6 H4.
  assert (S : sin (th + a) = 0) by lra.
  pose proof (c20_wrap (th + a)) as [W1 [k W2]]. 
  assert (S' : sin (normalize_angle_PI (th + a)) = 0) by (rewrite W2, sin_period_Z; exact S).
  assert (C' : cos (normalize_angle_PI (th + a)) = 1) by (rewrite W2, cos_period_Z; exact H1).
  set (w := normalize_angle_PI (th + a)) in *.
  assert (w = 0).
  { pose proof PI_pos. rewrite <- (Ratan2_polar 1 w).
    - rewrite S', C'. rewrite Rmult_0_r, Rmult_1_r. unfold Ratan2. destruct (Rlt_dec 0 1); [|lra].
      unfold Rdiv. rewrite Rmult_0_l. apply atan_0.
    - lra.
    - destruct (Req_dec w (- PI)) as [E|E]; [|lra]. rewrite E, cos_neg, cos_PI in C'. lra. }
  exists (- k)%Z. rewrite opp_IZR. lra.
Qed.
Lemma c23_refuted : exists x y a : R,
  mmul (transform2dInv (transform2d x y a)) (transform2d x y a) <> identity3.
Proof.
  exists 0, 1, 0. pose proof PI_pos as HP. intros H. apply c23_inv_only in H; [|lra].
  rewrite sin_0, cos_0 in H. destruct H as [k H].
  assert (E : IZR k * (2 * PI) = -1) by lra.
  pose proof PI2_1 as P2.
  assert (K1 : -1 < IZR k) by (apply Rmult_lt_reg_r with (2 * PI); lra).
  assert (K2 : IZR k < 0) by (apply Rmult_lt_reg_r with (2 * PI); lra).
  apply lt_IZR in K1. apply lt_IZR in K2. lia.
Qed.
