(** Rounding errors of integrate_twist and of the rollouts in binary64. *)
From Coq Require Import Reals Lra ZArith Lia Psatz List.
From Coquelicot Require Import Coquelicot.
From Flocq Require Import Core.Core IEEE754.BinarySingleNaN Relative Plus_error.
From Verif Require Import Outcome Num Float64 GridModel CollisionModel FloatLemmas NumericsModel NumericsProofs BufferModel DwaModel ErgodicModel ExplorationModel
  SpecMotion MotionProofs RobotProofs TrigLemmas AngleFloat SpecDwa DwaProofs SpecExploration ExplorationProofs SpecNear.
Import ListNotations.
Local Open Scope R_scope.

(** ** Sines and cosines *)
Lemma sin_small x : Rabs (sin x) <= Rabs x.
Proof.
  assert (S : forall t, 0 <= t -> Rabs (sin t) <= t).
  { apply (bound_by_derivative sin cos (fun t => t) (fun _ => 1)).
    - apply sin_0.
    - reflexivity.
    - intros t; auto_derive; [trivial|ring].
    - intros t; auto_derive; [trivial|ring].
    - intros t _. apply Rabs_le. pose proof (COS_bound t). lra. }
  destruct (Rle_lt_dec 0 x) as [H|H].
  - rewrite (Rabs_pos_eq x) by exact H. auto.
  - rewrite <- (Rabs_Ropp (sin x)), <- sin_neg, (Rabs_left x) by exact H. apply S. lra.
Qed.
Lemma cos_small x : Rabs (1 - cos x) <= x * x / 2.
Proof.
  replace x with (2 * (x / 2)) at 1 by field. rewrite cos_2a_sin.
  replace (1 - (1 - 2 * sin (x / 2) * sin (x / 2))) with (2 * (sin (x / 2) * sin (x / 2))) by ring.
  pose proof (sin_small (x / 2)) as H. rewrite Rabs_pos_eq by nra.
  assert (E : forall y, y * y = Rabs y * Rabs y) by (intros y; rewrite <- Rabs_mult, Rabs_pos_eq; nra).
  rewrite (E (sin (x / 2))). replace (x * x / 2) with (2 * (x / 2 * (x / 2))) by field. rewrite (E (x / 2)).
  pose proof (Rabs_pos (sin (x / 2))). nra.
Qed.
Lemma sin_lip a b : Rabs (sin a - sin b) <= Rabs (a - b).
Proof.
  rewrite form4. rewrite !Rabs_mult, (Rabs_pos_eq 2) by lra.
  pose proof (sin_small ((a - b) / 2)) as H. rewrite (Rabs_div (a - b) 2) in H by lra. rewrite (Rabs_pos_eq 2) in H by lra.
  assert (C : Rabs (cos ((a + b) / 2)) <= 1) by (apply Rabs_le, COS_bound).
  pose proof (Rabs_pos (cos ((a + b) / 2))). pose proof (Rabs_pos (sin ((a - b) / 2))). nra.
Qed.
Lemma cos_lip a b : Rabs (cos a - cos b) <= Rabs (a - b).
Proof.
  rewrite form2. rewrite !Rabs_mult. replace (Rabs (-2)) with 2 by (rewrite Rabs_left; lra).
  pose proof (sin_small ((a - b) / 2)) as H. rewrite (Rabs_div (a - b) 2) in H by lra. rewrite (Rabs_pos_eq 2) in H by lra.
  assert (C : Rabs (sin ((a + b) / 2)) <= 1) by (apply Rabs_le, SIN_bound).
  pose proof (Rabs_pos (sin ((a + b) / 2))). pose proof (Rabs_pos (sin ((a - b) / 2))). nra.
Qed.
Lemma sin_cubic x : Rabs (sin x - x) <= Rabs x * Rabs x * Rabs x / 6.
Proof.
  assert (S : forall t, 0 <= t -> Rabs (sin t - t) <= t ^ 3 / 6).
  { apply (bound_by_derivative (fun t => sin t - t) (fun t => cos t - 1) (fun t => t ^ 3 / 6) (fun t => t * t / 2)).
    - rewrite sin_0. ring.
    - field.
    - intros t; auto_derive; [trivial|ring].
    - intros t; auto_derive; [trivial|field].
    - intros t _. rewrite Rabs_minus_sym. apply cos_small. }
  destruct (Rle_lt_dec 0 x) as [H|H].
  - rewrite !(Rabs_pos_eq x) by exact H. eapply Rle_trans; [apply S; exact H|]. right. field.
  - rewrite <- (Rabs_Ropp (sin x - x)). replace (- (sin x - x)) with (sin (- x) - - x) by (rewrite sin_neg; ring).
    rewrite !(Rabs_left x) by exact H. eapply Rle_trans; [apply S; lra|]. right. field.
Qed.

(** ** Single operations, with a term for underflow *)
Definition tiny : R := bpow radix2 (-1000).
Lemma tiny_pos : 0 < tiny.
Proof. apply bpow_gt_0. Qed.
Lemma ueps_pos : 0 < ueps.
Proof. apply bpow_gt_0. Qed.
Lemma rnd_abs z : exists e h, Rabs e <= ueps /\ Rabs h <= tiny /\ rnd64 z = z * (1 + e) + h.
Proof.
  destruct (Rle_lt_dec (bpow radix2 (-1022)) (Rabs z)) as [H|H].
  - destruct (rnd_rel z H) as (e & He & E). exists e, 0. split; [exact He|]. split; [rewrite Rabs_R0; left; apply tiny_pos|]. rewrite E. ring.
  - exists 0, (rnd64 z - z). split; [rewrite Rabs_R0; left; apply ueps_pos|]. split; [|ring].
    assert (B : Rabs (rnd64 z) <= bpow radix2 (-1022)).
    { apply abs_round_le_generic; [typeclasses eauto..| |lra]. apply generic_format_bpow. unfold SpecFloat.fexp, SpecFloat.emin. lia. }
    eapply Rle_trans; [apply Rabs_triang|]. rewrite Rabs_Ropp.
    replace tiny with (bpow radix2 22 * bpow radix2 (-1022)) by (unfold tiny; rewrite <- bpow_plus; reflexivity).
    pose proof (bpow_gt_0 radix2 (-1022)). change (bpow radix2 22) with 4194304. lra.
Qed.
Lemma big k z : (k <= 1000)%Z -> Rabs z <= bpow radix2 k -> Rabs z <= bpow radix2 1000.
Proof. intros Hk H. eapply Rle_trans; [exact H|]. apply bpow_le. exact Hk. Qed.
Lemma fmult_abs (x y : b64) : is_finite x = true -> is_finite y = true -> Rabs (B2R x * B2R y) <= bpow radix2 100 ->
  exists e h, Rabs e <= ueps /\ Rabs h <= tiny /\ B2R (Bmult mode_NE x y) = B2R x * B2R y * (1 + e) + h /\ is_finite (Bmult mode_NE x y) = true.
Proof.
  intros Fx Fy H. destruct (fmult_rnd x y Fx Fy (big 100 _ ltac:(lia) H)) as [E F].
  destruct (rnd_abs (B2R x * B2R y)) as (e & h & He & Hh & R). exists e, h. rewrite E. auto.
Qed.
Lemma fdiv_abs (x y : b64) : is_finite x = true -> B2R y <> 0 -> Rabs (B2R x / B2R y) <= bpow radix2 100 ->
  exists e h, Rabs e <= ueps /\ Rabs h <= tiny /\ B2R (Bdiv mode_NE x y) = B2R x / B2R y * (1 + e) + h /\ is_finite (Bdiv mode_NE x y) = true.
Proof.
  intros Fx Fy H. destruct (fdiv_rnd x y Fx Fy (big 100 _ ltac:(lia) H)) as [E F].
  destruct (rnd_abs (B2R x / B2R y)) as (e & h & He & Hh & R). exists e, h. rewrite E. auto.
Qed.
Lemma fplus_abs (x y : b64) : is_finite x = true -> is_finite y = true -> Rabs (B2R x + B2R y) <= bpow radix2 100 ->
  exists e, Rabs e <= ueps /\ B2R (Bplus mode_NE x y) = (B2R x + B2R y) * (1 + e) /\ is_finite (Bplus mode_NE x y) = true.
Proof. intros Fx Fy H. apply fplus_rel; auto. apply (big 100); auto. lia. Qed.
Lemma fminus_abs (x y : b64) : is_finite x = true -> is_finite y = true -> Rabs (B2R x - B2R y) <= bpow radix2 100 ->
  exists e, Rabs e <= ueps /\ B2R (Bminus mode_NE x y) = (B2R x - B2R y) * (1 + e) /\ is_finite (Bminus mode_NE x y) = true.
Proof. intros Fx Fy H. apply fminus_rel; auto. apply (big 100); auto. lia. Qed.

(** ** Products of approximations *)
Lemma mul_le a b A B : Rabs a <= A -> Rabs b <= B -> Rabs (a * b) <= A * B.
Proof. intros Ha Hb. rewrite Rabs_mult. apply Rmult_le_compat; auto using Rabs_pos. Qed.
Lemma add_le a b A B : Rabs a <= A -> Rabs b <= B -> Rabs (a + b) <= A + B.
Proof. intros Ha Hb. eapply Rle_trans; [apply Rabs_triang|]. lra. Qed.
Lemma near_abs a b e B : Rabs (a - b) <= e -> Rabs b <= B -> Rabs a <= B + e.
Proof. intros H1 H2. replace a with (b + (a - b)) by ring. apply add_le; assumption. Qed.
Lemma one_plus_le e u : Rabs e <= u -> Rabs (1 + e) <= 1 + u.
Proof. intros H. apply add_le; [rewrite Rabs_R1; lra|exact H]. Qed.

Lemma u_small : 0 < ueps <= / 9007199254740992.
Proof. rewrite ueps_val. lra. Qed.
Lemma one_term kap p P X f E eps : 0 <= kap -> Rabs (p - P) <= ueps * Rabs P + kap -> Rabs (X - f) <= eps -> 0 <= eps <= 1 -> Rabs f <= 1 ->
  Rabs (E - 1) <= 5 * ueps -> Rabs (p * X * E - P * f) <= Rabs P * (eps + 16 * ueps) + 4 * kap.
Proof.
  intros Hk Hp HX He Hf HE. pose proof u_small as U. set (u := ueps) in *.
  replace (p * X * E - P * f) with ((p - P) * (X * E) + (P * (X - f) * E + P * f * (E - 1))) by ring.
  assert (X2 : Rabs X <= 2) by (pose proof (near_abs X f eps 1 HX Hf); lra).
  assert (E2 : Rabs E <= 1 + 5 * u) by (replace E with (1 + (E - 1)) by ring; apply one_plus_le; exact HE).
  assert (E3 : Rabs E <= 3 / 2) by lra.
  pose proof (mul_le _ _ _ _ X2 E3) as XE. pose proof (mul_le _ _ _ _ Hp XE) as T1.
  pose proof (Rabs_pos P) as PP.
  pose proof (mul_le _ _ _ _ (mul_le _ _ _ _ (Rle_refl (Rabs P)) HX) E2) as T2.
  pose proof (mul_le _ _ _ _ (mul_le _ _ _ _ (Rle_refl (Rabs P)) Hf) HE) as T3.
  pose proof (add_le _ _ _ _ T1 (add_le _ _ _ _ T2 T3)) as T.
  eapply Rle_trans; [exact T|].
  assert (eps * (5 * u) <= 1 * (5 * u)) by (apply Rmult_le_compat_r; lra).
  assert (Rabs P * (eps * (5 * u)) <= Rabs P * (5 * u)) by (apply Rmult_le_compat_l; lra).
  nra.
Qed.
Lemma two_factors d1 d2 : Rabs d1 <= ueps -> Rabs d2 <= ueps -> Rabs ((1 + d1) * (1 + d2) - 1) <= 2 * ueps + ueps * ueps.
Proof.
  intros H1 H2. replace ((1 + d1) * (1 + d2) - 1) with (d1 + (d2 + d1 * d2)) by ring.
  pose proof (add_le _ _ _ _ H1 (add_le _ _ _ _ H2 (mul_le _ _ _ _ H1 H2))). lra.
Qed.
Lemma three_factors d1 d2 d3 : Rabs d1 <= ueps -> Rabs d2 <= ueps -> Rabs d3 <= ueps -> Rabs ((1 + d1) * ((1 + d2) * (1 + d3)) - 1) <= 5 * ueps.
Proof.
  intros H1 H2 H3. pose proof (two_factors d2 d3 H2 H3) as H. pose proof u_small as U.
  replace ((1 + d1) * ((1 + d2) * (1 + d3)) - 1) with (d1 + (1 + d1) * ((1 + d2) * (1 + d3) - 1)) by ring.
  pose proof (add_le _ _ _ _ H1 (mul_le _ _ _ _ (one_plus_le _ _ H1) H)) as T. set (u := ueps) in *.
  eapply Rle_trans; [exact T|]. nra.
Qed.

(** The quotients (p * s + q * c) / a of integrate_twist. *)
Definition kappa : R := bpow radix2 (-930).
Lemma kappa_pos : 0 < kappa.
Proof. apply bpow_gt_0. Qed.
Lemma tiny_kappa : tiny <= kappa.
Proof. apply bpow_le. lia. Qed.
Lemma kappa_1 : kappa <= 1 / 1000000.
Proof. apply Rle_trans with (bpow radix2 (-30)); [apply bpow_le; lia|]. change (bpow radix2 (-30)) with (/ 1073741824). lra. Qed.
Lemma core (p q s c a : b64) P Q f g : is_finite p = true -> is_finite q = true -> is_finite s = true -> is_finite c = true -> is_finite a = true ->
  bpow radix2 (-70) <= Rabs (B2R a) <= 8 ->
  Rabs (B2R p - P) <= ueps * Rabs P + tiny -> Rabs (B2R q - Q) <= ueps * Rabs Q + tiny -> Rabs P <= 1048576 -> Rabs Q <= 1048576 ->
  Rabs (B2R s / B2R a - f) <= / 1125899906842624 -> Rabs (B2R c / B2R a - g) <= / 60000000 -> Rabs f <= 1 -> Rabs g <= 1 ->
  let r := Bdiv mode_NE (Bplus mode_NE (Bmult mode_NE p s) (Bmult mode_NE q c)) a in
  is_finite r = true /\ Rabs (B2R r - (P * f + Q * g)) <= Rabs P * / 300000000000000 + Rabs Q * / 50000000 + 20 * kappa.
Proof.
  intros Fp Fq Fs Fc Fa [A1 A2] HP HQ BP BQ HX HY Hf Hg r.
  pose proof u_small as U. pose proof kappa_pos as K0. pose proof kappa_1 as K1. pose proof tiny_kappa as TK. pose proof tiny_pos as T0.
  assert (Na : B2R a <> 0). { intros Z. rewrite Z, Rabs_R0 in A1. pose proof (bpow_gt_0 radix2 (-70)). lra. }
  assert (HP' : Rabs (B2R p - P) <= ueps * Rabs P + kappa) by lra. assert (HQ' : Rabs (B2R q - Q) <= ueps * Rabs Q + kappa) by lra.
  assert (Bp : Rabs (B2R p) <= 2000000). { pose proof (near_abs _ _ _ _ HP' BP). pose proof (Rabs_pos P). nra. }
  assert (Bq : Rabs (B2R q) <= 2000000). { pose proof (near_abs _ _ _ _ HQ' BQ). pose proof (Rabs_pos Q). nra. }
  assert (Xb : Rabs (B2R s / B2R a) <= 2) by (pose proof (near_abs _ _ _ _ HX Hf); lra).
  assert (Yb : Rabs (B2R c / B2R a) <= 2) by (pose proof (near_abs _ _ _ _ HY Hg); lra).
  assert (Sb : Rabs (B2R s) <= 16). { replace (B2R s) with (B2R s / B2R a * B2R a) by (field; exact Na). pose proof (mul_le _ _ _ _ Xb A2). lra. }
  assert (Cb : Rabs (B2R c) <= 16). { replace (B2R c) with (B2R c / B2R a * B2R a) by (field; exact Na). pose proof (mul_le _ _ _ _ Yb A2). lra. }
  change (bpow radix2 100) with 1267650600228229401496703205376 in *.
  assert (L100 : 1000000000 <= bpow radix2 100) by (change (bpow radix2 100) with (IZR 1267650600228229401496703205376); lra).
  destruct (fmult_abs p s Fp Fs) as (d1 & h1 & D1 & H1 & E1 & F1). { pose proof (mul_le _ _ _ _ Bp Sb). lra. }
  destruct (fmult_abs q c Fq Fc) as (d2 & h2 & D2 & H2 & E2 & F2). { pose proof (mul_le _ _ _ _ Bq Cb). lra. }
  assert (W : forall d, Rabs d <= ueps -> Rabs (1 + d) <= 2) by (intros d Hd; pose proof (one_plus_le _ _ Hd); lra).
  assert (M1 : Rabs (B2R (Bmult mode_NE p s)) <= 70000000).
  { rewrite E1. pose proof (add_le _ _ _ _ (mul_le _ _ _ _ (mul_le _ _ _ _ Bp Sb) (W _ D1)) H1). lra. }
  assert (M2 : Rabs (B2R (Bmult mode_NE q c)) <= 70000000).
  { rewrite E2. pose proof (add_le _ _ _ _ (mul_le _ _ _ _ (mul_le _ _ _ _ Bq Cb) (W _ D2)) H2). lra. }
  destruct (fplus_abs _ _ F1 F2) as (d3 & D3 & E3 & F3). { pose proof (add_le _ _ _ _ M1 M2). lra. }
  assert (small : forall h, Rabs h <= tiny -> Rabs (h / B2R a) <= kappa).
  { intros h Hh. rewrite Rabs_div by exact Na. apply Rmult_le_reg_r with (Rabs (B2R a)); [pose proof (bpow_gt_0 radix2 (-70)); lra|].
    unfold Rdiv. rewrite Rmult_assoc, Rinv_l by (apply Rabs_no_R0; exact Na). rewrite Rmult_1_r. eapply Rle_trans; [exact Hh|].
    replace tiny with (kappa * bpow radix2 (-70)) by (unfold tiny, kappa; rewrite <- bpow_plus; reflexivity). apply Rmult_le_compat_l; lra. }
  pose proof (small _ H1) as K1'. pose proof (small _ H2) as K2'.
  assert (N : B2R (Bplus mode_NE (Bmult mode_NE p s) (Bmult mode_NE q c)) / B2R a =
    (B2R p * (B2R s / B2R a) * (1 + d1) + h1 / B2R a + (B2R q * (B2R c / B2R a) * (1 + d2) + h2 / B2R a)) * (1 + d3)).
  { rewrite E3, E1, E2. field. exact Na. }
  assert (NB : Rabs (B2R (Bplus mode_NE (Bmult mode_NE p s) (Bmult mode_NE q c)) / B2R a) <= 100000000).
  { rewrite N. pose proof (mul_le _ _ _ _ (add_le _ _ _ _ (add_le _ _ _ _ (mul_le _ _ _ _ (mul_le _ _ _ _ Bp Xb) (W _ D1)) K1')
      (add_le _ _ _ _ (mul_le _ _ _ _ (mul_le _ _ _ _ Bq Yb) (W _ D2)) K2')) (W _ D3)). lra. }
  destruct (fdiv_abs _ a F3 Na) as (d4 & h4 & D4 & H4 & E4 & F4). { lra. }
  split; [exact F4|]. unfold r. rewrite E4, N.
  set (X := B2R s / B2R a) in *. set (Y := B2R c / B2R a) in *. set (k1 := h1 / B2R a) in *. set (k2 := h2 / B2R a) in *.
  replace ((B2R p * X * (1 + d1) + k1 + (B2R q * Y * (1 + d2) + k2)) * (1 + d3) * (1 + d4) + h4 - (P * f + Q * g)) with
    ((B2R p * X * ((1 + d1) * ((1 + d3) * (1 + d4))) - P * f) + ((B2R q * Y * ((1 + d2) * ((1 + d3) * (1 + d4))) - Q * g) + ((k1 + k2) * ((1 + d3) * (1 + d4)) + h4))) by ring.
  pose proof (one_term kappa _ _ _ _ _ _ ltac:(lra) HP' HX ltac:(lra) Hf (three_factors _ _ _ D1 D3 D4)) as R1.
  pose proof (one_term kappa _ _ _ _ _ _ ltac:(lra) HQ' HY ltac:(lra) Hg (three_factors _ _ _ D2 D3 D4)) as R2.
  pose proof (add_le _ _ _ _ (mul_le _ _ _ _ (add_le _ _ _ _ K1' K2') (mul_le _ _ _ _ (W _ D3) (W _ D4))) H4) as R3.
  pose proof (add_le _ _ _ _ R1 (add_le _ _ _ _ R2 R3)) as R. eapply Rle_trans; [exact R|].
  assert (Rabs P * (/ 1125899906842624 + 16 * ueps) <= Rabs P * / 300000000000000) by (apply Rmult_le_compat_l; [apply Rabs_pos|lra]).
  assert (Rabs Q * (/ 60000000 + 16 * ueps) <= Rabs Q * / 50000000) by (apply Rmult_le_compat_l; [apply Rabs_pos|lra]).
  lra.
Qed.

(** ** The ratios sin a / a and (cos a - 1) / a *)
Definition sinc (A : R) : R := sin A / A.
Definition cosc (A : R) : R := (cos A - 1) / A.
Lemma sinc_le A : A <> 0 -> Rabs (sinc A) <= 1.
Proof.
  intros N. unfold sinc. rewrite Rabs_div by exact N. apply Rmult_le_reg_r with (Rabs A); [apply Rabs_pos_lt; exact N|].
  unfold Rdiv. rewrite Rmult_assoc, Rinv_l by (apply Rabs_no_R0; exact N). pose proof (sin_small A). lra.
Qed.
Lemma cosc_le A : A <> 0 -> Rabs (cosc A) <= 1.
Proof.
  intros N. unfold cosc. rewrite Rabs_div by exact N. apply Rmult_le_reg_r with (Rabs A); [apply Rabs_pos_lt; exact N|].
  unfold Rdiv. rewrite Rmult_assoc, Rinv_l by (apply Rabs_no_R0; exact N). pose proof (cos_lip A 0) as H. rewrite cos_0, Rminus_0_r in H. lra.
Qed.
Lemma div_le x A e : A <> 0 -> Rabs x <= e * Rabs A -> Rabs (x / A) <= e.
Proof.
  intros N H. rewrite Rabs_div by exact N. apply Rmult_le_reg_r with (Rabs A); [apply Rabs_pos_lt; exact N|].
  unfold Rdiv. rewrite Rmult_assoc, Rinv_l by (apply Rabs_no_R0; exact N). lra.
Qed.
Lemma inv_factor e : Rabs e <= ueps -> Rabs (/ (1 + e) - 1) <= 2 * ueps.
Proof.
  intros H. pose proof u_small as U. assert (B : - ueps <= e <= ueps) by (apply Rabs_le_between; exact H).
  replace (/ (1 + e) - 1) with (- e / (1 + e)) by (field; lra). apply div_le; [lra|]. rewrite Rabs_Ropp, (Rabs_pos_eq (1 + e)) by lra. nra.
Qed.
Lemma sin_ratio S a A e : A <> 0 -> a = A * (1 + e) -> Rabs e <= ueps -> Rabs (S - sin a) <= 2 * ueps * Rabs a ->
  Rabs (S / a - sinc A) <= / 1125899906842624.
Proof.
  intros N Ea He HS. pose proof u_small as U. assert (B : - ueps <= e <= ueps) by (apply Rabs_le_between; exact He).
  assert (PA : 0 < Rabs A) by (apply Rabs_pos_lt; exact N).
  assert (D : Rabs (a - A) <= ueps * Rabs A). { rewrite Ea. replace (A * (1 + e) - A) with (e * A) by ring. apply mul_le; lra. }
  assert (Aa : Rabs a <= (1 + ueps) * Rabs A). { pose proof (near_abs a A _ _ D (Rle_refl _)). lra. }
  pose proof (sin_small a) as Sa. pose proof (sin_lip a A) as SL.
  assert (T : Rabs (S - sin A) <= 4 * ueps * Rabs A).
  { replace (S - sin A) with ((S - sin a) + (sin a - sin A)) by ring. pose proof (add_le _ _ _ _ HS (Rle_trans _ _ _ SL D)) as T.
    eapply Rle_trans; [exact T|]. assert (2 * ueps * Rabs a <= 2 * ueps * ((1 + ueps) * Rabs A)) by (apply Rmult_le_compat_l; lra).
    assert (0 <= ueps * Rabs A) by nra. assert (ueps * (ueps * Rabs A) <= / 4 * (ueps * Rabs A)) by (apply Rmult_le_compat_r; lra). lra. }
  replace (S / a - sinc A) with ((S - sin A) / A * / (1 + e) + sinc A * (/ (1 + e) - 1)).
  2: { unfold sinc. rewrite Ea. field. repeat split; first [exact N|lra]. }
  pose proof (inv_factor e He) as I.
  assert (I2 : Rabs (/ (1 + e)) <= 3 / 2). { replace (/ (1 + e)) with (1 + (/ (1 + e) - 1)) by ring. pose proof (one_plus_le _ _ I). lra. }
  pose proof (add_le _ _ _ _ (mul_le _ _ _ _ (div_le _ _ _ N T) I2) (mul_le _ _ _ _ (sinc_le A N) I)) as R. lra.
Qed.
Lemma cos_ratio C c a A e d : A <> 0 -> a = A * (1 + e) -> Rabs e <= ueps -> Rabs A <= 8 ->
  Rabs (C - cos a) <= ueps -> (Rabs a <= / 134217728 -> C = 1) -> c = (C - 1) * (1 + d) -> Rabs d <= ueps ->
  Rabs (c / a - cosc A) <= / 60000000.
Proof.
  intros N Ea He A8 HC H1 Ec Hd. pose proof u_small as U. assert (B : - ueps <= e <= ueps) by (apply Rabs_le_between; exact He).
  assert (PA : 0 < Rabs A) by (apply Rabs_pos_lt; exact N).
  assert (D : Rabs (a - A) <= ueps * Rabs A). { rewrite Ea. replace (A * (1 + e) - A) with (e * A) by ring. apply mul_le; lra. }
  assert (Aa : Rabs a <= (1 + ueps) * Rabs A). { pose proof (near_abs a A _ _ D (Rle_refl _)). lra. }
  assert (aA : Rabs A <= Rabs a + ueps * Rabs A). { rewrite Rabs_minus_sym in D. pose proof (near_abs A a _ _ D (Rle_refl _)). lra. }
  assert (T : Rabs (C - cos A) <= / 67000000 * Rabs A).
  { destruct (Rle_lt_dec (Rabs a) (/ 134217728)) as [S|S].
    - rewrite H1 by exact S. eapply Rle_trans; [apply cos_small|].
      assert (E : A * A = Rabs A * Rabs A) by (rewrite <- Rabs_mult, Rabs_pos_eq; nra). rewrite E. nra.
    - replace (C - cos A) with ((C - cos a) + (cos a - cos A)) by ring.
      pose proof (add_le _ _ _ _ HC (Rle_trans _ _ _ (cos_lip a A) D)) as T. nra. }
  assert (V : Rabs ((C - 1) / A - cosc A) <= / 67000000).
  { replace ((C - 1) / A - cosc A) with ((C - cos A) / A) by (unfold cosc; field; exact N). apply div_le; assumption. }
  pose proof (inv_factor e He) as I.
  set (E := (1 + d) * / (1 + e)).
  assert (HE : Rabs (E - 1) <= 4 * ueps).
  { unfold E. replace ((1 + d) * / (1 + e) - 1) with (d + (1 + d) * (/ (1 + e) - 1)) by ring.
    assert (W : Rabs (1 + d) <= 3 / 2) by (pose proof (one_plus_le _ _ Hd); lra).
    pose proof (add_le _ _ _ _ Hd (mul_le _ _ _ _ W I)). lra. }
  replace (c / a - cosc A) with (((C - 1) / A - cosc A) * E + cosc A * (E - 1)).
  2: { unfold E. rewrite Ec, Ea. field. repeat split; first [exact N|lra]. }
  assert (WE : Rabs E <= 1 + 4 * ueps) by (replace E with (1 + (E - 1)) by ring; apply one_plus_le; exact HE).
  pose proof (add_le _ _ _ _ (mul_le _ _ _ _ V WE) (mul_le _ _ _ _ (cosc_le A N) HE)) as R. eapply Rle_trans; [exact R|]. lra.
Qed.

(** ** The displacement in the frame of the body *)
Definition dqb {T} {NT : Num T} (u : vec3 T) (dt : T) : vec3 T :=
  if almost_equal (v2 u) n0 then V3 (v0 u * dt)%num (v1 u * dt)%num n0
  else
    let vb := vscale u dt in
    V3 ((v0 vb * nsin (v2 vb) + v1 vb * (ncos (v2 vb) - n1)) / v2 vb)%num
       ((v1 vb * nsin (v2 vb) + v0 vb * (n1 - ncos (v2 vb))) / v2 vb)%num
       (v2 vb).
Lemma integrate_dqb {T} {NT : Num T} (x u : vec3 T) dt : integrate_twist x u dt = vadd x (mvmul (transform2d_rot (v2 x)) (dqb u dt)).
Proof. reflexivity. Qed.

(** The exact displacement for the lengths P, Q and the angle A. *)
Definition D0 (P Q A : R) : R := if Req_EM_T A 0 then P else P * sinc A + Q * cosc A.
Definition D1 (P Q A : R) : R := if Req_EM_T A 0 then Q else Q * sinc A - P * cosc A.
Lemma flow_D x vx vy w t : flow x vx vy w t =
  V3 (v0 x + (cos (v2 x) * D0 (vx * t) (vy * t) (w * t) - sin (v2 x) * D1 (vx * t) (vy * t) (w * t)))
     (v1 x + (sin (v2 x) * D0 (vx * t) (vy * t) (w * t) + cos (v2 x) * D1 (vx * t) (vy * t) (w * t))) (v2 x + w * t).
Proof.
  unfold flow, D0, D1. destruct (Req_EM_T w 0) as [->|N].
  - rewrite Rmult_0_l. destruct (Req_EM_T 0 0) as [_|N]; [|lra]. apply V3_eq; ring.
  - destruct (Req_EM_T (w * t) 0) as [Z|Nt].
    + assert (t = 0) as ->. { destruct (Rmult_integral _ _ Z) as [E|E]; [contradiction|exact E]. }
      rewrite !Rmult_0_r, !Rplus_0_r. apply V3_eq; field; exact N.
    + assert (t <> 0) by (intros ->; apply Nt; ring). unfold sinc, cosc. rewrite sin_plus, cos_plus. apply V3_eq; field; auto.
Qed.
Lemma D_le P Q A : Rabs (D0 P Q A) <= Rabs P + Rabs Q /\ Rabs (D1 P Q A) <= Rabs P + Rabs Q.
Proof.
  unfold D0, D1. pose proof (Rabs_pos P). pose proof (Rabs_pos Q). destruct (Req_EM_T A 0) as [_|N]; [lra|].
  pose proof (sinc_le A N) as S. pose proof (cosc_le A N) as C. split.
  - pose proof (add_le _ _ _ _ (mul_le _ _ _ _ (Rle_refl (Rabs P)) S) (mul_le _ _ _ _ (Rle_refl (Rabs Q)) C)). lra.
  - unfold Rminus. rewrite Ropp_mult_distr_r. rewrite <- (Rabs_Ropp (cosc A)) in C.
    pose proof (add_le _ _ _ _ (mul_le _ _ _ _ (Rle_refl (Rabs Q)) S) (mul_le _ _ _ _ (Rle_refl (Rabs P)) C)). lra.
Qed.
Lemma D_straight P Q A : Rabs A <= 1 -> Rabs (D0 P Q A - P) <= (Rabs P + Rabs Q) * Rabs A /\ Rabs (D1 P Q A - Q) <= (Rabs P + Rabs Q) * Rabs A.
Proof.
  intros HA. unfold D0, D1. pose proof (Rabs_pos P) as PP. pose proof (Rabs_pos Q) as PQ. pose proof (Rabs_pos A) as PA0.
  destruct (Req_EM_T A 0) as [->|N].
  - rewrite !Rminus_eq_0, Rabs_R0. lra.
  - assert (PA : 0 < Rabs A) by (apply Rabs_pos_lt; exact N).
    assert (S : Rabs (sinc A - 1) <= Rabs A).
    { replace (sinc A - 1) with ((sin A - A) / A) by (unfold sinc; field; exact N). apply div_le; [exact N|].
      eapply Rle_trans; [apply sin_cubic|]. nra. }
    assert (C : Rabs (cosc A) <= Rabs A).
    { unfold cosc. apply div_le; [exact N|]. rewrite Rabs_minus_sym. eapply Rle_trans; [apply cos_small|].
      assert (E : A * A = Rabs A * Rabs A) by (rewrite <- Rabs_mult, Rabs_pos_eq; nra). rewrite E. nra. }
    split.
    + replace (P * sinc A + Q * cosc A - P) with (P * (sinc A - 1) + Q * cosc A) by ring.
      pose proof (add_le _ _ _ _ (mul_le _ _ _ _ (Rle_refl (Rabs P)) S) (mul_le _ _ _ _ (Rle_refl (Rabs Q)) C)). lra.
    + replace (Q * sinc A - P * cosc A - Q) with (Q * (sinc A - 1) + P * - cosc A) by ring. rewrite <- (Rabs_Ropp (cosc A)) in C.
      pose proof (add_le _ _ _ _ (mul_le _ _ _ _ (Rle_refl (Rabs Q)) S) (mul_le _ _ _ _ (Rle_refl (Rabs P)) C)). lra.
Qed.

Lemma minus_zero (w z : b64) : is_finite w = true -> is_finite z = true -> B2R z = 0 ->
  B2R (Bminus mode_NE w z) = B2R w /\ is_finite (Bminus mode_NE w z) = true.
Proof.
  intros F Fz Z. pose proof (Bminus_correct 53 1024 _ _ mode_NE w z F Fz) as C. rewrite Z, Rminus_0_r in C.
  rewrite (round_generic radix2 _ _ (B2R w)) in C by apply (generic_format_B2R 53 1024 w).
  rewrite Rlt_bool_true in C by apply abs_B2R_lt_emax. split; apply C.
Qed.
Lemma eps_b64 (L : libm) : is_finite (@eps12 b64 (F64 L)) = true /\ 99 / 100 / 1000000000000 <= B2R (@eps12 b64 (F64 L)) <= 101 / 100 / 1000000000000.
Proof.
  unfold eps12, lit. cbn [ndiv nofZ F64].
  destruct (ofZ_exact 1 ltac:(lia)) as [E1 F1]. destruct (ofZ_exact 1000000000000 ltac:(lia)) as [E2 F2].
  assert (Q : B2R (b64_ofZ 1) / B2R (b64_ofZ 1000000000000) = / 1000000000000) by (rewrite E1, E2; lra).
  destruct (fdiv_rel (b64_ofZ 1) (b64_ofZ 1000000000000) F1) as (e & He & E & F).
  - rewrite E2. lra.
  - rewrite Q, Rabs_pos_eq by lra. split.
    + apply Rle_trans with (bpow radix2 (-40)); [apply bpow_le; lia|]. change (bpow radix2 (-40)) with (/ 1099511627776). lra.
    + apply Rle_trans with (bpow radix2 0); [|apply bpow_le; lia]. change (bpow radix2 0) with 1. lra.
  - split; [exact F|]. change (Z.pos 1000000000000) with 1000000000000%Z. rewrite E, Q. pose proof u_small. assert (B : - ueps <= e <= ueps) by (apply Rabs_le_between; exact He). lra.
Qed.
Lemma almost_b64 (L : libm) (w : b64) : is_finite w = true ->
  (@almost_equal b64 (F64 L) w (@n0 b64 (F64 L)) = true -> Rabs (B2R w) <= 101 / 100 / 1000000000000) /\
  (@almost_equal b64 (F64 L) w (@n0 b64 (F64 L)) = false -> 99 / 100 / 1000000000000 <= Rabs (B2R w)).
Proof.
  intros F. destruct (eps_b64 L) as [Fe Be]. destruct (ofZ_exact 0 ltac:(lia)) as [E0 F0].
  destruct (minus_zero w (b64_ofZ 0) F F0 E0) as [Em Fm].
  assert (E : @almost_equal b64 (F64 L) w (@n0 b64 (F64 L)) = Bltb (Babs (Bminus mode_NE w (b64_ofZ 0))) (@eps12 b64 (F64 L))) by reflexivity.
  rewrite E, Bltb_R by (rewrite ?is_finite_Babs; assumption). rewrite B2R_Babs, Em. split; intros H.
  - destruct (Rlt_bool_spec (Rabs (B2R w)) (B2R (@eps12 b64 (F64 L)))); [lra|discriminate].
  - destruct (Rlt_bool_spec (Rabs (B2R w)) (B2R (@eps12 b64 (F64 L)))); [discriminate|lra].
Qed.

Lemma dq_close (L : libm) (u : vec3 b64) (dt : b64) : accurate L -> moderate u dt ->
  let P := B2R (v0 u) * B2R dt in let Q := B2R (v1 u) * B2R dt in let A := B2R (v2 u) * B2R dt in
  let d := @dqb b64 (F64 L) u dt in
  finite3 d /\ Rabs (B2R (v0 d) - D0 P Q A) <= (Rabs P + Rabs Q) * / 40000000 + 20 * kappa /\
  Rabs (B2R (v1 d) - D1 P Q A) <= (Rabs P + Rabs Q) * / 40000000 + 20 * kappa /\
  Rabs (B2R (v2 d) - A) <= / 900000000000 /\ Rabs (B2R (v2 d)) <= 5.
Proof.
  intros HL ((Fx & Fy & Fw) & Fd & [d1 d2] & HA & HS) P Q A d.
  pose proof u_small as U. pose proof kappa_pos as K0. pose proof kappa_1 as K1. pose proof tiny_kappa as TK. pose proof tiny_pos as T0.
  assert (L100 : 1000000000 <= bpow radix2 100) by (change (bpow radix2 100) with (IZR 1267650600228229401496703205376); lra).
  assert (EP : Rabs P = Rabs (B2R (v0 u)) * Rabs (B2R dt)) by apply Rabs_mult.
  assert (EQ : Rabs Q = Rabs (B2R (v1 u)) * Rabs (B2R dt)) by apply Rabs_mult.
  assert (EA : Rabs A = Rabs (B2R (v2 u)) * Rabs (B2R dt)) by apply Rabs_mult.
  assert (HM : Rabs P + Rabs Q <= 1048576) by (unfold stride in HS; rewrite EP, EQ; lra).
  assert (PP : 0 <= Rabs P) by apply Rabs_pos. assert (PQ : 0 <= Rabs Q) by apply Rabs_pos.
  destruct (fmult_abs (v0 u) dt Fx Fd) as (e1 & h1 & He1 & Hh1 & E1 & F1). { change (B2R (v0 u) * B2R dt) with P. lra. }
  destruct (fmult_abs (v1 u) dt Fy Fd) as (e2 & h2 & He2 & Hh2 & E2 & F2). { change (B2R (v1 u) * B2R dt) with Q. lra. }
  fold P in E1. fold Q in E2.
  assert (Np : Rabs (B2R (Bmult mode_NE (v0 u) dt) - P) <= ueps * Rabs P + tiny).
  { rewrite E1. replace (P * (1 + e1) + h1 - P) with (e1 * P + h1) by ring. apply add_le; [apply mul_le; lra|exact Hh1]. }
  assert (Nq : Rabs (B2R (Bmult mode_NE (v1 u) dt) - Q) <= ueps * Rabs Q + tiny).
  { rewrite E2. replace (Q * (1 + e2) + h2 - Q) with (e2 * Q + h2) by ring. apply add_le; [apply mul_le; lra|exact Hh2]. }
  destruct (almost_b64 L (v2 u) Fw) as [AT AF]. unfold d, dqb.
  destruct (@almost_equal b64 (F64 L) (v2 u) (@n0 b64 (F64 L))) eqn:AE.
  - specialize (AT eq_refl). clear AF. cbn [v0 v1 v2 nmul F64].
    destruct (ofZ_exact 0 ltac:(lia)) as [Z0 FZ]. change (@n0 b64 (F64 L)) with (b64_ofZ 0).
    assert (SA : Rabs A <= / 900000000000). { rewrite EA. pose proof (mul_le _ _ _ _ (Rle_refl (Rabs (B2R (v2 u)))) d2). rewrite Rabs_mult in H. pose proof (Rabs_pos (B2R (v2 u))). lra. }
    destruct (D_straight P Q A ltac:(lra)) as [S0 S1].
    assert (SM : (Rabs P + Rabs Q) * Rabs A <= (Rabs P + Rabs Q) * / 900000000000) by (apply Rmult_le_compat_l; lra).
    assert (ueps * Rabs P <= / 1000000000 * Rabs P) by (apply Rmult_le_compat_r; lra).
    assert (ueps * Rabs Q <= / 1000000000 * Rabs Q) by (apply Rmult_le_compat_r; lra).
    split; [repeat split; cbn [v0 v1 v2]; assumption|]. rewrite Z0. repeat split.
    + rewrite Rabs_minus_sym in S0. replace (B2R (Bmult mode_NE (v0 u) dt) - D0 P Q A) with ((B2R (Bmult mode_NE (v0 u) dt) - P) + (P - D0 P Q A)) by ring.
      pose proof (add_le _ _ _ _ Np S0). lra.
    + rewrite Rabs_minus_sym in S1. replace (B2R (Bmult mode_NE (v1 u) dt) - D1 P Q A) with ((B2R (Bmult mode_NE (v1 u) dt) - Q) + (Q - D1 P Q A)) by ring.
      pose proof (add_le _ _ _ _ Nq S1). lra.
    + rewrite Rminus_0_l, Rabs_Ropp. exact SA.
    + rewrite Rabs_R0. lra.
  - specialize (AF eq_refl). clear AT. cbn [v0 v1 v2 nmul nadd nsub ndiv nsin ncos F64 vscale].
    change (@n1 b64 (F64 L)) with (b64_ofZ 1). destruct (ofZ_exact 1 ltac:(lia)) as [Z1 F1'].
    assert (LA : / 1100000000000000000 <= Rabs A).
    { rewrite EA. apply Rle_trans with (99 / 100 / 1000000000000 * / 1048576); [lra|]. apply Rmult_le_compat; lra. }
    assert (UA : Rabs A <= 4) by lra.
    assert (NA : A <> 0) by (intros Z; rewrite Z, Rabs_R0 in LA; lra).
    assert (B60 : bpow radix2 (-60) = / 1152921504606846976) by reflexivity.
    destruct (fmult_rel (v2 u) dt Fw Fd) as (e & He & E & Fa).
    { fold A. split; [|apply (big 100); [lia|lra]]. apply Rle_trans with (bpow radix2 (-60)); [apply bpow_le; lia|]. lra. }
    fold A in E. set (a := Bmult mode_NE (v2 u) dt) in *. set (p := Bmult mode_NE (v0 u) dt) in *. set (q := Bmult mode_NE (v1 u) dt) in *.
    assert (Be : - ueps <= e <= ueps) by (apply Rabs_le_between; exact He).
    assert (Da : Rabs (B2R a - A) <= ueps * Rabs A). { rewrite E. replace (A * (1 + e) - A) with (e * A) by ring. apply mul_le; lra. }
    assert (UM : ueps * Rabs A <= / 9007199254740992 * Rabs A) by (apply Rmult_le_compat_r; lra).
    assert (Ua : Rabs (B2R a) <= 5) by (pose proof (near_abs _ _ _ _ Da UA); lra).
    assert (La : bpow radix2 (-70) <= Rabs (B2R a)).
    { rewrite Rabs_minus_sym in Da. pose proof (near_abs _ _ _ _ Da (Rle_refl _)) as H. apply Rle_trans with (bpow radix2 (-61)); [apply bpow_le; lia|].
      change (bpow radix2 (-61)) with (/ 2305843009213693952). lra. }
    destruct (HL a Fa ltac:(lra)) as (Fs & Hs & Fc & Hc & H1).
    assert (B52 : bpow radix2 (-52) = 2 * ueps) by (unfold ueps; change (-52)%Z with (1 + -53)%Z; rewrite bpow_plus; reflexivity).
    rewrite B52 in Hs. change (bpow radix2 (-53)) with ueps in Hc. change (bpow radix2 (-27)) with (/ 134217728) in H1.
    assert (Hs2 : Rabs (B2R (m_sin L a) - sin (B2R a)) <= 2 * ueps * Rabs (B2R a)).
    { eapply Rle_trans; [exact Hs|]. apply Rmult_le_compat_l; [pose proof ueps_pos; lra|apply Rmin_r]. }
    pose proof (sin_ratio _ _ _ _ NA E He Hs2) as RS.
    assert (Cb : Rabs (B2R (m_cos L a)) <= 2). { assert (Rabs (cos (B2R a)) <= 1) by (apply Rabs_le, COS_bound). pose proof (near_abs _ _ _ _ Hc H). lra. }
    destruct (fminus_abs (m_cos L a) (b64_ofZ 1) Fc F1') as (d3 & D3 & E3 & F3).
    { rewrite Z1. unfold Rminus. assert (Rabs (- (1)) <= 1) by (rewrite Rabs_Ropp, Rabs_R1; lra). pose proof (add_le _ _ _ _ Cb H). lra. }
    destruct (fminus_abs (b64_ofZ 1) (m_cos L a) F1' Fc) as (d4 & D4 & E4 & F4).
    { rewrite Z1. unfold Rminus. rewrite <- Rabs_Ropp in Cb. assert (Rabs 1 <= 1) by (rewrite Rabs_R1; lra). pose proof (add_le _ _ _ _ H Cb). lra. }
    rewrite Z1 in E3, E4.
    pose proof (cos_ratio _ _ _ _ _ _ NA E He ltac:(lra) Hc H1 E3 D3) as RC.
    assert (E4' : - B2R (Bminus mode_NE (b64_ofZ 1) (m_cos L a)) = (B2R (m_cos L a) - 1) * (1 + d4)) by (rewrite E4; ring).
    pose proof (cos_ratio _ _ _ _ _ _ NA E He ltac:(lra) Hc H1 E4' D4) as RC'.
    assert (RC2 : Rabs (B2R (Bminus mode_NE (b64_ofZ 1) (m_cos L a)) / B2R a - - cosc A) <= / 60000000).
    { rewrite <- Rabs_Ropp. replace (- (B2R (Bminus mode_NE (b64_ofZ 1) (m_cos L a)) / B2R a - - cosc A)) with (- B2R (Bminus mode_NE (b64_ofZ 1) (m_cos L a)) / B2R a - cosc A); [exact RC'|].
      unfold Rdiv. ring. }
    pose proof (sinc_le A NA) as S1. pose proof (cosc_le A NA) as C1. assert (C2 : Rabs (- cosc A) <= 1) by (rewrite Rabs_Ropp; exact C1).
    assert (Ra : bpow radix2 (-70) <= Rabs (B2R a) <= 8) by (split; [exact La|lra]). assert (BP : Rabs P <= 1048576) by lra. assert (BQ : Rabs Q <= 1048576) by lra.
    destruct (core p q (m_sin L a) _ a P Q _ _ F1 F2 Fs F3 Fa Ra Np Nq BP BQ RS RC S1 C1) as [G1 R1].
    destruct (core q p (m_sin L a) _ a Q P _ _ F2 F1 Fs F4 Fa Ra Nq Np BQ BP RS RC2 S1 C2) as [G2 R2].
    split; [repeat split; cbn [v0 v1 v2]; assumption|].
    unfold D0, D1. destruct (Req_EM_T A 0) as [Z|_]; [contradiction|].
    split; [|split; [|split]].
    + eapply Rle_trans; [exact R1|]. lra.
    + replace (Q * sinc A - P * cosc A) with (Q * sinc A + P * - cosc A) by ring. eapply Rle_trans; [exact R2|]. lra.
    + lra.
    + lra.
Qed.

(** ** Turning the displacement into the frame of the map *)
Lemma turned_term c C d X E eps M : Rabs (c - C) <= 2 * ueps -> Rabs C <= 1 -> Rabs (d - X) <= eps -> Rabs X <= M -> Rabs (E - 1) <= 5 * ueps ->
  Rabs (c * d * E - C * X) <= eps * (1 + 10 * ueps) + 9 * ueps * M.
Proof.
  intros Hc HC Hd HX HE. pose proof u_small as U.
  replace (c * d * E - C * X) with ((d - X) * (c * E) + ((c - C) * (X * E) + C * X * (E - 1))) by ring.
  assert (c1 : Rabs c <= 1 + 2 * ueps) by (exact (near_abs _ _ _ _ Hc HC)).
  assert (E1 : Rabs E <= 1 + 5 * ueps) by (replace E with (1 + (E - 1)) by ring; apply one_plus_le; exact HE).
  assert (P1 : 0 <= eps) by (pose proof (Rabs_pos (d - X)); lra). assert (P2 : 0 <= M) by (pose proof (Rabs_pos X); lra).
  assert (cE : Rabs (c * E) <= 1 + 10 * ueps) by (pose proof (mul_le _ _ _ _ c1 E1); nra).
  assert (E2 : Rabs E <= 3 / 2) by lra.
  pose proof (add_le _ _ _ _ (mul_le _ _ _ _ Hd cE) (add_le _ _ _ _ (mul_le _ _ _ _ Hc (mul_le _ _ _ _ HX E2)) (mul_le _ _ _ _ (mul_le _ _ _ _ HC HX) HE))) as T.
  eapply Rle_trans; [exact T|]. assert (0 <= ueps * M) by (apply Rmult_le_pos; lra). lra.
Qed.
Lemma mult_zero (z d : b64) : is_finite z = true -> is_finite d = true -> B2R z = 0 ->
  B2R (Bmult mode_NE z d) = 0 /\ is_finite (Bmult mode_NE z d) = true.
Proof.
  intros Fz Fd Z. assert (P : B2R z * B2R d = 0) by (rewrite Z; ring).
  destruct (fmult_rnd z d Fz Fd) as [E F]. { rewrite P, Rabs_R0. apply bpow_ge_0. }
  rewrite P, round_0 in E by typeclasses eauto. auto.
Qed.
Lemma row_close (c s z d0 d1 d2 : b64) C S X Y M : is_finite c = true -> is_finite s = true -> is_finite z = true -> is_finite d0 = true -> is_finite d1 = true -> is_finite d2 = true ->
  B2R z = 0 -> Rabs (B2R c - C) <= 2 * ueps -> Rabs (B2R s - S) <= 2 * ueps -> Rabs C <= 1 -> Rabs S <= 1 ->
  Rabs (B2R d0 - X) <= M * / 40000000 + 20 * kappa -> Rabs (B2R d1 - Y) <= M * / 40000000 + 20 * kappa -> Rabs X <= M -> Rabs Y <= M -> M <= 1048576 ->
  let r := Bplus mode_NE (Bplus mode_NE (Bmult mode_NE c d0) (Bmult mode_NE s d1)) (Bmult mode_NE z d2) in
  is_finite r = true /\ Rabs (B2R r - (C * X + S * Y)) <= M * / 19000000 + 100 * kappa.
Proof.
  intros Fc Fs Fz F0 F1 F2 Z Hc Hs HC HS H0 H1 HX HY HM r.
  pose proof u_small as U. pose proof kappa_pos as K0. pose proof kappa_1 as K1. pose proof tiny_kappa as TK. pose proof tiny_pos as T0.
  assert (L100 : 1000000000 <= bpow radix2 100) by (change (bpow radix2 100) with (IZR 1267650600228229401496703205376); lra).
  assert (M0 : 0 <= M) by (pose proof (Rabs_pos X); lra).
  assert (c2 : Rabs (B2R c) <= 2) by (pose proof (near_abs _ _ _ _ Hc HC); lra).
  assert (s2 : Rabs (B2R s) <= 2) by (pose proof (near_abs _ _ _ _ Hs HS); lra).
  assert (b0 : Rabs (B2R d0) <= 2000000) by (pose proof (near_abs _ _ _ _ H0 HX); lra).
  assert (b1 : Rabs (B2R d1) <= 2000000) by (pose proof (near_abs _ _ _ _ H1 HY); lra).
  assert (W : forall d, Rabs d <= ueps -> Rabs (1 + d) <= 2) by (intros d Hd; pose proof (one_plus_le _ _ Hd); lra).
  destruct (fmult_abs c d0 Fc F0) as (e0 & h0 & E0 & G0 & Q0 & J0). { pose proof (mul_le _ _ _ _ c2 b0). lra. }
  destruct (fmult_abs s d1 Fs F1) as (e1 & h1 & E1 & G1 & Q1 & J1). { pose proof (mul_le _ _ _ _ s2 b1). lra. }
  destruct (mult_zero z d2 Fz F2 Z) as [Q2 J2].
  assert (B0 : Rabs (B2R (Bmult mode_NE c d0)) <= 9000000).
  { rewrite Q0. pose proof (add_le _ _ _ _ (mul_le _ _ _ _ (mul_le _ _ _ _ c2 b0) (W _ E0)) G0). lra. }
  assert (B1 : Rabs (B2R (Bmult mode_NE s d1)) <= 9000000).
  { rewrite Q1. pose proof (add_le _ _ _ _ (mul_le _ _ _ _ (mul_le _ _ _ _ s2 b1) (W _ E1)) G1). lra. }
  pose proof (add_le _ _ _ _ B0 B1) as B01.
  destruct (fplus_abs _ _ J0 J1) as (e3 & E3 & Q3 & J3). { lra. }
  assert (B3 : Rabs (B2R (Bplus mode_NE (Bmult mode_NE c d0) (Bmult mode_NE s d1))) <= 40000000). { rewrite Q3. pose proof (mul_le _ _ _ _ B01 (W _ E3)). lra. }
  destruct (fplus_abs _ _ J3 J2) as (e4 & E4 & Q4 & J4). { rewrite Q2, Rplus_0_r. lra. }
  split; [exact J4|]. unfold r. rewrite Q4, Q2, Rplus_0_r, Q3, Q0, Q1.
  replace ((B2R c * B2R d0 * (1 + e0) + h0 + (B2R s * B2R d1 * (1 + e1) + h1)) * (1 + e3) * (1 + e4) - (C * X + S * Y)) with
    ((B2R c * B2R d0 * ((1 + e0) * ((1 + e3) * (1 + e4))) - C * X) + ((B2R s * B2R d1 * ((1 + e1) * ((1 + e3) * (1 + e4))) - S * Y) + (h0 + h1) * ((1 + e3) * (1 + e4)))) by ring.
  pose proof (turned_term _ _ _ _ _ _ _ Hc HC H0 HX (three_factors _ _ _ E0 E3 E4)) as R1.
  pose proof (turned_term _ _ _ _ _ _ _ Hs HS H1 HY (three_factors _ _ _ E1 E3 E4)) as R2.
  pose proof (mul_le _ _ _ _ (add_le _ _ _ _ G0 G1) (mul_le _ _ _ _ (W _ E3) (W _ E4))) as R3.
  pose proof (add_le _ _ _ _ R1 (add_le _ _ _ _ R2 R3)) as R. eapply Rle_trans; [exact R|].
  assert (ueps * M <= / 9007199254740992 * M) by (apply Rmult_le_compat_r; lra).
  assert (ueps * kappa <= / 1000 * kappa) by (apply Rmult_le_compat_r; lra). lra.
Qed.

(** ** One step *)
Lemma zero_row (z o d0 d1 d2 : b64) : is_finite z = true -> is_finite o = true -> B2R z = 0 -> B2R o = 1 -> is_finite d0 = true -> is_finite d1 = true -> is_finite d2 = true ->
  Rabs (B2R d2) <= 5 ->
  let r := Bplus mode_NE (Bplus mode_NE (Bmult mode_NE z d0) (Bmult mode_NE z d1)) (Bmult mode_NE o d2) in is_finite r = true /\ B2R r = B2R d2.
Proof.
  intros Fz Fo Z O F0 F1 F2 B r. destruct (mult_zero z d0 Fz F0 Z) as [Q0 J0]. destruct (mult_zero z d1 Fz F1 Z) as [Q1 J1].
  assert (L100 : 1000000000 <= bpow radix2 1000).
  { apply Rle_trans with (bpow radix2 100); [change (bpow radix2 100) with (IZR 1267650600228229401496703205376); lra|apply bpow_le; lia]. }
  destruct (fplus_rnd _ _ J0 J1) as [Q2 J2]. { rewrite Q0, Q1, Rplus_0_r, Rabs_R0. lra. }
  rewrite Q0, Q1, Rplus_0_r, round_0 in Q2 by typeclasses eauto.
  destruct (fmult_rnd o d2 Fo F2) as [Q3 J3]. { rewrite O, Rmult_1_l. lra. }
  rewrite O, Rmult_1_l in Q3. rewrite (round_generic radix2 _ _ (B2R d2)) in Q3 by apply (generic_format_B2R 53 1024 d2).
  destruct (fplus_rnd _ _ J2 J3) as [Q4 J4]. { rewrite Q2, Q3, Rplus_0_l. lra. }
  rewrite Q2, Q3, Rplus_0_l in Q4. rewrite (round_generic radix2 _ _ (B2R d2)) in Q4 by apply (generic_format_B2R 53 1024 d2). auto.
Qed.
Lemma add_close (x r : b64) X R e : is_finite x = true -> is_finite r = true -> Rabs (B2R x) <= 1048576 -> Rabs R <= 1048576 * 2 -> Rabs (B2R r - R) <= e -> e <= 1 -> X = B2R x + R ->
  is_finite (Bplus mode_NE x r) = true /\ Rabs (B2R (Bplus mode_NE x r) - X) <= e + / 2500000000.
Proof.
  intros Fx Fr Bx BR Hr He ->. pose proof u_small as U.
  assert (L100 : 1000000000 <= bpow radix2 100) by (change (bpow radix2 100) with (IZR 1267650600228229401496703205376); lra).
  pose proof (near_abs _ _ _ _ Hr BR) as Br. pose proof (add_le _ _ _ _ Bx Br) as B.
  destruct (fplus_abs x r Fx Fr) as (d & D & E & F). { lra. }
  split; [exact F|]. rewrite E. replace ((B2R x + B2R r) * (1 + d) - (B2R x + R)) with ((B2R r - R) + d * (B2R x + B2R r)) by ring.
  pose proof (add_le _ _ _ _ Hr (mul_le _ _ _ _ D B)) as T. eapply Rle_trans; [exact T|]. nra.
Qed.
Lemma step_close (L : libm) (x u : vec3 b64) (dt : b64) : accurate L -> moderate u dt -> finite3 x ->
  Rabs (B2R (v0 x)) <= 1048576 -> Rabs (B2R (v1 x)) <= 1048576 -> Rabs (B2R (v2 x)) <= 4 ->
  let y := @integrate_twist b64 (F64 L) x u dt in
  let z := flow (real3 x) (B2R (v0 u)) (B2R (v1 u)) (B2R (v2 u)) (B2R dt) in
  finite3 y /\ Rabs (B2R (v0 y) - v0 z) <= stride u dt * / 19000000 + / 2400000000 /\ Rabs (B2R (v1 y) - v1 z) <= stride u dt * / 19000000 + / 2400000000 /\
  Rabs (B2R (v2 y) - v2 z) <= / 800000000000 /\ Rabs (B2R (v2 y)) <= 10.
Proof.
  intros HL HM (X0 & X1 & X2) B0 B1 B2 y z. pose proof HM as (_ & _ & _ & HA & HS).
  pose proof u_small as U. pose proof kappa_pos as K0. pose proof kappa_1 as K1.
  destruct (dq_close L u dt HL HM) as ((G0 & G1 & G2) & R0 & R1 & R2 & R3).
  set (P := B2R (v0 u) * B2R dt) in *. set (Q := B2R (v1 u) * B2R dt) in *. set (A := B2R (v2 u) * B2R dt) in *.
  assert (EM : stride u dt = Rabs P + Rabs Q) by (unfold stride, P, Q; rewrite !Rabs_mult; ring).
  set (M := Rabs P + Rabs Q) in *. rewrite EM in *.
  destruct (D_le P Q A) as [D0M D1M]. fold M in D0M, D1M.
  unfold z. rewrite flow_D. fold P Q A. cbn [v0 v1 v2 real3].
  destruct (HL (v2 x) X2 ltac:(lra)) as (Fs & Hs & Fc & Hc & _).
  assert (B52 : bpow radix2 (-52) = 2 * ueps) by (unfold ueps; change (-52)%Z with (1 + -53)%Z; rewrite bpow_plus; reflexivity).
  rewrite B52 in Hs. change (bpow radix2 (-53)) with ueps in Hc.
  set (th := B2R (v2 x)) in *.
  assert (S1 : Rabs (sin th) <= 1) by (apply Rabs_le, SIN_bound). assert (C1 : Rabs (cos th) <= 1) by (apply Rabs_le, COS_bound).
  assert (Hs' : Rabs (B2R (m_sin L (v2 x)) - sin th) <= 2 * ueps).
  { eapply Rle_trans; [exact Hs|]. rewrite <- (Rmult_1_r (2 * ueps)) at 2. apply Rmult_le_compat_l; [pose proof ueps_pos; lra|apply Rmin_l]. }
  assert (Hc' : Rabs (B2R (m_cos L (v2 x)) - cos th) <= 2 * ueps) by lra.
  set (d := @dqb b64 (F64 L) u dt) in *.
  assert (Y : y = V3 (Bplus mode_NE (v0 x) (Bplus mode_NE (Bplus mode_NE (Bmult mode_NE (m_cos L (v2 x)) (v0 d)) (Bmult mode_NE (Bopp (m_sin L (v2 x))) (v1 d))) (Bmult mode_NE (b64_ofZ 0) (v2 d))))
     (Bplus mode_NE (v1 x) (Bplus mode_NE (Bplus mode_NE (Bmult mode_NE (m_sin L (v2 x)) (v0 d)) (Bmult mode_NE (m_cos L (v2 x)) (v1 d))) (Bmult mode_NE (b64_ofZ 0) (v2 d))))
     (Bplus mode_NE (v2 x) (Bplus mode_NE (Bplus mode_NE (Bmult mode_NE (b64_ofZ 0) (v0 d)) (Bmult mode_NE (b64_ofZ 0) (v1 d))) (Bmult mode_NE (b64_ofZ 1) (v2 d))))) by reflexivity.
  destruct (ofZ_exact 0 ltac:(lia)) as [Z0 FZ0]. destruct (ofZ_exact 1 ltac:(lia)) as [Z1 FZ1].
  clearbody d. rewrite Y. cbn [v0 v1 v2]. clear Y y z.
  assert (No : Rabs (B2R (Bopp (m_sin L (v2 x))) - - sin th) <= 2 * ueps).
  { rewrite B2R_Bopp. replace (- B2R (m_sin L (v2 x)) - - sin th) with (- (B2R (m_sin L (v2 x)) - sin th)) by ring. rewrite Rabs_Ropp. exact Hs'. }
  assert (Fo : is_finite (Bopp (m_sin L (v2 x))) = true) by (rewrite is_finite_Bopp; exact Fs).
  assert (So : Rabs (- sin th) <= 1) by (rewrite Rabs_Ropp; exact S1).
  destruct (row_close _ _ _ _ _ (v2 d) _ _ _ _ M Fc Fo FZ0 G0 G1 G2 Z0 Hc' No C1 So R0 R1 D0M D1M HS) as [I0 T0].
  destruct (row_close _ _ _ _ _ (v2 d) _ _ _ _ M Fs Fc FZ0 G0 G1 G2 Z0 Hs' Hc' S1 C1 R0 R1 D0M D1M HS) as [I1 T1].
  destruct (zero_row _ _ _ _ _ FZ0 FZ1 Z0 Z1 G0 G1 G2 R3) as [I2 T2].
  assert (M0 : 0 <= M) by (unfold M; pose proof (Rabs_pos P); pose proof (Rabs_pos Q); lra).
  assert (KB : kappa <= / 10000000000000).
  { apply Rle_trans with (bpow radix2 (-50)); [apply bpow_le; lia|]. change (bpow radix2 (-50)) with (/ 1125899906842624). lra. }
  assert (E1 : M * / 19000000 + 100 * kappa <= 1) by lra.
  assert (N0 : Rabs (cos th * D0 P Q A + - sin th * D1 P Q A) <= 1048576 * 2) by (pose proof (add_le _ _ _ _ (mul_le _ _ _ _ C1 D0M) (mul_le _ _ _ _ So D1M)); lra).
  assert (N1 : Rabs (sin th * D0 P Q A + cos th * D1 P Q A) <= 1048576 * 2) by (pose proof (add_le _ _ _ _ (mul_le _ _ _ _ S1 D0M) (mul_le _ _ _ _ C1 D1M)); lra).
  destruct (add_close (v0 x) _ _ _ _ X0 I0 B0 N0 T0 E1 eq_refl) as [J0 V0].
  destruct (add_close (v1 x) _ _ _ _ X1 I1 B1 N1 T1 E1 eq_refl) as [J1 V1].
  set (r2 := Bplus mode_NE (Bplus mode_NE (Bmult mode_NE (b64_ofZ 0) (v0 d)) (Bmult mode_NE (b64_ofZ 0) (v1 d))) (Bmult mode_NE (b64_ofZ 1) (v2 d))) in *.
  assert (L100 : 1000000000 <= bpow radix2 100) by (change (bpow radix2 100) with (IZR 1267650600228229401496703205376); lra).
  assert (B2' : Rabs th <= 4) by exact B2.
  assert (R3' : Rabs (B2R r2) <= 5) by (rewrite T2; exact R3).
  pose proof (add_le _ _ _ _ B2' R3') as B9.
  destruct (fplus_abs (v2 x) r2 X2 I2) as (e & He & E & J2). { fold th. lra. }
  fold th in E.
  split; [repeat split; cbn [v0 v1 v2]; assumption|]. split; [|split; [|split]].
  - replace (cos th * D0 P Q A - sin th * D1 P Q A) with (cos th * D0 P Q A + - sin th * D1 P Q A) by ring. lra.
  - lra.
  - rewrite E, T2. replace ((th + B2R (v2 d)) * (1 + e) - (th + A)) with ((B2R (v2 d) - A) + e * (th + B2R (v2 d))) by ring.
    rewrite T2 in B9. pose proof (add_le _ _ _ _ R2 (mul_le _ _ _ _ He B9)). lra.
  - rewrite E. assert (Rabs (1 + e) <= 1 + / 1000) by (pose proof (one_plus_le _ _ He); lra). pose proof (mul_le _ _ _ _ B9 H). lra.
Qed.

(** ** Rollouts *)
Section Rollout.
Context (L : libm) (x u : vec3 b64) (dt : b64).
Let M := stride u dt.
Let X (t : R) := flow (real3 x) (B2R (v0 u)) (B2R (v1 u)) (B2R (v2 u)) t.
Definition next (p : vec3 b64) : vec3 b64 :=
  let y := @integrate_twist b64 (F64 L) p u dt in V3 (v0 y) (v1 y) (@normalize_angle_PI b64 (F64 L) (v2 y)).
Let err_pos : R := drift u dt.
Definition tracks (j : R) (p : vec3 b64) : Prop :=
  finite3 p /\ Rabs (B2R (v2 p)) <= 4 /\
  Rabs (B2R (v0 p) - v0 (X (j * B2R dt))) <= j * err_pos /\ Rabs (B2R (v1 p) - v1 (X (j * B2R dt))) <= j * err_pos /\
  exists m : Z, Rabs (B2R (v2 p) - (v2 (X (j * B2R dt)) + 2 * IZR m * PI)) <= j * / 700000000000.
Lemma stride_nonneg : 0 <= M.
Proof. unfold M, stride. pose proof (Rabs_pos (B2R (v0 u))). pose proof (Rabs_pos (B2R (v1 u))). pose proof (Rabs_pos (B2R dt)). nra. Qed.
Lemma X_reach j : 0 <= j -> Rabs (v0 (X (j * B2R dt)) - B2R (v0 x)) <= 2 * (j * M) /\ Rabs (v1 (X (j * B2R dt)) - B2R (v1 x)) <= 2 * (j * M).
Proof.
  intros Hj. unfold X. rewrite flow_D. cbn [v0 v1 v2 real3].
  set (P := B2R (v0 u) * (j * B2R dt)). set (Q := B2R (v1 u) * (j * B2R dt)). set (A := B2R (v2 u) * (j * B2R dt)).
  assert (E : Rabs P + Rabs Q = j * M) by (unfold P, Q, M, stride; rewrite !Rabs_mult, (Rabs_pos_eq j) by exact Hj; ring).
  destruct (D_le P Q A) as [H0 H1]. rewrite E in H0, H1. set (th := B2R (v2 x)).
  assert (S1 : Rabs (sin th) <= 1) by (apply Rabs_le, SIN_bound). assert (C1 : Rabs (cos th) <= 1) by (apply Rabs_le, COS_bound).
  assert (So : Rabs (- sin th) <= 1) by (rewrite Rabs_Ropp; exact S1). split.
  - replace (B2R (v0 x) + (cos th * D0 P Q A - sin th * D1 P Q A) - B2R (v0 x)) with (cos th * D0 P Q A + - sin th * D1 P Q A) by ring.
    pose proof (add_le _ _ _ _ (mul_le _ _ _ _ C1 H0) (mul_le _ _ _ _ So H1)). lra.
  - replace (B2R (v1 x) + (sin th * D0 P Q A + cos th * D1 P Q A) - B2R (v1 x)) with (sin th * D0 P Q A + cos th * D1 P Q A) by ring.
    pose proof (add_le _ _ _ _ (mul_le _ _ _ _ S1 H0) (mul_le _ _ _ _ C1 H1)). lra.
Qed.
Lemma X_next j : X ((j + 1) * B2R dt) = flow (X (j * B2R dt)) (B2R (v0 u)) (B2R (v1 u)) (B2R (v2 u)) (B2R dt).
Proof. unfold X. rewrite flow_add. f_equal. ring. Qed.
Lemma flow_from (p q : vec3 R) vx vy w t a b d (m : Z) : Rabs (v0 p - v0 q) <= a -> Rabs (v1 p - v1 q) <= b -> Rabs (v2 p - (v2 q + 2 * IZR m * PI)) <= d ->
  let K := Rabs (vx * t) + Rabs (vy * t) in
  Rabs (v0 (flow p vx vy w t) - v0 (flow q vx vy w t)) <= a + 2 * (d * K) /\ Rabs (v1 (flow p vx vy w t) - v1 (flow q vx vy w t)) <= b + 2 * (d * K) /\
  Rabs (v2 (flow p vx vy w t) - (v2 (flow q vx vy w t) + 2 * IZR m * PI)) <= d.
Proof.
  intros Ha Hb Hd K. rewrite !flow_D. cbn [v0 v1 v2]. set (P := vx * t). set (Q := vy * t). set (A := w * t).
  destruct (D_le P Q A) as [H0 H1]. fold P Q in K. fold K in H0, H1.
  assert (C : Rabs (cos (v2 p) - cos (v2 q)) <= d). { rewrite <- (cos_period_Z (v2 q) m). eapply Rle_trans; [apply cos_lip|exact Hd]. }
  assert (S : Rabs (sin (v2 p) - sin (v2 q)) <= d). { rewrite <- (sin_period_Z (v2 q) m). eapply Rle_trans; [apply sin_lip|exact Hd]. }
  assert (S' : Rabs (- (sin (v2 p) - sin (v2 q))) <= d) by (rewrite Rabs_Ropp; exact S).
  split; [|split].
  - replace (v0 p + (cos (v2 p) * D0 P Q A - sin (v2 p) * D1 P Q A) - (v0 q + (cos (v2 q) * D0 P Q A - sin (v2 q) * D1 P Q A))) with
      ((v0 p - v0 q) + ((cos (v2 p) - cos (v2 q)) * D0 P Q A + - (sin (v2 p) - sin (v2 q)) * D1 P Q A)) by ring.
    pose proof (add_le _ _ _ _ Ha (add_le _ _ _ _ (mul_le _ _ _ _ C H0) (mul_le _ _ _ _ S' H1))). lra.
  - replace (v1 p + (sin (v2 p) * D0 P Q A + cos (v2 p) * D1 P Q A) - (v1 q + (sin (v2 q) * D0 P Q A + cos (v2 q) * D1 P Q A))) with
      ((v1 p - v1 q) + ((sin (v2 p) - sin (v2 q)) * D0 P Q A + (cos (v2 p) - cos (v2 q)) * D1 P Q A)) by ring.
    pose proof (add_le _ _ _ _ Hb (add_le _ _ _ _ (mul_le _ _ _ _ S H0) (mul_le _ _ _ _ C H1))). lra.
  - replace (v2 p + A - (v2 q + A + 2 * IZR m * PI)) with (v2 p - (v2 q + 2 * IZR m * PI)) by ring. exact Hd.
Qed.
Hypotheses (HL : accurate L) (HM : moderate u dt) (B0 : Rabs (B2R (v0 x)) <= 524288) (B1 : Rabs (B2R (v1 x)) <= 524288).
Lemma heading_sum a y z c m k e1 e2 e3 : Rabs (a - (y + 2 * PI * IZR k)) <= e1 -> Rabs (y - z) <= e2 -> Rabs (z - (c + 2 * IZR m * PI)) <= e3 ->
  Rabs (a - (c + 2 * IZR (m + k) * PI)) <= e1 + (e2 + e3).
Proof.
  intros H1 H2 H3. rewrite plus_IZR. replace (a - (c + 2 * (IZR m + IZR k) * PI)) with ((a - (y + 2 * PI * IZR k)) + ((y - z) + (z - (c + 2 * IZR m * PI)))) by ring.
  exact (add_le _ _ _ _ H1 (add_le _ _ _ _ H2 H3)).
Qed.
Lemma wrap_near (y : b64) : is_finite y = true -> Rabs (B2R y) <= 10 ->
  let a := @normalize_angle_PI b64 (F64 L) y in
  is_finite a = true /\ Rabs (B2R a) <= 4 /\ exists k : Z, Rabs (B2R a - (B2R y + 2 * PI * IZR k)) <= / 8796093022208.
Proof.
  intros F Y. assert (B4 : bpow radix2 4 = 16) by reflexivity. assert (B43 : bpow radix2 (4 - 47) = / 8796093022208) by reflexivity.
  assert (Y16 : Rabs (B2R y) <= bpow radix2 4) by (rewrite B4; lra).
  destruct (wrappi_b64 L 4 y ltac:(lia) F Y16) as (W1 & W2 & k & Wk). rewrite B43 in W2, Wk.
  pose proof pi_tight as PT. apply Rabs_le_between in PT. split; [exact W1|]. split; [|exists k; exact Wk].
  eapply Rle_trans; [exact W2|]. lra.
Qed.
Lemma tracks_next j p : 0 <= j <= 4095 -> j * M <= 200000 -> tracks j p -> tracks (j + 1) (next p).
Proof.
  intros Hj HjM (Fp & Th & E0 & E1 & m & Em). pose proof stride_nonneg as M0. unfold err_pos, drift in *. fold M in E0, E1.
  assert (HE : j * (M * / 15000000 + / 2400000000) <= 1) by nra.
  destruct (X_reach j ltac:(lra)) as [R0 R1].
  pose proof (near_abs _ _ _ _ R0 B0) as Q0. pose proof (near_abs _ _ _ _ R1 B1) as Q1.
  pose proof (near_abs _ _ _ _ E0 Q0) as P0. pose proof (near_abs _ _ _ _ E1 Q1) as P1.
  assert (P0' : Rabs (B2R (v0 p)) <= 1048576) by lra. assert (P1' : Rabs (B2R (v1 p)) <= 1048576) by lra.
  destruct (step_close L p u dt HL HM Fp P0' P1' Th) as ((F0 & F1 & F2) & S0 & S1 & S2 & S10). fold M in S0, S1.
  set (y := @integrate_twist b64 (F64 L) p u dt) in *.
  destruct (wrap_near (v2 y) F2 S10) as (W1 & W2 & k & Wk).
  set (a := @normalize_angle_PI b64 (F64 L) (v2 y)) in *.
  destruct (flow_from (real3 p) (X (j * B2R dt)) (B2R (v0 u)) (B2R (v1 u)) (B2R (v2 u)) (B2R dt) _ _ _ m E0 E1 Em) as (G0 & G1 & G2).
  rewrite <- X_next in G0, G1, G2.
  assert (EK : Rabs (B2R (v0 u) * B2R dt) + Rabs (B2R (v1 u) * B2R dt) = M) by (unfold M, stride; rewrite !Rabs_mult; ring).
  rewrite EK in G0, G1.
  assert (DM : 2 * (j * / 700000000000 * M) <= M * (4096 * 2 / 700000000000)) by nra.
  set (z := flow (real3 p) (B2R (v0 u)) (B2R (v1 u)) (B2R (v2 u)) (B2R dt)) in *. set (X' := X ((j + 1) * B2R dt)) in *.
  split; [|split; [|split; [|split]]].
  - repeat split; cbn [next v0 v1 v2]; assumption.
  - exact W2.
  - fold X'. unfold err_pos, drift. cbn [next v0]. fold y M. replace (B2R (v0 y) - v0 X') with ((B2R (v0 y) - v0 z) + (v0 z - v0 X')) by ring. pose proof (add_le _ _ _ _ S0 G0). lra.
  - fold X'. unfold err_pos, drift. cbn [next v1]. fold y M. replace (B2R (v1 y) - v1 X') with ((B2R (v1 y) - v1 z) + (v1 z - v1 X')) by ring. pose proof (add_le _ _ _ _ S1 G1). lra.
  - exists (m + k)%Z. fold X'. change (v2 (next p)) with a. eapply Rle_trans; [exact (heading_sum _ _ _ _ _ _ _ _ _ Wk S2 G2)|]. lra.
Qed.
Lemma rollout_next n p : @rollout b64 (F64 L) (S n) dt u p = next p :: @rollout b64 (F64 L) n dt u (next p).
Proof. reflexivity. Qed.
Lemma tracks_rollout : forall n j p, (Z.of_nat (j + n) <= 4096)%Z -> INR (j + n) * M <= 200000 -> tracks (INR j) p ->
  forall k q, nth_error (@rollout b64 (F64 L) n dt u p) k = Some q -> tracks (INR (j + S k)) q.
Proof.
  intros n. induction n as [|n IH]; intros j p Hn HnM T k q E.
  - destruct k; discriminate E.
  - rewrite rollout_next in E. pose proof stride_nonneg as M0.
    assert (Lj : INR j <= 4095). { rewrite INR_IZR_INZ. apply IZR_le. lia. }
    assert (T' : tracks (INR (S j)) (next p)).
    { rewrite S_INR. apply tracks_next; [split; [apply pos_INR|exact Lj]| |exact T].
      assert (INR j <= INR (j + S n)) by (apply le_INR; lia). pose proof (pos_INR j). nra. }
    destruct k as [|k].
    + cbn [nth_error] in E. replace q with (next p) by congruence. replace (j + 1)%nat with (S j) by lia. exact T'.
    + replace (j + S (S k))%nat with (S j + S k)%nat by lia. apply (IH (S j) (next p)); [lia| |exact T'|exact E].
      replace (S j + n)%nat with (j + S n)%nat by lia. exact HnM.
Qed.
Lemma tracks_start : finite3 x -> Rabs (B2R (v2 x)) <= 4 -> tracks (INR 0) x.
Proof.
  intros F T. cbn [INR]. assert (E : X (0 * B2R dt) = real3 x). { unfold X. rewrite Rmult_0_l. exact (proj1 (flow_motion (real3 x) (B2R (v0 u)) (B2R (v1 u)) (B2R (v2 u)))). }
  unfold tracks. rewrite E. cbn [v0 v1 v2 real3]. rewrite !Rminus_eq_0, Rabs_R0, !Rmult_0_l. split; [exact F|]. split; [exact T|]. split; [lra|]. split; [lra|].
  exists 0%Z. rewrite Rmult_0_r, Rmult_0_l, Rplus_0_r, Rminus_eq_0, Rabs_R0. lra.
Qed.
End Rollout.

(** ** The statements *)
Lemma c91_rollout (L : libm) (x u : vec3 b64) (dt : b64) (n : nat) gamma : accurate L -> tame x u dt (Z.of_nat n) ->
  twist_motion (real3 x) (B2R (v0 u)) (B2R (v1 u)) (B2R (v2 u)) gamma ->
  forall k p, nth_error (@rollout b64 (F64 L) n dt u x) k = Some p ->
  near u dt gamma (Z.of_nat (S k)) (v0 p) (v1 p) /\ near_heading dt gamma (Z.of_nat (S k)) (v2 p).
Proof.
  intros HL (HM & F & B0 & B1 & B2 & Hn & HS) G k p E. rewrite <- INR_IZR_INZ in HS.
  destruct (tracks_rollout L x u dt HL HM B0 B1 n 0 x Hn HS (tracks_start x u dt F B2) k p E) as ((F0 & F1 & F2) & _ & E0 & E1 & m & Em).
  rewrite Nat.add_0_l in *. unfold near, near_heading. rewrite <- INR_IZR_INZ, (motion_unique _ _ _ _ _ G).
  repeat split; try assumption. exists m. exact Em.
Qed.
Lemma near_free_of (L : libm) (c : collision b64) (g : grid b64) (x u : vec3 b64) (dt : b64) (n : Z) gamma : accurate L -> tame x u dt n ->
  twist_motion (real3 x) (B2R (v0 u)) (B2R (v1 u)) (B2R (v2 u)) gamma ->
  Forall (@clear b64 (F64 L) c g) (@rollout b64 (F64 L) (Z.to_nat n) dt u x) -> near_free L c g u dt n gamma.
Proof.
  intros HL T G C k Hk. assert (En : Z.of_nat (Z.to_nat n) = n) by lia. pose proof T as T'. rewrite <- En in T'.
  destruct (nth_error (@rollout b64 (F64 L) (Z.to_nat n) dt u x) (Z.to_nat (k - 1))) as [p|] eqn:E.
  - destruct (c91_rollout L x u dt (Z.to_nat n) gamma HL T' G _ _ E) as [N _]. replace (Z.of_nat (S (Z.to_nat (k - 1)))) with k in N by lia.
    exists (v0 p), (v1 p). split; [exact N|]. apply nth_error_In in E. exact (proj1 (Forall_forall _ _) C p E).
  - apply nth_error_None in E. rewrite rollout_len in E. lia.
Qed.
Lemma c91_validated (L : libm) (c : collision b64) (g : grid b64) (x u : vec3 b64) (dt h : b64) (n : Z) gamma : accurate L -> tame x u dt n ->
  twist_motion (real3 x) (B2R (v0 u)) (B2R (v1 u)) (B2R (v2 u)) gamma ->
  @num_steps b64 (F64 L) dt h = Ok n -> @validate_control b64 (F64 L) c g x u dt h = Ok true -> near_free L c g u dt n gamma.
Proof.
  intros HL T G N V. unfold validate_control in V. rewrite N in V. cbn [bind] in V.
  apply (near_free_of L c g x u dt n gamma HL T G). exact (proj1 (proj1 (@validate_rollout b64 (F64 L) c g u dt (Z.to_nat n) x)) V).
Qed.
Lemma c91_commanded (L : libm) (nd : node b64) s l evs s' l' e u gamma : accurate L ->
  @exec b64 (F64 L) nd s l evs s' l' -> In e evs -> In (Cmd u) (ev_out e) ->
  (forall n, @val_steps b64 (F64 L) nd n -> tame (ev_pose e) u (nd_val_dt nd) (Z.of_nat n)) ->
  tame (ev_pose e) u (dw_dt (nd_dwa nd)) (dw_steps (nd_dwa nd)) ->
  twist_motion (real3 (ev_pose e)) (B2R (v0 u)) (B2R (v1 u)) (B2R (v2 u)) gamma ->
  (exists n, @val_steps b64 (F64 L) nd n /\ near_free L (nd_collision nd) (check_map e) u (nd_val_dt nd) (Z.of_nat n) gamma) \/
  near_free L (dw_collision (nd_dwa nd)) (dwa_map e) u (dw_dt (nd_dwa nd)) (dw_steps (nd_dwa nd)) gamma \/
  u = V3 (b64_ofZ 0) (b64_ofZ 0) (b64_ofZ 0).
Proof.
  intros HL X I C T1 T2 G. destruct (c64_64 L nd s l evs s' l' e u X I C) as [(n & V & P)|[[S _]|Z]]; [left|right; left|right; right; exact Z].
  - exists n. split; [exact V|]. apply (near_free_of L _ _ (ev_pose e) u (nd_val_dt nd) _ gamma HL (T1 n V) G). rewrite Nat2Z.id. exact P.
  - exact (near_free_of L _ _ (ev_pose e) u _ _ gamma HL T2 G S).
Qed.
