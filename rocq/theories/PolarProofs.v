(** Distances and polar coordinates in binary64 arithmetic: proofs. *)
From Coq Require Import Reals Lra ZArith Lia Psatz.
From Flocq Require Import Core.Core IEEE754.BinarySingleNaN.
From Verif Require Import Outcome Num Float64 FloatLemmas NumericsModel NearProofs SpecCoeff CoeffProofs SpecSlope SlopeProofs SpecBarrier BarrierProofs SpecUpdate UpdateProofs SpecPolar.
Local Open Scope R_scope.
Notation is_finite := BinarySingleNaN.is_finite.

Definition tau : R := bpow radix2 (-499).
Lemma tau_sqr : tau * tau = 4 * tiny.
Proof. unfold tau, tiny. rewrite <- bpow_plus. change 4 with (bpow radix2 2). rewrite <- bpow_plus. reflexivity. Qed.
Lemma tau_pos : 0 < tau. Proof. apply bpow_gt_0. Qed.
(** A square root of a number known up to rounding. *)
Lemma root_close s S : 0 <= s -> 0 <= S -> Rabs (s - S) <= 61 / 10 * ueps * S + 3 * tiny -> Rabs (sqrt s - sqrt S) <= 4 * ueps * sqrt S + tau.
Proof.
  intros Hs HS E. apply Rabs_le_inv in E. pose proof u_small as U. pose proof tau_sqr as T2. pose proof tau_pos as T. pose proof tiny_pos as Ti.
  set (D := sqrt S) in *. assert (D0 : 0 <= D) by apply sqrt_pos. assert (DS : D * D = S) by (apply sqrt_sqrt; exact HS).
  assert (US : 0 <= ueps * S) by (apply Rmult_le_pos; lra). assert (UD : 0 <= ueps * D) by (apply Rmult_le_pos; lra).
  assert (UUS : ueps * (ueps * S) <= / 1000000 * (ueps * S)) by (apply Rmult_le_compat_r; lra).
  assert (UUS0 : 0 <= ueps * (ueps * S)) by (apply Rmult_le_pos; lra).
  apply Rabs_le. split.
  - destruct (Rle_lt_dec (D - 4 * ueps * D) tau) as [H|H]; [pose proof (sqrt_pos s); lra|]. set (V := D - 4 * ueps * D) in *.
    assert (V2 : V * V = S - 8 * (ueps * S) + 16 * (ueps * (ueps * S))) by (unfold V; rewrite <- DS; ring).
    assert (K : (V - tau) * (V - tau) <= s).
    { replace ((V - tau) * (V - tau)) with (V * V - 2 * ((V - tau) * tau) - tau * tau) by ring. assert (0 <= (V - tau) * tau) by (apply Rmult_le_pos; lra). lra. }
    apply sqrt_le_1_alt in K. rewrite sqrt_square in K by lra. unfold V in K. lra.
  - set (V := D + 4 * ueps * D).
    assert (V2 : V * V = S + 8 * (ueps * S) + 16 * (ueps * (ueps * S))) by (unfold V; rewrite <- DS; ring). assert (V0 : 0 <= V) by (unfold V; lra).
    assert (K : s <= (V + tau) * (V + tau)).
    { replace ((V + tau) * (V + tau)) with (V * V + 2 * (V * tau) + tau * tau) by ring. assert (0 <= V * tau) by (apply Rmult_le_pos; lra). lra. }
    apply sqrt_le_1_alt in K. rewrite sqrt_square in K by lra. unfold V in K. lra.
Qed.
Lemma square_close (x0 x1 : b64) : up_to (bpow radix2 40) x0 -> up_to (bpow radix2 40) x1 -> let d := Bminus mode_NE x1 x0 in let s := Bmult mode_NE d d in let X := B2R x1 - B2R x0 in
  is_finite s = true /\ 0 <= B2R s <= bpow radix2 90 /\ Rabs (B2R s - X ^ 2) <= 5 * ueps * X ^ 2 + tiny.
Proof.
  intros [F0 B0] [F1 B1] d s X. pose proof u_small as U. pose proof tiny_small as TS.
  change (bpow radix2 40) with 1099511627776 in *. apply Rabs_le_inv in B0, B1.
  assert (Big : 100000000000000000000000000 <= bpow radix2 90) by (cbn; lra). assert (B90 : bpow radix2 90 <= bpow radix2 100) by (apply bpow_le; lia).
  assert (HX : Rabs X <= 2199023255552) by (apply Rabs_le; unfold X; lra).
  destruct (fminus_abs x1 x0 F1 F0) as (e & He & Ed & Fd); [fold X; lra|]. fold X in Ed. fold d in Ed, Fd.
  assert (Hd : Rabs (B2R d) <= 2199023255553). { rewrite Ed. pose proof (mul_le _ _ _ _ HX (one_plus_le _ _ He)). lra. }
  assert (Hdd := mul_le _ _ _ _ Hd Hd). destruct (fmult_abs d d Fd Fd ltac:(lra)) as (e' & h & He' & Hh & Es & Fs). fold s in Es, Fs.
  assert (Er : B2R s = rnd64 (B2R d * B2R d)) by (apply fmult_rnd; [exact Fd|exact Fd|apply big1000; lra]).
  assert (P : 0 <= B2R d * B2R d) by (apply Rle_0_sqr). split; [exact Fs|]. split.
  - split; [rewrite Er; apply rnd_pos; exact P|]. rewrite Es. assert (Q := add_le _ _ _ _ (mul_le _ _ _ _ Hdd (one_plus_le _ _ He')) Hh). apply Rabs_le_inv in Q. lra.
  - rewrite Es, Ed. replace (X * (1 + e) * (X * (1 + e)) * (1 + e') + h - X ^ 2) with (((1 + e') * ((1 + e) * (1 + e)) - 1) * X ^ 2 + h) by ring.
    pose proof (three_factors e' e e He' He He) as T3. assert (A2 : Rabs (X ^ 2) <= X ^ 2) by (rewrite Rabs_pos_eq; [lra|apply pow2_ge_0]).
    exact (add_le _ _ _ _ (mul_le _ _ _ _ T3 A2) Hh).
Qed.
Lemma sqrt_is (s : b64) : is_finite s = true -> 0 <= B2R s -> is_finite (Bsqrt mode_NE s) = true /\ B2R (Bsqrt mode_NE s) = rnd64 (sqrt (B2R s)).
Proof.
  intros F P. destruct (Bsqrt_correct 53 1024 prec53 emax1024 mode_NE s) as (E & G & _). split; [|exact E]. rewrite G.
  destruct s as [b| | |b m e H]; try reflexivity; try discriminate. destruct b; [|reflexivity]. exfalso.
  change (0 <= F2R (Float radix2 (Zneg m) e)) in P. pose proof (F2R_lt_0 radix2 (Float radix2 (Zneg m) e) ltac:(cbn; lia)). lra.
Qed.

Section Lib.
Variable L : libm.
Notation N := (F64 L).
Lemma c99_distance (x0 y0 x1 y1 : b64) : up_to (bpow radix2 40) x0 -> up_to (bpow radix2 40) y0 -> up_to (bpow radix2 40) x1 -> up_to (bpow radix2 40) y1 ->
  let d := @distance b64 N x0 y0 x1 y1 in
  is_finite d = true /\ 0 <= B2R d /\ Rabs (B2R d - euclid x0 y0 x1 y1) <= 6 * euclid x0 y0 x1 y1 * bpow radix2 (-53) + bpow radix2 (-498) /\
  B2R (@distance b64 N x1 y1 x0 y0) = B2R d.
Proof.
  intros X0 Y0 X1 Y1 d. fold ueps.
  assert (main : forall x0 y0 x1 y1, up_to (bpow radix2 40) x0 -> up_to (bpow radix2 40) y0 -> up_to (bpow radix2 40) x1 -> up_to (bpow radix2 40) y1 ->
    let a := Bmult mode_NE (Bminus mode_NE x1 x0) (Bminus mode_NE x1 x0) in let b := Bmult mode_NE (Bminus mode_NE y1 y0) (Bminus mode_NE y1 y0) in
    is_finite (Bsqrt mode_NE (Bplus mode_NE a b)) = true /\ B2R (Bsqrt mode_NE (Bplus mode_NE a b)) = rnd64 (sqrt (rnd64 (B2R a + B2R b))) /\
    Rabs (rnd64 (B2R a + B2R b) - ((B2R x1 - B2R x0) ^ 2 + (B2R y1 - B2R y0) ^ 2)) <= 61 / 10 * ueps * ((B2R x1 - B2R x0) ^ 2 + (B2R y1 - B2R y0) ^ 2) + 3 * tiny /\ 0 <= rnd64 (B2R a + B2R b)).
  { clear. intros x0 y0 x1 y1 X0 Y0 X1 Y1 a b. pose proof u_small as U. pose proof tiny_small as TS.
    destruct (square_close x0 x1 X0 X1) as (Fa & Pa & Ea). destruct (square_close y0 y1 Y0 Y1) as (Fb & Pb & Eb). fold a in Fa, Pa, Ea. fold b in Fb, Pb, Eb.
    pose proof (pow2_ge_0 (B2R x1 - B2R x0)) as Qx. pose proof (pow2_ge_0 (B2R y1 - B2R y0)) as Qy. set (p := (B2R x1 - B2R x0) ^ 2) in *. set (q := (B2R y1 - B2R y0) ^ 2) in *. clearbody p q.
    assert (B90 : 2 * bpow radix2 90 <= bpow radix2 100) by (rewrite (bpow_plus radix2 90 10 : bpow radix2 100 = _); pose proof (bpow_gt_0 radix2 90); change (bpow radix2 10) with 1024; nra).
    assert (Sab : Rabs (B2R a + B2R b) <= bpow radix2 100) by (apply Rabs_le; lra).
    destruct (fplus_rnd a b Fa Fb (big1000 _ Sab)) as [Es Fs]. destruct (fplus_abs a b Fa Fb Sab) as (e & He & Es' & _). clearbody a b.
    assert (Ps : 0 <= rnd64 (B2R a + B2R b)) by (apply rnd_pos; lra).
    destruct (sqrt_is _ Fs ltac:(rewrite Es; exact Ps)) as [Fr Er]. split; [exact Fr|]. split; [rewrite Er, Es; reflexivity|]. split; [|exact Ps].
    rewrite <- Es, Es'. replace ((B2R a + B2R b) * (1 + e) - (p + q)) with ((B2R a - p) + (B2R b - q) + ((B2R a - p) + (B2R b - q) + (p + q)) * e) by ring.
    assert (Pq : Rabs (p + q) <= p + q) by (rewrite Rabs_pos_eq; lra).
    assert (Z := add_le _ _ _ _ (add_le _ _ _ _ Ea Eb) (mul_le _ _ _ _ (add_le _ _ _ _ (add_le _ _ _ _ Ea Eb) Pq) He)).
    assert (0 <= ueps * (p + q)) by (apply Rmult_le_pos; lra). assert (ueps * (ueps * (p + q)) <= / 1000000 * (ueps * (p + q))) by (apply Rmult_le_compat_r; lra).
    assert (ueps * tiny <= / 1000000 * tiny) by (apply Rmult_le_compat_r; lra). lra. }
  destruct (main x0 y0 x1 y1 X0 Y0 X1 Y1) as (F & V & E & Ps). cbv zeta in F, V, E, Ps.
  change d with (Bsqrt mode_NE (Bplus mode_NE (Bmult mode_NE (Bminus mode_NE x1 x0) (Bminus mode_NE x1 x0)) (Bmult mode_NE (Bminus mode_NE y1 y0) (Bminus mode_NE y1 y0)))).
  split; [exact F|]. split; [rewrite V; apply rnd_pos, sqrt_pos|]. split.
  - rewrite V. unfold euclid. set (S := (B2R x1 - B2R x0) ^ 2 + (B2R y1 - B2R y0) ^ 2) in *. assert (HS : 0 <= S) by (pose proof (pow2_ge_0 (B2R x1 - B2R x0)); pose proof (pow2_ge_0 (B2R y1 - B2R y0)); unfold S; lra).
    set (s := rnd64 (_ + _)) in *. pose proof (root_close s S Ps HS E) as R. clearbody s. pose proof (sqrt_pos S) as D0. set (D := sqrt S) in *. clearbody D.
    pose proof u_small as U. pose proof tau_pos as T. pose proof tiny_pos as TP.
    assert (T1 : tiny <= / 4 * tau) by (unfold tiny, tau; apply Rle_trans with (bpow radix2 (-2) * bpow radix2 (-499)); [rewrite <- bpow_plus; apply bpow_le; lia|right; reflexivity]).
    assert (T2 : bpow radix2 (-498) = 2 * tau) by (unfold tau; rewrite (bpow_plus radix2 1 (-499) : bpow radix2 (-498) = _); reflexivity). rewrite T2.
    assert (UD : 0 <= ueps * D) by (apply Rmult_le_pos; lra). assert (ueps * (ueps * D) <= / 1000000 * (ueps * D)) by (apply Rmult_le_compat_r; lra).
    assert (ueps * tau <= / 1000000 * tau) by (apply Rmult_le_compat_r; lra).
    assert (B : Rabs (sqrt s) <= D + (4 * ueps * D + tau)) by (apply near_abs with D; [exact R|rewrite Rabs_pos_eq; lra]).
    pose proof (rnd_err _ _ B) as Q. replace (rnd64 (sqrt s) - D) with ((rnd64 (sqrt s) - sqrt s) + (sqrt s - D)) by ring. pose proof (add_le _ _ _ _ Q R). lra.
  - destruct (main x1 y1 x0 y0 X1 Y1 X0 Y0) as (_ & V' & _). cbv zeta in V'.
    change (@distance b64 N x1 y1 x0 y0) with (Bsqrt mode_NE (Bplus mode_NE (Bmult mode_NE (Bminus mode_NE x0 x1) (Bminus mode_NE x0 x1)) (Bmult mode_NE (Bminus mode_NE y0 y1) (Bminus mode_NE y0 y1)))).
    rewrite V, V'. assert (sw : forall u v : b64, up_to (bpow radix2 40) u -> up_to (bpow radix2 40) v -> B2R (Bmult mode_NE (Bminus mode_NE u v) (Bminus mode_NE u v)) = B2R (Bmult mode_NE (Bminus mode_NE v u) (Bminus mode_NE v u))).
    { clear. intros u v U V. assert (half : forall u v : b64, up_to (bpow radix2 40) u -> up_to (bpow radix2 40) v -> B2R (Bmult mode_NE (Bminus mode_NE u v) (Bminus mode_NE u v)) = rnd64 (rnd64 (B2R u - B2R v) * rnd64 (B2R u - B2R v))).
      { clear. intros u v [Fu Bu] [Fv Bv]. change (bpow radix2 40) with 1099511627776 in *. apply Rabs_le_inv in Bu, Bv. pose proof u_small as Us.
        assert (Big : 100000000000000000000000000 <= bpow radix2 100) by (cbn; lra).
        destruct (fminus_rnd u v Fu Fv) as [E F]; [apply big1000, Rabs_le; lra|]. rewrite <- E.
        assert (M : Rabs (B2R (Bminus mode_NE u v)) <= 3298534883328). { rewrite E. apply (mono_bound _ 3298534883328); [lia|]. apply Rabs_le. lra. }
        apply fmult_rnd; [exact F|exact F|]. apply big1000. pose proof (mul_le _ _ _ _ M M). lra. }
      rewrite (half u v U V), (half v u V U). f_equal. replace (B2R v - B2R u) with (- (B2R u - B2R v)) by ring.
      assert (op : forall z, rnd64 (- z) = - rnd64 z) by (intros z; apply round_NE_opp). rewrite op. ring. }
    rewrite (sw x0 x1 X0 X1), (sw y0 y1 Y0 Y1). reflexivity.
Qed.
Lemma c99_polar A R0 (angle range : b64) : close_cos L A -> close_sin L A -> 1 <= R0 <= bpow radix2 90 -> up_to A angle -> up_to R0 range ->
  let p := @polar2Cartesian b64 N angle range in
  (is_finite (fst p) = true /\ Rabs (B2R (fst p) - B2R range * cos (B2R angle)) <= 3 * R0 * bpow radix2 (-53)) /\
  (is_finite (snd p) = true /\ Rabs (B2R (snd p) - B2R range * sin (B2R angle)) <= 3 * R0 * bpow radix2 (-53)) /\
  @polar2CartesianHomo b64 N angle range = V3 (fst p) (snd p) (b64_ofZ 1).
Proof.
  intros C S HR [Fa Ba] [Fr Br] p. fold ueps. pose proof u_small as U. pose proof tiny_small as TS.
  assert (B90 : 2 * bpow radix2 90 <= bpow radix2 100) by (rewrite (bpow_plus radix2 90 10 : bpow radix2 100 = _); pose proof (bpow_gt_0 radix2 90); change (bpow radix2 10) with 1024; nra).
  assert (one : forall (t : b64) X, near t X ueps 1 -> is_finite (Bmult mode_NE range t) = true /\ Rabs (B2R (Bmult mode_NE range t) - B2R range * X) <= 3 * R0 * ueps).
  { intros t X (Ft & Et & BX). pose proof (near_abs _ _ _ _ Et BX) as Bt.
    assert (RU : R0 * ueps <= / 1000000 * R0) by (rewrite (Rmult_comm R0); apply Rmult_le_compat_r; lra). assert (UR : ueps <= R0 * ueps) by (rewrite <- (Rmult_1_l ueps) at 1; apply Rmult_le_compat_r; lra).
    assert (RUU : R0 * ueps * ueps <= / 1000000 * R0 * ueps) by (apply Rmult_le_compat_r; lra).
    destruct (round_prod range t (B2R range) X 0 ueps R0 (1 + ueps) Fr Ft ltac:(rewrite Rminus_eq_0, Rabs_R0; lra) Et Bt Br ltac:(lra) ltac:(lra)) as [F E]. split; [exact F|]. lra. }
  split; [|split; [|reflexivity]]; apply one; [exact (cos_near L A angle C Fa Ba)|exact (sin_near L A angle S Fa Ba)].
Qed.
End Lib.
