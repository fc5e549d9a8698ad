(** Examples for PropEntropy. *)
From Coq Require Import Reals Lra ZArith Lia.
From Flocq Require Import Core.Core IEEE754.BinarySingleNaN.
From Verif Require Import Outcome Num Float64 FloatLemmas NumericsModel MotionProofs NearProofs CoeffProofs SlopeProofs BarrierProofs SpecEntropy EntropyFloat PropNearAux PropCoeffAux PropSlopeAux.
Local Open Scope R_scope.
Notation is_finite := BinarySingleNaN.is_finite.

(** The rounded 64th of the logarithm, times 64 *)
Definition logarithm (a : b64) : b64 := Bmult mode_NE (b64_ofZ 64) (nearest (ln (B2R a) / 64)).
Definition log_libm : libm := {| m_sin := m_sin exact_libm; m_cos := m_cos exact_libm; m_exp := m_exp exact_libm;
  m_log := logarithm; m_atan2 := m_atan2 exact_libm; m_pow := m_pow exact_libm |}.
Lemma log_close : close_log log_libm.
Proof.
  intros a _ B. cbn [m_log log_libm]. unfold logarithm. set (v := B2R a) in *. pose proof u_small as U. pose proof tiny_small as TS. pose proof (bpow_gt_0 radix2 (-50)) as P50.
  assert (Hi : ln v <= 0) by (rewrite <- ln_1; destruct (Req_dec v 1) as [->|]; [lra|left; apply ln_increasing; lra]).
  assert (Lo : - 35 <= ln v).
  { assert (E : ln (bpow radix2 (-50)) = - (50 * ln 2)). { change (bpow radix2 (-50)) with (/ IZR (2 ^ 50)). rewrite ln_Rinv by (apply IZR_lt; lia). change (2 ^ 50)%Z with (2 ^ Z.of_nat 50)%Z. rewrite <- (pow_IZR 2 50), ln_pow by lra. f_equal. f_equal. rewrite INR_IZR_INZ. reflexivity. }
    assert (M : ln (bpow radix2 (-50)) <= ln v) by (destruct (proj1 B) as [H| ->]; [left; apply ln_increasing; lra|lra]). rewrite E in M. pose proof ln2_lt. lra. }
  destruct (nearest_abs (ln v / 64)) as (G & _ & D); [apply Rabs_le; lra|]. set (n := nearest (ln v / 64)) in *. clearbody n. apply Rabs_le_inv in D.
  destruct (ofZ_exact 64 ltac:(lia)) as [E F].
  assert (W : Rabs (B2R (b64_ofZ 64) * B2R n) <= 36) by (rewrite E; apply Rabs_le; lra).
  destruct (fmult_rnd (b64_ofZ 64) n F G) as [V K]; [apply big1000; apply Rle_trans with (bpow radix2 6); [change (bpow radix2 6) with 64; lra|apply bpow_le; lia]|].
  split; [exact K|]. rewrite V. pose proof (rnd_err _ _ W) as R. rewrite E in *. apply Rabs_le_inv in R.
  assert (L46 : bpow radix2 (-46) = 128 * ueps) by (unfold ueps; rewrite (bpow_plus radix2 7 (-53) : bpow radix2 (-46) = _); reflexivity). rewrite L46. apply Rabs_le. lra.
Qed.
Definition half64 : b64 := b64_scaled 1 (-1).
Lemma half_is : is_finite half64 = true /\ B2R half64 = 1 / 2.
Proof. split; [vm_compute; reflexivity|]. value. Qed.
Lemma minus_one : is_finite (b64_ofZ (-1)) = true /\ - bpow radix2 90 <= B2R (b64_ofZ (-1)) <= - (102 / 100) / 1000000000000.
Proof. destruct (ofZ_exact (-1) ltac:(lia)) as [-> F]. pose proof (bpow_le radix2 0 90 ltac:(lia)) as O. change (bpow radix2 0) with 1 in O. split; [exact F|lra]. Qed.
