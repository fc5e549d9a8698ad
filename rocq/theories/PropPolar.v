(** Property theorems on distances and polar coordinates in binary64 arithmetic: C99.  Notions in SpecPolar.v, proofs in PolarProofs. *)
From Coq Require Import Reals ZArith List.
From Flocq Require Import Core.Raux Core.Zaux IEEE754.BinarySingleNaN.
From Verif Require Import Outcome Num Float64 NumericsModel SpecCoeff SpecSlope SpecBarrier SpecPolar PolarProofs PropCoeffAux PropSlopeAux PropPolarAux.
Local Open Scope R_scope.
Notation is_finite := BinarySingleNaN.is_finite.

(** ** C99 *)
Theorem C99_distance : forall (L : libm) (x0 y0 x1 y1 : b64), up_to (bpow radix2 40) x0 -> up_to (bpow radix2 40) y0 -> up_to (bpow radix2 40) x1 -> up_to (bpow radix2 40) y1 ->
  let d := @distance b64 (F64 L) x0 y0 x1 y1 in
  is_finite d = true /\ 0 <= B2R d /\ Rabs (B2R d - euclid x0 y0 x1 y1) <= 6 * euclid x0 y0 x1 y1 * bpow radix2 (-53) + bpow radix2 (-498) /\
  B2R (@distance b64 (F64 L) x1 y1 x0 y0) = B2R d.
Proof. exact c99_distance. Qed.
Print Assumptions C99_distance.
(** The squares underflow and overflow: distinct points can have the distance 0, and finite ones no finite distance. *)
Theorem C99_any_distance_refuted : forall L : libm, exists x y : b64, is_finite x = true /\ 0 < B2R x /\ @distance b64 (F64 L) (b64_ofZ 0) (b64_ofZ 0) x (b64_ofZ 0) = b64_ofZ 0 /\
  is_finite y = true /\ is_finite (@distance b64 (F64 L) (b64_ofZ 0) (b64_ofZ 0) y (b64_ofZ 0)) = false.
Proof. exact c99_refuted. Qed.
Print Assumptions C99_any_distance_refuted.
Theorem C99_polar : forall (L : libm) A R0 (angle range : b64), close_cos L A -> close_sin L A -> 1 <= R0 <= bpow radix2 90 -> up_to A angle -> up_to R0 range ->
  let p := @polar2Cartesian b64 (F64 L) angle range in
  (is_finite (fst p) = true /\ Rabs (B2R (fst p) - B2R range * cos (B2R angle)) <= 3 * R0 * bpow radix2 (-53)) /\
  (is_finite (snd p) = true /\ Rabs (B2R (snd p) - B2R range * sin (B2R angle)) <= 3 * R0 * bpow radix2 (-53)) /\
  @polar2CartesianHomo b64 (F64 L) angle range = V3 (fst p) (snd p) (b64_ofZ 1).
Proof. exact c99_polar. Qed.
Print Assumptions C99_polar.
Example C99_example : (up_to (bpow radix2 40) (b64_ofZ 0) /\ up_to (bpow radix2 40) (b64_ofZ 3) /\ up_to (bpow radix2 40) (b64_ofZ 4) /\ euclid (b64_ofZ 0) (b64_ofZ 0) (b64_ofZ 3) (b64_ofZ 4) = 5) /\
  close_cos exact_libm 2 /\ close_sin exact_libm 2 /\ up_to 2 (b64_ofZ (-2)) /\ up_to 3 (b64_ofZ 3).
Proof. exact (conj three_four (conj (exact_close _) (conj (exact_sin _) beam))). Qed.
