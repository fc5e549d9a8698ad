(** Property theorems on the barrier in binary64 arithmetic: C97.  The notions are defined in SpecBarrier.v, proofs in BarrierProofs. *)
From Coq Require Import Reals ZArith List.
From Coquelicot Require Import Coquelicot.
From Flocq Require Import Core.Raux Core.Zaux IEEE754.BinarySingleNaN.
From Verif Require Import Outcome Num Float64 NumericsModel BasisModel RobotModel ErgodicModel SpecErgodic SpecBarrier BarrierProofs PropSlopeAux PropBarrierAux.
Import ListNotations.
Local Open Scope R_scope.

(** ** C97 *)
(** [push] is the derivative of the barrier. *)
Theorem C97_derivative : forall l x, is_derive (barrier l) x (push l x).
Proof. exact derive_push. Qed.
Print Assumptions C97_derivative.
(** Every column of the gradient of the barrier. *)
Theorem C97_gradient : forall (L : libm) M (e : ec b64) xt, 1 <= M <= bpow radix2 60 -> let lx := bs_lx (ec_basis e) in let ly := bs_ly (ec_basis e) in up_to M lx -> up_to M ly ->
  (forall x, In x xt -> up_to M (v0 x) /\ up_to M (v1 x)) ->
  let cols := @gradBarrier b64 (F64 L) e xt in length cols = length xt /\ forall i x, nth_error xt i = Some x -> exists g, nth_error cols i = Some g /\
    (BinarySingleNaN.is_finite (v0 g) = true /\ Rabs (B2R (v0 g) - push (B2R lx) (B2R (v0 x))) <= push_error M /\
      (off_lower (B2R (v0 x)) -> 0 <= B2R (v0 g)) /\ (off_upper M (B2R lx) (B2R (v0 x)) -> B2R (v0 g) <= 0)) /\
    (BinarySingleNaN.is_finite (v1 g) = true /\ Rabs (B2R (v1 g) - push (B2R ly) (B2R (v1 x))) <= push_error M /\
      (off_lower (B2R (v1 x)) -> 0 <= B2R (v1 g)) /\ (off_upper M (B2R ly) (B2R (v1 x)) -> B2R (v1 g) <= 0)) /\
    v2 g = b64_ofZ 0.
Proof. exact c97_gradient. Qed.
Print Assumptions C97_gradient.
(** A controller on 2 m x 2 m with a pose at the edge, which is pushed, and a pose in the middle, which is not. *)
Example C97_example : (up_to 2 (bs_lx (ec_basis probe)) /\ up_to 2 (bs_ly (ec_basis probe))) /\ (forall x, In x poses -> up_to 2 (v0 x) /\ up_to 2 (v1 x)) /\
  (exists x, In x poses /\ push (B2R (bs_lx (ec_basis probe))) (B2R (v0 x)) = -5 / 2) /\
  (exists x, In x poses /\ off_lower (B2R (v0 x)) /\ off_upper 2 (B2R (bs_lx (ec_basis probe))) (B2R (v0 x))).
Proof. exact (conj probe_domain (conj poses_bounded (conj pose_pushed pose_free))). Qed.
