(** Property theorems on the update of the controls in binary64 arithmetic: C98.  The notions are defined in SpecUpdate.v, proofs in UpdateProofs and UpdateMin. *)
From Coq Require Import Reals ZArith List.
From Flocq Require Import Core.Raux Core.Zaux IEEE754.BinarySingleNaN.
From Verif Require Import Outcome Num Float64 NumericsModel BasisModel RobotModel ErgodicModel SpecErgodic SpecCoeff SpecSlope SpecBarrier SpecUpdate UpdateProofs UpdateMin PropCoeffAux PropSlopeAux PropUpdateAux.
Import ListNotations.
Local Open Scope R_scope.

(** ** C98 *)
(** Every control is within its limits and near the wanted one. *)
Theorem C98_update : forall (L : libm) side A P Q (e : ec b64) xt rhot, lateral L e side -> close_cos L A -> close_sin L A -> 1 <= P <= 1073741824 -> 1 <= Q <= 1073741824 ->
  up_to3 Q (r0 (ec_Rinv e)) -> up_to3 Q (r1 (ec_Rinv e)) -> up_to3 Q (r2 (ec_Rinv e)) ->
  ordered (v0 (ec_umin e)) (v0 (ec_umax e)) -> ordered (v1 (ec_umin e)) (v1 (ec_umax e)) -> ordered (v2 (ec_umin e)) (v2 (ec_umax e)) ->
  exists us, @updateControl b64 (F64 L) e xt rhot = Ok us /\ forall i x rho, nth_error xt i = Some x -> nth_error rhot i = Some rho -> up_to A (v2 x) -> up_to3 P rho ->
    exists u, nth_error us i = Some u /\ let t := turned side (B2R (v2 x)) rho in let err := 120 * P * Q * bpow radix2 (-53) in
    meets (v0 (ec_umin e)) (v0 (ec_umax e)) (wanted (r0 (ec_Rinv e)) (v0 (ec_umin e)) (v0 (ec_umax e)) t) err (v0 u) /\
    meets (v1 (ec_umin e)) (v1 (ec_umax e)) (wanted (r1 (ec_Rinv e)) (v1 (ec_umin e)) (v1 (ec_umax e)) t) err (v1 u) /\
    meets (v2 (ec_umin e)) (v2 (ec_umax e)) (wanted (r2 (ec_Rinv e)) (v2 (ec_umin e)) (v2 (ec_umax e)) t) err (v2 u).
Proof. exact c98_update. Qed.
Print Assumptions C98_update.
(** The wanted control is the only one within the limits that minimises the Hamiltonian. *)
Theorem C98_minimiser : forall (side : bool) (e : ec b64) (w : vec3 R) (x rho : vec3 b64), inverse_of (ec_Rinv e) w ->
  ordered (v0 (ec_umin e)) (v0 (ec_umax e)) -> ordered (v1 (ec_umin e)) (v1 (ec_umax e)) -> ordered (v2 (ec_umin e)) (v2 (ec_umax e)) ->
  (side = true \/ B2R (v1 (ec_umin e)) = 0 /\ B2R (v1 (ec_umax e)) = 0) ->
  let t := turned side (B2R (v2 x)) rho in
  unique_minimiser (in_box (real3 (ec_umin e)) (real3 (ec_umax e))) (hamiltonian w (real3 x) (real3 rho))
    (V3 (wanted (r0 (ec_Rinv e)) (v0 (ec_umin e)) (v0 (ec_umax e)) t) (wanted (r1 (ec_Rinv e)) (v1 (ec_umin e)) (v1 (ec_umax e)) t)
        (wanted (r2 (ec_Rinv e)) (v2 (ec_umin e)) (v2 (ec_umax e)) t)).
Proof. exact c98_minimiser. Qed.
Print Assumptions C98_minimiser.
(** A controller with unit weights and limits of 1, two poses and two co-states meet the hypotheses. *)
Example C98_example : lateral exact_libm driver true /\ close_cos exact_libm 2 /\ close_sin exact_libm 2 /\
  (up_to3 1 (r0 (ec_Rinv driver)) /\ up_to3 1 (r1 (ec_Rinv driver)) /\ up_to3 1 (r2 (ec_Rinv driver))) /\
  (ordered (v0 (ec_umin driver)) (v0 (ec_umax driver)) /\ ordered (v1 (ec_umin driver)) (v1 (ec_umax driver)) /\ ordered (v2 (ec_umin driver)) (v2 (ec_umax driver))) /\
  (Forall (fun x => up_to 2 (v2 x)) poses /\ Forall (up_to3 2) costates) /\ inverse_of (ec_Rinv driver) (V3 1 1 1).
Proof. exact (conj eq_refl (conj (exact_close _) (conj (exact_sin _) (conj driver_rows (conj driver_limits (conj driver_states driver_inverse)))))). Qed.
