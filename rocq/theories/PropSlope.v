(** Property theorems on the gradient of the ergodic metric in binary64 arithmetic: C96.  The notions are defined in SpecSlope.v, proofs in SlopeProofs. *)
From Coq Require Import Reals ZArith List.
From Flocq Require Import Core.Raux Core.Zaux IEEE754.BinarySingleNaN.
From Verif Require Import Outcome Num Float64 NumericsModel BasisModel RobotModel ErgodicModel SpecBasis SpecCoeff SpecSlope SlopeProofs PropCoeffAux PropSlopeAux.
Import ListNotations.
Local Open Scope R_scope.

(** ** C96 *)
(** The two numbers used below are the derivatives of a mode. *)
Theorem C96_derivatives : forall lx ly k x y, lx <> 0 -> ly <> 0 ->
  derivable_pt_lim (fun t => mode lx ly k t y) x (slope_x lx ly k x y) /\ derivable_pt_lim (fun t => mode lx ly k x t) y (slope_y lx ly k x y).
Proof. exact derive_mode. Qed.
Print Assumptions C96_derivatives.
(** The gradient of one mode. *)
Theorem C96_mode : forall (L : libm) A f (bs : basis b64) p k, close_cos L (A + 1) -> close_sin L (A + 1) -> 0 <= A <= 2 ^ 40 -> 0 <= f <= bpow radix2 60 ->
  placed bs p k -> angles bs A p k -> frequency bs f k ->
  let g := @basis_grad b64 (F64 L) bs p k in let x := B2R (fst p) in let y := B2R (snd p) in
  (is_finite (fst g) = true /\ Rabs (B2R (fst g) - slope_x (B2R (bs_lx bs)) (B2R (bs_ly bs)) k x y) <= f * (12 * A + 11) * bpow radix2 (-53) + bpow radix2 (-997)) /\
  (is_finite (snd g) = true /\ Rabs (B2R (snd g) - slope_y (B2R (bs_lx bs)) (B2R (bs_ly bs)) k x y) <= f * (12 * A + 11) * bpow radix2 (-53) + bpow radix2 (-997)).
Proof. exact c96_mode. Qed.
Print Assumptions C96_mode.
(** The gradient of the metric at every pose of a trajectory. *)
Theorem C96_gradient : forall (L : libm) A f (e : ec b64) phik ck xt, close_cos L (A + 1) -> close_sin L (A + 1) -> 0 <= A <= 2 ^ 40 -> 0 <= f <= bpow radix2 40 ->
  ec_phik e = Some phik -> let bs := ec_basis e in (lenZ (bs_k bs) <= 2 ^ 20)%Z -> is_finite (ec_weight e) = true -> Rabs (B2R (ec_weight e)) <= 1073741824 ->
  (forall q, In q (combine (bs_lam bs) (combine ck phik)) -> sane q) ->
  (forall x k, In x xt -> In k (bs_k bs) -> placed bs (xy x) k /\ angles bs A (xy x) k /\ frequency bs f k) ->
  exists cols, @gradErgodicMetric b64 (F64 L) e ck xt = Ok cols /\ length cols = length xt /\ forall i x, nth_error xt i = Some x -> exists g, nth_error cols i = Some g /\
    let lx := B2R (bs_lx bs) in let ly := B2R (bs_ly bs) in let w := B2R (ec_weight e) in let err := slope_error w f A (IZR (lenZ (bs_k bs))) in
    (is_finite (v0 g) = true /\ Rabs (B2R (v0 g) - w * slopes (fun k => slope_x lx ly k (B2R (v0 x)) (B2R (v1 x))) (bs_k bs) (bs_lam bs) ck phik) <= err) /\
    (is_finite (v1 g) = true /\ Rabs (B2R (v1 g) - w * slopes (fun k => slope_y lx ly k (B2R (v0 x)) (B2R (v1 x))) (bs_k bs) (bs_lam bs) ck phik) <= err) /\ v2 g = b64_ofZ 0.
Proof. exact c96_gradient. Qed.
Print Assumptions C96_gradient.
(** Correctly rounded functions, a controller with two modes and two poses meet the hypotheses. *)
Example C96_example : close_cos exact_libm (2 + 1) /\ close_sin exact_libm (2 + 1) /\ ec_phik probe = Some [b64_ofZ 1; b64_ofZ 0] /\
  lenZ (bs_k (ec_basis probe)) = 2%Z /\ (is_finite (ec_weight probe) = true /\ Rabs (B2R (ec_weight probe)) <= 3) /\
  (forall q, In q (combine (bs_lam (ec_basis probe)) (combine coeffs [b64_ofZ 1; b64_ofZ 0])) -> sane q) /\
  (forall x k, In x poses -> In k (bs_k (ec_basis probe)) -> placed (ec_basis probe) (xy x) k /\ angles (ec_basis probe) 2 (xy x) k /\ frequency (ec_basis probe) 2 k).
Proof. exact (conj (exact_close _) (conj (exact_sin _) (conj eq_refl (conj eq_refl (conj probe_weight (conj probe_sane poses_placed)))))). Qed.
