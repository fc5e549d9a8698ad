(** Reference notions for the gradient of the ergodic metric in binary64 arithmetic. *)
From Coq Require Import Reals ZArith List.
From Flocq Require Import Core.Raux Core.Zaux IEEE754.BinarySingleNaN.
From Verif Require Import Outcome Num Float64 NumericsModel BasisModel RobotModel ErgodicModel SpecBasis SpecCoeff.
Import ListNotations.
Local Open Scope R_scope.

(** A sine with an error of at most 2^-53 for angles up to [A]. *)
Definition close_sin (L : libm) (A : R) : Prop := forall a : b64, is_finite a = true -> Rabs (B2R a) <= A ->
  is_finite (m_sin L a) = true /\ Rabs (B2R (m_sin L a)) <= 1 /\ Rabs (B2R (m_sin L a) - sin (B2R a)) <= bpow radix2 (-53).
(** The derivatives of the mode [k] by x and by y. *)
Definition slope_x (lx ly : R) (k : Z * Z) (x y : R) : R :=
  - (IZR (fst k) * PI / lx) * sin (IZR (fst k) * PI * x / lx) * cos (IZR (snd k) * PI * y / ly).
Definition slope_y (lx ly : R) (k : Z * Z) (x y : R) : R :=
  - (IZR (snd k) * PI / ly) * cos (IZR (fst k) * PI * x / lx) * sin (IZR (snd k) * PI * y / ly).
(** The frequencies of a mode are at most [f]. *)
Definition frequency (bs : basis b64) (f : R) (k : Z * Z) : Prop :=
  Rabs (IZR (fst k) * PI / B2R (bs_lx bs)) <= f /\ Rabs (IZR (snd k) * PI / B2R (bs_ly bs)) <= f.
(** A weight between -1 and 1, and coefficients of the trajectory and the target between -2 and 2. *)
Definition sane (q : b64 * (b64 * b64)) : Prop :=
  (is_finite (fst q) = true /\ Rabs (B2R (fst q)) <= 1) /\ (is_finite (fst (snd q)) = true /\ Rabs (B2R (fst (snd q))) <= 2) /\
  (is_finite (snd (snd q)) = true /\ Rabs (B2R (snd (snd q))) <= 2).
(** The sum over the modes of their derivatives times lambda (c - phi). *)
Definition slopes (slope : Z * Z -> R) (ks : list (Z * Z)) (lam ck phik : list b64) : R :=
  rsum (map (fun q => slope (fst q) * (B2R (fst (snd q)) * (B2R (fst (snd (snd q))) - B2R (snd (snd (snd q)))))) (combine ks (combine lam (combine ck phik)))).
(** The error of the gradient with [n] modes of frequencies up to [f], angles up to [A] and the exploration weight [w]. *)
Definition slope_error (w f A n : R) : R := Rabs w * f * n * (48 * A + 5 * n + 63) * bpow radix2 (-53) + bpow radix2 (-860).
