(** Reference notions for the values of a target in binary64 arithmetic. *)
From Coq Require Import Reals ZArith List.
From Flocq Require Import Core.Raux Core.Zaux IEEE754.BinarySingleNaN.
From Verif Require Import Outcome Num Float64 GridModel BasisModel ExplorationModel SpecBasis SpecFar.
Import ListNotations.
Local Open Scope R_scope.

(** The exponential of a number that is not positive is between 0 and 1, and has an error of at most 2^-53. *)
Definition accurate_exp (L : libm) : Prop := forall a : b64, is_finite a = true -> B2R a <= 0 ->
  is_finite (m_exp L a) = true /\ 0 <= B2R (m_exp L a) <= 1 /\ Rabs (B2R (m_exp L a) - exp (B2R a)) <= bpow radix2 (-53).
Definition within (W : R) (x : b64) : Prop := is_finite x = true /\ Rabs (B2R x) <= W.
Definition within2 (W : R) (p : b64 * b64) : Prop := within W (fst p) /\ within W (snd p).
(** A standard deviation from 2^-14 to 2^30, of either sign. *)
Definition deviation (s : b64) : Prop := is_finite s = true /\ / 16384 <= Rabs (B2R s) <= 1073741824.
(** The mean and the standard deviations of a Gaussian, the mean at most [W] from zero. *)
Definition fair (W : R) (ms : (b64 * b64) * (b64 * b64)) : Prop := within2 W (fst ms) /\ deviation (fst (snd ms)) /\ deviation (snd (snd ms)).
(** The squared distance of a point from the mean seen from [tr], in standard deviations. *)
Definition distance2 (ms : (b64 * b64) * (b64 * b64)) (p tr : b64 * b64) : R :=
  ((B2R (fst p) - (B2R (fst (fst ms)) - B2R (fst tr))) / B2R (fst (snd ms))) ^ 2 + ((B2R (snd p) - (B2R (snd (fst ms)) - B2R (snd tr))) / B2R (snd (snd ms))) ^ 2.
(** The Gaussian, not normalised, and the sum of several. *)
Definition bell (ms : (b64 * b64) * (b64 * b64)) (p tr : b64 * b64) : R := exp (- (distance2 ms p tr / 2)).
Definition bells (l : list ((b64 * b64) * (b64 * b64))) (p tr : b64 * b64) : R := rsum (map (fun ms => bell ms p tr) l).
(** The Gaussians that the constructor makes of means and standard deviations. *)
Definition made_of (L : libm) (l : list ((b64 * b64) * (b64 * b64))) (t : target b64) : Prop :=
  Forall2 (fun ms g => @gaussian_ctor b64 (F64 L) (fst ms) (snd ms) = Ok g) l t.
(** The error of one Gaussian, in units of 2^-53: 6 times the reach of the coordinates in standard deviations, and 9. *)
Definition bell_error (W : R) (ms : (b64 * b64) * (b64 * b64)) : R :=
  (6 * W * (/ Rabs (B2R (fst (snd ms))) + / Rabs (B2R (snd (snd ms)))) + 9) * bpow radix2 (-53).
(** The error of a sum of Gaussians: those of the Gaussians, and those of the additions. *)
Definition sum_error (W : R) (l : list ((b64 * b64) * (b64 * b64))) : R :=
  rsum (map (bell_error W) l) + IZR (lenZ l) * (IZR (lenZ l) + 1) / 2 * bpow radix2 (-53).
(** All of the lattice is at least 39 standard deviations away from the means of all Gaussians. *)
Definition far_from_map (L : libm) (W : R) (p : params b64) (g : grid b64) : Prop :=
  exists nx ny, @axis_length b64 (F64 L) (@n0 b64 (F64 L)) (fst (@extents b64 (F64 L) g)) (pa_target_resolution p) = Ok nx /\
    @axis_length b64 (F64 L) (@n0 b64 (F64 L)) (snd (@extents b64 (F64 L) g)) (pa_target_resolution p) = Ok ny /\ (0 <= nx < two32 - 1)%Z /\ (0 <= ny < two32 - 1)%Z /\
    within W (g_xmin g) /\ within W (g_ymin g) /\
    forall ms i j, In ms (pa_gaussians p) -> (Z.of_nat i <= nx)%Z -> (Z.of_nat j <= ny)%Z ->
      let q := @node_at b64 (F64 L) (pa_target_resolution p) i j in fair W ms /\ within2 W q /\ 39 ^ 2 <= distance2 ms q (g_xmin g, g_ymin g).
