(** Property theorems on the target distribution and the Fourier coefficients in binary64 arithmetic: C93.  Proofs in CoeffProofs. *)
From Coq Require Import Reals ZArith List.
From Flocq Require Import Core.Raux Core.Zaux IEEE754.BinarySingleNaN.
From Verif Require Import Outcome Num Float64 BasisModel SpecBasis SpecCoeff CoeffProofs PropCoeffAux.
Import ListNotations.
Local Open Scope R_scope.

(** ** C93 *)
(** The value of a target at a point is a number, at least that of each of its Gaussians, at most their count. *)
Theorem C93_evaluate : forall (L : libm) (t : target b64) p trans, bounded_exp L -> Forall modest t -> (lenZ t <= 2 ^ 40)%Z ->
  medium (fst p) -> medium (snd p) -> medium (fst trans) -> medium (snd trans) ->
  let e := @evaluate b64 (F64 L) t p trans in is_finite e = true /\ 0 <= B2R e <= IZR (lenZ t) /\
  forall g, In g t -> is_finite (@gauss_trans b64 (F64 L) g p trans) = true /\ 0 <= B2R (@gauss_trans b64 (F64 L) g p trans) <= B2R e.
Proof. exact c93_evaluate. Qed.
Print Assumptions C93_evaluate.
(** The filled target: numbers from 0 to 1, proportional to the values and of sum 1 up to n * 2^-51. *)
Theorem C93_distribution : forall (L : libm) (t : target b64) trans pts, density (map (fun p => @evaluate b64 (F64 L) t p trans) pts) -> (lenZ pts <= 2 ^ 40)%Z ->
  let s := rsum (map (fun p => B2R (@evaluate b64 (F64 L) t p trans)) pts) in let r := @fill b64 (F64 L) t trans pts in
  length r = length pts /\ Forall (fun v => is_finite v = true /\ 0 <= B2R v <= 1) r /\ Rabs (rsum (map B2R r) - 1) <= IZR (lenZ pts) * bpow radix2 (-51) /\
  0 < s /\ forall i p, nth_error pts i = Some p -> exists v, nth_error r i = Some v /\
    let q := B2R (@evaluate b64 (F64 L) t p trans) / s in Rabs (B2R v - q) <= q * (IZR (lenZ pts) * bpow radix2 (-51)) + bpow radix2 (-1000).
Proof. exact c93_fill. Qed.
Print Assumptions C93_distribution.
(** The coefficients of the filled target. *)
Theorem C93_target : forall (L : libm) A (bs : basis b64) (t : target b64) trans pts i k, close_cos L (A + 1) -> 0 <= A <= 2 ^ 40 ->
  (forall p, In p pts -> placed bs p k /\ angles bs A p k) -> density (map (fun p => @evaluate b64 (F64 L) t p trans) pts) -> (lenZ pts <= 2 ^ 40)%Z ->
  nth_error (bs_k bs) i = Some k -> let s := rsum (map (fun p => B2R (@evaluate b64 (F64 L) t p trans)) pts) in
  exists cs c, @spatialCoeff b64 (F64 L) bs (@fill b64 (F64 L) t trans pts) pts = Ok cs /\ nth_error cs i = Some c /\ is_finite c = true /\
  Rabs (B2R c - rsum (map (fun p => mode (B2R (bs_lx bs)) (B2R (bs_ly bs)) k (B2R (fst p)) (B2R (snd p)) * (B2R (@evaluate b64 (F64 L) t p trans) / s)) pts))
    <= (8 * IZR (lenZ pts) + 24 * A + 9) * bpow radix2 (-53).
Proof. exact c93_target. Qed.
Print Assumptions C93_target.
(** The coefficients of a trajectory are means, up to rounding. *)
Theorem C93_trajectory_mean : forall (L : libm) A (bs : basis b64) xt i k, close_cos L (A + 1) -> A <= 2 ^ 40 ->
  (forall p, In p xt -> placed bs p k /\ angles bs A p k) -> (0 < lenZ xt <= 2 ^ 53)%Z -> nth_error (bs_k bs) i = Some k ->
  exists c, nth_error (@trajCoeff b64 (F64 L) bs xt) i = Some c /\ is_finite c = true /\
  Rabs (B2R c - mean (map (fun p => mode (B2R (bs_lx bs)) (B2R (bs_ly bs)) k (B2R (fst p)) (B2R (snd p))) xt)) <= (IZR (lenZ xt) / 2 + 12 * A + 7) * bpow radix2 (-53).
Proof. exact c93_mean. Qed.
Print Assumptions C93_trajectory_mean.
(** They do not leave [-1, 1], not even by rounding, and the first one is 1 or the double below. *)
Theorem C93_trajectory_range : forall (L : libm) (bs : basis b64) xt i k, bounded_cos L -> (forall p, In p xt -> placed bs p k) ->
  (0 < lenZ xt <= 2 ^ 53)%Z -> nth_error (bs_k bs) i = Some k ->
  exists c, nth_error (@trajCoeff b64 (F64 L) bs xt) i = Some c /\ is_finite c = true /\ -1 <= B2R c <= 1 /\
  (k = (0, 0)%Z -> B2R c = 1 \/ B2R c = 1 - bpow radix2 (-53)).
Proof. exact c93_range. Qed.
Print Assumptions C93_trajectory_range.
(** With 49 columns it is the double below. *)
Theorem C93_first_is_one_refuted : forall L : libm, bounded_cos L -> exists (bs : basis b64) xt c, nth_error (bs_k bs) 0 = Some (0, 0)%Z /\ length xt = 49%nat /\
  (forall p, In p xt -> placed bs p (0, 0)%Z) /\ nth_error (@trajCoeff b64 (F64 L) bs xt) 0 = Some c /\ B2R c = 1 - bpow radix2 (-53).
Proof. exact first_refuted. Qed.
Print Assumptions C93_first_is_one_refuted.
(** Correctly rounded functions, a Gaussian and two points meet the hypotheses. *)
Example C93_example : bounded_cos exact_libm /\ close_cos exact_libm (2 + 1) /\ bounded_exp exact_libm /\ Forall modest [hump] /\
  (forall p k, In p spots -> In k (bs_k modes2) -> placed modes2 p k /\ angles modes2 2 p k) /\
  density (map (fun p => @evaluate b64 (F64 exact_libm) [hump] p origin64) spots) /\ nth_error (bs_k modes2) 1 = Some (1, 0)%Z /\ lenZ spots = 2%Z.
Proof.
  exact (conj exact_bounded (conj (exact_close _) (conj exact_exp (conj (Forall_cons _ hump_modest (Forall_nil _)) (conj spots_placed
    (conj hump_density (conj eq_refl eq_refl))))))).
Qed.
