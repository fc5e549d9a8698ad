(** Property theorems on the values of a target in binary64 arithmetic: C95.  The notions are defined in SpecGauss.v, proofs in GaussProofs. *)
From Coq Require Import Reals ZArith List.
From Flocq Require Import Core.Raux Core.Zaux IEEE754.BinarySingleNaN.
From Verif Require Import Outcome Num Float64 GridModel BasisModel ExplorationModel SpecBasis SpecCoeff SpecFar SpecGauss GaussProofs PropFarAux PropCoeffAux PropGaussAux.
Import ListNotations.
Local Open Scope R_scope.

(** ** C95 *)
(** The value of one Gaussian. *)
Theorem C95_gaussian : forall (L : libm) W ms g p tr, accurate_exp L -> 0 <= W <= 1073741824 -> fair W ms -> within2 W p -> within2 W tr ->
  @gaussian_ctor b64 (F64 L) (fst ms) (snd ms) = Ok g ->
  let v := @gauss_trans b64 (F64 L) g p tr in is_finite v = true /\ 0 <= B2R v <= 1 /\ Rabs (B2R v - bell ms p tr) <= bell_error W ms.
Proof. exact c95_gaussian. Qed.
Print Assumptions C95_gaussian.
(** The value of a target. *)
Theorem C95_evaluate : forall (L : libm) W l t p tr, accurate_exp L -> 0 <= W <= 1073741824 -> Forall (fair W) l -> made_of L l t -> (lenZ l <= 2 ^ 40)%Z ->
  within2 W p -> within2 W tr ->
  let e := @evaluate b64 (F64 L) t p tr in is_finite e = true /\ 0 <= B2R e /\ Rabs (B2R e - bells l p tr) <= sum_error W l.
Proof. exact c95_evaluate. Qed.
Print Assumptions C95_evaluate.
(** The coefficients of the filled target, from the means and standard deviations alone. *)
Theorem C95_coefficients : forall (L : libm) A W (bs : basis b64) l t tr pts i k, accurate_exp L -> close_cos L (A + 1) -> 0 <= A <= 2 ^ 40 -> 0 <= W <= 1073741824 ->
  Forall (fair W) l -> made_of L l t -> (lenZ l <= 2 ^ 40)%Z -> (lenZ pts <= 2 ^ 40)%Z -> within2 W tr ->
  (forall p, In p pts -> within2 W p /\ placed bs p k /\ angles bs A p k) -> nth_error (bs_k bs) i = Some k ->
  let n := IZR (lenZ pts) in let s := rsum (map (fun p => bells l p tr) pts) in n * sum_error W l < s ->
  exists cs c, @spatialCoeff b64 (F64 L) bs (@fill b64 (F64 L) t tr pts) pts = Ok cs /\ nth_error cs i = Some c /\ is_finite c = true /\
  Rabs (B2R c - rsum (map (fun p => mode (B2R (bs_lx bs)) (B2R (bs_ly bs)) k (B2R (fst p)) (B2R (snd p)) * (bells l p tr / s)) pts))
    <= (8 * n + 24 * A + 9) * bpow radix2 (-53) + 2 * n * sum_error W l / s.
Proof. exact c95_coefficients. Qed.
Print Assumptions C95_coefficients.
(** A target 39 standard deviations away from the whole lattice is out of sight in the sense of C90. *)
Theorem C95_out_of_sight : forall (L : libm) W p g, underflows L -> 0 <= W <= 1073741824 -> far_from_map L W p g -> out_of_sight L p g.
Proof. exact c95_sight. Qed.
Print Assumptions C95_out_of_sight.
(** Correctly rounded functions, two Gaussians and two points meet the hypotheses. *)
Example C95_example : accurate_exp exact_libm /\ close_cos exact_libm (2 + 1) /\ Forall (fair 1) two /\ made_of exact_libm two two_made /\
  (forall p, In p spots -> within2 1 p) /\ within2 1 origin64 /\ (forall p k, In p spots -> In k (bs_k modes2) -> placed modes2 p k /\ angles modes2 2 p k) /\
  nth_error (bs_k modes2) 1 = Some (1, 0)%Z /\ IZR (lenZ spots) * sum_error 1 two < rsum (map (fun p => bells two p origin64) spots).
Proof.
  exact (conj exact_accurate (conj (exact_close _) (conj two_fair (conj two_ok (conj spots_within (conj origin_within (conj spots_placed (conj eq_refl two_sum)))))))).
Qed.
(** So does the target of C90's examples, 1000 m away from the map. *)
Example C95_example_far : forall vh, underflows dark_libm /\ far_from_map dark_libm 1000 (remote vh) (@grid_of_msg b64 (F64 dark_libm) room).
Proof. exact (fun vh => conj dark_underflows (room_from vh)). Qed.
