(** Reference notions for the entropy of a cell in binary64 arithmetic. *)
From Coq Require Import Reals.
From Flocq Require Import Core.Raux Core.Zaux IEEE754.BinarySingleNaN.
From Verif Require Import Num Float64.
Local Open Scope R_scope.

(** A logarithm with an error of at most 2^-46 on [2^-50, 1]. *)
Definition close_log (L : libm) : Prop := forall a : b64, is_finite a = true -> bpow radix2 (-50) <= B2R a <= 1 ->
  is_finite (m_log L a) = true /\ Rabs (B2R (m_log L a) - ln (B2R a)) <= bpow radix2 (-46).
(** The entropy of a cell that is occupied with probability [p]. *)
Definition shannon (p : R) : R := - p * ln p - (1 - p) * ln (1 - p).
