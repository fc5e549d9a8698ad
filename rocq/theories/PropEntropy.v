(** Property theorems on the entropy of a cell in binary64 arithmetic: C28.  Notions in SpecEntropy.v, proofs in EntropyFloat. *)
From Coq Require Import Reals ZArith.
From Flocq Require Import Core.Raux Core.Zaux IEEE754.BinarySingleNaN.
From Verif Require Import Outcome Num Float64 NumericsModel SpecEntropy EntropyFloat PropEntropyAux.
Local Open Scope R_scope.
Notation is_finite := BinarySingleNaN.is_finite.

(** ** C28 *)
(** The entropy of a known cell is that of its probability up to 2^-44, away from 0 and 1, and 1e-3 at 0 and 1. *)
Theorem C28_known_binary64 : forall (L : libm) (p : b64), close_log L -> is_finite p = true -> 0 <= B2R p <= 1 -> let h := @entropy b64 (F64 L) p in
  is_finite h = true /\
  (101 / 100 / 1000000000000 <= B2R p <= 1 - 102 / 100 / 1000000000000 -> Rabs (B2R h - shannon (B2R p)) <= bpow radix2 (-44)) /\
  (B2R p <= 98 / 100 / 1000000000000 \/ 1 - 98 / 100 / 1000000000000 <= B2R p -> Rabs (B2R h - 1 / 1000) <= bpow radix2 (-52)) /\
  ((0 < B2R p < 1 /\ Rabs (B2R h - shannon (B2R p)) <= bpow radix2 (-44)) \/ Rabs (B2R h - 1 / 1000) <= bpow radix2 (-52)).
Proof. exact c28_known64. Qed.
Print Assumptions C28_known_binary64.
Theorem C28_unknown_binary64 : forall (L : libm) (p : b64), is_finite p = true -> - bpow radix2 90 <= B2R p <= - (102 / 100) / 1000000000000 ->
  is_finite (@entropy b64 (F64 L) p) = true /\ Rabs (B2R (@entropy b64 (F64 L) p) - 7 / 10) <= bpow radix2 (-52).
Proof. exact c28_unknown64. Qed.
Print Assumptions C28_unknown_binary64.
Theorem C28_unknown_ranks_highest_binary64 : forall (L : libm) (p q : b64), close_log L -> is_finite p = true -> - bpow radix2 90 <= B2R p <= - (102 / 100) / 1000000000000 ->
  is_finite q = true -> 0 <= B2R q <= 1 -> B2R (@entropy b64 (F64 L) q) < B2R (@entropy b64 (F64 L) p).
Proof. exact c28_order64. Qed.
Print Assumptions C28_unknown_ranks_highest_binary64.
Example C28_binary64_example : close_log log_libm /\ (is_finite half64 = true /\ B2R half64 = 1 / 2) /\
  is_finite (b64_ofZ (-1)) = true /\ - bpow radix2 90 <= B2R (b64_ofZ (-1)) <= - (102 / 100) / 1000000000000.
Proof. exact (conj log_close (conj half_is minus_one)). Qed.
