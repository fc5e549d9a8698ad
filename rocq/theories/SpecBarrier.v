(** Reference notions for the barrier in binary64 arithmetic. *)
From Coq Require Import Reals.
From Flocq Require Import Core.Raux Core.Zaux IEEE754.BinarySingleNaN.
From Verif Require Import Num Float64.
Local Open Scope R_scope.

(** A number of at most [M] in size. *)
Definition up_to (M : R) (x : b64) : Prop := is_finite x = true /\ Rabs (B2R x) <= M.
(** The derivative of the barrier, which begins 5 cm inside a domain of extent [l]. *)
Definition push (l x : R) : R := 50 * (Rmax 0 (x - (l - 1 / 20)) - Rmax 0 (1 / 20 - x)).
(** The error of the computed one for numbers up to [M]. *)
Definition push_error (M : R) : R := 2000 * M * bpow radix2 (-53).
(** [x] is beyond the 5 cm at the lower, the upper end by more than rounding. *)
Definition off_lower (x : R) : Prop := 1 / 20 + bpow radix2 (-53) <= x.
Definition off_upper (M l x : R) : Prop := x <= l - 1 / 20 - 2 * M * bpow radix2 (-53).
