(** Reference notions for the target distribution and the Fourier coefficients in binary64 arithmetic. *)
From Coq Require Import Reals ZArith List.
From Flocq Require Import Core.Raux Core.Zaux IEEE754.BinarySingleNaN.
From Verif Require Import Outcome Num Float64 BasisModel.
Import ListNotations.
Local Open Scope R_scope.

(** A cosine that is a number between -1 and 1, and 1 at zero. *)
Definition bounded_cos (L : libm) : Prop :=
  (forall a : b64, is_finite a = true -> is_finite (m_cos L a) = true /\ Rabs (B2R (m_cos L a)) <= 1) /\
  forall s, B2R (m_cos L (B754_zero s)) = 1.
(** A cosine with an error of at most 2^-53 for angles up to [A]. *)
Definition close_cos (L : libm) (A : R) : Prop := forall a : b64, is_finite a = true -> Rabs (B2R a) <= A ->
  is_finite (m_cos L a) = true /\ Rabs (B2R (m_cos L a) - cos (B2R a)) <= bpow radix2 (-53).
(** The exponential of a number that is not positive is between 0 and 1. *)
Definition bounded_exp (L : libm) : Prop := forall a : b64, is_finite a = true -> B2R a <= 0 ->
  is_finite (m_exp L a) = true /\ 0 <= B2R (m_exp L a) <= 1.

Definition medium (x : b64) : Prop := is_finite x = true /\ Rabs (B2R x) <= 1073741824.
(** Points, extents and wave numbers of moderate size. *)
Definition placed (bs : basis b64) (p : b64 * b64) (k : Z * Z) : Prop :=
  medium (fst p) /\ medium (snd p) /\ medium (bs_lx bs) /\ medium (bs_ly bs) /\
  / 1048576 <= B2R (bs_lx bs) /\ / 1048576 <= B2R (bs_ly bs) /\ (Z.abs (fst k) <= 2147483648 /\ Z.abs (snd k) <= 2147483648)%Z.
(** The two angles of a mode are at most [A]. *)
Definition angles (bs : basis b64) (A : R) (p : b64 * b64) (k : Z * Z) : Prop :=
  Rabs (IZR (fst k) * PI * B2R (fst p) / B2R (bs_lx bs)) <= A /\ Rabs (IZR (snd k) * PI * B2R (snd p) / B2R (bs_ly bs)) <= A.
Definition modest (g : gaussian b64) : Prop := medium (fst (ga_mu g)) /\ medium (snd (ga_mu g)) /\
  medium (fst (ga_inv g)) /\ medium (snd (ga_inv g)) /\ 0 <= B2R (fst (ga_inv g)) /\ 0 <= B2R (snd (ga_inv g)).
(** Finite values that are not negative, and one of them positive. *)
Definition density (vals : list b64) : Prop :=
  Forall (fun v => is_finite v = true /\ 0 <= B2R v <= bpow radix2 900) vals /\ Exists (fun v => 0 < B2R v) vals.
