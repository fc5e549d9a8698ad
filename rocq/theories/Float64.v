(** IEEE-754 binary64 instance of [Num] (Flocq, one NaN).  Every arithmetic operation
    rounds to nearest even.  The C math library is a parameter. *)
From Coq Require Import Reals.
From Flocq Require Import IEEE754.BinarySingleNaN Core.FLX Core.Raux Core.Zaux.
From Verif Require Import Outcome Num.

Global Instance prec53 : Prec_gt_0 53 := eq_refl.
Global Instance emax1024 : Prec_lt_emax 53 1024 := eq_refl.

Global Instance prec24 : Prec_gt_0 24 := eq_refl.
Global Instance emax128 : Prec_lt_emax 24 128 := eq_refl.

Definition b64 : Set := binary_float 53 1024.

(** The C math functions that are not correctly rounded; any functions at all. *)
Record libm := {
  m_sin : b64 -> b64;
  m_cos : b64 -> b64;
  m_exp : b64 -> b64;
  m_log : b64 -> b64;
  m_atan2 : b64 -> b64 -> b64;
  m_pow : b64 -> b64 -> b64
}.

Definition b64_ofZ (z : Z) : b64 := binary_normalize 53 1024 prec53 emax1024 mode_NE z 0 false.
Definition b64_scaled (m e : Z) : b64 := binary_normalize 53 1024 prec53 emax1024 mode_NE m e false.

Definition b64_trunc (x : b64) : option Z :=
  if is_finite x then Some (Btrunc x) else None.

(** 884279719003555 * 2^-48 is the double nearest to 3.14159265358979323846. *)
Definition b64_pi : b64 := b64_scaled 884279719003555 (-48).
Definition b64_max : b64 := Bmax_float.

(** double -> float -> double, both conversions rounding to nearest even. *)
Definition b64_to32 (x : b64) : b64 :=
  match x with
  | B754_finite s m e _ =>
      match binary_normalize 24 128 prec24 emax128 mode_NE (cond_Zopp s (Zpos m)) e s with
      | B754_finite s' m' e' _ => binary_normalize 53 1024 prec53 emax1024 mode_NE (cond_Zopp s' (Zpos m')) e' s'
      | B754_zero s' => B754_zero s'
      | B754_infinity s' => B754_infinity s'
      | B754_nan => B754_nan
      end
  | _ => x
  end.

Definition F64 (L : libm) : Num b64 := {|
  nadd := Bplus mode_NE; nsub := Bminus mode_NE; nmul := Bmult mode_NE; ndiv := Bdiv mode_NE;
  nneg := @Bopp 53 1024; nabs := @Babs 53 1024; nsqrt := Bsqrt mode_NE;
  nfloor := Bnearbyint mode_DN;
  nround := Bnearbyint mode_NA;
  nsin := m_sin L; ncos := m_cos L; nexp := m_exp L; nln := m_log L;
  natan2 := m_atan2 L; npow := m_pow L;
  nlt := @Bltb 53 1024; nle := @Bleb 53 1024;
  nofZ := b64_ofZ; ntrunc := b64_trunc; nto32 := b64_to32;
  npi := b64_pi; nmax := b64_max;
|}.
