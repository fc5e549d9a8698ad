(** What is asked of the math library, and the motion that a rollout approximates. *)
From Coq Require Import Reals ZArith Rbasic_fun.
From Flocq Require Import Core.Raux Core.Zaux IEEE754.BinarySingleNaN.
From Verif Require Import Outcome Num Float64 GridModel CollisionModel NumericsModel.
Local Open Scope R_scope.

(** On [-8, 8] the sine has an error of at most 2^-52 and at most 2^-52 times the angle, the cosine an absolute error of at most 2^-53, and the cosine
    of an angle of at most 2^-27 is 1.  Correctly rounded functions are of this kind. *)
Definition accurate (L : libm) : Prop := forall a : b64, is_finite a = true -> Rabs (B2R a) <= 8 ->
  is_finite (m_sin L a) = true /\ Rabs (B2R (m_sin L a) - sin (B2R a)) <= bpow radix2 (-52) * Rmin 1 (Rabs (B2R a)) /\
  is_finite (m_cos L a) = true /\ Rabs (B2R (m_cos L a) - cos (B2R a)) <= bpow radix2 (-53) /\
  (Rabs (B2R a) <= bpow radix2 (-27) -> B2R (m_cos L a) = 1).

(** Without the last part: what is within one unit in the last place. *)
Definition faithful (L : libm) : Prop := forall a : b64, is_finite a = true -> Rabs (B2R a) <= 8 ->
  is_finite (m_sin L a) = true /\ Rabs (B2R (m_sin L a) - sin (B2R a)) <= bpow radix2 (-52) * Rmin 1 (Rabs (B2R a)) /\
  is_finite (m_cos L a) = true /\ Rabs (B2R (m_cos L a) - cos (B2R a)) <= bpow radix2 (-53).

(** The numbers that three doubles stand for. *)
Definition real3 (x : vec3 b64) : vec3 R := V3 (B2R (v0 x)) (B2R (v1 x)) (B2R (v2 x)).
Definition finite3 (x : vec3 b64) : Prop := is_finite (v0 x) = true /\ is_finite (v1 x) = true /\ is_finite (v2 x) = true.

(** The length, along the two axes together, of a step of [dt] seconds. *)
Definition stride (u : vec3 b64) (dt : b64) : R := (Rabs (B2R (v0 u)) + Rabs (B2R (v1 u))) * Rabs (B2R dt).

(** The twists and periods considered: periods from 2^-20 s to 1 s, per period a rotation of at most 4 and a way of at most 2^20. *)
Definition moderate (u : vec3 b64) (dt : b64) : Prop :=
  finite3 u /\ is_finite dt = true /\ / 1048576 <= Rabs (B2R dt) <= 1 /\ Rabs (B2R (v2 u)) * Rabs (B2R dt) <= 4 /\ stride u dt <= 1048576.
(** Such a twist, for at most 4096 periods and 200 km, from a pose within 500 km. *)
Definition tame (x u : vec3 b64) (dt : b64) (n : Z) : Prop :=
  moderate u dt /\ finite3 x /\ Rabs (B2R (v0 x)) <= 524288 /\ Rabs (B2R (v1 x)) <= 524288 /\ Rabs (B2R (v2 x)) <= 4 /\
  (n <= 4096)%Z /\ IZR n * stride u dt <= 200000.

(** The error of a coordinate after one step: less than 0.07 micrometers per meter, and half a nanometer. *)
Definition drift (u : vec3 b64) (dt : b64) : R := stride u dt * / 15000000 + / 2400000000.
(** The position [px, py] is that of [gamma] at the end of the k-th step, but for k times this error. *)
Definition near (u : vec3 b64) (dt : b64) (gamma : R -> vec3 R) (k : Z) (px py : b64) : Prop :=
  is_finite px = true /\ is_finite py = true /\
  Rabs (B2R px - v0 (gamma (IZR k * B2R dt))) <= IZR k * drift u dt /\
  Rabs (B2R py - v1 (gamma (IZR k * B2R dt))) <= IZR k * drift u dt.
(** The heading is that of [gamma] up to full turns, but for k times 1.5 * 10^-12. *)
Definition near_heading (dt : b64) (gamma : R -> vec3 R) (k : Z) (h : b64) : Prop :=
  is_finite h = true /\ exists m : Z, Rabs (B2R h - (v2 (gamma (IZR k * B2R dt)) + 2 * IZR m * PI)) <= IZR k * / 700000000000.
(** At the end of every one of [n] steps a position that near was tested and is free. *)
Definition near_free (L : libm) (c : collision b64) (g : grid b64) (u : vec3 b64) (dt : b64) (n : Z) (gamma : R -> vec3 R) : Prop :=
  forall k, (1 <= k <= n)%Z -> exists px py, near u dt gamma k px py /\ @collisionCheck b64 (F64 L) c g px py = Ok false.
