(** The arithmetic the numeric code is written in.  The model is written once over
    [Num T] and read at the reals (this file) and at IEEE binary64 ([Float64.v]). *)
From Coq Require Import Reals Lra.
From Flocq Require Import Core.Raux Core.Generic_fmt Core.Round_NE.
From Verif Require Import Outcome.

Class Num (T : Type) := {
  nadd : T -> T -> T;
  nsub : T -> T -> T;
  nmul : T -> T -> T;
  ndiv : T -> T -> T;
  nneg : T -> T;
  nabs : T -> T;                  (* std::fabs, std::abs *)
  nsqrt : T -> T;                 (* std::sqrt *)
  nfloor : T -> T;                (* std::floor *)
  nround : T -> T;                (* std::round: nearest, ties away from zero *)
  nsin : T -> T;
  ncos : T -> T;
  nexp : T -> T;
  nln : T -> T;                   (* std::log *)
  natan2 : T -> T -> T;           (* std::atan2 y x *)
  npow : T -> T -> T;             (* std::pow *)
  nlt : T -> T -> bool;           (* < *)
  nle : T -> T -> bool;           (* <= *)
  nofZ : Z -> T;                  (* conversion of an integer, correctly rounded *)
  ntrunc : T -> option Z;         (* truncation towards zero; None for NaN/inf *)
  nto32 : T -> T;                 (* rounding to float (binary32), and back exactly *)
  npi : T;                        (* numerics.hpp:58 constexpr double PI *)
  nmax : T;                       (* std::numeric_limits<double>::max() *)
}.

Declare Scope num_scope.
Delimit Scope num_scope with num.
Infix "+" := nadd : num_scope.
Infix "-" := nsub : num_scope.
Infix "*" := nmul : num_scope.
Infix "/" := ndiv : num_scope.
Notation "- x" := (nneg x) : num_scope.
Infix "<?" := nlt : num_scope.
Infix "<=?" := nle : num_scope.

Section Derived.
Context {T : Type} {NT : Num T}.
Local Open Scope num_scope.

(** A decimal literal p/q (p, q exactly representable): the correctly rounded quotient. *)
Definition lit (p : Z) (q : positive) : T := nofZ p / nofZ (Zpos q).
Definition n0 : T := nofZ 0.
Definition n1 : T := nofZ 1.
Definition n2 : T := nofZ 2.

(** std::max, std::min, std::clamp as specified by the C++ standard ([alg.min.max], [alg.clamp]). *)
Definition fmax (a b : T) : T := if a <? b then b else a.
Definition fmin (a b : T) : T := if b <? a then b else a.
Definition fclamp (v lo hi : T) : T := if v <? lo then lo else if hi <? v then hi else v.
(** std::clamp is undefined if hi < lo. *)
Definition clampable (lo hi : T) : bool := negb (hi <? lo).

(** Casts: undefined unless the truncated value is representable ([conv.fpint]). *)
Definition to_u32 (x : T) : res Z :=
  match ntrunc x with
  | Some z => if ((0 <=? z) && (z <? two32))%Z then Ok z else UB UFloatCast
  | None => UB UFloatCast
  end.
Definition to_int (x : T) : res Z :=
  match ntrunc x with
  | Some z => if ((- two31 <=? z) && (z <? two31))%Z then Ok z else UB UFloatCast
  | None => UB UFloatCast
  end.
Definition to_int8 (x : T) : res Z :=
  match ntrunc x with
  | Some z => if ((-128 <=? z) && (z <? 128))%Z then Ok z else UB UFloatCast
  | None => UB UFloatCast
  end.
End Derived.

(** ** The reals *)
Local Open Scope R_scope.

(** atan2 on the reals, with the range (-PI, PI] of the C function. *)
Definition Ratan2 (y x : R) : R :=
  if Rlt_dec 0 x then atan (y / x)
  else if Rlt_dec x 0 then
    (if Rle_dec 0 y then atan (y / x) + PI else atan (y / x) - PI)
  else (* x = 0 *)
    if Rlt_dec 0 y then PI / 2 else if Rlt_dec y 0 then - (PI / 2) else 0.

Definition Rltb (a b : R) : bool := if Rlt_dec a b then true else false.
Definition Rleb (a b : R) : bool := if Rle_dec a b then true else false.

Global Instance RNum : Num R := {|
  nadd := Rplus; nsub := Rminus; nmul := Rmult; ndiv := Rdiv;
  nneg := Ropp; nabs := Rabs; nsqrt := sqrt;
  nfloor := fun x => IZR (Zfloor x);
  nround := fun x => IZR (ZnearestA x);
  nsin := sin; ncos := cos; nexp := exp; nln := ln;
  natan2 := Ratan2; npow := Rpower;
  nlt := Rltb; nle := Rleb;
  nofZ := IZR; ntrunc := fun x => Some (Ztrunc x); nto32 := fun x => x;
  npi := PI;
  nmax := IZR (2 ^ 1024 - 2 ^ 971)%Z;
|}.

Lemma Rltb_true a b : Rltb a b = true <-> a < b.
Proof. unfold Rltb; destruct (Rlt_dec a b); split; intros; auto; discriminate. Qed.
Lemma Rltb_false a b : Rltb a b = false <-> b <= a.
Proof. unfold Rltb; destruct (Rlt_dec a b); split; intros; auto; try discriminate; lra. Qed.
Lemma Rleb_true a b : Rleb a b = true <-> a <= b.
Proof. unfold Rleb; destruct (Rle_dec a b); split; intros; auto; discriminate. Qed.
Lemma Rleb_false a b : Rleb a b = false <-> b < a.
Proof. unfold Rleb; destruct (Rle_dec a b); split; intros; auto; try discriminate; lra. Qed.
