(** Reference notions for the adaptive integrator. *)
From Coq Require Import Reals ZArith List.
From Verif Require Import Outcome Num NumericsModel RobotModel SpecRobot.
Import ListNotations.
Local Open Scope R_scope.

(** Resolution of almost_equal. *)
Definition tol : R := 1 / 1000000000000.
(** An index nearest to [q]. *)
Definition nearest (i : Z) (q : R) : Prop := (0 <= i)%Z /\ Rabs (IZR i - q) <= 1 / 2.
Definition column {A} (l : list A) (i : Z) (a : A) : Prop := nth_error l (Z.to_nat i) = Some a.
(** Neighbours in the list are related. *)
Fixpoint linked {A} (S : A -> A -> Prop) (l : list A) : Prop :=
  match l with
  | a :: l' => match l' with b :: _ => S a b | [] => True end /\ linked S l'
  | [] => True
  end.

(** From the time and state [a], one step of the public [step] leads to [b], with the control of the nearest column and an
    error estimate below the tolerance. *)
Definition forward_step {U} (f : vec3 R -> U -> res (vec3 R)) (ut : list U) (n : Z) (horizon eps : R) (a b : R * vec3 R) : Prop :=
  fst a < fst b /\
  exists i u r, nearest i (IZR (n - 1) * (fst a / horizon)) /\ column ut i u /\
    rk45_step f (snd a) u (fst b - fst a) = Ok (snd b, r) /\ r < eps + tol.
(** The same backwards in time, for co-states. *)
Definition backward_step {U} (func : costate) (fdx : vec3 R -> U -> mat3 R) (xt : list (vec3 R)) (ut : list U) (edx bdx : list (vec3 R))
    (n : Z) (horizon eps : R) (a b : R * vec3 R) : Prop :=
  fst b < fst a /\
  exists i x u e d r, nearest i (IZR (n - 1) * (fst a / horizon)) /\ column xt i x /\ column ut i u /\ column edx i e /\ column bdx i d /\
    rk45_co_step func (snd a) e d (fdx x u) (fst a - fst b) = Ok (snd b, r) /\ r < eps + tol.
(** Step sizes: between the limits, or shorter and ending at [t1]. *)
Definition step_size (hmin hmax t1 : R) (a b : R * vec3 R) : Prop :=
  let h := Rabs (fst b - fst a) in h <= hmax /\ (hmin <= h \/ fst b = t1).

(** The Taylor polynomial of the exponential of degree 4, the powers that follow in the two formulas of Fehlberg, and
    the relative excess of the first because of the wrong weight. *)
Definition taylor4 (z : R) : R := 1 + z + z ^ 2 / 2 + z ^ 3 / 6 + z ^ 4 / 24.
Definition fehlberg4 (z : R) : R := taylor4 z + z ^ 5 / 104.
Definition fehlberg5 (z : R) : R := taylor4 z + z ^ 5 / 120 + z ^ 6 / 2080.
Definition excess (z : R) : R := delta * (z + 12 / 13 * z ^ 2 + 72 / 169 * z ^ 3 + 513 / 2197 * z ^ 4).
(** [x] times [k]. *)
Definition times (x : vec3 R) (k : R) : vec3 R := V3 (v0 x * k) (v1 x * k) (v2 x * k).
