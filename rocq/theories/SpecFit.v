(** Reference notions for the quartic fit of RungeKutta45. *)
From Coq Require Import Reals List.
From Verif Require Import Outcome Num NumericsModel RobotModel FitModel.
Import ListNotations.
Local Open Scope R_scope.

(** Sum of the squared deviations of the polynomial with coefficients [p], highest power first, from points. *)
Definition misfit (pts : list (R * R)) (p : list R) : R :=
  fold_right (fun q s => (polyval p (fst q) - snd q) ^ 2 + s) 0 pts.
(** [p] has degree at most 4 and no other such polynomial deviates less: what arma::polyfit computes up to rounding. *)
Definition best_quartic (pts : list (R * R)) (p : list R) : Prop :=
  length p = 5%nat /\ forall q, length q = 5%nat -> misfit pts p <= misfit pts q.
(** [fit] does so for at least five points on a line with different abscissae. *)
Definition fits_lines (fit : list (R * R) -> list R) : Prop :=
  forall (a b : R) (ts : list R), NoDup ts -> (5 <= length ts)%nat ->
    best_quartic (map (fun t => (t, a + b * t)) ts) (fit (map (fun t => (t, a + b * t)) ts)).
(** Moving from [x] with constant velocity [d] for the time [t]. *)
Definition moved (x d : vec3 R) (t : R) : vec3 R := V3 (v0 x + v0 d * t) (v1 x + v1 d * t) (v2 x + v2 d * t).
