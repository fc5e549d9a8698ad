(** Model of the end of RungeKutta45::solve (integrator.hpp): the quartic fit through the stored points.
    Definitions only. *)
From Verif Require Import Outcome Num GridModel NumericsModel RobotModel.
Local Open Scope num_scope.

Section Fit.
Context {T : Type} {NT : Num T}.

(** arma::linspace(0.0, stop, n) (integrator.hpp:237): equal steps, the last element is [stop] itself. *)
Definition linspace (stop : T) (n : Z) : list T :=
  map (fun i => if (Z.of_nat i =? n - 1)%Z then stop else n0 + nofZ (Z.of_nat i) * ((stop - n0) / nofZ (n - 1))) (seq 0 (Z.to_nat n)).
(** arma::polyval: Horner's scheme, highest power first *)
Definition polyval (p : list T) (t : T) : T :=
  match p with [] => n0 | c :: p' => fold_left (fun a c => a * t + c) p' c end.
(** integrator.hpp:309-318 and 441-450.  [fit] stands for arma::polyfit with degree 4, which finds the coefficients
    by a QR decomposition; it throws unless there are more points than the degree. *)
Definition rk45_columns (fit : list (T * T) -> list T) (stored : list (T * vec3 T)) (steps : Z) (horizon : T) : res (list (vec3 T)) :=
  if (lenZ stored <=? 4)%Z then Throw EArma
  else
    let row (get : vec3 T -> T) := fit (map (fun p => (fst p, get (snd p))) (rev stored)) in
    Ok (map (fun t => V3 (polyval (row v0) t) (polyval (row v1) t) (polyval (row v2) t)) (linspace horizon steps)).
(** integrator.hpp:227-321: [None] stands for the return value false *)
Definition rk45_trajectory {U} (fit : list (T * T) -> list T) (c : rk45 T) (f : vec3 T -> U -> res (vec3 T)) (x0 : vec3 T)
    (ut : list U) (dt horizon : T) : res (option (list (vec3 T))) :=
  let* stored := rk45_solve c f x0 ut dt horizon in
  let* steps := num_steps dt horizon in
  match stored with
  | None => Ok None
  | Some st => let* xt := rk45_columns fit st steps horizon in Ok (Some xt)
  end.
(** integrator.hpp:357-453 *)
Definition rk45_costates {U} (fit : list (T * T) -> list T) (c : rk45 T) (func : costate) (fdx : vec3 T -> U -> mat3 T)
    (rhoT : vec3 T) (xt : list (vec3 T)) (ut : list U) (edx bdx : list (vec3 T)) (dt horizon : T) : res (option (list (vec3 T))) :=
  let* stored := rk45_co_solve c func fdx rhoT xt ut edx bdx dt horizon in
  let* steps := num_steps dt horizon in
  match stored with
  | None => Ok None
  | Some st => let* rt := rk45_columns fit st steps horizon in Ok (Some rt)
  end.
End Fit.
