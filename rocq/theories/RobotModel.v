(** Model of models/cart.hpp, models/omni.hpp and integrator.hpp.  Definitions only. *)
From Verif Require Import Outcome Num GridModel CollisionModel NumericsModel.
Local Open Scope num_scope.

Section Robots.
Context {T : Type} {NT : Num T}.

(** ** models/cart.hpp *)
(** cart.hpp:77-83; [wr], [wb] are wheel_radius and wheel_base *)
Definition cart_twist (wr wb : T) (u : T * T) : vec3 T :=
  V3 (wr / n2 * (fst u + snd u)) n0 (wr / (n2 * wb) * (snd u - fst u)).
(** cart.hpp:91-99 *)
Definition cart_f (wr wb : T) (x : vec3 T) (u : T * T) : vec3 T :=
  vscale (V3 ((fst u + snd u) * ncos (v2 x)) ((fst u + snd u) * nsin (v2 x)) ((snd u - fst u) / wb)) (wr / n2).
(** cart.hpp:107-118 *)
Definition cart_fdx (wr wb : T) (x : vec3 T) (u : T * T) : mat3 T :=
  M3 (V3 n0 n0 (- (wr / n2) * (fst u + snd u) * nsin (v2 x)))
     (V3 n0 n0 (wr / n2 * (fst u + snd u) * ncos (v2 x))) (V3 n0 n0 n0).
(** cart.hpp:125-139: the two columns *)
Definition cart_fdu (wr wb : T) (x : vec3 T) : vec3 T * vec3 T :=
  (vscale (V3 (ncos (v2 x)) (nsin (v2 x)) (- n1 / wb)) (wr / n2),
   vscale (V3 (ncos (v2 x)) (nsin (v2 x)) (n1 / wb)) (wr / n2)).

(** cart.hpp:165-173 *)
Definition simple_f (x u : vec3 T) : res (vec3 T) :=
  if negb (almost_equal (v1 u) n0) then Throw EInvalidArgument
  else Ok (V3 (v0 u * ncos (v2 x)) (v0 u * nsin (v2 x)) (v2 u)).
(** cart.hpp:181-187 *)
Definition simple_fdx (x u : vec3 T) : mat3 T :=
  M3 (V3 n0 n0 (- v0 u * nsin (v2 x))) (V3 n0 n0 (v0 u * ncos (v2 x))) (V3 n0 n0 n0).
(** cart.hpp:194-203 *)
Definition simple_fdu (x : vec3 T) : mat3 T :=
  M3 (V3 (ncos (v2 x)) n0 n0) (V3 (nsin (v2 x)) n0 n0) (V3 n0 n0 n1).

(** ** models/omni.hpp *)
(** Four wheel speeds. *)
Record vec4 := V4 { w0 : T; w1 : T; w2 : T; w3 : T }.
Definition dot4 (a b : vec4) : T := w0 a * w0 b + w1 a * w1 b + w2 a * w2 b + w3 a * w3 b.
(** omni.hpp:80-90; [wr], [bx], [by'] are wheel_radius, wheel_base_x and wheel_base_y *)
Definition mec_twist (wr bx by' : T) (u : vec4) : vec3 T :=
  let l := n1 / (bx + by') in
  vscale (V3 (dot4 (V4 n1 n1 n1 n1) u) (dot4 (V4 (- n1) n1 (- n1) n1) u) (dot4 (V4 (- l) l l (- l)) u))
         (wr / nofZ 4).
(** omni.hpp:98-110 *)
Definition mec_f (wr bx by' : T) (x : vec3 T) (u : vec4) : vec3 T :=
  let s := wr / nofZ 4 * nsin (v2 x) in
  let c := wr / nofZ 4 * ncos (v2 x) in
  let l := wr / (nofZ 4 * (bx + by')) in
  V3 (w0 u * (s + c) + w1 u * (- s + c) + w2 u * (s + c) + w3 u * (- s + c))
     (w0 u * (s - c) + w1 u * (s + c) + w2 u * (s - c) + w3 u * (s + c))
     (- w0 u * l + w1 u * l + w2 u * l - w3 u * l).
(** omni.hpp:118-135 *)
Definition mec_fdx (wr bx by' : T) (x : vec3 T) (u : vec4) : mat3 T :=
  let s := wr / nofZ 4 * nsin (v2 x) in
  let c := wr / nofZ 4 * ncos (v2 x) in
  M3 (V3 n0 n0 (w0 u * (- s + c) + w1 u * (- s - c) + w2 u * (- s + c) + w3 u * (- s - c)))
     (V3 n0 n0 (w0 u * (s + c) + w1 u * (- s + c) + w2 u * (s + c) + w3 u * (- s + c)))
     (V3 n0 n0 n0).
(** omni.hpp:142-152: the three rows *)
Definition mec_fdu (wr bx by' : T) (x : vec3 T) : vec4 * vec4 * vec4 :=
  let s := wr / nofZ 4 * nsin (v2 x) in
  let c := wr / nofZ 4 * ncos (v2 x) in
  let l := wr / (nofZ 4 * (bx + by')) in
  (V4 (s + c) (- s + c) (s + c) (- s + c), V4 (s - c) (s + c) (s - c) (s + c), V4 (- l) l l (- l)).

(** omni.hpp:177-184 *)
Definition omni_f (x u : vec3 T) : vec3 T :=
  V3 (v0 u * ncos (v2 x) - v1 u * nsin (v2 x)) (v0 u * nsin (v2 x) + v1 u * ncos (v2 x)) (v2 u).
(** omni.hpp:192-198 *)
Definition omni_fdx (x u : vec3 T) : mat3 T :=
  M3 (V3 n0 n0 (- v0 u * nsin (v2 x) - v1 u * ncos (v2 x)))
     (V3 n0 n0 (v0 u * ncos (v2 x) - v1 u * nsin (v2 x))) (V3 n0 n0 n0).
(** omni.hpp:205-212 *)
Definition omni_fdu (x : vec3 T) : mat3 T :=
  M3 (V3 (ncos (v2 x)) (- nsin (v2 x)) n0) (V3 (nsin (v2 x)) (ncos (v2 x)) n0) (V3 n0 n0 n1).

(** What the integrators and the controller use of a model with controls in U. *)
Record robot (U : Type) := mkRobot { rb_f : vec3 T -> U -> res (vec3 T); rb_fdx : vec3 T -> U -> mat3 T }.
Arguments mkRobot {U}. Arguments rb_f {U}. Arguments rb_fdx {U}.
Definition omni : robot (vec3 T) := mkRobot (fun x u => Ok (omni_f x u)) omni_fdx.
Definition simple_cart : robot (vec3 T) := mkRobot simple_f simple_fdx.

(** ** integrator.hpp: RungeKutta *)
Definition half : T := lit 1 2.
Definition vsub (a b : vec3 T) : vec3 T := V3 (v0 a - v0 b) (v1 a - v1 b) (v2 a - v2 b).

(** integrator.hpp:176-184 *)
Definition rk4_step {U} (dt : T) (f : vec3 T -> U -> res (vec3 T)) (x : vec3 T) (u : U) : res (vec3 T) :=
  let* k1 := f x u in
  let* k2 := f (vadd x (vscale (vscale k1 half) dt)) u in
  let* k3 := f (vadd x (vscale (vscale k2 half) dt)) u in
  let* k4 := f (vadd x (vscale k3 dt)) u in
  Ok (vadd x (vscale (vadd (vadd (vadd k1 (vscale k2 n2)) (vscale k3 n2)) k4) (dt / nofZ 6))).

(** integrator.hpp:144-149: the loop, [n] iterations left; ut.col(i) is bounds checked *)
Fixpoint rk4_loop {U} (n : nat) (dt : T) (f : vec3 T -> U -> res (vec3 T)) (x : vec3 T) (ut : list U) : res (list (vec3 T)) :=
  match n with
  | O => Ok []
  | S n' =>
      match ut with
      | [] => Throw EArma
      | u :: ut' =>
          let* x := rk4_step dt f x u in
          let x := V3 (v0 x) (v1 x) (normalize_angle_PI (v2 x)) in
          let* xt := rk4_loop n' dt f x ut' in
          Ok (x :: xt)
      end
  end.
(** integrator.hpp:135-152 *)
Definition rk4_solve {U} (dt : T) (f : vec3 T -> U -> res (vec3 T)) (x0 : vec3 T) (ut : list U) (horizon : T) : res (list (vec3 T)) :=
  let* steps := num_steps dt horizon in
  rk4_loop (Z.to_nat steps) dt f x0 ut.

(** ergodic_control.hpp:65-69; fdx.t() * rho *)
Definition mtvmul (m : mat3 T) (v : vec3 T) : vec3 T := V3 (vdot (col0 m) v) (vdot (col1 m) v) (vdot (col2 m) v).
Definition vneg (a : vec3 T) : vec3 T := V3 (- v0 a) (- v1 a) (- v2 a).
Definition rhodot (rho gdx dbar : vec3 T) (fdx : mat3 T) : vec3 T :=
  vsub (vsub (vneg gdx) dbar) (mtvmul fdx rho).

(** A CoStateFunc, integrator.hpp:60 *)
Definition costate := vec3 T -> vec3 T -> vec3 T -> mat3 T -> vec3 T.
(** integrator.hpp:186-194 *)
Definition co_step (dt : T) (func : costate) (rho gdx dbar : vec3 T) (fdx : mat3 T) : vec3 T :=
  let k1 := func rho gdx dbar fdx in
  let k2 := func (vsub rho (vscale (vscale k1 half) dt)) gdx dbar fdx in
  let k3 := func (vsub rho (vscale (vscale k2 half) dt)) gdx dbar fdx in
  let k4 := func (vsub rho (vscale k3 dt)) gdx dbar fdx in
  vsub rho (vscale (vadd (vadd (vadd k1 (vscale k2 n2)) (vscale k3 n2)) k4) (dt / nofZ 6)).

(** Bounds-checked access to a column. *)
Definition col_at {A} (l : list A) (i : Z) : res A :=
  match nthZ l i with Some a => Ok a | None => Throw EArma end.
(** integrator.hpp:166-171: the loop from column [i]-1 down to 0; the result is the matrix rhot from
    column 0 on. *)
Fixpoint co_loop {U} (i : nat) (dt : T) (func : costate) (fdx : vec3 T -> U -> mat3 T) (rho : vec3 T)
    (xt : list (vec3 T)) (ut : list U) (edx bdx : list (vec3 T)) (acc : list (vec3 T)) : res (list (vec3 T)) :=
  match i with
  | O => Ok acc
  | S i' =>
      let* e := col_at edx (Z.of_nat i') in
      let* b := col_at bdx (Z.of_nat i') in
      let* x := col_at xt (Z.of_nat i') in
      let* u := col_at ut (Z.of_nat i') in
      let rho := co_step dt func rho e b (fdx x u) in
      co_loop i' dt func fdx rho xt ut edx bdx (rho :: acc)
  end.
(** integrator.hpp:154-174 *)
Definition co_solve {U} (dt : T) (func : costate) (fdx : vec3 T -> U -> mat3 T) (rhoT : vec3 T)
    (xt : list (vec3 T)) (ut : list U) (edx bdx : list (vec3 T)) (horizon : T) : res (list (vec3 T)) :=
  let* steps := num_steps dt horizon in
  co_loop (Z.to_nat steps) dt func fdx rhoT xt ut edx bdx [].

(** ** integrator.hpp: RungeKutta45 *)
(** max(abs(a)) *)
Definition max3 (a : vec3 T) : T := fmax (fmax (nabs (v0 a)) (nabs (v1 a))) (nabs (v2 a)).
(** integrator.hpp:327-353 and 458-487: the stages shared by both [step]s, [g] being the derivative at a
    state and [sh] the factor h or -h; the new state and the error estimate. *)
Definition rk45_stages (g : vec3 T -> res (vec3 T)) (x : vec3 T) (sh h : T) : res (vec3 T * T) :=
  let s k p q := vscale k (lit p q) in
  let* d := g x in
  let k1 := vscale d sh in
  let* d := g (vadd x (s k1 1%Z 4%positive)) in
  let k2 := vscale d sh in
  let* d := g (vadd (vadd x (s k1 3%Z 32%positive)) (s k2 9%Z 32%positive)) in
  let k3 := vscale d sh in
  let* d := g (vadd (vsub (vadd x (s k1 1932%Z 2197%positive)) (s k2 7200%Z 2197%positive)) (s k3 7296%Z 2197%positive)) in
  let k4 := vscale d sh in
  let* d := g (vsub (vadd (vsub (vadd x (s k1 439%Z 216%positive)) (s k2 8%Z 1%positive)) (s k3 3680%Z 513%positive)) (s k4 845%Z 4104%positive)) in
  let k5 := vscale d sh in
  let* d := g (vsub (vadd (vsub (vadd (vsub x (s k1 8%Z 27%positive)) (s k2 2%Z 1%positive)) (s k3 3544%Z 2565%positive)) (s k4 1859%Z 4104%positive)) (s k5 11%Z 40%positive)) in
  let k6 := vscale d sh in
  let x_new := vsub (vadd (vadd (vadd x (s k1 25%Z 216%positive)) (s k3 1408%Z 2565%positive)) (s k4 2197%Z 4101%positive)) (s k5 1%Z 5%positive) in
  let z := vadd (vsub (vadd (vadd (vadd x (s k1 16%Z 135%positive)) (s k3 6656%Z 12825%positive)) (s k4 28561%Z 56430%positive)) (s k5 9%Z 50%positive)) (s k6 2%Z 55%positive) in
  Ok (x_new, max3 (vsub z x_new) / h).
(** integrator.hpp:323-355 *)
Definition rk45_step {U} (f : vec3 T -> U -> res (vec3 T)) (x : vec3 T) (u : U) (h : T) : res (vec3 T * T) :=
  rk45_stages (fun x => f x u) x h h.
(** integrator.hpp:455-488 *)
Definition rk45_co_step (func : costate) (rho gdx dbar : vec3 T) (fdx : mat3 T) (h : T) : res (vec3 T * T) :=
  rk45_stages (fun rho => Ok (func rho gdx dbar fdx)) rho (- h) h.

(** integrator.hpp:217-219 and 222-225: the data members *)
Record rk45 := mkRK45 { rk_hmin : T; rk_hmax : T; rk_eps : T; rk_iter : Z }.

(** integrator.hpp:256-257 and 387-388 *)
Definition rk45_index (steps : Z) (t horizon : T) : res Z :=
  to_u32 (nfloor (nround (nofZ (u32 (steps - 1)) * nabs (t / horizon)))).
(** integrator.hpp:263 and 395 *)
Definition rk45_accept (c : rk45) (r : T) : bool := (r <? rk_eps c) || almost_equal r (rk_eps c).
(** integrator.hpp:274-275 and 406-407 *)
Definition rk45_adapt (c : rk45) (h r : T) : res T :=
  if clampable (rk_hmin c) (rk_hmax c) then Ok (fclamp (h * (lit 84 100 * npow (rk_eps c / r) (lit 1 4))) (rk_hmin c) (rk_hmax c))
  else UB UClamp.

(** integrator.hpp:254-298: the while loop.  [stored] holds the stored times and states, latest first;
    xt_max.col(stored) is bounds checked.  [None] is the return at max_iter_.  The model gives up with
    [Diverge] when [fuel] iterations do not suffice. *)
Fixpoint rk45_loop {U} (fuel : nat) (c : rk45) (f : vec3 T -> U -> res (vec3 T)) (ut : list U) (steps max_steps : Z) (horizon : T)
    (x : vec3 T) (t h : T) (stored : list (T * vec3 T)) (iter : Z) : res (option (list (T * vec3 T))) :=
  match fuel with
  | O => Diverge
  | S fuel' =>
      let* i := rk45_index steps t horizon in
      let* u := col_at ut i in
      let* ' (x_new, r) := rk45_step f x u h in
      let* ' (x, t, stored) :=
        (if rk45_accept c r then
           if (lenZ stored <? max_steps)%Z then Ok (x_new, t + h, (t + h, x_new) :: stored)
           else Throw EArma
         else Ok (x, t, stored)) in
      let* h := rk45_adapt c h r in
      let flag := (horizon <? t) || almost_equal t horizon in
      let h := if negb flag && (horizon <? t + h) then horizon - t else h in
      if (iter =? rk_iter c)%Z then Ok None
      else if flag then Ok (Some stored)
      else rk45_loop fuel' c f ut steps max_steps horizon x t h stored (u32 (iter + 1))
  end.
(** integrator.hpp:227-321.  The result is the list of stored (time, state) pairs, latest first, to which
    the code then fits a quartic for the output; for that (arma::polyfit, polyval; lines 310-318) see
    FitModel. *)
Definition rk45_solve {U} (c : rk45) (f : vec3 T -> U -> res (vec3 T)) (x0 : vec3 T) (ut : list U) (dt horizon : T)
    : res (option (list (T * vec3 T))) :=
  let h := (rk_hmax c + rk_hmin c) / n2 in
  let* steps := num_steps dt horizon in
  let* m := to_u32 (horizon / rk_hmin c) in
  let max_steps := u32 (m + 1) in
  if (max_steps =? 0)%Z then Throw EArma
  else rk45_loop (S (Z.to_nat (rk_iter c))) c f ut steps max_steps horizon x0 n0 h [(n0, x0)] 0.

(** integrator.hpp:385-430 *)
Fixpoint rk45_co_loop {U} (fuel : nat) (c : rk45) (func : costate) (fdx : vec3 T -> U -> mat3 T)
    (xt : list (vec3 T)) (ut : list U) (edx bdx : list (vec3 T)) (steps max_steps : Z) (horizon : T)
    (rho : vec3 T) (t h : T) (stored : list (T * vec3 T)) (iter : Z) : res (option (list (T * vec3 T))) :=
  match fuel with
  | O => Diverge
  | S fuel' =>
      let* i := rk45_index steps t horizon in
      let* e := col_at edx i in
      let* b := col_at bdx i in
      let* x := col_at xt i in
      let* u := col_at ut i in
      let* ' (rho_new, r) := rk45_co_step func rho e b (fdx x u) h in
      let* ' (rho, t, stored) :=
        (if rk45_accept c r then
           if (lenZ stored <? max_steps)%Z then Ok (rho_new, t - h, (t - h, rho_new) :: stored)
           else Throw EArma
         else Ok (rho, t, stored)) in
      let* h := rk45_adapt c h r in
      let flag := (t <? n0) || almost_equal t n0 in
      let h := if negb flag && (t - h <? n0) then t else h in
      if (iter =? rk_iter c)%Z then Ok None
      else if flag then Ok (Some stored)
      else rk45_co_loop fuel' c func fdx xt ut edx bdx steps max_steps horizon rho t h stored (u32 (iter + 1))
  end.
(** integrator.hpp:357-439, again without the final fit *)
Definition rk45_co_solve {U} (c : rk45) (func : costate) (fdx : vec3 T -> U -> mat3 T) (rhoT : vec3 T)
    (xt : list (vec3 T)) (ut : list U) (edx bdx : list (vec3 T)) (dt horizon : T) : res (option (list (T * vec3 T))) :=
  let* steps := num_steps dt horizon in
  let* m := to_u32 (horizon / rk_hmin c) in
  let max_steps := u32 (m + 1) in
  if (max_steps =? 0)%Z then Throw EArma
  else rk45_co_loop (S (Z.to_nat (rk_iter c))) c func fdx xt ut edx bdx steps max_steps horizon rhoT horizon (rk_hmin c) [(horizon, rhoT)] 0.

End Robots.
Arguments vec4 T : clear implicits.
Arguments robot T U : clear implicits.
Arguments mkRobot {T U}. Arguments rb_f {T U}. Arguments rb_fdx {T U}.
Arguments rk45 T : clear implicits.
