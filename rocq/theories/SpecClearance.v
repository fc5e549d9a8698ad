(** Reference notion for motions that are followed beyond the poses that were checked. *)
From Coq Require Import Reals ZArith List Bool.
From Flocq Require Import Core.Raux.
From Verif Require Import Outcome Num GridModel CollisionModel NumericsModel Spec SpecMotion SpecRobot SpecErgodic SpecSystem.
Local Open Scope R_scope.

(** From half a step on until the end of [n] steps of length [dt], if [gam] stays on the map, no wall one end of which is farther than
    r + 2 cells away comes nearer than r - 2 cells, for every radius [r] that is scanned and counts as a collision; half the
    distance travelled in a step at the speed of [u] is added. *)
Definition keeps_clear (c : collision R) (g : grid R) (u : vec3 R) (dt : R) (n : Z) (gam : R -> vec3 R) : Prop :=
  proper_map g -> proper_radii c g -> (forall s, 0 <= s <= IZR n * dt -> on_map g (v0 (gam s)) (v1 (gam s))) ->
  forall r w l t, (1 <= r)%Z -> (Zfloor (c_brad c / g_res g) <= r <= Zfloor (c_srad c / g_res g))%Z ->
  (r < Zfloor ((c_brad c + c_othr c) / g_res g))%Z -> wall g (c_occ c) w l -> dt / 2 <= t <= IZR n * dt ->
  ~ comes_close g w l (gam t) (IZR (r - 2) * g_res g - dt / 2 * speed u) (IZR (r + 2) * g_res g + dt / 2 * speed u).
