(** Reference notions for the clearance of motions while the map changes. *)
From Coq Require Import Reals ZArith List.
From Flocq Require Import Core.Raux Core.Zaux IEEE754.BinarySingleNaN.
From Verif Require Import Outcome Num Float64 GridModel CollisionModel NumericsModel ExplorationModel Spec SpecRobot SpecErgodic SpecSystem SpecNear SpecSafe.
Local Open Scope R_scope.

(** At [p] no wall of [g] is near, where [y] is the position at the moment of the check on [g]: the distances are those of [keeps_clear64]. *)
Definition away_from_walls (L : libm) (c : collision b64) (g : grid b64) (u : vec3 b64) (dt : b64) (n : Z) (y p : vec3 R) : Prop :=
  let G := real_grid g in
  let slack := B2R dt / 2 * speed (real3 u) + 2 * (IZR n * drift u dt) in
  usable g -> inside G (IZR n * drift u dt) y ->
  forall rb rc rm r w l, whole_cells L c g rb rc rm -> (1 <= r)%Z -> (rb <= r <= rm)%Z -> (r < rc)%Z -> wall64 L g (c_occ c) w l ->
  ~ comes_close G w l p (IZR (r - 2) * g_res G - slack) (IZR (r + 2) * g_res G + slack).
(** There is a check for each of [n] steps, and half a step before and after each of them the motion is away from the walls of its map. *)
Definition clear_each_moment (L : libm) (c : collision b64) (ss : list (shared b64)) (u : vec3 b64) (dt : b64) (n : Z) (gam : R -> vec3 R) : Prop :=
  Z.of_nat (length ss) = n /\ forall k s t, nth_error ss k = Some s -> let tk := IZR (Z.of_nat (S k)) * B2R dt in
  Rabs (t - tk) <= B2R dt / 2 -> away_from_walls L c (sh_grid s) u dt n (gam tk) (gam t).

(** Maps of one size and place. *)
Definition same_place (g h : grid b64) : Prop := g_xsize g = g_xsize h /\ g_ysize g = g_ysize h /\ g_res g = g_res h /\ g_xmin g = g_xmin h /\ g_ymin g = g_ymin h.
(** [g0] is any map of the size and place of the maps read; the wall is on all of these. *)
Definition clear_of_lasting_walls (L : libm) (c : collision b64) (ss : list (shared b64)) (u : vec3 b64) (dt : b64) (n : Z) (gam : R -> vec3 R) : Prop :=
  forall g0 rb rc rm r w l t, let G := real_grid g0 in
  let slack := B2R dt / 2 * speed (real3 u) + 2 * (IZR n * drift u dt) in
  (forall s, In s ss -> usable (sh_grid s) /\ same_place (sh_grid s) g0 /\ wall64 L (sh_grid s) (c_occ c) w l) ->
  (forall s, 0 <= s <= IZR n * B2R dt -> inside G (IZR n * drift u dt) (gam s)) ->
  whole_cells L c g0 rb rc rm -> (1 <= r)%Z -> (rb <= r <= rm)%Z -> (r < rc)%Z -> B2R dt / 2 <= t <= IZR n * B2R dt ->
  ~ comes_close G w l (gam t) (IZR (r - 2) * g_res G - slack) (IZR (r + 2) * g_res G + slack).
