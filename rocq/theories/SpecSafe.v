(** Reference notions for the clearance of motions checked in binary64 arithmetic. *)
From Coq Require Import Reals ZArith List.
From Flocq Require Import Core.Raux Core.Zaux IEEE754.BinarySingleNaN.
From Verif Require Import Outcome Num Float64 GridModel CollisionModel NumericsModel Spec SpecRobot SpecErgodic SpecSystem SpecNear.
Local Open Scope R_scope.

(** The map with its measures as real numbers. *)
Definition real_grid (g : grid b64) : grid R :=
  mkGrid (g_xsize g) (g_ysize g) (B2R (g_res g)) (B2R (g_xmin g)) (B2R (g_ymin g)) (B2R (g_xmax g)) (B2R (g_ymax g)) (g_data g).
(** Cells of positive size, at most 2^30 rows and columns and 2^32 cells, finite measures and matching data. *)
Definition usable (g : grid b64) : Prop :=
  is_finite (g_res g) = true /\ is_finite (g_xmin g) = true /\ is_finite (g_ymin g) = true /\
  bpow radix2 (-500) <= B2R (g_res g) <= bpow radix2 500 /\
  (0 < g_xsize g <= 2 ^ 30 /\ 0 < g_ysize g <= 2 ^ 30 /\ cells g <= 2 ^ 32)%Z /\ sized g.
(** The boundary, collision and search radii in whole cells, as computed. *)
Definition whole_cells (L : libm) (c : collision b64) (g : grid b64) (rb rc rm : Z) : Prop :=
  let whole (x : b64) := @to_int b64 (F64 L) (@nfloor b64 (F64 L) (@ndiv b64 (F64 L) x (g_res g))) in
  whole (c_brad c) = Ok rb /\ whole (@nadd b64 (F64 L) (c_brad c) (c_othr c)) = Ok rc /\ whole (c_srad c) = Ok rm /\
  (- 46340 <= rb /\ - 46340 <= rc <= 46340 /\ rm <= 46340)%Z.
(** A wall: occupied cells, consecutive ones sharing an edge. *)
Definition wall64 (L : libm) (g : grid b64) (thr : b64) (p : Z * Z) (l : list (Z * Z)) : Prop :=
  chain4 p l /\ forall q, In q (p :: l) -> @occupied b64 (F64 L) g thr (snd q) (fst q).
(** On the map, [m] or more from its edges. *)
Definition inside (g : grid R) (m : R) (p : vec3 R) : Prop :=
  (g_xmin g + m <= v0 p <= g_xmin g + IZR (g_xsize g) * g_res g - m) /\ (g_ymin g + m <= v1 p <= g_ymin g + IZR (g_ysize g) * g_res g - m).

(** From half a step on until the end of [n] steps of length [dt], if [gam] stays on the map, no wall one end of which is farther than
    r + 2 cells away comes nearer than r - 2 cells, for every radius [r] that is scanned and counts as a collision; added are half the
    distance travelled in a step at the speed of [u] and, for rounding, twice the error accumulated in n steps. *)
Definition keeps_clear64 (L : libm) (c : collision b64) (g : grid b64) (u : vec3 b64) (dt : b64) (n : Z) (gam : R -> vec3 R) : Prop :=
  let G := real_grid g in
  let slack := B2R dt / 2 * speed (real3 u) + 2 * (IZR n * drift u dt) in
  usable g -> (forall s, 0 <= s <= IZR n * B2R dt -> inside G (IZR n * drift u dt) (gam s)) ->
  forall rb rc rm r w l t, whole_cells L c g rb rc rm -> (1 <= r)%Z -> (rb <= r <= rm)%Z -> (r < rc)%Z ->
  wall64 L g (c_occ c) w l -> B2R dt / 2 <= t <= IZR n * B2R dt ->
  ~ comes_close G w l (gam t) (IZR (r - 2) * g_res G - slack) (IZR (r + 2) * g_res G + slack).
