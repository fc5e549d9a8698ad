(** Reference notions for the plans of a running node. *)
From Coq Require Import Reals ZArith List Bool.
From Coquelicot Require Import Coquelicot.
From Verif Require Import Outcome Num NumericsModel RobotModel GridModel BufferModel BasisModel ErgodicModel ExplorationModel
  Spec SpecMotion SpecBasis SpecRobot SpecErgodic SpecExploration SpecSystem.
Import ListNotations.
Local Open Scope R_scope.

(** The parameter control_weights holds the positive penalties on vx, vy and w, that on vy for the omni node only. *)
Definition penalties (omni : bool) (p : params R) (r : vec3 R) : Prop :=
  0 < v0 r /\ (omni = true -> 0 < v1 r) /\ 0 < v2 r /\
  exists rest, pa_weights p = (if omni then [v0 r; v1 r; v2 r] else [v0 r; v2 r]) ++ rest.
(** The motion model of a node *)
Definition motion_of (omni : bool) : vec3 R -> vec3 R -> res (vec3 R) := rb_f (pl_robot (if omni then omni_plant else cart_plant)).
(** The Gaussians of the parameters *)
Definition shapes (p : params R) : list (R * R * R * R) := map (fun g => (fst (fst g), snd (fst g), fst (snd g), snd (snd g))) (pa_gaussians p).

(** [ks] are the wave numbers below [n], each once; the weight of one of them. *)
Definition all_modes (n : Z) (ks : list (Z * Z)) : Prop :=
  NoDup ks /\ forall a b, In (a, b) ks <-> (0 <= a < n /\ 0 <= b < n)%Z.
Definition mode_weight (k : Z * Z) : R := / Rpower (1 + sqrt (IZR (norm2 k))) (3 / 2).

(** [us] is the next plan of a robot at [x] whose last plan, one step later, is [ws]: on the predicted motion [traj], together with the
    [past] states, the co-state [rho] solves the co-state equation backwards in time from zero, driven by the derivatives of the
    ergodic metric and of the barrier, and every control is the only one within the limits that minimises the Hamiltonian. *)
Definition next_plan (omni : bool) (p : params R) (r : vec3 R) (g : grid R) (lx ly : R) (ks : list (Z * Z)) (phik : list R)
    (past : list (vec3 R)) (x : vec3 R) (ws us : list (vec3 R)) : Prop :=
  exists traj rho,
  let pts := map at2 (map (framed g) (past ++ traj)) in
  let cost q := pa_expl_weight p * (INR (length pts) / 2 * metric lx ly (map mode_weight ks) ks phik q) in
  rk4_solve (pa_ec_dt p) (motion_of omni) x ws (pa_ec_horizon p) = Ok traj /\ length rho = length ws /\ length us = length ws /\ length traj = length ws /\
  forall i y, nth_error (map (framed g) traj) i = Some y -> exists d b w m r0 r1 u,
    v2 d = 0 /\
    is_derive (fun s => cost (put pts (length past + i) (s, v1 y))) (v0 y) (v0 d) /\
    is_derive (fun s => cost (put pts (length past + i) (v0 y, s))) (v1 y) (v1 d) /\
    v2 b = 0 /\ is_derive (barrier lx) (v0 y) (v0 b) /\ is_derive (barrier ly) (v1 y) (v1 b) /\
    nth_error ws i = Some w /\ jacobian (fun z => body (v2 z) w) m y /\
    nth_error rho i = Some r0 /\ nth_error (rho ++ [V3 0 0 0]) (S i) = Some r1 /\
    (forall gam, costate_motion d b m r1 gam -> r0 = gam (- pa_ec_dt p)) /\ (exists gam, costate_motion d b m r1 gam) /\
    nth_error us i = Some u /\ unique_minimiser (in_box (lower omni p) (upper omni p)) (hamiltonian r y r0) u.

(** The past of a plan: the poses [h] looked up so far, but only as many of the first ones as fit in the buffer; if these are
    more than a batch, those with the numbers drawn. *)
Definition remembers (p : params R) (draws : list Z) (h past : list (vec3 R)) : Prop :=
  let m := firstn (Z.to_nat (pa_buffer_size p)) h in
  ((lenZ m <= pa_batch_size p)%Z -> past = m) /\
  ((pa_batch_size p < lenZ m)%Z -> Forall2 (fun k q => nthZ m (u32 k) = Some q) draws past).

(** The poses of a path are those of the states. *)
Definition shows (path : list (pose R)) (tr : list (vec3 R)) : Prop :=
  Forall2 (fun q x => p_x q = v0 x /\ p_y q = v1 x /\ qx (p_q q) = 0 /\ qy (p_q q) = 0 /\
    qz (p_q q) * qz (p_q q) + qw (p_q q) * qw (p_q q) = 1 /\
    same_angle (getYaw (qx (p_q q)) (qy (p_q q)) (qz (p_q q)) (qw (p_q q))) (v2 x)) path tr.

(** The controls a controller holds before and after an iteration, the map an iteration plans on. *)
Definition plan_before (e : event R) : list (vec3 R) := ec_ut (lp_ec (ev_pre e)).
Definition plan_after (e : event R) : list (vec3 R) := ec_ut (lp_ec (ev_post e)).
Definition plan_map (e : event R) : grid R := sh_grid (mo_plan (ev_at e)).

(** [phik] are the coefficients of the Gaussians, normalised over the points of the lattice on the map [g]. *)
Definition coefficients (p : params R) (ks : list (Z * Z)) (phik : list R) (g : grid R) : Prop :=
  let lx := g_xmax g - g_xmin g in
  let ly := g_ymax g - g_ymin g in
  let h := pa_target_resolution p in
  exists nx ny, Rabs (lx - INR nx * h) <= h / 2 /\ Rabs (ly - INR ny * h) <= h / 2 /\
    phik = map (target_coeff (shapes p) (g_xmin g) (g_ymin g) lx ly h (S nx) (S ny)) ks.
(** The map is not upside down and the lattice has fewer than 2^32 points. *)
Definition plannable (p : params R) (g : grid R) : Prop :=
  g_xmin g <= g_xmax g /\ g_ymin g <= g_ymax g /\
  ((g_xmax g - g_xmin g) / pa_target_resolution p + 3 / 2) * ((g_ymax g - g_ymin g) / pa_target_resolution p + 3 / 2) < 4294967296.
