(** Reference notions for predictions and for the node as a whole. *)
From Coq Require Import Reals ZArith List Bool.
From Flocq Require Import Core.Raux.
From Verif Require Import Outcome Num GridModel CollisionModel NumericsModel BufferModel ErgodicModel ExplorationModel Spec SpecRobot SpecErgodic.
Import ListNotations.
Local Open Scope R_scope.

(** A map with cells of positive size, at most 2^30 rows and columns and 2^32 cells, and matching data. *)
Definition proper_map (g : grid R) : Prop :=
  0 < g_res g /\ (0 < g_xsize g <= 2 ^ 30 /\ 0 < g_ysize g <= 2 ^ 30 /\ cells g <= 2 ^ 32)%Z /\ sized g.
(** The boundary, collision and search radii are at most 46340 whole cells. *)
Definition proper_radii (c : collision R) (g : grid R) : Prop :=
  let fl := fun x => Zfloor (x / g_res g) in
  (- 46340 <= fl (c_brad c) <= 46340 /\ - 46340 <= fl (c_brad c + c_othr c)%R <= 46340 /\ - 46340 <= fl (c_srad c) <= 46340)%Z.
(** Every point within [r] of [x] is on the map. *)
Definition space_around (g : grid R) (x : vec3 R) (r : R) : Prop :=
  forall y, gap x y <= r -> on_map g (v0 y) (v1 y).
(** Left of the map or below it; right of it or above it by at least [r]. *)
Definition left_or_below (g : grid R) (p : vec3 R) : Prop := v0 p < g_xmin g \/ v1 p < g_ymin g.
Definition beyond (g : grid R) (r : R) (p : vec3 R) : Prop :=
  g_xmin g + IZR (g_xsize g) * g_res g + r <= v0 p \/ g_ymin g + IZR (g_ysize g) * g_res g + r <= v1 p.
(** At most 2^30 cells from the lower left corner, to the right and above. *)
Definition indexable (g : grid R) (p : vec3 R) : Prop :=
  g_xmin g <= v0 p < g_xmin g + IZR (2 ^ 30) * g_res g /\ g_ymin g <= v1 p < g_ymin g + IZR (2 ^ 30) * g_res g.

(** One of the two nodes, its velocity limits and the largest changes of velocity within the acceleration time. *)
Definition node_of (omni : bool) (p : params R) : res (setup R) := if omni then omni_node p else cart_node p.
Definition lower (omni : bool) (p : params R) : vec3 R := V3 (pa_min_vel_x p) (if omni then pa_min_vel_y p else 0) (pa_min_rot_vel p).
Definition upper (omni : bool) (p : params R) : vec3 R := V3 (pa_max_vel_x p) (if omni then pa_max_vel_y p else 0) (pa_max_rot_vel p).
Definition reach (omni : bool) (p : params R) : vec3 R :=
  V3 (pa_acc_lim_x p * pa_acc_dt p) (if omni then pa_acc_lim_y p * pa_acc_dt p else 0) (pa_acc_lim_th p * pa_acc_dt p).
(** Standing still is within the limits, and the changes of velocity are not negative. *)
Definition sane_limits (omni : bool) (p : params R) : Prop :=
  in_box (lower omni p) (upper omni p) (V3 0 0 0) /\ 0 <= v0 (reach omni p) /\ 0 <= v1 (reach omni p) /\ 0 <= v2 (reach omni p).
Definition sane_sizes (p : params R) : Prop :=
  (0 <= pa_num_basis p /\ 0 <= pa_buffer_size p < 2 ^ 31 /\ 0 <= pa_batch_size p < 2 ^ 32)%Z.
(** From the velocity [v] each limit can be respected again within the acceleration time. *)
Definition recoverable (omni : bool) (p : params R) (v : vec3 R) : Prop :=
  (v0 (lower omni p) - v0 (reach omni p) <= v0 v <= v0 (upper omni p) + v0 (reach omni p)) /\
  (v1 (lower omni p) - v1 (reach omni p) <= v1 v <= v1 (upper omni p) + v1 (reach omni p)) /\
  (v2 (lower omni p) - v2 (reach omni p) <= v2 v <= v2 (upper omni p) + v2 (reach omni p)).
Definition odometry_ok (omni : bool) (p : params R) (ms : list (message R)) : Prop :=
  forall v, In (MOdom v) ms -> recoverable omni p v.
(** Positive time steps, the reference of the dynamic window being at least as long as the window. *)
Definition sane_times (p : params R) : Prop :=
  0 < pa_ec_dt p <= pa_ec_horizon p /\ 0 < pa_target_resolution p /\
  0 < pa_dwa_dt p /\ 0 <= pa_dwa_horizon p <= pa_ec_horizon p - pa_ec_dt p /\
  0 < pa_val_dt p /\ 0 <= pa_val_horizon p < 4294967296 * pa_val_dt p.
(** The map the controller was given is that of a whole message, is not degenerate and has room for the target
    lattice and, around the pose, for everything that is predicted at speeds up to [V]. *)
Definition suitable (p : params R) (c : collision R) (V : R) (x : vec3 R) (g : grid R) : Prop :=
  (exists m, g = grid_of_msg m) /\ proper_map g /\ proper_radii c g /\
  space_around g x (V * Rmax (pa_val_horizon p) (pa_dwa_horizon p)) /\
  (1 / 1000000000000 <= IZR (g_xsize g) * g_res g \/ 1 / 1000000000000 <= IZR (g_ysize g) * g_res g) /\
  (IZR (g_xsize g) * g_res g / pa_target_resolution p + 3 / 2) * (IZR (g_ysize g) * g_res g / pa_target_resolution p + 3 / 2) < 4294967296.
(** No map callback is half way. *)
Definition settled (s : shared R) : Prop :=
  Forall (fun w => match w with WVx _ => True | WVy _ => True | WVw _ => True | _ => False end) (sh_todo s).

(** Centre of the cell in column [fst q] and row [snd q]. *)
Definition centre (g : grid R) (q : Z * Z) : vec3 R :=
  V3 (g_xmin g + (IZR (fst q) + 1 / 2) * g_res g) (g_ymin g + (IZR (snd q) + 1 / 2) * g_res g) 0.
(** A wall: occupied cells, consecutive ones sharing an edge. *)
Definition wall (g : grid R) (thr : R) (p : Z * Z) (l : list (Z * Z)) : Prop :=
  chain4 p l /\ forall q, In q (p :: l) -> occupied g thr (snd q) (fst q).
(** It starts farther than [ro] from [x] and comes closer than [ri]. *)
Definition comes_close (g : grid R) (p : Z * Z) (l : list (Z * Z)) (x : vec3 R) (ri ro : R) : Prop :=
  ro <= gap x (centre g p) /\ exists q, In q l /\ gap x (centre g q) <= ri.

(** The parameters are accepted at start-up. *)
Definition startable (omni : bool) (p : params R) : Prop :=
  (if omni then 3 <= length (pa_weights p) else 2 <= length (pa_weights p))%nat /\
  Forall (fun g => fst (snd g) <> 0 /\ snd (snd g) <> 0) (pa_gaussians p) /\
  pa_boundary_radius p <= pa_search_radius p /\ 0 <= pa_occupied_threshold p <= 100 /\
  Rabs (pa_ec_horizon p) < 4294967296 * Rabs (pa_ec_dt p) /\
  ~ (Rabs (pa_ec_dt p) <= Rabs (pa_ec_horizon p) < 2 * Rabs (pa_ec_dt p)) /\
  (pa_num_basis p * pa_num_basis p < 2 ^ 31)%Z /\
  Rabs (pa_dwa_horizon p) < 4294967296 * Rabs (pa_dwa_dt p) /\
  pa_dwa_horizon p <= pa_ec_horizon p.
