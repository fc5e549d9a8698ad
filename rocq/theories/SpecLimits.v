(** Reference notions for the velocity limits in binary64. *)
From Coq Require Import Reals ZArith List Bool.
From Flocq Require Import Core.Core IEEE754.BinarySingleNaN.
From Verif Require Import Outcome Num Float64 NumericsModel DwaModel ExplorationModel.
Import ListNotations.
Local Open Scope R_scope.

(** What [n] additions may add to a limit by rounding: about n * 2^-51 of the larger limit. *)
Definition slack (n : Z) (B : R) : R := (IZR n + 2) * (bpow radix2 (-51) * B + bpow radix2 (-1074)).
(** Within the limits but for rounding, or not a number. *)
Definition nearly_within (n : Z) (lo hi x : b64) : Prop :=
  is_nan x = true \/
  (is_finite x = true /\ let d := slack n (Rmax (Rabs (B2R lo)) (Rabs (B2R hi))) in B2R lo - d <= B2R x <= B2R hi + d).

(** Limits of one of the two nodes, changes of velocity within the acceleration time, and sample counts. *)
Definition lower64 (omni : bool) (p : params b64) : vec3 b64 :=
  V3 (pa_min_vel_x p) (if omni then pa_min_vel_y p else b64_ofZ 0) (pa_min_rot_vel p).
Definition upper64 (omni : bool) (p : params b64) : vec3 b64 :=
  V3 (pa_max_vel_x p) (if omni then pa_max_vel_y p else b64_ofZ 0) (pa_max_rot_vel p).
Definition reach64 (omni : bool) (p : params b64) : vec3 b64 :=
  V3 (Bmult mode_NE (pa_acc_lim_x p) (pa_acc_dt p)) (Bmult mode_NE (if omni then pa_acc_lim_y p else b64_ofZ 0) (pa_acc_dt p))
     (Bmult mode_NE (pa_acc_lim_th p) (pa_acc_dt p)).
Definition count_x (p : params b64) : Z := Z.max 1 (pa_vx_samples p).
Definition count_y (omni : bool) (p : params b64) : Z := if omni then Z.max 1 (pa_vy_samples p) else 1%Z.
Definition count_th (p : params b64) : Z := Z.max 1 (pa_vth_samples p).
Definition nearly_in_box (omni : bool) (p : params b64) (u : vec3 b64) : Prop :=
  nearly_within (count_x p) (v0 (lower64 omni p)) (v0 (upper64 omni p)) (v0 u) /\
  nearly_within (count_y omni p) (v1 (lower64 omni p)) (v1 (upper64 omni p)) (v1 u) /\
  nearly_within (count_th p) (v2 (lower64 omni p)) (v2 (upper64 omni p)) (v2 u).

(** Standing still is within the limits, the changes of velocity are not negative, and nothing is absurdly large. *)
Definition sane_axis (lo hi r : b64) : Prop :=
  is_finite lo = true /\ is_finite hi = true /\ is_finite r = true /\
  - bpow radix2 900 <= B2R lo <= 0 /\ 0 <= B2R hi <= bpow radix2 900 /\ 0 <= B2R r <= bpow radix2 900.
Definition sane_limits64 (omni : bool) (p : params b64) : Prop :=
  sane_axis (v0 (lower64 omni p)) (v0 (upper64 omni p)) (v0 (reach64 omni p)) /\
  sane_axis (v1 (lower64 omni p)) (v1 (upper64 omni p)) (v1 (reach64 omni p)) /\
  sane_axis (v2 (lower64 omni p)) (v2 (upper64 omni p)) (v2 (reach64 omni p)).
Definition sane_counts (p : params b64) : Prop :=
  (0 <= pa_num_basis p /\ 0 <= pa_buffer_size p < 2 ^ 31 /\ 0 <= pa_batch_size p < 2 ^ 32)%Z /\
  (0 <= pa_vx_samples p <= 2 ^ 20 /\ 0 <= pa_vy_samples p <= 2 ^ 20 /\ 0 <= pa_vth_samples p <= 2 ^ 20)%Z.
(** From the measured velocity each limit can be respected again within the acceleration time. *)
Definition recoverable_axis (lo hi r v : b64) : Prop := is_finite v = true /\ B2R lo - B2R r <= B2R v <= B2R hi + B2R r.
Definition recoverable64 (omni : bool) (p : params b64) (v : vec3 b64) : Prop :=
  recoverable_axis (v0 (lower64 omni p)) (v0 (upper64 omni p)) (v0 (reach64 omni p)) (v0 v) /\
  recoverable_axis (v1 (lower64 omni p)) (v1 (upper64 omni p)) (v1 (reach64 omni p)) (v1 v) /\
  recoverable_axis (v2 (lower64 omni p)) (v2 (upper64 omni p)) (v2 (reach64 omni p)) (v2 v).
Definition odometry_ok64 (omni : bool) (p : params b64) (ms : list (message b64)) : Prop :=
  forall v, In (MOdom v) ms -> recoverable64 omni p v.

(** The window around [vb] is not inverted and has at most 2^20 samples per axis. *)
Definition sane_window (d : dwa b64) (vb : vec3 b64) : Prop :=
  let r a := Bmult mode_NE a (dw_acc_dt d) in
  (sane_axis (v0 (dw_min d)) (v0 (dw_max d)) (r (v0 (dw_acc d))) /\ recoverable_axis (v0 (dw_min d)) (v0 (dw_max d)) (r (v0 (dw_acc d))) (v0 vb)) /\
  (sane_axis (v1 (dw_min d)) (v1 (dw_max d)) (r (v1 (dw_acc d))) /\ recoverable_axis (v1 (dw_min d)) (v1 (dw_max d)) (r (v1 (dw_acc d))) (v1 vb)) /\
  (sane_axis (v2 (dw_min d)) (v2 (dw_max d)) (r (v2 (dw_acc d))) /\ recoverable_axis (v2 (dw_min d)) (v2 (dw_max d)) (r (v2 (dw_acc d))) (v2 vb)) /\
  (0 <= dw_nx d <= 2 ^ 20 /\ 0 <= dw_ny d <= 2 ^ 20 /\ 0 <= dw_nth d <= 2 ^ 20)%Z.
(** Each velocity within its limits but for rounding. *)
Definition near_limits (d : dwa b64) (u : vec3 b64) : Prop :=
  nearly_within (dw_nx d) (v0 (dw_min d)) (v0 (dw_max d)) (v0 u) /\
  nearly_within (dw_ny d) (v1 (dw_min d)) (v1 (dw_max d)) (v1 u) /\
  nearly_within (dw_nth d) (v2 (dw_min d)) (v2 (dw_max d)) (v2 u).
