(** Reference notions for the parameters of the nodes. *)
From Coq Require Import Reals ZArith List Bool String.
From Flocq Require Import Core.Core IEEE754.BinarySingleNaN.
From Verif Require Import Outcome Num Float64 GridModel CollisionModel NumericsModel BasisModel ErgodicModel ExplorationModel ParamModel SpecSystem.
Import ListNotations.
Local Open Scope string_scope.
Local Open Scope list_scope.

Section Any.
Context {T : Type} {NT : Num T}.

(** A parameter server with these entries. *)
Fixpoint entries (l : list (string * xml T)) : server T :=
  fun name => match l with [] => None | (k, v) :: l => if String.eqb name k then Some v else entries l name end.
Definition pair_entry (p : T * T) : xml T := XArray [XDouble (fst p); XDouble (snd p)].
Definition targets_entries (l : list ((T * T) * (T * T))) : list (string * xml T) :=
  [("means", XArray (map pair_entry (map fst l))); ("sigmas", XArray (map pair_entry (map snd l)))].

(** All parameters of [p] under their names. *)
Definition numbers_of (p : params T) : list (string * xml T) :=
  [("val_dt", XDouble (pa_val_dt p)); ("val_horizon", XDouble (pa_val_horizon p));
   ("max_vel_x", XDouble (pa_max_vel_x p)); ("max_vel_y", XDouble (pa_max_vel_y p)); ("max_rot_vel", XDouble (pa_max_rot_vel p));
   ("min_vel_x", XDouble (pa_min_vel_x p)); ("min_vel_y", XDouble (pa_min_vel_y p)); ("min_rot_vel", XDouble (pa_min_rot_vel p));
   ("acc_lim_x", XDouble (pa_acc_lim_x p)); ("acc_lim_y", XDouble (pa_acc_lim_y p)); ("acc_lim_th", XDouble (pa_acc_lim_th p));
   ("boundary_radius", XDouble (pa_boundary_radius p)); ("search_radius", XDouble (pa_search_radius p));
   ("obstacle_threshold", XDouble (pa_obstacle_threshold p)); ("occupied_threshold", XDouble (pa_occupied_threshold p));
   ("ec_dt", XDouble (pa_ec_dt p)); ("ec_horizon", XDouble (pa_ec_horizon p));
   ("target_resolution", XDouble (pa_target_resolution p)); ("expl_weight", XDouble (pa_expl_weight p));
   ("num_basis", XInt (pa_num_basis p)); ("buffer_size", XInt (pa_buffer_size p)); ("batch_size", XInt (pa_batch_size p));
   ("control_weights", XArray (map XDouble (pa_weights p)));
   ("dwa_dt", XDouble (pa_dwa_dt p)); ("dwa_horizon", XDouble (pa_dwa_horizon p)); ("acc_dt", XDouble (pa_acc_dt p));
   ("vx_samples", XInt (pa_vx_samples p)); ("vy_samples", XInt (pa_vy_samples p)); ("vth_samples", XInt (pa_vth_samples p))].
Definition entries_of (p : params T) : list (string * xml T) := targets_entries (pa_gaussians p) ++ numbers_of p.
(** Lists of means ([f] = fst) or of sigmas ([f] = snd); control weights that are used; a server with all parameters of [p] but
    these targets; a pair of which a coordinate is written as an integer. *)
Definition rows (f : ((T * T) * (T * T)) -> T * T) l := map pair_entry (map f l).
Definition rows_of (om : bool) : nat := if om then 3%nat else 2%nat.
Definition with_targets (M S : xml T) (p : params T) : server T := entries (("means", M) :: ("sigmas", S) :: numbers_of p).
Definition integer_pair (x : xml T) : Prop :=
  (exists z l, x = XArray (XInt z :: l)) \/ (exists a z l, x = XArray (XDouble a :: XInt z :: l)).
(** Conversions of non-negative ints to floating point and back are exact. *)
Definition exact_counts : Prop := forall z, (0 <= z < 2 ^ 31)%Z -> to_u32 (nofZ z) = Ok z.
(** The counts modulo 2^32. *)
Definition wrapped (p : params T) : params T :=
  let w z := (z mod 2 ^ 32)%Z in
  mkParams (pa_val_dt p) (pa_val_horizon p) (pa_max_vel_x p) (pa_max_vel_y p) (pa_max_rot_vel p)
    (pa_min_vel_x p) (pa_min_vel_y p) (pa_min_rot_vel p) (pa_acc_lim_x p) (pa_acc_lim_y p) (pa_acc_lim_th p)
    (pa_boundary_radius p) (pa_search_radius p) (pa_obstacle_threshold p) (pa_occupied_threshold p)
    (pa_ec_dt p) (pa_ec_horizon p) (pa_target_resolution p) (pa_expl_weight p)
    (w (pa_num_basis p)) (pa_buffer_size p) (w (pa_batch_size p)) (pa_weights p)
    (pa_dwa_dt p) (pa_dwa_horizon p) (pa_acc_dt p) (w (pa_vx_samples p)) (w (pa_vy_samples p)) (w (pa_vth_samples p)) (pa_gaussians p).

(** The documented defaults. *)
Definition defaults (omni : bool) (gs : list ((T * T) * (T * T))) : params T :=
  mkParams (lit 1 10) (lit 1 2) n1 n1 n1 (nofZ (-1)) (nofZ (-1)) (nofZ (-1)) n1 n1 n1
    (lit 7 10) n1 (lit 2 10) (lit 8 10) (lit 1 10) n2 (lit 1 10) n1 10 1000000 100 (if omni then [n1; n1; n1] else [n1; n1])
    (lit 1 10) n1 (lit 2 10) 3 8 5 gs.
Definition main_of (omni : bool) (s : server T) : res (setup T) := if omni then omni_main s else cart_main s.
Definition node_with (omni : bool) (p : params T) : res (setup T) := if omni then omni_node p else cart_node p.

(** The shipped configuration files: config/explore_cart.yaml and config/explore_omni.yaml. *)
Definition d (p : Z) (q : positive) : xml T := XDouble (lit p q).
Definition explore_cart : list (string * xml T) :=
  [("frequency", d 10 1); ("val_dt", d 1 10); ("val_horizon", d 1 2);
   ("max_vel_x", d 1 1); ("max_rot_vel", d 2 1); ("min_vel_x", d (-1) 1); ("min_rot_vel", d (-2) 1);
   ("acc_lim_x", d 5 2); ("acc_lim_th", d 1 1);
   ("boundary_radius", d 7 10); ("search_radius", d 1 1); ("obstacle_threshold", d 2 10); ("occupied_threshold", d 8 10);
   ("ec_dt", d 1 10); ("ec_horizon", d 5 1); ("target_resolution", d 1 10); ("expl_weight", d 1 1);
   ("num_basis", XInt 10); ("buffer_size", XInt 1000000); ("batch_size", XInt 100); ("control_weights", XArray [d 1 1; d 1 2]);
   ("dwa_dt", d 1 10); ("dwa_horizon", d 2 1); ("acc_dt", d 2 10); ("vx_samples", XInt 3); ("vth_samples", XInt 5);
   ("means", XArray [XArray [d 5 2; d 5 2]; XArray [d 17 2; d 5 2]]);
   ("sigmas", XArray [XArray [d 3 2; d 3 2]; XArray [d 3 2; d 3 2]])].
Definition explore_omni : list (string * xml T) :=
  [("frequency", d 10 1); ("val_dt", d 1 10); ("val_horizon", d 1 2);
   ("max_vel_x", d 1 1); ("max_vel_y", d 1 1); ("max_rot_vel", d 2 1); ("min_vel_x", d (-1) 1); ("min_vel_y", d (-1) 1); ("min_rot_vel", d (-2) 1);
   ("acc_lim_x", d 5 2); ("acc_lim_y", d 5 2); ("acc_lim_th", d 1 1);
   ("boundary_radius", d 7 10); ("search_radius", d 1 1); ("obstacle_threshold", d 2 10); ("occupied_threshold", d 8 10);
   ("ec_dt", d 1 10); ("ec_horizon", d 5 1); ("target_resolution", d 1 10); ("expl_weight", d 1 1);
   ("num_basis", XInt 10); ("buffer_size", XInt 1000000); ("batch_size", XInt 100); ("control_weights", XArray [d 1 1; d 1 1; d 1 2]);
   ("dwa_dt", d 1 10); ("dwa_horizon", d 2 1); ("acc_dt", d 2 10); ("vx_samples", XInt 3); ("vy_samples", XInt 8); ("vth_samples", XInt 5);
   ("means", XArray [XArray [d 5 2; d 5 2]; XArray [d 17 2; d 5 2]]);
   ("sigmas", XArray [XArray [d 3 2; d 3 2]; XArray [d 3 2; d 3 2]])].
Definition shipped (omni : bool) : list (string * xml T) := if omni then explore_omni else explore_cart.
End Any.
Arguments entries {T}.
Arguments exact_counts {T} NT.

(** The same number, as an int or as a double, in single values and lists. *)
Definition same_number (a b : xml R) : Prop :=
  a = b \/ exists z, (- 2 ^ 31 <= z < 2 ^ 31)%Z /\ ((a = XInt z /\ b = XDouble (IZR z)) \/ (a = XDouble (IZR z) /\ b = XInt z)).
Definition same_value (a b : option (xml R)) : Prop :=
  a = b \/ exists x y, a = Some x /\ b = Some y /\
    (same_number x y \/ exists l m, x = XArray l /\ y = XArray m /\ Forall2 same_number l m).

(** Odometry that the shipped limits can follow, and maps with room for the predictions around [x]. *)
Definition calm (omni : bool) (ms : list (message R)) : Prop :=
  forall v, In (MOdom v) ms -> (Rabs (v0 v) <= 3 / 2 /\ Rabs (v1 v) <= (if omni then 3 / 2 else 0) /\ Rabs (v2 v) <= 11 / 5)%R.
Definition roomy (x : vec3 R) (g : grid R) : Prop :=
  (exists m, g = grid_of_msg m) /\ proper_map g /\ (1 / 46340 <= g_res g)%R /\ space_around g x 3 /\
  ((IZR (g_xsize g) * g_res g * 10 + 3 / 2) * (IZR (g_ysize g) * g_res g * 10 + 3 / 2) < 4294967296)%R.
Definition calm64 (omni : bool) (ms : list (message b64)) : Prop :=
  forall v, In (MOdom v) ms -> is_finite (v0 v) = true /\ is_finite (v1 v) = true /\ is_finite (v2 v) = true /\
    (Rabs (B2R (v0 v)) <= 3 / 2 /\ Rabs (B2R (v1 v)) <= (if omni then 3 / 2 else 0) /\ Rabs (B2R (v2 v)) <= 11 / 5)%R.
(** Not a number, or at most [r] up to 2^-47. *)
Definition at_most (r : R) (x : b64) : Prop := is_nan x = true \/ (is_finite x = true /\ (Rabs (B2R x) <= r + bpow radix2 (-47))%R).
