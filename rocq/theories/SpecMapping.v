(** Reference notions for mapping: digital segments and per-cell observations. *)
From Coq Require Import Reals ZArith List.
From Flocq Require Import IEEE754.BinarySingleNaN.
From Verif Require Import Outcome Num Float64 GridModel NumericsModel MappingModel Spec.
Import ListNotations.
Local Open Scope Z_scope.

(** (p, q) is the grid point over the abscissa p nearest to the line from (pa, qa) to (pb, qb), where
    pa < pb; of two equally near points the one closer to qa. *)
Definition nearest (pa qa pb qb p q : Z) : Prop :=
  let m := pb - pa in
  let s := if qb <? qa then -1 else 1 in
  - m <= 2 * (s * (m * (q - qa) - (qb - qa) * (p - pa))) < m.

(** (x, y) is a cell of the digital segment from (x0, y0), included, to (x1, y1), excluded. *)
Definition on_ray (x0 y0 x1 y1 x y : Z) : Prop :=
  if Z.abs (y1 - y0) <=? Z.abs (x1 - x0) then
    (x0 <= x < x1 \/ x1 < x <= x0) /\
    (if x0 <=? x1 then nearest x0 y0 x1 y1 x y else nearest x1 y1 x0 y0 x y)
  else
    (y0 <= y < y1 \/ y1 < y <= y0) /\
    (if y0 <=? y1 then nearest y0 x0 y1 x1 y x else nearest y1 x1 y0 x0 y x).

(** The byte stored for the cell in row [i], column [j]. *)
Definition cell_is {T} (g : grid T) (i j v : Z) : Prop :=
  nth_error (g_data g) (Z.to_nat (i * g_xsize g + j)) = Some v.
(** Same geometry and number of cells. *)
Definition same_frame {T} (g g' : grid T) : Prop :=
  g_xsize g' = g_xsize g /\ g_ysize g' = g_ysize g /\ g_res g' = g_res g /\
  g_xmin g' = g_xmin g /\ g_ymin g' = g_ymin g /\ g_xmax g' = g_xmax g /\ g_ymax g' = g_ymax g /\
  length (g_data g') = length (g_data g).
(** Maps with at most 2^30 rows and columns and at most 2^32 cells. *)
Definition mappable {T} (g : grid T) : Prop :=
  0 < g_xsize g <= 2 ^ 30 /\ 0 < g_ysize g <= 2 ^ 30 /\ cells g <= 2 ^ 32 /\ sized g.
(** All cells are known. *)
Definition known {T} (g : grid T) : Prop := Forall (fun v => 0 <= v <= 100) (g_data g).

(** What the C standard (annex F) guarantees about exp and log on binary64: special values, and that
    log of a positive finite number is finite and exp of a finite number is not NaN and not negative. *)
Record explog_rules (L : libm) : Prop := {
  log_finite : forall x : b64, is_finite x = true -> Bltb (B754_zero false) x = true -> is_finite (m_log L x) = true;
  log_zero : m_log L (B754_zero false) = B754_infinity true;
  log_inf : m_log L (B754_infinity false) = B754_infinity false;
  log_neg : forall x : b64, Bltb x (B754_zero false) = true -> m_log L x = B754_nan;
  exp_nan : m_exp L B754_nan = B754_nan;
  exp_minus_inf : m_exp L (B754_infinity true) = B754_zero false;
  exp_inf : m_exp L (B754_infinity false) = B754_infinity false;
  exp_finite : forall x : b64, is_finite x = true -> is_nan (m_exp L x) = false /\ Bsign (m_exp L x) = false
}.

Section Observe.
Context {T : Type} {NT : Num T}.
Implicit Types (g : grid T) (m : mapper T).
(** One observation of a cell with stored byte [c], with log odds [log] (mapping.cpp:344-347). *)
Definition fuse m (log : T) (c : Z) : res Z :=
  to_int8 (logOdds2Prob (prob2LogOdds (nofZ c / nofZ 100) + log - mp_prior m) * nofZ 100)%num.
(** What one beam does to the cell (i, j): [e] is the end cell of the beam, if it is used at all. *)
Definition seen_by m (ri rj i j : Z) (e : option (Z * Z)) (v v' : Z) : Prop :=
  match e with
  | None => v' = v
  | Some (ei, ej) =>
      (on_ray rj ri ej ei j i /\ fuse m (mp_free m) v = Ok v') \/
      ((i, j) = (ei, ej) /\ fuse m (mp_occ m) v = Ok v') \/
      (~ on_ray rj ri ej ei j i /\ (i, j) <> (ei, ej) /\ v' = v)
  end.
(** Several beams in order. *)
Fixpoint seen m (ri rj i j : Z) (ends : list (option (Z * Z))) (v v' : Z) : Prop :=
  match ends with
  | [] => v' = v
  | e :: rest => exists w, seen_by m ri rj i j e v w /\ seen m ri rj i j rest w v'
  end.
(** A reading outside [range_min, range_max] is not used. *)
Definition gated (s : scan T) (r : T) : bool := ((s_rmax s <? r) || (r <? s_rmin s))%num.
(** World coordinates of the end of a beam with bearing [a] and range [r] for the sensor pose [Tms]. *)
Definition end_point (Tms : mat3 T) (a r : T) : T * T :=
  let pt := mvmul Tms (polar2CartesianHomo a r) in (v0 pt, v1 pt).
(** [e] is the cell in which a beam ends: none if the reading is not used or ends outside of the map. *)
Definition hits g (s : scan T) (Tms : mat3 T) (a r : T) (e : option (Z * Z)) : Prop :=
  (gated s r = true /\ e = None) \/
  (gated s r = false /\ exists i j, world2Grid g (fst (end_point Tms a r)) (snd (end_point Tms a r)) = Ok (i, j) /\
     ((in_grid g i j /\ e = Some (i, j)) \/ (~ in_grid g i j /\ e = None))).
(** Bearing of beam [k]. *)
Definition angle_at (s : scan T) (k : nat) : T := Nat.iter k (fun a => nto32 (a + s_ainc s)%num) (s_amin s).
(** Sensor in the world: robot pose after mounting. *)
Definition sensor_pose m (pose : vec3 T) : mat3 T := mmul (transform2d (v0 pose) (v1 pose) (v2 pose)) (mp_Tbs m).
(** [ends] lists the end cells of all beams of the scan. *)
Definition beam_ends m g s pose (ends : list (option (Z * Z))) : Prop :=
  length ends = length (s_ranges s) /\
  forall k r e, nth_error (s_ranges s) k = Some r -> nth_error ends k = Some e ->
    hits g s (sensor_pose m pose) (angle_at s k) r e.
(** A history of scans. *)
Fixpoint map_run m g (h : list (scan T * vec3 T)) : res (grid T) :=
  match h with
  | [] => Ok g
  | (s, pose) :: h' => let* ' (_, g) := updateMap m g s pose in map_run m g h'
  end.
(** Free observations of a list of cells (x, y), in order. *)
Fixpoint free_all m (g : grid T) (l : list (Z * Z)) : res (grid T) :=
  match l with
  | [] => Ok g
  | (x, y) :: l' => let* g := updateCell m g x y (mp_free m) in free_all m g l'
  end.
(** [n] free observations of a cell with byte [c]. *)
Fixpoint free_times m (n : nat) (c : Z) : res Z :=
  match n with O => Ok c | S n' => let* c := fuse m (mp_free m) c in free_times m n' c end.
End Observe.

(** The beam ends in a cell other than the robot's. *)
Definition leaves (ri rj : Z) (e : option (Z * Z)) : Prop := exists ei ej, e = Some (ei, ej) /\ (ei, ej) <> (ri, rj).
(** [p] has the odds of [c] percent times [o]. *)
Definition bayes (c : Z) (o p : R) : Prop := (0 < p < 1 /\ p / (1 - p) = o * (IZR c / (100 - IZR c)))%R.
(** Bytes a map may hold: unknown (negative) or a probability. *)
Definition byte_map (g : grid b64) : Prop := Forall (fun v => -128 <= v <= 100) (g_data g).
