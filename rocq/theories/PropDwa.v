(** Property theorems for the dynamic window: C50-C54.  Proofs in DwaProofs. *)
From Coq Require Import Reals ZArith List Bool Lra Lia.
From Flocq Require Import Core.Raux Core.Generic_fmt IEEE754.BinarySingleNaN.
From Verif Require Import Outcome Num Float64 GridModel CollisionModel NumericsModel RobotModel DwaModel SpecMotion SpecRobot SpecDwa
  MotionProofs DwaProofs PropMappingAux PropDwaAux.
Import ListNotations.
Local Open Scope R_scope.

(** ** C50 *)
Theorem C50_success : forall (d : dwa R) g x0 vb vref u, dwa_control d g x0 vb vref = Ok (true, u) ->
  sampled d vb u /\ safe d g x0 u /\
  forall v, sampled d vb v -> safe d g x0 v -> err vref u <= err vref v.
Proof. exact c50_success. Qed.
Print Assumptions C50_success.
Theorem C50_success_binary64 : forall (L : libm) (d : dwa b64) g x0 vb vref u,
  @dwa_control b64 (F64 L) d g x0 vb vref = Ok (true, u) ->
  @sampled b64 (F64 L) d vb u /\ @safe b64 (F64 L) d g x0 u /\
  forall v, @sampled b64 (F64 L) d vb v -> @safe b64 (F64 L) d g x0 v ->
    Bltb (@err b64 (F64 L) vref v) (@err b64 (F64 L) vref u) = false.
Proof. exact c50_success64. Qed.
Print Assumptions C50_success_binary64.
Theorem C50_failure_binary64 : forall (L : libm) (d : dwa b64) g x0 vb vref u,
  @dwa_control b64 (F64 L) d g x0 vb vref = Ok (false, u) ->
  u = V3 (b64_ofZ 0) (b64_ofZ 0) (b64_ofZ 0) /\
  forall v, @sampled b64 (F64 L) d vb v ->
    @collides b64 (F64 L) d g x0 v \/ (@safe b64 (F64 L) d g x0 v /\ Bltb (@err b64 (F64 L) vref v) b64_max = false).
Proof. exact c50_failure64. Qed.
Print Assumptions C50_failure_binary64.
(** Over the reals "almost equal to the maximum" also covers costs within 1e-12 of it. *)
Theorem C50_failure : forall (d : dwa R) g x0 vb vref u, dwa_control d g x0 vb vref = Ok (false, u) ->
  forall v, sampled d vb v ->
    collides d g x0 v \/ (safe d g x0 v /\ IZR (2 ^ 1024 - 2 ^ 971) - 1 / 1000000000000 < err vref v).
Proof. exact c50_failure. Qed.
Print Assumptions C50_failure.
(** The trajectory overload *)
Theorem C50_follow_success : forall (d : dwa R) g x0 vb ref dtr u, dwa_follow d g x0 vb ref dtr = Ok (true, u) ->
  sampled d vb u /\ safe d g x0 u /\ exists c, follow_cost d x0 u ref (IZR (lenZ ref) * dtr) c /\
  forall v, sampled d vb v -> safe d g x0 v -> exists c', follow_cost d x0 v ref (IZR (lenZ ref) * dtr) c' /\ c <= c'.
Proof. exact c50_follow. Qed.
Print Assumptions C50_follow_success.
Theorem C50_follow_success_binary64 : forall (L : libm) (d : dwa b64) g x0 vb ref dtr u,
  @dwa_follow b64 (F64 L) d g x0 vb ref dtr = Ok (true, u) ->
  @sampled b64 (F64 L) d vb u /\ @safe b64 (F64 L) d g x0 u /\
  exists c, @follow_cost b64 (F64 L) d x0 u ref (Bmult mode_NE (b64_ofZ (lenZ ref)) dtr) c /\
  forall v, @sampled b64 (F64 L) d vb v -> @safe b64 (F64 L) d g x0 v ->
    exists c', @follow_cost b64 (F64 L) d x0 v ref (Bmult mode_NE (b64_ofZ (lenZ ref)) dtr) c' /\ Bltb c' c = false.
Proof. exact c50_follow64. Qed.
Print Assumptions C50_follow_success_binary64.
Theorem C50_follow_failure_binary64 : forall (L : libm) (d : dwa b64) g x0 vb ref dtr u,
  @dwa_follow b64 (F64 L) d g x0 vb ref dtr = Ok (false, u) ->
  u = V3 (b64_ofZ 0) (b64_ofZ 0) (b64_ofZ 0) /\
  forall v, @sampled b64 (F64 L) d vb v -> @collides b64 (F64 L) d g x0 v \/
    (@safe b64 (F64 L) d g x0 v /\
     exists c, @follow_cost b64 (F64 L) d x0 v ref (Bmult mode_NE (b64_ofZ (lenZ ref)) dtr) c /\ Bltb c b64_max = false).
Proof. exact c50_follow_failure64. Qed.
Print Assumptions C50_follow_failure_binary64.
(** The cost is determined, and over the reals it is the sum, over the steps, of the distance between the k-th
    pose of the motion and the reference column nearest in time plus the angle between their headings. *)
Theorem C50_follow_cost_unique : forall {T} {NT : Num T} (d : dwa T) x0 u ref tf c c',
  follow_cost d x0 u ref tf c -> follow_cost d x0 u ref tf c' -> c = c'.
Proof. exact @follow_cost_unique. Qed.
Print Assumptions C50_follow_cost_unique.
Theorem C50_follow_cost : forall (d : dwa R) x0 u ref tf c gamma,
  dw_dt d <> 0 -> follows x0 u gamma -> (0 < lenZ ref <= two64)%Z -> follow_cost d x0 u ref tf c ->
  exists (col : nat -> vec3 R) (ang : nat -> R),
    (forall k, (Z.of_nat k < dw_steps d)%Z ->
       nth_error ref (Z.to_nat (ZnearestA ((IZR (lenZ ref) - 1) * (INR k * dw_dt d) / tf))) = Some (col k) /\
       angle_between (v2 (col k)) (v2 (gamma (INR (S k) * dw_dt d))) (ang k)) /\
    c = total (map (fun k => gap (col k) (gamma (INR (S k) * dw_dt d)) + ang k) (seq 0 (Z.to_nat (dw_steps d)))).
Proof. exact c50_cost. Qed.
Print Assumptions C50_follow_cost.
(** In a 10 x 10 room the reference 2 is out of reach and the fastest sample wins; with an obstacle two cells
    ahead the robot must be slower; with the only sample blocked there is no answer; following a reference. *)
Example C50_example :
  check (fun s u => s && Beqb (v0 u) (b 1 0)) (run 9 200 (V3 z0 z0 z0) (V3 (b 2 0) z0 z0)) = true /\
  check (fun s u => s && Beqb (v0 u) (b 1 (-2))) (run 9 57 (V3 z0 z0 z0) (V3 (b 2 0) z0 z0)) = true /\
  check (fun s u => negb s && Beqb (v0 u) z0) (run 1 53 (V3 z0 z0 z0) (V3 (b 2 0) z0 z0)) = true /\
  check (fun s u => s && Beqb (v0 u) (b 1 0))
    (run_follow 3 200 (V3 z0 z0 z0) [V3 (b 6 0) (b 11 (-1)) z0; V3 (b 7 0) (b 11 (-1)) z0] (b 1 (-1))) = true.
Proof. vm_compute. repeat split. Qed.

(** ** C51 *)
Theorem C51_within_limits : forall dt v acc vmin vmax n x,
  0 <= acc * dt -> vmin <= vmax -> vmin - acc * dt <= v <= vmax + acc * dt ->
  on_axis dt v acc vmin vmax n x -> vmin <= x <= vmax /\ Rabs (x - v) <= acc * dt.
Proof. exact c51_axis. Qed.
Print Assumptions C51_within_limits.
Theorem C51_ends_are_samples : forall dt v acc vmin vmax n, (2 <= n)%Z ->
  on_axis dt v acc vmin vmax n (Rmax (v - acc * dt) vmin) /\ on_axis dt v acc vmin vmax n (Rmin (v + acc * dt) vmax).
Proof. exact c51_ends. Qed.
Print Assumptions C51_ends_are_samples.
Theorem C51_one_sample : forall dt v acc vmin vmax x,
  on_axis dt v acc vmin vmax 1 x <-> x = Rmax (v - acc * dt) vmin.
Proof. exact c51_one. Qed.
Print Assumptions C51_one_sample.
Theorem C51_equally_spaced : forall lo hi n i, (Z.of_nat i < n)%Z -> (1 < n)%Z ->
  sample lo hi n i = lo + INR i * ((hi - lo) / (IZR n - 1)).
Proof. exact sample_R. Qed.
Print Assumptions C51_equally_spaced.
(** What control returns obeys the limits on each axis whose window is not empty. *)
Theorem C51_control : forall (d : dwa R) g x0 vb vref u, dwa_control d g x0 vb vref = Ok (true, u) ->
  0 <= v0 (dw_acc d) * dw_acc_dt d -> v0 (dw_min d) <= v0 (dw_max d) ->
  v0 (dw_min d) - v0 (dw_acc d) * dw_acc_dt d <= v0 vb <= v0 (dw_max d) + v0 (dw_acc d) * dw_acc_dt d ->
  v0 (dw_min d) <= v0 u <= v0 (dw_max d) /\ Rabs (v0 u - v0 vb) <= v0 (dw_acc d) * dw_acc_dt d.
Proof. exact (fun d g x0 vb vref u H A B C => c51_axis _ _ _ _ _ _ _ A B C (proj1 (proj1 (c50_success d g x0 vb vref u H)))). Qed.
Print Assumptions C51_control.
(** Velocity 1/2, reach 1/4, limits [-1, 5/8], 3 samples: 1/4, 7/16 and 5/8. *)
Example C51_example : 0 <= 1 * (1 / 4) /\ -1 - 1 * (1 / 4) <= 1 / 2 <= 5 / 8 + 1 * (1 / 4) /\
  on_axis (1 / 4) (1 / 2) 1 (-1) (5 / 8) 3 (7 / 16).
Proof.
  split; [lra|]. split; [lra|]. exists 1%nat. split; [lia|]. cbn [nmul RNum].
  rewrite low_R, high_R, Rmax_left, Rmin_right by lra. rewrite sample_R by lia. cbn. lra.
Qed.

(** ** C52 *)
(** Beyond reach the window is inverted: no sample is below the upper limit, and one is above it. *)
Theorem C52_inverted_window_refuted : forall dt v acc vmin vmax n,
  (1 <= n)%Z -> 0 <= acc * dt -> vmin <= vmax -> vmax < v - acc * dt ->
  (exists x, on_axis dt v acc vmin vmax n x /\ vmax < x) /\ forall x, on_axis dt v acc vmin vmax n x -> vmax <= x.
Proof. exact (fun dt v acc vmin vmax n Hn Hr Hm Hv => conj (c52_first dt v acc vmin vmax n Hn Hm Hv) (c52_axis dt v acc vmin vmax n Hm Hv Hr)). Qed.
Print Assumptions C52_inverted_window_refuted.
Theorem C52_control_exceeds_limit_refuted : forall (d : dwa R) g x0 vb vref u,
  dw_nx d = 1%Z -> v0 (dw_min d) <= v0 (dw_max d) -> v0 (dw_max d) < v0 vb - v0 (dw_acc d) * dw_acc_dt d ->
  dwa_control d g x0 vb vref = Ok (true, u) -> v0 (dw_max d) < v0 u.
Proof. exact c52_single. Qed.
Print Assumptions C52_control_exceeds_limit_refuted.
(** The configuration of the cart node: every answer copies a positive lateral odometry velocity. *)
Theorem C52_cart_lateral_refuted : forall (d : dwa R) g x0 vb vref u,
  dw_ny d = 1%Z -> v1 (dw_min d) = 0 -> v1 (dw_max d) = 0 -> v1 (dw_acc d) = 0 -> 0 <= v1 vb ->
  dwa_control d g x0 vb vref = Ok (true, u) -> v1 u = v1 vb.
Proof. exact c52_cart. Qed.
Print Assumptions C52_cart_lateral_refuted.
Theorem C52_cart_follow_lateral_refuted : forall (d : dwa R) g x0 vb ref dtr u,
  dw_ny d = 1%Z -> v1 (dw_min d) = 0 -> v1 (dw_max d) = 0 -> v1 (dw_acc d) = 0 -> 0 <= v1 vb ->
  dwa_follow d g x0 vb ref dtr = Ok (true, u) -> v1 u = v1 vb.
Proof. exact c52_cart_follow. Qed.
Print Assumptions C52_cart_follow_lateral_refuted.
(** Complete runs in binary64: a single sample above the limit 1; a lateral velocity of 1/8 kept; and twelve
    samples between -1 and 1, the last of which is above 1 by rounding. *)
Theorem C52_binary64_refuted :
  check (fun s u => s && Bltb (b 1 0) (v0 u)) (run 1 200 (V3 (b 6 0) z0 z0) (V3 z0 z0 z0)) = true /\
  check (fun s u => s && Beqb (v1 u) (b 1 (-3))) (run 3 200 (V3 z0 (b 1 (-3)) z0) (V3 z0 z0 z0)) = true /\
  check (fun s u => s && Bltb (b 1 0) (v0 u)) (run 12 200 (V3 z0 z0 z0) (V3 (b 2 0) z0 z0)) = true.
Proof. vm_compute. repeat split. Qed.
Print Assumptions C52_binary64_refuted.
Example C52_example : (1 <= 12)%Z /\ 0 <= 1 * (1 / 4) /\ -1 <= 1 /\ 1 < 2 - 1 * (1 / 4).
Proof. split; [lia|]. lra. Qed.

(** ** C53 *)
Theorem C53_counts_at_least_one : forall {T} {NT : Num T} c (dt h adt a1 a2 a3 b1 b2 b3 b4 b5 b6 : T) nx ny nth d,
  (0 <= nx)%Z -> (0 <= ny)%Z -> (0 <= nth)%Z ->
  dwa_ctor c dt h adt a1 a2 a3 b1 b2 b3 b4 b5 b6 nx ny nth = Ok d ->
  (dw_nx d = Z.max 1 nx /\ dw_ny d = Z.max 1 ny /\ dw_nth d = Z.max 1 nth)%Z.
Proof. exact @c53_counts. Qed.
Print Assumptions C53_counts_at_least_one.
(** The search runs through a list of exactly nx * ny * nth twists, those of the window. *)
Theorem C53_evaluated : forall {T} {NT : Num T} (d : dwa T) vb,
  (1 <= dw_nx d)%Z -> (1 <= dw_ny d)%Z -> (1 <= dw_nth d)%Z ->
  exists l, lenZ l = (dw_nx d * dw_ny d * dw_nth d)%Z /\ (forall u, In u l <-> sampled d vb u) /\
    forall obj, dwa_search d obj vb =
      (let* ' (m, u) := select obj l (nmax, V3 n0 n0 n0) in Ok (negb (almost_equal m nmax), u)).
Proof. exact @c53_evaluated. Qed.
Print Assumptions C53_evaluated.
Example C53_example : exists d, window1 0 = Ok d /\ dw_nx d = 1%Z /\ dw_ny d = 1%Z /\ dw_nth d = 1%Z /\ dw_steps d = 2%Z.
Proof. eexists. split; [reflexivity|]. vm_compute. repeat split. Qed.

(** ** C54 *)
Theorem C54_in_range : forall (d : dwa R) g x0 u ref tf, (0 < lenZ ref <= two32)%Z -> 0 < dw_dt d -> 0 < tf ->
  IZR (dw_steps d) * dw_dt d <= tf -> safe d g x0 u -> is_ok (objective_traj d g x0 u ref tf) = true.
Proof. exact c54_in_range. Qed.
Print Assumptions C54_in_range.
Theorem C54_follow_never_throws : forall (d : dwa R) g x0 vb ref dtr, (0 < lenZ ref <= two32)%Z -> 0 < dw_dt d -> 0 < dtr ->
  IZR (dw_steps d) * dw_dt d <= IZR (lenZ ref) * dtr ->
  (forall u p, sampled d vb u -> In p (rollout (Z.to_nat (dw_steps d)) (dw_dt d) u x0) -> is_ok (collisionCheck (dw_collision d) g (v0 p) (v1 p)) = true) ->
  is_ok (dwa_follow d g x0 vb ref dtr) = true.
Proof. exact c54_follow. Qed.
Print Assumptions C54_follow_never_throws.
(** The exact limit *)
Theorem C54_exact_limit : forall (d : dwa R) g x0 u ref tf, (0 < lenZ ref <= two32)%Z -> 0 < tf -> 0 < dw_dt d ->
  (1 <= dw_steps d)%Z -> safe d g x0 u ->
  ((IZR (lenZ ref) - 1) * ((IZR (dw_steps d) - 1) * dw_dt d) < (IZR (lenZ ref) - 1 / 2) * tf ->
     is_ok (objective_traj d g x0 u ref tf) = true) /\
  ((IZR (lenZ ref) - 1 / 2) * tf <= (IZR (lenZ ref) - 1) * ((IZR (dw_steps d) - 1) * dw_dt d) ->
     objective_traj d g x0 u ref tf = Throw EArma \/ objective_traj d g x0 u ref tf = UB UFloatCast).
Proof. exact c54_exact. Qed.
Print Assumptions C54_exact_limit.
Theorem C54_empty_reference_undefined : forall (L : libm) (d : dwa b64) g x0 u (dtr : b64) p rest, (1 <= dw_steps d)%Z ->
  @rollout b64 (F64 L) (Z.to_nat (dw_steps d)) (dw_dt d) u x0 = p :: rest -> @clear b64 (F64 L) (dw_collision d) g p ->
  @objective_traj b64 (F64 L) d g x0 u [] (@nmul b64 (F64 L) (@nofZ b64 (F64 L) 0) dtr) = UB UFloatCast.
Proof. exact c54_empty. Qed.
Print Assumptions C54_empty_reference_undefined.
(** Two columns, a window of one second: fine at 1/2 s per column, out of bounds at 1/8, undefined when empty. *)
Example C54_example :
  is_ok (run_follow 3 200 (V3 z0 z0 z0) [x5; x5] (b 1 (-1))) = true /\
  run_follow 3 200 (V3 z0 z0 z0) [x5; x5] (b 1 (-3)) = Throw EArma /\
  run_follow 3 200 (V3 z0 z0 z0) [] (b 1 (-3)) = UB UFloatCast /\
  (0 < lenZ [x5; x5] <= two32)%Z /\ 2 * (1 / 2) <= 2 * (1 / 2) /\
  (2 - 1 / 2) * (2 * (1 / 8)) <= (2 - 1) * ((2 - 1) * (1 / 2)).
Proof. split; [vm_compute; reflexivity|]. split; [vm_compute; reflexivity|]. split; [vm_compute; reflexivity|]. split; [cbv; split; congruence|]. lra. Qed.
(** Over the reals, in the free room: *)
Example C54_example_real : (0 < lenZ [x5R; x5R] <= two32)%Z /\ 0 < dw_dt windowR /\ IZR (dw_steps windowR) * dw_dt windowR <= IZR (lenZ [x5R; x5R]) * (1 / 2) /\
  (forall u p, sampled windowR (V3 0 0 0) u -> In p (rollout (Z.to_nat (dw_steps windowR)) (dw_dt windowR) u x5R) ->
     is_ok (collisionCheck (dw_collision windowR) yard (v0 p) (v1 p)) = true).
Proof. split; [cbv; split; congruence|]. split; [cbn; lra|]. split; [cbn; lra|]. exact windowR_answers. Qed.
