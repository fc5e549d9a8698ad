# Formal model of ergodic_exploration in Rocq

Target: `bostoncleek/ergodic_exploration` as found in `/repo` (C++, read as text only, never built).
Prover: Coq 8.16.1 with Flocq 4.1.0 (binary64 semantics) and Coquelicot (derivatives). No plugin, no axiom of our own.

## 1. How the code is modelled

* `Outcome.v`: every C++ function that can fail returns `res A` =
  `Ok a | Throw e | UB k | Diverge`. Undefined behaviour (out-of-range float->int conversion,
  signed overflow, erase outside a vector, read of an uninitialised matrix, ...) is its own outcome,
  so "no UB" is part of a theorem and not an assumption. Loops with a data-dependent exit take fuel and
  return `Diverge` when it runs out; theorems show that it does not.
* `Num.v`: the numeric code is written once over a class `Num T`; it is read at two instances:
  * `R` - ideal reals (calculus, exact geometry);
  * `b64` (`Float64.v`) - IEEE-754 binary64 of Flocq (`BinarySingleNaN`), round to nearest even after
    every operation, NaN, infinities and signed zero included. `sin cos exp log pow atan2` are a record
    parameter (`libm`) there, i.e. theorems hold for every libm, subject to the hypotheses they state.
  A theorem over `{T} {NT : Num T}` holds for any arithmetic whatever, so for both.
* `std::vector`, `arma::mat` are lists; `unsigned int` is Z modulo 2^32; `int` is Z with overflow = UB.
* Random draws (`arma::randi`) are an oracle list, quantified over in the theorems.
* Concurrency: the map and odometry callbacks of the spinner thread are sequences of single assignments
  (`ExplorationModel.map_writes`, `odom_writes`); a relation `callbacks` lets any number of them happen between
  any two stages of the control loop, a callback being possibly left half way. `exec` is any number of completed
  iterations, `fails` an iteration that ends in an exception or in undefined behaviour.

Files in `rocq/theories`:

| files | content |
|---|---|
| `Outcome.v Num.v Float64.v FloatLemmas.v` | outcomes, the arithmetic class and its two instances |
| `*Model.v` | the model, definitions only, each with a comment citing file and lines in `/repo` |
| `Spec*.v` | the vocabulary of the statements, independent of the helpers of the model |
| `*Proofs.v` and others | lemmas |
| `Prop*Aux.v` | the last step of each proof and the concrete cases of the examples |
| `Prop*.v` | only the property theorems, their examples and `Print Assumptions` |
| `UnitTests.v` | the cases of `/repo/test` hold in the model (the grid's in binary64, the others over the reals) |

Conventions for theorem names: `Cnn_...` belongs to property Cnn of `properties.jsonl`. A property whose expected form
is false of the code says so in its statement; that form is proved false by a theorem `Cnn_..._refuted` with a concrete
witness, and is accompanied by the strongest true statements found. `Cnn_..._binary64` is about IEEE arithmetic.
`Cnn_example...` is a concrete case that meets the hypotheses of the theorems above it.

## 2. Trusted base

1. Coq's kernel (including `vm_compute`, used for concrete binary64 runs). No kernel check is switched off.
2. The axioms listed by `Print Assumptions`. They all belong to Coq's standard library and come with its real numbers:
   `ClassicalDedekindReals.sig_forall_dec`, `ClassicalDedekindReals.sig_not_dec`,
   `FunctionalExtensionality.functional_extensionality_dep`, `Classical_Prop.classic`.
   Section 6 lists them theorem by theorem (produced by `tools/assumptions.py`).
3. That the model is a faithful transcription of the code (section 3), including
   the meaning given there to the standard library, Armadillo, tf2 and ROS.
4. For theorems over the reals: that the reader accepts exact arithmetic as an idealisation. Where rounding matters for a
   claim there is a separate binary64 theorem or refutation.

## 3. What is modelled and what is not

Modelled, function by function: all of `grid.hpp/.cpp` except `print`; all of `collision.hpp/.cpp`, `buffer.hpp/.cpp`,
`numerics.hpp`, `mapping.hpp/.cpp`, `basis.hpp/.cpp`, `target.hpp/.cpp`, `models/cart.hpp`, `models/omni.hpp`,
`integrator.hpp` (but see below), `dynamic_window.hpp/.cpp`, `ergodic_control.hpp`, `exploration.hpp`, and of the two node
programs the reading of the parameters, the constructors in order, the exceptions they throw, the horizon check with
`ros::shutdown`, and the loop.

Simplified (each also noted at the definition):

* `std::unordered_map` is an association list; only its documented behaviour is used, never an iteration order.
* Matrix-vector products add from left to right; BLAS may use another order (only visible in binary64).
* `arma::norm` without its rescaling for sums of squares that are zero or not finite; `arma::inv` and `arma::eig_sym` of
  diagonal matrices by their exact results.
* `std::clamp` with an upper limit below the lower one is an undefined outcome (`UClamp`) of `control` and of
  `RungeKutta45::solve`; a limit that is NaN is taken literally (both comparisons false).
* RungeKutta45: `arma::polyfit` is a parameter of the model, of which C80 assumes that it returns a quartic of least squared
  deviation through five or more points of a line; it throws for fewer points. `arma::linspace` and `polyval` are defined.
* A stage of the control loop reads the shared map once, except in FineModel (C89), where each collision check of the
  validation and of the search reads it anew (planning still reads one map, and the velocity is read once); that the two threads race on non-atomic members is itself
  undefined behaviour in C++, which the model weakens to reading any mixture of finished assignments at stage boundaries.
* roscpp's `param`/`getParam` and `XmlRpcValue` follow their documented behaviour (`ParamModel.v`); the values are those of the
  server at the start, and reading does not fail for other reasons. The `frequency` only sets the rate and is not modelled.
* Sizes of vectors stay below 2^32 and allocation never fails (`std::bad_alloc` is not modelled).
* `float` fields of messages are given by their (exact) double values; float rounding is modelled where the code computes
  in float (the beam angle of `updateMap`).

Not modelled: ROS transport, queues and time (`rate.sleep`, latencies, message stamps), the tf tree (the result of a lookup
is an input), frame ids, logging, and the contents of markers
other than those named in C42.

## 4. Properties, what is modelled for each and how it is proved

| id | property | modelled | proof | theorems |
|---|---|---|---|---|
| C01 | Row-major indexing is a bijection | grid.cpp index functions | arithmetic modulo 2^32; the refutation shows why the cell count must fit | `row_major_bijection`, `large_grid_refuted` |
| C02 | Bounds tests are exact | gridBounds, both forms | case analysis with the wrap of size - 1; the empty grid separately | `bounds_exact`, `index_bounds_exact`, `pair_bounds_imply_index_bounds`, `empty_grid_accepts_everything` |
| C03 | Construction establishes the data-size invariant, and in-bounds reads never fail | the constructors, getCell | inversion of the constructor; the 32-bit product that wraps is a witness | `constructor_accepts_iff_size_matches`, `message_constructor_accepts_iff_size_matches`, `reads_total_after_construction`, `overflowing_size_accepted_refuted`, `size`, `size_wraps_refuted`, `default` |
| C04 | A map update replaces the whole map but is not validated | update | equality of all members with those of the message; histories by induction; witness for the missing check | `update_is_message`, `update_extent`, `update_checks_size_refuted`, `sized_messages_keep_reads_total` |
| C05 | Cell-centre round trip | grid2World, world2Grid | floor lemmas over R; Flocq error bounds in binary64 for sizes up to the stated multiples, witness beyond | `cell_centre_round_trip`, `cell_centre_round_trip_binary64`, `far_origin_refuted` |
| C06 | world2Grid returns the cell containing the point | world2Grid | floor lemmas over R, the last row and column closed; binary64 with a rounding-error bound of 2^-19 cells (GridFloat2) | `world2Grid_containing_cell`, `world2Grid_containing_cell_binary64` |
| C07 | Off-map points: what is rejected, snapped, or undefined | world2Grid with the float to unsigned conversion as UB | floor lemmas over R, one theorem per zone; the undefined zone also in binary64 (the quotient stays negative after rounding) | `left_or_below_is_undefined`, `off_map_rejected_refuted`, `far_right_or_above_is_out_of_bounds`, `in_bounds_means_near`, `left_or_below_is_undefined_binary64` |
| C08 | Axis length and axis upper limit are inverse | axis_length, axis_upper | round to nearest over R; binary64 by relative-error bounds (GridFloat2), with a far-away counterexample | `axis_length_inverts_axis_upper`, `axis_length_nearest`, `axis_length_inverts_axis_upper_binary64`, `constructors_agree_binary64`, `far_origin_refuted` |
| C09 | Cell reads: overloads agree, range and unknown cells | the getCell overloads | unfolding for the agreement; order in binary64 by the monotonicity of rounded division, all 256 bytes | `overloads_agree`, `read_is_stored_byte`, `reads_order_binary64` |
| C10 | Collision check: exact characterisation | search, bresenhamCircle, checkCell, with int and unsigned arithmetic | invariant of the circle walk, octant by octant; the set of visited offsets is proved equal to the closed form `on_circle`; generic in the arithmetic | `collision_exact`, `collision_exact_on_map` |
| C11 | minDistance, minDirection and collisionCheck agree | the three queries | all read off one scan; a second scan from the state left by the first gives the same answer | `queries_agree` |
| C12 | Nearest obstacle is the minimum over the scanned cells | minDistance, minDirection | minimum invariant over the list of scanned offsets | `nearest_obstacle`, `none_means_nothing_scanned` |
| C13 | The circle scan terminates without integer overflow | the loops with overflow as UB and fuel | bounds on the error term; exact limit 46340, witness for 46341 | `total`, `each_cell_once`, `large_radius_refuted` |
| C14 | Walls cannot slip through the scan | bresenhamCircle | discrete intermediate value argument on a^2 + b^2 along a 4-connected chain | `chain_crosses_circle`, `wall_is_seen` |
| C15 | Every occupied cell within the collision radius is reported (refuted) | collisionCheck | witnesses in binary64; blind zone and gaps from C10, the gaps at every distance from a Pell equation | `every_near_cell_reported_refuted`, `inside_boundary_refuted`, `blind_inside_boundary`, `gaps_at_every_distance`, `two_cells_reported`, `axis_cells_reported` |
| C16 | Occupancy threshold semantics | checkCell threshold | monotonicity of the comparison, binary64 and R | `unknown_is_never_an_obstacle_binary64`, `unknown_is_never_an_obstacle`, `raising_threshold_binary64`, `raising_threshold`, `high_threshold_disables_binary64`, `high_threshold_disables` |
| C17 | Collision constructor validation | the constructor | case analysis, NaN comparisons false | `constructor_validation`, `nan_is_accepted`, `nan_threshold_occupies_everything` |
| C18 | Replay buffer keeps the oldest states | append | induction over the history of appends | `keeps_the_oldest`, `number_stored` |
| C19 | sampleMemory preserves the predicted trajectory | sampleMemory | induction; random draws universally quantified; the empty trajectory throws | `all_stored_then_trajectory`, `samples_then_trajectory`, `empty_trajectory_refuted` |
| C20 | Angle wrapping to [-pi, pi) | normalize_angle_PI | floor over R; binary64: in range up to the rounding for moderate angles, witness for huge ones | `wraps`, `identity_in_range`, `idempotent`, `canonical`, `binary64_range_refuted`, `binary64_moderate` |
| C21 | Angle wrapping to [0, 2pi) | normalize_angle_2PI | as C20 | `wraps`, `canonical`, `binary64_range_refuted`, `binary64_moderate` |
| C22 | Yaw extraction inverts the yaw quaternion | getYaw, tf2 quaternions | trigonometric identities, atan2 of the half-angle products | `yaw_quaternion`, `yaw_of_rpy` |
| C23 | Rigid transforms form a group; the inverse helper does not invert (refuted) | transform2d, transform2dInv | ring identities; exact condition under which the helper inverts | `acts_as_rigid_motion`, `composes`, `translation_then_rotation`, `preserves_distance`, `inverse_refuted`, `inverse_only_if`, `correct_inverse` |
| C24 | integrate_twist is the exact motion of a constant body twist | integrate_twist | the ODE of a constant body twist: existence, uniqueness and the closed form (Coquelicot) | `exact_motion`, `motion_exists`, `durations_add`, `heading` |
| C25 | validate_control accepts exactly collision-free rollouts | validate_control | induction on the steps, poses identified with the ODE solution | `accepts_exactly`, `rejects_exactly`, `shorter_horizon`, `initial_pose_unchecked` |
| C26 | constTwistPath shows the validated rollout | constTwistPath, setRPY | induction on the steps; yaw of the quaternion | `path_follows_motion` |
| C27 | Number of rollout steps | the step count | floor over R; binary64 runs; division by zero gives UB | `step_count`, `step_count_defined`, `binary64_rounding`, `zero_step_undefined` |
| C28 | Cell entropy | entropy, over R and in binary64 for every libm with a close logarithm | ln x <= x - 1 for the bounds; in binary64 error propagation, with the rounding of 1 - p seen as a factor inside the logarithm | `known_binary64`, `unknown_binary64`, `unknown_ranks_highest_binary64`, `symmetric`, `positive_at_most_ln2`, `maximum_at_half`, `unknown`, `certain`, `unknown_ranks_highest` |
| C29 | Distance and polar conversion | distance, polar2Cartesian | Euclidean metric over R | `metric`, `polar` |
| C30 | Ray tracing visits exactly the digital segment | rayTrace, lineLow, lineHigh, lineDiag | Bresenham invariant; the cells are the rounded points of the ideal line, by induction on the loop | `ray_cells`, `segment_box`, `segment_start`, `effect` |
| C31 | Map update frame condition | updateMap | frame invariant over rays and beams | `outside`, `effect`, `only_on_rays`, `beam_end`, `defined_on_known_maps` |
| C32 | Occupancy values stay within 0..100 | updateCell with int8 conversion | binary64, every exp/log obeying the rules of SpecMapping; range analysis by case on the cell value | `range`, `certainty_absorbing` |
| C33 | Unknown cells are updated without undefined behaviour (refuted) | updateCell | a negative cell gives log of a negative number, NaN, UB: witness | `unknown_cells_refuted`, `cell_refuted` |
| C34 | Observations move cells in the right direction | updateCell | odds product over R, truncation | `occupied`, `free` |
| C35 | Beam gating | the beam loop | induction; float rounding of the angle as in the code | `gated_ignored`, `all_gated`, `gate`, `bearing`, `nan_range_undefined` |
| C36 | Fourier basis enumeration and bounds | Basis | list enumeration; bounds of cosine | `numbers`, `constructed`, `too_many`, `values`, `weights` |
| C37 | Basis gradient is the derivative | fourierBasis, gradFourierBasis | Coquelicot derivatives | `gradient`, `boundary` |
| C38 | Coefficients are averages | trajCoeff, spatialCoeff | finite sums; permutation | `traj_mean`, `traj_bounds`, `traj_order`, `spatial`, `spatial_bounds` |
| C39 | Target evaluation | Gaussian, evaluate | exp bounds, permutation of sums | `sum`, `gaussian`, `gaussian_untranslated`, `bump`, `translation`, `order`, `constructor` |
| C40 | Filled target is a probability distribution | fill | positive sum; 0/0 in binary64 | `distribution`, `empty_target_is_nan` |
| C41 | Adding and deleting targets | addGaussian, deleteGaussian | induction over the history | `history`, `invalid_delete_undefined` |
| C42 | Markers show the targets' extents (refuted) | markers | list map; witness for the exchanged axes | `markers`, `extent_is_sorted`, `extent_follows_sigma_refuted` |
| C43 | Jacobians are the derivatives of the dynamics | fdx, fdu of the four models | Coquelicot partial derivatives | `omni`, `simple_cart`, `cart`, `mecanum` |
| C44 | Wheel models agree with the body-twist model | wheel models | field identities | `cart`, `mecanum`, `mecanum_inverse`, `simple_cart`, `omni` |
| C45 | SimpleCart rejects lateral velocity | SimpleCart::operator() | absolute value comparison, NaN case in binary64 | `throws`, `accepts`, `binary64` |
| C46 | RK4 forward simulation accuracy | RungeKutta::step and solve | Simpson remainder bound for cos and sin, telescoped | `step`, `columns`, `step_count`, `defined`, `trajectory`, `driven_exists` |
| C47 | Co-state integration is exact and correctly ordered | co-state step and solve | nilpotent Jacobian, so the RK4 polynomial is the exact exponential; induction backwards | `rhodot`, `exact_step`, `exact_step_simple_cart`, `exact_step_cart`, `exact_step_mecanum`, `recurrence`, `forward_order`, `defined` |
| C48 | RK45 integrates a constant derivative exactly (refuted) | RungeKutta45::step | rational arithmetic on the weights | `step`, `exact_refuted`, `never_accepts` |
| C49 | RK45 terminates within its iteration budget; its storage can overflow (refuted) | RungeKutta45::solve loop | fuel and counter; counting accepted steps | `inverted_limits`, `inverted_limits_undefined`, `terminates`, `costate_terminates`, `storage_refuted`, `one_more_column` |
| C50 | Dynamic window returns the best collision-free sample | DynamicWindow::control, both overloads | argmin invariant over the three nested loops, for any arithmetic with an order, instantiated at R and binary64 | `success`, `success_binary64`, `failure_binary64`, `failure`, `follow_success`, `follow_success_binary64`, `follow_failure_binary64`, `follow_cost_unique`, `follow_cost` |
| C51 | Sampled twists respect velocity and acceleration limits | window | interval arithmetic over R | `within_limits`, `ends_are_samples`, `one_sample`, `equally_spaced`, `control` |
| C52 | Velocity limits are never exceeded (refuted) | window, control | complete binary64 runs as witnesses; rounding error of the repeated addition bounded in Flocq (WindowFloat) | `inverted_window_refuted`, `control_exceeds_limit_refuted`, `cart_lateral_refuted`, `cart_follow_lateral_refuted`, `binary64_refuted`, `control_near_limits_binary64`, `follow_near_limits_binary64` |
| C53 | Zero sample counts are replaced by one | constructor | case analysis, counting | `counts_at_least_one`, `evaluated` |
| C54 | Reference-trajectory index stays in range | objective with the bounds-checked column | floor inequality over R, exact limit; rounding errors of index and time in binary64 (DwaFloat) | `in_range`, `follow_never_throws`, `exact_limit`, `empty_reference_undefined`, `follow_never_throws_binary64` |
| C55 | Ergodic controls respect the control limits | the whole controller | invariant over every history of calls; binary64 clamp | `limits`, `limits_binary64`, `inverted_limits` |
| C56 | The cart controller never trips the lateral-velocity check (refuted in binary64) | SimpleCart inside the controller | invariant over histories; binary64 witness run with NaN | `never_throws`, `throws_only_on_nan_binary64`, `refuted` |
| C57 | Receding horizon shape | control, optTraj, path | inversion of a successful call, generic | `columns`, `first_column_dropped`, `warm_start`, `trajectory`, `path`, `path_defined` |
| C58 | Target coefficients follow the map and target (refuted) | configTarget, setTarget | exact condition; witnesses | `recomputed`, `unchanged`, `control_configures`, `new_target_refuted`, `new_origin_refuted` |
| C59 | Ergodic gradient is the gradient of the ergodic metric | gradErgodicMetric | derivative of the weighted squared differences | `ergodic_gradient` |
| C60 | Barrier gradient | gradBarrier | piecewise derivative, including the kinks | `barrier_gradient`, `barrier_sign` |
| C61 | Control update minimises the Hamiltonian over the box | updateControl | projection onto a box minimises a separable quadratic | `minimises` |
| C62 | Degenerate horizons | constructor and control | case analysis | `constructor`, `zero_steps` |
| C63 | No command before map and pose are known | the loop and the callbacks | invariant over all schedules | `nothing_before`, `always_after`, `callbacks` |
| C64 | Every published twist was checked or is zero | the loop | inversion of an iteration; DWA success (C50) | `checked_or_zero` |
| C65 | Dynamic-window following is bounded and revalidated | the counter of the loop | invariant with modular counter; tightness by a run | `following_is_bounded`, `bound_is_reached` |
| C66 | A failed follow-up always triggers replanning | stage_check | inversion of an iteration | `replans`, `nothing_found` |
| C67 | Published twists are safe on the current map (refuted) | loop, callbacks, publication | two complete binary64 runs | `safe_when_published_refuted`, `half_updated_map_refuted` |
| C68 | Stale poses | stage_lookup | invariant over executions | `last_pose`, `memory`, `stale_pose`, `plans_from_it` |
| C69 | Rays cover only the segment from the sensor to the hit (refuted) | updateMap | witness run; effect of a list of beams on the base cell | `rays_start_at_base`, `only_between_sensor_and_end_refuted` |
| C70 | Repeated free observations are irreversible | updateCell | monotone iteration over R, absorption in binary64 | `fifteen_free_observations`, `then_never_occupied` |
| C71 | Controller calls are defined | the whole controller call | totality lemma per stage | `control_defined`, `uninitialised` |
| C72 | A controller call solves the optimality system | the whole controller call | C46, C47, C59, C60, C61 combined along one call | `optimality_system` |
| C73 | Predictions move no farther than speed times time | integrate_twist, rollout | integral of the velocity bounded by the speed (mean value), triangle inequality along the rollout | `motion`, `step`, `rollout`, `between` |
| C74 | Predictions that leave the map | validate_control on leaving the map | C07 and C10; complete binary64 run of the cart node | `left_or_below`, `right_or_above`, `free_map_is_enough_refuted` |
| C75 | Published twists respect the velocity limits | both nodes, loop, callbacks | invariant over all executions: every stored and every received velocity is recoverable, every command in the box (C51, C55); the same with the rounding of the samples in binary64 (LimitsFloat) | `near_limits_binary64`, `within_limits`, `cart_never_moves_sideways_refuted` |
| C76 | The reference is long enough for the window | DynamicWindow follow with optTraj as reference | exact limit of C54 with the number of columns of C57; witness run | `reference_long_enough_refuted`, `step_to_spare` |
| C77 | Every iteration completes | one iteration of either node | totality of every stage (C71, C76, C10, C73) | `iteration_completes`, `whole_maps` |
| C78 | Clearance between the checked poses | validate_control | C14 at the nearest checked pose, C73 in between | `clearance` |
| C79 | Exactly which parameters start the node | the main functions of both nodes | inversion of each constructor, in order | `starts` |
| C80 | What RungeKutta45 returns for a motion with constant velocity | RungeKutta45::solve to its end: linspace, polyfit (a parameter), polyval | the stored points lie on the line at distinct times; a quartic with five roots is zero | `constant_velocity`, `omni_straight`, `four_steps`, `few_steps`, `costates` |
| C81 | Commanded motions keep clear of walls between the checked poses | the whole loop, the rollouts and the scan | C64 over the reals, then the argument of C78 for each kind of check | `commanded_motions_keep_clear` |
| C82 | The points RungeKutta45 fits are joined by accepted steps | the two loops of RungeKutta45::solve | invariant on the stored points, latest first; the list reversed | `forward`, `backward`, `next_step` |
| C83 | One step of RungeKutta45 on a linear equation | RungeKutta45::step | stage by stage as a multiple of the state, polynomial identities | `forward`, `backward` |
| C84 | What the loop can see of a map or odometry message being received | the callbacks as single assignments | the state is a number of assignments of one message over the state after the previous ones | `callbacks`, `loop` |
| C85 | How the nodes read their parameters | ParamModel (XmlRpcValue, NodeHandle::param and getParam, the order of reading in both programs, the loop over the targets) | the reading functions reduce on a server given as a list of entries; induction over the targets read before the failing one; floor and ceiling lemmas for the rounding | `counts`, `given`, `defaults`, `int_or_double`, `integer_coordinate_refuted`, `integer_means`, `integer_sigmas`, `short_sigmas`, `no_means`, `rounding`, `buffer_size` |
| C86 | The shipped configuration | as C85, with the two YAML files as lists of entries, and everything of C75, C77, C79 | the parameters read are computed; C79, C75 (both arithmetics) and C77 are instantiated with them; slack of the samples bounded by 2^-47 | `starts`, `starts_binary64`, `limits`, `limits_binary64`, `completes` |
| C87 | The plans of a running node are optimal for its parameters | the nodes, the loop and the controller, end to end | invariants of executions: the controller keeps the parameters it was built with, the memory holds looked-up poses, the coefficients belong to a map planned on; C72 for each planning iteration | `plans`, `first_plan`, `plans_carried_over`, `first_control_commanded` |
| C88 | Without visible obstacles only the plan is commanded | the nodes, the loop, validation and the search, end to end | every check of a cell of an open map returns false, lifted through the circle and radius loops; the maps read are those of the messages or torn ones (C84); induction over executions | `open_maps`, `percent_threshold` |
| C89 | Checks while the map changes | the control loop with every collision check of the validation and of the search reading the map anew (FineModel) | the loops thread a counter of checks through a stream of maps; induction over them relates the poses checked to the moments; the coarser executions embed by a stream that changes once; the refutation by a run in which the map changes between the two checks of a validation | `each_pose_on_its_map`, `maps_read`, `coarse_executions`, `passes_on_one_map_refuted` |
| C90 | A target out of sight ends the node | both nodes end to end in binary64, from the evaluation of the Gaussians to the command | the single NaN absorbs all operations: through the coefficients, the gradient, the four stages of the backward integration, the new controls and std::clamp; an invariant of executions links the domain of the controller to the maps planned on | `plan_out_of_sight`, `nothing_published`, `far_away`, `numbers_commanded_refuted` |
| C91 | Rollouts in double precision stay close to the motion commanded | integrate_twist, normalize_angle_PI, validate_control, the rollouts of the dynamic window and the nodes in binary64, the true motion over the reals | forward error analysis of one step: the quotients sin(a)/a and (cos(a)-1)/a with the rounding of a itself, then the rotation and the sum; the wrap by AngleFloat; induction over the steps with the exact flow, the error of the heading turning the rest of the way | `rollout`, `validated`, `commanded`, `one_ulp_refuted` |
| C92 | Accepted twists keep the robot clear of walls, rounding included | the same as C91, with the collision check, the lookup of the cell and the occupancy test in binary64 and the clearance over the reals | C91 gives a tested position next to the motion, C06 in binary64 its cell within 2^-19 of a side, C10 the exact meaning of the check, C14 that a wall crosses the circle; triangle inequalities between the tested positions | `validated`, `commanded` |
| C93 | The target distribution and the Fourier coefficients in double precision | Target::evaluate and fill, Basis::fourierBasis, spatialCoeff and trajCoeff in binary64, for every libm | relative error bounds of nonnegative sums, absolute bounds of sums of values in [-1,1], Lipschitz bounds of cosine; monotonicity of rounding for the range, the quotient (1/N)*N for the first coefficient | `evaluate`, `distribution`, `target`, `trajectory_mean`, `trajectory_range`, `first_is_one_refuted` |
| C94 | Clearance while the map changes | the checks of one iteration with the map read anew by each (FineModel.v), as in C89, and the arithmetic of C92 | C89 gives each pose clear on the map of its moment, C91 that the pose is next to the motion, C92 the clearance on one map; the nearest check for each time | `validated`, `commanded` |
| C95 | Values of a target in double precision | the constructor of Gaussian, its value with a translation, Target::evaluate and fill, spatialCoeff in binary64, for every libm | error propagation through the inverse variance, the offset and the quadratic form; the exponential of a relative error (q exp(-q) <= 1) and the Lipschitz bound of the bell; quotients of perturbed sums | `gaussian`, `evaluate`, `coefficients`, `out_of_sight` |
| C96 | Gradient of the ergodic metric in double precision | gradFourierBasis and gradErgodicMetric in binary64, for every libm | error propagation through the angles (Lipschitz bounds of sine and cosine), the products and the sums over the modes; auto_derive for the derivatives of a mode | `derivatives`, `mode`, `gradient` |
| C97 | Barrier at the edge of the domain in double precision | gradBarrier in binary64 | error propagation; the gate max(0, .) is Lipschitz, so that a comparison decided otherwise by rounding costs no more than the rounding; monotonicity of rounding for the signs | `derivative`, `gradient` |
| C98 | Control update in double precision | updateControl with fdu of Omni and SimpleCart and std::clamp in binary64, for every libm | error of a product of a matrix and a vector of approximations, twice; limiting is Lipschitz and exact; minimality from C61 for the real twin of the controller | `update`, `minimiser` |
| C99 | Distances and polar coordinates in double precision | distance, polar2Cartesian and polar2CartesianHomo in binary64, for every libm | error propagation; a square root is compared by squaring; rounding to nearest even is odd, which gives the symmetry; the failures by computation | `distance`, `any_distance_refuted`, `polar` |

## 5. Notes on the limits of single properties

* C04: The size-check expectation is false of the code (grid update does not check); refutation with witness, plus the true statement for sized messages.
* C05: Reals: all grids. binary64: under stated magnitude bounds; false for far origins (refuted theorem).
* C06: Reals, and binary64 up to 2^-19 of a cell.
* C07: Off-map points left of or below the origin are undefined behaviour; refuted expectation with witness, true parts proved. The undefined behaviour also in binary64 for cells of at most 1 m.
* C08: Reals and binary64; false in binary64 for far lower limits (refuted theorem).
* C13: Proved for radii up to 46340 cells and robot cells up to 2^30; sharp (46341 overflows).
* C15: Expectation refuted with binary64 witnesses; blind zone characterised; unreported diagonal cells at every distance; edge-adjacent pairs and axis cells are always reported.
* C32: binary64, for every exp/log obeying the annex F rules listed in SpecMapping.explog_rules.
* C33: Expectation refuted: any used beam touching a negative cell makes the update undefined; witness as Example.
* C40: Non-empty targets over the reals; empty target NaN in binary64.
* C42: Expectation refuted with witness; counts, ids and positions proved.
* C48: Expectation refuted (the weights of the fifth-order estimate do not sum to one); the exact result of a step is proved.
* C49: Termination of the adaptive loop proved for any arithmetic; the expectation on storage is refuted with a witness, one more column is proved to suffice. The fit after the loop is the subject of C80.
* C50: Success and failure, both overloads, binary64 and reals. Over the reals failure also covers costs within 1e-12 of the maximum double.
* C52: Expectation refuted: inverted windows, lateral velocity of the cart node, rounding of the accumulated sum (complete binary64 runs). A window that is not inverted stays within the limits but for the rounding of the samples, in binary64.
* C54: Index in range over the reals, with the exact limit, and in binary64 for at most 2^24 steps; the empty reference in binary64.
* C55: Reals; binary64 with NaN as the only exception, which occurs (C56_refuted).
* C56: Holds over the reals; binary64: throws only after NaN columns, and a complete run in which it throws.
* C57: Any arithmetic, except the orientation of the path (reals).
* C58: Expectation refuted for a new target and for a shifted map; exact conditions for recomputation proved over the reals.
* C63: Any arithmetic, any interleaving.
* C64: binary64, any libm. (Over the reals the check of the window differs only in its strictness at the largest double.)
* C65: Any arithmetic; bound and tightness.
* C66: Any arithmetic; the zero twist in binary64.
* C67: Two complete binary64 runs of the cart node as witnesses.
* C68: Any arithmetic.
* C69: Expectation refuted with binary64 witness; general statement about the base cell proved.
* C70: First half in exact arithmetic (reals), second half in binary64.
* C71: Reals. Memory exhaustion is not modelled.
* C72: Reals; Omni model and SimpleCart with zero lateral limits.
* C74: The two exact behaviours off the map are proved over the reals; the expectation that a free map is enough is refuted by a binary64 run of the node.
* C75: Over the reals, and in binary64 up to the rounding of the samples or NaN, under the stated assumption on odometry; without it refuted by a binary64 run.
* C76: The node's own check is not enough: refuted by a binary64 run. One step to spare is enough: proved over the reals.
* C77: Over the reals; memory exhaustion is not modelled.
* C80: arma::polyfit is a parameter: assumed is only that through at least five points of a line with different abscissae it returns a quartic of least squared deviation (an instance is given). That it throws for fewer than five points is Armadillo's documented requirement, not visible in /repo. Real arithmetic.
* C81: Real arithmetic.
* C82: The stored points; the quartic fitted to them is C80 (constant velocity only).
* C83: The expectation that the scheme is Fehlberg's fails by the stated excess (see C48).
* C85: The expectation that integers and decimals are interchangeable is refuted for the coordinates of the targets. XmlRpcValue and NodeHandle are modelled from their documented behaviour.
* C86: Completion of every iteration is over the reals; in binary64 the start and the limits are proved.
* C87: Real arithmetic. That the coefficients may come from an earlier map with another origin is the defect refuted in C58.
* C89: Planning still reads one map per iteration; the velocity of the robot is read once.
* C90: Stated for the exponents as computed; C95_out_of_sight gives it for real distances.
* C91: The accuracy asked of sine and cosine is a hypothesis, met by correctly rounded functions; C91_one_ulp_refuted shows that the part on the cosine near 0 is needed.
* C92: The radii are the whole cells that the code computes. The motion is assumed to stay on the map, by the accumulated rounding error.
* C93: A covariance whose inverse is not finite, nonnegative and at most 2^30 is outside the statement, as are values that all underflow to zero (C90).
* C94: The map is assumed not to change within one collision check; walls that are on some of the maps only are kept clear of around the checks on those.
* C95: The overload of the Gaussian without a translation, which the node does not call, is outside the statement.
* C96: The coefficients of the trajectory and the target are taken to be as many as the modes, as the basis makes them.

## 6. Print Assumptions, theorem by theorem

### none (closed under the global context) - 82 theorems

C01_row_major_bijection, C02_bounds_exact, C02_empty_grid_accepts_everything, C02_index_bounds_exact, C02_pair_bounds_imply_index_bounds, C03_constructor_accepts_iff_size_matches, C03_default, C03_message_constructor_accepts_iff_size_matches, C03_reads_total_after_construction, C03_size, C04_sized_messages_keep_reads_total, C04_update_is_message, C09_overloads_agree, C09_read_is_stored_byte, C10_collision_exact, C11_queries_agree, C12_nearest_obstacle, C12_none_means_nothing_scanned, C13_each_cell_once, C13_total, C14_chain_crosses_circle, C14_wall_is_seen, C15_axis_cells_reported, C15_blind_inside_boundary, C15_gaps_at_every_distance, C15_two_cells_reported, C17_constructor_validation, C18_keeps_the_oldest, C18_number_stored, C19_all_stored_then_trajectory, C19_empty_trajectory_refuted, C19_samples_then_trajectory, C30_effect, C30_ray_cells, C30_segment_box, C30_segment_start, C31_effect, C31_only_on_rays, C31_outside, C35_all_gated, C35_gated_ignored, C36_constructed, C36_numbers, C36_too_many, C41_history, C41_invalid_delete_undefined, C42_markers, C49_costate_terminates, C49_inverted_limits, C49_terminates, C50_follow_cost_unique, C53_counts_at_least_one, C53_evaluated, C55_inverted_limits, C57_columns, C57_first_column_dropped, C57_path_defined, C57_trajectory, C57_warm_start, C58_control_configures, C63_always_after, C63_callbacks, C63_nothing_before, C65_bound_is_reached, C65_following_is_bounded, C66_replans, C68_last_pose, C68_memory, C68_plans_from_it, C68_stale_pose, C69_rays_start_at_base, C84_callbacks, C84_loop, C85_defaults, C85_given, C85_integer_means, C85_integer_sigmas, C85_no_means, C85_short_sigmas, C88_open_maps, C89_coarse_executions, C89_maps_read

### `ClassicalDedekindReals.sig_forall_dec` - 2 theorems

C01_large_grid_refuted, C03_size_wraps_refuted

### `ClassicalDedekindReals.sig_forall_dec`, `ClassicalDedekindReals.sig_not_dec`, `FunctionalExtensionality.functional_extensionality_dep` - 1 theorems

C44_omni

### `ClassicalDedekindReals.sig_forall_dec`, `ClassicalDedekindReals.sig_not_dec`, `Classical_Prop.classic`, `FunctionalExtensionality.functional_extensionality_dep` - 263 theorems

C03_overflowing_size_accepted_refuted, C04_update_checks_size_refuted, C04_update_extent, C05_cell_centre_round_trip, C05_cell_centre_round_trip_binary64, C05_far_origin_refuted, C06_world2Grid_containing_cell, C06_world2Grid_containing_cell_binary64, C07_far_right_or_above_is_out_of_bounds, C07_in_bounds_means_near, C07_left_or_below_is_undefined, C07_left_or_below_is_undefined_binary64, C07_off_map_rejected_refuted, C08_axis_length_inverts_axis_upper, C08_axis_length_inverts_axis_upper_binary64, C08_axis_length_nearest, C08_constructors_agree_binary64, C08_far_origin_refuted, C09_reads_order_binary64, C10_collision_exact_on_map, C13_large_radius_refuted, C15_every_near_cell_reported_refuted, C15_inside_boundary_refuted, C16_high_threshold_disables, C16_high_threshold_disables_binary64, C16_raising_threshold, C16_raising_threshold_binary64, C16_unknown_is_never_an_obstacle, C16_unknown_is_never_an_obstacle_binary64, C17_nan_is_accepted, C17_nan_threshold_occupies_everything, C20_binary64_moderate, C20_binary64_range_refuted, C20_canonical, C20_idempotent, C20_identity_in_range, C20_wraps, C21_binary64_moderate, C21_binary64_range_refuted, C21_canonical, C21_wraps, C22_yaw_of_rpy, C22_yaw_quaternion, C23_acts_as_rigid_motion, C23_composes, C23_correct_inverse, C23_inverse_only_if, C23_inverse_refuted, C23_preserves_distance, C23_translation_then_rotation, C24_durations_add, C24_exact_motion, C24_heading, C24_motion_exists, C25_accepts_exactly, C25_initial_pose_unchecked, C25_rejects_exactly, C25_shorter_horizon, C26_path_follows_motion, C27_binary64_rounding, C27_step_count, C27_step_count_defined, C27_zero_step_undefined, C28_certain, C28_known_binary64, C28_maximum_at_half, C28_positive_at_most_ln2, C28_symmetric, C28_unknown, C28_unknown_binary64, C28_unknown_ranks_highest, C28_unknown_ranks_highest_binary64, C29_metric, C29_polar, C31_beam_end, C31_defined_on_known_maps, C32_certainty_absorbing, C32_range, C33_cell_refuted, C33_unknown_cells_refuted, C34_free, C34_occupied, C35_bearing, C35_gate, C35_nan_range_undefined, C36_values, C36_weights, C37_boundary, C37_gradient, C38_spatial, C38_spatial_bounds, C38_traj_bounds, C38_traj_mean, C38_traj_order, C39_bump, C39_constructor, C39_gaussian, C39_gaussian_untranslated, C39_order, C39_sum, C39_translation, C40_distribution, C40_empty_target_is_nan, C42_extent_follows_sigma_refuted, C42_extent_is_sorted, C43_cart, C43_mecanum, C43_omni, C43_simple_cart, C44_cart, C44_mecanum, C44_mecanum_inverse, C44_simple_cart, C45_accepts, C45_binary64, C45_throws, C46_columns, C46_defined, C46_driven_exists, C46_step, C46_step_count, C46_trajectory, C47_defined, C47_exact_step, C47_exact_step_cart, C47_exact_step_mecanum, C47_exact_step_simple_cart, C47_forward_order, C47_recurrence, C47_rhodot, C48_exact_refuted, C48_never_accepts, C48_step, C49_inverted_limits_undefined, C49_one_more_column, C49_storage_refuted, C50_failure, C50_failure_binary64, C50_follow_cost, C50_follow_failure_binary64, C50_follow_success, C50_follow_success_binary64, C50_success, C50_success_binary64, C51_control, C51_ends_are_samples, C51_equally_spaced, C51_one_sample, C51_within_limits, C52_binary64_refuted, C52_cart_follow_lateral_refuted, C52_cart_lateral_refuted, C52_control_exceeds_limit_refuted, C52_control_near_limits_binary64, C52_follow_near_limits_binary64, C52_inverted_window_refuted, C54_empty_reference_undefined, C54_exact_limit, C54_follow_never_throws, C54_follow_never_throws_binary64, C54_in_range, C55_limits, C55_limits_binary64, C56_never_throws, C56_refuted, C56_throws_only_on_nan_binary64, C57_path, C58_new_origin_refuted, C58_new_target_refuted, C58_recomputed, C58_unchanged, C59_ergodic_gradient, C60_barrier_gradient, C60_barrier_sign, C61_minimises, C62_constructor, C62_zero_steps, C64_checked_or_zero, C66_nothing_found, C67_half_updated_map_refuted, C67_safe_when_published_refuted, C69_only_between_sensor_and_end_refuted, C70_fifteen_free_observations, C70_then_never_occupied, C71_control_defined, C71_uninitialised, C72_optimality_system, C73_between, C73_motion, C73_rollout, C73_step, C74_free_map_is_enough_refuted, C74_left_or_below, C74_right_or_above, C75_cart_never_moves_sideways_refuted, C75_near_limits_binary64, C75_within_limits, C76_reference_long_enough_refuted, C76_step_to_spare, C77_iteration_completes, C77_whole_maps, C78_clearance, C79_starts, C80_constant_velocity, C80_costates, C80_few_steps, C80_four_steps, C80_omni_straight, C81_commanded_motions_keep_clear, C82_backward, C82_forward, C82_next_step, C83_backward, C83_forward, C85_buffer_size, C85_counts, C85_int_or_double, C85_integer_coordinate_refuted, C85_rounding, C86_completes, C86_limits, C86_limits_binary64, C86_starts, C86_starts_binary64, C87_first_control_commanded, C87_first_plan, C87_plans, C87_plans_carried_over, C88_percent_threshold, C89_each_pose_on_its_map, C89_passes_on_one_map_refuted, C90_far_away, C90_nothing_published, C90_numbers_commanded_refuted, C90_plan_out_of_sight, C91_commanded, C91_one_ulp_refuted, C91_rollout, C91_validated, C92_commanded, C92_validated, C93_distribution, C93_evaluate, C93_first_is_one_refuted, C93_target, C93_trajectory_mean, C93_trajectory_range, C94_commanded, C94_validated, C95_coefficients, C95_evaluate, C95_gaussian, C95_out_of_sight, C96_derivatives, C96_gradient, C96_mode, C97_derivative, C97_gradient, C98_minimiser, C98_update, C99_any_distance_refuted, C99_distance, C99_polar


