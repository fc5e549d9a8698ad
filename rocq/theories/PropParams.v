(** Properties C85 (how the nodes read their parameters) and C86 (the shipped configuration).  The notions are defined in
    SpecParams.v; [main_of omni s] is the program up to its loop, [node_with omni p] the same from given parameters on. *)
From Coq Require Import Reals ZArith List Bool String Lia Lra.
From Flocq Require Import Core.Core IEEE754.BinarySingleNaN.
From Verif Require Import Outcome Num Float64 GridModel CollisionModel NumericsModel BufferModel BasisModel ErgodicModel ExplorationModel ParamModel
  SpecErgodic SpecExploration SpecSystem SpecParams ParamProofs ShippedProofs PropParamsAux.
Import ListNotations.
Local Open Scope string_scope.
Local Open Scope list_scope.

(** ** C85 *)
(** The arithmetics of the two readings of the model convert counts exactly. *)
Theorem C85_counts : exact_counts RNum /\ forall L : libm, exact_counts (F64 L).
Proof. exact (conj exact_R exact_64). Qed.
Print Assumptions C85_counts.
(** Parameters that are all given are used, each under its name; negative counts wrap modulo 2^32. *)
Theorem C85_given : forall (T : Type) (NT : Num T) omni (p : params T), exact_counts NT -> (0 <= pa_buffer_size p < 2 ^ 31)%Z ->
  main_of omni (entries (entries_of p)) = node_with omni (wrapped p).
Proof. exact (fun T NT omni p E B => c85_given omni p (E _ B)). Qed.
Print Assumptions C85_given.
(** Parameters that are all absent, but for the targets, have the documented defaults. *)
Theorem C85_defaults : forall (T : Type) (NT : Num T) omni (gs : list ((T * T) * (T * T))), exact_counts NT ->
  main_of omni (entries (targets_entries gs)) = node_with omni (defaults omni gs).
Proof. exact (fun T NT omni gs E => c85_defaults omni gs (E 1000000%Z million)). Qed.
Print Assumptions C85_defaults.
(** Writing a number as an int or as a double makes no difference ... *)
Theorem C85_int_or_double : forall omni (s s' : server R), s "means" = s' "means" -> s "sigmas" = s' "sigmas" ->
  (forall name, name <> "means" -> name <> "sigmas" -> same_value (s name) (s' name)) -> main_of omni s = main_of omni s'.
Proof. exact c85_same. Qed.
Print Assumptions C85_int_or_double.
(** ... except in the coordinates of the targets, where the program is left by an exception at the first int. *)
Theorem C85_integer_coordinate_refuted : exists (p : params R) gs, is_ok (main_of false (with_targets (XArray (rows fst gs)) (XArray (rows snd gs)) p)) = true /\
  main_of false (with_targets (XArray [XArray [XInt 2; XInt 3]]) (XArray (rows snd gs)) p) = Throw EXmlRpc /\ map fst gs = [(2%R, 3%R)].
Proof. exact integer_coordinate. Qed.
Print Assumptions C85_integer_coordinate_refuted.
Theorem C85_integer_means : forall (T : Type) (NT : Num T) omni (p : params T) gs ts x M S, exact_counts NT -> (0 <= pa_buffer_size p < 2 ^ 31)%Z ->
  (rows_of omni <= List.length (pa_weights p))%nat -> gaussians_of gs = Ok ts -> integer_pair x ->
  main_of omni (with_targets (XArray (rows fst gs ++ x :: M)) (XArray (rows snd gs ++ S)) p) = Throw EXmlRpc.
Proof. exact (fun T NT omni p gs ts x M S E B => c85_integer_means omni p gs ts x M S (E _ B)). Qed.
Print Assumptions C85_integer_means.
Theorem C85_integer_sigmas : forall (T : Type) (NT : Num T) omni (p : params T) gs ts mu x M S, exact_counts NT -> (0 <= pa_buffer_size p < 2 ^ 31)%Z ->
  (rows_of omni <= List.length (pa_weights p))%nat -> gaussians_of gs = Ok ts -> integer_pair x ->
  main_of omni (with_targets (XArray (rows fst gs ++ pair_entry mu :: M)) (XArray (rows snd gs ++ x :: S)) p) = Throw EXmlRpc.
Proof. exact (fun T NT omni p gs ts mu x M S E B => c85_integer_sigmas omni p gs ts mu x M S (E _ B)). Qed.
Print Assumptions C85_integer_sigmas.
(** Fewer sigmas than means: the value of a double that was never set is read. *)
Theorem C85_short_sigmas : forall (T : Type) (NT : Num T) omni (p : params T) gs ts mu M, exact_counts NT -> (0 <= pa_buffer_size p < 2 ^ 31)%Z ->
  (rows_of omni <= List.length (pa_weights p))%nat -> gaussians_of gs = Ok ts ->
  main_of omni (with_targets (XArray (rows fst gs ++ pair_entry mu :: M)) (XArray (rows snd gs)) p) = UB UUninit.
Proof. exact (fun T NT omni p gs ts mu M E B => c85_short_sigmas omni p gs ts mu M (E _ B)). Qed.
Print Assumptions C85_short_sigmas.
(** Without means the program is left by an exception: the targets have no default. *)
Theorem C85_no_means : forall (T : Type) (NT : Num T) omni (p : params T) S, exact_counts NT -> (0 <= pa_buffer_size p < 2 ^ 31)%Z ->
  (rows_of omni <= List.length (pa_weights p))%nat -> main_of omni (entries (("sigmas", S) :: numbers_of p)) = Throw EXmlRpc.
Proof. exact (fun T NT omni p S E B => c85_no_means omni p S (E _ B)). Qed.
Print Assumptions C85_no_means.
(** A count given as a double is rounded to the nearest integer if it is positive, downwards if it is negative. *)
Theorem C85_rounding : forall (s : server R) name dflt d, s name = Some (XDouble d) -> (- 2147483648 <= d <= 2147483647)%R ->
  get_int s name dflt = Ok (if Rle_dec 0 d then Zfloor (d + 1 / 2) else Zfloor d).
Proof. exact rounding. Qed.
Print Assumptions C85_rounding.
(** The size of the buffer is read as a double and converted: out of range this is undefined. *)
Theorem C85_buffer_size : forall omni (s : server R) x, (s "buffer_size" = Some (XDouble x) \/ exists z, s "buffer_size" = Some (XInt z) /\ x = IZR z) ->
  (forall y, s "num_basis" <> Some (XDouble y)) -> (x <= -1 \/ 4294967296 <= x)%R -> main_of omni s = UB UFloatCast.
Proof. exact c85_buffer. Qed.
Print Assumptions C85_buffer_size.

Example C85_example_given : (0 <= pa_buffer_size (shipR true) < 2 ^ 31)%Z /\ is_ok (main_of true (entries (entries_of (shipR true)))) = true /\
  wrapped (shipR true) = shipR true.
Proof. exact given_example. Qed.
Example C85_example_wraps : pa_vx_samples (wrapped (@defaults R RNum false [])) = 3%Z /\
  (- 1 mod 2 ^ 32 = 4294967295)%Z.
Proof. split; reflexivity. Qed.
Example C85_example_same : same_value (Some (XInt 2)) (Some (XDouble 2%R)) /\
  same_value (Some (XArray [XInt 1; XDouble (1 / 2)%R])) (Some (XArray [XDouble 1%R; XDouble (1 / 2)%R])).
Proof. exact same_example. Qed.
Example C85_example_targets : (rows_of false <= List.length (pa_weights (shipR false)))%nat /\ integer_pair (@XArray R [XInt 2; XDouble 3%R]) /\
  exists ts, gaussians_of [((1%R, 1%R), (2%R, 2%R))] = Ok ts /\ List.length ts = 1%nat.
Proof. exact targets_example. Qed.
Example C85_example_rounding : get_int (entries [("batch_size", XDouble (5 / 2)%R)]) "batch_size" 100 = Ok 3%Z /\
  get_int (entries [("batch_size", XDouble (-5 / 4)%R)]) "batch_size" 100 = Ok (-2)%Z.
Proof. exact rounding_example. Qed.
Example C85_example_buffer : main_of false (entries [("buffer_size", XInt (-1)); ("means", XArray []); ("sigmas", @XArray R [])]) = UB UFloatCast.
Proof. exact buffer_example. Qed.

(** ** C86 *)
(** With the shipped files both nodes start, over the reals and in binary64 whatever the mathematical library. *)
Theorem C86_starts : forall omni, exists n l, main_of omni (entries (shipped omni)) = @Ok (setup R) (Some (n, l)).
Proof. exact c86_starts. Qed.
Print Assumptions C86_starts.
Theorem C86_starts_binary64 : forall (L : libm) omni, exists n l, @main_of b64 (F64 L) omni (entries (@shipped b64 (F64 L) omni)) = Ok (Some (n, l)).
Proof. exact c86_starts64. Qed.
Print Assumptions C86_starts_binary64.
(** Then every published velocity is within the limits of the file, if the odometry stays within 1.5 m/s and 2.2 rad/s. *)
Theorem C86_limits : forall omni n l0 evs s l e (u : vec3 R), main_of omni (entries (shipped omni)) = Ok (Some (n, l0)) ->
  exec n shared_init l0 evs s l -> calm omni (messages evs) -> In e evs -> In (Cmd u) (ev_out e) ->
  (Rabs (v0 u) <= 1 /\ Rabs (v1 u) <= (if omni then 1 else 0) /\ Rabs (v2 u) <= 2)%R.
Proof. exact c86_limits. Qed.
Print Assumptions C86_limits.
Theorem C86_limits_binary64 : forall (L : libm) omni n l0 evs s l e u, @main_of b64 (F64 L) omni (entries (@shipped b64 (F64 L) omni)) = Ok (Some (n, l0)) ->
  @exec b64 (F64 L) n (@shared_init b64 (F64 L)) l0 evs s l -> calm64 omni (messages evs) -> In e evs -> In (Cmd u) (ev_out e) ->
  at_most 1 (v0 u) /\ at_most (if omni then 1 else 0)%R (v1 u) /\ at_most 2 (v2 u).
Proof. exact c86_limits64. Qed.
Print Assumptions C86_limits_binary64.
(** And every iteration completes as long as the maps leave 3 m around the robot. *)
Theorem C86_completes : forall omni n l0 evs s l lk draws t m0 m1 m2 m3, main_of omni (entries (shipped omni)) = @Ok (setup R) (Some (n, l0)) ->
  exec n shared_init l0 evs s l -> callbacks m0 s (mo_test t) -> callbacks m1 (mo_test t) (mo_plan t) ->
  callbacks m2 (mo_plan t) (mo_check t) -> callbacks m3 (mo_check t) (mo_dwa t) -> calm omni (messages evs ++ m0 ++ m1 ++ m2 ++ m3) ->
  let x := last_pose (lp_pose l) [lk] in roomy x (sh_grid (mo_plan t)) -> roomy x (sh_grid (mo_check t)) -> roomy x (sh_grid (mo_dwa t)) ->
  drawable (ec_buffer (lp_ec (stage_lookup l lk))) draws -> exists l' out, ExplorationModel.body n l (view lk draws t) = Ok (l', out).
Proof. exact c86_completes. Qed.
Print Assumptions C86_completes.
Example C86_example_map : roomy (V3 (11 / 2) (11 / 2) 0)%R (grid_of_msg (mkMsg 10 10 1%R 0%R 0%R (repeat 0%Z 100))).
Proof. exact roomy_example. Qed.
Example C86_example_calm : calm true [MOdom (V3 (3 / 2) (-1) (11 / 5))%R; MMap (mkMsg 2 1 1%R 0%R 0%R [10; 20]%Z)] /\
  calm64 false [MOdom (V3 (b64_ofZ 1) (b64_ofZ 0) (b64_ofZ (-2)))].
Proof. exact calm_example. Qed.
(** A run of either node with the shipped file that publishes a twist. *)
Example C86_example_run : forall omni, exists n l evs s l' e (u : vec3 R), main_of omni (entries (shipped omni)) = Ok (Some (n, l)) /\
  exec n shared_init l evs s l' /\ calm omni (messages evs) /\ In e evs /\ In (Cmd u) (ev_out e).
Proof. exact shipped_run. Qed.
