(** Property theorems on targets out of sight: C90.  The notions are defined in SpecFar.v, proofs in FarProofs. *)
From Coq Require Import ZArith List Bool.
From Flocq Require Import IEEE754.BinarySingleNaN.
From Verif Require Import Outcome Num Float64 GridModel CollisionModel NumericsModel BufferModel BasisModel RobotModel DwaModel ErgodicModel ExplorationModel
  SpecExploration SpecFar FarProofs PropFarAux.
Import ListNotations ExplorationModel.
Local Open Scope Z_scope.

(** ** C90 *)
(** If an iteration that completes planned on a map with new extents, all of it out of sight of the target, it is one of the omni node,
    every control of its plan is NaN, and so is the command published, which was validated over no step at all. *)
Theorem C90_plan_out_of_sight : forall (L : libm) (om : bool) (p : params b64) n l0 evs s l j e, 1 <= pa_num_basis p ->
  (if om then @omni_node b64 (F64 L) p else @cart_node b64 (F64 L) p) = Ok (Some (n, l0)) -> @exec b64 (F64 L) n (@shared_init b64 (F64 L)) l0 evs s l ->
  nth_error evs j = Some e -> planned e -> @new_extents b64 (F64 L) (firstn j evs) e -> out_of_sight L p (ev_map e) ->
  om = true /\ Forall nan3 (ec_ut (lp_ec (ev_post e))) /\ exists u, nan3 u /\ In (Cmd u) (ev_out e) /\ forall k, @val_steps b64 (F64 L) n k -> k = 0%nat.
Proof. exact c90_dark. Qed.
Print Assumptions C90_plan_out_of_sight.
(** Hence a cart node, or an omni node with at least one step to validate, never publishes anything if the target is out of sight of all maps it
    plans on: the first iteration that plans does not complete. *)
Theorem C90_nothing_published : forall (L : libm) (om : bool) (p : params b64) n l0 evs s l, 1 <= pa_num_basis p ->
  (if om then @omni_node b64 (F64 L) p else @cart_node b64 (F64 L) p) = Ok (Some (n, l0)) -> (om = true -> exists k, @val_steps b64 (F64 L) n (S k)) ->
  @exec b64 (F64 L) n (@shared_init b64 (F64 L)) l0 evs s l ->
  (forall e, In e evs -> planned e -> ~ @same_extents b64 (F64 L) (ev_map e) (@n0 b64 (F64 L), @n0 b64 (F64 L)) /\ out_of_sight L p (ev_map e)) ->
  forall e, In e evs -> ev_out e = [].
Proof. exact c90_silent. Qed.
Print Assumptions C90_nothing_published.
(** It is out of sight where all exponents are below -746, that is from 39 standard deviations on. *)
Theorem C90_far_away : forall (L : libm) p g, underflows L -> far_away L p g -> out_of_sight L p g.
Proof. exact c90_far. Qed.
Print Assumptions C90_far_away.
(** The iteration ends in the exception of the cart model, or in a cast of NaN. *)
Example C90_cart_example : exists (L : libm) p n l m, 1 <= pa_num_basis p /\ @cart_node b64 (F64 L) p = Ok (Some (n, l)) /\ underflows L /\ far_away L p (@grid_of_msg b64 (F64 L) m) /\
  @fails b64 (F64 L) n (@shared_init b64 (F64 L)) l [MMap m] (Throw EInvalidArgument).
Proof. exact cart_dark. Qed.
Example C90_omni_example : exists (L : libm) p n l m, 1 <= pa_num_basis p /\ @omni_node b64 (F64 L) p = Ok (Some (n, l)) /\ underflows L /\ far_away L p (@grid_of_msg b64 (F64 L) m) /\
  @fails b64 (F64 L) n (@shared_init b64 (F64 L)) l [MMap m] (UB UFloatCast).
Proof. exact omni_dark. Qed.
(** A node without a step to validate publishes NaN. *)
Theorem C90_numbers_commanded_refuted : exists (L : libm) p n l evs s l' e u, 1 <= pa_num_basis p /\ @omni_node b64 (F64 L) p = Ok (Some (n, l)) /\
  @exec b64 (F64 L) n (@shared_init b64 (F64 L)) l evs s l' /\ underflows L /\ far_away L p (ev_map e) /\ nth_error evs 0 = Some e /\ In (Cmd u) (ev_out e) /\ nan3 u.
Proof. exact nan_commanded. Qed.
Print Assumptions C90_numbers_commanded_refuted.
