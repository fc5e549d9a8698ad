(** Property theorems on nodes that see no obstacle: C88.  The notions are defined in SpecFree.v, proofs in FreeProofs. *)
From Coq Require Import ZArith List Bool.
From Flocq Require Import IEEE754.BinarySingleNaN.
From Verif Require Import Outcome Num Float64 GridModel CollisionModel NumericsModel BufferModel DwaModel ErgodicModel ExplorationModel
  SpecExploration SpecFree FreeProofs PropFreeAux.
Import ListNotations.

(** ** C88 *)
(** In every arithmetic: if no cell of the maps received reaches the threshold, every command is the first control of the plan made
    in the same iteration, and the dynamic window is never used. *)
Theorem C88_open_maps : forall T (NT : Num T) (om : bool) (p : params T) n l0 evs s l,
  (if om then omni_node p else cart_node p) = Ok (Some (n, l0)) -> exec n shared_init l0 evs s l ->
  open_maps (pa_occupied_threshold p) (messages evs) ->
  forall e, In e evs -> ~ took_over e /\ forall u, In (Cmd u) (ev_out e) -> planned e /\ nth_error (held e) 0 = Some u.
Proof. exact @c88_node. Qed.
Print Assumptions C88_open_maps.
Example C88_open_example : exists (L : libm) p n l evs s l' e u, @cart_node b64 (F64 L) p = Ok (Some (n, l)) /\ @exec b64 (F64 L) n (@shared_init b64 (F64 L)) l evs s l' /\
  @open_maps b64 (F64 L) (pa_occupied_threshold p) (messages evs) /\ In e evs /\ In (Cmd u) (ev_out e) /\ Bltb (v0 u) (B754_zero false) = true.
Proof. exact open_exec. Qed.
(** A threshold above 127/100, as one in percent is: the same for all maps, however many cells are occupied. *)
Theorem C88_percent_threshold : forall (L : libm) (om : bool) (p : params b64) n l0 evs s l,
  (if om then @omni_node b64 (F64 L) p else @cart_node b64 (F64 L) p) = Ok (Some (n, l0)) ->
  @nlt b64 (F64 L) (@ndiv b64 (F64 L) (@nofZ b64 (F64 L) 127) (@nofZ b64 (F64 L) 100)) (pa_occupied_threshold p) = true ->
  @exec b64 (F64 L) n (@shared_init b64 (F64 L)) l0 evs s l -> byte_maps (messages evs) ->
  forall e, In e evs -> ~ took_over e /\ forall u, In (Cmd u) (ev_out e) -> planned e /\ nth_error (held e) 0 = Some u.
Proof. exact c88_percent. Qed.
Print Assumptions C88_percent_threshold.
(** A node with threshold 50 publishes a velocity that collides if the threshold is 50/100. *)
Example C88_percent_example : exists (L : libm) p n l evs s l' e u, @cart_node b64 (F64 L) p = Ok (Some (n, l)) /\ @exec b64 (F64 L) n (@shared_init b64 (F64 L)) l evs s l' /\
  @nlt b64 (F64 L) (@ndiv b64 (F64 L) (@nofZ b64 (F64 L) 127) (@nofZ b64 (F64 L) 100)) (pa_occupied_threshold p) = true /\ byte_maps (messages evs) /\ In e evs /\ In (Cmd u) (ev_out e) /\
  @validate_control b64 (F64 L) (mkCollision (pa_boundary_radius p) (pa_search_radius p) (pa_obstacle_threshold p) (@ndiv b64 (F64 L) (pa_occupied_threshold p) (@nofZ b64 (F64 L) 100)))
    (check_map e) (ev_pose e) u (pa_val_dt p) (pa_val_horizon p) = Ok false.
Proof. exact percent_exec. Qed.
