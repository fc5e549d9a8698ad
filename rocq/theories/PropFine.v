(** Property theorems on checks during which the map changes: C89.  The interleaving is defined in FineModel.v, the notions in SpecFine.v,
    proofs are in FineProofs. *)
From Coq Require Import ZArith List Bool.
From Flocq Require Import IEEE754.BinarySingleNaN.
From Verif Require Import Outcome Num Float64 GridModel CollisionModel NumericsModel BufferModel DwaModel ErgodicModel ExplorationModel FineModel
  SpecDwa SpecExploration SpecShared SpecFine FineProofs PropFineAux.
Import ListNotations.
Local Open Scope Z_scope.

(** ** C89 *)
(** Every pose that a published command leads through was clear on the map of the moment at which it was checked.  A command that was
    not checked this way is the stop command, and then the command before it was found in collision. *)
Theorem C89_each_pose_on_its_map : forall (L : libm) (n : node b64) s l evs s' l' e u, @fine_exec b64 (F64 L) n s l evs s' l' -> In e evs -> In (Cmd u) (fe_out e) ->
  (exists k, @val_steps b64 (F64 L) n k /\ @clear_in_turn b64 (F64 L) (nd_collision n) (firstn k (fe_checks e)) (@rollout b64 (F64 L) k (nd_val_dt n) u (fine_pose e))) \/
  ((exists k w, @val_steps b64 (F64 L) n k /\ @crash_in_turn b64 (F64 L) (nd_collision n) (fe_checks e) (@rollout b64 (F64 L) k (nd_val_dt n) w (fine_pose e))) /\
   ((@sampled b64 (F64 L) (nd_dwa n) (sh_vb (fe_vb e)) u /\ exists k0, let k := Z.to_nat (dw_steps (nd_dwa n)) in
       @clear_in_turn b64 (F64 L) (dw_collision (nd_dwa n)) (firstn k (skipn k0 (fe_checks e))) (@rollout b64 (F64 L) k (dw_dt (nd_dwa n)) u (fine_pose e))) \/
    u = V3 (b64_ofZ 0) (b64_ofZ 0) (b64_ofZ 0))).
Proof. exact c89_64. Qed.
Print Assumptions C89_each_pose_on_its_map.
(** The map of each moment is the last one received before it, or a copy of that one in progress. *)
Theorem C89_maps_read : forall T (NT : Num T) (n : node T) l evs s' l' e r, fine_exec n shared_init l evs s' l' -> In e evs ->
  In r (fe_test e :: fe_plan e :: fe_vb e :: fe_checks e) -> exists ms rest, fine_messages evs = ms ++ rest /\ consistent ms shared_init r.
Proof. exact @c89_maps. Qed.
Print Assumptions C89_maps_read.
(** The executions of the other properties, where each stage reads one map, are among these. *)
Theorem C89_coarse_executions : forall T (NT : Num T) (n : node T) s l evs s' l', exec n s l evs s' l' ->
  exists fevs, fine_exec n s l fevs s' l' /\ map fe_out fevs = map ev_out evs /\ map fe_pre fevs = map ev_pre evs /\ fine_messages fevs = messages evs.
Proof. exact @c89_coarse. Qed.
Print Assumptions C89_coarse_executions.
(** A command published need not be clear on any one map: here it moves, and hits on each of the two maps received. *)
Theorem C89_passes_on_one_map_refuted : exists (L : libm) p n l evs s l' e u, @cart_node b64 (F64 L) p = Ok (Some (n, l)) /\ @fine_exec b64 (F64 L) n (@shared_init b64 (F64 L)) l evs s l' /\
  In e evs /\ In (Cmd u) (fe_out e) /\ Bltb (v0 u) (B754_zero false) = true /\ length (fine_messages evs) = 2%nat /\
  forall m, In m (fine_messages evs) -> exists g, m = MMap g /\ @hits b64 (F64 L) n (@grid_of_msg b64 (F64 L) g) (fine_pose e) u.
Proof. exact swap_exec. Qed.
Print Assumptions C89_passes_on_one_map_refuted.
(** The same run meets the hypotheses of the theorems above. *)
Example C89_example : exists (L : libm) p n l evs s l' e u, @cart_node b64 (F64 L) p = Ok (Some (n, l)) /\ @fine_exec b64 (F64 L) n (@shared_init b64 (F64 L)) l evs s l' /\
  In e evs /\ In (Cmd u) (fe_out e) /\ Bltb (v0 u) (B754_zero false) = true.
Proof.
  destruct swap_exec as (L & p & n & l & evs & s & l' & e & u & H). exists L, p, n, l, evs, s, l', e, u. intuition.
Qed.
