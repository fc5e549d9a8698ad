(** Examples for PropUpdate: a controller with unit weights and limits, two poses and two co-states. *)
From Coq Require Import Reals Lra ZArith Lia List.
From Flocq Require Import Core.Core IEEE754.BinarySingleNaN.
From Verif Require Import Outcome Num Float64 FloatLemmas NumericsModel BufferModel BasisModel RobotModel ErgodicModel SpecBarrier SpecUpdate PropCoeffAux PropSlopeAux.
Import ListNotations.
Local Open Scope R_scope.

Definition int3 (a b c : Z) : vec3 b64 := V3 (b64_ofZ a) (b64_ofZ b) (b64_ofZ c).
Definition driver : ec b64 := mkEC (@omni_plant b64 (F64 exact_libm)) (b64_ofZ 1) (b64_ofZ 2) (b64_ofZ 1) (b64_ofZ 3) 2 (M3 (int3 1 0 0) (int3 0 1 0) (int3 0 0 1))
  [zero33; zero33] (Some [b64_ofZ 1; b64_ofZ 0]) zero33 (b64_ofZ 0, b64_ofZ 0) (int3 (-1) (-1) (-1)) (int3 1 1 1) zero33 modes3 (@buffer_ctor b64 1 1) [].
Definition costates : list (vec3 b64) := [int3 2 (-1) 0; int3 0 1 (-2)].
Lemma int3_up (c a b d : Z) : (Z.abs a <= c)%Z -> (Z.abs b <= c)%Z -> (Z.abs d <= c)%Z -> (c <= 100)%Z -> up_to3 (IZR c) (int3 a b d).
Proof. intros A B D C. split; [|split]; apply int_bound; assumption. Qed.
Lemma int_ordered : ordered (b64_ofZ (-1)) (b64_ofZ 1).
Proof. destruct (ofZ_exact (-1) ltac:(lia)) as [E F]. destruct (ofZ_exact 1 ltac:(lia)) as [E' F']. split; [exact F|]. split; [exact F'|]. rewrite E, E'. lra. Qed.
Lemma driver_rows : up_to3 1 (r0 (ec_Rinv driver)) /\ up_to3 1 (r1 (ec_Rinv driver)) /\ up_to3 1 (r2 (ec_Rinv driver)).
Proof. split; [|split]; apply (int3_up 1); lia. Qed.
Lemma driver_limits : ordered (v0 (ec_umin driver)) (v0 (ec_umax driver)) /\ ordered (v1 (ec_umin driver)) (v1 (ec_umax driver)) /\ ordered (v2 (ec_umin driver)) (v2 (ec_umax driver)).
Proof. exact (conj int_ordered (conj int_ordered int_ordered)). Qed.
Lemma driver_states : Forall (fun x => up_to 2 (v2 x)) poses /\ Forall (up_to3 2) costates.
Proof.
  split.
  - apply Forall_cons; [apply (int_bound 0 2); lia|]. apply Forall_cons; [apply (int_bound 2 2); lia|]. apply Forall_nil.
  - apply Forall_cons; [apply (int3_up 2); lia|]. apply Forall_cons; [apply (int3_up 2); lia|]. apply Forall_nil.
Qed.
Lemma driver_inverse : inverse_of (ec_Rinv driver) (V3 1 1 1).
Proof.
  destruct (ofZ_exact 0 ltac:(lia)) as [E0 _]. destruct (ofZ_exact 1 ltac:(lia)) as [E1 _].
  unfold inverse_of, real3, driver, int3. cbn [ec_Rinv r0 r1 r2 v0 v1 v2]. rewrite E0, E1, Rinv_1. repeat split; lra.
Qed.
