(** Examples for PropBarrier: the poses and the controller of PropSlope; the derivative of the barrier. *)
From Coq Require Import Reals Lra ZArith Lia List.
From Coquelicot Require Import Coquelicot.
From Flocq Require Import Core.Core IEEE754.BinarySingleNaN.
From Verif Require Import Outcome Num Float64 FloatLemmas NumericsModel BasisModel RobotModel ErgodicModel SpecErgodic ErgodicReal SpecBarrier PropSlopeAux.
Import ListNotations.
Local Open Scope R_scope.

Lemma derive_push l x : is_derive (barrier l) x (push l x).
Proof. replace (push l x) with (@bdx_at R RNum l x) by (rewrite bdx_R; unfold push; ring). apply derive_barrier. Qed.
Lemma poses_bounded x : In x poses -> up_to 2 (v0 x) /\ up_to 2 (v1 x).
Proof. intros [<-|[<-|[]]]; split; apply (int_bound _ 2); lia. Qed.
Lemma probe_domain : up_to 2 (bs_lx (ec_basis probe)) /\ up_to 2 (bs_ly (ec_basis probe)).
Proof. split; apply (int_bound 2 2); lia. Qed.
Lemma pose_pushed : exists x, In x poses /\ push (B2R (bs_lx (ec_basis probe))) (B2R (v0 x)) = -5 / 2.
Proof.
  exists (V3 (b64_ofZ 0) (b64_ofZ 1) (b64_ofZ 2)). split; [right; left; reflexivity|]. cbn [v0]. change (bs_lx (ec_basis probe)) with (b64_ofZ 2).
  rewrite (proj1 (ofZ_exact 0 ltac:(lia))), (proj1 (ofZ_exact 2 ltac:(lia))). unfold push. rewrite (Rmax_left 0 (0 - _)), Rmax_right by lra. lra.
Qed.
Lemma pose_free : exists x, In x poses /\ off_lower (B2R (v0 x)) /\ off_upper 2 (B2R (bs_lx (ec_basis probe))) (B2R (v0 x)).
Proof.
  exists (V3 (b64_ofZ 1) (b64_ofZ 1) (b64_ofZ 0)). split; [left; reflexivity|]. cbn [v0]. change (bs_lx (ec_basis probe)) with (b64_ofZ 2).
  rewrite (proj1 (ofZ_exact 1 ltac:(lia))), (proj1 (ofZ_exact 2 ltac:(lia))). unfold off_lower, off_upper. change (bpow radix2 (-53)) with (/ 9007199254740992). split; lra.
Qed.
