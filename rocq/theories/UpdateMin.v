(** The wanted control minimises the Hamiltonian. *)
From Coq Require Import Reals Lra ZArith List Bool.
From Flocq Require Import Core.Raux IEEE754.BinarySingleNaN.
From Verif Require Import Outcome Num Float64 GridModel NumericsModel BufferModel BasisModel RobotModel ErgodicModel SpecRobot SpecErgodic ErgodicReal ErgodicSystem SpecUpdate.
Import ListNotations.
Local Open Scope R_scope.

Definition twin (side : bool) (w lo hi : vec3 R) : ec R :=
  mkEC (if side then omni_plant else cart_plant) 0 0 0 0 0 (diag (/ v0 w) (/ v1 w) (/ v2 w)) [] None zero3 (0, 0) lo hi zero3 (mkBasis 0 0 [] []) (buffer_ctor 1 1) [].
Lemma clamp_limit v lo hi : lo <= hi -> @fclamp R RNum v lo hi = limit lo hi v.
Proof.
  intros O. unfold fclamp, limit. cbn [nlt RNum]. unfold Rltb. destruct (Rlt_dec v lo); [rewrite Rmin_right, Rmax_left by lra; reflexivity|].
  destruct (Rlt_dec hi v); [rewrite Rmin_left, Rmax_right by lra; reflexivity|]. rewrite Rmin_right, Rmax_right by lra. reflexivity.
Qed.
Lemma c98_minimiser (side : bool) (e : ec b64) (w : vec3 R) (x rho : vec3 b64) : inverse_of (ec_Rinv e) w ->
  ordered (v0 (ec_umin e)) (v0 (ec_umax e)) -> ordered (v1 (ec_umin e)) (v1 (ec_umax e)) -> ordered (v2 (ec_umin e)) (v2 (ec_umax e)) ->
  (side = true \/ B2R (v1 (ec_umin e)) = 0 /\ B2R (v1 (ec_umax e)) = 0) ->
  let t := turned side (B2R (v2 x)) rho in
  unique_minimiser (in_box (real3 (ec_umin e)) (real3 (ec_umax e))) (hamiltonian w (real3 x) (real3 rho))
    (V3 (wanted (r0 (ec_Rinv e)) (v0 (ec_umin e)) (v0 (ec_umax e)) t) (wanted (r1 (ec_Rinv e)) (v1 (ec_umin e)) (v1 (ec_umax e)) t)
        (wanted (r2 (ec_Rinv e)) (v2 (ec_umin e)) (v2 (ec_umax e)) t)).
Proof.
  intros (W0 & W1 & W2 & R0 & R1 & R2) (_ & _ & O0) (_ & _ & O1) (_ & _ & O2) Side t.
  assert (E : @new_control R RNum (twin side w (real3 (ec_umin e)) (real3 (ec_umax e))) (real3 x) (real3 rho) =
    V3 (wanted (r0 (ec_Rinv e)) (v0 (ec_umin e)) (v0 (ec_umax e)) t) (wanted (r1 (ec_Rinv e)) (v1 (ec_umin e)) (v1 (ec_umax e)) t)
        (wanted (r2 (ec_Rinv e)) (v2 (ec_umin e)) (v2 (ec_umax e)) t)).
  { unfold new_control, twin. cbn [ec_umin ec_umax ec_Rinv ec_model]. unfold real3. cbn [v0 v1 v2]. rewrite !clamp_limit by assumption.
    unfold wanted, real3 in *. injection R0 as A0 A1 A2. injection R1 as B0 B1 B2. injection R2 as C0 C1 C2. rewrite A0, A1, A2, B0, B1, B2, C0, C1, C2.
    unfold t, turned, mvmul, mtvmul, vneg, vdot, diag, col0, col1, col2. destruct side; cbn [r0 r1 r2 v0 v1 v2 omni_plant cart_plant pl_fdu omni_fdu simple_fdu];
    unfold n0, n1; cbn [nadd nmul nneg nofZ ncos nsin RNum]; f_equal; f_equal; ring. }
  rewrite <- E. set (e' := twin side w (real3 (ec_umin e)) (real3 (ec_umax e))) in *.
  assert (Tu : tuned e' w).
  { exists (V3 (/ v0 w) (/ v1 w) (/ v2 w)). split; [reflexivity|]. unfold weighted. cbn. auto 10. }
  change (real3 (ec_umin e)) with (ec_umin e'). change (real3 (ec_umax e)) with (ec_umax e').
  destruct side; [apply omni_min|destruct Side as [D|[Z1 Z2]]; [discriminate|apply cart_min]]; auto.
Qed.
