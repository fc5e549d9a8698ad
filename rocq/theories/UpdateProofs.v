(** The update of the controls in binary64 arithmetic: proofs. *)
From Coq Require Import Reals Lra ZArith Lia List Psatz Bool.
From Flocq Require Import Core.Core IEEE754.BinarySingleNaN.
From Verif Require Import Outcome Num Float64 FloatLemmas NumericsModel BufferModel BasisModel RobotModel ErgodicModel NearProofs SpecCoeff CoeffProofs SpecSlope SlopeProofs SpecBarrier BarrierProofs SpecUpdate.
Import ListNotations.
Local Open Scope R_scope.
Notation is_finite := BinarySingleNaN.is_finite.

(** [x] is a number within [a] of [X], which is of at most [p] in size. *)
Definition near (x : b64) (X a p : R) : Prop := is_finite x = true /\ Rabs (B2R x - X) <= a /\ Rabs X <= p.
Section Lib.
Variable L : libm.
Notation N := (F64 L).

Lemma dot_close (a b : vec3 b64) (A B : vec3 R) al p be g q : 0 <= al -> 1 <= g * (p + al) <= bpow radix2 90 ->
  near (v0 a) (v0 A) al p -> near (v1 a) (v1 A) al p -> near (v2 a) (v2 A) al p ->
  near (v0 b) (v0 B) be q -> near (v1 b) (v1 B) be q -> near (v2 b) (v2 B) be q -> q + be <= g ->
  is_finite (@vdot b64 N a b) = true /\
  Rabs (B2R (@vdot b64 N a b) - (v0 A * v0 B + v1 A * v1 B + v2 A * v2 B)) <= 3 * (al * g + p * be) + 15 * (g * (p + al)) * ueps.
Proof.
  intros Pal HG (Fa0 & Ea0 & Ba0) (Fa1 & Ea1 & Ba1) (Fa2 & Ea2 & Ba2) (Fb0 & Eb0 & Bb0) (Fb1 & Eb1 & Bb1) (Fb2 & Eb2 & Bb2) Hg.
  pose proof u_small as U. pose proof tiny_small as TS. assert (B100 : 100 * bpow radix2 90 <= bpow radix2 100) by (rewrite (bpow_plus radix2 90 10 : bpow radix2 100 = _); pose proof (bpow_gt_0 radix2 90); change (bpow radix2 10) with 1024; nra).
  assert (prod : forall (x y : b64) (X Y : R), is_finite x = true -> is_finite y = true -> Rabs (B2R x - X) <= al -> Rabs X <= p -> Rabs (B2R y - Y) <= be -> Rabs Y <= q ->
    is_finite (Bmult mode_NE x y) = true /\ Rabs (B2R (Bmult mode_NE x y) - X * Y) <= al * g + p * be + ueps * (g * (p + al)) + tiny /\ Rabs (B2R (Bmult mode_NE x y)) <= 2 * (g * (p + al))).
  { intros x y X Y Fx Fy Ex BX Ey BY. pose proof (near_abs _ _ _ _ Ey BY) as By. pose proof (near_abs _ _ _ _ Ex BX) as Bx.
    destruct (round_prod x y X Y al be p g Fx Fy Ex Ey ltac:(lra) BX Pal ltac:(lra)) as [F E]. split; [exact F|]. split; [exact E|].
    assert (P : Rabs (B2R x * B2R y) <= g * (p + al)) by (rewrite Rmult_comm; apply mul_le; lra).
    destruct (fmult_abs x y Fx Fy ltac:(lra)) as (e & h & He & Hh & -> & _).
    pose proof (add_le _ _ _ _ (mul_le _ _ _ _ P (one_plus_le _ _ He)) Hh). set (G := g * (p + al)) in *. assert (G * (1 + ueps) <= G * (1 + / 1000000)) by (apply Rmult_le_compat_l; lra). lra. }
  destruct (prod _ _ _ _ Fa0 Fb0 Ea0 Ba0 Eb0 Bb0) as (F0 & E0 & M0). destruct (prod _ _ _ _ Fa1 Fb1 Ea1 Ba1 Eb1 Bb1) as (F1 & E1 & M1). destruct (prod _ _ _ _ Fa2 Fb2 Ea2 Ba2 Eb2 Bb2) as (F2 & E2 & M2). clear prod.
  change (@vdot b64 N a b) with (Bplus mode_NE (Bplus mode_NE (Bmult mode_NE (v0 a) (v0 b)) (Bmult mode_NE (v1 a) (v1 b))) (Bmult mode_NE (v2 a) (v2 b))).
  set (G := g * (p + al)) in *. set (t0 := Bmult mode_NE (v0 a) (v0 b)) in *. set (t1 := Bmult mode_NE (v1 a) (v1 b)) in *. set (t2 := Bmult mode_NE (v2 a) (v2 b)) in *.
  clearbody t0 t1 t2. set (ep := al * g + p * be) in *. clearbody ep.
  assert (S0 := add_le _ _ _ _ M0 M1). destruct (fplus_abs t0 t1 F0 F1 ltac:(lra)) as (e & He & Es & Fs). set (s := Bplus mode_NE t0 t1) in *.
  assert (Ds := mul_le _ _ _ _ S0 He). replace ((B2R t0 + B2R t1) * e) with (B2R s - (B2R t0 + B2R t1)) in Ds by (rewrite Es; ring).
  assert (UG : ueps * G <= / 1000000 * G) by (apply Rmult_le_compat_r; lra).
  assert (Ms := near_abs _ _ _ _ Ds S0). clearbody s. clear Es.
  assert (S1 := add_le _ _ _ _ Ms M2). destruct (fplus_abs s t2 Fs F2 ltac:(lra)) as (e' & He' & Et & Ft). split; [exact Ft|].
  assert (Dt := mul_le _ _ _ _ S1 He'). replace ((B2R s + B2R t2) * e') with (B2R (Bplus mode_NE s t2) - (B2R s + B2R t2)) in Dt by (rewrite Et; ring).
  assert (GU : (2 * G + 2 * G + (2 * G + 2 * G) * ueps + 2 * G) * ueps <= 7 * G * ueps) by (apply Rmult_le_compat_r; lra).
  assert (Gu1 : ueps <= G * ueps) by (rewrite <- (Rmult_1_l ueps) at 1; apply Rmult_le_compat_r; lra).
  apply Rabs_le_inv in Dt. apply Rabs_le_inv in Ds. apply Rabs_le_inv in E0. apply Rabs_le_inv in E1. apply Rabs_le_inv in E2. apply Rabs_le. lra.
Qed.

Lemma limit_lip lo hi a b : Rabs (limit lo hi a - limit lo hi b) <= Rabs (a - b).
Proof. unfold limit, Rmax, Rmin, Rabs. repeat (destruct Rle_dec || destruct Rcase_abs); lra. Qed.
Lemma clamp_is (v lo hi : b64) : is_finite v = true -> ordered lo hi ->
  is_finite (@fclamp b64 N v lo hi) = true /\ B2R (@fclamp b64 N v lo hi) = limit (B2R lo) (B2R hi) (B2R v).
Proof.
  intros Fv (Fl & Fh & O). change (@fclamp b64 N v lo hi) with (if Bltb v lo then lo else if Bltb hi v then hi else v). rewrite !Bltb_R by assumption. unfold limit.
  destruct (Rlt_bool_spec (B2R v) (B2R lo)) as [H|H]; [split; [exact Fl|]; rewrite Rmin_right, Rmax_left by lra; reflexivity|].
  destruct (Rlt_bool_spec (B2R hi) (B2R v)) as [K|K]; [split; [exact Fh|]; rewrite Rmin_left, Rmax_right by lra; reflexivity|].
  split; [exact Fv|]. rewrite Rmin_right, Rmax_right by lra. reflexivity.
Qed.
Lemma ordered_clampable lo hi : ordered lo hi -> @clampable b64 N lo hi = true.
Proof. intros (Fl & Fh & O). change (@clampable b64 N lo hi) with (negb (Bltb hi lo)). rewrite Bltb_R, Rlt_bool_false by assumption. reflexivity. Qed.

Lemma up_near M (x : b64) : up_to M x -> near x (B2R x) 0 M.
Proof. intros [F B]. split; [exact F|]. rewrite Rminus_eq_0, Rabs_R0. split; [lra|exact B]. Qed.
Lemma near_le x X a p a' p' : near x X a p -> a <= a' -> p <= p' -> near x X a' p'.
Proof. intros (F & E & B) H1 H2. split; [exact F|]. split; lra. Qed.
Lemma int_near z : (Z.abs z <= 1)%Z -> near (b64_ofZ z) (IZR z) ueps 1.
Proof. intros H. destruct (ofZ_exact z ltac:(lia)) as [E F]. split; [exact F|]. rewrite E, Rminus_eq_0, Rabs_R0, <- abs_IZR. split; [left; apply ueps_pos|apply (IZR_le _ 1), H]. Qed.
Lemma cos_near A th : close_cos L A -> is_finite th = true -> Rabs (B2R th) <= A -> near (m_cos L th) (cos (B2R th)) ueps 1.
Proof. intros C F B. destruct (C th F B) as [G E]. split; [exact G|]. split; [exact E|apply Rabs_le, COS_bound]. Qed.
Lemma sin_near A th : close_sin L A -> is_finite th = true -> Rabs (B2R th) <= A -> near (m_sin L th) (sin (B2R th)) ueps 1.
Proof. intros C F B. destruct (C th F B) as (G & _ & E). split; [exact G|]. split; [exact E|apply Rabs_le, SIN_bound]. Qed.
Lemma opp_near x X a p : near x X a p -> near (Bopp x) (- X) a p.
Proof. intros (F & E & B). unfold near. rewrite is_finite_Bopp, B2R_Bopp, Rabs_Ropp. split; [exact F|]. split; [|exact B]. replace (- B2R x - - X) with (- (B2R x - X)) by ring. rewrite Rabs_Ropp. exact E. Qed.

Lemma turn_close (side : bool) A P (x rho : vec3 b64) : close_cos L A -> close_sin L A -> 1 <= P <= 1073741824 -> up_to A (v2 x) -> up_to3 P rho ->
  let b := @mtvmul b64 N (if side then @omni_fdu b64 N x else @simple_fdu b64 N x) rho in let t := turned side (B2R (v2 x)) rho in
  near (v0 b) (v0 t) (20 * P * ueps) (3 * P) /\ near (v1 b) (v1 t) (20 * P * ueps) (3 * P) /\ near (v2 b) (v2 t) (20 * P * ueps) (3 * P).
Proof.
  intros C S HP [Fx Bx] (R0 & R1 & R2) b t. pose proof u_small as U. apply up_near in R0, R1, R2.
  assert (Nc := cos_near A _ C Fx Bx). assert (Ns := sin_near A _ S Fx Bx). assert (Nn := opp_near _ _ _ _ Ns). assert (N0 := int_near 0 ltac:(lia)). assert (N1 := int_near 1 ltac:(lia)).
  assert (PU : P * ueps <= P * / 1000000) by (apply Rmult_le_compat_l; lra).
  assert (B90 : 4294967296 <= bpow radix2 90) by (change 4294967296 with (bpow radix2 32); apply bpow_le; lia).
  assert (G : 1 <= P * (1 + ueps) <= bpow radix2 90) by (assert (0 <= P * ueps) by (apply Rmult_le_pos; lra); lra).
  assert (row : forall (a : vec3 b64) (a' : vec3 R), near (v0 a) (v0 a') ueps 1 -> near (v1 a) (v1 a') ueps 1 -> near (v2 a) (v2 a') ueps 1 -> forall r, r = v0 a' * B2R (v0 rho) + v1 a' * B2R (v1 rho) + v2 a' * B2R (v2 rho) ->
    near (@vdot b64 N a rho) r (20 * P * ueps) (3 * P)).
  { intros a a' A0 A1 A2 r ->. destruct (dot_close a rho a' (V3 (B2R (v0 rho)) (B2R (v1 rho)) (B2R (v2 rho))) ueps 1 0 P P ltac:(lra) G A0 A1 A2 R0 R1 R2 ltac:(lra)) as [F E]. cbn [v0 v1 v2] in E.
    split; [exact F|]. split.
    - assert (K : P * (1 + ueps) * ueps <= 11 / 10 * P * ueps) by (apply Rmult_le_compat_r; lra). assert (0 <= P * ueps) by (apply Rmult_le_pos; lra). lra.
    - pose proof (add_le _ _ _ _ (add_le _ _ _ _ (mul_le _ _ _ _ (proj2 (proj2 A0)) (proj2 (proj2 R0))) (mul_le _ _ _ _ (proj2 (proj2 A1)) (proj2 (proj2 R1)))) (mul_le _ _ _ _ (proj2 (proj2 A2)) (proj2 (proj2 R2)))). lra. }
  unfold b, t, turned. destruct side; cbn [v0 v1 v2]; (split; [|split]).
  - apply (row _ (V3 (cos (B2R (v2 x))) (sin (B2R (v2 x))) 0)); [exact Nc|exact Ns|exact N0|cbn [v0 v1 v2]; ring].
  - apply (row _ (V3 (- sin (B2R (v2 x))) (cos (B2R (v2 x))) 0)); [exact Nn|exact Nc|exact N0|cbn [v0 v1 v2]; ring].
  - apply (row _ (V3 0 0 1)); [exact N0|exact N0|exact N1|cbn [v0 v1 v2]; ring].
  - apply (row _ (V3 (cos (B2R (v2 x))) (sin (B2R (v2 x))) 0)); [exact Nc|exact Ns|exact N0|cbn [v0 v1 v2]; ring].
  - apply (row _ (V3 0 0 0)); [exact N0|exact N0|exact N0|cbn [v0 v1 v2]; ring].
  - apply (row _ (V3 0 0 1)); [exact N0|exact N0|exact N1|cbn [v0 v1 v2]; ring].
Qed.
Lemma component P Q (row b : vec3 b64) (t : vec3 R) lo hi : 1 <= P <= 1073741824 -> 1 <= Q <= 1073741824 -> up_to3 Q row -> ordered lo hi ->
  near (v0 b) (v0 t) (20 * P * ueps) (3 * P) -> near (v1 b) (v1 t) (20 * P * ueps) (3 * P) -> near (v2 b) (v2 t) (20 * P * ueps) (3 * P) ->
  meets lo hi (wanted row lo hi t) (120 * P * Q * bpow radix2 (-53)) (@fclamp b64 N (@nneg b64 N (@vdot b64 N row b)) lo hi).
Proof.
  intros HP HQ (Q0 & Q1 & Q2) O N0 N1 N2. fold ueps. pose proof u_small as U. apply up_near in Q0, Q1, Q2.
  assert (PU : P * ueps <= P * / 1000000) by (apply Rmult_le_compat_l; lra).
  assert (PQ : 1 <= P * Q <= 1073741824 * 1073741824) by (split; [rewrite <- (Rmult_1_l 1)|]; apply Rmult_le_compat; lra).
  assert (B90 : 8 * (1073741824 * 1073741824) <= bpow radix2 90) by (replace (8 * (1073741824 * 1073741824)) with (bpow radix2 63) by (cbn; lra); apply bpow_le; lia).
  destruct (dot_close row b (V3 (B2R (v0 row)) (B2R (v1 row)) (B2R (v2 row))) t 0 Q (20 * P * ueps) (4 * P) (3 * P) ltac:(lra) ltac:(lra) Q0 Q1 Q2 N0 N1 N2 ltac:(lra)) as [F E]. cbn [v0 v1 v2] in E.
  set (d := @vdot b64 N row b) in *. change (@nneg b64 N d) with (Bopp d).
  destruct (clamp_is (Bopp d) lo hi) as [G V]; [rewrite is_finite_Bopp; exact F|exact O|]. split; [exact G|]. rewrite V, B2R_Bopp. destruct O as (_ & _ & O). split.
  - unfold limit. split; [apply Rmax_l|]. apply Rmax_lub; [exact O|apply Rmin_l].
  - unfold wanted. eapply Rle_trans; [apply limit_lip|]. set (r := _ * v0 t + _ + _) in *. replace (- B2R d - - r) with (- (B2R d - r)) by ring. rewrite Rabs_Ropp.
    assert (0 <= P * Q * ueps) by (apply Rmult_le_pos; lra). lra.
Qed.

Lemma c98_update side A P Q (e : ec b64) xt rhot : lateral L e side -> close_cos L A -> close_sin L A -> 1 <= P <= 1073741824 -> 1 <= Q <= 1073741824 ->
  up_to3 Q (r0 (ec_Rinv e)) -> up_to3 Q (r1 (ec_Rinv e)) -> up_to3 Q (r2 (ec_Rinv e)) ->
  ordered (v0 (ec_umin e)) (v0 (ec_umax e)) -> ordered (v1 (ec_umin e)) (v1 (ec_umax e)) -> ordered (v2 (ec_umin e)) (v2 (ec_umax e)) ->
  exists us, @updateControl b64 N e xt rhot = Ok us /\ forall i x rho, nth_error xt i = Some x -> nth_error rhot i = Some rho -> up_to A (v2 x) -> up_to3 P rho ->
    exists u, nth_error us i = Some u /\ let t := turned side (B2R (v2 x)) rho in let err := 120 * P * Q * bpow radix2 (-53) in
    meets (v0 (ec_umin e)) (v0 (ec_umax e)) (wanted (r0 (ec_Rinv e)) (v0 (ec_umin e)) (v0 (ec_umax e)) t) err (v0 u) /\
    meets (v1 (ec_umin e)) (v1 (ec_umax e)) (wanted (r1 (ec_Rinv e)) (v1 (ec_umin e)) (v1 (ec_umax e)) t) err (v1 u) /\
    meets (v2 (ec_umin e)) (v2 (ec_umax e)) (wanted (r2 (ec_Rinv e)) (v2 (ec_umin e)) (v2 (ec_umax e)) t) err (v2 u).
Proof.
  intros Lat C S HP HQ R0 R1 R2 O0 O1 O2. exists (@new_controls b64 N e xt rhot). split.
  - unfold updateControl, clamps_defined. rewrite !ordered_clampable by assumption. unfold new_controls. destruct (combine xt rhot); reflexivity.
  - intros i x rho Hx Hr Bx Br. exists (@new_control b64 N e x rho). split.
    + unfold new_controls. rewrite nth_error_map. assert (K : nth_error (combine xt rhot) i = Some (x, rho)).
      { revert rhot i Hx Hr. induction xt as [|y xt IH]; intros [|r rhot] [|i] Hx Hr; try discriminate. - injection Hx as ->. injection Hr as ->. reflexivity. - exact (IH rhot i Hx Hr). }
      rewrite K. reflexivity.
    + destruct (turn_close side A P x rho C S HP Bx Br) as (T0 & T1 & T2).
      assert (Fd : pl_fdu (ec_model e) x = if side then @omni_fdu b64 N x else @simple_fdu b64 N x) by (rewrite Lat; destruct side; reflexivity).
      unfold new_control. rewrite Fd. cbv zeta.
      split; [|split]; [exact (component P Q _ _ _ _ _ HP HQ R0 O0 T0 T1 T2)|exact (component P Q _ _ _ _ _ HP HQ R1 O1 T0 T1 T2)|exact (component P Q _ _ _ _ _ HP HQ R2 O2 T0 T1 T2)].
Qed.
End Lib.
