(** The cases of /repo/test, run in the model: evidence that the definitions say what the code does.
    No property is stated here.  The tests of the grid are run in binary64, whatever the libm; the others,
    whose expected values are given to a tolerance, over the reals. *)
From Coq Require Import Reals Lra ZArith Lia List.
From Flocq Require Import Core.Raux Core.Zaux IEEE754.BinarySingleNaN.
From Verif Require Import Outcome Num Float64 GridModel CollisionModel NumericsModel RobotModel SpecMotion NumericsProofs MotionProofs.
Import ListNotations.

Section GridTests.
Context (L : libm).
Local Open Scope Z_scope.
Local Notation d p q := (@lit b64 (F64 L) p q).
(** test_grid.cpp:44-54: the bounds and the data of the first four tests *)
Local Notation whole := (@grid_ctor b64 (F64 L) (d 0 1) (d 2 1) (d 0 1) (d 3 1) (d 1 1) (repeat 0 6)).
(** test_grid.cpp:141-151, and with the data of 196-199 *)
Local Notation halves data := (@grid_ctor b64 (F64 L) (d (-1) 2) (d 1 2) (d 0 1) (d 3 2) (d 1 2) data).

(** test_grid.cpp:44-46: the sizes used for the data *)
Example ut_axis_length : @axis_length b64 (F64 L) (d 0 1) (d 2 1) (d 1 1) = Ok 2 /\
  @axis_length b64 (F64 L) (d 0 1) (d 3 1) (d 1 1) = Ok 3 /\
  @axis_length b64 (F64 L) (d (-1) 2) (d 1 2) (d 1 2) = Ok 2 /\
  @axis_length b64 (F64 L) (d 0 1) (d 3 2) (d 1 2) = Ok 3.
Proof. vm_compute. repeat split. Qed.
(** ASSERT_EQ and ASSERT_DOUBLE_EQ on doubles: here the very same double. *)
Local Notation same x y := (B2SF x = B2SF y).
(** GridTest.Grid2RowMajor, RowMajor2Grid, GridBoundsRowMajor, GridBoundsCoordinates *)
Example ut_grid_indices : match whole with Ok g => grid2RowMajor g 2 1 = 5 /\ rowMajor2Grid g 5 = Ok (2, 1) /\
  gridBoundsIdx g 5 = true /\ gridBoundsIdx g 6 = false /\ gridBounds g 2 0 = true /\ gridBounds g 0 2 = false | _ => False end.
Proof. vm_compute. repeat split. Qed.
(** GridTest.Grid2World *)
Example ut_grid2World : match halves (repeat 0 6) with Ok g =>
  (let c := @grid2World b64 (F64 L) g 0 1 in same (fst c) (d 1 4) /\ same (snd c) (d 1 4)) /\
  match @grid2WorldIdx b64 (F64 L) g 4 with Ok c => same (fst c) (d (-1) 4) /\ same (snd c) (d 5 4) | _ => False end | _ => False end.
Proof. vm_compute. repeat split. Qed.
(** GridTest.World2Grid *)
Example ut_world2Grid : match halves (repeat 0 6) with Ok g =>
  @world2Grid b64 (F64 L) g (d (-1) 4) (d 5 4) = Ok (2, 0) /\ @world2RowMajor b64 (F64 L) g (d 1 4) (d 3 4) = Ok 3 | _ => False end.
Proof. vm_compute. repeat split. Qed.
(** GridTest.GetCellValue *)
Example ut_getCell : match halves [0; 0; 0; 100; 90; 0] with Ok g =>
  match @getCellIdx b64 (F64 L) g 4, @getCellXY b64 (F64 L) g (d (-1) 4) (d 5 4), @getCell b64 (F64 L) g 1 1 with
  | Ok v1, Ok v2, Ok v3 => same v1 (d 9 10) /\ same v2 (d 9 10) /\ same v3 (d 1 1) | _, _, _ => False end | _ => False end.
Proof. vm_compute. repeat split. Qed.
End GridTests.

Local Open Scope R_scope.
(** Enclosures of the sines and cosines that the other tests take. *)
Lemma fact_S n : INR (fact (S n)) = IZR (Z.of_nat (S n)) * INR (fact n).
Proof. rewrite fact_simpl, mult_INR, (INR_IZR_INZ (S n)). reflexivity. Qed.
Lemma fact_0 : INR (fact 0) = 1.
Proof. reflexivity. Qed.
Local Opaque fact INR.
Ltac facts := rewrite ?fact_S, fact_0; cbn [Z.of_nat Pos.of_succ_nat Pos.succ].
Lemma sin_enc a : 0 <= a <= 4 ->
  a - a ^ 3 / 6 + a ^ 5 / 120 - a ^ 7 / 5040 <= sin a <= a - a ^ 3 / 6 + a ^ 5 / 120 - a ^ 7 / 5040 + a ^ 9 / 362880.
Proof.
  intros [H0 H4]. pose proof (pre_sin_bound a 1 H0 H4) as [A B].
  unfold sin_approx, sin_term in A, B. cbn [sum_f_R0 Nat.mul Nat.add] in A, B.
  assert (F : forall n, (n <= 9)%nat -> INR (fact n) = nth n [1; 1; 2; 6; 24; 120; 720; 5040; 40320; 362880] 0).
  { intros n Hn. do 10 (destruct n as [|n]; [facts; cbn [nth]; lra|]). lia. }
  rewrite !F in A by lia. rewrite !F in B by lia. cbn [nth pow] in A, B. cbn [pow]. lra.
Qed.
Lemma cos_enc a : -2 <= a <= 2 ->
  1 - a ^ 2 / 2 + a ^ 4 / 24 - a ^ 6 / 720 + a ^ 8 / 40320 - a ^ 10 / 3628800 <= cos a <=
  1 - a ^ 2 / 2 + a ^ 4 / 24 - a ^ 6 / 720 + a ^ 8 / 40320 - a ^ 10 / 3628800 + a ^ 12 / 479001600.
Proof.
  intros [H0 H4]. pose proof (pre_cos_bound a 2 H0 H4) as [A B].
  unfold cos_approx, cos_term in A, B. cbn [sum_f_R0 Nat.mul Nat.add] in A, B.
  assert (F : forall n, (n <= 12)%nat -> INR (fact n) = nth n [1; 1; 2; 6; 24; 120; 720; 5040; 40320; 362880; 3628800; 39916800; 479001600] 0).
  { intros n Hn. do 13 (destruct n as [|n]; [facts; cbn [nth]; lra|]). lia. }
  rewrite !F in A by lia. rewrite !F in B by lia. cbn [nth pow] in A, B. cbn [pow]. lra.
Qed.
(** ASSERT_NEAR *)
Definition near (a b tol : R) : Prop := Rabs (a - b) <= tol.
Lemma near_intro a b tol : b - tol <= a <= b + tol -> near a b tol.
Proof. intros H. unfold near. apply Rabs_le. lra. Qed.
Definition theta : R := 707 / 1000.
Lemma trig_theta : 760313961 / 1000000000 <= cos theta <= 760313962 / 1000000000 /\ 649555634 / 1000000000 <= sin theta <= 649555757 / 1000000000.
Proof.
  unfold theta. pose proof (cos_enc (707 / 1000) ltac:(lra)) as A. pose proof (sin_enc (707 / 1000) ltac:(lra)) as B. cbn [pow] in A, B. lra.
Qed.
Ltac run := cbn [cart_f cart_fdx cart_fdu cart_twist simple_f simple_fdx simple_fdu mec_f mec_fdx mec_fdu vscale fst snd w0 w1 w2 w3 v0 v1 v2 r0 r1 r2];
  unfold n0, n1, n2; cbn [nadd nsub nmul ndiv nneg nsin ncos nofZ RNum].
Ltac tests := pose proof trig_theta as [? ?]; repeat split; apply near_intro; unfold cart_f, cart_fdx, cart_fdu, cart_twist, simple_fdx, simple_fdu, mec_f, mec_fdx, mec_fdu, vscale; cbv zeta; run; lra.

Local Notation tol := (1 / 1000000).
Local Notation pose := (V3 1 2 theta).
Local Notation wr := (33 / 1000).
Local Notation wb := (8 / 100).
(** test_cart.cpp: CartKinematics, CartJacobianState, CartJacobianControl *)
Example ut_cart : let f := cart_f wr wb pose (1 / 10, 2 / 10) in let A := cart_fdx wr wb pose (1 / 10, 2 / 10) in let B := cart_fdu wr wb pose in
  (near (v0 f) (3763 / 1000000) tol /\ near (v1 f) (3215 / 1000000) tol /\ near (v2 f) (20625 / 1000000) tol) /\
  (near (v2 (r0 A)) (- (3215 / 1000000)) tol /\ near (v2 (r1 A)) (3763 / 1000000) tol) /\
  (near (v0 (fst B)) (12545 / 1000000) tol /\ near (v0 (snd B)) (12545 / 1000000) tol /\
   near (v1 (fst B)) (10717 / 1000000) tol /\ near (v1 (snd B)) (10717 / 1000000) tol /\
   near (v2 (fst B)) (- (20625 / 100000)) tol /\ near (v2 (snd B)) (20625 / 100000) tol).
Proof. cbv zeta. tests. Qed.
(** CartWheels2TwistStraight, CartWheels2LeftTurn, CartWheels2RightTurn *)
Example ut_cart_twist : let s := cart_twist wr wb (1, 1) in let l := cart_twist wr wb (-1, 1) in let r := cart_twist wr wb (1, -1) in
  (near (v0 s) wr tol /\ near (v1 s) 0 tol /\ near (v2 s) 0 tol) /\
  (near (v0 l) 0 tol /\ near (v1 l) 0 tol /\ near (v2 l) (4125 / 10000) tol) /\
  (near (v0 r) 0 tol /\ near (v1 r) 0 tol /\ near (v2 r) (- (4125 / 10000)) tol).
Proof. cbv zeta. tests. Qed.
(** SimpleCartKinematics, SimpleCartJacobianState, SimpleCartJacobianControl *)
Example ut_simple_cart : exists f, simple_f pose (V3 (1 / 2) 0 (1 / 100)) = Ok f /\
  let A := simple_fdx pose (V3 (1 / 2) 0 (1 / 100)) in let B := simple_fdu pose in
  (near (v0 f) (380156 / 1000000) tol /\ near (v1 f) (324777 / 1000000) tol /\ near (v2 f) (1 / 100) tol) /\
  (near (v2 (r0 A)) (- (324777 / 1000000)) tol /\ near (v2 (r1 A)) (380156 / 1000000) tol) /\
  (near (v0 (r0 B)) (760313 / 1000000) tol /\ near (v0 (r1 B)) (649555 / 1000000) tol).
Proof.
  eexists. split.
  - unfold simple_f. cbn [v1]. replace (almost_equal 0 n0) with true; [reflexivity|]. symmetry. apply almost_equal_R. unfold n0. cbn [nofZ RNum]. rewrite Rminus_0_r, Rabs_R0. lra.
  - cbv zeta. tests.
Qed.
(** test_omni.cpp: MecanumKinematics, MecanumJacobianState, MecanumJacobianControl *)
Example ut_mecanum : let u := V4 (5 / 10) (4 / 10) (6 / 10) (3 / 10) in let f := mec_f (1 / 10) (1 / 2) (1 / 2) pose u in
  let A := mec_fdx (1 / 10) (1 / 2) (1 / 2) pose u in let B := mec_fdu (1 / 10) (1 / 2) (1 / 2) pose in
  (near (v0 f) (40709 / 1000000) tol /\ near (v1 f) (21626 / 1000000) tol /\ near (v2 f) (5 / 1000) tol) /\
  (near (v2 (r0 A)) (- (21626 / 1000000)) tol /\ near (v2 (r1 A)) (40709 / 1000000) tol) /\
  (let b := fst (fst B) in near (w0 b) (35246 / 1000000) tol /\ near (w1 b) (2768 / 1000000) tol /\ near (w2 b) (35246 / 1000000) tol /\ near (w3 b) (2768 / 1000000) tol) /\
  (let b := snd (fst B) in near (w0 b) (- (2768 / 1000000)) tol /\ near (w1 b) (35246 / 1000000) tol /\ near (w2 b) (- (2768 / 1000000)) tol /\ near (w3 b) (35246 / 1000000) tol) /\
  (let b := snd B in near (w0 b) (- (25 / 1000)) tol /\ near (w1 b) (25 / 1000) tol /\ near (w2 b) (25 / 1000) tol /\ near (w3 b) (- (25 / 1000)) tol).
Proof. cbv zeta. tests. Qed.

(** test_integrator.cpp: RungeKutta *)
Lemma straight p : v2 p = 0 -> cart_f (1 / 10) 2 p (1, 1) = V3 (1 / 10) 0 0.
Proof.
  intros H. unfold cart_f, vscale, n2. cbn [v0 v1 v2 fst snd nadd nsub nmul ndiv nsin ncos nofZ RNum]. rewrite H, cos_0, sin_0. apply V3_eq; field.
Qed.
Lemma straight_step x : rk4_step (1 / 10) (fun x u => Ok (cart_f (1 / 10) 2 x u)) (V3 x 0 0) (1, 1) = Ok (V3 (x + 1 / 100) 0 0).
Proof.
  unfold rk4_step. rewrite straight by reflexivity. cbn [bind].
  do 2 (rewrite straight; [|unfold vadd, vscale; cbn [v2 nadd nmul RNum]; ring]; cbn [bind]).
  rewrite straight; [|unfold vadd, vscale; cbn [v2 nadd nmul RNum]; ring]. cbn [bind].
  f_equal. unfold vadd, vscale, n2. cbn [v0 v1 v2 nadd nmul ndiv nofZ RNum]. apply V3_eq; field.
Qed.
Example ut_runge_kutta : rk4_solve (1 / 10) (fun x u => Ok (cart_f (1 / 10) 2 x u)) (V3 0 0 0) [(1, 1); (1, 1); (1, 1); (1, 1)] (4 / 10) =
  Ok [V3 (1 / 100) 0 0; V3 (2 / 100) 0 0; V3 (3 / 100) 0 0; V3 (4 / 100) 0 0].
Proof.
  assert (N : num_steps (1 / 10) (4 / 10) = Ok 4%Z).
  { unfold num_steps, to_u32. cbn [nabs ndiv ntrunc RNum]. replace (4 / 10 / (1 / 10)) with (IZR 4) by field.
    rewrite <- abs_IZR, Ztrunc_IZR. reflexivity. }
  assert (Z : normalize_angle_PI 0 = 0) by (apply c20_id; pose proof PI_RGT_0; lra).
  unfold rk4_solve. rewrite N. cbn [bind]. change (Z.to_nat 4) with 4%nat. cbn [rk4_loop].
  do 4 (rewrite straight_step; cbn [bind v0 v1 v2]; rewrite Z).
  f_equal. do 3 (apply f_equal2; [apply V3_eq; lra|]). apply f_equal2; [apply V3_eq; lra|reflexivity].
Qed.
(** OmniPoseChange and OmniTrajectory *)
Fixpoint trajectory (n : nat) (x : vec3 R) : list (vec3 R) :=
  match n with O => [] | S n => let y := integrate_twist x (V3 1 (1 / 2) (1 / 2)) (1 / 10) in y :: trajectory n y end.
Lemma along x t : 0 < t -> t <= 1 / 2 -> let s := sin (t / 2) in let c := cos (t / 2) in
  integrate_twist (V3 x 0 0) (V3 1 (1 / 2) (1 / 2)) t = V3 (x + (s + (c - 1) / 2) * 2) ((1 - c + s / 2) * 2) (t / 2).
Proof.
  intros P Q. cbv zeta. rewrite integrate_flow by (left; lra). unfold rate. cbn [v0 v1 v2].
  replace (Rltb (Rabs (1 / 2)) (1 / 1000000000000)) with false by (symmetry; apply Rltb_false; rewrite Rabs_pos_eq; lra).
  unfold flow. destruct (Req_EM_T (1 / 2) 0) as [E|_]; [lra|]. cbn [v0 v1 v2].
  replace (0 + 1 / 2 * t) with (t / 2) by field. rewrite sin_0, cos_0. apply V3_eq; field.
Qed.
Lemma along_next x t : 0 < t -> integrate_twist (integrate_twist x (V3 1 (1 / 2) (1 / 2)) t) (V3 1 (1 / 2) (1 / 2)) (1 / 10) =
  integrate_twist x (V3 1 (1 / 2) (1 / 2)) (t + 1 / 10).
Proof. intros P. apply c24_group; lra. Qed.
Ltac posed t := rewrite (along _ t) by lra; pose proof (cos_enc (t / 2) ltac:(lra)); pose proof (sin_enc (t / 2) ltac:(lra)).
Local Notation tol4 := (1 / 10000).
Example ut_omni_pose : let p := integrate_twist (V3 0 0 0) (V3 1 (1 / 2) (1 / 2)) (1 / 10) in
  near (v0 p) (987 / 10000) tol4 /\ near (v1 p) (525 / 10000) tol4 /\ near (v2 p) (5 / 100) tol4.
Proof. cbv zeta. posed (1 / 10). cbn [pow v0 v1 v2] in *. repeat split; apply near_intro; lra. Qed.
Example ut_omni_trajectory : Forall2 (fun p q => near (v0 p) (v0 q) tol4 /\ near (v1 p) (v1 q) tol4 /\ near (v2 p) (v2 q) tol4)
  (trajectory 5 (V3 1 0 0))
  [V3 (10987 / 10000) (525 / 10000) (500 / 10000); V3 (11947 / 10000) (1098 / 10000) (1000 / 10000);
   V3 (12876 / 10000) (1719 / 10000) (1500 / 10000); V3 (13774 / 10000) (2385 / 10000) (2000 / 10000);
   V3 (14637 / 10000) (3096 / 10000) (2500 / 10000)].
Proof.
  cbn [trajectory]. rewrite !along_next by lra.
  replace (1 / 10 + 1 / 10) with (2 / 10) by field. replace (2 / 10 + 1 / 10) with (3 / 10) by field.
  replace (3 / 10 + 1 / 10) with (4 / 10) by field. replace (4 / 10 + 1 / 10) with (5 / 10) by field.
  repeat apply Forall2_cons; [| | | | |apply Forall2_nil].
  - posed (1 / 10). cbn [pow v0 v1 v2] in *. repeat split; apply near_intro; lra.
  - posed (2 / 10). cbn [pow v0 v1 v2] in *. repeat split; apply near_intro; lra.
  - posed (3 / 10). cbn [pow v0 v1 v2] in *. repeat split; apply near_intro; lra.
  - posed (4 / 10). cbn [pow v0 v1 v2] in *. repeat split; apply near_intro; lra.
  - posed (5 / 10). cbn [pow v0 v1 v2] in *. repeat split; apply near_intro; lra.
Qed.
