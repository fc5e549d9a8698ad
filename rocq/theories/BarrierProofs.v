(** The barrier in binary64 arithmetic: proofs. *)
From Coq Require Import Reals Lra ZArith Lia List Psatz.
From Flocq Require Import Core.Core IEEE754.BinarySingleNaN.
From Verif Require Import Outcome Num Float64 FloatLemmas NumericsModel BufferModel BasisModel RobotModel ErgodicModel NearProofs CoeffProofs SlopeProofs SpecBarrier.
Import ListNotations.
Local Open Scope R_scope.
Notation is_finite := BinarySingleNaN.is_finite.

Lemma rnd_zero : rnd64 0 = 0.
Proof. apply round_0. typeclasses eauto. Qed.
Lemma rnd_pos x : 0 <= x -> 0 <= rnd64 x.
Proof. intros H. rewrite <- rnd_zero. apply round_le; [typeclasses eauto..|exact H]. Qed.
Lemma rnd_neg x : x <= 0 -> rnd64 x <= 0.
Proof. intros H. apply Rle_trans with (rnd64 0); [|right; exact rnd_zero]. apply round_le; [typeclasses eauto..|exact H]. Qed.
Lemma big1000 x : Rabs x <= bpow radix2 100 -> Rabs x <= bpow radix2 1000.
Proof. intros H. eapply Rle_trans; [exact H|]. apply bpow_le. lia. Qed.
(** A rounded value of at most [B] in size. *)
Lemma rnd_err x B : Rabs x <= B -> Rabs (rnd64 x - x) <= B * ueps + tiny.
Proof.
  intros H. destruct (rnd_abs x) as (e & h & He & Hh & ->). replace (x * (1 + e) + h - x) with (x * e + h) by ring.
  exact (add_le _ _ _ _ (mul_le _ _ _ _ H He) Hh).
Qed.
Lemma max_lip a b : Rabs (Rmax 0 a - Rmax 0 b) <= Rabs (a - b).
Proof. unfold Rmax, Rabs. repeat (destruct Rle_dec || destruct Rcase_abs); lra. Qed.

Section Lib.
Variable L : libm.
Notation N := (F64 L).
Let eps : b64 := @barrier_eps b64 N.
Definition gate (b : bool) (d : b64) : b64 := Bmult mode_NE (Bmult mode_NE (b64_ofZ 2) (@nbool b64 N b)) d.

Lemma eps_is : is_finite eps = true /\ Rabs (B2R eps - 1 / 20) <= ueps / 20.
Proof.
  destruct (ofZ_exact 5 ltac:(lia)) as [E5 F5]. destruct (ofZ_exact 100 ltac:(lia)) as [E1 F1].
  change eps with (Bdiv mode_NE (b64_ofZ 5) (b64_ofZ 100)).
  assert (Q : B2R (b64_ofZ 5) / B2R (b64_ofZ 100) = 1 / 20) by (rewrite E5, E1; lra).
  assert (A : Rabs (1 / 20) = 1 / 20) by (apply Rabs_pos_eq; lra).
  destruct (fdiv_rnd (b64_ofZ 5) (b64_ofZ 100) F5) as [E F]; [rewrite E1; lra|rewrite Q, A; apply Rle_trans with (bpow radix2 0); [cbn; lra|apply bpow_le; lia]|].
  split; [exact F|]. rewrite E, Q. destruct (rnd_rel (1 / 20)) as (e & He & ->).
  { rewrite A. apply Rle_trans with (bpow radix2 (-5)); [apply bpow_le; lia|cbn; lra]. }
  replace (1 / 20 * (1 + e) - 1 / 20) with (1 / 20 * e) by ring. pose proof (mul_le (1 / 20) e (1 / 20) ueps ltac:(lra) He). lra.
Qed.
Lemma gate_is b d : is_finite d = true -> Rabs (B2R d) <= bpow radix2 90 -> is_finite (gate b d) = true /\ B2R (gate b d) = if b then rnd64 (2 * B2R d) else 0.
Proof.
  intros F B. unfold gate. pose proof (bpow_gt_0 radix2 90) as P90.
  assert (S : Rabs 2 = 2) by (apply Rabs_pos_eq; lra). destruct (ofZ_exact 2 ltac:(lia)) as [E2 F2]. destruct (ofZ_exact 0 ltac:(lia)) as [E0 F0].
  assert (Big : 2 * bpow radix2 90 <= bpow radix2 1000) by (apply Rle_trans with (bpow radix2 91); [right; rewrite (bpow_plus radix2 1 90 : bpow radix2 91 = _); cbn; ring|apply bpow_le; lia]).
  destruct b.
  - assert (C : Bmult mode_NE (b64_ofZ 2) (@nbool b64 N true) = b64_ofZ 2) by (apply B2SF_inj; vm_compute; reflexivity). rewrite C.
    destruct (fmult_rnd (b64_ofZ 2) d F2 F) as [E G]; rewrite E2 in *. { rewrite Rabs_mult, S. lra. } split; [exact G|exact E].
  - assert (C : Bmult mode_NE (b64_ofZ 2) (@nbool b64 N false) = b64_ofZ 0) by (apply B2SF_inj; vm_compute; reflexivity). rewrite C.
    destruct (fmult_rnd (b64_ofZ 0) d F0 F) as [E G]; rewrite E0 in *. { rewrite Rmult_0_l, Rabs_R0. apply bpow_ge_0. } split; [exact G|]. rewrite E, Rmult_0_l. apply rnd_zero.
Qed.
Lemma bdx_unfold (l x : b64) : @bdx_at b64 N l x =
  Bmult mode_NE (Bplus mode_NE (Bplus mode_NE (b64_ofZ 0) (gate (Bltb (Bminus mode_NE l eps) x) (Bminus mode_NE x (Bminus mode_NE l eps)))) (gate (Bltb x eps) (Bminus mode_NE x eps))) (b64_ofZ 25).
Proof. reflexivity. Qed.

Lemma c97_axis M l x : 1 <= M <= bpow radix2 60 -> up_to M l -> up_to M x -> let d := @bdx_at b64 N l x in
  is_finite d = true /\ Rabs (B2R d - push (B2R l) (B2R x)) <= push_error M /\
  (off_lower (B2R x) -> 0 <= B2R d) /\ (off_upper M (B2R l) (B2R x) -> B2R d <= 0).
Proof.
  intros HM [Fl Bl] [Fx Bx] d. unfold d. rewrite bdx_unfold. clear d. destruct eps_is as [Fe Ee]. pose proof u_small as U. pose proof tiny_small as TS. pose proof ueps_pos as UP.
  set (E := B2R eps) in *. set (xl := B2R l) in *. set (xx := B2R x) in *.
  apply Rabs_le_inv in Ee. pose proof Bl as Bl'. pose proof Bx as Bx'. apply Rabs_le_inv in Bl'. apply Rabs_le_inv in Bx'.
  assert (B60 : 100 * bpow radix2 60 <= bpow radix2 90) by (rewrite (bpow_plus radix2 60 30 : bpow radix2 90 = _); pose proof (bpow_gt_0 radix2 60); change (bpow radix2 30) with 1073741824; nra).
  assert (B90 : 100 * bpow radix2 90 <= bpow radix2 100) by (rewrite (bpow_plus radix2 90 10 : bpow radix2 100 = _); pose proof (bpow_gt_0 radix2 90); change (bpow radix2 10) with 1024; nra).
  assert (MU : M * ueps <= M / 1000000) by nra. assert (PMU : ueps <= M * ueps) by nra.
  (* the upper edge *)
  destruct (fminus_rnd l eps Fl Fe) as [Em Fm]; [apply big1000, Rabs_le; fold xl E; lra|]. set (mf := Bminus mode_NE l eps) in *. fold xl E in Em.
  assert (Rm := rnd_err (xl - E) (M + 1 / 10) ltac:(apply Rabs_le; lra)). rewrite <- Em in Rm. set (m := B2R mf) in *. clearbody mf. clear Em. apply Rabs_le_inv in Rm.
  assert (Nm : - (2 * M * ueps) <= m - (xl - 1 / 20) <= 2 * M * ueps) by lra.
  (* the distances *)
  destruct (fminus_rnd x mf Fx Fm) as [E1 F1]; [apply big1000, Rabs_le; fold xx m; lra|]. set (d1 := Bminus mode_NE x mf) in *. fold xx m in E1.
  destruct (fminus_rnd x eps Fx Fe) as [E2 F2]; [apply big1000, Rabs_le; fold xx E; lra|]. set (d2 := Bminus mode_NE x eps) in *. fold xx E in E2.
  assert (R1 := rnd_err (xx - m) (3 * M) ltac:(apply Rabs_le; lra)). rewrite <- E1 in R1. apply Rabs_le_inv in R1.
  assert (R2 := rnd_err (xx - E) (2 * M) ltac:(apply Rabs_le; lra)). rewrite <- E2 in R2. apply Rabs_le_inv in R2.
  destruct (gate_is (Bltb mf x) d1 F1 ltac:(apply Rabs_le; lra)) as [G1 V1]. destruct (gate_is (Bltb x eps) d2 F2 ltac:(apply Rabs_le; lra)) as [G2 V2].
  set (t1 := gate (Bltb mf x) d1) in *. set (t2 := gate (Bltb x eps) d2) in *. clearbody t1 t2.
  rewrite Bltb_R in V1 by assumption. rewrite Bltb_R in V2 by assumption. fold xx m E in V1, V2.
  assert (T1 : Rabs (B2R t1 - 2 * Rmax 0 (xx - m)) <= 15 * M * ueps /\ 0 <= B2R t1 /\ (xx <= m -> B2R t1 = 0)).
  { rewrite V1. destruct (Rlt_bool_spec m xx) as [H|H].
    - rewrite Rmax_right by lra. split; [|split; [|lra]].
      + assert (Q := rnd_err (2 * B2R d1) (8 * M) ltac:(apply Rabs_le; lra)). apply Rabs_le_inv in Q. apply Rabs_le. lra.
      + apply rnd_pos. rewrite E1. pose proof (rnd_pos (xx - m) ltac:(lra)). lra.
    - rewrite Rmax_left by lra. split; [|split; [lra|reflexivity]]. rewrite Rmult_0_r, Rminus_0_r, Rabs_R0. nra. }
  assert (T2 : Rabs (B2R t2 + 2 * Rmax 0 (E - xx)) <= 11 * M * ueps /\ B2R t2 <= 0 /\ (E <= xx -> B2R t2 = 0)).
  { rewrite V2. destruct (Rlt_bool_spec xx E) as [H|H].
    - rewrite Rmax_right by lra. split; [|split; [|lra]].
      + assert (Q := rnd_err (2 * B2R d2) (6 * M) ltac:(apply Rabs_le; lra)). apply Rabs_le_inv in Q. apply Rabs_le. lra.
      + apply rnd_neg. rewrite E2. pose proof (rnd_neg (xx - E) ltac:(lra)). lra.
    - rewrite Rmax_left by lra. split; [|split; [lra|reflexivity]]. rewrite Rmult_0_r, Rplus_0_r, Rabs_R0. nra. }
  clear V1 V2. destruct T1 as (T1 & P1 & Z1). destruct T2 as (T2 & P2 & Z2). apply Rabs_le_inv in T1. apply Rabs_le_inv in T2.
  pose proof (max_lip (xx - m) (xx - (xl - 1 / 20))) as K1. pose proof (max_lip (E - xx) (1 / 20 - xx)) as K2.
  assert (K1' : Rabs (xx - m - (xx - (xl - 1 / 20))) <= 2 * M * ueps) by (apply Rabs_le; lra).
  assert (K2' : Rabs (E - xx - (1 / 20 - xx)) <= M * ueps) by (apply Rabs_le; lra).
  pose proof (Rabs_le_inv _ _ (Rle_trans _ _ _ K1 K1')) as K1i. pose proof (Rabs_le_inv _ _ (Rle_trans _ _ _ K2 K2')) as K2i. clear K1 K2 K1' K2'.
  assert (X1 : 0 <= Rmax 0 (xx - m) <= 3 * M) by (split; [apply Rmax_l|apply Rmax_lub; lra]).
  assert (X2 : 0 <= Rmax 0 (E - xx) <= 2 * M) by (split; [apply Rmax_l|apply Rmax_lub; lra]).
  (* the sum *)
  destruct (ofZ_exact 0 ltac:(lia)) as [EZ FZ]. destruct (ofZ_exact 25 ltac:(lia)) as [EC FC].
  destruct (fplus_rnd (b64_ofZ 0) t1 FZ G1) as [S1 H1]; [rewrite EZ; apply big1000, Rabs_le; lra|]. rewrite EZ, Rplus_0_l in S1. set (s1 := Bplus mode_NE (b64_ofZ 0) t1) in *.
  assert (W1 := rnd_err (B2R t1) (7 * M) ltac:(apply Rabs_le; lra)). pose proof (rnd_pos _ P1) as Y1. rewrite <- S1 in W1, Y1. apply Rabs_le_inv in W1.
  assert (Y1z : xx <= m -> B2R s1 = 0) by (intros H; rewrite S1, (Z1 H); apply rnd_zero).
  clearbody s1. clear S1.
  destruct (fplus_rnd s1 t2 H1 G2) as [S2 H2]; [apply big1000, Rabs_le; lra|]. set (s2 := Bplus mode_NE s1 t2) in *.
  assert (W2 := rnd_err (B2R s1 + B2R t2) (13 * M) ltac:(apply Rabs_le; lra)).
  assert (Y2p : E <= xx -> 0 <= B2R s2) by (intros H; rewrite S2, (Z2 H); apply rnd_pos; lra).
  assert (Y2n : xx <= m -> B2R s2 <= 0) by (intros H; rewrite S2, (Y1z H); apply rnd_neg; lra).
  rewrite <- S2 in W2. apply Rabs_le_inv in W2. clearbody s2. clear S2.
  destruct (fmult_rnd s2 (b64_ofZ 25) H2 FC) as [S3 H3]; [rewrite EC; apply big1000, Rabs_le; lra|]. rewrite EC in S3.
  assert (W3 := rnd_err (B2R s2 * 25) (400 * M) ltac:(apply Rabs_le; lra)).
  split; [exact H3|]. rewrite S3. unfold push, push_error, off_lower, off_upper. fold ueps. split; [|split].
  - apply Rabs_le_inv in W3. apply Rabs_le. lra.
  - intros H. apply rnd_pos. pose proof (Y2p ltac:(lra)). lra.
  - intros H. apply rnd_neg. pose proof (Y2n ltac:(lra)). lra.
Qed.

Lemma c97_gradient M (e : ec b64) xt : 1 <= M <= bpow radix2 60 -> let lx := bs_lx (ec_basis e) in let ly := bs_ly (ec_basis e) in up_to M lx -> up_to M ly ->
  (forall x, In x xt -> up_to M (v0 x) /\ up_to M (v1 x)) ->
  let cols := @gradBarrier b64 N e xt in length cols = length xt /\ forall i x, nth_error xt i = Some x -> exists g, nth_error cols i = Some g /\
    (is_finite (v0 g) = true /\ Rabs (B2R (v0 g) - push (B2R lx) (B2R (v0 x))) <= push_error M /\
      (off_lower (B2R (v0 x)) -> 0 <= B2R (v0 g)) /\ (off_upper M (B2R lx) (B2R (v0 x)) -> B2R (v0 g) <= 0)) /\
    (is_finite (v1 g) = true /\ Rabs (B2R (v1 g) - push (B2R ly) (B2R (v1 x))) <= push_error M /\
      (off_lower (B2R (v1 x)) -> 0 <= B2R (v1 g)) /\ (off_upper M (B2R ly) (B2R (v1 x)) -> B2R (v1 g) <= 0)) /\
    v2 g = b64_ofZ 0.
Proof.
  intros HM lx ly Bx By HX cols. split; [apply map_length|]. intros i x Hx. destruct (HX x (nth_error_In _ _ Hx)) as [X0 X1].
  exists (V3 (@bdx_at b64 N lx (v0 x)) (@bdx_at b64 N ly (v1 x)) (b64_ofZ 0)). split; [unfold cols, gradBarrier; rewrite nth_error_map, Hx; reflexivity|].
  split; [exact (c97_axis M lx (v0 x) HM Bx X0)|]. split; [exact (c97_axis M ly (v1 x) HM By X1)|]. reflexivity.
Qed.
End Lib.
