(** The index into the reference trajectory in binary64, with rounding at every operation. *)
From Coq Require Import Reals Lra ZArith Lia List Psatz.
From Flocq Require Import Core.Core IEEE754.BinarySingleNaN.
From Verif Require Import Outcome Num Float64 FloatLemmas AngleFloat GridModel CollisionModel NumericsModel RobotModel DwaModel
  SpecMotion SpecRobot SpecDwa RobotProofs DwaProofs GridFloat GridFloat2.
Import ListNotations.
Local Open Scope R_scope.

Lemma eps_small : ueps = / 9007199254740992.
Proof. exact ueps_val. Qed.

(** The time after [k] additions of [dt] *)
Definition time_ok (dt : b64) (k : Z) (t : b64) : Prop :=
  is_finite t = true /\ 0 <= B2R t <= (IZR k + 2 * IZR k * IZR k * ueps) * B2R dt.
Lemma time_next (dt : b64) k t : is_finite dt = true -> 0 < B2R dt <= bpow radix2 500 -> (0 <= k < 16777216)%Z ->
  time_ok dt k t -> time_ok dt (k + 1) (Bplus mode_NE t dt).
Proof.
  intros Fd Hd Hk [Ft Ht].
  assert (K : 0 <= IZR k <= 16777215). { split; [apply (IZR_le 0)|apply (IZR_le k 16777215)]; lia. }
  assert (U := eps_small).
  assert (C : 0 <= IZR k + 2 * IZR k * IZR k * ueps <= 16777216) by (rewrite U; nra).
  destruct (fplus_rel t dt Ft Fd) as [e [He [Ve Fe]]].
  { rewrite Rabs_pos_eq by lra. apply Rle_trans with (16777217 * B2R dt); [nra|].
    apply Rle_trans with (bpow radix2 25 * bpow radix2 500); [|rewrite <- bpow_plus; apply bpow_le; lia].
    replace (bpow radix2 25) with 33554432 by (cbn; lra). nra. }
  split; [exact Fe|]. rewrite Ve, plus_IZR. apply abs_lt_iff in He. set (D := B2R dt) in *. set (X := B2R t) in *. set (kk := IZR k) in *.
  assert (E1 : 0 <= 1 + e) by (rewrite U in He; lra). assert (E2 : 1 + e <= 1 + ueps) by lra.
  split; [apply Rmult_le_pos; lra|].
  apply Rle_trans with (((kk + 2 * kk * kk * ueps) * D + D) * (1 + ueps)).
  - apply Rmult_le_compat; [lra|exact E1|lra|exact E2].
  - replace (((kk + 2 * kk * kk * ueps) * D + D) * (1 + ueps)) with ((kk + 2 * kk * kk * ueps + 1) * (1 + ueps) * D) by ring.
    apply Rmult_le_compat_r; [lra|].
    assert (S : kk * ueps <= / 4) by (rewrite U; lra). assert (0 <= kk * ueps) by (rewrite U; lra). assert (0 < ueps) by (rewrite U; lra).
    assert (Q : 2 * kk * kk * ueps <= kk) by nra.
    assert (2 * kk * kk * ueps * ueps <= kk * ueps) by nra. nra.
Qed.

(** A column of the reference exists for that time *)
Lemma index_b64 (L : libm) (ref : list (vec3 b64)) (t tf : b64) : (0 < lenZ ref <= two32)%Z -> is_finite t = true -> is_finite tf = true ->
  0 <= B2R t <= B2R tf -> bpow radix2 (-500) <= B2R tf <= bpow radix2 700 ->
  exists j r, @ref_index b64 (F64 L) ref t tf = Ok j /\ col_at ref j = Ok r.
Proof.
  intros Hl Ft Ff Ht Hf. unfold ref_index, to_u32. cbn [nround nofZ nmul ndiv ntrunc F64].
  rewrite (Z.mod_small (lenZ ref - 1) two64) by (unfold two32, two64 in *; lia).
  assert (P500 : 0 < bpow radix2 (-500)) by apply bpow_gt_0.
  destruct (ofZ_exact (lenZ ref - 1)) as [Em Fm]; [unfold two32 in *; lia|].
  set (mz := (lenZ ref - 1)%Z) in *.
  assert (M : 0 <= IZR mz <= 4294967295).
  { split; [apply (IZR_le 0)|apply (IZR_le mz 4294967295)]; unfold mz, two32 in *; lia. }
  set (m := IZR mz) in *. set (X := B2R t) in *. set (Y := B2R tf) in *.
  assert (U := eps_small).
  assert (MX : 0 <= m * X <= 4294967295 * Y) by (split; nra).
  assert (BY : 4294967296 * Y <= bpow radix2 732).
  { replace (bpow radix2 732) with (bpow radix2 32 * bpow radix2 700) by (rewrite <- bpow_plus; f_equal; lia).
    replace (bpow radix2 32) with 4294967296 by (cbn; lra). nra. }
  assert (BB : bpow radix2 732 <= bpow radix2 1000) by (apply bpow_le; lia).
  destruct (fmult_rnd (b64_ofZ mz) t Fm Ft) as [V1 F1].
  { rewrite Em. fold m X. rewrite Rabs_pos_eq by lra. lra. }
  rewrite Em in V1. fold m X in V1. set (p := Bmult mode_NE (b64_ofZ mz) t) in *.
  assert (P0 : 0 <= B2R p) by (rewrite V1; apply round_ge_generic; [typeclasses eauto..|apply generic_format_0|lra]).
  assert (P1 : B2R p <= m * X + ueps * (m * X) + bpow radix2 (-1075)).
  { pose proof (rnd_err (m * X)) as E. rewrite <- V1 in E. rewrite (Rabs_pos_eq (m * X)) in E by lra. apply abs_lt_iff in E. lra. }
  assert (T1 : bpow radix2 (-1075) <= / 1048576 * Y).
  { apply Rle_trans with (bpow radix2 (-520)); [apply bpow_le; lia|].
    replace (bpow radix2 (-520)) with (bpow radix2 (-20) * bpow radix2 (-500)) by (rewrite <- bpow_plus; f_equal; lia).
    replace (bpow radix2 (-20)) with (/ 1048576) by (cbn; lra). nra. }
  assert (P2 : B2R p / Y <= m + / 524288).
  { apply Rmult_le_reg_r with Y; [lra|]. unfold Rdiv. rewrite Rmult_assoc, Rinv_l, Rmult_1_r by lra.
    assert (m * X <= m * Y) by nra. assert (ueps * (m * X) <= ueps * (4294967295 * Y)) by (apply Rmult_le_compat_l; [rewrite U|]; lra).
    rewrite U in *. nra. }
  assert (P3 : 0 <= B2R p / Y) by (apply Rmult_le_pos; [lra|left; apply Rinv_0_lt_compat; lra]).
  destruct (fdiv_rnd p tf F1) as [V2 F2].
  { fold Y. lra. }
  { fold Y. rewrite Rabs_pos_eq by lra. apply Rle_trans with (bpow radix2 34); [cbn; lra|apply bpow_le; lia]. }
  fold Y in V2. set (q := Bdiv mode_NE p tf) in *.
  assert (Q0 : 0 <= B2R q) by (rewrite V2; apply round_ge_generic; [typeclasses eauto..|apply generic_format_0|lra]).
  pose proof (rnd_err (B2R p / Y)) as E. rewrite <- V2, (Rabs_pos_eq (B2R p / Y)), U in E by lra. apply abs_lt_iff in E.
  pose proof tiny_val as TV.
  assert (Q1 : B2R q < m + 1 / 2) by lra.
  rewrite round_trunc by exact F2.
  assert (Z1 : (ZnearestA (B2R q) <= mz)%Z) by (apply nearA_le; [exact Q0|unfold mz; lia|exact Q1]).
  assert (Z0 : (0 <= ZnearestA (B2R q))%Z).
  { apply Zlt_succ_le. apply lt_IZR. rewrite succ_IZR. pose proof (Znearest_half (Z.leb 0) (B2R q)) as N. apply Rabs_le_inv in N. lra. }
  destruct (Z.leb_spec 0 (ZnearestA (B2R q))); [|lia]. destruct (Z.ltb_spec (ZnearestA (B2R q)) two32); [|unfold mz in *; lia]. cbn [andb].
  destruct (col_at_total ref (Z.to_nat (ZnearestA (B2R q)))) as (r & Hr); [unfold mz, lenZ in *; lia|].
  rewrite Z2Nat.id in Hr by exact Z0. do 2 eexists. split; [reflexivity|exact Hr].
Qed.

Local Opaque collisionCheck integrate_twist normalize_angle_PI.
Section Loop.
Variables (L : libm) (d : dwa b64) (g : grid b64) (u : vec3 b64) (ref : list (vec3 b64)) (tf : b64).
Hypothesis Hl : (0 < lenZ ref <= two32)%Z.
Hypothesis Fd : is_finite (dw_dt d) = true.
Hypothesis Hd : 0 < B2R (dw_dt d) <= bpow radix2 500.
Hypothesis Ff : is_finite tf = true.
Hypothesis Hf : bpow radix2 (-500) <= B2R tf <= bpow radix2 700.
Hypothesis Hs : (dw_steps d <= 16777216)%Z.
Hypothesis Hh : IZR (dw_steps d) * B2R (dw_dt d) * (1 - ueps) <= B2R tf.
Definition answers64 (p : vec3 b64) : Prop := is_ok (@collisionCheck b64 (F64 L) (dw_collision d) g (v0 p) (v1 p)) = true.

Lemma time_fits k t : time_ok (dw_dt d) k t -> (0 <= k < dw_steps d)%Z -> B2R t <= B2R tf.
Proof.
  intros [Ft Ht] Hk. assert (K : 0 <= IZR k <= 16777215) by (split; [apply (IZR_le 0)|apply (IZR_le k 16777215)]; lia).
  assert (S : IZR k + 1 <= IZR (dw_steps d)) by (rewrite <- plus_IZR; apply IZR_le; lia).
  assert (S2 : IZR (dw_steps d) <= 16777216) by (apply (IZR_le _ 16777216); lia).
  apply Rle_trans with (2 := Hh). apply Rle_trans with (1 := proj2 Ht).
  replace (IZR (dw_steps d) * B2R (dw_dt d) * (1 - ueps)) with (IZR (dw_steps d) * (1 - ueps) * B2R (dw_dt d)) by ring. apply Rmult_le_compat_r; [lra|].
  assert (U := eps_small). assert (2 * IZR k * IZR k * ueps <= / 16) by (rewrite U; nra). rewrite U in *. nra.
Qed.
Lemma loop_b64 : forall n k x t s, (0 <= k)%Z -> (k + Z.of_nat n = dw_steps d)%Z -> time_ok (dw_dt d) k t ->
  Forall answers64 (@rollout b64 (F64 L) n (dw_dt d) u x) -> is_ok (@objective_loop b64 (F64 L) n d g u ref tf x t s) = true.
Proof.
  induction n as [|n IH]; intros k x t s H0 Hn HT A; [reflexivity|]. cbn [objective_loop rollout] in *. cbv zeta in *.
  set (y := V3 _ _ _) in *. inversion A as [|? ? C A']; subst. unfold answers64 in C.
  destruct (collisionCheck _ _ _ _) as [[|]| | |]; try discriminate; [reflexivity|]. cbn [bind].
  destruct (index_b64 L ref t tf Hl (proj1 HT) Ff) as (j & r & J & R).
  { split; [apply HT|]. apply (time_fits k); [exact HT|lia]. }
  { exact Hf. }
  rewrite J. cbn [bind]. rewrite R. cbn [bind].
  apply (IH (k + 1)%Z); [lia|lia| |exact A']. cbn [nadd F64]. apply time_next; [exact Fd|exact Hd|lia|exact HT].
Qed.
End Loop.

Lemma c54_b64 (L : libm) (d : dwa b64) g x0 vb ref (dtr : b64) : (0 < lenZ ref <= two32)%Z -> (0 <= dw_steps d <= 2 ^ 24)%Z ->
  is_finite (dw_dt d) = true -> is_finite dtr = true -> 0 < B2R (dw_dt d) <= bpow radix2 500 ->
  bpow radix2 (-400) <= B2R dtr <= bpow radix2 500 ->
  IZR (dw_steps d) * B2R (dw_dt d) <= IZR (lenZ ref) * B2R dtr ->
  (forall u p, @sampled b64 (F64 L) d vb u -> In p (@rollout b64 (F64 L) (Z.to_nat (dw_steps d)) (dw_dt d) u x0) ->
     is_ok (@collisionCheck b64 (F64 L) (dw_collision d) g (v0 p) (v1 p)) = true) ->
  is_ok (@dwa_follow b64 (F64 L) d g x0 vb ref dtr) = true.
Proof.
  intros Hl Hs Fd Fr Hd Hr Hh Hc. unfold dwa_follow. cbv zeta. apply search_total. intros u Hu.
  cbn [nmul nofZ F64]. destruct (ofZ_exact (lenZ ref)) as [En Fn]; [unfold two32 in *; lia|].
  assert (N : 1 <= IZR (lenZ ref) <= 4294967296).
  { split; [apply (IZR_le 1)|apply (IZR_le _ 4294967296)]; unfold two32 in *; lia. }
  assert (P400 : 0 < bpow radix2 (-400)) by apply bpow_gt_0.
  assert (LB : bpow radix2 (-1022) <= bpow radix2 (-400)) by (apply bpow_le; lia).
  assert (LB2 : 2 * bpow radix2 (-500) <= bpow radix2 (-400)).
  { apply Rle_trans with (bpow radix2 (-499)); [|apply bpow_le; lia].
    replace (bpow radix2 (-499)) with (bpow radix2 1 * bpow radix2 (-500)) by (rewrite <- bpow_plus; f_equal; lia).
    replace (bpow radix2 1) with 2 by (cbn; lra). lra. }
  assert (UB : 4294967296 * B2R dtr <= bpow radix2 532).
  { replace (bpow radix2 532) with (bpow radix2 32 * bpow radix2 500) by (rewrite <- bpow_plus; f_equal; lia).
    replace (bpow radix2 32) with 4294967296 by (cbn; lra). nra. }
  assert (UB1 : bpow radix2 532 <= bpow radix2 1000) by (apply bpow_le; lia).
  assert (UB2 : 2 * bpow radix2 532 <= bpow radix2 700).
  { apply Rle_trans with (bpow radix2 533); [|apply bpow_le; lia].
    replace (bpow radix2 533) with (bpow radix2 1 * bpow radix2 532) by (rewrite <- bpow_plus; f_equal; lia).
    replace (bpow radix2 1) with 2 by (cbn; lra). lra. }
  assert (A : B2R dtr <= IZR (lenZ ref) * B2R dtr <= 4294967296 * B2R dtr) by (split; nra).
  destruct (fmult_rel (b64_ofZ (lenZ ref)) dtr Fn Fr) as [e [He [Ve Fe]]].
  { rewrite En, Rabs_pos_eq by lra. lra. }
  rewrite En in Ve. apply abs_lt_iff in He. assert (U := eps_small).
  apply (loop_b64 L d g u ref _ Hl Fd Hd Fe) with (k := 0%Z); try lia.
  - rewrite Ve. rewrite U in He. split; nra.
  - rewrite Ve. rewrite U in *. assert (0 <= IZR (dw_steps d) * B2R (dw_dt d)).
    { apply Rmult_le_pos; [apply (IZR_le 0); lia|lra]. } nra.
  - unfold n0. cbn [nofZ F64]. destruct zero_val as [Z1 Z2]. split; [exact Z2|]. rewrite Z1. lra.
  - apply Forall_forall. intros p Hp. exact (Hc u p Hu Hp).
Qed.
