(** Cell of a point, points off the map and the axis length in binary64, with rounding at every operation. *)
From Coq Require Import Reals Lra ZArith Lia Psatz.
From Flocq Require Import Core.Core IEEE754.BinarySingleNaN.
From Verif Require Import Outcome Num Float64 FloatLemmas AngleFloat GridModel GridProofs GridFloat.
Local Open Scope R_scope.

Definition eta : R := bpow radix2 (-19).
Lemma eta_val : eta = / 524288.
Proof. unfold eta. cbn. lra. Qed.
Lemma tiny_val : 0 < bpow radix2 (-1075) <= / 1048576 / 1048576.
Proof. split; [apply bpow_gt_0|]. apply Rle_trans with (bpow radix2 (-40)); [apply bpow_le; lia|cbn; lra]. Qed.

Lemma axis_cell_b64 (n : Z) (r lo x : b64) :
  (0 <= n < two32)%Z -> is_finite r = true -> is_finite lo = true -> is_finite x = true ->
  bpow radix2 (-500) <= B2R r <= bpow radix2 500 ->
  B2R lo <= B2R x <= B2R lo + IZR n * B2R r ->
  let q := Bdiv mode_NE (Bminus mode_NE x lo) r in
  is_finite q = true /\ 0 <= B2R q /\ Rabs (B2R q - (B2R x - B2R lo) / B2R r) <= eta.
Proof.
  intros Hn Fr Fl Fx Hr Hx q.
  assert (P500 : 0 < bpow radix2 (-500)) by apply bpow_gt_0.
  assert (HN : 0 <= IZR n <= 4294967295).
  { split; [apply (IZR_le 0)|apply (IZR_le n 4294967295)]; unfold two32 in Hn; lia. }
  set (rr := B2R r) in *. set (l := B2R lo) in *. set (X := B2R x) in *.
  assert (Pr : 0 < rr) by lra.
  assert (B532 : 4294967296 * rr <= bpow radix2 532).
  { replace (bpow radix2 532) with (bpow radix2 32 * bpow radix2 500) by (rewrite <- bpow_plus; f_equal; lia).
    replace (bpow radix2 32) with 4294967296 by (cbn; lra). apply Rmult_le_compat_l; lra. }
  assert (B1000 : bpow radix2 532 <= bpow radix2 1000) by (apply bpow_le; lia).
  assert (HNr : IZR n * rr <= 4294967295 * rr) by (apply Rmult_le_compat_r; lra).
  set (rho := (X - l) / rr).
  assert (Erho : X - l = rho * rr) by (unfold rho; field; lra).
  assert (Hrho : 0 <= rho <= 4294967295).
  { split.
    - unfold rho. apply Rmult_le_pos; [lra|left; apply Rinv_0_lt_compat; lra].
    - apply Rmult_le_reg_r with rr; [lra|]. rewrite <- Erho. lra. }
  destruct (fminus_rel x lo Fx Fl) as [e [He [Ve Fe]]].
  { fold X l. rewrite Rabs_pos_eq; lra. }
  fold X l in Ve. rewrite Erho in Ve.
  assert (U : ueps = / 9007199254740992) by apply ueps_val.
  set (D := rho * (1 + e)).
  assert (ED : B2R (Bminus mode_NE x lo) / rr = D) by (rewrite Ve; unfold D; field; lra).
  assert (DD := rel_abs rho e 4294967295 ueps He ltac:(rewrite Rabs_pos_eq; lra) ltac:(lra)).
  fold D in DD. rewrite U in DD. apply abs_lt_iff in DD. rewrite U in He. apply abs_lt_iff in He.
  assert (D0 : 0 <= D) by (unfold D; apply Rmult_le_pos; lra).
  destruct (fdiv_rnd (Bminus mode_NE x lo) r Fe) as [Vq Fq].
  { fold rr. lra. }
  { fold rr. rewrite ED, Rabs_pos_eq by lra. apply Rle_trans with (bpow radix2 34); [cbn; lra|apply bpow_le; lia]. }
  fold rr in Vq. rewrite ED in Vq. fold q in Vq, Fq.
  split; [exact Fq|]. rewrite Vq. split.
  - apply round_ge_generic; [typeclasses eauto..|apply generic_format_0|exact D0].
  - pose proof (rnd_err D) as E. rewrite U, (Rabs_pos_eq D) in E by exact D0. apply abs_lt_iff in E.
    pose proof tiny_val. rewrite eta_val. apply Rabs_le. lra.
Qed.

(** One axis of world2Grid: the index before and after the snap *)
Lemma axis_index_b64 (n : Z) (r lo x : b64) :
  (0 < n < two32)%Z -> is_finite r = true -> is_finite lo = true -> is_finite x = true ->
  bpow radix2 (-500) <= B2R r <= bpow radix2 500 ->
  B2R lo <= B2R x <= B2R lo + IZR n * B2R r ->
  exists k, b64_trunc (Bnearbyint mode_DN (Bdiv mode_NE (Bminus mode_NE x lo) r)) = Some k /\ (0 <= k <= n)%Z /\
    let j := if (k =? n)%Z then (n - 1)%Z else k in
    B2R lo + (IZR j - eta) * B2R r <= B2R x <= B2R lo + (IZR j + 1 + eta) * B2R r.
Proof.
  intros Hn Fr Fl Fx Hr Hx.
  destruct (axis_cell_b64 n r lo x ltac:(lia) Fr Fl Fx Hr Hx) as [Fq [Q0 Q1]].
  set (q := Bdiv mode_NE (Bminus mode_NE x lo) r) in *.
  exists (Zfloor (B2R q)). rewrite floor_trunc by exact Fq. split; [reflexivity|].
  assert (P500 : 0 < bpow radix2 (-500)) by apply bpow_gt_0.
  set (rr := B2R r) in *. set (l := B2R lo) in *. set (X := B2R x) in *.
  assert (Pr : 0 < rr) by lra.
  set (rho := (X - l) / rr) in *.
  assert (Erho : X = l + rho * rr) by (unfold rho; field; lra).
  assert (Hrho : rho <= IZR n).
  { apply Rmult_le_reg_r with rr; [lra|]. lra. }
  rewrite eta_val in *. apply abs_lt_iff in Q1.
  pose proof (Zfloor_lb (B2R q)) as L1. pose proof (Zfloor_ub (B2R q)) as L2.
  set (k := Zfloor (B2R q)) in *.
  assert (K0 : (0 <= k)%Z) by (apply Zfloor_lub; exact Q0).
  assert (Kn : (k <= n)%Z).
  { apply Z.lt_succ_r. apply lt_IZR. unfold Z.succ. rewrite plus_IZR. lra. }
  split; [lia|]. cbv zeta. rewrite Erho.
  assert (G : forall a b, a <= rho <= b -> l + a * rr <= l + rho * rr <= l + b * rr).
  { intros a b [A B]. split; apply Rplus_le_compat_l, Rmult_le_compat_r; lra. }
  apply G. destruct (Z.eqb_spec k n) as [E|E].
  - rewrite E in *. rewrite minus_IZR. lra.
  - lra.
Qed.

(** Left of the lower bound: the quotient is negative *)
Lemma axis_left_b64 (r lo x : b64) :
  is_finite r = true -> is_finite lo = true -> is_finite x = true ->
  bpow radix2 (-500) <= B2R r <= 1 -> B2R x < B2R lo -> B2R lo - B2R x <= bpow radix2 400 ->
  exists k, b64_trunc (Bnearbyint mode_DN (Bdiv mode_NE (Bminus mode_NE x lo) r)) = Some k /\ (k < 0)%Z.
Proof.
  intros Fr Fl Fx Hr Hx Hm.
  assert (P500 : 0 < bpow radix2 (-500)) by apply bpow_gt_0.
  set (rr := B2R r) in *. set (l := B2R lo) in *. set (X := B2R x) in *.
  assert (B400 : bpow radix2 400 <= bpow radix2 1000) by (apply bpow_le; lia).
  destruct (fminus_rel x lo Fx Fl) as [e [He [Ve Fe]]].
  { fold X l. rewrite Rabs_left; lra. }
  fold X l in Ve.
  rewrite ueps_val in He. apply abs_lt_iff in He.
  set (d := Bminus mode_NE x lo) in *.
  assert (Hd : B2R d < 0) by (rewrite Ve; nra).
  assert (Hd2 : - (2 * bpow radix2 400) <= B2R d) by (rewrite Ve; nra).
  assert (I1 : 1 <= / rr) by (rewrite <- Rinv_1 at 1; apply Rinv_le; lra).
  assert (I2 : / rr <= bpow radix2 500).
  { replace (bpow radix2 500) with (/ bpow radix2 (-500)) by (rewrite <- bpow_opp; f_equal; lia). apply Rinv_le; lra. }
  assert (Hq : B2R d / rr <= B2R d) by (unfold Rdiv; nra).
  assert (Hq2 : Rabs (B2R d / rr) <= bpow radix2 1000).
  { rewrite Rabs_left by lra. unfold Rdiv. rewrite Ropp_mult_distr_l.
    apply Rle_trans with ((2 * bpow radix2 400) * bpow radix2 500).
    - apply Rmult_le_compat; lra.
    - apply Rle_trans with (bpow radix2 901); [|apply bpow_le; lia].
      replace (bpow radix2 901) with (bpow radix2 1 * bpow radix2 400 * bpow radix2 500)
        by (rewrite <- !bpow_plus; f_equal; lia).
      replace (bpow radix2 1) with 2 by (cbn; lra). lra. }
  destruct (fdiv_rnd d r Fe) as [Vq Fq]; [fold rr; lra|exact Hq2|]. fold rr in Vq.
  rewrite floor_trunc by exact Fq. eexists; split; [reflexivity|].
  apply lt_IZR. eapply Rle_lt_trans; [apply Zfloor_lb|]. rewrite Vq.
  apply Rle_lt_trans with (B2R d); [|exact Hd].
  apply round_le_generic; [typeclasses eauto..|apply generic_format_B2R|exact Hq].
Qed.

(** Rounding and casting *)
Lemma round_trunc (x : b64) : is_finite x = true ->
  b64_trunc (Bnearbyint mode_NA x) = Some (ZnearestA (B2R x)).
Proof.
  intros F. unfold b64_trunc.
  destruct (Bnearbyint_correct 53 1024 _ mode_NA x) as [E [Fi _]].
  rewrite Fi, F. f_equal. apply eq_IZR. rewrite (Btrunc_correct 53 1024 _), E.
  cbn [round_mode]. rewrite !round_FIX_IZR. rewrite Ztrunc_IZR. reflexivity.
Qed.

Lemma axis_roundtrip_b64 (n : Z) (r lo : b64) :
  (0 <= n < two32)%Z -> is_finite r = true -> is_finite lo = true ->
  bpow radix2 (-500) <= B2R r <= bpow radix2 500 ->
  Rabs (B2R lo) <= bpow radix2 48 * B2R r ->
  let up := Bplus mode_NE (Bmult mode_NE r (b64_ofZ n)) lo in
  b64_trunc (Bnearbyint mode_NA (Bdiv mode_NE (Bminus mode_NE up lo) r)) = Some n.
Proof.
  intros Hn Fr Fl Hr Hl up.
  destruct (ofZ_exact n) as [En Fn]; [unfold two32 in Hn; lia|].
  assert (P500 : 0 < bpow radix2 (-500)) by apply bpow_gt_0.
  assert (Pr : 0 < B2R r) by lra.
  assert (HN : 0 <= IZR n <= 4294967295).
  { split; [apply (IZR_le 0)|apply (IZR_le n 4294967295)]; unfold two32 in Hn; lia. }
  assert (B548 : bpow radix2 549 <= bpow radix2 1000) by (apply bpow_le; lia).
  assert (B500 : 562949953421312 * B2R r <= bpow radix2 549).
  { replace (bpow radix2 549) with (bpow radix2 49 * bpow radix2 500) by (rewrite <- bpow_plus; f_equal; lia).
    replace (bpow radix2 49) with 562949953421312 by (cbn; lra). apply Rmult_le_compat_l; lra. }
  assert (V48 : bpow radix2 48 = 281474976710656) by (cbn; lra).
  rewrite V48 in Hl.
  set (rr := B2R r) in *. set (N := IZR n) in *. set (l := B2R lo) in *.
  assert (LB : bpow radix2 (-1022) <= bpow radix2 (-500)) by (apply bpow_le; lia).
  assert (U : ueps = / 9007199254740992) by apply ueps_val.
  assert (M : exists e, Rabs e <= ueps /\ B2R (Bmult mode_NE r (b64_ofZ n)) = rr * N * (1 + e) /\
              is_finite (Bmult mode_NE r (b64_ofZ n)) = true).
  { destruct (Z.eq_dec n 0) as [Zk|Zk].
    - assert (K0 : N = 0) by (unfold N; rewrite Zk; reflexivity).
      exists 0. rewrite Rabs_R0. split; [rewrite U; lra|].
      destruct (fmult_rnd r (b64_ofZ n) Fr Fn) as [A B].
      + rewrite En, K0. fold rr. rewrite Rmult_0_r, Rabs_R0. apply bpow_ge_0.
      + split; [|exact B]. rewrite A, En, K0. fold rr. rewrite !Rmult_0_r, Rmult_0_l.
        rewrite round_0 by typeclasses eauto. reflexivity.
    - assert (1 <= N) by (apply (IZR_le 1); lia).
      destruct (fmult_rel r (b64_ofZ n) Fr Fn) as [e He].
      + rewrite En. fold rr N. assert (rr <= rr * N) by (rewrite <- (Rmult_1_r rr) at 1; apply Rmult_le_compat_l; lra).
        rewrite Rabs_pos_eq by lra. split; [lra|].
        apply Rle_trans with (562949953421312 * rr); [rewrite Rmult_comm; apply Rmult_le_compat_r; lra|lra].
      + exists e. rewrite En in He. exact He. }
  destruct M as [e1 [H1 [V1 F1]]].
  set (A := N * (1 + e1)).
  assert (EA : B2R (Bmult mode_NE r (b64_ofZ n)) = A * rr) by (rewrite V1; unfold A; ring).
  assert (DA := rel_abs N e1 4294967295 ueps H1 ltac:(rewrite Rabs_pos_eq; lra) ltac:(lra)).
  fold A in DA. rewrite U in DA. apply abs_lt_iff in DA.
  assert (HlR : Rabs (l / rr) <= 281474976710656).
  { unfold Rdiv. rewrite Rabs_mult, (Rabs_pos_eq (/ rr)) by (left; apply Rinv_0_lt_compat; lra).
    apply Rmult_le_reg_r with rr; [lra|]. rewrite Rmult_assoc, Rinv_l by lra. lra. }
  set (l' := l / rr) in *.
  assert (El : l = l' * rr) by (unfold l'; field; lra).
  apply abs_lt_iff in HlR.
  destruct (fplus_rel _ _ F1 Fl) as [e4 [H4 [V4 F4]]].
  { rewrite EA. fold l. rewrite El. rewrite <- Rmult_plus_distr_r, Rabs_mult, (Rabs_pos_eq rr) by lra.
    apply Rle_trans with (562949953421312 * rr); [|lra].
    apply Rmult_le_compat_r; [lra|]. apply Rabs_le. lra. }
  fold up in V4, F4. rewrite EA in V4. fold l in V4. rewrite El in V4.
  set (X := (A + l') * (1 + e4)).
  assert (EX : B2R up = X * rr) by (rewrite V4; unfold X; ring).
  assert (DX := rel_abs (A + l') e4 281479271678976 ueps H4 ltac:(apply Rabs_le; lra) ltac:(lra)).
  fold X in DX. rewrite U in DX. apply abs_lt_iff in DX.
  destruct (fminus_rel up lo F4 Fl) as [e5 [H5 [V5 F5]]].
  { rewrite EX. fold l. rewrite El. rewrite <- Rmult_minus_distr_r, Rabs_mult, (Rabs_pos_eq rr) by lra.
    apply Rle_trans with (562949953421312 * rr); [|lra].
    apply Rmult_le_compat_r; [lra|]. apply Rabs_le. lra. }
  rewrite EX in V5. fold l in V5. rewrite El in V5.
  set (D := (X - l') * (1 + e5)).
  assert (ED : B2R (Bminus mode_NE up lo) = D * rr) by (rewrite V5; unfold D; ring).
  assert (DD := rel_abs (X - l') e5 4294967300 ueps H5 ltac:(apply Rabs_le; lra) ltac:(lra)).
  fold D in DD. rewrite U in DD. apply abs_lt_iff in DD.
  assert (EDR : B2R (Bminus mode_NE up lo) / rr = D) by (rewrite ED; field; lra).
  destruct (fdiv_rnd (Bminus mode_NE up lo) r F5) as [Vq Fq].
  { fold rr. lra. }
  { fold rr. rewrite EDR. apply Rle_trans with (bpow radix2 34); [apply Rabs_le; cbn; lra|apply bpow_le; lia]. }
  fold rr in Vq. rewrite EDR in Vq.
  pose proof (rnd_near D 4294967400 ltac:(apply Rabs_le; lra) ltac:(lra)) as E.
  rewrite U in E. apply abs_lt_iff in E.
  rewrite round_trunc by exact Fq. f_equal. apply Znearest_imp. rewrite Vq. fold N. apply Rabs_def1; lra.
Qed.
