(** Cell-centre round trip in binary64, with rounding at every operation. *)
From Coq Require Import Reals Lra ZArith Lia Psatz.
From Flocq Require Import Core.Core IEEE754.BinarySingleNaN.
From Verif Require Import Outcome Num Float64 FloatLemmas GridModel GridProofs.
Local Open Scope R_scope.

Lemma rel_abs v e B u : Rabs e <= u -> Rabs v <= B -> 0 <= B -> Rabs (v * (1 + e) - v) <= B * u.
Proof.
  intros He Hv HB. replace (v * (1 + e) - v) with (v * e) by ring.
  rewrite Rabs_mult. pose proof (Rabs_pos e). pose proof (Rabs_pos v).
  apply Rmult_le_compat; assumption.
Qed.

Lemma abs_lt_iff a b : Rabs a <= b -> - b <= a <= b.
Proof. intros. split; [|]; (pose proof (Rle_abs a); pose proof (Rle_abs (- a)); rewrite Rabs_Ropp in *; lra). Qed.

Definition P2 (e : Z) : R := bpow radix2 e.

Lemma axis_center_b64 (k : Z) (r lo : b64) :
  (0 <= k < two32)%Z -> is_finite r = true -> is_finite lo = true ->
  bpow radix2 (-500) <= B2R r <= bpow radix2 500 ->
  Rabs (B2R lo) <= bpow radix2 48 * B2R r ->
  let x := Bplus mode_NE (Bplus mode_NE (Bmult mode_NE (b64_ofZ k) r) (Bdiv mode_NE r (b64_ofZ 2))) lo in
  let q := Bdiv mode_NE (Bminus mode_NE x lo) r in
  is_finite q = true /\ Zfloor (B2R q) = k.
Proof.
  intros Hk Fr Fl Hr Hl x q.
  destruct (ofZ_exact k) as [Ek Fk]; [unfold two32 in Hk; lia|].
  destruct (ofZ_exact 2) as [E2 F2]; [lia|].
  assert (P500 : 0 < bpow radix2 (-500)) by apply bpow_gt_0.
  assert (Pr : 0 < B2R r) by lra.
  assert (HK : 0 <= IZR k <= 4294967295).
  { split; [apply (IZR_le 0)|apply (IZR_le k 4294967295)]; unfold two32 in Hk; lia. }
  assert (B548 : bpow radix2 548 <= bpow radix2 1000) by (apply bpow_le; lia).
  assert (B500 : bpow radix2 48 * B2R r <= bpow radix2 548).
  { replace (bpow radix2 548) with (bpow radix2 48 * bpow radix2 500) by (rewrite <- bpow_plus; f_equal; lia).
    apply Rmult_le_compat_l; [apply bpow_ge_0|lra]. }
  assert (V48 : bpow radix2 48 = 281474976710656) by (cbn; lra).
  rewrite V48 in B500, Hl.
  set (rr := B2R r) in *. set (K := IZR k) in *. set (l := B2R lo) in *.
  assert (LB : bpow radix2 (-1022) <= bpow radix2 (-500)) by (apply bpow_le; lia).
  assert (LB1 : bpow radix2 (-1022) <= / 4).
  { apply Rle_trans with (bpow radix2 (-2)); [apply bpow_le; lia|cbn; lra]. }
  assert (LB5 : bpow radix2 (-1022) <= bpow radix2 (-500) / 2).
  { apply Rle_trans with (bpow radix2 (-501)); [apply bpow_le; lia|].
    replace (bpow radix2 (-500)) with (bpow radix2 (-501) * bpow radix2 1) by (rewrite <- bpow_plus; f_equal; lia).
    replace (bpow radix2 1) with 2 by (cbn; lra). pose proof (bpow_ge_0 radix2 (-501)). lra. }
  (* k * r *)
  assert (M : exists e, Rabs e <= ueps /\ B2R (Bmult mode_NE (b64_ofZ k) r) = K * rr * (1 + e) /\
              is_finite (Bmult mode_NE (b64_ofZ k) r) = true).
  { destruct (Z.eq_dec k 0) as [Zk|Zk].
    - assert (K0 : K = 0) by (unfold K; rewrite Zk; reflexivity).
      exists 0. rewrite Rabs_R0. split; [rewrite ueps_val; lra|].
      destruct (fmult_rnd (b64_ofZ k) r Fk Fr) as [A B].
      + rewrite Ek, K0. fold rr. rewrite Rmult_0_l, Rabs_R0. apply bpow_ge_0.
      + split; [|exact B]. rewrite A, Ek, K0. fold rr. rewrite !Rmult_0_l.
        rewrite round_0 by typeclasses eauto. reflexivity.
    - assert (1 <= K) by (apply (IZR_le 1); lia).
      destruct (fmult_rel (b64_ofZ k) r Fk Fr) as [e He].
      + rewrite Ek. fold rr K. assert (rr <= K * rr) by (rewrite <- (Rmult_1_l rr) at 1; apply Rmult_le_compat_r; lra).
        rewrite Rabs_pos_eq by lra. split; [lra|].
        apply Rle_trans with (281474976710656 * rr); [apply Rmult_le_compat_r; lra|lra].
      + exists e. rewrite Ek in He. exact He. }
  destruct M as [e1 [H1 [V1 F1]]].
  (* r / 2 *)
  destruct (fdiv_rel r (b64_ofZ 2) Fr) as [e2 [H2 [V2 F2']]].
  { rewrite E2. lra. }
  { rewrite E2. fold rr. rewrite Rabs_pos_eq by lra. split; [lra|].
    apply Rle_trans with (281474976710656 * rr); lra. }
  rewrite E2 in V2. fold rr in V2.
  (* scaled by r *)
  assert (U : ueps = / 9007199254740992) by apply ueps_val.
  set (A := K * (1 + e1)). set (Hh := / 2 * (1 + e2)).
  assert (EA : B2R (Bmult mode_NE (b64_ofZ k) r) = A * rr) by (rewrite V1; unfold A; ring).
  assert (EH : B2R (Bdiv mode_NE r (b64_ofZ 2)) = Hh * rr) by (rewrite V2; unfold Hh; field).
  assert (DA := rel_abs K e1 4294967295 ueps H1 ltac:(rewrite Rabs_pos_eq; lra) ltac:(lra)).
  assert (DH := rel_abs (/2) e2 (/2) ueps H2 ltac:(rewrite Rabs_pos_eq; lra) ltac:(lra)).
  fold A in DA. fold Hh in DH. rewrite U in DA, DH. apply abs_lt_iff in DA. apply abs_lt_iff in DH.
  (* sum *)
  destruct (fplus_rel _ _ F1 F2') as [e3 [H3 [V3 F3]]].
  { rewrite EA, EH. rewrite <- Rmult_plus_distr_r, Rabs_mult, (Rabs_pos_eq rr) by lra.
    apply Rle_trans with (281474976710656 * rr); [|lra].
    apply Rmult_le_compat_r; [lra|]. rewrite Rabs_pos_eq by lra. lra. }
  set (SS := (A + Hh) * (1 + e3)).
  assert (ES : B2R (Bplus mode_NE (Bmult mode_NE (b64_ofZ k) r) (Bdiv mode_NE r (b64_ofZ 2))) = SS * rr).
  { rewrite V3, EA, EH. unfold SS. ring. }
  assert (DS := rel_abs (A + Hh) e3 4294967297 ueps H3 ltac:(rewrite Rabs_pos_eq; lra) ltac:(lra)).
  fold SS in DS. rewrite U in DS. apply abs_lt_iff in DS.
  assert (HlR : Rabs (l / rr) <= 281474976710656).
  { unfold Rdiv. rewrite Rabs_mult, (Rabs_pos_eq (/ rr)) by (left; apply Rinv_0_lt_compat; lra).
    apply Rmult_le_reg_r with rr; [lra|]. rewrite Rmult_assoc, Rinv_l by lra. lra. }
  set (l' := l / rr) in *.
  assert (El : l = l' * rr) by (unfold l'; field; lra).
  apply abs_lt_iff in HlR.
  (* + lo *)
  destruct (fplus_rel _ _ F3 Fl) as [e4 [H4 [V4 F4]]].
  { rewrite ES. fold l. rewrite El. rewrite <- Rmult_plus_distr_r, Rabs_mult, (Rabs_pos_eq rr) by lra.
    apply Rle_trans with (2 * (281474976710656 * rr)).
    - replace (2 * (281474976710656 * rr)) with (562949953421312 * rr) by ring.
      apply Rmult_le_compat_r; [lra|]. apply Rabs_le. lra.
    - apply Rle_trans with (2 * bpow radix2 548); [lra|].
      apply Rle_trans with (bpow radix2 549); [|apply bpow_le; lia].
      replace (bpow radix2 549) with (bpow radix2 548 * bpow radix2 1) by (rewrite <- bpow_plus; f_equal; lia).
      replace (bpow radix2 1) with 2 by (cbn; lra). lra. }
  fold x in V4, F4. rewrite ES in V4. fold l in V4. rewrite El in V4.
  set (X := (SS + l') * (1 + e4)).
  assert (EX : B2R x = X * rr) by (rewrite V4; unfold X; ring).
  assert (DX := rel_abs (SS + l') e4 281479271678976 ueps H4 ltac:(apply Rabs_le; lra) ltac:(lra)).
  fold X in DX. rewrite U in DX. apply abs_lt_iff in DX.
  (* - lo *)
  destruct (fminus_rel x lo F4 Fl) as [e5 [H5 [V5 F5]]].
  { rewrite EX. fold l. rewrite El. rewrite <- Rmult_minus_distr_r, Rabs_mult, (Rabs_pos_eq rr) by lra.
    apply Rle_trans with (281474976710656 * rr); [|lra].
    apply Rmult_le_compat_r; [lra|]. apply Rabs_le. lra. }
  rewrite EX in V5. fold l in V5. rewrite El in V5.
  set (D := (X - l') * (1 + e5)).
  assert (ED : B2R (Bminus mode_NE x lo) = D * rr) by (rewrite V5; unfold D; ring).
  assert (DD := rel_abs (X - l') e5 4294967300 ueps H5 ltac:(apply Rabs_le; lra) ltac:(lra)).
  fold D in DD. rewrite U in DD. apply abs_lt_iff in DD.
  (* / r *)
  assert (EDR : B2R (Bminus mode_NE x lo) / rr = D) by (rewrite ED; field; lra).
  destruct (fdiv_rel (Bminus mode_NE x lo) r F5) as [e6 [H6 [V6 F6]]].
  { fold rr. lra. }
  { fold rr. rewrite EDR. rewrite Rabs_pos_eq by lra. split; [lra|].
    apply Rle_trans with (bpow radix2 34); [cbn; lra|apply bpow_le; lia]. }
  fold rr in V6. rewrite EDR in V6. fold q in V6, F6.
  split; [exact F6|]. apply Zfloor_imp. rewrite plus_IZR. fold K. rewrite V6.
  assert (DQ := rel_abs D e6 4294967400 ueps H6 ltac:(apply Rabs_le; lra) ltac:(lra)).
  rewrite U in DQ. apply abs_lt_iff in DQ. lra.
Qed.

Lemma center_roundtrip_b64 (L : libm) (g : grid b64) i j :
  is_finite (g_res g) = true -> is_finite (g_xmin g) = true -> is_finite (g_ymin g) = true ->
  bpow radix2 (-500) <= B2R (g_res g) <= bpow radix2 500 ->
  Rabs (B2R (g_xmin g)) <= bpow radix2 48 * B2R (g_res g) ->
  Rabs (B2R (g_ymin g)) <= bpow radix2 48 * B2R (g_res g) ->
  (0 <= i < g_ysize g)%Z -> (0 <= j < g_xsize g)%Z ->
  (g_xsize g <= two32)%Z -> (g_ysize g <= two32)%Z ->
  let (x, y) := @grid2World b64 (F64 L) g i j in
  @world2Grid b64 (F64 L) g x y = Ok (i, j).
Proof.
  intros Fr Fx Fy Hr Hx Hy Hi Hj Sx Sy.
  unfold grid2World, world2Grid, to_u32.
  cbn [nofZ nmul nadd ndiv nsub nfloor ntrunc F64 n2].
  destruct (axis_center_b64 j (g_res g) (g_xmin g) ltac:(lia) Fr Fx Hr Hx) as [Q1 Z1].
  destruct (axis_center_b64 i (g_res g) (g_ymin g) ltac:(lia) Fr Fy Hr Hy) as [Q2 Z2].
  unfold n2. cbn [nofZ F64].
  rewrite !floor_trunc by assumption. rewrite Z1, Z2.
  destruct ((0 <=? j) && (j <? two32))%Z eqn:E1; [|lia].
  destruct ((0 <=? i) && (i <? two32))%Z eqn:E2; [|lia].
  cbn [bind].
  destruct (j =? g_xsize g)%Z eqn:E3; [lia|].
  destruct (i =? g_ysize g)%Z eqn:E4; [lia|]. reflexivity.
Qed.

(** Cell values in binary64: monotone, and negative exactly for negative bytes. *)
Lemma cell_val_b64 (L : libm) v : (-128 <= v <= 127)%Z ->
  is_finite (@cell_val b64 (F64 L) v) = true /\
  B2R (@cell_val b64 (F64 L) v) = rnd64 (IZR v / 100).
Proof.
  intros H. unfold cell_val. cbn [nofZ ndiv F64].
  destruct (ofZ_exact v) as [Ev Fv]; [lia|]. destruct (ofZ_exact 100) as [E1 F1]; [lia|].
  destruct (fdiv_rnd (b64_ofZ v) (b64_ofZ 100) Fv) as [A B].
  - rewrite E1. lra.
  - rewrite Ev, E1. apply Rle_trans with 2.
    + apply Rabs_le. assert (-128 <= IZR v <= 127) by (split; apply IZR_le; lia). lra.
    + change 2 with (bpow radix2 1). apply bpow_le. lia.
  - split; [exact B|]. rewrite A, Ev, E1. reflexivity.
Qed.

(** The 256 cell values are strictly increasing: checked for the 255 neighbours, lifted by transitivity. *)
Definition cv (v : Z) : b64 := Bdiv mode_NE (b64_ofZ v) (b64_ofZ 100).
Definition byte_seq : list Z := map (fun n => Z.of_nat n - 128)%Z (seq 0 255).
Lemma byte_seq_in v : (-128 <= v < 127)%Z -> In v byte_seq.
Proof.
  intros H. unfold byte_seq. apply in_map_iff. exists (Z.to_nat (v + 128)). split; [lia|].
  apply in_seq. lia.
Qed.
Lemma cv_step v : (-128 <= v < 127)%Z -> Bltb (cv v) (cv (v + 1)) = true.
Proof.
  intros Hv.
  assert (C : forallb (fun a => Bltb (cv a) (cv (a + 1))) byte_seq = true) by (vm_compute; reflexivity).
  rewrite forallb_forall in C. exact (C v (byte_seq_in v Hv)).
Qed.
Lemma cv_lt (n : nat) : forall v, (-128 <= v)%Z -> (v + Z.of_nat n < 127)%Z ->
  Bltb (cv v) (cv (v + Z.of_nat n + 1)) = true.
Proof.
  induction n as [|n IH]; intros v H1 H2.
  - replace (v + Z.of_nat 0 + 1)%Z with (v + 1)%Z by lia. apply cv_step. lia.
  - eapply Bltb_trans; [apply (IH v); lia|].
    replace (v + Z.of_nat (S n) + 1)%Z with (v + Z.of_nat n + 1 + 1)%Z by lia. apply cv_step. lia.
Qed.

Lemma cell_val_b64_strict (L : libm) u v :
  (-128 <= u <= 127)%Z -> (-128 <= v <= 127)%Z ->
  @nlt b64 (F64 L) (@cell_val b64 (F64 L) u) (@cell_val b64 (F64 L) v) = (u <? v)%Z.
Proof.
  intros Hu Hv. unfold cell_val. cbn [nlt nofZ ndiv F64]. fold (cv u). fold (cv v).
  assert (P : forall a b, (-128 <= a)%Z -> (a < b <= 127)%Z -> Bltb (cv a) (cv b) = true).
  { intros a b Ha Hb. replace b with (a + Z.of_nat (Z.to_nat (b - a - 1)) + 1)%Z by lia.
    apply cv_lt; lia. }
  destruct (Z.ltb_spec u v).
  - apply P; lia.
  - destruct (Z.eq_dec u v) as [->|].
    + apply Bltb_irrefl.
    + apply Bltb_asym. apply P; lia.
Qed.

Lemma cell_val_b64_neg (L : libm) v : (-128 <= v <= 127)%Z ->
  @nlt b64 (F64 L) (@cell_val b64 (F64 L) v) (@n0 b64 (F64 L)) = (v <? 0)%Z.
Proof.
  intros Hv. rewrite <- (cell_val_b64_strict L v 0) by lia.
  unfold cell_val, n0. cbn [nlt nofZ ndiv F64].
  assert (E : Bdiv mode_NE (b64_ofZ 0) (b64_ofZ 100) = b64_ofZ 0) by (vm_compute; reflexivity).
  rewrite E. reflexivity.
Qed.
