(** The angle wrappers in binary64 on moderate angles. *)
From Coq Require Import Reals Lra ZArith Lia Psatz Machin Ratan.
From Flocq Require Import Core.Core IEEE754.BinarySingleNaN Relative.
From Verif Require Import Outcome Num Float64 FloatLemmas NumericsModel.
Local Open Scope R_scope.

Lemma pi_tight : Rabs (PI - 884279719003555 / 281474976710656) <= 1 / 1125899906842624.
Proof.
  pose proof (PI_2_3_7_ineq 8) as H. unfold PI_2_3_7_tg, Ratan_seq, tg_alt in H.
  cbn [sum_f_R0 Nat.mul Nat.add] in H.
  repeat match type of H with context [INR ?n] => let v := eval vm_compute in (Z.of_nat n) in replace (INR n) with (IZR v) in H by (rewrite INR_IZR_INZ; reflexivity) end.
  cbn [pow] in H. apply Rabs_le. lra.
Qed.
Definition pid : R := 884279719003555 / 281474976710656.
Lemma pi_val : B2R b64_pi = pid /\ is_finite b64_pi = true.
Proof.
  split; [|reflexivity]. unfold b64_pi, b64_scaled, pid.
  pose proof (binary_normalize_correct 53 1024 prec53 emax1024 mode_NE 884279719003555 (-48) false) as C. cbv zeta in C.
  assert (HF : F2R (Float radix2 884279719003555 (-48)) = 884279719003555 / 281474976710656) by (unfold F2R; cbn; lra).
  rewrite round_generic in C; [|typeclasses eauto|].
  - rewrite Rlt_bool_true in C; [rewrite (proj1 C); exact HF|]. rewrite HF. rewrite Rabs_pos_eq by lra.
    apply Rlt_trans with (bpow radix2 2); [cbn; lra|apply bpow_lt; lia].
  - apply (generic_format_FLT radix2 (-1074) 53). exists (Float radix2 884279719003555 (-48)); cbn; [reflexivity|lia|lia].
Qed.
Lemma rnd_err x : Rabs (rnd64 x - x) <= ueps * Rabs x + bpow radix2 (-1075).
Proof.
  destruct (error_N_FLT radix2 (-1074) 53 eq_refl (fun z => negb (Z.even z)) x) as (e & t & He & Ht & _ & E).
  change (round radix2 (FLT_exp (-1074) 53) (Znearest (fun z => negb (Z.even z))) x) with (rnd64 x) in E. rewrite E.
  replace (x * (1 + e) + t - x) with (e * x + t) by ring. eapply Rle_trans; [apply Rabs_triang|]. rewrite Rabs_mult.
  assert (Rabs e <= ueps) by (replace ueps with (/ 2 * bpow radix2 (-53 + 1)); [exact He|unfold ueps; cbn; lra]).
  assert (Rabs t <= bpow radix2 (-1075)).
  { eapply Rle_trans; [exact Ht|]. apply Req_le. change (/ 2) with (bpow radix2 (-1)). rewrite <- bpow_plus. reflexivity. }
  pose proof (Rabs_pos x). nra.
Qed.
(** With a bound on the operand *)
Lemma rnd_near x b : Rabs x <= b -> 1 <= b -> Rabs (rnd64 x - x) <= 2 * ueps * b.
Proof.
  intros H Hb. eapply Rle_trans; [apply rnd_err|]. assert (0 < ueps) by (rewrite ueps_val; lra).
  assert (bpow radix2 (-1075) <= ueps) by (apply bpow_le; lia). nra.
Qed.
Lemma floor64 (x : b64) : is_finite x = true ->
  B2R (Bnearbyint mode_DN x) = IZR (Zfloor (B2R x)) /\ is_finite (Bnearbyint mode_DN x) = true.
Proof.
  intros F. destruct (Bnearbyint_correct 53 1024 _ mode_DN x) as [E [Fi _]]. rewrite E, Fi. cbn [round_mode]. rewrite round_FIX_IZR. auto.
Qed.
Lemma int_format z : (Z.abs z <= 9007199254740992)%Z -> rnd64 (IZR z) = IZR z.
Proof. intros H. rewrite <- (proj1 (ofZ_exact z H)). apply round_generic; [typeclasses eauto|apply generic_format_B2R]. Qed.
Lemma two_val : B2R (b64_ofZ 2) = 2 /\ is_finite (b64_ofZ 2) = true.
Proof. apply (ofZ_exact 2). vm_compute. discriminate. Qed.
Lemma zero_val : B2R (b64_ofZ 0) = 0 /\ is_finite (b64_ofZ 0) = true.
Proof. apply (ofZ_exact 0). vm_compute. discriminate. Qed.
Lemma twopi_val : B2R (Bmult mode_NE (b64_ofZ 2) b64_pi) = 2 * pid /\ is_finite (Bmult mode_NE (b64_ofZ 2) b64_pi) = true.
Proof.
  destruct two_val as [T1 T2]. destruct pi_val as [P1 P2].
  assert (Bd : Rabs (B2R (b64_ofZ 2) * B2R b64_pi) <= bpow radix2 1000).
  { rewrite T1, P1. unfold pid. rewrite Rabs_pos_eq by lra. apply Rle_trans with (bpow radix2 3); [cbn; lra|apply bpow_le; lia]. }
  destruct (fmult_rnd _ _ T2 P2 Bd) as [E F]. split; [|exact F]. rewrite E, T1, P1. apply round_generic; [typeclasses eauto|].
  replace (2 * pid) with (F2R (Float radix2 884279719003555 (-47))) by (unfold F2R, pid; cbn; lra).
  apply (generic_format_FLT radix2 (-1074) 53). exists (Float radix2 884279719003555 (-47)); cbn; [reflexivity|lia|lia].
Qed.
Lemma big_bound x b : Rabs x <= b -> b <= bpow radix2 60 -> Rabs x <= bpow radix2 1000.
Proof. intros H K. eapply Rle_trans; [exact H|]. eapply Rle_trans; [exact K|]. apply bpow_le. lia. Qed.

(** The reduction common to both: a - q * 2.0 * PI with q = floor(a / (2.0 * PI)) *)
Definition reduce (a : b64) : b64 :=
  Bminus mode_NE a (Bmult mode_NE (Bmult mode_NE (Bnearbyint mode_DN (Bdiv mode_NE a (Bmult mode_NE (b64_ofZ 2) b64_pi))) (b64_ofZ 2)) b64_pi).
Section Reduce.
Variables (M : R) (a : b64).
Hypotheses (M1 : 8 <= M) (M2 : M <= bpow radix2 40) (Fa : is_finite a = true) (Ha : Rabs (B2R a) <= 2 * M).
Let Mv : M <= 1099511627776. Proof. eapply Rle_trans; [exact M2|]. cbn. lra. Qed.
Lemma reduce_spec : exists q : Z, Rabs (IZR q) <= M /\ is_finite (reduce a) = true /\
  Rabs (B2R (reduce a) - (B2R a - 2 * pid * IZR q)) <= 12 * ueps * M /\
  - (32 * ueps * M) <= B2R (reduce a) <= 2 * pid + 32 * ueps * M.
Proof.
  pose proof ueps_val as U. assert (U0 : 0 < ueps) by (rewrite U; lra).
  assert (UM : ueps * M <= 1 / 8192) by (rewrite U; lra).
  assert (Pv : 3 < pid < 4) by (unfold pid; lra).
  destruct two_val as [T1 T2]. destruct pi_val as [P1 P2]. destruct twopi_val as [W1 W2]. unfold reduce.
  set (tp := Bmult mode_NE (b64_ofZ 2) b64_pi) in *. set (x := B2R a) in *.
  (* the quotient *)
  set (s := x / (2 * pid)). assert (Xs : x = s * (2 * pid)) by (unfold s; field; lra).
  assert (Sb : Rabs s <= M / 3).
  { unfold s, Rdiv. rewrite Rabs_mult, Rabs_inv, (Rabs_pos_eq (2 * pid)) by lra. apply Rmult_le_reg_r with (2 * pid); [lra|].
    rewrite Rmult_assoc, Rinv_l, Rmult_1_r by lra. nra. }
  assert (B1 : Rabs (B2R a / B2R tp) <= bpow radix2 1000).
  { rewrite W1. apply (big_bound _ M); [fold x; fold s; lra|eapply Rle_trans; [exact M2|apply bpow_le; lia]]. }
  destruct (fdiv_rnd a tp Fa ltac:(rewrite W1; lra) B1) as [E1 F1]. rewrite W1 in E1. fold x in E1. fold s in E1. set (t := Bdiv mode_NE a tp) in *.
  pose proof (rnd_near s (M / 3) Sb ltac:(lra)) as Et. rewrite <- E1 in Et.
  (* its floor *)
  destruct (floor64 t F1) as [E2 F2]. set (qf := Bnearbyint mode_DN t) in *. set (q := Zfloor (B2R t)) in *.
  pose proof (Zfloor_lb (B2R t)) as Lq. pose proof (Zfloor_ub (B2R t)) as Uq. fold q in Lq, Uq.
  apply Rabs_le_inv in Et. pose proof (Rabs_le_inv _ _ Sb) as Sb'.
  assert (Q1 : - (M / 2) <= IZR q <= M / 2) by lra.
  assert (Qz : (Z.abs (2 * q) <= 9007199254740992)%Z).
  { apply le_IZR. rewrite abs_IZR, mult_IZR. apply Rabs_le. lra. }
  assert (B2 : Rabs (B2R qf * B2R (b64_ofZ 2)) <= bpow radix2 1000).
  { rewrite E2, T1. apply (big_bound _ M); [apply Rabs_le; lra|eapply Rle_trans; [exact M2|apply bpow_le; lia]]. }
  destruct (fmult_rnd qf (b64_ofZ 2) F2 T2 B2) as [E3 F3]. rewrite E2, T1 in E3.
  replace (IZR q * 2) with (IZR (2 * q)) in E3 by (rewrite mult_IZR; ring). rewrite (int_format _ Qz), mult_IZR in E3. set (m1 := Bmult mode_NE qf (b64_ofZ 2)) in *.
  (* times pi *)
  assert (D : - (8 * ueps * M) <= x - 2 * pid * IZR q <= 2 * pid + 8 * ueps * M).
  { replace (x - 2 * pid * IZR q) with (2 * pid * (s - IZR q)) by (rewrite Xs; ring). split; nra. }
  assert (B3 : Rabs (2 * IZR q * pid) <= 4 * M).
  { pose proof (Rabs_le_inv _ _ Ha). apply Rabs_le. lra. }
  assert (B3' : Rabs (B2R m1 * B2R b64_pi) <= bpow radix2 1000).
  { rewrite E3, P1. apply (big_bound _ (4 * M)); [exact B3|]. apply Rle_trans with (bpow radix2 2 * bpow radix2 40); [cbn [bpow] in *; cbn; lra|]. rewrite <- bpow_plus. apply bpow_le. lia. }
  destruct (fmult_rnd m1 b64_pi F3 P2 B3') as [E4 F4]. rewrite E3, P1 in E4. set (m := Bmult mode_NE m1 b64_pi) in *.
  pose proof (rnd_near _ (4 * M) B3 ltac:(lra)) as Em. rewrite <- E4 in Em. apply Rabs_le_inv in Em.
  (* the difference *)
  assert (B4 : Rabs (x - B2R m) <= 9) by (apply Rabs_le; lra).
  assert (B4' : Rabs (B2R a - B2R m) <= bpow radix2 1000).
  { fold x. apply (big_bound _ 9); [exact B4|]. apply Rle_trans with (bpow radix2 4); [cbn; lra|apply bpow_le; lia]. }
  destruct (fminus_rnd a m Fa F4 B4') as [E5 F5]. fold x in E5. pose proof (rnd_near _ 9 B4 ltac:(lra)) as Er. rewrite <- E5 in Er. apply Rabs_le_inv in Er.
  exists q. split; [apply Rabs_le; lra|]. split; [exact F5|].
  assert (U18 : 18 * ueps <= 9 / 4 * (ueps * M)) by nra.
  split; [apply Rabs_le|]; split; lra.
Qed.
End Reduce.

Lemma to_pi z : Rabs (2 * pid * IZR z - 2 * PI * IZR z) <= 16 * ueps * Rabs (IZR z).
Proof.
  pose proof pi_tight as P. fold pid in P. replace (2 * pid * IZR z - 2 * PI * IZR z) with (- (2 * (PI - pid) * IZR z)) by ring.
  rewrite Rabs_Ropp, !Rabs_mult, (Rabs_pos_eq 2) by lra. pose proof (Rabs_pos (IZR z)). rewrite ueps_val. nra.
Qed.
Section Wrap.
Variables (L : libm) (n : Z) (y : b64).
Hypotheses (N1 : (3 <= n <= 40)%Z) (Fy : is_finite y = true) (Hy : Rabs (B2R y) <= bpow radix2 n).
Let M := bpow radix2 n.
Let M1 : 8 <= M. Proof. apply Rle_trans with (bpow radix2 3); [cbn; lra|apply bpow_le; lia]. Qed.
Let M2 : M <= bpow radix2 40. Proof. apply bpow_le. lia. Qed.
Let Mv : M <= 1099511627776. Proof. eapply Rle_trans; [exact M2|]. cbn. lra. Qed.
Let M3 : bpow radix2 (n - 47) = 64 * (ueps * M).
Proof. unfold M, ueps. replace 64 with (bpow radix2 6) by (cbn; lra). rewrite <- !bpow_plus. f_equal. lia. Qed.
Let tp := Bmult mode_NE (b64_ofZ 2) b64_pi.
Let small x : Rabs x <= 9 -> Rabs x <= bpow radix2 1000.
Proof. intros H. apply (big_bound _ 9); [exact H|]. apply Rle_trans with (bpow radix2 4); [cbn; lra|apply bpow_le; lia]. Qed.
(** The conditional correction *)
Let fix_up (r : b64) := if Bltb r (b64_ofZ 0) then Bplus mode_NE r tp else r.
Let fix_up_spec (r : b64) : is_finite r = true -> - (32 * ueps * M) <= B2R r <= 2 * pid + 32 * ueps * M ->
  is_finite (fix_up r) = true /\ 0 <= B2R (fix_up r) <= 2 * pid + 32 * ueps * M /\
  exists k : Z, (k = 0 \/ k = 1)%Z /\ Rabs (B2R (fix_up r) - (B2R r + 2 * pid * IZR k)) <= 3 * ueps * M.
Proof.
  intros F H. pose proof ueps_val as U. assert (U0 : 0 < ueps) by (rewrite U; lra).
  assert (UM : ueps * M <= 1 / 8192) by (rewrite U; lra). assert (UL : 8 * ueps <= ueps * M) by nra.
  assert (Pv : 3 < pid < 3.2) by (unfold pid; lra). destruct zero_val as [Z1 Z2]. destruct twopi_val as [W1 W2]. fold tp in W1, W2.
  unfold fix_up. rewrite (Bltb_R _ _ F Z2), Z1. destruct (Rlt_bool_spec (B2R r) 0) as [C|C].
  - assert (B : Rabs (B2R r + 2 * pid) <= 9) by (apply Rabs_le; lra).
    destruct (fplus_rnd r tp F W2) as [E F']; [rewrite W1; apply small; exact B|]. rewrite W1 in E.
    pose proof (rnd_near _ 9 B ltac:(lra)) as Er. rewrite <- E in Er. split; [exact F'|].
    apply Rabs_le_inv in Er. split; [lra|]. exists 1%Z. split; [auto|]. apply Rabs_le. lra.
  - split; [exact F|]. split; [lra|]. exists 0%Z. split; [auto|]. rewrite Rmult_0_r, Rplus_0_r, Rminus_diag_eq, Rabs_R0 by reflexivity. nra.
Qed.
Lemma wrap2pi_b64 : let a := @normalize_angle_2PI b64 (F64 L) y in
  is_finite a = true /\ 0 <= B2R a <= 2 * PI + bpow radix2 (n - 47) /\
  exists k : Z, Rabs (B2R a - (B2R y + 2 * PI * IZR k)) <= bpow radix2 (n - 47).
Proof.
  pose proof ueps_val as U. assert (U0 : 0 < ueps) by (rewrite U; lra).
  destruct (reduce_spec M y M1 M2 Fy) as (q & Q & F & E & R); [fold M in Hy; lra|].
  destruct (fix_up_spec (reduce y) F R) as (F' & R' & k & K & E').
  change (@normalize_angle_2PI b64 (F64 L) y) with (fix_up (reduce y)). cbv zeta. rewrite M3.
  pose proof pi_tight as P. fold pid in P. apply Rabs_le_inv in P. split; [exact F'|]. split; [rewrite U in *; lra|].
  exists (k - q)%Z. pose proof (to_pi (k - q)) as TP.
  assert (Kq : Rabs (IZR (k - q)) <= M + 1).
  { rewrite minus_IZR. apply Rabs_le_inv in Q. apply Rabs_le. destruct K; subst k; lra. }
  assert (TP' : Rabs (2 * pid * IZR (k - q) - 2 * PI * IZR (k - q)) <= 16 * (ueps * (M + 1))) by nra.
  rewrite minus_IZR in *. apply Rabs_le_inv in E, E', TP'. assert (8 * ueps <= ueps * M) by nra. apply Rabs_le. split; nra.
Qed.
Lemma wrappi_b64 : let a := @normalize_angle_PI b64 (F64 L) y in
  is_finite a = true /\ Rabs (B2R a) <= PI + bpow radix2 (n - 47) /\
  exists k : Z, Rabs (B2R a - (B2R y + 2 * PI * IZR k)) <= bpow radix2 (n - 47).
Proof.
  pose proof ueps_val as U. assert (U0 : 0 < ueps) by (rewrite U; lra). destruct pi_val as [P1 P2].
  assert (UM : ueps * M <= 1 / 8192) by (rewrite U; lra).
  assert (Pv : 3 < pid < 3.2) by (unfold pid; lra). fold M in Hy.
  assert (B0 : Rabs (B2R y + pid) <= 3 / 2 * M) by (apply Rabs_le_inv in Hy; apply Rabs_le; lra).
  destruct (fplus_rnd y b64_pi Fy P2) as [E0 F0].
  { rewrite P1. apply (big_bound _ (3 / 2 * M)); [exact B0|]. apply Rle_trans with (bpow radix2 41); [cbn; lra|apply bpow_le; lia]. }
  rewrite P1 in E0. pose proof (rnd_near _ _ B0 ltac:(lra)) as A0. rewrite <- E0 in A0. set (a := Bplus mode_NE y b64_pi) in *.
  destruct (reduce_spec M a M1 M2 F0) as (q & Q & F & E & R).
  { apply Rabs_le_inv in A0, B0. apply Rabs_le. lra. }
  destruct (fix_up_spec (reduce a) F R) as (F' & R' & k & K & E').
  set (b := fix_up (reduce a)) in *.
  assert (B1 : Rabs (B2R b - pid) <= 4) by (apply Rabs_le; lra).
  destruct (fminus_rnd b b64_pi F' P2) as [E1 F1]; [rewrite P1; apply small; lra|]. rewrite P1 in E1.
  pose proof (rnd_near _ _ B1 ltac:(lra)) as A1. rewrite <- E1 in A1.
  change (@normalize_angle_PI b64 (F64 L) y) with (Bminus mode_NE b b64_pi). cbv zeta. rewrite M3.
  pose proof pi_tight as P. fold pid in P. apply Rabs_le_inv in P. apply Rabs_le_inv in A1. assert (UL : 8 * ueps <= ueps * M) by nra.
  split; [exact F1|]. split; [apply Rabs_le; rewrite U in *; lra|].
  exists (k - q)%Z. pose proof (to_pi (k - q)) as TP.
  assert (Kq : Rabs (IZR (k - q)) <= M + 1).
  { rewrite minus_IZR. apply Rabs_le_inv in Q. apply Rabs_le. destruct K; subst k; lra. }
  assert (TP' : Rabs (2 * pid * IZR (k - q) - 2 * PI * IZR (k - q)) <= 16 * (ueps * (M + 1))) by nra.
  rewrite minus_IZR in *. apply Rabs_le_inv in A0, E, E', TP'. apply Rabs_le. split; nra.
Qed.
End Wrap.
