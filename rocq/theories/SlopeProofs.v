(** The gradient of the ergodic metric in binary64 arithmetic: proofs. *)
From Coq Require Import Reals Lra ZArith Lia List Psatz.
From Flocq Require Import Core.Core IEEE754.BinarySingleNaN.
From Verif Require Import Outcome Num Float64 FloatLemmas NumericsModel BufferModel BasisModel RobotModel ErgodicModel SpecBasis BasisProofs AngleFloat NearProofs SpecCoeff CoeffProofs SpecSlope.
Import ListNotations.
Local Open Scope R_scope.
Notation is_finite := BinarySingleNaN.is_finite.

Lemma tiny_u k : (-1000 <= k)%Z -> tiny <= bpow radix2 k.
Proof. intros H. unfold tiny. apply bpow_le. lia. Qed.
Lemma tiny_small : 0 < tiny <= ueps * / 1000000.
Proof. split; [apply tiny_pos|]. apply Rle_trans with (bpow radix2 (-100)); [apply tiny_u; lia|]. unfold ueps. cbn. lra. Qed.
(** A product of two numbers known up to [a] and [b], rounded. *)
Lemma round_prod (x y : b64) X Y a b f g : is_finite x = true -> is_finite y = true -> Rabs (B2R x - X) <= a -> Rabs (B2R y - Y) <= b ->
  Rabs (B2R y) <= g -> Rabs X <= f -> 0 <= a -> g * (f + a) <= bpow radix2 100 ->
  is_finite (Bmult mode_NE x y) = true /\ Rabs (B2R (Bmult mode_NE x y) - X * Y) <= a * g + f * b + ueps * (g * (f + a)) + tiny.
Proof.
  intros Fx Fy Ha Hb Hg Hf Pa Big.
  assert (Bx : Rabs (B2R x) <= f + a) by (replace (B2R x) with (X + (B2R x - X)) by ring; apply add_le; assumption).
  assert (P : Rabs (B2R x * B2R y) <= g * (f + a)) by (rewrite Rmult_comm; apply mul_le; assumption).
  destruct (fmult_abs x y Fx Fy) as (e & h & He & Hh & E & F); [lra|]. split; [exact F|]. rewrite E.
  replace (B2R x * B2R y * (1 + e) + h - X * Y) with (((B2R x - X) * B2R y + X * (B2R y - Y)) + (B2R x * B2R y * e + h)) by ring.
  pose proof (add_le _ _ _ _ (add_le _ _ _ _ (mul_le _ _ _ _ Ha Hg) (mul_le _ _ _ _ Hf Hb)) (add_le _ _ _ _ (mul_le _ _ _ _ P He) Hh)). lra.
Qed.
Section Lib.
Variable L : libm.
Notation plus := (@nadd b64 (F64 L)).
Notation sum := (@vsum b64 (F64 L)).
(** ** Sums of numbers up to [B] *)
Lemma sum_step B l : 0 <= B <= bpow radix2 60 -> Forall (fun v : b64 => is_finite v = true /\ Rabs (B2R v) <= B) l -> forall acc a j, (0 <= j)%Z -> (j + Z.of_nat (length l) <= 2 ^ 30)%Z ->
  is_finite acc = true -> Rabs a <= IZR j * B -> Rabs (B2R acc - a) <= ueps * B * (IZR j * IZR j) ->
  let n := IZR (j + Z.of_nat (length l)) in is_finite (fold_left plus l acc) = true /\ Rabs (a + rsum (map B2R l)) <= n * B /\ Rabs (B2R (fold_left plus l acc) - (a + rsum (map B2R l))) <= ueps * B * (n * n).
Proof.
  intros HB F. induction F as [|v l [Fv Bv] F IH]; intros acc a j J N Fa Ba C n; subst n.
  - cbn [fold_left length Z.of_nat map]. change (rsum []) with 0. rewrite Z.add_0_r, Rplus_0_r. auto.
  - cbn [fold_left length map] in *. rewrite Nat2Z.inj_succ in *. rewrite rsum_cons.
    pose proof u_small as U. assert (Rj : 0 <= IZR j <= 1073741824) by (split; apply IZR_le; lia).
    assert (UB : 0 <= ueps * B) by (apply Rmult_le_pos; lra).
    assert (E0 : ueps * B * (IZR j * IZR j) <= IZR j * B).
    { replace (ueps * B * (IZR j * IZR j)) with (IZR j * B * (ueps * IZR j)) by ring. rewrite <- (Rmult_1_r (IZR j * B)) at 2. apply Rmult_le_compat_l; [apply Rmult_le_pos; lra|].
      apply Rle_trans with (/ 9007199254740992 * 1073741824); [apply Rmult_le_compat; lra|lra]. }
    assert (Bs : Rabs (B2R acc + B2R v) <= IZR j * B + B + ueps * B * (IZR j * IZR j)).
    { replace (B2R acc + B2R v) with (a + (B2R v + (B2R acc - a))) by ring. pose proof (add_le _ _ _ _ Ba (add_le _ _ _ _ Bv C)). lra. }
    destruct (fplus_abs acc v Fa Fv) as (e & He & E & G).
    { apply Rle_trans with (IZR 4294967296 * B); [assert (IZR j * B <= 1073741824 * B) by (apply Rmult_le_compat_r; lra); lra|].
      apply Rle_trans with (bpow radix2 32 * bpow radix2 60); [change (IZR 4294967296) with (bpow radix2 32); apply Rmult_le_compat_l; [apply bpow_ge_0|apply HB]|]. rewrite <- bpow_plus. apply bpow_le. lia. }
    replace (j + Z.succ (Z.of_nat (length l)))%Z with ((j + 1) + Z.of_nat (length l))%Z by lia.
    replace (a + (B2R v + rsum (map B2R l))) with ((a + B2R v) + rsum (map B2R l)) by ring.
    apply IH; [lia|lia|exact G| |].
    + rewrite plus_IZR. pose proof (add_le _ _ _ _ Ba Bv). lra.
    + change (Rabs (B2R (Bplus mode_NE acc v) - (a + B2R v)) <= ueps * B * (IZR (j + 1) * IZR (j + 1))). rewrite E, plus_IZR.
      replace ((B2R acc + B2R v) * (1 + e) - (a + B2R v)) with ((B2R acc - a) + (B2R acc + B2R v) * e) by ring.
      pose proof (add_le _ _ _ _ C (mul_le _ _ _ _ Bs He)) as Q. eapply Rle_trans; [exact Q|].
      assert (ueps * (ueps * B * (IZR j * IZR j)) <= ueps * (IZR j * B)) by (apply Rmult_le_compat_l; lra). lra.
Qed.
Lemma sum_near B d l (r : list R) : 0 <= B <= bpow radix2 60 -> Forall2 (fun (v : b64) x => (is_finite v = true /\ Rabs (B2R v) <= B) /\ Rabs (B2R v - x) <= d) l r -> (Z.of_nat (length l) <= 2 ^ 30)%Z ->
  let n := IZR (Z.of_nat (length l)) in is_finite (sum l) = true /\ Rabs (rsum (map B2R l)) <= n * B /\ Rabs (B2R (sum l) - rsum r) <= n * d + ueps * B * (n * n) /\ Rabs (B2R (sum l) - rsum (map B2R l)) <= ueps * B * (n * n).
Proof.
  intros HB F N n. destruct (zero_fin L) as [Z1 Z2].
  assert (F1 : Forall (fun v : b64 => is_finite v = true /\ Rabs (B2R v) <= B) l) by (clear -F; induction F; constructor; tauto).
  destruct (sum_step B l HB F1 (@n0 b64 (F64 L)) 0 0%Z) as (A1 & A2 & A3); [lia|lia|exact Z1|rewrite Rabs_R0; lra|rewrite Z2, Rminus_0_r, Rabs_R0; lra|].
  rewrite Z.add_0_l, Rplus_0_l in *. split; [exact A1|]. split; [exact A2|]. split; [|exact A3].
  assert (G : Rabs (rsum (map B2R l) - rsum r) <= n * d).
  { unfold n. clear -F. induction F as [|v x l r [_ H] F IH]; [apply Rabs_le; unfold rsum; cbn; lra|]. cbn [map length]. rewrite !rsum_cons, Nat2Z.inj_succ, succ_IZR.
    replace (B2R v + rsum (map B2R l) - (x + rsum r)) with ((B2R v - x) + (rsum (map B2R l) - rsum r)) by ring. pose proof (add_le _ _ _ _ H IH). lra. }
  replace (B2R (sum l) - rsum r) with ((rsum (map B2R l) - rsum r) + (B2R (sum l) - rsum (map B2R l))) by ring. apply add_le; assumption.
Qed.
(** ** One mode *)
Lemma freq_close (k : Z) (l : b64) : medium l -> / 1048576 <= B2R l -> (Z.abs k <= 2147483648)%Z ->
  let K := @nmul b64 (F64 L) (@nofZ b64 (F64 L) k) (@ndiv b64 (F64 L) (@npi b64 (F64 L)) l) in let f := IZR k * PI / B2R l in
  is_finite K = true /\ Rabs (B2R K - f) <= 6 * ueps * Rabs f + tiny.
Proof.
  intros [Fl Bl] Ll Hk K f. destruct (ofZ_exact k ltac:(lia)) as [Ek Fk]. destruct pi_val as [Ep Fp].
  assert (PB : 3 <= pid <= 4) by (unfold pid; lra).
  assert (IL : / 1073741824 <= / B2R l <= 1048576).
  { rewrite Rabs_pos_eq in Bl by lra. split; [apply Rinv_le; lra|]. rewrite <- (Rinv_inv 1048576). apply Rinv_le; lra. }
  assert (Q : 3 / 1073741824 <= pid / B2R l <= 4194304) by (unfold Rdiv; split; nra).
  destruct (fdiv_rel b64_pi l Fp) as (e1 & He1 & E1 & F1).
  { lra. } { rewrite Ep, Rabs_pos_eq by lra. split; [apply Rle_trans with (bpow radix2 (-30)); [apply bpow_le; lia|cbn; lra]|].
    apply Rle_trans with (bpow radix2 30); [cbn; lra|apply bpow_le; lia]. }
  rewrite Ep in E1. set (P := Bdiv mode_NE b64_pi l) in *. pose proof u_small as U. apply Rabs_le_inv in He1 as He1'.
  assert (BP : Rabs (B2R P) <= 8388608).
  { rewrite E1, Rabs_mult, (Rabs_pos_eq (pid / B2R l)) by lra. apply Rle_trans with (4194304 * 2); [|lra].
    apply Rmult_le_compat; [lra|apply Rabs_pos|lra|apply Rabs_le; lra]. }
  assert (Bk : Rabs (IZR k) <= 2147483648) by (rewrite <- abs_IZR; apply IZR_le; exact Hk).
  destruct (fmult_abs (b64_ofZ k) P Fk F1) as (e2 & h2 & He2 & Hh2 & E2 & F2).
  { rewrite Ek. eapply Rle_trans; [apply mul_le; [exact Bk|exact BP]|]. apply Rle_trans with (bpow radix2 60); [cbn; lra|apply bpow_le; lia]. }
  split; [exact F2|]. change (Rabs (B2R (Bmult mode_NE (b64_ofZ k) P) - f) <= 6 * ueps * Rabs f + tiny). rewrite E2, Ek, E1.
  destruct pi_rel as (a0 & Ha0 & EP). assert (Z0 : Rabs 0 <= ueps) by (rewrite Rabs_R0; lra). pose proof (four_factors a0 e1 e2 0 Ha0 He1 He2 Z0) as FF.
  replace (IZR k * (pid / B2R l * (1 + e1)) * (1 + e2) + h2 - f) with (((1 + a0) * ((1 + e1) * ((1 + e2) * (1 + 0))) - 1) * f + h2).
  2: { rewrite EP. unfold f. field. lra. }
  apply add_le; [apply mul_le; [exact FF|apply Rle_refl]|exact Hh2].
Qed.
Lemma sin_step A (a : b64) th : close_sin L (A + 1) -> A <= 1099511627776 -> Rabs th <= A -> is_finite a = true -> Rabs (B2R a - th) <= 6 * ueps * Rabs th + ueps / 8 ->
  unit64 (m_sin L a) /\ Rabs (B2R (m_sin L a) - sin th) <= 9 / 8 * ueps + 6 * ueps * A.
Proof.
  intros C HA HT F D. pose proof u_small as U. assert (U1 : ueps * A <= / 8192).
  { apply Rle_trans with (/ 9007199254740992 * 1099511627776); [|lra]. assert (0 <= A) by (pose proof (Rabs_pos th); lra). apply Rmult_le_compat; lra. }
  assert (D' : Rabs (B2R a - th) <= 6 * ueps * A + ueps / 8). { eapply Rle_trans; [exact D|]. apply Rplus_le_compat_r. apply Rmult_le_compat_l; lra. }
  destruct (C a F) as (Fc & Rc & Ec). { apply (near_abs _ _ _ _ D') in HT. lra. }
  fold ueps in Ec. split; [split; assumption|].
  replace (B2R (m_sin L a) - sin th) with ((B2R (m_sin L a) - sin (B2R a)) + (sin (B2R a) - sin th)) by ring.
  eapply Rle_trans; [apply Rabs_triang|]. pose proof (sin_lip (B2R a) th). lra.
Qed.
(** The product of a frequency with a sine and a cosine. *)
Lemma slope_prod A f (K s c : b64) F S C : 0 <= A <= 1099511627776 -> 0 <= f <= bpow radix2 60 -> is_finite K = true -> Rabs (B2R K - F) <= 6 * ueps * Rabs F + tiny -> Rabs F <= f ->
  unit64 s -> Rabs (B2R s - S) <= 9 / 8 * ueps + 6 * ueps * A -> unit64 c -> Rabs (B2R c - C) <= 9 / 8 * ueps + 6 * ueps * A -> Rabs S <= 1 ->
  let g := Bmult mode_NE (Bmult mode_NE (Bopp K) s) c in is_finite g = true /\ Rabs (B2R g - - F * S * C) <= f * (12 * A + 11) * ueps + 8 * tiny.
Proof.
  intros HA Hf FK DK BF [Fs Bs] Ds [Fc Bc] Dc HS g. pose proof u_small as U. pose proof tiny_small as T.
  assert (U1 : 0 <= ueps * A <= / 8192). { split; [apply Rmult_le_pos; lra|]. apply Rle_trans with (/ 9007199254740992 * 1099511627776); [apply Rmult_le_compat; lra|lra]. }
  assert (Uf : 0 <= ueps * f <= / 1000000 * f) by (split; [apply Rmult_le_pos; lra|apply Rmult_le_compat_r; lra]).
  assert (UAf : 0 <= ueps * A * f <= / 8192 * f) by (split; [apply Rmult_le_pos; lra|apply Rmult_le_compat_r; lra]).
  assert (B62 : bpow radix2 60 * 4 <= bpow radix2 100). { change 4 with (bpow radix2 2). rewrite <- bpow_plus. apply bpow_le. lia. }
  assert (B1 : 1 <= bpow radix2 60) by (apply (bpow_le radix2 0); lia).
  assert (D1 : Rabs (B2R (Bopp K) - - F) <= 6 * ueps * f + tiny).
  { rewrite B2R_Bopp. replace (- B2R K - - F) with (- (B2R K - F)) by ring. rewrite Rabs_Ropp. eapply Rle_trans; [exact DK|]. apply Rplus_le_compat_r. apply Rmult_le_compat_l; lra. }
  assert (F1 : is_finite (Bopp K) = true) by (rewrite is_finite_Bopp; exact FK).
  destruct (round_prod (Bopp K) s (- F) S _ _ f 1 F1 Fs D1 Ds Bs ltac:(rewrite Rabs_Ropp; exact BF)) as [F2 D2]; [lra|lra|].
  set (p := Bmult mode_NE (Bopp K) s) in *.
  assert (Q : ueps * (1 * (f + (6 * ueps * f + tiny))) <= 1001 / 1000 * (ueps * f) + tiny).
  { assert (ueps * (6 * ueps * f + tiny) <= ueps * (/ 1000 * f) + 1 * tiny). { rewrite Rmult_plus_distr_l. apply Rplus_le_compat; [apply Rmult_le_compat_l; lra|apply Rmult_le_compat_r; lra]. } lra. }
  assert (D2' : Rabs (B2R p - - F * S) <= 6 * (ueps * A * f) + 82 / 10 * (ueps * f) + 3 * tiny) by lra.
  assert (BFS : Rabs (- F * S) <= f) by (rewrite <- (Rmult_1_r f); apply mul_le; [rewrite Rabs_Ropp; exact BF|exact HS]).
  destruct (round_prod p c (- F * S) C _ _ f 1 F2 Fc D2' Dc Bc BFS) as [F3 D3]; [lra|lra|].
  split; [exact F3|]. change (Rabs (B2R (Bmult mode_NE p c) - - F * S * C) <= f * (12 * A + 11) * ueps + 8 * tiny). eapply Rle_trans; [exact D3|].
  assert (Q3 : ueps * (1 * (f + (6 * (ueps * A * f) + 82 / 10 * (ueps * f) + 3 * tiny))) <= 11 / 10 * (ueps * f) + tiny).
  { assert (ueps * (6 * (ueps * A * f) + 82 / 10 * (ueps * f)) <= ueps * (/ 10 * f)) by (apply Rmult_le_compat_l; lra).
    assert (ueps * (3 * tiny) <= / 3 * (3 * tiny)) by (apply Rmult_le_compat_r; lra). lra. }
  lra.
Qed.
Lemma c96_mode A f (bs : basis b64) p k : close_cos L (A + 1) -> close_sin L (A + 1) -> 0 <= A <= 2 ^ 40 -> 0 <= f <= bpow radix2 60 -> placed bs p k -> angles bs A p k -> frequency bs f k ->
  let g := @basis_grad b64 (F64 L) bs p k in let x := B2R (fst p) in let y := B2R (snd p) in
  (is_finite (fst g) = true /\ Rabs (B2R (fst g) - slope_x (B2R (bs_lx bs)) (B2R (bs_ly bs)) k x y) <= f * (12 * A + 11) * bpow radix2 (-53) + bpow radix2 (-997)) /\
  (is_finite (snd g) = true /\ Rabs (B2R (snd g) - slope_y (B2R (bs_lx bs)) (B2R (bs_ly bs)) k x y) <= f * (12 * A + 11) * bpow radix2 (-53) + bpow radix2 (-997)).
Proof.
  intros C S HA Hf (P1 & P2 & P3 & P4 & L1 & L2 & K1 & K2) [A1 A2] [B1 B2] g x y. subst x y g. change (bpow radix2 (-53)) with ueps.
  assert (T8 : bpow radix2 (-997) = 8 * tiny) by (unfold tiny; change 8 with (bpow radix2 3); rewrite <- bpow_plus; reflexivity). rewrite T8.
  assert (HA' : 0 <= A <= 1099511627776) by (replace 1099511627776 with (2 ^ 40) by ring; exact HA).
  destruct (arg_close L _ _ _ P1 P3 L1 K1) as (F1 & D1 & _). destruct (arg_close L _ _ _ P2 P4 L2 K2) as (F2 & D2 & _).
  destruct (freq_close _ _ P3 L1 K1) as (G1 & E1). destruct (freq_close _ _ P4 L2 K2) as (G2 & E2).
  unfold basis_grad, slope_x, slope_y. cbn [fst snd].
  set (a1 := @nmul b64 (F64 L) (@nmul b64 (F64 L) (@nofZ b64 (F64 L) (fst k)) _) (fst p)) in *.
  set (a2 := @nmul b64 (F64 L) (@nmul b64 (F64 L) (@nofZ b64 (F64 L) (snd k)) _) (snd p)) in *.
  set (q1 := @nmul b64 (F64 L) (@nofZ b64 (F64 L) (fst k)) _) in *. set (q2 := @nmul b64 (F64 L) (@nofZ b64 (F64 L) (snd k)) _) in *.
  set (t1 := IZR (fst k) * PI * B2R (fst p) / B2R (bs_lx bs)) in *. set (t2 := IZR (snd k) * PI * B2R (snd p) / B2R (bs_ly bs)) in *.
  destruct (cos_step L A a1 t1 C (proj2 HA') A1 F1 D1) as [V1 W1]. destruct (cos_step L A a2 t2 C (proj2 HA') A2 F2 D2) as [V2 W2].
  destruct (sin_step A a1 t1 S (proj2 HA') A1 F1 D1) as [V3 W3]. destruct (sin_step A a2 t2 S (proj2 HA') A2 F2 D2) as [V4 W4].
  assert (R : forall t, Rabs (sin t) <= 1 /\ Rabs (cos t) <= 1) by (intros t; split; apply Rabs_le; [apply SIN_bound|apply COS_bound]).
  split.
  - exact (slope_prod A f q1 _ _ _ _ _ HA' Hf G1 E1 B1 V3 W3 V2 W2 (proj1 (R t1))).
  - exact (slope_prod A f q2 _ _ _ _ _ HA' Hf G2 E2 B2 V1 W1 V4 W4 (proj2 (R t1))).
Qed.
(** ** The gradient *)
Lemma diff_close (q : b64 * (b64 * b64)) : sane q -> let d := @nmul b64 (F64 L) (fst q) (@nsub b64 (F64 L) (fst (snd q)) (snd (snd q))) in
  is_finite d = true /\ Rabs (B2R d) <= 4 /\ Rabs (B2R d - B2R (fst q) * (B2R (fst (snd q)) - B2R (snd (snd q)))) <= 8 * ueps + tiny.
Proof.
  destruct q as [l [c p]]. intros H d. destruct H as ([Fl Bl] & [Fc Bc] & [Fp Bp]). cbn [fst snd] in *. pose proof u_small as U.
  assert (B1 : Rabs (B2R c - B2R p) <= 4) by (unfold Rminus; pose proof (add_le _ _ _ _ Bc (eq_ind_r (fun r => r <= 2) Bp (Rabs_Ropp (B2R p)))); lra).
  destruct (fminus_rnd c p Fc Fp) as [E1 F1]. { eapply Rle_trans; [exact B1|]. apply Rle_trans with (bpow radix2 2); [cbn; lra|apply bpow_le; lia]. }
  destruct (fminus_abs c p Fc Fp) as (e1 & He1 & E1' & _). { eapply Rle_trans; [exact B1|]. apply Rle_trans with (bpow radix2 2); [cbn; lra|apply bpow_le; lia]. }
  set (s := Bminus mode_NE c p) in *. assert (Bs : Rabs (B2R s) <= 4) by (rewrite E1; apply (mono_bound _ 4); [lia|exact B1]).
  assert (Bp' : Rabs (B2R l * B2R s) <= 4) by (rewrite <- (Rmult_1_l 4); apply mul_le; assumption).
  destruct (fmult_rnd l s Fl F1) as [E2 F2]. { eapply Rle_trans; [exact Bp'|]. apply Rle_trans with (bpow radix2 2); [cbn; lra|apply bpow_le; lia]. }
  destruct (fmult_abs l s Fl F1) as (e2 & h2 & He2 & Hh2 & E2' & _). { eapply Rle_trans; [exact Bp'|]. apply Rle_trans with (bpow radix2 2); [cbn; lra|apply bpow_le; lia]. }
  change d with (Bmult mode_NE l s). split; [exact F2|]. split; [rewrite E2; apply (mono_bound _ 4); [lia|exact Bp']|]. rewrite E2'.
  replace (B2R l * B2R s * (1 + e2) + h2 - B2R l * (B2R c - B2R p)) with (B2R l * (B2R s - (B2R c - B2R p)) + (B2R l * B2R s * e2 + h2)) by ring.
  assert (D : Rabs (B2R s - (B2R c - B2R p)) <= 4 * ueps). { rewrite E1'. replace ((B2R c - B2R p) * (1 + e1) - (B2R c - B2R p)) with ((B2R c - B2R p) * e1) by ring. apply mul_le; assumption. }
  pose proof (add_le _ _ _ _ (mul_le _ _ _ _ Bl D) (add_le _ _ _ _ (mul_le _ _ _ _ Bp' He2) Hh2)). lra.
Qed.
Definition eta := bpow radix2 (-930).
Lemma eta_tiny f : 0 <= f <= bpow radix2 40 -> 40 * tiny + f * tiny <= eta.
Proof.
  intros H. pose proof tiny_small as T. assert (E : eta = bpow radix2 70 * tiny) by (unfold eta, tiny; rewrite <- bpow_plus; reflexivity). rewrite E, <- Rmult_plus_distr_r.
  apply Rmult_le_compat_r; [lra|]. apply Rle_trans with (bpow radix2 40 + bpow radix2 40); [apply Rplus_le_compat; [apply Rle_trans with (bpow radix2 6); [cbn; lra|apply bpow_le; lia]|apply H]|].
  replace (bpow radix2 40 + bpow radix2 40) with (bpow radix2 1 * bpow radix2 40) by (change (bpow radix2 1) with 2; ring). rewrite <- bpow_plus. apply bpow_le. lia.
Qed.
Lemma term_slope A f (g d : b64) G D : 0 <= A <= 1099511627776 -> 0 <= f <= bpow radix2 40 -> is_finite g = true -> Rabs (B2R g - G) <= f * (12 * A + 11) * ueps + 8 * tiny -> Rabs G <= f ->
  is_finite d = true -> Rabs (B2R d) <= 4 -> Rabs (B2R d - D) <= 8 * ueps + tiny -> Rabs D <= 4 ->
  let v := Bmult mode_NE g d in (is_finite v = true /\ Rabs (B2R v) <= 5 * f + eta) /\ Rabs (B2R v - G * D) <= f * (48 * A + 57) * ueps + eta.
Proof.
  intros HA Hf Fg Dg BG Fd Bd Dd BD v. pose proof u_small as U. pose proof tiny_small as T. pose proof (eta_tiny f Hf) as H.
  assert (U1 : 0 <= ueps * A <= / 8192). { split; [apply Rmult_le_pos; lra|]. apply Rle_trans with (/ 9007199254740992 * 1099511627776); [apply Rmult_le_compat; lra|lra]. }
  assert (Uf : 0 <= ueps * f <= / 1000000 * f) by (split; [apply Rmult_le_pos; lra|apply Rmult_le_compat_r; lra]).
  assert (UAf : 0 <= ueps * A * f <= / 8192 * f) by (split; [apply Rmult_le_pos; lra|apply Rmult_le_compat_r; lra]).
  assert (B62 : bpow radix2 40 * 16 <= bpow radix2 100). { change 16 with (bpow radix2 4). rewrite <- bpow_plus. apply bpow_le. lia. }
  assert (B1 : 1 <= bpow radix2 40) by (apply (bpow_le radix2 0); lia).
  assert (Pf : 0 <= f * tiny) by (apply Rmult_le_pos; lra).
  destruct (round_prod g d G D _ _ f 4 Fg Fd Dg Dd Bd BG) as [Fv Dv]; [lra|lra|].
  assert (Q : ueps * (4 * (f + (f * (12 * A + 11) * ueps + 8 * tiny))) <= 41 / 10 * (ueps * f) + tiny).
  { assert (ueps * (4 * (f * (12 * A + 11) * ueps)) <= ueps * (/ 20 * f)) by (apply Rmult_le_compat_l; lra).
    assert (ueps * (32 * tiny) <= / 32 * (32 * tiny)) by (apply Rmult_le_compat_r; lra). lra. }
  assert (E : Rabs (B2R v - G * D) <= f * (48 * A + 57) * ueps + eta) by (unfold v; lra).
  split; [split; [exact Fv|]|exact E]. replace (B2R v) with (G * D + (B2R v - G * D)) by ring.
  pose proof (add_le _ _ _ _ (mul_le _ _ _ _ BG BD) E). lra.
Qed.
Lemma scaled (w : b64) f A n (s : b64) R : 0 <= A <= 1099511627776 -> 0 <= f <= bpow radix2 40 -> is_finite w = true -> Rabs (B2R w) <= 1073741824 -> 0 <= n <= 1048576 -> is_finite s = true ->
  Rabs (B2R s) <= 101 / 100 * (n * (5 * f + eta)) -> Rabs (B2R s - R) <= n * (f * (48 * A + 57) * ueps + eta) + ueps * (5 * f + eta) * (n * n) ->
  is_finite (Bmult mode_NE s w) = true /\ Rabs (B2R (Bmult mode_NE s w) - B2R w * R) <= slope_error (B2R w) f A n.
Proof.
  intros HA Hf Fw Bw Hn Fs Bs Ds. pose proof u_small as U. pose proof tiny_small as T. assert (Pe : 0 < eta) by apply bpow_gt_0.
  assert (E1 : eta <= 1) by (apply (bpow_le radix2 (-930) 0); lia). assert (B1 : 1 <= bpow radix2 40) by (apply (bpow_le radix2 0); lia).
  assert (Bf : 5 * f + eta <= 6 * bpow radix2 40) by lra.
  assert (Bs2 : Rabs (B2R s) <= 2 * (1048576 * (6 * bpow radix2 40))).
  { eapply Rle_trans; [exact Bs|]. assert (n * (5 * f + eta) <= 1048576 * (6 * bpow radix2 40)) by (apply Rmult_le_compat; lra). assert (0 <= n * (5 * f + eta)) by (apply Rmult_le_pos; lra). lra. }
  destruct (fmult_abs s w Fs Fw) as (e & h & He & Hh & E & F).
  { eapply Rle_trans; [apply mul_le; [exact Bs2|exact Bw]|]. apply Rle_trans with (bpow radix2 24 * (bpow radix2 40 * bpow radix2 30)); [|].
    - change (bpow radix2 24) with 16777216. change (bpow radix2 30) with 1073741824. set (b := bpow radix2 40) in *. lra.
    - rewrite <- !bpow_plus. apply bpow_le. lia. }
  split; [exact F|]. rewrite E. unfold slope_error. change (bpow radix2 (-53)) with ueps.
  replace (B2R s * B2R w * (1 + e) + h - B2R w * R) with (B2R w * (B2R s - R) + (B2R w * (B2R s * e) + h)) by ring.
  assert (M1 := mul_le _ _ _ _ (Rle_refl (Rabs (B2R w))) Ds). assert (M2 := mul_le _ _ _ _ (Rle_refl (Rabs (B2R w))) (mul_le _ _ _ _ Bs He)).
  pose proof (add_le _ _ _ _ M1 (add_le _ _ _ _ M2 Hh)) as Q. eapply Rle_trans; [exact Q|].
  set (W := Rabs (B2R w)) in *. assert (PW : 0 <= W) by apply Rabs_pos.
  assert (Small : W * (n * eta + ueps * eta * (n * n) + 101 / 100 * (n * eta) * ueps) + tiny <= bpow radix2 (-860)).
  { assert (n * eta <= 1073741824 * eta) by (apply Rmult_le_compat_r; lra). assert (0 <= n * eta) by (apply Rmult_le_pos; lra).
    assert (ueps * eta * (n * n) <= n * eta). { replace (ueps * eta * (n * n)) with (n * eta * (ueps * n)) by ring. rewrite <- (Rmult_1_r (n * eta)) at 2. apply Rmult_le_compat_l; [assumption|].
      apply Rle_trans with (/ 9007199254740992 * 1073741824); [apply Rmult_le_compat; lra|lra]. }
    assert (101 / 100 * (n * eta) * ueps <= 101 / 100 * (n * eta) * / 2) by (apply Rmult_le_compat_l; lra).
    assert (0 <= ueps * eta * (n * n)) by (apply Rmult_le_pos; [apply Rmult_le_pos; lra|apply Rmult_le_pos; lra]). assert (0 <= 101 / 100 * (n * eta) * ueps) by (apply Rmult_le_pos; lra).
    assert (W * (n * eta + ueps * eta * (n * n) + 101 / 100 * (n * eta) * ueps) <= 1073741824 * (4 * (1073741824 * eta))) by (apply Rmult_le_compat; lra).
    assert (T2 : tiny <= eta) by (apply tiny_u; lia).
    assert (E70 : bpow radix2 (-860) = 1180591620717411303424 * eta) by (unfold eta; change 1180591620717411303424 with (bpow radix2 70); rewrite <- bpow_plus; reflexivity). lra. }
  assert (Main : 0 <= W * (n * f * ueps)) by (repeat apply Rmult_le_pos; lra). lra.
Qed.
Lemma combine_maps {X Y X' Y'} (f : X -> X') (g : Y -> Y') a : forall b, combine (map f a) (map g b) = map (fun p => (f (fst p), g (snd p))) (combine a b).
Proof. induction a as [|x a IH]; intros [|y b]; [reflexivity..|]. cbn. rewrite IH. reflexivity. Qed.
Lemma slope_column A f (w : b64) (grad : Z * Z -> b64) (slope : Z * Z -> R) ks lam ck phik :
  0 <= A <= 1099511627776 -> 0 <= f <= bpow radix2 40 -> is_finite w = true -> Rabs (B2R w) <= 1073741824 -> (lenZ ks <= 2 ^ 20)%Z ->
  (forall k, In k ks -> (is_finite (grad k) = true /\ Rabs (B2R (grad k) - slope k) <= f * (12 * A + 11) * ueps + 8 * tiny) /\ Rabs (slope k) <= f) ->
  (forall q, In q (combine lam (combine ck phik)) -> sane q) ->
  let diff := map (fun p => @nmul b64 (F64 L) (fst p) (@nsub b64 (F64 L) (fst (snd p)) (snd (snd p)))) (combine lam (combine ck phik)) in
  let v := Bmult mode_NE (sum (map (fun p => @nmul b64 (F64 L) (fst p) (snd p)) (combine (map grad ks) diff))) w in
  is_finite v = true /\ Rabs (B2R v - B2R w * slopes slope ks lam ck phik) <= slope_error (B2R w) f A (IZR (lenZ ks)).
Proof.
  intros HA Hf Fw Bw N Hg Hs diff v. unfold v, diff, slopes. clear v diff. rewrite combine_maps, map_map. cbn [fst snd].
  set (cs := combine ks (combine lam (combine ck phik))) in *.
  match goal with |- context [@vsum b64 (F64 L) ?l] => set (vals := l) end. match goal with |- context [rsum ?l] => set (reals := l) end.
  pose proof u_small as U. assert (Pe : 0 < eta) by apply bpow_gt_0. assert (B1 : 1 <= bpow radix2 40) by (apply (bpow_le radix2 0); lia). assert (E1 : eta <= 1) by (apply (bpow_le radix2 (-930) 0); lia).
  assert (HB : 0 <= 5 * f + eta <= bpow radix2 60). { change (bpow radix2 60) with (bpow radix2 (20 + 40)). rewrite bpow_plus. change (bpow radix2 20) with 1048576. lra. }
  assert (Ln : (Z.of_nat (length vals) <= lenZ ks)%Z) by (unfold vals, cs, lenZ; rewrite map_length, combine_length; lia).
  assert (T : Forall2 (fun (v : b64) x => (is_finite v = true /\ Rabs (B2R v) <= 5 * f + eta) /\ Rabs (B2R v - x) <= f * (48 * A + 57) * ueps + eta) vals reals).
  { unfold vals, reals. assert (In1 : forall p, In p cs -> In (fst p) ks /\ In (snd p) (combine lam (combine ck phik))) by (intros [k q] I; split; [exact (in_combine_l _ _ _ _ I)|exact (in_combine_r _ _ _ _ I)]).
    clear -HA Hf Hg Hs In1. induction cs as [|[k q] cs IH]; [constructor|]. cbn [map fst snd].
    destruct (In1 (k, q) (or_introl eq_refl)) as [I1 I2]. cbn [fst snd] in I1, I2. destruct (Hg k I1) as [[G1 G2] G3]. pose proof (Hs q I2) as Sq. destruct (diff_close q Sq) as (D1 & D2 & D3).
    constructor; [|apply IH; intros p I; apply In1; right; exact I].
    assert (BD : Rabs (B2R (fst q) * (B2R (fst (snd q)) - B2R (snd (snd q)))) <= 4).
    { destruct Sq as ([_ S1] & [_ S2] & [_ S3]). rewrite <- (Rmult_1_l 4). apply mul_le; [exact S1|]. unfold Rminus. pose proof (add_le _ _ _ _ S2 (eq_ind_r (fun r => r <= 2) S3 (Rabs_Ropp (B2R (snd (snd q)))))). lra. }
    exact (term_slope A f _ _ _ _ HA Hf G1 G2 G3 D1 D2 D3 BD). }
  destruct (sum_near _ _ _ _ HB T) as (S1 & S2 & S3 & S4); [lia|]. set (m := IZR (Z.of_nat (length vals))) in *.
  assert (Hm : 0 <= m <= IZR (lenZ ks)) by (split; apply IZR_le; lia). assert (Hn : IZR (lenZ ks) <= 1048576) by (apply IZR_le; lia).
  assert (C1 : ueps * (5 * f + eta) * (m * m) <= / 100 * (m * (5 * f + eta))).
  { replace (ueps * (5 * f + eta) * (m * m)) with (ueps * m * (m * (5 * f + eta))) by ring. apply Rmult_le_compat_r; [apply Rmult_le_pos; lra|]. apply Rle_trans with (/ 9007199254740992 * 1073741824); [apply Rmult_le_compat; lra|lra]. }
  set (s := sum vals) in *.
  assert (Bs : Rabs (B2R s) <= 101 / 100 * (m * (5 * f + eta))). { replace (B2R s) with (rsum (map B2R vals) + (B2R s - rsum (map B2R vals))) by ring. pose proof (add_le _ _ _ _ S2 S4). lra. }
  destruct (scaled w f A m s (rsum reals) HA Hf Fw Bw ltac:(lra) S1 Bs S3) as [R1 R2]. split; [exact R1|]. eapply Rle_trans; [exact R2|].
  unfold slope_error. apply Rplus_le_compat_r, Rmult_le_compat_r; [apply bpow_ge_0|].
  assert (0 <= Rabs (B2R w) * f) by (apply Rmult_le_pos; [apply Rabs_pos|lra]).
  apply Rmult_le_compat; [apply Rmult_le_pos; lra|lra|apply Rmult_le_compat_l; lra|lra].
Qed.
Lemma c96_gradient A f (e : ec b64) phik ck xt : close_cos L (A + 1) -> close_sin L (A + 1) -> 0 <= A <= 2 ^ 40 -> 0 <= f <= bpow radix2 40 ->
  ec_phik e = Some phik -> let bs := ec_basis e in (lenZ (bs_k bs) <= 2 ^ 20)%Z -> is_finite (ec_weight e) = true -> Rabs (B2R (ec_weight e)) <= 1073741824 ->
  (forall q, In q (combine (bs_lam bs) (combine ck phik)) -> sane q) -> (forall x k, In x xt -> In k (bs_k bs) -> placed bs (xy x) k /\ angles bs A (xy x) k /\ frequency bs f k) ->
  exists cols, @gradErgodicMetric b64 (F64 L) e ck xt = Ok cols /\ length cols = length xt /\ forall i x, nth_error xt i = Some x -> exists g, nth_error cols i = Some g /\
    let lx := B2R (bs_lx bs) in let ly := B2R (bs_ly bs) in let w := B2R (ec_weight e) in let err := slope_error w f A (IZR (lenZ (bs_k bs))) in
    (is_finite (v0 g) = true /\ Rabs (B2R (v0 g) - w * slopes (fun k => slope_x lx ly k (B2R (v0 x)) (B2R (v1 x))) (bs_k bs) (bs_lam bs) ck phik) <= err) /\
    (is_finite (v1 g) = true /\ Rabs (B2R (v1 g) - w * slopes (fun k => slope_y lx ly k (B2R (v0 x)) (B2R (v1 x))) (bs_k bs) (bs_lam bs) ck phik) <= err) /\ v2 g = b64_ofZ 0.
Proof.
  intros C S HA Hf Ep bs N Fw Bw Hs P. unfold gradErgodicMetric. rewrite Ep. eexists. split; [reflexivity|]. split; [apply map_length|]. intros i x I.
  eexists. split; [apply map_nth_error; exact I|]. apply nth_error_In in I. cbv zeta.
  assert (HA' : 0 <= A <= 1099511627776) by (replace 1099511627776 with (2 ^ 40) by ring; exact HA).
  assert (Hf' : 0 <= f <= bpow radix2 60) by (split; [apply Hf|]; eapply Rle_trans; [apply Hf|apply bpow_le; lia]).
  assert (T8 : bpow radix2 (-997) = 8 * tiny) by (unfold tiny; change 8 with (bpow radix2 3); rewrite <- bpow_plus; reflexivity).
  assert (G := fun k Ik => let H := P x k I Ik in c96_mode A f bs (xy x) k C S HA Hf' (proj1 H) (proj1 (proj2 H)) (proj2 (proj2 H))). cbv zeta in G. rewrite T8 in G. change (bpow radix2 (-53)) with ueps in G.
  assert (R : forall t, Rabs (sin t) <= 1 /\ Rabs (cos t) <= 1) by (intros t; split; apply Rabs_le; [apply SIN_bound|apply COS_bound]).
  assert (Bd : forall a b c, Rabs a <= f -> Rabs b <= 1 -> Rabs c <= 1 -> Rabs (- a * b * c) <= f).
  { intros a b c Ha Hb Hc. rewrite <- (Rmult_1_r f), <- (Rmult_1_r (f * 1)). apply mul_le; [apply mul_le; [rewrite Rabs_Ropp; exact Ha|exact Hb]|exact Hc]. }
  unfold edx_col. cbn [v0 v1 v2].
  set (diff := map _ (combine (bs_lam (ec_basis e)) (combine ck phik))).
  assert (X1 : forall d : list b64, map (fun p : (b64 * b64) * b64 => @nmul b64 (F64 L) (fst (fst p)) (snd p)) (combine (@gradFourierBasis b64 (F64 L) (ec_basis e) (xy x)) d)
    = map (fun p => @nmul b64 (F64 L) (fst p) (snd p)) (combine (map (fun k => fst (@basis_grad b64 (F64 L) bs (xy x) k)) (bs_k bs)) d)).
  { unfold gradFourierBasis. fold bs. generalize (bs_k bs). induction l as [|k l IH]; intros [|d0 d]; [reflexivity..|]. cbn [map combine fst snd]. rewrite IH. reflexivity. }
  assert (X2 : forall d : list b64, map (fun p : (b64 * b64) * b64 => @nmul b64 (F64 L) (snd (fst p)) (snd p)) (combine (@gradFourierBasis b64 (F64 L) (ec_basis e) (xy x)) d)
    = map (fun p => @nmul b64 (F64 L) (fst p) (snd p)) (combine (map (fun k => snd (@basis_grad b64 (F64 L) bs (xy x) k)) (bs_k bs)) d)).
  { unfold gradFourierBasis. fold bs. generalize (bs_k bs). induction l as [|k l IH]; intros [|d0 d]; [reflexivity..|]. cbn [map combine fst snd]. rewrite IH. reflexivity. }
  split; [|split; [|reflexivity]].
  - rewrite X1. apply (slope_column A f (ec_weight e) (fun k => fst (@basis_grad b64 (F64 L) bs (xy x) k)) (fun k => slope_x (B2R (bs_lx bs)) (B2R (bs_ly bs)) k (B2R (v0 x)) (B2R (v1 x))) (bs_k bs) (bs_lam bs) ck phik HA' Hf Fw Bw N); [|exact Hs].
    intros k Ik. split; [exact (proj1 (G k Ik))|]. apply Bd; [apply (P x k I Ik)|apply R|apply R].
  - rewrite X2. apply (slope_column A f (ec_weight e) (fun k => snd (@basis_grad b64 (F64 L) bs (xy x) k)) (fun k => slope_y (B2R (bs_lx bs)) (B2R (bs_ly bs)) k (B2R (v0 x)) (B2R (v1 x))) (bs_k bs) (bs_lam bs) ck phik HA' Hf Fw Bw N); [|exact Hs].
    intros k Ik. split; [exact (proj2 (G k Ik))|]. apply Bd; [apply (P x k I Ik)|apply R|apply R].
Qed.
End Lib.
