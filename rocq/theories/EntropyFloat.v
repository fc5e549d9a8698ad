(** The entropy of a cell in binary64 arithmetic: proofs. *)
From Coq Require Import Reals Lra ZArith Lia Psatz Bool.
From Flocq Require Import Core.Core IEEE754.BinarySingleNaN.
From Verif Require Import Outcome Num Float64 FloatLemmas NumericsModel MotionProofs NearProofs CoeffProofs SlopeProofs SpecBarrier BarrierProofs SpecEntropy.
Local Open Scope R_scope.
Notation is_finite := BinarySingleNaN.is_finite.

Lemma xlnx x : 0 < x <= 1 -> Rabs (x * ln x) <= 1.
Proof.
  intros H. assert (L1 : ln x <= 0) by (rewrite <- ln_1; destruct (Req_dec x 1) as [->|]; [lra|left; apply ln_increasing; lra]).
  pose proof (ln_le_minus_1 (/ x) ltac:(apply Rinv_0_lt_compat; lra)) as A. rewrite ln_Rinv in A by lra. apply (Rmult_le_compat_l x) in A; [|lra].
  replace (x * (/ x - 1)) with (1 - x) in A by (field; lra). assert (0 <= x * - ln x) by (apply Rmult_le_pos; lra). apply Rabs_le. lra.
Qed.
Lemma ln_near e : Rabs e <= ueps -> Rabs (ln (1 + e)) <= 2 * ueps.
Proof.
  intros H. apply Rabs_le_inv in H. pose proof u_small as U. pose proof (ln_le_minus_1 (1 + e) ltac:(lra)) as A.
  pose proof (ln_le_minus_1 (/ (1 + e)) ltac:(apply Rinv_0_lt_compat; lra)) as B. rewrite ln_Rinv in B by lra.
  assert (I : / (1 + e) <= 1 + 2 * ueps). { apply Rmult_le_reg_l with (1 + e); [lra|]. rewrite Rinv_r by lra. nra. }
  apply Rabs_le. lra.
Qed.
Lemma shannon_le p : 0 < p < 1 -> 0 <= shannon p <= ln 2.
Proof.
  intros Hp. unfold shannon. split.
  - assert (L1 : ln p < 0) by (rewrite <- ln_1; apply ln_increasing; lra).
    assert (L2 : ln (1 - p) < 0) by (rewrite <- ln_1; apply ln_increasing; lra).
    assert (0 < - p * ln p) by nra. assert (0 < - ((1 - p) * ln (1 - p))) by nra. lra.
  - pose proof (ln_le_minus_1 (/ (2 * p)) ltac:(apply Rinv_0_lt_compat; lra)) as A.
    pose proof (ln_le_minus_1 (/ (2 * (1 - p))) ltac:(apply Rinv_0_lt_compat; lra)) as B.
    rewrite ln_Rinv, ln_mult in A by lra. rewrite ln_Rinv, ln_mult in B by lra.
    apply (Rmult_le_compat_l p) in A; [|lra]. apply (Rmult_le_compat_l (1 - p)) in B; [|lra].
    replace (p * (/ (2 * p) - 1)) with (1 / 2 - p) in A by (field; lra).
    replace ((1 - p) * (/ (2 * (1 - p)) - 1)) with (1 / 2 - (1 - p)) in B by (field; lra).
    lra.
Qed.

Lemma ln2_lt2 : ln 2 < 699 / 1000.
Proof.
  apply exp_lt_inv. rewrite exp_ln by lra. pose proof (exp_ineq1_le (699 / 64000)) as H.
  assert (S : forall a, exp (2 * a) = exp a * exp a) by (intros a; rewrite <- exp_plus; f_equal; ring).
  assert (M : forall a x y, x <= exp a -> 0 <= x -> y <= x * x -> y <= exp (2 * a)) by (intros a x y X P Y; rewrite S; apply Rle_trans with (x * x); [exact Y|apply Rmult_le_compat; lra]).
  assert (H0 : 101092 / 100000 <= exp (699 / 64000)) by lra.
  assert (H1 : 102195 / 100000 <= exp (2 * (699 / 64000))) by (apply (M _ (101092 / 100000)); [exact H0|lra|lra]).
  assert (H2 : 104438 / 100000 <= exp (2 * (2 * (699 / 64000)))) by (apply (M _ (102195 / 100000)); [exact H1|lra|lra]).
  assert (H3 : 109072 / 100000 <= exp (2 * (2 * (2 * (699 / 64000))))) by (apply (M _ (104438 / 100000)); [exact H2|lra|lra]).
  assert (H4 : 118967 / 100000 <= exp (2 * (2 * (2 * (2 * (699 / 64000)))))) by (apply (M _ (109072 / 100000)); [exact H3|lra|lra]).
  assert (H5 : 141531 / 100000 <= exp (2 * (2 * (2 * (2 * (2 * (699 / 64000))))))) by (apply (M _ (118967 / 100000)); [exact H4|lra|lra]).
  assert (H6 : 2002 / 1000 <= exp (2 * (2 * (2 * (2 * (2 * (2 * (699 / 64000)))))))) by (apply (M _ (141531 / 100000)); [exact H5|lra|lra]).
  replace (699 / 1000) with (2 * (2 * (2 * (2 * (2 * (2 * (699 / 64000))))))) by field. lra.
Qed.

Section Lib.
Variable L : libm.
Notation N := (F64 L).
Let eps : b64 := @eps12 b64 N.
Lemma lit_is (a : Z) (d : positive) : (0 < a <= 10)%Z -> (10 <= Zpos d <= 1000)%Z -> is_finite (@lit b64 N a d) = true /\ Rabs (B2R (@lit b64 N a d) - IZR a / IZR (Zpos d)) <= ueps + tiny.
Proof.
  intros Ha Hb. change (@lit b64 N a d) with (Bdiv mode_NE (b64_ofZ a) (b64_ofZ (Zpos d))). set (b := Zpos d) in *. clearbody b. destruct (ofZ_exact a ltac:(lia)) as [Ea Fa]. destruct (ofZ_exact b ltac:(lia)) as [Eb Fb].
  assert (A : 1 <= IZR a <= 10) by (split; apply IZR_le; lia). assert (B : 10 <= IZR b <= 1000) by (split; apply IZR_le; lia).
  assert (I : 0 < / IZR b <= / 10) by (split; [apply Rinv_0_lt_compat; lra|apply Rinv_le; lra]).
  assert (Q : Rabs (IZR a / IZR b) <= 1) by (unfold Rdiv; rewrite Rabs_pos_eq; nra).
  destruct (fdiv_rnd (b64_ofZ a) (b64_ofZ b) Fa) as [E F]; rewrite ?Ea, ?Eb in *; [lra|apply big1000; apply Rle_trans with 1; [exact Q|apply (bpow_le radix2 0); lia]|].
  split; [exact F|]. rewrite E. pose proof (rnd_err _ _ Q). lra.
Qed.
(** One of the two products. *)
Lemma piece (x l : b64) : is_finite x = true -> bpow radix2 (-50) <= B2R x <= 1 -> is_finite l = true -> Rabs (B2R l - ln (B2R x)) <= bpow radix2 (-46) ->
  is_finite (Bmult mode_NE x l) = true /\ Rabs (B2R (Bmult mode_NE x l) - B2R x * ln (B2R x)) <= 130 * ueps.
Proof.
  intros Fx Bx Fl El. pose proof u_small as U. pose proof tiny_small as TS. pose proof (bpow_gt_0 radix2 (-50)) as P50.
  assert (L46 : bpow radix2 (-46) = 128 * ueps) by (unfold ueps; rewrite (bpow_plus radix2 7 (-53) : bpow radix2 (-46) = _); reflexivity). rewrite L46 in El.
  assert (X := xlnx (B2R x) ltac:(lra)). set (v := B2R x) in *.
  assert (D : Rabs (v * B2R l - v * ln v) <= 128 * ueps). { rewrite <- Rmult_minus_distr_l, <- (Rmult_1_l (128 * ueps)). apply mul_le; [rewrite Rabs_pos_eq; lra|exact El]. }
  assert (M := near_abs _ _ _ _ D X). destruct (fmult_rnd x l Fx Fl) as [E F]; [apply big1000; fold v; apply Rle_trans with (bpow radix2 1); [cbn; lra|apply bpow_le; lia]|].
  split; [exact F|]. rewrite E. fold v. pose proof (rnd_err _ _ M) as R.
  replace (rnd64 (v * B2R l) - v * ln v) with ((rnd64 (v * B2R l) - v * B2R l) + (v * B2R l - v * ln v)) by ring. pose proof (add_le _ _ _ _ R D).
  assert (ueps * ueps <= / 1000000 * ueps) by (apply Rmult_le_compat_r; lra). lra.
Qed.
Lemma formula (p : b64) : close_log L -> is_finite p = true -> 0 <= B2R p <= 1 -> bpow radix2 (-50) <= B2R p -> bpow radix2 (-50) <= B2R (Bminus mode_NE (b64_ofZ 1) p) -> B2R p < 1 ->
  let h := Bminus mode_NE (Bmult mode_NE (Bopp p) (m_log L p)) (Bmult mode_NE (Bminus mode_NE (b64_ofZ 1) p) (m_log L (Bminus mode_NE (b64_ofZ 1) p))) in
  is_finite h = true /\ Rabs (B2R h - shannon (B2R p)) <= bpow radix2 (-44).
Proof.
  intros C F B Lo Hi Lt h. pose proof u_small as U. pose proof tiny_small as TS. pose proof (bpow_gt_0 radix2 (-50)) as P50. destruct (ofZ_exact 1 ltac:(lia)) as [E1 F1].
  destruct (fminus_abs (b64_ofZ 1) p F1 F) as (e & He & Eq & Fq); [rewrite E1; apply Rle_trans with (bpow radix2 1); [apply Rabs_le; cbn; lra|apply bpow_le; lia]|].
  destruct (fminus_rnd (b64_ofZ 1) p F1 F) as [Eq' _]; [rewrite E1; apply big1000; apply Rle_trans with (bpow radix2 1); [apply Rabs_le; cbn; lra|apply bpow_le; lia]|].
  rewrite E1 in Eq, Eq'. unfold h. set (q := Bminus mode_NE (b64_ofZ 1) p) in *.
  assert (Q1 : B2R q <= 1). { rewrite Eq'. pose proof (mono_bound (1 - B2R p) 1 ltac:(lia) ltac:(apply Rabs_le; lra)) as M. apply Rabs_le_inv in M. lra. }
  clear Eq'. clearbody q.
  destruct (C p F ltac:(lra)) as [Gp Ep]. destruct (C q Fq ltac:(lra)) as [Gq Eql].
  destruct (piece p _ F ltac:(lra) Gp Ep) as [Fa Da]. destruct (piece q _ Fq ltac:(lra) Gq Eql) as [Fb Db].
  assert (N1 : is_finite (Bmult mode_NE (Bopp p) (m_log L p)) = true /\ B2R (Bmult mode_NE (Bopp p) (m_log L p)) = - B2R (Bmult mode_NE p (m_log L p))).
  { assert (W : Rabs (B2R p * B2R (m_log L p)) <= bpow radix2 100).
    { assert (X := xlnx (B2R p) ltac:(lra)). assert (D := mul_le (B2R p) (B2R (m_log L p) - ln (B2R p)) 1 (bpow radix2 (-46)) ltac:(rewrite Rabs_pos_eq; lra) Ep).
      replace (B2R p * B2R (m_log L p)) with (B2R p * ln (B2R p) + B2R p * (B2R (m_log L p) - ln (B2R p))) by ring. pose proof (add_le _ _ _ _ X D).
      assert (bpow radix2 (-46) <= bpow radix2 0) by (apply bpow_le; lia). assert (bpow radix2 1 <= bpow radix2 100) by (apply bpow_le; lia). change (bpow radix2 0) with 1 in *. change (bpow radix2 1) with 2 in *. lra. }
    destruct (fmult_rnd p (m_log L p) F Gp (big1000 _ W)) as [V _].
    destruct (fmult_rnd (Bopp p) (m_log L p)) as [V' G']; [rewrite is_finite_Bopp; exact F|exact Gp|rewrite B2R_Bopp, Ropp_mult_distr_l_reverse, Rabs_Ropp; apply big1000; exact W|].
    split; [exact G'|]. rewrite V', V, B2R_Bopp, Ropp_mult_distr_l_reverse. apply round_NE_opp. }
  destruct N1 as [Fn Vn]. set (a := B2R (Bmult mode_NE p (m_log L p))) in *. clearbody a. set (s := Bmult mode_NE (Bopp p) (m_log L p)) in *. set (t := Bmult mode_NE q (m_log L q)) in *. clearbody s t.
  assert (Xp := xlnx (B2R p) ltac:(lra)). assert (Xq := xlnx (B2R q) ltac:(lra)). set (P := B2R p) in *.
  assert (Y : 0 < 1 - P <= 1) by lra. assert (Xr := xlnx (1 - P) Y).
  assert (He' := He). apply Rabs_le_inv in He'.
  assert (Dq : Rabs (B2R q * ln (B2R q) - (1 - P) * ln (1 - P)) <= 4 * ueps).
  { rewrite Eq. rewrite ln_mult by lra. replace ((1 - P) * (1 + e) * (ln (1 - P) + ln (1 + e)) - (1 - P) * ln (1 - P)) with ((1 - P) * ln (1 - P) * e + (1 - P) * (1 + e) * ln (1 + e)) by ring.
    assert (Z2 := mul_le _ _ _ _ Xr He). assert (Z3 := mul_le _ _ _ _ (mul_le (1 - P) (1 + e) 1 (1 + ueps) ltac:(rewrite Rabs_pos_eq; lra) (one_plus_le _ _ He)) (ln_near e He)).
    pose proof (add_le _ _ _ _ Z2 Z3). assert (ueps * ueps <= / 1000000 * ueps) by (apply Rmult_le_compat_r; lra). lra. }
  apply Rabs_le_inv in Da, Db, Dq, Xp, Xr.
  assert (Bs : Rabs (B2R s - B2R t) <= 3) by (rewrite Vn; apply Rabs_le; lra).
  destruct (fminus_rnd s t Fn Fb) as [Eh Fh]; [apply big1000; apply Rle_trans with (bpow radix2 2); [cbn; lra|apply bpow_le; lia]|]. split; [exact Fh|]. rewrite Eh.
  pose proof (rnd_err _ _ Bs) as R. apply Rabs_le_inv in R. rewrite Vn in *. unfold shannon. assert (L44 : bpow radix2 (-44) = 512 * ueps) by (unfold ueps; rewrite (bpow_plus radix2 9 (-53) : bpow radix2 (-44) = _); reflexivity). rewrite L44.
  apply Rabs_le. lra.
Qed.
Lemma entropy_is (p : b64) : @entropy b64 N p = if Bltb (Babs (Bminus mode_NE (b64_ofZ 0) p)) eps || Bltb (Babs (Bminus mode_NE (b64_ofZ 1) p)) eps then @lit b64 N 1 1000
  else if Bltb p (b64_ofZ 0) then @lit b64 N 7 10
  else Bminus mode_NE (Bmult mode_NE (Bopp p) (m_log L p)) (Bmult mode_NE (Bminus mode_NE (b64_ofZ 1) p) (m_log L (Bminus mode_NE (b64_ofZ 1) p))).
Proof. reflexivity. Qed.
Lemma c28_known64 (p : b64) : close_log L -> is_finite p = true -> 0 <= B2R p <= 1 -> let h := @entropy b64 N p in
  is_finite h = true /\ ((101 / 100 / 1000000000000 <= B2R p <= 1 - 102 / 100 / 1000000000000 -> Rabs (B2R h - shannon (B2R p)) <= bpow radix2 (-44)) /\
  (B2R p <= 98 / 100 / 1000000000000 \/ 1 - 98 / 100 / 1000000000000 <= B2R p -> Rabs (B2R h - 1 / 1000) <= bpow radix2 (-52)) /\
  ((0 < B2R p < 1 /\ Rabs (B2R h - shannon (B2R p)) <= bpow radix2 (-44)) \/ Rabs (B2R h - 1 / 1000) <= bpow radix2 (-52))).
Proof.
  intros C F B h. unfold h. rewrite entropy_is. pose proof u_small as U. pose proof tiny_small as TS. destruct (eps_b64 L) as [Fe Be]. fold eps in Fe, Be.
  destruct (ofZ_exact 1 ltac:(lia)) as [E1 F1]. destruct (ofZ_exact 0 ltac:(lia)) as [E0 F0].
  destruct (fminus_rnd (b64_ofZ 0) p F0 F) as [Ez Fz]; [rewrite E0; apply big1000; apply Rle_trans with (bpow radix2 1); [apply Rabs_le; cbn; lra|apply bpow_le; lia]|].
  destruct (fminus_abs (b64_ofZ 1) p F1 F) as (e & He & Eq & Fq); [rewrite E1; apply Rle_trans with (bpow radix2 1); [apply Rabs_le; cbn; lra|apply bpow_le; lia]|].
  rewrite E1 in Eq. rewrite E0 in Ez. replace (0 - B2R p) with (- B2R p) in Ez by ring.
  assert (Op : rnd64 (- B2R p) = - B2R p) by (rewrite round_NE_opp; f_equal; apply keep). rewrite Op in Ez.
  apply Rabs_le_inv in He. assert (Q0 : 0 <= B2R (Bminus mode_NE (b64_ofZ 1) p)) by (rewrite Eq; apply Rmult_le_pos; lra).
  assert (P50 : bpow radix2 (-50) <= 99 / 100 / 1000000000000) by (change (bpow radix2 (-50)) with (/ 1125899906842624); lra).
  rewrite !Bltb_R by (rewrite ?is_finite_Babs; assumption). rewrite !B2R_Babs, Ez, E0, Rabs_Ropp, (Rabs_pos_eq (B2R p)), (Rabs_pos_eq _ Q0) by lra.
  destruct (lit_is 1 1000 ltac:(lia) ltac:(lia)) as [Fl El]. assert (U52 : bpow radix2 (-52) = 2 * ueps) by (unfold ueps; rewrite (bpow_plus radix2 1 (-53) : bpow radix2 (-52) = _); reflexivity).
  destruct (Rlt_bool_spec (B2R p) (B2R eps)) as [H|H]; [cbn [orb]; split; [exact Fl|]; split; [intros; lra|split; [intros _|right]; rewrite U52; lra]|].
  destruct (Rlt_bool_spec (B2R (Bminus mode_NE (b64_ofZ 1) p)) (B2R eps)) as [K|K].
  - cbn [orb]. split; [exact Fl|]. split; [|split; [intros _|right]; rewrite U52; lra]. intros R. exfalso. rewrite Eq in K. assert (102 / 100 / 1000000000000 * (1 + e) <= (1 - B2R p) * (1 + e)) by (apply Rmult_le_compat_r; lra). lra.
  - cbn [orb]. rewrite Rlt_bool_false by lra.
    assert (Lt : B2R p < 1). { destruct (Rle_lt_dec 1 (B2R p)) as [G|G]; [|exact G]. exfalso. assert (B2R p = 1) by lra. rewrite Eq in K. replace (1 - B2R p) with 0 in K by lra. rewrite Rmult_0_l in K. lra. }
    destruct (formula p C F B ltac:(lra) ltac:(lra) Lt) as [G E]. split; [exact G|]. split; [intros _; exact E|]. split; [|left; split; [lra|exact E]].
    intros [R|R]; exfalso; [lra|]. rewrite Eq in K. assert ((1 - B2R p) * (1 + e) <= 98 / 100 / 1000000000000 * (1 + e)) by (apply Rmult_le_compat_r; lra). lra.
Qed.
Lemma c28_unknown64 (p : b64) : is_finite p = true -> - bpow radix2 90 <= B2R p <= - (102 / 100) / 1000000000000 ->
  is_finite (@entropy b64 N p) = true /\ Rabs (B2R (@entropy b64 N p) - 7 / 10) <= bpow radix2 (-52).
Proof.
  intros F B. pose proof u_small as U. destruct (eps_b64 L) as [Fe Be]. fold eps in Fe, Be. destruct (ofZ_exact 1 ltac:(lia)) as [E1 F1]. destruct (ofZ_exact 0 ltac:(lia)) as [E0 F0].
  assert (P : Rabs (1 - B2R p) <= bpow radix2 100). { apply Rle_trans with (bpow radix2 90 + bpow radix2 90); [|apply Rle_trans with (bpow radix2 91); [rewrite (bpow_plus radix2 1 90 : bpow radix2 91 = _); change (bpow radix2 1) with 2; lra|apply bpow_le; lia]]. pose proof (bpow_le radix2 0 90 ltac:(lia)) as O. change (bpow radix2 0) with 1 in O. apply Rabs_le. lra. }
  assert (P' : Rabs (0 - B2R p) <= bpow radix2 100). { apply Rle_trans with (Rabs (1 - B2R p)); [|exact P]. rewrite !Rabs_pos_eq; lra. }
  destruct (fminus_abs (b64_ofZ 0) p F0 F) as (d & Hd & Ez & Fz); [rewrite E0; exact P'|]. destruct (fminus_abs (b64_ofZ 1) p F1 F) as (e & He & Eq & Fq); [rewrite E1; exact P|].
  rewrite E0 in Ez. rewrite E1 in Eq. apply Rabs_le_inv in Hd, He.
  assert (A0 : 101 / 100 / 1000000000000 < B2R (Bminus mode_NE (b64_ofZ 0) p)) by (rewrite Ez; assert (102 / 100 / 1000000000000 * (1 + d) <= (0 - B2R p) * (1 + d)) by (apply Rmult_le_compat_r; lra); lra).
  assert (A1 : 101 / 100 / 1000000000000 < B2R (Bminus mode_NE (b64_ofZ 1) p)) by (rewrite Eq; assert (102 / 100 / 1000000000000 * (1 + e) <= (1 - B2R p) * (1 + e)) by (apply Rmult_le_compat_r; lra); lra).
  rewrite entropy_is. rewrite !Bltb_R by (rewrite ?is_finite_Babs; assumption). rewrite !B2R_Babs, E0. rewrite !Rabs_pos_eq by lra. rewrite !(Rlt_bool_false _ (B2R eps)) by lra. cbn [orb]. rewrite Rlt_bool_true by lra.
  destruct (lit_is 7 10 ltac:(lia) ltac:(lia)) as [Fl D]. split; [exact Fl|]. pose proof tiny_small.
  assert (U52 : bpow radix2 (-52) = 2 * ueps) by (unfold ueps; rewrite (bpow_plus radix2 1 (-53) : bpow radix2 (-52) = _); reflexivity). rewrite U52. lra.
Qed.
Lemma c28_order64 (p q : b64) : close_log L -> is_finite p = true -> - bpow radix2 90 <= B2R p <= - (102 / 100) / 1000000000000 -> is_finite q = true -> 0 <= B2R q <= 1 ->
  B2R (@entropy b64 N q) < B2R (@entropy b64 N p).
Proof.
  intros C Fp Bp Fq Bq. destruct (c28_unknown64 p Fp Bp) as [_ D]. destruct (c28_known64 q C Fq Bq) as (_ & _ & _ & K). pose proof ln2_lt2 as L2.
  assert (U52 : bpow radix2 (-52) = / 4503599627370496) by reflexivity. assert (U44 : bpow radix2 (-44) = / 17592186044416) by reflexivity. rewrite U52, U44 in *. apply Rabs_le_inv in D.
  destruct K as [(I & K)|K]; apply Rabs_le_inv in K; [pose proof (shannon_le _ I)|]; lra.
Qed.
End Lib.
