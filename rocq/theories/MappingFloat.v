(** Observations of single cells in binary64 and over the reals. *)
From Coq Require Import Reals Lra ZArith List Lia ZifyBool.
From Flocq Require Import Core.Core IEEE754.BinarySingleNaN.
From Verif Require Import Outcome Num Float64 FloatLemmas GridModel NumericsModel NumericsProofs MappingModel Spec SpecMapping MappingProofs.
Import ListNotations.
Local Open Scope R_scope.

Lemma rnd_ge1 x : 1 <= x -> 1 <= rnd64 x.
Proof.
  intros H. apply round_ge_generic; [typeclasses eauto..| |exact H].
  change 1 with (bpow radix2 0). apply generic_format_bpow. unfold SpecFloat.fexp, SpecFloat.emin. lia.
Qed.
Lemma rnd_le1 x : x <= 1 -> rnd64 x <= 1.
Proof.
  intros H. apply round_le_generic; [typeclasses eauto..| |exact H].
  change 1 with (bpow radix2 0). apply generic_format_bpow. unfold SpecFloat.fexp, SpecFloat.emin. lia.
Qed.
Lemma rnd_ge0 x : 0 <= x -> 0 <= rnd64 x.
Proof. intros H. apply round_ge_generic; [typeclasses eauto..| |exact H]. apply generic_format_0. Qed.
Lemma rnd_le100 x : x <= 100 -> rnd64 x <= 100.
Proof.
  intros H. apply round_le_generic; [typeclasses eauto..| |exact H].
  destruct (ofZ_exact 100) as [E _]; [lia|]. rewrite <- E. apply generic_format_B2R.
Qed.
Lemma small_1000 x : Rabs x <= 200 -> Rabs x <= bpow radix2 1000.
Proof.
  intros H. apply Rle_trans with (bpow radix2 8).
  - apply Rle_trans with (1 := H). cbn. lra.
  - apply bpow_le. lia.
Qed.

Lemma Bsign_nonneg (x : b64) : is_finite x = true -> Bsign x = false -> 0 <= B2R x.
Proof.
  destruct x as [s|s| |s m e p]; cbn; intros F S; try discriminate; try lra. subst s.
  unfold F2R; cbn. apply Rmult_le_pos; [apply IZR_le; lia|apply bpow_ge_0].
Qed.

(** 1 + e for a non-negative e: +inf or a finite number at least 1. *)
Lemma one_plus (e : b64) : is_nan e = false -> Bsign e = false ->
  Bplus mode_NE (b64_ofZ 1) e = B754_infinity false \/
  (is_finite (Bplus mode_NE (b64_ofZ 1) e) = true /\ 1 <= B2R (Bplus mode_NE (b64_ofZ 1) e)).
Proof.
  intros N S. destruct (ofZ_exact 1) as [O1 O2]; [lia|].
  destruct (is_finite e) eqn:F.
  - pose proof (Bsign_nonneg e F S) as P.
    pose proof (Bplus_correct 53 1024 _ _ mode_NE (b64_ofZ 1) e O2 F) as C.
    destruct (Rlt_bool _ _).
    + right. destruct C as (C1 & C2 & _). split; [exact C2|]. rewrite C1, O1. apply rnd_ge1. lra.
    + left. destruct C as [C1 _]. 
      replace (Bsign (b64_ofZ 1)) with false in C1 by reflexivity.
      apply B2SF_inj. rewrite C1. reflexivity.
  - left. destruct e as [s|[]| |s m0 e0 p0]; try discriminate. reflexivity.
Qed.

(** logOdds2Prob l * 100 for exp l non-negative: a number in [0, 100]. *)
Lemma prob_range (L : libm) (l : b64) : is_nan (m_exp L l) = false -> Bsign (m_exp L l) = false ->
  exists c, @to_int8 b64 (F64 L) (Bmult mode_NE (@logOdds2Prob b64 (F64 L) l) (b64_ofZ 100)) = Ok c /\ (0 <= c <= 100)%Z.
Proof.
  intros N S. unfold logOdds2Prob, n1. cbn [nsub ndiv nadd nexp nofZ F64].
  destruct (ofZ_exact 1) as [O1 O2]; [lia|]. destruct (ofZ_exact 100) as [H1 H2]; [lia|].
  destruct (one_plus (m_exp L l) N S) as [-> | [F P]].
  - exists 100%Z. split; [vm_compute; reflexivity|lia].
  - set (d := Bplus mode_NE (b64_ofZ 1) (m_exp L l)) in *.
    assert (I : 0 < / B2R d <= 1).
    { split; [apply Rinv_0_lt_compat; lra|]. rewrite <- Rinv_1. apply Rinv_le; lra. }
    destruct (fdiv_rnd (b64_ofZ 1) d) as [D1 D2]; [exact O2|lra| |].
    { rewrite O1. apply small_1000. rewrite Rabs_right; unfold Rdiv; lra. }
    rewrite O1 in D1. set (q := Bdiv mode_NE (b64_ofZ 1) d) in *.
    assert (Q : 0 <= B2R q <= 1). { rewrite D1. unfold Rdiv. split; [apply rnd_ge0|apply rnd_le1]; lra. }
    destruct (fminus_rnd (b64_ofZ 1) q) as [M1 M2]; auto.
    { rewrite O1. apply small_1000. rewrite Rabs_right; lra. }
    rewrite O1 in M1. set (p := Bminus mode_NE (b64_ofZ 1) q) in *.
    assert (Pp : 0 <= B2R p <= 1). { rewrite M1. split; [apply rnd_ge0|apply rnd_le1]; lra. }
    destruct (fmult_rnd p (b64_ofZ 100)) as [R1 R2]; auto.
    { rewrite H1. apply small_1000. rewrite Rabs_right; lra. }
    rewrite H1 in R1. set (x := Bmult mode_NE p (b64_ofZ 100)) in *.
    assert (X : 0 <= B2R x <= 100). { rewrite R1. split; [apply rnd_ge0|apply rnd_le100]; lra. }
    unfold to_int8. cbn [ntrunc F64]. unfold b64_trunc. rewrite R2.
    assert (TE : Btrunc x = Ztrunc (B2R x)).
    { apply eq_IZR. rewrite (Btrunc_correct 53 1024 _). rewrite round_FIX_IZR. reflexivity. }
    rewrite TE. rewrite Ztrunc_floor by lra.
    assert (0 <= Zfloor (B2R x) <= 100)%Z.
    { split; [apply Zfloor_lub; lra|]. apply le_IZR. pose proof (Zfloor_lb (B2R x)). lra. }
    replace ((-128 <=? Zfloor (B2R x)) && (Zfloor (B2R x) <? 128))%Z with true by lia.
    eauto.
Qed.

(** ** The observation function of the constructed mapper *)
Definition the_mapper (L : libm) (Tbs : mat3 b64) : mapper b64 := @mapper_ctor b64 (F64 L) Tbs.

(** odds of a byte, as the code computes them *)
Definition odds64 (c : Z) : b64 :=
  Bdiv mode_NE (Bdiv mode_NE (b64_ofZ c) (b64_ofZ 100)) (Bminus mode_NE (b64_ofZ 1) (Bdiv mode_NE (b64_ofZ c) (b64_ofZ 100))).
Definition posfin (x : b64) : bool := is_finite x && Bltb (B754_zero false) x.
Lemma odds_posfin c : (1 <= c <= 99)%Z -> posfin (odds64 c) = true.
Proof.
  intros H. assert (A : forallb (fun k => posfin (odds64 (Z.of_nat k))) (seq 1 99) = true) by (vm_compute; reflexivity).
  rewrite forallb_forall in A. specialize (A (Z.to_nat c)). rewrite Z2Nat.id in A by lia. apply A. apply in_seq. lia.
Qed.
Lemma odds_neg c : (-128 <= c <= -1)%Z -> Bltb (odds64 c) (B754_zero false) = true.
Proof.
  intros H. assert (A : forallb (fun k => Bltb (odds64 (- Z.of_nat k)) (B754_zero false)) (seq 1 128) = true) by (vm_compute; reflexivity).
  rewrite forallb_forall in A. specialize (A (Z.to_nat (- c))). rewrite Z2Nat.id in A by lia.
  rewrite Z.opp_involutive in A. apply A. apply in_seq. lia.
Qed.

Section Rules.
Variable L : libm.
Hypothesis HL : explog_rules L.
Variable Tbs : mat3 b64.
Let m := the_mapper L Tbs.

Lemma log_posfin x : posfin x = true -> is_finite (m_log L x) = true.
Proof. unfold posfin. intros H. apply andb_prop in H. apply HL; tauto. Qed.
Lemma prior_finite : is_finite (mp_prior m) = true.
Proof. apply log_posfin. vm_compute. reflexivity. Qed.
Lemma occ_finite : is_finite (mp_occ m) = true.
Proof. apply log_posfin. vm_compute. reflexivity. Qed.
Lemma free_finite : is_finite (mp_free m) = true.
Proof. apply log_posfin. vm_compute. reflexivity. Qed.

Lemma plus_fin_nan (x y : b64) : is_finite x = true -> is_finite y = true -> is_nan (Bplus mode_NE x y) = false.
Proof.
  intros Fx Fy. pose proof (Bplus_correct 53 1024 _ _ mode_NE x y Fx Fy) as C.
  destruct (Rlt_bool _ _).
  - destruct C as (_ & F & _). destruct (Bplus mode_NE x y); auto; discriminate.
  - destruct C as [C _]. destruct (Bplus mode_NE x y); auto; discriminate.
Qed.
Lemma minus_fin_nan (x y : b64) : is_nan x = false -> is_finite y = true -> is_nan (Bminus mode_NE x y) = false.
Proof.
  intros Nx Fy. destruct (is_finite x) eqn:Fx.
  - pose proof (Bminus_correct 53 1024 _ _ mode_NE x y Fx Fy) as C.
    destruct (Rlt_bool _ _).
    + destruct C as (_ & F & _). destruct (Bminus mode_NE x y); auto; discriminate.
    + destruct C as [C _]. destruct (Bminus mode_NE x y); auto; discriminate.
  - destruct x as [s|s| |s mm e p]; try discriminate. destruct y as [s'|s'| |s' m' e' p']; try discriminate; reflexivity.
Qed.
Lemma exp_ok (x : b64) : is_nan x = false -> is_nan (m_exp L x) = false /\ Bsign (m_exp L x) = false.
Proof.
  intros N. destruct (is_finite x) eqn:F; [apply HL; exact F|].
  destruct x as [s|[]| |s mm e p]; try discriminate.
  - rewrite (exp_minus_inf L HL). split; reflexivity.
  - rewrite (exp_inf L HL). split; reflexivity.
Qed.
Lemma inf_plus s (y : b64) : is_finite y = true -> Bplus mode_NE (B754_infinity s) y = B754_infinity s.
Proof. destruct y; try discriminate; reflexivity. Qed.
Lemma inf_minus s (y : b64) : is_finite y = true -> Bminus mode_NE (B754_infinity s) y = B754_infinity s.
Proof. destruct y; try discriminate; reflexivity. Qed.

Lemma fuse_unfold log c : @fuse b64 (F64 L) m log c =
  @to_int8 b64 (F64 L) (Bmult mode_NE (@logOdds2Prob b64 (F64 L) (Bminus mode_NE (Bplus mode_NE (m_log L (odds64 c)) log) (mp_prior m))) (b64_ofZ 100)).
Proof. reflexivity. Qed.

Lemma fuse_0 log : is_finite log = true -> @fuse b64 (F64 L) m log 0 = Ok 0%Z.
Proof.
  intros Fl. rewrite fuse_unfold. replace (odds64 0) with (B754_zero false : b64) by reflexivity.
  rewrite (log_zero L HL), (inf_plus _ _ Fl), (inf_minus _ _ prior_finite).
  unfold logOdds2Prob, n1. cbn [nsub ndiv nadd nexp nofZ F64]. rewrite (exp_minus_inf L HL). vm_compute. reflexivity.
Qed.
Lemma fuse_100 log : is_finite log = true -> @fuse b64 (F64 L) m log 100 = Ok 100%Z.
Proof.
  intros Fl. rewrite fuse_unfold. replace (odds64 100) with (B754_infinity false : b64) by reflexivity.
  rewrite (log_inf L HL), (inf_plus _ _ Fl), (inf_minus _ _ prior_finite).
  unfold logOdds2Prob, n1. cbn [nsub ndiv nadd nexp nofZ F64]. rewrite (exp_inf L HL). vm_compute. reflexivity.
Qed.
Lemma fuse_mid log c : is_finite log = true -> (1 <= c <= 99)%Z ->
  exists c', @fuse b64 (F64 L) m log c = Ok c' /\ (0 <= c' <= 100)%Z.
Proof.
  intros Fl Hc. rewrite fuse_unfold.
  destruct (exp_ok (Bminus mode_NE (Bplus mode_NE (m_log L (odds64 c)) log) (mp_prior m))) as [A B].
  - apply minus_fin_nan; [|apply prior_finite]. apply plus_fin_nan; [|exact Fl]. apply log_posfin. apply odds_posfin. exact Hc.
  - apply prob_range; assumption.
Qed.
Lemma fuse_unknown log c : (-128 <= c <= -1)%Z -> @fuse b64 (F64 L) m log c = UB UFloatCast.
Proof.
  intros Hc. rewrite fuse_unfold. rewrite (log_neg L HL) by (apply odds_neg; exact Hc).
  assert (N1 : Bplus mode_NE B754_nan log = B754_nan) by (destruct log; reflexivity).
  assert (N2 : Bminus mode_NE B754_nan (mp_prior m) = B754_nan) by (destruct (mp_prior m); reflexivity).
  rewrite N1, N2. unfold logOdds2Prob, n1. cbn [nsub ndiv nadd nexp nofZ F64]. rewrite (exp_nan L HL).
  reflexivity.
Qed.

Lemma fuse_total_b64 : @fuse_total b64 (F64 L) m.
Proof.
  intros c Hc.
  assert (D : (c = 0 \/ c = 100 \/ 1 <= c <= 99)%Z) by lia.
  pose proof occ_finite as FO. pose proof free_finite as FF.
  destruct D as [-> | [-> | D]].
  - rewrite !fuse_0 by assumption. split; exists 0%Z; (split; [reflexivity|lia]).
  - rewrite !fuse_100 by assumption. split; exists 100%Z; (split; [reflexivity|lia]).
  - split; apply fuse_mid; assumption.
Qed.
End Rules.

(** ** Exact arithmetic *)
Lemma odds_R c : (1 <= c <= 99)%Z -> 0 < IZR c / 100 / (1 - IZR c / 100).
Proof.
  intros H. destruct H as [H1 H2]. apply IZR_le in H1, H2.
  apply Rdiv_lt_0_compat; lra.
Qed.
Lemma fuse_R (Tbs : mat3 R) (c a b : Z) (odds : R) : (1 <= c <= 99)%Z -> 0 < odds ->
  (0 < b)%Z -> 100 * (odds * IZR c) / (odds * IZR c + (100 - IZR c)) = IZR a / IZR b -> (0 <= a)%Z ->
  fuse (mapper_ctor Tbs) (ln odds) c = Ok (a / b)%Z.
Proof.
  intros Hc Ho Hb E Ha. pose proof (odds_R c Hc) as P.
  pose proof Hc as [H1 H2]. apply IZR_le in H1, H2.
  unfold fuse, logOdds2Prob, prob2LogOdds, mapper_ctor. cbn [mp_prior]. unfold prob2LogOdds. runfold.
  replace (1 / 2 / (1 - 1 / 2)) with 1 by field. rewrite ln_1, Rminus_0_r, exp_plus, !exp_ln by assumption.
  assert (PP : 0 < odds * IZR c) by (apply Rmult_lt_0_compat; lra).
  replace ((1 - 1 / (1 + IZR c / 100 / (1 - IZR c / 100) * odds)) * 100) with (IZR a / IZR b).
  - unfold to_int8. cbn [ntrunc RNum].
    apply IZR_lt in Hb as Hb'. assert (0 <= IZR a / IZR b).
    { apply IZR_le in Ha. apply Rmult_le_pos; [lra|]. apply Rlt_le, Rinv_0_lt_compat; lra. }
    assert (B : IZR a / IZR b <= 100).
    { rewrite <- E. apply Rmult_le_reg_r with (odds * IZR c + (100 - IZR c)); [lra|].
      unfold Rdiv. rewrite Rmult_assoc, Rinv_l by lra. nra. }
    rewrite Ztrunc_floor by assumption. rewrite Zfloor_div by lia.
    assert (0 <= a / b <= 100)%Z.
    { split; [apply Z.div_pos; lia|]. rewrite <- (Zfloor_div a b) by lia. apply le_IZR. pose proof (Zfloor_lb (IZR a / IZR b)). lra. }
    replace ((-128 <=? a / b) && (a / b <? 128))%Z with true by lia. reflexivity.
  - rewrite <- E. field. repeat split; lra.
Qed.
Lemma fuse_occ_R Tbs c : (1 <= c <= 99)%Z ->
  fuse (mapper_ctor Tbs) (mp_occ (mapper_ctor Tbs)) c = Ok (900 * c / (100 + 8 * c))%Z.
Proof.
  intros Hc. pose proof Hc as [H1 H2]. apply IZR_le in H1, H2. cbn [mp_occ mapper_ctor]. unfold prob2LogOdds. runfold.
  replace (90 / 100 / (1 - 90 / 100)) with 9 by field. apply fuse_R; try lia; try lra; auto.
  rewrite mult_IZR, plus_IZR, mult_IZR. field. lra.
Qed.
Lemma fuse_free_R Tbs c : (1 <= c <= 99)%Z ->
  fuse (mapper_ctor Tbs) (mp_free (mapper_ctor Tbs)) c = Ok (3500 * c / (6500 - 30 * c))%Z.
Proof.
  intros Hc. pose proof Hc as [H1 H2]. apply IZR_le in H1, H2. cbn [mp_free mapper_ctor]. unfold prob2LogOdds. runfold.
  replace (35 / 100 / (1 - 35 / 100)) with (35 / 65) by field. apply fuse_R; try lia; try lra; auto.
  rewrite mult_IZR, minus_IZR, mult_IZR. field. lra.
Qed.
Lemma occ_not_lower c : (1 <= c <= 99)%Z -> (c <= 900 * c / (100 + 8 * c) <= 100)%Z.
Proof. intros H. split; [apply Z.div_le_lower_bound; nia|apply Z.div_le_upper_bound; lia]. Qed.
Lemma free_lower c : (1 <= c <= 99)%Z -> (0 <= 3500 * c / (6500 - 30 * c) < c)%Z.
Proof. intros H. split; [apply Z.div_pos; lia|apply Z.div_lt_upper_bound; nia]. Qed.
