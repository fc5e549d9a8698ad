(** The values of a target in binary64 arithmetic: proofs. *)
From Coq Require Import Reals Lra ZArith Lia List Psatz.
From Coquelicot Require Import Coquelicot.
From Flocq Require Import Core.Core IEEE754.BinarySingleNaN.
From Verif Require Import Outcome Num Float64 FloatLemmas BufferModel GridModel BasisModel SpecBasis BasisProofs RobotProofs AngleFloat NearProofs SpecCoeff CoeffProofs
  ExplorationModel SpecFar SpecGauss.
Import ListNotations.
Local Open Scope R_scope.
Notation is_finite := BinarySingleNaN.is_finite.

(** ** The exponential *)
Lemma exp_le1 q : 0 <= q -> 0 < exp (- q) <= 1.
Proof. intros H. split; [apply exp_pos|]. rewrite <- exp_0. destruct (Rle_lt_or_eq_dec 0 q H) as [P| <-]; [left; apply exp_increasing; lra|right; f_equal; ring]. Qed.
Lemma exp_step q d : 0 <= q -> 0 <= d -> 0 <= exp (- q) - exp (- (q + d)) <= exp (- q) * d.
Proof.
  intros Hq Hd. replace (- (q + d)) with (- q + - d) by ring. rewrite exp_plus. pose proof (exp_pos (- q)). pose proof (exp_ineq1_le (- d)). pose proof (exp_le1 d Hd). split; nra.
Qed.
Lemma exp_lip p q : 0 <= p -> 0 <= q -> Rabs (exp (- p) - exp (- q)) <= Rabs (p - q).
Proof.
  intros Hp Hq. pose proof (exp_le1 p Hp). pose proof (exp_le1 q Hq). destruct (Rle_lt_dec p q) as [H'|H'].
  - pose proof (exp_step p (q - p) Hp ltac:(lra)) as S. replace (p + (q - p)) with q in S by ring. rewrite (Rabs_pos_eq (exp _ - _)) by lra. rewrite Rabs_minus_sym, Rabs_pos_eq by lra. nra.
  - pose proof (exp_step q (p - q) Hq ltac:(lra)) as S. replace (q + (p - q)) with p in S by ring. rewrite Rabs_minus_sym, Rabs_pos_eq by lra. rewrite Rabs_pos_eq by lra. nra.
Qed.
Lemma exp_peak x : 0 <= x -> exp (- x) * x <= / 2.
Proof.
  intros H. pose proof (exp_ineq1_le 1) as E1. pose proof (exp_ineq1_le (x - 1)) as E2.
  assert (P : exp x = exp (x - 1) * exp 1) by (rewrite <- exp_plus; f_equal; ring).
  assert (Q : exp (- x) * exp x = 1) by (rewrite <- exp_plus, <- exp_0; f_equal; ring). pose proof (exp_pos (- x)). pose proof (exp_pos (x - 1)).
  assert (T : 2 * x <= exp x). { rewrite P. assert (exp (x - 1) * 2 <= exp (x - 1) * exp 1) by (apply Rmult_le_compat_l; lra). lra. }
  assert (exp (- x) * (2 * x) <= exp (- x) * exp x) by (apply Rmult_le_compat_l; lra). lra.
Qed.
Lemma exp_rel p q r : 0 <= q -> 0 <= r <= / 2 -> Rabs (p - q) <= r * q -> Rabs (exp (- p) - exp (- q)) <= r.
Proof.
  intros Hq Hr H. apply Rabs_le_inv in H. assert (Hp : 0 <= p) by nra.
  assert (G : forall a b, 0 <= a <= b -> q * (1 - r) <= a -> b - a <= r * q -> Rabs (exp (- a) - exp (- b)) <= r).
  { intros a b' Hab Ha Hb. pose proof (exp_step a (b' - a) ltac:(lra) ltac:(lra)) as S. replace (a + (b' - a)) with b' in S by ring. rewrite Rabs_pos_eq by lra.
    pose proof (exp_peak a ltac:(lra)) as K. pose proof (exp_pos (- a)) as E.
    assert (exp (- a) * (b' - a) <= exp (- a) * (r * q)) by (apply Rmult_le_compat_l; lra).
    assert (exp (- a) * (q * (1 - r)) <= exp (- a) * a) by (apply Rmult_le_compat_l; lra).
    assert (exp (- a) * q <= 1). { assert (0 <= exp (- a) * q) by (apply Rmult_le_pos; lra). nra. } nra. }
  destruct (Rle_lt_dec p q) as [C|C].
  - apply G; [lra|nra|lra].
  - rewrite Rabs_minus_sym. apply G; [lra|nra|lra].
Qed.
Lemma exp_close p q r h : 0 <= p -> 0 <= q -> 0 <= r <= / 2 -> 0 <= h -> Rabs (p - q) <= r * q + h -> Rabs (exp (- p) - exp (- q)) <= r + h.
Proof.
  intros Hp Hq Hr Hh H. apply Rabs_le_inv in H.
  assert (X : exists m, 0 <= m /\ Rabs (m - q) <= r * q /\ Rabs (p - m) <= h).
  { assert (0 <= r * q) by (apply Rmult_le_pos; lra). destruct (Rle_lt_dec p (q - r * q)) as [C|C].
    - exists (q - r * q). split; [nra|]. split; apply Rabs_le; lra.
    - destruct (Rle_lt_dec (q + r * q) p) as [D|D].
      + exists (q + r * q). split; [lra|]. split; apply Rabs_le; lra.
      + exists p. split; [exact Hp|]. split; apply Rabs_le; lra. }
  destruct X as (m & Hm & A & B). pose proof (exp_lip p m Hp Hm). pose proof (exp_rel m q r Hq Hr A).
  replace (exp (- p) - exp (- q)) with ((exp (- p) - exp (- m)) + (exp (- m) - exp (- q))) by ring. pose proof (Rabs_triang (exp (- p) - exp (- m)) (exp (- m) - exp (- q))). lra.
Qed.
(** The bell curve is Lipschitz. *)
Lemma bell_lip a b : Rabs (exp (- (a ^ 2 / 2)) - exp (- (b ^ 2 / 2))) <= Rabs (a - b).
Proof.
  assert (G : forall a t, 0 <= t -> Rabs (exp (- ((a + t) ^ 2 / 2)) - exp (- (a ^ 2 / 2))) <= t).
  { intros x. apply (bound_by_derivative (fun t => exp (- ((x + t) ^ 2 / 2)) - exp (- (x ^ 2 / 2))) (fun t => - (x + t) * exp (- ((x + t) ^ 2 / 2))) (fun t => t) (fun _ => 1)).
    - rewrite Rplus_0_r. ring.
    - reflexivity.
    - intros t. auto_derive; [trivial|]. replace ((x + t) * ((x + t) * 1) * / 2) with ((x + t) ^ 2 / 2) by field. field.
    - intros t. auto_derive; [trivial|ring].
    - intros t _. set (y := x + t). rewrite Rabs_mult, (Rabs_pos_eq (exp _)) by (left; apply exp_pos). rewrite Rabs_Ropp.
      pose proof (exp_ineq1_le (y ^ 2 / 2)) as E. assert (Q : exp (- (y ^ 2 / 2)) * exp (y ^ 2 / 2) = 1) by (rewrite <- exp_plus, <- exp_0; f_equal; ring).
      assert (A : Rabs y <= 1 + y ^ 2 / 2) by (apply Rabs_le; nra). pose proof (exp_pos (- (y ^ 2 / 2))). nra. }
  destruct (Rle_lt_dec a b) as [H|H].
  - rewrite Rabs_minus_sym, (Rabs_minus_sym a b), (Rabs_pos_eq (b - a)) by lra. pose proof (G a (b - a) ltac:(lra)) as K. replace (a + (b - a)) with b in K by ring. exact K.
  - rewrite (Rabs_pos_eq (a - b)) by lra. pose proof (G b (a - b) ltac:(lra)) as K. replace (b + (a - b)) with a in K by ring. exact K.
Qed.
Lemma bell2_lip a b c d : Rabs (exp (- ((a ^ 2 + b ^ 2) / 2)) - exp (- ((c ^ 2 + d ^ 2) / 2))) <= Rabs (a - c) + Rabs (b - d).
Proof.
  assert (S : forall x y, exp (- ((x ^ 2 + y ^ 2) / 2)) = exp (- (x ^ 2 / 2)) * exp (- (y ^ 2 / 2))) by (intros x y; rewrite <- exp_plus; f_equal; field).
  rewrite !S. pose proof (bell_lip a c) as A. pose proof (bell_lip b d) as B.
  assert (U : forall x, 0 < exp (- (x ^ 2 / 2)) <= 1) by (intros x; apply exp_le1; pose proof (pow2_ge_0 x); lra).
  pose proof (U a) as Ua. pose proof (U b) as Ub. pose proof (U c) as Uc. pose proof (U d) as Ud.
  set (ea := exp (- (a ^ 2 / 2))) in *. set (eb := exp (- (b ^ 2 / 2))) in *. set (ec := exp (- (c ^ 2 / 2))) in *. set (ed := exp (- (d ^ 2 / 2))) in *.
  replace (ea * eb - ec * ed) with ((ea - ec) * eb + ec * (eb - ed)) by ring.
  assert (Q1 : Rabs ((ea - ec) * eb) <= Rabs (a - c) * 1) by (apply mul_le; [exact A|rewrite Rabs_pos_eq; lra]).
  assert (Q2 : Rabs (ec * (eb - ed)) <= 1 * Rabs (b - d)) by (apply mul_le; [rewrite Rabs_pos_eq; lra|exact B]).
  pose proof (add_le _ _ _ _ Q1 Q2). lra.
Qed.

(** ** The exponent *)
(** One more rounding. *)
Lemma more_round x y r h e k : 0 <= y -> 0 <= r -> 0 <= h -> Rabs (x - y) <= r * y + h -> Rabs e <= ueps -> r <= / 1000 ->
  Rabs (x * (1 + e) + k - y) <= (r + 1001 / 1000 * ueps) * y + (2 * h + Rabs k).
Proof.
  intros Hy Hr Hh H He R. pose proof u_small as U. replace (x * (1 + e) + k - y) with ((x - y) * (1 + e) + (y * e + k)) by ring.
  assert (A : Rabs ((x - y) * (1 + e)) <= (r * y + h) * (1 + ueps)) by (apply mul_le; [exact H|apply one_plus_le; exact He]).
  assert (B : Rabs (y * e) <= y * ueps) by (apply mul_le; [rewrite Rabs_pos_eq; lra|exact He]).
  pose proof (add_le _ _ _ _ A (add_le _ _ _ _ B (Rle_refl (Rabs k)))) as T. eapply Rle_trans; [exact T|].
  assert (r * y * ueps <= / 1000 * ueps * y). { assert (0 <= ueps * y) by (apply Rmult_le_pos; lra). nra. }
  assert (h * ueps <= h * 1) by (apply Rmult_le_compat_l; lra). lra.
Qed.
Section Lib.
Variable L : libm.
Notation sub := (@nsub b64 (F64 L)).
Lemma offset_close W (x m tr : b64) : 0 <= W <= 1073741824 -> within W x -> within W m -> within W tr ->
  let d := sub x (sub m tr) in is_finite d = true /\ Rabs (B2R d) <= 3221225472 /\ Rabs (B2R d - (B2R x - (B2R m - B2R tr))) <= 6 * W * ueps.
Proof.
  intros HW [Fx Bx] [Fm Bm] [Ft Bt] d.
  assert (Q : medium x /\ medium m /\ medium tr) by (repeat split; try assumption; lra). destruct Q as (Mx & Mm & Mt).
  destruct (offset L x m tr Mx Mm Mt) as [Fd Bd]. split; [exact Fd|]. split; [exact Bd|]. pose proof u_small as U.
  assert (B1 : Rabs (B2R m - B2R tr) <= 2 * W) by (eapply Rle_trans; [apply Rabs_triang|]; rewrite Rabs_Ropp; lra).
  destruct (fminus_abs m tr Fm Ft) as (e1 & He1 & E1 & F1). { eapply Rle_trans; [exact B1|]. cbn. lra. }
  set (r := Bminus mode_NE m tr) in *.
  assert (D1 : Rabs (B2R r - (B2R m - B2R tr)) <= 2 * W * ueps). { rewrite E1. replace ((B2R m - B2R tr) * (1 + e1) - (B2R m - B2R tr)) with ((B2R m - B2R tr) * e1) by ring. apply mul_le; assumption. }
  assert (Wu : 0 <= W * ueps <= W * / 1000) by (split; [apply Rmult_le_pos; lra|apply Rmult_le_compat_l; lra]).
  assert (B2 : Rabs (B2R x - B2R r) <= 31 / 10 * W). { replace (B2R x - B2R r) with ((B2R x - (B2R m - B2R tr)) - (B2R r - (B2R m - B2R tr))) by ring.
    eapply Rle_trans; [apply Rabs_triang|]. rewrite Rabs_Ropp. pose proof (Rabs_triang (B2R x) (- (B2R m - B2R tr))) as T. rewrite Rabs_Ropp in T. fold (B2R x - (B2R m - B2R tr)) in T. unfold Rminus in *. lra. }
  destruct (fminus_abs x r Fx F1) as (e2 & He2 & E2 & F2). { eapply Rle_trans; [exact B2|]. cbn. lra. }
  change (B2R d) with (B2R (Bminus mode_NE x r)). rewrite E2.
  replace ((B2R x - B2R r) * (1 + e2) - (B2R x - (B2R m - B2R tr))) with ((B2R x - B2R r) * e2 - (B2R r - (B2R m - B2R tr))) by ring.
  eapply Rle_trans; [apply Rabs_triang|]. rewrite Rabs_Ropp. pose proof (mul_le _ _ _ _ B2 He2). lra.
Qed.
(** The inverse variance. *)
Lemma inverse_close (s : b64) : deviation s -> let v := Bdiv mode_NE (b64_ofZ 1) (Bmult mode_NE s s) in
  is_finite v = true /\ Rabs (B2R v - / (B2R s ^ 2)) <= 21 / 10 * ueps * / (B2R s ^ 2) /\ 0 <= B2R v <= 536870912 /\ 0 < B2R (Bmult mode_NE s s).
Proof.
  intros [Fs Bs] v. pose proof u_small as U. set (y := B2R s ^ 2).
  assert (Ey : y = Rabs (B2R s) * Rabs (B2R s)) by (unfold y; rewrite <- Rabs_mult, Rabs_pos_eq; nra).
  assert (By : / 268435456 <= y <= 1152921504606846976). { rewrite Ey. split; nra. }
  assert (Es : B2R s * B2R s = y) by (unfold y; ring).
  destruct (fmult_rel s s Fs Fs) as (e1 & He1 & E1 & F1).
  { rewrite Es, Rabs_pos_eq by lra. split; [|apply Rle_trans with (bpow radix2 60); [cbn; lra|apply bpow_le; lia]]. apply Rle_trans with (bpow radix2 (-28)); [apply bpow_le; lia|cbn; lra]. }
  rewrite Es in E1. set (q := Bmult mode_NE s s) in *. apply Rabs_le_inv in He1.
  assert (P : 0 < B2R q) by (rewrite E1; apply Rmult_lt_0_compat; lra).
  assert (I : Rabs (/ B2R q - / y) <= 1001 / 1000 * ueps * / y).
  { rewrite E1. replace (/ (y * (1 + e1)) - / y) with (- e1 * / (1 + e1) * / y) by (field; lra). rewrite Rabs_mult, (Rabs_pos_eq (/ y)) by (left; apply Rinv_0_lt_compat; lra).
    apply Rmult_le_compat_r; [left; apply Rinv_0_lt_compat; lra|]. rewrite Rabs_mult, Rabs_Ropp, (Rabs_pos_eq (/ (1 + e1))) by (left; apply Rinv_0_lt_compat; lra).
    assert (Rabs e1 <= ueps) by (apply Rabs_le; lra). assert (/ (1 + e1) <= 1001 / 1000) by (apply Rmult_le_reg_r with (1 + e1); [lra|]; rewrite Rinv_l by lra; lra).
    rewrite (Rmult_comm (1001 / 1000)). apply Rmult_le_compat; [apply Rabs_pos|left; apply Rinv_0_lt_compat; lra|assumption|assumption]. }
  assert (Iy : 0 < / y <= 268435456). { split; [apply Rinv_0_lt_compat; lra|]. rewrite <- (Rinv_involutive 268435456) by lra. apply Rinv_le_contravar; lra. }
  assert (Iy' : / 1152921504606846976 <= / y) by (apply Rinv_le_contravar; lra).
  assert (Iu : 0 < ueps * / y) by (apply Rmult_lt_0_compat; lra).
  assert (Iu' : ueps * / y <= / 1000 * / y) by (apply Rmult_le_compat_r; lra).
  assert (Bq : / 2 * / y <= / B2R q <= 2 * / y) by (apply Rabs_le_inv in I; lra).
  destruct (fdiv_rel (b64_ofZ 1) q) as (e2 & He2 & E2 & F2); [reflexivity|lra| |].
  { rewrite (proj1 (ofZ_exact 1 ltac:(lia))). replace (1 / B2R q) with (/ B2R q) by (field; lra). rewrite Rabs_pos_eq by lra.
    split; [apply Rle_trans with (bpow radix2 (-61)); [apply bpow_le; lia|change (bpow radix2 (-61)) with (/ 2305843009213693952); lra]|apply Rle_trans with (bpow radix2 30); [cbn; lra|apply bpow_le; lia]]. }
  rewrite (proj1 (ofZ_exact 1 ltac:(lia))) in E2. replace (1 / B2R q) with (/ B2R q) in E2 by (field; lra).
  assert (V : Rabs (B2R v - / y) <= 21 / 10 * ueps * / y).
  { unfold v. rewrite E2. pose proof (more_round (/ B2R q) (/ y) (1001 / 1000 * ueps) 0 e2 0 ltac:(lra) ltac:(lra) ltac:(lra) ltac:(lra) He2 ltac:(lra)) as M.
    rewrite Rabs_R0, Rplus_0_r in M. eapply Rle_trans; [exact M|]. lra. }
  split; [exact F2|]. split; [exact V|]. split; [|exact P]. apply Rabs_le_inv in V. lra.
Qed.
(** One term of the quadratic form. *)
Lemma term_close (d v z : b64) (i : R) : is_finite d = true -> Rabs (B2R d) <= 3221225472 -> is_finite v = true -> 0 <= B2R v <= 536870912 -> 0 <= i -> Rabs (B2R v - i) <= 21 / 10 * ueps * i ->
  is_finite z = true -> B2R z = 0 ->
  let ok r := Rabs (B2R (Bmult mode_NE r d) - B2R d ^ 2 * i) <= 42 / 10 * ueps * (B2R d ^ 2 * i) + bpow radix2 (-960) in
  ok (Bplus mode_NE (Bmult mode_NE d v) z) /\ ok (Bplus mode_NE z (Bmult mode_NE d v)).
Proof.
  intros Fd Bd Fv Bv Hi Hv Fz Ez ok. pose proof u_small as U. pose proof tiny_pos as Tp.
  assert (Bv' : Rabs (B2R v) <= 536870912) by (rewrite Rabs_pos_eq; lra).
  assert (B1 : Rabs (B2R d * B2R v) <= bpow radix2 62). { eapply Rle_trans; [apply mul_le; [exact Bd|exact Bv']|]. cbn. lra. }
  destruct (fmult_rnd d v Fd Fv) as [E1 F1]. { eapply Rle_trans; [exact B1|apply bpow_le; lia]. }
  destruct (fmult_abs d v Fd Fv) as (e1 & h1 & He1 & Hh1 & E1' & _). { eapply Rle_trans; [exact B1|apply bpow_le; lia]. }
  set (m := Bmult mode_NE d v) in *. assert (B2 : Rabs (B2R m) <= bpow radix2 62) by (rewrite E1; apply rnd_pow; [lia|exact B1]).
  assert (G : forall q : b64, is_finite q = true -> B2R q = B2R m -> ok q).
  { intros q Fq Eq. unfold ok. assert (B3 : Rabs (B2R q * B2R d) <= bpow radix2 94).
    { rewrite Eq. eapply Rle_trans; [apply mul_le; [exact B2|exact Bd]|]. cbn. lra. }
    destruct (fmult_abs q d Fq Fd) as (e2 & h2 & He2 & Hh2 & E2 & F2). { eapply Rle_trans; [exact B3|apply bpow_le; lia]. }
    rewrite E2, Eq, E1'. set (y := B2R d ^ 2 * i). assert (Y : 0 <= y) by (apply Rmult_le_pos; [apply pow2_ge_0|exact Hi]).
    assert (S0 : Rabs (B2R d ^ 2 * B2R v - y) <= 21 / 10 * ueps * y + 0).
    { unfold y. replace (B2R d ^ 2 * B2R v - B2R d ^ 2 * i) with (B2R d ^ 2 * (B2R v - i)) by ring. rewrite Rabs_mult, (Rabs_pos_eq (B2R d ^ 2)) by apply pow2_ge_0.
      pose proof (Rmult_le_compat_l (B2R d ^ 2) _ _ (pow2_ge_0 _) Hv). lra. }
    pose proof (more_round (B2R d ^ 2 * B2R v) y (21 / 10 * ueps) 0 e1 (h1 * B2R d) Y ltac:(lra) (Rle_refl 0) S0 He1 ltac:(lra)) as S1.
    assert (K1 : Rabs (h1 * B2R d) <= 3221225472 * tiny) by (rewrite Rmult_comm; apply mul_le; assumption).
    assert (S1' : Rabs (B2R d ^ 2 * B2R v * (1 + e1) + h1 * B2R d - y) <= 311 / 100 * ueps * y + 3221225472 * tiny).
    { eapply Rle_trans; [exact S1|]. assert (0 <= ueps * y) by (apply Rmult_le_pos; lra). lra. }
    pose proof (more_round (B2R d ^ 2 * B2R v * (1 + e1) + h1 * B2R d) y (311 / 100 * ueps) (3221225472 * tiny) e2 h2 Y ltac:(lra) ltac:(lra) S1' He2 ltac:(lra)) as S2.
    replace ((B2R d * B2R v * (1 + e1) + h1) * B2R d * (1 + e2) + h2) with ((B2R d ^ 2 * B2R v * (1 + e1) + h1 * B2R d) * (1 + e2) + h2) by ring.
    eapply Rle_trans; [exact S2|]. assert (0 <= ueps * y) by (apply Rmult_le_pos; lra).
    assert (T40 : bpow radix2 (-960) = 1099511627776 * tiny) by (unfold tiny; change 1099511627776 with (bpow radix2 40); rewrite <- bpow_plus; reflexivity). rewrite T40. lra. }
  assert (K : rnd64 (B2R m) = B2R m) by apply keep.
  split; apply G.
  - apply fplus_rnd; [exact F1|exact Fz|]. rewrite Ez, Rplus_0_r. eapply Rle_trans; [exact B2|apply bpow_le; lia].
  - destruct (fplus_rnd m z F1 Fz) as [E _]; [rewrite Ez, Rplus_0_r; eapply Rle_trans; [exact B2|apply bpow_le; lia]|]. rewrite E, Ez, Rplus_0_r. exact K.
  - apply fplus_rnd; [exact Fz|exact F1|]. rewrite Ez, Rplus_0_l. eapply Rle_trans; [exact B2|apply bpow_le; lia].
  - destruct (fplus_rnd z m Fz F1) as [E _]; [rewrite Ez, Rplus_0_l; eapply Rle_trans; [exact B2|apply bpow_le; lia]|]. rewrite E, Ez, Rplus_0_l. exact K.
Qed.

Lemma exponent_close W ms p tr : 0 <= W <= 1073741824 -> fair W ms -> within2 W p -> within2 W tr ->
  let a := exponent L ms p tr in is_finite a = true /\ B2R a <= 0 /\ exists d0 d1 : R,
    Rabs (d0 - (B2R (fst p) - (B2R (fst (fst ms)) - B2R (fst tr)))) <= 6 * W * ueps /\ Rabs (d1 - (B2R (snd p) - (B2R (snd (fst ms)) - B2R (snd tr)))) <= 6 * W * ueps /\
    let q := ((d0 / B2R (fst (snd ms))) ^ 2 + (d1 / B2R (snd (snd ms))) ^ 2) / 2 in Rabs (- B2R a - q) <= 7 * ueps * q + bpow radix2 (-940).
Proof.
  intros HW ([M1 M2] & S1 & S2) [P1 P2] [T1 T2] a. pose proof u_small as U. pose proof tiny_pos as Tp.
  destruct (offset_close W _ _ _ HW P1 M1 T1) as (F1 & B1 & C1). destruct (offset_close W _ _ _ HW P2 M2 T2) as (F2 & B2 & C2).
  destruct (inverse_close _ S1) as (G1 & H1 & R1 & _). destruct (inverse_close _ S2) as (G2 & H2 & R2 & _).
  assert (N1 : B2R (fst (snd ms)) <> 0) by (intros Z; destruct S1 as [_ S1]; rewrite Z, Rabs_R0 in S1; lra).
  assert (N2 : B2R (snd (snd ms)) <> 0) by (intros Z; destruct S2 as [_ S2]; rewrite Z, Rabs_R0 in S2; lra).
  unfold exponent in a. cbv zeta in a.
  set (d0 := sub (fst p) _) in *. set (d1 := sub (snd p) _) in *.
  change (@ndiv b64 (F64 L) (b64_ofZ 1) (@nmul b64 (F64 L) (fst (snd ms)) (fst (snd ms)))) with (Bdiv mode_NE (b64_ofZ 1) (Bmult mode_NE (fst (snd ms)) (fst (snd ms)))) in a.
  change (@ndiv b64 (F64 L) (b64_ofZ 1) (@nmul b64 (F64 L) (snd (snd ms)) (snd (snd ms)))) with (Bdiv mode_NE (b64_ofZ 1) (Bmult mode_NE (snd (snd ms)) (snd (snd ms)))) in a.
  set (v0 := Bdiv mode_NE _ (Bmult mode_NE (fst (snd ms)) _)) in *. set (v1 := Bdiv mode_NE _ (Bmult mode_NE (snd (snd ms)) _)) in *.
  clearbody d0 d1 v0 v1.
  destruct (times_zero d1 F2) as [Fz1 Ez1]. destruct (times_zero d0 F1) as [Fz0 Ez0].
  assert (V0 : medium v0) by (split; [exact G1|rewrite Rabs_pos_eq; lra]). assert (V1 : medium v1) by (split; [exact G2|rewrite Rabs_pos_eq; lra]).
  destruct (term d0 _ _ F1 B1 V0 (proj1 R1) Fz1 Ez1) as [(K1 & L1) _]. destruct (term d1 _ _ F2 B2 V1 (proj1 R2) Fz0 Ez0) as [_ (K2 & L2)].
  assert (I1 : 0 <= / B2R (fst (snd ms)) ^ 2) by (left; apply Rinv_0_lt_compat, pow2_gt_0; exact N1).
  assert (I2 : 0 <= / B2R (snd (snd ms)) ^ 2) by (left; apply Rinv_0_lt_compat, pow2_gt_0; exact N2).
  destruct (term_close d0 v0 _ _ F1 B1 G1 R1 I1 H1 Fz1 Ez1) as [X1 _]. destruct (term_close d1 v1 _ _ F2 B2 G2 R2 I2 H2 Fz0 Ez0) as [_ X2].
  set (u := Bmult mode_NE (Bplus mode_NE (Bmult mode_NE d0 v0) (Bmult mode_NE d1 (b64_ofZ 0))) d0) in *.
  set (w := Bmult mode_NE (Bplus mode_NE (Bmult mode_NE d0 (b64_ofZ 0)) (Bmult mode_NE d1 v1)) d1) in *.
  assert (B95 : Rabs (B2R u + B2R w) <= bpow radix2 95). { rewrite Rabs_pos_eq by lra. change (bpow radix2 95) with (bpow radix2 (1 + 94)). rewrite bpow_plus. change (bpow radix2 1) with 2. lra. }
  destruct (fplus_rnd u w K1 K2) as [Es Fs]. { eapply Rle_trans; [exact B95|apply bpow_le; lia]. }
  destruct (fplus_abs u w K1 K2) as (e1 & He1 & Es' & _). { eapply Rle_trans; [exact B95|apply bpow_le; lia]. }
  destruct (half_val L) as [Fh Eh]. cbv zeta in Fh, Eh. set (h := @nneg b64 (F64 L) (@lit b64 (F64 L) 1 2)) in *.
  set (s := Bplus mode_NE u w) in *. change (is_finite a) with (is_finite (Bmult mode_NE h s)). change (B2R a) with (B2R (Bmult mode_NE h s)). clearbody h. clear a.
  assert (Ss : 0 <= B2R s) by (rewrite Es; apply rnd_nonneg; lra).
  assert (Sb : Rabs (B2R s) <= bpow radix2 95) by (rewrite Es; apply rnd_pow; [lia|exact B95]).
  assert (Hb : Rabs (B2R h * B2R s) <= bpow radix2 95) by (rewrite Eh, Rabs_mult, Rabs_Ropp, Rabs_pos_eq by lra; pose proof (Rabs_pos (B2R s)); lra).
  destruct (fmult_rnd h s Fh Fs) as [Ea Fa]. { eapply Rle_trans; [exact Hb|apply bpow_le; lia]. }
  destruct (fmult_abs h s Fh Fs) as (e2 & k2 & He2 & Hk2 & Ea' & _). { eapply Rle_trans; [exact Hb|apply bpow_le; lia]. }
  split; [exact Fa|]. split; [rewrite Ea, Eh; apply rnd_nonpos; lra|]. exists (B2R d0), (B2R d1). split; [exact C1|]. split; [exact C2|]. cbv zeta.
  set (y1 := B2R d0 ^ 2 * / B2R (fst (snd ms)) ^ 2) in *. set (y2 := B2R d1 ^ 2 * / B2R (snd (snd ms)) ^ 2) in *.
  replace ((B2R d0 / B2R (fst (snd ms))) ^ 2 + (B2R d1 / B2R (snd (snd ms))) ^ 2) with (y1 + y2) by (unfold y1, y2; field; auto).
  assert (Y1 : 0 <= y1) by (apply Rmult_le_pos; [apply pow2_ge_0|exact I1]). assert (Y2 : 0 <= y2) by (apply Rmult_le_pos; [apply pow2_ge_0|exact I2]).
  set (b := bpow radix2 (-960)) in *. assert (Pb : 0 < b) by apply bpow_gt_0.
  assert (A1 : Rabs (B2R u + B2R w - (y1 + y2)) <= 42 / 10 * ueps * (y1 + y2) + 2 * b).
  { replace (B2R u + B2R w - (y1 + y2)) with ((B2R u - y1) + (B2R w - y2)) by ring. pose proof (add_le _ _ _ _ X1 X2). lra. }
  pose proof (more_round _ (y1 + y2) (42 / 10 * ueps) (2 * b) e1 0 ltac:(lra) ltac:(lra) ltac:(lra) A1 He1 ltac:(lra)) as A2. rewrite Rabs_R0, Rplus_0_r, <- Es' in A2.
  assert (A3 : Rabs (B2R s / 2 - (y1 + y2) / 2) <= (42 / 10 * ueps + 1001 / 1000 * ueps) * ((y1 + y2) / 2) + 2 * b).
  { replace (B2R s / 2 - (y1 + y2) / 2) with ((B2R s - (y1 + y2)) * / 2) by field. rewrite Rabs_mult, (Rabs_pos_eq (/ 2)) by lra. lra. }
  pose proof (more_round _ ((y1 + y2) / 2) (42 / 10 * ueps + 1001 / 1000 * ueps) (2 * b) e2 (- k2) ltac:(lra) ltac:(lra) ltac:(lra) A3 He2 ltac:(lra)) as A4.
  rewrite Rabs_Ropp in A4. rewrite Ea', Eh. replace (- (- (1 / 2) * B2R s * (1 + e2) + k2) - (y1 + y2) / 2) with (B2R s / 2 * (1 + e2) + - k2 - (y1 + y2) / 2) by field.
  eapply Rle_trans; [exact A4|]. assert (0 <= ueps * ((y1 + y2) / 2)) by (apply Rmult_le_pos; lra).
  assert (T40 : b = 1099511627776 * tiny) by (unfold b, tiny; change 1099511627776 with (bpow radix2 40); rewrite <- bpow_plus; reflexivity).
  assert (T20 : bpow radix2 (-940) = 1048576 * b) by (unfold b; change 1048576 with (bpow radix2 20); rewrite <- bpow_plus; reflexivity). rewrite T20. lra.
Qed.
(** The Gaussian as the constructor makes it, and its value. *)
Lemma ctor_value W ms g p tr : fair W ms -> @gaussian_ctor b64 (F64 L) (fst ms) (snd ms) = Ok g ->
  @gauss_trans b64 (F64 L) g p tr = m_exp L (exponent L ms p tr).
Proof.
  intros (_ & S1 & S2) E. unfold gaussian_ctor in E.
  repeat match type of E with context [if ?b then _ else _] => destruct b; [discriminate E|] end. injection E as <-. reflexivity.
Qed.
Lemma c95_gaussian W ms g p tr : accurate_exp L -> 0 <= W <= 1073741824 -> fair W ms -> within2 W p -> within2 W tr -> @gaussian_ctor b64 (F64 L) (fst ms) (snd ms) = Ok g ->
  let v := @gauss_trans b64 (F64 L) g p tr in is_finite v = true /\ 0 <= B2R v <= 1 /\ Rabs (B2R v - bell ms p tr) <= bell_error W ms.
Proof.
  intros X HW F P T E v. unfold v. rewrite (ctor_value W ms g p tr F E). pose proof u_small as U.
  destruct (exponent_close W ms p tr HW F P T) as (Fa & Na & d0 & d1 & C0 & C1 & C). set (a := exponent L ms p tr) in *. clearbody a.
  destruct (X a Fa Na) as (Fv & Bv & Cv). split; [exact Fv|]. split; [exact Bv|]. destruct F as (_ & [_ S1] & [_ S2]).
  set (sx := B2R (fst (snd ms))) in *. set (sy := B2R (snd (snd ms))) in *. cbv zeta in C.
  assert (N1 : sx <> 0) by (intros Z; rewrite Z, Rabs_R0 in S1; lra). assert (N2 : sy <> 0) by (intros Z; rewrite Z, Rabs_R0 in S2; lra).
  assert (Pb : 0 <= bpow radix2 (-940) <= ueps) by (split; [apply bpow_ge_0|apply bpow_le; lia]).
  assert (Q : 0 <= ((d0 / sx) ^ 2 + (d1 / sy) ^ 2) / 2) by (pose proof (pow2_ge_0 (d0 / sx)); pose proof (pow2_ge_0 (d1 / sy)); lra).
  pose proof (exp_close (- B2R a) _ (7 * ueps) (bpow radix2 (-940)) ltac:(lra) Q ltac:(lra) ltac:(lra) C) as E1. rewrite Ropp_involutive in E1.
  set (c0 := B2R (fst p) - (B2R (fst (fst ms)) - B2R (fst tr))) in *. set (c1 := B2R (snd p) - (B2R (snd (fst ms)) - B2R (snd tr))) in *.
  pose proof (bell2_lip (d0 / sx) (d1 / sy) (c0 / sx) (c1 / sy)) as E2.
  assert (G : forall d c s, s <> 0 -> Rabs (d - c) <= 6 * W * ueps -> Rabs (d / s - c / s) <= 6 * W * ueps * / Rabs s).
  { intros d c s N H. replace (d / s - c / s) with ((d - c) * / s) by (field; exact N). rewrite Rabs_mult, Rabs_inv. apply Rmult_le_compat_r; [left; apply Rinv_0_lt_compat, Rabs_pos_lt; exact N|exact H]. }
  pose proof (G _ _ _ N1 C0) as G1. pose proof (G _ _ _ N2 C1) as G2.
  unfold bell, distance2. fold c0 c1 sx sy. unfold bell_error. fold sx sy. change (bpow radix2 (-53)) with ueps in *.
  replace (B2R (m_exp L a) - exp (- (((c0 / sx) ^ 2 + (c1 / sy) ^ 2) / 2))) with
    ((B2R (m_exp L a) - exp (B2R a)) + ((exp (B2R a) - exp (- (((d0 / sx) ^ 2 + (d1 / sy) ^ 2) / 2))) + (exp (- (((d0 / sx) ^ 2 + (d1 / sy) ^ 2) / 2)) - exp (- (((c0 / sx) ^ 2 + (c1 / sy) ^ 2) / 2))))) by ring.
  pose proof (add_le _ _ _ _ Cv (add_le _ _ _ _ E1 E2)). lra.
Qed.
(** ** Targets *)
Lemma rsum_cons a l : rsum (a :: l) = a + rsum l.
Proof. reflexivity. Qed.
Lemma made_inv ms g : @gaussian_ctor b64 (F64 L) (fst ms) (snd ms) = Ok g ->
  ga_mu g = fst ms /\ ga_inv g = (Bdiv mode_NE (b64_ofZ 1) (Bmult mode_NE (fst (snd ms)) (fst (snd ms))), Bdiv mode_NE (b64_ofZ 1) (Bmult mode_NE (snd (snd ms)) (snd (snd ms)))).
Proof.
  intros E. unfold gaussian_ctor in E. repeat match type of E with context [if ?b then _ else _] => destruct b; [discriminate E|] end. injection E as <-. split; reflexivity.
Qed.
Lemma made_modest W l t : 0 <= W <= 1073741824 -> Forall (fair W) l -> made_of L l t -> Forall modest t.
Proof.
  intros HW F M. induction M as [|ms g l t E M IH]; [constructor|]. inversion F as [|? ? F1 F2]; subst. constructor; [|exact (IH F2)].
  destruct (made_inv ms g E) as [E1 E2]. destruct F1 as ([[A1 A2] [B1 B2]] & S1 & S2).
  destruct (inverse_close _ S1) as (G1 & _ & R1 & _). destruct (inverse_close _ S2) as (G2 & _ & R2 & _).
  unfold modest. rewrite E1, E2. cbn [fst snd]. repeat split; try assumption; try lra; rewrite Rabs_pos_eq; lra.
Qed.
Lemma made_length l t : made_of L l t -> length l = length t.
Proof. intros M. induction M; [reflexivity|cbn; congruence]. Qed.
Lemma exp_bounded : accurate_exp L -> bounded_exp L.
Proof. intros X a F N. destruct (X a F N) as (A & B & _). split; assumption. Qed.
Lemma c95_evaluate W l t p tr : accurate_exp L -> 0 <= W <= 1073741824 -> Forall (fair W) l -> made_of L l t -> (lenZ l <= 2 ^ 40)%Z -> within2 W p -> within2 W tr ->
  let e := @evaluate b64 (F64 L) t p tr in is_finite e = true /\ 0 <= B2R e /\ Rabs (B2R e - bells l p tr) <= sum_error W l.
Proof.
  intros X HW F M N P T e. pose proof (made_modest W l t HW F M) as Mo. pose proof (made_length l t M) as Ln.
  assert (Md : forall x, within W x -> medium x) by (intros x [A B]; split; [exact A|lra]).
  destruct (c93_evaluate L t p tr (exp_bounded X) Mo) as (Fe & Be & _); [unfold lenZ in *; rewrite <- Ln; exact N|apply Md; apply P|apply Md; apply P|apply Md; apply T|apply Md; apply T|].
  split; [exact Fe|]. split; [apply Be|]. set (vals := map (fun g => @gauss_trans b64 (F64 L) g p tr) t).
  assert (Ee : e = @vsum b64 (F64 L) vals). { unfold e, evaluate, vals, vsum. generalize (@n0 b64 (F64 L)). clear. induction t as [|g t IH]; intros a; [reflexivity|]. cbn [map fold_left]. apply IH. }
  assert (V : Forall (fun v => unit64 v) vals /\ Rabs (rsum (map B2R vals) - bells l p tr) <= rsum (map (bell_error W) l)).
  { unfold vals, bells. clear -X HW F M P T. induction M as [|ms g l t E M IH]; [split; [apply Forall_nil|cbn [map rsum fold_right]; unfold rsum; cbn; apply Rabs_le; lra]|].
    inversion F as [|? ? F1 F2]; subst. destruct (IH F2) as [I1 I2]. destruct (c95_gaussian W ms g p tr X HW F1 P T E) as (A & B & C).
    split; [apply Forall_cons; [split; [exact A|rewrite Rabs_pos_eq; lra]|exact I1]|]. cbn [map]. rewrite !rsum_cons.
    match goal with |- Rabs (?a + ?b - (?c + ?d)) <= _ => replace (a + b - (c + d)) with ((a - c) + (b - d)) by ring end. apply add_le; [exact C|exact I2]. }
  destruct V as [V1 V2]. assert (Ln' : Z.of_nat (length vals) = lenZ l) by (unfold vals, lenZ; rewrite map_length, Ln; reflexivity).
  pose proof (vsum_close L 0 vals (map B2R vals)) as S. rewrite Ln' in S. cbv zeta in S.
  assert (S' := S ltac:(clear -V1; induction V1; constructor; [split; [assumption|rewrite Rminus_eq_0, Rabs_R0; lra]|assumption]) ltac:(lia)). clear S.
  rewrite Ee. replace (B2R (@vsum b64 (F64 L) vals) - bells l p tr) with ((rsum (map B2R vals) - bells l p tr) + (B2R (@vsum b64 (F64 L) vals) - rsum (map B2R vals))) by ring.
  pose proof (add_le _ _ _ _ V2 S'). unfold sum_error. change (bpow radix2 (-53)) with ueps. lra.
Qed.
Lemma near_trans a b c x y : Rabs (a - b) <= x -> Rabs (b - c) <= y -> Rabs (a - c) <= x + y.
Proof. intros H K. replace (a - c) with ((a - b) + (b - c)) by ring. apply add_le; assumption. Qed.
Lemma rsum_near {A} (f g : A -> R) D l : (forall p, In p l -> Rabs (f p - g p) <= D) -> Rabs (rsum (map f l) - rsum (map g l)) <= IZR (lenZ l) * D.
Proof.
  unfold lenZ. induction l as [|a l IH]; intros H; [unfold rsum; cbn; apply Rabs_le; lra|]. cbn [map length]. rewrite !rsum_cons. rewrite Nat2Z.inj_succ, succ_IZR.
  match goal with |- Rabs (?a + ?b - (?c + ?d)) <= _ => replace (a + b - (c + d)) with ((a - c) + (b - d)) by ring end.
  pose proof (add_le _ _ _ _ (H a (or_introl eq_refl)) (IH (fun p I => H p (or_intror I)))) as Q. eapply Rle_trans; [exact Q|]. lra.
Qed.
Lemma ratio_near {A} (m e b : A -> R) D s S l : 0 < s -> 0 < S -> (forall p, In p l -> Rabs (m p) <= 1 /\ 0 <= e p /\ Rabs (e p - b p) <= D) ->
  Rabs (rsum (map (fun p => m p * (e p / s)) l) - rsum (map (fun p => m p * (b p / S)) l)) <= rsum (map e l) * Rabs (/ s - / S) + IZR (lenZ l) * (D / S).
Proof.
  intros Ps PS. unfold lenZ. induction l as [|a l IH]; intros H; [unfold rsum; cbn; apply Rabs_le; lra|]. cbn [map length]. rewrite !rsum_cons. rewrite Nat2Z.inj_succ, succ_IZR.
  match goal with |- Rabs (?a + ?b - (?c + ?d)) <= _ => replace (a + b - (c + d)) with ((a - c) + (b - d)) by ring end.
  destruct (H a (or_introl eq_refl)) as (H1 & H2 & H3). specialize (IH (fun p I => H p (or_intror I))).
  assert (Q : Rabs (m a * (e a / s) - m a * (b a / S)) <= e a * Rabs (/ s - / S) + D / S).
  { replace (m a * (e a / s) - m a * (b a / S)) with (m a * (e a * (/ s - / S) + (e a - b a) * / S)) by (field; lra).
    rewrite <- (Rmult_1_l (e a * Rabs (/ s - / S) + D / S)). apply mul_le; [exact H1|]. apply add_le; [rewrite Rabs_mult, (Rabs_pos_eq (e a)) by exact H2; lra|].
    rewrite Rabs_mult, (Rabs_pos_eq (/ S)) by (left; apply Rinv_0_lt_compat; exact PS). apply Rmult_le_compat_r; [left; apply Rinv_0_lt_compat; exact PS|exact H3]. }
  pose proof (add_le _ _ _ _ Q IH) as Z. eapply Rle_trans; [exact Z|]. lra.
Qed.
Lemma c95_coefficients A W (bs : basis b64) l t tr pts i k : accurate_exp L -> close_cos L (A + 1) -> 0 <= A <= 2 ^ 40 -> 0 <= W <= 1073741824 ->
  Forall (fair W) l -> made_of L l t -> (lenZ l <= 2 ^ 40)%Z -> (lenZ pts <= 2 ^ 40)%Z -> within2 W tr ->
  (forall p, In p pts -> within2 W p /\ placed bs p k /\ angles bs A p k) -> nth_error (bs_k bs) i = Some k ->
  let n := IZR (lenZ pts) in let s := rsum (map (fun p => bells l p tr) pts) in n * sum_error W l < s ->
  exists cs c, @spatialCoeff b64 (F64 L) bs (@fill b64 (F64 L) t tr pts) pts = Ok cs /\ nth_error cs i = Some c /\ is_finite c = true /\
  Rabs (B2R c - rsum (map (fun p => mode (B2R (bs_lx bs)) (B2R (bs_ly bs)) k (B2R (fst p)) (B2R (snd p)) * (bells l p tr / s)) pts))
    <= (8 * n + 24 * A + 9) * bpow radix2 (-53) + 2 * n * sum_error W l / s.
Proof.
  intros X C HA HW F M N Np T P K n s HS.
  assert (V : forall p, In p pts -> is_finite (@evaluate b64 (F64 L) t p tr) = true /\ 0 <= B2R (@evaluate b64 (F64 L) t p tr) /\ Rabs (B2R (@evaluate b64 (F64 L) t p tr) - bells l p tr) <= sum_error W l).
  { intros p I. apply c95_evaluate; auto. apply (P p I). }
  assert (Md : forall x, within W x -> medium x) by (intros x [? B]; split; [assumption|lra]).
  set (S' := rsum (map (fun p => B2R (@evaluate b64 (F64 L) t p tr)) pts)).
  pose proof (rsum_near (fun p => B2R (@evaluate b64 (F64 L) t p tr)) (fun p => bells l p tr) (sum_error W l) pts (fun p I => proj2 (proj2 (V p I)))) as Cl. fold S' s n in Cl.
  assert (PS' : 0 < S') by (apply Rabs_le_inv in Cl; lra).
  assert (Pn : 0 <= n) by (apply IZR_le; unfold lenZ; lia).
  assert (Ps : 0 < s).
  { destruct (Rle_or_lt s 0) as [Z|Z]; [|exact Z]. exfalso. assert (0 <= n * sum_error W l) by (eapply Rle_trans; [apply Rabs_pos|exact Cl]). lra. }
  assert (D : density (map (fun p => @evaluate b64 (F64 L) t p tr) pts)).
  { split.
    - apply Forall_forall. intros v I. apply in_map_iff in I. destruct I as (p & <- & I). destruct (V p I) as (V1 & V2 & _). split; [exact V1|]. split; [exact V2|].
      destruct (P p I) as [Wp _]. pose proof (made_length l t M) as Ln. destruct (c93_evaluate L t p tr (exp_bounded X) (made_modest W l t HW F M)) as (_ & Be & _); [unfold lenZ in *; rewrite <- Ln; exact N|apply Md; apply Wp|apply Md; apply Wp|apply Md; apply T|apply Md; apply T|].
      apply Rle_trans with (IZR (lenZ t)); [apply Be|]. apply Rle_trans with (IZR (2 ^ 40)); [apply IZR_le; unfold lenZ in *; rewrite <- Ln; exact N|]. change (IZR (2 ^ 40)) with (bpow radix2 40). apply bpow_le. lia.
    - clear -PS'. unfold S' in PS'. induction pts as [|p pts IH]; [exfalso; exact (Rlt_irrefl 0 PS')|]. cbn [map] in PS' |- *. rewrite rsum_cons in PS'.
      destruct (Rlt_or_le 0 (B2R (@evaluate b64 (F64 L) t p tr))) as [H|H]; [left; exact H|]. right. apply IH. lra. }
  destruct (c93_target L A bs t tr pts i k C HA (fun p I => proj2 (P p I)) D Np K) as (cs & c & E1 & E2 & E3 & E4). fold S' n in E4.
  exists cs, c. split; [exact E1|]. split; [exact E2|]. split; [exact E3|].
  pose proof (ratio_near (fun p => mode (B2R (bs_lx bs)) (B2R (bs_ly bs)) k (B2R (fst p)) (B2R (snd p))) (fun p => B2R (@evaluate b64 (F64 L) t p tr)) (fun p => bells l p tr) (sum_error W l) S' s pts PS' Ps) as Q.
  specialize (Q ltac:(intros p I; split; [unfold mode; rewrite Rabs_mult, <- (Rmult_1_l 1); apply Rmult_le_compat; try apply Rabs_pos; apply Rabs_le; apply COS_bound|exact (conj (proj1 (proj2 (V p I))) (proj2 (proj2 (V p I))))])).
  fold S' n in Q.
  assert (Z : S' * Rabs (/ S' - / s) <= n * (sum_error W l / s)).
  { rewrite <- (Rabs_pos_eq S') at 1 by lra. rewrite <- Rabs_mult. replace (S' * (/ S' - / s)) with (- (S' - s) * / s) by (field; lra). rewrite Rabs_mult, Rabs_Ropp, (Rabs_pos_eq (/ s)) by (left; apply Rinv_0_lt_compat; exact Ps).
    unfold Rdiv. rewrite <- Rmult_assoc. apply Rmult_le_compat_r; [left; apply Rinv_0_lt_compat; exact Ps|exact Cl]. }
  eapply Rle_trans; [exact (near_trans _ _ _ _ _ E4 Q)|]. replace (2 * n * sum_error W l / s) with (n * (sum_error W l / s) + n * (sum_error W l / s)) by (field; lra).
  apply Rplus_le_compat; [apply Rle_refl|]. apply Rplus_le_compat; [exact Z|apply Rle_refl].
Qed.
(** ** Out of sight *)
Lemma square_far a a' e : Rabs (a' - a) <= e -> 0 <= e <= 12 / 1000 -> a' ^ 2 >= a ^ 2 - e * (a ^ 2 / 39 + 39).
Proof.
  intros H E. apply Rabs_le_inv in H. assert (K : 2 * Rabs a <= a ^ 2 / 39 + 39). { assert (0 <= (Rabs a - 39) ^ 2) by apply pow2_ge_0. assert (Rabs a ^ 2 = a ^ 2) by apply pow2_abs. nra. }
  assert (J : - (e * (2 * Rabs a)) <= 2 * a * (a' - a)). { assert (Rabs (2 * a * (a' - a)) <= 2 * Rabs a * e) by (apply mul_le; [rewrite Rabs_mult, (Rabs_pos_eq 2) by lra; lra|apply Rabs_le; lra]). apply Rabs_le_inv in H0. lra. }
  assert (e * (2 * Rabs a) <= e * (a ^ 2 / 39 + 39)) by (apply Rmult_le_compat_l; [lra|exact K]). assert (0 <= (a' - a) ^ 2) by apply pow2_ge_0. nra.
Qed.
Lemma far_exponent W ms p tr : 0 <= W <= 1073741824 -> fair W ms -> within2 W p -> within2 W tr -> 39 ^ 2 <= distance2 ms p tr -> Bltb (exponent L ms p tr) (b64_ofZ (-746)) = true.
Proof.
  intros HW F P T D. destruct (exponent_close W ms p tr HW F P T) as (Fa & Na & d0 & d1 & C0 & C1 & C). set (a := exponent L ms p tr) in *. clearbody a.
  destruct (ofZ_exact (-746) ltac:(lia)) as [E7 F7]. rewrite Bltb_correct by assumption. apply Rlt_bool_true. rewrite E7.
  destruct F as (_ & [_ S1] & [_ S2]). unfold distance2 in D. set (sx := B2R (fst (snd ms))) in *. set (sy := B2R (snd (snd ms))) in *. cbv zeta in C. pose proof u_small as U.
  set (c0 := B2R (fst p) - (B2R (fst (fst ms)) - B2R (fst tr))) in *. set (c1 := B2R (snd p) - (B2R (snd (fst ms)) - B2R (snd tr))) in *.
  assert (Wu : 6 * W * ueps <= 6 * 1073741824 * / 9007199254740992) by (apply Rmult_le_compat; lra).
  assert (G : forall d c s, / 16384 <= Rabs s -> Rabs (d - c) <= 6 * W * ueps -> Rabs (d / s - c / s) <= 12 / 1000).
  { intros d c s N H. assert (N' : s <> 0) by (intros Z; rewrite Z, Rabs_R0 in N; lra). replace (d / s - c / s) with ((d - c) * / s) by (field; exact N'). rewrite Rabs_mult, Rabs_inv.
    assert (/ Rabs s <= 16384) by (rewrite <- (Rinv_involutive 16384) by lra; apply Rinv_le_contravar; lra).
    apply Rle_trans with (6 * 1073741824 * / 9007199254740992 * 16384); [|lra]. apply Rmult_le_compat; [apply Rabs_pos|left; apply Rinv_0_lt_compat, Rabs_pos_lt; exact N'|lra|assumption]. }
  pose proof (square_far _ _ _ (G _ _ _ (proj1 S1) C0) ltac:(lra)) as Q0. pose proof (square_far _ _ _ (G _ _ _ (proj1 S2) C1) ltac:(lra)) as Q1.
  assert (B : bpow radix2 (-940) <= 1) by (apply (bpow_le radix2 (-940) 0); lia).
  set (q := ((d0 / sx) ^ 2 + (d1 / sy) ^ 2) / 2) in *. assert (Q : 755 <= q) by (unfold q; lra). clearbody q.
  assert (7 * ueps * q <= / 1000 * q) by (apply Rmult_le_compat_r; lra). apply Rabs_le_inv in C. lra.
Qed.
Lemma c95_far W p g : 0 <= W <= 1073741824 -> far_from_map L W p g -> far_away L p g.
Proof.
  intros HW (nx & ny & A1 & A2 & N1 & N2 & X & Y & H). exists nx, ny. split; [exact A1|]. split; [exact A2|]. split; [exact N1|]. split; [exact N2|].
  intros ms i j I J K. destruct (H ms i j I J K) as (F & Q & D). apply (far_exponent W); auto. split; [exact X|exact Y].
Qed.
End Lib.
