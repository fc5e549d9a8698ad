(** The target distribution and the Fourier coefficients in binary64 arithmetic: proofs. *)
From Coq Require Import Reals Lra ZArith Lia List Psatz.
From Flocq Require Import Core.Core IEEE754.BinarySingleNaN.
From Verif Require Import Outcome Num Float64 FloatLemmas BufferModel BasisModel SpecBasis BasisProofs AngleFloat NearProofs SpecCoeff.
Import ListNotations.
Local Open Scope R_scope.

(** ** Sums *)
Lemma row_sum_any {T} {NT : Num T} n cols i (d : T) : (i < n)%nat -> Forall (fun c => length c = n) cols ->
  nth_error (row_sum n cols) i = Some (vsum (map (fun c => nth i c d) cols)).
Proof.
  intros Hi H. unfold row_sum, vsum.
  assert (G : forall cols acc, length acc = n -> Forall (fun c => length c = n) cols ->
    nth_error (fold_left (fun acc c => map (fun p : T * T => (fst p + snd p)%num) (combine acc c)) cols acc) i
    = Some (fold_left nadd (map (fun c => nth i c d) cols) (nth i acc d))).
  { clear H cols. induction cols as [|c cols IH]; intros acc L F.
    - cbn. apply nth_error_nth'. lia.
    - inversion F; subst. cbn [fold_left map]. rewrite IH; [|rewrite map_length, combine_length; lia|assumption].
      do 2 f_equal. apply nth_error_nth. rewrite (map_nth_error _ _ (combine acc c) (d := (nth i acc d, nth i c d))); [reflexivity|].
      rewrite nth_error_nth' with (d := (d, d)) by (rewrite combine_length; lia). rewrite combine_nth by lia. reflexivity. }
  rewrite G; [|apply repeat_length|assumption]. do 2 f_equal.
  apply nth_error_nth. apply nth_error_repeat. exact Hi.
Qed.
Lemma row_sum_length {T} {NT : Num T} n (cols : list (list T)) : Forall (fun c => length c = n) cols -> length (row_sum n cols) = n.
Proof.
  intros F. unfold row_sum. assert (G : forall acc, length acc = n -> length (fold_left (fun acc c => map (fun p : T * T => (fst p + snd p)%num) (combine acc c)) cols acc) = n).
  { induction F as [|c cols E F IH]; intros acc L; [exact L|]. cbn [fold_left]. apply IH. rewrite map_length, combine_length. lia. }
  apply G. apply repeat_length.
Qed.

Section Lib.
Variable L : libm.
Notation plus := (@nadd b64 (F64 L)).
Notation sum := (@vsum b64 (F64 L)).

Lemma mono_bound x (z : Z) : (Z.abs z <= 9007199254740992)%Z -> Rabs x <= IZR z -> Rabs (rnd64 x) <= IZR z.
Proof.
  intros Z H. apply abs_round_le_generic; [typeclasses eauto..| |exact H].
  rewrite <- (int_format z Z). apply generic_format_round; typeclasses eauto.
Qed.
Lemma int_small z : (Z.abs z <= 9007199254740992)%Z -> IZR z <= bpow radix2 1000.
Proof. intros H. apply Rle_trans with (bpow radix2 53); [change (bpow radix2 53) with (IZR 9007199254740992); apply IZR_le; lia|apply bpow_le; lia]. Qed.

Definition unit64 (v : b64) : Prop := is_finite v = true /\ Rabs (B2R v) <= 1.
Lemma sum_range l : Forall unit64 l -> forall acc j, (0 <= j)%Z -> (j + Z.of_nat (length l) <= 9007199254740992)%Z ->
  is_finite acc = true -> Rabs (B2R acc) <= IZR j ->
  let s := fold_left plus l acc in is_finite s = true /\ Rabs (B2R s) <= IZR (j + Z.of_nat (length l)).
Proof.
  induction 1 as [|v l [Fv Bv] F IH]; intros acc j J N Fa Ba s; subst s.
  - cbn [fold_left length Z.of_nat]. rewrite Z.add_0_r. auto.
  - cbn [fold_left length] in *. rewrite Nat2Z.inj_succ in *.
    assert (B : Rabs (B2R acc + B2R v) <= IZR (j + 1)) by (rewrite plus_IZR; eapply Rle_trans; [apply Rabs_triang|lra]).
    destruct (fplus_rnd acc v Fa Fv) as [E G]. { eapply Rle_trans; [exact B|apply int_small; lia]. }
    replace (j + Z.succ (Z.of_nat (length l)))%Z with ((j + 1) + Z.of_nat (length l))%Z by lia.
    apply IH; [lia|lia|exact G|]. change (Rabs (B2R (Bplus mode_NE acc v)) <= IZR (j + 1)). rewrite E. apply mono_bound; [lia|exact B].
Qed.
Lemma zero_fin : is_finite (@n0 b64 (F64 L)) = true /\ B2R (@n0 b64 (F64 L)) = 0.
Proof. destruct zero_val. split; assumption. Qed.
Lemma vsum_range l : Forall unit64 l -> (Z.of_nat (length l) <= 9007199254740992)%Z ->
  is_finite (sum l) = true /\ Rabs (B2R (sum l)) <= IZR (Z.of_nat (length l)).
Proof.
  intros F N. destruct zero_fin as [Z1 Z2]. apply (sum_range l F _ 0%Z); [lia|lia|exact Z1|rewrite Z2, Rabs_R0; lra].
Qed.
Lemma sum_ones l : Forall (fun v : b64 => is_finite v = true /\ B2R v = 1) l -> forall acc j, (0 <= j)%Z -> (j + Z.of_nat (length l) <= 9007199254740992)%Z ->
  is_finite acc = true -> B2R acc = IZR j -> B2R (fold_left plus l acc) = IZR (j + Z.of_nat (length l)).
Proof.
  induction 1 as [|v l [Fv Bv] F IH]; intros acc j J N Fa Ba.
  - cbn [fold_left length Z.of_nat]. rewrite Z.add_0_r. exact Ba.
  - cbn [fold_left length] in *. rewrite Nat2Z.inj_succ in *.
    assert (B : B2R acc + B2R v = IZR (j + 1)) by (rewrite plus_IZR; lra).
    destruct (fplus_rnd acc v Fa Fv) as [E G]. { rewrite B, Rabs_pos_eq; [apply int_small; lia|apply IZR_le; lia]. }
    replace (j + Z.succ (Z.of_nat (length l)))%Z with ((j + 1) + Z.of_nat (length l))%Z by lia.
    apply IH; [lia|lia|exact G|]. change (B2R (Bplus mode_NE acc v) = IZR (j + 1)). rewrite E, B. apply int_format. lia.
Qed.
Lemma vsum_ones l : Forall (fun v : b64 => is_finite v = true /\ B2R v = 1) l -> (Z.of_nat (length l) <= 9007199254740992)%Z ->
  B2R (sum l) = IZR (Z.of_nat (length l)).
Proof. intros F N. destruct zero_fin as [Z1 Z2]. apply (sum_ones l F _ 0%Z); [lia|lia|exact Z1|exact Z2]. Qed.

(** Values between -1 and 1, each known up to [d]. *)
Lemma sum_close d l m : Forall2 (fun (v : b64) r => unit64 v /\ Rabs (B2R v - r) <= d) l m ->
  forall acc a j, (0 <= j)%Z -> (j + Z.of_nat (length l) <= 9007199254740992)%Z ->
  is_finite acc = true -> Rabs (B2R acc) <= IZR j -> Rabs (B2R acc - a) <= IZR j * d + ueps * (IZR j * (IZR j + 1) / 2) ->
  let n := IZR (j + Z.of_nat (length l)) in Rabs (B2R (fold_left plus l acc) - (a + rsum m)) <= n * d + ueps * (n * (n + 1) / 2).
Proof.
  induction 1 as [|v r l m [[Fv Bv] D] F IH]; intros acc a j J N Fa Ba C n; subst n.
  - cbn [fold_left length Z.of_nat rsum fold_right]. rewrite Z.add_0_r, Rplus_0_r. exact C.
  - cbn [fold_left length] in *. rewrite Nat2Z.inj_succ in *. rewrite rsum_cons.
    assert (B : Rabs (B2R acc + B2R v) <= IZR (j + 1)) by (rewrite plus_IZR; eapply Rle_trans; [apply Rabs_triang|lra]).
    assert (Big : Rabs (B2R acc + B2R v) <= bpow radix2 1000) by (eapply Rle_trans; [exact B|apply int_small; lia]).
    destruct (fplus_rnd acc v Fa Fv Big) as [E G]. destruct (fplus_rel acc v Fa Fv Big) as (e & He & Ee & _).
    replace (j + Z.succ (Z.of_nat (length l)))%Z with ((j + 1) + Z.of_nat (length l))%Z by lia.
    replace (a + (r + rsum m)) with ((a + r) + rsum m) by ring.
    apply IH; [lia|lia|exact G| |].
    + change (Rabs (B2R (Bplus mode_NE acc v)) <= IZR (j + 1)). rewrite E. apply mono_bound; [lia|exact B].
    + change (Rabs (B2R (Bplus mode_NE acc v) - (a + r)) <= IZR (j + 1) * d + ueps * (IZR (j + 1) * (IZR (j + 1) + 1) / 2)). rewrite Ee.
      replace ((B2R acc + B2R v) * (1 + e) - (a + r)) with ((B2R acc - a) + ((B2R v - r) + (B2R acc + B2R v) * e)) by ring.
      assert (Q : Rabs ((B2R acc + B2R v) * e) <= IZR (j + 1) * ueps) by (apply mul_le; assumption).
      eapply Rle_trans; [apply Rabs_triang|]. pose proof (Rabs_triang (B2R v - r) ((B2R acc + B2R v) * e)).
      rewrite plus_IZR in *. lra.
Qed.
Lemma vsum_close d l m : Forall2 (fun (v : b64) r => unit64 v /\ Rabs (B2R v - r) <= d) l m -> (Z.of_nat (length l) <= 9007199254740992)%Z ->
  let n := IZR (Z.of_nat (length l)) in Rabs (B2R (sum l) - rsum m) <= n * d + ueps * (n * (n + 1) / 2).
Proof.
  intros F N n. destruct zero_fin as [Z1 Z2]. pose proof (sum_close d l m F (@n0 b64 (F64 L)) 0 0%Z) as H.
  rewrite Z.add_0_l in H. cbv zeta in H. rewrite <- (Rplus_0_l (rsum m)). apply H; [lia|exact N|exact Z1|rewrite Z2, Rabs_R0; lra|rewrite Z2, Rminus_0_r, Rabs_R0; lra].
Qed.

(** Values that are not negative. *)
Definition pos64 (v : b64) : Prop := is_finite v = true /\ 0 <= B2R v <= bpow radix2 900.
Lemma keep (x : b64) : rnd64 (B2R x) = B2R x.
Proof. apply round_generic; [typeclasses eauto|]. apply (generic_format_B2R 53 1024 x). Qed.
Lemma sum_pos l : Forall pos64 l -> forall acc a j, (0 <= j)%Z -> (j + Z.of_nat (length l) <= 2 ^ 40)%Z ->
  is_finite acc = true -> 0 <= B2R acc -> 0 <= a <= IZR j * bpow radix2 900 -> Rabs (B2R acc - a) <= a * (2 * (IZR j * ueps)) ->
  let s := fold_left plus l acc in is_finite s = true /\ B2R acc <= B2R s /\ Forall (fun v => B2R v <= B2R s) l /\
  Rabs (B2R s - (a + rsum (map B2R l))) <= (a + rsum (map B2R l)) * (2 * (IZR (j + Z.of_nat (length l)) * ueps)).
Proof.
  induction 1 as [|v l [Fv Bv] F IH]; intros acc a j J N Fa Pa Ba C s; subst s.
  - cbn [fold_left length map rsum fold_right Z.of_nat]. rewrite Z.add_0_r, Rplus_0_r. split; [exact Fa|]. split; [lra|]. split; [constructor|exact C].
  - cbn [fold_left length map] in *. rewrite Nat2Z.inj_succ in *. rewrite rsum_cons.
    assert (J1 : IZR j <= 1099511627776) by (apply IZR_le; lia). assert (J0 : 0 <= IZR j) by (apply IZR_le; lia).
    assert (U : 0 <= IZR j * ueps <= / 8192). { rewrite ueps_val. split; [lra|]. apply Rle_trans with (1099511627776 * / 9007199254740992); [apply Rmult_le_compat_r; lra|lra]. }
    set (X := bpow radix2 900) in *. assert (PX : 0 < X) by apply bpow_gt_0.
    apply Rabs_le_inv in C.
    assert (A2 : B2R acc <= 2 * (IZR j * X)) by nra.
    assert (Big : Rabs (B2R acc + B2R v) <= bpow radix2 1000).
    { rewrite Rabs_pos_eq by lra. replace (bpow radix2 1000) with (bpow radix2 100 * X) by (unfold X; rewrite <- bpow_plus; reflexivity).
      change (bpow radix2 100) with 1267650600228229401496703205376. nra. }
    destruct (fplus_rnd acc v Fa Fv Big) as [E G]. destruct (fplus_rel acc v Fa Fv Big) as (e & He & Ee & _).
    assert (M1 : B2R acc <= B2R (Bplus mode_NE acc v)). { rewrite E, <- (keep acc) at 1. apply round_le; [typeclasses eauto..|lra]. }
    assert (M2 : B2R v <= B2R (Bplus mode_NE acc v)). { rewrite E, <- (keep v) at 1. apply round_le; [typeclasses eauto..|lra]. }
    assert (Fb : Rabs (B2R (Bplus mode_NE acc v) - (a + B2R v)) <= (a + B2R v) * (2 * (IZR (j + 1) * ueps))).
    { rewrite Ee, plus_IZR. replace ((B2R acc + B2R v) * (1 + e) - (a + B2R v)) with ((B2R acc - a) * (1 + e) + (a + B2R v) * e) by ring.
      pose proof u_small as U0. assert (Q1 : Rabs ((B2R acc - a) * (1 + e)) <= (a * (2 * (IZR j * ueps))) * (1 + ueps)).
      { apply mul_le; [apply Rabs_le; lra|apply one_plus_le; exact He]. }
      assert (Q2 : Rabs ((a + B2R v) * e) <= (a + B2R v) * ueps) by (apply mul_le; [rewrite Rabs_pos_eq; lra|exact He]).
      eapply Rle_trans; [apply Rabs_triang|]. clear - Q1 Q2 U U0 Ba Bv J0. set (w := IZR j * ueps) in *.
      replace ((IZR j + 1) * ueps) with (w + ueps) by (unfold w; ring).
      assert (H1 : (a * ueps) * w <= (a * ueps) * (1 / 2)) by (apply Rmult_le_compat_l; [apply Rmult_le_pos; lra|lra]).
      assert (H2 : 0 <= B2R v * w) by (apply Rmult_le_pos; lra). assert (H3 : 0 <= B2R v * ueps) by (apply Rmult_le_pos; lra). lra. }
    destruct (IH (Bplus mode_NE acc v) (a + B2R v) (j + 1)%Z) as (S1 & S2 & S3 & S4); [lia|lia|exact G|lra|rewrite plus_IZR; lra|exact Fb|].
    replace (j + Z.succ (Z.of_nat (length l)))%Z with ((j + 1) + Z.of_nat (length l))%Z by lia.
    replace (a + (B2R v + rsum (map B2R l))) with ((a + B2R v) + rsum (map B2R l)) by ring.
    split; [exact S1|]. split; [exact (Rle_trans _ _ _ M1 S2)|]. split; [constructor; [exact (Rle_trans _ _ _ M2 S2)|exact S3]|exact S4].
Qed.
Lemma vsum_pos l : Forall pos64 l -> (Z.of_nat (length l) <= 2 ^ 40)%Z ->
  is_finite (sum l) = true /\ Forall (fun v => B2R v <= B2R (sum l)) l /\
  Rabs (B2R (sum l) - rsum (map B2R l)) <= rsum (map B2R l) * (2 * (IZR (Z.of_nat (length l)) * ueps)).
Proof.
  intros F N. destruct zero_fin as [Z1 Z2]. destruct (sum_pos l F (@n0 b64 (F64 L)) 0 0%Z) as (A & _ & B & C).
  - lia. - lia. - exact Z1. - rewrite Z2. lra. - lra. - rewrite Z2, Rminus_0_r, Rabs_R0. lra.
  - rewrite Rplus_0_l, Z.add_0_l in C. auto.
Qed.

(** ** The modes *)
Lemma pi_rel : exists e, Rabs e <= 27 / 10 * ueps /\ pid = PI * (1 + e).
Proof.
  pose proof pi_tight as T. fold pid in T. pose proof PI_RGT_0. exists ((pid - PI) / PI). split; [|field; lra].
  unfold Rdiv. rewrite Rabs_mult, Rabs_inv, (Rabs_pos_eq PI) by lra. rewrite Rabs_minus_sym in T.
  apply Rmult_le_reg_r with PI; [lra|]. rewrite Rmult_assoc, Rinv_l, Rmult_1_r by lra.
  eapply Rle_trans; [exact T|]. assert (3 < PI) by (apply Rabs_le_inv in T; unfold pid in T; lra). rewrite ueps_val. lra.
Qed.
Lemma four_factors a e1 e2 e3 : Rabs a <= 27 / 10 * ueps -> Rabs e1 <= ueps -> Rabs e2 <= ueps -> Rabs e3 <= ueps ->
  Rabs ((1 + a) * ((1 + e1) * ((1 + e2) * (1 + e3))) - 1) <= 6 * ueps.
Proof.
  intros Ha H1 H2 H3. pose proof u_small as U. set (u := ueps) in *. clearbody u.
  assert (B : Rabs ((1 + e1) * (1 + e2) - 1) <= 2 * u + u * u).
  { replace ((1 + e1) * (1 + e2) - 1) with (e1 + e2 + e1 * e2) by ring. eapply Rle_trans; [apply Rabs_triang|].
    pose proof (Rabs_triang e1 e2). pose proof (mul_le _ _ _ _ H1 H2). lra. }
  assert (C : Rabs ((1 + a) * (1 + e3) - 1) <= 37 / 10 * u + 27 / 10 * u * u).
  { replace ((1 + a) * (1 + e3) - 1) with (a + e3 + a * e3) by ring. eapply Rle_trans; [apply Rabs_triang|].
    pose proof (Rabs_triang a e3). pose proof (mul_le _ _ _ _ Ha H3). lra. }
  replace ((1 + a) * ((1 + e1) * ((1 + e2) * (1 + e3))) - 1) with
    (((1 + e1) * (1 + e2) - 1) + ((1 + a) * (1 + e3) - 1) + ((1 + e1) * (1 + e2) - 1) * ((1 + a) * (1 + e3) - 1)) by ring.
  eapply Rle_trans; [apply Rabs_triang|]. pose proof (mul_le _ _ _ _ B C) as M.
  pose proof (Rabs_triang ((1 + e1) * (1 + e2) - 1) ((1 + a) * (1 + e3) - 1)).
  assert (u * u <= u * / 9007199254740992) by (apply Rmult_le_compat_l; lra). assert (0 <= u * u) by (apply Rmult_le_pos; lra).
  assert (3 * u * (4 * u) = 12 * (u * u)) by ring.
  assert ((2 * u + u * u) * (37 / 10 * u + 27 / 10 * u * u) <= 3 * u * (4 * u)) by (apply Rmult_le_compat; lra). lra.
Qed.
Lemma arg_close (k : Z) (x l : b64) : medium x -> medium l -> / 1048576 <= B2R l -> (Z.abs k <= 2147483648)%Z ->
  let a := @nmul b64 (F64 L) (@nmul b64 (F64 L) (@nofZ b64 (F64 L) k) (@ndiv b64 (F64 L) (@npi b64 (F64 L)) l)) x in
  let th := IZR k * PI * B2R x / B2R l in
  is_finite a = true /\ Rabs (B2R a - th) <= 6 * ueps * Rabs th + ueps / 8 /\ (k = 0%Z -> B2R a = 0).
Proof.
  intros [Fx Bx] [Fl Bl] Ll Hk a th.
  destruct (ofZ_exact k ltac:(lia)) as [Ek Fk]. destruct pi_val as [Ep Fp].
  assert (PB : 3 <= pid <= 4) by (unfold pid; lra).
  assert (IL : / 1073741824 <= / B2R l <= 1048576).
  { rewrite Rabs_pos_eq in Bl by lra. split; [apply Rinv_le; lra|]. rewrite <- (Rinv_inv 1048576). apply Rinv_le; lra. }
  assert (Q : 3 / 1073741824 <= pid / B2R l <= 4194304) by (unfold Rdiv; split; nra).
  destruct (fdiv_rel b64_pi l Fp) as (e1 & He1 & E1 & F1).
  { lra. } { rewrite Ep, Rabs_pos_eq by lra. split; [apply Rle_trans with (bpow radix2 (-30)); [apply bpow_le; lia|cbn; lra]|].
    apply Rle_trans with (bpow radix2 30); [cbn; lra|apply bpow_le; lia]. }
  rewrite Ep in E1. set (P := Bdiv mode_NE b64_pi l) in *.
  pose proof u_small as U. apply Rabs_le_inv in He1 as He1'.
  assert (BP : Rabs (B2R P) <= 8388608).
  { rewrite E1, Rabs_mult, (Rabs_pos_eq (pid / B2R l)) by lra. apply Rle_trans with (4194304 * 2); [|lra].
    apply Rmult_le_compat; [lra|apply Rabs_pos|lra|apply Rabs_le; lra]. }
  assert (Bk : Rabs (IZR k) <= 2147483648) by (rewrite <- abs_IZR; apply IZR_le; exact Hk).
  assert (B100 : forall z c, Rabs z <= c -> c <= 1208925819614629174706176 * 1024 -> Rabs z <= bpow radix2 100).
  { intros z c H1 H2. apply Rle_trans with (bpow radix2 90); [cbn; lra|apply bpow_le; lia]. }
  destruct (fmult_abs (b64_ofZ k) P Fk F1) as (e2 & h2 & He2 & Hh2 & E2 & F2).
  { apply (B100 _ (2147483648 * 8388608)); [rewrite Ek; apply mul_le; assumption|lra]. }
  set (K := Bmult mode_NE (b64_ofZ k) P) in *. rewrite Ek in E2.
  assert (TT : tiny <= / 1000000000000000000000000000000).
  { unfold tiny. apply Rle_trans with (bpow radix2 (-100)); [apply bpow_le; lia|cbn; lra]. }
  assert (BK : Rabs (B2R K) <= 2147483648 * 8388608 * 2).
  { rewrite E2. eapply Rle_trans; [apply Rabs_triang|]. rewrite Rabs_mult.
    assert (Rabs (IZR k * B2R P) * Rabs (1 + e2) <= (2147483648 * 8388608) * (1 + ueps)).
    { apply Rmult_le_compat; [apply Rabs_pos..|apply mul_le; assumption|apply one_plus_le; exact He2]. } lra. }
  destruct (fmult_abs K x F2 Fx) as (e3 & h3 & He3 & Hh3 & E3 & F3).
  { apply (B100 _ (2147483648 * 8388608 * 2 * 1073741824)); [apply mul_le; assumption|lra]. }
  split; [exact F3|]. split.
  - change (Rabs (B2R (Bmult mode_NE K x) - th) <= 6 * ueps * Rabs th + ueps / 8). rewrite E3, E2, E1.
    destruct pi_rel as (a0 & Ha0 & EP).
    replace ((IZR k * (pid / B2R l * (1 + e1)) * (1 + e2) + h2) * B2R x * (1 + e3) + h3 - th) with
      (th * ((1 + a0) * ((1 + e1) * ((1 + e2) * (1 + e3))) - 1) + (h2 * B2R x * (1 + e3) + h3)).
    2: { rewrite EP. unfold th. field. lra. }
    eapply Rle_trans; [apply Rabs_triang|]. apply Rplus_le_compat.
    + rewrite Rabs_mult, Rmult_comm. apply Rmult_le_compat_r; [apply Rabs_pos|]. apply four_factors; assumption.
    + eapply Rle_trans; [apply Rabs_triang|]. rewrite !Rabs_mult.
      assert (Rabs h2 * Rabs (B2R x) * Rabs (1 + e3) <= tiny * 1073741824 * 2).
      { apply Rmult_le_compat; [apply Rmult_le_pos; apply Rabs_pos|apply Rabs_pos|apply Rmult_le_compat; (apply Rabs_pos || assumption)|].
        eapply Rle_trans; [apply one_plus_le; exact He3|lra]. }
      rewrite ueps_val. lra.
  - intros ->. change (B2R (Bmult mode_NE K x) = 0).
    destruct (fmult_rnd (b64_ofZ 0) P Fk F1) as [R2 _]. { rewrite Ek. change (IZR 0) with 0. rewrite Rmult_0_l, Rabs_R0. apply bpow_ge_0. }
    fold K in R2. rewrite Ek in R2. change (IZR 0) with 0 in R2. rewrite Rmult_0_l, round_0 in R2 by typeclasses eauto.
    destruct (fmult_rnd K x F2 Fx) as [R3 _]. { rewrite R2, Rmult_0_l, Rabs_R0. apply bpow_ge_0. }
    rewrite R3, R2, Rmult_0_l. apply round_0. typeclasses eauto.
Qed.

Lemma one_up : rnd64 (1 + ueps) = 1.
Proof.
  destruct (ofZ_exact 1 ltac:(lia)) as [E1 F1].
  assert (E2 : B2R (b64_scaled 1 (-53)) = ueps). { replace (b64_scaled 1 (-53)) with (@B754_finite 53 1024 false 4503599627370496 (-105) eq_refl) by (apply B2SF_inj; vm_compute; reflexivity). unfold ueps. cbn. unfold F2R; cbn. lra. }
  assert (F2 : is_finite (b64_scaled 1 (-53)) = true) by (vm_compute; reflexivity).
  destruct (fplus_rnd (b64_ofZ 1) (b64_scaled 1 (-53)) F1 F2) as [E _].
  { rewrite E1, E2, Rabs_pos_eq by (pose proof u_small; lra). pose proof u_small. apply Rle_trans with (bpow radix2 1); [cbn; lra|apply bpow_le; lia]. }
  rewrite E1, E2 in E. rewrite <- E. replace (Bplus mode_NE (b64_ofZ 1) (b64_scaled 1 (-53))) with (b64_ofZ 1) by (apply B2SF_inj; vm_compute; reflexivity).
  exact E1.
Qed.
Lemma below_one x : Rabs x <= 1 + ueps -> Rabs (rnd64 x) <= 1.
Proof.
  intros H. apply Rabs_le_inv in H. rewrite <- one_up. apply Rabs_le. split; [rewrite <- round_NE_opp|]; (apply round_le; [typeclasses eauto..|lra]).
Qed.
Lemma cos_range (c : b64) t : Rabs (B2R c - cos t) <= ueps -> Rabs (B2R c) <= 1.
Proof.
  intros H. rewrite <- keep. apply below_one. replace (B2R c) with ((B2R c - cos t) + cos t) by ring. eapply Rle_trans; [apply Rabs_triang|].
  assert (Rabs (cos t) <= 1) by (apply Rabs_le; pose proof (COS_bound t); lra). lra.
Qed.
Lemma prod_unit (c1 c2 : b64) : unit64 c1 -> unit64 c2 -> unit64 (Bmult mode_NE c1 c2) /\ B2R (Bmult mode_NE c1 c2) = rnd64 (B2R c1 * B2R c2).
Proof.
  intros [F1 B1] [F2 B2]. pose proof (mul_le _ _ _ _ B1 B2) as M. rewrite Rmult_1_l in M.
  destruct (fmult_rnd c1 c2 F1 F2) as [E F]. { apply Rle_trans with (bpow radix2 0); [exact M|apply bpow_le; lia]. }
  split; [split; [exact F|]|exact E]. rewrite E. change 1 with (IZR 1). apply mono_bound; [lia|exact M].
Qed.
Lemma fun_unit (bs : basis b64) p k : bounded_cos L -> placed bs p k ->
  unit64 (@basis_fun b64 (F64 L) bs p k) /\ (k = (0, 0)%Z -> B2R (@basis_fun b64 (F64 L) bs p k) = 1).
Proof.
  intros [C C0] (P1 & P2 & P3 & P4 & L1 & L2 & K1 & K2).
  destruct (arg_close _ _ _ P1 P3 L1 K1) as (F1 & _ & Z1). destruct (arg_close _ _ _ P2 P4 L2 K2) as (F2 & _ & Z2).
  unfold basis_fun. cbn [ncos F64] in *.
  set (a1 := @nmul b64 (F64 L) (@nmul b64 (F64 L) (@nofZ b64 (F64 L) (fst k)) _) (fst p)) in *.
  set (a2 := @nmul b64 (F64 L) (@nmul b64 (F64 L) (@nofZ b64 (F64 L) (snd k)) _) (snd p)) in *.
  destruct (prod_unit (m_cos L a1) (m_cos L a2) (C a1 F1) (C a2 F2)) as [U E]. split; [exact U|].
  intros ->. cbn [fst snd] in *. change (B2R (Bmult mode_NE (m_cos L a1) (m_cos L a2)) = 1). rewrite E.
  assert (Q : forall a : b64, is_finite a = true -> B2R a = 0 -> B2R (m_cos L a) = 1).
  { clear -C0. intros a F Z. destruct a as [s| | |s m e B]; try discriminate F; [apply C0|].
    exfalso. cbn [B2R] in Z. apply eq_0_F2R in Z. destruct s; discriminate Z. }
  rewrite (Q a1 F1 (Z1 eq_refl)), (Q a2 F2 (Z2 eq_refl)), Rmult_1_l. apply (int_format 1). lia.
Qed.
Lemma cos_step A (a : b64) th : close_cos L (A + 1) -> A <= 1099511627776 -> Rabs th <= A -> is_finite a = true -> Rabs (B2R a - th) <= 6 * ueps * Rabs th + ueps / 8 ->
  unit64 (m_cos L a) /\ Rabs (B2R (m_cos L a) - cos th) <= 9 / 8 * ueps + 6 * ueps * A.
Proof.
  intros C HA HT F D. pose proof u_small as U. assert (U1 : ueps * A <= / 8192).
  { apply Rle_trans with (/ 9007199254740992 * 1099511627776); [|lra]. assert (0 <= A) by (pose proof (Rabs_pos th); lra). apply Rmult_le_compat; lra. }
  assert (D' : Rabs (B2R a - th) <= 6 * ueps * A + ueps / 8). { eapply Rle_trans; [exact D|]. apply Rplus_le_compat_r. apply Rmult_le_compat_l; lra. }
  destruct (C a F) as [Fc Ec]. { apply (near_abs _ _ _ _ D') in HT. lra. }
  fold ueps in Ec. split; [split; [exact Fc|exact (cos_range _ _ Ec)]|].
  replace (B2R (m_cos L a) - cos th) with ((B2R (m_cos L a) - cos (B2R a)) + (cos (B2R a) - cos th)) by ring.
  eapply Rle_trans; [apply Rabs_triang|]. pose proof (cos_lip (B2R a) th). lra.
Qed.
Lemma fun_close A (bs : basis b64) p k : close_cos L (A + 1) -> A <= 1099511627776 -> placed bs p k -> angles bs A p k ->
  unit64 (@basis_fun b64 (F64 L) bs p k) /\
  Rabs (B2R (@basis_fun b64 (F64 L) bs p k) - mode (B2R (bs_lx bs)) (B2R (bs_ly bs)) k (B2R (fst p)) (B2R (snd p))) <= ueps * (12 * A + 7 / 2).
Proof.
  intros C HA (P1 & P2 & P3 & P4 & L1 & L2 & K1 & K2) [A1 A2].
  destruct (arg_close _ _ _ P1 P3 L1 K1) as (F1 & D1 & _). destruct (arg_close _ _ _ P2 P4 L2 K2) as (F2 & D2 & _).
  unfold basis_fun, mode. cbn [ncos F64] in *.
  set (a1 := @nmul b64 (F64 L) (@nmul b64 (F64 L) (@nofZ b64 (F64 L) (fst k)) _) (fst p)) in *.
  set (a2 := @nmul b64 (F64 L) (@nmul b64 (F64 L) (@nofZ b64 (F64 L) (snd k)) _) (snd p)) in *.
  set (t1 := IZR (fst k) * PI * B2R (fst p) / B2R (bs_lx bs)) in *. set (t2 := IZR (snd k) * PI * B2R (snd p) / B2R (bs_ly bs)) in *.
  destruct (cos_step A a1 t1 C HA A1 F1 D1) as [U1 E1]. destruct (cos_step A a2 t2 C HA A2 F2 D2) as [U2 E2].
  destruct (prod_unit _ _ U1 U2) as [U E]. split; [exact U|].
  change (Rabs (B2R (Bmult mode_NE (m_cos L a1) (m_cos L a2)) - cos t1 * cos t2) <= ueps * (12 * A + 7 / 2)). rewrite E.
  destruct (rnd_abs (B2R (m_cos L a1) * B2R (m_cos L a2))) as (e & h & He & Hh & ->).
  set (x := B2R (m_cos L a1)) in *. set (y := B2R (m_cos L a2)) in *.
  assert (Bx : Rabs x <= 1) by apply U1. assert (By : Rabs y <= 1) by apply U2.
  replace (x * y * (1 + e) + h - cos t1 * cos t2) with (x * (y - cos t2) + (x - cos t1) * cos t2 + (x * y * e + h)) by ring.
  assert (BC : Rabs (cos t2) <= 1) by (apply Rabs_le; pose proof (COS_bound t2); lra).
  pose proof (mul_le _ _ _ _ Bx E2) as M1. pose proof (mul_le _ _ _ _ E1 BC) as M2. pose proof (mul_le _ _ _ _ (mul_le _ _ _ _ Bx By) He) as M3.
  assert (TT : tiny <= ueps / 8). { unfold tiny, ueps. apply Rle_trans with (bpow radix2 (-100)); [apply bpow_le; lia|cbn; lra]. }
  eapply Rle_trans; [apply Rabs_triang|]. pose proof (Rabs_triang (x * (y - cos t2)) ((x - cos t1) * cos t2)). pose proof (Rabs_triang (x * y * e) h). pose proof u_small. lra.
Qed.

(** ** The coefficients of a trajectory *)
Lemma length_coeff (bs : basis b64) xt : length (@trajCoeff b64 (F64 L) bs xt) = length (bs_k bs).
Proof.
  unfold trajCoeff. rewrite map_length. apply row_sum_length. apply Forall_forall. intros c H. apply in_map_iff in H. destruct H as (p & <- & _).
  apply map_length.
Qed.
Lemma coeff_nth (bs : basis b64) xt i k : nth_error (bs_k bs) i = Some k ->
  nth_error (@trajCoeff b64 (F64 L) bs xt) i =
  Some (Bmult mode_NE (Bdiv mode_NE (b64_ofZ 1) (b64_ofZ (lenZ xt))) (sum (map (fun p => @basis_fun b64 (F64 L) bs p k) xt))).
Proof.
  intros H. assert (Hi : (i < length (bs_k bs))%nat) by (apply nth_error_Some; congruence).
  unfold trajCoeff. erewrite map_nth_error; [reflexivity|]. rewrite (row_sum_any _ _ i (b64_ofZ 0) Hi).
  - rewrite map_map. do 2 f_equal. apply map_ext. intros p. unfold fourierBasis. apply nth_error_nth. apply map_nth_error. exact H.
  - apply Forall_forall. intros c Q. apply in_map_iff in Q. destruct Q as (p & <- & _). apply map_length.
Qed.
Lemma inv_count n : (0 < n <= 9007199254740992)%Z -> exists e, Rabs e <= ueps /\ B2R (Bdiv mode_NE (b64_ofZ 1) (b64_ofZ n)) = / IZR n * (1 + e) /\
  is_finite (Bdiv mode_NE (b64_ofZ 1) (b64_ofZ n)) = true.
Proof.
  intros N. destruct (ofZ_exact 1 ltac:(lia)) as [E1 F1]. destruct (ofZ_exact n ltac:(lia)) as [En Fn].
  assert (P : 1 <= IZR n <= 9007199254740992) by (split; apply IZR_le; lia).
  assert (Q : / 9007199254740992 <= / IZR n <= 1) by (split; [apply Rinv_le; lra|rewrite <- Rinv_1; apply Rinv_le; lra]).
  destruct (fdiv_rel (b64_ofZ 1) (b64_ofZ n) F1) as (e & He & E & F).
  - rewrite En. lra.
  - rewrite E1, En. unfold Rdiv. rewrite Rmult_1_l, Rabs_pos_eq by lra. split; [apply Rle_trans with (bpow radix2 (-53)); [apply bpow_le; lia|exact (proj1 Q)]|].
    apply Rle_trans with (bpow radix2 0); [exact (proj2 Q)|apply bpow_le; lia].
  - exists e. rewrite E1, En in E. unfold Rdiv in E. rewrite Rmult_1_l in E. auto.
Qed.
Lemma mean_unit n (s : b64) : (0 < n <= 9007199254740992)%Z -> is_finite s = true -> Rabs (B2R s) <= IZR n ->
  let c := Bmult mode_NE (Bdiv mode_NE (b64_ofZ 1) (b64_ofZ n)) s in
  unit64 c /\ Rabs (B2R c - B2R s / IZR n) <= 9 / 4 * ueps /\ (B2R s = IZR n -> 1 - ueps <= B2R c <= 1).
Proof.
  intros N F B c. destruct (inv_count n N) as (e & He & E & Fi). set (r := Bdiv mode_NE (b64_ofZ 1) (b64_ofZ n)) in *.
  assert (P : 1 <= IZR n) by (apply IZR_le; lia).
  assert (Q : Rabs (B2R s / IZR n) <= 1). { unfold Rdiv. rewrite Rabs_mult, Rabs_inv, (Rabs_pos_eq (IZR n)) by lra. apply Rmult_le_reg_r with (IZR n); [lra|]. rewrite Rmult_assoc, Rinv_l, Rmult_1_r by lra. lra. }
  assert (X : B2R r * B2R s = B2R s / IZR n * (1 + e)) by (rewrite E; unfold Rdiv; ring).
  pose proof u_small as U. assert (Y : Rabs (B2R s / IZR n * (1 + e)) <= 1 + ueps).
  { rewrite <- (Rmult_1_l (1 + ueps)). apply mul_le; [exact Q|apply one_plus_le; exact He]. }
  destruct (fmult_rnd r s Fi F) as [G H]. { rewrite X. eapply Rle_trans; [exact Y|]. apply Rle_trans with (bpow radix2 1); [cbn; lra|apply bpow_le; lia]. }
  rewrite X in G. split; [split; [exact H|fold c in G; rewrite G; apply below_one; exact Y]|]. split.
  - fold c in G. rewrite G. destruct (rnd_abs (B2R s / IZR n * (1 + e))) as (e' & h & He' & Hh & ->). set (z := B2R s / IZR n) in *.
    replace (z * (1 + e) * (1 + e') + h - z) with (z * ((1 + e) * (1 + e') - 1) + h) by ring.
    assert (TT : tiny <= ueps / 8). { unfold tiny, ueps. apply Rle_trans with (bpow radix2 (-100)); [apply bpow_le; lia|cbn; lra]. }
    assert (W := mul_le _ _ _ _ Q (two_factors _ _ He He')). assert (ueps * ueps <= ueps * / 9007199254740992) by (apply Rmult_le_compat_l; lra).
    eapply Rle_trans; [apply Rabs_triang|]. lra.
  - intros S. fold c in G. rewrite S in G. replace (IZR n / IZR n) with 1 in G by (field; lra). rewrite Rmult_1_l in G. rewrite G.
    apply Rabs_le_inv in He. split.
    + apply round_ge_generic; [typeclasses eauto..| |lra]. replace (1 - ueps) with (F2R (Float radix2 9007199254740991 (-53))) by (unfold F2R, ueps; cbn; lra).
      apply (generic_format_FLT radix2 (-1074) 53). exists (Float radix2 9007199254740991 (-53)); [reflexivity|cbn; lia|cbn; lia].
    + apply (Rle_trans _ (Rabs (rnd64 (1 + e)))); [apply Rle_abs|]. apply below_one. apply one_plus_le. apply Rabs_le; lra.
Qed.
Lemma two_values (c : b64) : 1 - ueps <= B2R c <= 1 -> B2R c = 1 \/ B2R c = 1 - ueps.
Proof.
  intros H. destruct (Req_dec (B2R c) 1) as [E|E]; [left; exact E|right]. pose proof u_small as U.
  pose proof (generic_format_B2R 53 1024 c) as G. unfold generic_format in G.
  assert (M : mag_val radix2 (B2R c) (mag radix2 (B2R c)) = 0%Z).
  { apply mag_unique. rewrite Rabs_pos_eq by lra. cbn. lra. }
  unfold scaled_mantissa, cexp in G. rewrite M in G. change (SpecFloat.fexp 53 1024 0) with (-53)%Z in G.
  set (m := Ztrunc (B2R c * bpow radix2 (- -53))) in *. unfold F2R in G. cbn [Fnum Fexp] in G. fold ueps in G. rewrite ueps_val in *.
  assert (A1 : IZR 9007199254740990 < IZR m) by lra. assert (A2 : IZR m < IZR 9007199254740992) by lra. apply lt_IZR in A1, A2.
  replace m with 9007199254740991%Z in G by lia. lra.
Qed.

Lemma c93_range (bs : basis b64) xt i k : bounded_cos L -> (forall p, In p xt -> placed bs p k) -> (0 < lenZ xt <= 2 ^ 53)%Z -> nth_error (bs_k bs) i = Some k ->
  exists c, nth_error (@trajCoeff b64 (F64 L) bs xt) i = Some c /\ is_finite c = true /\ -1 <= B2R c <= 1 /\
  (k = (0, 0)%Z -> B2R c = 1 \/ B2R c = 1 - bpow radix2 (-53)).
Proof.
  intros C P N H. eexists. split; [exact (coeff_nth bs xt i k H)|].
  set (vals := map (fun p => @basis_fun b64 (F64 L) bs p k) xt). assert (Ln : Z.of_nat (length vals) = lenZ xt) by (unfold vals, lenZ; rewrite map_length; reflexivity).
  assert (U : Forall unit64 vals). { apply Forall_forall. intros v Q. apply in_map_iff in Q. destruct Q as (p & <- & Q). apply (fun_unit bs p k C (P p Q)). }
  destruct (vsum_range vals U) as [F B]; [rewrite Ln; lia|]. rewrite Ln in B. fold vals.
  destruct (mean_unit (lenZ xt) (sum vals) ltac:(lia) F B) as ((Fc & Bc) & _ & One). split; [exact Fc|]. split; [apply Rabs_le_inv; exact Bc|].
  intros K. apply two_values. apply One. rewrite <- Ln. apply vsum_ones; [|rewrite Ln; lia].
  apply Forall_forall. intros v Q. apply in_map_iff in Q. destruct Q as (p & <- & Q). destruct (fun_unit bs p k C (P p Q)) as [[F1 _] O]. auto.
Qed.
Lemma Forall2_map {A} (f : A -> b64) (g : A -> R) (Q : b64 -> R -> Prop) l : (forall a, In a l -> Q (f a) (g a)) -> Forall2 Q (map f l) (map g l).
Proof. induction l as [|a l IH]; intros H; constructor; [apply H; left; reflexivity|apply IH; intros b I; apply H; right; exact I]. Qed.
Lemma c93_mean A (bs : basis b64) xt i k : close_cos L (A + 1) -> A <= 2 ^ 40 -> (forall p, In p xt -> placed bs p k /\ angles bs A p k) -> (0 < lenZ xt <= 2 ^ 53)%Z ->
  nth_error (bs_k bs) i = Some k ->
  exists c, nth_error (@trajCoeff b64 (F64 L) bs xt) i = Some c /\ is_finite c = true /\
  Rabs (B2R c - mean (map (fun p => mode (B2R (bs_lx bs)) (B2R (bs_ly bs)) k (B2R (fst p)) (B2R (snd p))) xt)) <= (IZR (lenZ xt) / 2 + 12 * A + 7) * bpow radix2 (-53).
Proof.
  intros C HA P N H. eexists. split; [exact (coeff_nth bs xt i k H)|].
  set (vals := map (fun p => @basis_fun b64 (F64 L) bs p k) xt). assert (Ln : Z.of_nat (length vals) = lenZ xt) by (unfold vals, lenZ; rewrite map_length; reflexivity).
  set (ms := map (fun p => mode (B2R (bs_lx bs)) (B2R (bs_ly bs)) k (B2R (fst p)) (B2R (snd p))) xt). assert (HA' : A <= 1099511627776) by lra.
  assert (D : Forall2 (fun (v : b64) r => unit64 v /\ Rabs (B2R v - r) <= ueps * (12 * A + 7 / 2)) vals ms).
  { apply Forall2_map. intros p Q. destruct (P p Q). apply fun_close; assumption. }
  assert (U : Forall unit64 vals). { apply Forall_forall. intros v Q. apply in_map_iff in Q. destruct Q as (p & <- & Q). destruct (P p Q) as [P1 P2]. exact (proj1 (fun_close A bs p k C HA' P1 P2)). }
  destruct (vsum_range vals U) as [F B]; [rewrite Ln; lia|]. pose proof (vsum_close _ _ _ D ltac:(rewrite Ln; lia)) as S. cbv zeta in S. rewrite Ln in B, S. fold vals.
  destruct (mean_unit (lenZ xt) (sum vals) ltac:(lia) F B) as ((Fc & Bc) & Cc & _). split; [exact Fc|].
  assert (E : mean ms = rsum ms / IZR (lenZ xt)). { unfold mean, ms. rewrite map_length, INR_IZR_INZ. reflexivity. }
  clearbody vals. rewrite E. clearbody ms. assert (Pn : 1 <= IZR (lenZ xt)) by (apply IZR_le; lia). set (n := IZR (lenZ xt)) in *. fold ueps.
  set (c := B2R (Bmult mode_NE _ _)) in *. replace (c - rsum ms / n) with ((c - B2R (sum vals) / n) + (B2R (sum vals) - rsum ms) / n) by (field; lra).
  assert (W : Rabs ((B2R (sum vals) - rsum ms) / n) <= ueps * (12 * A + 7 / 2) + ueps * ((n + 1) / 2)).
  { unfold Rdiv at 1. rewrite Rabs_mult, Rabs_inv, (Rabs_pos_eq n) by lra. apply Rmult_le_reg_r with n; [lra|]. rewrite Rmult_assoc, Rinv_l, Rmult_1_r by lra.
    eapply Rle_trans; [exact S|]. right. field. }
  pose proof u_small. eapply Rle_trans; [apply Rabs_triang|]. lra.
Qed.

(** ** The target *)
Lemma fill_spec (vals : list b64) : density vals -> (Z.of_nat (length vals) <= 2 ^ 40)%Z ->
  let n := IZR (Z.of_nat (length vals)) in let s := rsum (map B2R vals) in 0 < s /\ 0 < B2R (sum vals) /\
  forall v, In v vals -> let r := Bdiv mode_NE v (sum vals) in
  is_finite r = true /\ 0 <= B2R r <= 1 /\ Rabs (B2R r - B2R v / s) <= B2R v / s * (7 / 2 * n * ueps) + tiny.
Proof.
  intros [F X] N n s. destruct (vsum_pos vals F N) as (Fs & Le & Cl). fold s n in Cl.
  assert (Hn : 1 <= n) by (apply IZR_le; destruct vals; [inversion X|cbn [length]; lia]).
  assert (P0 : forall v, In v vals -> 0 <= B2R v <= B2R (sum vals)).
  { intros v Q. split; [apply (proj1 (Forall_forall _ _) F v Q)|apply (proj1 (Forall_forall _ _) Le v Q)]. }
  apply Exists_exists in X. destruct X as (v0 & I0 & Pv0). pose proof (P0 v0 I0) as Q0.
  assert (S1 : 0 < B2R (sum vals)) by lra. set (S := B2R (sum vals)) in *.
  assert (Un : 0 <= n * ueps <= / 8192).
  { assert (n <= 1099511627776) by (apply IZR_le; lia). rewrite ueps_val. split; [lra|]. apply Rle_trans with (1099511627776 * / 9007199254740992); [apply Rmult_le_compat_r; lra|lra]. }
  assert (S2 : 0 < s).
  { assert (0 <= s). { apply rsum_nonneg. apply Forall_forall. intros x Q. apply in_map_iff in Q. destruct Q as (v & <- & Q). apply (P0 v Q). }
    destruct (Req_dec s 0) as [E|E]; [|lra]. rewrite E, Rmult_0_l, Rminus_0_r in Cl. apply Rabs_le_inv in Cl. lra. }
  split; [exact S2|]. split; [exact S1|]. intros v Q r. pose proof (P0 v Q) as Pv. assert (Fv : is_finite v = true) by apply (proj1 (Forall_forall _ _) F v Q).
  assert (Z1 : 0 <= B2R v / S <= 1). { split; [apply Rmult_le_pos; [lra|left; apply Rinv_0_lt_compat; lra]|]. apply Rmult_le_reg_r with S; [lra|]. unfold Rdiv. rewrite Rmult_assoc, Rinv_l by lra. lra. }
  destruct (fdiv_rnd v (sum vals) Fv) as [E G]; [fold S; lra|fold S; rewrite Rabs_pos_eq by lra; apply Rle_trans with (bpow radix2 0); [exact (proj2 Z1)|apply bpow_le; lia]|].
  fold S r in E. split; [exact G|]. split.
  - rewrite E. split; [apply round_ge_generic; [typeclasses eauto..|apply generic_format_0|lra]|]. rewrite <- (int_format 1 ltac:(lia)). apply round_le; [typeclasses eauto..|lra].
  - rewrite E. destruct (rnd_abs (B2R v / S)) as (e & h & He & Hh & ->). set (q := B2R v / s).
    assert (Hq : 0 <= q) by (apply Rmult_le_pos; [lra|left; apply Rinv_0_lt_compat; lra]).
    set (w := n * ueps) in *. assert (R1 : Rabs (s / S - 1) <= 201 / 100 * w).
    { replace (s / S - 1) with ((s - S) / S) by (field; lra). unfold Rdiv at 1. rewrite Rabs_mult, Rabs_inv, (Rabs_pos_eq S), Rabs_minus_sym by lra.
      apply Rmult_le_reg_r with S; [lra|]. rewrite Rmult_assoc, Rinv_l, Rmult_1_r by lra. eapply Rle_trans; [exact Cl|].
      apply Rabs_le_inv in Cl. assert (T1 : s * (1 - 2 * w) <= S) by lra. assert (s * (2 * w) <= 201 / 100 * w * (s * (1 - 2 * w))).
      { assert (0 <= s * w) by (apply Rmult_le_pos; lra). replace (201 / 100 * w * (s * (1 - 2 * w))) with ((s * w) * (201 / 100 * (1 - 2 * w))) by ring.
        replace (s * (2 * w)) with ((s * w) * 2) by ring. apply Rmult_le_compat_l; lra. }
      eapply Rle_trans; [eassumption|]. apply Rmult_le_compat_l; lra. }
    replace (B2R v / S) with (q * (1 + (s / S - 1))) by (unfold q; field; lra).
    set (y := s / S - 1) in *. replace (q * (1 + y) * (1 + e) + h - q) with (q * (y + e + y * e) + h) by ring.
    eapply Rle_trans; [apply Rabs_triang|]. apply Rplus_le_compat; [|exact Hh].
    rewrite Rabs_mult, (Rabs_pos_eq q) by exact Hq. apply Rmult_le_compat_l; [exact Hq|].
    pose proof u_small as U. pose proof (mul_le _ _ _ _ R1 He) as M. pose proof (Rabs_triang (y + e) (y * e)). pose proof (Rabs_triang y e).
    assert (W : ueps <= w) by (unfold w; rewrite <- (Rmult_1_l ueps) at 1; apply Rmult_le_compat_r; lra).
    assert (w * ueps <= w * / 9007199254740992) by (apply Rmult_le_compat_l; lra).
    replace (7 / 2 * n * ueps) with (7 / 2 * w) by (unfold w; ring). lra.
Qed.
Lemma sum_diff {A} (f g h : A -> R) c (l : list A) : (forall a, In a l -> Rabs (f a - g a) <= h a * c + tiny) ->
  Rabs (rsum (map f l) - rsum (map g l)) <= rsum (map h l) * c + IZR (Z.of_nat (length l)) * tiny.
Proof.
  induction l as [|a l IH]; intros H.
  - cbn [map length Z.of_nat]. rewrite !rsum_nil, Rminus_0_r, Rabs_R0. lra.
  - cbn [map length]. rewrite !rsum_cons, Nat2Z.inj_succ, succ_IZR. assert (H1 := H a (or_introl eq_refl)).
    assert (H2 := IH (fun b I => H b (or_intror I))).
    replace (f a + rsum (map f l) - (g a + rsum (map g l))) with ((f a - g a) + (rsum (map f l) - rsum (map g l))) by ring.
    eapply Rle_trans; [apply Rabs_triang|]. lra.
Qed.
Lemma tiny_n n : (n <= 2 ^ 40)%Z -> IZR n * tiny <= ueps / 8.
Proof.
  intros N. apply Rle_trans with (1099511627776 * tiny); [apply Rmult_le_compat_r; [left; apply tiny_pos|apply IZR_le; exact N]|].
  assert (tiny <= bpow radix2 (-100)) by (unfold tiny; apply bpow_le; lia). rewrite ueps_val.
  change (bpow radix2 (-100)) with (/ 1267650600228229401496703205376) in H. lra.
Qed.
Lemma normalised (vals : list b64) : 0 < rsum (map B2R vals) -> rsum (map (fun v => B2R v / rsum (map B2R vals)) vals) = 1.
Proof.
  intros P. set (s := rsum (map B2R vals)) in *. replace (map (fun v => B2R v / s) vals) with (map (fun x => x * / s) (map B2R vals)) by (rewrite map_map; reflexivity).
  rewrite rsum_scale. fold s. field. lra.
Qed.
Lemma fill_sum (vals : list b64) : density vals -> (Z.of_nat (length vals) <= 2 ^ 40)%Z ->
  Rabs (rsum (map (fun v => B2R (Bdiv mode_NE v (sum vals))) vals) - 1) <= IZR (Z.of_nat (length vals)) * (4 * ueps).
Proof.
  intros D N. destruct (fill_spec vals D N) as (S2 & S1 & H).
  pose proof (sum_diff (fun v => B2R (Bdiv mode_NE v (sum vals))) (fun v => B2R v / rsum (map B2R vals)) (fun v => B2R v / rsum (map B2R vals)) _ vals
    (fun v I => proj2 (proj2 (H v I)))) as Q. cbv beta in Q. rewrite !(normalised vals S2) in Q.
  pose proof (tiny_n _ N) as T. assert (Hn : 1 <= IZR (Z.of_nat (length vals))). { apply IZR_le. destruct D as [_ X]. destruct vals; [inversion X|cbn [length]; lia]. }
  set (n := IZR (Z.of_nat (length vals))) in *. assert (ueps <= n * ueps) by (rewrite <- (Rmult_1_l ueps) at 1; apply Rmult_le_compat_r; [left; apply ueps_pos|exact Hn]).
  pose proof u_small. eapply Rle_trans; [exact Q|]. change (1 * (7 / 2 * n * ueps) + n * tiny <= n * (4 * ueps)). lra.
Qed.

Lemma c93_fill (t : target b64) trans pts : density (map (fun p => @evaluate b64 (F64 L) t p trans) pts) -> (lenZ pts <= 2 ^ 40)%Z ->
  let s := rsum (map (fun p => B2R (@evaluate b64 (F64 L) t p trans)) pts) in let r := @fill b64 (F64 L) t trans pts in
  length r = length pts /\ Forall (fun v => is_finite v = true /\ 0 <= B2R v <= 1) r /\ Rabs (rsum (map B2R r) - 1) <= IZR (lenZ pts) * bpow radix2 (-51) /\
  0 < s /\ forall i p, nth_error pts i = Some p -> exists v, nth_error r i = Some v /\
    let q := B2R (@evaluate b64 (F64 L) t p trans) / s in Rabs (B2R v - q) <= q * (IZR (lenZ pts) * bpow radix2 (-51)) + bpow radix2 (-1000).
Proof.
  intros D N s r. set (vals := map (fun p => @evaluate b64 (F64 L) t p trans) pts) in *.
  assert (Ln : Z.of_nat (length vals) = lenZ pts) by (unfold vals, lenZ; rewrite map_length; reflexivity).
  assert (Er : r = map (fun v => Bdiv mode_NE v (sum vals)) vals) by reflexivity.
  assert (Es : s = rsum (map B2R vals)). { unfold s, vals. rewrite map_map. reflexivity. }
  pose proof (fill_sum vals D ltac:(rewrite Ln; exact N)) as Q. destruct (fill_spec vals D ltac:(rewrite Ln; exact N)) as (S2 & S1 & H). rewrite Ln in Q, H.
  assert (U4 : bpow radix2 (-51) = 4 * ueps) by (unfold ueps; cbn; lra).
  split; [rewrite Er, map_length; unfold vals; apply map_length|]. split; [|split; [|split]].
  - rewrite Er. apply Forall_forall. intros x I. apply in_map_iff in I. destruct I as (v & <- & I). split; apply (H v I).
  - rewrite Er, map_map, U4. exact Q.
  - rewrite Es. exact S2.
  - intros i p Hp. assert (Hv : nth_error vals i = Some (@evaluate b64 (F64 L) t p trans)) by exact (map_nth_error (fun p => @evaluate b64 (F64 L) t p trans) _ _ Hp).
    eexists. split; [rewrite Er; exact (map_nth_error (fun v : b64 => Bdiv mode_NE v (sum vals)) _ _ Hv)|]. rewrite Es, U4. fold tiny.
    destruct (H _ (nth_error_In _ _ Hv)) as (_ & _ & C). intros q. eapply Rle_trans; [exact C|]. apply Rplus_le_compat_r.
    assert (0 <= q). { apply Rmult_le_pos; [|left; apply Rinv_0_lt_compat; exact S2]. destruct D as [D _]. apply (proj1 (Forall_forall _ _) D _ (nth_error_In _ _ Hv)). }
    assert (0 <= IZR (lenZ pts) * ueps) by (apply Rmult_le_pos; [apply IZR_le; unfold lenZ; lia|left; apply ueps_pos]).
    apply Rmult_le_compat_l; [assumption|]. lra.
Qed.

(** Terms that sum to 2 at most, each known up to a fraction [d]. *)
Lemma sum_weighted d (l : list (b64 * (R * R))) : 0 <= d <= / 16 ->
  Forall (fun e => is_finite (fst e) = true /\ 0 <= snd (snd e) /\ Rabs (fst (snd e)) <= snd (snd e) /\ Rabs (B2R (fst e) - fst (snd e)) <= d * snd (snd e) + tiny) l ->
  forall acc a v j, (0 <= j)%Z -> (j + Z.of_nat (length l) <= 2 ^ 40)%Z -> is_finite acc = true -> Rabs a <= v -> v + rsum (map (fun e => snd (snd e)) l) <= 2 ->
  Rabs (B2R acc - a) <= d * v + 4 * ueps * IZR j ->
  let s := fold_left plus (map fst l) acc in is_finite s = true /\
  Rabs (B2R s - (a + rsum (map (fun e => fst (snd e)) l))) <= d * (v + rsum (map (fun e => snd (snd e)) l)) + 4 * ueps * IZR (j + Z.of_nat (length l)).
Proof.
  intros Hd. induction 1 as [|[t [r w]] l (Ft & Pw & Br & Ct) F IH]; intros acc a v j J N Fa Ba V C s; subst s.
  - cbn [map fold_left length Z.of_nat]. rewrite !rsum_nil, !Rplus_0_r, Z.add_0_r. auto.
  - cbn [map fold_left length fst snd] in *. rewrite Nat2Z.inj_succ in *. rewrite !rsum_cons in *.
    assert (W : 0 <= rsum (map (fun e : b64 * (R * R) => snd (snd e)) l)).
    { apply rsum_nonneg. apply Forall_forall. intros x I. apply in_map_iff in I. destruct I as (e & <- & I). apply (proj1 (Forall_forall _ _) F e I). }
    set (W' := rsum (map (fun e : b64 * (R * R) => snd (snd e)) l)) in *.
    pose proof (Rabs_pos a) as Pa. pose proof u_small as U.
    assert (Uj : 0 <= 4 * ueps * IZR j <= / 1000).
    { assert (0 <= IZR j <= 1099511627776) by (split; apply IZR_le; lia). split; [apply Rmult_le_pos; lra|].
      apply Rle_trans with (4 * / 9007199254740992 * 1099511627776); [apply Rmult_le_compat; lra|lra]. }
    assert (TT : tiny <= ueps / 8). { unfold tiny, ueps. apply Rle_trans with (bpow radix2 (-100)); [apply bpow_le; lia|cbn; lra]. }
    assert (Dv : d * v <= / 16 * 2) by (apply Rmult_le_compat; lra). assert (Dw : d * w <= / 16 * 2) by (apply Rmult_le_compat; lra).
    assert (B : Rabs (B2R acc + B2R t) <= 3).
    { replace (B2R acc + B2R t) with ((B2R acc - a) + (B2R t - r) + (a + r)) by ring.
      eapply Rle_trans; [apply Rabs_triang|]. pose proof (Rabs_triang (B2R acc - a) (B2R t - r)). pose proof (Rabs_triang a r). lra. }
    destruct (fplus_rel acc t Fa Ft) as (e & He & Ee & G). { eapply Rle_trans; [exact B|]. apply Rle_trans with (bpow radix2 2); [cbn; lra|apply bpow_le; lia]. }
    rewrite <- Z.add_succ_comm.
    replace (a + (r + rsum (map (fun e0 : b64 * (R * R) => fst (snd e0)) l))) with ((a + r) + rsum (map (fun e0 : b64 * (R * R) => fst (snd e0)) l)) by ring.
    replace (v + (w + W')) with ((v + w) + W') by ring.
    apply IH; [lia|lia|exact G|eapply Rle_trans; [apply Rabs_triang|lra]|lra|].
    change (Rabs (B2R (Bplus mode_NE acc t) - (a + r)) <= d * (v + w) + 4 * ueps * IZR (Z.succ j)). rewrite Ee, succ_IZR.
    replace ((B2R acc + B2R t) * (1 + e) - (a + r)) with ((B2R acc - a) + (B2R t - r) + (B2R acc + B2R t) * e) by ring.
    pose proof (mul_le _ _ _ _ B He) as M. eapply Rle_trans; [apply Rabs_triang|]. pose proof (Rabs_triang (B2R acc - a) (B2R t - r)). lra.
Qed.
Lemma combine_map_r {A B C} (f : B -> C) (la : list A) (lb : list B) : combine la (map f lb) = map (fun p => (fst p, f (snd p))) (combine la lb).
Proof. revert lb. induction la as [|a la IH]; intros [|b lb]; cbn; [reflexivity..|]. rewrite IH. reflexivity. Qed.
Lemma c93_spatial A (bs : basis b64) (vals : list b64) pts i k : close_cos L (A + 1) -> 0 <= A <= 2 ^ 40 -> (forall p, In p pts -> placed bs p k /\ angles bs A p k) ->
  (lenZ pts <= 2 ^ 40)%Z -> length vals = length pts -> Forall (fun v => is_finite v = true /\ 0 <= B2R v <= 1) vals -> rsum (map B2R vals) <= 2 ->
  nth_error (bs_k bs) i = Some k ->
  exists cs c, @spatialCoeff b64 (F64 L) bs vals pts = Ok cs /\ nth_error cs i = Some c /\ is_finite c = true /\
  Rabs (B2R c - rsum (map (fun e => mode (B2R (bs_lx bs)) (B2R (bs_ly bs)) k (B2R (fst (fst e))) (B2R (snd (fst e))) * B2R (snd e)) (combine pts vals)))
    <= (4 * IZR (lenZ pts) + 24 * A + 9) * bpow radix2 (-53).
Proof.
  intros C HA P N Lv Fv S H. assert (Hi : (i < length (bs_k bs))%nat) by (apply nth_error_Some; congruence).
  unfold spatialCoeff. replace (lenZ vals <? lenZ pts)%Z with false by (unfold lenZ; rewrite Lv; symmetry; apply Z.ltb_irrefl).
  set (ps := combine pts vals). eexists. eexists. split; [reflexivity|]. split.
  { rewrite (row_sum_any _ _ i (b64_ofZ 0) Hi); [reflexivity|]. apply Forall_forall. intros c Q. apply in_map_iff in Q. destruct Q as (p & <- & _).
    rewrite map_length. apply map_length. }
  rewrite map_map. set (f := fun e : b64 * b64 * b64 => Bmult mode_NE (@basis_fun b64 (F64 L) bs (fst e) k) (snd e)).
  replace (map _ ps) with (map f ps).
  2: { apply map_ext. intros e. unfold f. symmetry. apply nth_error_nth. unfold fourierBasis. rewrite map_map.
       exact (map_nth_error (fun k0 => @nmul b64 (F64 L) (@basis_fun b64 (F64 L) bs (fst e) k0) (snd e)) _ _ H). }
  set (g := fun e : b64 * b64 * b64 => mode (B2R (bs_lx bs)) (B2R (bs_ly bs)) k (B2R (fst (fst e))) (B2R (snd (fst e))) * B2R (snd e)).
  assert (HA' : A <= 1099511627776) by lra. pose proof u_small as U.
  assert (UA : 0 <= ueps * A <= / 8192) by (split; [apply Rmult_le_pos; lra|apply Rle_trans with (/ 9007199254740992 * 1099511627776); [apply Rmult_le_compat; lra|lra]]).
  set (d := ueps * (12 * A + 9 / 2)). assert (Hd : 0 <= d <= / 16) by (unfold d; split; [apply Rmult_le_pos; lra|lra]).
  assert (Lp : length ps = length pts) by (unfold ps; rewrite combine_length; lia).
  destruct zero_fin as [Z1 Z2].
  destruct (sum_weighted d (map (fun e => (f e, (g e, B2R (snd e)))) ps) Hd) with (acc := @n0 b64 (F64 L)) (a := 0) (v := 0) (j := 0%Z) as [G1 G2].
  - apply Forall_forall. intros x I. apply in_map_iff in I. destruct I as (e & <- & I). cbn [fst snd].
    assert (Ie : In (fst e) pts) by (destruct e as [p v]; exact (in_combine_l _ _ _ _ I)).
    assert (Iv : In (snd e) vals) by (destruct e as [p v]; exact (in_combine_r _ _ _ _ I)).
    destruct (P _ Ie) as [P1 P2]. destruct (proj1 (Forall_forall _ _) Fv _ Iv) as [Fe Be].
    destruct (fun_close A bs (fst e) k C HA' P1 P2) as [U1 C1]. set (m := mode _ _ k _ _) in *.
    assert (Bm : Rabs m <= 1) by (apply Rabs_le; apply mode_bound).
    assert (Ue : unit64 (snd e)) by (split; [exact Fe|rewrite Rabs_pos_eq; lra]).
    destruct (prod_unit _ _ U1 Ue) as [[Ff _] Ef]. split; [exact Ff|]. split; [lra|]. unfold g. fold m. split.
    + rewrite Rabs_mult, (Rabs_pos_eq (B2R (snd e))) by lra. rewrite <- (Rmult_1_l (B2R (snd e))) at 2. apply Rmult_le_compat_r; lra.
    + unfold f. rewrite Ef. set (y := B2R (@basis_fun b64 (F64 L) bs (fst e) k)) in *. set (v := B2R (snd e)) in *.
      destruct (rnd_abs (y * v)) as (e' & h & He & Hh & ->). replace (y * v * (1 + e') + h - m * v) with ((y - m + y * e') * v + h) by ring.
      eapply Rle_trans; [apply Rabs_triang|]. apply Rplus_le_compat; [|exact Hh]. rewrite Rabs_mult, (Rabs_pos_eq v) by lra. apply Rmult_le_compat_r; [lra|].
      pose proof (mul_le _ _ _ _ (proj2 U1) He) as M. fold y in M. eapply Rle_trans; [apply Rabs_triang|]. unfold d. lra.
  - lia.
  - rewrite map_length, Lp. unfold lenZ in N. lia.
  - exact Z1.
  - rewrite Rabs_R0. lra.
  - rewrite Rplus_0_l, map_map. cbn [snd]. replace (map (fun x : b64 * b64 * b64 => B2R (snd x)) ps) with (map B2R vals); [exact S|].
    unfold ps. clear -Lv. revert pts Lv. induction vals as [|v vals IH]; intros [|p pts] E; try discriminate E; [reflexivity|]. cbn [combine map snd]. f_equal. apply IH. injection E. auto.
  - rewrite Z2, Rminus_0_r, Rabs_R0. lra.
  - rewrite !map_map in G1, G2. cbn [fst snd] in G1, G2. rewrite map_length, Lp, Rplus_0_l, Rplus_0_l in G2. split; [exact G1|].
    assert (M : forall h : R * R -> R, map (fun e : b64 * (R * R) => h (snd e)) (map (fun e : b64 * b64 * b64 => (f e, (g e, B2R (snd e)))) ps)
      = map (fun e : b64 * b64 * b64 => h (g e, B2R (snd e))) ps) by (intros h; rewrite map_map; reflexivity).
    rewrite (M fst), (M snd) in G2. cbn [fst snd] in G2.
    assert (E : rsum (map (fun e : b64 * b64 * b64 => B2R (snd e)) ps) = rsum (map B2R vals)).
    { f_equal. unfold ps. clear -Lv. revert pts Lv. induction vals as [|v vals IH]; intros [|p pts] E; try discriminate E; [reflexivity|]. cbn [combine map snd]. f_equal. apply IH. injection E. auto. }
    fold ueps. eapply Rle_trans; [exact G2|]. rewrite Z.add_0_l.
    match goal with |- d * ?x + _ <= _ => change x with (rsum (map (fun e : b64 * b64 * b64 => B2R (snd e)) ps)) end. rewrite E. change (Z.of_nat (length pts)) with (lenZ pts).
    assert (d * rsum (map B2R vals) <= d * 2) by (apply Rmult_le_compat_l; lra). unfold d in *. lra.
Qed.

Lemma combine_self {A B} (f : A -> B) (l : list A) : combine l (map f l) = map (fun a => (a, f a)) l.
Proof. induction l as [|a l IH]; [reflexivity|]. cbn [map combine]. rewrite IH. reflexivity. Qed.
Lemma c93_target A (bs : basis b64) (t : target b64) trans pts i k : close_cos L (A + 1) -> 0 <= A <= 2 ^ 40 -> (forall p, In p pts -> placed bs p k /\ angles bs A p k) ->
  density (map (fun p => @evaluate b64 (F64 L) t p trans) pts) -> (lenZ pts <= 2 ^ 40)%Z -> nth_error (bs_k bs) i = Some k ->
  let s := rsum (map (fun p => B2R (@evaluate b64 (F64 L) t p trans)) pts) in
  exists cs c, @spatialCoeff b64 (F64 L) bs (@fill b64 (F64 L) t trans pts) pts = Ok cs /\ nth_error cs i = Some c /\ is_finite c = true /\
  Rabs (B2R c - rsum (map (fun p => mode (B2R (bs_lx bs)) (B2R (bs_ly bs)) k (B2R (fst p)) (B2R (snd p)) * (B2R (@evaluate b64 (F64 L) t p trans) / s)) pts))
    <= (8 * IZR (lenZ pts) + 24 * A + 9) * bpow radix2 (-53).
Proof.
  intros C HA P D N H s. destruct (c93_fill t trans pts D N) as (Lf & Ff & Sf & Ps & _). fold s in Ps.
  set (vals := map (fun p => @evaluate b64 (F64 L) t p trans) pts) in *.
  assert (Ln : Z.of_nat (length vals) = lenZ pts) by (unfold vals, lenZ; rewrite map_length; reflexivity).
  destruct (fill_spec vals D ltac:(rewrite Ln; exact N)) as (_ & _ & Q). rewrite Ln in Q.
  assert (Es : rsum (map B2R vals) = s). { unfold s, vals. rewrite map_map. reflexivity. } rewrite Es in Q.
  pose proof u_small as U. assert (Hn : 1 <= IZR (lenZ pts)). { apply IZR_le. rewrite <- Ln. destruct D as [_ X]. destruct vals; [inversion X|cbn [length]; lia]. }
  assert (Un : IZR (lenZ pts) * bpow radix2 (-51) <= 1).
  { change (bpow radix2 (-51)) with (/ 2251799813685248). assert (IZR (lenZ pts) <= 1099511627776) by (apply IZR_le; lia). lra. }
  destruct (c93_spatial A bs (@fill b64 (F64 L) t trans pts) pts i k C HA P N Lf Ff) as (cs & c & E1 & E2 & E3 & E4); [apply Rabs_le_inv in Sf; lra|exact H|].
  exists cs, c. split; [exact E1|]. split; [exact E2|]. split; [exact E3|].
  set (m := fun p : b64 * b64 => mode (B2R (bs_lx bs)) (B2R (bs_ly bs)) k (B2R (fst p)) (B2R (snd p))).
  set (r := fun p : b64 * b64 => Bdiv mode_NE (@evaluate b64 (F64 L) t p trans) (sum vals)).
  assert (Ec : combine pts (@fill b64 (F64 L) t trans pts) = map (fun p => (p, r p)) pts).
  { rewrite <- combine_self. f_equal. unfold fill. rewrite map_map. reflexivity. }
  rewrite Ec, map_map in E4. cbn [fst snd] in E4.
  assert (Df : Rabs (rsum (map (fun p => m p * B2R (r p)) pts) - rsum (map (fun p => m p * (B2R (@evaluate b64 (F64 L) t p trans) / s)) pts))
    <= rsum (map (fun p => B2R (@evaluate b64 (F64 L) t p trans) / s) pts) * (7 / 2 * IZR (lenZ pts) * ueps) + IZR (lenZ pts) * tiny).
  { apply sum_diff. intros p I. assert (Iv : In (@evaluate b64 (F64 L) t p trans) vals) by (unfold vals; exact (in_map (fun p => @evaluate b64 (F64 L) t p trans) _ _ I)).
    destruct (Q _ Iv) as (_ & _ & Z). fold (r p) in Z. rewrite <- Rmult_minus_distr_l, Rabs_mult. set (z := Rabs (B2R (r p) - B2R (evaluate t p trans) / s)) in *.
    assert (Bm : Rabs (m p) <= 1) by (apply Rabs_le; apply mode_bound). assert (0 <= z) by apply Rabs_pos.
    apply Rle_trans with (1 * z); [apply Rmult_le_compat_r; lra|rewrite Rmult_1_l; exact Z]. }
  assert (One : rsum (map (fun p => B2R (@evaluate b64 (F64 L) t p trans) / s) pts) = 1).
  { pose proof (normalised vals) as Nm. rewrite Es in Nm. unfold vals in Nm. rewrite map_map in Nm. exact (Nm Ps). }
  rewrite One in Df. pose proof (tiny_n _ N) as Tn. fold ueps in *. fold m in E4. unfold m in *.
  assert (X : forall a b c e1 e2 e3, Rabs (a - b) <= e1 -> Rabs (b - c) <= e2 -> e1 + e2 <= e3 -> Rabs (a - c) <= e3).
  { intros a b d e1 e2 e3 H1 H2 H3. replace (a - d) with ((a - b) + (b - d)) by ring. eapply Rle_trans; [apply Rabs_triang|]. lra. }
  apply (X _ _ _ _ _ _ E4 Df).
  assert (ueps <= IZR (lenZ pts) * ueps) by (rewrite <- (Rmult_1_l ueps) at 1; apply Rmult_le_compat_r; lra). lra.
Qed.

(** ** The values of the Gaussians *)
Lemma small1000 x c : Rabs x <= IZR c -> (Z.abs c <= 2 ^ 200)%Z -> Rabs x <= bpow radix2 1000.
Proof. intros H C. eapply Rle_trans; [exact H|]. apply Rle_trans with (bpow radix2 200); [rewrite <- IZR_Zpower by lia; apply IZR_le; change (radix2 ^ 200)%Z with (2 ^ 200)%Z; lia|apply bpow_le; lia]. Qed.
Lemma offset (x m tr : b64) : medium x -> medium m -> medium tr ->
  let d := @nsub b64 (F64 L) x (@nsub b64 (F64 L) m tr) in is_finite d = true /\ Rabs (B2R d) <= 3221225472.
Proof.
  intros [Fx Bx] [Fm Bm] [Ft Bt] d.
  assert (B1 : Rabs (B2R m - B2R tr) <= 2147483648) by (eapply Rle_trans; [apply Rabs_triang|]; rewrite Rabs_Ropp; lra).
  destruct (fminus_rnd m tr Fm Ft (small1000 _ 2147483648 B1 ltac:(lia))) as [E1 F1].
  assert (B2 : Rabs (B2R (Bminus mode_NE m tr)) <= 2147483648) by (rewrite E1; apply mono_bound; [lia|exact B1]).
  assert (B3 : Rabs (B2R x - B2R (Bminus mode_NE m tr)) <= 3221225472) by (eapply Rle_trans; [apply Rabs_triang|]; rewrite Rabs_Ropp; lra).
  destruct (fminus_rnd x _ Fx F1 (small1000 _ 3221225472 B3 ltac:(lia))) as [E2 F2]. split; [exact F2|].
  change (Rabs (B2R (Bminus mode_NE x (Bminus mode_NE m tr))) <= 3221225472). rewrite E2. apply mono_bound; [lia|exact B3].
Qed.
Lemma rnd_nonneg x : 0 <= x -> 0 <= rnd64 x.
Proof. intros H. apply round_ge_generic; [typeclasses eauto|typeclasses eauto|apply generic_format_0|exact H]. Qed.
Lemma rnd_nonpos x : x <= 0 -> rnd64 x <= 0.
Proof. intros H. apply round_le_generic; [typeclasses eauto|typeclasses eauto|apply generic_format_0|exact H]. Qed.
Lemma rnd_pow x k : (-1000 <= k <= 1000)%Z -> Rabs x <= bpow radix2 k -> Rabs (rnd64 x) <= bpow radix2 k.
Proof. intros K H. apply abs_round_le_generic; [typeclasses eauto..| |exact H]. apply generic_format_bpow. unfold SpecFloat.fexp, SpecFloat.emin. lia. Qed.
(** One term of the quadratic form; [z] is the product with the zero beside the diagonal. *)
Lemma term (d v z : b64) : is_finite d = true -> Rabs (B2R d) <= 3221225472 -> medium v -> 0 <= B2R v -> is_finite z = true -> B2R z = 0 ->
  let r := Bplus mode_NE (Bmult mode_NE d v) z in let r' := Bplus mode_NE z (Bmult mode_NE d v) in
  let ok r := is_finite (Bmult mode_NE r d) = true /\ 0 <= B2R (Bmult mode_NE r d) <= bpow radix2 94 in ok r /\ ok r'.
Proof.
  intros Fd Bd [Fv Bv] Pv Fz Ez r r' ok.
  assert (B1 : Rabs (B2R d * B2R v) <= bpow radix2 62). { eapply Rle_trans; [apply mul_le; [exact Bd|exact Bv]|]. cbn. lra. }
  destruct (fmult_rnd d v Fd Fv) as [E1 F1]. { eapply Rle_trans; [exact B1|apply bpow_le; lia]. }
  set (m := Bmult mode_NE d v) in *. assert (B2 : Rabs (B2R m) <= bpow radix2 62) by (rewrite E1; apply rnd_pow; [lia|exact B1]).
  assert (G : forall q : b64, is_finite q = true -> B2R q = B2R m -> ok q).
  { intros q Fq Eq. assert (B3 : Rabs (B2R q * B2R d) <= bpow radix2 94).
    { rewrite Eq. eapply Rle_trans; [apply mul_le; [exact B2|exact Bd]|]. cbn. lra. }
    destruct (fmult_rnd q d Fq Fd) as [E2 F2]. { eapply Rle_trans; [exact B3|apply bpow_le; lia]. }
    split; [exact F2|]. rewrite E2. split; [|eapply Rle_trans; [apply Rle_abs|apply rnd_pow; [lia|exact B3]]].
    apply rnd_nonneg. rewrite Eq, E1. destruct (Rle_lt_dec 0 (B2R d)) as [S|S].
    - apply Rmult_le_pos; [apply rnd_nonneg; apply Rmult_le_pos; assumption|exact S].
    - assert (rnd64 (B2R d * B2R v) <= 0) by (apply rnd_nonpos; nra). nra. }
  assert (K : rnd64 (B2R m) = B2R m) by apply keep.
  split; apply G.
  - apply fplus_rnd; [exact F1|exact Fz|]. rewrite Ez, Rplus_0_r. eapply Rle_trans; [exact B2|apply bpow_le; lia].
  - unfold r. destruct (fplus_rnd m z F1 Fz) as [E _]; [rewrite Ez, Rplus_0_r; eapply Rle_trans; [exact B2|apply bpow_le; lia]|]. rewrite E, Ez, Rplus_0_r. exact K.
  - apply fplus_rnd; [exact Fz|exact F1|]. rewrite Ez, Rplus_0_l. eapply Rle_trans; [exact B2|apply bpow_le; lia].
  - unfold r'. destruct (fplus_rnd z m Fz F1) as [E _]; [rewrite Ez, Rplus_0_l; eapply Rle_trans; [exact B2|apply bpow_le; lia]|]. rewrite E, Ez, Rplus_0_l. exact K.
Qed.
Lemma times_zero (d : b64) : is_finite d = true -> is_finite (Bmult mode_NE d (b64_ofZ 0)) = true /\ B2R (Bmult mode_NE d (b64_ofZ 0)) = 0.
Proof.
  intros F. destruct zero_val as [E0 F0]. destruct (fmult_rnd d (b64_ofZ 0) F F0) as [E G].
  - rewrite E0, Rmult_0_r, Rabs_R0. apply bpow_ge_0.
  - split; [exact G|]. rewrite E, E0, Rmult_0_r. apply round_0. typeclasses eauto.
Qed.
Lemma half_val : let h := @nneg b64 (F64 L) (@lit b64 (F64 L) 1 2) in is_finite h = true /\ B2R h = - (1 / 2).
Proof.
  intros h. replace h with (@B754_finite 53 1024 true 4503599627370496 (-53) eq_refl) by (apply B2SF_inj; vm_compute; reflexivity).
  split; [reflexivity|]. cbn [B2R]. unfold F2R. cbn. lra.
Qed.
Lemma gauss_unit (g : gaussian b64) p trans : bounded_exp L -> modest g -> medium (fst p) -> medium (snd p) -> medium (fst trans) -> medium (snd trans) ->
  is_finite (@gauss_trans b64 (F64 L) g p trans) = true /\ 0 <= B2R (@gauss_trans b64 (F64 L) g p trans) <= 1.
Proof.
  intros X (M1 & M2 & V1 & V2 & Q1 & Q2) P1 P2 T1 T2. unfold gauss_trans, gauss_exp. cbn [fst snd].
  destruct (offset _ _ _ P1 M1 T1) as [F1 B1]. destruct (offset _ _ _ P2 M2 T2) as [F2 B2].
  set (d0 := @nsub b64 (F64 L) (fst p) _) in *. set (d1 := @nsub b64 (F64 L) (snd p) _) in *. clearbody d0 d1.
  destruct (times_zero d1 F2) as [Fz1 Ez1]. destruct (times_zero d0 F1) as [Fz0 Ez0].
  destruct (term d0 _ _ F1 B1 V1 Q1 Fz1 Ez1) as [(G1 & H1) _]. destruct (term d1 _ _ F2 B2 V2 Q2 Fz0 Ez0) as [_ (G2 & H2)].
  set (a := Bmult mode_NE (Bplus mode_NE (Bmult mode_NE d0 (fst (ga_inv g))) (Bmult mode_NE d1 (b64_ofZ 0))) d0) in *.
  set (b := Bmult mode_NE (Bplus mode_NE (Bmult mode_NE d0 (b64_ofZ 0)) (Bmult mode_NE d1 (snd (ga_inv g)))) d1) in *.
  assert (B95 : Rabs (B2R a + B2R b) <= bpow radix2 95). { rewrite Rabs_pos_eq by lra. change (bpow radix2 95) with (bpow radix2 (1 + 94)). rewrite bpow_plus. change (bpow radix2 1) with 2. lra. }
  destruct (fplus_rnd a b G1 G2) as [Es Fs]. { eapply Rle_trans; [exact B95|apply bpow_le; lia]. }
  destruct half_val as [Fh Eh]. cbv zeta in Fh, Eh. set (h := @nneg b64 (F64 L) (@lit b64 (F64 L) 1 2)) in *. set (s := Bplus mode_NE a b) in *.
  assert (Ss : 0 <= B2R s) by (rewrite Es; apply rnd_nonneg; lra).
  assert (Sb : Rabs (B2R s) <= bpow radix2 95) by (rewrite Es; apply rnd_pow; [lia|exact B95]).
  destruct (fmult_rnd h s Fh Fs) as [Ea Fa]. { rewrite Eh. eapply Rle_trans; [|apply (bpow_le radix2 95); lia]. rewrite Rabs_mult, Rabs_Ropp, Rabs_pos_eq by lra. pose proof (Rabs_pos (B2R s)). lra. }
  apply X; [exact Fa|]. change (B2R (Bmult mode_NE h s) <= 0). rewrite Ea, Eh. apply rnd_nonpos. lra.
Qed.
Lemma c93_evaluate (t : target b64) p trans : bounded_exp L -> Forall modest t -> (lenZ t <= 2 ^ 40)%Z ->
  medium (fst p) -> medium (snd p) -> medium (fst trans) -> medium (snd trans) ->
  let e := @evaluate b64 (F64 L) t p trans in is_finite e = true /\ 0 <= B2R e <= IZR (lenZ t) /\
  forall g, In g t -> is_finite (@gauss_trans b64 (F64 L) g p trans) = true /\ 0 <= B2R (@gauss_trans b64 (F64 L) g p trans) <= B2R e.
Proof.
  intros X M N P1 P2 T1 T2 e. set (vals := map (fun g => @gauss_trans b64 (F64 L) g p trans) t).
  assert (Ee : e = sum vals). { unfold e, evaluate, vals, vsum. generalize (@n0 b64 (F64 L)). clear. induction t as [|g t IH]; intros a; [reflexivity|]. cbn [map fold_left]. apply IH. }
  assert (G : forall g, In g t -> is_finite (@gauss_trans b64 (F64 L) g p trans) = true /\ 0 <= B2R (@gauss_trans b64 (F64 L) g p trans) <= 1).
  { intros g I. apply gauss_unit; auto. exact (proj1 (Forall_forall _ _) M g I). }
  assert (Ln : Z.of_nat (length vals) = lenZ t) by (unfold vals, lenZ; rewrite map_length; reflexivity).
  assert (V : forall v, In v vals -> is_finite v = true /\ 0 <= B2R v <= 1). { intros v I. apply in_map_iff in I. destruct I as (g & <- & I). exact (G g I). }
  destruct (vsum_range vals) as [Fs Bs]. { apply Forall_forall. intros v I. destruct (V v I). split; [assumption|rewrite Rabs_pos_eq; lra]. } { rewrite Ln. lia. }
  destruct (vsum_pos vals) as (_ & Le & _). { apply Forall_forall. intros v I. destruct (V v I) as [V1 V2]. split; [exact V1|]. split; [lra|]. apply Rle_trans with (bpow radix2 0); [apply V2|apply bpow_le; lia]. } { rewrite Ln. exact N. }
  rewrite Ln in Bs. rewrite Ee. split; [exact Fs|]. split.
  - split; [|apply Rabs_le_inv in Bs; apply Bs]. destruct vals as [|v vals'] eqn:Ev.
    + destruct zero_fin as [_ Z2]. change (0 <= B2R (@n0 b64 (F64 L))). rewrite Z2. lra.
    + apply Rle_trans with (B2R v); [apply (V v (or_introl eq_refl))|exact (Forall_inv Le)].
  - intros g I. destruct (G g I) as [G1 G2]. split; [exact G1|]. split; [apply G2|].
    apply (proj1 (Forall_forall _ _) Le). unfold vals. exact (in_map (fun g => @gauss_trans b64 (F64 L) g p trans) _ _ I).
Qed.
End Lib.
