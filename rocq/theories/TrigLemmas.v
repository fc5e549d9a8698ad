(** Facts about the reals used by the numeric proofs: atan2, periodicity, uniqueness of antiderivatives. *)
From Coq Require Import Reals Lra Lia ZArith.
From Coquelicot Require Import Coquelicot.
From Flocq Require Import Core.Raux.
From Verif Require Import Outcome Num.
Local Open Scope R_scope.

Lemma PI_pos : 0 < PI. Proof. exact PI_RGT_0. Qed.

Lemma tan_minus_PI y : tan (y - PI) = tan y.
Proof.
  unfold tan. replace (y - PI) with (- (PI - y)) by ring.
  rewrite sin_neg, cos_neg, sin_PI_x. replace (PI - y) with (- (y - PI)) by ring.
  rewrite cos_neg. replace (cos (y - PI)) with (- cos y).
  - destruct (Req_dec (cos y) 0) as [E|E]; [rewrite E, Ropp_0; unfold Rdiv; rewrite Rinv_0; ring|field; lra].
  - replace (cos y) with (cos (y - PI + PI)) by (f_equal; ring). rewrite neg_cos. ring.
Qed.
Lemma tan_plus_PI y : tan (y + PI) = tan y.
Proof. rewrite <- (tan_minus_PI (y + PI)). f_equal. ring. Qed.

Lemma Ratan2_polar k y : 0 < k -> - PI < y <= PI -> Ratan2 (k * sin y) (k * cos y) = y.
Proof.
  intros Hk [H1 H2]. pose proof PI_pos as HP. unfold Ratan2.
  assert (Q : forall c, c <> 0 -> k * sin y / (k * c) = sin y / c) by (intros; field; split; lra).
  destruct (Rlt_dec y (PI / 2)) as [L|L]; [destruct (Rlt_dec (- (PI / 2)) y) as [M|M]|].
  - pose proof (cos_gt_0 y M L) as C. assert (0 < k * cos y) by (apply Rmult_lt_0_compat; lra).
    destruct (Rlt_dec 0 (k * cos y)); [|lra]. rewrite Q by lra. fold (tan y). apply atan_tan. lra.
  - destruct (Req_dec y (- (PI / 2))) as [->|N].
    + rewrite cos_neg, sin_neg, cos_PI2, sin_PI2, Rmult_0_r.
      replace (k * - (1)) with (- k) by ring.
      destruct (Rlt_dec 0 0); [lra|]. destruct (Rlt_dec 0 (- k)); [lra|]. destruct (Rlt_dec (- k) 0); lra.
    + assert (C : cos y < 0). { rewrite <- cos_neg. apply cos_lt_0; lra. }
      assert (S : sin y < 0). { rewrite <- (Ropp_involutive y), sin_neg. assert (0 < sin (- y)) by (apply sin_gt_0; lra). lra. }
      assert (k * cos y < 0) by (rewrite <- (Rmult_0_r k); apply Rmult_lt_compat_l; lra).
      assert (k * sin y < 0) by (rewrite <- (Rmult_0_r k); apply Rmult_lt_compat_l; lra).
      destruct (Rlt_dec 0 (k * cos y)); [lra|]. destruct (Rlt_dec (k * cos y) 0); [|lra].
      destruct (Rle_dec 0 (k * sin y)); [lra|]. rewrite Q by lra. fold (tan y).
      rewrite <- tan_plus_PI, atan_tan; lra.
  - destruct (Req_dec y (PI / 2)) as [->|N].
    + rewrite cos_PI2, sin_PI2, Rmult_0_r. destruct (Rlt_dec 0 0); [lra|]. destruct (Rlt_dec 0 (k * 1)); lra.
    + assert (C : cos y < 0) by (apply cos_lt_0; lra).
      assert (S : 0 <= sin y) by (apply sin_ge_0; lra).
      assert (k * cos y < 0) by (rewrite <- (Rmult_0_r k); apply Rmult_lt_compat_l; lra).
      assert (0 <= k * sin y) by (apply Rmult_le_pos; lra).
      destruct (Rlt_dec 0 (k * cos y)); [lra|]. destruct (Rlt_dec (k * cos y) 0); [|lra].
      destruct (Rle_dec 0 (k * sin y)); [|lra]. rewrite Q by lra. fold (tan y).
      rewrite <- tan_minus_PI, atan_tan; lra.
Qed.

Lemma cos_period_Z x k : cos (x + 2 * IZR k * PI) = cos x.
Proof.
  destruct (Z_le_gt_dec 0 k) as [H|H].
  - rewrite <- (Z2Nat.id k) by lia. rewrite <- INR_IZR_INZ. apply cos_period.
  - rewrite <- (cos_period (x + 2 * IZR k * PI) (Z.to_nat (- k))).
    rewrite INR_IZR_INZ, Z2Nat.id by lia. rewrite opp_IZR. f_equal. ring.
Qed.
Lemma sin_period_Z x k : sin (x + 2 * IZR k * PI) = sin x.
Proof.
  destruct (Z_le_gt_dec 0 k) as [H|H].
  - rewrite <- (Z2Nat.id k) by lia. rewrite <- INR_IZR_INZ. apply sin_period.
  - rewrite <- (sin_period (x + 2 * IZR k * PI) (Z.to_nat (- k))).
    rewrite INR_IZR_INZ, Z2Nat.id by lia. rewrite opp_IZR. f_equal. ring.
Qed.

(** Two functions with the same derivative that agree at 0 are equal. *)
Lemma antiderivative_unique (f g h : R -> R) :
  (forall t, is_derive f t (h t)) -> (forall t, is_derive g t (h t)) -> f 0 = g 0 -> forall t, f t = g t.
Proof.
  intros Hf Hg H0 t.
  assert (D : forall s, is_derive (fun z => f z - g z) s 0).
  { intros s. replace 0 with (minus (h s) (h s)) by (unfold minus, plus, opp; cbn; ring).
    apply (is_derive_minus f g); auto. }
  destruct (MVT_gen (fun z => f z - g z) 0 t (fun _ => 0)) as (c & _ & E).
  - intros x _. apply D.
  - intros x _. apply continuity_pt_filterlim. apply (ex_derive_continuous (fun z => f z - g z)).
    exists 0. apply D.
  - lra.
Qed.
