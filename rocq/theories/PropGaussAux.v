(** Examples for PropGauss: correctly rounded functions, two Gaussians at two points, and one Gaussian out of sight. *)
From Coq Require Import Reals Lra ZArith Lia List Bool.
From Flocq Require Import Core.Core IEEE754.BinarySingleNaN.
From Verif Require Import Outcome Num Float64 FloatLemmas GridModel NumericsModel BufferModel BasisModel ExplorationModel SpecBasis AngleFloat NearProofs
  SpecCoeff CoeffProofs SpecFar SpecGauss GaussProofs PropMappingAux PropNearAux PropCoeffAux PropFarAux.
Import ListNotations.
Local Open Scope R_scope.

Lemma exact_accurate : accurate_exp exact_libm.
Proof.
  intros a F N. destruct (exact_exp a F N) as [E1 E2]. split; [exact E1|]. split; [exact E2|]. cbn [m_exp exact_libm].
  assert (C : (B2R a = 0 /\ expo a = b64_ofZ 1) \/ expo a = nearest (exp (B2R a))) by (destruct a; [left; split; reflexivity|right; reflexivity..]).
  change (bpow radix2 (-53)) with ueps. pose proof u_small as U.
  destruct C as [[-> ->]| ->]; [destruct one_is as [O1 ->]; rewrite exp_0, Rminus_eq_0, Rabs_R0; lra|].
  assert (B : 0 <= exp (B2R a) <= 1). { split; [left; apply exp_pos|]. rewrite <- exp_0. destruct N as [N| ->]; [left; apply exp_increasing; exact N|right; reflexivity]. }
  destruct (nearest_correct (exp (B2R a))) as [G ->]; [rewrite Rabs_pos_eq; apply B|]. set (x := exp (B2R a)) in *.
  destruct (Rle_lt_dec (/ 2) x) as [H|H].
  - destruct (rnd_rel x) as (e & He & ->). { rewrite Rabs_pos_eq by lra. eapply Rle_trans; [|exact H]. change (/ 2) with (bpow radix2 (-1)). apply bpow_le. lia. }
    replace (x * (1 + e) - x) with (x * e) by ring. rewrite <- (Rmult_1_l ueps). apply mul_le; [rewrite Rabs_pos_eq; lra|exact He].
  - destruct (rnd_abs x) as (e & h & He & Hh & ->). replace (x * (1 + e) + h - x) with (x * e + h) by ring.
    assert (A : Rabs (x * e) <= / 2 * ueps) by (apply mul_le; [rewrite Rabs_pos_eq; lra|exact He]).
    pose proof (add_le _ _ _ _ A Hh). assert (tiny <= / 2 * ueps). { unfold tiny, ueps. change (/ 2) with (bpow radix2 (-1)). rewrite <- bpow_plus. apply bpow_le. lia. } lra.
Qed.
(** Means (1, 1) and (0, 1), standard deviations (1, 1) and (1, -2) *)
Definition two : list ((b64 * b64) * (b64 * b64)) :=
  [((b64_ofZ 1, b64_ofZ 1), (b64_ofZ 1, b64_ofZ 1)); ((b64_ofZ 0, b64_ofZ 1), (b64_ofZ 1, b64_ofZ (-2)))].
Definition two_made : target b64 :=
  [mkGaussian (b64_ofZ 1, b64_ofZ 1) (b64_ofZ 1, b64_ofZ 1) (b64_ofZ 1, b64_ofZ 1);
   mkGaussian (b64_ofZ 0, b64_ofZ 1) (b64_ofZ 1, b64_ofZ 4) (b64_ofZ 1, @ndiv b64 (F64 exact_libm) (b64_ofZ 1) (b64_ofZ 4))].
Lemma pair_eq {A B} (a c : A) (x y : B) : a = c -> x = y -> (a, x) = (c, y).
Proof. intros -> ->. reflexivity. Qed.
Lemma two_ok : made_of exact_libm two two_made.
Proof.
  constructor; [|constructor; [|constructor]]; unfold gaussian_ctor; cbn [fst snd].
  - match goal with |- (if ?b then _ else _) = _ => replace b with false by (vm_compute; reflexivity) end.
    repeat f_equal; apply B2SF_inj; vm_compute; reflexivity.
  - match goal with |- (if ?b then _ else _) = _ => replace b with false by (vm_compute; reflexivity) end.
    repeat f_equal; apply B2SF_inj; vm_compute; reflexivity.
Qed.
Lemma int_within W z : (Z.abs z <= 2 ^ 53)%Z -> IZR (Z.abs z) <= W -> within W (b64_ofZ z).
Proof. intros H K. destruct (ofZ_exact z H) as [E F]. split; [exact F|]. rewrite E, <- abs_IZR. exact K. Qed.
Lemma int_deviation z : (1 <= Z.abs z <= 1073741824)%Z -> deviation (b64_ofZ z).
Proof. intros H. destruct (ofZ_exact z ltac:(lia)) as [E F]. split; [exact F|]. rewrite E, <- abs_IZR. assert (1 <= IZR (Z.abs z) <= 1073741824) by (split; apply IZR_le; lia). lra. Qed.
Lemma two_fair : Forall (fair 1) two.
Proof.
  apply Forall_forall. intros ms [<-|[<-|[]]]; (split; [split|split]); cbn [fst snd]; try (apply int_within; [lia|cbn; lra]); try (apply int_deviation; lia).
Qed.
Lemma spots_within p : In p spots -> within2 1 p.
Proof. intros [<-|[<-|[]]]; split; apply int_within; try lia; cbn; lra. Qed.
Lemma origin_within : within2 1 origin64.
Proof. split; apply int_within; try lia; cbn; lra. Qed.
Lemma two_sum : IZR (lenZ spots) * sum_error 1 two < rsum (map (fun p => bells two p origin64) spots).
Proof.
  destruct one_is as [_ O]. assert (Z : B2R (b64_ofZ 0) = 0) by apply (proj1 (ofZ_exact 0 ltac:(lia))). assert (T : B2R (b64_ofZ (-2)) = -2) by apply (proj1 (ofZ_exact (-2) ltac:(lia))).
  assert (P : forall ms p tr, 0 < bell ms p tr) by (intros; apply exp_pos).
  assert (One : bell ((b64_ofZ 1, b64_ofZ 1), (b64_ofZ 1, b64_ofZ 1)) (b64_ofZ 1, b64_ofZ 1) origin64 = 1).
  { unfold bell, distance2, origin64. cbn [fst snd]. rewrite O, Z. replace (- _) with 0 by field. apply exp_0. }
  unfold sum_error, bell_error, two, spots, bells, rsum. cbn [map fold_right fst snd]. rewrite One, O, T.
  pose proof (P ((b64_ofZ 0, b64_ofZ 1), (b64_ofZ 1, b64_ofZ (-2))) (b64_ofZ 1, b64_ofZ 1) origin64). pose proof (P ((b64_ofZ 0, b64_ofZ 1), (b64_ofZ 1, b64_ofZ (-2))) (b64_ofZ 0, b64_ofZ 1) origin64).
  pose proof (P ((b64_ofZ 1, b64_ofZ 1), (b64_ofZ 1, b64_ofZ 1)) (b64_ofZ 0, b64_ofZ 1) origin64).
  rewrite (Rabs_pos_eq 1) by lra. rewrite (Rabs_left (-2)) by lra. change (bpow radix2 (-53)) with (/ 9007199254740992).
  change (lenZ [(b64_ofZ 1, b64_ofZ 1); (b64_ofZ 0, b64_ofZ 1)]) with 2%Z.
  change (lenZ [(b64_ofZ 1, b64_ofZ 1, (b64_ofZ 1, b64_ofZ 1)); (b64_ofZ 0, b64_ofZ 1, (b64_ofZ 1, b64_ofZ (-2)))]) with 2%Z.
  replace (/ 1) with 1 by field. replace (/ - (-2)) with (/ 2) by (f_equal; lra). lra.
Qed.
Lemma room_from vh : far_from_map dark_libm 1000 (remote vh) (@grid_of_msg b64 ND room).
Proof.
  assert (Ax : @axis_length b64 ND (@n0 b64 ND) (fst (@extents b64 ND (@grid_of_msg b64 ND room))) (pa_target_resolution (remote vh)) = Ok 2%Z) by (vm_compute; reflexivity).
  assert (Ay : @axis_length b64 ND (@n0 b64 ND) (snd (@extents b64 ND (@grid_of_msg b64 ND room))) (pa_target_resolution (remote vh)) = Ok 2%Z) by (vm_compute; reflexivity).
  exists 2%Z, 2%Z. split; [exact Ax|]. split; [exact Ay|]. split; [split; [discriminate|reflexivity]|]. split; [split; [discriminate|reflexivity]|].
  assert (K : forall i : nat, (Z.of_nat i <= 2)%Z -> exists z, (0 <= z <= 2)%Z /\ @tick b64 ND (pa_target_resolution (remote vh)) i = b64_ofZ z).
  { intros [|[|[|i]]] H; [exists 0%Z|exists 1%Z|exists 2%Z|lia]; (split; [lia|apply B2SF_inj; vm_compute; reflexivity]). }
  assert (X : g_xmin (@grid_of_msg b64 ND room) = b64_ofZ 0) by (apply B2SF_inj; vm_compute; reflexivity).
  assert (Y : g_ymin (@grid_of_msg b64 ND room) = b64_ofZ 0) by (apply B2SF_inj; vm_compute; reflexivity).
  rewrite X, Y. split; [apply int_within; [lia|cbn; lra]|]. split; [apply int_within; [lia|cbn; lra]|].
  intros ms i j [<-|[]] I J q. destruct (K i I) as (x & Hx & Ex). destruct (K j J) as (y & Hy & Ey).
  replace q with (b64_ofZ x, b64_ofZ y) by (unfold q, node_at; rewrite <- Ex, <- Ey; reflexivity). clear q.
  assert (T : b 1000 0 = b64_ofZ 1000) by (apply B2SF_inj; vm_compute; reflexivity). assert (O : b 1 0 = b64_ofZ 1) by (apply B2SF_inj; vm_compute; reflexivity). rewrite T, O.
  assert (Rx : 0 <= IZR x <= 2) by (split; apply IZR_le; lia). assert (Ry : 0 <= IZR y <= 2) by (split; apply IZR_le; lia).
  split; [|split].
  - split; [split; cbn [fst snd]; apply int_within; try lia; cbn; lra|split; cbn [fst snd]; apply int_deviation; lia].
  - split; cbn [fst snd]; (apply int_within; [lia|rewrite Z.abs_eq by lia; lra]).
  - unfold distance2. cbn [fst snd]. rewrite !(fun z H => proj1 (ofZ_exact z H)) by lia. assert (H : forall r, 0 <= r <= 2 -> 100000 <= ((r - (1000 - 0)) / 1) ^ 2) by (intros r H; unfold Rdiv; rewrite Rinv_1; nra).
    pose proof (H _ Rx). pose proof (H _ Ry). lra.
Qed.
Lemma c95_sight (L : libm) W p g : underflows L -> 0 <= W <= 1073741824 -> far_from_map L W p g -> out_of_sight L p g.
Proof. intros U HW F. exact (c90_far L p g U (c95_far L W p g HW F)). Qed.
