(** Examples for PropSlope: correctly rounded functions, two modes and two poses; the derivatives of a mode. *)
From Coq Require Import Reals Lra ZArith Lia List Bool.
From Coquelicot Require Import Coquelicot.
From Flocq Require Import Core.Core IEEE754.BinarySingleNaN.
From Verif Require Import Outcome Num Float64 FloatLemmas NumericsModel BufferModel BasisModel RobotModel ErgodicModel SpecBasis AngleFloat NearProofs
  SpecCoeff CoeffProofs SpecSlope SlopeProofs PropMappingAux PropNearAux PropCoeffAux.
Import ListNotations.
Local Open Scope R_scope.
Notation is_finite := BinarySingleNaN.is_finite.

Lemma derive_x lx ly k x y : lx <> 0 -> derivable_pt_lim (fun t => mode lx ly k t y) x (slope_x lx ly k x y).
Proof. intros N. apply is_derive_Reals. unfold mode, slope_x. auto_derive; [exact I|]. unfold Rdiv. ring. Qed.
Lemma derive_y lx ly k x y : ly <> 0 -> derivable_pt_lim (fun t => mode lx ly k x t) y (slope_y lx ly k x y).
Proof. intros N. apply is_derive_Reals. unfold mode, slope_y. auto_derive; [exact I|]. unfold Rdiv. ring. Qed.
Lemma derive_mode lx ly k x y : lx <> 0 -> ly <> 0 ->
  derivable_pt_lim (fun t => mode lx ly k t y) x (slope_x lx ly k x y) /\ derivable_pt_lim (fun t => mode lx ly k x t) y (slope_y lx ly k x y).
Proof. intros Nx Ny. exact (conj (derive_x lx ly k x y Nx) (derive_y lx ly k x y Ny)). Qed.

Lemma nearest_abs r : Rabs r <= 1 -> is_finite (nearest r) = true /\ Rabs (B2R (nearest r)) <= 1 /\ Rabs (B2R (nearest r) - r) <= ueps.
Proof.
  intros B. destruct (nearest_correct r B) as [G ->]. split; [exact G|]. split; [apply (mono_bound r 1); [lia|exact B]|]. pose proof u_small as U.
  destruct (Rle_lt_dec (/ 2) (Rabs r)) as [H|H].
  - destruct (rnd_rel r) as (e & He & ->). { eapply Rle_trans; [|exact H]. change (/ 2) with (bpow radix2 (-1)). apply bpow_le. lia. }
    replace (r * (1 + e) - r) with (r * e) by ring. rewrite <- (Rmult_1_l ueps). apply mul_le; [exact B|exact He].
  - destruct (rnd_abs r) as (e & h & He & Hh & ->). replace (r * (1 + e) + h - r) with (r * e + h) by ring.
    assert (A : Rabs (r * e) <= / 2 * ueps) by (apply mul_le; [lra|exact He]).
    pose proof (add_le _ _ _ _ A Hh). pose proof tiny_small. lra.
Qed.
Lemma exact_sin A : close_sin exact_libm A.
Proof.
  intros a F _. cbn [m_sin exact_libm]. fold ueps. pose proof u_small as U.
  destruct (sine_cases a) as [[Z ->]|[_ ->]].
  { split; [exact F|]. rewrite Z, sin_0, Rminus_eq_0, Rabs_R0. split; lra. }
  destruct (Rle_dec _ _) as [H|H].
  - split; [exact F|]. change (bpow radix2 (-30)) with (/ 1073741824) in H. split; [lra|]. set (x := B2R a) in *. pose proof (sin_cubic x) as S. set (y := Rabs x) in *. assert (Y : 0 <= y) by apply Rabs_pos.
    assert (Y3 : y * y * y / 6 <= / 1073741824 * / 1073741824 * / 1073741824). { assert (y * y <= / 1073741824 * / 1073741824) by (apply Rmult_le_compat; lra). assert (y * y * y <= / 1073741824 * / 1073741824 * / 1073741824) by (apply Rmult_le_compat; nra). assert (0 <= y * y * y) by (apply Rmult_le_pos; [apply Rmult_le_pos|]; lra). lra. }
    rewrite Rabs_minus_sym. unfold ueps. change (bpow radix2 (-53)) with (/ 9007199254740992). lra.
  - apply nearest_abs. apply Rabs_le, SIN_bound.
Qed.
(** Modes (0, 0) and (1, 0) on 2 m x 2 m with weights 1 and 1, the coefficients 1 and 0 for the target *)
Definition modes3 : basis b64 := mkBasis two64 two64 [b64_ofZ 1; b64_ofZ 1] [(0, 0)%Z; (1, 0)%Z].
Definition zero33 : vec3 b64 := V3 (b64_ofZ 0) (b64_ofZ 0) (b64_ofZ 0).
Definition probe : ec b64 := mkEC (@omni_plant b64 (F64 exact_libm)) (b64_ofZ 1) (b64_ofZ 2) (b64_ofZ 1) (b64_ofZ 3) 2 (M3 zero33 zero33 zero33)
  [zero33; zero33] (Some [b64_ofZ 1; b64_ofZ 0]) zero33 (b64_ofZ 0, b64_ofZ 0) zero33 zero33 zero33 modes3 (@buffer_ctor b64 1 1) [].
Definition coeffs : list b64 := [b64_ofZ 1; b64_ofZ (-1)].
Definition poses : list (vec3 b64) := [V3 (b64_ofZ 1) (b64_ofZ 1) (b64_ofZ 0); V3 (b64_ofZ 0) (b64_ofZ 1) (b64_ofZ 2)].
Lemma int_bound z c : (Z.abs z <= c)%Z -> (c <= 100)%Z -> is_finite (b64_ofZ z) = true /\ Rabs (B2R (b64_ofZ z)) <= IZR c.
Proof. intros H C. destruct (ofZ_exact z ltac:(lia)) as [E F]. split; [exact F|]. rewrite E, <- abs_IZR. apply IZR_le. exact H. Qed.
Lemma probe_sane q : In q (combine (bs_lam modes3) (combine coeffs [b64_ofZ 1; b64_ofZ 0])) -> sane q.
Proof. intros [<-|[<-|[]]]; (split; [|split]); cbn [fst snd]; [apply (int_bound _ 1)|apply (int_bound _ 2)|apply (int_bound _ 2)|apply (int_bound _ 1)|apply (int_bound _ 2)|apply (int_bound _ 2)]; lia. Qed.
Lemma poses_placed x k : In x poses -> In k (bs_k modes3) -> placed modes3 (xy x) k /\ angles modes3 2 (xy x) k /\ frequency modes3 2 k.
Proof.
  intros I K. assert (J : In (xy x) spots) by (destruct I as [<-|[<-|[]]]; [left|right; left]; reflexivity).
  destruct (spots_placed (xy x) k J K) as [P A]. split; [exact P|]. split; [exact A|].
  destruct (ofZ_exact 2 ltac:(lia)) as [E2 _]. pose proof PI_RGT_0. pose proof PI_4. unfold frequency. cbn [bs_lx bs_ly modes3]. unfold two64. rewrite E2.
  destruct K as [<-|[<-|[]]]; cbn [fst snd]; split; apply Rabs_le; lra.
Qed.
Lemma probe_weight : is_finite (ec_weight probe) = true /\ Rabs (B2R (ec_weight probe)) <= 3.
Proof. exact (int_bound 3 3 ltac:(lia) ltac:(lia)). Qed.
