(** Examples for PropNear: a correctly rounded sine and cosine, and a cosine that is one unit in the last place off at small angles. *)
From Coq Require Import Reals Lra ZArith Lia Psatz List.
From Coquelicot Require Import Coquelicot.
From Flocq Require Import Core.Core IEEE754.BinarySingleNaN Relative.
From Verif Require Import Outcome Num Float64 GridModel CollisionModel FloatLemmas NumericsModel BufferModel DwaModel ErgodicModel ExplorationModel
  SpecMotion MotionProofs TrigLemmas AngleFloat SpecDwa SpecExploration SpecNear NearProofs PropMappingAux PropDwaAux PropExplorationAux.
Local Open Scope R_scope.

(** The double nearest to a real number *)
Definition nearest (r : R) : b64 :=
  binary_normalize 53 1024 prec53 emax1024 mode_NE (ZnearestE (scaled_mantissa radix2 (SpecFloat.fexp 53 1024) r)) (cexp radix2 (SpecFloat.fexp 53 1024) r) false.
Lemma nearest_correct r : Rabs r <= 1 -> is_finite (nearest r) = true /\ B2R (nearest r) = rnd64 r.
Proof.
  intros H. unfold nearest.
  pose proof (binary_normalize_correct 53 1024 prec53 emax1024 mode_NE (ZnearestE (scaled_mantissa radix2 (SpecFloat.fexp 53 1024) r)) (cexp radix2 (SpecFloat.fexp 53 1024) r) false) as C.
  change (F2R (Float radix2 (ZnearestE (scaled_mantissa radix2 (SpecFloat.fexp 53 1024) r)) (cexp radix2 (SpecFloat.fexp 53 1024) r))) with (rnd64 r) in C.
  assert (E : Generic_fmt.round radix2 (SpecFloat.fexp 53 1024) (round_mode mode_NE) (rnd64 r) = rnd64 r).
  { apply round_generic; [apply valid_rnd_N|]. apply generic_format_round; [apply fexp_correct; reflexivity|apply valid_rnd_N]. }
  cbv zeta in C. rewrite E in C.
  assert (B : Rabs (rnd64 r) < bpow radix2 1024).
  { apply Rle_lt_trans with 1; [|apply (bpow_lt radix2 0 1024); lia].
    apply abs_round_le_generic; [apply fexp_correct; reflexivity|apply valid_rnd_N| |exact H].
    change 1 with (bpow radix2 0). apply generic_format_bpow. vm_compute. discriminate. }
  apply Rlt_bool_true in B. rewrite B in C. destruct C as (C1 & C2 & _). split; [exact C2|exact C1].
Qed.

(** Sine and cosine of an angle, rounded, but the sine of an angle of at most 2^-30 is that angle, and the cosine of one of at
    most 2^-27 is [c] *)
Definition sine (a : b64) : b64 :=
  match a with B754_zero _ => a | _ => if Rle_dec (Rabs (B2R a)) (bpow radix2 (-30)) then a else nearest (sin (B2R a)) end.
Definition cosine (c a : b64) : b64 :=
  match a with B754_zero _ => b64_ofZ 1 | _ => if Rle_dec (Rabs (B2R a)) (bpow radix2 (-27)) then c else nearest (cos (B2R a)) end.
Definition rounded (c : b64) : libm := {| m_sin := sine; m_cos := cosine c;
  m_exp := m_exp node_libm; m_log := m_log node_libm; m_atan2 := m_atan2 node_libm; m_pow := m_pow node_libm |}.
Lemma val_of (x : b64) s m e : B2SF x = SpecFloat.S754_finite s m e -> B2R x = IZR (cond_Zopp s (Zpos m)) * bpow radix2 e.
Proof. intros H. rewrite <- SF2R_B2SF, H. reflexivity. Qed.
Lemma val_zero (x : b64) s : B2SF x = SpecFloat.S754_zero s -> B2R x = 0.
Proof. intros H. rewrite <- SF2R_B2SF, H. reflexivity. Qed.
Ltac value := match goal with |- B2R ?x = _ => let v := eval vm_compute in (B2SF x) in
  let H := fresh in assert (H : B2SF x = v) by (vm_compute; reflexivity);
  match v with
  | SpecFloat.S754_finite _ _ _ => rewrite (val_of x _ _ _ H); cbn [cond_Zopp Z.opp bpow]; cbn -[IZR]; lra
  | _ => rewrite (val_zero x _ H); lra
  end end.
Lemma one_is : is_finite (b64_ofZ 1) = true /\ B2R (b64_ofZ 1) = 1.
Proof. split; [reflexivity|]. value. Qed.
Lemma sine_cases a : (B2R a = 0 /\ sine a = a) \/ (B2R a = B2R a /\ sine a = if Rle_dec (Rabs (B2R a)) (bpow radix2 (-30)) then a else nearest (sin (B2R a))).
Proof. destruct a; [left|right..]; split; reflexivity. Qed.
Lemma cosine_cases c a : (B2R a = 0 /\ cosine c a = b64_ofZ 1) \/
  (B2R a = B2R a /\ cosine c a = if Rle_dec (Rabs (B2R a)) (bpow radix2 (-27)) then c else nearest (cos (B2R a))).
Proof. destruct a; [left|right..]; split; reflexivity. Qed.
Lemma sine_good a : is_finite a = true -> is_finite (sine a) = true /\ Rabs (B2R (sine a) - sin (B2R a)) <= bpow radix2 (-52) * Rmin 1 (Rabs (B2R a)).
Proof.
  intros F. destruct (sine_cases a) as [[Z ->]|[Z ->]].
  { split; [exact F|]. rewrite Z, sin_0, Rminus_eq_0, Rabs_R0. apply Rmult_le_pos; [apply bpow_ge_0|]. unfold Rmin. destruct (Rle_dec _ _); lra. }
  change (bpow radix2 (-52)) with (/ 4503599627370496). change (bpow radix2 (-30)) with (/ 1073741824).
  set (x := B2R a). set (y := Rabs x). assert (Y : 0 <= y) by apply Rabs_pos. destruct (Rle_dec _ _) as [H|H].
  - split; [exact F|]. fold x. pose proof (sin_cubic x) as S. fold y in S.
    assert (Y3 : y * y * y / 6 <= y * / 6000000000000000000) by nra.
    rewrite Rabs_minus_sym. rewrite Rmin_right by lra. lra.
  - destruct (nearest_correct (sin x)) as [N1 N2]; [apply Rabs_le, SIN_bound|]. split; [exact N1|]. rewrite N2. apply Rnot_le_lt in H.
    pose proof (rnd_err (sin x)) as E. pose proof (sin_small x) as S. fold y in S. assert (S1 : Rabs (sin x) <= 1) by (apply Rabs_le, SIN_bound).
    assert (T : bpow radix2 (-1075) <= bpow radix2 (-100)) by (apply bpow_le; lia). change (bpow radix2 (-100)) with (/ 1267650600228229401496703205376) in T.
    unfold ueps in E. change (bpow radix2 (-53)) with (/ 9007199254740992) in E. unfold Rmin. destruct (Rle_dec 1 y); lra.
Qed.
Lemma cosine_good c a : is_finite a = true -> is_finite c = true -> (1 - / 9007199254740992 = B2R c \/ B2R c = 1) ->
  is_finite (cosine c a) = true /\ Rabs (B2R (cosine c a) - cos (B2R a)) <= bpow radix2 (-53).
Proof.
  intros F Fc Hc. change (bpow radix2 (-53)) with (/ 9007199254740992). destruct one_is as [O1 O2].
  destruct (cosine_cases c a) as [[Z ->]|[Z ->]]; change (bpow radix2 (-27)) with (/ 134217728); set (x := B2R a) in *.
  - split; [exact O1|]. rewrite O2, Z, cos_0, Rminus_eq_0, Rabs_R0. lra.
  - destruct (Rle_dec _ _) as [H|H].
    + split; [exact Fc|]. pose proof (cos_small x) as S. pose proof (COS_bound x) as B.
      assert (E : x * x = Rabs x * Rabs x) by (rewrite <- Rabs_mult, Rabs_pos_eq; nra). pose proof (Rabs_pos x).
      apply Rabs_le_between in S. assert (x * x <= / 134217728 * / 134217728) by nra. apply Rabs_le. lra.
    + destruct (nearest_correct (cos x)) as [N1 N2]; [apply Rabs_le, COS_bound|]. split; [exact N1|]. rewrite N2.
      assert (C1 : Rabs (cos x) <= 1) by (apply Rabs_le, COS_bound).
      destruct (Rle_lt_dec (/ 2) (Rabs (cos x))) as [G|G].
      * pose proof (rnd_rel (cos x)) as R. destruct R as (e & He & ->).
        { eapply Rle_trans; [|exact G]. change (/ 2) with (bpow radix2 (-1)). apply bpow_le. lia. }
        replace (cos x * (1 + e) - cos x) with (cos x * e) by ring. unfold ueps in He. change (bpow radix2 (-53)) with (/ 9007199254740992) in He.
        pose proof (mul_le _ _ _ _ C1 He). lra.
      * pose proof (rnd_err (cos x)) as E. unfold ueps in E. change (bpow radix2 (-53)) with (/ 9007199254740992) in E.
        assert (T : bpow radix2 (-1075) <= bpow radix2 (-100)) by (apply bpow_le; lia). change (bpow radix2 (-100)) with (/ 1267650600228229401496703205376) in T. lra.
Qed.
Lemma rounded_accurate : accurate (rounded (b64_ofZ 1)).
Proof.
  intros a F _. destruct (sine_good a F) as [S1 S2]. destruct one_is as [O1 O2]. destruct (cosine_good (b64_ofZ 1) a F O1 (or_intror O2)) as [C1 C2].
  split; [exact S1|]. split; [exact S2|]. split; [exact C1|]. split; [exact C2|]. intros H. cbn [m_cos rounded].
  destruct (cosine_cases (b64_ofZ 1) a) as [[Z ->]|[Z ->]]; [exact O2|]. destruct (Rle_dec _ _); [exact O2|contradiction].
Qed.
(** One unit in the last place below 1 *)
Definition below : b64 := b64_scaled 9007199254740991 (-53).
Lemma below_is : is_finite below = true /\ B2R below = 1 - / 9007199254740992.
Proof. split; [reflexivity|]. value. Qed.
Lemma below_faithful : faithful (rounded below).
Proof.
  intros a F _. destruct (sine_good a F) as [S1 S2]. destruct below_is as [O1 O2]. destruct (cosine_good below a F O1 (or_introl (eq_sym O2))) as [C1 C2].
  repeat split; assumption.
Qed.

(** A twist with a slow rotation, and one along a curve *)
Definition slow : vec3 b64 := V3 (b64_ofZ 0) (b64_ofZ 1) (b64_scaled 1 (-39)).
Definition curve : vec3 b64 := V3 (b64_scaled 1 (-1)) (b64_scaled 1 (-2)) (b64_scaled (-3) (-2)).
Definition start0 : vec3 b64 := V3 (b64_ofZ 0) (b64_ofZ 0) (b64_ofZ 0).
Definition start1 : vec3 b64 := V3 (b64_ofZ 3) (b64_ofZ (-2)) (b64_ofZ 1).
Definition eighth : b64 := b64_scaled 1 (-3).
Lemma slow_is : B2R (v0 slow) = 0 /\ B2R (v1 slow) = 1 /\ B2R (v2 slow) = / 549755813888 /\ B2R eighth = / 8.
Proof. repeat split; value. Qed.
Lemma curve_is : B2R (v0 curve) = / 2 /\ B2R (v1 curve) = / 4 /\ B2R (v2 curve) = - 3 / 4.
Proof. repeat split; value. Qed.
Lemma starts : B2R (v0 start0) = 0 /\ B2R (v1 start0) = 0 /\ B2R (v2 start0) = 0 /\ B2R (v0 start1) = 3 /\ B2R (v1 start1) = - 2 /\ B2R (v2 start1) = 1.
Proof. repeat split; value. Qed.
Ltac small_abs := unfold Rabs; repeat destruct (Rcase_abs _); lra.
Lemma slow_tame : tame start0 slow eighth 1.
Proof.
  destruct slow_is as (E0 & E1 & E2 & E3). destruct starts as (S0 & S1 & S2 & _). unfold tame, moderate, stride.
  rewrite E0, E1, E2, E3, S0, S1, S2. repeat split; try reflexivity; try lia; small_abs.
Qed.
Lemma curve_tame : tame start1 curve eighth 16.
Proof.
  destruct slow_is as (_ & _ & _ & E3). destruct curve_is as (E0 & E1 & E2). destruct starts as (_ & _ & _ & S0 & S1 & S2). unfold tame, moderate, stride.
  rewrite E0, E1, E2, E3, S0, S1, S2. repeat split; try reflexivity; try lia; small_abs.
Qed.

(** The step for functions that agree at its two angles *)
Lemma step_same (L L' : libm) x u dt : let a := @nmul b64 (F64 L) (v2 u) dt in
  m_sin L (v2 x) = m_sin L' (v2 x) -> m_cos L (v2 x) = m_cos L' (v2 x) -> m_sin L a = m_sin L' a -> m_cos L a = m_cos L' a ->
  @integrate_twist b64 (F64 L) x u dt = @integrate_twist b64 (F64 L') x u dt.
Proof.
  intros a S C Sa Ca. unfold a in *. cbn [nmul F64] in *. rewrite !integrate_dqb.
  assert (Q : @dqb b64 (F64 L) u dt = @dqb b64 (F64 L') u dt).
  { unfold dqb. change (@almost_equal b64 (F64 L)) with (@almost_equal b64 (F64 L')). destruct (almost_equal _ _); [reflexivity|].
    unfold vscale. cbn [v0 v1 v2 nmul nsin ncos F64 nadd nsub ndiv]. rewrite Sa, Ca. reflexivity. }
  rewrite Q. unfold transform2d_rot, mvmul, vadd. cbn [v0 v1 v2 nsin ncos F64]. rewrite S, C. reflexivity.
Qed.
Definition small_angles : libm := {| m_sin := fun a => a; m_cos := fun a => match a with B754_zero _ => b64_ofZ 1 | _ => below end; m_exp := fun x => x;
  m_log := fun x => x; m_atan2 := fun x _ => x; m_pow := fun x _ => x |}.
Lemma slow_step : B2R (v0 (@integrate_twist b64 (F64 small_angles) start0 slow eighth)) = - / 16384.
Proof. value. Qed.
Lemma slow_true gamma : twist_motion (real3 start0) (B2R (v0 slow)) (B2R (v1 slow)) (B2R (v2 slow)) gamma -> Rabs (v0 (gamma (B2R eighth))) <= / 1000000000.
Proof.
  intros G. rewrite (motion_unique _ _ _ _ _ G). destruct slow_is as (E0 & E1 & E2 & E3). destruct starts as (S0 & S1 & S2 & _).
  unfold real3. rewrite E0, E1, E2, E3, S0, S1, S2, flow_D. cbn [v0 v1 v2]. rewrite cos_0, sin_0.
  assert (N : / 549755813888 * / 8 <> 0) by lra. unfold D0, D1. destruct (Req_EM_T _ 0) as [Z|_]; [contradiction|].
  replace (0 + (1 * (0 * / 8 * sinc (/ 549755813888 * / 8) + 1 * / 8 * cosc (/ 549755813888 * / 8)) - 0 * (1 * / 8 * sinc (/ 549755813888 * / 8) - 0 * / 8 * cosc (/ 549755813888 * / 8)))) with (/ 8 * cosc (/ 549755813888 * / 8)) by ring.
  set (A := / 549755813888 * / 8) in *.
  assert (C : Rabs (cosc A) <= Rabs A).
  { unfold cosc. apply div_le; [exact N|]. rewrite Rabs_minus_sym. eapply Rle_trans; [apply cos_small|].
    assert (E : A * A = Rabs A * Rabs A) by (rewrite <- Rabs_mult, Rabs_pos_eq; nra). rewrite E. pose proof (Rabs_pos A). nra. }
  assert (AA : Rabs A = / 549755813888 * / 8) by (apply Rabs_pos_eq; unfold A; lra). rewrite AA in C.
  assert (E8 : Rabs (/ 8) <= / 8) by (rewrite Rabs_pos_eq; lra). pose proof (mul_le _ _ _ _ E8 C). lra.
Qed.
Lemma slow_off : exists p, nth_error (@rollout b64 (F64 (rounded below)) 1 eighth slow start0) 0 = Some p /\ B2R (v0 p) = - / 16384.
Proof.
  eexists. split; [reflexivity|]. cbn [v0]. rewrite (step_same (rounded below) small_angles); [exact slow_step| | | |]; cbn [m_sin m_cos rounded small_angles].
  - reflexivity.
  - reflexivity.
  - destruct (sine_cases (@nmul b64 (F64 (rounded below)) (v2 slow) eighth)) as [[_ ->]|[_ ->]]; [reflexivity|]. destruct (Rle_dec _ _) as [_|H]; [reflexivity|]. exfalso. apply H. 
    assert (E : B2R (@nmul b64 (F64 (rounded below)) (v2 slow) eighth) = / 4398046511104) by value. rewrite E. change (bpow radix2 (-30)) with (/ 1073741824). small_abs.
  - assert (E : B2R (@nmul b64 (F64 (rounded below)) (v2 slow) eighth) = / 4398046511104) by value. destruct (cosine_cases below (@nmul b64 (F64 (rounded below)) (v2 slow) eighth)) as [[Z _]|[_ ->]]; [rewrite E in Z; lra|].
    destruct (Rle_dec _ _) as [_|H]; [reflexivity|]. exfalso. apply H. rewrite E. change (bpow radix2 (-27)) with (/ 134217728). small_abs.
Qed.
Lemma c91_faithful : exists L x u dt, faithful L /\ tame x u dt 1 /\ forall gamma,
  twist_motion (real3 x) (B2R (v0 u)) (B2R (v1 u)) (B2R (v2 u)) gamma ->
  exists p, nth_error (@rollout b64 (F64 L) 1 dt u x) 0 = Some p /\ / 20000 < Rabs (B2R (v0 p) - v0 (gamma (B2R dt))) /\ drift u dt < / 100000000.
Proof.
  exists (rounded below), start0, slow, eighth. split; [exact below_faithful|]. split; [exact slow_tame|]. intros gamma G. destruct slow_off as (p & P1 & P2).
  exists p. split; [exact P1|]. rewrite P2. pose proof (slow_true gamma G) as T. apply Rabs_le_between in T.
  destruct slow_is as (E0 & E1 & E2 & E3). split; [|unfold drift, stride; rewrite E0, E1, E3; small_abs]. small_abs.
Qed.
Lemma curve_motion : exists gamma, twist_motion (real3 start1) (B2R (v0 curve)) (B2R (v1 curve)) (B2R (v2 curve)) gamma.
Proof. eexists. apply flow_motion. Qed.

(** A node that reads these functions at 0 only: a robot at the right edge of a free map, with heading 0, one basis function. *)
Import ListNotations.
Local Open Scope Z_scope.
Definition NR : Num b64 := F64 (rounded (b64_ofZ 1)).
Definition edge_params : params b64 :=
  mkParams (b 1 (-1)) (b 1 0) (b 1 0) z0 z0 (b (-1) 0) z0 z0 (b 4 0) z0 z0
    (b 1 0) (b 2 0) (b 1 (-1)) (b 1 (-1)) (b 1 (-1)) (b 3 (-1)) (b 1 0) (b 64 0) 1 10 5 [b 1 0; b 1 0]
    (b 1 (-1)) (b 1 0) (b 1 0) 3 0 1 [((b 1 0, b 5 0), (b 1 0, b 1 0))].
Definition isb (x y : b64) : bool := Beqb x y && is_finite x.
Definition edge_test (n : node b64) (evs : list (event b64)) : bool := match evs with
  | [e] => match commands (ev_out e) with
    | [u] => true && isb (v0 u) (b (-1) 0) && isb (v1 u) z0 && isb (v2 u) z0 && isb (v0 (ev_pose e)) (b 319 (-5)) && isb (v1 (ev_pose e)) (b 11 (-1)) && isb (v2 (ev_pose e)) z0 &&
        isb (nd_val_dt n) (b 1 (-1)) && isb (dw_dt (nd_dwa n)) (b 1 (-1)) && (dw_steps (nd_dwa n) =? 2) &&
        match @num_steps b64 NR (nd_val_dt n) (nd_val_horizon n) with Ok k => k =? 2 | _ => false end &&
        match @validate_control b64 NR (nd_collision n) (check_map e) (ev_pose e) u (nd_val_dt n) (nd_val_horizon n) with Ok v => v | _ => false end
    | _ => false end
  | _ => false end.
Lemma edge_run : match @cart_node b64 NR edge_params with
  | Ok (Some (n, l)) => match @play b64 NR n (@shared_init b64 NR) l [([MM 200], [], tf_at (b 319 (-5)))] with Ok (evs, s, l') => edge_test n evs | _ => false end
  | _ => false end = true.
Proof. vm_compute. reflexivity. Qed.
Lemma isb_spec x y : isb x y = true -> is_finite y = true -> is_finite x = true /\ B2R x = B2R y.
Proof.
  unfold isb. intros H Fy. apply Bool.andb_true_iff in H. destruct H as [H Fx]. split; [exact Fx|]. rewrite Beqb_correct in H by assumption.
  destruct (Req_bool_spec (B2R x) (B2R y)); [assumption|discriminate].
Qed.
Lemma consts : B2R (b (-1) 0) = (-1)%R /\ B2R z0 = 0%R /\ B2R (b 319 (-5)) = (319 / 32)%R /\ B2R (b 11 (-1)) = (11 / 2)%R /\ B2R (b 1 (-1)) = (/ 2)%R.
Proof. repeat split; value. Qed.
Lemma val_steps_det (L : libm) (n : node b64) k m : @num_steps b64 (F64 L) (nd_val_dt n) (nd_val_horizon n) = Ok k -> @val_steps b64 (F64 L) n m -> Z.of_nat m = k.
Proof.
  intros H [V1 V2]. unfold num_steps, to_u32 in H. rewrite V2 in H. destruct (_ && _)%bool; [|discriminate]. congruence.
Qed.
Lemma edge_exec : exists n l evs s l' e u, @exec b64 NR n (@shared_init b64 NR) l evs s l' /\ In e evs /\ In (Cmd u) (ev_out e) /\
  (forall k, @val_steps b64 NR n k -> tame (ev_pose e) u (nd_val_dt n) (Z.of_nat k)) /\ tame (ev_pose e) u (dw_dt (nd_dwa n)) (dw_steps (nd_dwa n)) /\
  B2R (v0 u) = (-1)%R /\ (0 < B2R (nd_val_dt n))%R /\ (0 < B2R (dw_dt (nd_dwa n)))%R /\
  @num_steps b64 NR (nd_val_dt n) (nd_val_horizon n) = Ok 2 /\
  @validate_control b64 NR (nd_collision n) (check_map e) (ev_pose e) u (nd_val_dt n) (nd_val_horizon n) = Ok true.
Proof.
  pose proof edge_run as R. destruct (@cart_node b64 NR edge_params) as [[[n l]|]| | |] eqn:C; try discriminate.
  destruct (play _ _ _ _) as [[[evs s] l']| | |] eqn:P; try discriminate. apply play_exec in P; [|reflexivity]. destruct P as [X _].
  destruct evs as [|e [|]]; try discriminate. cbn [edge_test] in R. destruct (commands (ev_out e)) as [|u [|]] eqn:O; try discriminate.
  exists n, l, [e], s, l', e, u. split; [exact X|]. split; [left; reflexivity|]. split; [apply cmd_in, O|].
  do 11 (apply Bool.andb_true_iff in R; destruct R as [R ?]).
  repeat match goal with H : isb ?x ?y = true |- _ => apply isb_spec in H; [|reflexivity]; destruct H as [? ?] end.
  destruct consts as (c1 & c2 & c3 & c4 & c5).
  match goal with H : (dw_steps _ =? 2) = true |- _ => apply Z.eqb_eq in H; rewrite H end.
  destruct (num_steps _ _) as [k| | |] eqn:K; try discriminate. match goal with H : (k =? 2) = true |- _ => apply Z.eqb_eq in H; subst k end.
  assert (TT : forall dt, is_finite dt = true -> B2R dt = B2R (b 1 (-1)) -> tame (ev_pose e) u dt 2).
  { intros dt Fd Ed. unfold tame, moderate, stride, finite3.
    repeat match goal with H : B2R ?x = _ |- context[B2R ?x] => rewrite H end. rewrite ?c1, ?c2, ?c3, ?c4, ?c5.
    repeat split; try assumption; try lia; small_abs. }
  split; [intros k V; rewrite (val_steps_det _ _ _ _ K V); apply TT; assumption|]. split; [apply TT; assumption|]. split; [congruence|].
  split; [repeat match goal with H : B2R ?x = _ |- context[B2R ?x] => rewrite H end; lra|].
  split; [repeat match goal with H : B2R ?x = _ |- context[B2R ?x] => rewrite H end; lra|]. split; [reflexivity|].
  destruct (validate_control _ _ _ _ _ _) as [[|]| | |]; try discriminate. reflexivity.
Qed.
Local Open Scope R_scope.
