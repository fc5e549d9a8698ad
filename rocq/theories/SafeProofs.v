(** The clearance of motions checked in binary64 arithmetic. *)
From Coq Require Import Reals ZArith List Bool Lia Lra Psatz.
From Flocq Require Import Core.Raux Core.Zaux IEEE754.BinarySingleNaN.
From Verif Require Import Outcome Num Float64 GridModel CollisionModel NumericsModel BufferModel DwaModel ErgodicModel ExplorationModel
  Spec SpecMotion SpecRobot SpecDwa SpecErgodic SpecExploration SpecSystem SpecNear SpecSafe
  PropCollisionAux PropCollisionAux2 PropGridFloatAux NumericsProofs MotionProofs RobotProofs DwaProofs PredictProofs ClearanceProofs NearProofs.
Import ListNotations ExplorationModel.
Local Open Scope R_scope.
Ltac Zify.zify_post_hook ::= idtac.

Lemma near_cell_gap g i j p d : 0 < g_res g -> d <= / 5 ->
  g_xmin g + (IZR j - d) * g_res g <= v0 p <= g_xmin g + (IZR j + 1 + d) * g_res g ->
  g_ymin g + (IZR i - d) * g_res g <= v1 p <= g_ymin g + (IZR i + 1 + d) * g_res g -> gap p (centre g (j, i)) <= g_res g.
Proof.
  intros R D A B. unfold gap. rewrite <- (sqrt_pow2 (g_res g)) at 1 by lra. apply sqrt_le_1_alt. cbn [centre v0 v1 fst snd].
  assert (D' : d * g_res g <= / 5 * g_res g) by (apply Rmult_le_compat_r; lra).
  assert (H1 : (v0 p - (g_xmin g + (IZR j + 1 / 2) * g_res g)) ^ 2 <= (g_res g * (7 / 10)) ^ 2) by (apply pow_maj_Rabs, Rabs_le; lra).
  assert (H2 : (v1 p - (g_ymin g + (IZR i + 1 / 2) * g_res g)) ^ 2 <= (g_res g * (7 / 10)) ^ 2) by (apply pow_maj_Rabs, Rabs_le; lra).
  assert (0 < g_res g ^ 2) by (apply pow_lt; exact R). replace ((g_res g * (7 / 10)) ^ 2) with (g_res g ^ 2 * (49 / 100)) in * by field. lra.
Qed.
(** The geometry of [wall_at], for any cell whose centre is within one cell of the robot *)
Lemma ring_hit g p i j r w l : 0 < g_res g -> gap p (centre g (j, i)) <= g_res g -> (1 <= r)%Z -> chain4 w l ->
  comes_close g w l p (IZR (r - 2) * g_res g) (IZR (r + 2) * g_res g) ->
  exists k, In k l /\ on_circle r (fst k - j) (snd k - i).
Proof.
  intros Rp G H1 Ch (Far & q & Iq & Near).
  assert (Q : forall k : Z * Z, gap (centre g (j, i)) (centre g k) = g_res g * sqrt (IZR ((fst k - j) ^ 2 + (snd k - i) ^ 2))).
  { intros [k1 k2]. cbn [fst snd]. rewrite <- (centre_gap g i j (k1 - j) (k2 - i) Rp). f_equal. f_equal. f_equal; lia. }
  assert (Out : ((r + 1) ^ 2 <= (fst w - j) ^ 2 + (snd w - i) ^ 2)%Z).
  { apply le_IZR. apply Rnot_lt_le. intros Lt. pose proof (gap_tri p (centre g (j, i)) (centre g w)) as Tr. rewrite Q in Tr.
    assert (sqrt (IZR ((fst w - j) ^ 2 + (snd w - i) ^ 2)) < IZR (r + 1)).
    { assert (0 <= IZR (r + 1)) by (apply IZR_le; lia). rewrite <- (sqrt_pow2 (IZR (r + 1))) by assumption. apply sqrt_lt_1_alt. split; [apply IZR_le; rewrite !Z.pow_2_r; nia|].
      rewrite (Z.pow_2_r (r + 1)), mult_IZR in Lt. cbn [pow]. rewrite Rmult_1_r. exact Lt. }
    replace (IZR (r + 2)) with (IZR (r + 1) + 1) in Far by (rewrite !plus_IZR; lra).
    assert (g_res g * sqrt (IZR ((fst w - j) ^ 2 + (snd w - i) ^ 2)) < g_res g * IZR (r + 1)) by (apply Rmult_lt_compat_l; assumption). lra. }
  assert (In : ((fst q - j) ^ 2 + (snd q - i) ^ 2 <= (r - 1) ^ 2)%Z).
  { apply le_IZR. apply Rnot_lt_le. intros Lt. pose proof (gap_tri (centre g (j, i)) p (centre g q)) as Tr. rewrite Q, (gap_sym _ p) in Tr.
    assert (IZR (r - 1) < sqrt (IZR ((fst q - j) ^ 2 + (snd q - i) ^ 2))).
    { assert (0 <= IZR (r - 1)) by (apply IZR_le; lia). rewrite <- (sqrt_pow2 (IZR (r - 1))) by assumption. apply sqrt_lt_1_alt. split; [apply pow2_ge_0|].
      rewrite (Z.pow_2_r (r - 1)), mult_IZR in Lt. cbn [pow]. rewrite Rmult_1_r. exact Lt. }
    replace (IZR (r - 2)) with (IZR (r - 1) - 1) in Near by (rewrite !minus_IZR; lra).
    assert (g_res g * IZR (r - 1) < g_res g * sqrt (IZR ((fst q - j) ^ 2 + (snd q - i) ^ 2))) by (apply Rmult_lt_compat_l; assumption). lra. }
  destruct (c14_chain r (map (fun q => (fst q - j, snd q - i)%Z) l) (fst w - j, snd w - i)%Z (chain_shift i j l w Ch) H1 Out) as (z & Iz & On).
  { exists (fst q - j, snd q - i)%Z. split; [apply in_map_iff; exists q; auto|exact In]. }
  apply in_map_iff in Iz. destruct Iz as (k & <- & Ik). exists k. split; [exact Ik|exact On].
Qed.
(** ** At one pose *)
Lemma wall_at64 (L : libm) (c : collision b64) (g : grid b64) (px py : b64) rb rc rm r w l : usable g -> whole_cells L c g rb rc rm ->
  is_finite px = true -> is_finite py = true -> on_map (real_grid g) (B2R px) (B2R py) -> (1 <= r)%Z -> (rb <= r <= rm)%Z -> (r < rc)%Z ->
  wall64 L g (c_occ c) w l -> comes_close (real_grid g) w l (V3 (B2R px) (B2R py) 0) (IZR (r - 2) * g_res (real_grid g)) (IZR (r + 2) * g_res (real_grid g)) ->
  @collisionCheck b64 (F64 L) c g px py = Ok true.
Proof.
  intros (Fr & Fx & Fy & Rb & (X & Y & C) & S) (W1 & W2 & W3 & W4) Px Py [Mx My] H1 H2 H3 (Ch & Oc) CC. cbn [real_grid g_xmin g_ymin g_xsize g_ysize g_res] in Mx, My.
  assert (D : dims g) by (split; unfold is_u32; lia).
  destruct (c06_b64 L g px py D ltac:(lia) ltac:(lia) Fr Fx Fy Px Py Rb Mx My) as (i & j & W & (Ii & Ij) & Bx & By).
  assert (Rp : 0 < g_res (real_grid g)) by (cbn [real_grid g_res]; pose proof (bpow_gt_0 radix2 (-500)); lra).
  assert (G : gap (V3 (B2R px) (B2R py) 0) (centre (real_grid g) (j, i)) <= g_res (real_grid g)).
  { apply near_cell_gap with (bpow radix2 (-19)); [exact Rp|change (bpow radix2 (-19)) with (/ 524288); lra|exact Bx|exact By]. }
  destruct (ring_hit (real_grid g) _ i j r w l Rp G H1 Ch CC) as (k & Ik & On).
  assert (OM : ordinary_map g) by (unfold ordinary_map; repeat split; try lia; exact S).
  assert (RA : @robot_at b64 (F64 L) c g px py i j rb rc rm) by (unfold robot_at; repeat split; try assumption; lia).
  destruct (@c10_exact b64 (F64 L) c g px py i j rb rc rm OM RA) as (res & E & T). rewrite E. f_equal. apply T.
  exists (fst k - j)%Z, (snd k - i)%Z. split; [exists r; auto|]. split.
  - replace (i + (snd k - i))%Z with (snd k) by lia. replace (j + (fst k - j))%Z with (fst k) by lia. apply Oc. right. exact Ik.
  - pose proof (circle_sq_lt r _ _ H1 On). rewrite !Z.pow_2_r in *. nia.
Qed.
(** ** Along a motion *)
Lemma near_gap (a c : vec3 R) e : 0 <= e -> Rabs (v0 a - v0 c) <= e -> Rabs (v1 a - v1 c) <= e -> gap a c <= 2 * e.
Proof.
  intros He H0 H1. unfold gap. rewrite <- (sqrt_pow2 (2 * e)) by lra. apply sqrt_le_1_alt.
  pose proof (pow_maj_Rabs _ _ 2 H0). pose proof (pow_maj_Rabs _ _ 2 H1). nra.
Qed.
Lemma keeps_clear_of (L : libm) (c : collision b64) (g : grid b64) (x u : vec3 b64) (dt : b64) (n : Z) gam : 0 < B2R dt ->
  twist_motion (real3 x) (B2R (v0 u)) (B2R (v1 u)) (B2R (v2 u)) gam -> near_free L c g u dt n gam -> keeps_clear64 L c g u dt n gam.
Proof.
  intros Hd M NF. unfold keeps_clear64. set (G := real_grid g). set (slack := B2R dt / 2 * speed (real3 u) + 2 * (IZR n * drift u dt)). cbv zeta. intros Ug Om rb rc rm r w l t WC H1 H2 H3 W Ht (Far & q & Iq & Near).
  destruct (nearest_step (B2R dt) n t Hd Ht) as (k & Hk & K). destruct (NF k Hk) as (px & py & (F0 & F1 & N0 & N1) & Cl).
  assert (Dp : 0 <= drift u dt).
  { unfold drift, stride. pose proof (Rabs_pos (B2R (v0 u))). pose proof (Rabs_pos (B2R (v1 u))). pose proof (Rabs_pos (B2R dt)).
    apply Rplus_le_le_0_compat; [|lra]. apply Rmult_le_pos; [|lra]. apply Rmult_le_pos; lra. }
  assert (kn : 1 <= IZR k <= IZR n) by (split; apply IZR_le; lia).
  assert (kd : IZR k * drift u dt <= IZR n * drift u dt) by (apply Rmult_le_compat_r; lra).
  set (E := IZR n * drift u dt) in *. set (y := gam (IZR k * B2R dt)) in *. set (p := V3 (B2R px) (B2R py) 0).
  assert (E0 : 0 <= E) by (apply Rmult_le_pos; lra).
  assert (Gp : gap p y <= 2 * E) by (apply near_gap; cbn [p v0 v1]; lra).
  assert (Gt : gap y (gam t) <= B2R dt / 2 * speed (real3 u)).
  { unfold y. rewrite !(motion_unique _ _ _ _ _ M). eapply Rle_trans; [apply flow_between|]. unfold speed. cbn [real3 v0 v1].
    apply Rmult_le_compat_r; [apply sqrt_pos|exact K]. }
  assert (On : on_map G (B2R px) (B2R py)).
  { destruct (Om (IZR k * B2R dt)) as [Ox Oy]. { split; [apply Rmult_le_pos; lra|apply Rmult_le_compat_r; lra]. }
    fold y in Ox, Oy. apply Rabs_le_inv in N0. apply Rabs_le_inv in N1. split; lra. }
  rewrite (wall_at64 L c g px py rb rc rm r w l Ug WC F0 F1 On H1 H2 H3 W) in Cl; [discriminate|].
  fold p. fold G. split; [|exists q; split; [exact Iq|]].
  - pose proof (gap_tri (gam t) y (centre G w)) as T1. pose proof (gap_tri y p (centre G w)) as T2.
    rewrite (gap_sym (gam t) y) in T1. rewrite (gap_sym y p) in T2. unfold slack in Far. lra.
  - pose proof (gap_tri p y (centre G q)) as T1. pose proof (gap_tri y (gam t) (centre G q)) as T2. unfold slack in Near. lra.
Qed.
Lemma c92_validated (L : libm) (c : collision b64) (g : grid b64) (x u : vec3 b64) (dt h : b64) (n : Z) gam : accurate L -> tame x u dt n -> 0 < B2R dt ->
  twist_motion (real3 x) (B2R (v0 u)) (B2R (v1 u)) (B2R (v2 u)) gam ->
  @num_steps b64 (F64 L) dt h = Ok n -> @validate_control b64 (F64 L) c g x u dt h = Ok true -> keeps_clear64 L c g u dt n gam.
Proof. intros HL T Hd M N V. exact (keeps_clear_of L c g x u dt n gam Hd M (c91_validated L c g x u dt h n gam HL T M N V)). Qed.
Lemma c92_commanded (L : libm) (nd : node b64) s l evs s' l' e u gam : accurate L ->
  @exec b64 (F64 L) nd s l evs s' l' -> In e evs -> In (Cmd u) (ev_out e) -> 0 < B2R (nd_val_dt nd) -> 0 < B2R (dw_dt (nd_dwa nd)) ->
  (forall n, @val_steps b64 (F64 L) nd n -> tame (ev_pose e) u (nd_val_dt nd) (Z.of_nat n)) ->
  tame (ev_pose e) u (dw_dt (nd_dwa nd)) (dw_steps (nd_dwa nd)) ->
  twist_motion (real3 (ev_pose e)) (B2R (v0 u)) (B2R (v1 u)) (B2R (v2 u)) gam ->
  (forall t, gam t = real3 (ev_pose e)) \/
  (exists n, @val_steps b64 (F64 L) nd n /\ keeps_clear64 L (nd_collision nd) (check_map e) u (nd_val_dt nd) (Z.of_nat n) gam) \/
  keeps_clear64 L (dw_collision (nd_dwa nd)) (dwa_map e) u (dw_dt (nd_dwa nd)) (dw_steps (nd_dwa nd)) gam.
Proof.
  intros HL X I C D1 D2 T1 T2 M. destruct (c91_commanded L nd s l evs s' l' e u gam HL X I C T1 T2 M) as [(n & V & F)|[F|U0]].
  - right; left. exists n. split; [exact V|]. exact (keeps_clear_of L _ _ (ev_pose e) u _ _ gam D1 M F).
  - right; right. exact (keeps_clear_of L _ _ (ev_pose e) u _ _ gam D2 M F).
  - left. subst u. intros t. rewrite (motion_unique _ _ _ _ _ M). cbn [v0 v1 v2].
    assert (Z : B2R (b64_ofZ 0) = 0) by reflexivity. rewrite Z. unfold flow. destruct (Req_EM_T 0 0) as [_|N]; [|lra]. destruct (real3 (ev_pose e)) as [a b' d]. cbn [v0 v1 v2]. f_equal; ring.
Qed.
