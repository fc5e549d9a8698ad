(** The clearance of motions while the map changes. *)
From Coq Require Import Reals ZArith List Bool Lia Lra.
From Flocq Require Import Core.Raux Core.Zaux IEEE754.BinarySingleNaN.
From Verif Require Import Outcome Num Float64 GridModel CollisionModel NumericsModel BufferModel DwaModel ErgodicModel ExplorationModel FineModel
  Spec SpecMotion SpecRobot SpecDwa SpecErgodic SpecExploration SpecSystem SpecNear SpecSafe SpecFine SpecTurns
  NumericsProofs MotionProofs RobotProofs DwaProofs PredictProofs ClearanceProofs NearProofs SafeProofs PropFineAux.
Import ListNotations ExplorationModel.
Local Open Scope R_scope.
Ltac Zify.zify_post_hook ::= idtac.

Lemma away_of (L : libm) (c : collision b64) (g : grid b64) (x u : vec3 b64) (dt : b64) (n k : Z) gam px py t : 0 < B2R dt ->
  twist_motion (real3 x) (B2R (v0 u)) (B2R (v1 u)) (B2R (v2 u)) gam -> (1 <= k <= n)%Z -> near u dt gam k px py ->
  @collisionCheck b64 (F64 L) c g px py = Ok false -> Rabs (t - IZR k * B2R dt) <= B2R dt / 2 ->
  away_from_walls L c g u dt n (gam (IZR k * B2R dt)) (gam t).
Proof.
  intros Hd M Hk (F0 & F1 & N0 & N1) Cl K. unfold away_from_walls. set (G := real_grid g). set (slack := B2R dt / 2 * speed (real3 u) + 2 * (IZR n * drift u dt)). cbv zeta.
  intros Ug Ox rb rc rm r w l WC H1 H2 H3 W (Far & q & Iq & Near).
  assert (Dp : 0 <= drift u dt).
  { unfold drift, stride. pose proof (Rabs_pos (B2R (v0 u))). pose proof (Rabs_pos (B2R (v1 u))). pose proof (Rabs_pos (B2R dt)).
    apply Rplus_le_le_0_compat; [|lra]. apply Rmult_le_pos; [|lra]. apply Rmult_le_pos; lra. }
  assert (kn : 1 <= IZR k <= IZR n) by (split; apply IZR_le; lia).
  assert (kd : IZR k * drift u dt <= IZR n * drift u dt) by (apply Rmult_le_compat_r; lra).
  set (E := IZR n * drift u dt) in *. set (y := gam (IZR k * B2R dt)) in *. set (p := V3 (B2R px) (B2R py) 0).
  assert (E0 : 0 <= E) by (apply Rmult_le_pos; lra).
  assert (Gp : gap p y <= 2 * E) by (apply near_gap; cbn [p v0 v1]; lra).
  assert (Gt : gap y (gam t) <= B2R dt / 2 * speed (real3 u)).
  { unfold y. rewrite !(motion_unique _ _ _ _ _ M). eapply Rle_trans; [apply flow_between|]. unfold speed. cbn [real3 v0 v1].
    apply Rmult_le_compat_r; [apply sqrt_pos|exact K]. }
  assert (On : on_map G (B2R px) (B2R py)).
  { destruct Ox as [Ox Oy]. apply Rabs_le_inv in N0. apply Rabs_le_inv in N1. split; lra. }
  rewrite (wall_at64 L c g px py rb rc rm r w l Ug WC F0 F1 On H1 H2 H3 W) in Cl; [discriminate|].
  fold p. fold G. split; [|exists q; split; [exact Iq|]].
  - pose proof (gap_tri (gam t) y (centre G w)) as T1. pose proof (gap_tri y p (centre G w)) as T2.
    rewrite (gap_sym (gam t) y) in T1. rewrite (gap_sym y p) in T2. unfold slack in Far. lra.
  - pose proof (gap_tri p y (centre G q)) as T1. pose proof (gap_tri y (gam t) (centre G q)) as T2. unfold slack in Near. lra.
Qed.
Lemma forall2_nth {A B} (P : A -> B -> Prop) l m : Forall2 P l m -> forall k a, nth_error l k = Some a -> exists b, nth_error m k = Some b /\ P a b.
Proof.
  intros H. induction H as [|a b l m Pab _ IH]; intros [|k] a' E; try discriminate E.
  - exists b. split; [reflexivity|]. cbn in E. congruence.
  - exact (IH k a' E).
Qed.
Lemma turns_of (L : libm) (c : collision b64) ss (x u : vec3 b64) (dt : b64) (n : nat) gam : accurate L -> tame x u dt (Z.of_nat n) -> 0 < B2R dt ->
  twist_motion (real3 x) (B2R (v0 u)) (B2R (v1 u)) (B2R (v2 u)) gam -> @clear_in_turn b64 (F64 L) c ss (@rollout b64 (F64 L) n dt u x) ->
  clear_each_moment L c ss u dt (Z.of_nat n) gam.
Proof.
  intros HL T Hd M C. assert (Ln : length ss = n) by (rewrite <- (@rollout_len b64 (F64 L) n dt u x); clear - C; induction C; cbn; congruence). split; [rewrite Ln; reflexivity|].
  intros k s t Es tk K. destruct (forall2_nth _ _ _ C k s Es) as (p & Ep & Cl).
  destruct (c91_rollout L x u dt n gam HL T M k p Ep) as [N _].
  apply (away_of L c (sh_grid s) x u dt (Z.of_nat n) (Z.of_nat (S k)) gam (v0 p) (v1 p) t Hd M); [|exact N|exact Cl|exact K].
  assert (nth_error ss k <> None) by congruence. apply nth_error_Some in H. lia.
Qed.
Lemma c94_validated (L : libm) gs (c : collision b64) (x u : vec3 b64) (dt h : b64) (n : Z) k0 k gam : accurate L -> tame x u dt n -> 0 < B2R dt ->
  twist_motion (real3 x) (B2R (v0 u)) (B2R (v1 u)) (B2R (v2 u)) gam -> @num_steps b64 (F64 L) dt h = Ok n ->
  @validate_control_at b64 (F64 L) gs c x u dt h k0 = Ok (true, k) ->
  forall j t, (1 <= j <= n)%Z -> Rabs (t - IZR j * B2R dt) <= B2R dt / 2 ->
  away_from_walls L c (gs (k0 + Z.to_nat (j - 1))%nat) u dt n (gam (IZR j * B2R dt)) (gam t).
Proof.
  intros HL T Hd M N V j t Hj K. unfold validate_control_at in V. rewrite N in V. cbn [bind] in V.
  assert (A : forall m y i k0 k, @validate_loop_at b64 (F64 L) gs m c y u dt k0 = Ok (true, k) -> (i < m)%nat ->
    exists p, nth_error (@rollout b64 (F64 L) m dt u y) i = Some p /\ @collisionCheck b64 (F64 L) c (gs (k0 + i)%nat) (v0 p) (v1 p) = Ok false).
  { clear. intros m. induction m as [|m IH]; intros y i k0 k V Hi; [lia|]. cbn [validate_loop_at rollout] in *. cbv zeta in *.
    destruct (collisionCheck _ _ _ _) as [[|]| | |] eqn:E in V; try discriminate V. cbn [bind] in V.
    destruct i as [|i].
    - eexists. split; [reflexivity|]. rewrite Nat.add_0_r. exact E.
    - destruct (IH _ i _ _ V ltac:(lia)) as (p & P1 & P2). exists p. split; [exact P1|]. replace (k0 + S i)%nat with (S k0 + i)%nat by lia. exact P2. }
  destruct (A _ _ (Z.to_nat (j - 1)) _ _ V ltac:(lia)) as (p & P1 & P2).
  assert (En : Z.of_nat (Z.to_nat n) = n) by lia. pose proof T as T'. rewrite <- En in T'.
  destruct (c91_rollout L x u dt (Z.to_nat n) gam HL T' M _ _ P1) as [Nr _]. replace (Z.of_nat (S (Z.to_nat (j - 1)))) with j in Nr by lia.
  exact (away_of L c _ x u dt n j gam (v0 p) (v1 p) t Hd M Hj Nr P2 K).
Qed.
Lemma lasting_of (L : libm) (c : collision b64) ss (u : vec3 b64) (dt : b64) (n : Z) gam : 0 < B2R dt -> clear_each_moment L c ss u dt n gam -> clear_of_lasting_walls L c ss u dt n gam.
Proof.
  intros Hd (Ln & H) g0 rb rc rm r w l t G slack All In0 WC H1 H2 H3 Ht. destruct (nearest_step (B2R dt) n t Hd Ht) as (k & Hk & K).
  destruct (nth_error ss (Z.to_nat (k - 1))) as [s|] eqn:Es; [|apply nth_error_None in Es; lia].
  destruct (All s (nth_error_In _ _ Es)) as (Ug & (S1 & S2 & S3 & S4 & S5) & W).
  specialize (H (Z.to_nat (k - 1)) s t Es). cbv zeta in H. replace (Z.of_nat (S (Z.to_nat (k - 1)))) with k in H by lia. specialize (H K Ug).
  assert (I : inside G (IZR n * drift u dt) (gam (IZR k * B2R dt))).
  { apply In0. assert (1 <= IZR k <= IZR n) by (split; apply IZR_le; lia). split; [apply Rmult_le_pos; lra|apply Rmult_le_compat_r; lra]. }
  assert (I' : inside (real_grid (sh_grid s)) (IZR n * drift u dt) (gam (IZR k * B2R dt))).
  { unfold G, inside, real_grid in *. cbn [g_xmin g_ymin g_xsize g_ysize g_res] in *. rewrite S1, S2, S3, S4, S5. exact I. }
  assert (WC' : whole_cells L c (sh_grid s) rb rc rm). { unfold whole_cells in *. rewrite S3. exact WC. }
  pose proof (H I' rb rc rm r w l WC' H1 H2 H3 W) as Q. intros CC. apply Q.
  unfold comes_close, centre, G, real_grid in *. cbn [g_xmin g_ymin g_xsize g_ysize g_res] in *. rewrite S3, S4, S5. exact CC.
Qed.
Lemma c94_commanded (L : libm) (nd : node b64) s l evs s' l' e u gam : accurate L ->
  @fine_exec b64 (F64 L) nd s l evs s' l' -> In e evs -> In (Cmd u) (fe_out e) -> 0 < B2R (nd_val_dt nd) -> 0 < B2R (dw_dt (nd_dwa nd)) ->
  (forall n, @val_steps b64 (F64 L) nd n -> tame (fine_pose e) u (nd_val_dt nd) (Z.of_nat n)) ->
  tame (fine_pose e) u (dw_dt (nd_dwa nd)) (dw_steps (nd_dwa nd)) -> (0 <= dw_steps (nd_dwa nd))%Z ->
  twist_motion (real3 (fine_pose e)) (B2R (v0 u)) (B2R (v1 u)) (B2R (v2 u)) gam ->
  (forall t, gam t = real3 (fine_pose e)) \/
  (exists n, @val_steps b64 (F64 L) nd n /\ let ss := firstn n (fe_checks e) in
     clear_each_moment L (nd_collision nd) ss u (nd_val_dt nd) (Z.of_nat n) gam /\ clear_of_lasting_walls L (nd_collision nd) ss u (nd_val_dt nd) (Z.of_nat n) gam) \/
  (exists k0, let ss := firstn (Z.to_nat (dw_steps (nd_dwa nd))) (skipn k0 (fe_checks e)) in
     clear_each_moment L (dw_collision (nd_dwa nd)) ss u (dw_dt (nd_dwa nd)) (dw_steps (nd_dwa nd)) gam /\
     clear_of_lasting_walls L (dw_collision (nd_dwa nd)) ss u (dw_dt (nd_dwa nd)) (dw_steps (nd_dwa nd)) gam).
Proof.
  intros HL X I C D1 D2 T1 T2 P M. destruct (c89_64 L nd s l evs s' l' e u X I C) as [(n & V & F)|[_ [[_ (k0 & F)]|U0]]].
  - right; left. exists n. split; [exact V|]. pose proof (turns_of L _ _ (fine_pose e) u _ n gam HL (T1 n V) D1 M F) as Q. split; [exact Q|exact (lasting_of _ _ _ _ _ _ _ D1 Q)].
  - right; right. exists k0. cbv zeta in *. rewrite <- (Z2Nat.id (dw_steps (nd_dwa nd)) P) in T2.
    pose proof (turns_of L _ _ (fine_pose e) u _ _ gam HL T2 D2 M F) as Q. rewrite (Z2Nat.id _ P) in Q. split; [exact Q|exact (lasting_of _ _ _ _ _ _ _ D2 Q)].
  - left. subst u. intros t. rewrite (motion_unique _ _ _ _ _ M). cbn [v0 v1 v2].
    assert (Z : B2R (b64_ofZ 0) = 0) by reflexivity. rewrite Z. unfold flow. destruct (Req_EM_T 0 0) as [_|N]; [|lra]. destruct (real3 (fine_pose e)) as [a b' d]. cbn [v0 v1 v2]. f_equal; ring.
Qed.
