(** integrate_twist and the rollouts built on it. *)
From Coq Require Import Reals Lra Lia ZArith List ZifyBool Rgeom.
From Coquelicot Require Import Coquelicot.
From Flocq Require Import Core.Raux IEEE754.BinarySingleNaN.
From Verif Require Import Outcome Num Float64 GridModel GridProofs CollisionModel NumericsModel SpecMotion TrigLemmas NumericsProofs.
Import ListNotations.
Local Open Scope R_scope.

(** Closed form of the motion. *)
Definition flow (x : vec3 R) (vx vy w t : R) : vec3 R :=
  if Req_EM_T w 0 then
    V3 (v0 x + (vx * cos (v2 x) - vy * sin (v2 x)) * t) (v1 x + (vx * sin (v2 x) + vy * cos (v2 x)) * t) (v2 x)
  else
    V3 (v0 x + (vx * (sin (v2 x + w * t) - sin (v2 x)) + vy * (cos (v2 x + w * t) - cos (v2 x))) / w)
       (v1 x + (vx * (cos (v2 x) - cos (v2 x + w * t)) + vy * (sin (v2 x + w * t) - sin (v2 x))) / w)
       (v2 x + w * t).

Lemma vec3_eta (x : vec3 R) : V3 (v0 x) (v1 x) (v2 x) = x.
Proof. destruct x; reflexivity. Qed.

Lemma flow_motion x vx vy w : twist_motion x vx vy w (flow x vx vy w).
Proof.
  split.
  - unfold flow. destruct (Req_EM_T w 0) as [->|N].
    + transitivity (V3 (v0 x) (v1 x) (v2 x)); [apply V3_eq; ring|apply vec3_eta].
    + replace (v2 x + w * 0) with (v2 x) by ring.
      transitivity (V3 (v0 x) (v1 x) (v2 x)); [apply V3_eq; field; assumption|apply vec3_eta].
  - intros t. unfold flow. destruct (Req_EM_T w 0) as [->|N]; cbn [v0 v1 v2].
    + split; [|split].
      * auto_derive; [trivial|ring].
      * auto_derive; [trivial|ring].
      * replace (fun _ : R => v2 x) with (fun _ : R => v2 x) by reflexivity. apply (is_derive_const (V := R_NormedModule)).
    + split; [|split].
      * auto_derive; [trivial|field; assumption].
      * auto_derive; [trivial|field; assumption].
      * auto_derive; [trivial|ring].
Qed.

Lemma motion_unique x vx vy w g : twist_motion x vx vy w g -> forall t, g t = flow x vx vy w t.
Proof.
  intros [G0 G]. destruct (flow_motion x vx vy w) as [F0 F].
  assert (H2 : forall t, v2 (g t) = v2 (flow x vx vy w t)).
  { apply (antiderivative_unique _ _ (fun _ => w)).
    - intros t. apply (G t).
    - intros t. apply (F t).
    - rewrite G0, F0. reflexivity. }
  assert (H0 : forall t, v0 (g t) = v0 (flow x vx vy w t)).
  { apply (antiderivative_unique _ _ (fun t => vx * cos (v2 (g t)) - vy * sin (v2 (g t)))).
    - intros t. apply (G t).
    - intros t. rewrite H2. apply (F t).
    - rewrite G0, F0. reflexivity. }
  assert (H1 : forall t, v1 (g t) = v1 (flow x vx vy w t)).
  { apply (antiderivative_unique _ _ (fun t => vx * sin (v2 (g t)) + vy * cos (v2 (g t)))).
    - intros t. apply (G t).
    - intros t. rewrite H2. apply (F t).
    - rewrite G0, F0. reflexivity. }
  intros t. rewrite <- (vec3_eta (g t)), <- (vec3_eta (flow x vx vy w t)). apply V3_eq; auto.
Qed.

(** The rate the code uses. *)
Definition rate (w : R) : R := if Rltb (Rabs w) (1 / 1000000000000) then 0 else w.
Lemma follows_unique x u g : follows x u g -> forall t, g t = flow x (v0 u) (v1 u) (rate (v2 u)) t.
Proof.
  intros [H1 H2]. unfold rate. destruct (Rltb (Rabs (v2 u)) (1 / 1000000000000)) eqn:E.
  - apply Rltb_true in E. apply motion_unique. auto.
  - apply Rltb_false in E. apply motion_unique. auto.
Qed.
Lemma follows_exists x u : follows x u (flow x (v0 u) (v1 u) (rate (v2 u))).
Proof.
  split; intros H; unfold rate.
  - apply Rltb_false in H. rewrite H. apply flow_motion.
  - apply Rltb_true in H. rewrite H. apply flow_motion.
Qed.
Lemma follows_deriv_heading x u g : follows x u g -> forall t, v2 (g t) = v2 x + rate (v2 u) * t.
Proof.
  intros H t. rewrite (follows_unique _ _ _ H). unfold flow. destruct (Req_EM_T _ 0) as [E|E]; cbn [v2]; [rewrite E; ring|reflexivity].
Qed.

Lemma integrate_flow x u t : t <> 0 \/ Rabs (v2 u) < 1 / 1000000000000 ->
  integrate_twist x u t = flow x (v0 u) (v1 u) (rate (v2 u)) t.
Proof.
  intros Ht. unfold integrate_twist, flow, rate.
  destruct (almost_equal (v2 u) n0) eqn:E.
  - apply almost_equal_R in E. runfold. rewrite Rminus_0_r in E.
    pose proof E as E'. apply Rltb_true in E'. rewrite E'.
    destruct (Req_EM_T 0 0); [|lra].
    unfold vadd, mvmul, vdot, transform2d_rot. runfold. cbn [r0 r1 r2 v0 v1 v2]. apply V3_eq; ring.
  - apply almost_equal_Rf in E. runfold. rewrite Rminus_0_r in E.
    destruct Ht as [Ht|Ht]; [|lra].
    pose proof E as E'. apply Rltb_false in E'. rewrite E'.
    assert (N : v2 u <> 0). { intros Z. rewrite Z, Rabs_R0 in E. lra. }
    destruct (Req_EM_T (v2 u) 0); [contradiction|].
    unfold vadd, mvmul, vdot, transform2d_rot, vscale. runfold. cbn [r0 r1 r2 v0 v1 v2].
    rewrite sin_plus, cos_plus. apply V3_eq; field; auto.
Qed.

Lemma c24_exact x u dt g : follows x u g -> dt <> 0 \/ Rabs (v2 u) < 1 / 1000000000000 ->
  integrate_twist x u dt = g dt.
Proof. intros H Ht. rewrite (follows_unique _ _ _ H). apply integrate_flow. exact Ht. Qed.

Lemma flow_add x vx vy w s t : flow (flow x vx vy w s) vx vy w t = flow x vx vy w (s + t).
Proof.
  unfold flow. destruct (Req_EM_T w 0) as [->|N]; cbn [v0 v1 v2].
  - apply V3_eq; ring.
  - replace (v2 x + w * s + w * t) with (v2 x + w * (s + t)) by ring. apply V3_eq; field; assumption.
Qed.
Lemma c24_group x u s t : s <> 0 -> t <> 0 -> s + t <> 0 ->
  integrate_twist (integrate_twist x u s) u t = integrate_twist x u (s + t).
Proof.
  intros Hs Ht Hst. rewrite !integrate_flow by auto. apply flow_add.
Qed.

(** Only the angle modulo full turns matters. *)
Definition shift (x : vec3 R) (k : Z) : vec3 R := V3 (v0 x) (v1 x) (v2 x + 2 * IZR k * PI).
Lemma flow_shift x vx vy w t k : flow (shift x k) vx vy w t = shift (flow x vx vy w t) k.
Proof.
  unfold flow, shift. destruct (Req_EM_T w 0) as [->|N]; cbn [v0 v1 v2].
  - rewrite cos_period_Z, sin_period_Z. reflexivity.
  - replace (v2 x + 2 * IZR k * PI + w * t) with (v2 x + w * t + 2 * IZR k * PI) by ring.
    rewrite !cos_period_Z, !sin_period_Z. reflexivity.
Qed.
Lemma shift_shift x k m : shift (shift x k) m = shift x (k + m).
Proof. unfold shift. cbn. apply V3_eq; try reflexivity. rewrite plus_IZR. ring. Qed.
Lemma shift_0 x : shift x 0 = x.
Proof. unfold shift. transitivity (V3 (v0 x) (v1 x) (v2 x)); [apply V3_eq; ring|apply vec3_eta]. Qed.

(** The k-th pose of the loop of validate_control. *)
Lemma wrapped_step x u dt : dt <> 0 -> exists k,
  (let y := integrate_twist x u dt in V3 (v0 y) (v1 y) (normalize_angle_PI (v2 y))) =
  shift (flow x (v0 u) (v1 u) (rate (v2 u)) dt) k.
Proof.
  intros Hd. cbv zeta. rewrite integrate_flow by auto.
  destruct (c20_wrap (v2 (flow x (v0 u) (v1 u) (rate (v2 u)) dt))) as [_ [k Hk]].
  exists k. unfold shift. rewrite Hk. reflexivity.
Qed.

Section Loop.
Variables (c : collision R) (gm : grid R) (u : vec3 R) (dt : R).
Hypothesis Hd : dt <> 0.
Let fl (x : vec3 R) (t : R) := flow x (v0 u) (v1 u) (rate (v2 u)) t.

Definition clear_at (g : R -> vec3 R) (k : nat) : Prop :=
  collisionCheck c gm (v0 (g (INR k * dt))) (v1 (g (INR k * dt))) = Ok false.
Definition hit_at (g : R -> vec3 R) (k : nat) : Prop :=
  collisionCheck c gm (v0 (g (INR k * dt))) (v1 (g (INR k * dt))) = Ok true.

Local Opaque collisionCheck.
Lemma loop_step n x k : validate_loop (S n) c gm (shift x k) u dt =
  (let* b := collisionCheck c gm (v0 (fl x dt)) (v1 (fl x dt)) in
   if b then Ok false else
   validate_loop n c gm (let y := integrate_twist (shift x k) u dt in
       V3 (v0 y) (v1 y) (normalize_angle_PI (v2 y))) u dt).
Proof.
  cbn [validate_loop]. rewrite integrate_flow by auto. rewrite flow_shift. reflexivity.
Qed.

Lemma loop_true n : forall x k,
  validate_loop n c gm (shift x k) u dt = Ok true <-> forall i, (1 <= i <= n)%nat -> clear_at (fl x) i.
Proof.
  induction n as [|n IH]; intros x k.
  - cbn. split; [intros _ i Hi; lia|reflexivity].
  - rewrite loop_step. destruct (wrapped_step (shift x k) u dt Hd) as [m Hm]. rewrite Hm, flow_shift, shift_shift.
    assert (C1 : clear_at (fl x) 1 <-> collisionCheck c gm (v0 (fl x dt)) (v1 (fl x dt)) = Ok false).
    { unfold clear_at. cbn [INR]. rewrite Rmult_1_l. reflexivity. }
    assert (CS : forall i, clear_at (fl (fl x dt)) i <-> clear_at (fl x) (S i)).
    { intros i. unfold clear_at, fl. rewrite flow_add. rewrite S_INR. replace ((INR i + 1) * dt) with (dt + INR i * dt) by ring. reflexivity. }
    split.
    + intros H. destruct (collisionCheck c gm (v0 (fl x dt)) (v1 (fl x dt))) as [[]| | |] eqn:E; cbn [bind] in H; try discriminate.
      fold (fl x dt) in H. pose proof (proj1 (IH (fl x dt) _) H) as H'. clear H. rename H' into H. intros [|[|i]] Hi; [lia|apply (proj2 C1); reflexivity|].
      apply (proj1 (CS _)). apply H. lia.
    + intros H. assert (E : collisionCheck c gm (v0 (fl x dt)) (v1 (fl x dt)) = Ok false) by (apply (proj1 C1), H; lia).
      rewrite E. cbn [bind]. fold (fl x dt). apply (proj2 (IH (fl x dt) _)). intros i Hi. apply (proj2 (CS _)). apply H. lia.
Qed.

Lemma loop_false n : forall x k,
  validate_loop n c gm (shift x k) u dt = Ok false <->
  exists i, (1 <= i <= n)%nat /\ hit_at (fl x) i /\ forall j, (1 <= j < i)%nat -> clear_at (fl x) j.
Proof.
  induction n as [|n IH]; intros x k.
  - cbn. split; [discriminate|intros (i & Hi & _); lia].
  - rewrite loop_step. destruct (wrapped_step (shift x k) u dt Hd) as [m Hm]. rewrite Hm, flow_shift, shift_shift.
    assert (C1 : clear_at (fl x) 1 <-> collisionCheck c gm (v0 (fl x dt)) (v1 (fl x dt)) = Ok false).
    { unfold clear_at. cbn [INR]. rewrite Rmult_1_l. reflexivity. }
    assert (H1 : hit_at (fl x) 1 <-> collisionCheck c gm (v0 (fl x dt)) (v1 (fl x dt)) = Ok true).
    { unfold hit_at. cbn [INR]. rewrite Rmult_1_l. reflexivity. }
    assert (CS : forall i, clear_at (fl (fl x dt)) i <-> clear_at (fl x) (S i)).
    { intros i. unfold clear_at, fl. rewrite flow_add. rewrite S_INR. replace ((INR i + 1) * dt) with (dt + INR i * dt) by ring. reflexivity. }
    assert (HS : forall i, hit_at (fl (fl x dt)) i <-> hit_at (fl x) (S i)).
    { intros i. unfold hit_at, fl. rewrite flow_add. rewrite S_INR. replace ((INR i + 1) * dt) with (dt + INR i * dt) by ring. reflexivity. }
    split.
    + intros H. destruct (collisionCheck c gm (v0 (fl x dt)) (v1 (fl x dt))) as [[]| | |] eqn:E; cbn [bind] in H; try discriminate.
      * exists 1%nat. split; [lia|]. split; [apply (proj2 H1); reflexivity|]. intros; lia.
      * fold (fl x dt) in H. pose proof (proj1 (IH (fl x dt) _) H) as H'. clear H. rename H' into H. destruct H as (i & Hi & Hh & Hc). exists (S i).
        split; [lia|]. split; [apply (proj1 (HS _)); exact Hh|]. intros [|[|j]] Hj; [lia|apply (proj2 C1); reflexivity|].
        apply (proj1 (CS _)). apply Hc. lia.
    + intros (i & Hi & Hh & Hc). destruct i as [|[|i]]; [lia| |].
      * pose proof (proj1 H1 Hh) as Hh'. rewrite Hh'. reflexivity.
      * assert (E : collisionCheck c gm (v0 (fl x dt)) (v1 (fl x dt)) = Ok false) by (apply (proj1 C1), Hc; lia).
        rewrite E. cbn [bind]. fold (fl x dt). apply (proj2 (IH (fl x dt) _)). exists (S i). split; [lia|].
        split; [apply (proj2 (HS _)); exact Hh|]. intros j Hj. apply (proj2 (CS _)), Hc. lia.
Qed.

Lemma path_loop_nth n : forall x i, (i < n)%nat ->
  nth_error (path_loop n x u dt) i =
  Some (mkPose (v0 (fl x (INR (S i) * dt))) (v1 (fl x (INR (S i) * dt)))
               (setRPY 0 0 (normalize_angle_PI (v2 (fl x (INR (S i) * dt)))))).
Proof.
  induction n as [|n IH]; intros x i Hi; [lia|].
  cbn [path_loop]. rewrite integrate_flow by auto. fold (fl x dt).
  destruct i as [|i].
  - cbn [nth_error INR]. rewrite Rmult_1_l. reflexivity.
  - cbn [nth_error]. rewrite IH by lia. unfold fl. rewrite flow_add.
    rewrite (S_INR (S i)). replace (dt + INR (S i) * dt) with ((INR (S i) + 1) * dt) by ring. reflexivity.
Qed.
Lemma path_loop_length n : forall x, length (path_loop n x u dt) = n.
Proof. induction n as [|n IH]; intros x; cbn; [reflexivity|rewrite IH; reflexivity]. Qed.
End Loop.

(** ** Steps *)
Lemma Ztrunc_nonneg x : 0 <= x -> Ztrunc x = Zfloor x.
Proof. intros H. apply Ztrunc_floor. exact H. Qed.
Lemma steps_R dt h : num_steps dt h =
  if (Zfloor (Rabs (h / dt)) <? two32)%Z then Ok (Zfloor (Rabs (h / dt))) else UB UFloatCast.
Proof.
  unfold num_steps, to_u32. runfold. pose proof (Rabs_pos (h / dt)) as P.
  rewrite Ztrunc_nonneg by exact P.
  assert (0 <= Zfloor (Rabs (h / dt)))%Z by (apply Zfloor_lub; exact P).
  destruct (0 <=? Zfloor (Rabs (h / dt)))%Z eqn:E; [reflexivity|lia].
Qed.
Lemma c27_steps dt h n : dt <> 0 -> num_steps dt h = Ok n ->
  (0 <= n)%Z /\ IZR n * Rabs dt <= Rabs h < (IZR n + 1) * Rabs dt.
Proof.
  intros Hd. rewrite steps_R. destruct (_ <? _)%Z; [|discriminate]. intros E. injection E as <-.
  split; [apply Zfloor_lub; apply Rabs_pos|].
  assert (P : 0 < Rabs dt) by (apply Rabs_pos_lt; exact Hd).
  assert (Q : Rabs (h / dt) * Rabs dt = Rabs h).
  { rewrite <- Rabs_mult. f_equal. field. exact Hd. }
  pose proof (Zfloor_lb (Rabs (h / dt))). pose proof (Zfloor_ub (Rabs (h / dt))).
  set (q := Rabs (h / dt)) in *. split.
  - rewrite <- Q. apply Rmult_le_compat_r; lra.
  - rewrite <- Q. apply Rmult_lt_compat_r; lra.
Qed.
Lemma c27_defined dt h : dt <> 0 -> Rabs h < 4294967296 * Rabs dt -> exists n, num_steps dt h = Ok n.
Proof.
  intros Hd Hh. rewrite steps_R.
  assert (P : 0 < Rabs dt) by (apply Rabs_pos_lt; exact Hd).
  assert (Q : Rabs (h / dt) * Rabs dt = Rabs h).
  { rewrite <- Rabs_mult. f_equal. field. exact Hd. }
  assert (L : Rabs (h / dt) < 4294967296) by (apply Rmult_lt_reg_r with (Rabs dt); lra).
  assert (F : (Zfloor (Rabs (h / dt)) < two32)%Z).
  { apply lt_IZR. pose proof (Zfloor_lb (Rabs (h / dt))). change (IZR two32) with 4294967296. lra. }
  destruct (Z.ltb_spec (Zfloor (Rabs (h / dt))) two32); [eauto|lia].
Qed.
Lemma c27_b64_example : forall L : libm,
  @num_steps b64 (F64 L) (@lit b64 (F64 L) 1 10) (@lit b64 (F64 L) 3 10) = Ok 2%Z /\
  @num_steps b64 (F64 L) (@lit b64 (F64 L) 1 10) (@lit b64 (F64 L) 5 10) = Ok 5%Z.
Proof. intros L. split; vm_compute; reflexivity. Qed.
Lemma Babs_div_zero (L : libm) (h z : b64) : (z = B754_zero false \/ z = B754_zero true) ->
  @num_steps b64 (F64 L) z h = UB UFloatCast.
Proof.
  intros Hz. unfold num_steps, to_u32. cbn [ndiv nabs ntrunc F64].
  destruct Hz as [-> | ->]; destruct h as [[]|[]| |[] m e p]; reflexivity.
Qed.

(** ** validate_control *)
Lemma c25_true (c : collision R) gm x u dt h g n : dt <> 0 -> follows x u g -> num_steps dt h = Ok n ->
  (validate_control c gm x u dt h = Ok true <->
   forall k, (1 <= k <= n)%Z ->
     collisionCheck c gm (v0 (g (IZR k * dt))) (v1 (g (IZR k * dt))) = Ok false).
Proof.
  intros Hd Hf Hn. unfold validate_control. rewrite Hn. cbn [bind].
  rewrite <- (shift_0 x) at 1. rewrite (loop_true c gm u dt Hd). unfold clear_at.
  pose proof (follows_unique x u g Hf) as U. split.
  - intros H k Hk. rewrite U. specialize (H (Z.to_nat k) ltac:(lia)). rewrite INR_IZR_INZ, Z2Nat.id in H by lia. exact H.
  - intros H i Hi. specialize (H (Z.of_nat i) ltac:(lia)). rewrite U in H. rewrite INR_IZR_INZ. exact H.
Qed.
Lemma c25_false (c : collision R) gm x u dt h g n : dt <> 0 -> follows x u g -> num_steps dt h = Ok n ->
  (validate_control c gm x u dt h = Ok false <->
   exists k, (1 <= k <= n)%Z /\
     collisionCheck c gm (v0 (g (IZR k * dt))) (v1 (g (IZR k * dt))) = Ok true /\
     forall j, (1 <= j < k)%Z -> collisionCheck c gm (v0 (g (IZR j * dt))) (v1 (g (IZR j * dt))) = Ok false).
Proof.
  intros Hd Hf Hn. unfold validate_control. rewrite Hn. cbn [bind].
  rewrite <- (shift_0 x) at 1. rewrite (loop_false c gm u dt Hd). unfold clear_at, hit_at.
  pose proof (follows_unique x u g Hf) as U. split.
  - intros (i & Hi & H1 & H2). exists (Z.of_nat i). rewrite U. split; [lia|].
    rewrite <- INR_IZR_INZ. split; [exact H1|].
    intros j Hj. rewrite U. specialize (H2 (Z.to_nat j) ltac:(lia)). rewrite INR_IZR_INZ, Z2Nat.id in H2 by lia. exact H2.
  - intros (k & Hk & H1 & H2). rewrite U in H1. exists (Z.to_nat k). split; [lia|].
    rewrite INR_IZR_INZ, Z2Nat.id by lia. split; [exact H1|].
    intros j Hj. specialize (H2 (Z.of_nat j) ltac:(lia)). rewrite U in H2. rewrite INR_IZR_INZ. exact H2.
Qed.
Lemma c25_shorter (c : collision R) gm x u dt h h' n : dt <> 0 -> Rabs h' <= Rabs h -> num_steps dt h = Ok n ->
  validate_control c gm x u dt h = Ok true -> validate_control c gm x u dt h' = Ok true.
Proof.
  intros Hd Hh Hn H.
  assert (P : 0 < Rabs dt) by (apply Rabs_pos_lt; exact Hd).
  pose proof (c27_steps dt h n Hd Hn) as (N0 & N1 & N2).
  assert (B : (n < two32)%Z). { rewrite steps_R in Hn. destruct (_ <? _)%Z eqn:E; [|discriminate]. injection Hn as <-. lia. }
  destruct (c27_defined dt h' Hd) as [n' Hn'].
  { apply Rle_lt_trans with (1 := Hh). apply Rlt_le_trans with (1 := N2). apply Rmult_le_compat_r; [lra|].
    rewrite <- plus_IZR. change 4294967296 with (IZR two32). apply IZR_le. lia. }
  pose proof (c27_steps dt h' n' Hd Hn') as (N0' & N1' & N2').
  assert (L : (n' <= n)%Z).
  { assert (n' < n + 1)%Z; [|lia]. apply lt_IZR. rewrite plus_IZR. apply Rmult_lt_reg_r with (Rabs dt); lra. }
  pose proof (follows_exists x u) as F.
  pose proof (proj1 (c25_true c gm x u dt h _ n Hd F Hn) H) as H'.
  apply (proj2 (c25_true c gm x u dt h' _ n' Hd F Hn')). intros k Hk. apply H'. lia.
Qed.

(** ** constTwistPath *)
Lemma c26_path x u dt h g n : dt <> 0 -> follows x u g -> num_steps dt h = Ok n ->
  exists poses, constTwistPath x u dt h = Ok poses /\ lenZ poses = n /\
    forall k, (1 <= k <= n)%Z -> exists p, nthZ poses (k - 1) = Some p /\
      p_x p = v0 (g (IZR k * dt)) /\ p_y p = v1 (g (IZR k * dt)) /\
      qx (p_q p) = 0 /\ qy (p_q p) = 0 /\
      qz (p_q p) * qz (p_q p) + qw (p_q p) * qw (p_q p) = 1 /\
      same_angle (getYaw (qx (p_q p)) (qy (p_q p)) (qz (p_q p)) (qw (p_q p))) (v2 (g (IZR k * dt))).
Proof.
  intros Hd Hf Hn. pose proof (c27_steps dt h n Hd Hn) as (N0 & _).
  pose proof (follows_unique x u g Hf) as U.
  exists (path_loop (Z.to_nat n) x u dt). unfold constTwistPath. rewrite Hn. cbn [bind].
  split; [reflexivity|]. split; [unfold lenZ; rewrite path_loop_length; lia|].
  intros k Hk. unfold nthZ. destruct (Z.ltb_spec (k - 1) 0); [lia|].
  rewrite (path_loop_nth u dt Hd) by lia. eexists. split; [reflexivity|].
  replace (S (Z.to_nat (k - 1))) with (Z.to_nat k) by lia.
  rewrite INR_IZR_INZ, Z2Nat.id by lia. rewrite U. cbn [p_x p_y p_q].
  split; [reflexivity|]. split; [reflexivity|].
  set (th := v2 (flow x (v0 u) (v1 u) (rate (v2 u)) (IZR k * dt))).
  destruct (c20_wrap th) as [W1 W2]. set (w := normalize_angle_PI th) in *.
  assert (Q : setRPY 0 0 w = Q4 0 0 (sin (w / 2)) (cos (w / 2))).
  { unfold setRPY. runfold. rewrite !Rmult_0_l, sin_0, cos_0. replace (w / 2) with (w * (1 / 2)) by field.
    f_equal; ring. }
  rewrite Q. cbn [qx qy qz qw]. split; [reflexivity|]. split; [reflexivity|].
  split; [apply sc1|]. pose proof PI_pos.
  destruct (Req_dec w (- PI)) as [E|E].
  - eapply same_angle_trans; [|exact W2]. rewrite E.
    replace (getYaw 0 0 (sin (- PI / 2)) (cos (- PI / 2))) with PI.
    + exists 1%Z. ring.
    + rewrite <- (c22_yaw (-1) PI) at 1 by lra.
      replace (- PI / 2) with (- (PI / 2)) by field. rewrite sin_neg, cos_neg, cos_PI2. f_equal; ring.
  - eapply same_angle_trans; [|exact W2].
    rewrite <- (Rmult_1_l (sin (w / 2))), <- (Rmult_1_l (cos (w / 2))). rewrite c22_yaw by lra.
    exists 0%Z. ring.
Qed.

(** ** Entropy *)
Lemma ln_le_minus_1 x : 0 < x -> ln x <= x - 1.
Proof.
  intros Hx. destruct (Rle_dec (ln x) (x - 1)) as [|N]; [assumption|exfalso].
  assert (exp (x - 1) < exp (ln x)) by (apply exp_increasing; lra).
  rewrite exp_ln in H by exact Hx. pose proof (exp_ineq1_le (x - 1)). lra.
Qed.
Lemma entropy_mid p : 1 / 1000000000000 <= p <= 1 - 1 / 1000000000000 ->
  entropy p = - p * ln p - (1 - p) * ln (1 - p).
Proof.
  intros Hp. unfold entropy.
  destruct (almost_equal n0 p) eqn:E1.
  { apply almost_equal_R in E1. runfold. rewrite Rabs_left in E1 by lra. lra. }
  destruct (almost_equal n1 p) eqn:E2.
  { apply almost_equal_R in E2. runfold. rewrite Rabs_right in E2 by lra. lra. }
  cbn [orb]. runfold. destruct (Rltb p 0) eqn:E3; [apply Rltb_true in E3; lra|reflexivity].
Qed.
Lemma c28_sym p : 1 / 1000000000000 <= p <= 1 - 1 / 1000000000000 -> entropy (1 - p) = entropy p.
Proof. intros Hp. rewrite !entropy_mid by lra. replace (1 - (1 - p)) with p by ring. ring. Qed.
Lemma c28_range p : 1 / 1000000000000 <= p <= 1 - 1 / 1000000000000 -> 0 < entropy p <= ln 2.
Proof.
  intros Hp. rewrite entropy_mid by assumption. split.
  - assert (L1 : ln p < 0) by (rewrite <- ln_1; apply ln_increasing; lra).
    assert (L2 : ln (1 - p) < 0) by (rewrite <- ln_1; apply ln_increasing; lra).
    assert (0 < - p * ln p) by nra. assert (0 < - ((1 - p) * ln (1 - p))) by nra. lra.
  - pose proof (ln_le_minus_1 (/ (2 * p)) ltac:(apply Rinv_0_lt_compat; lra)) as A.
    pose proof (ln_le_minus_1 (/ (2 * (1 - p))) ltac:(apply Rinv_0_lt_compat; lra)) as B.
    rewrite ln_Rinv, ln_mult in A by lra. rewrite ln_Rinv, ln_mult in B by lra.
    apply (Rmult_le_compat_l p) in A; [|lra]. apply (Rmult_le_compat_l (1 - p)) in B; [|lra].
    replace (p * (/ (2 * p) - 1)) with (1 / 2 - p) in A by (field; lra).
    replace ((1 - p) * (/ (2 * (1 - p)) - 1)) with (1 / 2 - (1 - p)) in B by (field; lra).
    lra.
Qed.
Lemma c28_half : entropy (1 / 2) = ln 2.
Proof.
  rewrite entropy_mid by lra. replace (1 - 1 / 2) with (1 / 2) by field.
  replace (1 / 2) with (/ 2) by field. rewrite ln_Rinv by lra. field.
Qed.
Lemma ln2_lt : ln 2 < 7 / 10.
Proof.
  apply exp_lt_inv. rewrite exp_ln by lra.
  pose proof (exp_ineq1_le (7 / 640)) as H.
  assert (S : forall a, exp (2 * a) = exp a * exp a) by (intros a; rewrite <- exp_plus; f_equal; ring).
  assert (E : exp (7 / 10) = exp (2 * (2 * (2 * (2 * (2 * (2 * (7 / 640)))))))) by (f_equal; field).
  rewrite E, !S. set (e := exp (7 / 640)) in *. assert (He : 647 / 640 <= e) by lra.
  assert (M : forall a b, a <= b -> 0 <= a -> a * a <= b * b) by (intros; apply Rmult_le_compat; lra).
  pose proof (M _ _ He ltac:(lra)) as H1.
  assert (H1' : 102199 / 100000 <= e * e) by lra. pose proof (M _ _ H1' ltac:(lra)) as H2.
  assert (H2' : 104446 / 100000 <= e * e * (e * e)) by lra. pose proof (M _ _ H2' ltac:(lra)) as H3.
  set (e4 := e * e * (e * e)) in *.
  assert (H3' : 10908 / 10000 <= e4 * e4) by lra. pose proof (M _ _ H3' ltac:(lra)) as H4.
  assert (H4' : 11898 / 10000 <= e4 * e4 * (e4 * e4)) by lra. pose proof (M _ _ H4' ltac:(lra)) as H5.
  set (e16 := e4 * e4 * (e4 * e4)) in *.
  assert (H5' : 14156 / 10000 <= e16 * e16) by lra. pose proof (M _ _ H5' ltac:(lra)) as H6. lra.
Qed.
Lemma c28_unknown p : p <= - 1 / 1000000000000 -> entropy p = 7 / 10.
Proof.
  intros Hp. unfold entropy.
  destruct (almost_equal n0 p) eqn:E1.
  { apply almost_equal_R in E1. runfold. rewrite Rabs_right in E1 by lra. lra. }
  destruct (almost_equal n1 p) eqn:E2.
  { apply almost_equal_R in E2. runfold. rewrite Rabs_right in E2 by lra. lra. }
  cbn [orb]. runfold. destruct (Rltb p 0) eqn:E3; [reflexivity|apply Rltb_false in E3; lra].
Qed.
Lemma c28_certain p : Rabs p < 1 / 1000000000000 \/ Rabs (1 - p) < 1 / 1000000000000 -> entropy p = 1 / 1000.
Proof.
  intros Hp. unfold entropy.
  assert (E : (almost_equal n0 p || almost_equal n1 p)%bool = true).
  { apply Bool.orb_true_iff. destruct Hp as [H|H]; [left|right]; apply almost_equal_R; runfold; [|exact H].
    rewrite <- Rabs_Ropp. replace (- (0 - p)) with p by ring. exact H. }
  rewrite E. runfold. reflexivity.
Qed.
(** Unknown cells rank above every known one. *)
Lemma c28_order p q : p <= - 1 / 1000000000000 -> 0 <= q <= 1 -> entropy q < entropy p.
Proof.
  intros Hp Hq. rewrite (c28_unknown p Hp). pose proof ln2_lt.
  destruct (Rlt_dec q (1 / 1000000000000)).
  - rewrite c28_certain; [lra|left]. rewrite Rabs_right; lra.
  - destruct (Rlt_dec (1 - 1 / 1000000000000) q).
    + rewrite c28_certain; [lra|right]. rewrite Rabs_right; lra.
    + pose proof (c28_range q ltac:(lra)). lra.
Qed.

(** ** Distance *)
Lemma dist_euc_eq (x0 y0 x1 y1 : R) : distance x0 y0 x1 y1 = dist_euc x1 y1 x0 y0.
Proof. unfold distance, dist_euc. runfold. unfold Rsqr. reflexivity. Qed.
Lemma c29_metric (x0 y0 x1 y1 x2 y2 : R) :
  0 <= distance x0 y0 x1 y1 /\ (distance x0 y0 x1 y1 = 0 <-> x0 = x1 /\ y0 = y1) /\
  distance x0 y0 x1 y1 = distance x1 y1 x0 y0 /\
  distance x0 y0 x2 y2 <= distance x0 y0 x1 y1 + distance x1 y1 x2 y2.
Proof.
  rewrite !dist_euc_eq. split; [apply sqrt_pos|]. split; [|split].
  - split.
    + intros H. unfold dist_euc in H. apply sqrt_eq_0 in H.
      * apply Rplus_sqr_eq_0 in H. lra.
      * apply Rplus_le_le_0_compat; apply Rle_0_sqr.
    + intros [-> ->]. apply distance_refl.
  - apply distance_symm.
  - rewrite Rplus_comm. apply triangle.
Qed.
Lemma c29_polar (a r : R) :
  let p := polar2Cartesian a r in
  distance 0 0 (fst p) (snd p) = Rabs r /\
  polar2CartesianHomo a r = V3 (fst p) (snd p) 1 /\
  (0 < r -> - PI < a <= PI -> natan2 (snd p) (fst p) = a).
Proof.
  cbv zeta. unfold polar2Cartesian, polar2CartesianHomo, distance. runfold. cbn [fst snd].
  split; [|split; [reflexivity|]].
  - rewrite !Rminus_0_r. replace (r * cos a * (r * cos a) + r * sin a * (r * sin a)) with ((sin a * sin a + cos a * cos a) * (r * r)) by ring.
    rewrite sc1, Rmult_1_l. apply sqrt_Rsqr_abs.
  - intros. apply Ratan2_polar; assumption.
Qed.

(** ** Extra facts used by the property file *)
Lemma c25_no_steps (c : collision R) gm x u dt h : dt <> 0 -> Rabs h < Rabs dt ->
  validate_control c gm x u dt h = Ok true.
Proof.
  intros Hd Hh. destruct (c27_defined dt h Hd) as [n Hn].
  { pose proof (Rabs_pos h). lra. }
  pose proof (c27_steps dt h n Hd Hn) as (N0 & N1 & N2).
  assert (n = 0)%Z.
  { destruct (Z.eq_dec n 0); [assumption|]. assert (1 <= n)%Z by lia. apply IZR_le in H.
    pose proof (Rabs_pos dt). nra. }
  subst n. apply (proj2 (c25_true c gm x u dt h _ 0%Z Hd (follows_exists x u) Hn)). intros; lia.
Qed.
Lemma steps_example : num_steps (1 / 10) (1 / 2) = Ok 5%Z.
Proof.
  rewrite steps_R. replace (Zfloor (Rabs (1 / 2 / (1 / 10)))) with 5%Z; [reflexivity|].
  symmetry. apply Zfloor_imp. rewrite Rabs_right by lra. cbn. lra.
Qed.
Lemma c24_heading x u dt : dt <> 0 -> 1 / 1000000000000 <= Rabs (v2 u) ->
  v2 (integrate_twist x u dt) = v2 x + v2 u * dt.
Proof.
  intros Hd Hw. rewrite (c24_exact x u dt _ (follows_exists x u)) by auto.
  rewrite (follows_deriv_heading x u _ (follows_exists x u)). unfold rate.
  apply Rltb_false in Hw. rewrite Hw. reflexivity.
Qed.
Lemma quarter_turn : integrate_twist (V3 0 0 0) (V3 1 0 1) (PI / 2) = V3 1 1 (PI / 2).
Proof.
  pose proof PI_pos. rewrite integrate_flow by (left; lra). unfold flow, rate. cbn [v0 v1 v2].
  destruct (Rltb (Rabs 1) (1 / 1000000000000)) eqn:E.
  { apply Rltb_true in E. rewrite Rabs_R1 in E. lra. }
  destruct (Req_EM_T 1 0); [lra|]. replace (0 + 1 * (PI / 2)) with (PI / 2) by ring. rewrite sin_PI2, cos_PI2, sin_0, cos_0.
  apply V3_eq; field.
Qed.
