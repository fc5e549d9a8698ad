(** From the poses that are checked to the whole motion. *)
From Coq Require Import Reals ZArith List Bool Lia Lra.
From Flocq Require Import Core.Raux.
From Verif Require Import Outcome Num GridModel CollisionModel NumericsModel Spec SpecMotion SpecRobot SpecDwa SpecErgodic SpecSystem
  PropCollisionAux PropCollisionAux2 NumericsProofs MotionProofs RobotProofs DwaProofs PredictProofs.
Import ListNotations.
Local Open Scope R_scope.
Ltac Zify.zify_post_hook ::= idtac.

(** A cell relative to another one, and the centres of the two *)
Lemma centre_gap g i j a b : 0 < g_res g -> gap (centre g (j, i)) (centre g (j + a, i + b)%Z) = g_res g * sqrt (IZR (a ^ 2 + b ^ 2)).
Proof.
  intros R. unfold gap, centre. cbn [v0 v1 fst snd]. rewrite !plus_IZR.
  match goal with |- sqrt ?e = _ => replace e with (g_res g ^ 2 * (IZR a ^ 2 + IZR b ^ 2)) by ring end.
  rewrite sqrt_mult_alt by (apply pow2_ge_0). rewrite sqrt_pow2 by lra. rewrite !Z.pow_2_r, !mult_IZR. f_equal. f_equal. ring.
Qed.
Lemma cell_gap g i j p : 0 < g_res g -> in_cell g i j (v0 p) (v1 p) -> gap p (centre g (j, i)) <= g_res g.
Proof.
  intros R (A & B). unfold gap. rewrite <- (sqrt_pow2 (g_res g)) at 1 by lra. apply sqrt_le_1_alt. cbn [centre v0 v1 fst snd].
  assert (H1 : (v0 p - (g_xmin g + (IZR j + 1 / 2) * g_res g)) ^ 2 <= (g_res g / 2) ^ 2) by (apply pow_maj_Rabs, Rabs_le; lra).
  assert (H2 : (v1 p - (g_ymin g + (IZR i + 1 / 2) * g_res g)) ^ 2 <= (g_res g / 2) ^ 2) by (apply pow_maj_Rabs, Rabs_le; lra).
  assert (0 < g_res g ^ 2) by (apply pow_lt; exact R). lra.
Qed.
Lemma chain_shift i j : forall l p, chain4 p l -> chain4 (fst p - j, snd p - i)%Z (map (fun q => (fst q - j, snd q - i)%Z) l).
Proof.
  induction l as [|q l IH]; intros p H; [exact I|]. destruct H as [A H]. cbn [map chain4]. split; [|apply IH, H].
  unfold adjacent4 in *. cbn [fst snd]. lia.
Qed.
(** ** At one pose *)
Lemma wall_at c g p r w l : proper_map g -> proper_radii c g -> on_map g (v0 p) (v1 p) -> (1 <= r)%Z ->
  (Zfloor (c_brad c / g_res g) <= r <= Zfloor (c_srad c / g_res g))%Z -> (r < Zfloor ((c_brad c + c_othr c) / g_res g))%Z ->
  wall g (c_occ c) w l -> comes_close g w l p (IZR (r - 2) * g_res g) (IZR (r + 2) * g_res g) ->
  collisionCheck c g (v0 p) (v1 p) = Ok true.
Proof.
  intros (Rp & (X & Y & C) & S) (A & B & D) M H1 H2 H3 (Ch & Oc) (Far & q & Iq & Near).
  destruct (c10_real c g (v0 p) (v1 p) Rp X Y C S M A B D) as (i & j & res & _ & Cell & E & T). cbv zeta in T.
  rewrite E. f_equal. apply T. clear T E. pose proof (cell_gap g i j p Rp Cell) as G.
  assert (Q : forall k : Z * Z, gap (centre g (j, i)) (centre g k) = g_res g * sqrt (IZR ((fst k - j) ^ 2 + (snd k - i) ^ 2))).
  { intros [k1 k2]. cbn [fst snd]. rewrite <- (centre_gap g i j (k1 - j) (k2 - i) Rp). f_equal. f_equal. f_equal; lia. }
  assert (Out : ((r + 1) ^ 2 <= (fst w - j) ^ 2 + (snd w - i) ^ 2)%Z).
  { apply le_IZR. apply Rnot_lt_le. intros Lt. pose proof (gap_tri p (centre g (j, i)) (centre g w)) as Tr. rewrite Q in Tr.
    assert (sqrt (IZR ((fst w - j) ^ 2 + (snd w - i) ^ 2)) < IZR (r + 1)).
    { assert (0 <= IZR (r + 1)) by (apply IZR_le; lia). rewrite <- (sqrt_pow2 (IZR (r + 1))) by assumption. apply sqrt_lt_1_alt. split; [apply IZR_le; rewrite !Z.pow_2_r; nia|].
      rewrite (Z.pow_2_r (r + 1)), mult_IZR in Lt. cbn [pow]. rewrite Rmult_1_r. exact Lt. }
    replace (IZR (r + 2)) with (IZR (r + 1) + 1) in Far by (rewrite !plus_IZR; lra).
    assert (g_res g * sqrt (IZR ((fst w - j) ^ 2 + (snd w - i) ^ 2)) < g_res g * IZR (r + 1)) by (apply Rmult_lt_compat_l; assumption). lra. }
  assert (In : ((fst q - j) ^ 2 + (snd q - i) ^ 2 <= (r - 1) ^ 2)%Z).
  { apply le_IZR. apply Rnot_lt_le. intros Lt. pose proof (gap_tri (centre g (j, i)) p (centre g q)) as Tr. rewrite Q, (gap_sym _ p) in Tr.
    assert (IZR (r - 1) < sqrt (IZR ((fst q - j) ^ 2 + (snd q - i) ^ 2))).
    { assert (0 <= IZR (r - 1)) by (apply IZR_le; lia). rewrite <- (sqrt_pow2 (IZR (r - 1))) by assumption. apply sqrt_lt_1_alt. split; [apply pow2_ge_0|].
      rewrite (Z.pow_2_r (r - 1)), mult_IZR in Lt. cbn [pow]. rewrite Rmult_1_r. exact Lt. }
    replace (IZR (r - 2)) with (IZR (r - 1) - 1) in Near by (rewrite !minus_IZR; lra).
    assert (g_res g * IZR (r - 1) < g_res g * sqrt (IZR ((fst q - j) ^ 2 + (snd q - i) ^ 2))) by (apply Rmult_lt_compat_l; assumption). lra. }
  destruct (c14_chain r (map (fun q => (fst q - j, snd q - i)%Z) l) (fst w - j, snd w - i)%Z (chain_shift i j l w Ch) H1 Out) as (z & Iz & On).
  { exists (fst q - j, snd q - i)%Z. split; [apply in_map_iff; exists q; auto|exact In]. }
  apply in_map_iff in Iz. destruct Iz as (k & <- & Ik). cbn [fst snd] in On. exists (fst k - j)%Z, (snd k - i)%Z.
  split; [exists r; split; [exact H2|]; split; assumption|]. split.
  - replace (i + (snd k - i))%Z with (snd k) by lia. replace (j + (fst k - j))%Z with (fst k) by lia. apply Oc. right. exact Ik.
  - pose proof (circle_sq_lt r _ _ H1 On). rewrite !Z.pow_2_r in *. nia.
Qed.
(** ** C78 *)
Lemma nearest_step dt n t : 0 < dt -> dt / 2 <= t <= IZR n * dt -> exists k, (1 <= k <= n)%Z /\ Rabs (t - IZR k * dt) <= dt / 2.
Proof.
  intros Hd Ht. set (q := t / dt). assert (Q : t = q * dt) by (unfold q; field; lra).
  assert (Q0 : 1 / 2 <= q) by (apply Rmult_le_reg_r with dt; lra). assert (Qn : q <= IZR n) by (apply Rmult_le_reg_r with dt; lra).
  exists (Zfloor (q + 1 / 2)). pose proof (Zfloor_lb (q + 1 / 2)) as L. pose proof (Zfloor_ub (q + 1 / 2)) as U.
  split; [split; [apply Zfloor_lub; cbn; lra|]|].
  - assert (Zfloor (q + 1 / 2) < n + 1)%Z; [|lia]. apply lt_IZR. rewrite plus_IZR. lra.
  - rewrite Q. replace (q * dt - _ * dt) with ((q - IZR (Zfloor (q + 1 / 2))) * dt) by ring. rewrite Rabs_mult, (Rabs_pos_eq dt) by lra.
    replace (dt / 2) with (1 / 2 * dt) by field. apply Rmult_le_compat_r; [lra|]. apply Rabs_le. lra.
Qed.
Lemma c78 c g x u dt h n gam r w l t : proper_map g -> proper_radii c g -> 0 < dt -> follows x u gam -> num_steps dt h = Ok n ->
  validate_control c g x u dt h = Ok true -> dt / 2 <= t <= IZR n * dt ->
  (forall s, 0 <= s <= IZR n * dt -> on_map g (v0 (gam s)) (v1 (gam s))) -> (1 <= r)%Z ->
  (Zfloor (c_brad c / g_res g) <= r <= Zfloor (c_srad c / g_res g))%Z -> (r < Zfloor ((c_brad c + c_othr c) / g_res g))%Z ->
  wall g (c_occ c) w l -> ~ comes_close g w l (gam t) (IZR (r - 2) * g_res g - dt / 2 * speed u) (IZR (r + 2) * g_res g + dt / 2 * speed u).
Proof.
  intros PM PR Hd F N V Ht Om H1 H2 H3 W (Far & q & Iq & Near). destruct (nearest_step dt n t Hd Ht) as (k & Hk & K).
  pose proof (proj1 (c25_true c g x u dt h gam n ltac:(lra) F N) V k Hk) as Cl.
  assert (G : gap (gam (IZR k * dt)) (gam t) <= dt / 2 * speed u).
  { eapply Rle_trans; [apply (c73_motion x u gam _ _ F)|]. apply Rmult_le_compat_r; [apply speed_pos|exact K]. }
  rewrite (wall_at c g (gam (IZR k * dt)) r w l PM PR) in Cl; try assumption; try discriminate.
  - apply Om. assert (1 <= IZR k <= IZR n) by (split; apply IZR_le; lia). split; [apply Rmult_le_pos; lra|apply Rmult_le_compat_r; lra].
  - split; [|exists q; split; [exact Iq|]].
    + pose proof (gap_tri (gam t) (gam (IZR k * dt)) (centre g w)) as Tr. rewrite (gap_sym (gam t) (gam (IZR k * dt))) in Tr. lra.
    + pose proof (gap_tri (gam (IZR k * dt)) (gam t) (centre g q)) as Tr. lra.
Qed.
