(** The example of PropSafe: a robot that creeps towards a wall. *)
From Coq Require Import Reals Lra ZArith Lia List Bool.
From Flocq Require Import Core.Raux Core.Zaux IEEE754.BinarySingleNaN.
From Verif Require Import Outcome Num Float64 GridModel CollisionModel NumericsModel Spec SpecMotion SpecRobot SpecErgodic SpecSystem SpecNear SpecSafe
  MotionProofs NearProofs PropMappingAux PropDwaAux PropExplorationAux PropSystemAux PropNearAux.
Import ListNotations.
Local Open Scope R_scope.

Definition walled64 : grid b64 := mkGrid 10 10 (b 1 0) z0 z0 (b 10 0) (b 10 0) wall_data.
Definition body64 : collision b64 := mkCollision (b 2 0) (b 4 0) (b 2 0) (b 1 (-1)).
Definition x64 : vec3 b64 := V3 (b 7 (-1)) (b 11 (-1)) z0.
Definition creep64 : vec3 b64 := V3 (b 1 (-3)) z0 z0.
Definition path64 : R -> vec3 R := flow (real3 x64) (B2R (v0 creep64)) (B2R (v1 creep64)) (B2R (v2 creep64)).
Lemma nums : B2R (b 1 0) = 1 /\ B2R (b 7 (-1)) = 7 / 2 /\ B2R (b 11 (-1)) = 11 / 2 /\ B2R (b 1 (-3)) = / 8 /\ B2R z0 = 0.
Proof. repeat split; value. Qed.
Lemma path64_at t : path64 t = V3 (7 / 2 + t / 8) (11 / 2) 0.
Proof.
  destruct nums as (_ & E7 & E11 & E8 & E0). unfold path64, flow, real3. cbn [v0 v1 v2 x64 creep64]. rewrite E7, E11, E8, E0, cos_0, sin_0.
  destruct (Req_EM_T 0 0) as [_|N]; [|lra]. cbn [v0 v1 v2]. f_equal; field.
Qed.
Lemma creep_tame : tame x64 creep64 (b 1 0) 2.
Proof.
  destruct nums as (E1 & E7 & E11 & E8 & E0). unfold tame, moderate, stride, finite3. cbn [v0 v1 v2 x64 creep64]. rewrite E1, E7, E11, E8, E0.
  repeat split; try reflexivity; try lia; small_abs.
Qed.
Lemma walled_usable : usable walled64.
Proof.
  destruct nums as (E1 & _). unfold usable. cbn [walled64 g_res g_xmin g_ymin g_xsize g_ysize]. rewrite E1.
  assert (B1 : bpow radix2 (-500) <= 1) by (apply (bpow_le radix2 (-500) 0); lia). assert (B2 : 1 <= bpow radix2 500) by (apply (bpow_le radix2 0 500); lia).
  repeat split; try reflexivity; try lia; try assumption; vm_compute; congruence.
Qed.
Definition occ64 (q : Z * Z) : bool := ((0 <=? snd q) && (snd q <? 10) && (0 <=? fst q) && (fst q <? 10))%Z &&
  match nth_error wall_data (Z.to_nat (snd q * 10 + fst q)) with Some v => negb (@nlt b64 NR (@ndiv b64 NR (@nofZ b64 NR v) (@nofZ b64 NR 100)) (b 1 (-1))) | None => false end.
Lemma occ_all : forallb occ64 ((9, 0)%Z :: wall_cells) = true.
Proof. vm_compute. reflexivity. Qed.
Lemma walled_wall64 : wall64 (rounded (b64_ofZ 1)) walled64 (c_occ body64) (9, 0)%Z wall_cells.
Proof.
  split; [exact (proj1 walled_wall)|]. intros q I. pose proof (proj1 (forallb_forall _ _) occ_all q I) as H. unfold occ64 in H.
  apply andb_true_iff in H. destruct H as [H V]. repeat (apply andb_true_iff in H; destruct H as [H ?]).
  split; [split; cbn [walled64 g_xsize g_ysize]; lia|]. cbn [walled64 g_xsize g_data]. destruct (nth_error wall_data _) as [v|]; [|discriminate].
  exists v. split; [reflexivity|]. apply negb_true_iff in V. exact V.
Qed.
Lemma creep_all : let L := rounded (b64_ofZ 1) in accurate L /\ tame x64 creep64 (b 1 0) 2 /\ 0 < B2R (b 1 0) /\
  twist_motion (real3 x64) (B2R (v0 creep64)) (B2R (v1 creep64)) (B2R (v2 creep64)) path64 /\
  @num_steps b64 (F64 L) (b 1 0) (b 2 0) = Ok 2%Z /\ @validate_control b64 (F64 L) body64 walled64 x64 creep64 (b 1 0) (b 2 0) = Ok true /\
  usable walled64 /\ whole_cells L body64 walled64 2 4 4 /\ wall64 L walled64 (c_occ body64) (9, 0)%Z wall_cells /\
  (forall s, 0 <= s <= IZR 2 * B2R (b 1 0) -> inside (real_grid walled64) (IZR 2 * drift creep64 (b 1 0)) (path64 s)).
Proof.
  destruct nums as (E1 & E7 & E11 & E8 & E0). intros L.
  split; [exact rounded_accurate|]. split; [exact creep_tame|]. split; [rewrite E1; lra|]. split; [apply flow_motion|].
  split; [vm_compute; reflexivity|]. split; [vm_compute; reflexivity|]. split; [exact walled_usable|].
  split; [repeat split; try (vm_compute; reflexivity); vm_compute; congruence|]. split; [exact walled_wall64|].
  intros s Hs. rewrite E1 in Hs. rewrite path64_at. unfold inside, drift, stride. cbn [real_grid walled64 creep64 g_xmin g_ymin g_xsize g_ysize g_res v0 v1].
  rewrite E1, E8, E0. unfold Rabs. repeat destruct (Rcase_abs _); lra.
Qed.
