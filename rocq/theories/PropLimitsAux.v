(** Examples for PropLimits. *)
From Coq Require Import Reals ZArith List Bool Lia Lra.
From Flocq Require Import Core.Core IEEE754.BinarySingleNaN.
From Verif Require Import Outcome Num Float64 FloatLemmas GridModel CollisionModel NumericsModel RobotModel DwaModel ErgodicModel ExplorationModel
  SpecDwa SpecErgodic SpecExploration SpecLimits AngleFloat DwaProofs ExplorationProofs WindowFloat LimitsFloat PropMappingAux PropDwaAux PropExplorationAux PropGridFloatAux.
Import ListNotations ExplorationModel.
Local Open Scope R_scope.
Ltac Zify.zify_post_hook ::= idtac.

Lemma value (x : b64) p : (Z.abs p <= 2 ^ 53)%Z -> B2SF x = B2SF (fl p 0) -> B2R x = IZR p /\ is_finite x = true.
Proof.
  intros Hp E. apply B2SF_inj in E. subst x. destruct (fl_val p 0 Hp ltac:(lia)) as [A B]. split; [|exact B].
  rewrite A. change (bpow radix2 0) with 1. lra.
Qed.
Lemma value_half (x : b64) p : (Z.abs p <= 2 ^ 53)%Z -> B2SF x = B2SF (fl p (-1)) -> B2R x = IZR p / 2 /\ is_finite x = true.
Proof.
  intros Hp E. apply B2SF_inj in E. subst x. destruct (fl_val p (-1) Hp ltac:(lia)) as [A B]. split; [|exact B].
  rewrite A. change (bpow radix2 (-1)) with (/ 2). lra.
Qed.
Lemma p900 : 1000 <= bpow radix2 900.
Proof. apply Rle_trans with (bpow radix2 10); [cbn; lra|apply bpow_le; lia]. Qed.
(** Limits and reach given by whole numbers *)
Lemma sane_values (lo hi r : b64) a c e : (-1000 <= a <= 0)%Z -> (0 <= c <= 1000)%Z -> (0 <= e <= 1000)%Z ->
  B2SF lo = B2SF (fl a 0) -> B2SF hi = B2SF (fl c 0) -> B2SF r = B2SF (fl e 0) -> sane_axis lo hi r.
Proof.
  intros Ha Hc He A C E. destruct (value lo a ltac:(lia) A) as [A1 A2]. destruct (value hi c ltac:(lia) C) as [C1 C2]. destruct (value r e ltac:(lia) E) as [E1 E2].
  pose proof p900. destruct Ha as [Ha1 Ha2], Hc as [Hc1 Hc2], He as [He1 He2].
  apply IZR_le in Ha1, Ha2, Hc1, Hc2, He1, He2. unfold sane_axis. rewrite A1, C1, E1. repeat split; try assumption; lra.
Qed.
Lemma recoverable_values (lo hi r v : b64) a c e k : (-1000 <= a <= 0)%Z -> (0 <= c <= 1000)%Z -> (0 <= e <= 1000)%Z -> (2 * (a - e) <= k <= 2 * (c + e))%Z ->
  B2SF lo = B2SF (fl a 0) -> B2SF hi = B2SF (fl c 0) -> B2SF r = B2SF (fl e 0) -> B2SF v = B2SF (fl k (-1)) -> recoverable_axis lo hi r v.
Proof.
  intros Ha Hc He Hk A C E K. destruct (value lo a ltac:(lia) A) as [A1 A2]. destruct (value hi c ltac:(lia) C) as [C1 C2]. destruct (value r e ltac:(lia) E) as [E1 E2].
  destruct (value_half v k ltac:(lia) K) as [K1 K2]. destruct Hk as [Hk1 Hk2]. apply IZR_le in Hk1, Hk2. rewrite mult_IZR, ?minus_IZR, ?plus_IZR in *.
  unfold recoverable_axis. rewrite A1, C1, E1, K1. split; [exact K2|]. lra.
Qed.

(** ** The window of PropDwaAux with three samples *)
Definition w3 : dwa b64 := match window1 3 with Ok d => d | _ => mkDwa body1 z0 z0 z0 x5 x5 x5 0 0 0 0 end.
Definition still : vec3 b64 := V3 z0 z0 z0.
Lemma w3_is : window1 3 = Ok w3.
Proof. reflexivity. Qed.
Lemma w3_sane : sane_window w3 still.
Proof.
  unfold sane_window. cbv zeta. split; [split|split; [split|split; [split|]]].
  - apply (sane_values _ _ _ (-1) 1 4); try lia; vm_compute; reflexivity.
  - apply (recoverable_values _ _ _ _ (-1) 1 4 0); try lia; vm_compute; reflexivity.
  - apply (sane_values _ _ _ 0 0 0); try lia; vm_compute; reflexivity.
  - apply (recoverable_values _ _ _ _ 0 0 0 0); try lia; vm_compute; reflexivity.
  - apply (sane_values _ _ _ 0 0 0); try lia; vm_compute; reflexivity.
  - apply (recoverable_values _ _ _ _ 0 0 0 0); try lia; vm_compute; reflexivity.
  - vm_compute. repeat split; congruence.
Qed.
Lemma w3_run : check (fun s u => s && Beqb (v0 u) (b 1 0)) (@dwa_control b64 (F64 toy_libm) w3 (room 200) x5 still (V3 (b 2 0) z0 z0)) = true.
Proof. vm_compute. reflexivity. Qed.
Definition answers64 (c : collision b64) (g : grid b64) (ps : list (vec3 b64)) : bool :=
  forallb (fun p => is_ok (@collisionCheck b64 (F64 toy_libm) c g (v0 p) (v1 p))) ps.
Lemma w3_answers_run : forallb (fun u => answers64 (dw_collision w3) (room 200) (@rollout b64 (F64 toy_libm) (Z.to_nat (dw_steps w3)) (dw_dt w3) u x5))
  (@grid_of b64 (F64 toy_libm) w3 still) = true.
Proof. vm_compute. reflexivity. Qed.
Lemma answered (w : dwa b64) c g x v : forallb (fun u => answers64 c g (@rollout b64 (F64 toy_libm) (Z.to_nat (dw_steps w)) (dw_dt w) u x)) (@grid_of b64 (F64 toy_libm) w v) = true ->
  forall u p, @sampled b64 (F64 toy_libm) w v u -> In p (@rollout b64 (F64 toy_libm) (Z.to_nat (dw_steps w)) (dw_dt w) u x) ->
  is_ok (@collisionCheck b64 (F64 toy_libm) c g (v0 p) (v1 p)) = true.
Proof.
  intros R u p S I. pose proof (proj1 (forallb_forall _ _) R u (proj2 (@grid_of_sampled b64 (F64 toy_libm) w v u) S)) as A. exact (proj1 (forallb_forall _ _) A p I).
Qed.
Lemma w3_answers u p : @sampled b64 (F64 toy_libm) w3 still u -> In p (@rollout b64 (F64 toy_libm) (Z.to_nat (dw_steps w3)) (dw_dt w3) u x5) ->
  is_ok (@collisionCheck b64 (F64 toy_libm) (dw_collision w3) (room 200) (v0 p) (v1 p)) = true.
Proof. exact (answered w3 (dw_collision w3) (room 200) x5 still w3_answers_run u p). Qed.
Lemma w3_times : (0 <= dw_steps w3 <= 2 ^ 24)%Z /\ is_finite (dw_dt w3) = true /\ is_finite (b 1 (-1)) = true /\
  0 < B2R (dw_dt w3) <= bpow radix2 500 /\ bpow radix2 (-400) <= B2R (b 1 (-1)) <= bpow radix2 500 /\
  IZR (dw_steps w3) * B2R (dw_dt w3) <= IZR (lenZ [x5; x5]) * B2R (b 1 (-1)).
Proof.
  destruct (value_half (b 1 (-1)) 1 ltac:(lia) eq_refl) as [A B]. destruct (value_half (dw_dt w3) 1 ltac:(lia)) as [C D]; [vm_compute; reflexivity|].
  assert (S : dw_steps w3 = 2%Z) by (vm_compute; reflexivity). rewrite S, A, C.
  assert (1 <= bpow radix2 500) by (apply Rle_trans with (bpow radix2 0); [cbn; lra|apply bpow_le; lia]).
  assert (bpow radix2 (-400) <= / 2) by (apply (bpow_le radix2 (-400) (-1)); lia).
  split; [lia|]. split; [exact D|]. split; [exact B|]. change (lenZ [x5; x5]) with 2%Z. split; [lra|]. split; [lra|]. lra.
Qed.

(** ** The cart node: odometry of 1/2 m/s arrives before the map, a twist is published *)
Lemma usual_counts : sane_counts usual.
Proof. vm_compute. repeat split; congruence. Qed.
Lemma usual_limits : sane_limits64 false usual.
Proof.
  split; [|split].
  - apply (sane_values _ _ _ (-1) 1 4); try lia; vm_compute; reflexivity.
  - apply (sane_values _ _ _ 0 0 0); try lia; vm_compute; reflexivity.
  - apply (sane_values _ _ _ 0 0 0); try lia; vm_compute; reflexivity.
Qed.
Definition odom_half : vec3 b64 := V3 (b 1 (-1)) z0 z0.
Lemma half_recoverable : recoverable64 false usual odom_half.
Proof.
  split; [|split].
  - apply (recoverable_values _ _ _ _ (-1) 1 4 1); try lia; vm_compute; reflexivity.
  - apply (recoverable_values _ _ _ _ 0 0 0 0); try lia; vm_compute; reflexivity.
  - apply (recoverable_values _ _ _ _ 0 0 0 0); try lia; vm_compute; reflexivity.
Qed.
Definition half_script := [([MM 53; MOdom odom_half], @nil (message b64), home)].
Lemma half_run : scene usual half_script (fun n evs s l => match flat_map (fun e => commands (ev_out e)) evs with [u] => is_finite (v0 u) | _ => false end) = true.
Proof. vm_compute. reflexivity. Qed.
Lemma play_messages {T} {NT : Num T} n script : forall s l evs s' l', play n s l script = Ok (evs, s', l') ->
  messages evs = flat_map (fun c => fst (fst c) ++ snd (fst c)) script.
Proof.
  induction script as [|[[early late] lk] script IH]; intros s l evs s' l' H; cbn [play] in H.
  - injection H as <- <- <-. reflexivity.
  - cbv zeta in H. destruct (ExplorationModel.body _ _ _) as [[l1 out]| | |]; cbn [bind] in H; try discriminate.
    destruct (play _ _ _ script) as [[[evs1 s1] lf]| | |] eqn:P; cbn [bind] in H; try discriminate. injection H as <- <- <-.
    unfold messages in *. cbn [flat_map ev_early ev_late fst snd]. rewrite (IH _ _ _ _ _ P). reflexivity.
Qed.
Lemma scene_played p script test : scene p script test = true -> exists n l evs s l', @cart_node b64 NN p = Ok (Some (n, l)) /\
  @play b64 NN n (@shared_init b64 NN) l script = Ok (evs, s, l') /\ test n evs s l' = true.
Proof.
  unfold scene. destruct (@cart_node b64 NN p) as [[[n l]|]| | |]; try discriminate. destruct (play _ _ _ _) as [[[evs s] l']| | |] eqn:P; try discriminate.
  intros R. exists n, l, evs, s, l'. auto.
Qed.
Lemma half_exec : exists (L : libm) n l evs s l' e u, @cart_node b64 (F64 L) usual = Ok (Some (n, l)) /\
  @exec b64 (F64 L) n (@shared_init b64 (F64 L)) l evs s l' /\ odometry_ok64 false usual (messages evs) /\
  In (MOdom odom_half) (messages evs) /\ In e evs /\ In (Cmd u) (ev_out e) /\ is_finite (v0 u) = true.
Proof.
  destruct (scene_played _ _ _ half_run) as (n & l & evs & s & l' & N & P & R). cbv beta in R.
  pose proof (play_messages _ _ _ _ _ _ _ P) as M. destruct (@play_exec b64 NN n half_script (@shared_init b64 NN) l evs s l' eq_refl P) as [X _]. clear P.
  destruct (flat_map _ evs) as [|u [|]] eqn:F; try discriminate.
  assert (I : In u (flat_map (fun e => commands (ev_out e)) evs)) by (rewrite F; left; reflexivity).
  apply in_flat_map in I. destruct I as (e & I1 & I2).
  exists node_libm, n, l, evs, s, l', e, u. split; [exact N|]. split; [exact X|]. rewrite M. cbn [half_script flat_map fst snd app].
  split; [|split; [right; left; reflexivity|split; [exact I1|split; [|exact R]]]].
  - intros v [E|[E|[]]]; [discriminate|]. injection E as <-. exact half_recoverable.
  - unfold commands in I2. apply in_flat_map in I2. destruct I2 as ([v| |] & J1 & J2); [destruct J2 as [->|[]]; exact J1|destruct J2..].
Qed.
