(** Proofs about the shipped configuration files. *)
From Coq Require Import Reals Lra ZArith Lia List Bool String.
From Flocq Require Import Core.Core IEEE754.BinarySingleNaN.
From Verif Require Import Outcome Num Float64 GridModel CollisionModel NumericsModel BufferModel BasisModel RobotModel DwaModel ErgodicModel ExplorationModel ParamModel
  Spec SpecRobot SpecErgodic SpecExploration SpecSystem SpecLimits SpecParams NumericsProofs RobotProofs SystemProofs LimitsFloat ParamProofs PropGridFloatAux PropLimitsAux.
Import ListNotations ExplorationModel.
Local Open Scope string_scope.
Local Open Scope list_scope.
Ltac Zify.zify_post_hook ::= idtac.

Section Any.
Context {T : Type} {NT : Num T}.
Definition ship_targets : list ((T * T) * (T * T)) :=
  [((lit 5 2, lit 5 2), (lit 3 2, lit 3 2)); ((lit 17 2, lit 5 2), (lit 3 2, lit 3 2))].
Definition ship (om : bool) : params T :=
  let y (a : T) := if om then a else n0 in
  mkParams (lit 1 10) (lit 1 2) (lit 1 1) (y (lit 1 1)) (lit 2 1) (lit (-1) 1) (y (lit (-1) 1)) (lit (-2) 1) (lit 5 2) (y (lit 5 2)) (lit 1 1)
    (lit 7 10) (lit 1 1) (lit 2 10) (lit 8 10) (lit 1 10) (lit 5 1) (lit 1 10) (lit 1 1) 10 1000000 100
    (if om then [lit 1 1; lit 1 1; lit 1 2] else [lit 1 1; lit 1 2])
    (lit 1 10) (lit 2 1) (lit 2 10) 3 (if om then 8 else 0)%Z 5 ship_targets.
Lemma ship_read om : to_u32 (@nofZ T NT 1000000) = Ok 1000000%Z -> main_of om (entries (shipped om)) = node_with om (ship om).
Proof.
  intros B. rewrite main_read. unfold read_params. destruct om; cbn [shipped]; set (s := entries _);
  change (get_uint s "num_basis" 10) with (Ok 10%Z); cbn [bind];
  change (get_double s "buffer_size" (nofZ 1000000)) with (@nofZ T NT 1000000); rewrite B; cbn [bind].
  - change (get_vector s "control_weights" (weights0 true)) with ([lit 1 1; lit 1 1; lit 1 2]).
    change (get_xml s "means") with (XArray (@rows T fst ship_targets)). change (get_xml s "sigmas") with (XArray (@rows T snd ship_targets)).
    change (xml_size (XArray (@rows T fst ship_targets))) with (Ok (List.length ship_targets)). rewrite (targets_fail (ship true) true eq_refl).
    cbn [bind]. rewrite read_all. change (pa_gaussians (ship true)) with ship_targets.
    destruct (gaussians_of ship_targets) as [t| | |]; reflexivity.
  - change (get_vector s "control_weights" (weights0 false)) with ([lit 1 1; lit 1 2]).
    change (get_xml s "means") with (XArray (@rows T fst ship_targets)). change (get_xml s "sigmas") with (XArray (@rows T snd ship_targets)).
    change (xml_size (XArray (@rows T fst ship_targets))) with (Ok (List.length ship_targets)). rewrite (targets_fail (ship false) false eq_refl).
    cbn [bind]. rewrite read_all. change (pa_gaussians (ship false)) with ship_targets.
    destruct (gaussians_of ship_targets) as [t| | |]; reflexivity.
Qed.
End Any.

(** ** Over the reals *)
Local Open Scope R_scope.
Definition shipR (om : bool) : params R := ship om.
Lemma read_R om : main_of om (entries (shipped om)) = node_of om (shipR om).
Proof. rewrite ship_read; [destruct om; reflexivity|]. apply (to_u32_IZR 1000000). unfold two32. lia. Qed.
Lemma ship_sizes om : sane_sizes (shipR om).
Proof. unfold sane_sizes. cbn. lia. Qed.
Lemma ship_limits om : sane_limits om (shipR om).
Proof. unfold sane_limits, in_box, reach, lower, upper. destruct om; cbn; lra. Qed.
Lemma ship_times om : sane_times (shipR om).
Proof. unfold sane_times. cbn. lra. Qed.
Lemma c86_starts om : exists n l, main_of om (entries (shipped om)) = @Ok (setup R) (Some (n, l)).
Proof.
  rewrite read_R. apply c79; [cbn; lra|cbn; lra|cbn; lia|].
  unfold startable. split; [destruct om; cbn; lia|]. split; [repeat constructor; cbn; lra|].
  cbn. rewrite !Rabs_pos_eq by lra. repeat (split; [first [lra|lia]|]). lra.
Qed.
Lemma calm_ok om ms : calm om ms -> odometry_ok om (shipR om) ms.
Proof.
  intros H v I. destruct (H v I) as (A & B & C). apply Rabs_le_inv in A, C. unfold recoverable, lower, upper, reach. destruct om.
  - apply Rabs_le_inv in B. cbn. lra.
  - assert (v1 v = 0) by (apply Rabs_le_inv in B; lra). cbn. lra.
Qed.
Lemma c86_limits om n l0 evs s l e u : main_of om (entries (shipped om)) = Ok (Some (n, l0)) ->
  exec n shared_init l0 evs s l -> calm om (messages evs) -> In e evs -> In (Cmd u) (ev_out e) ->
  Rabs (v0 u) <= 1 /\ Rabs (v1 u) <= (if om then 1 else 0) /\ Rabs (v2 u) <= 2.
Proof.
  intros N X O I C. rewrite read_R in N.
  pose proof (c75 om (shipR om) n l0 evs s l e u (ship_sizes om) (ship_limits om) N X (calm_ok om _ O) I C) as (A & B & D).
  unfold lower, upper in A, B, D. destruct om; cbn in A, B, D; (split; [|split]); apply Rabs_le; lra.
Qed.
Lemma ship_collision om n l : node_of om (shipR om) = Ok (Some (n, l)) ->
  c_brad (nd_collision n) = 7 / 10 /\ c_srad (nd_collision n) = 1 / 1 /\ c_othr (nd_collision n) = 2 / 10.
Proof.
  assert (S : forall model Rinv umin umax ay my mny vy, start model Rinv umin umax ay my mny vy (shipR om) = Ok (Some (n, l)) ->
    c_brad (nd_collision n) = 7 / 10 /\ c_srad (nd_collision n) = 1 / 1 /\ c_othr (nd_collision n) = 2 / 10).
  { intros. unfold start in H. destruct (gaussians_of _) as [t| | |]; cbn [bind] in H; try discriminate.
    destruct (collision_ctor _ _ _ _) as [c| | |] eqn:C; cbn [bind] in H; try discriminate.
    destruct (ec_ctor _ _ _ _ _ _ _ _ _ _ _) as [ec0| | |]; cbn [bind] in H; try discriminate.
    destruct (dwa_ctor _ _ _ _ _ _ _ _ _ _ _ _ _ _ _ _) as [dw| | |]; cbn [bind] in H; try discriminate.
    destruct (nlt _ _); [discriminate|]. injection H as <- _. cbn [nd_collision].
    unfold collision_ctor in C. destruct (nlt _ _); [discriminate|]. destruct (_ || _)%bool; [discriminate|]. injection C as <-. cbn. repeat split; reflexivity. }
  destruct om; intros H; unfold node_of, omni_node, cart_node in H; cbn [shipR ship weight_at pa_weights nth_error bind] in H; exact (S _ _ _ _ _ _ _ _ H).
Qed.
Lemma roomy_suitable om n l x g : node_of om (shipR om) = Ok (Some (n, l)) -> roomy x g -> suitable (shipR om) (nd_collision n) (3 / 2) x g.
Proof.
  intros N (M & P & Rs & Sp & La). destruct (ship_collision om n l N) as (Cb & Cs & Co). destruct P as (P1 & (P2 & P3 & P4) & P5).
  assert (Inv : / g_res g <= 46340).
  { replace 46340 with (/ (1 / 46340)) by field. apply Rinv_le; lra. }
  assert (Ip : 0 < / g_res g) by (apply Rinv_0_lt_compat; exact P1).
  assert (FL : forall z, 0 <= z <= 1 -> (- 46340 <= Zfloor (z / g_res g) <= 46340)%Z).
  { intros z Z. split; [apply Zfloor_lub; unfold Rdiv; nra|]. apply le_IZR. apply Rle_trans with (z / g_res g); [apply Zfloor_lb|]. unfold Rdiv. nra. }
  split; [exact M|]. split; [split; [exact P1|]; split; [split; [exact P2|split; [exact P3|exact P4]]|exact P5]|].
  split; [unfold proper_radii; rewrite Cb, Cs, Co; cbv zeta; split; [|split]; apply FL; lra|].
  split; [|split].
  - cbn [shipR ship pa_val_horizon pa_dwa_horizon]. rrn. rewrite Rmax_right by lra. replace (3 / 2 * (2 / 1)) with 3 by field. exact Sp.
  - left. destruct P2 as [P2 _]. assert (1 <= IZR (g_xsize g)) by (apply IZR_le; lia). nra.
  - cbn [shipR ship pa_target_resolution]. rrn. unfold Rdiv. replace (/ (1 * / 10)) with 10 by field. fold (3 / 2). exact La.
Qed.
Lemma ship_speed om u : in_box (lower om (shipR om)) (upper om (shipR om)) u -> speed u <= 3 / 2.
Proof.
  intros (A & B & _). unfold lower, upper in A, B. cbn in A, B.
  assert (-1 <= v0 u <= 1 /\ -1 <= v1 u <= 1) as ((A1 & A2) & (B1 & B2)) by (destruct om; lra).
  unfold speed. replace (3 / 2) with (sqrt ((3 / 2) * (3 / 2))) by (apply sqrt_square; lra). apply sqrt_le_1_alt. nra.
Qed.
Lemma c86_completes om n l0 evs s l lk draws t m0 m1 m2 m3 : main_of om (entries (shipped om)) = Ok (Some (n, l0)) ->
  exec n shared_init l0 evs s l -> callbacks m0 s (mo_test t) -> callbacks m1 (mo_test t) (mo_plan t) ->
  callbacks m2 (mo_plan t) (mo_check t) -> callbacks m3 (mo_check t) (mo_dwa t) -> calm om (messages evs ++ m0 ++ m1 ++ m2 ++ m3) ->
  let x := last_pose (lp_pose l) [lk] in roomy x (sh_grid (mo_plan t)) -> roomy x (sh_grid (mo_check t)) -> roomy x (sh_grid (mo_dwa t)) ->
  drawable (ec_buffer (lp_ec (stage_lookup l lk))) draws -> exists l' out, ExplorationModel.body n l (view lk draws t) = Ok (l', out).
Proof.
  intros N X C0 C1 C2 C3 O x G1 G2 G3 D. rewrite read_R in N.
  apply (c77 om (shipR om) n l0 evs s l (3 / 2) lk draws t m0 m1 m2 m3 (ship_sizes om) (ship_limits om) (ship_times om) N (ship_speed om) X C0 C1 C2 C3 (calm_ok _ _ O)).
  - exact (roomy_suitable om n l0 x _ N G1).
  - exact (roomy_suitable om n l0 x _ N G2).
  - exact (roomy_suitable om n l0 x _ N G3).
  - exact D.
Qed.

(** ** In binary64 *)
Definition started {A} (r : res (option A)) : bool := match r with Ok (Some _) => true | _ => false end.
Lemma c86_starts64 (L : libm) om : exists n l, @main_of b64 (F64 L) om (entries (@shipped b64 (F64 L) om)) = Ok (Some (n, l)).
Proof.
  assert (S : started (@main_of b64 (F64 L) om (entries (@shipped b64 (F64 L) om))) = true) by (destruct om; vm_compute; reflexivity).
  destruct (main_of _ _) as [[[n l]|]| | |]; try discriminate. exists n, l. reflexivity.
Qed.
Lemma value_at (x : b64) p q : (Z.abs p <= 2 ^ 53)%Z -> (-100 <= q <= 100)%Z -> B2SF x = B2SF (fl p q) -> B2R x = IZR p * bpow radix2 q /\ is_finite x = true.
Proof. intros Hp Hq E. apply B2SF_inj in E. subst x. exact (fl_val p q Hp Hq). Qed.
Section Shipped64.
Variable L : libm.
Definition ship64 (om : bool) : params b64 := @ship b64 (F64 L) om.
Lemma read_64 om : @main_of b64 (F64 L) om (entries (@shipped b64 (F64 L) om)) = @node64 L om (ship64 om).
Proof. rewrite (@ship_read b64 (F64 L)); [destruct om; reflexivity|vm_compute; reflexivity]. Qed.
Lemma ship_counts om : sane_counts (ship64 om).
Proof. unfold sane_counts. destruct om; cbn; lia. Qed.
(** the limits and the changes of velocity as real numbers *)
Lemma ship_values om :
  (B2R (v0 (lower64 om (ship64 om))) = -1 /\ is_finite (v0 (lower64 om (ship64 om))) = true) /\
  (B2R (v0 (upper64 om (ship64 om))) = 1 /\ is_finite (v0 (upper64 om (ship64 om))) = true) /\
  (B2R (v0 (reach64 om (ship64 om))) = 1 / 2 /\ is_finite (v0 (reach64 om (ship64 om))) = true) /\
  (B2R (v1 (lower64 om (ship64 om))) = (if om then -1 else 0) /\ is_finite (v1 (lower64 om (ship64 om))) = true) /\
  (B2R (v1 (upper64 om (ship64 om))) = (if om then 1 else 0) /\ is_finite (v1 (upper64 om (ship64 om))) = true) /\
  (B2R (v1 (reach64 om (ship64 om))) = (if om then 1 / 2 else 0) /\ is_finite (v1 (reach64 om (ship64 om))) = true) /\
  (B2R (v2 (lower64 om (ship64 om))) = -2 /\ is_finite (v2 (lower64 om (ship64 om))) = true) /\
  (B2R (v2 (upper64 om (ship64 om))) = 2 /\ is_finite (v2 (upper64 om (ship64 om))) = true) /\
  (1 / 5 <= B2R (v2 (reach64 om (ship64 om))) <= 1 /\ is_finite (v2 (reach64 om (ship64 om))) = true).
Proof.
  assert (W : forall r : b64, B2SF r = B2SF (fl 3602879701896397 (-54)) -> 1 / 5 <= B2R r <= 1 /\ is_finite r = true).
  { intros r E. destruct (value_at r 3602879701896397 (-54) ltac:(lia) ltac:(lia) E) as [A B]. split; [|exact B]. rewrite A. cbn. lra. }
  destruct om; (split; [|split; [|split; [|split; [|split; [|split; [|split; [|split]]]]]]]);
    first [apply W; vm_compute; reflexivity
      |apply (value _ (-2)); [lia|vm_compute; reflexivity]|apply (value _ (-1)); [lia|vm_compute; reflexivity]|apply (value _ 0); [lia|vm_compute; reflexivity]
      |apply (value _ 1); [lia|vm_compute; reflexivity]|apply (value _ 2); [lia|vm_compute; reflexivity]|apply (value_half _ 1); [lia|vm_compute; reflexivity]].
Qed.
Lemma ship_limits64 om : sane_limits64 om (ship64 om).
Proof.
  destruct (ship_values om) as ((A1 & A2) & (B1 & B2) & (C1 & C2) & (D1 & D2) & (E1 & E2) & (F1 & F2) & (G1 & G2) & (H1 & H2) & (I1 & I2)).
  pose proof p900. unfold sane_limits64, sane_axis. rewrite A1, B1, C1, D1, E1, F1, G1, H1.
  split; [|split]; repeat (split; [assumption|]); destruct om; lra.
Qed.
Lemma calm_ok64 om ms : calm64 om ms -> odometry_ok64 om (ship64 om) ms.
Proof.
  intros H v I. destruct (H v I) as (P & Q & R & A & B & C). apply Rabs_le_inv in A, B, C.
  destruct (ship_values om) as ((A1 & A2) & (B1 & B2) & (C1 & C2) & (D1 & D2) & (E1 & E2) & (F1 & F2) & (G1 & G2) & (H1 & H2) & (I1 & I2)).
  unfold recoverable64, recoverable_axis. rewrite A1, B1, C1, D1, E1, F1, G1, H1.
  split; [|split]; (split; [assumption|]); destruct om; lra.
Qed.
Lemma slack_small n B : (0 <= n <= 8)%Z -> 0 <= B -> (IZR n + 2) * B <= 14 -> slack n B <= bpow radix2 (-47).
Proof.
  intros N B0 H. unfold slack. assert (0 <= IZR n <= 8) by (split; apply IZR_le; lia).
  assert (E : bpow radix2 (-1074) <= bpow radix2 (-60)) by (apply bpow_le; lia). pose proof (bpow_ge_0 radix2 (-1074)).
  assert (E51 : bpow radix2 (-51) = 512 * bpow radix2 (-60)) by (change 512 with (bpow radix2 9); rewrite <- bpow_plus; reflexivity).
  assert (E47 : bpow radix2 (-47) = 8192 * bpow radix2 (-60)) by (change 8192 with (bpow radix2 13); rewrite <- bpow_plus; reflexivity).
  rewrite E51, E47. pose proof (bpow_gt_0 radix2 (-60)). set (e := bpow radix2 (-60)) in *. set (t := bpow radix2 (-1074)) in *. nra.
Qed.
Lemma near_at_most n lo hi x r : (0 <= n <= 8)%Z -> 0 <= r -> (IZR n + 2) * r <= 14 -> B2R lo = - r -> B2R hi = r -> nearly_within n lo hi x -> at_most r x.
Proof.
  intros N R0 H A B [X|[F X]]; [left; exact X|right; split; [exact F|]]. cbv zeta in X. rewrite A, B, Rabs_Ropp, (Rabs_pos_eq r R0), Rmax_left in X by lra.
  pose proof (slack_small n r N R0 H). apply Rabs_le. lra.
Qed.
Lemma c86_limits64 om n l0 evs s l e u : @main_of b64 (F64 L) om (entries (@shipped b64 (F64 L) om)) = Ok (Some (n, l0)) ->
  @exec b64 (F64 L) n (@shared_init b64 (F64 L)) l0 evs s l -> calm64 om (messages evs) -> In e evs -> In (Cmd u) (ev_out e) ->
  at_most 1 (v0 u) /\ at_most (if om then 1 else 0) (v1 u) /\ at_most 2 (v2 u).
Proof.
  intros N X O I C. rewrite read_64 in N.
  pose proof (@c75_b64 L om (ship64 om) n l0 evs s l e u (ship_counts om) (ship_limits64 om) N X (calm_ok64 om _ O) I C) as (A & B & D).
  destruct (ship_values om) as ((A1 & A2) & (B1 & B2) & (C1 & C2) & (D1 & D2) & (E1 & E2) & (F1 & F2) & (G1 & G2) & (H1 & H2) & (I1 & I2)).
  split; [|split].
  - refine (near_at_most _ _ _ _ 1 _ _ _ _ _ A); [destruct om; cbn; lia|lra|destruct om; cbn; lra|rewrite A1; lra|exact B1].
  - refine (near_at_most _ _ _ _ _ _ _ _ _ _ B); [destruct om; cbn; lia|destruct om; lra|destruct om; cbn; lra|rewrite D1; destruct om; lra|exact E1].
  - refine (near_at_most _ _ _ _ 2 _ _ _ _ _ D); [destruct om; cbn; lia|lra|destruct om; cbn; lra|rewrite G1; lra|exact H1].
Qed.
End Shipped64.
