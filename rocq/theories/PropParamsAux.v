(** Examples for PropParams. *)
From Coq Require Import Reals ZArith List Bool String Lia Lra.
From Flocq Require Import Core.Core IEEE754.BinarySingleNaN.
From Verif Require Import Outcome Num Float64 GridModel CollisionModel NumericsModel BufferModel BasisModel RobotModel DwaModel ErgodicModel ExplorationModel ParamModel
  Spec SpecRobot SpecErgodic SpecExploration SpecSystem SpecLimits SpecParams NumericsProofs BasisProofs RobotProofs ErgodicProofs ExplorationProofs PredictProofs ClearanceProofs SystemProofs LimitsFloat
  ParamProofs ShippedProofs PropMappingAux PropDwaAux PropExplorationAux PropGridFloatAux PropLimitsAux PropSystemAux.
Import ListNotations ExplorationModel.
Local Open Scope string_scope.
Local Open Scope list_scope.
Local Open Scope R_scope.
Ltac Zify.zify_post_hook ::= idtac.

Lemma million : (0 <= 1000000 < 2 ^ 31)%Z. Proof. lia. Qed.
Lemma rounding (s : server R) name dflt d : s name = Some (XDouble d) -> - 2147483648 <= d <= 2147483647 ->
  get_int s name dflt = Ok (if Rle_dec 0 d then Zfloor (d + 1 / 2) else Zfloor d).
Proof. intros E H. apply c85_rounding; [exact E|]. change (IZR two31) with 2147483648. lra. Qed.
Lemma given_example : (0 <= pa_buffer_size (shipR true) < 2 ^ 31)%Z /\ is_ok (main_of true (entries (entries_of (shipR true)))) = true /\ wrapped (shipR true) = shipR true.
Proof.
  split; [cbn; lia|]. split; [|reflexivity]. rewrite (c85_given true (shipR true)) by (apply exact_R; cbn; lia). change (wrapped (shipR true)) with (shipR true).
  destruct (c86_starts true) as (n & l & E). rewrite read_R in E. change (node_with true (shipR true)) with (node_of true (shipR true)). rewrite E. reflexivity.
Qed.
Lemma same_example : same_value (Some (XInt 2)) (Some (XDouble 2)) /\
  same_value (Some (XArray [XInt 1; XDouble (1 / 2)])) (Some (XArray [XDouble 1; XDouble (1 / 2)])).
Proof.
  assert (S : forall z, (- 2 ^ 31 <= z < 2 ^ 31)%Z -> same_number (XInt z) (XDouble (IZR z))).
  { intros z Z. right. exists z. split; [exact Z|]. left. split; reflexivity. }
  split; right; (eexists; eexists; split; [reflexivity|split; [reflexivity|]]).
  - left. apply (S 2%Z). lia.
  - right. eexists. eexists. split; [reflexivity|]. split; [reflexivity|]. constructor; [apply (S 1%Z); lia|]. constructor; [left; reflexivity|constructor].
Qed.
Lemma one_target a b : exists ts, gaussians_of [((a, b), (2, 2))] = @Ok (list (gaussian R)) ts /\ List.length ts = 1%nat.
Proof. eexists. cbn [gaussians_of]. rewrite gaussian_ok by lra. cbn [bind]. split; reflexivity. Qed.
Lemma targets_example : (rows_of false <= List.length (pa_weights (shipR false)))%nat /\ integer_pair (@XArray R [XInt 2; XDouble 3]) /\
  exists ts, gaussians_of [((1, 1), (2, 2))] = Ok ts /\ List.length ts = 1%nat.
Proof. split; [cbn; lia|]. split; [left; eexists; eexists; reflexivity|apply one_target]. Qed.
Lemma rounding_example : get_int (entries [("batch_size", XDouble (5 / 2))]) "batch_size" 100 = Ok 3%Z /\
  get_int (entries [("batch_size", XDouble (-5 / 4))]) "batch_size" 100 = Ok (-2)%Z.
Proof.
  split; (erewrite rounding; [|reflexivity|lra]); (destruct (Rle_dec _ _); try (exfalso; lra)); f_equal; apply Zfloor_imp; rewrite plus_IZR; lra.
Qed.
Lemma buffer_example : main_of false (entries [("buffer_size", XInt (-1)); ("means", XArray []); ("sigmas", @XArray R [])]) = UB UFloatCast.
Proof. apply (c85_buffer false _ (IZR (-1))); [right; exists (-1)%Z; split; reflexivity|discriminate|left; lra]. Qed.
Lemma integer_coordinate : exists (p : params R) gs, is_ok (main_of false (with_targets (XArray (rows fst gs)) (XArray (rows snd gs)) p)) = true /\
  main_of false (with_targets (XArray [XArray [XInt 2; XInt 3]]) (XArray (rows snd gs)) p) = Throw EXmlRpc /\ map fst gs = [(2, 3)].
Proof.
  set (p := mkParams (1 / 2) 1 1 0 1 (-1) 0 (-1) 4 0 4 1 2 (1 / 2) (1 / 2) (1 / 2) 2 1 1 2 10 5 [1; 1]
    (1 / 2) 1 1 3 0 3 [((2, 3), (1, 1))]).
  exists p, [((2, 3), (1, 1))]. split; [|split; [|reflexivity]].
  - change (with_targets _ _ p) with (entries (entries_of p)). rewrite c85_given by (apply exact_R; cbn; lia). change (wrapped p) with p.
    assert (N : exists n l, node_of false p = Ok (Some (n, l))).
    { apply c79; [cbn; lra|cbn; lra|cbn; lia|]. unfold startable.
      cbn [p pa_weights pa_gaussians pa_boundary_radius pa_search_radius pa_occupied_threshold pa_ec_horizon pa_ec_dt pa_num_basis pa_dwa_horizon pa_dwa_dt List.length].
      rewrite !Rabs_pos_eq by lra. split; [lia|]. split; [constructor; [cbn; lra|constructor]|]. repeat (split; [lra|]). split; [lia|]. lra. }
    destruct N as (n & l & E). change (node_with false p) with (node_of false p). rewrite E. reflexivity.
  - apply (c85_integer_means false p [] [] _ [] _); [apply exact_R; cbn; lia|cbn; lia|reflexivity|left; eexists; eexists; reflexivity].
Qed.

(** ** C86 *)
Lemma roomy_example : roomy (V3 (11 / 2) (11 / 2) 0) (grid_of_msg (mkMsg 10 10 1 0 0 (repeat 0%Z 100))).
Proof.
  split; [eexists; reflexivity|]. split; [exact yard_proper|]. split; [cbn; lra|]. split; [apply space_near; cbn; lra|cbn; lra].
Qed.
Lemma calm_example : calm true [MOdom (V3 (3 / 2) (-1) (11 / 5)); MMap (mkMsg 2 1 1 0 0 [10; 20]%Z)] /\
  calm64 false [MOdom (V3 (b64_ofZ 1) (b64_ofZ 0) (b64_ofZ (-2)))].
Proof.
  split.
  - intros v [E|[E|[]]]; [|discriminate]. injection E as <-. cbn [v0 v1 v2]. split; [|split]; apply Rabs_le; lra.
  - intros v [E|[]]. assert (Q : v = V3 (b64_ofZ 1) (b64_ofZ 0) (b64_ofZ (-2))) by congruence. subst v. cbn [v0 v1 v2].
    destruct (value (b64_ofZ 1) 1 ltac:(lia) eq_refl) as [A B]. destruct (value (b64_ofZ 0) 0 ltac:(lia) eq_refl) as [C D]. destruct (value (b64_ofZ (-2)) (-2) ltac:(lia) eq_refl) as [G F].
    rewrite A, C, G. repeat (split; [assumption|]). split; [|split]; apply Rabs_le; lra.
Qed.
(** One iteration of either node: odometry and the map arrive, the pose is known, a twist is published *)
Definition tfS : transform R := mkTf (11 / 2) (11 / 2) (Q4 0 0 0 1).
Definition odomS : vec3 R := V3 (1 / 2) 0 (1 / 4).
Definition sS : shared R := deliver_all [MOdom odomS; MMap yard_msg] shared_init.
Definition momS : moments R := mkMoments sS sS sS sS sS.
Lemma calmS om : calm om [MOdom odomS; MMap yard_msg].
Proof. intros v [E|[E|[]]]; [|discriminate]. injection E as <-. cbn [v0 v1 v2 odomS]. split; [|split]; destruct om; cbv iota; apply Rabs_le; lra. Qed.
Lemma ship_buffer om n l : node_of om (shipR om) = Ok (Some (n, l)) -> ec_buffer (lp_ec l) = buffer_ctor 1000000 100.
Proof.
  assert (S : forall model Rinv umin umax ay my mny vy, start model Rinv umin umax ay my mny vy (shipR om) = Ok (Some (n, l)) -> ec_buffer (lp_ec l) = buffer_ctor 1000000 100).
  { intros. unfold start in H. destruct (gaussians_of _) as [t| | |]; cbn [bind] in H; try discriminate.
    destruct (collision_ctor _ _ _ _) as [c| | |]; cbn [bind] in H; try discriminate.
    destruct (ec_ctor _ _ _ _ _ _ _ _ _ _ _) as [ec0| | |] eqn:E; cbn [bind] in H; try discriminate.
    destruct (dwa_ctor _ _ _ _ _ _ _ _ _ _ _ _ _ _ _ _) as [dw| | |]; cbn [bind] in H; try discriminate.
    destruct (nlt _ _); [discriminate|]. injection H as _ <-. cbn [loop_init lp_ec setTarget set_target ec_buffer].
    apply ctor_inv in E; [|cbn; lia|cbn; unfold two32; lia]. destruct E as (_ & -> & _). reflexivity. }
  destruct om; intros H; unfold node_of, omni_node, cart_node in H; cbn [shipR ship weight_at pa_weights nth_error bind] in H; exact (S _ _ _ _ _ _ _ _ H).
Qed.
Lemma shipped_run om : exists n l evs s l' e u, main_of om (entries (shipped om)) = Ok (Some (n, l)) /\ exec n shared_init l evs s l' /\
  calm om (messages evs) /\ In e evs /\ In (Cmd u) (ev_out e).
Proof.
  destruct (c86_starts om) as (n & l & N).
  assert (C : callbacks [MOdom odomS; MMap yard_msg] shared_init sS) by (apply deliver_all_callbacks; reflexivity).
  assert (G : roomy (last_pose (lp_pose l) [Some tfS]) (sh_grid sS)).
  { cbn [last_pose fold_left]. change (sh_grid sS) with (grid_of_msg yard_msg). split; [eexists; reflexivity|]. split; [exact yard_proper|]. split; [cbn; lra|]. split; [apply space_near; cbn; lra|cbn; lra]. }
  destruct (c86_completes om n l [] shared_init l (Some tfS) [] momS [MOdom odomS; MMap yard_msg] [] [] [] N (exec_nil _ _ _) C (cb_none _) (cb_none _) (cb_none _)
    (calmS om) G G G) as (l' & out & Bd).
  { cbn [stage_lookup lp_ec addStateMemory set_buffer ec_buffer]. rewrite read_R in N. rewrite (ship_buffer om n l N). left. cbn. lia. }
  pose proof (iteration_intro n shared_init (Some tfS) [] momS [MOdom odomS; MMap yard_msg] [] [] [] [] [] l l' sS out C (cb_none _) (cb_none _) (cb_none _) (cb_none _) (cb_none _) Bd) as It.
  set (e := mkEvent l l' (Some tfS) [] momS [MOdom odomS; MMap yard_msg] ([] ++ [] ++ [] ++ [] ++ []) out) in *.
  pose proof (iteration_commands _ _ _ _ It) as Cm. assert (K : lp_known (ev_post e) = true).
  { pose proof (body_pose _ _ _ _ _ (iteration_body _ _ _ _ It)) as (_ & K & _). rewrite K. reflexivity. }
  rewrite K in Cm. change (sh_recv (mo_test (ev_at e))) with true in Cm. cbn [andb] in Cm.
  exists n, l, [e], sS, l', e, (lp_u l'). split; [exact N|]. split; [econstructor; [exact It|reflexivity|constructor]|].
  split; [exact (calmS om)|]. split; [left; reflexivity|].
  assert (I : In (lp_u l') (commands (ev_out e))) by (rewrite Cm; left; reflexivity). unfold commands in I.
  apply in_flat_map in I. destruct I as ([v| |] & I1 & I2); [destruct I2 as [->|[]]; exact I1|destruct I2..].
Qed.
