(** Proofs about the plans of a running node. *)
From Coq Require Import Reals ZArith List Bool Lia Lra.
From Coquelicot Require Import Coquelicot.
From Verif Require Import Outcome Num NumericsModel RobotModel GridModel CollisionModel BufferModel BasisModel DwaModel ErgodicModel ExplorationModel
  Spec SpecMotion SpecBasis SpecRobot SpecDwa SpecErgodic SpecExploration SpecSystem SpecPlan
  NumericsProofs BufferProofs BasisProofs RobotProofs ErgodicProofs ErgodicReal ErgodicSystem ExplorationProofs SystemProofs.
Import ListNotations ExplorationModel.
Local Open Scope R_scope.
Ltac Zify.zify_post_hook ::= idtac.

(** ** The controller of a node *)
Record equipped (om : bool) (p : params R) (r : vec3 R) (e : ec R) : Prop := {
  eq_model : ec_model e = if om then omni_plant else cart_plant;
  eq_dt : ec_dt e = pa_ec_dt p;
  eq_hor : ec_horizon e = pa_ec_horizon p;
  eq_weight : ec_weight e = pa_expl_weight p;
  eq_res : ec_resolution e = pa_target_resolution p;
  eq_umin : ec_umin e = lower om p;
  eq_umax : ec_umax e = upper om p;
  eq_tuned : tuned e r;
  eq_lam : bs_lam (ec_basis e) = map mode_weight (bs_k (ec_basis e));
  eq_modes : all_modes (pa_num_basis p) (bs_k (ec_basis e)) }.
Lemma equipped_kept om p r e e' : kept e e' -> equipped om p r e -> equipped om p r e'.
Proof.
  intros (K1 & K2 & K3 & K4 & K5 & K6 & K7 & K8 & K9 & K10 & K11 & K12) [H1 H2 H3 H4 H5 H6 H7 H8 H9 H10].
  constructor; try congruence. unfold tuned in *. rewrite K7, K9, K10. exact H8.
Qed.
Lemma weights_map (bs : basis R) n : (0 <= n)%Z -> basis_ctor 0 0 n = Ok bs -> bs_lam bs = map mode_weight (bs_k bs).
Proof.
  intros N B. pose proof (c36_numbers _ _ _ _ N B) as (_ & _ & _ & L & _). pose proof (c36_weights _ _ _ _ N B) as W.
  apply nth_ext with (d := 0) (d' := 0); [rewrite map_length; exact L|]. intros i Hi.
  destruct (nth_error (bs_k bs) i) as [k|] eqn:K; [|apply nth_error_None in K; lia].
  destruct (nth_error (bs_lam bs) i) as [w|] eqn:E; [|apply nth_error_None in E; lia].
  rewrite (nth_error_nth _ _ _ E). rewrite (nth_error_nth _ _ _ (map_nth_error mode_weight _ _ K)). apply (W i k w K E).
Qed.
Lemma weight_ok (p : params R) k w : weight_at p k = Ok w -> exists v, nth_error (pa_weights p) k = Some v /\ w = 1 / v.
Proof. unfold weight_at. destruct (nth_error _ _) as [v|]; [|discriminate]. intros H. exists v. split; [reflexivity|]. symmetry. exact (Ok_eq _ _ H). Qed.
Lemma describes_shapes l gs : gaussians_of l = Ok gs -> describes (map (fun g => (fst (fst g), snd (fst g), fst (snd g), snd (snd g))) l) gs.
Proof.
  revert gs. induction l as [|[[mx my] [sx sy]] l IH]; intros gs H; cbn [gaussians_of] in H; [apply Ok_eq in H; subst; constructor|].
  destruct (gaussian_ctor (mx, my) (sx, sy)) as [g| | |] eqn:G; cbn [bind] in H; try discriminate. destruct (gaussians_of l) as [t| | |]; cbn [bind] in H; try discriminate.
  apply Ok_eq in H. subst gs. cbn [map fst snd]. constructor; [|apply IH; reflexivity].
  destruct (Req_dec sx 0) as [E|E]; [rewrite (gaussian_throws (mx, my) sx sy) in G by auto; discriminate|].
  destruct (Req_dec sy 0) as [E'|E']; [rewrite (gaussian_throws (mx, my) sx sy) in G by auto; discriminate|]. auto.
Qed.
Lemma node_equipped om p r n l : sane_sizes p -> sane_limits om p -> penalties om p r -> node_of om p = Ok (Some (n, l)) ->
  exists e0, constructed e0 /\ history e0 (lp_ec l) /\ equipped om p r (lp_ec l) /\ node_model (lp_ec l) /\
    describes (shapes p) (ec_target (lp_ec l)) /\ ec_phik (lp_ec l) = None /\ bs_lx (ec_basis (lp_ec l)) = 0 /\ bs_ly (ec_basis (lp_ec l)) = 0 /\
    ec_buffer (lp_ec l) = buffer_ctor (pa_buffer_size p) (pa_batch_size p) /\
    Forall (fun u => u = V3 0 0 0) (ec_ut (lp_ec l)).
Proof.
  intros S L (P0 & P1 & P2 & rest & W) H. destruct (node_built _ _ _ _ S H) as (e0' & B). 
  assert (Q : exists c0 c1 c2 ay my ny vy, start (if om then omni_plant else cart_plant) (diagonal c0 c1 c2) (lower om p) (upper om p) ay my ny vy p = Ok (Some (n, l)) /\
    c0 = 1 / v0 r /\ (om = true -> c1 = 1 / v1 r) /\ c2 = 1 / v2 r).
  { destruct om; unfold node_of, omni_node, cart_node in H.
    - destruct (weight_at p 0) as [c0| | |] eqn:W0; cbn [bind] in H; try discriminate. destruct (weight_at p 1) as [c1| | |] eqn:W1; cbn [bind] in H; try discriminate.
      destruct (weight_at p 2) as [c2| | |] eqn:W2; cbn [bind] in H; try discriminate. do 7 eexists. split; [exact H|].
      apply weight_ok in W0, W1, W2. rewrite W in W0, W1, W2. cbn in W0, W1, W2. destruct W0 as (a & W0 & ->), W1 as (b & W1 & ->), W2 as (c & W2 & ->).
      injection W0 as <-. injection W1 as <-. injection W2 as <-. auto.
    - destruct (weight_at p 0) as [c0| | |] eqn:W0; cbn [bind] in H; try discriminate. destruct (weight_at p 1) as [c1| | |] eqn:W1; cbn [bind] in H; try discriminate.
      do 7 eexists. split; [exact H|].
      apply weight_ok in W0, W1. rewrite W in W0, W1. cbn in W0, W1. destruct W0 as (a & W0 & ->), W1 as (b & W1 & ->).
      injection W0 as <-. injection W1 as <-. split; [reflexivity|]. split; [discriminate|reflexivity]. }
  clear H. destruct Q as (c0 & c1 & c2 & ay & my & ny & vy & H & C0 & C1 & C2). unfold start in H. destruct S as (S1 & S2 & S3).
  destruct (gaussians_of _) as [gs| | |] eqn:G; cbn [bind] in H; try discriminate. destruct (collision_ctor _ _ _ _) as [c| | |]; cbn [bind] in H; try discriminate.
  destruct (ec_ctor _ _ _ _ _ _ _ _ _ _ _) as [e0| | |] eqn:E; cbn [bind] in H; try discriminate.
  destruct (dwa_ctor _ _ _ _ _ _ _ _ _ _ _ _ _ _ _ _) as [d| | |] eqn:D; cbn [bind] in H; try discriminate. destruct (nlt _ _); [discriminate|].
  injection H as <- <-. exists e0.
  assert (S4 : (0 <= pa_buffer_size p < two32)%Z) by (change two32 with (2 ^ 32)%Z; lia).
  assert (K : constructed e0).
  { do 11 eexists. split; [|exact E]. change two32 with (2 ^ 32)%Z. lia. }
  pose proof (ctor_zero _ K) as Z0.
  destruct (ctor_inv _ _ _ _ _ _ _ _ _ _ _ _ S1 S4 E) as (_ & Q & BC).
  cbn [loop_init lp_ec]. split; [exact K|]. split; [eapply history_snoc; [constructor|constructor]|]. destruct L as ((L0 & L1 & L2) & _). cbn [v0 v1 v2] in *.
  assert (BL : bs_lx (ec_basis e0) = 0 /\ bs_ly (ec_basis e0) = 0).
  { unfold basis_ctor in BC. destruct (_ <? _)%Z in BC; [|destruct (_ && _)%bool in BC; discriminate]. apply Ok_eq in BC. rewrite <- BC. split; reflexivity. }
  split; [|split; [|split; [|split; [|split; [|split; [|split]]]]]].
  - rewrite Q. constructor; cbn [setTarget set_target ec_model ec_dt ec_horizon ec_weight ec_resolution ec_umin ec_umax ec_basis]; try reflexivity.
    + exists (V3 c0 c1 c2). cbn [setTarget set_target ec_Rinv ec_umin ec_umax v0 v1 v2]. split; [reflexivity|].
      split; [split; [lra|left; split; [exact P0|rewrite C0; unfold Rdiv; apply Rmult_1_l]]|].
      split; [|split; [lra|left; split; [exact P2|rewrite C2; unfold Rdiv; apply Rmult_1_l]]].
      split; [lra|]. destruct om; [left; split; [apply P1; reflexivity|rewrite (C1 eq_refl); unfold Rdiv; apply Rmult_1_l]|right; reflexivity].
    + exact (weights_map _ _ S1 BC).
    + destruct (c36_numbers _ _ _ _ S1 BC) as (_ & ND & _ & _ & In & _). split; assumption.
  - rewrite Q. unfold node_model. cbn [setTarget set_target ec_model ec_umin ec_umax]. destruct om; [left; reflexivity|right; repeat split; reflexivity].
  - cbn [setTarget set_target ec_target]. apply describes_shapes. exact G.
  - rewrite Q. reflexivity.
  - apply BL.
  - apply BL.
  - rewrite Q. reflexivity.
  - exact Z0.
Qed.

(** ** Its calls *)
Lemma body_history n l o l' out : body n l o = Ok (l', out) -> history (lp_ec l) (lp_ec l').
Proof.
  intros H. apply body_inv in H. cbv zeta in H. set (x := stage_lookup l (se_lookup o)) in *.
  assert (X : history (lp_ec l) (lp_ec x)).
  { unfold x. destruct (se_lookup o); [|constructor]. cbn [stage_lookup lp_ec]. eapply history_snoc; [constructor|constructor]. }
  clearbody x. destruct H as [(_ & -> & _)|(_ & e & u & o1 & o2 & P & C & _)]; [exact X|].
  assert (E : lp_ec l' = e) by (destruct C; reflexivity). rewrite E. destruct P as [_|u e tr _ P _]; [exact X|]. eapply history_snoc; [exact X|econstructor; exact P].
Qed.
Lemma history_trans {T} {NT : Num T} (a b c : ec T) : history a b -> history b c -> history a c.
Proof. intros H. induction 1; [exact H|]. eapply history_snoc; eassumption. Qed.
Lemma exec_history n s l evs s' l' : exec n s l evs s' l' -> history (lp_ec l) (lp_ec l').
Proof.
  induction 1 as [s l|s l e s1 evs s' l' I P X IH]; [constructor|]. subst l. eapply history_trans; [|exact IH].
  eapply body_history. exact (iteration_body _ _ _ _ I).
Qed.
(** The controller an iteration plans with, and the result *)
Lemma planned_control n s1 e s2 path : iteration n s1 e s2 -> In (Traj path) (ev_out e) ->
  let x := stage_lookup (ev_pre e) (ev_lookup e) in
  exists u, ec_control (lp_ec x) (plan_map e) (ev_pose e) (ev_draws e) = Ok (u, lp_ec (ev_post e)) /\ ec_path (lp_ec (ev_post e)) = Ok path /\
    (passes n (check_map e) (ev_pose e) u -> lp_u (ev_post e) = u).
Proof.
  intros It IP. cbv zeta. pose proof (iteration_pose _ _ _ _ It) as Q. apply iteration_body in It. apply body_inv in It. cbv zeta in It.
  change (se_lookup (ev_seen e)) with (ev_lookup e) in It. set (x := stage_lookup (ev_pre e) (ev_lookup e)) in *.
  destruct It as [(_ & _ & O)|(_ & ee & u & o1 & o2 & P & C & O)]; rewrite O in IP; [destruct IP|].
  assert (E : lp_ec (ev_post e) = ee) by (remember (ev_post e); destruct C; reflexivity). rewrite E.
  destruct P as [S|v ee p' S K1 K2].
  - exfalso. remember (ev_post e). destruct C; cbn in IP; repeat (destruct IP as [IP|IP]; try discriminate); exact IP.
  - exists v. rewrite <- Q. split; [exact K1|]. assert (J : p' = path).
    { cbn [app] in IP. destruct IP as [IP|IP]; [injection IP as ->; reflexivity|]. exfalso.
      remember (ev_post e). destruct C; cbn in IP; repeat (destruct IP as [IP|IP]; try discriminate); exact IP. }
    subst p'. split; [exact K2|]. intros Pa. change (check_map e) with (se_valid (ev_seen e)) in Pa. remember (ev_post e) as l' eqn:EL. clear EL.
    destruct C as [_|b w Hi S' _|ref w tr Hi _ _ _ _|ref w Hi _ _ _]; [reflexivity|exfalso; exact (passes_hits _ _ _ _ Pa Hi)..].
Qed.
Lemma unplanned_same n s1 e s2 : iteration n s1 e s2 -> ~ planned e -> lp_ec (ev_post e) = lp_ec (stage_lookup (ev_pre e) (ev_lookup e)).
Proof.
  intros It NP. apply iteration_body in It. apply body_inv in It. cbv zeta in It.
  change (se_lookup (ev_seen e)) with (ev_lookup e) in It. set (x := stage_lookup (ev_pre e) (ev_lookup e)) in *.
  destruct It as [(_ & E & O)|(_ & ee & u & o1 & o2 & P & C & O)]; [rewrite E; reflexivity|].
  assert (E : lp_ec (ev_post e) = ee) by (remember (ev_post e); destruct C; reflexivity). rewrite E.
  destruct P as [S|v ee p' S K1 K2]; [reflexivity|]. exfalso. apply NP. exists p'. rewrite O. left. reflexivity.
Qed.
Lemma lookup_ec (l : loop R) lk : ec_ut (lp_ec (stage_lookup l lk)) = ec_ut (lp_ec l) /\ kept (lp_ec l) (lp_ec (stage_lookup l lk)) /\
  ec_basis (lp_ec (stage_lookup l lk)) = ec_basis (lp_ec l) /\ ec_phik (lp_ec (stage_lookup l lk)) = ec_phik (lp_ec l) /\
  ec_target (lp_ec (stage_lookup l lk)) = ec_target (lp_ec l).
Proof. destruct lk; repeat split. Qed.

(** ** The target *)
Definition targeted (p : params R) (G : grid R -> Prop) (e : ec R) : Prop :=
  describes (shapes p) (ec_target e) /\ ec_resolution e = pa_target_resolution p /\
  ((ec_phik e = None /\ bs_lx (ec_basis e) = 0 /\ bs_ly (ec_basis e) = 0) \/
   exists g cs, G g /\ bs_lx (ec_basis e) = g_xmax g - g_xmin g /\ bs_ly (ec_basis e) = g_ymax g - g_ymin g /\
     ec_phik e = Some cs /\ coefficients p (bs_k (ec_basis e)) cs g).
Lemma map_nth_all {A B} (f : A -> B) (l : list A) (l' : list B) : length l' = length l ->
  (forall i k, nth_error l i = Some k -> nth_error l' i = Some (f k)) -> l' = map f l.
Proof.
  revert l'. induction l as [|a l IH]; intros [|b l'] L H; cbn in L; try discriminate; [reflexivity|].
  pose proof (H 0%nat a eq_refl) as E. cbn in E. injection E as ->. cbn [map]. f_equal. apply IH; [lia|]. intros i k K. exact (H (S i) k K).
Qed.
Lemma config_target (e e' : ec R) g : configTarget e g = Ok e' -> ec_target e' = ec_target e /\ ec_resolution e' = ec_resolution e /\ bs_k (ec_basis e') = bs_k (ec_basis e).
Proof. intros C. destruct (config_same _ _ _ C) as (ph & bs & -> & _ & K). repeat split. exact K. Qed.
Lemma control_targeted p (G : grid R -> Prop) (e : ec R) g x draws u e' : 0 < pa_target_resolution p -> plannable p g -> G g ->
  ec_control e g x draws = Ok (u, e') -> targeted p G e -> targeted p G e' /\ Rabs (g_xmax g - g_xmin g - bs_lx (ec_basis e')) < 1 / 1000000000000 /\
  Rabs (g_ymax g - g_ymin g - bs_ly (ec_basis e')) < 1 / 1000000000000.
Proof.
  intros Rp (M1 & M2 & M3) Gg C (D & Re & T). destruct (control_config _ _ _ _ _ _ C) as (e1 & C1 & E'). destruct (config_target _ _ _ C1) as (Q1 & Q2 & Q3).
  assert (F : ec_target e' = ec_target e1 /\ ec_resolution e' = ec_resolution e1 /\ ec_basis e' = ec_basis e1 /\ ec_phik e' = ec_phik e1) by (rewrite E'; repeat split).
  destruct F as (F1 & F2 & F3 & F4). cbn [set_pose ec_target ec_resolution ec_basis] in Q1, Q2, Q3. unfold targeted. rewrite F1, F2, F3, F4, Q1, Q2.
  destruct (Rlt_dec (Rabs (g_xmax g - g_xmin g - bs_lx (ec_basis e))) (1 / 1000000000000)) as [Hx|Hx];
  [destruct (Rlt_dec (Rabs (g_ymax g - g_ymin g - bs_ly (ec_basis e))) (1 / 1000000000000)) as [Hy|Hy]|].
  { destruct (config_unchanged (set_pose e x) g Hx Hy) as (e2 & C2 & P1 & P2 & _). rewrite C1 in C2. apply Ok_eq in C2. subst e2.
    cbn [set_pose ec_phik ec_basis] in P1, P2. rewrite P1, P2. repeat split; assumption. }
  all: assert (TR : tracks e1 (shapes p) g).
  1,3: eapply (c58_recomputed (set_pose e x)); cbn [set_pose ec_resolution ec_target ec_basis]; rewrite ?Re; try assumption; lra.
  all: unfold tracks in TR; cbv zeta in TR; rewrite Q2, Re in TR; destruct TR as (T1 & T2 & _ & nx & ny & cs & T3 & T4 & T5 & T6 & T7);
    (split; [split; [exact D|split; [exact Re|right; exists g, cs; repeat (split; [assumption|]); exists nx, ny; split; [exact T3|split; [exact T4|]]]]|]);
    [apply map_nth_all; [exact T6|exact T7]|rewrite T1, T2, !Rminus_diag_eq by reflexivity; rewrite Rabs_R0; lra].
Qed.
Lemma control_extents (e : ec R) g x draws u e' : ec_control e g x draws = Ok (u, e') ->
  Rabs (g_xmax g - g_xmin g - bs_lx (ec_basis e')) < 1 / 1000000000000 /\ Rabs (g_ymax g - g_ymin g - bs_ly (ec_basis e')) < 1 / 1000000000000.
Proof.
  intros C. destruct (control_config _ _ _ _ _ _ C) as (e1 & C1 & E'). assert (F : ec_basis e' = ec_basis e1) by (rewrite E'; reflexivity). rewrite F. clear F E'.
  unfold configTarget in C1. destruct (_ && _)%bool eqn:A in C1.
  - apply Ok_eq in C1. subst e1. apply andb_true_iff in A. destruct A as [A1 A2]. apply almost_equal_R in A1, A2. split; assumption.
  - destruct (axis_length _ (nsub (g_xmax g) (g_xmin g)) _); cbn [bind] in C1; try discriminate.
    destruct (axis_length _ (nsub (g_ymax g) (g_ymin g)) _); cbn [bind] in C1; try discriminate.
    destruct (phi_points _ _ _) as [pts| | |]; cbn [bind] in C1; try discriminate.
    destruct (spatialCoeff _ _ _); cbn [bind] in C1; try discriminate. apply Ok_eq in C1. subst e1. cbn [set_domain ec_basis bs_lx bs_ly].
    change (@nsub R RNum) with Rminus. rewrite !Rminus_diag_eq by reflexivity. rewrite Rabs_R0. lra.
Qed.
Lemma planned_dec (o : list (output R)) : (exists p, In (Traj p) o) \/ ~ (exists p, In (Traj p) o).
Proof.
  induction o as [|a o [(p & H)|H]]; [right; intros (p & [])|left; exists p; right; exact H|].
  destruct a as [u|q|q]; [right|left; exists q; left; reflexivity|right]; intros (p & [J|J]); try discriminate J; apply H; exists p; exact J.
Qed.
Lemma exec_targeted p n s l evs s' l' : exec n s l evs s' l' -> 0 < pa_target_resolution p ->
  (forall e, In e evs -> planned e -> plannable p (plan_map e)) -> forall G : grid R -> Prop, (forall e, In e evs -> planned e -> G (plan_map e)) -> targeted p G (lp_ec l) -> targeted p G (lp_ec l').
Proof.
  intros X Rp. induction X as [s l|s l e s1 evs s' l' I P X IH]; intros Pl G HG T; [exact T|].
  apply IH; [intros e' Ie; apply Pl; right; exact Ie|intros e' Ie; apply HG; right; exact Ie|]. subst l.
  assert (T1 : targeted p G (lp_ec (stage_lookup (ev_pre e) (ev_lookup e)))).
  { destruct (lookup_ec (ev_pre e) (ev_lookup e)) as (_ & (_ & _ & _ & K & _) & L1 & L2 & L3). unfold targeted. rewrite K, L1, L2, L3. exact T. }
  destruct (planned_dec (ev_out e)) as [(path & J)|J].
  - destruct (planned_control _ _ _ _ _ I J) as (u & C & _). eapply control_targeted; [exact Rp| | |exact C|exact T1];
      [apply Pl; [left; reflexivity|eexists; exact J]|apply HG; [left; reflexivity|eexists; exact J]].
  - rewrite (unplanned_same _ _ _ _ I J). exact T1.
Qed.

(** ** C87 *)
Lemma shows_path (e : ec R) ps : reachable e -> ec_path e = Ok ps -> exists tr, optTraj e = Ok tr /\ shows ps tr.
Proof.
  intros Rc H. destruct (c57_path _ _ Rc H) as (tr & O & L1 & L2 & N). exists tr. split; [exact O|]. unfold shows, lenZ in *.
  assert (L : length ps = length tr) by lia. clear - L N. revert ps L N. induction tr as [|x tr IH]; intros [|q ps] L N; cbn in L; try discriminate; constructor.
  - destruct (N 0%nat x eq_refl) as (q' & E & K). cbn in E. injection E as <-. exact K.
  - apply IH; [lia|]. intros i y Y. exact (N (S i) y Y).
Qed.
Lemma to_col_inj (a b : vec3 R) : to_col a = to_col b -> a = b.
Proof. destruct a, b. cbn. intros H. injection H as -> -> ->. reflexivity. Qed.
Lemma nth_to_col (l : list (vec3 R)) i : nth_error (map to_col l) i = option_map to_col (nth_error l i).
Proof. revert i. induction l as [|a l IH]; intros [|i]; cbn; try reflexivity. apply IH. Qed.
Lemma nthZ_to_col (l : list (vec3 R)) k q : nthZ (map to_col l) k = Some (to_col q) -> nthZ l k = Some q.
Proof.
  unfold nthZ. destruct (_ <? _)%Z; [discriminate|]. rewrite nth_to_col. destruct (nth_error l _); cbn; [|discriminate].
  intros H. injection H. intros. f_equal. destruct v, q. cbn in *. congruence.
Qed.
Lemma forall2_seq (m past : list (vec3 R)) o (f : Z -> vec3 R -> Prop) : (forall i q, f (Z.of_nat (o + i)) q -> nth_error m i = Some q) ->
  Forall2 f (map Z.of_nat (seq o (length m))) past -> past = m.
Proof.
  revert o past. induction m as [|a m IH]; intros o past N H; cbn [length seq map] in H; inversion H as [|? q ? past' F G]; subst; [reflexivity|].
  pose proof (N 0%nat q) as E. rewrite Nat.add_0_r in E. specialize (E F). cbn in E. injection E as ->. f_equal.
  apply (IH (S o)); [|exact G]. intros i q' K. apply (N (S i)). rewrite Nat.add_succ_r. exact K.
Qed.
Lemma recalls_remembers p draws h past : (0 <= pa_buffer_size p < 2 ^ 32)%Z -> (0 <= pa_batch_size p)%Z ->
  recalls (fold_left append (map to_col h) (buffer_ctor (pa_buffer_size p) (pa_batch_size p))) draws past -> remembers p draws h past.
Proof.
  intros Hc Hb. rewrite c18_history by exact Hc. unfold recalls. cbn [b_mem b_batch]. intros (ks & K1 & K2 & K3).
  unfold remembers. cbv zeta. set (m := firstn (Z.to_nat (pa_buffer_size p)) h).
  assert (E : firstn (Z.to_nat (pa_buffer_size p)) (map to_col h) = map to_col m) by (unfold m; apply firstn_map). rewrite E in *.
  assert (L : lenZ (keyed (map to_col m)) = lenZ m) by (unfold lenZ; rewrite keyed_len, map_length; reflexivity). rewrite L in *.
  assert (N : forall k q, mem_at (keyed (map to_col m)) k = Ok (to_col q) -> nthZ m k = Some q).
  { intros k q H. rewrite mem_at_keyed in H. apply nthZ_to_col. destruct (nthZ (map to_col m) k); [|discriminate].
    f_equal. exact (Ok_eq _ _ H). }
  split; intros H.
  - rewrite (K1 H) in K3. unfold lenZ in L. apply Nat2Z.inj in L. rewrite L in K3. eapply (forall2_seq m past 0); [|exact K3].
    intros i q Q. cbv beta in Q. apply N in Q. unfold nthZ in Q. cbn [Nat.add] in Q. destruct (Z.ltb_spec (Z.of_nat i) 0); [discriminate|]. rewrite Nat2Z.id in Q. exact Q.
  - assert (NE : keyed (map to_col m) <> []) by (intros X; rewrite X in L; cbn in L; unfold lenZ in *; lia).
    rewrite (K2 H NE) in K3. clear - K3 N. remember (map u32 draws) as ks eqn:E. revert draws E. induction K3 as [|k q ks past Q K3 IH]; intros [|d draws] E; try discriminate; constructor.
    + cbn in E. injection E as -> _. apply N, Q.
    + cbn in E. injection E as _ ->. apply IH. reflexivity.
Qed.
Lemma c87_plan om p r n l0 evs s l j e path : sane_sizes p -> sane_limits om p -> penalties om p r ->
  node_of om p = Ok (Some (n, l0)) -> exec n shared_init l0 evs s l -> nth_error evs j = Some e -> In (Traj path) (ev_out e) ->
  exists lx ly ks phik past tr,
  all_modes (pa_num_basis p) ks /\
  Rabs (g_xmax (plan_map e) - g_xmin (plan_map e) - lx) < 1 / 1000000000000 /\ Rabs (g_ymax (plan_map e) - g_ymin (plan_map e) - ly) < 1 / 1000000000000 /\
  remembers p (ev_draws e) (looked_up (map ev_lookup (firstn (S j) evs))) past /\
  next_plan om p r (plan_map e) lx ly ks phik past (ev_pose e) (tl (plan_before e) ++ [V3 0 0 0]) (plan_after e) /\
  rk4_solve (pa_ec_dt p) (motion_of om) (ev_pose e) (plan_after e) (pa_ec_horizon p) = Ok tr /\ shows path tr /\
  (0 < pa_target_resolution p -> (forall e', In e' (firstn (S j) evs) -> planned e' -> plannable p (plan_map e')) ->
   exists e0, In e0 (firstn (S j) evs) /\ planned e0 /\ lx = g_xmax (plan_map e0) - g_xmin (plan_map e0) /\ ly = g_ymax (plan_map e0) - g_ymin (plan_map e0) /\
     coefficients p ks phik (plan_map e0)).
Proof.
  intros Sz Li Pe No X J Tr. destruct (node_equipped _ _ _ _ _ Sz Li Pe No) as (e0 & K0 & H0 & Eq0 & M0 & De & Ph & Lx & Ly & Bu & _).
  destruct (exec_split _ _ _ _ _ _ _ _ X J) as (s1 & s2 & X1 & It & _).
  destruct (planned_control _ _ _ _ _ It Tr) as (u & C & Pa & _). set (x := stage_lookup (ev_pre e) (ev_lookup e)) in *.
  destruct (lookup_ec (ev_pre e) (ev_lookup e)) as (LU & LK & LB & LP & LT). fold x in LU, LK, LB, LP, LT.
  assert (Hx : history (lp_ec l0) (lp_ec x)).
  { eapply history_trans; [exact (exec_history _ _ _ _ _ _ X1)|]. unfold x. destruct (ev_lookup e); [|constructor]. cbn [stage_lookup lp_ec]. eapply history_snoc; [constructor|constructor]. }
  pose proof (history_kept _ _ Hx) as Kx. pose proof (equipped_kept _ _ _ _ _ Kx Eq0) as Ex.
  assert (Rx : reachable (lp_ec x)) by (exists e0; split; [exact K0|eapply history_trans; eassumption]).
  assert (Mx : node_model (lp_ec x)).
  { destruct Kx as (k1 & _ & _ & _ & _ & _ & _ & _ & k2 & k3 & _). unfold node_model in *. rewrite k1, k2, k3. exact M0. }
  assert (Rp : reachable (lp_ec (ev_post e))).
  { exists e0. split; [exact K0|]. eapply history_snoc; [eapply history_trans; eassumption|econstructor; exact C]. }
  destruct (control_system _ _ _ _ _ _ r Rx Mx (eq_tuned _ _ _ _ Ex) C) as (past & traj & rho & phik & Sy). cbv zeta in Sy.
  destruct Sy as (So & Me & Pk & Lr & _ & Opt).
  pose proof (control_kept _ _ _ _ _ _ C) as Kc. pose proof (equipped_kept _ _ _ _ _ Kc Ex) as Ep.
  destruct (shows_path _ _ Rp Pa) as (tr & Ot & Sh).
  destruct (control_extents _ _ _ _ _ _ C) as (E1 & E2).
  exists (bs_lx (ec_basis (lp_ec (ev_post e)))), (bs_ly (ec_basis (lp_ec (ev_post e)))), (bs_k (ec_basis (lp_ec (ev_post e)))), phik, past, tr.
  split; [exact (eq_modes _ _ _ _ Ep)|]. split; [exact E1|]. split; [exact E2|].
  assert (Bx : ec_buffer (lp_ec x) = fold_left append (map to_col (looked_up (map ev_lookup (firstn (S j) evs)))) (buffer_ctor (pa_buffer_size p) (pa_batch_size p))).
  { assert (X2 : exec n shared_init l0 (firstn j evs ++ [e]) s2 (ev_post e)).
    { apply exec_app. exists s1, (ev_pre e). split; [exact X1|]. econstructor; [exact It|reflexivity|constructor]. }
    apply c68_memory in X2. rewrite Bu in X2.
    assert (F : firstn (S j) evs = firstn j evs ++ [e]).
    { clear - J. revert evs J. induction j as [|j IH]; intros [|a evs] J; try discriminate; cbn in J; [injection J as ->; reflexivity|]. cbn [firstn app]. f_equal. apply IH, J. }
    rewrite F, <- X2. symmetry. apply (control_buffer _ _ _ _ _ _ C). }
  split.
  { rewrite Bx in Me. apply recalls_remembers; [destruct Sz as (_ & Sz & _); lia|destruct Sz as (_ & _ & Sz); lia|exact Me]. }
  split.
  { exists traj, rho. cbv zeta. unfold plan_before, plan_after, motion_of. rewrite <- LU.
    rewrite <- (eq_model _ _ _ _ Ex), <- (eq_dt _ _ _ _ Ex), <- (eq_hor _ _ _ _ Ex), <- (eq_weight _ _ _ _ Ex), <- (eq_umin _ _ _ _ Ex), <- (eq_umax _ _ _ _ Ex), <- (eq_lam _ _ _ _ Ep).
    pose proof (reachable_inv _ Rx) as Ix. pose proof (reachable_inv _ Rp) as Ip. destruct Kc as (_ & _ & _ & _ & _ & Ks & _).
    pose proof (i_len _ Ix) as L1. pose proof (i_len _ Ip) as L2. rewrite Ks, <- L1 in L2. unfold lenZ in L1, L2. apply Nat2Z.inj in L2.
    destruct (control_dec _ _ _ _ _ _ C) as (? & ? & ? & ? & ? & Dc). cbv zeta in Dc. destruct Dc as (_ & L3 & _).
    assert (L4 : length (tl (ec_ut (lp_ec x)) ++ [V3 0 0 0]) = length (ec_ut (lp_ec x))).
    { rewrite app_length. destruct (ec_ut (lp_ec x)); cbn [length tl] in *; lia. }
    split; [exact So|]. split; [exact Lr|]. split; [rewrite L4; exact L2|]. split; [|exact Opt].
    unfold rk4_solve in So. rewrite (i_steps _ Ix) in So. cbn [bind] in So. apply rk4_loop_len in So. rewrite So, L4. lia. }
  split.
  { unfold optTraj in Ot. rewrite (eq_model _ _ _ _ Ep), (eq_dt _ _ _ _ Ep), (eq_hor _ _ _ _ Ep) in Ot.
    assert (Q : ec_pose (lp_ec (ev_post e)) = ev_pose e) by (apply (c68_plan _ _ _ _ _ _ e path X); [eapply nth_error_In; exact J|exact Tr]).
    rewrite Q in Ot. exact Ot. }
  split; [exact Sh|]. intros Rs Pl.
  set (G := fun g => exists e', In e' (firstn (S j) evs) /\ planned e' /\ g = plan_map e').
  assert (F : firstn (S j) evs = firstn j evs ++ [e]).
  { clear - J. revert evs J. induction j as [|j IH]; intros [|a evs] J; try discriminate; cbn in J; [injection J as ->; reflexivity|]. cbn [firstn app]. f_equal. apply IH, J. }
  assert (X2 : exec n shared_init l0 (firstn (S j) evs) s2 (ev_post e)).
  { rewrite F. apply exec_app. exists s1, (ev_pre e). split; [exact X1|]. econstructor; [exact It|reflexivity|constructor]. }
  assert (T : targeted p G (lp_ec (ev_post e))).
  { eapply exec_targeted; [exact X2|exact Rs|exact Pl|intros e' I' P'; exists e'; auto|]. split; [exact De|]. split; [exact (eq_res _ _ _ _ Eq0)|left; auto]. }
  destruct T as (_ & _ & [(T & _)|(g & cs & (e' & I' & P' & ->) & T1 & T2 & T3 & T4)]); [congruence|].
  exists e'. split; [exact I'|]. split; [exact P'|]. split; [exact T1|]. split; [exact T2|]. rewrite Pk in T3. injection T3 as <-. exact T4.
Qed.
Lemma c87_chain n s l evs s' l' : exec n s l evs s' l' ->
  (forall e, nth_error evs 0 = Some e -> plan_before e = ec_ut (lp_ec l)) /\
  (forall j e e', nth_error evs j = Some e -> nth_error evs (S j) = Some e' -> plan_before e' = plan_after e) /\
  (forall e, In e evs -> ~ planned e -> plan_after e = plan_before e).
Proof.
  induction 1 as [s l|s l e s1 evs s' l' I P X (A & B & C)]; [split; [intros e; discriminate|split; [intros [|j]; discriminate|intros e []]]|].
  subst l. split; [intros e' E; cbn in E; injection E as <-; reflexivity|]. split.
  - intros [|j] a b E F; [cbn in E; injection E as <-; exact (A _ F)|exact (B j a b E F)].
  - intros a [<-|J] NP; [|exact (C a J NP)]. unfold plan_after, plan_before. rewrite (unplanned_same _ _ _ _ I NP). apply lookup_ec.
Qed.
Lemma c87_start om p n l0 : sane_sizes p -> node_of om p = Ok (Some (n, l0)) ->
  exists k, num_steps (pa_ec_dt p) (pa_ec_horizon p) = Ok k /\ ec_ut (lp_ec l0) = repeat (V3 0 0 0) (Z.to_nat k).
Proof.
  intros S H. assert (Q : exists m Ri lo hi ay my ny vy, start m Ri lo hi ay my ny vy p = Ok (Some (n, l0))).
  { destruct om; unfold node_of, omni_node, cart_node in H.
    - destruct (weight_at p 0); cbn [bind] in H; try discriminate. destruct (weight_at p 1); cbn [bind] in H; try discriminate.
      destruct (weight_at p 2); cbn [bind] in H; try discriminate. do 8 eexists. exact H.
    - destruct (weight_at p 0); cbn [bind] in H; try discriminate. destruct (weight_at p 1); cbn [bind] in H; try discriminate. do 8 eexists. exact H. }
  clear H. destruct Q as (m & Ri & lo & hi & ay & my & ny & vy & H). unfold start in H.
  destruct (gaussians_of _) as [gs| | |]; cbn [bind] in H; try discriminate. destruct (collision_ctor _ _ _ _) as [c| | |]; cbn [bind] in H; try discriminate.
  unfold ec_ctor in H. destruct (num_steps (pa_ec_dt p) (pa_ec_horizon p)) as [k| | |]; cbn [bind] in H; try discriminate. exists k. split; [reflexivity|].
  destruct (basis_ctor _ _ _) as [bs| | |]; cbn [bind] in H; try discriminate. destruct (k =? 1)%Z; [discriminate|]. cbn [bind] in H.
  destruct (dwa_ctor _ _ _ _ _ _ _ _ _ _ _ _ _ _ _ _) as [d| | |]; cbn [bind] in H; try discriminate. destruct (nlt _ _); [discriminate|].
  injection H as <- <-. reflexivity.
Qed.
Lemma c87_command om p n l0 evs s l e u : sane_sizes p -> node_of om p = Ok (Some (n, l0)) -> exec n shared_init l0 evs s l -> In e evs -> planned e ->
  nth_error (plan_after e) 0 = Some u -> passes n (check_map e) (ev_pose e) u -> In (Cmd u) (ev_out e).
Proof.
  intros S N X I (path & Tr) U Pa. apply In_nth_error in I. destruct I as [k K]. destruct (exec_split _ _ _ _ _ _ _ _ X K) as (s1 & s2 & _ & It & _).
  destruct (planned_control _ _ _ _ _ It Tr) as (u' & C & _ & Q).
  assert (E : u' = u).
  { destruct (control_dec _ _ _ _ _ _ C) as (e1 & ? & ? & ? & ? & Dc). cbv zeta in Dc. destruct Dc as (_ & _ & _ & _ & _ & _ & _ & _ & E & Co & _).
    unfold plan_after in U. rewrite E in U. cbn [set_ut ec_ut] in U. unfold col_at in Co. destruct (new_controls _ _ _) as [|a cs]; [discriminate|]. cbn in U, Co. injection U as ->. symmetry. exact (Ok_eq _ _ Co). }
  subst u'. rewrite <- (Q Pa). apply iteration_body, body_inv in It. cbv zeta in It. destruct It as [(_ & _ & O)|(_ & ee & w & o1 & o2 & P & D & O)]; rewrite O in *; [destruct Tr|].
  apply in_or_app. right. apply in_or_app. right. left. reflexivity.
Qed.
