(** Proofs for nodes that see no obstacle. *)
From Coq Require Import Reals Lra ZArith List Bool Lia.
From Flocq Require Import IEEE754.BinarySingleNaN.
From Verif Require Import Outcome Num Float64 FloatLemmas GridModel GridFloat CollisionModel NumericsModel BufferModel BasisModel RobotModel DwaModel ErgodicModel
  ExplorationModel Spec SpecDwa SpecExploration SpecShared SpecFree SpecSystem ExplorationProofs SharedProofs PropCollisionAux PropCollisionAux2.
Import ListNotations ExplorationModel.
Local Open Scope Z_scope.
Ltac Zify.zify_post_hook ::= idtac.

Section Any.
Context {T : Type} {NT : Num T}.
Notation loop := (loop T). Notation event := (event T).
Implicit Types (n : node T) (g : grid T) (c : collision T).

(** ** The search finds nothing *)
Section Search.
Variables (c : collision T) (cf : cfg) (g : grid T).
Hypothesis Open : open_data (c_occ c) (g_data g).
Definition quiet (m : cst -> res (bool * cst)) : Prop := forall s b s', m s = Ok (b, s') -> b = false.
Lemma checkCell_quiet cj ci : quiet (checkCell c cf g cj ci).
Proof.
  intros s b s'. unfold checkCell. destruct (gridBounds _ _ _); [|congruence]. unfold getCell, getCellIdx.
  destruct (gridBoundsIdx _ _); [|discriminate]. destruct (nthZ (g_data g) _) as [v|] eqn:N; cbn [bind]; [|discriminate].
  rewrite Open; [cbn [negb]; congruence|]. unfold nthZ in N. destruct (_ <? _); [discriminate|]. eapply nth_error_In, N.
Qed.
Lemma check_at_quiet a b : quiet (check_at c cf g a b).
Proof.
  intros s r s'. unfold check_at. destruct (int_ck a); cbn [bind]; try discriminate. destruct (int_ck b); cbn [bind]; try discriminate. apply checkCell_quiet.
Qed.
Lemma orelse_quiet m k : quiet m -> quiet k -> quiet (fun s => orelse (m s) k).
Proof.
  intros M K s b s'. unfold orelse. destruct (m s) as [[b1 s1]| | |] eqn:E; cbn [bind]; try discriminate. rewrite (M _ _ _ E). apply K.
Qed.
Lemma check4_quiet x y : quiet (check4 c cf g x y).
Proof.
  unfold check4. apply orelse_quiet; [apply check_at_quiet|]. apply orelse_quiet; [apply check_at_quiet|]. apply orelse_quiet; apply check_at_quiet.
Qed.
Lemma circle_loop_quiet fuel : forall x y err, quiet (circle_loop fuel c cf g x y err).
Proof.
  induction fuel as [|f IH]; intros x y err; cbn [circle_loop]; [intros s b s'; discriminate|]. destruct (x <? 0); [|intros s b s'; congruence].
  apply orelse_quiet; [apply check4_quiet|]. intros s b s'. destruct (walk_step x y err) as [[[x' y'] err']| | |]; cbn [bind]; try discriminate. apply IH.
Qed.
Lemma circle_quiet r : quiet (bresenhamCircle c cf g r).
Proof.
  intros s b s'. unfold bresenhamCircle. destruct (int_ck (- r)); cbn [bind]; try discriminate. destruct (int_ck (2 * r)); cbn [bind]; try discriminate.
  destruct (int_ck _); cbn [bind]; try discriminate. apply circle_loop_quiet.
Qed.
Lemma search_loop_quiet fuel : forall r, quiet (search_loop fuel c cf g r).
Proof.
  induction fuel as [|f IH]; intros r; cbn [search_loop]; [intros s b s'; discriminate|]. destruct (_ <=? _); [|intros s b s'; congruence].
  apply orelse_quiet; [apply circle_quiet|]. intros s b s'. destruct (int_ck (r + 1)); cbn [bind]; try discriminate. apply IH.
Qed.
End Search.
Lemma open_clear c g x y b : open_data (c_occ c) (g_data g) -> collisionCheck c g x y = Ok b -> b = false.
Proof.
  intros O. unfold collisionCheck. destruct (mk_config c g x y) as [cf| | |]; cbn [bind]; try discriminate.
  destruct (search c cf g cst0) as [[r s]| | |] eqn:S; cbn [bind]; try discriminate. intros H. assert (r = false) by exact (search_loop_quiet c cf g O _ _ _ _ _ S). congruence.
Qed.
Lemma open_hits n g x u : open_data (c_occ (nd_collision n)) (g_data g) -> ~ SpecExploration.hits n g x u.
Proof.
  intros O (k & _ & H). apply Exists_exists in H. destruct H as (p & _ & C). unfold crash in C. apply open_clear in C; [discriminate|exact O].
Qed.

(** ** The maps read *)
Lemma last_map_open thr ms : forall g, open_data thr (g_data g) -> open_maps thr ms -> open_data thr (g_data (last_map g ms)).
Proof.
  induction ms as [|m ms IH]; intros g G O; [exact G|]. cbn [last_map fold_left]. apply IH; [|intros m' I; apply O; right; exact I].
  destruct m as [m|v]; [|exact G]. exact (O m (or_introl eq_refl)).
Qed.
Lemma consistent_open thr ms r : open_maps thr ms -> consistent ms shared_init r -> open_data thr (g_data (sh_grid r)).
Proof.
  intros O. assert (G0 : open_data thr (g_data (sh_grid (@shared_init T NT)))) by (intros v []).
  intros [(_ & G & _)|(pre & m & _ & E & _ & H)]; [rewrite G; apply last_map_open; assumption|].
  assert (Op : open_maps thr pre) by (intros m' I; apply O; rewrite E; apply in_or_app; left; exact I).
  destruct m as [m|v].
  - destruct H as (k & _ & -> & _). unfold torn. cbn [g_data]. destruct (7 <? k)%nat; [|apply last_map_open; assumption].
    apply (O m). rewrite E. apply in_or_app. right. left. reflexivity.
  - destruct H as (k & _ & _ & ->). apply last_map_open; assumption.
Qed.
Lemma reads_open thr n l evs s' l' e r : exec n shared_init l evs s' l' -> open_maps thr (messages evs) -> In e evs -> In r (reads (ev_at e)) ->
  open_data thr (g_data (sh_grid r)).
Proof.
  intros X O I R. destruct (c84_exec _ _ _ _ _ _ _ X I R) as (ms & rest & E & C). apply (consistent_open thr ms); [|exact C].
  intros m J. apply O. rewrite E. apply in_or_app. left. exact J.
Qed.

(** ** Executions *)
Lemma control_first (e e' : ec T) g x draws u : ec_control e g x draws = Ok (u, e') -> nth_error (ec_ut e') 0 = Some u.
Proof.
  unfold ec_control. cbv zeta. destruct (configTarget _ _); cbn [bind]; try discriminate. destruct (shift_controls _); cbn [bind]; try discriminate.
  destruct (rk4_solve _ _ _ _ _); cbn [bind]; try discriminate. destruct (sampleMemory _ _ _); cbn [bind]; try discriminate. destruct (_ || _)%bool; [discriminate|].
  destruct (gradErgodicMetric _ _ _); cbn [bind]; try discriminate. destruct (co_solve _ _ _ _ _ _ _ _ _); cbn [bind]; try discriminate.
  destruct (updateControl _ _ _) as [ut| | |]; cbn [bind]; try discriminate. unfold col_at. destruct (nthZ ut 0) as [v|] eqn:N; cbn [bind]; [|discriminate].
  intros H. assert (v = u /\ ec_ut e' = ut) as [<- ->] by (injection H as -> <-; split; reflexivity). exact N.
Qed.
Lemma open_step n s e s' : iteration n s e s' -> lp_follow (ev_pre e) = false -> open_data (c_occ (nd_collision n)) (g_data (check_map e)) ->
  lp_follow (ev_post e) = false /\ ~ took_over e /\ forall u, In (Cmd u) (ev_out e) -> planned e /\ nth_error (held e) 0 = Some u.
Proof.
  intros It F O. assert (Fx : lp_follow (stage_lookup (ev_pre e) (ev_lookup e)) = false) by (destruct (ev_lookup e); exact F).
  apply iteration_body, body_inv in It. cbv zeta in It. change (se_lookup (ev_seen e)) with (ev_lookup e) in It. unfold held.
  destruct It as [(_ & -> & Eo)|(_ & ec & u & o1 & o2 & P & C & Eo)].
  - split; [exact Fx|]. unfold took_over. rewrite Eo. split; [intros (p & [])|intros u []].
  - assert (S : still n (stage_lookup (ev_pre e) (ev_lookup e)) = false) by (unfold still; rewrite Fx; reflexivity).
    remember (ev_post e) as l' eqn:El. destruct P as [P|u ec p P K Q]; [congruence|].
    destruct C as [C|b v C|r v q C|r v C]; try (exfalso; exact (open_hits _ _ _ _ O C)). cbn [lp_follow lp_u lp_ec] in *.
    split; [exact S|]. unfold took_over, planned. rewrite Eo. cbn [app]. split; [intros (p' & [E|[E|[]]]); discriminate|].
    intros w [E|[E|[]]]; [discriminate|]. assert (u = w) as <- by congruence. split; [exists p; left; reflexivity|]. eapply control_first, K.
Qed.
Lemma open_run n s l evs s' l' : exec n s l evs s' l' -> lp_follow l = false ->
  (forall e, In e evs -> open_data (c_occ (nd_collision n)) (g_data (check_map e))) ->
  forall e, In e evs -> ~ took_over e /\ forall u, In (Cmd u) (ev_out e) -> planned e /\ nth_error (held e) 0 = Some u.
Proof.
  induction 1 as [s l|s l e s1 evs s' l' I P X IH]; intros F O e0; [intros []|]. subst l. destruct (open_step _ _ _ _ I F (O _ (or_introl eq_refl))) as [F' R].
  intros [<-|J]; [exact R|]. apply IH; [exact F'|intros e' J'; apply O; right; exact J'|exact J].
Qed.
Lemma c88_open n ec0 t evs s l : exec n shared_init (loop_init ec0 t) evs s l -> open_maps (c_occ (nd_collision n)) (messages evs) ->
  forall e, In e evs -> ~ took_over e /\ forall u, In (Cmd u) (ev_out e) -> planned e /\ nth_error (held e) 0 = Some u.
Proof.
  intros X O. apply (open_run _ _ _ _ _ _ X); [reflexivity|]. intros e I. unfold check_map. eapply reads_open; [exact X|exact O|exact I|].
  unfold reads. cbn [In]. auto.
Qed.

(** ** The threshold of a node is that of the parameters *)
Lemma start_threshold model Ri lo hi (a b d : T) vy (p : params T) n l : start model Ri lo hi a b d vy p = Ok (Some (n, l)) ->
  c_occ (nd_collision n) = pa_occupied_threshold p /\ exists ec0 t, l = loop_init ec0 t.
Proof.
  unfold start. destruct (gaussians_of _) as [t| | |]; cbn [bind]; try discriminate. destruct (collision_ctor _ _ _ _) as [cc| | |] eqn:C; cbn [bind]; try discriminate.
  destruct (ec_ctor _ _ _ _ _ _ _ _ _ _ _) as [ec0| | |]; cbn [bind]; try discriminate. destruct (dwa_ctor _ _ _ _ _ _ _ _ _ _ _ _ _ _ _ _) as [dd| | |]; cbn [bind]; try discriminate.
  destruct (nlt _ _); [discriminate|]. intros H. injection H as <- <-. cbn [nd_collision]. split; [|eauto].
  unfold collision_ctor in C. destruct (nlt _ _); [discriminate|]. destruct (_ || _)%bool; [discriminate|]. injection C as <-. reflexivity.
Qed.
Lemma node_threshold om (p : params T) n l : (if om : bool then omni_node p else cart_node p) = Ok (Some (n, l)) ->
  c_occ (nd_collision n) = pa_occupied_threshold p /\ exists ec0 t, l = loop_init ec0 t.
Proof.
  destruct om; unfold omni_node, cart_node; destruct (weight_at p 0); cbn [bind]; try discriminate; destruct (weight_at p 1); cbn [bind]; try discriminate.
  - destruct (weight_at p 2); cbn [bind]; try discriminate. apply start_threshold.
  - apply start_threshold.
Qed.
Lemma c88_node (om : bool) (p : params T) n l0 evs s l : (if om then omni_node p else cart_node p) = Ok (Some (n, l0)) ->
  exec n shared_init l0 evs s l -> open_maps (pa_occupied_threshold p) (messages evs) ->
  forall e, In e evs -> ~ took_over e /\ forall u, In (Cmd u) (ev_out e) -> planned e /\ nth_error (held e) 0 = Some u.
Proof. intros H X O. apply node_threshold in H. destruct H as (Q & ec0 & t & ->). rewrite <- Q in O. eapply c88_open; eauto. Qed.
End Any.

Lemma c88_percent (L : libm) (om : bool) (p : params b64) n l0 evs s l :
  (if om then @omni_node b64 (F64 L) p else @cart_node b64 (F64 L) p) = Ok (Some (n, l0)) ->
  @nlt b64 (F64 L) (@ndiv b64 (F64 L) (@nofZ b64 (F64 L) 127) (@nofZ b64 (F64 L) 100)) (pa_occupied_threshold p) = true ->
  @exec b64 (F64 L) n (@shared_init b64 (F64 L)) l0 evs s l -> byte_maps (messages evs) ->
  forall e, In e evs -> ~ took_over e /\ forall u, In (Cmd u) (ev_out e) -> planned e /\ nth_error (held e) 0 = Some u.
Proof.
  intros H Ht X B. eapply (@c88_node b64 (F64 L)); [exact H|exact X|]. intros m I v Hv. specialize (B m I). rewrite Forall_forall in B. specialize (B v Hv). unfold is_byte in B.
  destruct (Z.eq_dec v 127) as [->|N]; [exact Ht|].
  pose proof (cell_val_b64_strict L v 127 ltac:(lia) ltac:(lia)) as S. destruct (Z.ltb_spec v 127); [|lia].
  cbn [nlt F64] in *. eapply Bltb_trans; [exact S|exact Ht].
Qed.
